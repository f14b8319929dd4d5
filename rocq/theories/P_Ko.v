(** The curvature-based ray/surface iteration of ko_method.hpp. *)
From Coq Require Import Reals Lra Lia ZArith List Bool.
From Verif Require Import Num XR Spec Spec_Iter M_Vec M_Matrix M_Roots M_Rng M_Iter P_Vec P_Matrix.
Import ListNotations.
Local Open Scope R_scope.

Lemma quadratic_roots_count : forall (F : NumOps) (a b c : @num F),
  quadratic_roots a b c = [] \/ exists r0 r1, quadratic_roots a b c = [r0; r1].
Proof.
  intros F a b c; unfold quadratic_roots.
  repeat match goal with |- context [if ?b then _ else _] => destruct b end; eauto.
Qed.

Definition finite (x : xr) : Prop := exists r, x = Fin r.

Lemma finite_dec : forall x, finite x \/ ~ finite x.
Proof.
  intros [r| | |]; [left; now exists r| | |]; right; intros [r H]; discriminate.
Qed.

Section Ko.
Variable L : limits.
Local Notation eps := (l_eps L).

Lemma dop_not_finite : forall a b c d : xr, ~ finite c ->
  difference_of_products (F:=XR L) a b c d = NaN.
Proof.
  intros a b c d Hc. unfold difference_of_products. cbn [nadd nmul nneg nfma XR].
  assert (E : xfma (xneg c) d (xmul c d) = NaN).
  { unfold xfma. destruct c as [r| | |]; [exfalso; apply Hc; now exists r| | |]; destruct d as [q| | |]; cbn; try reflexivity;
      unfold xscale_inf; destruct (Rlt_dec 0 q); [reflexivity| |reflexivity|]; destruct (Rlt_dec q 0); reflexivity. }
  rewrite E. apply xadd_nan_r.
Qed.

Lemma xsub_finite : forall x r, finite (xsub x (Fin r)) -> finite x.
Proof. intros [q| | |] r [z H]; cbn in H; try discriminate. now exists q. Qed.
Lemma xadd_finite : forall x y, finite (xadd x y) -> finite x /\ finite y.
Proof. intros [p| | |] [q| | |] [z H]; cbn in H; try discriminate. split; eexists; reflexivity. Qed.
Lemma xmul_finite : forall x y, finite (xmul x y) -> finite x /\ finite y.
Proof.
  intros [p| | |] [q| | |] [z H]; cbn in H; try discriminate; try (split; eexists; reflexivity);
    exfalso; revert H; unfold xscale_inf; repeat destruct Rlt_dec; discriminate.
Qed.
Lemma dot_finite : forall u v : vec3 xr, finite (dot (F:=XR L) u v) ->
  exists p q, u = fin3 p /\ v = fin3 q.
Proof.
  intros [a b c] [a' b' c']; unfold dot; cbn [vx vy vz nadd nmul XR]. intros H.
  apply xadd_finite in H as [H H3]. apply xadd_finite in H as [H H2]. apply xadd_finite in H as [_ H1].
  apply xmul_finite in H1 as [[? ->] [? ->]]. apply xmul_finite in H2 as [[? ->] [? ->]].
  apply xmul_finite in H3 as [[? ->] [? ->]].
  eexists (V3 _ _ _), (V3 _ _ _); split; reflexivity.
Qed.

(** A point that passes the convergence test is a real point. *)
Lemma on_line_finite : forall (P : vec3 xr) (o d : vec3 R) (z : R),
  xltb (squared_norm (F:=XR L) (cross (F:=XR L) (vsub (F:=XR L) P (fin3 o)) (fin3 d))) (Fin z) = true ->
  exists p, P = fin3 p.
Proof.
  intros [x y w] [ox oy oz] [dx dy dz] z H.
  unfold squared_norm, cross, vsub, fin3, map3 in H; cbn [vx vy vz nadd nmul nsub XR] in H.
  destruct (finite_dec (xsub x (Fin ox))) as [Hx|Hx].
  2:{ rewrite (dop_not_finite (xsub w (Fin oz)) (Fin dx) (xsub x (Fin ox)) (Fin dz)) in H by assumption.
      cbn [xmul] in H. rewrite !xadd_nan_r in H. discriminate H. }
  destruct (finite_dec (xsub y (Fin oy))) as [Hy|Hy].
  2:{ rewrite (dop_not_finite (xsub x (Fin ox)) (Fin dy) (xsub y (Fin oy)) (Fin dx)) in H by assumption.
      cbn [xmul] in H. rewrite !xadd_nan_r in H. discriminate H. }
  destruct (finite_dec (xsub w (Fin oz))) as [Hw|Hw].
  2:{ rewrite (dop_not_finite (xsub y (Fin oy)) (Fin dz) (xsub w (Fin oz)) (Fin dy)) in H by assumption.
      cbn [xmul] in H. rewrite !xadd_nan_r in H. discriminate H. }
  apply xsub_finite in Hx as [p ->]. apply xsub_finite in Hy as [q ->]. apply xsub_finite in Hw as [r ->].
  now exists (V3 p q r).
Qed.

(** Distance from p to the point of the line o + R d nearest to it. *)
Lemma line_distance : forall o d p : vec3 R, d <> zeroR ->
  let t := dotR (subR p o) d / dotR d d in
  normsqR (subR (addR o (scaleR t d)) p) * normsqR d = normsqR (crossR (subR p o) d).
Proof.
  intros o d p Hd t. pose proof (normsqR_pos d Hd) as Hp.
  assert (E : t * normsqR d = dotR (subR p o) d).
  { unfold t. change (dotR d d) with (normsqR d). field. lra. }
  clearbody t. revert E Hp. destruct o as [ox oy oz], d as [dx dy dz], p as [px py pz].
  unfold normsqR, dotR, subR, addR, scaleR, crossR; cbn [vx vy vz]. intros E Hp.
  set (N := dx * dx + dy * dy + dz * dz) in *.
  set (a := px - ox) in *. set (b := py - oy) in *. set (c := pz - oz) in *.
  replace (ox + t * dx - px) with (t * dx - a) by (unfold a; ring).
  replace (oy + t * dy - py) with (t * dy - b) by (unfold b; ring).
  replace (oz + t * dz - pz) with (t * dz - c) by (unfold c; ring).
  transitivity (t * N * (t * N) - 2 * (t * N) * (a * dx + b * dy + c * dz) + (a * a + b * b + c * c) * N).
  { unfold N; ring. }
  rewrite E. unfold N; ring.
Qed.

Variable h : @surface (XR L).
Variables o d : vec3 R.
Hypothesis Hd : d <> zeroR.
Variables b0 b1 b2 : xr * xr.
Hypothesis Hb : proper_ends b2.
Hypothesis Hmin : l_min L < eps * eps.

Definition point_of (u v : xr) : vec3 xr := fst (fst (h u v)).

Lemma window_within : forall t, xltb (Fin t) (fst b2) || xltb (snd b2) (Fin t) = false -> within [b2] [t].
Proof.
  intros t H. apply orb_false_elim in H as [H1 H2]. constructor; [|constructor].
  destruct b2 as [l u]; cbn in *.
  destruct l as [l| | |]; destruct u as [u| | |]; cbn in *; try contradiction; try discriminate;
    split; try exact I;
    repeat match goal with H : Rltb ?a ?b = false |- _ => 
      unfold Rltb in H; destruct (Rlt_dec a b); [discriminate|clear H] end; lra.
Qed.

Lemma inverse_defined : forall su sv : vec3 xr,
  nltb (NumOps:=XR L) (squared_norm (F:=XR L) (cross (F:=XR L) su sv)) (Fin (eps * eps)) = false ->
  exists I, inverse2_value (F:=XR L)
    (M2 (dot (F:=XR L) su su) (dot (F:=XR L) su sv) (dot (F:=XR L) su sv) (dot (F:=XR L) sv sv)) = Ok I.
Proof.
  intros su sv H. unfold inverse2_value, inverse2, determinant2. cbn [a00 a01 a10 a11].
  destruct (finite_dec (dot (F:=XR L) su sv)) as [Hf|Hf].
  - destruct (dot_finite su sv Hf) as (p & q & -> & ->).
    rewrite cross_fin, squared_norm_fin in H. rewrite !dot_fin, dop_fin.
    cbn [nltb XR xltb] in H. unfold Rltb in H. destruct (Rlt_dec _ _) as [|H']; [discriminate|].
    assert (E : dotR p p * dotR q q - dotR p q * dotR p q = normsqR (crossR p q)).
    { destruct p as [p1 p2 p3], q as [q1 q2 q3]; unfold normsqR, dotR, crossR; cbn [vx vy vz]; ring. }
    rewrite E. cbn [nabs nleb nmin XR xabs xleb].
    rewrite Rleb_false; [eexists; reflexivity|]. rewrite Rabs_pos_eq by apply normsqR_nonneg. lra.
  - rewrite dop_not_finite by assumption. cbn [nabs nleb nmin XR xabs xleb]. eexists; reflexivity.
Qed.

Lemma ko_body_spec : forall s, exists x, ko_body (F:=XR L) h (Ray (fin3 o) (fin3 d)) b0 b1 b2 s = Ok x /\
  match x with
  | Return a => a = vnans (F:=XR L) \/ exists u v t, a = V3 u v t /\ ko_solution eps point_of o d b2 u v t
  | Go _ => True
  end.
Proof.
  intros s. unfold ko_body. cbn [r_orig r_dir].
  destruct (h (ks_u s) (ks_v s)) as [[P [su sv]] [[H00 H01] H11]] eqn:Eh.
  match goal with |- context [if ?c then _ else _] => destruct c eqn:C end.
  - destruct (on_line_finite P o d (4 * eps * eps)) as [p ->]; [exact C|].
    rewrite vsub_fin in *. rewrite cross_fin, squared_norm_fin in C.
    rewrite !dot_fin. pose proof (normsqR_pos d Hd) as Hp.
    assert (Ediv : ndiv (NumOps:=XR L) (Fin (dotR (subR p o) d)) (Fin (dotR d d)) = Fin (dotR (subR p o) d / dotR d d)).
    { cbn [ndiv XR]; apply xdiv_fin. change (normsqR d <> 0); lra. }
    rewrite Ediv.
    match goal with |- context [if ?c then _ else _] => destruct c eqn:W end.
    + eexists; split; [reflexivity|left; reflexivity].
    + eexists; split; [reflexivity|right]. eexists _, _, _; split; [reflexivity|].
      exists (dotR (subR p o) d / dotR d d), p. split; [reflexivity|].
      split; [apply window_within; exact W|].
      split; [unfold point_of; rewrite Eh; reflexivity|].
      change (xltb (Fin (normsqR (crossR (subR p o) d))) (Fin (4 * eps * eps)) = true) in C.
      cbn [xltb] in C. apply Rltb_iff in C.
      rewrite <- (line_distance o d p Hd) in C. cbv zeta in C.
      rewrite <- !normR_sq in C.
      set (x := normR _) in *. pose proof (normR_nonneg d). set (y := normR d) in *.
      assert (0 <= x) by apply normR_nonneg. pose proof (l_eps_pos L).
      apply Rnot_le_lt; intros K. assert (2 * eps * (2 * eps) <= (x * y) * (x * y)) by (apply Rmult_le_compat; nra). nra.
  - match goal with |- context [if ?c then _ else _] => destruct c eqn:S end.
    { eexists; split; [reflexivity|left; reflexivity]. }
    match goal with |- context [if ?c then _ else _] => destruct c end.
    { eexists; split; [reflexivity|left; reflexivity]. }
    destruct (inverse_defined su sv S) as [I ->]. cbn [obind].
    match goal with |- context [if ?c then _ else _] => destruct c end.
    { eexists; split; [reflexivity|exact Logic.I]. }
    match goal with |- context [if ?c then _ else _] => destruct c end.
    { eexists; split; [reflexivity|left; reflexivity]. }
    assert (K : forall s', match ko_restart (F:=XR L) [b0; b1; b2] s' with
      | Return a => a = vnans (F:=XR L) \/ exists u v t, a = V3 u v t /\ ko_solution eps point_of o d b2 u v t
      | Go _ => True end).
    { intros s'. unfold ko_restart. destruct (Nat.ltb 20 (ks_rand s')); [left; reflexivity|].
      match goal with |- context [@random_point ?F ?e ?g] => destruct (@random_point F e g) end. exact Logic.I. }
    match goal with |- context [@quadratic_roots ?F ?a ?b ?c] =>
      destruct (quadratic_roots_count F a b c) as [Q|(r0 & r1 & Q)]; rewrite Q end.
    + eexists; split; [reflexivity|]. apply K.
    + match goal with |- context [if ?c then Ok (ko_restart _ _) else _] => destruct c end.
      * eexists; split; [reflexivity|]. apply K.
      * eexists; split; [reflexivity|exact Logic.I].
Qed.

Lemma ko_loop_spec : forall n s k, exists a k', ko_loop (F:=XR L) h (Ray (fin3 o) (fin3 d)) b0 b1 b2 n s k = Ok (a, k') /\
  (k' <= k + S n)%nat /\
  (a = vnans (F:=XR L) \/ exists u v t, a = V3 u v t /\ ko_solution eps point_of o d b2 u v t).
Proof.
  induction n as [|n IH]; intros s k; cbn [ko_loop];
    destruct (ko_body_spec s) as (x & -> & Hx); cbn [obind]; destruct x as [a|s'].
  - exists a, (S k); repeat split; [lia|exact Hx].
  - exists (vnans (F:=XR L)), (S k); repeat split; [lia|left; reflexivity].
  - exists a, (S k); repeat split; [lia|exact Hx].
  - destruct (IH s' (S k)) as (a & k' & -> & ? & ?). exists a, k'; repeat split; [lia|assumption].
Qed.

Lemma ko_method_spec : forall rng u0 v0, exists a k,
  ko_method (F:=XR L) h (Ray (fin3 o) (fin3 d)) b0 b1 b2 rng u0 v0 = Ok (a, k) /\ (k <= 50)%nat /\
  (a = vnans (F:=XR L) \/ exists u v t, a = V3 u v t /\ ko_solution eps point_of o d b2 u v t).
Proof.
  intros rng u0 v0. unfold ko_method. cbv zeta.
  match goal with |- context [ko_loop h ?r ?a ?b ?c 49 ?s 0] => destruct (ko_loop_spec 49 s 0) as (x & k & E & Hk & Hx) end.
  exists x, k. rewrite E. repeat split; [lia|exact Hx].
Qed.
End Ko.
