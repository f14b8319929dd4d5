(** A shallow ray meets the helicoid inside the window. *)
From Coq Require Import Reals Lra ZArith List Bool.
From Verif Require Import Num XR FL Spec M_Vec M_Matrix M_Rng M_Iter M_Hittable M_Surfaces Spec_Iter Spec_Solver Spec_Scene Spec_Shapes Spec_Surfaces Spec_Matrix
  P_Torus P_Rng P_Bisect P_Quadratic P_NewtonND P_Helicoid P_Condition P_Bounded.
Import ListNotations.
Local Open Scope R_scope.

Section Shallow.
Context {L : limits}.
Notation X := (XR L).
Notation eps := (l_eps L).
Variables (s : helicoid R) (o d : vec3 R).
Hypothesis Hok : helicoid_ok s.
Notation k := (2 * PI / he_speed s).
Notation z := (fun t => vz o + t * vz d).
Definition sys_V (w : list R) : list R := let t := nth 0 w 0 in let v := nth 1 w 0 in
  [vx o + t * vx d + v * (he_radius s * cos (k * z t)); vy o + t * vy d + v * (he_radius s * sin (k * z t))].
Definition sys_J (w : list R) : list (list R) := let t := nth 0 w 0 in let v := nth 1 w 0 in
  [[vx d - k * vz d * (v * (he_radius s * sin (k * z t))); he_radius s * cos (k * z t)];
   [vy d + k * vz d * (v * (he_radius s * cos (k * z t))); he_radius s * sin (k * z t)]].
Notation f := (helicoid_system (F:=X) (finhelicoid s) (fin3 o) (fin3 d)).
Lemma sys_fin : forall t v, f [Fin t; Fin v] = (map Fin (sys_V [t; v]), map (map Fin) (sys_J [t; v])).
Proof.
  intros t v. unfold helicoid_system. cbn [finhelicoid he_radius he_speed fin3 map3 vx vy vz nth]. change (@num X) with xr in *. destruct Hok.
  cbn [nmul nadd nsub ndiv ncos nsin npi nofZ XR xmul xadd xsub]. rewrite xdiv_fin by lra. cbn [xmul xadd xsub xlift]. reflexivity.
Qed.
Lemma sys_nan : forall a b, a = NaN \/ b = NaN -> all_nan (fst (f [a; b])).
Proof.
  intros a b H. unfold helicoid_system. cbn [finhelicoid he_radius he_speed fin3 map3 vx vy vz nth fst]. change (@num X) with xr in *. destruct Hok.
  cbn [nmul nadd nsub ndiv ncos nsin npi nofZ XR xmul xadd xsub]. rewrite xdiv_fin by lra. 
  assert (N1 : forall x, xmul NaN x = NaN) by (intros [?| | |]; reflexivity). assert (N2 : forall x, xadd x NaN = NaN) by (intros [?| | |]; reflexivity).
  assert (N3 : forall x, xadd NaN x = NaN) by (intros [?| | |]; reflexivity).
  destruct H as [->| ->]; rewrite !N1, !N2, ?N3; repeat constructor.
Qed.

Definition out2 (t : R) : R := (vx o + t * vx d) * (vx o + t * vx d) + (vy o + t * vy d) * (vy o + t * vy d).
Hypothesis Ha : l_min L < vx d ^ 2 + vy d ^ 2.
Definition vat (t : R) : R := sqrt (out2 t) / he_radius s.
Lemma vat_pos : forall t, 0 <= vat t.
Proof. intros t. destruct Hok. apply Rmult_le_pos; [apply sqrt_pos|apply Rlt_le, Rinv_0_lt_compat; lra]. Qed.
Lemma out2_pos : forall t, 0 <= out2 t.
Proof. intros t. apply Rplus_le_le_0_compat; apply Rle_0_sqr. Qed.
Lemma vat_le : forall t t', out2 t <= out2 t' -> vat t <= vat t'.
Proof. intros t t' H. destruct Hok. apply Rmult_le_compat_r; [apply Rlt_le, Rinv_0_lt_compat; lra|]. apply sqrt_le_1; auto using out2_pos. Qed.
Lemma vat_one : forall t, out2 t <= he_radius s * he_radius s -> vat t <= 1.
Proof.
  intros t H. destruct Hok. unfold vat. apply Rmult_le_reg_r with (he_radius s); [lra|]. unfold Rdiv. rewrite Rmult_assoc, Rinv_l, Rmult_1_l, Rmult_1_r by lra.
  rewrite <- (sqrt_square (he_radius s)) by lra. apply sqrt_le_1; auto using out2_pos. nra.
Qed.
(* the point nearest to the axis *)
Lemma out2_tc : forall t, out2 (- (vx o * vx d + vy o * vy d) / (vx d * vx d + vy d * vy d)) <= out2 t.
Proof.
  intros t. pose proof (l_min_pos L). assert (A : 0 < vx d * vx d + vy d * vy d) by nra. set (tc := - _ / _).
  assert (E : tc * (vx d * vx d + vy d * vy d) = - (vx o * vx d + vy o * vy d)) by (unfold tc; field; lra).
  assert (K : out2 t - out2 tc = (vx d * vx d + vy d * vy d) * (t - tc) * (t - tc)).
  { transitivity ((vx d * vx d + vy d * vy d) * (t - tc) * (t - tc) + 2 * (t - tc) * (tc * (vx d * vx d + vy d * vy d) + (vx o * vx d + vy o * vy d))); [unfold out2; ring|rewrite E; ring]. }
  assert (0 <= (vx d * vx d + vy d * vy d) * (t - tc) * (t - tc)) by (rewrite Rmult_assoc; apply Rmult_le_pos; [lra|apply Rle_0_sqr]). lra.
Qed.
Lemma vbounds_cases : forall lo hi, out2 lo <= he_radius s * he_radius s -> out2 hi <= he_radius s * he_radius s ->
  helicoid_vbounds (F:=X) (finhelicoid s) (fin3 o) (fin3 d) (Fin lo) (Fin hi) = (NaN, NaN) \/
  exists a b, helicoid_vbounds (F:=X) (finhelicoid s) (fin3 o) (fin3 d) (Fin lo) (Fin hi) = (Fin a, Fin b) /\ 0 <= a <= b /\ b <= 1.
Proof.
  intros lo hi H0 H1. unfold helicoid_vbounds. cbn [finhelicoid he_radius he_speed fin3 map3 vx vy vz].
  match goal with |- context [if ?c then _ else _] => destruct c end; [right; exists 0, 1; split; [reflexivity|lra]|].
  pose proof (l_min_pos L) as Lm. destruct Hok as [Hr Hs].
  assert (Dv : forall a b, b <> 0 -> ndiv (NumOps:=X) (Fin a) (Fin b) = Fin (a / b)) by (intros; cbn [ndiv XR]; apply xdiv_fin; assumption).
  cbn [nmul nadd nsub nneg XR xmul xadd xsub xneg]. change (@num X) with xr in *. rewrite Dv by nra.
  set (tc := - (vx o * vx d + vy o * vy d) / (vx d * vx d + vy d * vy d)).
  assert (Va : forall t, xdiv (xsqrt (Fin ((vx o + t * vx d) * (vx o + t * vx d) + (vy o + t * vy d) * (vy o + t * vy d)))) (Fin (he_radius s)) = Fin (vat t)).
  { intros t. rewrite xsqrt_fin by (apply out2_pos). rewrite xdiv_fin by lra. reflexivity. }
  cbv zeta. cbn [nsqrt ndiv XR xmul xadd]. rewrite !Va.
  match goal with |- context [if ?c then (nnan, nnan) else _] => destruct c end; [left; reflexivity|right].
  pose proof (vat_pos tc). pose proof (vat_le tc lo (out2_tc lo)). pose proof (vat_le tc hi (out2_tc hi)). pose proof (vat_one lo H0). pose proof (vat_one hi H1).
  cbn [nltb XR xltb]. destruct (Rltb_spec (vat lo) (vat hi)); do 2 eexists; (split; [reflexivity|lra]).
Qed.

(** the general case *)
Hypothesis Heps : eps <= / 1000.
Hypothesis Hsh : 2 * PI * he_radius s * Rabs (vz d) / he_speed s + eps * eps < Rabs (vy d).
Lemma pivot : forall t v, 0 <= v <= 1 -> eps * eps < Rabs (vy d + k * vz d * (v * (he_radius s * cos (k * z t)))).
Proof.
  intros t v Hv. destruct Hok as [Hr Hs]. pose proof PI_RGT_0 as Pp. set (c := cos _).
  assert (C : Rabs c <= 1) by (apply Rabs_le; pose proof (COS_bound (k * z t)) as [A B]; fold c in A, B; lra).
  assert (K : Rabs (k * vz d * (v * (he_radius s * c))) <= 2 * PI * he_radius s * Rabs (vz d) / he_speed s).
  { replace (k * vz d * (v * (he_radius s * c))) with ((2 * PI * he_radius s / he_speed s * vz d) * (v * c)) by (field; lra).
    rewrite Rabs_mult. replace (2 * PI * he_radius s * Rabs (vz d) / he_speed s) with (Rabs (2 * PI * he_radius s / he_speed s * vz d) * 1).
    - apply Rmult_le_compat_l; [apply Rabs_pos|]. rewrite Rabs_mult, (Rabs_pos_eq v) by lra. pose proof (Rabs_pos c). nra.
    - rewrite Rabs_mult, (Rabs_pos_eq (2 * PI * he_radius s / he_speed s)); [field; lra|].
      apply Rmult_le_pos; [|apply Rlt_le, Rinv_0_lt_compat; lra]. apply Rmult_le_pos; lra. }
  pose proof (Rabs_triang (vy d + k * vz d * (v * (he_radius s * c))) (- (k * vz d * (v * (he_radius s * c))))) as T. rewrite Rabs_Ropp in T.
  replace (vy d + k * vz d * (v * (he_radius s * c)) + - (k * vz d * (v * (he_radius s * c)))) with (vy d) in T by ring. lra.
Qed.
Lemma general_window : forall lo hi t u v, lo <= hi -> out2 lo <= he_radius s * he_radius s -> out2 hi <= he_radius s * he_radius s ->
  helicoid_general (F:=X) (finhelicoid s) (fin3 o) (fin3 d) (Fin lo) (Fin hi) = Ok (Fin t, u, v) -> lo <= t <= hi.
Proof.
  intros lo hi t u v Le H0 H1 H. unfold helicoid_general in H.
  destruct (vbounds_cases lo hi H0 H1) as [E|(a & b & E & Hab & Hb)]; change (@num X) with xr in *; rewrite E in H; unfold make_bounds in H.
  - match type of H with obind ?e _ = _ => destruct e as [[[r g] c]| |] eqn:N end; cbn [obind fst] in H; try discriminate.
    apply newton_lost in N; [|apply helicoid_plane|exact sys_nan|right; reflexivity].
    exfalso. destruct r as [|x r]; [discriminate H|]. inversion N; subst. discriminate H.
  - match type of H with obind ?e _ = _ => destruct e as [[[r g] c]| |] eqn:N end; cbn [obind fst] in H; try discriminate.
    match type of N with newton_nd _ _ [_; ?x] _ = _ => replace x with (Fin (b * (1 - 1000 * eps))) in N by reflexivity end.
    pose proof (l_eps_pos L) as Ep. assert (S1 : 0 <= b * (1 - 1000 * eps) <= b) by (split; [apply Rmult_le_pos; lra|nra]).
    eapply (newton_keeps (helicoid_system (F:=X) (finhelicoid s) (fin3 o) (fin3 d)) sys_V sys_J (Fin lo, Fin hi) (Fin a, Fin b)) in N;
      [|exact sys_fin|apply helicoid_plane|exact sys_nan|exists lo, hi; auto|exists a, b; split; [reflexivity|lra]|].
    + destruct N as [A|(x0 & x1 & -> & [B0 B1] & _)].
      * exfalso. destruct r as [|x r]; [discriminate H|]. inversion A; subst. discriminate H.
      * cbn [nth] in H. apply Ok_inj in H. injection H as <- _ _. cbn in B0, B1. lra.
    + intros x0 x1 _ [C0 C1] p q r1 t1 E1. injection E1 as _ _ <- _. right. apply pivot. cbn in C0, C1. lra.
Qed.
End Shallow.

Section Hit.
Context {L : limits}.
Notation X := (XR L).
Lemma window_exact : forall s o d (lo hi lo' hi' : xr), l_min L < vx d ^ 2 + vy d ^ 2 -> off_threshold (l_min L) (2 * (vx o * vx d + vy o * vy d)) ->
  helicoid_window (F:=X) (finhelicoid s) (finray (Ray o d)) lo hi = Some (lo', hi') ->
  exists x0 x1, x0 <= x1 /\ xltb (Fin x1) lo = false /\ lo' = std_max (F:=X) lo (Fin x0) /\ hi' = std_min (F:=X) hi (Fin x1) /\
    forall t, out2 o d t - he_radius s * he_radius s = (vx d * vx d + vy d * vy d) * (t - x0) * (t - x1).
Proof.
  intros s o d lo hi lo' hi' Ha Hb H.
  unfold helicoid_window in H. cbn [finray fin3 map3 r_orig r_dir vx vy vz finhelicoid he_radius he_speed] in H. xred.
  rewrite Rltb_true in H by nra. pose proof (l_min_pos L) as Lm.
  assert (A : 0 < vx d * vx d + vy d * vy d) by nra.
  destruct (quadratic_roots_correct L (vx d * vx d + vy d * vy d) (2 * (vx o * vx d + vy o * vy d)) (vx o * vx o + vy o * vy o - he_radius s * he_radius s)) as [[Q _]|(x0 & x1 & Q & Le & Fa & _)].
  - right. rewrite Rabs_pos_eq; nra.
  - exact Hb.
  - lra.
  - rewrite Q in H. discriminate.
  - rewrite Q in H. exists x0, x1. split; [exact Le|].
    match type of H with (if ?c then _ else _) = _ => destruct c eqn:C end; [discriminate|].
    repeat match type of H with (if ?c then _ else _) = _ => destruct c; try discriminate end.
    injection H as <- <-. repeat split; auto. intros t. rewrite <- Fa by lra. unfold quadR, out2. ring.
Qed.

Theorem helicoid_shallow : forall (s : helicoid R) (r : ray R) (lo hi : xr) (rec rec' : hit_record xr),
  helicoid_ok s -> l_eps L <= / 1000 -> let o := r_orig r in let d := r_dir r in
  l_min L < vx d ^ 2 + vy d ^ 2 -> off_threshold (l_min L) (2 * (vx o * vx d + vy o * vy d)) ->
  2 * PI * he_radius s * Rabs (vz d) / he_speed s + l_eps L * l_eps L < Rabs (vy d) ->
  helicoid_hit (F:=X) (finhelicoid s) (finray r) lo hi rec = Ok (true, rec') ->
  exists t, h_t rec' = Fin t /\
    (in_window lo hi t \/ forall t', in_window lo hi t' -> he_radius s ^ 2 < vx (pointR r t') ^ 2 + vy (pointR r t') ^ 2).
Proof.
  intros s [o d] lo hi rec rec' Hok He o' d' Ha Hb Hs H. subst o' d'. cbn [r_orig r_dir] in *.
  assert (Hd : direction_ok (l_min L) d) by (left; exact Ha).
  destruct (hit_outcome s (Ray o d) lo hi rec Hok Hd) as [(r0 & K)|(lo' & hi' & t & u & v & W & T & K1 & K2)]; [rewrite H in K; discriminate|].
  cbn [r_orig r_dir] in *. cbv zeta in K1, K2.
  destruct (Rle_lt_dec (Rabs (dotR (crossR (helicoid_su s u v) (helicoid_sv s u v)) d)) (l_min L)) as [D|D]; [rewrite (K1 D) in H; discriminate|].
  destruct (K2 D) as (b & r0 & M & big & K & Et & _). rewrite H in K. injection K as <- <-. clear K1 K2.
  exists t. split; [exact Et|].
  destruct (helicoid_tuv_spec s o d lo hi lo' hi' _ _ _ Hok Hd W T) as [K|(t2 & u2 & v2 & E2 & _ & _ & _ & _ & Wz)]; [discriminate|]. injection E2 as <-.
  destruct (Rle_lt_dec (Rabs (vz d)) (l_min L)) as [Z|Z]; [left; exact (Wz Z)|].
  unfold helicoid_tuv in T. cbn [fin3 map3 vx vy vz nabs nleb nmul nadd nmin XR xabs xleb xmul xadd] in T. rewrite Rleb_false in T by exact Z.
  rewrite Rleb_false in T by nra.
  destruct (window_exact s o d lo hi lo' hi' Ha Hb W) as (x0 & x1 & Le & Lt & -> & -> & Fa).
  pose proof (l_min_pos L) as Lm. assert (A : 0 < vx d * vx d + vy d * vy d) by nra.
  assert (In : forall t, x0 <= t <= x1 -> out2 o d t <= he_radius s * he_radius s).
  { intros t' Ht. specialize (Fa t'). assert (0 <= (vx d * vx d + vy d * vy d) * ((t' - x0) * (x1 - t'))) by (apply Rmult_le_pos; [lra|apply Rmult_le_pos; lra]). lra. }
  assert (Out : forall t, t < x0 \/ x1 < t -> he_radius s * he_radius s < out2 o d t).
  { intros t' Ht. specialize (Fa t'). assert (0 < (vx d * vx d + vy d * vy d) * ((t' - x0) * (t' - x1))) by (apply Rmult_lt_0_compat; [lra|nra]). lra. }
  assert (P : forall t', vx (pointR (Ray o d) t') ^ 2 + vy (pointR (Ray o d) t') ^ 2 = out2 o d t') by (intros; unfold pointR, out2; cbn; ring).
  assert (Use : forall a b, x0 <= a <= x1 -> b <= x1 -> (forall t', in_window lo hi t' -> a <= x0 \/ a <= t') -> (forall t', in_window lo hi t' -> t' <= b \/ x1 <= b) ->
     std_max (F:=X) lo (Fin x0) = Fin a -> std_min (F:=X) hi (Fin x1) = Fin b -> (a <= b -> forall t, a <= t <= b -> in_window lo hi t) ->
     in_window lo hi t \/ forall t', in_window lo hi t' -> he_radius s ^ 2 < vx (pointR (Ray o d) t') ^ 2 + vy (pointR (Ray o d) t') ^ 2).
  { intros a b Ia Ib La Lb Ea Eb Wi. change (@num X) with xr in *. rewrite Ea, Eb in T. destruct (Rle_lt_dec a b) as [Ab|Ab].
    - left. apply Wi; [exact Ab|]. eapply general_window; [exact Hok|exact Ha|exact He|exact Hs|exact Ab|apply In; lra|apply In; lra|exact T].
    - right. intros t' Wt. rewrite P. replace (he_radius s ^ 2) with (he_radius s * he_radius s) by ring. apply Out. left.
      destruct (La t' Wt), (Lb t' Wt); lra. }
  unfold std_max, std_min in *. cbn [nltb XR] in *.
  destruct lo as [lo| | |]; destruct hi as [hi| | |]; try (right; intros t' [W1 W2]; destruct W1; fail); try (right; intros t' [W1 W2]; destruct W2; fail);
    cbn [xltb] in *; unfold in_window in *; cbn [at_least at_most] in *.
  - destruct (Rltb_spec x1 lo); [discriminate|]. destruct (Rltb_spec lo x0), (Rltb_spec x1 hi).
    + apply (Use x0 x1); try reflexivity; intros; try lra.
    + apply (Use x0 hi); try reflexivity; intros; try lra.
    + apply (Use lo x1); try reflexivity; intros; try lra.
    + apply (Use lo hi); try reflexivity; intros; try lra.
  - destruct (Rltb_spec x1 lo); [discriminate|]. destruct (Rltb_spec lo x0).
    + apply (Use x0 x1); try reflexivity; intros; try lra.
    + apply (Use lo x1); try reflexivity; intros; try lra.
  - destruct (Rltb_spec x1 hi).
    + apply (Use x0 x1); try reflexivity; intros; try lra.
    + apply (Use x0 hi); try reflexivity; intros; try lra.
  - apply (Use x0 x1); try reflexivity; intros; try lra.
Qed.
End Hit.
