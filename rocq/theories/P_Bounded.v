(** newton in the plane keeps to its box. *)
From Coq Require Import Reals Lra ZArith List Bool.
From Verif Require Import Num XR FL Spec M_Vec M_Matrix M_Rng M_Iter Spec_Iter Spec_Solver
  P_Torus P_Rng P_Bisect P_NewtonND P_Condition.
Import ListNotations.
Local Open Scope R_scope.

Section Bounded.
Context {L : limits}.
Notation X := (XR L).
Notation eps := (l_eps L).

(** *** one coordinate *)
Lemma between_convex : forall e s x y m, between e s x -> between e s y -> 0 <= m <= 1 -> between e s (x + m * (y - x)).
Proof.
  intros [lo hi] s x y m [A B] [C D] M. unfold between in *. cbn [fst snd] in *.
  assert (E : x <= x + m * (y - x) <= y \/ y <= x + m * (y - x) <= x) by (destruct (Rle_dec x y); [left|right]; nra).
  set (z := x + m * (y - x)) in *. clearbody z.
  destruct lo, hi; cbn [at_least at_most] in *; split; intuition lra.
Qed.
Lemma box_between : forall e s x, at_least (fst e) x -> at_most (snd e) x -> between e s x.
Proof. intros e s x A B. split; left; assumption. Qed.

Definition shrink (e : xr * xr) (n x d l : xr) : xr :=
  let l := if xltb n (fst e) then std_min (F:=X) (xdiv (xsub (fst e) x) d) l else l in
  if xltb (snd e) n then std_min (F:=X) (xdiv (xsub (snd e) x) d) l else l.
Lemma lambda_eq : forall e0 e1 n0 n1 x0 x1 d0 d1 l,
  lambda_max (F:=X) [e0; e1] [n0; n1] [x0; x1] [d0; d1] l = shrink e1 n1 x1 d1 (shrink e0 n0 x0 d0 l).
Proof. intros [l0 h0] [l1 h1]. reflexivity. Qed.

Lemma shrink_minf : forall e s x d, proper_ends e -> between e s x -> shrink e (Fin (x + d)) (Fin x) (Fin d) MInf = MInf.
Proof.
  intros [lo hi] s x d P B. unfold shrink, std_min. cbn [fst snd nltb XR].
  assert (K : forall a, (if xltb MInf a then MInf else a) = MInf \/ a = NaN) by (intros [a| | |]; cbn; auto).
  assert (N : forall c, xltb (Fin (x + d)) c = true \/ xltb c (Fin (x + d)) = true -> xdiv (xsub c (Fin x)) (Fin d) <> NaN).
  { intros [c| | |]; unfold xdiv; cbn; intros H; try (destruct H; discriminate).
    - destruct (Req_EM_T d 0) as [->|]; [|discriminate]. unfold xscale_inf. destruct H as [H|H]; apply Rltb_iff in H;
      destruct (Rlt_dec 0 (c - x)); try discriminate; destruct (Rlt_dec (c - x) 0); try discriminate; lra.
    - destruct (Rlt_dec d 0); discriminate.
    - destruct (Rlt_dec d 0); discriminate. }
  assert (Q : forall c, (xltb (Fin (x + d)) c = true \/ xltb c (Fin (x + d)) = true) -> (if xltb MInf (xdiv (xsub c (Fin x)) (Fin d)) then MInf else xdiv (xsub c (Fin x)) (Fin d)) = MInf).
  { intros c H. destruct (K (xdiv (xsub c (Fin x)) (Fin d))) as [E|E]; [exact E|]. exfalso. exact (N c H E). }
  destruct (xltb (Fin (x + d)) lo) eqn:E1; [rewrite Q by auto|]; destruct (xltb hi (Fin (x + d))) eqn:E2; try reflexivity; rewrite Q by auto; reflexivity.
Qed.

Lemma shrink_fin : forall e s x d m, proper_ends e -> between e s x -> m <= 1 ->
  shrink e (Fin (x + d)) (Fin x) (Fin d) (Fin m) = MInf \/
  exists m', shrink e (Fin (x + d)) (Fin x) (Fin d) (Fin m) = Fin m' /\ m' <= m /\ (0 < m' -> between e s (x + m' * d)).
Proof.
  intros [lo hi] s x d m P B M. pose proof B as [B1 B2]. unfold shrink, std_min. cbn [fst snd nltb XR].
  assert (Dn : forall c, d <> 0 -> xdiv (xsub (Fin c) (Fin x)) (Fin d) = Fin ((c - x) / d)) by (intros c Nz; unfold xdiv; cbn; destruct (Req_EM_T d 0); [contradiction|reflexivity]).
  assert (Dz : forall c, d = 0 -> xdiv (xsub (Fin c) (Fin x)) (Fin d) = xscale_inf (c - x) true) by (intros c Z; unfold xdiv; cbn; destruct (Req_EM_T d 0); [reflexivity|contradiction]).
  (* convexity from x to a point of the hull *)
  assert (Cv : forall q m', 0 <= m' <= q -> between (lo, hi) s (x + q * d) -> between (lo, hi) s (x + m' * d)).
  { intros q m' Q Bq. destruct (Req_dec q 0) as [->|Nz]; [replace m' with 0 by lra; exact Bq|].
    replace (x + m' * d) with (x + m' / q * ((x + q * d) - x)) by (field; assumption). apply between_convex; auto.
    split; [apply Rmult_le_pos; [lra|apply Rlt_le, Rinv_0_lt_compat; lra]|]. apply Rmult_le_reg_r with q; [lra|]. unfold Rdiv. rewrite Rmult_assoc, Rinv_l by lra. lra. }
  destruct (xltb (Fin (x + d)) lo) eqn:E1.
  - destruct lo as [lo| | |]; try discriminate; try contradiction. cbn in E1. apply Rltb_iff in E1.
    assert (E2 : xltb hi (Fin (x + d)) = false).
    { destruct hi as [hi| | |]; cbn in *; try contradiction; try reflexivity. apply Rltb_false. lra. }
    rewrite E2. destruct (Req_dec d 0) as [Z|Nz].
    + rewrite Dz by exact Z. unfold xscale_inf. destruct (Rlt_dec 0 (lo - x)); [|lra]. cbn. right. exists m. split; [reflexivity|]. split; [lra|]. intros _. rewrite Z, Rmult_0_r, Rplus_0_r. exact B.
    + rewrite Dn by exact Nz. cbn [xltb]. set (q := (lo - x) / d). assert (Eq : q * d = lo - x) by (unfold q; field; exact Nz).
      destruct (Rtotal_order d 0) as [Dm|[Dm|Dm]]; [|contradiction|].
      * right. destruct (Rltb_spec m q) as [H|H].
        -- exists m. split; [reflexivity|]. split; [lra|]. intros H0. apply (Cv q m); [lra|]. rewrite Eq. apply box_between; cbn [fst snd at_least at_most]; [lra|].
           replace (x + (lo - x)) with lo by ring. destruct hi; cbn in *; auto; try lra.
        -- exists q. split; [reflexivity|]. split; [lra|]. intros H0. rewrite Eq. apply box_between; cbn [fst snd at_least at_most]; [lra|].
           replace (x + (lo - x)) with lo by ring. destruct hi; cbn in *; auto; try lra.
      * assert (q > 1) by (apply Rmult_lt_reg_r with d; [exact Dm|]; rewrite Eq; lra).
        right. exists m. rewrite Rltb_true by lra. split; [reflexivity|]. split; [lra|]. intros H0. apply (Cv 1 m); [lra|].
        rewrite Rmult_1_l. unfold between in *. cbn [fst snd at_least at_most] in *. split; [destruct B1; [lra|right; lra]|].
        left. destruct hi; cbn in *; auto; try lra.
  - destruct (xltb hi (Fin (x + d))) eqn:E2.
    2:{ right. exists m. split; [reflexivity|]. split; [lra|]. intros H0. apply (Cv 1 m); [lra|]. rewrite Rmult_1_l. apply box_between; cbn [fst snd].
        - destruct lo; cbn in *; auto; try contradiction; try (destruct hi; contradiction). apply Rltb_ge in E1. lra.
        - destruct hi; cbn in *; auto; try (destruct lo; contradiction). apply Rltb_ge in E2. lra. }
    destruct hi as [hi| | |]; try discriminate; try (destruct lo; contradiction). cbn in E2. apply Rltb_iff in E2.
    destruct (Req_dec d 0) as [Z|Nz].
    + rewrite Dz by exact Z. unfold xscale_inf. destruct (Rlt_dec 0 (hi - x)); [lra|]. destruct (Rlt_dec (hi - x) 0); [|lra]. left. reflexivity.
    + rewrite Dn by exact Nz. cbn [xltb]. set (q := (hi - x) / d). assert (Eq : q * d = hi - x) by (unfold q; field; exact Nz).
      destruct (Rtotal_order d 0) as [Dm|[Dm|Dm]]; [|contradiction|].
      * assert (q > 1) by (assert (q * d < 1 * d) by (rewrite Eq; lra); nra).
        right. exists m. rewrite Rltb_true by lra. split; [reflexivity|]. split; [lra|]. intros H0. apply (Cv 1 m); [lra|].
        rewrite Rmult_1_l. unfold between in *. cbn [fst snd at_least at_most] in *. split; [|destruct B2; [lra|right; lra]].
        left. destruct lo; cbn in *; auto; try lra; try contradiction.
      * right. assert (Bh : between (lo, Fin hi) s (x + q * d)).
        { rewrite Eq. replace (x + (hi - x)) with hi by ring. apply box_between; cbn [fst snd at_least at_most]; [|lra]. destruct lo; cbn in *; auto; try lra. }
        destruct (Rltb_spec m q) as [H|H].
        -- exists m. split; [reflexivity|]. split; [lra|]. intros H0. apply (Cv q m); [lra|exact Bh].
        -- exists q. split; [reflexivity|]. split; [lra|]. intros H0. exact Bh.
Qed.

(** ends that are real *)
Definition real_end (e : xr * xr) : Prop := exists lo hi, e = (Fin lo, Fin hi) /\ lo <= hi.
Lemma real_proper : forall e, real_end e -> proper_ends e.
Proof. intros e (lo & hi & -> & H). exact H. Qed.
Definition small (m : R) (l : xr) : Prop := l = MInf \/ exists r, l = Fin r /\ r <= m.
Lemma over_inf : forall a, xdiv (Fin a) PInf = Fin 0 /\ xdiv (Fin a) MInf = Fin 0.
Proof. intros a. split; reflexivity. Qed.
Lemma shrink_small : forall e s x d l m, real_end e -> between e s x -> m <= 1 -> small m l -> small m (shrink e (xadd (Fin x) d) (Fin x) d l).
Proof.
  intros e s x d l m P B M S1. destruct d as [d| | |].
  - cbn [xadd]. destruct S1 as [->|(r & -> & H)]; [rewrite (shrink_minf e s x d (real_proper e P) B); left; reflexivity|].
    destruct (shrink_fin e s x d r (real_proper e P) B ltac:(lra)) as [->|(m' & -> & H2 & _)]; [left; reflexivity|right; exists m'; split; [reflexivity|lra]].
  - destruct P as (lo & hi & -> & P). unfold shrink, std_min. cbn. destruct S1 as [->|(r & -> & H)]; cbn; [left; reflexivity|].
    change (xdiv (Fin (hi - x)) PInf) with (Fin 0); change (xdiv (Fin (lo - x)) MInf) with (Fin 0); cbn [xltb]; destruct (Rltb_spec r 0); right; eexists; split; try reflexivity; lra.
  - destruct P as (lo & hi & -> & P). unfold shrink, std_min. cbn. destruct S1 as [->|(r & -> & H)]; cbn; [left; reflexivity|].
    change (xdiv (Fin (hi - x)) PInf) with (Fin 0); change (xdiv (Fin (lo - x)) MInf) with (Fin 0); cbn [xltb]; destruct (Rltb_spec r 0); right; eexists; split; try reflexivity; lra.
  - unfold shrink. cbn. destruct e as [[] []]; cbn; exact S1.
Qed.
Lemma shrink_inf : forall e x d l, real_end e -> d = PInf \/ d = MInf -> small 1 l -> small 0 (shrink e (xadd (Fin x) d) (Fin x) d l).
Proof.
  intros e x d l (lo & hi & -> & P) [->| ->] S1; unfold shrink, std_min; cbn; (destruct S1 as [->|(r & -> & H)]; cbn; [left; reflexivity|]);
    change (xdiv (Fin (hi - x)) PInf) with (Fin 0); change (xdiv (Fin (lo - x)) MInf) with (Fin 0); cbn [xltb]; destruct (Rltb_spec r 0); right; eexists; split; try reflexivity; lra.
Qed.

(** *** the plane *)
Section Plane.
Variable f : list xr -> list xr * list (list xr).
Variable V : list R -> list R.
Variable J : list R -> list (list R).
Variables e0 e1 : xr * xr.
Variables s0 s1 : R.
Hypothesis Hf : forall x y, f [Fin x; Fin y] = (map Fin (V [x; y]), map (map Fin) (J [x; y])).
Hypothesis Hp : plane_system (F:=X) f.
Hypothesis Hn : forall a b, a = NaN \/ b = NaN -> all_nan (fst (f [a; b])).
Hypothesis P0 : real_end e0.
Hypothesis P1 : real_end e1.
Definition hull (x : list R) : Prop := exists x0 x1, x = [x0; x1] /\ between e0 s0 x0 /\ between e1 s1 x1.
Hypothesis HJ : forall x, hull x -> forall p q r s, J x = [[p; q]; [r; s]] -> r = 0 \/ eps * eps < Rabs r.

Definition inside (s : nstate (F:=X)) : Prop := exists x0 x1 g, ns_guess s = [Fin x0; Fin x1] /\ between e0 s0 x0 /\ between e1 s1 x1 /\
  f (ns_guess s) = (ns_v s, ns_J s) /\ ns_g s = Fin g.
Definition lost (s : nstate (F:=X)) : Prop := exists a b, ns_v s = [a; b] /\ all_nan [a; b].
Definition good (s : nstate (F:=X)) : Prop := inside s \/ lost s.

Lemma real_values : forall x0 x1, let x := [x0; x1] in exists a b p q r s, V x = [a; b] /\ J x = [[p; q]; [r; s]] /\ f (map Fin x) = ([Fin a; Fin b], [[Fin p; Fin q]; [Fin r; Fin s]]).
Proof.
  intros x0 x1 x. pose proof (Hf x0 x1) as E. destruct (Hp (map Fin x)) as (a & b & p & q & r & s & E2). change (map Fin x) with [Fin x0; Fin x1] in *. rewrite E in E2. fold x in E2, E. injection E2 as E3 E4.
  destruct (V x) as [|v0 [|v1 [|]]]; try discriminate. injection E3 as <- <-.
  destruct (J x) as [|[|j0 [|j1 [|]]] [|[|j2 [|j3 [|]]] [|]]]; try discriminate. injection E4 as <- <- <- <-.
  do 6 eexists. split; [reflexivity|]. split; [reflexivity|exact E].
Qed.
Lemma unreal : forall a b, a = NaN \/ b = NaN -> exists u v, fst (f [a; b]) = [u; v] /\ all_nan [u; v].
Proof. intros a b H. pose proof (Hn a b H) as A. destruct (Hp [a; b]) as (u & v & p & q & r & s & E). change (@num X) with xr in *. rewrite E in *. exists u, v. split; [reflexivity|exact A]. Qed.

(* the state after drawing a random point *)
Lemma restart : forall rng p g', random_point (F:=X) [e0; e1] rng = (p, g') ->
  exists x0 x1, p = [Fin x0; Fin x1] /\ between e0 s0 x0 /\ between e1 s1 x1.
Proof.
  intros rng p g' E. destruct P0 as (l0 & h0 & E0 & H0), P1 as (l1 & h1 & E1 & H1).
  destruct (random_point_finite L [(l0, h0); (l1, h1)] rng) as (x & Ex & W); [constructor; [exact H0|constructor; [exact H1|constructor]]|].
  cbn [map fst snd] in Ex. rewrite <- E0, <- E1 in Ex. change (@num X) with xr in *. rewrite E in Ex. cbn [fst] in Ex. subst p.
  inversion W as [|? x0 ? y [A0 B0] W1]; subst. inversion W1 as [|? x1 ? z [A1 B1] W2]; subst. inversion W2; subst. exists x0, x1. split; [reflexivity|].
  rewrite E0, E1; cbn in *. split; apply box_between; cbn; assumption.
Qed.
Lemma sqnorm2 : forall a b, lsqnorm (F:=X) [Fin a; Fin b] = Fin (0 + a * a + b * b).
Proof. reflexivity. Qed.
Lemma half : forall a, ndiv (NumOps:=X) (Fin a) (nofZ (NumOps:=X) 2) = Fin (a / 2).
Proof. intros a. change (nofZ (NumOps:=X) 2) with (Fin 2). cbn [ndiv XR]. rewrite xdiv_fin by lra. reflexivity. Qed.

Lemma accept_good : forall (s : nstate (F:=X)) x0 x1 g a b p q r t d0 d1 m, ns_guess s = [Fin x0; Fin x1] -> ns_g s = Fin g ->
  ns_v s = [Fin a; Fin b] -> ns_J s = [[Fin p; Fin q]; [Fin r; Fin t]] ->
  between e0 s0 x0 -> between e1 s1 x1 -> between e0 s0 (x0 + d0) -> between e1 s1 (x1 + d1) ->
  p * d0 + q * d1 = - m * a -> r * d0 + t * d1 = - m * b -> 0 <= m ->
  good (newton_accept (F:=X) f [e0; e1] s [Fin d0; Fin d1] [Fin (x0 + d0); Fin (x1 + d1)]).
Proof.
  intros s x0 x1 g a b p q r t d0 d1 m Eg Egg Ev EJ B0 B1 N0 N1 S0 S1 M. unfold newton_accept. rewrite Eg, Egg, Ev, EJ.
  destruct (real_values (x0 + d0) (x1 + d1)) as (a1 & b1 & p1 & q1 & r1 & t1 & _ & _ & F1). cbn [map] in F1. change (@num X) with xr in *. rewrite F1.
  rewrite sqnorm2, half. set (g1 := (0 + a1 * a1 + b1 * b1) / 2). cbn [nltb XR xltb].
  destruct (Rltb_spec g g1) as [G|G].
  2:{ left. exists (x0 + d0), (x1 + d1), g1. cbn [ns_guess ns_v ns_J ns_g]. repeat split; auto; try apply N0; try apply N1. }
  set (gp := ldot (F:=X) (lmulmv (F:=X) [[Fin p; Fin q]; [Fin r; Fin t]] [Fin d0; Fin d1]) [Fin a; Fin b]).
  assert (Egp : gp = Fin (- m * (a * a + b * b))).
  { unfold gp, lmulmv, ldot. cbn [map combine fold_left fst snd]. change (nofZ (NumOps:=X) 0) with (Fin 0). xred. f_equal.
    replace (0 + p * d0 + q * d1) with (- m * a) by lra. replace (0 + r * d0 + t * d1) with (- m * b) by lra. ring. }
  rewrite Egp. set (Q := a * a + b * b) in *. assert (HQ : 0 <= Q) by (unfold Q; nra). assert (HmQ : 0 <= m * Q) by (apply Rmult_le_pos; assumption).
  set (lam := ndiv (NumOps:=X) (nneg (NumOps:=X) (Fin (- m * Q))) _).
  assert (El : exists l, lam = Fin l /\ 0 <= l <= 1).
  { unfold lam. change (nofZ (NumOps:=X) 2) with (Fin 2). xred. rewrite xdiv_fin by lra. eexists. split; [reflexivity|].
    assert (D : 0 < 2 * (g1 - g - - m * Q)) by lra. split.
    - apply Rmult_le_pos; [lra|apply Rlt_le, Rinv_0_lt_compat; exact D].
    - apply Rmult_le_reg_r with (2 * (g1 - g - - m * Q)); [exact D|]. unfold Rdiv. rewrite Rmult_assoc, Rinv_l by lra. lra. }
  destruct El as (l & -> & Hl).
  assert (Eng : ladd (F:=X) [Fin x0; Fin x1] (lscale (F:=X) (Fin l) [Fin d0; Fin d1]) = [Fin (x0 + l * d0); Fin (x1 + l * d1)]) by reflexivity.
  change (@num X) with xr in *. rewrite Eng.
  destruct (real_values (x0 + l * d0) (x1 + l * d1)) as (a2 & b2 & p2 & q2 & r2 & t2 & _ & _ & F2). cbn [map] in F2. change (@num X) with xr in *. rewrite F2.
  rewrite sqnorm2, half. cbn [nltb XR xltb].
  destruct (Rltb_spec g ((0 + a2 * a2 + b2 * b2) / 2)) as [G2|G2].
  - destruct (random_point (F:=X) [e0; e1] (ns_rng s)) as [pt g'] eqn:Er. change (@num X) with xr in *. destruct (restart _ _ _ Er) as (y0 & y1 & -> & C0 & C1).
    destruct (f [Fin y0; Fin y1]) as [v3 J3] eqn:F3. rewrite sqnorm2, half. left. exists y0, y1. eexists. cbn [ns_guess ns_v ns_J ns_g]. repeat split; auto; try apply C0; try apply C1.
  - left. exists (x0 + l * d0), (x1 + l * d1). eexists. cbn [ns_guess ns_v ns_J ns_g].
    assert (C0 : between e0 s0 (x0 + l * d0)) by (replace (x0 + l * d0) with (x0 + l * ((x0 + d0) - x0)) by ring; apply between_convex; assumption).
    assert (C1 : between e1 s1 (x1 + l * d1)) by (replace (x1 + l * d1) with (x1 + l * ((x1 + d1) - x1)) by ring; apply between_convex; assumption).
    repeat split; auto; try apply C0; try apply C1.
Qed.

Lemma accept_lost : forall s dw n0 n1, n0 = NaN \/ n1 = NaN -> lost (newton_accept (F:=X) f [e0; e1] s dw [n0; n1]).
Proof.
  intros s dw n0 n1 U. destruct (unreal n0 n1 U) as (a & b & E & A). unfold newton_accept. change (@num X) with xr in *. destruct (f [n0; n1]) as [v1 J1]. cbn [fst] in E. subst v1.
  inversion A as [|? ? -> A1]; subst. inversion A1 as [|? ? -> A2]; subst.
  assert (Q : lsqnorm (F:=X) [NaN; NaN] = NaN) by reflexivity. change (@num X) with xr in *. rewrite Q.
  assert (Gt : nltb (NumOps:=X) (ns_g s) (ndiv (NumOps:=X) NaN (nofZ (NumOps:=X) 2)) = false) by (cbn; destruct (ns_g s); reflexivity).
  change (@num X) with xr in *. rewrite Gt.
  exists NaN, NaN. split; [reflexivity|exact A].
Qed.

Lemma solve_cases : forall p q r t a b, (r = 0 \/ eps * eps < Rabs r) ->
  let w := solve2 (F:=X) (M2 (Fin p) (Fin q) (Fin r) (Fin t)) (V2 (Fin (- a)) (Fin (- b))) in
  (exists d0 d1, w = V2 (Fin d0) (Fin d1) /\ p * d0 + q * d1 = - a /\ r * d0 + t * d1 = - b) \/
  (forall y, wx w <> Fin y) \/ (forall y, wy w <> Fin y).
Proof.
  intros p q r t a b Hr. cbv zeta. unfold solve2. cbn [a00 a01 a10 a11 wx wy].
  assert (Dz : forall c, forall y, xdiv (Fin c) (Fin 0) <> Fin y).
  { intros c y. unfold xdiv. destruct (Req_EM_T 0 0); [|contradiction]. unfold xscale_inf. destruct (Rlt_dec 0 c); [discriminate|]. destruct (Rlt_dec c 0); discriminate. }
  change (nofZ (NumOps:=X) 1) with (Fin 1). cbn [nabs nleb neps XR nmul ndiv nsub xabs xmul xleb xsub].
  destruct (Rleb_spec (Rabs r) (eps * eps)) as [H|H].
  - assert (r = 0) as -> by (destruct Hr; [assumption|lra]). cbn [wx wy].
    destruct (Req_dec t 0) as [->|T]; [right; right; intros y; apply Dz|]. rewrite (xdiv_fin (- b) t) by exact T. cbn [xmul xsub].
    destruct (Req_dec p 0) as [->|Pz]; [right; left; intros y; apply Dz|]. rewrite xdiv_fin by exact Pz. left. do 2 eexists. split; [reflexivity|]. split; field; auto.
  - assert (Rz : r <> 0) by (intros ->; rewrite Rabs_R0 in H; pose proof (l_eps_pos L); nra). rewrite (xdiv_fin 1 r) by exact Rz. cbn [xmul xsub wx wy].
    destruct (Req_dec (q - t * (p * (1 / r))) 0) as [Z|Z].
    + rewrite Z. right. right. intros y. apply Dz.
    + rewrite xdiv_fin by exact Z. cbn [xmul xsub]. left. do 2 eexists. split; [reflexivity|].
      assert (Z2 : q * r - t * p <> 0) by (intros E; apply Z; replace (q - t * (p * (1 / r))) with ((q * r - t * p) / r) by (field; exact Rz); rewrite E; field; exact Rz).
      split; field; auto.
Qed.

Lemma body_good : forall s a, inside s -> newton_nd_body (F:=X) f [e0; e1] s = Ok a ->
  match a with Return (x, _, _) => all_nan x | Go s' => good s' end.
Proof.
  intros s a (x0 & x1 & g & Eg & B0 & B1 & Ef & Egg) H. unfold newton_nd_body in H.
  destruct (real_values (x0) (x1)) as (va & vb & p & q & r & t & EV & EJ & F1). cbn [map] in F1. rewrite Eg in Ef. change (@num X) with xr in *. rewrite F1 in Ef. injection Ef as Ev EJ2.
  assert (HR : r = 0 \/ eps * eps < Rabs r) by (apply (HJ [x0; x1]) with (1 := ex_intro _ x0 (ex_intro _ x1 (conj eq_refl (conj B0 B1)))) (2 := EJ)).
  rewrite <- Ev, <- EJ2 in H. cbn [lneg map] in H. unfold lsolve in H. cbn [nneg XR xneg] in H. change (@num X) with xr in *.
  pose proof (solve_cases p q r t va vb HR) as Sv. cbv zeta in Sv. change (@num X) with xr in *. cbn [nneg XR xneg] in H.
  set (w := solve2 (F:=X) (M2 (Fin p) (Fin q) (Fin r) (Fin t)) (V2 (Fin (- va)) (Fin (- vb)))) in *. cbn [obind] in H.
  rewrite Eg in H. match type of H with context [contains_vec _ ?n] => set (ng := n) in * end.
  assert (Eng : ng = [xadd (Fin x0) (wx w); xadd (Fin x1) (wy w)]) by reflexivity. clearbody ng.
  (* the branch that draws a random point *)
  assert (Rs : forall a', (let '(guess, rng) := random_point (F:=X) [e0; e1] (ns_rng s) in
      let left := S (ns_left s) in
      if Nat.ltb 6 left then Ok (Return (lnans (F:=X) (length guess), rng, ns_calls s))
      else let '(v, J) := f guess in
        Ok (Go (NS (F:=X) guess v J (ndiv (NumOps:=X) (lsqnorm (F:=X) v) (nofZ (NumOps:=X) 2)) (ns_expected s) left rng (guess :: ns_calls s)))) = Ok a' ->
      match a' with Return (x, _, _) => all_nan x | Go s' => good s' end).
  { intros a' K. destruct (random_point (F:=X) [e0; e1] (ns_rng s)) as [pt g'] eqn:Er. change (@num X) with xr in *. cbv zeta in K.
    destruct (Nat.ltb 6 (S (ns_left s))); [apply Ok_inj in K; subst a'; apply lnans_nan|].
    destruct (restart _ _ _ Er) as (y0 & y1 & -> & C0 & C1).
    destruct (real_values (y0) (y1)) as (ya & yb & yp & yq & yr & yt & _ & _ & F3). cbn [map] in F3. rewrite F3 in K. rewrite sqnorm2, half in K. apply Ok_inj in K. subst a'.
      left. exists y0, y1. eexists. cbn [ns_guess ns_v ns_J ns_g]. repeat split; auto; try apply C0; try apply C1. }
  destruct Sv as [(d0 & d1 & Ew & S0 & S1)|U].
  - rewrite Ew in *. cbn [wx wy] in *. cbn [xadd] in Eng.
    destruct (contains_vec (F:=X) [e0; e1] ng) eqn:C.
    + apply Ok_inj in H. subst a. rewrite Eng.
      change [Fin (x0 + d0); Fin (x1 + d1)] with (map Fin [x0 + d0; x1 + d1]) in Eng. change (@num X) with xr in *. rewrite Eng in C.
      apply (contains_vec_within L [e0; e1] [x0 + d0; x1 + d1]) in C; [|repeat constructor; apply real_proper; assumption|reflexivity].
      inversion C as [|? ? ? ? [A0 A0'] W1]; subst. inversion W1 as [|? ? ? ? [A1 A1'] W2]; subst.
      apply accept_good with (x0 := x0) (x1 := x1) (g := g) (a := va) (b := vb) (p := p) (q := q) (r := r) (t := t) (m := 1); auto; try (apply box_between; assumption); lra.
    + revert H. rewrite Eng. rewrite lambda_eq. change (nofZ (NumOps:=X) 1) with (Fin 1). change (nofZ (NumOps:=X) 10) with (Fin 10).
      replace (ndiv (NumOps:=X) (Fin 1) (Fin 10)) with (Fin (1 / 10)) by (cbn [ndiv XR]; rewrite xdiv_fin by lra; reflexivity).
      destruct (shrink_fin e0 s0 x0 d0 1 (real_proper e0 P0) B0 ltac:(lra)) as [E0|(m0 & E0 & M0 & K0)]; rewrite E0.
      { rewrite (shrink_minf e1 s1 x1 d1 (real_proper e1 P1) B1). cbn [nleb XR xleb]. intros H. apply Rs. exact H. }
      destruct (shrink_fin e1 s1 x1 d1 m0 (real_proper e1 P1) B1 M0) as [E1|(m1 & E1 & M1 & K1)]; rewrite E1.
      { cbn [nleb XR xleb]. intros H. apply Rs. exact H. }
      cbn [nleb XR xleb]. destruct (Rleb_spec m1 (1 / 10)) as [T|T]; intros H; [apply Rs; exact H|].
      apply Ok_inj in H. subst a.
      change (good (newton_accept (F:=X) f [e0; e1] s [Fin (d0 * m1); Fin (d1 * m1)] [Fin (x0 + d0 * m1); Fin (x1 + d1 * m1)])).
      assert (K0' : between e0 s0 (x0 + d0 * m1)).
      { replace (x0 + d0 * m1) with (x0 + m1 / m0 * ((x0 + m0 * d0) - x0)) by (field; lra). apply between_convex; [exact B0|apply K0; lra|].
        split; [apply Rmult_le_pos; [lra|apply Rlt_le, Rinv_0_lt_compat; lra]|]. apply Rmult_le_reg_r with m0; [lra|]. unfold Rdiv. rewrite Rmult_assoc, Rinv_l by lra. lra. }
      assert (K1' : between e1 s1 (x1 + d1 * m1)) by (rewrite (Rmult_comm d1); apply K1; lra).
      apply accept_good with (g := g) (a := va) (b := vb) (p := p) (q := q) (r := r) (t := t) (m := m1); auto; try lra.
      * replace (p * (d0 * m1) + q * (d1 * m1)) with (m1 * (p * d0 + q * d1)) by ring. rewrite S0. ring.
      * replace (r * (d0 * m1) + t * (d1 * m1)) with (m1 * (r * d0 + t * d1)) by ring. rewrite S1. ring.
  - assert (One : small 1 (Fin 1)) by (right; exists 1; split; [reflexivity|lra]).
    clearbody w. destruct w as [d0 d1]. cbn [wx wy] in *.
    assert (D : (d0 = PInf \/ d0 = MInf) \/ (d1 = PInf \/ d1 = MInf) \/ (d0 = NaN \/ d1 = NaN)).
    { destruct d0 as [d0| | |], d1 as [d1| | |]; auto. exfalso. destruct U as [U|U]; eapply U; reflexivity. }
    (* an infinite step leaves the box *)
    assert (Out : (d0 = PInf \/ d0 = MInf) \/ (d1 = PInf \/ d1 = MInf) -> match a with Return (x, _, _) => all_nan x | Go s' => good s' end).
    { clear D. intros D. assert (C : contains_vec (F:=X) [e0; e1] ng = false).
      { rewrite Eng. destruct P0 as (l0 & h0 & -> & ?), P1 as (l1 & h1 & -> & ?). clear -D. destruct D as [[->| ->]|[->| ->]]; cbn; try reflexivity;
          destruct d0; cbn; repeat match goal with |- context [Rltb ?p ?q] => destruct (Rltb p q) end; reflexivity. }
      assert (Sm : small 0 (shrink e1 (xadd (Fin x1) d1) (Fin x1) d1 (shrink e0 (xadd (Fin x0) d0) (Fin x0) d0 (Fin 1)))).
      { destruct D as [D|D].
        - apply (shrink_small e1 s1); [exact P1|exact B1|lra|]. apply shrink_inf; [exact P0|exact D|exact One].
        - apply shrink_inf; [exact P1|exact D|]. apply (shrink_small e0 s0); [exact P0|exact B0|lra|exact One]. }
      rewrite C in H. rewrite Eng in H. rewrite lambda_eq in H. change (nofZ (NumOps:=X) 1) with (Fin 1) in H. change (nofZ (NumOps:=X) 10) with (Fin 10) in H.
      replace (ndiv (NumOps:=X) (Fin 1) (Fin 10)) with (Fin (1 / 10)) in H by (cbn [ndiv XR]; rewrite xdiv_fin by lra; reflexivity).
      destruct Sm as [Sm|(m & Sm & Hm)]; rewrite Sm in H; cbn [nleb XR xleb] in H; try rewrite Rleb_true in H by lra; apply Rs; exact H. }
    destruct D as [D|[D|D]]; [apply Out; auto|apply Out; auto|].
    destruct (contains_vec (F:=X) [e0; e1] ng).
    + apply Ok_inj in H. subst a. right. rewrite Eng. apply accept_lost. destruct D as [->| ->]; [left|right]; reflexivity.
    + match type of H with (if ?c then _ else _) = _ => destruct c end; [apply Rs; exact H|]. apply Ok_inj in H. subst a. right.
      match goal with |- lost (newton_accept _ _ _ _ (ladd _ (lmulby [?a; ?b] ?l))) =>
        change (ladd (F:=X) [Fin x0; Fin x1] (lmulby (F:=X) [a; b] l)) with [xadd (Fin x0) (xmul a l); xadd (Fin x1) (xmul b l)] end.
      apply accept_lost. destruct D as [->| ->]; [left|right]; reflexivity.
Qed.

Definition answer (r : list xr) : Prop := all_nan r \/ exists x0 x1, r = [Fin x0; Fin x1] /\ between e0 s0 x0 /\ between e1 s1 x1.
Lemma lost_norm : forall s, lost s -> lmaxnorm (F:=X) (ns_v s) = NaN.
Proof. intros s (a & b & -> & A). apply lmaxnorm_nan; [discriminate|exact A]. Qed.
Lemma finish_good : forall s r g c, good s -> Ok (newton_nd_finish (F:=X) s) = Ok (r, g, c) -> answer r.
Proof.
  intros s r g c G H. apply Ok_inj in H. unfold newton_nd_finish in H. destruct G as [(x0 & x1 & g0 & E & B0 & B1 & _)|Lo].
  - match type of H with context [if ?c then _ else _] => destruct c end; injection H as <- _ _; [right; exists x0, x1; auto|left; apply lnans_nan].
  - change (@num X) with xr in *. rewrite (lost_norm s Lo) in H. cbn [nleb XR] in H. replace (xleb NaN (ns_expected s)) with false in H by (destruct (ns_expected s); reflexivity).
    injection H as <- _ _. left. apply lnans_nan.
Qed.
Lemma loop_good : forall n s r g c, inside s -> newton_nd_loop (F:=X) f [e0; e1] n s = Ok (r, g, c) -> answer r.
Proof.
  induction n as [|n IH]; intros s r g c G H; cbn [newton_nd_loop] in H;
    (match type of H with obind ?e _ = _ => destruct e as [a| |] eqn:B end; cbn [obind] in H; try discriminate);
    pose proof (body_good s a G B) as K; (destruct a as [[[x g'] c']|s']; [apply Ok_inj in H; injection H as <- _ _; left; exact K|]).
  - match type of H with (if ?c then _ else _) = _ => destruct c end; apply (finish_good s' r g c K H).
  - destruct K as [K|K].
    + match type of H with (if ?c then _ else _) = _ => destruct c end; [apply (IH s' r g c K H)|apply (finish_good s' r g c (or_introl K) H)].
    + change (@num X) with xr in *. rewrite (lost_norm s' K) in H. cbn [nltb XR] in H. replace (xltb (ns_expected s') NaN) with false in H by (destruct (ns_expected s'); reflexivity).
      apply (finish_good s' r g c (or_intror K) H).
Qed.
End Plane.

Lemma newton_keeps : forall f V J e0 e1 rng s0 s1 n r g c, (forall x y, f [Fin x; Fin y] = (map Fin (V [x; y]), map (map Fin) (J [x; y]))) -> plane_system (F:=X) f ->
  (forall a b, a = NaN \/ b = NaN -> all_nan (fst (f [a; b]))) -> real_end e0 -> real_end e1 ->
  (forall x0 x1, between e0 s0 x0 -> between e1 s1 x1 -> forall p q r s, J [x0; x1] = [[p; q]; [r; s]] -> r = 0 \/ eps * eps < Rabs r) ->
  newton_nd (F:=X) f (Bounds (F:=X) [e0; e1] rng) [Fin s0; Fin s1] n = Ok (r, g, c) ->
  all_nan r \/ exists x0 x1, r = [Fin x0; Fin x1] /\ between e0 s0 x0 /\ between e1 s1 x1.
Proof.
  intros f V J e0 e1 rng s0 s1 n r g c Hf Hp Hn P0 P1 HJ H.
  assert (HJ' : forall x, hull e0 e1 s0 s1 x -> forall p q r s, J x = [[p; q]; [r; s]] -> r = 0 \/ eps * eps < Rabs r).
  { intros x (x0 & x1 & -> & B0 & B1). apply HJ; assumption. }
  unfold newton_nd in H. cbn [b_ends b_rng] in H. destruct (real_values f V J Hf Hp s0 s1) as (a & b & p & q & r0 & t & _ & _ & E). cbn [map] in E.
  change (@num X) with xr in *. rewrite E in H. rewrite sqnorm2, half in H.
  eapply (loop_good f V J e0 e1 s0 s1 Hf Hp Hn P0 P1 HJ'); [|exact H].
  exists s0, s1. eexists. cbn [ns_guess ns_v ns_J ns_g]. repeat split; auto; right; lra.
Qed.

(** a start where the function is NaN *)
Lemma nan_solve : forall m : mat2 xr, solve2 (F:=X) m (V2 NaN NaN) = V2 NaN NaN.
Proof.
  assert (D1 : forall x, xdiv NaN x = NaN) by (intros [?| | |]; reflexivity). assert (D2 : forall x, xmul x NaN = NaN) by (intros [?| | |]; reflexivity).
  assert (D3 : forall x, xsub x NaN = NaN) by (intros [?| | |]; reflexivity). assert (D4 : forall x, xmul NaN x = NaN) by (intros [?| | |]; reflexivity).
  assert (D5 : forall x, xsub NaN x = NaN) by (intros [?| | |]; reflexivity).
  intros [p q r t]. unfold solve2. cbn [a00 a01 a10 a11 wx wy]. cbn [nsub nmul ndiv XR].
  match goal with |- (if ?c then _ else _) = _ => destruct c end; rewrite ?D1, ?D2, ?D3, ?D4, ?D5, ?D1, ?D2, ?D3, ?D4, ?D5, ?D1; reflexivity.
Qed.
Lemma newton_lost : forall f e0 e1 rng a b n r g c, plane_system (F:=X) f -> (forall a b, a = NaN \/ b = NaN -> all_nan (fst (f [a; b]))) ->
  a = NaN \/ b = NaN -> newton_nd (F:=X) f (Bounds (F:=X) [e0; e1] rng) [a; b] n = Ok (r, g, c) -> all_nan r.
Proof.
  intros f e0 e1 rng a b n r g c Hp Hn U H. unfold newton_nd in H. cbn [b_ends b_rng] in H.
  pose proof (Hn a b U) as A. destruct (Hp [a; b]) as (u & v & p & q & r0 & t & E). change (@num X) with xr in *. rewrite E in *. cbn [fst] in A.
  inversion A as [|? ? -> A1]; subst. inversion A1 as [|? ? -> A2]; subst.
  match type of H with newton_nd_loop _ _ _ ?s = _ => set (st := s) in * end.
  assert (B : exists s', newton_nd_body (F:=X) f [e0; e1] st = Ok (Go s') /\ lost s').
  { unfold newton_nd_body. subst st. cbn [ns_J ns_v ns_guess lneg map]. unfold lsolve. cbn [nneg XR xneg]. change (@num X) with xr in *. rewrite nan_solve. cbn [obind wx wy].
    assert (N : ladd (F:=X) [a; b] [NaN; NaN] = [NaN; NaN]) by (cbn; destruct a, b; reflexivity). change (@num X) with xr in *. rewrite N.
    assert (C : contains_vec (F:=X) [e0; e1] [NaN; NaN] = true) by (destruct e0 as [[] []], e1 as [[] []]; reflexivity). rewrite C.
    eexists. split; [reflexivity|]. apply (accept_lost f e0 e1 Hp Hn). auto. }
  destruct B as (s' & B & Lo). destruct (Z.to_nat (n - 1)); cbn [newton_nd_loop] in H; rewrite B in H; cbn [obind] in H;
    pose proof (lost_norm s' Lo) as K; change (@num X) with xr in *; rewrite K in H; cbn [nltb XR] in H;
    (replace (xltb (ns_expected s') NaN) with false in H by (destruct (ns_expected s'); reflexivity));
    apply Ok_inj in H; unfold newton_nd_finish in H; change (@num X) with xr in *; rewrite K in H; cbn [nleb XR] in H;
    (replace (xleb NaN (ns_expected s')) with false in H by (destruct (ns_expected s'); reflexivity)); injection H as <- _ _; apply lnans_nan.
Qed.
End Bounded.
