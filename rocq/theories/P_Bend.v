(** Mirrored and refracted directions in floating point. *)
From Coq Require Import Reals Lra ZArith Lia List Bool.
From Flocq Require Import Core Relative BinarySingleNaN.
From Verif Require Import Num XR FL Spec Spec_Accuracy M_Vec M_Hittable M_Materials P_FL P_Round P_Accuracy P_Floats P_Sampler P_FlatLeave.
Import ListNotations.
Local Open Scope R_scope.

Section Bend.
Variables prec emax : Z.
Context (Hp : Prec_gt_0 prec) (Hm : Prec_lt_emax prec emax).
Variable lm : libm (binary_float prec emax).
Hypothesis P24 : (24 <= prec)%Z.
Hypothesis E64 : (64 <= emax)%Z.
Notation float := (binary_float prec emax).
Notation N := (FL prec emax Hp Hm lm).
Notation rnd := (round radix2 (SpecFloat.fexp prec emax) ZnearestE).
Notation val := (val prec emax).
Notation vals := (vals prec emax).
Notation b2 := (bpow radix2).
Notation u := (bpow radix2 (- prec)).

(** one operation on numbers of moderate size *)
Lemma u24 : 0 < u <= / 16777216.
Proof. exact (u_tiny prec P24). Qed.
Lemma rnd_abs : forall x, Rabs (rnd x - x) <= u * (Rabs x + / 1000).
Proof.
  intros x. destruct (any_rel prec emax Hp x) as (e & h & He & Hh & E). rewrite E. replace (x * (1 + e) + h - x) with (x * e + h) by ring.
  eapply Rle_trans; [apply Rabs_triang|]. rewrite Rabs_mult. pose proof (eta_tiny prec emax P24 E64). pose proof (Rmult_le_compat_l (Rabs x) _ _ (Rabs_pos x) He). lra.
Qed.
Lemma b64 : 64 <= b2 (emax - 1).
Proof. apply Rle_trans with (b2 6); [cbn; lra|apply bpow_le; lia]. Qed.
Lemma op_plus : forall x y a b, val x a -> val y b -> Rabs (a + b) <= 64 -> exists z, val (nadd (NumOps:=N) x y) z /\ Rabs (z - (a + b)) <= u * (Rabs (a + b) + / 1000).
Proof. intros x y a b A B H. exists (rnd (a + b)). split; [apply (plus_val prec emax Hp Hm lm); auto; pose proof b64; lra|apply rnd_abs]. Qed.
Lemma op_minus : forall x y a b, val x a -> val y b -> Rabs (a - b) <= 64 -> exists z, val (nsub (NumOps:=N) x y) z /\ Rabs (z - (a - b)) <= u * (Rabs (a - b) + / 1000).
Proof. intros x y a b A B H. exists (rnd (a - b)). split; [apply (minus_val prec emax Hp Hm lm); auto; pose proof b64; lra|apply rnd_abs]. Qed.
Lemma op_mult : forall x y a b, val x a -> val y b -> Rabs (a * b) <= 64 -> exists z, val (nmul (NumOps:=N) x y) z /\ Rabs (z - a * b) <= u * (Rabs (a * b) + / 1000).
Proof. intros x y a b A B H. exists (rnd (a * b)). split; [apply (mult_val prec emax Hp Hm lm); auto; pose proof b64; lra|apply rnd_abs]. Qed.
Lemma op_sqrt : forall x a, val x a -> 0 <= a -> exists z, val (nsqrt (NumOps:=N) x) z /\ 0 <= z /\ Rabs (z - sqrt a) <= u * (sqrt a + / 1000).
Proof.
  intros x a A H. exists (rnd (sqrt a)). split; [apply (sqrt_val prec emax Hp Hm lm); auto|]. split.
  - apply round_ge_generic; [apply FLT_exp_valid; exact Hp|apply valid_rnd_N|apply generic_format_0|apply sqrt_pos].
  - pose proof (rnd_abs (sqrt a)) as Q. rewrite (Rabs_pos_eq (sqrt a)) in Q by apply sqrt_pos. exact Q.
Qed.
Lemma zero_v : val (nofZ (NumOps:=N) 0) 0.
Proof. exact (zero_is prec emax Hp Hm lm P24 E64). Qed.
Lemma one_v : val (nofZ (NumOps:=N) 1) 1.
Proof. exact (one_is prec emax Hp Hm lm P24 E64). Qed.
Lemma two_v : val (nofZ (NumOps:=N) 2) 2.
Proof. exact (ofZ_small prec emax Hp Hm lm P24 E64 2 ltac:(lia)). Qed.

Lemma tri3 : forall a b c, Rabs (a + b) <= Rabs a + Rabs b /\ Rabs (a + b + c) <= Rabs a + Rabs b + Rabs c.
Proof. intros a b c. pose proof (Rabs_triang a b). pose proof (Rabs_triang (a + b) c). lra. Qed.
Lemma near_abs : forall z x e, Rabs (z - x) <= e -> Rabs z <= Rabs x + e.
Proof. intros z x e H. replace z with (x + (z - x)) by ring. eapply Rle_trans; [apply Rabs_triang|]. lra. Qed.
(* a dot product with the sum of sizes at most M *)
Lemma op_dot : forall f g v w M, vals f v -> vals g w -> absdot v w <= M -> M <= 8 -> exists z, val (dot (F:=N) f g) z /\ Rabs (z - dotR v w) <= u * (4 * M + / 10).
Proof.
  intros f g v w M (A1 & A2 & A3) (B1 & B2 & B3) HM M8. pose proof u24 as U. unfold absdot in HM.
  pose proof (Rabs_pos (vx v * vx w)) as Q1. pose proof (Rabs_pos (vy v * vy w)) as Q2. pose proof (Rabs_pos (vz v * vz w)) as Q3.
  destruct (op_mult _ _ _ _ A1 B1 ltac:(lra)) as (p1 & V1 & E1). destruct (op_mult _ _ _ _ A2 B2 ltac:(lra)) as (p2 & V2 & E2). destruct (op_mult _ _ _ _ A3 B3 ltac:(lra)) as (p3 & V3 & E3).
  unfold dotR. set (x1 := vx v * vx w) in *. set (x2 := vy v * vy w) in *. set (x3 := vz v * vz w) in *. clearbody x1 x2 x3. clear A1 A2 A3 B1 B2 B3.
  pose proof (near_abs _ _ _ E1) as N1. pose proof (near_abs _ _ _ E2) as N2. pose proof (near_abs _ _ _ E3) as N3.
  assert (Us : forall t, 0 <= t <= 9 -> u * t <= / 1000000) by (intros; nra).
  pose proof (Us (Rabs x1 + / 1000) ltac:(lra)) as U1. pose proof (Us (Rabs x2 + / 1000) ltac:(lra)) as U2. pose proof (Us (Rabs x3 + / 1000) ltac:(lra)) as U3.
  destruct (op_plus _ _ _ _ zero_v V1 ltac:(rewrite Rplus_0_l; lra)) as (s1 & W1 & F1). rewrite Rplus_0_l in F1. pose proof (near_abs _ _ _ F1) as G1. pose proof (Rabs_pos p1). pose proof (Us (Rabs p1 + / 1000) ltac:(lra)) as U4.
  pose proof (Rabs_triang s1 p2) as T2. destruct (op_plus _ _ _ _ W1 V2 ltac:(lra)) as (s2 & W2 & F2). pose proof (near_abs _ _ _ F2) as G2. pose proof (Rabs_pos (s1 + p2)). pose proof (Us (Rabs (s1 + p2) + / 1000) ltac:(lra)) as U5.
  pose proof (Rabs_triang s2 p3) as T3. destruct (op_plus _ _ _ _ W2 V3 ltac:(lra)) as (s3 & W3 & F3). pose proof (Rabs_pos (s2 + p3)).
  exists s3. split; [exact W3|].
  replace (s3 - (x1 + x2 + x3)) with ((s3 - (s2 + p3)) + ((s2 - (s1 + p2)) + (s1 - p1)) + ((p1 - x1) + (p2 - x2) + (p3 - x3))) by ring.
  pose proof (Rabs_triang ((s3 - (s2 + p3)) + ((s2 - (s1 + p2)) + (s1 - p1))) ((p1 - x1) + (p2 - x2) + (p3 - x3))).
  pose proof (Rabs_triang (s3 - (s2 + p3)) ((s2 - (s1 + p2)) + (s1 - p1))). pose proof (Rabs_triang (s2 - (s1 + p2)) (s1 - p1)). pose proof (proj2 (tri3 (p1 - x1) (p2 - x2) (p3 - x3))).
  assert (Rabs (s3 - (s2 + p3)) <= u * (M + / 100)) by (eapply Rle_trans; [exact F3|]; apply Rmult_le_compat_l; lra).
  assert (Rabs (s2 - (s1 + p2)) <= u * (M + / 100)) by (eapply Rle_trans; [exact F2|]; apply Rmult_le_compat_l; lra).
  assert (Rabs (s1 - p1) <= u * (M + / 100)) by (eapply Rle_trans; [exact F1|]; apply Rmult_le_compat_l; lra).
  assert (u * (Rabs x1 + / 1000) + u * (Rabs x2 + / 1000) + u * (Rabs x3 + / 1000) <= u * (M + / 100)) by (rewrite <- !Rmult_plus_distr_l; apply Rmult_le_compat_l; lra).
  lra.
Qed.
Lemma absdot_avg : forall v w, absdot v w <= (normsqR v + normsqR w) / 2.
Proof.
  intros [a b c] [x y z]. unfold absdot, normsqR, dotR; cbn [vx vy vz].
  assert (Q : forall p q, Rabs (p * q) <= (p * p + q * q) / 2) by (intros p q; apply Rabs_le; pose proof (pow2_ge_0 (p - q)); pose proof (pow2_ge_0 (p + q)); cbn [pow] in *; lra). pose proof (Q a x). pose proof (Q b y). pose proof (Q c z). lra.
Qed.

(** *** mirrored directions *)
Lemma abs_comp : forall v M, normsqR v <= M * M -> 0 <= M -> Rabs (vx v) <= M /\ Rabs (vy v) <= M /\ Rabs (vz v) <= M.
Proof.
  intros [a b c] M H P. unfold normsqR, dotR in H; cbn [vx vy vz] in *. assert (Q : forall t, t * t <= M * M -> Rabs t <= M) by (intros t T; apply Rabs_le; split; nra).
  repeat split; apply Q; nra.
Qed.
Lemma reflect_comp : forall (fy fm fn : float) y m n m0, val fy y -> val fm m -> val fn n -> Rabs y <= 101 / 100 -> Rabs n <= 101 / 100 -> Rabs (m - m0) <= 23 * u -> Rabs m0 <= 21 / 10 ->
  exists z, val (nsub (NumOps:=N) fy (nmul (NumOps:=N) fm fn)) z /\ Rabs (z - (y - m0 * n)) <= 29 * u.
Proof.
  intros fy fm fn y m n m0 Vy Vm Vn By Bn Em Bm. pose proof u24 as U. pose proof (near_abs _ _ _ Em) as Nm.
  assert (Pm : Rabs (m * n) <= 22 / 10) by (rewrite Rabs_mult; pose proof (Rabs_pos m); pose proof (Rabs_pos n); nra).
  destruct (op_mult _ _ _ _ Vm Vn ltac:(lra)) as (p & Vp & Ep). pose proof (near_abs _ _ _ Ep) as Np.
  pose proof (Rabs_triang y (- p)) as T. rewrite Rabs_Ropp in T. change (y + - p) with (y - p) in T.
  assert (Bp : Rabs p <= 23 / 10) by nra.
  destruct (op_minus _ _ _ _ Vy Vp ltac:(lra)) as (z & Vz & Ez). exists z. split; [exact Vz|].
  replace (z - (y - m0 * n)) with ((z - (y - p)) + (m * n - p) + (m0 - m) * n) by ring. pose proof (proj2 (tri3 (z - (y - p)) (m * n - p) ((m0 - m) * n))) as Q.
  rewrite (Rabs_minus_sym (m * n) p), (Rabs_mult (m0 - m)), (Rabs_minus_sym m0 m) in Q.
  assert (Rabs (m - m0) * Rabs n <= 23 * u * (101 / 100)) by (apply Rmult_le_compat; try apply Rabs_pos; assumption).
  assert (u * (Rabs (y - p) + / 1000) <= u * (34 / 10)) by (apply Rmult_le_compat_l; lra). assert (u * (Rabs (m * n) + / 1000) <= u * (23 / 10)) by (apply Rmult_le_compat_l; lra). lra.
Qed.
(* y a computed unit vector near y0, n close to a unit vector *)
Lemma reflect_near : forall fy fn y n y0, vals fy y -> vals fn n -> normsqR y <= 1001 / 1000 -> normsqR n <= 1001 / 1000 -> Rabs (dotR y n - dotR y0 n) <= 6 * u -> Rabs (dotR y0 n) <= 101 / 100 ->
  exists z, vals (reflect (F:=N) fy fn) z /\ let m0 := 2 * dotR y0 n in
  Rabs (vx z - (vx y - m0 * vx n)) <= 29 * u /\ Rabs (vy z - (vy y - m0 * vy n)) <= 29 * u /\ Rabs (vz z - (vz y - m0 * vz n)) <= 29 * u.
Proof.
  intros fy fn y n y0 Vy Vn Sy Sn Ed B0. pose proof u24 as U. pose proof (absdot_avg y n) as Av.
  destruct (op_dot fy fn y n (1001 / 1000) Vy Vn ltac:(lra) ltac:(lra)) as (D & VD & ED). pose proof (near_abs _ _ _ ED) as ND.
  assert (By : Rabs (dotR y n) <= 102 / 100) by (pose proof (near_abs _ _ _ Ed); lra).
  destruct (op_mult _ _ _ _ two_v VD) as (m & Vm & Em); [rewrite Rabs_mult, (Rabs_pos_eq 2) by lra; nra|].
  assert (Hm0 : Rabs (m - 2 * dotR y0 n) <= 23 * u).
  { replace (m - 2 * dotR y0 n) with ((m - 2 * D) + 2 * (D - dotR y n) + 2 * (dotR y n - dotR y0 n)) by ring. pose proof (proj2 (tri3 (m - 2 * D) (2 * (D - dotR y n)) (2 * (dotR y n - dotR y0 n)))) as Q.
    rewrite (Rabs_mult 2 (D - dotR y n)), (Rabs_mult 2 (dotR y n - dotR y0 n)), (Rabs_pos_eq 2) in Q by lra. rewrite Rabs_mult, (Rabs_pos_eq 2) in Em by lra.
    assert (u * (2 * Rabs D + / 1000) <= u * (21 / 10)) by (apply Rmult_le_compat_l; nra). lra. }
  assert (B2 : Rabs (2 * dotR y0 n) <= 21 / 10) by (rewrite Rabs_mult, (Rabs_pos_eq 2) by lra; lra).
  destruct (abs_comp y (101 / 100) ltac:(lra) ltac:(lra)) as (Y1 & Y2 & Y3). destruct (abs_comp n (101 / 100) ltac:(lra) ltac:(lra)) as (N1 & N2 & N3).
  destruct Vy as (A1 & A2 & A3), Vn as (C1 & C2 & C3).
  destruct (reflect_comp _ _ _ _ _ _ _ A1 Vm C1 Y1 N1 Hm0 B2) as (z1 & W1 & E1). destruct (reflect_comp _ _ _ _ _ _ _ A2 Vm C2 Y2 N2 Hm0 B2) as (z2 & W2 & E2). destruct (reflect_comp _ _ _ _ _ _ _ A3 Vm C3 Y3 N3 Hm0 B2) as (z3 & W3 & E3).
  exists (V3 z1 z2 z3). split; [|cbn [vx vy vz]; auto]. unfold vals, P_Floats.vals, reflect, vsub, vscale; cbn [vx vy vz]. auto.
Qed.

(** *** refracted directions *)
Lemma comps_dot : forall y y0 n e, 0 <= e -> normsqR n <= 1001 / 1000 -> normsqR y0 <= 1001 / 1000 ->
  Rabs (vx y - vx y0) <= e * Rabs (vx y0) -> Rabs (vy y - vy y0) <= e * Rabs (vy y0) -> Rabs (vz y - vz y0) <= e * Rabs (vz y0) -> Rabs (dotR y n - dotR y0 n) <= 1001 / 1000 * e.
Proof.
  intros y y0 n e He Sn Sy A B C. pose proof (absdot_avg y0 n) as Av. unfold absdot in Av. rewrite !Rabs_mult in Av.
  unfold dotR. replace (vx y * vx n + vy y * vy n + vz y * vz n - (vx y0 * vx n + vy y0 * vy n + vz y0 * vz n)) with ((vx y - vx y0) * vx n + (vy y - vy y0) * vy n + (vz y - vz y0) * vz n) by ring.
  pose proof (proj2 (tri3 ((vx y - vx y0) * vx n) ((vy y - vy y0) * vy n) ((vz y - vz y0) * vz n))) as T. rewrite !Rabs_mult in T.
  pose proof (Rmult_le_compat_r _ _ _ (Rabs_pos (vx n)) A). pose proof (Rmult_le_compat_r _ _ _ (Rabs_pos (vy n)) B). pose proof (Rmult_le_compat_r _ _ _ (Rabs_pos (vz n)) C).
  assert (e * (Rabs (vx y0) * Rabs (vx n) + Rabs (vy y0) * Rabs (vy n) + Rabs (vz y0) * Rabs (vz n)) <= e * (1001 / 1000)) by (apply Rmult_le_compat_l; lra). lra.
Qed.
Lemma bend_comp : forall (fr fy fc fn : float) r y c n, val fr r -> val fy y -> val fc c -> val fn n -> 0 <= r <= 4 -> Rabs y <= 101 / 100 -> Rabs c <= 101 / 100 -> Rabs n <= 101 / 100 ->
  exists p, val (nmul (NumOps:=N) fr (nadd (NumOps:=N) fy (nmul (NumOps:=N) fc fn))) p /\ Rabs (p - r * (y + c * n)) <= 22 * u.
Proof.
  intros fr fy fc fn r y c n Vr Vy Vc Vn Br By Bc Bn. pose proof u24 as U.
  assert (B1 : Rabs (c * n) <= 1021 / 1000) by (rewrite Rabs_mult; pose proof (Rabs_pos c); pose proof (Rabs_pos n); nra).
  destruct (op_mult _ _ _ _ Vc Vn ltac:(lra)) as (p1 & V1 & E1). pose proof (near_abs _ _ _ E1) as N1.
  pose proof (Rabs_triang y p1) as T. assert (Bp : Rabs p1 <= 1022 / 1000) by nra.
  destruct (op_plus _ _ _ _ Vy V1 ltac:(lra)) as (p2 & V2 & E2). pose proof (near_abs _ _ _ E2) as N2. assert (Bp2 : Rabs p2 <= 204 / 100) by nra.
  assert (B3 : Rabs (r * p2) <= 816 / 100) by (rewrite Rabs_mult, (Rabs_pos_eq r) by lra; pose proof (Rabs_pos p2); nra).
  destruct (op_mult _ _ _ _ Vr V2 ltac:(lra)) as (p & Vp & Ep). exists p. split; [exact Vp|].
  replace (p - r * (y + c * n)) with ((p - r * p2) + r * (p2 - (y + p1)) + r * (p1 - c * n)) by ring. pose proof (proj2 (tri3 (p - r * p2) (r * (p2 - (y + p1))) (r * (p1 - c * n)))) as Q.
  rewrite (Rabs_mult r), (Rabs_mult r), (Rabs_pos_eq r) in Q by lra.
  assert (Rabs (p2 - (y + p1)) <= u * (2034 / 1000)) by (eapply Rle_trans; [exact E2|]; apply Rmult_le_compat_l; lra). assert (Rabs (p1 - c * n) <= u * (1023 / 1000)) by (eapply Rle_trans; [exact E1|]; apply Rmult_le_compat_l; lra).
  assert (Rabs (p - r * p2) <= u * (817 / 100)) by (eapply Rle_trans; [exact Ep|]; apply Rmult_le_compat_l; lra).
  pose proof (Rabs_pos (p2 - (y + p1))). pose proof (Rabs_pos (p1 - c * n)). nra.
Qed.
Lemma join_comp : forall (fp fg fn : float) p g n, val fp p -> val fg g -> val fn n -> Rabs p <= 11 / 10 -> Rabs g <= 11 / 10 -> Rabs n <= 101 / 100 ->
  exists z, val (nadd (NumOps:=N) fp (nmul (NumOps:=N) fg fn)) z /\ Rabs (z - (p + g * n)) <= 4 * u.
Proof.
  intros fp fg fn p g n Vp Vg Vn Bp Bg Bn. pose proof u24 as U.
  assert (B1 : Rabs (g * n) <= 1112 / 1000) by (rewrite Rabs_mult; pose proof (Rabs_pos g); pose proof (Rabs_pos n); nra).
  destruct (op_mult _ _ _ _ Vg Vn ltac:(lra)) as (p1 & V1 & E1). pose proof (near_abs _ _ _ E1) as N1. pose proof (Rabs_triang p p1) as T. assert (Bp1 : Rabs p1 <= 1113 / 1000) by nra.
  destruct (op_plus _ _ _ _ Vp V1 ltac:(lra)) as (z & Vz & Ez). exists z. split; [exact Vz|].
  replace (z - (p + g * n)) with ((z - (p + p1)) + (p1 - g * n)) by ring. pose proof (Rabs_triang (z - (p + p1)) (p1 - g * n)) as Q.
  assert (u * (Rabs (p + p1) + / 1000) <= u * (23 / 10)) by (apply Rmult_le_compat_l; lra). assert (u * (Rabs (g * n) + / 1000) <= u * (12 / 10)) by (apply Rmult_le_compat_l; lra). lra.
Qed.
End Bend.
