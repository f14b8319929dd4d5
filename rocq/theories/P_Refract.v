(** Refracted directions in floating point: Snell's law and unit length. *)
From Coq Require Import Reals Lra ZArith Lia List Bool.
From Flocq Require Import Core Relative BinarySingleNaN.
From Verif Require Import Num XR FL Spec Spec_Accuracy Spec_Bend M_Vec M_Hittable M_Materials P_FL P_Round P_Accuracy P_Floats P_Sampler P_FlatLeave P_Bend.
Import ListNotations.
Local Open Scope R_scope.

(** *** real vectors *)
Lemma abs_sum : forall b, normsqR b <= 121 / 100 -> Rabs (vx b) + Rabs (vy b) + Rabs (vz b) <= 191 / 100.
Proof.
  intros [x y z] H. unfold normsqR, dotR in H; cbn [vx vy vz] in *. pose proof (Rabs_pos x). pose proof (Rabs_pos y). pose proof (Rabs_pos z).
  assert (A : forall t, t * t = Rabs t * Rabs t) by (intros t; rewrite <- Rabs_mult; symmetry; apply Rabs_pos_eq; nra). rewrite (A x), (A y), (A z) in H.
  set (p := Rabs x) in *. set (q := Rabs y) in *. set (r := Rabs z) in *. clearbody p q r. clear A.
  destruct (Rle_dec (p + q + r) (191 / 100)) as [L|L]; [exact L|exfalso].
  pose proof (pow2_ge_0 (p - q)). pose proof (pow2_ge_0 (p - r)). pose proof (pow2_ge_0 (q - r)). cbn [pow] in *.
  assert ((191 / 100) * (191 / 100) < (p + q + r) * (p + q + r)) by (apply Rmult_le_0_lt_compat; lra). lra.
Qed.
Lemma perturb : forall a b e, normsqR b <= 121 / 100 -> near3 e a b -> e <= 1 / 10 -> Rabs (normsqR a - normsqR b) <= 5 * e.
Proof.
  intros a b e H (A & B & C) He. pose proof (abs_sum b H) as Q. unfold normsqR, dotR.
  assert (E0 : 0 <= e) by (pose proof (Rabs_pos (vx a - vx b)); lra).
  assert (P : forall x y, Rabs (x - y) <= e -> Rabs (x * x - y * y) <= e * (2 * Rabs y + e)).
  { intros x y D. replace (x * x - y * y) with ((x - y) * (2 * y + (x - y))) by ring. rewrite Rabs_mult. apply Rmult_le_compat; try apply Rabs_pos; [exact D|].
    eapply Rle_trans; [apply Rabs_triang|]. rewrite Rabs_mult, (Rabs_pos_eq 2) by lra. lra. }
  apply P in A, B, C. replace (vx a * vx a + vy a * vy a + vz a * vz a - (vx b * vx b + vy b * vy b + vz b * vz b)) with ((vx a * vx a - vx b * vx b) + (vy a * vy a - vy b * vy b) + (vz a * vz a - vz b * vz b)) by ring.
  eapply Rle_trans; [apply (proj2 (tri3 _ _ _))|]. nra.
Qed.
Lemma dot_perturb : forall a b n e, normsqR n <= 121 / 100 -> near3 e a b -> Rabs (dotR a n - dotR b n) <= 2 * e.
Proof.
  intros a b n e H (A & B & C). pose proof (abs_sum n H) as Q. assert (E0 : 0 <= e) by (pose proof (Rabs_pos (vx a - vx b)); lra). unfold dotR.
  replace (vx a * vx n + vy a * vy n + vz a * vz n - (vx b * vx n + vy b * vy n + vz b * vz n)) with ((vx a - vx b) * vx n + (vy a - vy b) * vy n + (vz a - vz b) * vz n) by ring.
  eapply Rle_trans; [apply (proj2 (tri3 _ _ _))|]. rewrite !Rabs_mult.
  pose proof (Rmult_le_compat_r _ _ _ (Rabs_pos (vx n)) A). pose proof (Rmult_le_compat_r _ _ _ (Rabs_pos (vy n)) B). pose proof (Rmult_le_compat_r _ _ _ (Rabs_pos (vz n)) C).
  assert (e * (Rabs (vx n) + Rabs (vy n) + Rabs (vz n)) <= e * 2) by (apply Rmult_le_compat_l; lra). lra.
Qed.
(* the part of y across n, and a multiple of n added *)
Definition tangent (y n : vec3 R) : vec3 R := V3 (vx y - dotR y n * vx n) (vy y - dotR y n * vy n) (vz y - dotR y n * vz n).
Definition along (p : vec3 R) (g : R) (n : vec3 R) : vec3 R := V3 (vx p + g * vx n) (vy p + g * vy n) (vz p + g * vz n).
Lemma along_normsq : forall p g n, normsqR (along p g n) = normsqR p + 2 * (g * dotR p n) + g * g * normsqR n.
Proof. intros p g n. unfold normsqR, dotR, along; cbn [vx vy vz]. ring. Qed.
Lemma scaled_normsq : forall r p, normsqR (scaleR r p) = r * r * normsqR p.
Proof. intros r p. unfold normsqR, dotR, scaleR; cbn [vx vy vz]. ring. Qed.
Lemma along_dot : forall p g n, dotR (along p g n) n = dotR p n + g * normsqR n.
Proof. intros p g n. unfold normsqR, dotR, along; cbn [vx vy vz]. ring. Qed.
Lemma scaled_dot : forall r p n, dotR (scaleR r p) n = r * dotR p n.
Proof. intros r p n. unfold dotR, scaleR; cbn [vx vy vz]. ring. Qed.
Lemma near3_tri : forall e1 e2 a b c, near3 e1 a b -> near3 e2 b c -> near3 (e1 + e2) a c.
Proof.
  intros e1 e2 a b c (A1 & A2 & A3) (B1 & B2 & B3). assert (Q : forall x y z, Rabs (x - y) <= e1 -> Rabs (y - z) <= e2 -> Rabs (x - z) <= e1 + e2) by (intros x y z A B; replace (x - z) with ((x - y) + (y - z)) by ring; eapply Rle_trans; [apply Rabs_triang|lra]).
  repeat split; eapply Q; eassumption.
Qed.
Lemma near3_le : forall e e' a b, near3 e a b -> e <= e' -> near3 e' a b.
Proof. intros e e' a b (A & B & C) H. repeat split; lra. Qed.
Lemma near3_sym : forall e a b, near3 e a b -> near3 e b a.
Proof. intros e a b (A & B & C). repeat split; rewrite Rabs_minus_sym; assumption. Qed.
Lemma near3_along : forall e a b g n, near3 e a b -> near3 e (along a g n) (along b g n).
Proof. intros e a b g n (A & B & C). unfold near3, along; cbn [vx vy vz]. assert (Q : forall x y h, x + h - (y + h) = x - y) by (intros; ring). rewrite !Q. auto. Qed.

(** *** the length of the result, from the errors of its parts *)
Section Real.
Variables u dl : R.
Hypothesis U : 0 < u <= / 16777216.
Hypothesis DL : 0 <= dl <= / 1000.
Lemma bent_size : forall y n r c, 0 <= r <= 4 -> Rabs (normsqR y - 1) <= 11 * u -> Rabs (normsqR n - 1) <= dl -> Rabs (c + dotR y n) <= 6 * u + dl -> -1 <= c <= 1 ->
  r * r * (1 - c * c) <= 1 + 60 * u -> normsqR (scaleR r (along y c n)) <= 1 + 430 * u + 48 * dl /\ Rabs (dotR (scaleR r (along y c n)) n) <= 24 * u + 8 * dl.
Proof.
  intros y n r c R4 Hy Hn He Hc S. rewrite scaled_normsq, along_normsq, scaled_dot, along_dot. set (Y := normsqR y) in *. set (M := normsqR n) in *. set (e := c + dotR y n) in *. replace (dotR y n) with (e - c) by (unfold e; ring). clearbody Y M e.
  apply Rabs_le_inv in Hy, Hn, He. split.
  - replace (r * r * (Y + 2 * (c * (e - c)) + c * c * M)) with (r * r * (1 - c * c) + r * r * ((Y - 1) + 2 * (c * e) + c * c * (M - 1))) by ring.
    assert (A : (Y - 1) + 2 * (c * e) + c * c * (M - 1) <= 23 * u + 3 * dl).
    { assert (c * e <= 6 * u + dl) by (apply Rle_trans with (Rabs (c * e)); [apply Rle_abs|]; rewrite Rabs_mult; assert (Rabs c <= 1) by (apply Rabs_le; lra); assert (Rabs e <= 6 * u + dl) by (apply Rabs_le; lra); pose proof (Rabs_pos c); pose proof (Rabs_pos e); nra).
      assert (0 <= c * c <= 1) by nra. assert (c * c * (M - 1) <= dl) by nra. lra. }
    assert (0 <= r * r <= 16) by nra. assert (r * r * ((Y - 1) + 2 * (c * e) + c * c * (M - 1)) <= r * r * (23 * u + 3 * dl)) by (apply Rmult_le_compat_l; lra).
    assert (r * r * (23 * u + 3 * dl) <= 16 * (23 * u + 3 * dl)) by (apply Rmult_le_compat_r; lra). lra.
  - replace (r * (e - c + c * M)) with (r * (e + c * (M - 1))) by ring. rewrite Rabs_mult, (Rabs_pos_eq r) by lra.
    assert (Rabs (e + c * (M - 1)) <= 6 * u + 2 * dl).
    { eapply Rle_trans; [apply Rabs_triang|]. rewrite Rabs_mult. assert (Rabs c <= 1) by (apply Rabs_le; lra). assert (Rabs e <= 6 * u + dl) by (apply Rabs_le; lra). assert (Rabs (M - 1) <= dl) by (apply Rabs_le; lra). pose proof (Rabs_pos c). pose proof (Rabs_pos (M - 1)). nra. }
    pose proof (Rabs_pos (e + c * (M - 1))). nra.
Qed.
Lemma joined_size : forall p n q S w g z, near3 (22 * u) p q -> normsqR q <= 1 + 430 * u + 48 * dl -> Rabs (dotR q n) <= 24 * u + 8 * dl -> Rabs (normsqR n - 1) <= dl ->
  Rabs (S - normsqR p) <= 5 * u -> Rabs (w - (1 - S)) <= 2 * u -> 0 <= g -> Rabs (g * g - Rabs w) <= 3 * u -> near3 (4 * u) z (along p (- g) n) -> Rabs (normsqR z - 1) <= 1300 * u + 120 * dl.
Proof.
  intros p n q S w g z Pq Q Qn Hn HS Hw G0 Hg Hz.
  pose proof (perturb p q (22 * u) ltac:(lra) Pq ltac:(lra)) as Pp. assert (Nn : normsqR n <= 121 / 100) by (apply Rabs_le_inv in Hn; lra). pose proof (dot_perturb p q n (22 * u) Nn Pq) as Dp.
  assert (Pn : Rabs (dotR p n) <= 68 * u + 8 * dl) by (pose proof (near_abs _ _ _ Dp); lra). clear Dp Qn.
  assert (P0 : 0 <= normsqR p) by (unfold normsqR, dotR; nra). assert (Q0 : 0 <= normsqR q) by (unfold normsqR, dotR; nra).
  assert (Bz : Rabs (normsqR (along p (- g) n) - 1) <= 1260 * u + 120 * dl).
  { rewrite along_normsq. set (P := normsqR p) in *. set (D := dotR p n) in *. set (M := normsqR n) in *. set (Q1 := normsqR q) in *. clearbody P D M Q1. clear Hz Pq.
    apply Rabs_le_inv in Pp, Hn, HS, Hw, Hg. assert (Wb : Rabs w <= 101 / 100 + 3 * u) by (apply Rabs_le; lra).
    assert (Gb : g <= 102 / 100) by (destruct (Rle_dec g (102 / 100)); [assumption|nra]).
    assert (GD : Rabs (- g * D) <= 70 * u + 83 / 10 * dl) by (rewrite Rabs_mult, Rabs_Ropp, (Rabs_pos_eq g) by lra; pose proof (Rabs_pos D); nra). apply Rabs_le_inv in GD.
    replace (- g * - g * M) with (g * g + g * g * (M - 1)) by ring. assert (GM : Rabs (g * g * (M - 1)) <= 11 / 10 * dl) by (rewrite Rabs_mult, (Rabs_pos_eq (g * g)) by nra; assert (Rabs (M - 1) <= dl) by (apply Rabs_le; lra); pose proof (Rabs_pos (M - 1)); assert (g * g <= 11 / 10) by nra; nra). apply Rabs_le_inv in GM.
    apply Rabs_le. unfold Rabs in Hg. destruct (Rcase_abs w); lra. }
  pose proof (perturb z (along p (- g) n) (4 * u) ltac:(apply Rabs_le_inv in Bz; lra) Hz ltac:(lra)) as Pz. apply Rabs_le_inv in Bz, Pz. apply Rabs_le. lra.
Qed.
Lemma root_small : forall w t, 0 <= t -> t * t = w -> w <= 2 -> t <= 3 / 2.
Proof. clear. intros w t A B C. destruct (Rle_dec t (3 / 2)); [assumption|nra]. Qed.
Lemma sine_real : forall r s t w c m, 0 <= r <= 4 -> 0 <= s <= 2 -> 0 <= t -> t <= 3 / 2 -> t * t = w -> 1 - c * c <= w + 3 * u -> s - t >= - (u * (t + / 1000)) -> m - r * s >= - (u * (r * s + / 1000)) -> m <= 1 ->
  r * r * (1 - c * c) <= 1 + 60 * u.
Proof.
  intros r s t w c m R4 S0 Q0 T2 QQ Wc E3 E4 M1.
  assert (RS0 : 0 <= r * s) by nra. set (rs := r * s) in *.
  assert (RS1 : rs <= 1 + 2 * u) by (clear - E4 M1 U RS0; nra).
  assert (RT : r * t <= 1 + 5 * u).
  { assert (A : r * t - rs <= r * (u * (t + / 1000))) by (unfold rs; rewrite <- Rmult_minus_distr_l; apply Rmult_le_compat_l; lra).
    set (rt := r * t) in *. assert (A2 : rt - rs <= u * rt + 4 * u / 1000) by (replace (r * (u * (t + / 1000))) with (u * rt + r * u / 1000) in A by (unfold rt; field); assert (r * u <= 4 * u) by (apply Rmult_le_compat_r; lra); lra).
    clear - A2 RS1 U. nra. }
  assert (RT0 : 0 <= r * t) by (apply Rmult_le_pos; lra).
  assert (RRW : r * r * w <= 1 + 11 * u) by (rewrite <- QQ; replace (r * r * (t * t)) with ((r * t) * (r * t)) by ring; clear - RT RT0 U; nra).
  assert (R16 : 0 <= r * r <= 16) by (clear - R4; nra). assert (r * r * (1 - c * c) <= r * r * (w + 3 * u)) by (apply Rmult_le_compat_l; lra). assert (r * r * (3 * u) <= 16 * (3 * u)) by (apply Rmult_le_compat_r; lra).
  lra.
Qed.
End Real.

(** *** the computed parts *)
Section Refract.
Variables prec emax : Z.
Context (Hp : Prec_gt_0 prec) (Hm : Prec_lt_emax prec emax).
Variable lm : libm (binary_float prec emax).
Hypothesis P24 : (24 <= prec)%Z.
Hypothesis E64 : (64 <= emax)%Z.
Notation float := (binary_float prec emax).
Notation N := (FL prec emax Hp Hm lm).
Notation rnd := (round radix2 (SpecFloat.fexp prec emax) ZnearestE).
Notation format := (generic_format radix2 (SpecFloat.fexp prec emax)).
Notation val := (val prec emax).
Notation vals := (vals prec emax).
Notation b2 := (bpow radix2).
Notation u := (bpow radix2 (- prec)).
Let U : 0 < u <= / 16777216 := u_tiny prec P24.
Let op_plus := op_plus prec emax Hp Hm lm P24 E64.
Let op_minus := op_minus prec emax Hp Hm lm P24 E64.
Let op_mult := op_mult prec emax Hp Hm lm P24 E64.
Let op_sqrt := op_sqrt prec emax Hp Hm lm P24 E64.
Let op_dot := op_dot prec emax Hp Hm lm P24 E64.
Let one_v := one_v prec emax Hp Hm lm P24 E64.
Let neg_v := opp_val prec emax Hp Hm lm.
Let ltb_v := ltb_val prec emax Hp Hm lm.

Lemma rnd_le1 : forall x, x <= 1 -> rnd x <= 1.
Proof. intros x H. rewrite <- (rnd_id prec emax 1) by exact (format_1 prec emax Hp P24 E64 1 (or_introl eq_refl)). apply rnd_le; assumption. Qed.
Lemma neg_vals : forall f v, vals f v -> vals (vneg (F:=N) f) (V3 (- vx v) (- vy v) (- vz v)).
Proof. intros f v (A & B & C). unfold vals, P_Floats.vals, vneg; cbn [vx vy vz]. split; [|split]; apply neg_v; assumption. Qed.

Variable dl : R.
Hypothesis DL : 0 <= dl <= / 1000.

Section Parts.
Variables (fy fn : vec3 float) (y n : vec3 R).
Hypothesis Vy : vals fy y.
Hypothesis Vn : vals fn n.
Hypothesis Sy : Rabs (normsqR y - 1) <= 11 * u.
Hypothesis Sn : Rabs (normsqR n - 1) <= dl.
Hypothesis Fc : dotR y n <= 6 * u.
Lemma sizes : normsqR y <= 1001 / 1000 /\ normsqR n <= 1001 / 1000.
Proof. apply Rabs_le_inv in Sy, Sn. lra. Qed.
Lemma cosine : exists fc c, std_min (F:=N) (dot (F:=N) (vneg (F:=N) fy) fn) (nofZ (NumOps:=N) 1) = fc /\ c_fmin (F:=N) (dot (F:=N) (vneg (F:=N) fy) fn) (nofZ (NumOps:=N) 1) = fc /\
  val fc c /\ Rabs (c + dotR y n) <= 6 * u + dl /\ -1 <= c <= 1.
Proof.
  destruct sizes as (S1 & S2). pose proof (absdot_avg y n) as Av.
  assert (An : absdot (V3 (- vx y) (- vy y) (- vz y)) n = absdot y n) by (unfold absdot; cbn [vx vy vz]; rewrite !Rabs_mult, !Rabs_Ropp; reflexivity).
  destruct (op_dot _ _ _ _ (1001 / 1000) (neg_vals _ _ Vy) Vn ltac:(lra) ltac:(lra)) as (c1 & V1 & E1).
  assert (Dn : dotR (V3 (- vx y) (- vy y) (- vz y)) n = - dotR y n) by (unfold dotR; cbn [vx vy vz]; ring). rewrite Dn in E1.
  assert (Ad : Rabs (dotR y n) <= absdot y n) by (unfold dotR, absdot; apply (proj2 (tri3 _ _ _))).
  apply Rabs_le_inv in E1, Sy, Sn, Ad. replace (c1 - - dotR y n) with (c1 + dotR y n) in E1 by ring.
  assert (E : c_fmin (F:=N) (dot (F:=N) (vneg (F:=N) fy) fn) (nofZ (NumOps:=N) 1) = std_min (F:=N) (dot (F:=N) (vneg (F:=N) fy) fn) (nofZ (NumOps:=N) 1)).
  { assert (Q : forall x a, val x a -> nisnan (NumOps:=N) x = false) by (intros x a [F _]; destruct x; try discriminate; reflexivity).
    unfold c_fmin, std_min. rewrite (Q _ _ V1), (Q _ _ one_v). reflexivity. }
  set (d := dot (F:=N) (vneg (F:=N) fy) fn) in *. set (t := dotR y n) in *. clearbody t d.
  assert (M : std_min (F:=N) d (nofZ (NumOps:=N) 1) = if Rltb 1 c1 then nofZ (NumOps:=N) 1 else d) by (unfold std_min; rewrite (ltb_v _ _ _ _ one_v V1); reflexivity).
  rewrite E, M. destruct (Rltb_spec 1 c1) as [L|L].
  - exists (nofZ (NumOps:=N) 1), 1. split; [reflexivity|]. split; [reflexivity|]. split; [exact one_v|]. split; [apply Rabs_le; lra|lra].
  - exists d, c1. split; [reflexivity|]. split; [reflexivity|]. split; [exact V1|]. split; [apply Rabs_le; lra|lra].
Qed.
(* what "not cannot_refract" says *)
Lemma sine : forall (fr fc : float) r c, val fr r -> val fc c -> 0 <= r <= 4 -> -1 <= c <= 1 ->
  nltb (NumOps:=N) (nofZ (NumOps:=N) 1) (nmul (NumOps:=N) fr (nsqrt (NumOps:=N) (nsub (NumOps:=N) (nofZ (NumOps:=N) 1) (nmul (NumOps:=N) fc fc)))) = false -> r * r * (1 - c * c) <= 1 + 60 * u.
Proof.
  intros fr fc r c Vr Vc R4 C1 H. assert (CC : 0 <= c * c <= 1) by nra.
  assert (V1 : val (nmul (NumOps:=N) fc fc) (rnd (c * c))) by (apply (mult_val prec emax Hp Hm lm); auto; rewrite Rabs_pos_eq by lra; pose proof (b64 emax E64); lra).
  pose proof (rnd_le1 (c * c) ltac:(lra)) as L1. pose proof (rnd_abs prec emax Hp P24 E64 (c * c)) as E1. rewrite (Rabs_pos_eq (c * c)) in E1 by lra. set (k := rnd (c * c)) in *. clearbody k. apply Rabs_le_inv in E1.
  destruct (op_minus _ _ _ _ one_v V1) as (w0 & W0 & _); [apply Rabs_le; nra|].
  assert (V2 : val (nsub (NumOps:=N) (nofZ (NumOps:=N) 1) (nmul (NumOps:=N) fc fc)) (rnd (1 - k))) by (apply (minus_val prec emax Hp Hm lm); auto; apply Rle_trans with 64; [apply Rabs_le; nra|exact (b64 emax E64)]).
  assert (W1 : 0 <= rnd (1 - k)) by (apply round_ge_generic; [apply FLT_exp_valid; exact Hp|apply valid_rnd_N|apply generic_format_0|lra]).
  pose proof (rnd_abs prec emax Hp P24 E64 (1 - k)) as E2. rewrite (Rabs_pos_eq (1 - k)) in E2 by lra. set (w := rnd (1 - k)) in *. clearbody w. apply Rabs_le_inv in E2.
  assert (Wc : 1 - c * c <= w + 3 * u) by nra. assert (Wb : w <= 2) by nra.
  destruct (op_sqrt _ _ V2 W1) as (s & V3' & S0 & E3). apply Rabs_le_inv in E3. pose proof (sqrt_pos w) as Q0. pose proof (sqrt_sqrt w W1) as QQ. set (t := sqrt w) in *. clearbody t.
  assert (T2 : t <= 3 / 2) by (eapply root_small; eassumption). assert (S2 : s <= 2) by (clear - E3 T2 U Q0; nra).
  assert (RS : 0 <= r * s <= 8) by (clear - S0 S2 R4; nra).
  destruct (op_mult _ _ _ _ Vr V3') as (m & V4 & E4); [rewrite Rabs_pos_eq by lra; lra|]. rewrite (Rabs_pos_eq (r * s)) in E4 by lra. apply Rabs_le_inv in E4.
  rewrite (ltb_v _ _ _ _ one_v V4) in H. assert (M1 : m <= 1) by (destruct (Rltb_spec 1 m); [discriminate|assumption]).
  apply (sine_real u U r s t w c m); auto; lra.
Qed.
Lemma refract_near : forall fr r, val fr r -> 0 <= r <= 4 ->
  (let c := c_fmin (F:=N) (dot (F:=N) (vneg (F:=N) fy) fn) (nofZ (NumOps:=N) 1) in
   nltb (NumOps:=N) (nofZ (NumOps:=N) 1) (nmul (NumOps:=N) fr (nsqrt (NumOps:=N) (nsub (NumOps:=N) (nofZ (NumOps:=N) 1) (nmul (NumOps:=N) c c)))) = false) ->
  exists z g, vals (refract (F:=N) fy fn fr) z /\ 0 <= g /\ Rabs (normsqR z - 1) <= 1300 * u + 120 * dl /\
    near3 (51 * u + 5 * dl) z (along (scaleR r (tangent y n)) (- g) n) /\
    exists q, normsqR q <= 1 + 430 * u + 48 * dl /\ near3 (25 * u + 5 * dl) q (scaleR r (tangent y n)).
Proof.
  intros fr r Vr R4 H. cbv zeta in H. destruct cosine as (fc & c & Ec & Ef & Vc & Cd & C1). rewrite Ef in H. pose proof (sine fr fc r c Vr Vc R4 C1 H) as Sine. clear H Ef.
  destruct (bent_size u dl U DL y n r c R4 Sy Sn Cd C1 Sine) as (Qs & Qn). set (q := scaleR r (along y c n)) in *.
  destruct sizes as (S1 & S2). destruct (abs_comp y (101 / 100) ltac:(lra) ltac:(lra)) as (Y1 & Y2 & Y3). destruct (abs_comp n (101 / 100) ltac:(lra) ltac:(lra)) as (N1 & N2 & N3).
  assert (Bc : Rabs c <= 101 / 100) by (apply Rabs_le; lra).
  destruct Vy as (A1 & A2 & A3). destruct Vn as (C11 & C2 & C3).
  destruct (bend_comp prec emax Hp Hm lm P24 E64 _ _ _ _ _ _ _ _ Vr A1 Vc C11 R4 Y1 Bc N1) as (p1 & V1 & F1). destruct (bend_comp prec emax Hp Hm lm P24 E64 _ _ _ _ _ _ _ _ Vr A2 Vc C2 R4 Y2 Bc N2) as (p2 & V2 & F2). destruct (bend_comp prec emax Hp Hm lm P24 E64 _ _ _ _ _ _ _ _ Vr A3 Vc C3 R4 Y3 Bc N3) as (p3 & V3' & F3).
  set (fp := vscale (F:=N) fr (vadd (F:=N) fy (vscale (F:=N) fc fn))). set (p := V3 p1 p2 p3).
  assert (Vp : vals fp p) by (unfold fp, p, vals, P_Floats.vals, vscale, vadd; cbn [vx vy vz]; auto).
  assert (Pq : near3 (22 * u) p q) by (unfold near3, p, q, scaleR, along; cbn [vx vy vz]; auto).
  pose proof (perturb p q (22 * u) ltac:(lra) Pq ltac:(lra)) as Pp. apply Rabs_le_inv in Pp. assert (PB : normsqR p <= 11 / 10) by lra. assert (P0 : 0 <= normsqR p) by (unfold normsqR, dotR; nra).
  destruct (op_dot _ _ _ _ (11 / 10) Vp Vp ltac:(rewrite (absdot_self p); exact PB) ltac:(lra)) as (S & VS & ES). fold (normsqR p) in ES. change (dot (F:=N) fp fp) with (squared_norm (F:=N) fp) in VS.
  assert (ES5 : Rabs (S - normsqR p) <= 5 * u) by lra. apply Rabs_le_inv in ES. assert (BS : Rabs (1 - S) <= 11 / 10) by (apply Rabs_le; lra).
  destruct (op_minus _ _ _ _ one_v VS ltac:(lra)) as (w & Vw & Ew). assert (Ew2 : Rabs (w - (1 - S)) <= 2 * u) by nra.
  pose proof (abs_val prec emax Hp Hm lm _ _ Vw) as Va. destruct (op_sqrt _ _ Va (Rabs_pos w)) as (g & Vg & G0 & Eg). apply Rabs_le_inv in Eg.
  assert (Wb : Rabs w <= 111 / 100) by (pose proof (near_abs _ _ _ Ew2); lra). pose proof (sqrt_pos (Rabs w)) as Q0. pose proof (sqrt_sqrt (Rabs w) (Rabs_pos w)) as QQ.
  assert (Gs : Rabs (g * g - Rabs w) <= 3 * u).
  { rewrite <- QQ at 1. set (t := sqrt (Rabs w)) in *. clearbody t. assert (T2 : t <= 106 / 100) by (destruct (Rle_dec t (106 / 100)); [assumption|clear - n0 QQ Wb; nra]). replace (g * g - t * t) with ((g - t) * (g + t)) by ring. rewrite Rabs_mult.
    assert (G1 : Rabs (g - t) <= 107 / 100 * u) by (apply Rabs_le; clear - Eg T2 Q0 U; nra). assert (G2 : Rabs (g + t) <= 214 / 100) by (apply Rabs_le; clear - Eg T2 Q0 U G0; nra). pose proof (Rabs_pos (g - t)) as G3. pose proof (Rabs_pos (g + t)) as G4. clear - G1 G2 G3 G4 U; nra. }
  assert (Gb : Rabs (- g) <= 11 / 10). { rewrite Rabs_Ropp, Rabs_pos_eq by lra. apply Rabs_le_inv in Gs. clear - Gs Wb U G0; nra. }
  pose proof (neg_v _ _ Vg) as Vh. destruct (abs_comp p (11 / 10) ltac:(lra) ltac:(lra)) as (B1 & B2 & B3). cbn [p vx vy vz] in B1, B2, B3. destruct Vp as (D1 & D2 & D3).
  destruct (join_comp prec emax Hp Hm lm P24 E64 _ _ _ _ _ _ D1 Vh C11 B1 Gb N1) as (z1 & W1 & H1). destruct (join_comp prec emax Hp Hm lm P24 E64 _ _ _ _ _ _ D2 Vh C2 B2 Gb N2) as (z2 & W2 & H2). destruct (join_comp prec emax Hp Hm lm P24 E64 _ _ _ _ _ _ D3 Vh C3 B3 Gb N3) as (z3 & W3 & H3).
  assert (Zp : near3 (4 * u) (V3 z1 z2 z3) (along p (- g) n)) by (unfold near3, along; cbn [vx vy vz]; auto).
  assert (Qt : near3 (25 * u + 5 * dl) q (scaleR r (tangent y n))).
  { assert (Q : forall a b, Rabs b <= 101 / 100 -> Rabs (r * (a + c * b) - r * (a - dotR y n * b)) <= 25 * u + 5 * dl).
    { intros a b Hb. replace (r * (a + c * b) - r * (a - dotR y n * b)) with (r * ((c + dotR y n) * b)) by ring. rewrite !Rabs_mult, (Rabs_pos_eq r) by lra.
      pose proof (Rabs_pos (c + dotR y n)). pose proof (Rabs_pos b). assert (G5 : Rabs (c + dotR y n) * Rabs b <= (6 * u + dl) * (101 / 100)) by (apply Rmult_le_compat; lra). set (x := Rabs (c + dotR y n) * Rabs b) in *. clearbody x. clear - G5 R4 U DL; nra. }
    unfold near3, q, scaleR, along, tangent; cbn [vx vy vz]. auto. }
  exists (V3 z1 z2 z3), g. split; [|split; [exact G0|]; split; [|split]].
  - unfold refract. cbv zeta. rewrite Ec. fold fp. unfold vals, P_Floats.vals. cbn [vx vy vz vadd vscale]. auto.
  - eapply (joined_size u dl U DL p n q S w g); eassumption.
  - eapply near3_le; [eapply near3_tri; [exact Zp|]; eapply near3_tri; [apply near3_along; exact Pq|apply near3_along; exact Qt]|lra].
  - exists q. auto.
Qed.
End Parts.
End Refract.
