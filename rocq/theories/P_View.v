(** The camera built from a view in floating point. *)
From Coq Require Import Reals Lra ZArith Lia List Bool.
From Flocq Require Import Core Relative BinarySingleNaN.
From Verif Require Import Num XR FL Spec Spec_Light Spec_Accuracy Spec_Bend M_Vec M_Rng M_Hittable M_Image P_FL P_Round P_Accuracy P_Floats P_SphereFloat P_SphereHit P_Sampler P_FlatLeave P_Bend P_Refract P_Directions P_CameraFloat.
Import ListNotations.
Local Open Scope R_scope.

(** *** real vectors *)
Lemma normR_square : forall v, normR v * normR v = normsqR v.
Proof. intros v. unfold normR. apply sqrt_sqrt. unfold normsqR, dotR. nra. Qed.
(* the direction of a vector moved by a small part of its length *)
Lemma unit_moved : forall a b e, b <> V3 0 0 0 -> near3 (e * normR b) a b -> e <= 1 / 10 -> a <> V3 0 0 0 /\ near3 (4 * e) (unitR a) (unitR b).
Proof.
  intros a b e Zb (X1 & X2 & X3) He. destruct (unit_normsq b Zb) as (N1 & P). set (n := normR b) in *. assert (I0 : 0 < / n) by (apply Rinv_0_lt_compat; exact P).
  set (t := scaleR (/ n) a). assert (Nt : near3 e t (unitR b)).
  { unfold near3, t, unitR, scaleR; cbn [vx vy vz]. fold n. assert (Q : forall x y, Rabs (x - y) <= e * n -> Rabs (/ n * x - / n * y) <= e).
    { intros x y D. rewrite <- Rmult_minus_distr_l, Rabs_mult, (Rabs_pos_eq (/ n)) by lra. apply Rmult_le_reg_l with n; [exact P|]. rewrite <- Rmult_assoc, Rinv_r by lra. lra. }
    split; [|split]; apply Q; assumption. }
  pose proof (perturb t (unitR b) e ltac:(lra) Nt He) as D. rewrite N1 in D. assert (E0 : 0 <= e) by (destruct Nt as (Q & _); pose proof (Rabs_pos (vx t - vx (unitR b))); lra).
  assert (St : normsqR t = / n * / n * normsqR a) by (unfold t; apply scaled_normsq).
  assert (Za : a <> V3 0 0 0). { intros A0. assert (S0 : normsqR a = 0) by (rewrite A0; unfold normsqR, dotR; cbn [vx vy vz]; ring). rewrite S0, Rmult_0_r in St. rewrite St in D. apply Rabs_le_inv in D. lra. }
  split; [exact Za|]. pose proof (P_Vec.normR_pos a Za) as Pa. set (r := normR a * / n).
  assert (Rr : r * r = normsqR t) by (rewrite St, <- (normR_square a); unfold r; ring). assert (R0 : 0 < r) by (unfold r; nra). apply Rabs_le_inv in D. rewrite <- Rr in D.
  assert (R7 : 7 / 10 <= r) by nra. assert (Dr : Rabs (r - 1) <= 3 * e) by (apply Rabs_le; nra).
  assert (Ua : forall x, / normR a * x = / n * x * / r) by (intros x; unfold r; field; lra).
  destruct (unit_normsq a Za) as (N2 & _). destruct (abs_comp (unitR a) 1 ltac:(lra) ltac:(lra)) as (B1 & B2 & B3).
  assert (Q : forall x y, Rabs (/ n * x - y) <= e -> Rabs (/ normR a * x) <= 1 -> Rabs (/ normR a * x - y) <= 4 * e).
  { intros x y G L. replace (/ normR a * x - y) with ((/ n * x - y) + / normR a * x * (1 - r)) by (rewrite (Ua x); field; lra). eapply Rle_trans; [apply Rabs_triang|]. rewrite (Rabs_mult (/ normR a * x)), (Rabs_minus_sym 1 r).
    pose proof (Rabs_pos (/ normR a * x)). pose proof (Rabs_pos (r - 1)). nra. }
  destruct Nt as (T1 & T2 & T3). split; [|split]; apply Q; assumption.
Qed.
(* the products of two vectors moved a little *)
Lemma det_moved : forall a b c d a0 b0 c0 d0 e f P Q, Rabs (a - a0) <= e -> Rabs (c - c0) <= e -> Rabs (b - b0) <= f -> Rabs (d - d0) <= f -> Rabs a <= P -> Rabs c <= P -> Rabs b0 <= Q -> Rabs d0 <= Q ->
  Rabs ((a * b - c * d) - (a0 * b0 - c0 * d0)) <= 2 * (P * f + Q * e).
Proof.
  intros a b c d a0 b0 c0 d0 e f P Q A C B D Pa Pc Qb Qd. replace ((a * b - c * d) - (a0 * b0 - c0 * d0)) with ((a * (b - b0) + (a - a0) * b0) - (c * (d - d0) + (c - c0) * d0)) by ring.
  assert (M : forall x y X Y, Rabs x <= X -> Rabs y <= Y -> Rabs (x * y) <= X * Y) by (intros x y X Y H1 H2; rewrite Rabs_mult; apply Rmult_le_compat; auto using Rabs_pos).
  pose proof (M _ _ _ _ Pa B). pose proof (M _ _ _ _ A Qb). pose proof (M _ _ _ _ Pc D). pose proof (M _ _ _ _ C Qd).
  pose proof (Rabs_triang (a * (b - b0) + (a - a0) * b0) (- (c * (d - d0) + (c - c0) * d0))) as T. rewrite Rabs_Ropp in T. pose proof (Rabs_triang (a * (b - b0)) ((a - a0) * b0)). pose proof (Rabs_triang (c * (d - d0)) ((c - c0) * d0)). unfold Rminus at 1. lra.
Qed.
Lemma cross_moved : forall a b a0 b0 e f P Q, near3 e a a0 -> near3 f b b0 -> within3 P a -> within3 Q b0 -> near3 (2 * (P * f + Q * e)) (crossR a b) (crossR a0 b0).
Proof.
  intros a b a0 b0 e f P Q (A1 & A2 & A3) (B1 & B2 & B3) (P1 & P2 & P3) (Q1 & Q2 & Q3). unfold near3, crossR; cbn [vx vy vz]. split; [|split]; apply det_moved; assumption.
Qed.
Lemma near3_refl : forall v, near3 0 v v.
Proof. intros v. unfold near3, Rminus. rewrite !Rplus_opp_r, Rabs_R0. lra. Qed.

Section View.
Variables prec emax : Z.
Context (Hp : Prec_gt_0 prec) (Hm : Prec_lt_emax prec emax).
Variable lm : libm (binary_float prec emax).
Hypothesis P24 : (24 <= prec)%Z.
Hypothesis E64 : (64 <= emax)%Z.
Notation float := (binary_float prec emax).
Notation N := (FL prec emax Hp Hm lm).
Notation rnd := (round radix2 (SpecFloat.fexp prec emax) ZnearestE).
Notation val := (val prec emax).
Notation vals := (vals prec emax).
Notation b2 := (bpow radix2).
Notation u := (bpow radix2 (- prec)).
Let U : 0 < u <= / 16777216 := u24 prec P24.

(** *** the cross product *)
Lemma dop_abs : forall (fa fb fc fd : float) a b c d M, val fa a -> val fb b -> val fc c -> val fd d -> Rabs (a * b) <= M -> Rabs (c * d) <= M -> M <= 5 ->
  exists z, val (difference_of_products (F:=N) fa fb fc fd) z /\ Rabs (z - (a * b - c * d)) <= u * (4 * M + / 10).
Proof.
  intros fa fb fc fd a b c d M Va Vb Vc Vd B1 B2 M5. pose proof U as U0. pose proof (b64 emax E64) as B64. assert (M0 : 0 <= M) by (pose proof (Rabs_pos (a * b)); lra).
  assert (uM : 0 <= u * M <= / 3000000) by nra.
  pose proof (mult_val prec emax Hp Hm lm _ _ _ _ Vc Vd ltac:(lra)) as V1. pose proof (rnd_abs prec emax Hp P24 E64 (c * d)) as E1. set (p := rnd (c * d)) in *.
  assert (E1' : Rabs (p - c * d) <= u * M + u / 1000) by nra. clear E1. pose proof (near_abs _ _ _ E1') as N1.
  assert (E2a : Rabs (- c * d + p) <= u * M + u / 1000) by (replace (- c * d + p) with (p - c * d) by ring; exact E1').
  pose proof (fma_val prec emax Hp Hm lm _ _ _ _ _ _ (opp_val prec emax Hp Hm lm _ _ Vc) Vd V1 ltac:(lra)) as V2. pose proof (rnd_abs prec emax Hp P24 E64 (- c * d + p)) as E2. set (q := rnd (- c * d + p)) in *.
  assert (E2' : Rabs (q - (- c * d + p)) <= u / 100) by nra. clear E2. pose proof (near_abs _ _ _ E2') as N2.
  assert (T1 : Rabs (a * b + - p) <= 2 * M + u * M + u / 1000) by (eapply Rle_trans; [apply Rabs_triang|]; rewrite (Rabs_Ropp p); lra).
  pose proof (fma_val prec emax Hp Hm lm _ _ _ _ _ _ Va Vb (opp_val prec emax Hp Hm lm _ _ V1) ltac:(lra)) as V3. pose proof (rnd_abs prec emax Hp P24 E64 (a * b + - p)) as E3. set (r := rnd (a * b + - p)) in *.
  assert (E3' : Rabs (r - (a * b + - p)) <= 2 * (u * M) + u / 100) by nra. clear E3. pose proof (near_abs _ _ _ E3') as N3.
  assert (T2 : Rabs (r + q) <= 2 * M + / 200) by (eapply Rle_trans; [apply Rabs_triang|]; lra).
  pose proof (plus_val prec emax Hp Hm lm _ _ _ _ V3 V2 ltac:(lra)) as V4. pose proof (rnd_abs prec emax Hp P24 E64 (r + q)) as E4. set (z := rnd (r + q)) in *.
  assert (E4' : Rabs (z - (r + q)) <= 2 * (u * M) + u / 100) by nra. clear E4.
  exists z. split; [exact V4|]. replace (z - (a * b - c * d)) with ((z - (r + q)) + (r - (a * b + - p)) + (q - (- c * d + p))) by ring. eapply Rle_trans; [apply (proj2 (tri3 _ _ _))|]. lra.
Qed.
Lemma cross_abs : forall f g v w P Q, vals f v -> vals g w -> within3 P v -> within3 Q w -> P * Q <= 5 -> exists z, vals (cross (F:=N) f g) z /\ near3 (u * (4 * (P * Q) + / 10)) z (crossR v w).
Proof.
  intros f g v w P Q (A1 & A2 & A3) (B1 & B2 & B3) (P1 & P2 & P3) (Q1 & Q2 & Q3) H.
  assert (M : forall x y, Rabs x <= P -> Rabs y <= Q -> Rabs (x * y) <= P * Q) by (intros x y H1 H2; rewrite Rabs_mult; apply Rmult_le_compat; auto using Rabs_pos).
  destruct (dop_abs _ _ _ _ _ _ _ _ (P * Q) A2 B3 A3 B2 ltac:(auto) ltac:(auto) H) as (z1 & Z1 & D1). destruct (dop_abs _ _ _ _ _ _ _ _ (P * Q) A3 B1 A1 B3 ltac:(auto) ltac:(auto) H) as (z2 & Z2 & D2). destruct (dop_abs _ _ _ _ _ _ _ _ (P * Q) A1 B2 A2 B1 ltac:(auto) ltac:(auto) H) as (z3 & Z3 & D3).
  exists (V3 z1 z2 z3). split; [split; [exact Z1|split; [exact Z2|exact Z3]]|]. unfold near3, crossR; cbn [vx vy vz]. auto.
Qed.

(** *** normalising a vector of ordinary length *)
Lemma normalize_abs : forall f v, vals f v -> 9 / 100 <= normR v -> normsqR v <= 5 -> exists y, vals (normalize (F:=N) f) y /\ near3 (20 * u) y (unitR v).
Proof.
  intros f v Vv L S5. pose proof U as U0. set (n := normR v) in *. assert (NN : n * n = normsqR v) by apply normR_square. assert (N8 : 81 / 10000 <= n * n) by nra.
  assert (Ad : absdot v v <= normsqR v) by (pose proof (absdot_avg v v); lra).
  destruct (op_dot prec emax Hp Hm lm P24 E64 f f v v (normsqR v) Vv Vv Ad ltac:(lra)) as (a & Va & Ea). change (dotR v v) with (normsqR v) in Ea. rewrite <- NN in Ea.
  assert (Ea' : Rabs (a - n * n) <= 17 * u * (n * n)) by nra. clear Ea. pose proof Ea' as Ea''. apply Rabs_le_inv in Ea''. assert (A0 : 0 <= a) by nra.
  destruct (op_sqrt prec emax Hp Hm lm P24 E64 _ a Va A0) as (m & Vm & M0 & Em). change (dot (F:=N) f f) with (squared_norm (F:=N) f) in Vm. pose proof (sqrt_pos a) as S0. pose proof (sqrt_sqrt a A0) as SS. set (s := sqrt a) in *.
  assert (Ds : Rabs (s - n) <= 17 * u * n).
  { apply Rmult_le_reg_r with n; [lra|]. apply Rle_trans with (Rabs (a - n * n)); [|lra]. rewrite <- SS. replace (s * s - n * n) with ((s - n) * (s + n)) by ring. rewrite Rabs_mult, (Rabs_pos_eq (s + n)) by lra. apply Rmult_le_compat_l; [apply Rabs_pos|lra]. }
  apply Rabs_le_inv in Ds. apply Rabs_le_inv in Em. assert (un : 0 <= u * n <= / 16777216 * n) by nra. assert (us : u * s <= 101 / 100 * (u * n)) by nra. assert (uu : u * / 1000 <= 112 / 10000 * (u * n)) by nra.
  assert (Dm : -(181 / 10) * (u * n) <= m - n <= 181 / 10 * (u * n)) by lra. assert (Mp : 999 / 1000 * n <= m) by lra.
  assert (C : forall x (fx : float), val fx x -> Rabs x <= n -> exists y, val (ndiv (NumOps:=N) fx (norm (F:=N) f)) y /\ Rabs (y - / n * x) <= 20 * u).
  { intros x fx Vx Bx. assert (Q : Rabs (x / m) <= 1002 / 1000).
    { unfold Rdiv. rewrite Rabs_mult, (Rabs_pos_eq (/ m)) by (left; apply Rinv_0_lt_compat; lra). apply Rmult_le_reg_r with m; [lra|]. rewrite Rmult_assoc, Rinv_l by lra. lra. }
    exists (rnd (x / m)). split; [apply (div_val prec emax Hp Hm lm); [exact Vx|exact Vm|lra|]; pose proof (b64 emax E64); lra|].
    pose proof (rnd_abs prec emax Hp P24 E64 (x / m)) as R1. replace (rnd (x / m) - / n * x) with ((rnd (x / m) - x / m) + x / m * ((n - m) * / n)) by (field; lra).
    eapply Rle_trans; [apply Rabs_triang|]. rewrite (Rabs_mult (x / m)). assert (G : Rabs ((n - m) * / n) <= 181 / 10 * u).
    { rewrite Rabs_mult, (Rabs_pos_eq (/ n)) by (left; apply Rinv_0_lt_compat; lra). apply Rmult_le_reg_r with n; [lra|]. rewrite Rmult_assoc, Rinv_l by lra. rewrite Rmult_1_r. apply Rabs_le. lra. }
    pose proof (Rabs_pos (x / m)). pose proof (Rabs_pos ((n - m) * / n)). assert (Rabs (x / m) * Rabs ((n - m) * / n) <= 1002 / 1000 * (181 / 10 * u)) by (apply Rmult_le_compat; assumption). nra. }
  destruct (component_le v) as (L1 & L2 & L3). destruct Vv as (X1 & X2 & X3).
  destruct (C _ _ X1 L1) as (y1 & Y1 & D1). destruct (C _ _ X2 L2) as (y2 & Y2 & D2). destruct (C _ _ X3 L3) as (y3 & Y3 & D3).
  exists (V3 y1 y2 y3). split; [split; [exact Y1|split; [exact Y2|exact Y3]]|]. unfold near3, unitR, scaleR; cbn [vx vy vz]. auto.
Qed.

(** *** the axes of the camera *)
Variable k : Z.
Hypothesis K0 : (0 <= k)%Z.
Hypothesis K : (4 * k + 6 * prec + 16 <= emax)%Z.
Lemma axis : forall fo fp o p, vals fo o -> vals fp p -> moderate3 k o -> moderate3 k p -> subR o p <> V3 0 0 0 -> exists w, vals (normalize (F:=N) (vsub (F:=N) fo fp)) w /\ near3 (9 * u) w (unitR (subR o p)).
Proof.
  intros fo fp o p Vo Vp Mo Mp Z0. pose proof U as U0. destruct (centre_val prec emax Hp Hm lm k P24 K0 K fo fp o p Vo Vp Mo Mp) as (d & Vd & (G1 & G2 & G3) & (e1 & H1 & D1) & (e2 & H2 & D2) & (e3 & H3 & D3)).
  assert (Nd : near3 (u * normR (subR o p)) d (subR o p)).
  { destruct (component_le (subR o p)) as (L1 & L2 & L3). assert (Q : forall x y e, Rabs e <= u -> Rabs x <= normR (subR o p) -> y = x * (1 + e) -> Rabs (y - x) <= u * normR (subR o p)).
    { intros x y e He Hx ->. replace (x * (1 + e) - x) with (e * x) by ring. rewrite Rabs_mult. apply Rmult_le_compat; auto using Rabs_pos. }
    split; [|split]; [apply (Q _ _ e1)|apply (Q _ _ e2)|apply (Q _ _ e3)]; assumption. }
  destruct (unit_moved d (subR o p) u Z0 Nd ltac:(lra)) as (Zd & Ed).
  assert (Md : moderate3 (k + prec) d).
  { assert (Q : forall x y e z, moderate k x -> moderate k y -> Rabs e <= u -> z = (x - y) * (1 + e) -> grid (- k + 1 - prec) z -> moderate (k + prec) z).
    { intros x y e z Mx My He Ez Gz. destruct (grid_large _ _ Gz) as [|L]; [left; assumption|right]. split; [eapply Rle_trans; [|exact L]; apply bpow_le; lia|].
      pose proof (moderate_bound k x Mx) as Bx. pose proof (moderate_bound k y My) as By. rewrite Ez, Rabs_mult. apply Rle_trans with (2 * b2 k * 2).
      - apply Rmult_le_compat; auto using Rabs_pos; [eapply Rle_trans; [apply Rabs_triang|]; rewrite (Rabs_Ropp y); lra|]. apply Rabs_le_inv in He. apply Rabs_le. lra.
      - replace (2 * b2 k * 2) with (b2 (k + 2)) by (rewrite bpow_plus; cbn; ring). apply bpow_le. lia. }
    destruct Mo as (A1 & A2 & A3), Mp as (B1 & B2 & B3). split; [|split]; [apply (Q (vx o) (vx p) e1)|apply (Q (vy o) (vy p) e2)|apply (Q (vz o) (vz p) e3)]; assumption. }
  destruct (unit_computed prec emax Hp Hm lm (k + prec) P24 ltac:(lia) ltac:(lia) (vsub (F:=N) fo fp) d (V3 0 0 0)) as (w & Vw & Nw & _); [apply vals_fval; exact Vd|exact Md|exact Zd|unfold normsqR, dotR; cbn [vx vy vz]; lra|].
  exists w. split; [exact Vw|]. apply near3_le with (5 * u + 4 * u); [apply near3_tri with (unitR d); assumption|lra].
Qed.
Lemma within_near : forall e S a b, near3 e a b -> within3 S b -> within3 (S + e) a.
Proof. intros e S a b (A & B & C) (X & Y & Z0). pose proof (near_abs _ _ _ A). pose proof (near_abs _ _ _ B). pose proof (near_abs _ _ _ C). split; [|split]; lra. Qed.
Lemma within_le : forall S S' a, within3 S a -> S <= S' -> within3 S' a.
Proof. intros S S' a (A & B & C) H. split; [|split]; lra. Qed.
Lemma unit_within : forall v, v <> V3 0 0 0 -> within3 1 (unitR v).
Proof. intros v H. destruct (unit_normsq v H) as (E & _). apply abs_comp; lra. Qed.
Lemma cross_normsq : forall a b, normsqR (crossR a b) <= normsqR a * normsqR b.
Proof. intros [a1 a2 a3] [c1 c2 c3]. unfold normsqR, dotR, crossR; cbn [vx vy vz]. pose proof (pow2_ge_0 (a1 * c1 + a2 * c2 + a3 * c3)) as H. cbn [pow] in H. lra. Qed.
Section Axes.
Variables (fo fp fq : vec3 float) (o p q : vec3 R).
Hypothesis Vo : vals fo o.
Hypothesis Vp : vals fp p.
Hypothesis Vq : vals fq q.
Hypothesis Mo : moderate3 k o.
Hypothesis Mp : moderate3 k p.
Hypothesis Zd : subR o p <> V3 0 0 0.
Hypothesis Sq : normsqR q <= 4.
Let w0 := unitR (subR o p).
Hypothesis Lq : 1 / 10 <= normR (crossR q w0).
Let a0 := unitR (crossR q w0).
Lemma second_axis : exists w a, vals (normalize (F:=N) (vsub (F:=N) fo fp)) w /\ near3 (9 * u) w w0 /\ vals (normalize (F:=N) (cross (F:=N) fq (normalize (F:=N) (vsub (F:=N) fo fp)))) a /\ near3 (1900 * u) a a0.
Proof.
  pose proof U as U0. destruct (axis _ _ _ _ Vo Vp Mo Mp Zd) as (w & Vw & Nw). fold w0 in Nw. exists w.
  assert (Ww0 : within3 1 w0) by (apply unit_within; exact Zd). assert (Ww : within3 (1001 / 1000) w) by (apply within_le with (1 + 9 * u); [apply within_near with w0; assumption|lra]).
  assert (Wq : within3 2 q) by (apply abs_comp; lra).
  destruct (cross_abs _ _ _ _ 2 (1001 / 1000) Vq Vw Wq Ww ltac:(lra)) as (x & Vx & Nx).
  pose proof (cross_moved q w q w0 0 (9 * u) 2 1 (near3_refl q) Nw Wq Ww0) as Nc. pose proof (near3_tri _ _ _ _ _ Nx Nc) as Nt. apply near3_le with (e' := 45 * u) in Nt; [|lra].
  assert (Zc : crossR q w0 <> V3 0 0 0) by (intros E; rewrite E in Lq; unfold normR, normsqR, dotR in Lq; cbn [vx vy vz] in Lq; replace (0 * 0 + 0 * 0 + 0 * 0) with 0 in Lq by ring; rewrite sqrt_0 in Lq; lra).
  set (c := crossR q w0) in *. assert (Ne : near3 (450 * u * normR c) x c) by (apply near3_le with (45 * u); [exact Nt|nra]).
  destruct (unit_moved x c (450 * u) Zc Ne ltac:(lra)) as (Zx & Nu).
  assert (Sc : normsqR c <= 4) by (pose proof (cross_normsq q w0) as G; destruct (unit_normsq (subR o p) Zd) as (G1 & _); fold w0 in G1; rewrite G1 in G; unfold c; lra).
  assert (Bx : 9 / 100 <= normR x /\ normsqR x <= 5).
  { assert (Dc : Rabs (normsqR x - normsqR c) <= 1 / 1000).
    { destruct Nt as (A & B & C). destruct (abs_comp c 2 ltac:(lra) ltac:(lra)) as (C1 & C2 & C3). unfold normsqR, dotR.
      assert (Q : forall s t, Rabs (s - t) <= 45 * u -> Rabs t <= 2 -> Rabs (s * s - t * t) <= 1 / 3000).
      { intros s t D T. replace (s * s - t * t) with ((s - t) * (2 * t + (s - t))) by ring. rewrite Rabs_mult. pose proof (Rabs_triang (2 * t) (s - t)) as Tr. rewrite (Rabs_mult 2 t), (Rabs_pos_eq 2) in Tr by lra.
        apply Rle_trans with (45 * u * 5); [apply Rmult_le_compat; try apply Rabs_pos; lra|lra]. }
      pose proof (Q _ _ A C1). pose proof (Q _ _ B C2). pose proof (Q _ _ C C3).
      replace (vx x * vx x + vy x * vy x + vz x * vz x - (vx c * vx c + vy c * vy c + vz c * vz c)) with ((vx x * vx x - vx c * vx c) + (vy x * vy x - vy c * vy c) + (vz x * vz x - vz c * vz c)) by ring. eapply Rle_trans; [apply (proj2 (tri3 _ _ _))|]. lra. }
    apply Rabs_le_inv in Dc. split; [|lra]. pose proof (normR_square x). pose proof (normR_square c). pose proof (P_Vec.normR_nonneg x). nra. }
  destruct (normalize_abs _ x Vx (proj1 Bx) (proj2 Bx)) as (a & Va & Na). exists a. split; [exact Vw|]. split; [exact Nw|]. split; [exact Va|].
  apply near3_le with (20 * u + 4 * (450 * u)); [apply near3_tri with (unitR x); assumption|lra].
Qed.
Lemma third_axis : forall fw fa w a, vals fw w -> near3 (9 * u) w w0 -> vals fa a -> near3 (1900 * u) a a0 -> exists v, vals (cross (F:=N) fw fa) v /\ near3 (3900 * u) v (crossR w0 a0).
Proof.
  intros fw fa w a Vw Nw Va Na. pose proof U as U0.
  assert (Zc : crossR q w0 <> V3 0 0 0) by (intros E; rewrite E in Lq; unfold normR, normsqR, dotR in Lq; cbn [vx vy vz] in Lq; replace (0 * 0 + 0 * 0 + 0 * 0) with 0 in Lq by ring; rewrite sqrt_0 in Lq; lra).
  assert (Ww0 : within3 1 w0) by (apply unit_within; exact Zd). assert (Wa0 : within3 1 a0) by (apply unit_within; exact Zc).
  assert (Ww : within3 (1001 / 1000) w) by (apply within_le with (1 + 9 * u); [apply within_near with w0; assumption|lra]).
  assert (Wa : within3 (1001 / 1000) a) by (apply within_le with (1 + 1900 * u); [apply within_near with a0; assumption|lra]).
  destruct (cross_abs _ _ _ _ _ _ Vw Va Ww Wa ltac:(lra)) as (v & Vv & Nv). exists v. split; [exact Vv|].
  apply near3_le with (u * (4 * (1001 / 1000 * (1001 / 1000)) + / 10) + 2 * (1001 / 1000 * (1900 * u) + 1 * (9 * u))); [|lra].
  apply near3_tri with (crossR w a); [exact Nv|]. apply cross_moved; assumption.
Qed.
Lemma axes_within : within3 1 w0 /\ within3 1 a0 /\ within3 1 (crossR w0 a0).
Proof.
  assert (Zc : crossR q w0 <> V3 0 0 0) by (intros E; rewrite E in Lq; unfold normR, normsqR, dotR in Lq; cbn [vx vy vz] in Lq; replace (0 * 0 + 0 * 0 + 0 * 0) with 0 in Lq by ring; rewrite sqrt_0 in Lq; lra).
  split; [apply unit_within; exact Zd|]. split; [apply unit_within; exact Zc|]. apply abs_comp; [|lra]. pose proof (cross_normsq w0 a0) as G. destruct (unit_normsq _ Zd) as (G1 & _). destruct (unit_normsq _ Zc) as (G2 & _). fold w0 in G1. fold a0 in G2. rewrite G1, G2 in G. lra.
Qed.
End Axes.

(** *** the sides and the corner of the viewport *)
Lemma side : forall (fs fa : float) s a s0 a0 S e d, val fs s -> val fa a -> 0 <= s0 <= S -> S <= 32 -> Rabs (s - s0) <= e -> e <= 65 * u -> Rabs (a - a0) <= d -> Rabs a0 <= 1 -> d <= 3900 * u ->
  exists z, val (nmul (NumOps:=N) fs fa) z /\ Rabs (z - s0 * a0) <= u * (S + 1) + e * (1001 / 1000) + S * d.
Proof.
  intros fs fa s a s0 a0 S e d Vs Va Hs S32 Es He Ea B0 Hd. pose proof U as U0. pose proof (near_abs _ _ _ Es) as Ns. pose proof (near_abs _ _ _ Ea) as Na. rewrite (Rabs_pos_eq s0) in Ns by lra.
  assert (Sa : Rabs (s * a) <= (S + / 1000) * (1001 / 1000)) by (rewrite Rabs_mult; apply Rmult_le_compat; try apply Rabs_pos; lra).
  destruct (op_mult prec emax Hp Hm lm P24 E64 _ _ _ _ Vs Va ltac:(lra)) as (z & Vz & Ez). exists z. split; [exact Vz|].
  replace (z - s0 * a0) with ((z - s * a) + (s - s0) * a + s0 * (a - a0)) by ring. eapply Rle_trans; [apply (proj2 (tri3 _ _ _))|]. rewrite (Rabs_mult (s - s0)), (Rabs_mult s0), (Rabs_pos_eq s0) by lra.
  assert (Rabs (s - s0) * Rabs a <= e * (1001 / 1000)) by (apply Rmult_le_compat; try apply Rabs_pos; lra). assert (s0 * Rabs (a - a0) <= S * d) by (apply Rmult_le_compat; try apply Rabs_pos; lra). nra.
Qed.
Lemma side3 : forall (fs : float) fa s a s0 a0 S e d, val fs s -> vals fa a -> 0 <= s0 <= S -> S <= 32 -> Rabs (s - s0) <= e -> e <= 65 * u -> near3 d a a0 -> within3 1 a0 -> d <= 3900 * u ->
  exists z, vals (vscale (F:=N) fs fa) z /\ near3 (u * (S + 1) + e * (1001 / 1000) + S * d) z (scaleR s0 a0).
Proof.
  intros fs fa s a s0 a0 S e d Vs (A1 & A2 & A3) Hs S32 Es He (D1 & D2 & D3) (B1 & B2 & B3) Hd.
  destruct (side _ _ _ _ _ _ S e d Vs A1 Hs S32 Es He D1 B1 Hd) as (z1 & Z1 & E1). destruct (side _ _ _ _ _ _ S e d Vs A2 Hs S32 Es He D2 B2 Hd) as (z2 & Z2 & E2). destruct (side _ _ _ _ _ _ S e d Vs A3 Hs S32 Es He D3 B3 Hd) as (z3 & Z3 & E3).
  exists (V3 z1 z2 z3). split; [split; [exact Z1|split; [exact Z2|exact Z3]]|]. unfold near3, scaleR; cbn [vx vy vz]. auto.
Qed.
Variable B : R.
Hypothesis HB : 64 <= B.
Hypothesis HB2 : 2 * B <= b2 k.
Lemma B_sizes : b2 (- k) <= B <= b2 k.
Proof. assert (b2 (- k) <= 1) by (change 1 with (b2 0); apply bpow_le; lia). lra. Qed.
Lemma corner : forall (fo fh fv fw : float) o h v w h0 v0 w0, val fo o -> val fh h -> val fv v -> val fw w -> Rabs o <= B -> Rabs (h - h0) <= 60900 * u -> Rabs h0 <= 32 -> Rabs (v - v0) <= 31250 * u -> Rabs v0 <= 8 -> Rabs (w - w0) <= 9 * u -> Rabs w0 <= 1 ->
  exists z, val (nsub (NumOps:=N) (nsub (NumOps:=N) (nsub (NumOps:=N) fo (ndiv (NumOps:=N) fh (nofZ (NumOps:=N) 2))) (ndiv (NumOps:=N) fv (nofZ (NumOps:=N) 2))) fw) z /\
    Rabs (z - (o - h0 / 2 - v0 / 2 - w0)) <= 41 / 10 * (u * B) + 46200 * u.
Proof.
  intros fo fh fv fw o h v w h0 v0 w0 Vo Vh Vv Vw Bo Eh Bh Ev Bv Ew Bw. pose proof U as U0. pose proof (b64 emax E64) as B64. pose proof (two_v prec emax Hp Hm lm P24 E64) as V2.
  assert (uB : 0 < u * B <= / 1000000 * B) by (split; [apply Rmult_lt_0_compat; lra|apply Rmult_le_compat_r; lra]).
  pose proof (near_abs _ _ _ Eh) as Nh. pose proof (near_abs _ _ _ Ev) as Nv. pose proof (near_abs _ _ _ Ew) as Nw.
  assert (Half : forall t, Rabs (t / 2) = Rabs t / 2) by (intros t; unfold Rdiv; rewrite Rabs_mult, (Rabs_pos_eq (/ 2)) by lra; reflexivity).
  pose proof (div_val prec emax Hp Hm lm _ _ _ _ Vh V2 ltac:(lra) ltac:(rewrite Half; lra)) as Vp. pose proof (rnd_abs prec emax Hp P24 E64 (h / 2)) as Ep. rewrite Half in Ep. set (p := rnd (h / 2)) in *.
  assert (Ep' : Rabs (p - h / 2) <= 17 * u) by nra. clear Ep. pose proof (near_abs _ _ _ Ep') as Np. rewrite Half in Np.
  pose proof (div_val prec emax Hp Hm lm _ _ _ _ Vv V2 ltac:(lra) ltac:(rewrite Half; lra)) as Vq. pose proof (rnd_abs prec emax Hp P24 E64 (v / 2)) as Eq. rewrite Half in Eq. set (q := rnd (v / 2)) in *.
  assert (Eq' : Rabs (q - v / 2) <= 5 * u) by nra. clear Eq. pose proof (near_abs _ _ _ Eq') as Nq. rewrite Half in Nq.
  assert (Sub : forall x y, Rabs (x - y) <= Rabs x + Rabs y) by (intros x y; eapply Rle_trans; [apply Rabs_triang|]; rewrite (Rabs_Ropp y); lra).
  pose proof (Sub o p) as T1. destruct (op_size prec emax P24 E64 k K0 K B B_sizes (o - p) (126 / 100) ltac:(lra) ltac:(lra)) as (L1 & E1). pose proof (minus_val prec emax Hp Hm lm _ _ _ _ Vo Vp L1) as W1. set (a := rnd (o - p)) in *. pose proof (near_abs _ _ _ E1) as N1.
  pose proof (Sub a q) as T2. destruct (op_size prec emax P24 E64 k K0 K B B_sizes (a - q) (134 / 100) ltac:(lra) ltac:(lra)) as (L2 & E2). pose proof (minus_val prec emax Hp Hm lm _ _ _ _ W1 Vq L2) as W2. set (b := rnd (a - q)) in *. pose proof (near_abs _ _ _ E2) as N2.
  pose proof (Sub b w) as T3. destruct (op_size prec emax P24 E64 k K0 K B B_sizes (b - w) (137 / 100) ltac:(lra) ltac:(lra)) as (L3 & E3). pose proof (minus_val prec emax Hp Hm lm _ _ _ _ W2 Vw L3) as W3.
  eexists. split; [exact W3|]. set (z := rnd (b - w)) in *.
  replace (z - (o - h0 / 2 - v0 / 2 - w0)) with (((z - (b - w)) + (b - (a - q)) + (a - (o - p))) - ((p - h / 2) + (q - v / 2) + (w - w0)) - ((h - h0) / 2 + (v - v0) / 2)) by field.
  eapply Rle_trans; [apply Sub|]. pose proof (Sub ((z - (b - w)) + (b - (a - q)) + (a - (o - p))) ((p - h / 2) + (q - v / 2) + (w - w0))). pose proof (proj2 (tri3 (z - (b - w)) (b - (a - q)) (a - (o - p)))). pose proof (proj2 (tri3 (p - h / 2) (q - v / 2) (w - w0))). pose proof (Rabs_triang ((h - h0) / 2) ((v - v0) / 2)) as T6. rewrite !Half in T6. lra.
Qed.
Lemma corner3 : forall fo fh fv fw o h v w h0 v0 w0, vals fo o -> vals fh h -> vals fv v -> vals fw w -> within3 B o -> near3 (60900 * u) h h0 -> within3 32 h0 -> near3 (31250 * u) v v0 -> within3 8 v0 -> near3 (9 * u) w w0 -> within3 1 w0 ->
  exists z, vals (vsub (F:=N) (vsub (F:=N) (vsub (F:=N) fo (vdiv (F:=N) fh (nofZ (NumOps:=N) 2))) (vdiv (F:=N) fv (nofZ (NumOps:=N) 2))) fw) z /\
    near3 (41 / 10 * (u * B) + 46200 * u) z (subR (subR (subR o (scaleR (/ 2) h0)) (scaleR (/ 2) v0)) w0).
Proof.
  intros fo fh fv fw o h v w h0 v0 w0 (a1 & a2 & a3) (c1 & c2 & c3) (d1 & d2 & d3) (e1 & e2 & e3) (f1 & f2 & f3) (g1 & g2 & g3) (h1 & h2 & h3) (i1 & i2 & i3) (j1 & j2 & j3) (k1 & k2 & k3) (l1 & l2 & l3).
  destruct (corner _ _ _ _ _ _ _ _ _ _ _ a1 c1 d1 e1 f1 g1 h1 i1 j1 k1 l1) as (z1 & V1 & E1). destruct (corner _ _ _ _ _ _ _ _ _ _ _ a2 c2 d2 e2 f2 g2 h2 i2 j2 k2 l2) as (z2 & V2 & E2). destruct (corner _ _ _ _ _ _ _ _ _ _ _ a3 c3 d3 e3 f3 g3 h3 i3 j3 k3 l3) as (z3 & V3' & E3).
  exists (V3 z1 z2 z3). split; [split; [exact V1|split; [exact V2|exact V3']]|]. unfold near3, subR, scaleR; cbn [vx vy vz]. unfold Rdiv in E1, E2, E3. rewrite !(Rmult_comm (/ 2)). auto.
Qed.
Lemma scale_within : forall s S v, 0 <= s <= S -> within3 1 v -> within3 S (scaleR s v).
Proof.
  intros s S v Hs (A & B0 & C). unfold within3, scaleR; cbn [vx vy vz]. rewrite !Rabs_mult, (Rabs_pos_eq s) by lra. pose proof (Rabs_pos (vx v)). pose proof (Rabs_pos (vy v)). pose proof (Rabs_pos (vz v)). split; [|split]; nra.
Qed.
Lemma built_view : forall (fo fp fq : vec3 float) (ff fr : float) (o p q : vec3 R) (H A : R), map3 fval fo = fin3 o -> map3 fval fp = fin3 p -> map3 fval fq = fin3 q -> moderate3 k o -> moderate3 k p -> subR o p <> V3 0 0 0 -> normsqR q <= 4 ->
  let w0 := unitR (subR o p) in 1 / 10 <= normR (crossR q w0) -> let a0 := unitR (crossR q w0) in let v0 := crossR w0 a0 in
  fval (ntan (NumOps:=N) (ndiv (NumOps:=N) (ndiv (NumOps:=N) (nmul (NumOps:=N) ff (npi (NumOps:=N))) (nofZ (NumOps:=N) 180)) (nofZ (NumOps:=N) 2))) = Fin H -> 0 <= H <= 4 -> fval fr = Fin A -> 0 <= A <= 4 -> within3 B o ->
  let cam := make_camera (F:=N) fo fp fq ff fr in
  exists l h v, map3 fval (cam_lower_left cam) = fin3 l /\ map3 fval (cam_horizontal cam) = fin3 h /\ map3 fval (cam_vertical cam) = fin3 v /\
    near3 (60900 * u) h (scaleR (A * (2 * H)) a0) /\ near3 (31250 * u) v (scaleR (2 * H) v0) /\
    near3 (41 / 10 * (u * B) + 46200 * u) l (subR (subR (subR o (scaleR (/ 2) (scaleR (A * (2 * H)) a0))) (scaleR (/ 2) (scaleR (2 * H) v0))) w0) /\
    within3 32 (scaleR (A * (2 * H)) a0) /\ within3 8 (scaleR (2 * H) v0) /\ within3 1 w0.
Proof.
  intros fo fp fq ff fr o p q H A Fo Fp Fq Mo Mp Zd Sq w0 Lq a0 v0 FH HH FA HA Bo cam. pose proof U as U0. apply vals_fval in Fo, Fp, Fq.
  destruct (second_axis fo fp fq o p q Fo Fp Fq Mo Mp Zd Sq Lq) as (w & a & Vw & Nw & Va & Na). fold w0 a0 in Nw, Na.
  destruct (third_axis o p q Zd Lq _ _ w a Vw Nw Va Na) as (v & Vv & Nv). fold w0 a0 v0 in Nv.
  destruct (axes_within o p q Zd Lq) as (W1 & W2 & W3). fold w0 a0 v0 in W1, W2, W3.
  apply val_fval in FH, FA. set (fh := ntan (NumOps:=N) _) in FH.
  destruct (op_mult prec emax Hp Hm lm P24 E64 _ _ _ _ (two_v prec emax Hp Hm lm P24 E64) FH ltac:(rewrite Rabs_pos_eq; lra)) as (t & Vt & Et). rewrite (Rabs_pos_eq (2 * H)) in Et by lra.
  assert (Et' : Rabs (t - 2 * H) <= 81 / 10 * u) by nra. clear Et. pose proof (near_abs _ _ _ Et') as Nt. rewrite (Rabs_pos_eq (2 * H)) in Nt by lra.
  assert (Bt : Rabs (A * t) <= 321 / 10) by (rewrite Rabs_mult, (Rabs_pos_eq A) by lra; pose proof (Rabs_pos t); nra).
  destruct (op_mult prec emax Hp Hm lm P24 E64 _ _ _ _ FA Vt ltac:(lra)) as (s & Vs & Es).
  assert (Es' : Rabs (s - A * (2 * H)) <= 65 * u).
  { replace (s - A * (2 * H)) with ((s - A * t) + A * (t - 2 * H)) by ring. eapply Rle_trans; [apply Rabs_triang|]. rewrite (Rabs_mult A (t - 2 * H)), (Rabs_pos_eq A) by lra. pose proof (Rabs_pos (t - 2 * H)).
    assert (A * Rabs (t - 2 * H) <= 4 * (81 / 10 * u)) by (apply Rmult_le_compat; lra). assert (u * (Rabs (A * t) + / 1000) <= u * (322 / 10)) by (apply Rmult_le_compat_l; lra). lra. }
  assert (R32 : 0 <= A * (2 * H) <= 32) by nra.
  destruct (side3 _ _ s a (A * (2 * H)) a0 32 (65 * u) (1900 * u) Vs Va R32 ltac:(lra) Es' ltac:(lra) Na W2 ltac:(lra)) as (h & Vh & Nh).
  destruct (side3 _ _ t v (2 * H) v0 8 (81 / 10 * u) (3900 * u) Vt Vv ltac:(lra) ltac:(lra) Et' ltac:(lra) Nv W3 ltac:(lra)) as (v' & Vv' & Nv').
  apply near3_le with (e' := 60900 * u) in Nh; [|lra]. apply near3_le with (e' := 31250 * u) in Nv'; [|lra].
  pose proof (scale_within _ 32 _ R32 W2) as S1. pose proof (scale_within (2 * H) 8 _ ltac:(lra) W3) as S2.
  destruct (corner3 _ _ _ _ _ _ _ _ _ _ _ Fo Vh Vv' Vw Bo Nh S1 Nv' S2 Nw W1) as (l & Vl & Nl).
  exists l, h, v'. split; [apply vals_fval; exact Vl|]. split; [apply vals_fval; exact Vh|]. split; [apply vals_fval; exact Vv'|]. auto 10.
Qed.
Lemma view_rays : forall (fo fp fq : vec3 float) (ff fr : float) (o p q : vec3 R) (H A : R), map3 fval fo = fin3 o -> map3 fval fp = fin3 p -> map3 fval fq = fin3 q -> moderate3 k o -> moderate3 k p -> subR o p <> V3 0 0 0 -> normsqR q <= 4 ->
  let w0 := unitR (subR o p) in 1 / 10 <= normR (crossR q w0) -> let a0 := unitR (crossR q w0) in let v0 := crossR w0 a0 in
  fval (ntan (NumOps:=N) (ndiv (NumOps:=N) (ndiv (NumOps:=N) (nmul (NumOps:=N) ff (npi (NumOps:=N))) (nofZ (NumOps:=N) 180)) (nofZ (NumOps:=N) 2))) = Fin H -> 0 <= H <= 4 -> fval fr = Fin A -> 0 <= A <= 4 -> within3 B o ->
  forall width height i j g g', (2 <= width <= 2 ^ 24)%Z -> (2 <= height <= 2 ^ 24)%Z -> (0 <= i < width)%Z -> (0 <= j < height)%Z ->
  let r := fst (pcg_real_01 (F:=N) g) in let r' := fst (pcg_real_01 (F:=N) g') in
  exists x y out z, fval r = Fin x /\ 0 <= x <= 1 /\ fval r' = Fin y /\ 0 <= y <= 1 /\
    get_ray (F:=N) (make_camera (F:=N) fo fp fq ff fr) (pixel_u (F:=N) width i r) (pixel_v (F:=N) height j r') = Ray fo out /\ map3 fval out = fin3 z /\
    near3 (3700 * u * B) z (subR (addR (scaleR (2 * H * A * ((IZR i + x) / IZR (width - 1) - 1 / 2)) a0) (scaleR (2 * H * ((IZR j + y) / IZR (height - 1) - 1 / 2)) v0)) w0).
Proof.
  intros fo fp fq ff fr o p q H A Fo Fp Fq Mo Mp Zd Sq w0 Lq a0 v0 FH HH FA HA Bo width height i j g g' Hw Hh Hi Hj r r'. pose proof U as U0.
  destruct (built_view fo fp fq ff fr o p q H A Fo Fp Fq Mo Mp Zd Sq Lq FH HH FA HA Bo) as (l & h & v & Fl & Fh & Fv & Nh & Nv & Nl & Wh & Wv & Ww). fold w0 a0 v0 in Nh, Nv, Nl, Wh, Wv, Ww.
  assert (uB : 0 < u * B <= / 1000000 * B) by (split; [apply Rmult_lt_0_compat; lra|apply Rmult_le_compat_r; lra]). assert (u64 : 64 * u <= u * B) by nra.
  assert (HB' : b2 (- k) <= 3 / 2 * B <= b2 k) by (pose proof B_sizes; lra).
  assert (Bl : within3 (3 / 2 * B) l).
  { apply within_le with ((B + 32 / 2 + 8 / 2 + 1) + (41 / 10 * (u * B) + 46200 * u)); [|lra]. eapply within_near; [exact Nl|].
    set (hh := scaleR (A * (2 * H)) a0) in *. set (vv := scaleR (2 * H) v0) in *. clearbody hh vv. clear - Bo Wh Wv Ww. destruct Bo as (a1 & a2 & a3), Wh as (c1 & c2 & c3), Wv as (d1 & d2 & d3), Ww as (e1 & e2 & e3).
    assert (Q : forall a b c d, Rabs a <= B -> Rabs b <= 32 -> Rabs c <= 8 -> Rabs d <= 1 -> Rabs (a - / 2 * b - / 2 * c - d) <= B + 32 / 2 + 8 / 2 + 1) by (intros a b c d X1 X2 X3 X4; apply Rabs_le_inv in X1, X2, X3, X4; apply Rabs_le; lra).
    unfold within3, subR, scaleR; cbn [vx vy vz]. auto. }
  assert (Bh : within3 (3 / 2 * B) h) by (apply within_le with (32 + 60900 * u); [eapply within_near; eassumption|lra]).
  assert (Bv : within3 (3 / 2 * B) v) by (apply within_le with (8 + 31250 * u); [eapply within_near; eassumption|lra]).
  destruct (camera_rays prec emax Hp Hm lm P24 E64 k K0 K (3 / 2 * B) HB' (make_camera (F:=N) fo fp fq ff fr) o l h v Fo Fl Fh Fv ltac:(apply within_le with B; [exact Bo|lra]) Bl Bh Bv width height i j g g' Hw Hh Hi Hj) as (x & y & out & z & X1 & X2 & Y1 & Y2 & G & Fz & Nz).
  fold r in X1, G. fold r' in Y1, G. exists x, y, out, z. split; [exact X1|]. split; [exact X2|]. split; [exact Y1|]. split; [exact Y2|]. split; [exact G|]. split; [exact Fz|].
  pose proof (quotient width i x Hw Hi X2) as Qs. pose proof (quotient height j y Hh Hj Y2) as Qt. set (s := (IZR i + x) / IZR (width - 1)) in *. set (t := (IZR j + y) / IZR (height - 1)) in *. clearbody s t.
  clear - U0 uB u64 Nh Nv Nl Nz Qs Qt. apply near3_le with (28 * u * (3 / 2 * B) + (41 / 10 * (u * B) + 46200 * u + 2 * (60900 * u) + 2 * (31250 * u))); [|lra]. eapply near3_tri; [exact Nz|].
  assert (Q : forall o l h v h0 v0 w, Rabs (h - A * (2 * H) * h0) <= 60900 * u -> Rabs (v - 2 * H * v0) <= 31250 * u -> Rabs (l - (o - / 2 * (A * (2 * H) * h0) - / 2 * (2 * H * v0) - w)) <= 41 / 10 * (u * B) + 46200 * u ->
    Rabs (l + s * h + t * v - o - (2 * H * A * (s - 1 / 2) * h0 + 2 * H * (t - 1 / 2) * v0 - w)) <= 41 / 10 * (u * B) + 46200 * u + 2 * (60900 * u) + 2 * (31250 * u)).
  { clear - Qs Qt. intros o l h v h0 v0 w X1 X2 X3. set (h1 := h - A * (2 * H) * h0) in *. set (v1 := v - 2 * H * v0) in *. set (l1 := l - _) in X3.
    replace (l + s * h + t * v - o - (2 * H * A * (s - 1 / 2) * h0 + 2 * H * (t - 1 / 2) * v0 - w)) with (l1 + s * h1 + t * v1) by (unfold l1, h1, v1; field). eapply Rle_trans; [apply (proj2 (tri3 _ _ _))|]. rewrite (Rabs_mult s), (Rabs_mult t), (Rabs_pos_eq s), (Rabs_pos_eq t) by lra.
    pose proof (Rabs_pos h1). pose proof (Rabs_pos v1). assert (s * Rabs h1 <= 2 * (60900 * u)) by (apply Rmult_le_compat; lra). assert (t * Rabs v1 <= 2 * (31250 * u)) by (apply Rmult_le_compat; lra). lra. }
  destruct Nh as (h1 & h2 & h3), Nv as (v1 & v2 & v3), Nl as (l1 & l2 & l3). unfold near3, subR, addR, scaleR in *; cbn [vx vy vz] in *. split; [|split]; apply Q; assumption.
Qed.
End View.
