(** Rounding errors of dot, squared_norm, norm and normalize, in every format. *)
From Coq Require Import Reals Lra Psatz ZArith Lia List Bool.
From Flocq Require Import Core BinarySingleNaN.
From Verif Require Import Num XR FL Spec Spec_Accuracy M_Vec P_FL P_Round P_Accuracy.
Import ListNotations.
Local Open Scope R_scope.

Section Floats.
Variables prec emax : Z.
Context (Hp : Prec_gt_0 prec) (Hm : Prec_lt_emax prec emax).
Variable lm : libm (binary_float prec emax).
Notation float := (binary_float prec emax).
Notation N := (FL prec emax Hp Hm lm).
Notation rnd := (round radix2 (SpecFloat.fexp prec emax) ZnearestE).
Notation val := (val prec emax).
Notation b2 := (bpow radix2).
Notation u := (bpow radix2 (- prec)).
Hypothesis P8 : (8 <= prec)%Z.

Lemma rel_grid : forall l x, (2 - emax <= l)%Z -> grid l x -> exists d, Rabs d <= u /\ rnd x = x * (1 + d) /\ grid l (rnd x).
Proof.
  intros l x L G. destruct (rel prec emax Hp x) as (d & D & E).
  - destruct (grid_large _ _ G) as [|H]; [left; assumption|right]. eapply Rle_trans; [|exact H]. apply bpow_le. exact L.
  - exists d. split; [exact D|]. split; [exact E|]. apply rnd_grid; [|exact G]. unfold SpecFloat.emin. lia.
Qed.
Lemma factor_le : forall x d, Rabs d <= u -> Rabs (x * (1 + d)) <= (1 + u) * Rabs x.
Proof.
  intros x d H. rewrite Rabs_mult, Rmult_comm. apply Rmult_le_compat_r; [apply Rabs_pos|]. pose proof (u_small prec P8). apply Rabs_le_inv in H. apply Rabs_le. lra.
Qed.
(** a product of two floats on grids *)
Lemma product_val : forall (x y : float) a b l l' B, val x a -> val y b -> grid l a -> grid l' b -> (2 - emax <= l + l')%Z -> Rabs (a * b) <= B -> B <= b2 (emax - 1) ->
  exists p d, val (nmul (NumOps:=N) x y) p /\ Rabs d <= u /\ p = a * b * (1 + d) /\ grid (l + l') p.
Proof.
  intros x y a b l l' B X Y Ga Gb L HB H. destruct (rel_grid (l + l') (a * b) L (grid_mult _ _ _ _ Ga Gb)) as (d & D & E & G).
  exists (rnd (a * b)), d. split; [apply mult_val; auto; lra|]. auto.
Qed.
Lemma sum_val : forall (x y : float) a b l B, val x a -> val y b -> grid l a -> grid l b -> (2 - emax <= l)%Z -> Rabs (a + b) <= B -> B <= b2 (emax - 1) ->
  exists p d, val (nadd (NumOps:=N) x y) p /\ Rabs d <= u /\ p = (a + b) * (1 + d) /\ grid l p.
Proof.
  intros x y a b l B X Y Ga Gb L HB H. destruct (rel_grid l (a + b) L (grid_plus _ _ _ Ga Gb)) as (d & D & E & G).
  exists (rnd (a + b)), d. split; [apply plus_val; auto; lra|]. auto.
Qed.
Lemma diff_val : forall (x y : float) a b l B, val x a -> val y b -> grid l a -> grid l b -> (2 - emax <= l)%Z -> Rabs (a - b) <= B -> B <= b2 (emax - 1) ->
  exists p d, val (nsub (NumOps:=N) x y) p /\ Rabs d <= u /\ p = (a - b) * (1 + d) /\ grid l p.
Proof.
  intros x y a b l B X Y Ga Gb L HB H. destruct (rel_grid l (a - b) L (grid_plus _ _ _ Ga (grid_opp _ _ Gb))) as (d & D & E & G).
  exists (rnd (a - b)), d. split; [apply minus_val; auto; lra|]. auto.
Qed.

(** the three products and their sum *)
Definition vals (f : vec3 float) (v : vec3 R) : Prop := val (vx f) (vx v) /\ val (vy f) (vy v) /\ val (vz f) (vz v).
Definition grids (l : Z) (v : vec3 R) : Prop := grid l (vx v) /\ grid l (vy v) /\ grid l (vz v).
Definition absdot (v w : vec3 R) : R := Rabs (vx v * vx w) + Rabs (vy v * vy w) + Rabs (vz v * vz w).
Lemma dot_val : forall (f g : vec3 float) (v w : vec3 R) l l', vals f v -> vals g w -> grids l v -> grids l' w -> (2 - emax <= l + l')%Z -> 2 * absdot v w <= b2 (emax - 1) ->
  exists s, val (dot (F:=N) f g) s /\ Rabs (s - dotR v w) <= 4 * u * absdot v w /\ grid (l + l') s.
Proof.
  intros [f1 f2 f3] [g1 g2 g3] [v1 v2 v3] [w1 w2 w3] l l' (A1 & A2 & A3) (B1 & B2 & B3) (G1 & G2 & G3) (H1 & H2 & H3) L Bd. unfold absdot, dotR, dot in *. cbn [vx vy vz] in *.
  pose proof (u_small prec P8) as U. pose proof (Rabs_pos (v1 * w1)) as Q1. pose proof (Rabs_pos (v2 * w2)) as Q2. pose proof (Rabs_pos (v3 * w3)) as Q3.
  destruct (product_val f1 g1 v1 w1 l l' (b2 (emax - 1)) A1 B1 G1 H1 L) as (p1 & d1 & V1 & D1 & E1 & K1); [lra|lra|].
  destruct (product_val f2 g2 v2 w2 l l' (b2 (emax - 1)) A2 B2 G2 H2 L) as (p2 & d2 & V2 & D2 & E2 & K2); [lra|lra|].
  destruct (product_val f3 g3 v3 w3 l l' (b2 (emax - 1)) A3 B3 G3 H3 L) as (p3 & d3 & V3 & D3 & E3 & K3); [lra|lra|].
  pose proof (factor_le (v1 * w1) d1 D1) as R1. pose proof (factor_le (v2 * w2) d2 D2) as R2. pose proof (factor_le (v3 * w3) d3 D3) as R3. rewrite <- E1 in R1. rewrite <- E2 in R2. rewrite <- E3 in R3.
  set (m1 := Rabs (v1 * w1)) in *. set (m2 := Rabs (v2 * w2)) in *. set (m3 := Rabs (v3 * w3)) in *.
  assert (Um : forall m, 0 <= m -> (1 + u) * m <= 257 / 256 * m) by (intros; nra).
  pose proof (Um m1 Q1). pose proof (Um m2 Q2). pose proof (Um m3 Q3).
  assert (V0 : val (nadd (NumOps:=N) (nofZ (NumOps:=N) 0) (nmul (NumOps:=N) f1 g1)) p1).
  { rewrite <- (rnd_id prec emax p1 (val_format _ _ _ _ V1)). replace p1 with (0 + p1) at 1 by ring. apply plus_val; [apply zero_val|exact V1|]. rewrite Rplus_0_l. lra. }
  assert (T1 : Rabs (p1 + p2) <= Rabs p1 + Rabs p2) by apply Rabs_triang.
  destruct (sum_val _ _ p1 p2 (l + l') (b2 (emax - 1)) V0 V2 K1 K2 L) as (s1 & e1 & W1 & X1 & Y1 & Z1); [lra|lra|].
  pose proof (factor_le (p1 + p2) e1 X1) as R4. rewrite <- Y1 in R4. pose proof (Um (Rabs (p1 + p2)) (Rabs_pos _)).
  assert (T2 : Rabs (s1 + p3) <= Rabs s1 + Rabs p3) by apply Rabs_triang.
  destruct (sum_val _ _ s1 p3 (l + l') (b2 (emax - 1)) W1 V3 Z1 K3 L) as (s2 & e2 & W2 & X2 & Y2 & Z2); [lra|lra|].
  exists s2. split; [exact W2|]. split; [|exact Z2].
  rewrite Y2, Y1, E1, E2, E3.
  assert (C3 : forall x y z w, Rabs x <= u -> Rabs y <= u -> Rabs z <= u -> Rabs (w * (1 + x) * (1 + y) * (1 + z) - w) <= 4 * u * Rabs w).
  { intros x y z w X Y Z. replace (w * (1 + x) * (1 + y) * (1 + z) - w) with (w * (x + y + z + (x * y + y * z + x * z) + x * y * z)) by ring. rewrite Rabs_mult, Rmult_comm. apply Rmult_le_compat_r; [apply Rabs_pos|].
    apply Rabs_le_inv in X, Y, Z. assert (I : forall a b, - u <= a <= u -> - u <= b <= u -> - (u * u) <= a * b <= u * u) by (intros; split; nra). pose proof (I x y X Y). pose proof (I y z Y Z). pose proof (I x z X Z).
    assert (J : - (u * u) <= x * y * z <= u * u) by (split; nra). apply Rabs_le. split; nra. }
  assert (C2 : forall x y w, Rabs x <= u -> Rabs y <= u -> Rabs (w * (1 + x) * (1 + y) - w) <= 4 * u * Rabs w).
  { intros x y w X Y. replace (w * (1 + x) * (1 + y) - w) with (w * (1 + x) * (1 + y) * (1 + 0) - w) by ring. apply C3; auto. rewrite Rabs_R0. lra. }
  replace (((v1 * w1 * (1 + d1) + v2 * w2 * (1 + d2)) * (1 + e1) + v3 * w3 * (1 + d3)) * (1 + e2) - (v1 * w1 + v2 * w2 + v3 * w3))
    with ((v1 * w1 * (1 + d1) * (1 + e1) * (1 + e2) - v1 * w1) + (v2 * w2 * (1 + d2) * (1 + e1) * (1 + e2) - v2 * w2) + (v3 * w3 * (1 + d3) * (1 + e2) - v3 * w3)) by ring.
  eapply Rle_trans; [apply Rabs_triang|]. pose proof (C3 d1 e1 e2 (v1 * w1) D1 X1 X2) as F1. pose proof (C3 d2 e1 e2 (v2 * w2) D2 X1 X2) as F2. pose proof (C2 d3 e2 (v3 * w3) D3 X2) as F3. fold m1 in F1. fold m2 in F2. fold m3 in F3.
  pose proof (Rabs_triang (v1 * w1 * (1 + d1) * (1 + e1) * (1 + e2) - v1 * w1) (v2 * w2 * (1 + d2) * (1 + e1) * (1 + e2) - v2 * w2)). lra.
Qed.
Lemma absdot_self : forall v, absdot v v = normsqR v.
Proof.
  intros [x y z]. unfold absdot, normsqR, dotR. cbn [vx vy vz]. rewrite !Rabs_pos_eq by nra. reflexivity.
Qed.

(** *** normalize *)
Variable k : Z.
Hypothesis K0 : (0 <= k)%Z.
Hypothesis K : (2 * k + 2 * prec + 8 <= emax)%Z.
Definition moderates (v : vec3 R) : Prop := moderate k (vx v) /\ moderate k (vy v) /\ moderate k (vz v).

Lemma moderates_grids : forall f v, vals f v -> moderates v -> grids (- k + 1 - prec) v.
Proof.
  intros f v (A & B & C) (D & E & G). repeat split; eapply moderate_grid; eauto; eapply val_format; eassumption.
Qed.
Lemma absdot_bound : forall v w, moderates v -> moderates w -> absdot v w <= 3 * b2 (2 * k).
Proof.
  intros v w (A & B & C) (D & E & G). unfold absdot. pose proof (product_bound k _ _ A D). pose proof (product_bound k _ _ B E). pose proof (product_bound k _ _ C G). lra.
Qed.
Lemma dot_accurate : forall f g v w, vals f v -> vals g w -> moderates v -> moderates w ->
  exists s, val (dot (F:=N) f g) s /\ Rabs (s - dotR v w) <= 4 * u * absdot v w /\ grid (2 * (- k + 1 - prec)) s.
Proof.
  intros f g v w A B Mv Mw. destruct (dot_val f g v w (- k + 1 - prec) (- k + 1 - prec)) as (s & V & E & G); auto.
  - eapply moderates_grids; eassumption.
  - eapply moderates_grids; eassumption.
  - lia.
  - pose proof (absdot_bound v w Mv Mw). apply Rle_trans with (8 * b2 (2 * k)); [pose proof (bpow_gt_0 radix2 (2 * k)); lra|]. change 8 with (b2 3). rewrite <- bpow_plus. apply bpow_le. lia.
  - exists s. split; [exact V|]. split; [exact E|]. replace (2 * (- k + 1 - prec))%Z with (- k + 1 - prec + (- k + 1 - prec))%Z by ring. exact G.
Qed.
Lemma normsq_low : forall v, moderates v -> v <> V3 0 0 0 -> b2 (- (2 * k)) <= normsqR v.
Proof.
  intros [x y z] (A & B & C) Z. unfold normsqR, dotR. cbn [vx vy vz] in *.
  assert (Q : forall a, moderate k a -> a = 0 \/ b2 (- (2 * k)) <= a * a).
  { intros a M. destruct (product_low k a a M M) as [E|E]; [left; nra|right]. rewrite Rabs_pos_eq in E by nra. exact E. }
  pose proof (bpow_gt_0 radix2 (- (2 * k))). destruct (Q x A) as [X|X]; [|nra]. destruct (Q y B) as [Y|Y]; [|nra]. destruct (Q z C) as [W|W]; [|nra]. subst. contradiction.
Qed.
Lemma sqrt1_close : forall e, Rabs e <= 4 * u -> exists g, sqrt (1 + e) = 1 + g /\ Rabs g <= 21 / 10 * u.
Proof.
  intros e H. pose proof (u_small prec P8) as U. apply Rabs_le_inv in H. exists (sqrt (1 + e) - 1). split; [ring|].
  pose proof (sqrt_pos (1 + e)) as S0. assert (S2 : sqrt (1 + e) * sqrt (1 + e) = 1 + e) by (apply sqrt_sqrt; lra). set (s := sqrt (1 + e)) in *. apply Rabs_le. split.
  - destruct (Rle_lt_dec (1 - 21 / 10 * u) s) as [|C]; [lra|exfalso]. assert (s * s <= (1 - 21 / 10 * u) * (1 - 21 / 10 * u)) by (apply Rmult_le_compat; lra). nra.
  - destruct (Rle_lt_dec s (1 + 21 / 10 * u)) as [|C]; [lra|exfalso]. assert ((1 + 21 / 10 * u) * (1 + 21 / 10 * u) <= s * s) by (apply Rmult_le_compat; lra). nra.
Qed.
Lemma norm_accurate : forall f v, vals f v -> moderates v -> v <> V3 0 0 0 ->
  exists t g, val (norm (F:=N) f) t /\ t = normR v * (1 + g) /\ Rabs g <= 33 / 10 * u.
Proof.
  intros f v A M Z. pose proof (u_small prec P8) as U. destruct (dot_accurate f f v v A A M M) as (s & V & E & G). rewrite absdot_self in E. change (dotR v v) with (normsqR v) in E.
  pose proof (normsq_low v M Z) as Lo. set (n2 := normsqR v) in *. assert (n20 : 0 < n2) by (pose proof (bpow_gt_0 radix2 (- (2 * k))); lra).
  set (e := s / n2 - 1). assert (Es : s = n2 * (1 + e)) by (unfold e; field; lra).
  assert (He : Rabs e <= 4 * u).
  { apply Rmult_le_reg_r with n2; [exact n20|]. rewrite <- (Rabs_pos_eq n2) at 1 by lra. rewrite <- Rabs_mult. replace (e * n2) with (s - n2) by (unfold e; field; lra). exact E. }
  destruct (sqrt1_close e He) as (h & Eh & Hh). pose proof He as He'. apply Rabs_le_inv in He'.
  assert (s0 : 0 <= s) by (rewrite Es; apply Rmult_le_pos; lra).
  assert (Sq : sqrt s = normR v * (1 + h)) by (rewrite Es, sqrt_mult, Eh by lra; reflexivity).
  destruct (rel prec emax Hp (sqrt s)) as (d & D & Ed).
  { right. rewrite Rabs_pos_eq by apply sqrt_pos. apply Rle_trans with (sqrt (b2 (2 * (- k + 1 - prec)))).
    - replace (2 * (- k + 1 - prec))%Z with ((- k + 1 - prec) + (- k + 1 - prec))%Z by ring. rewrite bpow_plus, sqrt_square by apply bpow_ge_0. apply bpow_le. lia.
    - apply sqrt_le_1_alt. destruct (grid_large _ _ G) as [Zs|H]; [|rewrite Rabs_pos_eq in H by exact s0; exact H]. exfalso. rewrite Es in Zs. assert (0 < n2 * (1 + e)) by (apply Rmult_lt_0_compat; lra). lra. }
  exists (normR v * (1 + h) * (1 + d)), ((1 + h) * (1 + d) - 1). split; [|split; [ring|]].
  - rewrite <- Sq, <- Ed. apply sqrt_val; [exact V|exact s0].
  - replace ((1 + h) * (1 + d) - 1) with (h + d + h * d) by ring. eapply Rle_trans; [apply Rabs_triang|]. rewrite Rabs_mult. assert (Rabs (h + d) <= Rabs h + Rabs d) by apply Rabs_triang. assert (Rabs h * Rabs d <= 21 / 10 * u * u) by (apply Rmult_le_compat; auto using Rabs_pos). nra.
Qed.
Lemma component_le : forall v, Rabs (vx v) <= normR v /\ Rabs (vy v) <= normR v /\ Rabs (vz v) <= normR v.
Proof.
  intros [x y z]. unfold normR, normsqR, dotR. cbn [vx vy vz]. rewrite <- (sqrt_Rsqr_abs x), <- (sqrt_Rsqr_abs y), <- (sqrt_Rsqr_abs z). unfold Rsqr. repeat split; apply sqrt_le_1_alt; nra.
Qed.
Lemma quotient_accurate : forall (f g : float) x n h, val f x -> moderate k x -> val g (n * (1 + h)) -> Rabs h <= 33 / 10 * u -> b2 (- k) <= n <= 2 * b2 k -> exists y, val (ndiv (NumOps:=N) f g) y /\ Rabs (y - x / n) <= 5 * u * Rabs (x / n).
Proof.
  intros f g x n h V M W H Bn. pose proof (u_small prec P8) as U. pose proof (bpow_gt_0 radix2 (- k)) as T2. pose proof (bpow_gt_0 radix2 k) as T1. pose proof H as H'. apply Rabs_le_inv in H'.
  assert (A : n * (1 / 2) <= n * (1 + h) <= n * 2) by (split; apply Rmult_le_compat_l; lra).
  destruct (div_rel prec emax Hp Hm lm k K P8 f g x (n * (1 + h)) V W) as (d & D & E).
  - lra.
  - destruct M as [->|[M _]]; [left; reflexivity|right; lra].
  - pose proof (moderate_bound k x M). lra.
  - rewrite Rabs_pos_eq by lra. lra.
  - exists (x / (n * (1 + h)) * (1 + d)). split; [exact E|]. apply Rabs_le_inv in D.
    replace (x / (n * (1 + h)) * (1 + d) - x / n) with (x / n * ((d - h) / (1 + h))) by (field; lra). rewrite Rabs_mult, Rmult_comm. apply Rmult_le_compat_r; [apply Rabs_pos|].
    unfold Rdiv. rewrite Rabs_mult, (Rabs_pos_eq (/ (1 + h))) by (left; apply Rinv_0_lt_compat; lra). apply Rmult_le_reg_r with (1 + h); [lra|]. rewrite Rmult_assoc, Rinv_l, Rmult_1_r by lra.
    assert (Rabs (d - h) <= 43 / 10 * u) by (apply Rabs_le; lra). assert (43 / 10 * u <= 5 * u * (1 + h)) by nra. lra.
Qed.
Lemma normR_bounds : forall v, moderates v -> v <> V3 0 0 0 -> b2 (- k) <= normR v <= 2 * b2 k.
Proof.
  intros v M Z. pose proof (normsq_low v M Z) as Lo. pose proof (absdot_bound v v M M) as Hi. rewrite absdot_self in Hi. unfold normR. pose proof (bpow_gt_0 radix2 k). split.
  - rewrite <- (sqrt_square (b2 (- k))) by apply bpow_ge_0. apply sqrt_le_1_alt. rewrite <- bpow_plus. replace (- k + - k)%Z with (- (2 * k))%Z by ring. exact Lo.
  - rewrite <- (sqrt_square (2 * b2 k)) by lra. apply sqrt_le_1_alt. replace (2 * b2 k * (2 * b2 k)) with (4 * b2 (2 * k)); [pose proof (bpow_gt_0 radix2 (2 * k)); lra|]. replace (2 * k)%Z with (k + k)%Z by ring. rewrite bpow_plus. ring.
Qed.
Lemma normalize_accurate : forall f v, vals f v -> moderates v -> v <> V3 0 0 0 ->
  exists y, vals (normalize (F:=N) f) y /\
    (Rabs (vx y - vx v / normR v) <= 5 * u * Rabs (vx v / normR v) /\ Rabs (vy y - vy v / normR v) <= 5 * u * Rabs (vy v / normR v) /\ Rabs (vz y - vz v / normR v) <= 5 * u * Rabs (vz v / normR v)) /\
    Rabs (normR y - 1) <= 5 * u.
Proof.
  intros f v A M Z. pose proof (u_small prec P8) as U. destruct (norm_accurate f v A M Z) as (t & g & Vt & Et & Hg). pose proof (normR_bounds v M Z) as Bn. rewrite Et in Vt.
  destruct A as (A1 & A2 & A3). pose proof M as (M1 & M2 & M3).
  destruct (quotient_accurate (vx f) _ (vx v) (normR v) g A1 M1 Vt Hg Bn) as (y1 & Y1 & E1).
  destruct (quotient_accurate (vy f) _ (vy v) (normR v) g A2 M2 Vt Hg Bn) as (y2 & Y2 & E2).
  destruct (quotient_accurate (vz f) _ (vz v) (normR v) g A3 M3 Vt Hg Bn) as (y3 & Y3 & E3).
  exists (V3 y1 y2 y3). split; [split; [exact Y1|split; [exact Y2|exact Y3]]|]. cbn [vx vy vz]. split; [auto|].
  assert (n0 : 0 < normR v) by (pose proof (bpow_gt_0 radix2 (- k)); lra). set (n := normR v) in *.
  assert (One : vx v / n * (vx v / n) + vy v / n * (vy v / n) + vz v / n * (vz v / n) = 1).
  { assert (n * n = vx v * vx v + vy v * vy v + vz v * vz v) by (unfold n, normR; rewrite sqrt_sqrt; [reflexivity|unfold normsqR, dotR; nra]). replace (vx v / n * (vx v / n) + vy v / n * (vy v / n) + vz v / n * (vz v / n)) with ((vx v * vx v + vy v * vy v + vz v * vz v) / (n * n)) by (field; lra). rewrite <- H. field. lra. }
  set (a1 := vx v / n) in *. set (a2 := vy v / n) in *. set (a3 := vz v / n) in *.
  assert (Sq : forall y a, Rabs (y - a) <= 5 * u * Rabs a -> (1 - 5 * u) * (1 - 5 * u) * (a * a) <= y * y <= (1 + 5 * u) * (1 + 5 * u) * (a * a)).
  { intros y a H. assert (B : (1 - 5 * u) * Rabs a <= Rabs y <= (1 + 5 * u) * Rabs a).
    { split; [pose proof (Rabs_triang_inv a (a - y)); replace (a - (a - y)) with y in H0 by ring; rewrite Rabs_minus_sym in H; lra|]. replace y with (a + (y - a)) by ring. eapply Rle_trans; [apply Rabs_triang|]. lra. }
    assert (Ya : y * y = Rabs y * Rabs y) by (rewrite <- Rabs_mult, Rabs_pos_eq; nra). assert (Aa : a * a = Rabs a * Rabs a) by (rewrite <- Rabs_mult, Rabs_pos_eq; nra). rewrite Ya, Aa. pose proof (Rabs_pos a). pose proof (Rabs_pos y). split.
    - replace ((1 - 5 * u) * (1 - 5 * u) * (Rabs a * Rabs a)) with ((1 - 5 * u) * Rabs a * ((1 - 5 * u) * Rabs a)) by ring. apply Rmult_le_compat; try lra; apply Rmult_le_pos; lra.
    - replace ((1 + 5 * u) * (1 + 5 * u) * (Rabs a * Rabs a)) with ((1 + 5 * u) * Rabs a * ((1 + 5 * u) * Rabs a)) by ring. apply Rmult_le_compat; lra. }
  pose proof (Sq y1 a1 E1). pose proof (Sq y2 a2 E2). pose proof (Sq y3 a3 E3). unfold normR, normsqR, dotR. cbn [vx vy vz]. set (q := y1 * y1 + y2 * y2 + y3 * y3).
  assert (Q : (1 - 5 * u) * (1 - 5 * u) <= q <= (1 + 5 * u) * (1 + 5 * u)).
  { set (c1 := (1 - 5 * u) * (1 - 5 * u)) in *. set (c2 := (1 + 5 * u) * (1 + 5 * u)) in *. assert (L1 : c1 = c1 * (a1 * a1) + c1 * (a2 * a2) + c1 * (a3 * a3)) by (rewrite <- !Rmult_plus_distr_l, One; ring). assert (L2 : c2 = c2 * (a1 * a1) + c2 * (a2 * a2) + c2 * (a3 * a3)) by (rewrite <- !Rmult_plus_distr_l, One; ring). unfold q. lra. }
  apply Rabs_le. split.
  - assert (1 - 5 * u <= sqrt q); [|lra]. rewrite <- (sqrt_square (1 - 5 * u)) by lra. apply sqrt_le_1_alt. apply Q.
  - assert (sqrt q <= 1 + 5 * u); [|lra]. rewrite <- (sqrt_square (1 + 5 * u)) by lra. apply sqrt_le_1_alt. apply Q.
Qed.
End Floats.
