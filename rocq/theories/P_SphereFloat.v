(** How far the hits reported by sphere::hit are from the sphere, in floating point. *)
From Coq Require Import Reals Lra Psatz ZArith Lia List Bool.
From Flocq Require Import Core BinarySingleNaN Relative.
From Verif Require Import Num XR FL Spec Spec_Accuracy M_Vec M_Roots M_Hittable M_Shapes P_FL P_Round P_Accuracy P_Floats.
Import ListNotations.
Local Open Scope R_scope.

(** *** the real estimates *)
Section Estimates.
Variable u : R.
Hypothesis U : 0 < u <= 1 / 10000000.
Variables S D b c a' b' c' : R.
Hypothesis S0 : 0 < S.
Hypothesis D0 : 0 < D.
Hypothesis Hb : Rabs b <= 8 * S * D.
Hypothesis Hc : Rabs c <= 13 * (S * S).
Hypothesis Ha' : Rabs (a' - D * D) <= 4 * u * (D * D).
Hypothesis Hb' : Rabs (b' - b) <= 50 * u * S * D.
Hypothesis Hc' : Rabs (c' - c) <= 100 * u * (S * S).

Lemma root_size : forall t, a' * (t * t) + b' * t + c' = 0 -> Rabs t * D <= 10 * S.
Proof.
  intros t E. destruct (Rle_lt_dec (Rabs t * D) (10 * S)) as [|C]; [assumption|exfalso]. set (x := Rabs t * D) in *.
  assert (X2 : D * D * (t * t) = x * x) by (unfold x; replace (t * t) with (Rabs t * Rabs t) by (rewrite <- Rabs_mult; apply Rabs_pos_eq; nra); ring).
  assert (SD : 0 < S * D) by nra. assert (SS : 0 < S * S) by nra.
  apply Rabs_le_inv in Ha'. assert (A : 999 / 1000 * (x * x) <= a' * (t * t)).
  { rewrite <- X2. rewrite <- Rmult_assoc. apply Rmult_le_compat_r; [nra|]. nra. }
  assert (B : Rabs (b' * t) <= 801 / 100 * S * x).
  { rewrite Rabs_mult. unfold x. replace (801 / 100 * S * (Rabs t * D)) with (801 / 100 * S * D * Rabs t) by ring. apply Rmult_le_compat_r; [apply Rabs_pos|]. replace b' with (b + (b' - b)) by ring. eapply Rle_trans; [apply Rabs_triang|]. nra. }
  assert (Cc : Rabs c' <= 1301 / 100 * (S * S)) by (replace c' with (c + (c' - c)) by ring; eapply Rle_trans; [apply Rabs_triang|]; nra).
  apply Rabs_le_inv in B, Cc. assert (999 / 1000 * (x * x) <= 801 / 100 * S * x + 1301 / 100 * (S * S)) by lra.
  assert (10 * S * x <= x * x) by (apply Rmult_le_compat_r; lra). assert (10 * S * S <= x * S) by (apply Rmult_le_compat_r; lra). nra.
Qed.
Lemma residual : forall t y, a' * (t * t) + b' * t + c' = 0 -> Rabs (y - t) <= 6 * u * Rabs t -> Rabs (D * D * (y * y) + b * y + c) <= 2700 * u * (S * S) /\ Rabs y * D <= 101 / 10 * S.
Proof.
  intros t y E H. pose proof (root_size t E) as X. set (e := y - t) in *. assert (Ey : y = t + e) by (unfold e; ring).
  pose proof (Rabs_pos t) as T0. assert (SD : 0 < S * D) by nra. assert (SS : 0 < S * S) by nra.
  set (x := Rabs t * D) in *. assert (x0 : 0 <= x) by (unfold x; nra). assert (xS : x * S <= 10 * S * S) by (apply Rmult_le_compat_r; lra). assert (xx : x * x <= 100 * (S * S)) by nra.
  set (z := Rabs e * D). assert (Z : z <= 6 * u * x) by (unfold z, x; nra). assert (z0 : 0 <= z) by (unfold z; pose proof (Rabs_pos e); nra).
  split.
  - replace (D * D * (y * y) + b * y + c) with (D * D * (2 * t * e + e * e) + (D * D - a') * (t * t) + b * e + (b - b') * t + (c - c')).
    2:{ rewrite Ey. assert (Q : a' * (t * t) = - (b' * t) - c') by lra. replace ((D * D - a') * (t * t)) with (D * D * (t * t) - a' * (t * t)) by ring. rewrite Q. ring. }
    assert (I1 : Rabs (D * D * (2 * t * e + e * e)) <= 1210 * u * (S * S)).
    { replace (D * D * (2 * t * e + e * e)) with (2 * (t * D) * (e * D) + (e * D) * (e * D)) by ring. eapply Rle_trans; [apply Rabs_triang|]. rewrite !Rabs_mult, (Rabs_pos_eq 2), (Rabs_pos_eq D) by lra. fold x z. assert (x * z <= x * (6 * u * x)) by (apply Rmult_le_compat_l; lra). assert (z * z <= (6 * u * x) * (6 * u * x)) by (apply Rmult_le_compat; lra). assert (u * (x * x) <= u * (100 * (S * S))) by (apply Rmult_le_compat_l; lra). nra. }
    assert (I2 : Rabs ((D * D - a') * (t * t)) <= 400 * u * (S * S)).
    { rewrite Rabs_mult, (Rabs_minus_sym (D * D) a'). rewrite (Rabs_mult t t). apply Rle_trans with (4 * u * (D * D) * (Rabs t * Rabs t)); [apply Rmult_le_compat_r; [nra|exact Ha']|]. replace (4 * u * (D * D) * (Rabs t * Rabs t)) with (4 * u * (x * x)) by (unfold x; ring). nra. }
    assert (I3 : Rabs (b * e) <= 480 * u * (S * S)).
    { rewrite Rabs_mult. apply Rle_trans with (8 * S * D * Rabs e); [apply Rmult_le_compat_r; [apply Rabs_pos|exact Hb]|]. replace (8 * S * D * Rabs e) with (8 * S * z) by (unfold z; ring). assert (S * z <= S * (6 * u * x)) by (apply Rmult_le_compat_l; lra). nra. }
    assert (I4 : Rabs ((b - b') * t) <= 500 * u * (S * S)).
    { rewrite Rabs_mult, (Rabs_minus_sym b b'). apply Rle_trans with (50 * u * S * D * Rabs t); [apply Rmult_le_compat_r; [exact T0|exact Hb']|]. replace (50 * u * S * D * Rabs t) with (50 * u * (x * S)) by (unfold x; ring). nra. }
    assert (I5 : Rabs (c - c') <= 100 * u * (S * S)) by (rewrite Rabs_minus_sym; exact Hc').
    repeat (eapply Rle_trans; [apply Rabs_triang|]). 
    pose proof (Rabs_triang (D * D * (2 * t * e + e * e) + (D * D - a') * (t * t) + b * e) ((b - b') * t)). pose proof (Rabs_triang (D * D * (2 * t * e + e * e) + (D * D - a') * (t * t)) (b * e)). pose proof (Rabs_triang (D * D * (2 * t * e + e * e)) ((D * D - a') * (t * t))). assert (0 <= u * (S * S)) by nra. lra.
  - assert (Rabs y <= Rabs t + Rabs e) by (rewrite Ey; apply Rabs_triang). assert (Rabs y * D <= x + z) by (unfold x, z; nra). nra.
Qed.
End Estimates.

(** |v|^2 when every component is a little off *)
Lemma normsq_perturbed : forall S q h (P e : vec3 R), 0 <= S -> 0 <= q -> 0 <= h -> Rabs (vx P) <= q * S -> Rabs (vy P) <= q * S -> Rabs (vz P) <= q * S -> Rabs (vx e) <= h * S -> Rabs (vy e) <= h * S -> Rabs (vz e) <= h * S ->
  Rabs (normsqR (addR P e) - normsqR P) <= 3 * (2 * q * h + h * h) * (S * S).
Proof.
  intros S q h [p1 p2 p3] [e1 e2 e3] HS Hq Hh P1 P2 P3 E1 E2 E3. unfold normsqR, dotR, addR. cbn [vx vy vz] in *.
  assert (T : forall p e, Rabs p <= q * S -> Rabs e <= h * S -> Rabs (2 * p * e + e * e) <= (2 * q * h + h * h) * (S * S)).
  { intros p e A B. eapply Rle_trans; [apply Rabs_triang|]. rewrite !Rabs_mult, (Rabs_pos_eq 2) by lra. assert (Rabs p * Rabs e <= q * S * (h * S)) by (apply Rmult_le_compat; auto using Rabs_pos). assert (Rabs e * Rabs e <= h * S * (h * S)) by (apply Rmult_le_compat; auto using Rabs_pos). lra. }
  replace ((p1 + e1) * (p1 + e1) + (p2 + e2) * (p2 + e2) + (p3 + e3) * (p3 + e3) - (p1 * p1 + p2 * p2 + p3 * p3)) with ((2 * p1 * e1 + e1 * e1) + (2 * p2 * e2 + e2 * e2) + (2 * p3 * e3 + e3 * e3)) by ring.
  pose proof (T p1 e1 P1 E1). pose proof (T p2 e2 P2 E2). pose proof (T p3 e3 P3 E3). eapply Rle_trans; [apply Rabs_triang|]. pose proof (Rabs_triang (2 * p1 * e1 + e1 * e1) (2 * p2 * e2 + e2 * e2)). lra.
Qed.

Section Sphere.
Variables prec emax : Z.
Context (Hp : Prec_gt_0 prec) (Hm : Prec_lt_emax prec emax).
Variable lm : libm (binary_float prec emax).
Notation float := (binary_float prec emax).
Notation N := (FL prec emax Hp Hm lm).
Notation rnd := (round radix2 (SpecFloat.fexp prec emax) ZnearestE).
Notation val := (val prec emax).
Notation vals := (vals prec emax).
Notation b2 := (bpow radix2).
Notation u := (bpow radix2 (- prec)).
Variable k : Z.
Hypothesis P24 : (24 <= prec)%Z.
Hypothesis K0 : (0 <= k)%Z.
Hypothesis K : (4 * k + 6 * prec + 16 <= emax)%Z.
Let g0 : Z := (- k + 1 - prec)%Z.
Lemma P8 : (8 <= prec)%Z. Proof. lia. Qed.
Lemma K2 : (2 * k + 2 * prec + 8 <= emax)%Z. Proof. lia. Qed.

Lemma u_tiny : 0 < u <= 1 / 10000000.
Proof.
  split; [apply bpow_gt_0|]. apply Rle_trans with (b2 (-24)); [apply bpow_le; lia|]. cbn. lra.
Qed.
Lemma big_enough : forall n m, (0 <= n)%Z -> (m + n <= emax - 1)%Z -> forall x, x <= IZR (2 ^ n) * b2 m -> x <= b2 (emax - 1).
Proof.
  intros n m Hn H x Hx. eapply Rle_trans; [exact Hx|]. rewrite (IZR_Zpower radix2) by exact Hn. rewrite <- bpow_plus. apply bpow_le. lia.
Qed.

(** the vector from the centre *)
Lemma centre_val : forall fo fc o c, vals fo o -> vals fc c -> moderates k o -> moderates k c ->
  exists w, vals (vsub (F:=N) fo fc) w /\ grids g0 w /\
    (exists d, Rabs d <= u /\ vx w = (vx o - vx c) * (1 + d)) /\ (exists d, Rabs d <= u /\ vy w = (vy o - vy c) * (1 + d)) /\ (exists d, Rabs d <= u /\ vz w = (vz o - vz c) * (1 + d)).
Proof.
  intros fo fc o c Vo Vc Mo Mc. pose proof (moderates_grids prec emax k _ _ Vo Mo) as (A1 & A2 & A3). pose proof (moderates_grids prec emax k _ _ Vc Mc) as (B1 & B2 & B3).
  destruct Vo as (O1 & O2 & O3), Vc as (C1 & C2 & C3), Mo as (M1 & M2 & M3), Mc as (N1 & N2 & N3).
  assert (Bd : forall x y, moderate k x -> moderate k y -> Rabs (x - y) <= 2 * b2 k).
  { intros x y X Y. eapply Rle_trans; [apply Rabs_triang|]. rewrite Rabs_Ropp. pose proof (moderate_bound k x X). pose proof (moderate_bound k y Y). lra. }
  assert (Lg : (2 - emax <= g0)%Z) by (unfold g0; lia).
  assert (Bb : 2 * b2 k <= b2 (emax - 1)) by (apply (big_enough 1 k); [lia|lia|cbn; lra]).
  destruct (diff_val prec emax Hp Hm lm P8 _ _ _ _ g0 _ O1 C1 A1 B1 Lg (Bd _ _ M1 N1) Bb) as (w1 & d1 & X1 & D1 & E1 & G1).
  destruct (diff_val prec emax Hp Hm lm P8 _ _ _ _ g0 _ O2 C2 A2 B2 Lg (Bd _ _ M2 N2) Bb) as (w2 & d2 & X2 & D2 & E2 & G2).
  destruct (diff_val prec emax Hp Hm lm P8 _ _ _ _ g0 _ O3 C3 A3 B3 Lg (Bd _ _ M3 N3) Bb) as (w3 & d3 & X3 & D3 & E3 & G3).
  exists (V3 w1 w2 w3). split; [split; [exact X1|split; [exact X2|exact X3]]|]. split; [split; [exact G1|split; [exact G2|exact G3]]|]. cbn [vx vy vz].
  split; [exists d1; auto|]. split; [exists d2; auto|]. exists d3; auto.
Qed.

Lemma grid_moderate : forall x, grid (2 * g0) x -> Rabs x <= 64 * b2 (2 * k) -> moderate (2 * k + 2 * prec) x.
Proof.
  intros x G H. destruct (grid_large _ _ G) as [|L]; [left; assumption|right]. split.
  - eapply Rle_trans; [|exact L]. apply bpow_le. unfold g0. lia.
  - eapply Rle_trans; [exact H|]. change 64 with (b2 6). rewrite <- bpow_plus. apply bpow_le. lia.
Qed.
Lemma off_le : forall x d, Rabs d <= u -> Rabs (x * (1 + d)) <= 1001 / 1000 * Rabs x /\ Rabs (x * (1 + d) - x) <= u * Rabs x.
Proof.
  intros x d H. pose proof u_tiny as U. pose proof (Rabs_pos x). split.
  - rewrite Rabs_mult, Rmult_comm. apply Rmult_le_compat_r; [assumption|]. apply Rabs_le_inv in H. apply Rabs_le. lra.
  - replace (x * (1 + d) - x) with (d * x) by ring. rewrite Rabs_mult. apply Rmult_le_compat_r; assumption.
Qed.
Lemma square_off : forall x d, Rabs d <= u -> Rabs (x * (1 + d) * (x * (1 + d)) - x * x) <= 21 / 10 * u * (x * x).
Proof.
  intros x d H. pose proof u_tiny as U. replace (x * (1 + d) * (x * (1 + d)) - x * x) with ((2 * d + d * d) * (x * x)) by ring. rewrite Rabs_mult, (Rabs_pos_eq (x * x)) by nra. apply Rmult_le_compat_r; [nra|].
  apply Rabs_le_inv in H. assert (0 <= d * d <= u * u) by nra. assert (u * u <= u / 10000000) by nra. apply Rabs_le. lra.
Qed.

(** the sum of the sizes of the products is at most the product of the lengths *)
Lemma absdot_norms : forall v w, absdot v w <= normR v * normR w.
Proof.
  intros v w. set (a := V3 (Rabs (vx v)) (Rabs (vy v)) (Rabs (vz v))). set (b := V3 (Rabs (vx w)) (Rabs (vy w)) (Rabs (vz w))).
  assert (Q : forall x, Rabs x * Rabs x = x * x) by (intros; rewrite <- Rabs_mult, Rabs_pos_eq; nra).
  assert (Na : normsqR a = normsqR v) by (unfold a, normsqR, dotR; cbn [vx vy vz]; rewrite !Q; reflexivity). assert (Nb : normsqR b = normsqR w) by (unfold b, normsqR, dotR; cbn [vx vy vz]; rewrite !Q; reflexivity).
  assert (E : absdot v w = dotR a b) by (unfold absdot, dotR, a, b; cbn [vx vy vz]; rewrite !Rabs_mult; reflexivity). rewrite E.
  assert (P : forall x, 0 <= normsqR x) by (intros x; unfold normsqR, dotR; nra).
  assert (C : dotR a b * dotR a b <= normsqR v * normsqR w).
  { rewrite <- Na, <- Nb. clear. destruct a as [p q r], b as [x y z]. unfold normsqR, dotR; cbn [vx vy vz]. pose proof (Rle_0_sqr (p * y - q * x)). pose proof (Rle_0_sqr (p * z - r * x)). pose proof (Rle_0_sqr (q * z - r * y)). unfold Rsqr in *. lra. }
  assert (Sv : normR v * normR v = normsqR v) by (unfold normR; apply sqrt_sqrt, P). assert (Sw : normR w * normR w = normsqR w) by (unfold normR; apply sqrt_sqrt, P).
  assert (v0 : 0 <= normR v) by apply sqrt_pos. assert (w0 : 0 <= normR w) by apply sqrt_pos.
  destruct (Rle_lt_dec (dotR a b) (normR v * normR w)) as [|L]; [assumption|exfalso]. assert (vw : 0 <= normR v * normR w) by (apply Rmult_le_pos; assumption).
  assert (normR v * normR w * (normR v * normR w) < dotR a b * dotR a b) by (apply Rmult_le_0_lt_compat; lra). replace (normR v * normR w * (normR v * normR w)) with (normsqR v * normsqR w) in * by (rewrite <- Sv, <- Sw; ring). lra.
Qed.

Lemma coefficients_sharp : forall fo fc fd (fr : float) o c d r, vals fo o -> vals fc c -> vals fd d -> val fr r -> moderates k o -> moderates k c -> moderates k d -> moderate k r -> d <> V3 0 0 0 ->
  exists A B C, val (squared_norm (F:=N) fd) A /\ val (nmul (NumOps:=N) (nofZ (NumOps:=N) 2) (dot (F:=N) (vsub (F:=N) fo fc) fd)) B /\
    val (nsub (NumOps:=N) (squared_norm (F:=N) (vsub (F:=N) fo fc)) (nmul (NumOps:=N) fr fr)) C /\
    moderate (2 * k + 2 * prec) A /\ moderate (2 * k + 2 * prec) B /\ moderate (2 * k + 2 * prec) C /\ A <> 0 /\
    let D := normR d in let b := 2 * dotR (subR o c) d in let c0 := normsqR (subR o c) - r * r in
    let W := normR (subR o c) in
    Rabs (A - D * D) <= 4 * u * (D * D) /\ Rabs (B - b) <= 25 / 2 * u * W * D /\ Rabs (C - c0) <= u * (72 / 10 * (W * W) + 21 / 10 * (r * r)).
Proof.
  intros fo fc fd fr o c d r Vo Vc Vd Vr Mo Mc Md Mr Zd. pose proof u_tiny as U. pose proof (bpow_gt_0 radix2 (2 * k)) as T0.
  assert (Gd : grids g0 d) by (apply (moderates_grids prec emax k _ _ Vd Md)).
  assert (Gr : grid g0 r) by (apply (moderate_grid prec emax); [eapply val_format; exact Vr|exact Mr]).
  destruct (centre_val fo fc o c Vo Vc Mo Mc) as (w & Vw & Gw & (d1 & D1 & E1) & (d2 & D2 & E2) & (d3 & D3 & E3)).
  assert (L2 : (2 - emax <= g0 + g0)%Z) by (unfold g0; lia). assert (Eg : (g0 + g0 = 2 * g0)%Z) by ring.
  set (T := b2 (2 * k)) in *. assert (ET : T = b2 k * b2 k) by (unfold T; rewrite <- bpow_plus; f_equal; ring). pose proof (bpow_gt_0 radix2 k) as k0.
  assert (Big : forall x, x <= 64 * T -> x <= b2 (emax - 1)) by (intros x Hx; apply (big_enough 6 (2 * k)); [lia|lia|exact Hx]).
  set (oc := subR o c) in *.
  (* sizes of the difference *)
  assert (Bo : forall x y, moderate k x -> moderate k y -> Rabs (x - y) <= 2 * b2 k).
  { intros x y X Y. eapply Rle_trans; [apply Rabs_triang|]. rewrite Rabs_Ropp. pose proof (moderate_bound k x X). pose proof (moderate_bound k y Y). lra. }
  assert (O1 : Rabs (vx oc) <= 2 * b2 k) by (destruct Mo as (? & ? & ?), Mc as (? & ? & ?); apply Bo; assumption).
  assert (O2 : Rabs (vy oc) <= 2 * b2 k) by (destruct Mo as (? & ? & ?), Mc as (? & ? & ?); apply Bo; assumption).
  assert (O3 : Rabs (vz oc) <= 2 * b2 k) by (destruct Mo as (? & ? & ?), Mc as (? & ? & ?); apply Bo; assumption).
  change (vx o - vx c) with (vx oc) in E1. change (vy o - vy c) with (vy oc) in E2. change (vz o - vz c) with (vz oc) in E3.
  (* absdot of the rounded difference *)
  assert (AD : absdot w d <= 1001 / 1000 * absdot oc d).
  { unfold absdot. rewrite !Rabs_mult, E1, E2, E3. pose proof (proj1 (off_le (vx oc) d1 D1)). pose proof (proj1 (off_le (vy oc) d2 D2)). pose proof (proj1 (off_le (vz oc) d3 D3)). pose proof (Rabs_pos (vx d)). pose proof (Rabs_pos (vy d)). pose proof (Rabs_pos (vz d)). nra. }
  assert (ADo : absdot oc d <= 6 * T).
  { unfold absdot. rewrite !Rabs_mult, ET. destruct Md as (m1 & m2 & m3). pose proof (moderate_bound k _ m1). pose proof (moderate_bound k _ m2). pose proof (moderate_bound k _ m3). 
    assert (J : forall a b, Rabs a <= 2 * b2 k -> Rabs b <= b2 k -> Rabs a * Rabs b <= 2 * (b2 k * b2 k)) by (intros a b Ha Hb; replace (2 * (b2 k * b2 k)) with (2 * b2 k * b2 k) by ring; apply Rmult_le_compat; auto using Rabs_pos).
    pose proof (J _ _ O1 H). pose proof (J _ _ O2 H0). pose proof (J _ _ O3 H1). lra. }
  assert (NW : Rabs (normsqR w - normsqR oc) <= 21 / 10 * u * normsqR oc).
  { unfold normsqR, dotR. rewrite E1, E2, E3. pose proof (square_off (vx oc) d1 D1). pose proof (square_off (vy oc) d2 D2). pose proof (square_off (vz oc) d3 D3).
    match goal with |- Rabs (?a + ?b + ?c - (?x + ?y + ?z)) <= _ => replace (a + b + c - (x + y + z)) with ((a - x) + (b - y) + (c - z)) by ring; eapply Rle_trans; [apply Rabs_triang|]; pose proof (Rabs_triang (a - x) (b - y)) end. lra. }
  assert (NO : 0 <= normsqR oc <= 12 * T).
  { unfold normsqR, dotR. rewrite ET. assert (J : forall a, Rabs a <= 2 * b2 k -> 0 <= a * a <= 4 * (b2 k * b2 k)) by (intros a Ha; apply Rabs_le_inv in Ha; split; nra). pose proof (J _ O1). pose proof (J _ O2). pose proof (J _ O3). lra. }
  assert (NWb : normsqR w <= 13 * T /\ 0 <= normsqR w).
  { apply Rabs_le_inv in NW. split; [nra|]. unfold normsqR, dotR. nra. }
  (* the three coefficients *)
  destruct (dot_val prec emax Hp Hm lm P8 fd fd d d g0 g0 Vd Vd Gd Gd L2) as (A & VA & EA & GA).
  { rewrite absdot_self. apply Big. pose proof (absdot_bound k d d Md Md) as H. rewrite absdot_self in H. fold T in H. lra. }
  rewrite absdot_self in EA. change (dotR d d) with (normsqR d) in EA. assert (DD : normR d * normR d = normsqR d) by (unfold normR; apply sqrt_sqrt; unfold normsqR, dotR; nra).
  destruct (dot_val prec emax Hp Hm lm P8 (vsub (F:=N) fo fc) fd w d g0 g0 Vw Vd Gw Gd L2) as (q & Vq & Eq & Gq); [apply Big; lra|].
  assert (Hq : Rabs q <= 8 * T).
  { assert (Rabs (dotR w d) <= absdot w d).
    { unfold dotR, absdot. eapply Rle_trans; [apply Rabs_triang|]. pose proof (Rabs_triang (vx w * vx d) (vy w * vy d)). lra. }
    replace q with (dotR w d + (q - dotR w d)) by ring. eapply Rle_trans; [apply Rabs_triang|]. nra. }
  assert (G2 : grid 0 2) by (exists 2%Z; cbn; ring).
  destruct (product_val prec emax Hp Hm lm P8 (nofZ (NumOps:=N) 2) _ 2 q 0 (g0 + g0) (16 * T) (two_val prec emax Hp Hm lm k K2 K0 P8) Vq G2 Gq) as (B & dB & VB & DB & EB & GB); [lia|rewrite Rabs_mult, (Rabs_pos_eq 2) by lra; lra|apply Big; lra|].
  destruct (dot_val prec emax Hp Hm lm P8 (vsub (F:=N) fo fc) (vsub (F:=N) fo fc) w w g0 g0 Vw Vw Gw Gw L2) as (n & Vn & En & Gn); [rewrite absdot_self; apply Big; lra|].
  rewrite absdot_self in En. change (dotR w w) with (normsqR w) in En.
  assert (Hr : Rabs (r * r) <= T) by (unfold T; apply product_bound; assumption). assert (r2 : 0 <= r * r) by nra. rewrite Rabs_pos_eq in Hr by exact r2.
  destruct (product_val prec emax Hp Hm lm P8 fr fr r r g0 g0 T Vr Vr Gr Gr L2) as (s & ds & Vs & Ds & Es & Gs); [rewrite Rabs_pos_eq by exact r2; exact Hr|apply Big; lra|].
  pose proof (off_le (r * r) ds Ds) as [Hs1 Hs2]. rewrite <- Es in Hs1, Hs2. rewrite (Rabs_pos_eq (r * r)) in Hs1, Hs2 by exact r2.
  assert (Hn : Rabs n <= 14 * T).
  { replace n with (normsqR w + (n - normsqR w)) by ring. eapply Rle_trans; [apply Rabs_triang|]. rewrite (Rabs_pos_eq (normsqR w)) by apply NWb. nra. }
  assert (Hns : Rabs (n - s) <= 16 * T) by (eapply Rle_trans; [apply Rabs_triang|]; rewrite Rabs_Ropp; lra).
  destruct (diff_val prec emax Hp Hm lm P8 _ _ n s (g0 + g0) (16 * T) Vn Vs Gn Gs L2 Hns) as (C & dC & VC & DC & EC & GC); [apply Big; lra|].
  assert (A0 : 0 < A).
  { pose proof (normsq_low k d Md Zd). pose proof (bpow_gt_0 radix2 (- (2 * k))). apply Rabs_le_inv in EA. nra. }
  pose proof (off_le (2 * q) dB DB) as [HB1 HB2]. rewrite <- EB in HB1, HB2. pose proof (off_le (n - s) dC DC) as [HC1 HC2]. rewrite <- EC in HC1, HC2.
  assert (Aq : Rabs (2 * q) = 2 * Rabs q) by (rewrite Rabs_mult, (Rabs_pos_eq 2) by lra; reflexivity). rewrite Aq in HB1, HB2.
  exists A, B, C. split; [exact VA|]. split; [exact VB|]. split; [exact VC|].
  split; [apply grid_moderate; [rewrite <- Eg; exact GA|]|]. { rewrite Rabs_pos_eq by lra. pose proof (absdot_bound k d d Md Md) as H. rewrite absdot_self in H. fold T in H. apply Rabs_le_inv in EA. fold T. nra. }
  split; [apply grid_moderate; [rewrite <- Eg; exact GB|fold T; lra]|]. split; [apply grid_moderate; [rewrite <- Eg; exact GC|fold T; lra]|]. split; [lra|].
  cbv zeta. rewrite DD. assert (WW : normR oc * normR oc = normsqR oc) by (unfold normR; apply sqrt_sqrt; lra). rewrite WW.
  assert (DA : Rabs (dotR oc d) <= absdot oc d).
  { unfold dotR, absdot. eapply Rle_trans; [apply Rabs_triang|]. pose proof (Rabs_triang (vx oc * vx d) (vy oc * vy d)). lra. }
  set (M := absdot oc d) in *. assert (M0 : 0 <= M) by (pose proof (Rabs_pos (dotR oc d)); lra).
  assert (DW : Rabs (dotR w d - dotR oc d) <= u * M).
  { unfold dotR, M, absdot. rewrite E1, E2, E3.
    assert (J : forall x y e, Rabs e <= u -> Rabs (x * (1 + e) * y - x * y) <= u * Rabs (x * y)) by (intros x y e He; replace (x * (1 + e) * y - x * y) with (e * (x * y)) by ring; rewrite Rabs_mult; apply Rmult_le_compat_r; [apply Rabs_pos|exact He]).
    pose proof (J (vx oc) (vx d) d1 D1). pose proof (J (vy oc) (vy d) d2 D2). pose proof (J (vz oc) (vz d) d3 D3).
    match goal with |- Rabs (?a + ?b + ?c - (?x + ?y + ?z)) <= _ => replace (a + b + c - (x + y + z)) with ((a - x) + (b - y) + (c - z)) by ring; eapply Rle_trans; [apply Rabs_triang|]; pose proof (Rabs_triang (a - x) (b - y)) end. lra. }
  assert (Q1 : Rabs (q - dotR oc d) <= 51 / 10 * u * M).
  { replace (q - dotR oc d) with ((q - dotR w d) + (dotR w d - dotR oc d)) by ring. eapply Rle_trans; [apply Rabs_triang|]. assert (u * absdot w d <= u * (1001 / 1000 * M)) by (apply Rmult_le_compat_l; lra). assert (0 <= u * M) by (apply Rmult_le_pos; lra). lra. }
  assert (Q2 : Rabs q <= 11 / 10 * M) by (replace q with (dotR oc d + (q - dotR oc d)) by ring; eapply Rle_trans; [apply Rabs_triang|]; assert (u * M <= 1 / 10000000 * M) by (apply Rmult_le_compat_r; lra); lra).
  assert (MW : M <= normR oc * normR d) by (apply absdot_norms).
  split; [exact EA|]. split.
  - replace (B - 2 * dotR oc d) with ((B - 2 * q) + 2 * (q - dotR oc d)) by ring. eapply Rle_trans; [apply Rabs_triang|]. rewrite (Rabs_mult 2), (Rabs_pos_eq 2) by lra. assert (u * (2 * Rabs q) <= u * (2 * (11 / 10 * M))) by (apply Rmult_le_compat_l; lra).
    assert (u * M <= u * (normR oc * normR d)) by (apply Rmult_le_compat_l; lra). assert (0 <= u * M) by (apply Rmult_le_pos; lra). replace (25 / 2 * u * normR oc * normR d) with (25 / 2 * (u * (normR oc * normR d))) by ring. lra.
  - replace (C - (normsqR oc - r * r)) with ((C - (n - s)) + (n - normsqR w) + (normsqR w - normsqR oc) - (s - r * r)) by ring.
    assert (un : 0 <= u * normsqR oc) by (apply Rmult_le_pos; lra). assert (un' : u * normsqR oc <= 1 / 10000000 * normsqR oc) by (apply Rmult_le_compat_r; lra).
    assert (Wn : normsqR w <= 1001 / 1000 * normsqR oc) by (apply Rabs_le_inv in NW; lra).
    assert (uw : u * normsqR w <= u * (1001 / 1000 * normsqR oc)) by (apply Rmult_le_compat_l; lra).
    assert (Hn2 : Rabs n <= 1002 / 1000 * normsqR oc) by (replace n with (normsqR w + (n - normsqR w)) by ring; eapply Rle_trans; [apply Rabs_triang|]; rewrite (Rabs_pos_eq (normsqR w)) by apply NWb; lra).
    assert (Hns2 : Rabs (n - s) <= 1002 / 1000 * normsqR oc + 1001 / 1000 * (r * r)) by (eapply Rle_trans; [apply Rabs_triang|]; rewrite Rabs_Ropp; lra).
    assert (Hu : u * Rabs (n - s) <= u * (1002 / 1000 * normsqR oc + 1001 / 1000 * (r * r))) by (apply Rmult_le_compat_l; lra). assert (ur : 0 <= u * (r * r)) by (apply Rmult_le_pos; lra).
    eapply Rle_trans; [apply Rabs_triang|]. rewrite Rabs_Ropp. pose proof (Rabs_triang (C - (n - s) + (n - normsqR w)) (normsqR w - normsqR oc)). pose proof (Rabs_triang (C - (n - s)) (n - normsqR w)). lra.
Qed.

Lemma coefficients : forall fo fc fd (fr : float) o c d r, vals fo o -> vals fc c -> vals fd d -> val fr r -> moderates k o -> moderates k c -> moderates k d -> moderate k r -> d <> V3 0 0 0 ->
  exists A B C, val (squared_norm (F:=N) fd) A /\ val (nmul (NumOps:=N) (nofZ (NumOps:=N) 2) (dot (F:=N) (vsub (F:=N) fo fc) fd)) B /\
    val (nsub (NumOps:=N) (squared_norm (F:=N) (vsub (F:=N) fo fc)) (nmul (NumOps:=N) fr fr)) C /\
    moderate (2 * k + 2 * prec) A /\ moderate (2 * k + 2 * prec) B /\ moderate (2 * k + 2 * prec) C /\ A <> 0 /\
    let D := normR d in let b := 2 * dotR (subR o c) d in let c0 := normsqR (subR o c) - r * r in
    forall S, 0 < S -> Rabs (vx o) <= S /\ Rabs (vy o) <= S /\ Rabs (vz o) <= S -> Rabs (vx c) <= S /\ Rabs (vy c) <= S /\ Rabs (vz c) <= S -> Rabs r <= S ->
    Rabs b <= 8 * S * D /\ Rabs c0 <= 13 * (S * S) /\ Rabs (A - D * D) <= 4 * u * (D * D) /\ Rabs (B - b) <= 50 * u * S * D /\ Rabs (C - c0) <= 100 * u * (S * S).
Proof.
  intros fo fc fd fr o c d r Vo Vc Vd Vr Mo Mc Md Mr Zd. pose proof u_tiny as U.
  destruct (coefficients_sharp fo fc fd fr o c d r Vo Vc Vd Vr Mo Mc Md Mr Zd) as (A & B & C & VA & VB & VC & MA & MB & MC & A0 & H). exists A, B, C. do 7 (split; [assumption|]).
  cbv zeta in H |- *. destruct H as (EA & EB & EC). intros S S0 (a1 & a2 & a3) (c1 & c2 & c3) Sr. set (oc := subR o c) in *.
  assert (Os : forall x y, Rabs x <= S -> Rabs y <= S -> Rabs (x - y) <= 2 * S) by (intros; eapply Rle_trans; [apply Rabs_triang|]; rewrite Rabs_Ropp; lra).
  pose proof (Os _ _ a1 c1 : Rabs (vx oc) <= 2 * S) as o1. pose proof (Os _ _ a2 c2 : Rabs (vy oc) <= 2 * S) as o2. pose proof (Os _ _ a3 c3 : Rabs (vz oc) <= 2 * S) as o3.
  assert (NS : normsqR oc <= 12 * (S * S)).
  { unfold normsqR, dotR. assert (J : forall a, Rabs a <= 2 * S -> a * a <= 4 * (S * S)) by (intros a Ha; clear - Ha; apply Rabs_le_inv in Ha; nra). pose proof (J _ o1). pose proof (J _ o2). pose proof (J _ o3). lra. }
  assert (N0 : 0 <= normsqR oc) by (unfold normsqR, dotR; nra). assert (r2 : 0 <= r * r) by nra.
  assert (RS : r * r <= S * S) by (rewrite <- (Rabs_pos_eq (r * r)), Rabs_mult by exact r2; apply Rmult_le_compat; auto using Rabs_pos).
  assert (WW : normR oc * normR oc = normsqR oc) by (unfold normR; apply sqrt_sqrt; exact N0). rewrite WW in EC.
  assert (W0 : 0 <= normR oc) by apply sqrt_pos. assert (D0 : 0 <= normR d) by apply sqrt_pos.
  assert (WS : normR oc <= 4 * S). { destruct (Rle_lt_dec (normR oc) (4 * S)) as [|C']; [assumption|exfalso]. nra. }
  assert (DA : Rabs (dotR oc d) <= normR oc * normR d).
  { eapply Rle_trans; [|apply absdot_norms]. unfold dotR, absdot. eapply Rle_trans; [apply Rabs_triang|]. pose proof (Rabs_triang (vx oc * vx d) (vy oc * vy d)). lra. }
  assert (MS : normR oc * normR d <= 4 * S * normR d) by (apply Rmult_le_compat_r; assumption).
  split; [rewrite Rabs_mult, (Rabs_pos_eq 2) by lra; lra|]. split; [apply Rabs_le; lra|]. split; [exact EA|]. split.
  - eapply Rle_trans; [exact EB|]. assert (u * (normR oc * normR d) <= u * (4 * S * normR d)) by (apply Rmult_le_compat_l; lra). lra.
  - eapply Rle_trans; [exact EC|]. assert (u * (72 / 10 * normsqR oc + 21 / 10 * (r * r)) <= u * (100 * (S * S))) by (apply Rmult_le_compat_l; lra). lra.
Qed.
End Sphere.
