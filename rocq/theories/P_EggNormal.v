(** How far the normals reported by ellipsoid::hit are from the true ones, in floating point. *)
From Coq Require Import Reals Lra ZArith Lia List Bool.
From Flocq Require Import Core Relative BinarySingleNaN.
From Verif Require Import Num XR FL Spec Spec_Light Spec_Accuracy Spec_Bend Spec_Egg M_Vec M_Roots M_Hittable M_Shapes P_FL P_Round P_Accuracy P_Floats P_SphereFloat P_Sampler P_FlatLeave P_Bend P_SphereHit P_View P_Egg.
Import ListNotations.
Local Open Scope R_scope.

Lemma neg_twice : forall y : vec3 R, negR (negR y) = y.
Proof. intros [a b c]. unfold negR. cbn [vx vy vz]. rewrite !Ropp_involutive. reflexivity. Qed.

(** *** the normal a hit stores, with any arithmetic *)
Lemma egg_normal_field : forall {F : NumOps} (e : ellipsoid num) r lo hi rec rec', ellipsoid_hit e r lo hi rec = Ok (true, rec') ->
  let side c p s := nmul (nsub p c) (ndiv (nofZ 2) (nmul s s)) in
  let M := V3 (side (vx (el_center e)) (vx (h_p rec')) (vx (el_scales e))) (side (vy (el_center e)) (vy (h_p rec')) (vy (el_scales e))) (side (vz (el_center e)) (vz (h_p rec')) (vz (el_scales e))) in
  h_normal rec' = if h_front rec' then vdiv M (norm M) else vneg (vdiv M (norm M)).
Proof.
  intros F e r lo hi rec rec' H. unfold ellipsoid_hit in H. cbv zeta in H.
  destruct (first_quadratic_root_in_range _ _ _ lo hi) as [f|]; [|discriminate H].
  destruct (ellipsoid_uv _ _) as [us vs]. injection H as <-. reflexivity.
Qed.

Section Normal.
Variables prec emax : Z.
Context (Hp : Prec_gt_0 prec) (Hm : Prec_lt_emax prec emax).
Variable lm : libm (binary_float prec emax).
Variable k : Z.
Hypothesis P24 : (24 <= prec)%Z.
Hypothesis K0 : (0 <= k)%Z.
Hypothesis K : (12 * k + 10 * prec + 36 <= emax)%Z.
Notation float := (binary_float prec emax).
Notation N := (FL prec emax Hp Hm lm).
Notation rnd := (round radix2 (SpecFloat.fexp prec emax) ZnearestE).
Notation val := (val prec emax).
Notation vals := (vals prec emax).
Notation b2 := (bpow radix2).
Notation u := (bpow radix2 (- prec)).
Notation kk := (2 * k + 2)%Z.
Let U : 0 < u <= 1 / 10000000 := P_SphereFloat.u_tiny prec k P24.
Lemma NK0 : (0 <= kk)%Z. Proof. lia. Qed.
Lemma NK : (4 * kk + 6 * prec + 16 <= emax)%Z. Proof. lia. Qed.
Lemma scaled : forall x q S, b2 (- kk) <= S -> Rabs x <= q * S -> Rabs (rnd x - x) <= (q + 1 / 100) * u * S.
Proof. exact (rnd_scaled prec emax kk P24 NK0 NK). Qed.

(** *** a component of the gradient *)
Lemma component : forall (fp fc fs : float) p c s, val fp p -> val fc c -> val fs s -> b2 (- k) <= Rabs s <= b2 k -> Rabs (p - c) <= 2 * Rabs s ->
  exists m, val (nmul (NumOps:=N) (nsub (NumOps:=N) fp fc) (ndiv (NumOps:=N) (nofZ (NumOps:=N) 2) (nmul (NumOps:=N) fs fs))) m /\
    forall T, b2 (- kk) <= T -> Rabs (2 * ((p - c) / s / s)) <= T -> Rabs (m - 2 * ((p - c) / s / s)) <= 43 / 10 * u * T.
Proof.
  intros fp fc fs p c s Vp Vc Vs (S1 & S2) B. pose proof U as U0. pose proof (bpow_gt_0 radix2 (- k)) as k0. assert (s0 : 0 < Rabs s) by lra. assert (Zs : s <> 0) by (intros ->; rewrite Rabs_R0 in s0; lra).
  assert (E2 : s * s = Rabs s * Rabs s) by (rewrite <- Rabs_mult; symmetry; apply Rabs_pos_eq; apply Rle_0_sqr).
  assert (L : b2 (- (2 * k)) <= s * s <= b2 (2 * k)). { rewrite E2. replace (- (2 * k))%Z with (- k + - k)%Z by ring. replace (2 * k)%Z with (k + k)%Z by ring. rewrite !bpow_plus. split; apply Rmult_le_compat; lra. }
  assert (ss0 : 0 < s * s) by (pose proof (bpow_gt_0 radix2 (- (2 * k))); lra).
  assert (Big : forall x, x <= b2 (4 * k + 8) -> x <= b2 (emax - 1)) by (intros x Hx; eapply Rle_trans; [exact Hx|apply bpow_le; lia]).
  (* the difference *)
  destruct (plus_rel prec emax Hp P24 p (- c) (val_format prec emax _ _ Vp) (generic_format_opp _ _ _ (val_format prec emax _ _ Vc))) as (e1 & H1 & W). change (p + - c) with (p - c) in W.
  assert (Vw : val (nsub (NumOps:=N) fp fc) ((p - c) * (1 + e1))).
  { rewrite <- W. apply (minus_val prec emax Hp Hm lm); auto. apply Big. apply Rle_trans with (2 * b2 k); [lra|]. replace (2 * b2 k) with (b2 (1 + k)) by (rewrite bpow_plus; cbn; ring). apply bpow_le. lia. }
  (* the square *)
  destruct (rel prec emax Hp (s * s)) as (e2 & H2 & A). { right. rewrite (Rabs_pos_eq (s * s)) by lra. eapply Rle_trans; [|exact (proj1 L)]. apply bpow_le. lia. }
  assert (Va : val (nmul (NumOps:=N) fs fs) (s * s * (1 + e2))). { rewrite <- A. apply (mult_val prec emax Hp Hm lm); auto. apply Big. rewrite (Rabs_pos_eq (s * s)) by lra. eapply Rle_trans; [exact (proj2 L)|apply bpow_le; lia]. }
  apply Rabs_le_inv in H1, H2. set (a := s * s * (1 + e2)) in *. assert (a0 : 0 < a) by (apply Rmult_lt_0_compat; lra).
  assert (La : b2 (- (2 * k) + -1) <= a <= b2 (2 * k + 1)).
  { rewrite !bpow_plus. change (b2 (-1)) with (/ 2). change (b2 1) with 2. assert (a <= s * s * 2) by (apply Rmult_le_compat_l; lra). assert (s * s * / 2 <= a) by (apply Rmult_le_compat_l; lra). lra. }
  (* two over the square *)
  assert (Lq : b2 (- (2 * k)) <= 2 / a <= b2 (2 * k + 2)).
  { unfold Rdiv. split.
    - apply Rle_trans with (2 * / b2 (2 * k + 1)); [|apply Rmult_le_compat_l; [lra|apply Rinv_le_contravar; lra]]. rewrite <- bpow_opp. replace (2 * b2 (- (2 * k + 1))) with (b2 (1 + - (2 * k + 1))) by (rewrite bpow_plus; cbn; ring). apply bpow_le. lia.
    - apply Rle_trans with (2 * / b2 (- (2 * k) + -1)); [apply Rmult_le_compat_l; [lra|apply Rinv_le_contravar; [apply bpow_gt_0|lra]]|]. rewrite <- bpow_opp. replace (2 * b2 (- (- (2 * k) + -1))) with (b2 (1 + - (- (2 * k) + -1))) by (rewrite bpow_plus; cbn; ring). apply bpow_le. lia. }
  assert (q0 : 0 < 2 / a) by (apply Rdiv_lt_0_compat; lra).
  destruct (rel prec emax Hp (2 / a)) as (e3 & H3 & Q). { right. rewrite (Rabs_pos_eq (2 / a)) by lra. eapply Rle_trans; [|exact (proj1 Lq)]. apply bpow_le. lia. }
  assert (V2 : val (nofZ (NumOps:=N) 2) 2) by (apply (P_Sampler.ofZ_small prec emax Hp Hm lm P24 ltac:(lia) 2); lia).
  assert (Vq : val (ndiv (NumOps:=N) (nofZ (NumOps:=N) 2) (nmul (NumOps:=N) fs fs)) (2 / a * (1 + e3))).
  { rewrite <- Q. apply (div_val prec emax Hp Hm lm); auto; [lra|]. apply Big. rewrite (Rabs_pos_eq (2 / a)) by lra. eapply Rle_trans; [exact (proj2 Lq)|apply bpow_le; lia]. }
  apply Rabs_le_inv in H3. set (g := 2 * ((p - c) / s / s)).
  assert (Eg : (p - c) * (1 + e1) * (2 / a * (1 + e3)) = g * ((1 + e1) * (1 + e3) / (1 + e2))) by (unfold g, a; field; split; lra).
  assert (Z : Rabs ((1 + e1) * (1 + e3) / (1 + e2) - 1) <= 31 / 10 * u).
  { assert (P13 : Rabs (e1 * e3) <= 1 / 10000000 * u) by (rewrite Rabs_mult; apply Rmult_le_compat; try apply Rabs_pos; apply Rabs_le; lra).
    replace ((1 + e1) * (1 + e3) / (1 + e2) - 1) with ((e1 + e3 - e2 + e1 * e3) / (1 + e2)) by (field; lra). unfold Rdiv. rewrite Rabs_mult, Rabs_inv, (Rabs_pos_eq (1 + e2)) by lra.
    apply Rmult_le_reg_r with (1 + e2); [lra|]. rewrite Rmult_assoc, Rinv_l by lra. rewrite Rmult_1_r. apply Rabs_le_inv in P13. assert (31 / 10 * u * (1 + e2) >= 31 / 10 * u * (9 / 10 + 99 / 1000)) by (apply Rle_ge, Rmult_le_compat_l; lra). apply Rabs_le. lra. }
  set (z := (1 + e1) * (1 + e3) / (1 + e2)) in *. clearbody z. apply Rabs_le_inv in Z.
  assert (Bg : Rabs (g * z) <= b2 (4 * k + 8)).
  { rewrite Rabs_mult, (Rabs_pos_eq z) by lra. apply Rle_trans with (4 * b2 k * 2).
    - apply Rmult_le_compat; try apply Rabs_pos; try lra. unfold g. rewrite Rabs_mult, (Rabs_pos_eq 2) by lra. unfold Rdiv. rewrite !Rabs_mult, Rabs_inv.
      assert (I : / Rabs s <= b2 k) by (replace (b2 k) with (/ b2 (- k)) by (rewrite <- bpow_opp; f_equal; lia); apply Rinv_le_contravar; lra).
      assert (J : Rabs (p - c) * / Rabs s <= 2) by (apply Rmult_le_reg_r with (Rabs s); [lra|rewrite Rmult_assoc, Rinv_l by lra; lra]).
      assert (Rabs (p - c) * / Rabs s * / Rabs s <= 2 * b2 k) by (apply Rmult_le_compat; try lra; [apply Rmult_le_pos; [apply Rabs_pos|]|]; left; apply Rinv_0_lt_compat; lra). lra.
    - replace (4 * b2 k * 2) with (b2 (k + 3)) by (rewrite bpow_plus; cbn; ring). apply bpow_le. lia. }
  exists (rnd (g * z)). split; [rewrite <- Eg; apply (mult_val prec emax Hp Hm lm); auto; rewrite Eg; apply Big; exact Bg|].
  intros T HT Gt. pose proof (bpow_gt_0 radix2 (- kk)) as t0. assert (Gz : Rabs (g * z) <= 1001 / 1000 * T) by (rewrite Rabs_mult, (Rabs_pos_eq z) by lra; rewrite (Rmult_comm (1001 / 1000)); apply Rmult_le_compat; try apply Rabs_pos; lra).
  pose proof (scaled _ _ T HT Gz) as F. assert (D : Rabs (g * z - g) <= 31 / 10 * u * T).
  { replace (g * z - g) with (g * (z - 1)) by ring. rewrite Rabs_mult, (Rmult_comm (31 / 10 * u)). apply Rmult_le_compat; try apply Rabs_pos; [exact Gt|apply Rabs_le; lra]. }
  assert (0 < u * T) by (apply Rmult_lt_0_compat; lra). replace (rnd (g * z) - g) with ((rnd (g * z) - g * z) + (g * z - g)) by ring. eapply Rle_trans; [apply Rabs_triang|]. lra.
Qed.

(** *** normalising a vector of any moderate length *)
Lemma normalize_any : forall f v, vals f v -> b2 (- (k + 1)) <= normR v <= b2 (k + 5) -> exists y, vals (vdiv (F:=N) f (norm (F:=N) f)) y /\ near3 (9 * u) y (unitR v).
Proof.
  intros f v (V1 & V2 & V3') (N1 & N2). pose proof U as U0. destruct (component_le v) as (c1 & c2 & c3). set (n := normR v) in *. pose proof (bpow_gt_0 radix2 (- (k + 1))) as k0. assert (n0 : 0 < n) by lra.
  assert (NN : n * n = vx v * vx v + vy v * vy v + vz v * vz v) by (unfold n, normR; rewrite sqrt_sqrt; unfold normsqR, dotR; [reflexivity|pose proof (Rle_0_sqr (vx v)); pose proof (Rle_0_sqr (vy v)); pose proof (Rle_0_sqr (vz v)); unfold Rsqr in *; lra]).
  set (T := n * n) in *. assert (T1 : b2 (- kk) <= T) by (unfold T; replace (- kk)%Z with (- (k + 1) + - (k + 1))%Z by ring; rewrite bpow_plus; apply Rmult_le_compat; lra).
  assert (T2 : 4 * T <= b2 (emax - 1)). { apply Rle_trans with (4 * (b2 (k + 5) * b2 (k + 5))); [apply Rmult_le_compat_l; [lra|]; apply Rmult_le_compat; lra|]. replace 4 with (b2 2) by (cbn; ring). rewrite <- !bpow_plus. apply bpow_le. lia. }
  assert (T3 : b2 (- kk) <= n) by (eapply Rle_trans; [|exact N1]; apply bpow_le; lia).
  pose proof (Rle_0_sqr (vx v)) as q1. pose proof (Rle_0_sqr (vy v)) as q2. pose proof (Rle_0_sqr (vz v)) as q3. unfold Rsqr in q1, q2, q3.
  assert (T0 : 0 < T) by (apply Rmult_lt_0_compat; lra). assert (uT : 0 < u * T) by (apply Rmult_lt_0_compat; lra). assert (uT1 : u * T <= 1 / 10000000 * T) by (apply Rmult_le_compat_r; lra).
  assert (St : forall x q, 0 <= q <= 2 -> Rabs x <= q * T -> Rabs x <= b2 (emax - 1) /\ Rabs (rnd x - x) <= (q + 1 / 100) * u * T).
  { intros x q Hq Hx. split; [|apply scaled; assumption]. assert (q * T <= 2 * T) by (apply Rmult_le_compat_r; lra). lra. }
  set (x1 := vx v * vx v) in *. set (x2 := vy v * vy v) in *. set (x3 := vz v * vz v) in *.
  assert (Sq : forall fx x, val fx x -> 0 <= x * x <= T -> exists r, val (nmul (NumOps:=N) fx fx) r /\ - (101 / 100 * (u * T)) <= r - x * x <= 101 / 100 * (u * T)).
  { intros fx x Vx Hx. destruct (St (x * x) 1 ltac:(lra) ltac:(rewrite Rabs_pos_eq; lra)) as (A & B). exists (rnd (x * x)). split; [apply (mult_val prec emax Hp Hm lm); auto|]. apply Rabs_le_inv in B. lra. }
  destruct (Sq _ _ V1 ltac:(fold x1; lra)) as (r1 & R1 & D1). destruct (Sq _ _ V2 ltac:(fold x2; lra)) as (r2 & R2 & D2). destruct (Sq _ _ V3' ltac:(fold x3; lra)) as (r3 & R3 & D3). fold x1 in D1. fold x2 in D2. fold x3 in D3.
  assert (V0 : val (nofZ (NumOps:=N) 0) 0) by (apply (P_Sampler.ofZ_small prec emax Hp Hm lm P24 ltac:(lia) 0); lia).
  assert (Sm : forall fx fy x y, val fx x -> val fy y -> Rabs (x + y) <= 1001 / 1000 * T -> exists a, val (nadd (NumOps:=N) fx fy) a /\ - (102 / 100 * (u * T)) <= a - (x + y) <= 102 / 100 * (u * T)).
  { intros fx fy x y Vx Vy Hx. destruct (St (x + y) (1001 / 1000) ltac:(lra) Hx) as (A & B). exists (rnd (x + y)). split; [apply (plus_val prec emax Hp Hm lm); auto|]. apply Rabs_le_inv in B. lra. }
  destruct (Sm _ _ _ _ V0 R1 ltac:(apply Rabs_le; lra)) as (a1 & A1 & F1). destruct (Sm _ _ _ _ A1 R2 ltac:(apply Rabs_le; lra)) as (a2 & A2 & F2). destruct (Sm _ _ _ _ A2 R3 ltac:(apply Rabs_le; lra)) as (a & A & F3).
  assert (Ea : - (61 / 10 * (u * T)) <= a - T <= 61 / 10 * (u * T)) by lra. clear D1 D2 D3 F1 F2 F3 A1 A2 Sm Sq R1 R2 R3.
  assert (a0 : 0 <= a) by lra. pose proof (sqrt_val prec emax Hp Hm lm _ _ A a0) as Vn. pose proof (sqrt_pos a) as s0. pose proof (sqrt_sqrt a a0) as ss. set (s := sqrt a) in *. clearbody s.
  assert (un : 0 < u * n) by (apply Rmult_lt_0_compat; lra). assert (un1 : u * n <= 1 / 10000000 * n) by (apply Rmult_le_compat_r; lra).
  assert (Ds : Rabs (s - n) <= 61 / 10 * (u * n)).
  { apply Rmult_le_reg_r with n; [lra|]. apply Rle_trans with (Rabs (a - T)); [|apply Rabs_le; unfold T in Ea |- *; lra]. rewrite <- ss. unfold T. replace (s * s - n * n) with ((s - n) * (s + n)) by ring. rewrite Rabs_mult, (Rabs_pos_eq (s + n)) by lra. apply Rmult_le_compat_l; [apply Rabs_pos|lra]. }
  apply Rabs_le_inv in Ds. pose proof (scaled s (1001 / 1000) n T3 ltac:(apply Rabs_le; lra)) as Dn. set (m := rnd s) in *. clearbody m. apply Rabs_le_inv in Dn. assert (Dm : - (72 / 10 * (u * n)) <= m - n <= 72 / 10 * (u * n)) by lra. clear Dn Ds Ea.
  assert (m0 : 999 / 1000 * n <= m) by lra. assert (mp : 0 < m) by lra.
  assert (C : forall fx x, val fx x -> Rabs x <= n -> exists y, val (ndiv (NumOps:=N) fx (norm (F:=N) f)) y /\ Rabs (y - / n * x) <= 9 * u).
  { intros fx x Vx Hx. assert (X1 : Rabs (x / m) <= 1002 / 1000). { unfold Rdiv. rewrite Rabs_mult, Rabs_inv, (Rabs_pos_eq m) by lra. apply Rmult_le_reg_r with m; [exact mp|]. rewrite Rmult_assoc, Rinv_l by lra. lra. }
    assert (X2 : Rabs (x / m - / n * x) <= 722 / 100 * u).
    { replace (x / m - / n * x) with (x / m * ((n - m) / n)) by (field; split; lra). rewrite Rabs_mult. apply Rle_trans with (1002 / 1000 * (72 / 10 * u)); [|lra]. apply Rmult_le_compat; try apply Rabs_pos; [exact X1|].
      unfold Rdiv. rewrite Rabs_mult, Rabs_inv, (Rabs_pos_eq n) by lra. apply Rmult_le_reg_r with n; [exact n0|]. rewrite Rmult_assoc, Rinv_l by lra. rewrite Rmult_1_r. apply Rabs_le. lra. }
    assert (B1 : b2 (- kk) <= 1) by (change 1 with (b2 0); apply bpow_le; lia). pose proof (scaled (x / m) (1002 / 1000) 1 B1 ltac:(lra)) as X3.
    exists (rnd (x / m)). split; [apply (div_val prec emax Hp Hm lm); [exact Vx|exact Vn|lra|]|].
    - eapply Rle_trans; [exact X1|]. apply Rle_trans with (b2 1); [cbn; lra|apply bpow_le; lia].
    - replace (rnd (x / m) - / n * x) with ((rnd (x / m) - x / m) + (x / m - / n * x)) by ring. eapply Rle_trans; [apply Rabs_triang|]. lra. }
  destruct (C _ _ V1 c1) as (y1 & Y1 & G1). destruct (C _ _ V2 c2) as (y2 & Y2 & G2). destruct (C _ _ V3' c3) as (y3 & Y3 & G3).
  exists (V3 y1 y2 y3). split; [split; [exact Y1|split; [exact Y2|exact Y3]]|]. unfold near3, unitR, scaleR; cbn [vx vy vz]. fold n. auto.
Qed.

(** *** the normal at a point near the ellipsoid *)
Lemma normal_near : forall (fp fc fs : vec3 float) p c s, vals fp p -> vals fc c -> vals fs s ->
  (b2 (- k) <= Rabs (vx s) <= b2 k) -> (b2 (- k) <= Rabs (vy s) <= b2 k) -> (b2 (- k) <= Rabs (vz s) <= b2 k) ->
  Rabs (normsqR (divR3 (subR p c) s) - 1) <= 1 / 4 ->
  let side c p s := nmul (NumOps:=N) (nsub (NumOps:=N) p c) (ndiv (NumOps:=N) (nofZ (NumOps:=N) 2) (nmul (NumOps:=N) s s)) in
  let M := V3 (side (vx fc) (vx fp) (vx fs)) (side (vy fc) (vy fp) (vy fs)) (side (vz fc) (vz fp) (vz fs)) in
  exists y, vals (vdiv (F:=N) M (norm (F:=N) M)) y /\ near3 (27 * u) y (unitR (scaleR 2 (divR3 (divR3 (subR p c) s) s))).
Proof.
  intros fp fc fs p c s (p1 & p2 & p3) (c1 & c2 & c3) (s1 & s2 & s3) S1 S2 S3 H side M. pose proof U as U0. pose proof (bpow_gt_0 radix2 (- k)) as k0.
  apply Rabs_le_inv in H. unfold normsqR, dotR, divR3, subR in H. cbn [vx vy vz] in H.
  set (z1 := (vx p - vx c) / vx s) in *. set (z2 := (vy p - vy c) / vy s) in *. set (z3 := (vz p - vz c) / vz s) in *.
  pose proof (Rle_0_sqr z1) as q1. pose proof (Rle_0_sqr z2) as q2. pose proof (Rle_0_sqr z3) as q3. unfold Rsqr in q1, q2, q3.
  assert (Zn : forall w, b2 (- k) <= Rabs w <= b2 k -> w <> 0 /\ 0 < Rabs w) by (intros w W; split; [intros ->; rewrite Rabs_R0 in W; lra|lra]).
  assert (B : forall a w z, b2 (- k) <= Rabs w <= b2 k -> z = a / w -> z * z <= 5 / 4 -> Rabs a <= 2 * Rabs w).
  { intros a w z W Ez Hz. destruct (Zn w W) as (Zw & w0). assert (Rabs z <= 2) by (apply Rsqr_incr_0_var; [rewrite <- Rsqr_abs; unfold Rsqr; lra|lra]).
    replace a with (z * w) by (rewrite Ez; field; exact Zw). rewrite Rabs_mult. apply Rmult_le_compat_r; lra. }
  destruct (component _ _ _ _ _ _ p1 c1 s1 S1 (B _ _ z1 S1 eq_refl ltac:(lra))) as (m1 & M1 & D1). destruct (component _ _ _ _ _ _ p2 c2 s2 S2 (B _ _ z2 S2 eq_refl ltac:(lra))) as (m2 & M2 & D2). destruct (component _ _ _ _ _ _ p3 c3 s3 S3 (B _ _ z3 S3 eq_refl ltac:(lra))) as (m3 & M3 & D3).
  fold z1 in D1. fold z2 in D2. fold z3 in D3. set (g := scaleR 2 (divR3 (divR3 (subR p c) s) s)).
  assert (Eg : g = V3 (2 * (z1 / vx s)) (2 * (z2 / vy s)) (2 * (z3 / vz s))) by reflexivity. clearbody z1 z2 z3. clear B p1 p2 p3 c1 c2 c3 s1 s2 s3.
  destruct (component_le g) as (g1 & g2 & g3). clearbody g. set (G := normR g) in *.
  assert (Gx : vx g = 2 * (z1 / vx s)) by (rewrite Eg; reflexivity). assert (Gy : vy g = 2 * (z2 / vy s)) by (rewrite Eg; reflexivity). assert (Gz : vz g = 2 * (z3 / vz s)) by (rewrite Eg; reflexivity). clear Eg. rewrite Gx in g1. rewrite Gy in g2. rewrite Gz in g3.
  assert (Lz : forall z w, b2 (- k) <= Rabs w <= b2 k -> 1 / 4 <= z * z -> b2 (- k) <= Rabs (2 * (z / w))).
  { intros z w W Hz. destruct (Zn w W) as (Zw & w0). assert (1 / 2 <= Rabs z) by (apply Rsqr_incr_0_var; [rewrite <- Rsqr_abs; unfold Rsqr; lra|apply Rabs_pos]).
    unfold Rdiv. rewrite !Rabs_mult, Rabs_inv, (Rabs_pos_eq 2) by lra. assert (I : b2 (- k) <= / Rabs w) by (rewrite bpow_opp; apply Rinv_le_contravar; lra).
    assert (1 / 2 * b2 (- k) <= Rabs z * / Rabs w) by (apply Rmult_le_compat; lra). lra. }
  assert (Uz : forall z w, b2 (- k) <= Rabs w <= b2 k -> z * z <= 5 / 4 -> Rabs (2 * (z / w)) <= 5 / 2 * b2 k).
  { intros z w W Hz. destruct (Zn w W) as (Zw & w0). assert (Rabs z <= 5 / 4) by (apply Rsqr_incr_0_var; [rewrite <- Rsqr_abs; unfold Rsqr; lra|lra]).
    unfold Rdiv. rewrite !Rabs_mult, Rabs_inv, (Rabs_pos_eq 2) by lra. assert (I : / Rabs w <= b2 k) by (replace (b2 k) with (/ b2 (- k)) by (rewrite <- bpow_opp; f_equal; lia); apply Rinv_le_contravar; lra).
    assert (Rabs z * / Rabs w <= 5 / 4 * b2 k) by (apply Rmult_le_compat; try apply Rabs_pos; try lra; left; apply Rinv_0_lt_compat; exact w0). lra. }
  assert (GL : b2 (- k) <= G).
  { destruct (Rle_dec (1 / 4) (z1 * z1)) as [A|A]; [pose proof (Lz _ _ S1 A); lra|]. destruct (Rle_dec (1 / 4) (z2 * z2)) as [A2|A2]; [pose proof (Lz _ _ S2 A2); lra|]. pose proof (Lz z3 _ S3 ltac:(lra)). lra. }
  pose proof (Uz z1 _ S1 ltac:(lra)) as u1. pose proof (Uz z2 _ S2 ltac:(lra)) as u2. pose proof (Uz z3 _ S3 ltac:(lra)) as u3. clear Uz Lz.
  assert (GK : b2 (- kk) <= G) by (eapply Rle_trans; [|exact GL]; apply bpow_le; lia).
  specialize (D1 G GK g1). specialize (D2 G GK g2). specialize (D3 G GK g3).
  set (m := V3 m1 m2 m3). assert (Nm : near3 (43 / 10 * u * G) m g) by (unfold near3, m; rewrite Gx, Gy, Gz; cbn [vx vy vz]; auto).
  assert (Zg : g <> V3 0 0 0). { intros E0. assert (G = 0) by (unfold G; rewrite E0; unfold normR, normsqR, dotR; cbn [vx vy vz]; replace (0 * 0 + 0 * 0 + 0 * 0) with 0 by ring; apply sqrt_0). lra. }
  destruct (unit_moved m g (43 / 10 * u) Zg Nm ltac:(lra)) as (Zm & Um).
  assert (uG : 0 < u * G) by (apply Rmult_lt_0_compat; lra). assert (uG1 : u * G <= 1 / 10000000 * G) by (apply Rmult_le_compat_r; lra).
  assert (GU : G <= 5 * b2 k).
  { unfold G, normR. apply Rle_trans with (sqrt (5 * b2 k * (5 * b2 k))); [apply sqrt_le_1_alt|rewrite sqrt_square; [lra|pose proof (bpow_gt_0 radix2 k); lra]].
    unfold normsqR, dotR. rewrite Gx, Gy, Gz. assert (Q : forall x, Rabs x <= 5 / 2 * b2 k -> x * x <= 5 / 2 * b2 k * (5 / 2 * b2 k)) by (intros x Hx; replace (x * x) with (Rabs x * Rabs x) by (rewrite <- Rabs_mult; apply Rabs_pos_eq; apply Rle_0_sqr); apply Rmult_le_compat; auto using Rabs_pos).
    pose proof (Q _ u1). pose proof (Q _ u2). pose proof (Q _ u3). pose proof (Rle_0_sqr (b2 k)) as X. unfold Rsqr in X. lra. }
  assert (Nb : 1 / 2 * G <= normR m <= 2 * G).
  { assert (Sg : normsqR g = G * G) by (unfold G, normR; rewrite sqrt_sqrt; [reflexivity|unfold normsqR, dotR; pose proof (Rle_0_sqr (vx g)); pose proof (Rle_0_sqr (vy g)); pose proof (Rle_0_sqr (vz g)); unfold Rsqr in *; lra]).
    destruct Nm as (n1 & n2 & n3). assert (h0 : 0 <= 43 / 10 * u) by lra.
    assert (T' : Rabs (normsqR (addR g (subR m g)) - normsqR g) <= 3 * (2 * 1 * (43 / 10 * u) + 43 / 10 * u * (43 / 10 * u)) * (G * G)).
    { apply normsq_perturbed; try lra; try (rewrite ?Gx, ?Gy, ?Gz; lra); assumption. }
    rewrite addsub, Sg in T'. assert (GG : 0 < G * G) by (apply Rmult_lt_0_compat; lra). assert (c1 : 3 * (2 * 1 * (43 / 10 * u) + 43 / 10 * u * (43 / 10 * u)) <= 1 / 2). { assert (43 / 10 * u * (43 / 10 * u) <= 1 / 100 * (43 / 10 * u)) by (apply Rmult_le_compat_r; lra). lra. }
    assert (c2 : 3 * (2 * 1 * (43 / 10 * u) + 43 / 10 * u * (43 / 10 * u)) * (G * G) <= 1 / 2 * (G * G)) by (apply Rmult_le_compat_r; lra). apply Rabs_le_inv in T'.
    unfold normR. split.
    - apply Rle_trans with (sqrt (1 / 2 * G * (1 / 2 * G))); [rewrite sqrt_square; lra|apply sqrt_le_1_alt; lra].
    - apply Rle_trans with (sqrt (2 * G * (2 * G))); [apply sqrt_le_1_alt; lra|rewrite sqrt_square; lra]. }
  destruct (normalize_any M m) as (y & Vy & Ny).
  { split; [exact M1|split; [exact M2|exact M3]]. }
  { replace (- (k + 1))%Z with (- k + -1)%Z by ring. rewrite !bpow_plus. change (b2 (-1)) with (/ 2). replace (b2 5) with 32 by (cbn; ring). lra. }
  exists y. split; [exact Vy|]. destruct Ny as (a1 & a2 & a3), Um as (b1 & b2' & b3). assert (Tr : forall a b x, Rabs (a - b) <= 9 * u -> Rabs (b - x) <= 4 * (43 / 10 * u) -> Rabs (a - x) <= 27 * u) by (intros a b x A0 B0; replace (a - x) with ((a - b) + (b - x)) by ring; eapply Rle_trans; [apply Rabs_triang|]; lra).
  split; [exact (Tr _ _ _ a1 b1)|split; [exact (Tr _ _ _ a2 b2')|exact (Tr _ _ _ a3 b3)]].
Qed.
End Normal.

(** *** as stated in T_Accuracy.v *)
Lemma egg_normal_stated : forall (prec emax : Z) (Hp : Prec_gt_0 prec) (Hm : Prec_lt_emax prec emax) (lm : libm (binary_float prec emax)) (k : Z),
  (24 <= prec)%Z -> (0 <= k)%Z -> (12 * k + 10 * prec + 36 <= emax)%Z ->
  forall (e : ellipsoid (binary_float prec emax)) (fray : ray (binary_float prec emax)) (c s o d : vec3 R),
  map3 fval (el_center e) = fin3 c -> map3 fval (el_scales e) = fin3 s -> map3 fval (r_orig fray) = fin3 o -> map3 fval (r_dir fray) = fin3 d ->
  moderate3 k c -> moderate3 k s -> moderate3 k o -> moderate3 k d -> vx s <> 0 -> vy s <> 0 -> vz s <> 0 -> d <> V3 0 0 0 ->
  let u := bpow radix2 (- prec) in
  forall S, 1 <= S -> within_axes S s o -> within_axes S s c -> 11500 * u * (S * S) <= 1 / 4 ->
  forall lo hi rec rec', ellipsoid_hit (F:=FL prec emax Hp Hm lm) e fray lo hi rec = Ok (true, rec') ->
  exists p n, map3 fval (h_p rec') = fin3 p /\ map3 fval (h_normal rec') = fin3 n /\
    near3 (27 * u) (if h_front rec' then n else negR n) (unitR (scaleR 2 (divR3 (divR3 (subR p c) s) s))).
Proof.
  intros prec emax Hp Hm lm k P24 K0 K e fray c s o d Vc Vs Vo Vd Mc Ms Mo Md Z1 Z2 Z3 Zd u S S1 So Sc Su lo hi rec rec' H.
  destruct (egg_stated prec emax Hp Hm lm k P24 K0 K e fray c s o d Vc Vs Vo Vd Mc Ms Mo Md Z1 Z2 Z3 Zd lo hi rec rec' H) as (t & p & _ & Vp & _ & E). destruct (E S S1 So Sc) as (_ & _ & G).
  pose proof (egg_normal_field _ _ _ _ _ _ H) as Nf. cbv zeta in Nf. clear H E. pose proof Vp as Wp. apply vals_fval in Vc, Vs, Wp.
  assert (Sz : forall x, moderate k x -> x <> 0 -> bpow radix2 (- k) <= Rabs x <= bpow radix2 k) by (intros x [A|A] Zx; [contradiction|exact A]). destruct Ms as (s1 & s2 & s3).
  destruct (normal_near prec emax Hp Hm lm k P24 K0 K _ _ _ _ _ _ Wp Vc Vs (Sz _ s1 Z1) (Sz _ s2 Z2) (Sz _ s3 Z3)) as (y & Vy & Ny); [fold u in G; eapply Rle_trans; [exact G|exact Su]|].
  cbv zeta in Vy. exists p. destruct (h_front rec').
  - exists y. split; [exact Vp|]. split; [apply vals_fval; rewrite Nf; exact Vy|exact Ny].
  - exists (negR y). split; [exact Vp|]. split; [apply vals_fval; rewrite Nf; apply (P_SphereHit.neg_vals prec emax Hp Hm lm); exact Vy|].
    rewrite neg_twice. exact Ny.
Qed.
