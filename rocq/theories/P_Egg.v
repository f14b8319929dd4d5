(** How far the hits reported by ellipsoid::hit are from the ellipsoid, in floating point. *)
From Coq Require Import Reals Lra ZArith Lia List Bool.
From Flocq Require Import Core Relative BinarySingleNaN.
From Verif Require Import Num XR FL Spec Spec_Accuracy Spec_Egg M_Vec M_Roots M_Hittable M_Shapes P_FL P_Round P_Accuracy P_Floats P_SphereFloat P_Sampler P_FlatLeave P_Bend P_SphereHit.
Import ListNotations.
Local Open Scope R_scope.

Lemma addsub : forall X Y : vec3 R, addR Y (subR X Y) = X.
Proof. intros [x1 x2 x3] [y1 y2 y3]. unfold addR, subR. cbn [vx vy vz]. f_equal; ring. Qed.

(** *** what a hit stores, with any arithmetic *)
Lemma egg_fields : forall {F : NumOps} (e : ellipsoid num) r lo hi rec rec', ellipsoid_hit e r lo hi rec = Ok (true, rec') ->
  let w := vsub (r_orig r) (el_center e) in
  let P := V3 (ndiv (vx w) (vx (el_scales e))) (ndiv (vy w) (vy (el_scales e))) (ndiv (vz w) (vz (el_scales e))) in
  let Q := V3 (ndiv (vx (r_dir r)) (vx (el_scales e))) (ndiv (vy (r_dir r)) (vy (el_scales e))) (ndiv (vz (r_dir r)) (vz (el_scales e))) in
  exists f, first_quadratic_root_in_range (squared_norm Q) (nmul (nofZ 2) (dot P Q)) (nsub (squared_norm P) (nofZ 1)) lo hi = Some f /\ h_t rec' = f /\ h_p rec' = ray_at r f.
Proof.
  intros F e r lo hi rec rec' H w P Q. unfold ellipsoid_hit in H. cbv zeta in H. fold w P Q in H.
  destruct (first_quadratic_root_in_range _ _ _ lo hi) as [f|]; [|discriminate H]. exists f. split; [reflexivity|].
  destruct (ellipsoid_uv _ _) as [us vs]. injection H as <-. split; reflexivity.
Qed.
Lemma egg_struck : forall {F : NumOps} (e : ellipsoid num) r lo hi rec,
  let w := vsub (r_orig r) (el_center e) in
  let P := V3 (ndiv (vx w) (vx (el_scales e))) (ndiv (vy w) (vy (el_scales e))) (ndiv (vz w) (vz (el_scales e))) in
  let Q := V3 (ndiv (vx (r_dir r)) (vx (el_scales e))) (ndiv (vy (r_dir r)) (vy (el_scales e))) (ndiv (vz (r_dir r)) (vz (el_scales e))) in
  first_quadratic_root_in_range (squared_norm Q) (nmul (nofZ 2) (dot P Q)) (nsub (squared_norm P) (nofZ 1)) lo hi <> None -> exists rec', ellipsoid_hit e r lo hi rec = Ok (true, rec').
Proof.
  intros F e r lo hi rec w P Q H. unfold ellipsoid_hit. cbv zeta. fold w P Q.
  destruct (first_quadratic_root_in_range _ _ _ lo hi) as [f|]; [|contradiction]. destruct (ellipsoid_uv _ _) as [us vs]. eexists. reflexivity.
Qed.

Section Egg.
Variables prec emax : Z.
Context (Hp : Prec_gt_0 prec) (Hm : Prec_lt_emax prec emax).
Variable lm : libm (binary_float prec emax).
Variable k : Z.
Hypothesis P24 : (24 <= prec)%Z.
Hypothesis K0 : (0 <= k)%Z.
Hypothesis K : (12 * k + 10 * prec + 36 <= emax)%Z.
Notation float := (binary_float prec emax).
Notation N := (FL prec emax Hp Hm lm).
Notation rnd := (round radix2 (SpecFloat.fexp prec emax) ZnearestE).
Notation val := (val prec emax).
Notation vals := (vals prec emax).
Notation b2 := (bpow radix2).
Notation u := (bpow radix2 (- prec)).
Notation k2 := (3 * k + prec + 5)%Z.
Lemma KK : (4 * k2 + 6 * prec + 16 <= emax)%Z. Proof. lia. Qed.
Lemma KK0 : (0 <= k2)%Z. Proof. lia. Qed.
Lemma KC : (4 * k + 6 * prec + 16 <= emax)%Z. Proof. lia. Qed.
Let U : 0 < u <= 1 / 10000000 := P_SphereFloat.u_tiny prec k P24.

(** *** dividing by a semi-axis *)
Lemma quot : forall (fx fy : float) x y, val fx x -> val fy y -> (x = 0 \/ b2 (- (k + prec)) <= Rabs x <= b2 (k + 2)) -> b2 (- k) <= Rabs y <= b2 k ->
  exists e, Rabs e <= u /\ val (ndiv (NumOps:=N) fx fy) (x / y * (1 + e)) /\ moderate k2 (x / y * (1 + e)).
Proof.
  intros fx fy x y Vx Vy Hx (Y1 & Y2). pose proof U as U0. pose proof (bpow_gt_0 radix2 (- k)) as k0. assert (y0 : 0 < Rabs y) by lra. assert (Zy : y <> 0) by (intros ->; rewrite Rabs_R0 in y0; lra).
  assert (I1 : / Rabs y <= b2 k) by (rewrite <- (Ropp_involutive (/ Rabs y)), Ropp_involutive; replace (b2 k) with (/ b2 (- k)) by (rewrite <- bpow_opp; f_equal; lia); apply Rinv_le_contravar; lra).
  assert (I2 : b2 (- k) <= / Rabs y) by (rewrite bpow_opp; apply Rinv_le_contravar; lra).
  assert (A : Rabs (x / y) = Rabs x * / Rabs y) by (unfold Rdiv; rewrite Rabs_mult, Rabs_inv; reflexivity).
  assert (B : x / y = 0 \/ b2 (- (2 * k + prec)) <= Rabs (x / y) <= b2 (2 * k + 2)).
  { destruct Hx as [->|(X1 & X2)]; [left; unfold Rdiv; ring|right]. rewrite A. pose proof (bpow_gt_0 radix2 (- (k + prec))) as k1. split.
    - replace (- (2 * k + prec))%Z with (- (k + prec) + - k)%Z by ring. rewrite bpow_plus. apply Rmult_le_compat; lra.
    - replace (2 * k + 2)%Z with (k + 2 + k)%Z by ring. rewrite bpow_plus. apply Rmult_le_compat; solve [lra|apply Rabs_pos|left; apply Rinv_0_lt_compat; exact y0]. }
  assert (Bg : Rabs (x / y) <= b2 (emax - 1)). { destruct B as [->|(_ & B)]; [rewrite Rabs_R0; apply bpow_ge_0|eapply Rle_trans; [exact B|apply bpow_le; lia]]. }
  destruct (rel prec emax Hp (x / y)) as (e & He & E). { destruct B as [B|(B & _)]; [left; exact B|right; eapply Rle_trans; [apply bpow_le|exact B]; lia]. }
  exists e. split; [exact He|]. split; [rewrite <- E; apply (div_val prec emax Hp Hm lm); assumption|].
  destruct B as [B|(B1 & B2)]; [left; rewrite B; ring|right]. rewrite Rabs_mult. apply Rabs_le_inv in He. rewrite (Rabs_pos_eq (1 + e)) by lra.
  pose proof (bpow_gt_0 radix2 (- (2 * k + prec))). split.
  - apply Rle_trans with (b2 (- (2 * k + prec)) * / 2); [|apply Rmult_le_compat; lra]. change (/ 2) with (b2 (-1)). rewrite <- bpow_plus. apply bpow_le. lia.
  - apply Rle_trans with (b2 (2 * k + 2) * 2); [apply Rmult_le_compat; try lra; apply Rabs_pos|]. apply Rle_trans with (b2 (2 * k + 2 + 1)); [rewrite (bpow_plus _ (2 * k + 2)); cbn; lra|apply bpow_le; lia].
Qed.

(** *** subtracting zero and multiplying by one *)
Lemma minus_zero : forall (x : float) a, val x a -> nsub (NumOps:=N) x (nofZ (NumOps:=N) 0) = x.
Proof. intros x a [F _]. destruct x as [[|]|[|]| |sx mx ex Hx]; try discriminate F; reflexivity. Qed.
Lemma one_times : nmul (NumOps:=N) (nofZ (NumOps:=N) 1) (nofZ (NumOps:=N) 1) = nofZ (NumOps:=N) 1.
Proof.
  assert (V1 : val (nofZ (NumOps:=N) 1) 1) by (apply (P_Sampler.ofZ_small prec emax Hp Hm lm P24 ltac:(lia) 1); lia).
  assert (V2 : val (nmul (NumOps:=N) (nofZ (NumOps:=N) 1) (nofZ (NumOps:=N) 1)) 1).
  { pose proof (mult_val prec emax Hp Hm lm _ _ _ _ V1 V1) as M. rewrite Rmult_1_l, rnd_id in M by (exact (val_format prec emax _ _ V1)). apply M. rewrite Rabs_R1. change 1 with (b2 0). apply bpow_le. lia. }
  destruct V1 as [F1 E1], V2 as [F2 E2]. apply B2R_inj; [apply is_finite_strict_B2R; rewrite ?E2, ?F2; lra|apply is_finite_strict_B2R; rewrite ?E1, ?F1; lra|congruence].
Qed.

(** *** the hit *)
Variables (fo fc fs fd : vec3 float) (o c s d : vec3 R).
Hypothesis Vo : vals fo o.
Hypothesis Vc : vals fc c.
Hypothesis Vs : vals fs s.
Hypothesis Vd : vals fd d.
Hypothesis Mo : moderate3 k o.
Hypothesis Mc : moderate3 k c.
Hypothesis Ms : moderate3 k s.
Hypothesis Md : moderate3 k d.
Hypothesis Zs : vx s <> 0 /\ vy s <> 0 /\ vz s <> 0.
Hypothesis Zd : d <> V3 0 0 0.
Definition fP : vec3 float := let w := vsub (F:=N) fo fc in V3 (ndiv (NumOps:=N) (vx w) (vx fs)) (ndiv (NumOps:=N) (vy w) (vy fs)) (ndiv (NumOps:=N) (vz w) (vz fs)).
Definition fQ : vec3 float := V3 (ndiv (NumOps:=N) (vx fd) (vx fs)) (ndiv (NumOps:=N) (vy fd) (vy fs)) (ndiv (NumOps:=N) (vz fd) (vz fs)).
Definition off (h x y : R) : Prop := exists e, Rabs e <= h /\ x = y * (1 + e).
Definition off3 (h : R) (a b : vec3 R) : Prop := off h (vx a) (vx b) /\ off h (vy a) (vy b) /\ off h (vz a) (vz b).
Lemma axis_sizes : (b2 (- k) <= Rabs (vx s) <= b2 k) /\ (b2 (- k) <= Rabs (vy s) <= b2 k) /\ (b2 (- k) <= Rabs (vz s) <= b2 k).
Proof. destruct Ms as ([A|A] & [B|B] & [C|C]), Zs as (X & Y & W); try contradiction; auto. Qed.
Lemma P_val : exists P, vals fP P /\ moderate3 k2 P /\ off3 (21 / 10 * u) P (divR3 (subR o c) s).
Proof.
  pose proof U as U0. destruct (centre_val prec emax Hp Hm lm k P24 K0 KC fo fc o c Vo Vc Mo Mc) as (w & (W1 & W2 & W3) & (G1 & G2 & G3) & (e1 & H1 & D1) & (e2 & H2 & D2) & (e3 & H3 & D3)).
  destruct axis_sizes as (S1 & S2 & S3), Vs as (T1 & T2 & T3), Mo as (A1 & A2 & A3), Mc as (B1 & B2 & B3).
  assert (Q : forall x y e z, moderate k x -> moderate k y -> Rabs e <= u -> z = (x - y) * (1 + e) -> grid (- k + 1 - prec) z -> z = 0 \/ b2 (- (k + prec)) <= Rabs z <= b2 (k + 2)).
  { intros x y e z Mx My He Ez Gz. destruct (grid_large _ _ Gz) as [|L]; [left; assumption|right]. split; [eapply Rle_trans; [|exact L]; apply bpow_le; lia|].
    pose proof (moderate_bound k x Mx) as Bx. pose proof (moderate_bound k y My) as By. rewrite Ez, Rabs_mult. apply Rle_trans with (2 * b2 k * 2).
    - apply Rmult_le_compat; auto using Rabs_pos; [eapply Rle_trans; [apply Rabs_triang|]; rewrite (Rabs_Ropp y); lra|]. apply Rabs_le_inv in He. apply Rabs_le. lra.
    - replace (2 * b2 k * 2) with (b2 (k + 2)) by (rewrite bpow_plus; cbn; ring). lra. }
  destruct (quot _ _ _ _ W1 T1 (Q _ _ _ _ A1 B1 H1 D1 G1) S1) as (f1 & F1 & V1 & M1). destruct (quot _ _ _ _ W2 T2 (Q _ _ _ _ A2 B2 H2 D2 G2) S2) as (f2 & F2 & V2 & M2). destruct (quot _ _ _ _ W3 T3 (Q _ _ _ _ A3 B3 H3 D3 G3) S3) as (f3 & F3 & V3' & M3).
  assert (J : forall x y e f z, Rabs e <= u -> Rabs f <= u -> z = x * (1 + e) -> off (21 / 10 * u) (z / y * (1 + f)) (x / y)).
  { intros x y e f z He Hf ->. exists (e + f + e * f). split; [|unfold Rdiv; ring]. assert (T : Rabs (e * f) <= u * u) by (rewrite Rabs_mult; apply Rmult_le_compat; auto using Rabs_pos). assert (u * u <= 1 / 10000000 * u) by (apply Rmult_le_compat_r; lra). pose proof (Rabs_triang (e + f) (e * f)). pose proof (Rabs_triang e f). lra. }
  eexists (V3 _ _ _). split; [split; [exact V1|split; [exact V2|exact V3']]|]. split; [split; [exact M1|split; [exact M2|exact M3]]|].
  split; [|split]; unfold divR3, subR; cbn [vx vy vz]; [apply (J _ _ e1)|apply (J _ _ e2)|apply (J _ _ e3)]; assumption.
Qed.
Lemma Q_val : exists Q, vals fQ Q /\ moderate3 k2 Q /\ off3 (21 / 10 * u) Q (divR3 d s) /\ Q <> V3 0 0 0.
Proof.
  pose proof U as U0. destruct axis_sizes as (S1 & S2 & S3), Vs as (T1 & T2 & T3), Md as (A1 & A2 & A3), Vd as (W1 & W2 & W3).
  assert (Q : forall z, moderate k z -> z = 0 \/ b2 (- (k + prec)) <= Rabs z <= b2 (k + 2)).
  { intros z [H|(H1 & H2)]; [left; exact H|right]. split; [eapply Rle_trans; [|exact H1]|eapply Rle_trans; [exact H2|]]; apply bpow_le; lia. }
  destruct (quot _ _ _ _ W1 T1 (Q _ A1) S1) as (f1 & F1 & V1 & M1). destruct (quot _ _ _ _ W2 T2 (Q _ A2) S2) as (f2 & F2 & V2 & M2). destruct (quot _ _ _ _ W3 T3 (Q _ A3) S3) as (f3 & F3 & V3' & M3).
  eexists (V3 _ _ _). split; [split; [exact V1|split; [exact V2|exact V3']]|]. split; [split; [exact M1|split; [exact M2|exact M3]]|]. split.
  - split; [|split]; unfold divR3; cbn [vx vy vz]; [exists f1|exists f2|exists f3]; split; solve [lra|reflexivity].
  - intros E. apply Zd. destruct Zs as (Z1 & Z2 & Z3). assert (J : forall x y f, Rabs f <= u -> y <> 0 -> x / y * (1 + f) = 0 -> x = 0).
    { intros x y f Hf Zy H. apply Rabs_le_inv in Hf. apply Rmult_integral in H. destruct H as [H|H]; [|lra]. apply Rmult_integral in H. destruct H as [H|H]; [exact H|]. apply Rinv_neq_0_compat in Zy. contradiction. }
    injection E as E1 E2 E3. destruct d as [dx dy dz]; cbn [vx vy vz] in *. f_equal; [exact (J _ _ f1 F1 Z1 E1)|exact (J _ _ f2 F2 Z2 E2)|exact (J _ _ f3 F3 Z3 E3)].
Qed.
Lemma egg_root : forall (lo hi f : float), first_quadratic_root_in_range (F:=N) (squared_norm (F:=N) fQ) (nmul (NumOps:=N) (nofZ (NumOps:=N) 2) (dot (F:=N) fP fQ)) (nsub (NumOps:=N) (squared_norm (F:=N) fP) (nofZ (NumOps:=N) 1)) lo hi = Some f ->
  exists y, val f y /\ xleb (fval lo) (Fin y) && xleb (Fin y) (fval hi) = true /\ forall S, 1 <= S -> within_axes S s o -> within_axes S s c ->
    Rabs (normsqR (divR3 (subR (lineR o d y) c) s) - 1) <= 11200 * u * (S * S) /\ within_axes (203 / 10 * S) s (scaleR y d) /\ within3 (101 / 100 * S) (divR3 (subR (lineR o d y) c) s).
Proof.
  intros lo hi f H. pose proof U as U0. destruct P_val as (P & VP & MP & OP). destruct Q_val as (Q & VQ & MQ & OQ & ZQ).
  assert (EP : fP = vsub (F:=N) fP (vzeros (F:=N))).
  { destruct VP as (v1 & v2 & v3). symmetry. exact (f_equal3 (@V3 float) (minus_zero _ _ v1) (minus_zero _ _ v2) (minus_zero _ _ v3)). }
  assert (V0 : vals (vzeros (F:=N)) (V3 0 0 0)) by (pose proof (P_Bend.zero_v prec emax Hp Hm lm P24 ltac:(lia)); split; [|split]; assumption).
  assert (V1 : val (nofZ (NumOps:=N) 1) 1) by (apply (P_Sampler.ofZ_small prec emax Hp Hm lm P24 ltac:(lia) 1); lia).
  assert (M0 : moderate3 k2 (V3 0 0 0)) by (split; [|split]; left; reflexivity).
  assert (M1 : moderate k2 1) by (right; rewrite Rabs_R1; change 1 with (b2 0); split; apply bpow_le; lia).
  rewrite EP in H. rewrite <- one_times in H at 1.
  destruct (first_near prec emax Hp Hm lm k2 P24 KK0 KK fP (vzeros (F:=N)) fQ (nofZ (NumOps:=N) 1) P (V3 0 0 0) Q 1 VP V0 VQ V1 MP M0 MQ M1 ZQ ltac:(lra) lo hi f H) as (y & Vy & Iy & Hy).
  exists y. split; [exact Vy|]. split; [exact Iy|]. intros S S1 (a1 & a2 & a3) (c1 & c2 & c3). destruct Zs as (Z1 & Z2 & Z3).
  assert (Dv : forall x w t, w <> 0 -> Rabs x <= t * Rabs w -> Rabs (x / w) <= t). { intros x w t Zw Hx. unfold Rdiv. rewrite Rabs_mult, Rabs_inv. pose proof (Rabs_pos_lt w Zw). apply Rmult_le_reg_r with (Rabs w); [assumption|]. rewrite Rmult_assoc, Rinv_l by lra. lra. }
  assert (Dp : within3 (2 * S) (divR3 (subR o c) s)).
  { assert (J : forall x y w, w <> 0 -> Rabs x <= S * Rabs w -> Rabs y <= S * Rabs w -> Rabs ((x - y) / w) <= 2 * S) by (intros x z w Zw X Y; apply Dv; [exact Zw|]; eapply Rle_trans; [apply Rabs_triang|]; rewrite (Rabs_Ropp z); lra).
    unfold within3, divR3, subR; cbn [vx vy vz]. auto. }
  assert (Of : forall x w, off (21 / 10 * u) x w -> Rabs (x - w) <= 21 / 10 * u * Rabs w /\ Rabs x <= 10001 / 10000 * Rabs w /\ Rabs w <= 10001 / 10000 * Rabs x).
  { intros x w (e & He & ->). pose proof (Rabs_pos w). split; [replace (w * (1 + e) - w) with (e * w) by ring; rewrite Rabs_mult; apply Rmult_le_compat_r; assumption|]. apply Rabs_le_inv in He. rewrite Rabs_mult, (Rabs_pos_eq (1 + e)) by lra. split; nra. }
  destruct OP as (p1 & p2 & p3), OQ as (q1 & q2 & q3). apply Of in p1, p2, p3, q1, q2, q3. destruct Dp as (w1 & w2 & w3).
  assert (BP : within3 (2001 / 1000 * S) P) by (split; [|split]; lra).
  destruct (Hy (2001 / 1000 * S)) as (G & Y). { split; [exact BP|]. split; [unfold within3; cbn [vx vy vz]; rewrite !Rabs_R0; lra|rewrite Rabs_R1; lra]. }
  destruct (component_le Q) as (n1 & n2 & n3). pose proof (Rabs_pos y) as Y0.
  assert (YQ : forall a b, Rabs a <= normR Q -> Rabs (a - b) <= 21 / 10 * u * Rabs b /\ Rabs a <= 10001 / 10000 * Rabs b /\ Rabs b <= 10001 / 10000 * Rabs a -> Rabs (y * b) <= 203 / 10 * S /\ Rabs (y * a - y * b) <= 21 / 10 * u * (203 / 10 * S)).
  { intros a b Ha (X1 & _ & X3). assert (Yb : Rabs y * Rabs b <= 203 / 10 * S). { assert (Rabs y * Rabs b <= Rabs y * (10001 / 10000 * normR Q)) by (apply Rmult_le_compat_l; lra). lra. }
    split; [rewrite Rabs_mult; exact Yb|]. rewrite <- Rmult_minus_distr_l, Rabs_mult. apply Rle_trans with (Rabs y * (21 / 10 * u * Rabs b)); [apply Rmult_le_compat_l; assumption|].
    replace (Rabs y * (21 / 10 * u * Rabs b)) with (21 / 10 * u * (Rabs y * Rabs b)) by ring. apply Rmult_le_compat_l; lra. }
  destruct (YQ _ _ n1 q1) as (b1 & d1). destruct (YQ _ _ n2 q2) as (b2' & d2). destruct (YQ _ _ n3 q3) as (b3 & d3).
  assert (uS : 0 < u * S <= 1 / 10000000 * S) by (split; [apply Rmult_lt_0_compat|apply Rmult_le_compat_r]; lra). assert (SS : S <= S * S) by (replace S with (1 * S) at 1 by ring; apply Rmult_le_compat_r; lra). assert (uSS : 0 < u * (S * S) <= 1 / 10000000 * (S * S)) by (split; [apply Rmult_lt_0_compat|apply Rmult_le_compat_r]; lra).
  set (X := divR3 (subR (lineR o d y) c) s).
  assert (EX : X = addR (divR3 (subR o c) s) (scaleR y (divR3 d s))) by (unfold X, divR3, subR, lineR, addR, scaleR; cbn [vx vy vz]; f_equal; field; assumption).
  set (X' := addR P (scaleR y Q)). assert (G' : Rabs (normsqR X' - 1) <= 10850 * u * (S * S)).
  { unfold gap in G. replace (normsqR (subR (lineR P Q y) (V3 0 0 0))) with (normsqR X') in G by (unfold X', normsqR, dotR, subR, lineR, addR, scaleR; cbn [vx vy vz]; ring). replace (1 * 1) with 1 in G by ring. eapply Rle_trans; [exact G|]. lra. }
  assert (DX : within3 (47 * u * S) (subR X X')).
  { rewrite EX. unfold X', within3, subR, addR, scaleR; cbn [vx vy vz].
    assert (J : forall a b y1 y2, Rabs (a - b) <= 21 / 10 * u * Rabs b /\ Rabs a <= 10001 / 10000 * Rabs b /\ Rabs b <= 10001 / 10000 * Rabs a -> Rabs b <= 2 * S -> Rabs (y1 - y2) <= 21 / 10 * u * (203 / 10 * S) -> Rabs (b + y2 - (a + y1)) <= 47 * u * S).
    { intros a b y1 y2 (A1 & _) B1 C1. replace (b + y2 - (a + y1)) with (- ((a - b) + (y1 - y2))) by ring. rewrite Rabs_Ropp. eapply Rle_trans; [apply Rabs_triang|]. assert (21 / 10 * u * Rabs b <= 21 / 10 * u * (2 * S)) by (apply Rmult_le_compat_l; lra). lra. }
    split; [|split]; [apply (J _ _ _ _ p1 w1 d1)|apply (J _ _ _ _ p2 w2 d2)|apply (J _ _ _ _ p3 w3 d3)]. }
  assert (CX : within3 (1002 / 1000 * S) X').
  { apply Rabs_le_inv in G'. assert (Nx : normsqR X' <= 1002 / 1000 * S * (1002 / 1000 * S)) by lra. apply P_Bend.abs_comp; [exact Nx|lra]. }
  destruct DX as (x1 & x2 & x3). destruct CX as (z1 & z2 & z3). split; [|split].
  - assert (h0 : 0 <= 47 * u) by lra. pose proof (normsq_perturbed S (1002 / 1000) (47 * u) X' (subR X X') ltac:(lra) ltac:(lra) h0 z1 z2 z3 x1 x2 x3) as T.
    rewrite addsub in T.
    replace (normsqR X - 1) with ((normsqR X' - 1) + (normsqR X - normsqR X')) by ring. eapply Rle_trans; [apply Rabs_triang|]. assert (u * (u * (S * S)) <= 1 / 10000000 * (u * (S * S))) by (apply Rmult_le_compat_r; lra). lra.
  - assert (J : forall a w, w <> 0 -> Rabs (y * (a / w)) <= 203 / 10 * S -> Rabs (y * a) <= 203 / 10 * S * Rabs w).
    { intros a w Zw A. replace (y * a) with (y * (a / w) * w) by (field; exact Zw). rewrite Rabs_mult. apply Rmult_le_compat_r; [apply Rabs_pos|exact A]. }
    unfold within_axes, scaleR; cbn [vx vy vz]. split; [|split]; apply J; assumption.
  - assert (J : forall a b, Rabs (a - b) <= 47 * u * S -> Rabs b <= 1002 / 1000 * S -> Rabs a <= 101 / 100 * S) by (intros a b A B; replace a with (b + (a - b)) by ring; eapply Rle_trans; [apply Rabs_triang|]; lra).
    split; [|split]; [apply (J _ _ x1 z1)|apply (J _ _ x2 z2)|apply (J _ _ x3 z3)].
Qed.

(** a component of the point *)
Lemma coordinate : forall (fx fy fe : float) x y e w, val fx x -> val fy y -> val fe e -> moderate k x -> b2 (- k) <= Rabs w -> Rabs (y * e) <= 203 / 10 * b2 (2 * k) * b2 k ->
  exists p, val (nadd (NumOps:=N) fx (nmul (NumOps:=N) fy fe)) p /\
    forall S, 1 <= S -> Rabs x <= S * Rabs w -> Rabs (y * e) <= 203 / 10 * S * Rabs w -> Rabs (p - (x + y * e)) <= 47 * u * S * Rabs w.
Proof.
  intros fx fy fe x y e w X Y E Mx W B. pose proof U as U0. pose proof (moderate_bound k x Mx) as Bx. pose proof (bpow_gt_0 radix2 (- k)) as k0.
  assert (B2 : b2 (2 * k) * b2 k * 32 <= b2 k2) by (replace 32 with (b2 5) by (cbn; ring); rewrite <- !bpow_plus; apply bpow_le; lia).
  assert (B3 : b2 k <= b2 k2) by (apply bpow_le; lia). pose proof (bpow_gt_0 radix2 k2) as k3.
  destruct (point_component prec emax Hp Hm lm k2 P24 KK0 KK fx fy fe x y e X Y E ltac:(lra) ltac:(lra)) as (p & Vp & Hpt). exists p. split; [exact Vp|].
  intros S S1 Sx Sy. assert (Sw : Rabs w <= S * Rabs w) by (replace (Rabs w) with (1 * Rabs w) at 1 by ring; apply Rmult_le_compat_r; lra).
  assert (B4 : b2 (- k2) <= b2 (- k)) by (apply bpow_le; lia).
  assert (u0 : 0 < u * (S * Rabs w)) by (apply Rmult_lt_0_compat; lra).
  eapply Rle_trans; [apply (Hpt (203 / 101 * (S * Rabs w))); lra|]. lra.
Qed.
Theorem egg_hit : forall tmin tmax rec0 rec,
  ellipsoid_hit (F:=N) (Ellipsoid fc fs) (Ray fo fd) tmin tmax rec0 = Ok (true, rec) ->
  exists t p, val (h_t rec) t /\ vals (h_p rec) p /\ xleb (fval tmin) (Fin t) && xleb (Fin t) (fval tmax) = true /\
    forall S, 1 <= S -> within_axes S s o -> within_axes S s c ->
      Rabs (normsqR (divR3 (subR (lineR o d t) c) s) - 1) <= 11200 * u * (S * S) /\
      within_axes (47 * u * S) s (subR p (lineR o d t)) /\
      Rabs (normsqR (divR3 (subR p c) s) - 1) <= 11500 * u * (S * S).
Proof.
  intros tmin tmax rec0 rec H. pose proof U as U0. destruct (egg_fields _ _ _ _ _ _ H) as (f & Er & Et & Ep). clear H.
  destruct (egg_root tmin tmax f Er) as (y & Vy & Iy & Hy).
  destruct axis_sizes as ((s1 & l1) & (s2 & l2) & (s3 & l3)), Vo as (o1 & o2 & o3), Vd as (d1 & d2 & d3), Mo as (m1 & m2 & m3), Mc as (e1 & e2 & e3).
  assert (W0 : forall x w, moderate k x -> b2 (- k) <= Rabs w -> Rabs x <= b2 (2 * k) * Rabs w).
  { intros x w Mx Hw. pose proof (moderate_bound k x Mx). apply Rle_trans with (b2 (2 * k) * b2 (- k)); [rewrite <- bpow_plus; replace (2 * k + - k)%Z with k by ring; assumption|]. apply Rmult_le_compat_l; [apply bpow_ge_0|exact Hw]. }
  assert (K1 : 1 <= b2 (2 * k)) by (change 1 with (b2 0); apply bpow_le; lia).
  destruct (Hy (b2 (2 * k)) K1) as (_ & (g1 & g2 & g3) & _); [split; [|split]; auto|split; [|split]; auto|]. unfold scaleR in g1, g2, g3; cbn [vx vy vz] in g1, g2, g3.
  assert (G : forall x w, Rabs x <= 203 / 10 * b2 (2 * k) * Rabs w -> Rabs w <= b2 k -> Rabs x <= 203 / 10 * b2 (2 * k) * b2 k) by (intros x w A B; eapply Rle_trans; [exact A|]; apply Rmult_le_compat_l; [lra|exact B]).
  destruct (coordinate _ _ _ _ _ _ (vx s) o1 Vy d1 m1 s1 (G _ _ g1 l1)) as (p1 & P1 & R1).
  destruct (coordinate _ _ _ _ _ _ (vy s) o2 Vy d2 m2 s2 (G _ _ g2 l2)) as (p2 & P2 & R2).
  destruct (coordinate _ _ _ _ _ _ (vz s) o3 Vy d3 m3 s3 (G _ _ g3 l3)) as (p3 & P3 & R3).
  exists y, (V3 p1 p2 p3). rewrite Et, Ep.
  split; [exact Vy|]. split; [split; [exact P1|split; [exact P2|exact P3]]|]. split; [exact Iy|].
  intros S S1 (a1 & a2 & a3) (c1 & c2 & c3). destruct (Hy S S1 (conj a1 (conj a2 a3)) (conj c1 (conj c2 c3))) as (T1 & (t1 & t2 & t3) & (z1 & z2 & z3)).
  unfold scaleR in t1, t2, t3; cbn [vx vy vz] in t1, t2, t3. specialize (R1 S S1 a1 t1). specialize (R2 S S1 a2 t2). specialize (R3 S S1 a3 t3).
  split; [exact T1|]. split; [split; [exact R1|split; [exact R2|exact R3]]|].
  destruct Zs as (Z1 & Z2 & Z3). set (X := divR3 (subR (lineR o d y) c) s) in *. set (X' := divR3 (subR (V3 p1 p2 p3) c) s).
  assert (J : forall p q w x, w <> 0 -> Rabs (p - q) <= 47 * u * S * Rabs w -> Rabs ((p - x) / w - (q - x) / w) <= 47 * u * S).
  { intros p q w x Zw A. replace ((p - x) / w - (q - x) / w) with ((p - q) / w) by (field; exact Zw). unfold Rdiv. rewrite Rabs_mult, Rabs_inv. pose proof (Rabs_pos_lt w Zw). apply Rmult_le_reg_r with (Rabs w); [assumption|]. rewrite Rmult_assoc, Rinv_l by lra. lra. }
  pose proof (normsq_perturbed S (101 / 100) (47 * u) X (subR X' X) ltac:(lra) ltac:(lra) ltac:(lra) z1 z2 z3 (J _ _ _ _ Z1 R1) (J _ _ _ _ Z2 R2) (J _ _ _ _ Z3 R3)) as T. rewrite addsub in T.
  assert (SS : 0 < u * (S * S)) by (apply Rmult_lt_0_compat; [lra|apply Rmult_lt_0_compat; lra]).
  assert (u * (u * (S * S)) <= 1 / 10000000 * (u * (S * S))) by (apply Rmult_le_compat_r; lra).
  replace (normsqR X' - 1) with ((normsqR X - 1) + (normsqR X' - normsqR X)) by ring. eapply Rle_trans; [apply Rabs_triang|]. lra.
Qed.
End Egg.

(** *** as stated in T_Accuracy.v *)
Lemma egg_stated : forall (prec emax : Z) (Hp : Prec_gt_0 prec) (Hm : Prec_lt_emax prec emax) (lm : libm (binary_float prec emax)) (k : Z),
  (24 <= prec)%Z -> (0 <= k)%Z -> (12 * k + 10 * prec + 36 <= emax)%Z ->
  forall (e : ellipsoid (binary_float prec emax)) (fray : ray (binary_float prec emax)) (c s o d : vec3 R),
  map3 fval (el_center e) = fin3 c -> map3 fval (el_scales e) = fin3 s -> map3 fval (r_orig fray) = fin3 o -> map3 fval (r_dir fray) = fin3 d ->
  moderate3 k c -> moderate3 k s -> moderate3 k o -> moderate3 k d -> vx s <> 0 -> vy s <> 0 -> vz s <> 0 -> d <> V3 0 0 0 ->
  let u := bpow radix2 (- prec) in
  forall lo hi rec rec', ellipsoid_hit (F:=FL prec emax Hp Hm lm) e fray lo hi rec = Ok (true, rec') ->
  exists t p, fval (h_t rec') = Fin t /\ map3 fval (h_p rec') = fin3 p /\ xleb (fval lo) (Fin t) && xleb (Fin t) (fval hi) = true /\
    forall S, 1 <= S -> within_axes S s o -> within_axes S s c ->
      Rabs (normsqR (divR3 (subR (lineR o d t) c) s) - 1) <= 11200 * u * (S * S) /\
      within_axes (47 * u * S) s (subR p (lineR o d t)) /\
      Rabs (normsqR (divR3 (subR p c) s) - 1) <= 11500 * u * (S * S).
Proof.
  intros prec emax Hp Hm lm k P24 K0 K [fc fs] [fo fd] c s o d Vc Vs Vo Vd Mc Ms Mo Md Z1 Z2 Z3 Zd u lo hi rec rec' H. cbn [el_center el_scales r_orig r_dir] in *. apply vals_fval in Vc, Vs, Vo, Vd.
  destruct (egg_hit prec emax Hp Hm lm k P24 K0 K fo fc fs fd o c s d Vo Vc Vs Vd Mo Mc Ms Md (conj Z1 (conj Z2 Z3)) Zd lo hi rec rec' H) as (t & p & Vt & Vp & I & E).
  exists t, p. split; [apply val_fval; exact Vt|]. split; [apply vals_fval; exact Vp|]. split; [exact I|exact E].
Qed.
Lemma egg_boxed : forall (prec emax : Z) (Hp : Prec_gt_0 prec) (Hm : Prec_lt_emax prec emax) (lm : libm (binary_float prec emax)) (k : Z),
  (24 <= prec)%Z -> (0 <= k)%Z -> (12 * k + 10 * prec + 36 <= emax)%Z ->
  forall (e : ellipsoid (binary_float prec emax)) (fray : ray (binary_float prec emax)) (c s o d : vec3 R),
  map3 fval (el_center e) = fin3 c -> map3 fval (el_scales e) = fin3 s -> map3 fval (r_orig fray) = fin3 o -> map3 fval (r_dir fray) = fin3 d ->
  moderate3 k c -> moderate3 k s -> moderate3 k o -> moderate3 k d -> 0 < vx s -> 0 < vy s -> 0 < vz s -> d <> V3 0 0 0 ->
  let u := bpow radix2 (- prec) in
  exists B l h, ellipsoid_box (F:=FL prec emax Hp Hm lm) e = Some B /\ map3 fval (b_min B) = fin3 l /\ map3 fval (b_max B) = fin3 h /\
  (forall S, 1 <= S -> within_axes S s c -> within_axes (3 * u * S) s (subR l (subR c s)) /\ within_axes (3 * u * S) s (subR h (addR c s))) /\
  forall lo hi rec rec', ellipsoid_hit (F:=FL prec emax Hp Hm lm) e fray lo hi rec = Ok (true, rec') ->
  exists p, map3 fval (h_p rec') = fin3 p /\
    forall S, 1 <= S -> within_axes S s o -> within_axes S s c -> let x := 5760 * u * (S * S) in
      vx l - x * vx s <= vx p <= vx h + x * vx s /\ vy l - x * vy s <= vy p <= vy h + x * vy s /\ vz l - x * vz s <= vz p <= vz h + x * vz s.
Proof.
  intros prec emax Hp Hm lm k P24 K0 K e fray c s o d Vc Vs Vo Vd Mc Ms Mo Md Z1 Z2 Z3 Zd u. pose proof (P_SphereFloat.u_tiny prec k P24) as U0.
  pose proof Vc as Wc. pose proof Vs as Ws. apply vals_fval in Wc, Ws. destruct Wc as (a1 & a2 & a3), Ws as (b1 & b2 & b3).
  assert (C : forall (fx fy : binary_float prec emax) x y, val prec emax fx x -> val prec emax fy y -> moderate k x -> moderate k y -> 0 < y ->
    exists l h, val prec emax (nsub (NumOps:=FL prec emax Hp Hm lm) fx fy) l /\ val prec emax (nadd (NumOps:=FL prec emax Hp Hm lm) fx fy) h /\
      forall S, 1 <= S -> Rabs x <= S * Rabs y -> Rabs (l - (x - y)) <= 201 / 100 * u * (S * y) /\ Rabs (h - (x + y)) <= 201 / 100 * u * (S * y)).
  { intros fx fy x y Vx Vy Mx My Py. pose proof (moderate_bound k x Mx) as Bx. pose proof (moderate_bound k y My) as By.
    assert (Bk : 2 * bpow radix2 k <= bpow radix2 (emax - 1)) by (replace 2 with (bpow radix2 1) by (cbn; ring); rewrite <- bpow_plus; apply bpow_le; lia).
    assert (My' : bpow radix2 (- k) <= y) by (destruct My as [My|(My & _)]; [lra|rewrite (Rabs_pos_eq y) in My by lra; exact My]).
    eexists; eexists. split; [apply (minus_val prec emax Hp Hm lm _ _ _ _ Vx Vy)|split; [apply (plus_val prec emax Hp Hm lm _ _ _ _ Vx Vy)|]].
    - eapply Rle_trans; [apply Rabs_triang|]. rewrite (Rabs_Ropp y). lra.
    - eapply Rle_trans; [apply Rabs_triang|]. lra.
    - intros S S1 Hx. rewrite (Rabs_pos_eq y) in Hx by lra. assert (Sy : y <= S * y) by (replace y with (1 * y) at 1 by ring; apply Rmult_le_compat_r; lra).
      replace (201 / 100) with (2 + 1 / 100) by lra. split; apply (rnd_scaled prec emax k P24 K0 ltac:(lia)); try lra; (eapply Rle_trans; [apply Rabs_triang|]); rewrite ?Rabs_Ropp, (Rabs_pos_eq y) by lra; lra. }
  destruct Mc as (c1 & c2 & c3), Ms as (s1 & s2 & s3).
  destruct (C _ _ _ _ a1 b1 c1 s1 Z1) as (l1 & h1 & L1 & H1 & E1). destruct (C _ _ _ _ a2 b2 c2 s2 Z2) as (l2 & h2 & L2 & H2 & E2). destruct (C _ _ _ _ a3 b3 c3 s3 Z3) as (l3 & h3 & L3 & H3 & E3).
  eexists; exists (V3 l1 l2 l3), (V3 h1 h2 h3). split; [reflexivity|]. split; [apply vals_fval; split; [exact L1|split; [exact L2|exact L3]]|]. split; [apply vals_fval; split; [exact H1|split; [exact H2|exact H3]]|]. split.
  { intros S S1 (y1 & y2 & y3). destruct (E1 S S1 y1) as (A1 & B1). destruct (E2 S S1 y2) as (A2 & B2). destruct (E3 S S1 y3) as (A3 & B3). unfold within_axes, subR, addR; cbn [vx vy vz]. rewrite !(Rabs_pos_eq (vx s)), !(Rabs_pos_eq (vy s)), !(Rabs_pos_eq (vz s)) by lra.
    assert (W : forall a y, 0 < y -> Rabs a <= 201 / 100 * u * (S * y) -> Rabs a <= 3 * u * S * y) by (intros a y Py A; assert (0 < u * (S * y)) by (apply Rmult_lt_0_compat; [unfold u; lra|apply Rmult_lt_0_compat; lra]); lra).
    split; (split; [|split]); apply W; assumption. }
  intros lo hi rec rec' H. destruct (egg_stated prec emax Hp Hm lm k P24 K0 K e fray c s o d Vc Vs Vo Vd (conj c1 (conj c2 c3)) (conj s1 (conj s2 s3)) Mo Md ltac:(lra) ltac:(lra) ltac:(lra) Zd lo hi rec rec' H) as (t & p & _ & Vp & _ & E).
  exists p. split; [exact Vp|]. intros S S1 So Sc x. destruct (E S S1 So Sc) as (_ & _ & G). destruct Sc as (y1 & y2 & y3). destruct (E1 S S1 y1) as (A1 & B1). destruct (E2 S S1 y2) as (A2 & B2). destruct (E3 S S1 y3) as (A3 & B3).
  assert (uS : 0 < u * S) by (apply Rmult_lt_0_compat; unfold u; lra). assert (SS : u * S <= u * (S * S)) by (apply Rmult_le_compat_l; [unfold u; lra|]; replace S with (1 * S) at 1 by ring; apply Rmult_le_compat_r; lra).
  apply Rabs_le_inv in G. fold u in G. unfold normsqR, dotR, divR3, subR in G; cbn [vx vy vz] in G. set (q := u * (S * S)) in *.
  assert (J : forall pi ci si l h r, 0 < si -> 0 <= r -> (pi - ci) / si * ((pi - ci) / si) + r - 1 <= 11500 * q -> Rabs (l - (ci - si)) <= 201 / 100 * u * (S * si) -> Rabs (h - (ci + si)) <= 201 / 100 * u * (S * si) -> l - x * si <= pi <= h + x * si).
  { intros pi ci si l h r Ps R0 Q A B. set (z := (pi - ci) / si) in *. assert (Ez : pi = ci + z * si) by (unfold z; field; lra). clearbody z.
    assert (Zz : Rabs z <= 1 + 5750 * q). { apply Rsqr_incr_0_var; [|lra]. rewrite <- Rsqr_abs. unfold Rsqr. assert (0 <= q * q) by (apply Rmult_le_pos; lra). lra. }
    apply Rabs_le_inv in Zz. apply Rabs_le_inv in A. apply Rabs_le_inv in B. assert (V1 : z * si <= (1 + 5750 * q) * si) by (apply Rmult_le_compat_r; lra). assert (V2 : - (1 + 5750 * q) * si <= z * si) by (apply Rmult_le_compat_r; lra).
    assert (W : u * S * si <= q * si) by (apply Rmult_le_compat_r; lra). assert (W0 : 0 <= q * si) by (apply Rmult_le_pos; lra). replace (x * si) with (5760 * (q * si)) by (unfold x, q; ring). lra. }
  set (g1 := (vx p - vx c) / vx s * ((vx p - vx c) / vx s)) in *. set (g2 := (vy p - vy c) / vy s * ((vy p - vy c) / vy s)) in *. set (g3 := (vz p - vz c) / vz s * ((vz p - vz c) / vz s)) in *.
  assert (0 <= g1) by (unfold g1; apply Rle_0_sqr). assert (0 <= g2) by (unfold g2; apply Rle_0_sqr). assert (0 <= g3) by (unfold g3; apply Rle_0_sqr).
  assert (G' : g1 + g2 + g3 - 1 <= 11500 * q) by (unfold q; lra). clear G.
  cbn [vx vy vz]. split; [apply (J _ (vx c) _ _ _ (g2 + g3)); try assumption; fold g1; lra|]. split; [apply (J _ (vy c) _ _ _ (g1 + g3)); try assumption; fold g2; lra|apply (J _ (vz c) _ _ _ (g1 + g2)); try assumption; fold g3; lra].
Qed.
