(** Rays mirrored and refracted by spheres in floating point: the errors of the hit and of the
    directions taken together. *)
From Coq Require Import Reals Lra ZArith Lia List Bool.
From Flocq Require Import Core Relative BinarySingleNaN.
From Verif Require Import Num XR FL Spec Spec_Light Spec_Accuracy Spec_Bend M_Vec M_Roots M_Hittable M_Shapes M_Materials P_FL P_Round P_Accuracy P_Floats P_SphereFloat P_SphereHit P_Sampler P_Bend P_Refract P_Directions.
Import ListNotations.
Local Open Scope R_scope.

(** *** exact vectors *)
Section Exact.
Variables (e s : R) (y q m n : vec3 R).
Hypothesis E : 0 <= e <= / 3000000.
Hypothesis Hs : 0 < s.
Hypothesis Hss : Rabs (s * s - 1) <= 2900 * e.
Hypothesis Hm : m = scaleR s q.
Hypothesis Hy : normsqR y = 1.
Hypothesis Hq : normsqR q = 1.
Hypothesis Hn : near3 (3 * e) n m.

Lemma s_near : Rabs (s - 1) <= 2900 * e.
Proof. apply Rabs_le_inv in Hss. apply Rabs_le. split; nra. Qed.
Lemma yq_le : Rabs (dotR y q) <= 1.
Proof. pose proof (dot_le y q 1 1 ltac:(lra) ltac:(lra)). lra. Qed.
Lemma q_comp : Rabs (vx q) <= 1 /\ Rabs (vy q) <= 1 /\ Rabs (vz q) <= 1.
Proof. apply abs_comp; lra. Qed.
Lemma ym : dotR y m = s * dotR y q.
Proof. rewrite Hm. unfold dotR, scaleR; cbn [vx vy vz]. ring. Qed.
Lemma yn_m : Rabs (dotR y n - dotR y m) <= 6 * e.
Proof.
  assert (C : forall a b, dotR a b = dotR b a) by (intros a b; unfold dotR; ring). rewrite (C y n), (C y m).
  pose proof (dot_perturb n m y (3 * e) ltac:(lra) Hn). lra.
Qed.
Lemma yn_q : Rabs (dotR y n - dotR y q) <= 2906 * e.
Proof.
  pose proof yn_m as A. pose proof s_near as B. pose proof yq_le as C. rewrite ym in A.
  replace (dotR y n - dotR y q) with ((dotR y n - s * dotR y q) + (s - 1) * dotR y q) by ring. eapply Rle_trans; [apply Rabs_triang|]. rewrite Rabs_mult.
  pose proof (Rabs_pos (s - 1)). pose proof (Rabs_pos (dotR y q)). nra.
Qed.
Lemma outer_comp : forall ni qi, Rabs qi <= 1 -> Rabs (ni - s * qi) <= 3 * e -> Rabs (dotR y n * ni - dotR y q * qi) <= 2910 * e.
Proof.
  intros ni qi Q D. pose proof yn_m as A. rewrite ym in A. pose proof s_near as B. pose proof yq_le as C. set (a := dotR y n) in *. set (b := dotR y q) in *. clearbody a b.
  replace (a * ni - b * qi) with ((a - s * b) * ni + (s * b) * (ni - s * qi) + (s * s - 1) * (b * qi)) by ring.
  eapply Rle_trans; [apply (proj2 (tri3 _ _ _))|]. rewrite !(Rabs_mult (a - s * b)), !(Rabs_mult (s * b)), (Rabs_mult (s * s - 1)), (Rabs_mult b qi), (Rabs_mult s b), (Rabs_pos_eq s) by lra.
  assert (S1 : s <= 1001 / 1000) by (apply Rabs_le_inv in B; lra).
  assert (N1 : Rabs ni <= 101 / 100).
  { pose proof (near_abs _ _ _ D) as X. rewrite Rabs_mult, (Rabs_pos_eq s) in X by lra. pose proof (Rabs_pos qi). nra. }
  pose proof (Rabs_pos (a - s * b)). pose proof (Rabs_pos (ni - s * qi)). pose proof (Rabs_pos b). pose proof (Rabs_pos qi). pose proof (Rabs_pos ni). pose proof (Rabs_pos (s * s - 1)).
  assert (T1 : Rabs (a - s * b) * Rabs ni <= 6 * e * (101 / 100)) by (apply Rmult_le_compat; lra).
  assert (T2 : s * Rabs b * Rabs (ni - s * qi) <= 1001 / 1000 * (3 * e)) by (apply Rmult_le_compat; [nra|lra|nra|lra]).
  assert (T3 : Rabs (s * s - 1) * (Rabs b * Rabs qi) <= 2900 * e * 1) by (apply Rmult_le_compat; [lra|nra|lra|nra]).
  lra.
Qed.
Lemma outer_near : near3 (2910 * e) (scaleR (dotR y n) n) (scaleR (dotR y q) q).
Proof.
  destruct q_comp as (Q1 & Q2 & Q3). pose proof Hn as (N1 & N2 & N3). rewrite Hm in N1, N2, N3. cbn [scaleR vx vy vz] in N1, N2, N3.
  unfold near3; cbn [scaleR vx vy vz]. split; [|split]; apply outer_comp; assumption.
Qed.
Lemma mirror_moved : near3 (5820 * e) (mirrorR n y) (mirrorR q y).
Proof.
  destruct outer_near as (A & B & C). cbn [scaleR vx vy vz] in *. unfold near3, mirrorR; cbn [subR scaleR vx vy vz].
  assert (Q : forall w a b i j, Rabs (a * i - b * j) <= 2910 * e -> Rabs (w - 2 * a * i - (w - 2 * b * j)) <= 5820 * e).
  { intros w a b i j H. replace (w - 2 * a * i - (w - 2 * b * j)) with (- (2 * (a * i - b * j))) by ring. rewrite Rabs_Ropp, Rabs_mult, (Rabs_pos_eq 2) by lra. lra. }
  split; [|split]; apply Q; assumption.
Qed.
Lemma tangent_moved : forall g, 0 <= g <= 4 -> near3 (11640 * e) (scaleR g (subR y (scaleR (dotR y n) n))) (scaleR g (subR y (scaleR (dotR y q) q))).
Proof.
  intros g G. destruct outer_near as (A & B & C). cbn [scaleR vx vy vz] in *. unfold near3; cbn [subR scaleR vx vy vz].
  assert (Q : forall w a b, Rabs (a - b) <= 2910 * e -> Rabs (g * (w - a) - g * (w - b)) <= 11640 * e).
  { intros w a b H. replace (g * (w - a) - g * (w - b)) with (- (g * (a - b))) by ring. rewrite Rabs_Ropp, Rabs_mult, (Rabs_pos_eq g) by lra. pose proof (Rabs_pos (a - b)). nra. }
  split; [|split]; apply Q; assumption.
Qed.
Lemma along_moved : forall t g, 0 <= g <= 3 -> near3 (9 * e) (subR t (scaleR g n)) (subR t (scaleR (g * s) q)).
Proof.
  intros t g G. pose proof Hn as (N1 & N2 & N3). rewrite Hm in N1, N2, N3. cbn [scaleR vx vy vz] in N1, N2, N3. unfold near3; cbn [subR scaleR vx vy vz].
  assert (Q : forall w a b, Rabs (a - s * b) <= 3 * e -> Rabs (w - g * a - (w - g * s * b)) <= 9 * e).
  { intros w a b H. replace (w - g * a - (w - g * s * b)) with (- (g * (a - s * b))) by ring. rewrite Rabs_Ropp, Rabs_mult, (Rabs_pos_eq g) by lra. pose proof (Rabs_pos (a - s * b)). nra. }
  split; [|split]; apply Q; assumption.
Qed.
End Exact.

Lemma along_bound : forall t n g, normsqR t <= 121 / 100 -> 99 / 100 <= normsqR n -> 0 <= g -> normsqR (subR t (scaleR g n)) <= 121 / 100 -> g <= 3.
Proof.
  intros t n g T Nn G V. assert (E : normsqR (scaleR g n) <= 2 * normsqR t + 2 * normsqR (subR t (scaleR g n))).
  { unfold normsqR, dotR; cbn [subR scaleR vx vy vz]. pose proof (pow2_ge_0 (2 * vx t - g * vx n)). pose proof (pow2_ge_0 (2 * vy t - g * vy n)). pose proof (pow2_ge_0 (2 * vz t - g * vz n)). cbn [pow] in *. lra. }
  rewrite scaled_normsq in E. destruct (Rle_lt_dec g 3) as [|C]; [assumption|exfalso]. assert (9 <= g * g) by nra. nra.
Qed.

Lemma unscale : forall (v : vec3 R) a, a <> 0 -> v = scaleR a (scaleR (/ a) v).
Proof. intros [x y z] a A. unfold scaleR; cbn [vx vy vz]. f_equal; field; exact A. Qed.

Section Ball.
Variables prec emax : Z.
Context (Hp : Prec_gt_0 prec) (Hm : Prec_lt_emax prec emax).
Variable lm : libm (binary_float prec emax).
Notation float := (binary_float prec emax).
Notation N := (FL prec emax Hp Hm lm).
Notation rnd := (round radix2 (SpecFloat.fexp prec emax) ZnearestE).
Notation val := (val prec emax).
Notation vals := (vals prec emax).
Notation b2 := (bpow radix2).
Notation u := (bpow radix2 (- prec)).
Variable k : Z.
Hypothesis P24 : (24 <= prec)%Z.
Hypothesis K0 : (0 <= k)%Z.
Hypothesis K : (4 * k + 6 * prec + 16 <= emax)%Z.

Lemma big_k : 100 * b2 k <= b2 (emax - 1).
Proof. apply Rle_trans with (b2 (7 + k)); [rewrite bpow_plus; cbn; pose proof (bpow_gt_0 radix2 k); lra|apply bpow_le; lia]. Qed.

(** the sign of a dot product *)
Lemma dot_sized : forall fd fn d n, vals fd d -> vals fn n -> moderate3 k d -> d <> V3 0 0 0 -> normsqR n <= 1001 / 1000 ->
  exists z, val (dot (F:=N) fd fn) z /\ Rabs (z - dotR d n) <= 11 * u * normR d.
Proof.
  intros fd fn d n (A1 & A2 & A3) (B1 & B2 & B3) Md Zd Sn. pose proof (u_tiny prec k P24) as U.
  assert (KK : (2 * k + 2 * prec + 8 <= emax)%Z) by lia.
  pose proof (normR_bounds k d Md Zd) as [D1 D2]. pose proof (component_le d) as (C1 & C2 & C3). set (D := normR d) in *.
  destruct (abs_comp n (101 / 100) ltac:(lra) ltac:(lra)) as (N1 & N2 & N3). pose proof big_k as Bk. pose proof (bpow_gt_0 radix2 (- k)) as K1.
  assert (D3 : 10 * D <= b2 (emax - 1)) by lra. assert (uD : 0 < u * D <= / 1000000 * D) by (split; [apply Rmult_lt_0_compat; lra|apply Rmult_le_compat_r; lra]).
  assert (Pr : forall a b, Rabs a <= D -> Rabs b <= 101 / 100 -> Rabs (a * b) <= 101 / 100 * D) by (intros a b Ha Hb; rewrite Rabs_mult; pose proof (Rabs_pos a); pose proof (Rabs_pos b); nra).
  assert (Op : forall x c, c <= 4 -> Rabs x <= c * D -> Rabs x <= b2 (emax - 1) /\ Rabs (rnd x - x) <= (c + 1 / 100) * (u * D)).
  { intros x c C4 Hx. split; [nra|]. rewrite <- Rmult_assoc. exact (rnd_scaled prec emax k P24 K0 K x c D D1 Hx). }
  destruct (Op _ (101 / 100) ltac:(lra) (Pr _ _ C1 N1)) as (L1 & E1). destruct (Op _ (101 / 100) ltac:(lra) (Pr _ _ C2 N2)) as (L2 & E2). destruct (Op _ (101 / 100) ltac:(lra) (Pr _ _ C3 N3)) as (L3 & E3).
  pose proof (Pr _ _ C1 N1) as P1. pose proof (Pr _ _ C2 N2) as P2. pose proof (Pr _ _ C3 N3) as P3.
  pose proof (mult_val prec emax Hp Hm lm _ _ _ _ A1 B1 L1) as V1. pose proof (mult_val prec emax Hp Hm lm _ _ _ _ A2 B2 L2) as V2. pose proof (mult_val prec emax Hp Hm lm _ _ _ _ A3 B3 L3) as V3.
  unfold dotR. set (x1 := vx d * vx n) in *. set (x2 := vy d * vy n) in *. set (x3 := vz d * vz n) in *. set (p1 := rnd x1) in *. set (p2 := rnd x2) in *. set (p3 := rnd x3) in *.
  pose proof (near_abs _ _ _ E1) as M1. pose proof (near_abs _ _ _ E2) as M2. pose proof (near_abs _ _ _ E3) as M3.
  destruct (Op (0 + p1) (102 / 100) ltac:(lra) ltac:(rewrite Rplus_0_l; lra)) as (L4 & E4).
  pose proof (plus_val prec emax Hp Hm lm _ _ _ _ (zero_v prec emax Hp Hm lm P24 ltac:(lia)) V1 L4) as V4. set (s1 := rnd (0 + p1)) in *. rewrite Rplus_0_l in E4. pose proof (near_abs _ _ _ E4) as M4.
  pose proof (Rabs_triang s1 p2) as T5. destruct (Op (s1 + p2) (205 / 100) ltac:(lra) ltac:(lra)) as (L5 & E5).
  pose proof (plus_val prec emax Hp Hm lm _ _ _ _ V4 V2 L5) as V5. set (s2 := rnd (s1 + p2)) in *. pose proof (near_abs _ _ _ E5) as M5.
  pose proof (Rabs_triang s2 p3) as T6. destruct (Op (s2 + p3) (308 / 100) ltac:(lra) ltac:(lra)) as (L6 & E6).
  pose proof (plus_val prec emax Hp Hm lm _ _ _ _ V5 V3 L6) as V6. set (s3 := rnd (s2 + p3)) in *.
  exists s3. split; [exact V6|].
  replace (s3 - (x1 + x2 + x3)) with ((s3 - (s2 + p3)) + ((s2 - (s1 + p2)) + (s1 - p1)) + ((p1 - x1) + (p2 - x2) + (p3 - x3))) by ring.
  pose proof (Rabs_triang ((s3 - (s2 + p3)) + ((s2 - (s1 + p2)) + (s1 - p1))) ((p1 - x1) + (p2 - x2) + (p3 - x3))).
  pose proof (Rabs_triang (s3 - (s2 + p3)) ((s2 - (s1 + p2)) + (s1 - p1))). pose proof (Rabs_triang (s2 - (s1 + p2)) (s1 - p1)). pose proof (proj2 (tri3 (p1 - x1) (p2 - x2) (p3 - x3))). lra.
Qed.

(** the record of a hit *)
Variables (fs : sphere float) (fray : ray float) (c o d : vec3 R) (r : R).
Hypothesis Vc : map3 fval (s_center fs) = fin3 c.
Hypothesis Vr : fval (s_radius fs) = Fin r.
Hypothesis Vo : map3 fval (r_orig fray) = fin3 o.
Hypothesis Vd : map3 fval (r_dir fray) = fin3 d.
Hypothesis Mc : moderate3 k c.
Hypothesis Mr : moderate k r.
Hypothesis Mo : moderate3 k o.
Hypothesis Md : moderate3 k d.
Hypothesis Zr : r <> 0.
Hypothesis Zd : d <> V3 0 0 0.
Lemma sphere_faces : forall lo hi rec rec', sphere_hit (F:=N) fs fray lo hi rec = Ok (true, rec') ->
  exists p n0 fn0, vals (h_p rec') p /\ vals fn0 n0 /\ h_front rec' = nltb (NumOps:=N) (dot (F:=N) (r_dir fray) fn0) (nofZ (NumOps:=N) 0) /\
    h_normal rec' = (if h_front rec' then fn0 else vneg (F:=N) fn0) /\ forall S, bounds o c r S ->
    Rabs (gap c r p) <= 2900 * u * (S * S) /\ within3 (3 * u * (S / Rabs r)) (subR n0 (scaleR (/ r) (subR p c))) /\ Rabs (normsqR n0 - 1) <= 3000 * u * (S / Rabs r * (S / Rabs r)).
Proof.
  intros lo hi rec rec' H. pose proof (proj2 (vals_fval _ _ _ _) Vc) as Wc. pose proof (proj2 (vals_fval _ _ _ _) Vo) as Wo. pose proof (proj2 (vals_fval _ _ _ _) Vd) as Wd. pose proof (proj2 (val_fval _ _ _ _) Vr) as Wr.
  destruct fs as [fc fr], fray as [fo fd]. cbn [s_center s_radius r_orig r_dir] in *. unfold sphere_hit in H. cbn [s_center s_radius r_orig r_dir] in H.
  match type of H with match ?e with _ => _ end = _ => destruct e as [f|] eqn:F end; [|discriminate].
  destruct (first_near prec emax Hp Hm lm k P24 K0 K fo fc fd fr o c d r Wo Wc Wd Wr Mo Mc Md Mr Zd Zr lo hi f F) as (t & V & I & HY).
  destruct (point_near prec emax Hp Hm lm k P24 K0 K fo fd o c d r Wo Wd Mo Mc Mr Zr f t V HY) as (p & Vp & HP).
  destruct (normal_near prec emax Hp Hm lm k P24 K0 K fc fr o c r Wc Wr Mo Mc Mr Zr _ p Vp) as (n & Vn & HN); [intros S HS; apply (HP S HS)|].
  cbv zeta in H. match type of H with match ?e with _ => _ end = _ => destruct e as [us vs] end. injection H as <-.
  exists p, n. eexists. split; [exact Vp|]. split; [exact Vn|]. split; [reflexivity|]. split; [reflexivity|].
  intros S HS. split; [apply (HP S HS)|apply (HN S HS)].
Qed.

Variable S : R.
Hypothesis So : within3 S o.
Hypothesis Sc : within3 S c.
Hypothesis Sr : Rabs r <= S.
Notation e := (u * (S / Rabs r * (S / Rabs r))).
Hypothesis He : e <= / 3000000.
Lemma X_ge : 1 <= S / Rabs r.
Proof.
  pose proof (Rabs_pos_lt r Zr). apply Rmult_le_reg_r with (Rabs r); [assumption|]. unfold Rdiv. rewrite Rmult_assoc, Rinv_l, Rmult_1_r, Rmult_1_l by lra. exact Sr.
Qed.
Lemma e_low : u <= e /\ u * (S / Rabs r) <= e.
Proof.
  pose proof X_ge as X. pose proof (u_tiny prec k P24) as U. set (x := S / Rabs r) in *. clearbody x. clear - X U. assert (x * 1 <= x * x) by (apply Rmult_le_compat_l; lra).
  split; [replace u with (u * 1) at 1 by ring|]; apply Rmult_le_compat_l; lra.
Qed.
Definition radial (p : vec3 R) : vec3 R := scaleR (/ r) (subR p c).
Lemma radial_size : forall p, Rabs (gap c r p) <= 2900 * u * (S * S) -> Rabs (normsqR (radial p) - 1) <= 2900 * e.
Proof.
  intros p H. assert (R0 : 0 < Rabs r) by (apply Rabs_pos_lt; exact Zr). assert (RR : r * r = Rabs r * Rabs r) by (rewrite <- Rabs_mult, Rabs_pos_eq; nra).
  assert (E1 : normsqR (radial p) - 1 = gap c r p / (r * r)) by (unfold radial, gap; rewrite scaled_normsq; field; exact Zr).
  rewrite E1. unfold Rdiv at 1. rewrite Rabs_mult, Rabs_inv, (Rabs_pos_eq (r * r)) by nra. rewrite RR.
  replace (2900 * e) with (2900 * u * (S * S) * / (Rabs r * Rabs r)) by (field; lra). apply Rmult_le_compat_r; [|exact H]. left. apply Rinv_0_lt_compat. nra.
Qed.
Lemma neg_dot : forall a b, dotR a (negR b) = - dotR a b.
Proof. intros a b. unfold dotR, negR; cbn [vx vy vz]. ring. Qed.
Lemma ball_faces : forall lo hi rec rec', sphere_hit (F:=N) fs fray lo hi rec = Ok (true, rec') ->
  exists p n s, map3 fval (h_p rec') = fin3 p /\ map3 fval (h_normal rec') = fin3 n /\ Rabs (normsqR n - 1) <= 3000 * e /\ 0 < s /\ Rabs (s * s - 1) <= 2900 * e /\
    let q := unitR (radial p) in let y := unitR d in
    normsqR q = 1 /\ near3 (3 * e) n (scaleR s (if h_front rec' then q else negR q)) /\
    (3100 * e <= Rabs (dotR y q) -> (h_front rec' = true <-> dotR y q < 0) /\ dotR y n <= - (80 * u)).
Proof.
  intros lo hi rec rec' H. destruct (sphere_faces lo hi rec rec' H) as (p & n0 & fn0 & Vp & Vn & Hf & Hn & HS).
  destruct (HS S) as (G & W & L); [split; [exact So|split; [exact Sc|exact Sr]]|]. clear HS. pose proof (radial_size p G) as Rm. fold (radial p) in W. clear G.
  pose proof e_low as (E1 & E2). pose proof (u_tiny prec k P24) as U. replace (3000 * u * (S / Rabs r * (S / Rabs r))) with (3000 * e) in L by ring.
  assert (Zm : radial p <> V3 0 0 0). { intros Z0. rewrite Z0 in Rm. unfold normsqR, dotR in Rm; cbn [vx vy vz] in Rm. apply Rabs_le_inv in Rm. lra. }
  destruct (unit_normsq (radial p) Zm) as (Q1 & S0). set (s := normR (radial p)) in *. assert (Ss : s * s = normsqR (radial p)) by (unfold s, normR; apply sqrt_sqrt; unfold normsqR, dotR; nra). rewrite <- Ss in Rm.
  assert (Em : radial p = scaleR s (unitR (radial p))) by (apply unscale; lra).
  assert (Nm : near3 (3 * e) n0 (scaleR s (unitR (radial p)))).
  { rewrite <- Em. destruct W as (W1 & W2 & W3). cbn [subR vx vy vz] in W1, W2, W3. replace (3 * u * (S / Rabs r)) with (3 * (u * (S / Rabs r))) in W1, W2, W3 by ring. split; [|split]; lra. }
  set (q := unitR (radial p)) in *. destruct (unit_normsq d Zd) as (Y1 & D0). set (y := unitR d) in *.
  pose proof (yn_q e s y q _ n0 S0 Rm eq_refl Y1 Q1 Nm) as Yq.
  destruct (dot_sized _ _ d n0 (proj2 (vals_fval _ _ _ _) Vd) Vn Md Zd) as (z & Vz & Ez); [apply Rabs_le_inv in L; lra|].
  assert (Yd : dotR d n0 = normR d * dotR y n0) by (unfold y, unitR; unfold dotR, scaleR; cbn [vx vy vz]; field; lra).
  assert (Hz : h_front rec' = Rltb z 0) by (rewrite Hf; exact (ltb_val prec emax Hp Hm lm _ _ _ _ Vz (zero_v prec emax Hp Hm lm P24 ltac:(lia)))).
  exists p. exists (if h_front rec' then n0 else negR n0), s.
  split; [apply vals_fval; exact Vp|]. split. { rewrite Hn. apply vals_fval. destruct (h_front rec'); [exact Vn|apply (P_SphereHit.neg_vals prec emax Hp Hm lm); exact Vn]. }
  split. { destruct (h_front rec'); [exact L|]. replace (normsqR (negR n0)) with (normsqR n0) by (unfold normsqR, dotR, negR; cbn [vx vy vz]; ring). exact L. }
  split; [exact S0|]. split; [exact Rm|]. cbv zeta. fold q y. split; [exact Q1|]. split.
  { destruct (h_front rec'); [exact Nm|]. destruct Nm as (A & B & C). cbn [scaleR vx vy vz] in A, B, C. unfold near3, negR; cbn [scaleR vx vy vz].
    assert (Qn : forall a b, Rabs (a - s * b) <= 3 * e -> Rabs (- a - s * - b) <= 3 * e) by (intros a b Hab; replace (- a - s * - b) with (- (a - s * b)) by ring; rewrite Rabs_Ropp; exact Hab). split; [|split]; apply Qn; assumption. }
  intros Mg. rewrite Hz. clear Hz Hf Hn. rewrite Yd in Ez. apply Rabs_le_inv in Ez, Yq. destruct (Rle_lt_dec (dotR y q) 0) as [C|C].
  - rewrite (Rabs_left1 (dotR y q)) in Mg by exact C. assert (A : dotR y n0 <= - (80 * u)) by lra. pose proof (Rmult_le_compat_l _ _ _ (Rlt_le _ _ D0) A). assert (0 < u * normR d) by (apply Rmult_lt_0_compat; lra). assert (z < 0) by lra.
    rewrite Rltb_true by assumption. split; [split; [intros _; lra|reflexivity]|exact A].
  - rewrite (Rabs_pos_eq (dotR y q)) in Mg by lra. assert (A : 80 * u <= dotR y n0) by lra. pose proof (Rmult_le_compat_l _ _ _ (Rlt_le _ _ D0) A). assert (0 < u * normR d) by (apply Rmult_lt_0_compat; lra). assert (0 <= z) by lra.
    rewrite Rltb_false by assumption. split; [split; [discriminate|lra]|]. rewrite neg_dot. lra.
Qed.
Lemma mirror_neg : forall a b, mirrorR (negR a) b = mirrorR a b.
Proof. intros a b. unfold mirrorR, subR, scaleR, negR, dotR; cbn [vx vy vz]. f_equal; ring. Qed.
Lemma negR_normsq : forall a, normsqR (negR a) = normsqR a.
Proof. intros a. unfold normsqR, dotR, negR; cbn [vx vy vz]. ring. Qed.

Lemma metal_ball : forall tex lo hi rec rec', sphere_hit (F:=N) fs fray lo hi rec = Ok (true, rec') ->
  exists p ok out z, map3 fval (h_p rec') = fin3 p /\ metal_scatter (F:=N) tex fray rec' = (ok, (tex rec', Ray (h_p rec') out)) /\ map3 fval out = fin3 z /\
    let q := unitR (radial p) in let y := unitR d in near3 (6000 * e) z (mirrorR q y) /\ (3100 * e <= Rabs (dotR y q) -> (h_front rec' = true <-> dotR y q < 0) /\ ok = true).
Proof.
  intros tex lo hi rec rec' H. destruct (ball_faces lo hi rec rec' H) as (p & n & s & Vp & Vn & Ln & S0 & Ss & Q1 & Nn & Mg). cbv zeta in *. pose proof e_low as (E1 & _). pose proof (u_tiny prec k P24) as U.
  destruct (metal_directions prec emax Hp Hm lm k P24 ltac:(lia) K0 ltac:(lia) tex fray rec' d n Vd Md Zd Vn ltac:(lra)) as (ok & out & z & Hs & Vz & Nz & Ok1 & _).
  exists p, ok, out, z. split; [exact Vp|]. split; [exact Hs|]. split; [exact Vz|]. destruct (unit_normsq d Zd) as (Y1 & _). split.
  - apply near3_le with (34 * u + 5820 * e); [|lra]. apply near3_tri with (mirrorR n (unitR d)); [exact Nz|].
    destruct (h_front rec').
    + exact (mirror_moved e s _ _ _ n ltac:(lra) S0 Ss eq_refl Y1 Q1 Nn).
    + rewrite <- (mirror_neg (unitR (radial p))). refine (mirror_moved e s _ _ _ n ltac:(lra) S0 Ss eq_refl Y1 _ Nn). rewrite negR_normsq. exact Q1.
  - intros M. destruct (Mg M) as (A & B). split; [exact A|apply Ok1; exact B].
Qed.

Lemma glass_ball : forall (fir draw : float) eta, fval fir = Fin eta -> 1 / 4 <= eta <= 4 -> forall lo hi rec rec', sphere_hit (F:=N) fs fray lo hi rec = Ok (true, rec') ->
  exists p, map3 fval (h_p rec') = fin3 p /\ let q := unitR (radial p) in let y := unitR d in (3100 * e <= Rabs (dotR y q) ->
  exists out z, dielectric_scatter (F:=N) fir draw fray rec' = (V3 (nofZ (NumOps:=N) 1) (nofZ (NumOps:=N) 1) (nofZ (NumOps:=N) 1), Ray (h_p rec') out) /\ map3 fval out = fin3 z /\
    (near3 (6000 * e) z (mirrorR q y) \/
     exists ratio across, (dotR y q < 0 -> ratio = / eta /\ across = q) /\ (0 < dotR y q -> ratio = eta /\ across = negR q) /\
     let t := scaleR ratio (subR y (scaleR (dotR y q) q)) in
     normsqR t <= 1 + 290000 * e /\ Rabs (normsqR z - 1) <= 370000 * e /\ exists g, 0 <= g /\ near3 (27000 * e) z (subR t (scaleR g across)))).
Proof.
  intros fir draw eta Ve Be lo hi rec rec' H. destruct (ball_faces lo hi rec rec' H) as (p & n & s & Vp & Vn & Ln & S0 & Ss & Q1 & Nn & Mg). cbv zeta in *. exists p. split; [exact Vp|]. intros M. destruct (Mg M) as (Fr & Dn). clear Mg.
  pose proof e_low as (E1 & _). pose proof (u_tiny prec k P24) as U. destruct (unit_normsq d Zd) as (Y1 & D0).
  assert (Dn' : dotR d n <= 0). { assert (Yd : dotR d n = normR d * dotR (unitR d) n) by (unfold unitR; unfold dotR, scaleR; cbn [vx vy vz]; field; lra). rewrite Yd. nra. }
  destruct (glass_directions prec emax Hp Hm lm k P24 ltac:(lia) K0 ltac:(lia) fir draw fray rec' eta d n (3000 * e) Ve Be Vd Md Zd Vn Ln ltac:(lra) Dn') as (out & z & Hs & Vz & Cases).
  exists out, z. split; [exact Hs|]. split; [exact Vz|].
  set (q := unitR (radial p)) in *. set (y := unitR d) in *. set (w := if h_front rec' then q else negR q) in *.
  assert (W1 : normsqR w = 1) by (unfold w; destruct (h_front rec'); [|rewrite negR_normsq]; exact Q1).
  assert (Mw : mirrorR w y = mirrorR q y) by (unfold w; destruct (h_front rec'); [|rewrite mirror_neg]; reflexivity).
  assert (Ow : scaleR (dotR y w) w = scaleR (dotR y q) q) by (unfold w; destruct (h_front rec'); [reflexivity|unfold scaleR, negR, dotR; cbn [vx vy vz]; f_equal; ring]).
  destruct Cases as [Nz|(Nt & Sz & g & G0 & Ng)].
  - left. rewrite <- Mw. apply near3_le with (34 * u + 5820 * e); [|lra]. apply near3_tri with (mirrorR n y); [exact Nz|]. exact (mirror_moved e s y w _ n ltac:(lra) S0 Ss eq_refl Y1 W1 Nn).
  - right. cbv zeta in Nt, Ng. set (ratio := if h_front rec' then / eta else eta). match type of Nt with normsqR (scaleR ?x _) <= _ => change x with ratio in Nt, Ng end. exists ratio, w.
    assert (R4 : 0 <= ratio <= 4).
    { unfold ratio. destruct (h_front rec'); [|lra]. split; [left; apply Rinv_0_lt_compat; lra|]. apply Rmult_le_reg_r with eta; [lra|]. rewrite Rinv_l by lra. lra. }
    split. { intros C. apply Fr in C. unfold ratio, w. rewrite C. auto. }
    split. { intros C. unfold ratio, w. destruct (h_front rec'); [exfalso; assert (dotR y q < 0) by (apply Fr; reflexivity); lra|auto]. }
    pose proof (tangent_moved e s y w _ n ltac:(lra) S0 Ss eq_refl Y1 W1 Nn ratio R4) as Tm. rewrite Ow in Tm. cbv zeta. set (t := scaleR ratio (subR y (scaleR (dotR y q) q))) in *. set (t0 := scaleR ratio (subR y (scaleR (dotR y n) n))) in *.
    assert (T0 : normsqR t0 <= 121 / 100) by lra.
    pose proof (perturb t t0 (11640 * e) T0 (near3_sym _ _ _ Tm) ltac:(lra)) as Pt. apply Rabs_le_inv in Pt.
    split; [lra|]. split; [lra|].
    assert (G3 : g <= 3).
    { pose proof (perturb _ z (110 * u + 5 * (3000 * e)) ltac:(apply Rabs_le_inv in Sz; lra) (near3_sym _ _ _ Ng) ltac:(lra)) as Pv. apply Rabs_le_inv in Pv, Sz, Ln.
      exact (along_bound t0 n g T0 ltac:(lra) G0 ltac:(lra)). }
    exists (g * s). split; [nra|]. apply near3_le with ((110 * u + 5 * (3000 * e)) + (11640 * e + 9 * e)); [|lra].
    apply near3_tri with (subR t0 (scaleR g n)); [exact Ng|]. apply near3_tri with (subR t (scaleR g n)); [|exact (along_moved e s w _ n eq_refl Nn t g ltac:(lra))].
    destruct Tm as (A & B & C). unfold near3; cbn [subR scaleR vx vy vz]. assert (Q : forall a b h, a - h - (b - h) = a - b) by (intros; ring). rewrite !Q. auto.
Qed.
End Ball.
