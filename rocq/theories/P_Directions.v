(** What metal and glass do to directions in floating point. *)
From Coq Require Import Reals Lra ZArith Lia List Bool.
From Flocq Require Import Core Relative BinarySingleNaN.
From Verif Require Import Num XR FL Spec Spec_Light Spec_Accuracy Spec_Bend M_Vec M_Hittable M_Materials P_FL P_Round P_Accuracy P_Floats P_Sampler P_SphereHit P_FlatLeave P_Bend P_Refract.
Import ListNotations.
Local Open Scope R_scope.

Lemma unit_normsq : forall d, d <> V3 0 0 0 -> normsqR (unitR d) = 1 /\ 0 < normR d.
Proof.
  intros d H. assert (P : 0 < normR d) by (apply P_Vec.normR_pos; exact H). split; [|exact P].
  unfold unitR. rewrite scaled_normsq. assert (E : normsqR d = normR d * normR d) by (unfold normR; symmetry; apply sqrt_sqrt; unfold normsqR, dotR; nra). rewrite E. field. lra.
Qed.

Section Dir.
Variables prec emax : Z.
Context (Hp : Prec_gt_0 prec) (Hm : Prec_lt_emax prec emax).
Variable lm : libm (binary_float prec emax).
Variable k : Z.
Hypothesis P24 : (24 <= prec)%Z.
Hypothesis E64 : (64 <= emax)%Z.
Hypothesis K0 : (0 <= k)%Z.
Hypothesis K : (2 * k + 2 * prec + 8 <= emax)%Z.
Notation float := (binary_float prec emax).
Notation N := (FL prec emax Hp Hm lm).
Notation rnd := (round radix2 (SpecFloat.fexp prec emax) ZnearestE).
Notation val := (val prec emax).
Notation vals := (vals prec emax).
Notation u := (bpow radix2 (- prec)).
Let U : 0 < u <= / 16777216 := u_tiny prec P24.

Lemma unit_computed : forall (fd : vec3 float) d n, map3 fval fd = fin3 d -> moderate3 k d -> d <> V3 0 0 0 -> normsqR n <= 1001 / 1000 ->
  exists y, vals (normalize (F:=N) fd) y /\ near3 (5 * u) y (unitR d) /\ Rabs (dotR y n - dotR (unitR d) n) <= 51 / 10 * u /\ Rabs (normsqR y - 1) <= 11 * u.
Proof.
  intros fd d n Vd Md Zd Sn. destruct (normalize_stated prec emax Hp Hm lm k ltac:(lia) K0 K fd d Vd Md Zd) as (y & Vy & (A & B & C) & L). apply vals_fval in Vy. exists y. split; [exact Vy|].
  destruct (unit_normsq d Zd) as (N1 & P). set (y0 := unitR d) in *.
  assert (X : vx d / normR d = vx y0 /\ vy d / normR d = vy y0 /\ vz d / normR d = vz y0) by (unfold y0, unitR, scaleR, Rdiv; cbn [vx vy vz]; repeat split; ring). destruct X as (X1 & X2 & X3). rewrite X1 in A. rewrite X2 in B. rewrite X3 in C.
  clearbody y0. clear X1 X2 X3 P. destruct (abs_comp y0 1 ltac:(lra) ltac:(lra)) as (B1 & B2 & B3).
  split; [repeat split; eapply Rle_trans; [exact A| |exact B| |exact C|]; nra|]. split.
  - eapply Rle_trans; [apply (comps_dot y y0 n (5 * u)); try assumption; lra|lra].
  - assert (E : normsqR y = normR y * normR y) by (unfold normR; symmetry; apply sqrt_sqrt; unfold normsqR, dotR; nra). rewrite E. replace (normR y * normR y - 1) with ((normR y - 1) * (normR y + 1)) by ring. rewrite Rabs_mult.
    apply Rabs_le_inv in L. assert (Rabs (normR y + 1) <= 21 / 10) by (apply Rabs_le; lra). assert (Rabs (normR y - 1) <= 5 * u) by (apply Rabs_le; lra). pose proof (Rabs_pos (normR y + 1)). pose proof (Rabs_pos (normR y - 1)). nra.
Qed.
Lemma dot_le : forall a b A B, normsqR a <= A -> normsqR b <= B -> Rabs (dotR a b) <= (A + B) / 2.
Proof. intros a b A B HA HB. pose proof (absdot_avg a b). assert (Rabs (dotR a b) <= absdot a b) by (unfold dotR, absdot; apply (proj2 (tri3 _ _ _))). lra. Qed.

Lemma mirror_computed : forall (fd fn : vec3 float) d n, map3 fval fd = fin3 d -> moderate3 k d -> d <> V3 0 0 0 -> map3 fval fn = fin3 n -> Rabs (normsqR n - 1) <= / 1000 ->
  exists z, vals (reflect (F:=N) (normalize (F:=N) fd) fn) z /\ near3 (34 * u) z (mirrorR n (unitR d)).
Proof.
  intros fd fn d n Vd Md Zd Vn Sn. apply vals_fval in Vn. assert (Sn' : normsqR n <= 1001 / 1000) by (apply Rabs_le_inv in Sn; lra).
  destruct (unit_computed fd d n Vd Md Zd Sn') as (y & Vy & Ny & Dy & Sy). destruct (unit_normsq d Zd) as (N1 & _). set (y0 := unitR d) in *. clearbody y0.
  destruct (reflect_near prec emax Hp Hm lm P24 E64 _ _ y n y0 Vy Vn) as (z & Vz & Z); [apply Rabs_le_inv in Sy; lra|exact Sn'|lra|pose proof (dot_le y0 n 1 (1001 / 1000) ltac:(lra) Sn'); lra|].
  cbv zeta in Z. exists z. split; [exact Vz|]. destruct Z as (Z1 & Z2 & Z3), Ny as (A & B & C).
  assert (Q : forall a b b0 c, Rabs (a - (b - c)) <= 29 * u -> Rabs (b - b0) <= 5 * u -> Rabs (a - (b0 - c)) <= 34 * u).
  { intros a b b0 c H1 H2. replace (a - (b0 - c)) with ((a - (b - c)) + (b - b0)) by ring. eapply Rle_trans; [apply Rabs_triang|lra]. }
  unfold near3, mirrorR, subR, scaleR; cbn [vx vy vz]. repeat split; eapply Q; eassumption.
Qed.

Lemma metal_directions : forall tex (r : ray float) (rec : hit_record float) d n, map3 fval (r_dir r) = fin3 d -> moderate3 k d -> d <> V3 0 0 0 -> map3 fval (h_normal rec) = fin3 n -> Rabs (normsqR n - 1) <= / 1000 ->
  exists ok out z, metal_scatter (F:=N) tex r rec = (ok, (tex rec, Ray (h_p rec) out)) /\ map3 fval out = fin3 z /\ near3 (34 * u) z (mirrorR n (unitR d)) /\
    (dotR (unitR d) n <= - (80 * u) -> ok = true) /\ (80 * u <= dotR (unitR d) n -> ok = false).
Proof.
  intros tex r rec d n Vd Md Zd Vn Sn. destruct (mirror_computed _ _ d n Vd Md Zd Vn Sn) as (z & Vz & Nz).
  destruct (unit_normsq d Zd) as (N1 & _). set (y0 := unitR d) in *. clearbody y0. assert (Sn' : normsqR n <= 1001 / 1000) by (apply Rabs_le_inv in Sn; lra).
  pose proof (dot_le y0 n 1 (1001 / 1000) ltac:(lra) Sn') as D0.
  assert (Mn : normsqR (mirrorR n y0) = normsqR y0 + 4 * (dotR y0 n * dotR y0 n) * (normsqR n - 1)) by (unfold mirrorR, subR, scaleR, normsqR, dotR; cbn [vx vy vz]; ring).
  assert (Md0 : dotR (mirrorR n y0) n = dotR y0 n * (1 - 2 * normsqR n)) by (unfold mirrorR, subR, scaleR, normsqR, dotR; cbn [vx vy vz]; ring).
  assert (Mb : normsqR (mirrorR n y0) <= 102 / 100). { rewrite Mn. apply Rabs_le_inv in D0, Sn. assert (0 <= dotR y0 n * dotR y0 n <= 11 / 10) by nra. nra. }
  pose proof (perturb z (mirrorR n y0) (34 * u) ltac:(lra) Nz ltac:(lra)) as Pz. pose proof (dot_perturb z (mirrorR n y0) n (34 * u) ltac:(lra) Nz) as Dz.
  pose proof (absdot_avg z n) as Az. apply Rabs_le_inv in Pz.
  assert (Vn' : vals (h_normal rec) n) by (apply vals_fval; exact Vn).
  destruct (op_dot prec emax Hp Hm lm P24 E64 _ _ z n (102 / 100) Vz Vn' ltac:(lra) ltac:(lra)) as (D & VD & ED).
  unfold metal_scatter. do 2 eexists. exists z. split; [reflexivity|]. split; [apply vals_fval; exact Vz|]. split; [exact Nz|].
  assert (L : nltb (NumOps:=N) (nofZ (NumOps:=N) 0) (dot (F:=N) (reflect (F:=N) (normalize (F:=N) (r_dir r)) (h_normal rec)) (h_normal rec)) = Rltb 0 D) by (apply (ltb_val prec emax Hp Hm lm); [apply (zero_v prec emax Hp Hm lm P24 E64)|exact VD]).
  rewrite Md0 in Dz. apply Rabs_le_inv in Dz, ED, Sn. set (t := dotR y0 n) in *. clearbody t. split; intros Ht; refine (eq_trans L _); [apply Rltb_true|apply Rltb_false]; nra.
Qed.

Lemma ratio_computed : forall (fir : float) eta (b : bool), fval fir = Fin eta -> 1 / 4 <= eta <= 4 ->
  exists r, val (if b then ndiv (NumOps:=N) (nofZ (NumOps:=N) 1) fir else fir) r /\ 0 <= r <= 4 /\ let r0 := if b then / eta else eta in Rabs (r - r0) <= 41 / 10 * u /\ 0 <= r0 <= 4.
Proof.
  intros fir eta b Ve He. apply val_fval in Ve. destruct b; cbv zeta.
  - assert (I : / 4 <= / eta <= 4) by (split; [apply Rinv_le_contravar; lra|]; apply Rmult_le_reg_r with eta; [lra|]; rewrite Rinv_l by lra; lra).
    exists (rnd (/ eta)). split.
    { replace (/ eta) with (1 / eta) by (unfold Rdiv; ring). apply (div_val prec emax Hp Hm lm); [apply (one_v prec emax Hp Hm lm P24 E64)|exact Ve|lra|]. replace (1 / eta) with (/ eta) by (unfold Rdiv; ring). rewrite Rabs_pos_eq by lra. pose proof (b64 emax E64). lra. }
    pose proof (rnd_abs prec emax Hp P24 E64 (/ eta)) as E. rewrite (Rabs_pos_eq (/ eta)) in E by lra. split.
    + split.
      * apply round_ge_generic; [apply FLT_exp_valid; exact Hp|apply valid_rnd_N|apply generic_format_0|lra].
      * apply round_le_generic; [apply FLT_exp_valid; exact Hp|apply valid_rnd_N|exact (format_Z prec emax Hp P24 E64 4 ltac:(lia))|lra].
    + split; [|lra]. eapply Rle_trans; [exact E|]. nra.
  - exists eta. split; [exact Ve|]. split; [lra|]. split; [|lra]. replace (eta - eta) with 0 by ring. rewrite Rabs_R0. lra.
Qed.

Lemma glass_directions : forall (fir draw : float) (r : ray float) (rec : hit_record float) eta d n dl, fval fir = Fin eta -> 1 / 4 <= eta <= 4 ->
  map3 fval (r_dir r) = fin3 d -> moderate3 k d -> d <> V3 0 0 0 -> map3 fval (h_normal rec) = fin3 n -> Rabs (normsqR n - 1) <= dl -> dl <= / 1000 -> dotR d n <= 0 ->
  exists out z, dielectric_scatter (F:=N) fir draw r rec = (V3 (nofZ (NumOps:=N) 1) (nofZ (NumOps:=N) 1) (nofZ (NumOps:=N) 1), Ray (h_p rec) out) /\ map3 fval out = fin3 z /\
    (near3 (34 * u) z (mirrorR n (unitR d)) \/
     let y0 := unitR d in let t0 := scaleR (if h_front rec then / eta else eta) (subR y0 (scaleR (dotR y0 n) n)) in
     normsqR t0 <= 1 + 850 * u + 75 * dl /\ Rabs (normsqR z - 1) <= 1300 * u + 120 * dl /\ exists g, 0 <= g /\ near3 (110 * u + 5 * dl) z (subR t0 (scaleR g n))).
Proof.
  intros fir draw r rec eta d n dl Ve He Vd Md Zd Vn Sn Hdl Face. unfold dielectric_scatter. cbv zeta.
  assert (DL : 0 <= dl <= / 1000) by (pose proof (Rabs_pos (normsqR n - 1)); lra).
  assert (Sn' : normsqR n <= 1001 / 1000) by (apply Rabs_le_inv in Sn; lra). assert (SnL : Rabs (normsqR n - 1) <= / 1000) by lra.
  match goal with |- context [if ?c then _ else _] => match c with orb ?a ?b => destruct a eqn:Ea; [|destruct b] end end; cbn [orb].
  1, 2: destruct (mirror_computed _ _ d n Vd Md Zd Vn SnL) as (z & Vz & Nz); do 2 eexists; split; [reflexivity|]; split; [apply vals_fval; exact Vz|]; left; exact Nz.
  destruct (ratio_computed fir eta (h_front rec) Ve He) as (rr & Vr & R4 & Er). cbv zeta in Er. destruct Er as (Er & R04).
  destruct (unit_computed _ d n Vd Md Zd Sn') as (y & Vy & Ny & Dy & Sy). destruct (unit_normsq d Zd) as (N1 & Pd).
  assert (F0 : dotR (unitR d) n <= 0) by (unfold unitR; rewrite scaled_dot; pose proof (Rinv_0_lt_compat _ Pd); nra).
  set (y0 := unitR d) in *. clearbody y0. set (r0 := if h_front rec then / eta else eta) in *. clearbody r0.
  assert (Fy : dotR y n <= 6 * u) by (apply Rabs_le_inv in Dy; lra).
  assert (Vn' : vals (h_normal rec) n) by (apply vals_fval; exact Vn).
  destruct (refract_near prec emax Hp Hm lm P24 E64 dl DL _ _ y n Vy Vn' Sy Sn Fy _ rr Vr R4 Ea) as (z & g & Vz & G0 & Lz & Tz & q & Sq & Tq).
  assert (T0 : near3 (50 * u) (scaleR rr (tangent y n)) (scaleR r0 (subR y0 (scaleR (dotR y0 n) n)))).
  { destruct (abs_comp y0 1 ltac:(lra) ltac:(lra)) as (B1 & B2 & B3). destruct (abs_comp n (101 / 100) ltac:(lra) ltac:(lra)) as (C1 & C2 & C3).
    pose proof (dot_le y0 n 1 (1001 / 1000) ltac:(lra) Sn') as D0.
    assert (Q : forall a a0 b, Rabs (a - a0) <= 5 * u -> Rabs a0 <= 1 -> Rabs b <= 101 / 100 -> Rabs (rr * (a - dotR y n * b) - r0 * (a0 - dotR y0 n * b)) <= 50 * u).
    { intros a a0 b Ha Ha0 Hb. replace (rr * (a - dotR y n * b) - r0 * (a0 - dotR y0 n * b)) with (rr * ((a - a0) - (dotR y n - dotR y0 n) * b) + (rr - r0) * (a0 - dotR y0 n * b)) by ring.
      eapply Rle_trans; [apply Rabs_triang|]. rewrite !Rabs_mult, (Rabs_pos_eq rr) by lra.
      assert (M1 : Rabs ((dotR y n - dotR y0 n) * b) <= 51 / 10 * u * (101 / 100)) by (rewrite Rabs_mult; apply Rmult_le_compat; try apply Rabs_pos; lra).
      assert (M2 : Rabs (dotR y0 n * b) <= 101 / 100 * (101 / 100)) by (rewrite Rabs_mult; apply Rmult_le_compat; try apply Rabs_pos; lra).
      assert (M3 : Rabs (a - a0 - (dotR y n - dotR y0 n) * b) <= 102 / 10 * u) by (unfold Rminus at 1; eapply Rle_trans; [apply Rabs_triang|]; rewrite Rabs_Ropp; lra).
      assert (M4 : Rabs (a0 - dotR y0 n * b) <= 21 / 10) by (unfold Rminus; eapply Rle_trans; [apply Rabs_triang|]; rewrite Rabs_Ropp; lra).
      assert (M5 : rr * Rabs (a - a0 - (dotR y n - dotR y0 n) * b) <= 4 * (102 / 10 * u)) by (apply Rmult_le_compat; try apply Rabs_pos; lra).
      assert (M6 : Rabs (rr - r0) * Rabs (a0 - dotR y0 n * b) <= 41 / 10 * u * (21 / 10)) by (apply Rmult_le_compat; try apply Rabs_pos; lra). lra. }
    destruct Ny as (E1 & E2 & E3). unfold near3, tangent, scaleR, subR; cbn [vx vy vz]. repeat split; apply Q; assumption. }
  do 2 eexists. split; [reflexivity|]. split; [apply vals_fval; exact Vz|]. right.
  split; [|split; [exact Lz|]; exists g; split; [exact G0|]].
  - pose proof (near3_tri _ _ _ _ _ Tq T0) as Tt. pose proof (perturb _ q (25 * u + 5 * dl + 50 * u) ltac:(lra) (near3_sym _ _ _ Tt) ltac:(lra)) as Pq. apply Rabs_le_inv in Pq. lra.
  - pose proof (near3_tri _ _ _ _ _ Tz (near3_along _ _ _ (- g) n T0)) as Tt. apply near3_le with (51 * u + 5 * dl + 50 * u); [|lra].
    assert (E : along (scaleR r0 (subR y0 (scaleR (dotR y0 n) n))) (- g) n = subR (scaleR r0 (subR y0 (scaleR (dotR y0 n) n))) (scaleR g n)) by (unfold along, subR, scaleR; cbn [vx vy vz]; f_equal; ring).
    rewrite <- E. exact Tt.
Qed.
End Dir.
