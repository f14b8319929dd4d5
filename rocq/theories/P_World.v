(** Rendering whole scenes in exact arithmetic. *)
From Coq Require Import Reals ZArith Lra Lia List Bool Psatz.
From Verif Require Import Spec_Random Num XR Spec Spec_Scene Spec_Light Spec_Shapes Spec_World M_Vec M_Roots M_Rng M_Hittable M_Materials M_Shapes M_World
  P_Vec P_Rng P_Quadratic P_Sphere P_Ellipsoid P_Flat P_List P_Light P_Lambert P_Path.
Import ListNotations.
Local Open Scope R_scope.

Section Scattering.
Context {L : limits}.
Notation X := (XR L).

Definition long (d : vec3 R) : Prop := 1 / 4 <= normsqR d.
Definition near_unit (tol : R) (n : vec3 R) : Prop := Rabs (normsqR n - 1) <= tol.
Definition proper (tol : R) (r : ray R) (rec : hit_record xr) : Prop :=
  exists p n, h_p rec = fin3 p /\ h_normal rec = fin3 n /\ near_unit tol n /\ dotR (r_dir r) n <= 0.

Lemma abs_le : forall x t, Rabs x <= t -> - t <= x <= t.
Proof. intros x t H. unfold Rabs in H. destruct (Rcase_abs x); lra. Qed.
Lemma long_nonzero : forall d, long d -> d <> zeroR.
Proof. intros d H ->. unfold long, normsqR, dotR, zeroR in H; cbn in H. lra. Qed.
Lemma unit_long : forall d, normR d = 1 -> long d.
Proof. intros d H. unfold long. rewrite (unit_normsq d H). lra. Qed.
Lemma near_bounds : forall tol n, near_unit tol n -> 1 - tol <= normsqR n <= 1 + tol.
Proof. intros tol n H. unfold near_unit in H. apply abs_le in H. lra. Qed.
(* Cauchy and Schwarz *)
Lemma cauchy : forall a b, dotR a b * dotR a b <= normsqR a * normsqR b.
Proof.
  intros a b. assert (LI : dotR a b * dotR a b + normsqR (crossR a b) = normsqR a * normsqR b).
  { unfold normsqR, dotR, crossR; cbn [vx vy vz]; ring. }
  pose proof (normsqR_nonneg (crossR a b)). lra.
Qed.

Lemma mirror_long : forall tol n v, 0 <= tol <= 1 / 8 -> near_unit tol n -> normsqR v = 1 -> long (mirrorR n v).
Proof.
  intros tol n v T N V. apply near_bounds in N. unfold long.
  replace (normsqR (mirrorR n v)) with (normsqR v + 4 * (dotR v n * dotR v n) * (normsqR n - 1)) by (unfold mirrorR, normsqR, dotR, subR, scaleR; cbn [vx vy vz]; ring).
  rewrite V. pose proof (cauchy v n) as C. rewrite V in C. assert (0 <= dotR v n * dotR v n) by nra. nra.
Qed.

Definition good_ray (r : ray xr) : Prop := exists r', r = finray r' /\ long (r_dir r').

Lemma metal_ok : forall tol tex (r : ray R) (rec : hit_record xr), 0 <= tol <= 1 / 8 -> long (r_dir r) -> proper tol r rec ->
  exists b out, metal_scatter (F:=X) tex (finray r) rec = (b, (tex rec, out)) /\ good_ray out.
Proof.
  intros tol tex r rec T D (p & n & Ep & En & N & _). pose proof (long_nonzero _ D) as D0.
  unfold metal_scatter. cbn [r_dir finray]. rewrite normalize_fin by exact D0. change (@num X) with xr in *. rewrite En, Ep.
  rewrite reflect_fin. eexists _, _. split; [reflexivity|].
  exists (Ray p (mirrorR n (unitR (r_dir r)))). split; [reflexivity|]. cbn [r_dir].
  apply mirror_long with tol; auto. apply (unitR_unit _ D0).
Qed.

Lemma lambertian_ok : forall tol tex g (r : ray R) (rec : hit_record xr), 0 <= tol <= 1 / 8 -> word64 (pc_state g) -> proper tol r rec ->
  exists k out g', (forall fuel, (k <= fuel)%nat -> lambertian_scatter (F:=X) fuel tex g rec = Ok (Some (tex rec, out), g')) /\
    good_ray out /\ word64 (pc_state g').
Proof.
  intros tol tex g r rec T W (p & n & Ep & En & N & _). apply near_bounds in N.
  destruct (sampler_exact (L:=L) g W) as (m & R & _ & _).
  set (v := cubeR (Nat.iter m next3 g)) in *. set (g' := Nat.iter (S m) next3 g) in *.
  assert (Wg : word64 (pc_state g')) by (unfold g', word64; cbn; apply Z.mod_pos_bound; reflexivity).
  clearbody v g'. 
  set (h := if Rltb 0 (dotR v n) then v else negR v).
  assert (Hh : 0 <= dotR h n).
  { unfold h. destruct (Rltb_spec 0 (dotR v n)); [lra|]. unfold dotR, negR in *; cbn [vx vy vz] in *. lra. }
  set (d := if Rltb (normsqR (addR n h)) (sqrt (l_eps L)) then n else addR n h).
  exists (S m), (Ray (fin3 p) (fin3 d)), g'. split; [|split; [|exact Wg]].
  - intros fuel Hf. unfold lambertian_scatter, random_in_hemisphere. rewrite (R fuel Hf). cbn [obind].
    change (@num X) with xr. rewrite En, Ep. rewrite dot_fin. cbn [nltb XR nofZ xltb].
    assert (Eh : (if Rltb 0 (dotR v n) then fin3 v else vneg (F:=X) (fin3 v)) = fin3 h).
    { unfold h. destruct (Rltb 0 (dotR v n)); [reflexivity|apply vneg_fin]. }
    match goal with |- context [if ?c then fin3 v else ?e] => change (if c then fin3 v else e) with (if Rltb 0 (dotR v n) then fin3 v else vneg (F:=X) (fin3 v)) end.
    rewrite Eh. rewrite vadd_fin, squared_norm_fin. cbn [nltb nsqrt neps XR].
    rewrite xsqrt_fin by (apply Rlt_le, l_eps_pos). cbn [xltb].
    unfold d. destruct (Rltb (normsqR (addR n h)) (sqrt (l_eps L))); reflexivity.
  - exists (Ray p d). split; [reflexivity|]. cbn [r_dir]. unfold long, d.
    destruct (Rltb (normsqR (addR n h)) (sqrt (l_eps L))); [lra|].
    replace (normsqR (addR n h)) with (normsqR n + 2 * dotR h n + normsqR h) by (unfold normsqR, dotR, addR; cbn [vx vy vz]; ring).
    pose proof (normsqR_nonneg h). lra.
Qed.

(** *** Refraction with a normal of length nearly 1 *)
Definition perpR (n v : vec3 R) (eta c : R) : vec3 R := scaleR eta (addR v (scaleR c n)).
Definition bentR (n v : vec3 R) (eta c : R) : vec3 R :=
  addR (perpR n v eta c) (scaleR (- sqrt (Rabs (1 - normsqR (perpR n v eta c)))) n).

Lemma refract_near : forall v n eta, refract (F:=X) (fin3 v) (fin3 n) (Fin eta) = fin3 (bentR n v eta (Rmin (- dotR v n) 1)).
Proof.
  intros v n eta. unfold refract, bentR, perpR. rewrite vneg_fin, dot_fin.
  assert (C : dotR (negR v) n = - dotR v n) by (unfold dotR, negR; cbn [vx vy vz]; ring). rewrite C.
  set (c := - dotR v n). set (m := Rmin c 1).
  assert (E : std_min (F:=X) (Fin c) (nofZ (NumOps:=X) 1) = Fin m).
  { unfold std_min. cbn [nltb XR nofZ xltb]. unfold m, Rmin. destruct (Rltb_spec 1 c), (Rle_dec c 1); try reflexivity; lra. }
  rewrite E. rewrite vscale_fin, vadd_fin, vscale_fin, squared_norm_fin. cbn [nsub nabs nsqrt nneg XR nofZ xsub xabs].
  rewrite xsqrt_fin by apply Rabs_pos. cbn [xneg]. rewrite vscale_fin, vadd_fin. reflexivity.
Qed.

Lemma bent_long : forall tol n v eta, 0 <= tol <= 1 / 8 -> near_unit tol n -> normsqR v = 1 -> dotR v n <= 0 -> 0 < eta ->
  16 * (eta * eta) * tol <= 1 -> (let c := Rmin (- dotR v n) 1 in eta * eta * (1 - c * c) <= 1) -> long (bentR n v eta (Rmin (- dotR v n) 1)).
Proof.
  intros tol n v eta T N V D E0 E1 S. cbv zeta in S. apply near_bounds in N. unfold long.
  set (c := - dotR v n) in *. set (m := Rmin c 1) in *. set (P := perpR n v eta m).
  set (q := normsqR n) in *. assert (Q : normsqR n = q) by reflexivity. clearbody q.
  assert (M : m = c /\ c <= 1 \/ m = 1 /\ 1 < c) by (unfold m, Rmin; destruct (Rle_dec c 1); lra).
  assert (C0 : 0 <= c) by (unfold c; lra).
  assert (CS : c * c <= q). { pose proof (cauchy v n) as K. rewrite V, Q in K. unfold c. lra. }
  assert (NP : normsqR P = eta * eta * (1 - 2 * m * c + m * m * q)).
  { transitivity (eta * eta * (normsqR v + 2 * m * dotR v n + m * m * normsqR n)); [unfold P, perpR, normsqR, dotR, addR, scaleR; cbn [vx vy vz]; ring|].
    rewrite V, Q. unfold c. ring. }
  assert (DP : dotR P n = eta * (m * q - c)).
  { transitivity (eta * (dotR v n + m * normsqR n)); [unfold P, perpR, normsqR, dotR, addR, scaleR; cbn [vx vy vz]; ring|]. rewrite Q. unfold c. ring. }
  unfold bentR. fold P. set (s := sqrt (Rabs (1 - normsqR P))).
  assert (SS : s * s = Rabs (1 - normsqR P)) by (apply sqrt_sqrt, Rabs_pos). assert (S0 : 0 <= s) by apply sqrt_pos.
  replace (normsqR (addR P (scaleR (- s) n))) with (normsqR P - 2 * s * dotR P n + s * s * q)
    by (rewrite <- Q; unfold normsqR, dotR, addR, scaleR; cbn [vx vy vz]; ring).
  pose proof (normsqR_nonneg P) as P0. set (p := normsqR P) in *. rewrite DP.
  destruct M as [[Em Hc]|[Em Hc]]; rewrite Em in *.
  - (* unclamped *)
    assert (NP' : p = eta * eta * (1 - c * c) + eta * eta * (c * c) * (q - 1)) by (rewrite NP; ring).
    set (d := q - 1) in *. assert (Dd : - tol <= d <= tol) by (unfold d; lra).
    replace (c * q - c) with (c * d) by (unfold d; ring).
    assert (CC : 0 <= c * c <= 1) by nra. assert (EE : 0 <= eta * eta) by nra. assert (F1 : 0 <= eta * eta * (c * c) <= eta * eta) by (split; [apply Rmult_le_pos; lra|]; rewrite <- (Rmult_1_r (eta * eta)) at 2; apply Rmult_le_compat_l; lra).
    assert (F2 : (eta * d) * (eta * d) <= 1 / 128).
    { replace ((eta * d) * (eta * d)) with ((eta * eta) * (d * d)) by ring. assert (d * d <= tol * tol) by nra.
      apply Rle_trans with (eta * eta * (tol * tol)); [apply Rmult_le_compat_l; assumption|]. nra. }
    assert (F3 : Rabs (eta * d) <= 1 / 11).
    { apply Rsqr_incr_0_var; [|lra]. rewrite <- Rsqr_abs. unfold Rsqr. lra. }
    apply abs_le in F3.
    assert (CR : Rabs (s * (eta * (c * d))) <= s * (1 / 11)).
    { rewrite Rabs_mult, (Rabs_pos_eq s) by exact S0. apply Rmult_le_compat_l; [exact S0|]. apply Rabs_le. split; nra. }
    apply abs_le in CR.
    destruct (Rle_dec p 1) as [P1|P1].
    + rewrite Rabs_pos_eq in SS by lra. assert (s <= 1) by nra. replace (s * s * q) with (s * s + s * s * d) by (unfold d; ring). nra.
    + rewrite Rabs_left in SS by lra. assert (SB : s * s <= 1 / 16).
      { rewrite SS, NP'. assert (eta * eta * (c * c) * d <= 1 / 16); [|lra]. apply Rle_trans with (eta * eta * (c * c) * tol); [apply Rmult_le_compat_l; lra|]. apply Rle_trans with (eta * eta * tol); [apply Rmult_le_compat_r; lra|lra]. }
      assert (s <= 1 / 4) by nra. assert (0 <= s * s * q) by (apply Rmult_le_pos; nra). nra.
  - (* clamped *)
    assert (PS : p <= 1 / 16).
    { rewrite NP. assert (1 - 2 * 1 * c + 1 * 1 * q <= tol) by lra. assert (0 <= eta * eta) by nra. nra. }
    rewrite Rabs_pos_eq in SS by lra.
    pose proof (cauchy P n) as K. fold p in K. rewrite Q, DP in K.
    assert (G : 2 * s * (eta * (1 * q - c)) <= 2 * p + s * s * q / 2).
    { set (x := eta * (1 * q - c)) in *. apply Rsqr_incr_0_var; [|assert (0 <= s * s * q) by (apply Rmult_le_pos; nra); lra]. unfold Rsqr.
      assert (s * s * (x * x) <= s * s * (p * q)) by (apply Rmult_le_compat_l; nra).
      pose proof (Rle_0_sqr (2 * p - s * s * q / 2)) as Z. unfold Rsqr in Z. nra. }
    assert (s * s >= 15 / 16) by lra. assert (q >= 7 / 8) by lra. nra.
Qed.

Lemma dielectric_ok : forall tol ir u (r : ray R) (rec : hit_record xr), 0 <= tol <= 1 / 8 -> 0 < ir -> 16 * (ir * ir) * tol <= 1 -> 16 * tol <= ir * ir ->
  long (r_dir r) -> proper tol r rec ->
  exists out, dielectric_scatter (F:=X) (Fin ir) (Fin u) (finray r) rec = (fin3 (V3 1 1 1), out) /\ good_ray out.
Proof.
  intros tol ir u r rec T Hir I1 I2 D (p & n & Ep & En & N & Dn). pose proof (long_nonzero _ D) as D0.
  set (v := unitR (r_dir r)). set (eta := ratioR (h_front rec) ir).
  assert (V : normsqR v = 1) by (apply (unitR_unit _ D0)).
  assert (Dv : dotR v n <= 0).
  { unfold v. rewrite unitR_dot. pose proof (normR_pos _ D0) as P. apply Rinv_0_lt_compat in P. unfold Rdiv. nra. }
  assert (Heta : 0 < eta /\ 16 * (eta * eta) * tol <= 1).
  { unfold eta, ratioR. destruct (h_front rec); [|split; assumption].
    assert (0 < / ir) by (apply Rinv_0_lt_compat; exact Hir). unfold Rdiv. rewrite Rmult_1_l. split; [assumption|].
    apply Rmult_le_reg_r with (ir * ir); [nra|]. replace (16 * (/ ir * / ir) * tol * (ir * ir)) with (16 * tol) by (field; lra). lra. }
  destruct Heta as [E0 E1].
  set (c := Rmin (- dotR v n) 1).
  assert (C01 : 0 <= c <= 1) by (unfold c, Rmin; destruct (Rle_dec (- dotR v n) 1); lra).
  assert (Eq : dielectric_scatter (F:=X) (Fin ir) (Fin u) (finray r) rec =
    (fin3 (V3 1 1 1), Ray (fin3 p) (if Rltb 1 (eta * sqrt (1 - c * c)) || Rltb u (schlickR c eta) then fin3 (mirrorR n v)
       else refract (F:=X) (fin3 v) (fin3 n) (Fin eta)))).
  { unfold dielectric_scatter. cbn [r_dir finray]. rewrite normalize_fin by exact D0. fold (unitR (r_dir r)). fold v.
    change (@num X) with xr in *. rewrite En, Ep.
    assert (R : (if h_front rec then ndiv (NumOps:=X) (nofZ (NumOps:=X) 1) (Fin ir) else Fin ir) = Fin eta).
    { unfold eta, ratioR. destruct (h_front rec); [|reflexivity]. cbn [ndiv nofZ XR]. apply xdiv_fin. lra. }
    rewrite vneg_fin, dot_fin.
    match goal with |- context [if h_front rec then ?a else ?b] => change (if h_front rec then a else b) with (if h_front rec then ndiv (NumOps:=X) (nofZ (NumOps:=X) 1) (Fin ir) else Fin ir) end.
    change (@num X) with xr in *. rewrite R.
    assert (C : dotR (negR v) n = - dotR v n) by (unfold dotR, negR; cbn [vx vy vz]; ring).
    rewrite C.
    assert (M : c_fmin (F:=X) (Fin (- dotR v n)) (nofZ (NumOps:=X) 1) = Fin c).
    { unfold c_fmin. cbn [nisnan nltb XR nofZ xisnan xltb]. unfold c, Rmin. destruct (Rltb_spec 1 (- dotR v n)), (Rle_dec (- dotR v n) 1); try reflexivity; lra. }
    rewrite M. rewrite schlick_fin by lra. rewrite reflect_fin. fold (mirrorR n v).
    cbn [nsub nmul nsqrt nltb nofZ XR xmul xsub]. rewrite xsqrt_fin by nra. cbn [xmul xltb].
    destruct (Rltb 1 (eta * sqrt (1 - c * c)) || Rltb u (schlickR c eta)); reflexivity. }
  rewrite Eq. destruct (Rltb_spec 1 (eta * sqrt (1 - c * c))) as [H1|H1]; cbn [orb].
  - eexists. split; [reflexivity|]. exists (Ray p (mirrorR n v)). split; [reflexivity|]. apply mirror_long with tol; auto.
  - destruct (Rltb_spec u (schlickR c eta)) as [H2|H2].
    + eexists. split; [reflexivity|]. exists (Ray p (mirrorR n v)). split; [reflexivity|]. apply mirror_long with tol; auto.
    + rewrite refract_near. fold c. eexists. split; [reflexivity|]. exists (Ray p (bentR n v eta c)). split; [reflexivity|]. cbn [r_dir].
      apply bent_long with tol; auto. cbv zeta. fold c.
      pose proof (sqrt_pos (1 - c * c)) as Q0. assert (QQ : sqrt (1 - c * c) * sqrt (1 - c * c) = 1 - c * c) by (apply sqrt_sqrt; nra).
      rewrite <- QQ. assert (0 <= eta * sqrt (1 - c * c)) by nra. nra.
Qed.

(** *** All materials *)
Lemma good_drop : forall s : state (F:=X), good_state s -> good_state (drop_uniform s) /\ good_state (drop_normal s) /\ good_state (drop_junk s).
Proof. intros s (A & B & C). unfold good_state; cbn. repeat apply conj; try assumption; intros n; auto. Qed.

Lemma scatter_ok : forall tol (m : material_ptr (F:=X)) s (r : ray R) (rec : hit_record xr), 0 <= tol <= 1 / 8 ->
  sound tol (snd m) -> good_state s -> long (r_dir r) -> proper tol r rec ->
  exists k sc s', (forall fuel, (k <= fuel)%nat -> scatter (F:=X) fuel m s (finray r) rec = Ok (sc, s')) /\ good_state s' /\
    match sc with None => True | Some (att, out) => good_ray out /\ exists a, att = fin3 a /\ nonneg3 a end.
Proof.
  intros tol m s r rec T Sm G D P. destruct m as [j m]; cbn [snd] in Sm.
  assert (Tx : forall tex, good_texture tex -> exists a, tex rec = fin3 a /\ nonneg3 a).
  { intros tex H. destruct P as (p & n & Ep & _). exact (H rec p Ep). }
  destruct Sm as [tex Gt|tex Gt|ir em I0 I1 I2 Ge|em Ge|tex Gt]; unfold scatter; cbn [fst snd].
  - pose proof G as (Gw & Gu & Gn).
    destruct (lambertian_ok tol tex (st_pcg s j) r rec T (Gw j) P) as (k & out & g' & E & O & Wg).
    exists k. eexists _, _. split; [intros fuel Hf; rewrite (E fuel Hf); reflexivity|]. split; [|split; [exact O|exact (Tx tex Gt)]].
    split; [|split; assumption]. intros i. cbn [st_pcg set_pcg]. destruct (Nat.eqb i j); [exact Wg|apply Gw].
  - destruct (metal_ok tol tex r rec T D P) as (b & out & E & O). exists 0%nat. eexists _, _. split; [intros fuel _; rewrite E; reflexivity|].
    split; [exact G|]. destruct b; [|exact I]. split; [exact O|exact (Tx tex Gt)].
  - pose proof G as (Gw & Gu & Gn). destruct (Gu 0%nat) as (u & Eu).
    destruct (dielectric_ok tol ir u r rec T I0 I1 I2 D P) as (out & E & O). exists 0%nat. eexists _, _. split.
    { intros fuel _. change (@num X) with xr in *. rewrite Eu, E. reflexivity. }
    split; [apply good_drop; exact G|]. split; [exact O|]. exists (V3 1 1 1). split; [reflexivity|]. unfold nonneg3; cbn; lra.
  - exists 0%nat. eexists _, _. split; [intros; reflexivity|]. split; [exact G|exact I].
  - pose proof G as (Gw & Gu & Gn). destruct (Gn 0%nat) as (g & Eg & Hg).
    destruct (isotropic_unit (L:=L) tex g rec Hg) as (out & E & U & _). exists 0%nat. eexists _, _. split.
    { intros fuel _. change (@num X) with xr in *. rewrite Eg, E. reflexivity. }
    split; [apply good_drop; exact G|]. split; [|exact (Tx tex Gt)]. destruct P as (p & n & Ep & _).
    exists (Ray p out). split; [change (@num X) with xr in *; rewrite Ep; reflexivity|]. apply unit_long. exact U.
Qed.
End Scattering.

Section Hitting.
Context {L : limits}.
Notation X := (XR L).

(* a root found when the linear coefficient may have been dropped *)
Lemma first_root_near : forall (a b c : R) (lo hi : xr), l_min L < a ->
  first_quadratic_root_in_range (F:=X) (Fin a) (Fin b) (Fin c) lo hi = None \/
  exists t, first_quadratic_root_in_range (F:=X) (Fin a) (Fin b) (Fin c) lo hi = Some (Fin t) /\
    (quadR a b c t = 0 \/ Rabs b <= l_min L /\ a * (t * t) = - c).
Proof.
  intros a b c lo hi Ha. pose proof (l_min_pos L) as M0.
  destruct (Rle_dec (Rabs b) (l_min L)) as [B|B].
  - destruct (Req_dec b 0) as [->|B0].
    + destruct (first_root_correct L a 0 c lo hi) as [[E _]|(t & E & Z & _)].
      * right. rewrite Rabs_pos_eq; lra.
      * left. reflexivity.
      * intros [A _]. lra.
      * left. exact E.
      * right. exists t. split; [exact E|]. left. exact Z.
    + unfold first_quadratic_root_in_range, quadratic_roots. xred.
      rewrite (Rabs_pos_eq a) by lra. rewrite (Rleb_false a) by lra. rewrite (Rleb_true (Rabs b)) by exact B.
      rewrite xdiv_fin by lra. cbn [xltb]. destruct (Rltb_spec (- c / a) 0) as [N|N]; [left; reflexivity|].
      rewrite xsqrt_fin by exact N. cbn [xneg].
      assert (Q : sqrt (- c / a) * sqrt (- c / a) = - c / a) by (apply sqrt_sqrt; exact N).
      assert (Q1 : a * (sqrt (- c / a) * sqrt (- c / a)) = - c) by (rewrite Q; field; lra).
      match goal with |- context [if ?x then _ else _] => destruct x end.
      * right. eexists. split; [reflexivity|]. right. split; [exact B|]. rewrite <- Q1 at 3. ring.
      * match goal with |- context [if ?x then _ else _] => destruct x end; [|left; reflexivity].
        right. eexists. split; [reflexivity|]. right. split; [exact B|]. exact Q1.
  - destruct (first_root_correct L a b c lo hi) as [[E _]|(t & E & Z & _)].
    + right. rewrite Rabs_pos_eq; lra.
    + right. lra.
    + intros [A _]. lra.
    + left. exact E.
    + right. exists t. split; [exact E|]. left. exact Z.
Qed.

Lemma face_near : forall tol (r : ray R) (w : vec3 R) (rec : hit_record xr), near_unit tol w ->
  exists n, h_normal (set_face_normal (F:=X) (finray r) (fin3 w) rec) = fin3 n /\ near_unit tol n /\ dotR (r_dir r) n <= 0.
Proof.
  intros tol r w rec N. unfold set_face_normal. cbn [finray r_dir h_normal set_normal]. rewrite dot_fin. cbn [nltb XR nofZ xltb].
  destruct (Rltb_spec (dotR (r_dir r) w) 0) as [H|H].
  - exists w. split; [reflexivity|]. split; [exact N|lra].
  - exists (negR w). split; [apply vneg_fin|]. split.
    + unfold near_unit in *. replace (normsqR (negR w)) with (normsqR w); [exact N|]. unfold normsqR, dotR, negR; cbn [vx vy vz]; ring.
    + unfold dotR, negR in *; cbn [vx vy vz]. lra.
Qed.

Definition sees (tol : R) (o : hittable (F:=X)) : Prop :=
  forall (r : ray R) (lo hi : xr) (rec : hit_record xr), long (r_dir r) -> lo <> NaN -> hi <> NaN ->
  exists b rec', hit o (finray r) lo hi rec = Ok (b, rec') /\
    (b = true -> h_t rec' = NaN \/ (exists t, h_t rec' = Fin t) /\ proper tol r rec').
(* without NaN *)
Definition finds (tol : R) (o : hittable (F:=X)) : Prop :=
  forall (r : ray R) (lo hi : xr) (rec : hit_record xr), long (r_dir r) -> lo <> NaN -> hi <> NaN ->
  exists b rec', hit o (finray r) lo hi rec = Ok (b, rec') /\ (b = true -> (exists t, h_t rec' = Fin t) /\ proper tol r rec').
Lemma finds_sees : forall tol o, finds tol o -> sees tol o.
Proof. intros tol o H r lo hi rec D Hl Hh. destruct (H r lo hi rec D Hl Hh) as (b & rec' & E & P). exists b, rec'. split; [exact E|]. intros B. right. exact (P B). Qed.

Lemma square_bound : forall x y, 0 <= y -> x * x <= y * y -> Rabs x <= y.
Proof. intros x y Y H. apply Rsqr_incr_0_var; [|exact Y]. rewrite <- Rsqr_abs. exact H. Qed.

Lemma sphere_finds : forall tol s, l_min L < 1 / 4 -> 0 < s_radius s -> 2 * l_min L <= tol * s_radius s -> finds tol (of_sphere (F:=X) (finsphere s)).
Proof.
  intros tol s M Rp T r lo hi rec D _ _. cbn [hit of_sphere]. unfold sphere_hit.
  change (r_orig (finray r)) with (fin3 (r_orig r)). change (r_dir (finray r)) with (fin3 (r_dir r)).
  change (s_center (finsphere s)) with (fin3 (s_center s)). change (s_radius (finsphere s)) with (Fin (s_radius s)).
  rewrite vsub_fin, !squared_norm_fin, dot_fin. xred.
  pose proof (l_min_pos L) as M0. unfold long in D.
  set (oc := subR (r_orig r) (s_center s)). set (rho := s_radius s) in *.
  destruct (first_root_near (normsqR (r_dir r)) (2 * dotR oc (r_dir r)) (normsqR oc - rho * rho) lo hi) as [E|(t & E & Z)]; [lra| |]; rewrite E.
  - eexists _, _. split; [reflexivity|discriminate].
  - cbn [h_t h_p set_t set_p].
    assert (Ep : ray_at (F:=X) (finray r) (Fin t) = fin3 (pointR r t)) by reflexivity.
    rewrite Ep, vsub_fin, vdiv_fin by lra.
    set (w := scaleR (/ rho) (subR (pointR r t) (s_center s))).
    assert (NW : near_unit tol w).
    { assert (NS : normsqR w = (normsqR oc + 2 * dotR oc (r_dir r) * t + normsqR (r_dir r) * (t * t)) / (rho * rho)).
      { unfold w. rewrite normsqR_scale. replace (normsqR (subR (pointR r t) (s_center s))) with (normsqR oc + 2 * dotR oc (r_dir r) * t + normsqR (r_dir r) * (t * t))
          by (unfold oc, pointR, lineR, normsqR, dotR, subR, addR, scaleR; cbn [vx vy vz]; ring). field. lra. }
      unfold near_unit. rewrite NS. unfold quadR in Z. destruct Z as [Z|[Zb Z]].
      - replace (normsqR oc + 2 * dotR oc (r_dir r) * t + normsqR (r_dir r) * (t * t)) with (rho * rho) by nra.
        replace (rho * rho / (rho * rho) - 1) with 0 by (field; lra). rewrite Rabs_R0.
        apply Rmult_le_reg_r with rho; [exact Rp|]. lra.
      - set (b := 2 * dotR oc (r_dir r)) in *. rewrite Z.
        replace ((normsqR oc + b * t + - (normsqR oc - rho * rho)) / (rho * rho) - 1) with (b * t / (rho * rho)) by (field; lra).
        assert (TB : Rabs t <= 2 * rho). { apply square_bound; [lra|]. pose proof (normsqR_nonneg oc). assert (0 <= t * t) by nra. nra. }
        unfold Rdiv. rewrite !Rabs_mult. rewrite (Rabs_pos_eq (/ (rho * rho))) by (left; apply Rinv_0_lt_compat; nra).
        apply Rmult_le_reg_r with (rho * rho); [nra|]. rewrite Rmult_assoc, Rinv_l, Rmult_1_r by nra.
        apply Rle_trans with (l_min L * (2 * rho)); [apply Rmult_le_compat; auto using Rabs_pos|nra]. }
    destruct (face_near tol r w (set_p (fin3 (pointR r t)) (set_t (Fin t) rec)) NW) as (n & En & Nn & Dn).
    match goal with |- context [sphere_uv ?a ?b] => destruct (sphere_uv (F:=X) a b) as [u v] end.
    eexists _, _. split; [reflexivity|]. intros _. split; [exists t; reflexivity|].
    exists (pointR r t), n. split; [reflexivity|]. split; [exact En|]. split; assumption.
Qed.

Lemma ellipsoid_finds : forall tol s B, 0 <= tol -> 0 < vx (el_scales s) <= B -> 0 < vy (el_scales s) <= B -> 0 < vz (el_scales s) <= B ->
  8 * l_min L * (B * B) <= 1 -> 2 * l_min L * B < 1 -> finds tol (of_ellipsoid (F:=X) (finellipsoid s)).
Proof.
  intros tol s B T Sx Sy Sz B1 B2 r lo hi rec D _ _. cbn [hit of_ellipsoid]. unfold ellipsoid_hit.
  change (r_orig (finray r)) with (fin3 (r_orig r)). change (r_dir (finray r)) with (fin3 (r_dir r)).
  change (el_center (finellipsoid s)) with (fin3 (el_center s)). change (el_scales (finellipsoid s)) with (fin3 (el_scales s)).
  rewrite vsub_fin. pose proof (l_min_pos L) as M0.
  assert (U : forall w, V3 (ndiv (NumOps:=X) (vx (fin3 w)) (vx (fin3 (el_scales s)))) (ndiv (NumOps:=X) (vy (fin3 w)) (vy (fin3 (el_scales s))))
     (ndiv (NumOps:=X) (vz (fin3 w)) (vz (fin3 (el_scales s)))) = fin3 (unscaled s w)).
  { intros w. unfold fin3, map3, unscaled; cbn [vx vy vz]. change (ndiv (NumOps:=X)) with xdiv. rewrite !xdiv_fin by lra. reflexivity. }
  rewrite !U, !squared_norm_fin, dot_fin. xred.
  set (oc := unscaled s (subR (r_orig r) (el_center s))). set (sd := unscaled s (r_dir r)).
  assert (A : 1 / 4 <= normsqR sd * (B * B)).
  { unfold long in D. apply Rle_trans with (normsqR (r_dir r)); [exact D|].
    assert (K : forall x a, 0 < a <= B -> x * x <= (x / a) * (x / a) * (B * B)).
    { intros x a Ha. set (y := x / a). replace x with (y * a) by (unfold y; field; lra). 
      replace (y * a * (y * a)) with (y * y * (a * a)) by ring. apply Rmult_le_compat_l; nra. }
    unfold sd, unscaled, normsqR, dotR; cbn [vx vy vz].
    pose proof (K (vx (r_dir r)) _ Sx). pose proof (K (vy (r_dir r)) _ Sy). pose proof (K (vz (r_dir r)) _ Sz). nra. }
  assert (BB : 0 < B * B) by nra.
  assert (Am : l_min L < normsqR sd). { apply Rmult_lt_reg_r with (B * B); [exact BB|]. nra. }
  destruct (first_root_near (normsqR sd) (2 * dotR oc sd) (normsqR oc - 1) lo hi Am) as [E|(t & E & Z)]; rewrite E.
  - eexists _, _. split; [reflexivity|discriminate].
  - cbn [h_t h_p set_t set_p].
    assert (Ep : ray_at (F:=X) (finray r) (Fin t) = fin3 (pointR r t)) by reflexivity.
    rewrite Ep, vsub_fin.
    assert (Eg : V3 (xmul (vx (fin3 (subR (pointR r t) (el_center s)))) (xdiv (Fin 2) (xmul (vx (fin3 (el_scales s))) (vx (fin3 (el_scales s))))))
                    (xmul (vy (fin3 (subR (pointR r t) (el_center s)))) (xdiv (Fin 2) (xmul (vy (fin3 (el_scales s))) (vy (fin3 (el_scales s))))))
                    (xmul (vz (fin3 (subR (pointR r t) (el_center s)))) (xdiv (Fin 2) (xmul (vz (fin3 (el_scales s))) (vz (fin3 (el_scales s))))))
                 = fin3 (ellipsoid_gradR s (pointR r t))).
    { unfold fin3, map3, ellipsoid_gradR, subR; cbn [vx vy vz xmul]. rewrite !xdiv_fin by nra. cbn [xmul].
      apply V3x_ext; f_equal; field; lra. }
    rewrite Eg, norm_fin.
    assert (Uo : 0 < normsqR (unscaled s (subR (pointR r t) (el_center s)))).
    { replace (normsqR (unscaled s (subR (pointR r t) (el_center s)))) with (normsqR oc + 2 * dotR oc sd * t + normsqR sd * (t * t)).
      2:{ assert (G : unscaled s (subR (pointR r t) (el_center s)) = addR oc (scaleR t sd)).
          { unfold oc, sd, unscaled, pointR, lineR, subR, addR, scaleR; cbn [vx vy vz]. apply V3_ext; field; lra. }
          rewrite G. unfold normsqR, dotR, addR, scaleR; cbn [vx vy vz]. ring. }
      unfold quadR in Z. destruct Z as [Z|[Zb Z]]; [nra|]. rewrite Z.
      assert (TB : Rabs t <= 2 * B). { apply square_bound; [lra|]. pose proof (normsqR_nonneg oc). assert (0 <= t * t) by nra. nra. }
      assert (Rabs (2 * dotR oc sd * t) <= l_min L * (2 * B)) by (rewrite Rabs_mult; apply Rmult_le_compat; auto using Rabs_pos).
      match goal with H : Rabs ?x <= l_min L * (2 * B) |- _ => apply abs_le in H end. lra. }
    assert (Gz : ellipsoid_gradR s (pointR r t) <> zeroR).
    { clear - Uo Sx Sy Sz. set (pt := pointR r t) in *. clearbody pt. intros E0. unfold ellipsoid_gradR, zeroR in E0. injection E0 as E1 E2 E3.
      assert (Zx : forall x a, 0 < a -> 2 * x / a ^ 2 = 0 -> x = 0).
      { intros x a Pa H. replace x with (2 * x / a ^ 2 * (a ^ 2 / 2)) by (field; lra). rewrite H; ring. }
      unfold unscaled, normsqR, dotR, subR in Uo; cbn [vx vy vz] in Uo.
      rewrite (Zx _ _ (proj1 Sx) E1), (Zx _ _ (proj1 Sy) E2), (Zx _ _ (proj1 Sz) E3) in Uo. unfold Rdiv in Uo. lra. }
    pose proof (normR_pos _ Gz) as Gp. cbn [h_grad set_grad]. rewrite vdiv_fin by lra.
    match goal with |- context [ellipsoid_uv ?a ?b] => destruct (ellipsoid_uv (F:=X) a b) as [u v] end.
    set (w := scaleR (/ normR (ellipsoid_gradR s (pointR r t))) (ellipsoid_gradR s (pointR r t))).
    assert (NW : near_unit tol w).
    { unfold near_unit. rewrite (unit_normsq w) by (apply normR_normalized; exact Gz). rewrite Rminus_eq_0, Rabs_R0. exact T. }
    eexists _, _. split; [reflexivity|]. intros _. split; [exists t; reflexivity|].
    match goal with |- proper _ _ (set_face_normal _ _ ?q) => destruct (face_near tol r w q NW) as (n & En & Nn & Dn) end.
    exists (pointR r t), n. split; [reflexivity|]. split; [exact En|]. split; assumption.
Qed.

Lemma facing_proper : forall tol r t w rec, 0 <= tol -> at_point r t rec -> facing_normal r w rec -> proper tol r rec.
Proof.
  intros tol r t w rec T [Et Ep] (n & En & Nn & Dn & _). exists (pointR r t), n. split; [exact Ep|]. split; [exact En|]. split.
  - unfold near_unit. rewrite (unit_normsq n Nn), Rminus_eq_0, Rabs_R0. exact T.
  - replace (dotR (r_dir r) n) with (dotR n (r_dir r)) by (unfold dotR; ring). exact Dn.
Qed.

Lemma disk_sees : forall tol radius c n k, 0 <= tol -> l_min L < 1 -> 0 < radius -> normR n = 1 ->
  make_disk (F:=X) (Fin radius) (fin3 c) (fin3 n) = Ok k -> sees tol (of_disk (F:=X) k).
Proof.
  intros tol radius c n k T M Rp Nn Ek r lo hi rec D Hlo Hhi.
  destruct (make_disk_ok (L:=L) radius c n Nn M) as (e1 & e2 & Fr & Ek'). change (@num X) with xr in *. rewrite Ek in Ek'. injection Ek' as ->.
  destruct (disk_contract (L:=L) radius c e1 e2 n r Rp Fr) as [C _]. cbv zeta in C.
  destruct (C lo hi rec Hlo Hhi) as (b & rec' & E & H). exists b, rec'. split; [exact E|]. intros ->.
  destruct H as (t & Et & _ & _ & _ & Ap & Fn & _). right. split; [exists t; exact Et|]. eapply facing_proper; eauto.
Qed.

Lemma rect_sees : forall tol (o : hittable (F:=X)) (r : ray R) (lo hi : xr) (rec : hit_record xr) meets n sigma,
  0 <= tol -> lo <> NaN -> hi <> NaN -> hit_contract (L:=L) r o meets (describes_rect n sigma r) ->
  exists b rec', hit o (finray r) lo hi rec = Ok (b, rec') /\ (b = true -> h_t rec' = NaN \/ (exists t, h_t rec' = Fin t) /\ proper tol r rec').
Proof.
  intros tol o r lo hi rec meets n sigma T Hlo Hhi C. destruct (C lo hi rec Hlo Hhi) as (b & rec' & E & H). exists b, rec'. split; [exact E|]. intros ->.
  destruct H as (t & Et & _ & _ & _ & Ap & Fn & _). right. split; [exists t; exact Et|]. eapply facing_proper; eauto.
Qed.

(* in its own plane *)
Lemma rect_in_plane : forall n (q : rect R) o1 o2 o3 d1 d2 d3 (r : ray xr) (lo hi : xr) (rec : hit_record xr), d3 = 0 -> o3 = q_k q ->
  exists rec', rect_hit (F:=X) n (finrect q) (Fin o1) (Fin o2) (Fin o3) d1 d2 (Fin d3) r lo hi rec = Ok (true, rec') /\ h_t rec' = NaN.
Proof.
  intros n q o1 o2 o3 d1 d2 d3 r lo hi rec -> ->. unfold rect_hit, finrect; cbn [q_a0 q_a1 q_b0 q_b1 q_k].
  xred. replace (q_k q - q_k q) with 0 by ring. rewrite xdiv_zero_zero.
  assert (E : xltb hi NaN = false) by (destruct hi; reflexivity).
  xred. rewrite E. cbn [orb]. eexists; split; [reflexivity|]. reflexivity.
Qed.

Lemma solid_sees : forall tol o, 0 <= tol -> l_min L < 1 / 4 -> solid tol o -> sees tol o.
Proof.
  intros tol o T M S. destruct S as [s Rp Tr|s B Sx Sy Sz B1 B2|radius c n k Rp Nn Ek|q Ha Hb|q Ha Hb|q Ha Hb].
  - apply finds_sees, sphere_finds; assumption.
  - apply finds_sees, ellipsoid_finds with B; assumption.
  - apply disk_sees with radius c n; auto. lra.
  - intros r lo hi rec D Hlo Hhi. pose proof (long_nonzero _ D) as D0.
    destruct (Req_dec (vz (r_dir r)) 0) as [E1|E1]; [destruct (Req_dec (vz (r_orig r)) (q_k q)) as [E2|E2]|].
    + destruct (rect_in_plane (V3 (Fin 0) (Fin 0) (Fin 1)) q (vx (r_orig r)) (vy (r_orig r)) _ (Fin (vx (r_dir r))) (Fin (vy (r_dir r))) _ (finray r) lo hi rec E1 E2) as (rec' & E & N).
      exists true, rec'. split; [exact E|auto].
    + eapply rect_sees; eauto. eapply xy_contract; tauto.
    + eapply rect_sees; eauto. eapply xy_contract; tauto.
  - intros r lo hi rec D Hlo Hhi. pose proof (long_nonzero _ D) as D0.
    destruct (Req_dec (vy (r_dir r)) 0) as [E1|E1]; [destruct (Req_dec (vy (r_orig r)) (q_k q)) as [E2|E2]|].
    + destruct (rect_in_plane (V3 (Fin 0) (Fin 1) (Fin 0)) q (vx (r_orig r)) (vz (r_orig r)) _ (Fin (vx (r_dir r))) (Fin (vz (r_dir r))) _ (finray r) lo hi rec E1 E2) as (rec' & E & N).
      exists true, rec'. split; [exact E|auto].
    + eapply rect_sees; eauto. eapply xz_contract; tauto.
    + eapply rect_sees; eauto. eapply xz_contract; tauto.
  - intros r lo hi rec D Hlo Hhi. pose proof (long_nonzero _ D) as D0.
    destruct (Req_dec (vx (r_dir r)) 0) as [E1|E1]; [destruct (Req_dec (vx (r_orig r)) (q_k q)) as [E2|E2]|].
    + destruct (rect_in_plane (V3 (Fin 1) (Fin 0) (Fin 0)) q (vy (r_orig r)) (vz (r_orig r)) _ (Fin (vy (r_dir r))) (Fin (vz (r_dir r))) _ (finray r) lo hi rec E1 E2) as (rec' & E & N).
      exists true, rec'. split; [exact E|auto].
    + eapply rect_sees; eauto. eapply yz_contract; tauto.
    + eapply rect_sees; eauto. eapply yz_contract; tauto.
Qed.

Lemma loop_sees : forall tol (r : ray R) (lo : xr), long (r_dir r) -> lo <> NaN -> forall objs i temp (closest : xr) rec idx,
  Forall (sees tol) objs -> closest <> NaN -> (forall k, idx = Some k -> (k < i)%nat /\ proper tol r rec) ->
  exists idx' rec', list_loop (F:=X) (finray r) lo i objs temp closest rec idx = Ok (idx', rec') /\
    forall k, idx' = Some k -> (k < i + length objs)%nat /\ proper tol r rec'.
Proof.
  intros tol r lo D Hlo. induction objs as [|o objs IH]; intros i temp closest rec idx F C I; cbn [list_loop length].
  - exists idx, rec. split; [reflexivity|]. intros k E. destruct (I k E). split; [lia|assumption].
  - inversion F as [|? ? So Fs]; subst. destruct (So r lo closest temp D Hlo C) as (b & temp' & E & P).
    change (@num X) with xr in *. rewrite E. cbn [obind].
    assert (I' : forall k, idx = Some k -> (k < S i)%nat /\ proper tol r rec) by (intros k Ek; destruct (I k Ek); split; [lia|assumption]).
    destruct b.
    + destruct (P eq_refl) as [N|[[t Et] Pr]].
      * rewrite N. replace (nltb (NumOps:=X) NaN closest) with false by (destruct closest; reflexivity).
        destruct (IH (S i) temp' closest rec idx Fs C I') as (idx' & rec' & E' & K). exists idx', rec'. split; [exact E'|].
        intros k Ek. destruct (K k Ek). split; [lia|assumption].
      * destruct (nltb (NumOps:=X) (h_t temp') closest).
        -- destruct (IH (S i) temp' (h_t temp') temp' (Some i) Fs) as (idx' & rec' & E' & K).
           { rewrite Et. discriminate. }
           { intros k Ek. injection Ek as <-. split; [lia|exact Pr]. }
           exists idx', rec'. split; [exact E'|]. intros k Ek. destruct (K k Ek). split; [lia|assumption].
        -- destruct (IH (S i) temp' closest rec idx Fs C I') as (idx' & rec' & E' & K). exists idx', rec'. split; [exact E'|].
           intros k Ek. destruct (K k Ek). split; [lia|assumption].
    + destruct (IH (S i) temp' closest rec idx Fs C I') as (idx' & rec' & E' & K). exists idx', rec'. split; [exact E'|].
      intros k Ek. destruct (K k Ek). split; [lia|assumption].
Qed.

Definition good_items (tol : R) (items : list (hittable (F:=X) * material_ptr (F:=X))) : Prop :=
  Forall (fun i => solid tol (fst i) /\ sound tol (snd (snd i))) items.

Lemma world_ok : forall tol items (s : state (F:=X)) (r : ray R) (lo hi : xr), 0 <= tol -> l_min L < 1 / 4 -> good_items tol items ->
  good_state s -> long (r_dir r) -> lo <> NaN -> hi <> NaN ->
  exists m rec s', world_hit (F:=X) (scene_of items) s (finray r) lo hi = Ok (m, rec, s') /\ good_state s' /\
    match m with None => True | Some m => sound tol (snd m) /\ proper tol r rec end.
Proof.
  intros tol items s r lo hi T M G Gs D Hlo Hhi. unfold world_hit. destruct (st_junk s 0%nat) as [temp0 rec0]. unfold list_hit.
  rewrite scene_objects, scene_materials.
  destruct (loop_sees tol r lo D Hlo (map fst items) 0 temp0 hi rec0 None) as (idx & rec & E & K).
  { apply Forall_map. eapply Forall_impl; [|exact G]. intros [o m] [So _]. apply solid_sees; assumption. }
  { exact Hhi. }
  { discriminate. }
  change (@num X) with xr in *. rewrite E. cbn [obind].
  destruct idx as [k|].
  - destruct (K k eq_refl) as [Kl Pr]. rewrite map_length in Kl. cbn [Nat.add] in Kl.
    destruct (nth_error (map snd items) k) as [m|] eqn:N; [|apply nth_error_None in N; rewrite map_length in N; lia].
    cbn [obind]. exists (Some m), rec, (drop_junk s). split; [reflexivity|]. split; [apply good_drop; exact Gs|]. split; [|exact Pr].
    apply nth_error_In in N. apply in_map_iff in N. destruct N as (it & <- & Hin). unfold good_items in G. rewrite Forall_forall in G. apply (G it Hin).
  - cbn [obind]. exists None, rec, (drop_junk s). split; [reflexivity|]. split; [apply good_drop; exact Gs|exact I].
Qed.

Lemma emitted_ok : forall tol (m : material_ptr (F:=X)) r rec, sound tol (snd m) -> proper tol r rec ->
  exists e, emitted (F:=X) m rec = fin3 e /\ nonneg3 e.
Proof.
  intros tol [j m] r rec S (p & n & Ep & _). cbn [snd] in S.
  assert (Z : exists e, V3 (nofZ (NumOps:=X) 0) (nofZ (NumOps:=X) 0) (nofZ (NumOps:=X) 0) = fin3 e /\ nonneg3 e)
    by (exists (V3 0 0 0); split; [reflexivity|]; unfold nonneg3; cbn; lra).
  destruct S as [tex Gt|tex Gt|ir em I0 I1 I2 Ge|em Ge|tex Gt]; unfold emitted; cbn [snd]; try exact Z.
  - exact (Ge rec p Ep).
  - exact (Ge rec p Ep).
Qed.

Lemma colour_ok : forall tol items (bg : vec3 R), 0 <= tol <= 1 / 8 -> l_min L < 1 / 4 -> good_items tol items -> nonneg3 bg ->
  forall depth s (r : ray R), good_state s -> long (r_dir r) ->
  exists k c s', (forall fuel, (k <= fuel)%nat ->
      ray_color (F:=X) (world_hit (F:=X) (scene_of items)) (scatter (F:=X) fuel) (emitted (F:=X)) depth s (finray r) (fin3 bg) = Ok (fin3 c, s')) /\
    nonneg3 c /\ good_state s'.
Proof.
  intros tol items bg T M G B. induction depth as [|depth IH]; intros s r Gs D; cbn [ray_color].
  - exists 0%nat, (V3 0 0 0), s. split; [reflexivity|]. split; [unfold nonneg3; cbn; lra|exact Gs].
  - destruct (world_ok tol items s r (nmul (NumOps:=X) (nofZ (NumOps:=X) 1000) (neps (NumOps:=X))) (ninf (NumOps:=X)) (proj1 T) M G Gs D) as (m & rec & s1 & E & G1 & P); [discriminate|discriminate|].
    change (@num X) with xr in *. destruct m as [m|].
    + destruct P as [Sm Pr]. destruct (scatter_ok tol m s1 r rec T Sm G1 D Pr) as (k1 & sc & s2 & Es & G2 & O).
      destruct (emitted_ok tol m r rec Sm Pr) as (e & Ee & Ne).
      destruct sc as [[att out]|].
      * destruct O as [(r' & -> & Lr) (a & -> & Na)]. destruct (IH s2 r' G2 Lr) as (k2 & c & s3 & Ec & Nc & G3).
        exists (Nat.max k1 k2), (addR e (hadamardR c a)), s3. split; [|split; [|exact G3]].
        -- intros fuel Hf. change (@num X) with xr in *. rewrite E. cbn [obind]. rewrite (Es fuel) by lia. cbn [obind].
           rewrite (Ec fuel) by lia. cbn [obind]. rewrite hadamard_fin. change (@num X) with xr in *. rewrite Ee, vadd_fin. reflexivity.
        -- unfold nonneg3, addR, hadamardR in *; cbn [vx vy vz]. destruct Ne as (? & ? & ?), Nc as (? & ? & ?), Na as (? & ? & ?).
           repeat split; apply Rplus_le_le_0_compat; auto; apply Rmult_le_pos; auto.
      * exists k1, e, s2. split; [|split; assumption]. intros fuel Hf. change (@num X) with xr in *. rewrite E. cbn [obind]. rewrite (Es fuel) by lia. cbn [obind]. rewrite Ee. reflexivity.
    + exists 0%nat, bg, s1. split; [|split; assumption]. intros fuel _. rewrite E. reflexivity.
Qed.
End Hitting.
