(** Ellipsoid (C20, C27, C28, C31, C34). *)
From Coq Require Import Reals Lra ZArith List Bool.
From Verif Require Import Num XR Spec M_Vec M_Roots M_Hittable M_Shapes Spec_Scene Spec_Shapes
  P_Vec P_Quadratic P_Angle P_Deriv P_Sphere.
Import ListNotations.
Local Open Scope R_scope.

Section L.
Context {L : limits}.
Variable s : ellipsoid R.
Hypothesis Hs : positive3 (el_scales s).

Lemma ellipsoid_quad : forall (r : ray R) t,
  quadR (normsqR (unscaled s (r_dir r)))
        (2 * dotR (unscaled s (subR (r_orig r) (el_center s))) (unscaled s (r_dir r)))
        (normsqR (unscaled s (subR (r_orig r) (el_center s))) - 1) t = 0 <->
  on_ellipsoid s (pointR r t).
Proof.
  intros r t. destruct Hs as [Ha [Hb Hc]].
  unfold on_ellipsoid, quadR, pointR, lineR, unscaled, normsqR, dotR, addR, subR, scaleR; cbn [vx vy vz].
  assert (E : forall o c d a, 0 < a -> ((o + t * d - c) / a) ^ 2 = ((o - c) / a + t * (d / a)) ^ 2) by (intros; field; lra).
  rewrite !E by auto. split; intros; nra.
Qed.

Lemma ellipsoid_grad_nonzero : forall p, on_ellipsoid s p -> ellipsoid_gradR s p <> zeroR.
Proof.
  intros p On E. destruct Hs as [Ha [Hb Hc]]. unfold ellipsoid_gradR, zeroR in E. injection E as E1 E2 E3.
  unfold on_ellipsoid in On.
  assert (Z : forall x a, 0 < a -> 2 * x / a ^ 2 = 0 -> x = 0).
  { intros x a Pa H. replace x with (2 * x / a ^ 2 * (a ^ 2 / 2)) by (field; lra). rewrite H; ring. }
  rewrite (Z _ _ Ha E1), (Z _ _ Hb E2), (Z _ _ Hc E3) in On. unfold Rdiv in On. lra.
Qed.

Lemma ellipsoid_sigma_on : forall u v, on_ellipsoid s (ellipsoid_sigma s u v).
Proof.
  intros u v. destruct Hs as [Ha [Hb Hc]]. unfold on_ellipsoid, ellipsoid_sigma, addR; cbn [vx vy vz].
  assert (E : forall c a x, 0 < a -> (c + a * x - c) / a = x) by (intros; field; lra).
  rewrite !E by auto.
  pose proof (sc2 (2 * PI * u)) as A. pose proof (sc2 (PI * v)) as B.
  set (su := sin (2 * PI * u)) in *. set (cu := cos (2 * PI * u)) in *.
  set (sv := sin (PI * v)) in *. set (cv := cos (PI * v)) in *.
  transitivity (sv * sv * (cu * cu + su * su) + cv * cv); [ring|]. rewrite A, B. ring.
Qed.

(** C28 *)
Lemma ellipsoid_uv_spec : forall p, on_ellipsoid s p ->
  exists u v, ellipsoid_uv (F:=XR L) (finellipsoid s) (fin3 p) = (Fin u, Fin v) /\ 0 <= u <= 1 /\ 0 <= v <= 1 /\
    ellipsoid_sigma s u v = p.
Proof.
  intros p Hp. destruct Hs as [Ha [Hb Hc]]. unfold on_ellipsoid in Hp.
  destruct s as [[cx cy cz] [a b c]]. destruct p as [px py pz]. cbn in *.
  unfold ellipsoid_uv, finellipsoid, fin3, map3; cbn [el_center el_scales vx vy vz].
  xred. rewrite !xdiv_fin by lra.
  set (x := (px - cx) / a) in *. set (y := (py - cy) / b) in *. set (z := (pz - cz) / c) in *.
  destruct (colatitude_spec (L:=L) z) as [v [Ev [Hv [Cv [Sv Pv]]]]]; [split; nra|].
  destruct (azimuth_spec (L:=L) y x) as [u [Eu [Hu [Cu Su]]]].
  rewrite Ev, Eu. exists u, v. split; auto. split; [lra|]. split; [lra|].
  unfold ellipsoid_sigma, addR; cbn [vx vy vz el_center el_scales].
  replace (1 - z * z) with (x * x + y * y) in Sv by lra.
  rewrite Sv, Cv, (Rmult_comm (cos _)), (Rmult_comm (sin _)), Cu, Su.
  unfold x, y, z. apply V3_ext; field; lra.
Qed.

Definition ell_denom (u v : R) : R :=
  let a := vx (el_scales s) in let b := vy (el_scales s) in let c := vz (el_scales s) in
  a * a * b * b * cos (PI * v) * cos (PI * v) +
  c * c * (b * b * cos (2 * PI * u) * cos (2 * PI * u) + a * a * sin (2 * PI * u) * sin (2 * PI * u)) * sin (PI * v) * sin (PI * v).

Lemma ell_denom_grad : forall u v,
  let a := vx (el_scales s) in let b := vy (el_scales s) in let c := vz (el_scales s) in
  0 < sqrt (ell_denom u v) /\
  normR (ellipsoid_gradR s (ellipsoid_sigma s u v)) = 2 * sqrt (ell_denom u v) / (a * b * c).
Proof.
  intros u v a b c. destruct Hs as [Ha [Hb Hc]]. fold a in Ha; fold b in Hb; fold c in Hc.
  assert (P : 0 < a * b * c) by (apply Rmult_lt_0_compat; [apply Rmult_lt_0_compat|]; auto).
  set (g := ellipsoid_gradR s (ellipsoid_sigma s u v)).
  assert (Eg : g = V3 (2 * (cos (2 * PI * u) * sin (PI * v)) / a) (2 * (sin (2 * PI * u) * sin (PI * v)) / b) (2 * cos (PI * v) / c)).
  { unfold g, ellipsoid_gradR, ellipsoid_sigma, addR; cbn [vx vy vz]. fold a b c. apply V3_ext; field; lra. }
  assert (N : normsqR g = 4 * ell_denom u v / (a * b * c) ^ 2).
  { rewrite Eg. unfold normsqR, dotR, ell_denom; cbn [vx vy vz]. fold a b c. field. lra. }
  assert (Gp : 0 < normsqR g) by (apply normsqR_pos, ellipsoid_grad_nonzero, ellipsoid_sigma_on).
  assert (D : 0 < ell_denom u v).
  { replace (ell_denom u v) with (normsqR g * ((a * b * c) * (a * b * c)) / 4)
      by (rewrite N; field; lra).
    apply Rmult_lt_0_compat; [apply Rmult_lt_0_compat; [auto|apply Rmult_lt_0_compat; auto]|lra]. }
  split; [apply sqrt_lt_R0; auto|].
  unfold normR. rewrite N.
  replace (4 * ell_denom u v / (a * b * c) ^ 2) with ((2 * sqrt (ell_denom u v) / (a * b * c)) * (2 * sqrt (ell_denom u v) / (a * b * c))).
  - apply sqrt_square. apply Rmult_le_pos; [apply Rmult_le_pos; [lra|apply sqrt_pos]|left; apply Rinv_0_lt_compat; auto].
  - replace (ell_denom u v) with (sqrt (ell_denom u v) * sqrt (ell_denom u v)) at 3 by (apply sqrt_sqrt; lra).
    field. lra.
Qed.

Lemma ellipsoid_forms_spec : forall u v,
  let a := vx (el_scales s) in let b := vy (el_scales s) in let c := vz (el_scales s) in
  let spv := sin (PI * v) in let cpv := cos (PI * v) in
  let stpu := sin (2 * PI * u) in let ctpu := cos (2 * PI * u) in
  first_form (ellipsoid_sigma s) u v
    (4 * PI * PI * spv * spv * (a * a * stpu * stpu + b * b * ctpu * ctpu))
    (2 * PI * PI * ctpu * stpu * cpv * spv * (b * b - a * a))
    (PI * PI * (a * a * cpv * cpv * ctpu * ctpu + b * b * stpu * stpu * cpv * cpv + c * c * spv * spv)) /\
  second_form (ellipsoid_sigma s) (ell_inward s (ellipsoid_sigma s u v)) u v
    (4 * PI * PI * a * b * c * spv * spv / sqrt (ell_denom u v)) 0
    (PI * PI * a * b * c / sqrt (ell_denom u v)).
Proof.
  intros u v a b c spv cpv stpu ctpu. destruct (ellipsoid_partials s) as [P1 [P2 P3]].
  destruct (ell_denom_grad u v) as [Dp Ng]. fold a b c in Ng.
  destruct Hs as [Ha [Hb Hc]]. fold a in Ha; fold b in Hb; fold c in Hc.
  pose proof (sc2 (2 * PI * u)) as A. pose proof (sc2 (PI * v)) as B. fold stpu ctpu in A. fold spv cpv in B.
  split.
  - exists (ellipsoid_su s), (ellipsoid_sv s). split; auto.
    unfold ellipsoid_su, ellipsoid_sv, dotR; cbn [vx vy vz]. fold a b c spv cpv stpu ctpu.
    repeat split; ring.
  - exists (ellipsoid_su s), (ellipsoid_sv s), (ellipsoid_suu s), (ellipsoid_suv s), (ellipsoid_suv s), (ellipsoid_svv s).
    split; [auto|]. split; [auto|]. split; [auto|].
    pose proof (ellipsoid_grad_nonzero _ (ellipsoid_sigma_on u v)) as Gz.
    assert (Gp := normR_pos _ Gz).
    split.
    { apply normR_unit. unfold ell_inward. rewrite normsqR_scale, <- normR_sq. field. lra. }
    assert (Eg : ell_inward s (ellipsoid_sigma s u v) =
      scaleR (- (a * b * c / sqrt (ell_denom u v))) (V3 (ctpu * spv / a) (stpu * spv / b) (cpv / c))).
    { unfold ell_inward. rewrite Ng. unfold ellipsoid_gradR, ellipsoid_sigma, addR, scaleR; cbn [vx vy vz].
      fold a b c spv cpv stpu ctpu. apply V3_ext; field; repeat split; lra. }
    rewrite Eg.
    unfold ellipsoid_su, ellipsoid_sv, ellipsoid_suu, ellipsoid_suv, ellipsoid_svv, dotR, scaleR; cbn [vx vy vz].
    fold a b c spv cpv stpu ctpu. set (D := sqrt (ell_denom u v)) in *.
    repeat split.
    + field; repeat split; lra.
    + transitivity (- (a * b * c / D) * PI * (spv * cpv * (ctpu * ctpu + stpu * stpu) - spv * cpv)); [field; repeat split; lra|].
      rewrite A. ring.
    + transitivity (4 * PI * PI * a * b * c * (spv * spv * (ctpu * ctpu + stpu * stpu)) / D); [rewrite A; field; lra|].
      field; repeat split; lra.
    + field; repeat split; lra.
    + transitivity (PI * PI * a * b * c * (spv * spv * (ctpu * ctpu + stpu * stpu) + cpv * cpv) / D); [rewrite A, B; field; lra|].
      field; repeat split; lra.
Qed.

Lemma ellipsoid_forms_run : forall u v (rec : hit_record xr), h_u rec = Fin u -> h_v rec = Fin v ->
  let a := vx (el_scales s) in let b := vy (el_scales s) in let c := vz (el_scales s) in
  let spv := sin (PI * v) in let cpv := cos (PI * v) in
  let stpu := sin (2 * PI * u) in let ctpu := cos (2 * PI * u) in
  ellipsoid_forms (F:=XR L) (finellipsoid s) rec =
  set_second (Fin (4 * PI * PI * a * b * c * spv * spv / sqrt (ell_denom u v))) (Fin 0)
    (Fin (PI * PI * a * b * c / sqrt (ell_denom u v)))
    (set_first (Fin (4 * PI * PI * spv * spv * (a * a * stpu * stpu + b * b * ctpu * ctpu)))
      (Fin (2 * PI * PI * ctpu * stpu * cpv * spv * (b * b - a * a)))
      (Fin (PI * PI * (a * a * cpv * cpv * ctpu * ctpu + b * b * stpu * stpu * cpv * cpv + c * c * spv * spv))) rec).
Proof.
  intros u v rec Hu Hv. destruct (ell_denom_grad u v) as [Dp _].
  assert (D0 : 0 <= ell_denom u v).
  { destruct (Rle_lt_dec 0 (ell_denom u v)) as [Q|Q]; [exact Q|]. rewrite (sqrt_neg_0 (ell_denom u v)) in Dp by lra. lra. }
  unfold ell_denom in *. clear Hs. destruct s as [[cx cy cz] [a b c]]. cbn [vx vy vz el_scales] in *.
  unfold ellipsoid_forms, finellipsoid, fin3, map3; cbn [el_scales vx vy vz].
  change (@num (XR L)) with xr in *. rewrite Hu, Hv. xred.
  rewrite xsqrt_fin by exact D0.
  rewrite !xdiv_fin by (apply Rgt_not_eq; exact Dp). reflexivity.
Qed.

Lemma unscaled_nonzero : forall d, d <> zeroR -> unscaled s d <> zeroR.
Proof.
  intros d Hd E. apply Hd. destruct Hs as [Ha [Hb Hc]]. unfold unscaled, zeroR in *. injection E as E1 E2 E3.
  assert (Z : forall x k, 0 < k -> x / k = 0 -> x = 0) by (intros x k Hk H; replace x with (x / k * k) by (field; lra); rewrite H; ring).
  destruct d as [x y z]; cbn in *. f_equal; [apply (Z _ _ Ha E1)|apply (Z _ _ Hb E2)|apply (Z _ _ Hc E3)].
Qed.

(** C20 *)
Lemma ellipsoid_contract : forall r, ellipsoid_off_threshold (l_min L) s r ->
  hit_contract (L:=L) r (of_ellipsoid (F:=XR L) (finellipsoid s)) (fun t => on_ellipsoid s (pointR r t)) (describes_ellipsoid s r) /\
  quiet (L:=L) r (of_ellipsoid (F:=XR L) (finellipsoid s)).
Proof.
  intros r [Hd [Ha Hb]].
  assert (K : forall lo hi (rec : hit_record xr),
    (ellipsoid_hit (F:=XR L) (finellipsoid s) (finray r) lo hi rec = Ok (false, rec) /\
       forall t, on_ellipsoid s (pointR r t) -> ~ in_window lo hi t) \/
    (exists t rec', ellipsoid_hit (F:=XR L) (finellipsoid s) (finray r) lo hi rec = Ok (true, rec') /\
       h_t rec' = Fin t /\ on_ellipsoid s (pointR r t) /\ in_window lo hi t /\
       (forall t', on_ellipsoid s (pointR r t') -> in_window lo hi t' -> t <= t') /\ describes_ellipsoid s r t rec')).
  { intros lo hi rec. unfold ellipsoid_hit.
    change (r_orig (finray r)) with (fin3 (r_orig r)). change (r_dir (finray r)) with (fin3 (r_dir r)).
    change (el_center (finellipsoid s)) with (fin3 (el_center s)).
    change (el_scales (finellipsoid s)) with (fin3 (el_scales s)).
    rewrite vsub_fin.
    pose proof Hs as [Pa [Pb Pc]].
    assert (U : forall w, V3 (ndiv (NumOps:=XR L) (vx (fin3 w)) (vx (fin3 (el_scales s)))) (ndiv (NumOps:=XR L) (vy (fin3 w)) (vy (fin3 (el_scales s))))
       (ndiv (NumOps:=XR L) (vz (fin3 w)) (vz (fin3 (el_scales s)))) = fin3 (unscaled s w)).
    { intros w. unfold fin3, map3, unscaled; cbn [vx vy vz]. change (ndiv (NumOps:=XR L)) with xdiv. rewrite !xdiv_fin by lra. reflexivity. }
    rewrite !U, !squared_norm_fin, dot_fin. xred.
    destruct (first_root_correct L (normsqR (unscaled s (r_dir r)))
       (2 * dotR (unscaled s (subR (r_orig r) (el_center s))) (unscaled s (r_dir r)))
       (normsqR (unscaled s (subR (r_orig r) (el_center s))) - 1) lo hi Ha Hb) as [[E N]|[t [E [Z [W F]]]]].
    - intros [A _]. apply unscaled_nonzero, normsqR_pos in Hd. lra.
    - left. rewrite E. split; auto. intros t On Wt. apply (N t Wt). apply ellipsoid_quad, On.
    - right. rewrite E. cbn [h_t h_p set_t set_p].
      assert (Ep : ray_at (F:=XR L) (finray r) (Fin t) = fin3 (pointR r t)) by reflexivity.
      rewrite Ep, vsub_fin.
      assert (On : on_ellipsoid s (pointR r t)) by (apply ellipsoid_quad; exact Z).
      assert (Eg : V3 (xmul (vx (fin3 (subR (pointR r t) (el_center s)))) (xdiv (Fin 2) (xmul (vx (fin3 (el_scales s))) (vx (fin3 (el_scales s))))))
                      (xmul (vy (fin3 (subR (pointR r t) (el_center s)))) (xdiv (Fin 2) (xmul (vy (fin3 (el_scales s))) (vy (fin3 (el_scales s))))))
                      (xmul (vz (fin3 (subR (pointR r t) (el_center s)))) (xdiv (Fin 2) (xmul (vz (fin3 (el_scales s))) (vz (fin3 (el_scales s))))))
                   = fin3 (ellipsoid_gradR s (pointR r t))).
      { unfold fin3, map3, ellipsoid_gradR, subR; cbn [vx vy vz xmul]. rewrite !xdiv_fin by nra. cbn [xmul].
        apply V3x_ext; f_equal; field; lra. }
      rewrite Eg, norm_fin.
      pose proof (ellipsoid_grad_nonzero _ On) as Gz. pose proof (normR_pos _ Gz) as Gp.
      cbn [h_grad set_grad]. rewrite vdiv_fin by lra.
      destruct (ellipsoid_uv_spec _ On) as [u [v [Euv [Hu [Hv Es]]]]].
      change (@num (XR L)) with xr in *.
      match goal with |- context [h_p ?q] => change (h_p q) with (fin3 (pointR r t)) end. rewrite Euv.
      rewrite (ellipsoid_forms_run u v) by reflexivity.
      exists t. eexists. split; [reflexivity|].
      set (rec0 := set_second _ _ _ _).
      set (n := scaleR (/ normR (ellipsoid_gradR s (pointR r t))) (ellipsoid_gradR s (pointR r t))).
      split; [reflexivity|]. split; [exact On|]. split; [exact W|].
      split; [intros t' On' W'; apply F; auto; apply ellipsoid_quad; auto|].
      unfold describes_ellipsoid.
      split; [split; reflexivity|].
      split; [|split; [|split; [|split]]].
      + destruct (face_normal_spec (L:=L) r (ellipsoid_gradR s (pointR r t)) (/ normR (ellipsoid_gradR s (pointR r t))) rec0) as [FN _]; auto.
        * apply Rinv_0_lt_compat; auto.
        * apply normR_normalized; auto.
      + exists u, v. cbn. repeat split; auto; try tauto. rewrite Es. reflexivity.
      + reflexivity.
      + destruct (ellipsoid_forms_spec u v) as [F1 _]. do 5 eexists. cbn. repeat (split; [reflexivity|]). exact F1.
      + destruct (ellipsoid_forms_spec u v) as [_ F2]. rewrite Es in F2. do 5 eexists. cbn. repeat (split; [reflexivity|]). exact F2. }
  split.
  - intros lo hi rec _ _. destruct (K lo hi rec) as [[E N]|[t [rec' [E [Et [On [W [F D]]]]]]]].
    + exists false, rec. split; auto.
    + exists true, rec'. split; auto. exists t. auto 6.
  - intros lo hi rec rec' E. cbn [hit of_ellipsoid] in E.
    destruct (K lo hi rec) as [[E' _]|[t [rec1 [E' _]]]]; change (@num (XR L)) with xr in *; rewrite E' in E; congruence.
Qed.

(** C34 *)
Lemma ellipsoid_boxed : exists B, ellipsoid_box (F:=XR L) (finellipsoid s) = Some (finbox B) /\
  forall p, on_ellipsoid s p -> in_box B p.
Proof.
  exists (Box (subR (el_center s) (el_scales s)) (addR (el_center s) (el_scales s))).
  split; [reflexivity|]. intros p H. destruct Hs as [Ha [Hb Hc]]. unfold on_ellipsoid in H.
  unfold in_box, subR, addR in *; cbn [b_min b_max vx vy vz] in *.
  assert (B : forall q c a, 0 < a -> ((q - c) / a) ^ 2 <= 1 -> c - a <= q <= c + a).
  { intros q c a P Q. assert (-1 <= (q - c) / a <= 1) as [M1 M2] by (split; nra).
    apply Rmult_le_compat_r with (r := a) in M1; [|lra]. apply Rmult_le_compat_r with (r := a) in M2; [|lra].
    replace ((q - c) / a * a) with (q - c) in * by (field; lra). lra. }
  pose proof (pow2_ge_0 ((vx p - vx (el_center s)) / vx (el_scales s))).
  pose proof (pow2_ge_0 ((vy p - vy (el_center s)) / vy (el_scales s))).
  pose proof (pow2_ge_0 ((vz p - vz (el_center s)) / vz (el_scales s))).
  destruct (B (vx p) (vx (el_center s)) (vx (el_scales s))); [auto|lra|].
  destruct (B (vy p) (vy (el_center s)) (vy (el_scales s))); [auto|lra|].
  destruct (B (vz p) (vz (el_center s)) (vz (el_scales s))); [auto|lra|].
  repeat split; auto.
Qed.
End L.
