(** Jacobians, Hessians and curvatures of the closed-form shapes (C29-C33). *)
From Coq Require Import Reals Lra ZArith List Bool.
From Verif Require Import Num XR Spec M_Vec M_Roots M_Hittable M_Shapes Spec_Scene Spec_Shapes
  P_Vec P_Quadratic P_Angle P_Deriv P_Sphere P_Ellipsoid P_Flat P_Cylinder P_Torus.
Import ListNotations.
Local Open Scope R_scope.

Lemma fin3_inj : forall u v : vec3 R, fin3 u = fin3 v -> u = v.
Proof. intros [u0 u1 u2] [v0 v1 v2] H. injection H as -> -> ->. reflexivity. Qed.

Lemma deriv3_unique : forall f t d d', deriv3 f t d -> deriv3 f t d' -> d = d'.
Proof.
  intros f t d d' [A [B C]] [A' [B' C']]. destruct d as [d0 d1 d2], d' as [e0 e1 e2]; cbn [vx vy vz] in *.
  apply V3_ext; eapply uniqueness_limite; eauto.
Qed.

Lemma partials_unique : forall g su sv su' sv', partials g su sv -> partials g su' sv' ->
  forall u v, su u v = su' u v /\ sv u v = sv' u v.
Proof.
  intros g su sv su' sv' H H' u v. destruct (H u v) as [A B], (H' u v) as [A' B'].
  split; eapply deriv3_unique; eauto.
Qed.

Lemma deriv3_ext : forall f g t d, (forall s, f s = g s) -> deriv3 f t d -> deriv3 g t d.
Proof.
  intros f g t d E [A [B C]]. unfold deriv3.
  assert (X : forall (h : vec3 R -> R) l, derivable_pt_lim (fun s => h (f s)) t l -> derivable_pt_lim (fun s => h (g s)) t l).
  { intros h l D eps He. destruct (D eps He) as [del Hd]. exists del. intros k Hk Hk'. rewrite <- !E. auto. }
  split; [|split]; apply X; auto.
Qed.

Lemma first_form_unique : forall g u v E F G E' F' G', first_form g u v E F G -> first_form g u v E' F' G' ->
  E = E' /\ F = F' /\ G = G'.
Proof.
  intros g u v E F G E' F' G' [su [sv [P [-> [-> ->]]]]] [su' [sv' [P' [-> [-> ->]]]]].
  destruct (partials_unique _ _ _ _ _ P P' u v) as [-> ->]. auto.
Qed.

Lemma second_form_unique : forall g n u v e f h e' f' h', second_form g n u v e f h -> second_form g n u v e' f' h' ->
  e = e' /\ f = f' /\ h = h'.
Proof.
  intros g n u v e f h e' f' h' [su [sv [suu [suv [svu [svv [P1 [P2 [P3 [_ [_ [_ [-> [-> ->]]]]]]]]]]]]]]
    [su' [sv' [suu' [suv' [svu' [svv' [P1' [P2' [P3' [_ [_ [_ [-> [-> ->]]]]]]]]]]]]]].
  assert (Eu : forall u v, su u v = su' u v) by (intros u0 v0; exact (proj1 (partials_unique _ _ _ _ _ P1 P1' u0 v0))).
  assert (Ev : forall u v, sv u v = sv' u v) by (intros u0 v0; exact (proj2 (partials_unique _ _ _ _ _ P1 P1' u0 v0))).
  destruct (P2 u v) as [A B], (P2' u v) as [A' B'], (P3 u v) as [_ C], (P3' u v) as [_ C'].
  rewrite (deriv3_unique _ _ _ _ (deriv3_ext _ (fun s => su' s v) _ _ (fun s => Eu s v) A) A').
  rewrite (deriv3_unique _ _ _ _ (deriv3_ext _ (fun s => su' u s) _ _ (fun s => Eu u s) B) B').
  rewrite (deriv3_unique _ _ _ _ (deriv3_ext _ (fun s => sv' u s) _ _ (fun s => Ev u s) C) C').
  auto.
Qed.

(** a record which holds the forms reports the curvatures *)
Lemma reports_curvatures : forall (L : limits) sigma n (rec : hit_record xr) u v K H,
  has_first_form sigma rec -> has_second_form sigma n rec -> h_u rec = Fin u -> h_v rec = Fin v ->
  curvatures sigma n u v K H -> reports (L:=L) rec K H.
Proof.
  intros L sigma n rec u v K H [u1 [v1 [E1 [F1 [G1 [U1 [V1 [HE [HF [HG F]]]]]]]]]]
    [u2 [v2 [e2 [f2 [g2 [U2 [V2 [He [Hf [Hg S]]]]]]]]]] Hu Hv [E [F0 [G [e [f [g [FF [SF [D [-> ->]]]]]]]]]].
  rewrite Hu in U1, U2. rewrite Hv in V1, V2. injection U1 as <-. injection U2 as <-. injection V1 as <-. injection V2 as <-.
  destruct (first_form_unique _ _ _ _ _ _ _ _ _ F FF) as [-> [-> ->]].
  destruct (second_form_unique _ _ _ _ _ _ _ _ _ _ S SF) as [-> [-> ->]].
  unfold reports, gaussian_curvature, mean_curvature. change (@num (XR L)) with xr in *.
  rewrite HE, HF, HG, He, Hf, Hg. xred.
  rewrite !xdiv_fin by lra. split; reflexivity.
Qed.

(** products of non-zero factors *)
Ltac nonzero := repeat match goal with |- _ * _ <> 0 => apply Rmult_integral_contrapositive_currified end; (assumption || lra).

Ltac positive := repeat match goal with |- 0 < _ * _ => apply Rmult_lt_0_compat | |- 0 < _ ^ _ => apply pow_lt end; (assumption || lra).

Section L.
Context {L : limits}.

(** *** Sphere *)
Lemma sphere_J_spec : forall (s : sphere R) u v, exists su sv, partials (sphere_sigma s) su sv /\
  let J := sphere_J (F:=XR L) (finsphere s) (Fin u) (Fin v) in
  V3 (m00 J) (m10 J) (m20 J) = fin3 (su u v) /\ V3 (m01 J) (m11 J) (m21 J) = fin3 (sv u v).
Proof.
  intros s u v. exists (sphere_su s), (sphere_sv s). split; [apply sphere_partials|].
  unfold sphere_J, finsphere, fin3, map3, sphere_su, sphere_sv, scaleR; cbn [m00 m10 m20 m01 m11 m21 s_radius vx vy vz]. xred.
  split; apply V3x_ext; f_equal; ring.
Qed.

Lemma sphere_H_spec : forall (s : sphere R) u v, exists su sv suu suv svu svv,
  partials (sphere_sigma s) su sv /\ partials su suu suv /\ partials sv svu svv /\
  let H := sphere_H (F:=XR L) (finsphere s) (Fin u) (Fin v) in
  map3 a00 H = fin3 (suu u v) /\ map3 a01 H = fin3 (suv u v) /\
  map3 a10 H = fin3 (svu u v) /\ map3 a11 H = fin3 (svv u v) /\ suv u v = svu u v.
Proof.
  intros s u v. destruct (sphere_partials s) as [P1 [P2 P3]].
  do 6 eexists. split; [exact P1|]. split; [exact P2|]. split; [exact P3|].
  unfold sphere_H, finsphere, fin3, map3, sphere_suu, sphere_suv, sphere_svv, scaleR; cbn [a00 a01 a10 a11 s_radius vx vy vz]. xred.
  repeat split; apply V3x_ext; f_equal; ring.
Qed.

Lemma sin_pos_axis : forall (s : sphere R) u v, 0 < s_radius s -> ~ on_z_axis (s_center s) (sphere_sigma s u v) -> sin (PI * v) <> 0.
Proof.
  intros s u v Hr N E. apply N. unfold on_z_axis, sphere_sigma, addR, scaleR; cbn [vx vy vz]. rewrite E. split; ring.
Qed.

Lemma sphere_curvatures : forall (s : sphere R) u v, 0 < s_radius s ->
  ~ on_z_axis (s_center s) (sphere_sigma s u v) ->
  curvatures (sphere_sigma s) (scaleR (/ s_radius s) (subR (s_center s) (sphere_sigma s u v))) u v (/ s_radius s ^ 2) (/ s_radius s).
Proof.
  intros s u v Hr N.
  destruct (sphere_forms_spec s Hr u v) as [FF SF]. pose proof (sin_pos_axis s u v Hr N) as Sn.
  do 6 eexists. split; [exact FF|]. split; [exact SF|].
  pose proof PI_pos. repeat split; [|field; repeat split; (assumption || lra) ..].
  replace (_ - _) with ((2 * PI * s_radius s * sin (PI * v)) * (2 * PI * s_radius s * sin (PI * v)) * (PI * PI * s_radius s * s_radius s)) by ring.
  nonzero.
Qed.
Lemma sphere_reports : forall (s : sphere R) r t (rec : hit_record xr), 0 < s_radius s ->
  describes_sphere s r t rec -> ~ on_z_axis (s_center s) (pointR r t) ->
  exists u v n, pointR r t = sphere_sigma s u v /\
    curvatures (sphere_sigma s) n u v (/ s_radius s ^ 2) (/ s_radius s) /\
    reports (L:=L) rec (/ s_radius s ^ 2) (/ s_radius s).
Proof.
  intros s r t rec Hr [[_ Hp] [_ [[u [v [Hu [Hv [_ [_ Hp']]]]]] [_ [F S]]]]] N.
  assert (Ep : pointR r t = sphere_sigma s u v) by (apply fin3_inj; congruence).
  rewrite Ep in *. pose proof (sphere_curvatures s u v Hr N) as C.
  exists u, v; eexists. split; [reflexivity|]. split; [exact C|]. eapply reports_curvatures; eauto.
Qed.

(** *** Cylinder *)
Lemma cylinder_curvatures : forall (c : cylinder R) u v, 0 < c_radius c -> c_zmin c < c_zmax c ->
  curvatures (cylinder_sigma c) (V3 (- cos (2 * PI * u)) (- sin (2 * PI * u)) 0) u v 0 (/ (2 * c_radius c)).
Proof.
  intros c u v Hr Hz. destruct (cylinder_forms_spec c u v) as [FF SF].
  do 6 eexists. split; [exact FF|]. split; [exact SF|].
  pose proof PI_pos. repeat split; [|field; repeat split; (assumption || lra) ..].
  replace (_ - _) with (4 * PI * PI * c_radius c * c_radius c * ((c_zmax c - c_zmin c) * (c_zmax c - c_zmin c))) by ring.
  nonzero.
Qed.
Lemma cylinder_reports : forall (c : cylinder R) r t (rec : hit_record xr), 0 < c_radius c -> c_zmin c < c_zmax c ->
  describes_cylinder c r t rec ->
  exists u v n, pointR r t = cylinder_sigma c u v /\ curvatures (cylinder_sigma c) n u v 0 (/ (2 * c_radius c)) /\
    reports (L:=L) rec 0 (/ (2 * c_radius c)).
Proof.
  intros c r t rec Hr Hz [[_ Hp] [_ [[u [v [Hu [Hv [_ [_ Hp']]]]]] [_ [F S]]]]].
  assert (Ep : pointR r t = cylinder_sigma c u v) by (apply fin3_inj; congruence).
  rewrite Ep in *. pose proof (cylinder_curvatures c u v Hr Hz) as C.
  replace (scaleR _ _) with (V3 (- cos (2 * PI * u)) (- sin (2 * PI * u)) 0) in S.
  2:{ unfold cylinder_sigma, scaleR; cbn [vx vy vz]. apply V3_ext; field; lra. }
  exists u, v; eexists. split; [reflexivity|]. split; [exact C|]. eapply reports_curvatures; eauto.
Qed.

(** *** Torus *)
Lemma torus_curvatures : forall (o : torus R) u v, 0 < o_r o -> o_r o < o_R o -> exists H,
  curvatures (torus_sigma o) (scaleR (/ o_r o) (torus_outward o (torus_sigma o u v))) u v (torus_K o (torus_sigma o u v)) H.
Proof.
  intros o u v Hr HR.
  pose proof (COS_bound (2 * PI * v)) as C. pose proof PI_pos.
  set (m := o_R o + o_r o * cos (2 * PI * v)). assert (Hm : 0 < m) by (unfold m; nra).
  assert (A : axis_distance o (torus_sigma o u v) = m).
  { unfold axis_distance, torus_sigma, addR; cbn [vx vy vz]. fold m. pose proof (sc2 (2 * PI * u)) as Q.
    set (su := sin (2 * PI * u)) in *. set (cu := cos (2 * PI * u)) in *.
    match goal with |- sqrt ?x = _ => replace x with (m * m) end; [apply sqrt_square; lra|].
    transitivity (m * m * (su * su + cu * cu)); [rewrite Q; ring|ring]. }
  unfold torus_K. rewrite A.
  eexists.
  destruct (torus_forms_spec o u v) as [FF SF]. fold m in FF, SF.
  replace (scaleR _ _) with (torus_n u v).
  2:{ rewrite torus_outward_spec by auto. unfold torus_n, scaleR; cbn [vx vy vz]. apply V3_ext; field; lra. }
  do 6 eexists. split; [exact FF|]. split; [exact SF|].
  split; [|split; [|reflexivity]].
  - replace (_ - _) with (4 * PI * PI * m * m * (4 * PI * PI * o_r o * o_r o)) by ring.
    nonzero.
  - replace (m - o_R o) with (o_r o * cos (2 * PI * v)) by (unfold m; ring). field. repeat split; lra.
Qed.

Lemma torus_reports : forall (o : torus R) r t (rec : hit_record xr), 0 < o_r o -> o_r o < o_R o ->
  describes_torus o r t rec ->
  exists u v n H, pointR r t = torus_sigma o u v /\ curvatures (torus_sigma o) n u v (torus_K o (pointR r t)) H /\
    reports (L:=L) rec (torus_K o (pointR r t)) H.
Proof.
  intros o r t rec Hr HR [[_ Hp] [_ [[u [v [Hu [Hv [_ [_ Hp']]]]]] [_ [F S]]]]].
  assert (Ep : pointR r t = torus_sigma o u v) by (apply fin3_inj; congruence).
  rewrite Ep in *. destruct (torus_curvatures o u v Hr HR) as [H C].
  exists u, v; eexists; exists H. split; [reflexivity|]. split; [exact C|]. eapply reports_curvatures; eauto.
Qed.

Lemma torus_curvature_fin : forall (o : torus R) p, 0 < o_r o -> o_r o < o_R o -> on_torus o p ->
  torus_curvature (F:=XR L) (fintorus o) (fin3 p) = Fin (torus_K o p).
Proof.
  intros o p Hr HR On. destruct (torus_axis o Hr p On) as [A [B [C D]]].
  unfold torus_curvature, torus_K, fintorus, fin3, map3; cbn [o_center o_R o_r vx vy vz]. xred. rewrite !xdiv_fin by lra. xred.
  unfold rel, subR in *; cbn [vx vy vz] in *. rewrite <- B. set (s := axis_distance o p) in *. clearbody s.
  set (z := vz p - vz (o_center o)) in *. clearbody z. unfold std_clamp. xred.
  set (q := Rabs (s - o_R o) / o_r o).
  assert (Q0 : 0 <= q) by (apply Rmult_le_pos; [apply Rabs_pos|left; apply Rinv_0_lt_compat; auto]).
  assert (Q : 1 - z / o_r o * (z / o_r o) = q * q).
  { unfold q. transitivity (Rabs (s - o_R o) * Rabs (s - o_R o) / (o_r o * o_r o)); [|field; lra].
    rewrite <- Rabs_mult, Rabs_right by (apply Rle_ge, Rle_0_sqr).
    replace ((s - o_R o) * (s - o_R o)) with (o_r o * o_r o - z * z) by lra. field; lra. }
  assert (Q1 : q * q <= 1).
  { rewrite <- Q. pose proof (Rle_0_sqr (z / o_r o)) as K; unfold Rsqr in K. lra. }
  rewrite Q. rewrite !Rltb_false by nra. rewrite xsqrt_fin by nra. rewrite sqrt_square by auto. xred.
  assert (Rq : o_r o * q = Rabs (s - o_R o)) by (unfold q; field; lra).
  replace (o_R o * o_R o + o_r o * o_r o * q * q) with (o_R o * o_R o + (s - o_R o) * (s - o_R o)).
  2:{ replace (o_r o * o_r o * q * q) with ((o_r o * q) * (o_r o * q)) by ring. rewrite Rq, <- Rabs_mult, Rabs_right; [auto|apply Rle_ge, Rle_0_sqr]. }
  set (c := if Rltb (s * s) (o_R o * o_R o + (s - o_R o) * (s - o_R o)) then - q else q).
  assert (Rc : o_r o * c = s - o_R o).
  { unfold c. destruct (Rltb_spec (s * s) (o_R o * o_R o + (s - o_R o) * (s - o_R o))).
    - assert (s < o_R o) by nra. rewrite Rabs_left in Rq by lra. lra.
    - assert (o_R o <= s) by nra. rewrite Rabs_right in Rq by lra. lra. }
  match goal with |- xdiv ?a _ = _ => replace a with (Fin c) by (unfold c; destruct (Rltb _ _); reflexivity) end.
  xred. assert (Ec : c = (s - o_R o) / o_r o) by (rewrite <- Rc; field; lra).
  replace (o_R o + o_r o * c) with s by lra. rewrite xdiv_fin by (apply Rgt_not_eq, Rmult_lt_0_compat; lra).
  rewrite Ec. f_equal. field. lra.
Qed.

Lemma torus_bounds_spec : forall (o : torus R), 0 < o_r o -> o_r o < o_R o ->
  exists k0 k1, torus_curvature_bounds (F:=XR L) (fintorus o) = (Fin k0, Fin k1) /\
    (forall p, on_torus o p -> k0 <= torus_K o p <= k1) /\
    (exists p, on_torus o p /\ torus_K o p = k0) /\ (exists p, on_torus o p /\ torus_K o p = k1).
Proof.
  intros o Hr HR. unfold torus_curvature_bounds, fintorus; cbn [o_R o_r]. xred.
  assert (0 < o_r o * (o_R o - o_r o)) by (apply Rmult_lt_0_compat; lra).
  assert (0 < o_r o * (o_R o + o_r o)) by (apply Rmult_lt_0_compat; lra).
  rewrite !xdiv_fin by lra. do 2 eexists. split; [reflexivity|]. split; [|split].
  - intros p On. destruct (torus_axis o Hr p On) as [[A1 A2] _]. unfold torus_K. set (s := axis_distance o p) in *. clearbody s.
    assert (Ks : (s - o_R o) / (o_r o ^ 2 * s) = / o_r o ^ 2 - o_R o / o_r o ^ 2 * / s) by (field; lra).
    assert (Kr : 0 < o_R o / o_r o ^ 2) by (apply Rmult_lt_0_compat; [lra|apply Rinv_0_lt_compat, pow_lt; lra]).
    rewrite Ks. split.
    + replace (-1 / (o_r o * (o_R o - o_r o))) with (/ o_r o ^ 2 - o_R o / o_r o ^ 2 * / (o_R o - o_r o)) by (field; lra).
      assert (/ s <= / (o_R o - o_r o)) by (apply Rinv_le_contravar; lra).
      assert (o_R o / o_r o ^ 2 * / s <= o_R o / o_r o ^ 2 * / (o_R o - o_r o)) by (apply Rmult_le_compat_l; lra). lra.
    + replace (1 / (o_r o * (o_R o + o_r o))) with (/ o_r o ^ 2 - o_R o / o_r o ^ 2 * / (o_R o + o_r o)) by (field; lra).
      assert (/ (o_R o + o_r o) <= / s) by (apply Rinv_le_contravar; lra).
      assert (o_R o / o_r o ^ 2 * / (o_R o + o_r o) <= o_R o / o_r o ^ 2 * / s) by (apply Rmult_le_compat_l; lra). lra.
  - exists (addR (o_center o) (V3 (o_R o - o_r o) 0 0)).
    assert (A : axis_distance o (addR (o_center o) (V3 (o_R o - o_r o) 0 0)) = o_R o - o_r o).
    { unfold axis_distance, addR; cbn [vx vy vz]. match goal with |- sqrt ?x = _ => replace x with ((o_R o - o_r o) * (o_R o - o_r o)) by ring end. apply sqrt_square; lra. }
    split; [|unfold torus_K; rewrite A; field; lra].
    unfold on_torus. fold (axis_distance o (addR (o_center o) (V3 (o_R o - o_r o) 0 0))). rewrite A. unfold addR; cbn [vx vy vz]. ring.
  - exists (addR (o_center o) (V3 (o_R o + o_r o) 0 0)).
    assert (A : axis_distance o (addR (o_center o) (V3 (o_R o + o_r o) 0 0)) = o_R o + o_r o).
    { unfold axis_distance, addR; cbn [vx vy vz]. match goal with |- sqrt ?x = _ => replace x with ((o_R o + o_r o) * (o_R o + o_r o)) by ring end. apply sqrt_square; lra. }
    split; [|unfold torus_K; rewrite A; field; lra].
    unfold on_torus. fold (axis_distance o (addR (o_center o) (V3 (o_R o + o_r o) 0 0))). rewrite A. unfold addR; cbn [vx vy vz]. ring.
Qed.

(** *** Ellipsoid *)
Lemma ellipsoid_curvatures : forall (s : ellipsoid R) u v, positive3 (el_scales s) ->
  ~ on_z_axis (el_center s) (ellipsoid_sigma s u v) -> exists H,
  curvatures (ellipsoid_sigma s) (ell_inward s (ellipsoid_sigma s u v)) u v (ellipsoid_K s (ellipsoid_sigma s u v)) H.
Proof.
  intros s u v Hs N. pose proof Hs as [Ha [Hb Hc]].
  eexists.
  destruct (ellipsoid_forms_spec s Hs u v) as [FF SF]. cbv zeta in FF, SF.
  destruct (ell_denom_grad s Hs u v) as [Dp _]. cbv zeta in Dp.
  assert (Sn : sin (PI * v) <> 0).
  { intros E. apply N. unfold on_z_axis, ellipsoid_sigma, addR; cbn [vx vy vz]. rewrite E. split; ring. }
  do 6 eexists. split; [exact FF|]. split; [exact SF|].
  match goal with |- ?A /\ ?B /\ _ => enough (A /\ B) as [X1 X2]; [split; [exact X1|split; [exact X2|reflexivity]]|] end.
  assert (DD : sqrt (ell_denom s u v) * sqrt (ell_denom s u v) = ell_denom s u v).
  { apply sqrt_sqrt. destruct (Rle_or_lt 0 (ell_denom s u v)) as [|K]; auto. rewrite sqrt_neg_0 in Dp by lra. lra. }
  set (D := sqrt (ell_denom s u v)) in *. unfold ell_denom in DD. cbv zeta in DD.
  pose proof (sc2 (2 * PI * u)) as Q. pose proof (sc2 (PI * v)) as P. pose proof PI_pos as HP.
  unfold ellipsoid_K, ellipsoid_sigma, addR; cbn [vx vy vz]. cbv zeta.
  set (a := vx (el_scales s)) in *. set (b := vy (el_scales s)) in *. set (c := vz (el_scales s)) in *.
  set (su := sin (2 * PI * u)) in *. set (cu := cos (2 * PI * u)) in *.
  set (sv := sin (PI * v)) in *. set (cv := cos (PI * v)) in *. 
  assert (X : forall k q, k + q - k = q) by (intros; ring). rewrite !X. clear X.
  clearbody a b c su cu sv cv D. clear - Ha Hb Hc Dp Sn DD Q P HP.
  assert (EG : 4 * PI * PI * sv * sv * (a * a * su * su + b * b * cu * cu) * (PI * PI * (a * a * cv * cv * cu * cu + b * b * su * su * cv * cv + c * c * sv * sv)) -
     2 * PI * PI * cu * su * cv * sv * (b * b - a * a) * (2 * PI * PI * cu * su * cv * sv * (b * b - a * a)) =
     4 * PI ^ 4 * sv * sv * (D * D)).
  { rewrite DD. transitivity (4 * PI ^ 4 * sv * sv * (a * a * b * b * cv * cv * (su * su + cu * cu) * (su * su + cu * cu) + c * c * (a * a * su * su + b * b * cu * cu) * sv * sv)); [ring|].
    replace (su * su + cu * cu) with 1 by lra. ring. }
  assert (Sp : 0 < sv * sv) by (apply Rsqr_pos_lt in Sn; exact Sn).
  assert (P4 : 0 < PI ^ 4) by (apply pow_lt; auto).
  split.
  - rewrite EG. apply Rgt_not_eq. replace (4 * PI ^ 4 * sv * sv * (D * D)) with (4 * PI ^ 4 * (sv * sv) * (D * D)) by ring.
    apply Rmult_lt_0_compat; [apply Rmult_lt_0_compat; [apply Rmult_lt_0_compat; [lra|exact P4]|exact Sp]|apply Rmult_lt_0_compat; exact Dp].
  - rewrite EG.
    assert (G : (a * (cu * sv)) ^ 2 / a ^ 4 + (b * (su * sv)) ^ 2 / b ^ 4 + (c * cv) ^ 2 / c ^ 4 = D * D / (a * b * c) ^ 2).
    { rewrite DD. field. lra. }
    rewrite G. field. repeat split; (assumption || lra).
Qed.

Lemma ellipsoid_reports : forall (s : ellipsoid R) r t (rec : hit_record xr), positive3 (el_scales s) ->
  describes_ellipsoid s r t rec -> ~ on_z_axis (el_center s) (pointR r t) ->
  exists u v n H, pointR r t = ellipsoid_sigma s u v /\ curvatures (ellipsoid_sigma s) n u v (ellipsoid_K s (pointR r t)) H /\
    reports (L:=L) rec (ellipsoid_K s (pointR r t)) H.
Proof.
  intros s r t rec Hs [[_ Hp] [_ [[u [v [Hu [Hv [_ [_ Hp']]]]]] [_ [F S]]]]] N.
  assert (Ep : pointR r t = ellipsoid_sigma s u v) by (apply fin3_inj; congruence).
  rewrite Ep in *. destruct (ellipsoid_curvatures s u v Hs N) as [H C].
  exists u, v; eexists; exists H. split; [reflexivity|]. split; [exact C|]. eapply reports_curvatures; eauto.
Qed.

Lemma ellipsoid_f_range : forall (s : ellipsoid R) p, positive3 (el_scales s) -> on_ellipsoid s p ->
  forall lo hi, (forall k, k = vx (el_scales s) \/ k = vy (el_scales s) \/ k = vz (el_scales s) -> lo <= / k ^ 2 <= hi) ->
  lo <= (vx p - vx (el_center s)) ^ 2 / vx (el_scales s) ^ 4 + (vy p - vy (el_center s)) ^ 2 / vy (el_scales s) ^ 4 + (vz p - vz (el_center s)) ^ 2 / vz (el_scales s) ^ 4 <= hi.
Proof.
  intros s p [Ha [Hb Hc]] On lo hi H. unfold on_ellipsoid in On.
  set (a := vx (el_scales s)) in *. set (b := vy (el_scales s)) in *. set (c := vz (el_scales s)) in *.
  pose proof (H a (or_introl eq_refl)) as A. pose proof (H b (or_intror (or_introl eq_refl))) as B. pose proof (H c (or_intror (or_intror eq_refl))) as C.
  clear H.
  assert (K : forall x k, 0 < k -> lo <= / k ^ 2 <= hi -> lo * (x / k) ^ 2 <= x ^ 2 / k ^ 4 <= hi * (x / k) ^ 2).
  { intros x k Hk I. replace (x ^ 2 / k ^ 4) with (/ k ^ 2 * (x / k) ^ 2) by (field; lra).
    split; apply Rmult_le_compat_r; try lra; apply pow2_ge_0. }
  pose proof (K (vx p - vx (el_center s)) a Ha A). pose proof (K (vy p - vy (el_center s)) b Hb B). pose proof (K (vz p - vz (el_center s)) c Hc C).
  set (X := ((vx p - vx (el_center s)) / a) ^ 2) in *. set (Y := ((vy p - vy (el_center s)) / b) ^ 2) in *. set (Z := ((vz p - vz (el_center s)) / c) ^ 2) in *.
  assert (E : forall q, q = q * X + q * Y + q * Z) by (intros; transitivity (q * (X + Y + Z)); [rewrite On; ring|ring]).
  rewrite (E lo), (E hi). lra.
Qed.
Lemma ellipsoid_curvature_fin : forall (s : ellipsoid R) p, positive3 (el_scales s) -> on_ellipsoid s p ->
  ellipsoid_curvature (F:=XR L) (finellipsoid s) (fin3 p) = Fin (ellipsoid_K s p).
Proof.
  intros s p Hs On. pose proof Hs as [Ha [Hb Hc]].
  assert (Fp : 0 < (vx p - vx (el_center s)) ^ 2 / vx (el_scales s) ^ 4 + (vy p - vy (el_center s)) ^ 2 / vy (el_scales s) ^ 4 + (vz p - vz (el_center s)) ^ 2 / vz (el_scales s) ^ 4).
  { set (lo := Rmin (/ vx (el_scales s) ^ 2) (Rmin (/ vy (el_scales s) ^ 2) (/ vz (el_scales s) ^ 2))).
    set (hi := Rmax (/ vx (el_scales s) ^ 2) (Rmax (/ vy (el_scales s) ^ 2) (/ vz (el_scales s) ^ 2))).
    apply Rlt_le_trans with lo.
    - unfold lo. repeat apply Rmin_glb_lt; apply Rinv_0_lt_compat, pow_lt; auto.
    - apply (ellipsoid_f_range s p Hs On lo hi). unfold lo, hi. intros k [-> | [-> | ->]]; split;
        repeat first [apply Rle_refl | apply Rmin_l | apply Rmax_l | (eapply Rle_trans; [apply Rmin_r|]) | (eapply Rle_trans; [|apply Rmax_r])]. }
  unfold ellipsoid_curvature, ellipsoid_K, finellipsoid, fin3, map3; cbn [el_center el_scales vx vy vz]. xred. cbv zeta.
  unfold on_ellipsoid in On.
  set (a := vx (el_scales s)) in *. set (b := vy (el_scales s)) in *. set (c := vz (el_scales s)) in *.
  set (x := vx p - vx (el_center s)) in *. set (y := vy p - vy (el_center s)) in *. set (z := vz p - vz (el_center s)) in *.
  clearbody a b c x y z.
  set (f := x ^ 2 / a ^ 4 + y ^ 2 / b ^ 4 + z ^ 2 / c ^ 4) in *.
  match goal with |- context [Fin (?q * ?q)] => assert (Eq : q = a ^ 2 * b ^ 4 * c ^ 4 * f) end.
  { unfold f. replace (x ^ 2 / a ^ 4) with ((1 - (y / b) ^ 2 - (z / c) ^ 2) / a ^ 2).
    - field. lra.
    - replace (1 - (y / b) ^ 2 - (z / c) ^ 2) with ((x / a) ^ 2) by lra. field. lra. }
  rewrite Eq. assert (Pq : 0 < a ^ 2 * b ^ 4 * c ^ 4 * f) by positive.
  rewrite xdiv_fin by (apply Rgt_not_eq, Rmult_lt_0_compat; auto). f_equal. field. lra.
Qed.

Lemma std_min3_spec : forall x y z, exists m, std_min3 (F:=XR L) (Fin x) (Fin y) (Fin z) = Fin m /\
  m <= x /\ m <= y /\ m <= z /\ (m = x \/ m = y \/ m = z).
Proof.
  intros x y z. unfold std_min3, std_min. xred. destruct (Rltb_spec y x); xred; match goal with |- context [Rltb ?p ?q] => destruct (Rltb_spec p q) end;
    eexists; split; try reflexivity; repeat split; auto; lra.
Qed.
Lemma std_max3_spec : forall x y z, exists m, std_max3 (F:=XR L) (Fin x) (Fin y) (Fin z) = Fin m /\
  x <= m /\ y <= m /\ z <= m /\ (m = x \/ m = y \/ m = z).
Proof.
  intros x y z. unfold std_max3, std_max. xred. destruct (Rltb_spec x y); xred; match goal with |- context [Rltb ?p ?q] => destruct (Rltb_spec p q) end;
    eexists; split; try reflexivity; repeat split; auto; lra.
Qed.

Lemma inv_sq_anti : forall P x y, 0 < P -> 0 < x -> 0 < y -> / (P * x ^ 2) <= / (P * y ^ 2) -> y <= x.
Proof.
  intros P x y HP Hx Hy H. destruct (Rle_or_lt y x) as [|K]; auto. exfalso.
  assert (P * x ^ 2 < P * y ^ 2) by (apply Rmult_lt_compat_l; auto; nra).
  assert (0 < P * x ^ 2) by (apply Rmult_lt_0_compat; auto; apply pow_lt; auto).
  assert (0 < P * y ^ 2) by (apply Rmult_lt_0_compat; auto; apply pow_lt; auto).
  assert (/ (P * y ^ 2) < / (P * x ^ 2)) by (apply Rinv_lt_contravar; auto; apply Rmult_lt_0_compat; auto). lra.
Qed.
Lemma inv_sq_mono : forall P x y, 0 < P -> 0 < y -> y <= x -> / (P * x ^ 2) <= / (P * y ^ 2).
Proof.
  intros P x y HP Hy H. apply Rinv_le_contravar.
  - apply Rmult_lt_0_compat; auto. apply pow_lt; auto.
  - apply Rmult_le_compat_l; [lra|]. apply pow_incr. lra.
Qed.

Lemma ellipsoid_bounds_spec : forall (s : ellipsoid R), positive3 (el_scales s) ->
  exists k0 k1, ellipsoid_curvature_bounds (F:=XR L) (finellipsoid s) = (Fin k0, Fin k1) /\
    (forall p, on_ellipsoid s p -> k0 <= ellipsoid_K s p <= k1) /\
    (exists p, on_ellipsoid s p /\ ellipsoid_K s p = k0) /\ (exists p, on_ellipsoid s p /\ ellipsoid_K s p = k1).
Proof.
  intros s Hs. pose proof Hs as [Ha [Hb Hc]].
  unfold ellipsoid_curvature_bounds, finellipsoid, fin3, map3; cbn [el_scales vx vy vz]. xred.
  set (a := vx (el_scales s)) in *. set (b := vy (el_scales s)) in *. set (c := vz (el_scales s)) in *.
  assert (Hab : 0 < a * b) by (apply Rmult_lt_0_compat; auto). assert (Habc : 0 < a * b * c) by (apply Rmult_lt_0_compat; auto).
  assert (P2 : forall x, 0 < x -> 0 < x * x) by (intros; apply Rmult_lt_0_compat; auto).
  rewrite !xdiv_fin by (apply Rgt_not_eq, Rmult_lt_0_compat; auto).
  set (P := a ^ 2 * b ^ 2 * c ^ 2). assert (HP : 0 < P) by (unfold P; positive).
  assert (Ka : a * a / (c * c * (b * b)) = / (P * (/ a ^ 2) ^ 2)) by (unfold P; field; lra).
  assert (Kb : b * b / (a * a * (c * c)) = / (P * (/ b ^ 2) ^ 2)) by (unfold P; field; lra).
  assert (Kc : c * c / (a * a * (b * b)) = / (P * (/ c ^ 2) ^ 2)) by (unfold P; field; lra).
  rewrite Ka, Kb, Kc.
  destruct (std_min3_spec (/ (P * (/ c ^ 2) ^ 2)) (/ (P * (/ a ^ 2) ^ 2)) (/ (P * (/ b ^ 2) ^ 2))) as [k0 [-> [C0 [A0 [B0 D0]]]]].
  destruct (std_max3_spec (/ (P * (/ c ^ 2) ^ 2)) (/ (P * (/ a ^ 2) ^ 2)) (/ (P * (/ b ^ 2) ^ 2))) as [k1 [-> [C1 [A1 [B1 D1]]]]].
  assert (I : forall x, 0 < x -> 0 < / x ^ 2) by (intros; apply Rinv_0_lt_compat, pow_lt; auto).
  assert (E0 : exists h0, 0 < h0 /\ k0 = / (P * h0 ^ 2)) by (destruct D0 as [-> | [-> | ->]]; eexists; split; try reflexivity; auto).
  assert (E1 : exists h1, 0 < h1 /\ k1 = / (P * h1 ^ 2)) by (destruct D1 as [-> | [-> | ->]]; eexists; split; try reflexivity; auto).
  destruct E0 as [h0 [H0 E0]]. destruct E1 as [h1 [H1 E1]].
  assert (At : forall k, k = / (P * (/ c ^ 2) ^ 2) \/ k = / (P * (/ a ^ 2) ^ 2) \/ k = / (P * (/ b ^ 2) ^ 2) ->
    exists p, on_ellipsoid s p /\ ellipsoid_K s p = k).
  { assert (X : forall c' q, c' + q - c' = q) by (intros; ring).
    intros k [-> | [-> | ->]];
      [exists (addR (el_center s) (V3 0 0 c))|exists (addR (el_center s) (V3 a 0 0))|exists (addR (el_center s) (V3 0 b 0))];
      unfold on_ellipsoid, ellipsoid_K, addR; cbn [vx vy vz]; cbv zeta; fold a b c; rewrite !X; split; try (field; lra);
      fold P; do 3 f_equal; field; lra. }
  exists k0, k1. split; [reflexivity|]. split; [|split; apply At; auto].
  intros p On. unfold ellipsoid_K. cbv zeta. fold a b c. fold P.
  pose proof (ellipsoid_f_range s p Hs On h1 h0) as Rg. fold a b c in Rg. cbv zeta in Rg.
  set (f := (vx p - vx (el_center s)) ^ 2 / a ^ 4 + (vy p - vy (el_center s)) ^ 2 / b ^ 4 + (vz p - vz (el_center s)) ^ 2 / c ^ 4) in *.
  assert (Rf : h1 <= f <= h0).
  { apply Rg. subst k0 k1. intros k [-> | [-> | ->]]; split; apply inv_sq_anti with P; auto. }
  rewrite E0, E1. split; apply inv_sq_mono; lra.
Qed.

(** *** Principal curvatures *)
Lemma principal_spec : forall (rec : hit_record xr) E F G e f g,
  h_E rec = Fin E -> h_F rec = Fin F -> h_G rec = Fin G -> h_e rec = Fin e -> h_f rec = Fin f -> h_g rec = Fin g ->
  0 < E * G - F * F -> l_min L < 1 ->
  off_threshold (l_min L) ((e * G - 2 * f * F + g * E) / (E * G - F * F)) ->
  exists k1 k2 H K, principal_curvatures (F:=XR L) rec = (Fin k1, Fin k2) /\
    mean_curvature (F:=XR L) rec = Fin H /\ gaussian_curvature (F:=XR L) rec = Fin K /\
    k1 <= k2 /\ k1 + k2 = 2 * H /\ k1 * k2 = K.
Proof.
  intros rec E F G e f g HE HF HG He Hf Hg D Hm Off.
  set (d := E * G - F * F) in *.
  set (H := (e * G - 2 * f * F + g * E) / (2 * d)). set (K := (e * g - f * f) / d).
  assert (EH : mean_curvature (F:=XR L) rec = Fin H).
  { unfold mean_curvature. change (@num (XR L)) with xr in *. rewrite HE, HF, HG, He, Hf, Hg. xred. fold d. rewrite xdiv_fin by lra. reflexivity. }
  assert (EK : gaussian_curvature (F:=XR L) rec = Fin K).
  { unfold gaussian_curvature. change (@num (XR L)) with xr in *. rewrite HE, HF, HG, He, Hf, Hg. xred. fold d. rewrite xdiv_fin by lra. reflexivity. }
  unfold principal_curvatures. rewrite EH, EK. xred.
  assert (NE : E <> 0) by (intros ->; unfold d in D; nra).
  assert (Disc : 0 <= H * H - K).
  { assert (I : E * E * (4 * d * d * (H * H - K)) = (e * d - (g * E * E - 2 * f * E * F + e * F * F)) ^ 2 + 4 * d * (f * E - e * F) ^ 2).
    { unfold H, K. transitivity (E * E * ((e * G - 2 * f * F + g * E) * (e * G - 2 * f * F + g * E) - 4 * (e * g - f * f) * d)); [field; lra|].
      unfold d. ring. }
    assert (P : 0 <= E * E * (4 * d * d * (H * H - K))).
    { rewrite I. apply Rplus_le_le_0_compat; [apply pow2_ge_0|apply Rmult_le_pos; [lra|apply pow2_ge_0]]. }
    destruct (Rle_or_lt 0 (H * H - K)) as [|N]; auto. exfalso.
    assert (0 < E * E) by (apply Rsqr_pos_lt in NE; exact NE). assert (0 < d * d) by (apply Rmult_lt_0_compat; auto).
    assert (0 < E * E * (d * d)) by (apply Rmult_lt_0_compat; auto). nra. }
  assert (Q2 : quadR 1 (-2 * H) K (H + sqrt (H * H - K)) = 0).
  { unfold quadR. set (q := sqrt (H * H - K)). assert (q * q = H * H - K) by (apply sqrt_sqrt; auto).
    transitivity (q * q - (H * H - K)); [ring|lra]. }
  destruct (quadratic_roots_set L 1 (-2 * H) K) as [l [El [Inc [Sh Z]]]].
  { right. rewrite Rabs_R1. auto. }
  { destruct Off as [Off|Off]; [left|right].
    - unfold H. replace (-2 * ((e * G - 2 * f * F + g * E) / (2 * d))) with (- ((e * G - 2 * f * F + g * E) / d)) by (field; lra). rewrite Off. ring.
    - unfold H. replace (-2 * ((e * G - 2 * f * F + g * E) / (2 * d))) with (- ((e * G - 2 * f * F + g * E) / d)) by (field; lra). rewrite Rabs_Ropp. auto. }
  { intros [A _]; lra. }
  match goal with |- context [match ?q with _ => _ end] => change q with (quadratic_roots (F:=XR L) (Fin 1) (Fin (-2 * H)) (Fin K)) end.
  rewrite El. destruct Sh as [->|[r0 [r1 ->]]]; [apply Z in Q2; destruct Q2|]. cbn [map].
  destruct Inc as [Inc _]. specialize (Inc r1 (or_introl eq_refl)).
  exists r0, r1, H, K. split; [reflexivity|]. split; [auto|]. split; [auto|]. split; [auto|].
  assert (Z0 : quadR 1 (-2 * H) K r0 = 0) by (apply Z; left; auto). assert (Z1 : quadR 1 (-2 * H) K r1 = 0) by (apply Z; right; left; auto).
  assert (M : forall x, quadR 1 (-2 * H) K x = 0 -> quadR 1 (-2 * H) K (2 * H - x) = 0) by (unfold quadR; intros x Hx; rewrite <- Hx; ring).
  pose proof (proj2 (Z _) (M _ Z0)) as I0. pose proof (proj2 (Z _) (M _ Z1)) as I1.
  assert (Sum : r0 + r1 = 2 * H) by (destruct I0 as [I0|[I0|[]]], I1 as [I1|[I1|[]]]; lra).
  split; auto. unfold quadR in Z0. replace r1 with (2 * H - r0) by lra. lra.
Qed.

(** *** At the poles the first form is singular *)
Definition pole_ray : ray R := Ray (V3 0 0 5) (V3 0 0 (-1)).
Definition unit_sphere : sphere R := Sphere zeroR 1.
Lemma sphere_pole : forall rec : hit_record xr, l_min L < 1 -> exists rec',
  sphere_hit (F:=XR L) (finsphere unit_sphere) (finray pole_ray) (Fin 0) PInf rec = Ok (true, rec') /\
  gaussian_curvature (F:=XR L) rec' = NaN.
Proof.
  intros rec Hm.
  assert (Off : sphere_off_threshold (l_min L) unit_sphere pole_ray).
  { unfold sphere_off_threshold, unit_sphere, pole_ray, off_threshold, zeroR, normsqR, dotR, subR; cbn [s_center r_orig r_dir vx vy vz].
    split; [intros E; injection E; lra|]. split; right; [rewrite Rabs_right by lra; lra|rewrite Rabs_left by lra; lra]. }
  destruct (sphere_contract (L:=L) unit_sphere ltac:(cbn; lra) pole_ray Off) as [C _].
  assert (On : forall t, on_sphere unit_sphere (pointR pole_ray t) <-> t = 4 \/ t = 6).
  { intros t. rewrite on_sphere_iff by (cbn; lra). unfold unit_sphere, pole_ray, zeroR, pointR, lineR, normsqR, dotR, subR, addR, scaleR; cbn [s_center s_radius r_orig r_dir vx vy vz].
    split; [intros E; assert (Z : (t - 4) * (t - 6) = 0) by nra; apply Rmult_integral in Z; lra|intros [->| ->]; lra]. }
  destruct (C (Fin 0) PInf rec ltac:(discriminate) ltac:(discriminate)) as [b [rec' [E H]]].
  destruct b.
  2:{ exfalso. apply (H 4); [apply On; auto|]. split; cbn; [lra|auto]. }
  exists rec'. split; [exact E|]. destruct H as [t [Ht [Mt [Wt [Mn D]]]]].
  assert (T4 : t = 4).
  { apply On in Mt. destruct Mt as [->| ->]; auto. specialize (Mn 4). rewrite On in Mn. assert (6 <= 4) by (apply Mn; [auto|split; cbn; [lra|auto]]). lra. }
  subst t. destruct D as [[_ Hp] [_ [[u [v [Hu [Hv [_ [_ Hp']]]]]] [_ [F S]]]]].
  assert (Ep : pointR pole_ray 4 = sphere_sigma unit_sphere u v) by (apply fin3_inj; congruence).
  assert (Sn : sin (PI * v) = 0).
  { pose proof (f_equal vx Ep) as X. pose proof (f_equal vy Ep) as Y.
    unfold unit_sphere, pole_ray, zeroR, pointR, lineR, addR, scaleR, sphere_sigma in X, Y; cbn [s_center s_radius r_orig r_dir vx vy vz addR scaleR] in X, Y.
    pose proof (sc2 (2 * PI * u)) as Q. set (q := sin (PI * v)) in *. set (su := sin (2 * PI * u)) in *. set (cu := cos (2 * PI * u)) in *.
    assert (Z1 : cu * q = 0) by lra. assert (Z2 : su * q = 0) by lra.
    apply Rsqr_0_uniq. unfold Rsqr. transitivity ((su * su + cu * cu) * (q * q)); [rewrite Q; ring|].
    transitivity ((su * q) * (su * q) + (cu * q) * (cu * q)); [ring|rewrite Z1, Z2; ring]. }
  destruct F as [u1 [v1 [E1 [F1 [G1 [U1 [V1 [HE [HF [HG F]]]]]]]]]]. destruct S as [u2 [v2 [e2 [f2 [g2 [U2 [V2 [He [Hf [Hg S]]]]]]]]]].
  assert (Hr : 0 < s_radius unit_sphere) by (cbn; lra).
  destruct (sphere_forms_spec unit_sphere Hr u v) as [FF SF].
  rewrite Hu in U1, U2. rewrite Hv in V1, V2. injection U1 as <-. injection U2 as <-. injection V1 as <-. injection V2 as <-.
  rewrite Ep in S.
  destruct (first_form_unique _ _ _ _ _ _ _ _ _ F FF) as [-> [-> ->]].
  destruct (second_form_unique _ _ _ _ _ _ _ _ _ _ S SF) as [-> [-> ->]].
  rewrite Sn in HE, He.
  unfold gaussian_curvature. change (@num (XR L)) with xr in *. rewrite HE, HF, HG, He, Hf, Hg. xred.
  match goal with |- xdiv (Fin ?a) (Fin ?b) = _ => replace a with 0 by (cbn; field); replace b with 0 by (cbn; ring) end.
  apply xdiv_zero_zero.
Qed.
End L.
