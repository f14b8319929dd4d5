(** Normals and operator() of the closed-form shapes (C27, C28). *)
From Coq Require Import Reals Lra ZArith List Bool.
From Coquelicot Require Import Coquelicot.
From Verif Require Import Num XR Spec M_Vec M_Hittable M_Shapes Spec_Scene Spec_Shapes
  P_Vec P_Quadratic P_Deriv P_Sphere P_Ellipsoid P_Flat P_Cylinder P_Torus.
Import ListNotations.
Local Open Scope R_scope.

Lemma contract_true : forall (L : limits) (r : ray R) (o : hittable (F:=XR L)) meets D (lo hi : xr) rec rec',
  hit_contract r o meets D -> lo <> NaN -> hi <> NaN -> hit o (finray r) lo hi rec = Ok (true, rec') ->
  exists t, meets t /\ D t rec'.
Proof.
  intros L r o meets D lo hi rec rec' C Hl Hh E. destruct (C lo hi rec Hl Hh) as [b [rec1 [E1 H]]].
  rewrite E in E1. injection E1 as <- <-. destruct H as [t [_ [M [_ [_ Dt]]]]]. eauto.
Qed.

Lemma second_form_normal : forall sigma r out k rec, k <> 0 ->
  facing_normal r out rec -> has_second_form sigma (scaleR k out) rec -> normal_to sigma r rec.
Proof.
  intros sigma r out k rec Hk [n [Hn [N1 [Nd [Ft Ff]]]]]
    (u & v & e & f & g & Hu & Hv & _ & _ & _ & su & sv & suu & suv & svu & svv & P & _ & _ & _ & D1 & D2 & _).
  exists u, v, n, su, sv. split; [auto|]. split; [auto|]. split; [auto|]. split; [auto|].
  assert (exists q, n = scaleR q out) as [q ->].
  { destruct (h_front rec); [destruct (Ft eq_refl) as [_ [q [_ ->]]]|destruct (Ff eq_refl) as [_ [q [_ ->]]]]; eauto. }
  assert (Q : forall w, dotR (scaleR k out) w = 0 -> dotR (scaleR q out) w = 0).
  { intros w E. replace (dotR (scaleR k out) w) with (k * dotR out w) in E by (unfold dotR, scaleR; cbn [vx vy vz]; ring).
    apply Rmult_integral in E. destruct E as [E|E]; [contradiction|].
    transitivity (q * dotR out w); [unfold dotR, scaleR; cbn [vx vy vz]; ring|rewrite E; ring]. }
  repeat split; auto.
Qed.

Section L.
Context {L : limits}.

Lemma sphere_normal : forall (s : sphere R) r t rec, 0 < s_radius s -> describes_sphere s r t rec ->
  normal_to (sphere_sigma s) r rec.
Proof.
  intros s r t rec Hr [_ [N [_ [_ [_ S]]]]].
  replace (scaleR _ _) with (scaleR (- / s_radius s) (subR (pointR r t) (s_center s))) in S.
  - refine (second_form_normal _ _ _ _ _ _ N S). apply Ropp_neq_0_compat, Rinv_neq_0_compat; lra.
  - unfold scaleR, subR; cbn [vx vy vz]; apply V3_ext; ring.
Qed.
Lemma normR_scale : forall k v, normR (scaleR k v) = Rabs k * normR v.
Proof.
  intros. unfold normR. replace (normsqR (scaleR k v)) with ((k * k) * normsqR v) by (unfold normsqR, dotR, scaleR; cbn [vx vy vz]; ring).
  rewrite sqrt_mult_alt by (apply Rle_0_sqr). f_equal. apply sqrt_Rsqr_abs.
Qed.
Lemma ellipsoid_normal : forall (s : ellipsoid R) r t rec, describes_ellipsoid s r t rec ->
  normal_to (ellipsoid_sigma s) r rec.
Proof.
  intros s r t rec [_ [N [_ [_ [_ S]]]]]. refine (second_form_normal _ _ _ _ _ _ N S).
  assert (G : normR (ellipsoid_gradR s (pointR r t)) <> 0).
  { intros E. destruct S as (u & v & e & f & g & _ & _ & _ & _ & _ & su & sv & suu & suv & svu & svv & _ & _ & _ & N1 & _).
    unfold ell_inward in N1. rewrite normR_scale, E in N1. rewrite Rmult_0_r in N1. lra. }
  apply Ropp_neq_0_compat, Rinv_neq_0_compat; auto.
Qed.
Lemma torus_normal_to : forall (o : torus R) r t rec, 0 < o_r o -> describes_torus o r t rec ->
  normal_to (torus_sigma o) r rec.
Proof.
  intros o r t rec Hr [_ [N [_ [_ [_ S]]]]]. refine (second_form_normal _ _ _ _ _ _ N S). apply Rinv_neq_0_compat; lra.
Qed.
Lemma cylinder_normal : forall (c : cylinder R) r t rec, 0 < c_radius c -> describes_cylinder c r t rec ->
  normal_to (cylinder_sigma c) r rec.
Proof.
  intros c r t rec Hr [_ [N [_ [_ [_ S]]]]].
  replace (scaleR (/ c_radius c) (V3 (- vx (pointR r t)) (- vy (pointR r t)) 0)) with
    (scaleR (- / c_radius c) (V3 (vx (pointR r t)) (vy (pointR r t)) 0)) in S.
  - refine (second_form_normal _ _ _ _ _ _ N S). apply Ropp_neq_0_compat, Rinv_neq_0_compat; lra.
  - unfold scaleR; cbn [vx vy vz]; apply V3_ext; ring.
Qed.

(** *** Flat shapes *)
Lemma flat_normal : forall sigma r n su sv rec, partials sigma su sv ->
  (forall u v, dotR n (su u v) = 0) -> (forall u v, dotR n (sv u v) = 0) ->
  facing_normal r n rec -> parameters sigma rec -> normal_to sigma r rec.
Proof.
  intros sigma r n su sv rec P D1 D2 [m [Hn [N1 [Nd [Ft Ff]]]]] [u [v [Hu [Hv _]]]].
  exists u, v, m, su, sv. split; [auto|]. split; [auto|]. split; [auto|]. split; [auto|].
  assert (exists q, m = scaleR q n) as [q ->].
  { destruct (h_front rec); [destruct (Ft eq_refl) as [_ [q [_ ->]]]|destruct (Ff eq_refl) as [_ [q [_ ->]]]]; eauto. }
  assert (Q : forall w, dotR n w = 0 -> dotR (scaleR q n) w = 0).
  { intros w E. transitivity (q * dotR n w); [unfold dotR, scaleR; cbn [vx vy vz]; ring|rewrite E; ring]. }
  split; [apply Q; apply D1|]. split; [apply Q; apply D2|]. split; auto.
Qed.

Lemma disk_normal : forall c e1 e2 n radius r t rec, frame e1 e2 n -> describes_disk c e1 e2 n radius r t rec ->
  normal_to (disk_sigma c e1 e2 radius) r rec.
Proof.
  intros c e1 e2 n radius r t rec Fr [_ [N [P _]]].
  pose proof Fr as [_ [_ [_ [O12 Cr]]]].
  assert (Z1 : dotR n e1 = 0) by (rewrite <- Cr; unfold dotR, crossR; cbn [vx vy vz]; ring).
  assert (Z2 : dotR n e2 = 0) by (rewrite <- Cr; unfold dotR, crossR; cbn [vx vy vz]; ring).
  assert (Z : forall a b, dotR n (addR (scaleR a e1) (scaleR b e2)) = 0).
  { intros a b. transitivity (a * dotR n e1 + b * dotR n e2); [unfold dotR, addR, scaleR; cbn [vx vy vz]; ring|rewrite Z1, Z2; ring]. }
  apply (flat_normal _ r n
    (fun u v => addR (scaleR (radius * v * (- (2 * PI) * sin (2 * PI * u))) e1) (scaleR (radius * v * (2 * PI * cos (2 * PI * u))) e2))
    (fun u v => addR (scaleR (radius * cos (2 * PI * u)) e1) (scaleR (radius * sin (2 * PI * u)) e2))); auto.
  intros u0 v0. unfold disk_sigma, addR, scaleR. solve_deriv3.
Qed.
Lemma rect_normal : forall (q : rect R) r t rec,
  (describes_rect (V3 0 0 1) (xy_sigma q) r t rec -> normal_to (xy_sigma q) r rec) /\
  (describes_rect (V3 0 1 0) (xz_sigma q) r t rec -> normal_to (xz_sigma q) r rec) /\
  (describes_rect (V3 1 0 0) (yz_sigma q) r t rec -> normal_to (yz_sigma q) r rec).
Proof.
  intros q r t rec. split; [|split]; intros [_ [N P]].
  - apply (flat_normal _ r (V3 0 0 1) (fun _ _ => V3 (q_a1 q - q_a0 q) 0 0) (fun _ _ => V3 0 (q_b1 q - q_b0 q) 0)); auto.
    + intros u v. unfold xy_sigma. solve_deriv3.
    + intros; unfold dotR; cbn; ring.
    + intros; unfold dotR; cbn; ring.
  - apply (flat_normal _ r (V3 0 1 0) (fun _ _ => V3 (q_a1 q - q_a0 q) 0 0) (fun _ _ => V3 0 0 (q_b1 q - q_b0 q))); auto.
    + intros u v. unfold xz_sigma. solve_deriv3.
    + intros; unfold dotR; cbn; ring.
    + intros; unfold dotR; cbn; ring.
  - apply (flat_normal _ r (V3 1 0 0) (fun _ _ => V3 0 (q_a1 q - q_a0 q) 0) (fun _ _ => V3 0 0 (q_b1 q - q_b0 q))); auto.
    + intros u v. unfold yz_sigma. solve_deriv3.
    + intros; unfold dotR; cbn; ring.
    + intros; unfold dotR; cbn; ring.
Qed.

(** *** operator()(u,v) *)
Lemma sphere_at_fin : forall (s : sphere R) u v, sphere_at (F:=XR L) (finsphere s) (Fin u) (Fin v) = fin3 (sphere_sigma s u v).
Proof.
  intros. unfold sphere_at, finsphere, sphere_sigma, addR, scaleR, fin3, map3; cbn [s_center s_radius vx vy vz]. xred.
  apply V3x_ext; f_equal; ring.
Qed.
Lemma ellipsoid_at_fin : forall (s : ellipsoid R) u v, ellipsoid_at (F:=XR L) (finellipsoid s) (Fin u) (Fin v) = fin3 (ellipsoid_sigma s u v).
Proof.
  intros. unfold ellipsoid_at, finellipsoid, ellipsoid_sigma, addR, scaleR, fin3, map3; cbn [el_center el_scales vx vy vz]. xred.
  apply V3x_ext; f_equal; ring.
Qed.
Lemma cylinder_at_fin : forall (c : cylinder R) u v, cylinder_at (F:=XR L) (fincylinder c) (Fin u) (Fin v) = fin3 (cylinder_sigma c u v).
Proof.
  intros. unfold cylinder_at, fincylinder, cylinder_sigma, fin3, map3; cbn [c_radius c_zmin c_zmax vx vy vz]. xred.
  apply V3x_ext; f_equal; ring.
Qed.
Lemma torus_at_fin : forall (o : torus R) u v, torus_at (F:=XR L) (fintorus o) (Fin u) (Fin v) = fin3 (torus_sigma o u v).
Proof.
  intros. unfold torus_at, fintorus, torus_sigma, addR, fin3, map3; cbn [o_center o_R o_r vx vy vz]. xred.
  apply V3x_ext; f_equal; ring.
Qed.
End L.
