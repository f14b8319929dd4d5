(** Cylinder (C23, C27, C28, C31, C34). *)
From Coq Require Import Reals Lra ZArith List Bool.
From Verif Require Import Num XR Spec M_Vec M_Roots M_Hittable M_Shapes Spec_Scene Spec_Shapes
  P_Vec P_Quadratic P_Angle P_Deriv P_Sphere P_Flat.
Import ListNotations.
Local Open Scope R_scope.

Section L.
Context {L : limits}.
Variable c : cylinder R.
Hypothesis Hr : 0 < c_radius c.
Hypothesis Hz : c_zmin c < c_zmax c.

(** C28 *)
Lemma cylinder_uv_spec : forall p, on_cylinder c p ->
  exists u v, cylinder_uv (F:=XR L) (fincylinder c) (fin3 p) = (Fin u, Fin v) /\ 0 <= u <= 1 /\ 0 <= v <= 1 /\
    cylinder_sigma c u v = p.
Proof.
  intros p [Hp Hpz]. destruct p as [x y z]. cbn [vx vy vz] in *.
  unfold cylinder_uv, fincylinder, fin3, map3; cbn [c_radius c_zmin c_zmax vx vy vz]. xred.
  rewrite xdiv_fin by lra. unfold std_clamp. xred.
  assert (V : 0 <= (z - c_zmin c) / (c_zmax c - c_zmin c) <= 1).
  { split; [apply Rmult_le_pos; [lra|left; apply Rinv_0_lt_compat; lra]|].
    apply Rmult_le_reg_r with (c_zmax c - c_zmin c); [lra|].
    replace ((z - c_zmin c) / (c_zmax c - c_zmin c) * (c_zmax c - c_zmin c)) with (z - c_zmin c) by (field; lra). lra. }
  rewrite !Rltb_false by lra.
  destruct (azimuth_spec (L:=L) y x) as [u [Eu [Hu [Cu Su]]]]. rewrite Eu.
  exists u. eexists. split; [reflexivity|]. split; [lra|]. split; [lra|].
  assert (S : sqrt (x * x + y * y) = c_radius c).
  { replace (x * x + y * y) with (c_radius c * c_radius c) by lra. apply sqrt_square; lra. }
  rewrite S in *. unfold cylinder_sigma. rewrite Cu, Su. apply V3_ext; auto. field; lra.
Qed.

Lemma cylinder_forms_spec : forall u v,
  let h := c_zmax c - c_zmin c in
  first_form (cylinder_sigma c) u v (4 * PI * PI * c_radius c * c_radius c) 0 (h * h) /\
  second_form (cylinder_sigma c) (V3 (- cos (2 * PI * u)) (- sin (2 * PI * u)) 0) u v (4 * PI * PI * c_radius c) 0 0.
Proof.
  intros u v h. destruct (cylinder_partials c) as [P1 [P2 P3]].
  pose proof (sc2 (2 * PI * u)) as A.
  split.
  - exists (cylinder_su c), (cylinder_sv c). split; auto.
    unfold cylinder_su, cylinder_sv, dotR, scaleR; cbn [vx vy vz]. fold h.
    set (su := sin (2 * PI * u)) in *. set (cu := cos (2 * PI * u)) in *.
    repeat split; try ring.
    transitivity (4 * PI * PI * c_radius c * c_radius c * (su * su + cu * cu)); [rewrite A; ring|ring].
  - exists (cylinder_su c), (cylinder_sv c). do 4 eexists. split; [exact P1|]. split; [exact P2|]. split; [exact P3|].
    unfold cylinder_su, cylinder_sv, cylinder_suu, zero_field, zeroR, normR, normsqR, dotR, scaleR; cbn [vx vy vz].
    set (su := sin (2 * PI * u)) in *. set (cu := cos (2 * PI * u)) in *.
    split; [|repeat split; try ring].
    + replace (_ + _) with 1 by lra. apply sqrt_1.
    + transitivity (4 * PI * PI * c_radius c * (su * su + cu * cu)); [rewrite A; ring|ring].
Qed.

(** the end of [hit], when the record holds a point of the surface *)
Lemma cylinder_finish_spec : forall r t (rec : hit_record xr), on_cylinder c (pointR r t) -> at_point r t rec ->
  exists rec', cylinder_finish (F:=XR L) (fincylinder c) (finray r) rec = Ok (true, rec') /\ describes_cylinder c r t rec'.
Proof.
  intros r t rec On [Et Ep]. unfold cylinder_finish. change (@num (XR L)) with xr in *. rewrite Ep.
  set (p := pointR r t) in *.
  assert (G : V3 (nmul (NumOps:=XR L) (nofZ 2) (vx (fin3 p))) (nmul (NumOps:=XR L) (nofZ 2) (vy (fin3 p))) (nofZ (NumOps:=XR L) 0) =
    fin3 (scaleR 2 (V3 (vx p) (vy p) 0))).
  { unfold fin3, map3, scaleR; cbn [vx vy vz]. xred. apply V3x_ext; auto. f_equal; ring. }
  change (@num (XR L)) with xr in *. rewrite G, norm_fin.
  assert (N : normR (scaleR 2 (V3 (vx p) (vy p) 0)) = 2 * c_radius c).
  { unfold normR. rewrite normsqR_scale. destruct On as [On _]. unfold normsqR, dotR; cbn [vx vy vz].
    replace (2 * 2 * _) with ((2 * c_radius c) * (2 * c_radius c)) by nra. apply sqrt_square; lra. }
  rewrite N.
  match goal with |- context [h_grad ?q] => change (h_grad q) with (Fin (2 * c_radius c)) end.
  rewrite vdiv_fin by lra.
  assert (S : scaleR (/ (2 * c_radius c)) (scaleR 2 (V3 (vx p) (vy p) 0)) = scaleR (/ c_radius c) (V3 (vx p) (vy p) 0)).
  { unfold scaleR; cbn [vx vy vz]. apply V3_ext; field; lra. }
  rewrite S.
  destruct (cylinder_uv_spec p On) as [u [v [Euv [Hu [Hv Es]]]]].
  set (rec1 := set_face_normal (F:=XR L) _ _ _).
  assert (P1 : h_p rec1 = fin3 p) by exact Ep.
  assert (T1 : h_t rec1 = Fin t) by exact Et.
  change (@num (XR L)) with xr in *. rewrite P1, Euv.
  assert (Q : negb (nltb (NumOps:=XR L) (cylinder_expected (F:=XR L) (fincylinder c))
     (nabs (NumOps:=XR L) (cylinder_residual (F:=XR L) (fincylinder c)
       (h_p (cylinder_forms (F:=XR L) (fincylinder c) (set_v (Fin v) (set_u (Fin u) rec1))))))) = true).
  { replace (h_p (cylinder_forms (F:=XR L) (fincylinder c) (set_v (Fin v) (set_u (Fin u) rec1)))) with (fin3 p) by (symmetry; exact P1).
    unfold cylinder_residual, cylinder_expected, fincylinder, fin3, map3; cbn [c_radius vx vy vz]. xred.
    destruct On as [On _]. replace (vx p * vx p + vy p * vy p - c_radius c * c_radius c) with 0 by lra.
    rewrite Rabs_R0, Rltb_false; auto. pose proof (l_eps_pos L). apply Rmult_le_pos; [apply Rmult_le_pos|]; lra. }
  change (@num (XR L)) with xr in *. rewrite Q. eexists. split; [reflexivity|].
  unfold describes_cylinder. fold p. cbv zeta.
  split; [split; [exact T1|exact P1]|].
  split; [|split; [|split; [|split]]].
  - destruct (face_normal_spec (L:=L) r (V3 (vx p) (vy p) 0) (/ c_radius c)
      (set_grad (Fin (2 * c_radius c)) rec)) as [_ FN]; [apply Rinv_0_lt_compat; auto| |].
    + apply normR_unit. rewrite normsqR_scale. unfold normsqR, dotR; cbn [vx vy vz]. destruct On as [On _].
      replace (vx p * vx p + vy p * vy p + 0 * 0) with (c_radius c * c_radius c) by lra. field; lra.
    + apply FN; reflexivity.
  - exists u, v. cbn. repeat split; auto; try tauto. rewrite Es. exact P1.
  - reflexivity.
  - destruct (cylinder_forms_spec u v) as [F1 _]. do 5 eexists. cbn. repeat (split; [reflexivity|]). exact F1.
  - destruct (cylinder_forms_spec u v) as [_ F2].
    assert (En : scaleR (/ c_radius c) (V3 (- vx p) (- vy p) 0) = V3 (- cos (2 * PI * u)) (- sin (2 * PI * u)) 0).
    { rewrite <- Es. unfold cylinder_sigma, scaleR; cbn [vx vy vz]. apply V3_ext; field; lra. }
    rewrite En. do 5 eexists. cbn. repeat (split; [reflexivity|]). exact F2.
Qed.

Lemma cylinder_quad : forall (r : ray R) t,
  let o := r_orig r in let d := r_dir r in
  quadR (vx d * vx d + vy d * vy d) (2 * (vx o * vx d + vy o * vy d)) (vx o * vx o + vy o * vy o - c_radius c * c_radius c) t = 0
  <-> on_wall c r t.
Proof.
  intros r t o d. unfold quadR, on_wall, pointR, lineR, addR, scaleR; cbn [vx vy vz]. fold o d.
  split; intros; nra.
Qed.

(** C23, rays which do not cross the wall before the window *)
Lemma cylinder_exact : forall r (lo hi : xr) (rec : hit_record xr), cylinder_off_threshold (l_min L) r ->
  lo <> NaN -> hi <> NaN -> (forall t, on_wall c r t -> at_least lo t) ->
  hit_exact (L:=L) r (of_cylinder (F:=XR L) (fincylinder c)) (fun t => on_cylinder c (pointR r t)) (describes_cylinder c r) lo hi rec.
Proof.
  intros r lo hi rec [Ha [Hb Hd]] Hlo Hhi Hw. unfold hit_exact. cbn [hit of_cylinder].
  unfold cylinder_hit.
  change (r_orig (finray r)) with (fin3 (r_orig r)). change (r_dir (finray r)) with (fin3 (r_dir r)).
  change (c_radius (fincylinder c)) with (Fin (c_radius c)).
  change (c_zmin (fincylinder c)) with (Fin (c_zmin c)). change (c_zmax (fincylinder c)) with (Fin (c_zmax c)).
  unfold fin3 at 1 2 3 4 5 6 7 8 9 10 11 12, map3; cbn [vx vy vz]. xred.
  destruct (quadratic_roots_set L _ _ (vx (r_orig r) * vx (r_orig r) + vy (r_orig r) * vy (r_orig r) - c_radius c * c_radius c) Ha Hb) as [l [E [Inc [Sh Z]]]].
  { intros [A _]. destruct Hd; nra. }
  match type of E with ?q = _ => match goal with |- context [match ?q' with _ => _ end] => change q' with q end end.
  rewrite E.
  assert (Zw : forall t, In t l <-> on_wall c r t) by (intros t; rewrite Z; apply cylinder_quad).
  assert (Cw : forall t, on_cylinder c (pointR r t) <-> on_wall c r t /\ c_zmin c <= vz (pointR r t) <= c_zmax c) by (intros; reflexivity).
  clear Z E.
  destruct Sh as [->|[t0 [t1 ->]]]; cbn [map].
  { exists false, rec. split; auto. intros t Ht. apply Cw in Ht. destruct Ht as [Ht _]. apply Zw in Ht. destruct Ht. }
  destruct Inc as [Inc _]. specialize (Inc t1 (or_introl eq_refl)).
  assert (W0 : on_wall c r t0) by (apply Zw; left; auto). assert (W1 : on_wall c r t1) by (apply Zw; right; left; auto).
  assert (Ray : forall t, ray_at (F:=XR L) (finray r) (Fin t) = fin3 (pointR r t)) by reflexivity.
  assert (ZT : forall t, (xltb (Fin (c_zmax c)) (Fin (vz (pointR r t))) || xltb (Fin (vz (pointR r t))) (Fin (c_zmin c)) = true /\ ~ on_cylinder c (pointR r t)) \/
     (on_wall c r t -> on_cylinder c (pointR r t)) /\ xltb (Fin (c_zmax c)) (Fin (vz (pointR r t))) || xltb (Fin (vz (pointR r t))) (Fin (c_zmin c)) = false).
  { intros t. xred. destruct (Rltb_spec (c_zmax c) (vz (pointR r t))); cbn [orb].
    - left. split; auto. intros [_ ?]; lra.
    - destruct (Rltb_spec (vz (pointR r t)) (c_zmin c)); [left|right]; split; auto; intros; try (intros [_ ?]; lra). split; auto. }
  destruct (window_test lo hi t0 Hlo Hhi) as [[E0 N0]|[E0 N0]]; xred; rewrite E0.
  - assert (N1 : ~ in_window lo hi t1).
    { intros [_ B]. apply N0. split; [auto|]. destruct hi; cbn in *; auto; lra. }
    destruct (window_test lo hi t1 Hlo Hhi) as [[E1 _]|[_ C]]; [|contradiction]. xred. rewrite E1.
    exists false, rec. split; auto. intros t Ht. apply Cw in Ht. destruct Ht as [Ht _]. apply Zw in Ht. destruct Ht as [<-|[<-|[]]]; auto.
  - change (h_t (set_t (Fin t0) rec)) with (Fin t0). rewrite Ray.
    set (rec0 := set_p (fin3 (pointR r t0)) (set_t (Fin t0) rec)).
    change (vz (h_p rec0)) with (Fin (vz (pointR r t0))).
    destruct (ZT t0) as [[ET NT]|[NT ET]]; xred; rewrite ET.
    + change (h_t (set_t (Fin t1) rec0)) with (Fin t1).
      destruct (window_test lo hi t1 Hlo Hhi) as [[E1 N1]|[E1 N1]]; xred; rewrite E1.
      * eexists false, _. split; [reflexivity|]. intros t Ht.
        pose proof Ht as Ht'. apply Cw in Ht'. destruct Ht' as [Ht' _]. apply Zw in Ht'. destruct Ht' as [<-|[<-|[]]]; auto.
      * rewrite Ray. set (rec1 := set_p (fin3 (pointR r t1)) (set_t (Fin t1) rec0)).
        change (vz (h_p rec1)) with (Fin (vz (pointR r t1))).
        destruct (ZT t1) as [[ET1 NT1]|[NT1 ET1]]; xred; rewrite ET1.
        -- eexists false, _. split; [reflexivity|]. intros t Ht.
           pose proof Ht as Ht'. apply Cw in Ht'. destruct Ht' as [Ht' _]. apply Zw in Ht'. destruct Ht' as [<-|[<-|[]]]; auto.
        -- destruct (cylinder_finish_spec r t1 rec1 (NT1 W1)) as [rec' [EF D]]; [split; reflexivity|].
           exists true, rec'. split; [exact EF|]. exists t1. split; [apply D|]. split; [auto|]. split; [auto|]. split; [|exact D].
           intros t' Ht' _. pose proof Ht' as Hw'. apply Cw in Hw'. destruct Hw' as [Hw' _]. apply Zw in Hw'. destruct Hw' as [<-|[<-|[]]]; [contradiction|lra].
    + destruct (cylinder_finish_spec r t0 rec0 (NT W0)) as [rec' [EF D]]; [split; reflexivity|].
      exists true, rec'. split; [exact EF|]. exists t0. split; [apply D|]. split; [auto|]. split; [auto|]. split; [|exact D].
      intros t' Ht' _. apply Cw in Ht'. destruct Ht' as [Ht' _]. apply Zw in Ht'. destruct Ht' as [<-|[<-|[]]]; lra.
Qed.

(** C34 *)
Lemma cylinder_boxed : exists B, cylinder_box (F:=XR L) (fincylinder c) = Some (finbox B) /\
  forall p, on_cylinder c p -> in_box B p.
Proof.
  exists (Box (V3 (- c_radius c) (- c_radius c) (c_zmin c)) (V3 (c_radius c) (c_radius c) (c_zmax c))).
  split; [reflexivity|]. intros p [H1 H2]. unfold in_box; cbn [b_min b_max vx vy vz]. repeat split; nra.
Qed.
End L.

(** The ray from inside the cylinder: the first root lies before the window and the
    code never computes the record for the second. *)
Definition inner_ray : ray R := Ray zeroR (V3 1 0 0).
Definition unit_cylinder : cylinder R := Cylinder 1 (-1) 1.

Lemma inner_roots : forall L : limits, l_min L < 1 ->
  quadratic_roots (F:=XR L) (Fin (1 * 1 + 0 * 0)) (Fin (2 * (0 * 1 + 0 * 0))) (Fin (0 * 0 + 0 * 0 - 1 * 1)) = [Fin (-1); Fin 1].
Proof.
  intros L Hm.
  destruct (quadratic_roots_set L (1 * 1 + 0 * 0) (2 * (0 * 1 + 0 * 0)) (0 * 0 + 0 * 0 - 1 * 1)) as [l [E [Inc [Sh Z]]]].
  - right. rewrite Rabs_right; lra.
  - left; ring.
  - intros [A _]; lra.
  - rewrite E.
    assert (Z1 : In 1 l) by (apply Z; unfold quadR; ring).
    assert (Z2 : In (-1) l) by (apply Z; unfold quadR; ring).
    destruct Sh as [->|[r0 [r1 ->]]]; [destruct Z1|].
    destruct Inc as [Inc _]. specialize (Inc r1 (or_introl eq_refl)).
    cbn [In] in *. assert (r0 = -1 /\ r1 = 1) as [-> ->] by lra. reflexivity.
Qed.

Lemma inner_run : forall (L : limits) (rec : hit_record xr), l_min L < 1 ->
  cylinder_hit (F:=XR L) (fincylinder unit_cylinder) (finray inner_ray) (Fin 0) PInf rec =
  cylinder_finish (F:=XR L) (fincylinder unit_cylinder) (finray inner_ray) rec.
Proof.
  intros L rec Hm. pose proof (inner_roots L Hm) as E. unfold cylinder_hit.
  set (qr := quadratic_roots _ _ _). change qr with (quadratic_roots (F:=XR L) (Fin (1 * 1 + 0 * 0)) (Fin (2 * (0 * 1 + 0 * 0))) (Fin (0 * 0 + 0 * 0 - 1 * 1))).
  rewrite E. xred. rewrite Rltb_true by lra. cbn [orb]. rewrite Rltb_false by lra. reflexivity.
Qed.

(** C23: the hit at t = 1 is missed when the record holds a point off the wall ... *)
Lemma cylinder_missed : forall (L : limits) (rec : hit_record xr), l_min L < 1 -> 20 * l_eps L < 1 ->
  h_p rec = fin3 zeroR ->
  on_cylinder unit_cylinder (pointR inner_ray 1) /\
  exists rec', cylinder_hit (F:=XR L) (fincylinder unit_cylinder) (finray inner_ray) (Fin 0) PInf rec = Ok (false, rec').
Proof.
  intros L rec Hm He Ep. split.
  { unfold on_cylinder, pointR, lineR, inner_ray, unit_cylinder, addR, scaleR, zeroR; cbn. lra. }
  rewrite inner_run by auto. unfold cylinder_finish.
  destruct (cylinder_uv _ _) as [u v]. eexists.
  match goal with |- Ok (negb ?b, _) = _ => assert (Q : b = true) end; [|rewrite Q; reflexivity].
  unfold cylinder_residual.
  match goal with |- context [h_p ?q] => change (h_p q) with (h_p rec) end.
  change (@num (XR L)) with xr in *. rewrite Ep.
  unfold cylinder_expected, fincylinder, unit_cylinder, fin3, map3, zeroR; cbn [vx vy vz c_radius]. xred.
  rewrite Rltb_true; auto. rewrite Rabs_left; lra.
Qed.
(** ... and a stale record passes as the hit when its point happens to lie on the wall. *)
Lemma cylinder_stale : forall (L : limits) (rec : hit_record xr) t, l_min L < 1 ->
  h_p rec = fin3 (V3 0 1 0) -> h_t rec = Fin t ->
  exists rec', cylinder_hit (F:=XR L) (fincylinder unit_cylinder) (finray inner_ray) (Fin 0) PInf rec = Ok (true, rec') /\
    h_t rec' = Fin t /\ h_p rec' = fin3 (V3 0 1 0).
Proof.
  intros L rec t Hm Ep Et. rewrite inner_run by auto. unfold cylinder_finish.
  destruct (cylinder_uv _ _) as [u v]. eexists.
  match goal with |- Ok (negb ?b, _) = _ /\ _ => assert (Q : b = false) end; [|rewrite Q; split; [reflexivity|split; [exact Et|exact Ep]]].
  unfold cylinder_residual.
  match goal with |- context [h_p ?q] => change (h_p q) with (h_p rec) end.
  change (@num (XR L)) with xr in *. rewrite Ep.
  unfold cylinder_expected, fincylinder, unit_cylinder, fin3, map3, zeroR; cbn [vx vy vz c_radius]. xred.
  pose proof (l_eps_pos L). rewrite Rltb_false; auto.
  replace (0 * 0 + 1 * 1 - 1 * 1) with 0 by ring. rewrite Rabs_R0. lra.
Qed.
