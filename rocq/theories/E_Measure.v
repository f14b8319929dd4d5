(** Concrete cases meeting the hypotheses of the theorems in T_Measure.v. *)
From Coq Require Import Reals Lra List Bool.
From Verif Require Import Num XR Spec M_Vec M_Hittable M_Shapes M_Surfaces Spec_Scene Spec_Shapes Spec_Surfaces Spec_Measure
  P_Vec P_Sphere P_Ellipsoid P_Torus P_Scenes P_Enneper E_Shapes E_Scene.
Import ListNotations.
Local Open Scope R_scope.

Lemma ex_torus_hit : forall (L : limits) (rec : hit_record xr), l_min L < 1 -> exists rec',
  torus_hit (F:=XR L) (fintorus small_torus) (finray toward_ray) (Fin 1) PInf rec = Ok (true, rec').
Proof.
  intros L rec Hm. assert (D : r_dir toward_ray <> zeroR) by (intros E; injection E; lra).
  destruct (toward_off (l_min L)) as [Off ND]; [pose proof (l_min_pos L); lra|].
  destruct (torus_exact (L:=L) small_torus ltac:(cbn; lra) ltac:(cbn; lra) toward_ray (Fin 1) PInf rec D Off) as (b & rec' & E & _ & K).
  { cbn. intros; lra. }
  specialize (K ND). destruct b; [exists rec'; auto|]. exfalso. apply (K 7); [|split; cbn; [lra|exact I]].
  apply torus_poly; [cbn; lra|cbn; lra|]. rewrite toward_quartic. unfold quarticR; lra.
Qed.
Lemma ex_egg_hit : forall (L : limits) (rec : hit_record xr), l_min L < 1 -> exists rec',
  ellipsoid_hit (F:=XR L) (finellipsoid egg) (finray toward_ray) (Fin 0) PInf rec = Ok (true, rec') /\
  h_t rec' = Fin 9 /\ ~ on_z_axis (el_center egg) (pointR toward_ray 9) /\
  ~ (vx (el_scales egg) = vy (el_scales egg) /\ vy (el_scales egg) = vz (el_scales egg)).
Proof.
  intros L rec Hm. destruct (ex_egg (l_min L)) as [Hp Off]; [pose proof (l_min_pos L); lra|].
  destruct (ellipsoid_contract (L:=L) egg Hp toward_ray Off) as [C _].
  destruct (C (Fin 0) PInf rec ltac:(discriminate) ltac:(discriminate)) as (b & rec' & E & K).
  assert (On : forall t, on_ellipsoid egg (pointR toward_ray t) <-> (t - 10) ^ 2 = 1).
  { intros t. unfold on_ellipsoid, egg, pointR, lineR, toward_ray, addR, scaleR; cbn [el_center el_scales r_orig r_dir vx vy vz].
    match goal with |- ?x = 1 <-> _ => replace x with ((t - 10) ^ 2) by field end. tauto. }
  destruct b.
  - destruct K as (t & Et & Ot & W & F & _). apply On in Ot.
    assert (t <= 9). { apply F; [apply On; lra|split; cbn; [lra|exact I]]. }
    assert (t = 9) by (assert (Q : (t - 9) * (t - 11) = 0) by nra; apply Rmult_integral in Q; lra). subst t.
    exists rec'. split; [exact E|]. split; auto. split.
    + unfold on_z_axis, egg, pointR, lineR, toward_ray, addR, scaleR; cbn [el_center r_orig r_dir vx vy vz]. lra.
    + cbn. lra.
  - exfalso. apply (K 9); [apply On; lra|split; cbn; [lra|exact I]].
Qed.
Lemma ex_enneper_record : forall (L : limits), exists rec : hit_record xr,
  gaussian_curvature (F:=XR L) rec = Fin (enneper_K 1 0) /\ -2 <= 1 <= 2 /\ -2 <= 0 <= 2.
Proof.
  intros L. exists (HR (fin3 zeroR) (fin3 zeroR) (Fin 0) (Fin 0) (Fin 1) (Fin 0) true
    (Fin 1) (Fin 0) (Fin 1) (Fin (- (1 / 4))) (Fin 0) (Fin 1) (Fin 0)).
  split; [|lra]. unfold gaussian_curvature; cbn [h_E h_F h_G h_e h_f h_g]. xred. rewrite xdiv_fin by lra. unfold enneper_K. f_equal. field.
Qed.

(* two spheres and their common box *)
Definition spheres_list (L : limits) : hittable_list (F:=XR L) (M:=unit) :=
  Scene [of_sphere (F:=XR L) (finsphere far_sphere); of_sphere (F:=XR L) (finsphere front_sphere)] [tt; tt].
Lemma ex_list_box : forall (L : limits) out0,
  (forall o b, In o (objects (spheres_list L)) -> bounding_box o = Some b -> no_nan_box (F:=XR L) b) /\
  list_bounding_box (F:=XR L) (spheres_list L) out0 = Some (finbox (Box (V3 (-9) (-2) (-2)) (V3 2 2 2))).
Proof.
  intros L out0. split.
  - intros o b [<-|[<-|[]]] H; injection H as <-; repeat split.
  - unfold list_bounding_box, spheres_list. cbn [objects list_box_loop of_sphere bounding_box]. unfold sphere_box.
    unfold surrounding_box, c_fmin, c_fmax, vsub, vadd, finsphere, far_sphere, front_sphere, fin3, map3, finbox;
      cbn [b_min b_max vx vy vz s_center s_radius]. xred.
    repeat match goal with |- context [Rltb ?x ?y] => destruct (Rltb_spec x y); try (exfalso; lra) end.
    unfold fin3, map3; cbn [vx vy vz]. repeat f_equal; lra.
Qed.
