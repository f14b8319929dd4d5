(** Properties C82-C84: boxes of lists, areas and volumes, the colour of a curvature. *)
From Coq Require Import Reals ZArith List Bool.
From Flocq Require Import BinarySingleNaN Core.
From Verif Require Import Num XR FL M_Vec M_Hittable M_Shapes M_Surfaces M_Curvature Spec Spec_Scene Spec_Shapes Spec_Surfaces
  Spec_Measure P_Torus P_ListBox P_Measure P_Curvature2 E_Shapes E_Scene E_Surfaces E_Measure.
Import ListNotations.
Local Open Scope R_scope.

(** ** C82 *)
Theorem C82_list_box_exact : forall L M (s : hittable_list (F:=XR L) (M:=M)) out0,
  (forall o b, In o (objects s) -> bounding_box o = Some b -> no_nan_box (F:=XR L) b) ->
  match list_bounding_box (F:=XR L) s out0 with
  | None => objects s = [] \/ exists o, In o (objects s) /\ bounding_box o = None
  | Some B => objects s <> [] /\
      (forall o, In o (objects s) -> exists b, bounding_box o = Some b /\ box_le (F:=XR L) b B) /\
      forall C, (forall o b, In o (objects s) -> bounding_box o = Some b -> box_le (F:=XR L) b C) -> box_le (F:=XR L) B C
  end.
Proof. exact list_box_xr. Qed.
Print Assumptions C82_list_box_exact.
Theorem C82_list_box_float : forall prec emax Hp Hm lm M (s : hittable_list (F:=FL prec emax Hp Hm lm) (M:=M)) out0,
  let F := FL prec emax Hp Hm lm in
  (forall o b, In o (objects s) -> bounding_box o = Some b -> no_nan_box (F:=F) b) ->
  match list_bounding_box (F:=F) s out0 with
  | None => objects s = [] \/ exists o, In o (objects s) /\ bounding_box o = None
  | Some B => objects s <> [] /\
      (forall o, In o (objects s) -> exists b, bounding_box o = Some b /\ box_le (F:=F) b B) /\
      forall C, (forall o b, In o (objects s) -> bounding_box o = Some b -> box_le (F:=F) b C) -> box_le (F:=F) B C
  end.
Proof. exact list_box_fl. Qed.
Print Assumptions C82_list_box_float.
Example C82_case : forall (L : limits) out0,
  (forall o b, In o (objects (spheres_list L)) -> bounding_box o = Some b -> no_nan_box (F:=XR L) b) /\
  list_bounding_box (F:=XR L) (spheres_list L) out0 = Some (finbox (Box (V3 (-9) (-2) (-2)) (V3 2 2 2))).
Proof. exact ex_list_box. Qed.

(** ** C83 *)
Theorem C83_sphere : forall (L : limits) (s : sphere R), 0 < s_radius s -> exists A V,
  sphere_area (F:=XR L) (finsphere s) = Fin A /\ has_area (on_sphere s) A /\
  sphere_volume (F:=XR L) (finsphere s) = Fin V /\ has_volume (in_ball s) V.
Proof. exact sphere_measures. Qed.
Print Assumptions C83_sphere.
Theorem C83_torus : forall (L : limits) (o : torus R), 0 < o_r o -> o_r o < o_R o -> exists A V,
  torus_area (F:=XR L) (fintorus o) = Fin A /\ has_area (on_torus o) A /\
  torus_volume (F:=XR L) (fintorus o) = Fin V /\ has_volume (in_solid_torus o) V.
Proof. exact torus_measures. Qed.
Print Assumptions C83_torus.

(** ** C84 *)
(* Full statement: at every hit of a torus, an ellipsoid, a helicoid or an Enneper surface the
   scalar handed to the colour map is a number between 0 and 1, increasing with the curvature
   (decreasing for the logarithmic scale) and using the whole range.  Missing: rays for which
   the root finders' thresholds matter; the poles of an ellipsoid and round ellipsoids, where it
   is false; hits of the Enneper surface, which always run into undefined behaviour (C26). *)
Theorem C84_torus_partial : forall (L : limits) (r : ray R) (lo hi : xr) (rec rec' : hit_record xr),
  forall o, 0 < o_r o -> o_r o < o_R o -> r_dir r <> zeroR -> torus_off_threshold (l_min L) o r ->
  (forall t, at_least lo t -> 0 < t) ->
  torus_hit (F:=XR L) (fintorus o) (finray r) lo hi rec = Ok (true, rec') ->
  exists t x k0 k1, h_t rec' = Fin t /\
    linear_scalar (F:=XR L) (torus_curvature_bounds (F:=XR L) (fintorus o)) rec' = Fin x /\ 0 <= x <= 1 /\
    torus_K o (pointR r t) = k0 + x * (k1 - k0) /\
    (exists p, on_torus o p /\ torus_K o p = k0) /\ (exists p, on_torus o p /\ torus_K o p = k1) /\
    forall p, on_torus o p -> k0 <= torus_K o p <= k1.
Proof. exact torus_coloured. Qed.
Print Assumptions C84_torus_partial.
Example C84_torus_case : forall (L : limits) (rec : hit_record xr), l_min L < 1 -> exists rec',
  torus_hit (F:=XR L) (fintorus small_torus) (finray toward_ray) (Fin 1) PInf rec = Ok (true, rec').
Proof. exact ex_torus_hit. Qed.
Theorem C84_ellipsoid_partial : forall (L : limits) (r : ray R) (lo hi : xr) (rec rec' : hit_record xr), lo <> NaN -> hi <> NaN ->
  forall s, positive3 (el_scales s) ->
  ~ (vx (el_scales s) = vy (el_scales s) /\ vy (el_scales s) = vz (el_scales s)) ->
  ellipsoid_off_threshold (l_min L) s r ->
  ellipsoid_hit (F:=XR L) (finellipsoid s) (finray r) lo hi rec = Ok (true, rec') ->
  exists t, h_t rec' = Fin t /\ (~ on_z_axis (el_center s) (pointR r t) -> exists x k0 k1,
    linear_scalar (F:=XR L) (ellipsoid_curvature_bounds (F:=XR L) (finellipsoid s)) rec' = Fin x /\ 0 <= x <= 1 /\
    ellipsoid_K s (pointR r t) = k0 + x * (k1 - k0) /\
    (exists p, on_ellipsoid s p /\ ellipsoid_K s p = k0) /\ (exists p, on_ellipsoid s p /\ ellipsoid_K s p = k1) /\
    forall p, on_ellipsoid s p -> k0 <= ellipsoid_K s p <= k1).
Proof. exact ellipsoid_coloured. Qed.
Print Assumptions C84_ellipsoid_partial.
Example C84_ellipsoid_case : forall (L : limits) (rec : hit_record xr), l_min L < 1 -> exists rec',
  ellipsoid_hit (F:=XR L) (finellipsoid egg) (finray toward_ray) (Fin 0) PInf rec = Ok (true, rec') /\
  h_t rec' = Fin 9 /\ ~ on_z_axis (el_center egg) (pointR toward_ray 9) /\
  ~ (vx (el_scales egg) = vy (el_scales egg) /\ vy (el_scales egg) = vz (el_scales egg)).
Proof. exact ex_egg_hit. Qed.
(* an ellipsoid with equal axes: 0/0 *)
Theorem C84_round_refuted : forall (L : limits) (r : ray R) (lo hi : xr) (rec rec' : hit_record xr), lo <> NaN -> hi <> NaN ->
  forall s, positive3 (el_scales s) -> vx (el_scales s) = vy (el_scales s) -> vy (el_scales s) = vz (el_scales s) ->
  ellipsoid_off_threshold (l_min L) s r ->
  ellipsoid_hit (F:=XR L) (finellipsoid s) (finray r) lo hi rec = Ok (true, rec') ->
  exists t, h_t rec' = Fin t /\ (~ on_z_axis (el_center s) (pointR r t) ->
    linear_scalar (F:=XR L) (ellipsoid_curvature_bounds (F:=XR L) (finellipsoid s)) rec' = NaN).
Proof. exact round_hit_uncoloured. Qed.
Print Assumptions C84_round_refuted.
(* the reported curvature and the bounds are both 4 pi^2 times too small (C32), which cancels *)
Theorem C84_helicoid : forall (L : limits) (s : helicoid R) (r : ray R) (lo hi : xr) (rec rec' : hit_record xr),
  helicoid_ok s -> direction_ok (l_min L) (r_dir r) ->
  helicoid_hit (F:=XR L) (finhelicoid s) (finray r) lo hi rec = Ok (true, rec') ->
  exists u v x, h_u rec' = Fin u /\ h_v rec' = Fin v /\ 0 <= v <= 1 /\
    log_scalar (F:=XR L) (helicoid_curvature_bounds (F:=XR L) (finhelicoid s)) rec' = Fin x /\ 0 <= x <= 1 /\
    ln (- helicoid_K s v) = ln (- helicoid_K s 1) + x * (ln (- helicoid_K s 0) - ln (- helicoid_K s 1)) /\
    (v = 0 -> x = 1) /\ (v = 1 -> x = 0).
Proof. exact helicoid_coloured. Qed.
Print Assumptions C84_helicoid.
Example C84_helicoid_case : forall (L : limits) (rec : hit_record xr) (lo hi : xr), l_min L < / 2 -> exists rec',
  helicoid_hit (F:=XR L) (finhelicoid unit_helicoid) (finray rising_ray) lo hi rec = Ok (true, rec') /\ h_t rec' = Fin (3 / 2).
Proof. exact @rising_hit. Qed.
(* any record reporting the curvature of a point of the patch [-2,2]x[-2,2] *)
Theorem C84_enneper_partial : forall (L : limits) (rec : hit_record xr) (u v : R), -2 <= u <= 2 -> -2 <= v <= 2 ->
  gaussian_curvature (F:=XR L) rec = Fin (enneper_K u v) ->
  exists x, log_scalar (F:=XR L) (enneper_curvature_bounds (F:=XR L)) rec = Fin x /\ 0 <= x <= 1 /\
    ln (- enneper_K u v) = ln (- enneper_K 2 2) + x * (ln (- enneper_K 0 0) - ln (- enneper_K 2 2)).
Proof. exact enneper_coloured. Qed.
Print Assumptions C84_enneper_partial.
Example C84_enneper_case : forall (L : limits), exists rec : hit_record xr,
  gaussian_curvature (F:=XR L) rec = Fin (enneper_K 1 0) /\ -2 <= 1 <= 2 /\ -2 <= 0 <= 2.
Proof. exact ex_enneper_record. Qed.
