(** Properties C19-C24 and C27-C34: the closed-form shapes. *)
From Coq Require Import Reals ZArith List Bool.
From Verif Require Import Num XR M_Vec M_Matrix M_Hittable M_Shapes Spec Spec_Scene Spec_Shapes
  P_Matrix P_Sphere P_Ellipsoid P_Flat P_Cylinder P_Torus P_Curvature P_Normals P_Hits P_Scenes E_Shapes.
Import ListNotations.
Local Open Scope R_scope.


(** ** C19 *)
Theorem C19_sphere_exact : forall (L : limits) (s : sphere R), 0 < s_radius s ->
  forall r : ray R, sphere_off_threshold (l_min L) s r ->
  hit_contract r (of_sphere (F:=XR L) (finsphere s)) (fun t => on_sphere s (pointR r t)) (describes_sphere s r) /\
  quiet r (of_sphere (F:=XR L) (finsphere s)).
Proof. exact @sphere_contract. Qed.
Print Assumptions C19_sphere_exact.
Example C19_case : forall m, 0 < m < 1 -> sphere_off_threshold m front_sphere toward_ray.
Proof. exact front_off. Qed.

(** ** C20 *)
Theorem C20_ellipsoid_exact : forall (L : limits) (s : ellipsoid R), positive3 (el_scales s) ->
  forall r : ray R, ellipsoid_off_threshold (l_min L) s r ->
  hit_contract r (of_ellipsoid (F:=XR L) (finellipsoid s)) (fun t => on_ellipsoid s (pointR r t)) (describes_ellipsoid s r) /\
  quiet r (of_ellipsoid (F:=XR L) (finellipsoid s)).
Proof. exact @ellipsoid_contract. Qed.
Print Assumptions C20_ellipsoid_exact.
Example C20_case : forall m, 0 < m < 1 -> positive3 (el_scales egg) /\ ellipsoid_off_threshold m egg toward_ray.
Proof. exact ex_egg. Qed.

(** ** C21 *)
(* the constructor completes the normal to an orthonormal frame *)
Theorem C21_disk_built : forall (L : limits) (radius : R) (c n : vec3 R), normR n = 1 -> l_min L < 1 ->
  exists e1 e2, frame e1 e2 n /\
    make_disk (F:=XR L) (Fin radius) (fin3 c) (fin3 n) =
    Ok (Disk (Fin radius) (fin3 c) (fin3 n) (finm3 (cols e1 e2 n)) (finm3 (rows e1 e2 n))).
Proof. exact @make_disk_ok. Qed.
Print Assumptions C21_disk_built.
Theorem C21_disk_exact : forall (L : limits) (radius : R) (c e1 e2 n : vec3 R) (r : ray R), 0 < radius -> frame e1 e2 n ->
  let k := Disk (Fin radius) (fin3 c) (fin3 n) (finm3 (cols e1 e2 n)) (finm3 (rows e1 e2 n)) in
  hit_contract r (of_disk (F:=XR L) k) (fun t => dotR n (r_dir r) <> 0 /\ on_disk c n radius (pointR r t))
    (describes_disk c e1 e2 n radius r) /\
  quiet r (of_disk (F:=XR L) k).
Proof. exact @disk_contract. Qed.
Print Assumptions C21_disk_exact.
Example C21_case : frame (V3 1 0 0) (V3 0 1 0) (V3 0 0 1).
Proof. exact ex_frame. Qed.

(** ** C22 *)
(* Full statement: for every ray.  False for rays lying in the plane of the rectangle, which
   are reported at time NaN; all others are exact. *)
Theorem C22_xy_partial : forall (L : limits) (q : rect R), q_a0 q < q_a1 q -> q_b0 q < q_b1 q ->
  forall r : ray R, r_dir r <> zeroR -> ~ (vz (r_dir r) = 0 /\ vz (r_orig r) = q_k q) ->
  hit_contract r (of_xy (F:=XR L) (finrect q)) (fun t => on_xy q (pointR r t)) (describes_rect (V3 0 0 1) (xy_sigma q) r) /\
  quiet r (of_xy (F:=XR L) (finrect q)).
Proof. exact @xy_contract. Qed.
Print Assumptions C22_xy_partial.
Theorem C22_xz_partial : forall (L : limits) (q : rect R), q_a0 q < q_a1 q -> q_b0 q < q_b1 q ->
  forall r : ray R, r_dir r <> zeroR -> ~ (vy (r_dir r) = 0 /\ vy (r_orig r) = q_k q) ->
  hit_contract r (of_xz (F:=XR L) (finrect q)) (fun t => on_xz q (pointR r t)) (describes_rect (V3 0 1 0) (xz_sigma q) r) /\
  quiet r (of_xz (F:=XR L) (finrect q)).
Proof. exact @xz_contract. Qed.
Print Assumptions C22_xz_partial.
Theorem C22_yz_partial : forall (L : limits) (q : rect R), q_a0 q < q_a1 q -> q_b0 q < q_b1 q ->
  forall r : ray R, r_dir r <> zeroR -> ~ (vx (r_dir r) = 0 /\ vx (r_orig r) = q_k q) ->
  hit_contract r (of_yz (F:=XR L) (finrect q)) (fun t => on_yz q (pointR r t)) (describes_rect (V3 1 0 0) (yz_sigma q) r) /\
  quiet r (of_yz (F:=XR L) (finrect q)).
Proof. exact @yz_contract. Qed.
Print Assumptions C22_yz_partial.
Example C22_case : q_a0 screen < q_a1 screen /\ q_b0 screen < q_b1 screen /\ r_dir axis_ray <> zeroR /\
  ~ (vz (r_dir axis_ray) = 0 /\ vz (r_orig axis_ray) = q_k screen) /\ on_xy screen (pointR axis_ray 2).
Proof. exact ex_screen. Qed.
Theorem C22_nan_refuted : forall (L : limits) (q : rect R) (r : ray R) (lo hi : xr) (rec : hit_record xr),
  vz (r_dir r) = 0 -> vz (r_orig r) = q_k q ->
  exists rec', xy_hit (F:=XR L) (finrect q) (finray r) lo hi rec = Ok (true, rec') /\ h_t rec' = NaN.
Proof. exact @rect_nan. Qed.
Print Assumptions C22_nan_refuted.

(** ** C23 *)
(* Full statement: hit_contract, for all windows.  False when the window cuts off a crossing
   of the infinite cylinder; proved when all crossings are after t_min. *)
Theorem C23_cylinder_exact_partial : forall (L : limits) (c : cylinder R), 0 < c_radius c -> c_zmin c < c_zmax c ->
  forall (r : ray R) (lo hi : xr) (rec : hit_record xr), cylinder_off_threshold (l_min L) r -> lo <> NaN -> hi <> NaN ->
  (forall t, on_wall c r t -> at_least lo t) ->
  hit_exact r (of_cylinder (F:=XR L) (fincylinder c)) (fun t => on_cylinder c (pointR r t)) (describes_cylinder c r) lo hi rec.
Proof. exact @cylinder_exact. Qed.
Print Assumptions C23_cylinder_exact_partial.
Example C23_case : forall m, 0 < m < 1 -> let c := Cylinder 1 (-1) 1 in
  cylinder_off_threshold m toward_ray /\ (forall t, on_wall c toward_ray t -> at_least (Fin 0) t) /\
  on_cylinder c (pointR toward_ray 9).
Proof. exact ex_cylinder. Qed.
(* a ray from inside, meeting the wall at t = 1, is missed ... *)
Theorem C23_missed_refuted : forall (L : limits) (rec : hit_record xr), l_min L < 1 -> 20 * l_eps L < 1 -> h_p rec = fin3 zeroR ->
  on_cylinder unit_cylinder (pointR inner_ray 1) /\
  exists rec', cylinder_hit (F:=XR L) (fincylinder unit_cylinder) (finray inner_ray) (Fin 0) PInf rec = Ok (false, rec').
Proof. exact cylinder_missed. Qed.
Print Assumptions C23_missed_refuted.
(* ... or reported with whatever time and point the record happened to hold *)
Theorem C23_stale_refuted : forall (L : limits) (rec : hit_record xr) (t : R), l_min L < 1 -> h_p rec = fin3 (V3 0 1 0) -> h_t rec = Fin t ->
  exists rec', cylinder_hit (F:=XR L) (fincylinder unit_cylinder) (finray inner_ray) (Fin 0) PInf rec = Ok (true, rec') /\
    h_t rec' = Fin t /\ h_p rec' = fin3 (V3 0 1 0).
Proof. exact cylinder_stale. Qed.
Print Assumptions C23_stale_refuted.

(** ** C24 *)
(* Full statement: torus_exact without the condition on degenerate rays.  False: on some
   tangent rays the root finder loses the roots. *)
Theorem C24_torus_exact_partial : forall (L : limits) (o : torus R), 0 < o_r o -> o_r o < o_R o ->
  forall (r : ray R) (lo hi : xr) (rec : hit_record xr), r_dir r <> zeroR -> torus_off_threshold (l_min L) o r ->
  (forall t, at_least lo t -> 0 < t) ->
  exists b rec', torus_hit (F:=XR L) (fintorus o) (finray r) lo hi rec = Ok (b, rec') /\
    (b = true -> exists t, h_t rec' = Fin t /\ on_torus o (pointR r t) /\ in_window lo hi t /\ describes_torus o r t rec') /\
    (~ torus_degenerate o r ->
     if b then exists t, h_t rec' = Fin t /\ (forall t', on_torus o (pointR r t') -> in_window lo hi t' -> t <= t')
     else forall t, on_torus o (pointR r t) -> ~ in_window lo hi t).
Proof. exact @torus_exact. Qed.
Print Assumptions C24_torus_exact_partial.
Example C24_case : forall m, 0 < m < 1 -> torus_off_threshold m small_torus toward_ray /\ ~ torus_degenerate small_torus toward_ray.
Proof. exact toward_off. Qed.
Theorem C24_grazing_refuted : forall (L : limits), l_min L < 1 ->
  exists t, 0 < t /\ on_torus graze_torus (pointR graze_ray t) /\
    forall rec : hit_record xr, exists rec',
      torus_hit (F:=XR L) (fintorus graze_torus) (finray graze_ray) (Fin t) (Fin t) rec = Ok (false, rec').
Proof. exact torus_grazed. Qed.
Print Assumptions C24_grazing_refuted.
(* the restriction to t_min > 0 is needed *)
Theorem C24_negative_window_refuted : forall (L : limits) (rec : hit_record xr),
  torus_hit (F:=XR L) (fintorus small_torus) (finray away_ray) (Fin (-20)) (Fin 0) rec = Ok (false, rec) /\
  on_torus small_torus (pointR away_ray (-7)).
Proof. exact torus_behind. Qed.
Print Assumptions C24_negative_window_refuted.

(** ** C27 *)
Theorem C27_sphere : forall (L : limits) (r : ray R) (lo hi : xr) (rec rec' : hit_record xr), lo <> NaN -> hi <> NaN -> 
  forall s, 0 < s_radius s -> sphere_off_threshold (l_min L) s r ->
  sphere_hit (F:=XR L) (finsphere s) (finray r) lo hi rec = Ok (true, rec') ->
  normal_to (sphere_sigma s) r rec' /\
  exists t, h_t rec' = Fin t /\ facing_normal r (subR (pointR r t) (s_center s)) rec'.
Proof. exact @sphere_hit_normal. Qed.
Print Assumptions C27_sphere.
Theorem C27_ellipsoid : forall (L : limits) (r : ray R) (lo hi : xr) (rec rec' : hit_record xr), lo <> NaN -> hi <> NaN -> 
  forall s, positive3 (el_scales s) -> ellipsoid_off_threshold (l_min L) s r ->
  ellipsoid_hit (F:=XR L) (finellipsoid s) (finray r) lo hi rec = Ok (true, rec') ->
  normal_to (ellipsoid_sigma s) r rec' /\
  exists t, h_t rec' = Fin t /\ facing_normal r (ellipsoid_gradR s (pointR r t)) rec'.
Proof. exact @ellipsoid_hit_normal. Qed.
Print Assumptions C27_ellipsoid.
Theorem C27_disk : forall (L : limits) (r : ray R) (lo hi : xr) (rec rec' : hit_record xr), lo <> NaN -> hi <> NaN -> 
  forall radius c n k, 0 < radius -> normR n = 1 -> l_min L < 1 ->
  make_disk (F:=XR L) (Fin radius) (fin3 c) (fin3 n) = Ok k ->
  disk_hit (F:=XR L) k (finray r) lo hi rec = Ok (true, rec') ->
  (exists e1 e2, frame e1 e2 n /\ normal_to (disk_sigma c e1 e2 radius) r rec') /\ facing_normal r n rec'.
Proof. exact @disk_hit_normal. Qed.
Print Assumptions C27_disk.
Theorem C27_rectangles : forall (L : limits) (r : ray R) (lo hi : xr) (rec rec' : hit_record xr), lo <> NaN -> hi <> NaN -> 
  forall q, q_a0 q < q_a1 q -> q_b0 q < q_b1 q -> r_dir r <> zeroR ->
  (~ (vz (r_dir r) = 0 /\ vz (r_orig r) = q_k q) -> xy_hit (F:=XR L) (finrect q) (finray r) lo hi rec = Ok (true, rec') ->
     normal_to (xy_sigma q) r rec' /\ facing_normal r (V3 0 0 1) rec') /\
  (~ (vy (r_dir r) = 0 /\ vy (r_orig r) = q_k q) -> xz_hit (F:=XR L) (finrect q) (finray r) lo hi rec = Ok (true, rec') ->
     normal_to (xz_sigma q) r rec' /\ facing_normal r (V3 0 1 0) rec') /\
  (~ (vx (r_dir r) = 0 /\ vx (r_orig r) = q_k q) -> yz_hit (F:=XR L) (finrect q) (finray r) lo hi rec = Ok (true, rec') ->
     normal_to (yz_sigma q) r rec' /\ facing_normal r (V3 1 0 0) rec').
Proof. exact @rect_hit_normal. Qed.
Print Assumptions C27_rectangles.
Theorem C27_torus : forall (L : limits) (r : ray R) (lo hi : xr) (rec rec' : hit_record xr), 
  forall o, 0 < o_r o -> o_r o < o_R o -> r_dir r <> zeroR -> torus_off_threshold (l_min L) o r ->
  (forall t, at_least lo t -> 0 < t) ->
  torus_hit (F:=XR L) (fintorus o) (finray r) lo hi rec = Ok (true, rec') ->
  normal_to (torus_sigma o) r rec' /\
  exists t, h_t rec' = Fin t /\ facing_normal r (torus_outward o (pointR r t)) rec'.
Proof. exact @torus_hit_normal. Qed.
Print Assumptions C27_torus.
Example C27_case : forall (L : limits) (rec : hit_record xr), l_min L < 1 -> exists rec',
  hit (of_sphere (F:=XR L) (finsphere front_sphere)) (finray toward_ray) (Fin 0) PInf rec = Ok (true, rec') /\ h_t rec' = Fin 1.
Proof. exact front_hit. Qed.

(** ** C28 *)
Theorem C28_sphere : forall (L : limits) (s : sphere R), 0 < s_radius s ->
  forall p, on_sphere s p -> exists u v, sphere_uv (F:=XR L) (finsphere s) (fin3 p) = (Fin u, Fin v) /\
    0 <= u <= 1 /\ 0 <= v <= 1 /\ sphere_sigma s u v = p.
Proof. exact @sphere_uv_spec. Qed.
Print Assumptions C28_sphere.
Theorem C28_sphere_operator : forall (L : limits) (s : sphere R) (u v : R),
  sphere_at (F:=XR L) (finsphere s) (Fin u) (Fin v) = fin3 (sphere_sigma s u v).
Proof. exact @sphere_at_fin. Qed.
Print Assumptions C28_sphere_operator.
Theorem C28_ellipsoid : forall (L : limits) (s : ellipsoid R), positive3 (el_scales s) ->
  forall p, on_ellipsoid s p -> exists u v, ellipsoid_uv (F:=XR L) (finellipsoid s) (fin3 p) = (Fin u, Fin v) /\
    0 <= u <= 1 /\ 0 <= v <= 1 /\ ellipsoid_sigma s u v = p.
Proof. exact @ellipsoid_uv_spec. Qed.
Print Assumptions C28_ellipsoid.
Theorem C28_ellipsoid_operator : forall (L : limits) (s : ellipsoid R) (u v : R),
  ellipsoid_at (F:=XR L) (finellipsoid s) (Fin u) (Fin v) = fin3 (ellipsoid_sigma s u v).
Proof. exact @ellipsoid_at_fin. Qed.
Print Assumptions C28_ellipsoid_operator.
Theorem C28_cylinder : forall (L : limits) (c : cylinder R), 0 < c_radius c -> c_zmin c < c_zmax c ->
  forall p, on_cylinder c p -> exists u v, cylinder_uv (F:=XR L) (fincylinder c) (fin3 p) = (Fin u, Fin v) /\
    0 <= u <= 1 /\ 0 <= v <= 1 /\ cylinder_sigma c u v = p.
Proof. exact @cylinder_uv_spec. Qed.
Print Assumptions C28_cylinder.
Theorem C28_cylinder_operator : forall (L : limits) (c : cylinder R) (u v : R),
  cylinder_at (F:=XR L) (fincylinder c) (Fin u) (Fin v) = fin3 (cylinder_sigma c u v).
Proof. exact @cylinder_at_fin. Qed.
Print Assumptions C28_cylinder_operator.
Theorem C28_torus : forall (L : limits) (o : torus R), 0 < o_r o -> o_r o < o_R o ->
  forall p, on_torus o p -> exists u v, torus_uv (F:=XR L) (fintorus o) (fin3 p) = (Fin u, Fin v) /\
    0 <= u <= 1 /\ 0 <= v <= 1 /\ torus_sigma o u v = p.
Proof. exact @torus_uv_spec. Qed.
Print Assumptions C28_torus.
Theorem C28_torus_operator : forall (L : limits) (o : torus R) (u v : R),
  torus_at (F:=XR L) (fintorus o) (Fin u) (Fin v) = fin3 (torus_sigma o u v).
Proof. exact @torus_at_fin. Qed.
Print Assumptions C28_torus_operator.
(* a disk computes u,v only inside hit: C21 gives u,v in [0,1] with sigma(u,v) = p *)
Theorem C28_disk_operator : forall (L : limits) (radius : R) (c e1 e2 n : vec3 R) (u v : R),
  disk_at (F:=XR L) (Disk (Fin radius) (fin3 c) (fin3 n) (finm3 (cols e1 e2 n)) (finm3 (rows e1 e2 n))) (Fin u) (Fin v) =
  fin3 (disk_sigma c e1 e2 radius u v).
Proof. exact @disk_at_spec. Qed.
Print Assumptions C28_disk_operator.

(** ** C29 *)
Theorem C29_sphere : forall (L : limits) (s : sphere R) u v, exists su sv, partials (sphere_sigma s) su sv /\
  let J := sphere_J (F:=XR L) (finsphere s) (Fin u) (Fin v) in
  V3 (m00 J) (m10 J) (m20 J) = fin3 (su u v) /\ V3 (m01 J) (m11 J) (m21 J) = fin3 (sv u v).
Proof. exact @sphere_J_spec. Qed.
Print Assumptions C29_sphere.

(** ** C30 *)
Theorem C30_sphere : forall (L : limits) (s : sphere R) u v, exists su sv suu suv svu svv,
  partials (sphere_sigma s) su sv /\ partials su suu suv /\ partials sv svu svv /\
  let H := sphere_H (F:=XR L) (finsphere s) (Fin u) (Fin v) in
  map3 a00 H = fin3 (suu u v) /\ map3 a01 H = fin3 (suv u v) /\
  map3 a10 H = fin3 (svu u v) /\ map3 a11 H = fin3 (svv u v) /\ suv u v = svu u v.
Proof. exact @sphere_H_spec. Qed.
Print Assumptions C30_sphere.

(** ** C31 *)
(* Full statement: for every shape.  False for the disk, whose e and f are NaN.  Rectangles
   do not set the forms at all. *)
Theorem C31_sphere_partial : forall (L : limits) (r : ray R) (lo hi : xr) (rec rec' : hit_record xr), lo <> NaN -> hi <> NaN -> 
  forall s, 0 < s_radius s -> sphere_off_threshold (l_min L) s r ->
  sphere_hit (F:=XR L) (finsphere s) (finray r) lo hi rec = Ok (true, rec') ->
  has_first_form (sphere_sigma s) rec' /\ exists n, has_second_form (sphere_sigma s) n rec'.
Proof. exact @sphere_hit_forms. Qed.
Print Assumptions C31_sphere_partial.
Theorem C31_ellipsoid_partial : forall (L : limits) (r : ray R) (lo hi : xr) (rec rec' : hit_record xr), lo <> NaN -> hi <> NaN -> 
  forall s, positive3 (el_scales s) -> ellipsoid_off_threshold (l_min L) s r ->
  ellipsoid_hit (F:=XR L) (finellipsoid s) (finray r) lo hi rec = Ok (true, rec') ->
  has_first_form (ellipsoid_sigma s) rec' /\ exists n, has_second_form (ellipsoid_sigma s) n rec'.
Proof. exact @ellipsoid_hit_forms. Qed.
Print Assumptions C31_ellipsoid_partial.
Theorem C31_torus_partial : forall (L : limits) (r : ray R) (lo hi : xr) (rec rec' : hit_record xr), 
  forall o, 0 < o_r o -> o_r o < o_R o -> r_dir r <> zeroR -> torus_off_threshold (l_min L) o r ->
  (forall t, at_least lo t -> 0 < t) ->
  torus_hit (F:=XR L) (fintorus o) (finray r) lo hi rec = Ok (true, rec') ->
  has_first_form (torus_sigma o) rec' /\ exists n, has_second_form (torus_sigma o) n rec'.
Proof. exact @torus_hit_forms. Qed.
Print Assumptions C31_torus_partial.
Theorem C31_cylinder_partial : forall (L : limits) (r : ray R) (lo hi : xr) (rec rec' : hit_record xr), lo <> NaN -> hi <> NaN -> 
  forall c, 0 < c_radius c -> c_zmin c < c_zmax c -> cylinder_off_threshold (l_min L) r ->
  (forall t, on_wall c r t -> at_least lo t) ->
  cylinder_hit (F:=XR L) (fincylinder c) (finray r) lo hi rec = Ok (true, rec') ->
  has_first_form (cylinder_sigma c) rec' /\ exists n, has_second_form (cylinder_sigma c) n rec'.
Proof. exact @cylinder_hit_forms. Qed.
Print Assumptions C31_cylinder_partial.
Theorem C31_disk_refuted : forall (L : limits) (r : ray R) (lo hi : xr) (rec rec' : hit_record xr), lo <> NaN -> hi <> NaN -> 
  forall radius c n k, 0 < radius -> normR n = 1 -> l_min L < 1 ->
  make_disk (F:=XR L) (Fin radius) (fin3 c) (fin3 n) = Ok k ->
  disk_hit (F:=XR L) k (finray r) lo hi rec = Ok (true, rec') ->
  (exists e1 e2, frame e1 e2 n /\ has_first_form (disk_sigma c e1 e2 radius) rec') /\
  h_e rec' = NaN /\ h_f rec' = NaN.
Proof. exact @disk_hit_form. Qed.
Print Assumptions C31_disk_refuted.

(** ** C32 *)
(* Full statement: at every point.  False at the poles of sphere and ellipsoid (0/0). *)
Theorem C32_sphere_partial : forall (L : limits) (r : ray R) (lo hi : xr) (rec rec' : hit_record xr), lo <> NaN -> hi <> NaN -> 
  forall s, 0 < s_radius s -> sphere_off_threshold (l_min L) s r ->
  sphere_hit (F:=XR L) (finsphere s) (finray r) lo hi rec = Ok (true, rec') ->
  exists t, h_t rec' = Fin t /\ (~ on_z_axis (s_center s) (pointR r t) ->
    exists u v n, pointR r t = sphere_sigma s u v /\
      curvatures (sphere_sigma s) n u v (/ s_radius s ^ 2) (/ s_radius s) /\
      gaussian_curvature (F:=XR L) rec' = Fin (/ s_radius s ^ 2) /\ mean_curvature (F:=XR L) rec' = Fin (/ s_radius s)).
Proof. exact @sphere_hit_curvature. Qed.
Print Assumptions C32_sphere_partial.
Theorem C32_sphere_pole_refuted : forall (L : limits) (rec : hit_record xr), l_min L < 1 ->
  exists rec', sphere_hit (F:=XR L) (finsphere unit_sphere) (finray pole_ray) (Fin 0) PInf rec = Ok (true, rec') /\
    gaussian_curvature (F:=XR L) rec' = NaN.
Proof. exact @sphere_pole. Qed.
Print Assumptions C32_sphere_pole_refuted.
Theorem C32_cylinder_partial : forall (L : limits) (r : ray R) (lo hi : xr) (rec rec' : hit_record xr), lo <> NaN -> hi <> NaN -> 
  forall c, 0 < c_radius c -> c_zmin c < c_zmax c -> cylinder_off_threshold (l_min L) r ->
  (forall t, on_wall c r t -> at_least lo t) ->
  cylinder_hit (F:=XR L) (fincylinder c) (finray r) lo hi rec = Ok (true, rec') ->
  exists t u v n, h_t rec' = Fin t /\ pointR r t = cylinder_sigma c u v /\
    curvatures (cylinder_sigma c) n u v 0 (/ (2 * c_radius c)) /\
    gaussian_curvature (F:=XR L) rec' = Fin 0 /\ mean_curvature (F:=XR L) rec' = Fin (/ (2 * c_radius c)).
Proof. exact @cylinder_hit_curvature. Qed.
Print Assumptions C32_cylinder_partial.
Theorem C32_torus_partial : forall (L : limits) (r : ray R) (lo hi : xr) (rec rec' : hit_record xr), 
  forall o, 0 < o_r o -> o_r o < o_R o -> r_dir r <> zeroR -> torus_off_threshold (l_min L) o r ->
  (forall t, at_least lo t -> 0 < t) ->
  torus_hit (F:=XR L) (fintorus o) (finray r) lo hi rec = Ok (true, rec') ->
  exists t u v n K H, h_t rec' = Fin t /\ pointR r t = torus_sigma o u v /\ K = torus_K o (pointR r t) /\
    curvatures (torus_sigma o) n u v K H /\
    gaussian_curvature (F:=XR L) rec' = Fin K /\ mean_curvature (F:=XR L) rec' = Fin H /\
    torus_curvature (F:=XR L) (fintorus o) (fin3 (pointR r t)) = Fin K.
Proof. exact @torus_hit_curvature. Qed.
Print Assumptions C32_torus_partial.
Theorem C32_torus_bounds : forall (L : limits) (o : torus R), 0 < o_r o -> o_r o < o_R o ->
  exists k0 k1, torus_curvature_bounds (F:=XR L) (fintorus o) = (Fin k0, Fin k1) /\
    (forall p, on_torus o p -> k0 <= torus_K o p <= k1) /\
    (exists p, on_torus o p /\ torus_K o p = k0) /\ (exists p, on_torus o p /\ torus_K o p = k1).
Proof. exact @torus_bounds_spec. Qed.
Print Assumptions C32_torus_bounds.
Theorem C32_ellipsoid_partial : forall (L : limits) (r : ray R) (lo hi : xr) (rec rec' : hit_record xr), lo <> NaN -> hi <> NaN -> 
  forall s, positive3 (el_scales s) -> ellipsoid_off_threshold (l_min L) s r ->
  ellipsoid_hit (F:=XR L) (finellipsoid s) (finray r) lo hi rec = Ok (true, rec') ->
  exists t, h_t rec' = Fin t /\
    ellipsoid_curvature (F:=XR L) (finellipsoid s) (fin3 (pointR r t)) = Fin (ellipsoid_K s (pointR r t)) /\
    (~ on_z_axis (el_center s) (pointR r t) ->
     exists u v n H, pointR r t = ellipsoid_sigma s u v /\
       curvatures (ellipsoid_sigma s) n u v (ellipsoid_K s (pointR r t)) H /\
       gaussian_curvature (F:=XR L) rec' = Fin (ellipsoid_K s (pointR r t)) /\ mean_curvature (F:=XR L) rec' = Fin H).
Proof. exact @ellipsoid_hit_curvature. Qed.
Print Assumptions C32_ellipsoid_partial.
Theorem C32_ellipsoid_bounds : forall (L : limits) (s : ellipsoid R), positive3 (el_scales s) ->
  exists k0 k1, ellipsoid_curvature_bounds (F:=XR L) (finellipsoid s) = (Fin k0, Fin k1) /\
    (forall p, on_ellipsoid s p -> k0 <= ellipsoid_K s p <= k1) /\
    (exists p, on_ellipsoid s p /\ ellipsoid_K s p = k0) /\ (exists p, on_ellipsoid s p /\ ellipsoid_K s p = k1).
Proof. exact @ellipsoid_bounds_spec. Qed.
Print Assumptions C32_ellipsoid_bounds.

(** ** C33 *)
Theorem C33_principal : forall (L : limits) (rec : hit_record xr) (E F G e f g : R),
  h_E rec = Fin E -> h_F rec = Fin F -> h_G rec = Fin G -> h_e rec = Fin e -> h_f rec = Fin f -> h_g rec = Fin g ->
  0 < E * G - F * F -> l_min L < 1 -> off_threshold (l_min L) ((e * G - 2 * f * F + g * E) / (E * G - F * F)) ->
  exists k1 k2 H K, principal_curvatures (F:=XR L) rec = (Fin k1, Fin k2) /\
    mean_curvature (F:=XR L) rec = Fin H /\ gaussian_curvature (F:=XR L) rec = Fin K /\
    k1 <= k2 /\ k1 + k2 = 2 * H /\ k1 * k2 = K.
Proof. exact @principal_spec. Qed.
Print Assumptions C33_principal.
Example C33_case : forall m, 0 < m < 1 -> 0 < 1 * 1 - 0 * 0 /\ off_threshold m ((1 * 1 - 2 * 0 * 0 + 2 * 1) / (1 * 1 - 0 * 0)).
Proof. exact ex_principal. Qed.

(** ** C34 *)
(* Full statement: for each primitive.  False for the disk. *)
Theorem C34_sphere_partial : forall (L : limits) (s : sphere R), 0 < s_radius s ->
  exists B, sphere_box (F:=XR L) (finsphere s) = Some (finbox B) /\ forall p, on_sphere s p -> in_box B p.
Proof. exact @sphere_boxed. Qed.
Print Assumptions C34_sphere_partial.
Theorem C34_ellipsoid_partial : forall (L : limits) (s : ellipsoid R), positive3 (el_scales s) ->
  exists B, ellipsoid_box (F:=XR L) (finellipsoid s) = Some (finbox B) /\ forall p, on_ellipsoid s p -> in_box B p.
Proof. exact @ellipsoid_boxed. Qed.
Print Assumptions C34_ellipsoid_partial.
Theorem C34_cylinder_partial : forall (L : limits) (c : cylinder R), 0 < c_radius c ->
  exists B, cylinder_box (F:=XR L) (fincylinder c) = Some (finbox B) /\ forall p, on_cylinder c p -> in_box B p.
Proof. exact @cylinder_boxed. Qed.
Print Assumptions C34_cylinder_partial.
Theorem C34_torus_partial : forall (L : limits) (o : torus R), 0 < o_r o ->
  exists B, torus_box (F:=XR L) (fintorus o) = Some (finbox B) /\ forall p, on_torus o p -> in_box B p.
Proof. exact @torus_boxed. Qed.
Print Assumptions C34_torus_partial.
Theorem C34_rectangles_partial : forall (L : limits) (q : rect R),
  (exists B, xy_box (F:=XR L) (finrect q) = Some (finbox B) /\ forall p, on_xy q p -> in_box B p) /\
  (exists B, xz_box (F:=XR L) (finrect q) = Some (finbox B) /\ forall p, on_xz q p -> in_box B p) /\
  (exists B, yz_box (F:=XR L) (finrect q) = Some (finbox B) /\ forall p, on_yz q p -> in_box B p).
Proof. exact @rect_boxed. Qed.
Print Assumptions C34_rectangles_partial.
Theorem C34_disk_refuted : forall (L : limits) (radius : R), 0 < radius ->
  exists c n p k B, normR n = 1 /\ make_disk (F:=XR L) (Fin radius) (fin3 c) (fin3 n) = Ok k /\
    on_disk c n radius p /\ disk_box (F:=XR L) k = Some (finbox B) /\ ~ in_box B p.
Proof. exact @disk_box_wrong. Qed.
Print Assumptions C34_disk_refuted.
