(** Theorems about the example programs. *)
From Coq Require Import String Reals ZArith List Bool.
From Verif Require Import Spec_Random Num XR FL Spec Spec_Scene Spec_Light Spec_Shapes Spec_Image Spec_World Spec_Programs Spec_Shades Spec_Fog M_Vec M_Rng M_Hittable M_Materials M_Shapes M_Surfaces M_Image M_World M_Programs M_Fog
  P_Programs P_Marbles P_Shows P_Names P_Void P_Can P_Glass P_Spiral E_World E_Programs E_Fog.
Import ListNotations.
Local Open Scope R_scope.

(** ** C98: the lamp of camera::backlight is not in the picture *)
Theorem C98_hidden : forall (L : limits) (from at_ up : vec3 R) (vfov aspect radius : R), from <> at_ -> crossR up (subR from at_) <> zeroR -> 0 < vfov < 180 -> 0 < radius -> l_min L < 1 ->
  let cam := make_camera (F:=XR L) (fin3 from) (fin3 at_) (fin3 up) (Fin vfov) (Fin aspect) in
  exists lamp, make_disk (F:=XR L) (Fin radius) (fst (backlight (F:=XR L) cam)) (snd (backlight (F:=XR L) cam)) = Ok lamp /\
  forall s t a (hi : xr) (rec : hit_record xr), 0 <= a -> hi <> NaN ->
  hit (of_disk (F:=XR L) lamp) (get_ray (F:=XR L) cam (Fin s) (Fin t)) (Fin a) hi rec = Ok (false, rec).
Proof. exact backlight_hidden. Qed.
Print Assumptions C98_hidden.
Example C98_case : V3 0 (-4) 2 <> V3 0 0 0 /\ crossR (V3 0 0 1) (subR (V3 0 (-4) 2) (V3 0 0 0)) <> zeroR.
Proof. exact camera_case. Qed.

(** ** C99: the shape of a pixel *)
Theorem C99_shape : forall (L : limits) (from at_ up : vec3 R) (vfov aspect : R) (width height : Z), from <> at_ -> crossR up (subR from at_) <> zeroR -> 0 < vfov < 180 -> 0 < aspect ->
  (2 <= width)%Z -> (2 <= height)%Z -> exists right above,
    pixel_steps (make_camera (F:=XR L) (fin3 from) (fin3 at_) (fin3 up) (Fin vfov) (Fin aspect)) width height right above /\
    dotR right above = 0 /\ 0 < normR right /\ 0 < normR above /\ normR right * (IZR width - 1) = aspect * (IZR height - 1) * normR above /\
    (normR right = normR above <-> aspect * (IZR height - 1) = IZR width - 1).
Proof. exact pixel_shape. Qed.
Print Assumptions C99_shape.

(** With the aspect ratio of the picture the pixels are squares only if the picture is one. *)
Theorem C99_proportional : forall (L : limits) (from at_ up : vec3 R) (vfov : R) (width height : Z), from <> at_ -> crossR up (subR from at_) <> zeroR -> 0 < vfov < 180 ->
  (2 <= width)%Z -> (2 <= height)%Z -> exists right above,
    pixel_steps (make_camera (F:=XR L) (fin3 from) (fin3 at_) (fin3 up) (Fin vfov) (Fin (IZR width / IZR height))) width height right above /\
    (normR right = normR above <-> width = height).
Proof. exact pixel_shape_proportional. Qed.
Print Assumptions C99_proportional.

Theorem C99_square_refuted : forall L : limits, exists right above, pixel_steps (p_camera (F:=XR L) (with_lights (F:=XR L))) 1800 1125 right above /\ normR right < normR above /\
  p_width (with_lights (F:=XR L)) = 1800%Z /\ p_height (with_lights (F:=XR L)) = Ok 1125%Z.
Proof. exact @lights_oblong. Qed.
Print Assumptions C99_square_refuted.
(** ellipsoid.cpp gives the camera the aspect ratio 1 and the picture 1.6. *)
Theorem C99_ellipsoid_refuted : forall L : limits, exists right above, pixel_steps (glass_camera (F:=XR L)) 2880 1800 right above /\ 8 / 5 * normR right < normR above /\
  glass_width = 2880%Z /\ glass_height (F:=XR L) = Ok 1800%Z.
Proof. exact @glass_oblong. Qed.
Print Assumptions C99_ellipsoid_refuted.

(** ** C100: the scene of render_spheres.cpp, whatever is drawn *)
Theorem C100_scene : forall (L : limits) d, unit_draws d -> exists (g : texture (F:=XR L)) (cells : list (Z * Z)) (small : list (vec3 R * material (F:=XR L))),
  random_scene (F:=XR L) (fun n => Fin (d n)) =
    (of_sphere (F:=XR L) (finsphere (Sphere (V3 0 (-1000) 0) 1000)), Lambertian (F:=XR L) g) :: map marble_item small ++
    [(of_sphere (F:=XR L) (finsphere (Sphere (V3 0 1 0) 1)), Dielectric (F:=XR L) (Fin (3 / 2)) (solid_color (F:=XR L) (fin3 (V3 0 0 0))));
     (of_sphere (F:=XR L) (finsphere (Sphere (V3 (-4) 1 0) 1)), Lambertian (F:=XR L) (solid_color (F:=XR L) (fin3 (V3 (2 / 5) (1 / 5) (1 / 10)))));
     (of_sphere (F:=XR L) (finsphere (Sphere (V3 4 1 0) 1)), Metal (F:=XR L) (solid_color (F:=XR L) (fin3 (V3 (7 / 10) (3 / 5) (1 / 2)))))] /\
  good_texture g /\
  (* one ball in every cell, except perhaps in four of them *)
  Forall2 (fun k x => in_cell (fst k) (snd k) (fst x)) cells small /\ NoDup cells /\ (forall a b, In (a, b) cells -> (-11 <= a <= 10)%Z /\ (-11 <= b <= 10)%Z) /\
  (forall a b, (-11 <= a <= 10)%Z -> (-11 <= b <= 10)%Z -> ~ ((3 <= a <= 4)%Z /\ (-1 <= b <= 0)%Z) -> In (a, b) cells) /\ (480 <= List.length small <= 484)%nat /\
  (* none meets the metal ball or the inside of the ground, and none has its centre near another *)
  Forall (fun x => marble_material (snd x) /\ 1000 + 1 / 5 <= distR (fst x) (V3 0 (-1000) 0) /\ 1 + 1 / 5 < distR (fst x) (V3 4 1 0)) small /\
  ForallOrdPairs (fun x y => 1 / 10 < distR (fst x) (fst y)) small.
Proof. exact @scattered. Qed.
Print Assumptions C100_scene.

(** But a small ball may overlap another one, or the big glass one. *)
Theorem C100_apart_refuted : forall L : limits, exists d c1 c2 m1 m2 rest, unit_draws d /\
  random_scene (F:=XR L) (fun n => Fin (d n)) = hd (of_sphere (F:=XR L) (finsphere (Sphere (V3 0 0 0) 0)), m1) (random_scene (F:=XR L) (fun n => Fin (d n))) ::
    (of_sphere (F:=XR L) (finsphere (Sphere c1 (1 / 5))), m1) :: (of_sphere (F:=XR L) (finsphere (Sphere c2 (1 / 5))), m2) :: rest /\
  distR c1 c2 < 1 / 5 + 1 / 5.
Proof. exact @marbles_overlap. Qed.
Print Assumptions C100_apart_refuted.
Theorem C100_glass_refuted : forall L : limits, exists d m m', unit_draws d /\
  In (of_sphere (F:=XR L) (finsphere (Sphere (V3 0 (1 / 5) 0) (1 / 5))), m) (random_scene (F:=XR L) (fun n => Fin (d n))) /\
  In (of_sphere (F:=XR L) (finsphere (Sphere (V3 0 1 0) 1)), m') (random_scene (F:=XR L) (fun n => Fin (d n))) /\
  distR (V3 0 (1 / 5) 0) (V3 0 1 0) < 1 / 5 + 1.
Proof. exact @glass_overlap. Qed.
Print Assumptions C100_glass_refuted.
Example C100_case : unit_draws (fun _ => 1 / 2) /\ unit_draws (fun n => INR n / (INR n + 1)).
Proof. exact draws_case. Qed.

(** ** C101: four programs produce their pictures, whatever is drawn *)
Theorem C101_render_spheres : forall (L : limits) d order (s : state (F:=XR L)), l_min L < 1 / 1000 -> unit_draws d -> schedule 1800 1125 order -> good_state s ->
  exists k img, (forall fuel, (k <= fuel)%nat -> run (F:=XR L) (render_spheres (F:=XR L) (fun n => Fin (d n))) fuel order s = Ok img) /\
    List.length img = Z.to_nat (4 * 1800 * 1125) /\ Forall byte img /\ forall i j d, (0 <= i < 1800)%Z -> (0 <= j < 1125)%Z -> nth (offset 1800 1125 i j 3) img d = 255%Z.
Proof. exact @spheres_shown. Qed.
Print Assumptions C101_render_spheres.
Theorem C101_with_lights : forall (L : limits) order (s : state (F:=XR L)), l_min L < 1 / 1000 -> schedule 1800 1125 order -> good_state s ->
  exists k img, (forall fuel, (k <= fuel)%nat -> run (F:=XR L) (with_lights (F:=XR L)) fuel order s = Ok img) /\
    List.length img = Z.to_nat (4 * 1800 * 1125) /\ Forall byte img /\ forall i j d, (0 <= i < 1800)%Z -> (0 <= j < 1125)%Z -> nth (offset 1800 1125 i j 3) img d = 255%Z.
Proof. exact @lights_shown. Qed.
Print Assumptions C101_with_lights.
Theorem C101_disk : forall (L : limits) tex order (s : state (F:=XR L)), l_min L < 1 / 1000 -> good_texture tex -> schedule 800 800 order -> good_state s ->
  exists p k img, disk_program (F:=XR L) tex = Ok p /\ (forall fuel, (k <= fuel)%nat -> run (F:=XR L) p fuel order s = Ok img) /\
    List.length img = Z.to_nat (4 * 800 * 800) /\ Forall byte img /\ forall i j d, (0 <= i < 800)%Z -> (0 <= j < 800)%Z -> nth (offset 800 800 i j 3) img d = 255%Z.
Proof. exact @disk_shown. Qed.
Print Assumptions C101_disk.
Theorem C101_ellipsoid_curvature : forall (L : limits) tex i order (s : state (F:=XR L)), l_min L < 1 / 1000 -> good_texture tex -> schedule 1200 750 order -> good_state s ->
  exists p k img, frame_program (F:=XR L) tex i = Ok p /\ (forall fuel, (k <= fuel)%nat -> run (F:=XR L) p fuel order s = Ok img) /\
    List.length img = Z.to_nat (4 * 1200 * 750) /\ Forall byte img /\ forall i j d, (0 <= i < 1200)%Z -> (0 <= j < 750)%Z -> nth (offset 1200 750 i j 3) img d = 255%Z.
Proof. exact @frame_shown. Qed.
Print Assumptions C101_ellipsoid_curvature.
Example C101_case : l_min double_limits < 1 / 1000 /\ l_eps double_limits < 1 / 1000 /\ schedule 1800 1125 (raster 1800 1125) /\ schedule 800 800 (raster 800 800) /\
  schedule 1200 750 (raster 1200 750) /\ good_state demo_state /\ good_texture (paint (V3 1 1 1)).
Proof. exact show_case. Qed.
Example C101_heights : forall lm, height_of (F:=F64 lm) 1800 (dec (F:=F64 lm) 16 10) = Ok 1125%Z /\ height_of (F:=F64 lm) 1200 (dec (F:=F64 lm) 16 10) = Ok 750%Z /\ height_of (F:=F64 lm) 2880 (dec (F:=F64 lm) 16 10) = Ok 1800%Z.
Proof. exact heights. Qed.

(** ** C102: the frames of ellipsoid_curvature.cpp *)
(** The threads of the parallel loop write to different files. *)
Theorem C102_files : forall i j, (0 <= i < 2 ^ 63)%Z -> (0 <= j < 2 ^ 63)%Z ->
  (frame_name i = frame_name j -> i = j) /\ (cost_filename (frame_name i) = cost_filename (frame_name j) -> i = j) /\ frame_name i <> cost_filename (frame_name j).
Proof. exact frame_files. Qed.
Print Assumptions C102_files.
(** Every point of the ellipsoid is ahead of the camera and within the picture, in every frame. *)
Theorem C102_view : forall (L : limits) i p, on_ellipsoid egg p -> exists s t k, 0 <= s <= 1 /\ 0 <= t <= 1 /\ 0 < k /\
  exists d, get_ray (F:=XR L) (frame_camera (F:=XR L) i) (Fin s) (Fin t) = Ray (fin3 (eye i)) (fin3 d) /\ p = addR (eye i) (scaleR k d).
Proof. exact @frame_shows. Qed.
Print Assumptions C102_view.
(** The lamp does not touch the ellipsoid. *)
Theorem C102_lamp : forall (L : limits) i, l_min L < 1 -> exists o d lamp, frame_lamp (F:=XR L) i = Ok lamp /\ make_disk (F:=XR L) (Fin 10) (fin3 o) (fin3 d) = Ok lamp /\ normR d = 1 /\
  (forall p, on_disk o d 10 p -> 14 <= normR p) /\ (forall p, on_ellipsoid egg p -> normR p < 3).
Proof. exact @frame_lamp_ok. Qed.
Print Assumptions C102_lamp.
Example C102_ellipsoid : forall L : limits, shown_ellipsoid (F:=XR L) = finellipsoid egg.
Proof. exact @egg_eq. Qed.
Example C102_names : frame_name 0 = "ellipsoid_curvature_000.png"%string /\ frame_name 42 = "ellipsoid_curvature_042.png"%string /\ frame_name 359 = "ellipsoid_curvature_359.png"%string /\
  cost_filename (frame_name 7) = "ellipsoid_curvature_007_cost.png"%string.
Proof. exact names. Qed.
Example C102_case : on_ellipsoid egg (V3 (39 / 20) 0 0) /\ on_ellipsoid egg (V3 0 (-3 / 2) 0).
Proof. exact egg_case. Qed.

(** ** C103: enneper.cpp never gets to its picture *)
Theorem C103_picture_refuted : forall (L : limits) tex order fuel (s : state (F:=XR L)), l_min L < 1 / 1000 -> l_eps L < 1 / 1000 -> schedule 800 800 order ->
  exists p, enneper_program (F:=XR L) tex = Ok p /\ run (F:=XR L) p fuel order s = Undef.
Proof. exact @enneper_void. Qed.
Print Assumptions C103_picture_refuted.

(** ** C104: the picture of cylinder.cpp *)
(** Seven shades of blue, and black above and below; the light and the open ends are not in view. *)
Theorem C104_picture : forall (L : limits), l_min L < 1 / 1000 -> l_eps L < 1 / 1000 -> forall order (s : state (F:=XR L)), schedule 1200 750 order -> good_state s ->
  exists k img, (forall fuel, (k <= fuel)%nat -> run (F:=XR L) (cylinder_program (F:=XR L)) fuel order s = Ok img) /\ List.length img = Z.to_nat (4 * 1200 * 750) /\
  forall i j, (0 <= i < 1200)%Z -> (0 <= j < 750)%Z -> exists b, In b [0; 110; 156; 191; 220; 246; 255]%Z /\ ((j < 151)%Z \/ (597 < j)%Z -> b = 0%Z) /\
    forall k d, (0 <= k < 4)%Z -> nth (offset 1200 750 i j k) img d = nth (Z.to_nat k) [0; 0; b; 255]%Z d.
Proof. exact @can_picture. Qed.
Print Assumptions C104_picture.
(** Each ray from the camera that meets the infinite cylinder does so between its ends. *)
Theorem C104_ends : forall (L : limits) i j x y, (0 <= i < 1200)%Z -> (0 <= j < 750)%Z -> tick x -> tick y ->
  exists r, get_ray (F:=XR L) (p_camera (F:=XR L) (cylinder_program (F:=XR L))) (Fin ((IZR i + x) / IZR (1200 - 1))) (Fin ((IZR j + y) / IZR (750 - 1))) = finray r /\
  forall t, on_wall (Cylinder 3 (-10) 10) r t -> 11 <= t /\ -10 < vz (pointR r t) < 10.
Proof. exact @can_ends. Qed.
Print Assumptions C104_ends.
Example C104_case : l_min double_limits < 1 / 1000 /\ l_eps double_limits < 1 / 1000 /\ schedule 1200 750 (raster 1200 750) /\ good_state demo_state /\ tick 0 /\ tick (1 / 2).
Proof. exact can_case. Qed.
(** Some rays do meet it. *)
Example C104_seen : forall L : limits, exists r t, get_ray (F:=XR L) (p_camera (F:=XR L) (cylinder_program (F:=XR L))) (Fin ((IZR 600 + 0) / IZR (1200 - 1))) (Fin ((IZR 374 + 1 / 2) / IZR (750 - 1))) = finray r /\
  on_cylinder (Cylinder 3 (-10) 10) (pointR r t).
Proof. exact @can_seen. Qed.

(** ** C106: the picture of ellipsoid.cpp *)
(** Each sample is black or the light of the lamp after n scatterings in the medium. *)
Theorem C106_picture : forall (L : limits), l_min L < 1 / 1000000 -> forall order (s : state (F:=XR L)), schedule 2880 1800 order -> fair_state s -> exists k img,
  (forall fuel, (k <= fuel)%nat -> glass_run (F:=XR L) fuel order s = Ok img) /\ List.length img = Z.to_nat (4 * 2880 * 1800) /\
  forall i j, (0 <= i < 2880)%Z -> (0 <= j < 1800)%Z -> pixel_of 2880 1800 img i j dusk 32 /\ exists r g b, (0 <= r <= g)%Z /\ (g <= b <= 255)%Z /\
    forall k d, (0 <= k < 4)%Z -> nth (offset 2880 1800 i j k) img d = nth (Z.to_nat k) [r; g; b; 255]%Z d.
Proof. exact @glass_picture. Qed.
Print Assumptions C106_picture.
(** No ray of the camera meets the lamp. *)
Theorem C106_lamp : forall (L : limits) i j x y a (hi : xr) (rec : hit_record xr), (0 <= i < 2880)%Z -> (0 <= j < 1800)%Z -> tick x -> tick y -> 0 <= a -> hi <> NaN ->
  hit (glass_lamp (F:=XR L)) (get_ray (F:=XR L) (glass_camera (F:=XR L)) (Fin ((IZR i + x) / IZR (2880 - 1))) (Fin ((IZR j + y) / IZR (1800 - 1)))) (Fin a) hi rec = Ok (false, rec).
Proof. exact @glass_lamp_hidden. Qed.
Print Assumptions C106_lamp.
Example C106_case : l_min double_limits < 1 / 1000000 /\ schedule 2880 1800 (raster 2880 1800) /\ fair_state demo_state.
Proof. exact glass_case. Qed.

(** ** C115: the picture of helicoid.cpp *)
(** The camera of helicoid.cpp looks along the y axis from (0,-4,0). *)
Theorem C115_camera : forall (L : limits), l_min L < 1 / 1000 -> forall tex, exists p, helicoid_program (F:=XR L) tex = Ok p /\ p_width p = 1200%Z /\ p_height p = Ok 1200%Z /\ p_spp p = 512%nat /\
  forall s t, get_ray (F:=XR L) (p_camera p) (Fin s) (Fin t) = finray (Ray (V3 0 (-4) 0) (V3 (tan (40 * PI / 360) * (2 * s - 1)) 1 (tan (40 * PI / 360) * (2 * t - 1)))).
Proof. exact @spiral_setup. Qed.
Print Assumptions C115_camera.
(** None of the three lamps is in the picture. *)
Theorem C115_lamps : forall (L : limits), l_min L < 1 / 1000 -> forall tex, exists p solid glass lamps, helicoid_program (F:=XR L) tex = Ok p /\
  p_items p = solid :: glass :: map (fun k => (of_disk (F:=XR L) k, light (F:=XR L) (fin3 (V3 1 1 1)))) lamps /\ List.length lamps = 3%nat /\
  forall i j x y k a hi rec, (0 <= i < 1200)%Z -> (0 <= j < 1200)%Z -> tick x -> tick y -> In k lamps -> 0 <= a -> hi <> NaN ->
    hit (of_disk (F:=XR L) k) (get_ray (F:=XR L) (p_camera p) (Fin ((IZR i + x) / IZR (1200 - 1))) (Fin ((IZR j + y) / IZR (1200 - 1)))) (Fin a) hi rec = Ok (false, rec).
Proof. exact @spiral_lamps. Qed.
Print Assumptions C115_lamps.
(** The first 174 and the last 175 columns are black, whatever the state of the materials and of the generator. *)
Theorem C115_margins : forall (L : limits), l_min L < 1 / 1000 -> forall tex, exists p, helicoid_program (F:=XR L) tex = Ok p /\
  forall fuel i j g w, (0 <= i < 1200)%Z -> (i <= 173)%Z \/ (1025 <= i)%Z -> (0 <= j < 1200)%Z ->
  exists g' w', pixel (F:=XR L) (world_hit (F:=XR L) (p_scene p)) (scatter (F:=XR L) fuel) (emitted (F:=XR L)) 1200 1200 (p_background p) (p_camera p) (p_spp p) i j g w = Ok ([0; 0; 0; 255]%Z, g', w').
Proof. exact @spiral_pixels. Qed.
Print Assumptions C115_margins.
Example C115_case : l_min double_limits < 1 / 1000 /\ tick 0 /\ tick (1 / 2).
Proof. destruct can_case as (A & _ & _ & _ & B & C). exact (conj A (conj B C)). Qed.
(** In the middle the cylinder is seen. *)
Example C115_seen : forall (L : limits), l_min L < 1 / 1000 -> forall tex, exists p r, helicoid_program (F:=XR L) tex = Ok p /\
  get_ray (F:=XR L) (p_camera p) (Fin ((IZR 599 + 1 / 2) / IZR (1200 - 1))) (Fin ((IZR 599 + 1 / 2) / IZR (1200 - 1))) = finray r /\ on_cylinder (Cylinder 1 (-3) 3) (pointR r 3).
Proof. exact @spiral_seen. Qed.
