(** Model of the example programs in src/: their scenes, cameras, sizes and file names.

    Decimal literals are quotients of integers: in a floating-point format the quotient is the
    nearest number, as the literal is (the literals are double, and float is not promoted, see
    DESIGN.md).  A lambda texture is a parameter.  std::random_device through a uniform
    distribution is a stream of inputs. *)
From Coq Require Import String ZArith List Bool DecimalString.
From Verif Require Import Num M_Vec M_Rng M_Hittable M_Materials M_Shapes M_Surfaces M_Image M_World.
Import ListNotations.

Section Programs.
Context {F : NumOps}.
Local Open Scope num_scope.

Definition dec (n d : Z) : num := nofZ n / nofZ d.

(** What main passes to camera and render_scene.  Every make_shared of a material gets an
    address of its own: the position in the list. *)
Record program : Type := Program {
  p_file : string; p_width : Z; p_height : outcome Z; p_spp : nat; p_background : vec3 num;
  p_from : vec3 num; p_at : vec3 num; p_up : vec3 num; p_vfov : num; p_aspect : num;
  p_items : list (hittable * material) }.
Fixpoint number (k : nat) (l : list (hittable * material)) : list (hittable * material_ptr) :=
  match l with
  | [] => []
  | (o, m) :: l => (o, (k, m)) :: number (S k) l
  end.
Definition p_camera (p : program) : camera := make_camera (p_from p) (p_at p) (p_up p) (p_vfov p) (p_aspect p).
Definition p_scene (p : program) : hittable_list (M:=material_ptr) :=
  fold_left (fun s '(o, m) => add s o m) (number 0 (p_items p)) empty_list.
(* the last line of each main, up to the first write_png; [fuel] is for lambertian.hpp:36-44 *)
Definition run (p : program) (fuel : nat) (order : list (Z * Z)) (s : state) : outcome image :=
  obind (p_height p) (fun height =>
  render_scene (world_hit (p_scene p)) (scatter fuel) emitted (p_width p) height (p_background p) (p_camera p) (p_spp p) order s).

(* e.g. render_spheres.cpp:88: the height of the picture from its width *)
Definition height_of (width : Z) (aspect : num) : outcome Z := to_int (nofZ width / aspect).

Definition matte (c : vec3 num) : material := Lambertian (solid_color c).
(* dielectric.hpp:30-31 *)
Definition glass (ir : num) : material := Dielectric ir (solid_color (V3 (#0) (#0) (#0))).
Definition light (c : vec3 num) : material := DiffuseLight (solid_color c).

(** *** render_spheres.cpp *)
(** the draws still to come *)
Definition later (n : nat) (d : nat -> num) : nat -> num := fun k => d (n + k)%nat.
(* render_spheres.cpp:40-67 one pass of the inner loop.  The two draws for the centre come in an
   unspecified order: the streams are arbitrary. *)
Definition cell (a b : Z) (d : nat -> num) : list (hittable * material) * (nat -> num) :=
  let choose_mat := d 0%nat in
  let center := V3 (nofZ a + dec 9 10 * d 1%nat) (dec 2 10) (nofZ b + dec 9 10 * d 2%nat) in
  let d := later 3 d in
  let ball := of_sphere (Sphere center (dec 2 10)) in
  if norm (vsub center (V3 (#4) (dec 2 10) (#0))) >? dec 9 10 then
    if choose_mat <? dec 5 10 then
      ([(ball, matte (V3 (d 0%nat * d 1%nat) (d 2%nat * d 3%nat) (d 4%nat * d 5%nat)))], later 6 d)
    else if choose_mat <? dec 75 100 then
      ([(ball, Metal (solid_color (V3 (d 0%nat / #2 + dec 5 10) (d 1%nat / #2 + dec 5 10) (d 2%nat / #2 + dec 5 10))))], later 3 d)
    else ([(ball, glass (dec 15 10))], d)
  else ([], d).
(* render_spheres.cpp:38-39 *)
Definition sides : list Z := map (fun n => (Z.of_nat n - 11)%Z) (seq 0 22).
Definition grid : list (Z * Z) := flat_map (fun a => map (fun b => (a, b)) sides) sides.
Fixpoint place (cells : list (Z * Z)) (d : nat -> num) : list (hittable * material) :=
  match cells with
  | [] => []
  | (a, b) :: cells => let '(x, d) := cell a b d in x ++ place cells d
  end.
(* render_spheres.cpp:22-81 random_scene *)
Definition random_scene (d : nat -> num) : list (hittable * material) :=
  (of_sphere (Sphere (V3 (#0) (#(-1000)) (#0)) (#1000)),
   Lambertian (checker_texture (solid_color (V3 (dec 2 10) (dec 3 10) (dec 1 10))) (solid_color (V3 (dec 9 10) (dec 9 10) (dec 9 10)))))
  :: place grid d ++
  [(of_sphere (Sphere (V3 (#0) (#1) (#0)) (#1)), glass (dec 15 10));
   (of_sphere (Sphere (V3 (#(-4)) (#1) (#0)) (#1)), matte (V3 (dec 4 10) (dec 2 10) (dec 1 10)));
   (of_sphere (Sphere (V3 (#4) (#1) (#0)) (#1)), Metal (solid_color (V3 (dec 7 10) (dec 6 10) (dec 5 10))))].
(* render_spheres.cpp:83-100 main *)
Definition render_spheres (d : nat -> num) : program :=
  Program "spheres.png" 1800 (height_of 1800 (dec 16 10)) 128 (V3 (dec 7 10) (dec 8 10) (#1))
    (V3 (#13) (#2) (#3)) (V3 (#0) (#0) (#0)) (V3 (#0) (#1) (#0)) (#20) (dec 16 10) (random_scene d).

(** *** with_lights.cpp *)
(* with_lights.cpp:25-47 simple_light *)
Definition simple_light : list (hittable * material) :=
  [(of_sphere (Sphere (V3 (#0) (#(-1000)) (#0)) (#1000)),
    Lambertian (checker_texture (solid_color (V3 (dec 8 10) (#0) (#1))) (solid_color (V3 (#0) (dec 8 10) (#1)))));
   (of_sphere (Sphere (V3 (#0) (#2) (#0)) (#2)), Metal (solid_color (V3 (dec 2 10) (dec 4 10) (dec 9 10))));
   (of_xy (Rect (#3) (#5) (#1) (#3) (#(-2))), light (V3 (#4) (#4) (#4)))].
(* with_lights.cpp:49-66 main *)
Definition with_lights : program :=
  Program "lights.png" 1800 (height_of 1800 (dec 16 10)) 16 (V3 (dec 1 100) (dec 2 100) (dec 1 100))
    (V3 (#26) (#3) (#6)) (V3 (#0) (#2) (#0)) (V3 (#0) (#1) (#0)) (#20) (dec 16 10) simple_light.

(** *** ellipsoid_curvature.cpp *)
(* ellipsoid_curvature.cpp:29-31 *)
Definition shown_ellipsoid : ellipsoid num := Ellipsoid (V3 (#0) (#0) (#0)) (V3 (dec 195 100) (dec 15 10) (dec 25 10)).
(* ellipsoid_curvature.cpp:66-68 *)
Definition frame_from (i : Z) : vec3 num :=
  let theta := #2 * npi * nofZ i / #360 in
  V3 (#7 * ncos theta) (#0) (#7 * nsin theta).
(* ellipsoid_curvature.cpp:69 *)
Definition frame_camera (i : Z) : camera :=
  make_camera (frame_from i) (V3 (#0) (#0) (#0)) (V3 (#0) (#1) (#0)) (#40) (dec 16 10).
(* ellipsoid_curvature.cpp:70-71 *)
Definition frame_lamp (i : Z) : outcome (disk num) :=
  let '(o, d) := backlight (frame_camera i) in make_disk (#10) o d.

(* ellipsoid_curvature.cpp:73-81 the file of a frame, i >= 0 *)
Definition frame_name (i : Z) : string :=
  ("ellipsoid_curvature_" ++ (if Z.ltb i 10 then "00" else if Z.ltb i 100 then "0" else "") ++
   NilZero.string_of_int (Z.to_int i) ++ ".png")%string.
(* ellipsoid_curvature.cpp:24-84 one pass of the loop; [tex] is the lambda texture of lines 36-40 *)
Definition frame_program (tex : texture) (i : Z) : outcome program :=
  omap (fun lamp =>
    Program (frame_name i) 1200 (height_of 1200 (dec 16 10)) 1024 (V3 (#0) (#0) (#0))
      (frame_from i) (V3 (#0) (#0) (#0)) (V3 (#0) (#1) (#0)) (#40) (dec 16 10)
      [(of_ellipsoid shown_ellipsoid, Lambertian tex); (of_disk lamp, light (V3 (#1) (#1) (#1)))])
    (frame_lamp i).

(** *** ellipsoid.cpp; its scene has a constant_medium among the objects, see M_Fog.v *)
(* ellipsoid.cpp:48-62 *)
Definition glass_camera : camera :=
  make_camera (V3 (#478) (#278) (#(-600))) (V3 (#278) (#278) (#0)) (V3 (#0) (#1) (#0)) (#40) (#1).
Definition glass_width : Z := 2880.
Definition glass_height : outcome Z := height_of glass_width (dec 16 10).

(** *** enneper.cpp *)
(* enneper.cpp:57-60 *)
Definition enneper_camera : camera :=
  make_camera (V3 (#10) (#(-10)) (#0)) (V3 (#0) (#0) (#0)) (V3 (#0) (#0) (#1)) (#40) (#1).
(* enneper.cpp:24-68 the scene and main; [tex] is the lambda texture of lines 32-37 *)
Definition enneper_program (tex : texture) : outcome program :=
  let '(o, d) := backlight enneper_camera in
  omap (fun lamp =>
    Program "enneper.png" 800 (to_int64 (nofZ 800 / #1)) 16 (V3 (#0) (#0) (#0))
      (V3 (#10) (#(-10)) (#0)) (V3 (#0) (#0) (#0)) (V3 (#0) (#0) (#1)) (#40) (#1)
      [(of_enneper (Enneper (#4)), Lambertian tex); (of_disk lamp, light (V3 (#2) (#2) (#2)))])
    (make_disk (#10) o d).

(** *** torus_curvature.cpp, disk.cpp, cylinder.cpp, helicoid.cpp *)
(* torus_curvature.cpp:22-65; [tex] is the lambda texture of lines 35-41 *)
Definition torus_program (tex : texture) : program :=
  let lamp := light (V3 (#1) (#1) (#1)) in
  let scale := dec 7 10 in
  Program "torus_curvature.png" 1200 (to_int64 (nofZ 1200 / #1)) 128 (V3 (#0) (#0) (#0))
    (V3 (scale * #5) (#(-10) * scale) (#(-15) * scale)) (V3 (#0) (#0) (#0)) (V3 (#0) (#1) (#0)) (#40) (#1)
    [(of_yz (Rect (#(-10)) (#10) (#(-10)) (#10) (#20)), lamp);
     (of_xy (Rect (#(-100)) (#100) (#(-100)) (#100) (#(-20))), lamp);
     (of_torus (Torus (V3 (#0) (#0) (#0)) (#3) (#1)), Lambertian tex)].
(* disk.cpp:22-60; [tex] is the lambda texture of lines 30-34 *)
Definition disk_program (tex : texture) : outcome program :=
  let cam := make_camera (V3 (#0) (#(-4)) (#2)) (V3 (#0) (#0) (#0)) (V3 (#0) (#0) (#1)) (#40) (#1) in
  let inv_rt2 := #1 / nsqrt (#2) in
  let '(o, d) := backlight cam in
  obind (make_disk (#1) (V3 (#0) (#0) (#0)) (V3 inv_rt2 (#0) (- inv_rt2))) (fun k =>
  omap (fun lamp =>
    Program "disk.png" 800 (to_int64 (nofZ 800 / #1)) 256 (V3 (#0) (#0) (#0))
      (V3 (#0) (#(-4)) (#2)) (V3 (#0) (#0) (#0)) (V3 (#0) (#0) (#1)) (#40) (#1)
      [(of_disk k, Lambertian tex); (of_disk lamp, light (V3 (#5) (#5) (#5)))])
    (make_disk (#10) o d)).
(* cylinder.cpp:24-56 *)
Definition cylinder_program : program :=
  Program "cylinder.png" 1200 (to_int64 (nofZ 1200 / dec 16 10)) 16 (V3 (#0) (#0) (#0))
    (V3 (#10) (#10) (#0)) (V3 (#0) (#0) (#0)) (V3 (#0) (#1) (#0)) (#40) (dec 16 10)
    [(of_yz (Rect (#(-10)) (#10) (#(-10)) (#10) (#20)), light (V3 (#3) (#3) (#3)));
     (of_cylinder (Cylinder (#3) (#(-10)) (#10)), matte (V3 (#0) (#0) (#1)))].
(* helicoid.cpp:79-107 main and the scene of lines 24-52; [tex] is the lambda texture of lines 32-39.
   The dielectric emits blue*0 (lines 47-50), which is black.  The three lamps share one material
   object, a diffuse_light without state; here they get one address each. *)
Definition helicoid_program (tex : texture) : outcome program :=
  let cam := make_camera (V3 (#0) (#(-4)) (#0)) (V3 (#0) (#0) (#0)) (V3 (#0) (#1) (#1)) (#40) (#1) in
  let lamp := light (V3 (#1) (#1) (#1)) in
  let '(o, d) := backlight cam in
  obind (make_disk (#10) o d) (fun k1 =>
  obind (make_disk (#10) (V3 (#8) (#0) (#0)) (V3 (#1) (#0) (#0))) (fun k2 =>
  omap (fun k3 =>
    Program "helicoid.png" 1200 (to_int64 (nofZ 1200 / #1)) 512 (V3 (#0) (#0) (#0))
      (V3 (#0) (#(-4)) (#0)) (V3 (#0) (#0) (#0)) (V3 (#0) (#1) (#1)) (#40) (#1)
      [(of_helicoid (Helicoid (#1) (#3)), Lambertian tex);
       (of_cylinder (Cylinder (#1) (- #3) (#3)), Dielectric (#1) (solid_color (vscale (#0) (V3 (dec 2 100) (dec 4 10) (dec 9 10)))));
       (of_disk k1, lamp); (of_disk k2, lamp); (of_disk k3, lamp)])
    (make_disk (#10) (V3 (#(-8)) (#0) (#0)) (V3 (#1) (#0) (#0))))).
End Programs.
