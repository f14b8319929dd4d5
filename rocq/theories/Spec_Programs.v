(** Vocabulary of the theorems about the example programs. *)
From Coq Require Import Reals ZArith List.
From Verif Require Import Num XR Spec Spec_Scene Spec_Shapes M_Vec M_Hittable M_Materials M_Shapes M_Image M_World.
Import ListNotations.
Local Open Scope R_scope.

Section Programs.
Context {L : limits}.
Notation X := (XR L).

(** what a uniform distribution on [0, 1) may return *)
Definition unit_draws (d : nat -> R) : Prop := forall n, 0 <= d n < 1.
Definition unit_color (lo : R) (c : vec3 R) : Prop := (lo <= vx c < 1) /\ (lo <= vy c < 1) /\ (lo <= vz c < 1).

(** the small balls of render_spheres.cpp: radius 1/5, resting on the plane of height 0 *)
Definition marble_item (b : vec3 R * material (F:=X)) : hittable (F:=X) * material (F:=X) :=
  (of_sphere (F:=X) (finsphere (Sphere (fst b) (1 / 5))), snd b).
Definition in_cell (a b : Z) (c : vec3 R) : Prop := IZR a <= vx c < IZR a + 9 / 10 /\ vy c = 1 / 5 /\ IZR b <= vz c < IZR b + 9 / 10.
Inductive marble_material : material (F:=X) -> Prop :=
| Marble_matte : forall c, unit_color 0 c -> marble_material (Lambertian (F:=X) (solid_color (F:=X) (fin3 c)))
| Marble_metal : forall c, unit_color (1 / 2) c -> marble_material (Metal (F:=X) (solid_color (F:=X) (fin3 c)))
| Marble_glass : marble_material (Dielectric (F:=X) (Fin (3 / 2)) (solid_color (F:=X) (fin3 (V3 0 0 0)))).

(** a step of one pixel to the right, or up, changes the direction of the ray by this much *)
Definition pixel_steps (cam : camera (F:=X)) (width height : Z) (right above : vec3 R) : Prop := forall i j x y, exists o d,
  get_ray (F:=X) cam (pixel_u (F:=X) width i (Fin x)) (pixel_v (F:=X) height j (Fin y)) = Ray o (fin3 d) /\
  get_ray (F:=X) cam (pixel_u (F:=X) width (i + 1) (Fin x)) (pixel_v (F:=X) height j (Fin y)) = Ray o (fin3 (addR d right)) /\
  get_ray (F:=X) cam (pixel_u (F:=X) width i (Fin x)) (pixel_v (F:=X) height (j + 1) (Fin y)) = Ray o (fin3 (addR d above)).
End Programs.

(** ellipsoid_curvature.cpp: where the camera of frame i is, and the ellipsoid *)
Definition eye (i : Z) : vec3 R := V3 (7 * cos (2 * PI * IZR i / 360)) 0 (7 * sin (2 * PI * IZR i / 360)).
Definition egg : ellipsoid R := Ellipsoid (V3 0 0 0) (V3 (39 / 20) (3 / 2) (5 / 2)).
