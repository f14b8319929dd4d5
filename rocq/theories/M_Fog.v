(** Scenes with a constant_medium among the objects (constant_medium.hpp, hittable_list.hpp), and
    ellipsoid.cpp, which has one. *)
From Coq Require Import String ZArith List Bool.
From Verif Require Import Num M_Vec M_Rng M_Hittable M_Materials M_Shapes M_Image M_World M_Programs.
Import ListNotations.

Section Fog.
Context {F : NumOps}.
Local Open Scope num_scope.
Notation record := (hit_record num).

(** An object of a list: one whose hit draws nothing, or a medium. *)
Inductive thing : Type :=
| Plain (o : hittable)
| Fog (boundary : hittable) (density : num).
(** The object for one intersection test.  constant_medium.hpp:36-37, 43, 63: a medium draws
    from its own generator, and has two records of its own, uninitialised.  A test which draws
    nothing may be taken to draw a value and drop it (see M_World.v).
    constant_medium.hpp:23-25: its bounding box is that of its boundary. *)
Definition settle (draw : num) (junk : record * record) (t : thing) : hittable :=
  match t with
  | Plain o => o
  | Fog b d => Hittable (medium_hit (hit b) (neg_inv_density d) draw (fst junk) (snd junk)) (bounding_box b)
  end.
Fixpoint settle_all (k : nat) (s : state) (l : list (thing * material_ptr)) : list (hittable * material_ptr) :=
  match l with
  | [] => []
  | (t, m) :: l => (settle (st_uniform s k) (st_junk s (S k)) t, m) :: settle_all (S k) s l
  end.
Definition skip (n : nat) (s : state) : state :=
  State (st_pcg s) (fun k => st_uniform s (n + k)%nat) (st_normal s) (fun k => st_junk s (S n + k)%nat).
(* ray_color.hpp:14-15 with hittable_list.hpp:36-58 *)
Definition fog_hit (things : list (thing * material_ptr)) (s : state) (r : ray num) (lo hi : num)
  : outcome (option material_ptr * record * state) :=
  let '(temp0, rec0) := st_junk s 0%nat in
  let scene := fold_left (fun l '(o, m) => add l o m) (settle_all 0 s things) empty_list in
  obind (list_hit temp0 scene r lo hi rec0) (fun '(m, rec) => Ok (m, rec, skip (length things) s)).

(* ellipsoid.cpp:33 *)
Definition glass_lamp : hittable := of_xz (Rect (#123) (#423) (#147) (#412) (#700)).
(* ellipsoid.cpp:35-38 *)
Definition glass_ellipsoid : ellipsoid num :=
  let scale := dec 35 10 in
  Ellipsoid (V3 (#260) (#250) (#45)) (V3 (scale * #60) (scale * #55) (scale * #40)).
(* ellipsoid.cpp:29-45 ellipsoid_scene *)
Definition glass_scene : list (thing * material_ptr) :=
  [(Plain glass_lamp, (0%nat, light (V3 (#7) (#7) (#7))));
   (Plain (of_ellipsoid glass_ellipsoid), (1%nat, glass (dec 15 10)));
   (Fog (of_ellipsoid glass_ellipsoid) (dec 15 1000), (2%nat, Isotropic (solid_color (V3 (dec 2 100) (dec 4 10) (dec 9 10)))))].
(* ellipsoid.cpp:63 *)
Definition glass_file : string := "ellipsoid.png".
(* ellipsoid.cpp:47-64 main *)
Definition glass_run (fuel : nat) (order : list (Z * Z)) (s : state) : outcome image :=
  obind glass_height (fun height =>
  render_scene (fog_hit glass_scene) (scatter fuel) emitted glass_width height (V3 (#0) (#0) (#0)) glass_camera 32 order s).
End Fog.
