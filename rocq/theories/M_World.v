(** A whole scene: the materials as objects with their generators, hittable_list::hit as
    ray_color calls it, and scenes put together from these (material.hpp, diffuse_light.hpp,
    ray_color.hpp). *)
From Coq Require Import ZArith List Bool.
From Verif Require Import Num M_Vec M_Rng M_Hittable M_Materials.
Import ListNotations.

Section World.
Context {F : NumOps}.
Local Open Scope num_scope.
Notation record := (hit_record num).

(* lambertian.hpp:57-58, metal.hpp:32, dielectric.hpp:76-79, diffuse_light.hpp:30,
   isotropic.hpp:32-34; the generators are in [state] *)
Inductive material : Type :=
| Lambertian (albedo : texture)
| Metal (albedo : texture)
| Dielectric (ir : num) (emit : texture)
| DiffuseLight (emit : texture)
| Isotropic (albedo : texture).
(** shared_ptr<material>: an address and what is found there *)
Definition material_ptr : Type := nat * material.

(** Everything that changes while a scene is rendered: the pcg_ of the Lambertian material at
    each address; the values which uniform and normal distributions over std::mt19937_64 will
    return, in the order of the calls (normal ones in triples); and what the uninitialised
    fields of the two hit_records of each intersection test contain (ray_color.hpp:14 and
    hittable_list.hpp:36).  A call that happens to draw nothing may be taken to draw a value
    and drop it: theorems are for every stream. *)
Record state : Type := State {
  st_pcg : nat -> pcg; st_uniform : nat -> num; st_normal : nat -> vec3 num; st_junk : nat -> record * record }.
Definition set_pcg (k : nat) (g : pcg) (s : state) : state :=
  State (fun j => if Nat.eqb j k then g else st_pcg s j) (st_uniform s) (st_normal s) (st_junk s).
Definition drop_uniform (s : state) : state := State (st_pcg s) (fun n => st_uniform s (S n)) (st_normal s) (st_junk s).
Definition drop_normal (s : state) : state := State (st_pcg s) (st_uniform s) (fun n => st_normal s (S n)) (st_junk s).
Definition drop_junk (s : state) : state := State (st_pcg s) (st_uniform s) (st_normal s) (fun n => st_junk s (S n)).

(* material.hpp:16-18, dielectric.hpp:58-61, diffuse_light.hpp:22-25 emitted *)
Definition emitted (m : material_ptr) (rec : record) : vec3 num :=
  match snd m with
  | Dielectric _ emit => emit rec
  | DiffuseLight emit => emit rec
  | _ => V3 (#0) (#0) (#0)
  end.

(* the scatter of each material, diffuse_light.hpp:16-20 among them; [fuel] is for the loop of
   lambertian.hpp:36-44 *)
Definition scatter (fuel : nat) (m : material_ptr) (s : state) (r : ray num) (rec : record)
  : outcome (scattering * state) :=
  match snd m with
  | Lambertian albedo =>
      obind (lambertian_scatter fuel albedo (st_pcg s (fst m)) rec) (fun '(sc, g) => Ok (sc, set_pcg (fst m) g s))
  | Metal albedo => let '(b, sc) := metal_scatter albedo r rec in Ok (if b then Some sc else None, s)
  | Dielectric ir _ => Ok (Some (dielectric_scatter ir (st_uniform s 0%nat) r rec), drop_uniform s)
  | DiffuseLight _ => Ok (None, s)
  | Isotropic albedo => Ok (Some (isotropic_scatter albedo (st_normal s 0%nat) rec), drop_normal s)
  end.

(* ray_color.hpp:14-15 *)
Definition world_hit (scene : hittable_list (M:=material_ptr)) (s : state) (r : ray num) (lo hi : num)
  : outcome (option material_ptr * record * state) :=
  let '(temp0, rec0) := st_junk s 0%nat in
  obind (list_hit temp0 scene r lo hi rec0) (fun '(m, rec) => Ok (m, rec, drop_junk s)).
End World.
