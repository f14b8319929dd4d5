(** What the theorems on nearest hits in floating point talk about. *)
From Coq Require Import List.
From Verif Require Import Num M_Vec M_Hittable M_Shapes.
Import ListNotations.

Section Spec.
Context {F : NumOps}.
(** spheres, ellipsoids, disks and rectangles with any parameters whatsoever *)
Definition simple_object (o : hittable) : Prop :=
  (exists s, o = of_sphere s) \/ (exists s, o = of_ellipsoid s) \/ (exists k, o = of_disk k) \/
  (exists q, o = of_xy q) \/ (exists q, o = of_xz q) \/ (exists q, o = of_yz q).
(** asked alone, the object reports a hit at t, before the end of the window *)
Definition seen (r : ray num) (lo hi : num) (o : hittable) (t : num) : Prop :=
  nltb t hi = true /\ exists rec rec', hit o r lo hi rec = Ok (true, rec') /\ h_t rec' = t.
(** the list made by adding the items one after the other *)
Definition scene_with {M : Type} (items : list (hittable * M)) : hittable_list :=
  fold_left (fun s '(o, m) => add s o m) items empty_list.
End Spec.

(** ** Hierarchies *)
Section Tree.
Context {F : NumOps}.
Fixpoint tree_leaves (t : bvh) : list hittable :=
  match t with Leaf o => [o] | Node l r _ => tree_leaves l ++ tree_leaves r end.
(** o is a leaf, and every box above it is entered by the ray in each window [lo,hi] that ends at
    or after t *)
Fixpoint exposed (r : ray num) (lo : num) (t : num) (tree : bvh) (o : hittable) : Prop :=
  match tree with
  | Leaf o' => o = o'
  | Node l rt box => (forall hi, nleb t hi = true -> aabb_hit box r lo hi = true) /\ (exposed r lo t l o \/ exposed r lo t rt o)
  end.
(** asked alone, the object reports a hit at t *)
Definition reports (r : ray num) (lo hi : num) (o : hittable) (t : num) : Prop :=
  exists rec rec', hit o r lo hi rec = Ok (true, rec') /\ h_t rec' = t.
(** a sphere or an ellipsoid with any parameters whatsoever *)
Definition round_object (o : hittable) : Prop := (exists s, o = of_sphere s) \/ (exists s, o = of_ellipsoid s).
End Tree.
