(** Model of include/drt/hittable.hpp, aabb.hpp, hittable_list.hpp and bvh.hpp. *)
From Coq Require Import ZArith List Bool Arith.
From Verif Require Import Num M_Vec M_Roots.
Import ListNotations.

(** hittable.hpp:15-82.  A record is threaded through every hit function as an in/out
    argument; members that C++ leaves uninitialised ([p], [normal], [front_face]) are
    simply arbitrary. *)
Record hit_record (T : Type) : Type := HR {
  h_p : vec3 T;
  h_normal : vec3 T;
  h_grad : T;            (* gradient_magnitude *)
  h_t : T;
  h_u : T;
  h_v : T;
  h_front : bool;        (* front_face *)
  h_E : T; h_F : T; h_G : T;
  h_e : T; h_f : T; h_g : T;
  h_cond : T             (* condition_number *)
}.
Arguments HR {T} _ _ _ _ _ _ _ _ _ _ _ _ _ _.
Arguments h_p {T} _.
Arguments h_normal {T} _.
Arguments h_grad {T} _.
Arguments h_t {T} _.
Arguments h_u {T} _.
Arguments h_v {T} _.
Arguments h_front {T} _.
Arguments h_E {T} _.
Arguments h_F {T} _.
Arguments h_G {T} _.
Arguments h_e {T} _.
Arguments h_f {T} _.
Arguments h_g {T} _.
Arguments h_cond {T} _.

(** Member assignments. *)
Section Set_.
Context {T : Type}.
Implicit Types (x : T) (h : hit_record T).
Definition set_p (p : vec3 T) h := HR p (h_normal h) (h_grad h) (h_t h) (h_u h) (h_v h) (h_front h)
  (h_E h) (h_F h) (h_G h) (h_e h) (h_f h) (h_g h) (h_cond h).
Definition set_normal (n : vec3 T) h := HR (h_p h) n (h_grad h) (h_t h) (h_u h) (h_v h) (h_front h)
  (h_E h) (h_F h) (h_G h) (h_e h) (h_f h) (h_g h) (h_cond h).
Definition set_grad x h := HR (h_p h) (h_normal h) x (h_t h) (h_u h) (h_v h) (h_front h)
  (h_E h) (h_F h) (h_G h) (h_e h) (h_f h) (h_g h) (h_cond h).
Definition set_t x h := HR (h_p h) (h_normal h) (h_grad h) x (h_u h) (h_v h) (h_front h)
  (h_E h) (h_F h) (h_G h) (h_e h) (h_f h) (h_g h) (h_cond h).
Definition set_u x h := HR (h_p h) (h_normal h) (h_grad h) (h_t h) x (h_v h) (h_front h)
  (h_E h) (h_F h) (h_G h) (h_e h) (h_f h) (h_g h) (h_cond h).
Definition set_v x h := HR (h_p h) (h_normal h) (h_grad h) (h_t h) (h_u h) x (h_front h)
  (h_E h) (h_F h) (h_G h) (h_e h) (h_f h) (h_g h) (h_cond h).
Definition set_front (b : bool) h := HR (h_p h) (h_normal h) (h_grad h) (h_t h) (h_u h) (h_v h) b
  (h_E h) (h_F h) (h_G h) (h_e h) (h_f h) (h_g h) (h_cond h).
(* rec.E = E; rec.F = F; rec.G = G *)
Definition set_first (E F G : T) h := HR (h_p h) (h_normal h) (h_grad h) (h_t h) (h_u h) (h_v h)
  (h_front h) E F G (h_e h) (h_f h) (h_g h) (h_cond h).
(* rec.e = e; rec.f = f; rec.g = g *)
Definition set_second (e f g : T) h := HR (h_p h) (h_normal h) (h_grad h) (h_t h) (h_u h) (h_v h)
  (h_front h) (h_E h) (h_F h) (h_G h) e f g (h_cond h).
Definition set_cond x h := HR (h_p h) (h_normal h) (h_grad h) (h_t h) (h_u h) (h_v h) (h_front h)
  (h_E h) (h_F h) (h_G h) (h_e h) (h_f h) (h_g h) x.
End Set_.

(** aabb.hpp:9-41 *)
Record aabb (T : Type) : Type := Box { b_min : vec3 T; b_max : vec3 T }.
Arguments Box {T} _ _.
Arguments b_min {T} _.
Arguments b_max {T} _.

Section Hittable.
Context {F : NumOps}.
Local Open Scope num_scope.
Notation record := (hit_record num).

(* hittable.hpp:26-29 set_face_normal *)
Definition set_face_normal (r : ray num) (outward : vec3 num) (h : record) : record :=
  let front := dot (r_dir r) outward <? #0 in
  set_normal (if front then outward else vneg outward) (set_front front h).

(* hittable.hpp:47-49 *)
Definition gaussian_curvature (h : record) : num :=
  (h_e h * h_g h - h_f h * h_f h) / (h_E h * h_G h - h_F h * h_F h).
(* hittable.hpp:51-53 *)
Definition mean_curvature (h : record) : num :=
  (h_e h * h_G h - #2 * h_f h * h_F h + h_g h * h_E h) /
  (#2 * (h_E h * h_G h - h_F h * h_F h)).
(* hittable.hpp:55-63 *)
Definition principal_curvatures (h : record) : num * num :=
  let H := mean_curvature h in
  let K := gaussian_curvature h in
  match quadratic_roots (#1) (- #2 * H) K with
  | [k1; k2] => (k1, k2)
  | _ => (nnan, nnan)
  end.

(* aabb.hpp:18-31: one iteration of the slab loop; [None]: return false *)
Definition slab (mn mx o d : num) (w : num * num) : option (num * num) :=
  let '(t_min, t_max) := w in
  let invD := #1 / d in
  let t0 := (mn - o) * invD in
  let t1 := (mx - o) * invD in
  let '(t0, t1) := if invD <? #0 then (t1, t0) else (t0, t1) in
  let t_min := if t0 >? t_min then t0 else t_min in
  let t_max := if t1 <? t_max then t1 else t_max in
  if t_max <=? t_min then None else Some (t_min, t_max).
Definition aabb_hit (b : aabb num) (r : ray num) (t_min t_max : num) : bool :=
  match slab (vx (b_min b)) (vx (b_max b)) (vx (r_orig r)) (vx (r_dir r)) (t_min, t_max) with
  | None => false
  | Some w =>
    match slab (vy (b_min b)) (vy (b_max b)) (vy (r_orig r)) (vy (r_dir r)) w with
    | None => false
    | Some w =>
      match slab (vz (b_min b)) (vz (b_max b)) (vz (r_orig r)) (vz (r_dir r)) w with
      | None => false
      | Some _ => true
      end
    end
  end.

(* aabb.hpp:43-56 *)
Definition surrounding_box (b0 b1 : aabb num) : aabb num :=
  Box (V3 (c_fmin (vx (b_min b0)) (vx (b_min b1)))
          (c_fmin (vy (b_min b0)) (vy (b_min b1)))
          (c_fmin (vz (b_min b0)) (vz (b_min b1))))
      (V3 (c_fmax (vx (b_max b0)) (vx (b_max b1)))
          (c_fmax (vy (b_max b0)) (vy (b_max b1)))
          (c_fmax (vz (b_max b0)) (vz (b_max b1)))).

(** hittable.hpp:84-90: an object of the scene, reduced to the two operations that
    scenes use.  [hit] returns the flag and the updated record; [Undef] if it runs into
    undefined behaviour.  [bounding_box] returns [None] where C++ returns false (and
    leaves the output untouched). *)
Record hittable : Type := Hittable {
  hit : ray num -> num -> num -> record -> outcome (bool * record);
  bounding_box : option (aabb num)
}.

(** hittable_list.hpp *)
Section List_.
Context {M : Type}.   (* shared_ptr<material>; None is nullptr *)
Record hittable_list : Type := Scene { objects : list hittable; materials : list M }.

(* hittable_list.hpp:14 *)
Definition empty_list : hittable_list := Scene [] [].
(* hittable_list.hpp:21-24 *)
Definition add (s : hittable_list) (o : hittable) (m : M) : hittable_list :=
  Scene (objects s ++ [o]) (materials s ++ [m]).

(* hittable_list.hpp:37-48: the loop; state is temp_rec, closest_so_far, rec, hit_idx *)
Fixpoint list_loop (r : ray num) (t_min : num) (i : nat) (objs : list hittable)
  (temp : record) (closest : num) (rec : record) (hit_idx : option nat)
  : outcome (option nat * record) :=
  match objs with
  | [] => Ok (hit_idx, rec)
  | o :: objs' =>
    obind (hit o r t_min closest temp) (fun '(b, temp) =>
    if b then
      if h_t temp <? closest
      then list_loop r t_min (S i) objs' temp (h_t temp) temp (Some i)
      else list_loop r t_min (S i) objs' temp closest rec hit_idx
    else list_loop r t_min (S i) objs' temp closest rec hit_idx)
  end.
(* hittable_list.hpp:36-58; [temp0] is the initial content of the local temp_rec *)
Definition list_hit (temp0 : record) (s : hittable_list) (r : ray num) (t_min t_max : num)
  (rec : record) : outcome (option M * record) :=
  obind (list_loop r t_min 0 (objects s) temp0 t_max rec None) (fun '(idx, rec) =>
  match idx with
  | None => Ok (None, rec)
  | Some i =>
    match nth_error (materials s) i with
    | Some m => Ok (Some m, rec)
    | None => Undef
    end
  end).

(* hittable_list.hpp:60-73; [out0] is the prior content of output_box *)
Fixpoint list_box_loop (objs : list hittable) (first_box : bool) (out : aabb num) : option (aabb num) :=
  match objs with
  | [] => Some out
  | o :: objs' =>
    match bounding_box o with
    | None => None
    | Some temp => list_box_loop objs' false (if first_box then temp else surrounding_box out temp)
    end
  end.
Definition list_bounding_box (s : hittable_list) (out0 : aabb num) : option (aabb num) :=
  match objects s with
  | [] => None
  | _ => list_box_loop (objects s) true out0
  end.
End List_.

(** bvh.hpp.  The class is abstract as written (operator()(u,v) is not overridden), so it
    cannot be instantiated; the functions are modelled as they stand. *)
Inductive bvh : Type :=
| Leaf (o : hittable)
| Node (left right : bvh) (box : aabb num).

(* bvh.hpp:38-42 for nodes, the object's own box for leaves *)
Definition bvh_box (t : bvh) : option (aabb num) :=
  match t with Leaf o => bounding_box o | Node _ _ b => Some b end.

(* bvh.hpp:44-53 *)
Fixpoint bvh_hit (t : bvh) (r : ray num) (t_min t_max : num) (rec : record) : outcome (bool * record) :=
  match t with
  | Leaf o => hit o r t_min t_max rec
  | Node l rt box =>
    if aabb_hit box r t_min t_max then
      obind (bvh_hit l r t_min t_max rec) (fun '(hit_left, rec) =>
      obind (bvh_hit rt r t_min (if hit_left then h_t rec else t_max) rec) (fun '(hit_right, rec) =>
      Ok (hit_left || hit_right, rec)))
    else Ok (false, rec)
  end.

(* bvh.hpp:55-65 box_compare on axis 0, 1 or (anything else) 2; without a box the code
   reads an uninitialised one *)
Definition on_axis (axis : nat) (v : vec3 num) : num :=
  match axis with 0%nat => vx v | 1%nat => vy v | _ => vz v end.
Definition box_compare (axis : nat) (a b : hittable) : outcome bool :=
  match bounding_box a, bounding_box b with
  | Some ba, Some bb => Ok (on_axis axis (b_min ba) <? on_axis axis (b_min bb))
  | _, _ => Undef
  end.

(* box_ = surrounding_box(box_left, box_right), bvh.hpp:123-130 *)
Definition make_node (l r : bvh) : outcome bvh :=
  match bvh_box l, bvh_box r with
  | Some bl, Some br => Ok (Node l r (surrounding_box bl br))
  | _, _ => Undef
  end.

(* the content of [v] with the range [start,end) replaced *)
Definition replace_range {A} (v : list A) (start end_ : nat) (w : list A) : list A :=
  firstn start v ++ w ++ skipn end_ v.
Definition range {A} (v : list A) (start end_ : nat) : list A := firstn (end_ - start) (skipn start v).

(* bvh.hpp:82-131.  [axis path] is the random axis drawn by the node at [path] below the
   root; [sort axis] is what std::sort does with a range.  [fuel] bounds the recursion. *)
Fixpoint bvh_build (axis : list bool -> nat) (sort : nat -> list hittable -> list hittable)
  (fuel : nat) (path : list bool) (objs : list hittable) (start end_ : nat) : outcome bvh :=
  match fuel with
  | O => OutOfFuel
  | S fuel =>
    let span := (end_ - start)%nat in
    match span with
    | 1%nat =>
      match nth_error objs start with
      | Some o => make_node (Leaf o) (Leaf o)
      | None => Undef
      end
    | 2%nat =>
      match nth_error objs start, nth_error objs (S start) with
      | Some a, Some b =>
        obind (box_compare (axis path) a b) (fun less =>
        if less then make_node (Leaf a) (Leaf b) else make_node (Leaf b) (Leaf a))
      | _, _ => Undef
      end
    | _ =>
      let objs := replace_range objs start end_ (sort (axis path) (range objs start end_)) in
      let mid := (start + Nat.div2 span)%nat in
      obind (bvh_build axis sort fuel (true :: path) objs start mid) (fun l =>
      obind (bvh_build axis sort fuel (false :: path) objs mid end_) (fun r =>
      make_node l r))
    end
  end.
(* bvh.hpp:19-21 *)
Definition bvh_of_list (axis : list bool -> nat) (sort : nat -> list hittable -> list hittable)
  (fuel : nat) (objs : list hittable) : outcome bvh :=
  bvh_build axis sort fuel [] objs 0 (length objs).
End Hittable.
