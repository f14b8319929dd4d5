(** Model of include/drt/math.hpp and include/drt/vec.hpp.

    Dimension is fixed to 3 (and 2 where the library uses it) and the loops are
    unrolled in order; [0 + x] in sums is kept because it is part of the code. *)
From Coq Require Import ZArith List Bool.
From Verif Require Import Num.
Import ListNotations.

Section Vec.
Context {F : NumOps}.
Local Open Scope num_scope.

(* math.hpp:10-15 difference_of_products: ab - cd *)
Definition difference_of_products (a b c d : num) : num :=
  let cd := c * d in
  let err := nfma (- c) d cd in
  let dop := nfma a b (- cd) in
  dop + err.

(* vec.hpp:66-72 unary minus *)
Definition vneg (v : vec3 num) : vec3 num := V3 (- vx v) (- vy v) (- vz v).
(* vec.hpp:152-158 operator+ *)
Definition vadd (u v : vec3 num) : vec3 num := V3 (vx u + vx v) (vy u + vy v) (vz u + vz v).
(* vec.hpp:161-168 operator- *)
Definition vsub (u v : vec3 num) : vec3 num := V3 (vx u - vx v) (vy u - vy v) (vz u - vz v).
(* vec.hpp:171-177 operator/ *)
Definition vdiv (v : vec3 num) (t : num) : vec3 num := V3 (vx v / t) (vy v / t) (vz v / t).
(* vec.hpp:180-191 operator* (both argument orders compute t*v[i]) *)
Definition vscale (t : num) (v : vec3 num) : vec3 num := V3 (t * vx v) (t * vy v) (t * vz v).
(* vec.hpp:107-113 squared_norm *)
Definition squared_norm (v : vec3 num) : num :=
  #0 + vx v * vx v + vy v * vy v + vz v * vz v.
(* vec.hpp:116-119 norm *)
Definition norm (v : vec3 num) : num := nsqrt (squared_norm v).
(* vec.hpp:122-132 max_norm *)
Definition max_norm (v : vec3 num) : num :=
  let m := nabs (vx v) in
  let m := if nabs (vy v) >? m then nabs (vy v) else m in
  if nabs (vz v) >? m then nabs (vz v) else m.
(* vec.hpp:135-140 normalize (returns the updated argument) *)
Definition normalize (v : vec3 num) : vec3 num :=
  let t := norm v in V3 (vx v / t) (vy v / t) (vz v / t).
(* vec.hpp:143-149 dot *)
Definition dot (v1 v2 : vec3 num) : num :=
  #0 + vx v1 * vx v2 + vy v1 * vy v2 + vz v1 * vz v2.
(* vec.hpp:194-197 reflect *)
Definition reflect (v n : vec3 num) : vec3 num := vsub v (vscale (#2 * dot v n) n).
(* vec.hpp:200-209 cross *)
Definition cross (u v : vec3 num) : vec3 num :=
  V3 (difference_of_products (vy u) (vz v) (vz u) (vy v))
     (difference_of_products (vz u) (vx v) (vx u) (vz v))
     (difference_of_products (vx u) (vy v) (vy u) (vx v)).

(* vec.hpp:20-39 special vectors *)
Definition vnans : vec3 num := V3 nnan nnan nnan.
Definition vzeros : vec3 num := V3 (#0) (#0) (#0).

(* the two-dimensional instances used by newton/helicoid code *)
Definition max_norm2 (v : vec2 num) : num :=
  let m := nabs (wx v) in if nabs (wy v) >? m then nabs (wy v) else m.
Definition squared_norm2 (v : vec2 num) : num := #0 + wx v * wx v + wy v * wy v.

End Vec.

(** A ray: ray.hpp:10-32. *)
Record ray (T : Type) : Type := Ray { r_orig : vec3 T; r_dir : vec3 T }.
Arguments Ray {T} _ _.
Arguments r_orig {T} _.
Arguments r_dir {T} _.

Section Ray.
Context {F : NumOps}.
(* ray.hpp:23-25 r(t) = o + t*d *)
Definition ray_at (r : ray num) (t : num) : vec3 num := vadd (r_orig r) (vscale t (r_dir r)).
End Ray.
