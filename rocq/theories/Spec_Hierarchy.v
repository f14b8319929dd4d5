(** Words used to state the theorem on hierarchies in floating point. *)
From Coq Require Import Reals ZArith.
From Flocq Require Import Core BinarySingleNaN.
From Verif Require Import Num XR FL Spec Spec_Scene Spec_Accuracy M_Vec M_Hittable P_FL.
Local Open Scope R_scope.

Section Spec.
Variables prec emax : Z.
(** the corners of the box of floats are those of the real box, and of moderate size *)
Definition box_value (k : Z) (fb : aabb (binary_float prec emax)) (b : aabb R) : Prop :=
  map3 fval (b_min fb) = fin3 (b_min b) /\ map3 fval (b_max fb) = fin3 (b_max b) /\ moderate3 k (b_min b) /\ moderate3 k (b_max b).
(** the ray is in the box at t1 and t2, in the window before t, and t1 and t2 are further apart
    than 4 units of roundoff times their sizes *)
Definition passes (r : ray R) (lo t : xr) (b : aabb R) : Prop := exists t1 t2,
  at_least lo t1 /\ at_most t t2 /\ t1 + 4 * bpow radix2 (- prec) * Rabs t1 < t2 - 4 * bpow radix2 (- prec) * Rabs t2 /\
  in_box b (pointR r t1) /\ in_box b (pointR r t2).
End Spec.
