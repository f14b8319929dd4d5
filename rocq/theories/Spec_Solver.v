(** Words for the boxes of the solvers. *)
From Coq Require Import Reals List.
From Verif Require Import Num XR Spec.
Import ListNotations.
Local Open Scope R_scope.

(** in the smallest interval that contains the interval [e] and the number [s] *)
Definition between (e : xr * xr) (s x : R) : Prop :=
  (at_least (fst e) x \/ s <= x) /\ (at_most (snd e) x \/ x <= s).

(** [J] is the matrix of partial derivatives of the map [V] of the plane. *)
Definition plane_jacobian (V : list R -> list R) (J : list R -> list (list R)) : Prop :=
  forall x y, exists p q r s, J [x; y] = [[p; q]; [r; s]] /\
    derivable_pt_lim (fun z => nth 0 (V [z; y]) 0) x p /\ derivable_pt_lim (fun z => nth 0 (V [x; z]) 0) y q /\
    derivable_pt_lim (fun z => nth 1 (V [z; y]) 0) x r /\ derivable_pt_lim (fun z => nth 1 (V [x; z]) 0) y s.

(** a vector and a matrix as lists *)
Definition coords (v : vec3 R) : list R := [vx v; vy v; vz v].
Definition matrix_rows (m : mat3 R) : list (list R) := [[m00 m; m01 m; m02 m]; [m10 m; m11 m; m12 m]; [m20 m; m21 m; m22 m]].
