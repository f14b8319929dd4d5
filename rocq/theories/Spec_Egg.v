(** Vocabulary for ellipsoids in floating point. *)
From Coq Require Import Reals.
From Verif Require Import Num XR Spec M_Vec.
Local Open Scope R_scope.

(** the coordinates divided by the semi-axes s; the ellipsoid is where those of p - c have norm one *)
Definition divR3 (a s : vec3 R) : vec3 R := V3 (vx a / vx s) (vy a / vy s) (vz a / vz s).
(** no coordinate is larger than S semi-axes *)
Definition within_axes (S : R) (s a : vec3 R) : Prop := Rabs (vx a) <= S * Rabs (vx s) /\ Rabs (vy a) <= S * Rabs (vy s) /\ Rabs (vz a) <= S * Rabs (vz s).
