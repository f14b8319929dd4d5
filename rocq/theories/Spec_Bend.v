(** Words used to state the accuracy of directions. *)
From Coq Require Import Reals.
From Verif Require Import Num.
Local Open Scope R_scope.

(** two vectors whose components differ by at most e *)
Definition near3 (e : R) (a b : vec3 R) : Prop := Rabs (vx a - vx b) <= e /\ Rabs (vy a - vy b) <= e /\ Rabs (vz a - vz b) <= e.
