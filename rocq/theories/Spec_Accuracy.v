(** Words used to state the accuracy of the floating-point code. *)
From Coq Require Import Reals ZArith.
From Flocq Require Import Core.
From Verif Require Import Num.
Local Open Scope R_scope.

(** zero, or of a size between 2^-k and 2^k *)
Definition moderate (k : Z) (x : R) : Prop := x = 0 \/ bpow radix2 (- k) <= Rabs x <= bpow radix2 k.

(** t0 <= t1 are the two real roots, with multiplicity, of a X^2 + b X + c *)
Definition two_roots (a b c t0 t1 : R) : Prop := t0 <= t1 /\ forall X, a * (X * X) + b * X + c = a * ((X - t0) * (X - t1)).

(** a vector of moderate components *)
Definition moderate3 (k : Z) (v : vec3 R) : Prop := moderate k (vx v) /\ moderate k (vy v) /\ moderate k (vz v).
(** a vector with no component larger than S *)
Definition within3 (S : R) (v : vec3 R) : Prop := Rabs (vx v) <= S /\ Rabs (vy v) <= S /\ Rabs (vz v) <= S.
