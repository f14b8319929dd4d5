(** Words for matrices. *)
From Coq Require Import Reals List.
From Verif Require Import Num Spec M_Vec M_Matrix.
Import ListNotations.
Local Open Scope R_scope.

(** the matrix with these columns *)
Definition columns (a b c : vec3 R) : mat3 R := M3 (vx a) (vx b) (vx c) (vy a) (vy b) (vy c) (vz a) (vz b) (vz c).
Definition entries (m : mat3 R) : list R := [m00 m; m01 m; m02 m; m10 m; m11 m; m12 m; m20 m; m21 m; m22 m].
Definition greatest (m : R) (l : list R) : Prop := In m l /\ Forall (fun x => x <= m) l.
