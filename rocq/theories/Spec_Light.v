(** Independent specification for materials, media and light paths. *)
From Coq Require Import Reals.
From Verif Require Import Num XR Spec Spec_Scene M_Hittable.
Local Open Scope R_scope.

(** the unit vector along [d] *)
Definition unitR (d : vec3 R) : vec3 R := scaleR (/ normR d) d.
(** the part of [v] orthogonal to the unit vector [n] *)
Definition tangentialR (n v : vec3 R) : vec3 R := subR v (scaleR (dotR v n) n).
(** mirror image of [v] in the plane orthogonal to the unit vector [n] *)
Definition mirrorR (n v : vec3 R) : vec3 R := subR v (scaleR (2 * dotR v n) n).
(** the relative index of refraction seen from the side of the ray *)
Definition ratioR (front : bool) (ir : R) : R := if front then 1 / ir else ir.
(** Schlick's approximation *)
Definition schlickR (c eta : R) : R := ((1 - eta) / (1 + eta)) ^ 2 + (1 - ((1 - eta) / (1 + eta)) ^ 2) * (1 - c) ^ 5.

(** [t] is the first parameter at which the ray meets the boundary, [t'] the next one that
    is at least [gap] later. *)
Definition first_meeting (meets : R -> Prop) (t : R) : Prop := meets t /\ forall t', meets t' -> t <= t'.
Definition next_meeting (meets : R -> Prop) (gap t t' : R) : Prop :=
  meets t' /\ t + gap <= t' /\ forall t'', meets t'' -> t + gap <= t'' -> t' <= t''.
(** the later of 0, the start of the window and [t] *)
Definition startR (lo : xr) (t : R) : R := Rmax 0 (match lo with Fin a => Rmax a t | _ => t end).

(** the earlier of the end of the window and [t] *)
Definition endR (hi : xr) (t : R) : R := match hi with Fin b => Rmin b t | _ => t end.

(** every component in [0,M] *)
Definition within_cube (M : R) (v : vec3 R) : Prop :=
  (0 <= vx v <= M) /\ (0 <= vy v <= M) /\ (0 <= vz v <= M).
(** componentwise product *)
Definition hadamardR (u v : vec3 R) : vec3 R := V3 (vx u * vx v) (vy u * vy v) (vz u * vz v).
(** no negative component *)
Definition nonneg3 (v : vec3 R) : Prop := 0 <= vx v /\ 0 <= vy v /\ 0 <= vz v.
