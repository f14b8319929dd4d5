(** The helicoid and the Enneper surface in ordinary real geometry. *)
From Coq Require Import Reals.
From Verif Require Import Num XR Spec M_Vec M_Hittable M_Surfaces Spec_Scene Spec_Shapes.
Local Open Scope R_scope.

Definition finhelicoid (s : helicoid R) : helicoid xr := Helicoid (Fin (he_radius s)) (Fin (he_speed s)).
Definition finenneper (s : enneper R) : enneper xr := Enneper (Fin (en_radius s)).

(** *** Parametrisations *)
Definition helicoid_sigma (s : helicoid R) (u v : R) : vec3 R :=
  V3 (he_radius s * v * cos (2 * PI * u)) (he_radius s * v * sin (2 * PI * u)) (he_speed s * (u - 1 / 2)).
Definition enneper_sigma (u v : R) : vec3 R :=
  V3 (u - u ^ 3 / 3 + u * v ^ 2) (v - v ^ 3 / 3 + v * u ^ 2) (u ^ 2 - v ^ 2).

Definition helicoid_ok (s : helicoid R) : Prop := 0 < he_radius s /\ 0 < he_speed s.
Definition on_helicoid (s : helicoid R) (p : vec3 R) : Prop :=
  exists u v, 0 <= u <= 1 /\ 0 <= v <= 1 /\ p = helicoid_sigma s u v.
(** The Enneper surface inside its clipping sphere. *)
Definition on_enneper (s : enneper R) (p : vec3 R) : Prop :=
  (exists u v, p = enneper_sigma u v) /\ normR p <= en_radius s.

(** The open solid cylinder around the helicoid, and the v of a point of the helicoid. *)
Definition inside_solid (s : helicoid R) (p : vec3 R) : Prop :=
  vx p ^ 2 + vy p ^ 2 < he_radius s ^ 2 /\ - he_speed s / 2 < vz p < he_speed s / 2.
Definition axis_ratio (s : helicoid R) (p : vec3 R) : R := sqrt (vx p ^ 2 + vy p ^ 2) / he_radius s.

(** Every coordinate differs by at most [tol]. *)
Definition agree (tol : R) (p q : vec3 R) : Prop :=
  Rabs (vx p - vx q) <= tol /\ Rabs (vy p - vy q) <= tol /\ Rabs (vz p - vz q) <= tol.

(** The size of the terms of o + t d = sigma(u,v), coordinate by coordinate: the tolerance
    is ten roundings of it. *)
Definition helicoid_scale (s : helicoid R) (d : vec3 R) (t u v : R) : R :=
  let c := cos (2 * PI * u) in let z := sin (2 * PI * u) in
  Rmax (Rmax (Rabs (t * vx d) + Rabs (2 * PI * he_radius s * v * z * u) + Rabs (he_radius s * c * v))
             (Rabs (t * vy d) + Rabs (2 * PI * he_radius s * v * c * u) + Rabs (he_radius s * z * v)))
       (Rabs (t * vz d) + Rabs (he_speed s * u)).

(** What a hit at the parameter t must store: the point, and parameters in the unit square
    whose surface point is the ray point up to the tolerance. *)
Definition meets_helicoid (eps : R) (s : helicoid R) (r : ray R) (rec : hit_record xr) : Prop :=
  exists t u v, at_point r t rec /\ h_u rec = Fin u /\ h_v rec = Fin v /\ 0 <= u <= 1 /\ 0 <= v <= 1 /\
    agree (10 * (eps * helicoid_scale s (r_dir r) t u v)) (pointR r t) (helicoid_sigma s u v).

(** The direction is not negligible. *)
Definition direction_ok (m : R) (d : vec3 R) : Prop :=
  m < vx d ^ 2 + vy d ^ 2 \/ m < Rabs (vz d).

(** the direction of sigma_u x sigma_v *)
Definition helicoid_up (s : helicoid R) (u v : R) : vec3 R :=
  V3 (- (he_speed s * sin (2 * PI * u))) (he_speed s * cos (2 * PI * u)) (- (2 * PI * he_radius s * v)).
Definition enneper_up (u v : R) : vec3 R := V3 (- (2 * u)) (2 * v) (1 - u ^ 2 - v ^ 2).

(** Gaussian curvatures *)
Definition helicoid_K (s : helicoid R) (v : R) : R :=
  - (2 * PI * he_speed s) ^ 2 / (he_speed s ^ 2 + (2 * PI * he_radius s * v) ^ 2) ^ 2.
Definition enneper_K (u v : R) : R := - 4 / (1 + u ^ 2 + v ^ 2) ^ 4.
