(** Vocabulary of the theorems about scenes with a constant_medium. *)
From Coq Require Import Reals ZArith List.
From Verif Require Import Spec_Random Num XR Spec Spec_Scene Spec_Light Spec_Shapes Spec_World M_Vec M_Rng M_Hittable M_Materials M_Shapes M_World M_Fog.
Import ListNotations.
Local Open Scope R_scope.

Section Fog.
Context {L : limits}.
Notation X := (XR L).

(** closed surfaces, with room for the error of [solid] *)
Inductive closed_surface (tol : R) : hittable (F:=X) -> Prop :=
| Closed_sphere : forall s, 0 < s_radius s -> 2 * l_min L <= tol * s_radius s -> closed_surface tol (of_sphere (F:=X) (finsphere s))
| Closed_ellipsoid : forall s B, 0 < vx (el_scales s) <= B -> 0 < vy (el_scales s) <= B -> 0 < vz (el_scales s) <= B ->
    8 * l_min L * (B * B) <= 1 -> 2 * l_min L * B < 1 -> closed_surface tol (of_ellipsoid (F:=X) (finellipsoid s)).
(** An object with its material: a medium goes with isotropic scattering, as its record has no
    proper normal. *)
Inductive well_placed (tol : R) : thing (F:=X) -> material (F:=X) -> Prop :=
| Placed_plain : forall o m, solid tol o -> sound tol m -> well_placed tol (Plain (F:=X) o) m
| Placed_fog : forall o d tex, closed_surface tol o -> 0 < d -> good_texture tex -> well_placed tol (Fog (F:=X) o (Fin d)) (Isotropic (F:=X) tex).
(** ... and uniform draws are in [0, 1] *)
Definition fair_state (s : state (F:=X)) : Prop := good_state s /\ forall n u, st_uniform s n = Fin u -> 0 <= u <= 1.
End Fog.
(** light of the lamp of ellipsoid.cpp that was scattered n times in the medium, or none *)
Definition dusk (c : vec3 R) : Prop := c = V3 0 0 0 \/ exists n, c = V3 (7 * (1 / 50) ^ n) (7 * (2 / 5) ^ n) (7 * (9 / 10) ^ n).
