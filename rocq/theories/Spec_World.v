(** Vocabulary of the theorems about whole scenes. *)
From Coq Require Import Reals ZArith List.
From Verif Require Import Spec_Random Num XR Spec Spec_Scene Spec_Light Spec_Shapes M_Vec M_Rng M_Hittable M_Materials M_Shapes M_World.
Import ListNotations.
Local Open Scope R_scope.

Section World.
Context {L : limits}.
Notation X := (XR L).

(** A real colour without negative components wherever the point is real. *)
Definition good_texture (tex : hit_record xr -> vec3 xr) : Prop :=
  forall rec p, h_p rec = fin3 p -> exists c, tex rec = fin3 c /\ nonneg3 c.

(** Objects.  [tol] bounds how much the square of a stored normal may differ from 1: the root
    finder drops a linear coefficient of absolute value up to l_min, which moves the hit off
    the surface by a distance proportional to l_min. *)
Inductive solid (tol : R) : hittable (F:=X) -> Prop :=
| Solid_sphere : forall s, 0 < s_radius s -> 2 * l_min L <= tol * s_radius s -> solid tol (of_sphere (F:=X) (finsphere s))
| Solid_ellipsoid : forall s B, 0 < vx (el_scales s) <= B -> 0 < vy (el_scales s) <= B -> 0 < vz (el_scales s) <= B ->
    8 * l_min L * (B * B) <= 1 -> 2 * l_min L * B < 1 -> solid tol (of_ellipsoid (F:=X) (finellipsoid s))
| Solid_disk : forall radius c n k, 0 < radius -> normR n = 1 ->
    make_disk (F:=X) (Fin radius) (fin3 c) (fin3 n) = Ok k -> solid tol (of_disk (F:=X) k)
| Solid_xy : forall q, q_a0 q < q_a1 q -> q_b0 q < q_b1 q -> solid tol (of_xy (F:=X) (finrect q))
| Solid_xz : forall q, q_a0 q < q_a1 q -> q_b0 q < q_b1 q -> solid tol (of_xz (F:=X) (finrect q))
| Solid_yz : forall q, q_a0 q < q_a1 q -> q_b0 q < q_b1 q -> solid tol (of_yz (F:=X) (finrect q)).

(** Materials; a dielectric's index must not be so large, or so small, that refraction magnifies
    that difference. *)
Inductive sound (tol : R) : material (F:=X) -> Prop :=
| Sound_lambertian : forall tex, good_texture tex -> sound tol (Lambertian (F:=X) tex)
| Sound_metal : forall tex, good_texture tex -> sound tol (Metal (F:=X) tex)
| Sound_dielectric : forall ir emit, 0 < ir -> 16 * (ir * ir) * tol <= 1 -> 16 * tol <= ir * ir -> good_texture emit ->
    sound tol (Dielectric (F:=X) (Fin ir) emit)
| Sound_light : forall emit, good_texture emit -> sound tol (DiffuseLight (F:=X) emit)
| Sound_isotropic : forall tex, good_texture tex -> sound tol (Isotropic (F:=X) tex).

(** What the generators may do: the states are those of uint64_t variables, uniform draws are
    real, normal ones real and not all three zero.  The records may contain anything. *)
Definition good_state (s : state (F:=X)) : Prop :=
  (forall k, word64 (pc_state (st_pcg s k))) /\ (forall n, exists u, st_uniform s n = Fin u) /\
  (forall n, exists g, st_normal s n = fin3 g /\ g <> zeroR).
End World.
