(** Area and volume by integration, and what the curvature plots show. *)
From Coq Require Import Reals.
From Coquelicot Require Import Coquelicot.
From Verif Require Import Num XR Spec M_Vec M_Hittable M_Shapes Spec_Scene Spec_Shapes.
Local Open Scope R_scope.

Definition in_unit (x : R) : Prop := 0 <= x <= 1.
Definition inside_unit (x : R) : Prop := 0 < x < 1.

(** Riemann integrals over the unit square and the unit cube *)
Definition integral2 (f : R -> R -> R) (A : R) : Prop :=
  exists I : R -> R, (forall v, in_unit v -> is_RInt (fun u => f u v) 0 1 (I v)) /\ is_RInt I 0 1 A.
Definition integral3 (f : R -> R -> R -> R) (V : R) : Prop :=
  exists I : R -> R, (forall t, in_unit t -> integral2 (f t) (I t)) /\ is_RInt I 0 1 V.

(** [sigma] sweeps the set [S], covering no two-dimensional part twice. *)
Definition sweeps2 (sigma : R -> R -> vec3 R) (S : vec3 R -> Prop) : Prop :=
  (forall p, S p <-> exists u v, in_unit u /\ in_unit v /\ p = sigma u v) /\
  (forall u v u' v', inside_unit u -> inside_unit v -> inside_unit u' -> inside_unit v' ->
     sigma u v = sigma u' v' -> u = u' /\ v = v').
Definition sweeps3 (body : R -> R -> R -> vec3 R) (S : vec3 R -> Prop) : Prop :=
  (forall p, S p <-> exists t u v, in_unit t /\ in_unit u /\ in_unit v /\ p = body t u v) /\
  (forall t u v t' u' v', inside_unit t -> inside_unit u -> inside_unit v ->
     inside_unit t' -> inside_unit u' -> inside_unit v' ->
     body t u v = body t' u' v' -> t = t' /\ u = u' /\ v = v').

(** The surface [S] has area [A]: some smooth sweep of it has the area element
    |sigma_u x sigma_v| integrating to [A]. *)
Definition has_area (S : vec3 R -> Prop) (A : R) : Prop :=
  exists sigma su sv, sweeps2 sigma S /\ partials sigma su sv /\
    integral2 (fun u v => normR (crossR (su u v) (sv u v))) A.
(** The solid [S] has volume [V]: |det (body_t, body_u, body_v)| integrates to [V]. *)
Definition has_volume (S : vec3 R -> Prop) (V : R) : Prop :=
  exists body bt bu bv, sweeps3 body S /\
    (forall t u v, deriv3 (fun x => body x u v) t (bt t u v) /\ deriv3 (fun x => body t x v) u (bu t u v) /\
                   deriv3 (fun x => body t u x) v (bv t u v)) /\
    integral3 (fun t u v => Rabs (dotR (bt t u v) (crossR (bu t u v) (bv t u v)))) V.

(** the solids bounded by a sphere and by a torus *)
Definition in_ball (s : sphere R) (p : vec3 R) : Prop := distR p (s_center s) <= s_radius s.
Definition in_solid_torus (o : torus R) (p : vec3 R) : Prop :=
  let x := vx p - vx (o_center o) in let y := vy p - vy (o_center o) in
  let z := vz p - vz (o_center o) in
  (sqrt (x ^ 2 + y ^ 2) - o_R o) ^ 2 + z ^ 2 <= o_r o ^ 2.
