(** Derivatives of the parametrisations. *)
From Coq Require Import Reals Lra.
From Coquelicot Require Import Coquelicot.
From Verif Require Import Num XR Spec Spec_Shapes P_Vec M_Vec M_Hittable M_Shapes Spec_Scene.
Local Open Scope R_scope.

Ltac dderiv :=
  apply is_derive_Reals; auto_derive; auto; unfold minus, plus, opp; simpl; try field; auto.

(** goals [deriv3 f t d] with f a combination of sin, cos and polynomials *)
Ltac solve_deriv3 := unfold deriv3; cbn [vx vy vz addR scaleR]; repeat split; dderiv.

(** *** Sphere *)
Definition sphere_su (s : sphere R) (u v : R) : vec3 R :=
  scaleR (2 * PI * s_radius s) (V3 (- sin (2 * PI * u) * sin (PI * v)) (cos (2 * PI * u) * sin (PI * v)) 0).
Definition sphere_sv (s : sphere R) (u v : R) : vec3 R :=
  scaleR (PI * s_radius s) (V3 (cos (2 * PI * u) * cos (PI * v)) (sin (2 * PI * u) * cos (PI * v)) (- sin (PI * v))).
Definition sphere_suu (s : sphere R) (u v : R) : vec3 R :=
  scaleR (4 * PI ^ 2 * s_radius s) (V3 (- cos (2 * PI * u) * sin (PI * v)) (- sin (2 * PI * u) * sin (PI * v)) 0).
Definition sphere_suv (s : sphere R) (u v : R) : vec3 R :=
  scaleR (2 * PI ^ 2 * s_radius s) (V3 (- sin (2 * PI * u) * cos (PI * v)) (cos (2 * PI * u) * cos (PI * v)) 0).
Definition sphere_svv (s : sphere R) (u v : R) : vec3 R :=
  scaleR (PI ^ 2 * s_radius s) (V3 (- cos (2 * PI * u) * sin (PI * v)) (- sin (2 * PI * u) * sin (PI * v)) (- cos (PI * v))).

Lemma sphere_partials : forall s, partials (sphere_sigma s) (sphere_su s) (sphere_sv s) /\
  partials (sphere_su s) (sphere_suu s) (sphere_suv s) /\ partials (sphere_sv s) (sphere_suv s) (sphere_svv s).
Proof.
  intros s. unfold sphere_sigma, sphere_su, sphere_sv, sphere_suu, sphere_suv, sphere_svv.
  repeat split; cbn [vx vy vz addR scaleR]; dderiv.
Qed.

(** *** Ellipsoid *)
Definition ellipsoid_su (s : ellipsoid R) (u v : R) : vec3 R :=
  V3 (- (2 * PI * vx (el_scales s)) * (sin (2 * PI * u) * sin (PI * v)))
     (2 * PI * vy (el_scales s) * (cos (2 * PI * u) * sin (PI * v))) 0.
Definition ellipsoid_sv (s : ellipsoid R) (u v : R) : vec3 R :=
  V3 (PI * vx (el_scales s) * (cos (2 * PI * u) * cos (PI * v)))
     (PI * vy (el_scales s) * (sin (2 * PI * u) * cos (PI * v))) (- (PI * vz (el_scales s)) * sin (PI * v)).
Definition ellipsoid_suu (s : ellipsoid R) (u v : R) : vec3 R :=
  V3 (- (4 * PI ^ 2 * vx (el_scales s)) * (cos (2 * PI * u) * sin (PI * v)))
     (- (4 * PI ^ 2 * vy (el_scales s)) * (sin (2 * PI * u) * sin (PI * v))) 0.
Definition ellipsoid_suv (s : ellipsoid R) (u v : R) : vec3 R :=
  V3 (- (2 * PI ^ 2 * vx (el_scales s)) * (sin (2 * PI * u) * cos (PI * v)))
     (2 * PI ^ 2 * vy (el_scales s) * (cos (2 * PI * u) * cos (PI * v))) 0.
Definition ellipsoid_svv (s : ellipsoid R) (u v : R) : vec3 R :=
  V3 (- (PI ^ 2 * vx (el_scales s)) * (cos (2 * PI * u) * sin (PI * v)))
     (- (PI ^ 2 * vy (el_scales s)) * (sin (2 * PI * u) * sin (PI * v))) (- (PI ^ 2 * vz (el_scales s)) * cos (PI * v)).
Lemma ellipsoid_partials : forall s, partials (ellipsoid_sigma s) (ellipsoid_su s) (ellipsoid_sv s) /\
  partials (ellipsoid_su s) (ellipsoid_suu s) (ellipsoid_suv s) /\
  partials (ellipsoid_sv s) (ellipsoid_suv s) (ellipsoid_svv s).
Proof.
  intros s. unfold ellipsoid_sigma, ellipsoid_su, ellipsoid_sv, ellipsoid_suu, ellipsoid_suv, ellipsoid_svv.
  repeat split; cbn [vx vy vz addR scaleR]; dderiv.
Qed.

(** *** Cylinder *)
Definition cylinder_su (c : cylinder R) (u v : R) : vec3 R :=
  scaleR (2 * PI * c_radius c) (V3 (- sin (2 * PI * u)) (cos (2 * PI * u)) 0).
Definition cylinder_sv (c : cylinder R) (u v : R) : vec3 R := V3 0 0 (c_zmax c - c_zmin c).
Definition cylinder_suu (c : cylinder R) (u v : R) : vec3 R :=
  scaleR (4 * PI ^ 2 * c_radius c) (V3 (- cos (2 * PI * u)) (- sin (2 * PI * u)) 0).
Definition zero_field (u v : R) : vec3 R := zeroR.
Lemma cylinder_partials : forall c, partials (cylinder_sigma c) (cylinder_su c) (cylinder_sv c) /\
  partials (cylinder_su c) (cylinder_suu c) zero_field /\ partials (cylinder_sv c) zero_field zero_field.
Proof.
  intros c. unfold cylinder_sigma, cylinder_su, cylinder_sv, cylinder_suu, zero_field, zeroR.
  repeat split; cbn [vx vy vz addR scaleR]; dderiv.
Qed.

(** *** Torus *)
Definition torus_su (o : torus R) (u v : R) : vec3 R :=
  scaleR (2 * PI * (o_R o + o_r o * cos (2 * PI * v))) (V3 (- sin (2 * PI * u)) (cos (2 * PI * u)) 0).
Definition torus_sv (o : torus R) (u v : R) : vec3 R :=
  scaleR (2 * PI * o_r o) (V3 (- sin (2 * PI * v) * cos (2 * PI * u)) (- sin (2 * PI * v) * sin (2 * PI * u)) (cos (2 * PI * v))).
Definition torus_suu (o : torus R) (u v : R) : vec3 R :=
  scaleR (4 * PI ^ 2 * (o_R o + o_r o * cos (2 * PI * v))) (V3 (- cos (2 * PI * u)) (- sin (2 * PI * u)) 0).
Definition torus_suv (o : torus R) (u v : R) : vec3 R :=
  scaleR (4 * PI ^ 2 * o_r o * sin (2 * PI * v)) (V3 (sin (2 * PI * u)) (- cos (2 * PI * u)) 0).
Definition torus_svv (o : torus R) (u v : R) : vec3 R :=
  scaleR (- (4 * PI ^ 2 * o_r o)) (V3 (cos (2 * PI * v) * cos (2 * PI * u)) (cos (2 * PI * v) * sin (2 * PI * u)) (sin (2 * PI * v))).
Lemma torus_partials : forall o, partials (torus_sigma o) (torus_su o) (torus_sv o) /\
  partials (torus_su o) (torus_suu o) (torus_suv o) /\ partials (torus_sv o) (torus_suv o) (torus_svv o).
Proof.
  intros o. unfold torus_sigma, torus_su, torus_sv, torus_suu, torus_suv, torus_svv.
  repeat split; cbn [vx vy vz addR scaleR]; dderiv.
Qed.
