(** The systems of equations that helicoid.hpp and enneper.hpp hand to newton. *)
From Coq Require Import Reals Lra ZArith List Bool.
From Coquelicot Require Import Coquelicot.
From Verif Require Import Num XR Spec M_Vec M_Hittable M_Surfaces Spec_Scene Spec_Shapes Spec_Surfaces P_Vec P_Shallow P_Enneper.
Import ListNotations.
Local Open Scope R_scope.

Lemma enneper_equations : forall (L : limits) (o d : vec3 R) (u v t : R),
  let G u v t := subR (enneper_sigma u v) (pointR (Ray o d) t) in
  exists Gu Gv Gt : vec3 R, deriv3 (fun x => G x v t) u Gu /\ deriv3 (fun x => G u x t) v Gv /\ deriv3 (fun x => G u v x) t Gt /\
  enneper_system (F:=XR L) (fin3 o) (fin3 d) [Fin u; Fin v; Fin t] =
    (map Fin [vx (G u v t); vy (G u v t); vz (G u v t)],
     map (map Fin) [[vx Gu; vx Gv; vx Gt]; [vy Gu; vy Gv; vy Gt]; [vz Gu; vz Gv; vz Gt]]).
Proof.
  intros L o d u v t G. exists (V3 (1 - u ^ 2 + v ^ 2) (2 * u * v) (2 * u)), (V3 (2 * u * v) (1 - v ^ 2 + u ^ 2) (-2 * v)), (V3 (- vx d) (- vy d) (- vz d)).
  unfold deriv3, G, enneper_sigma, pointR, lineR, subR, addR, scaleR; cbn [vx vy vz r_orig r_dir].
  repeat match goal with |- _ /\ _ => split end; try (apply is_derive_Reals; auto_derive; [exact I|field]).
  unfold enneper_system, enneper_J. cbn [nth]. destruct (enneper_jacobian L u v) as [E _]. change (@num (XR L)) with xr in *. rewrite E.
  unfold vsub, vscale, fin3, map3, enneper_sigma; cbn [vx vy vz m00 m01 m10 m11 m20 m21 map]. xred.
  repeat match goal with |- (_, _) = (_, _) => apply f_equal2 | |- _ :: _ = _ :: _ => apply f_equal2 | |- Fin _ = Fin _ => apply f_equal end; try reflexivity; ring.
Qed.

Lemma helicoid_equations : forall (L : limits) (s : helicoid R) (o d : vec3 R) (t v : R), helicoid_ok s ->
  let U t := (vz o + t * vz d) / he_speed s + 1 / 2 in
  let G t v := subR (pointR (Ray o d) t) (helicoid_sigma s (U t) v) in
  vz (G t v) = 0 /\
  exists Gt Gv : vec3 R, deriv3 (fun x => G x v) t Gt /\ deriv3 (fun x => G t x) v Gv /\
  helicoid_system (F:=XR L) (finhelicoid s) (fin3 o) (fin3 d) [Fin t; Fin v] =
    (map Fin [vx (G t v); vy (G t v)], map (map Fin) [[vx Gt; vx Gv]; [vy Gt; vy Gv]]).
Proof.
  intros L s o d t v Hok U G. pose proof Hok as [Hr Hs]. set (k := 2 * PI / he_speed s).
  assert (A : forall t, 2 * PI * U t = k * (vz o + t * vz d) + PI) by (intros t0; unfold U, k; field; lra).
  assert (Gx : forall t v, vx (G t v) = vx o + t * vx d + v * (he_radius s * cos (k * (vz o + t * vz d)))) by (intros t0 v0; unfold G, helicoid_sigma, pointR, lineR, subR, addR, scaleR; cbn [vx vy vz r_orig r_dir]; rewrite A, neg_cos; ring).
  assert (Gy : forall t v, vy (G t v) = vy o + t * vy d + v * (he_radius s * sin (k * (vz o + t * vz d)))) by (intros t0 v0; unfold G, helicoid_sigma, pointR, lineR, subR, addR, scaleR; cbn [vx vy vz r_orig r_dir]; rewrite A, neg_sin; ring).
  assert (Gz : forall t v, vz (G t v) = 0) by (intros t0 v0; unfold G, helicoid_sigma, pointR, lineR, subR, addR, scaleR, U; cbn [vx vy vz r_orig r_dir]; field; lra).
  split; [apply Gz|].
  exists (V3 (vx d - k * vz d * (v * (he_radius s * sin (k * (vz o + t * vz d))))) (vy d + k * vz d * (v * (he_radius s * cos (k * (vz o + t * vz d))))) 0),
         (V3 (he_radius s * cos (k * (vz o + t * vz d))) (he_radius s * sin (k * (vz o + t * vz d))) 0).
  assert (Ext : forall f g x l, (forall y, g y = f y) -> derivable_pt_lim f x l -> derivable_pt_lim g x l).
  { intros f g x l E H. apply is_derive_Reals in H. apply is_derive_Reals. apply (is_derive_ext f); [intros y; symmetry; apply E|exact H]. }
  split; [|split].
  - unfold deriv3; cbn [vx vy vz]. split; [|split]; (eapply Ext; [intros y; (apply Gx || apply Gy || apply Gz)|]); apply is_derive_Reals; auto_derive; try exact I; ring.
  - unfold deriv3; cbn [vx vy vz]. split; [|split]; (eapply Ext; [intros y; (apply Gx || apply Gy || apply Gz)|]); apply is_derive_Reals; auto_derive; try exact I; ring.
  - rewrite (sys_fin s o d Hok t v). unfold sys_V, sys_J. cbn [nth]. rewrite Gx, Gy. reflexivity.
Qed.
