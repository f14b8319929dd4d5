(** Concrete cases meeting the hypotheses of the theorems in T_Shapes.v. *)
From Coq Require Import Reals Lra List Bool.
From Verif Require Import Num XR Spec M_Vec M_Hittable M_Shapes Spec_Scene Spec_Shapes
  P_Vec P_Quadratic P_Sphere P_Cylinder P_Torus P_Scenes.
Import ListNotations.
Local Open Scope R_scope.

Definition egg : ellipsoid R := Ellipsoid (V3 0 0 0) (V3 1 2 3).
Lemma ex_egg : forall m, 0 < m < 1 -> positive3 (el_scales egg) /\ ellipsoid_off_threshold m egg toward_ray.
Proof.
  intros m Hm. split; [unfold positive3, egg; cbn; lra|].
  unfold ellipsoid_off_threshold, egg, toward_ray, unscaled, off_threshold, zeroR, normsqR, dotR, subR;
    cbn [el_center el_scales r_orig r_dir vx vy vz].
  split; [intros E; injection E; lra|]. split; right.
  - replace (1 / 1 * (1 / 1) + 0 / 2 * (0 / 2) + 0 / 3 * (0 / 3)) with 1 by field. rewrite Rabs_right by lra. lra.
  - match goal with |- _ < Rabs ?x => replace x with (-20) by field end. rewrite Rabs_left by lra. lra.
Qed.
Lemma ex_frame : frame (V3 1 0 0) (V3 0 1 0) (V3 0 0 1).
Proof.
  assert (N : forall v, normsqR v = 1 -> normR v = 1) by (intros v E; unfold normR; rewrite E; apply sqrt_1).
  unfold frame. repeat split; try (apply N; unfold normsqR, dotR; cbn; ring); unfold dotR, crossR; cbn; try ring.
  apply V3_ext; ring.
Qed.
Lemma ex_screen : q_a0 screen < q_a1 screen /\ q_b0 screen < q_b1 screen /\ r_dir axis_ray <> zeroR /\
  ~ (vz (r_dir axis_ray) = 0 /\ vz (r_orig axis_ray) = q_k screen) /\ on_xy screen (pointR axis_ray 2).
Proof.
  unfold screen, axis_ray, on_xy, pointR, lineR, addR, scaleR, zeroR; cbn. repeat split; try lra.
  intros E; injection E; lra.
Qed.
(** the cylinder is hit from outside *)
Lemma ex_cylinder : forall m, 0 < m < 1 -> let c := Cylinder 1 (-1) 1 in
  cylinder_off_threshold m toward_ray /\ (forall t, on_wall c toward_ray t -> at_least (Fin 0) t) /\
  on_cylinder c (pointR toward_ray 9).
Proof.
  intros m Hm c. unfold cylinder_off_threshold, toward_ray, on_wall, on_cylinder, off_threshold, pointR, lineR, addR, scaleR, c;
    cbn [r_orig r_dir vx vy vz c_radius c_zmin c_zmax at_least].
  split; [split; [right; rewrite Rabs_right by lra; lra|split; [right; rewrite Rabs_left by lra; lra|left; lra]]|].
  split; [|repeat split; lra]. intros t E.
  assert (Z : (t - 9) * (t - 11) = 0) by nra. apply Rmult_integral in Z. lra.
Qed.
Lemma ex_principal : forall m, 0 < m < 1 -> 0 < 1 * 1 - 0 * 0 /\ off_threshold m ((1 * 1 - 2 * 0 * 0 + 2 * 1) / (1 * 1 - 0 * 0)).
Proof.
  intros m Hm. split; [lra|]. right. replace (_ / _) with 3 by field. rewrite Rabs_right by lra. lra.
Qed.
