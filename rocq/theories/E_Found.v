(** Rays that meet the hypotheses of C96 and C97. *)
From Coq Require Import Reals Lra.
From Verif Require Import Num XR Spec M_Vec M_Surfaces Spec_Scene Spec_Shapes Spec_Surfaces E_Surfaces.
Local Open Scope R_scope.

Lemma unit_ok : helicoid_ok unit_helicoid.
Proof. unfold helicoid_ok; cbn; lra. Qed.
Lemma upright_case : forall (L : limits), l_min L < / 2 -> let o := V3 (1 / 2) 0 (-2) in
  helicoid_ok unit_helicoid /\ l_min L < Rabs 1 /\ l_min L * he_radius unit_helicoid <= sqrt (vx o * vx o + vy o * vy o) <= he_radius unit_helicoid /\
  l_min L < 2 * PI * he_radius unit_helicoid * sqrt (vx o * vx o + vy o * vy o) * Rabs 1.
Proof.
  intros L Hm o. pose proof PI2_3_2. pose proof (l_min_pos L). unfold o; cbn [vx vy unit_helicoid he_radius].
  replace (1 / 2 * (1 / 2) + 0 * 0) with (1 / 2 * (1 / 2)) by ring. rewrite sqrt_square, Rabs_R1 by lra.
  split; [exact unit_ok|]. split; [lra|]. split; lra.
Qed.
Lemma outside_case : he_radius unit_helicoid < sqrt (vx (V3 2 0 0) * vx (V3 2 0 0) + vy (V3 2 0 0) * vy (V3 2 0 0)).
Proof. cbn [vx vy unit_helicoid he_radius]. replace (2 * 2 + 0 * 0) with (2 * 2) by ring. rewrite sqrt_square; lra. Qed.
Lemma level_case : forall (L : limits), l_min L < / 2 -> let o := V3 (- (1 / 2)) (-1) 0 in let r := Ray o (V3 0 1 0) in
  let c := cos (2 * PI * (1 / 2)) in let z := sin (2 * PI * (1 / 2)) in
  helicoid_ok unit_helicoid /\ l_min L < 0 ^ 2 + 1 ^ 2 /\ off_threshold (l_min L) (2 * (vx o * 0 + vy o * 1)) /\
  pointR r 1 = helicoid_sigma unit_helicoid (1 / 2) (1 / 2) /\ c <> 0 /\ off_threshold (l_min L) (z / c) /\ l_min L < Rabs (1 * c - 0 * z) /\
  in_window (Fin 0) PInf 1 /\ l_min L < he_radius unit_helicoid * he_speed unit_helicoid * Rabs (1 * c - 0 * z).
Proof.
  intros L Hm o r c z. assert (Ec : c = -1) by (unfold c; replace (2 * PI * (1 / 2)) with PI by field; apply cos_PI).
  assert (Ez : z = 0) by (unfold z; replace (2 * PI * (1 / 2)) with PI by field; apply sin_PI).
  split; [exact unit_ok|]. split; [lra|]. split; [right; cbn; rewrite Rabs_left; lra|].
  split; [unfold helicoid_sigma; fold c z; rewrite Ec, Ez; unfold pointR, lineR, addR, scaleR, r, o, unit_helicoid; cbn [r_orig r_dir vx vy vz he_radius he_speed]; f_equal; field|].
  rewrite Ec, Ez. split; [lra|]. split; [left; field|]. replace (1 * -1 - 0 * 0) with (-1) by ring. rewrite Rabs_left by lra.
  cbn [unit_helicoid he_radius he_speed]. split; [lra|]. split; [|lra]. unfold in_window; cbn. lra.
Qed.
Lemma outside_solid_case : ~ inside_solid unit_helicoid (V3 2 0 0).
Proof. intros [H _]. cbn in H. lra. Qed.
