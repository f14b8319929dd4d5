(** Cases for the theorems about the example programs. *)
From Coq Require Import String Reals Lra ZArith Lia List Bool.
From Verif Require Import Spec_Random Num XR FL Spec Spec_Scene Spec_Light Spec_Shapes Spec_Image Spec_World Spec_Programs Spec_Shades M_Vec M_Rng M_Hittable M_Materials M_Shapes M_Image M_World M_Programs
  P_Vec P_Render P_Programs P_Marbles P_Shows P_Names E_Algebra E_World.
Import ListNotations.
Local Open Scope R_scope.
Notation D := double_limits.

Lemma small_limits : l_min D < 1 / 1000 /\ l_eps D < 1 / 1000.
Proof. pose proof double_min_small. pose proof double_eps_small. split; lra. Qed.
Lemma camera_case : V3 0 (-4) 2 <> V3 0 0 0 /\ crossR (V3 0 0 1) (subR (V3 0 (-4) 2) (V3 0 0 0)) <> zeroR.
Proof. split; [intros K; injection K; lra|]. unfold crossR, subR, zeroR; cbn. intros K; injection K; lra. Qed.
Lemma draws_case : unit_draws (fun _ => 1 / 2) /\ unit_draws (fun n => INR n / (INR n + 1)).
Proof.
  split; intros n; [lra|]. pose proof (pos_INR n). split; [apply Rmult_le_pos; [lra|]; apply Rlt_le, Rinv_0_lt_compat; lra|]. apply Rmult_lt_reg_r with (INR n + 1); [lra|]. replace (INR n / (INR n + 1) * (INR n + 1)) with (INR n) by (field; lra). lra.
Qed.
Lemma show_case : l_min D < 1 / 1000 /\ l_eps D < 1 / 1000 /\ schedule 1800 1125 (raster 1800 1125) /\ schedule 800 800 (raster 800 800) /\ schedule 1200 750 (raster 1200 750) /\ good_state demo_state /\
  good_texture (paint (V3 1 1 1)).
Proof. destruct small_limits. repeat (split; [first [assumption|apply raster_schedule|exact demo_state_good]|]). apply paint_good. unfold nonneg3; cbn; lra. Qed.
Lemma can_case : l_min D < 1 / 1000 /\ l_eps D < 1 / 1000 /\ schedule 1200 750 (raster 1200 750) /\ good_state demo_state /\ tick 0 /\ tick (1 / 2).
Proof.
  destruct show_case as (? & ? & _ & _ & ? & ? & _). repeat (split; [assumption|]). split; [exists 0%Z; split; [lia|lra]|]. exists (2 ^ 31)%Z. split; [lia|].
  change (IZR (2 ^ 31)) with 2147483648. change (IZR (2 ^ 32)) with 4294967296. lra.
Qed.
(** the heights in double, too *)
Lemma heights : forall lm, height_of (F:=F64 lm) 1800 (dec (F:=F64 lm) 16 10) = Ok 1125%Z /\ height_of (F:=F64 lm) 1200 (dec (F:=F64 lm) 16 10) = Ok 750%Z /\ height_of (F:=F64 lm) 2880 (dec (F:=F64 lm) 16 10) = Ok 1800%Z.
Proof. intros lm. repeat split; vm_compute; reflexivity. Qed.
Lemma names : frame_name 0 = "ellipsoid_curvature_000.png"%string /\ frame_name 42 = "ellipsoid_curvature_042.png"%string /\ frame_name 359 = "ellipsoid_curvature_359.png"%string /\
  cost_filename (frame_name 7) = "ellipsoid_curvature_007_cost.png"%string.
Proof. repeat split. Qed.
Lemma egg_case : on_ellipsoid egg (V3 (39 / 20) 0 0) /\ on_ellipsoid egg (V3 0 (-3 / 2) 0).
Proof. unfold on_ellipsoid, egg; cbn [el_center el_scales vx vy vz]. split; field. Qed.

(** *** two programs with oblong pixels *)
Section Oblong.
Context {L : limits}.
Lemma lights_oblong : exists right above, pixel_steps (p_camera (F:=XR L) (with_lights (F:=XR L))) 1800 1125 right above /\ normR right < normR above /\
  p_width (with_lights (F:=XR L)) = 1800%Z /\ p_height (with_lights (F:=XR L)) = Ok 1125%Z.
Proof.
  destruct (pixel_shape L (V3 26 3 6) (V3 0 2 0) (V3 0 1 0) 20 (8 / 5) 1800 1125) as (right & above & P & _ & _ & Pa & E & _); try lra; try lia.
  { intros K; injection K; lra. } { unfold crossR, subR, zeroR; cbn. intros K; injection K; lra. }
  exists right, above. split; [|split; [lra|split; [reflexivity|]]].
  - unfold p_camera, with_lights; cbn [p_from p_at p_up p_vfov p_aspect]. rewrite dec16. exact P.
  - cbn [p_height with_lights]. rewrite dec16. apply height_eq; [lra|field|lia].
Qed.
Lemma glass_oblong : exists right above, pixel_steps (glass_camera (F:=XR L)) 2880 1800 right above /\ 8 / 5 * normR right < normR above /\ glass_width = 2880%Z /\ glass_height (F:=XR L) = Ok 1800%Z.
Proof.
  destruct (pixel_shape L (V3 478 278 (-600)) (V3 278 278 0) (V3 0 1 0) 40 1 2880 1800) as (right & above & P & _ & _ & Pa & E & _); try lra; try lia.
  { intros K; injection K; lra. } { unfold crossR, subR, zeroR; cbn. intros K; injection K; lra. }
  exists right, above. split; [exact P|]. split; [lra|]. split; [reflexivity|]. unfold glass_height, glass_width. rewrite dec16. apply height_eq; [lra|field|lia].
Qed.
End Oblong.
