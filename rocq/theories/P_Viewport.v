(** Where the samples of a pixel fall in the viewport; an image that depends on the schedule. *)
From Coq Require Import Reals Lra ZArith Lia List Bool.
From Verif Require Import Num XR Spec M_Vec M_Rng M_Hittable M_Shapes M_Materials M_Image Spec_Image P_Vec P_Rng P_Camera P_Render P_Maps.
Import ListNotations.
Local Open Scope R_scope.

Section Viewport.
Context {L : limits}.
Notation X := (XR L).

Lemma pixel_u_exact : forall width i r, (2 <= width)%Z -> pixel_u (F:=X) width i (Fin r) = Fin ((IZR i + r) / (IZR width - 1)).
Proof.
  intros width i r Wd. unfold pixel_u. cbn [nadd nofZ ndiv XR xadd]. rewrite minus_IZR. apply xdiv_fin. apply IZR_le in Wd. lra.
Qed.
Lemma pixel_v_exact : forall height j r, (2 <= height)%Z -> pixel_v (F:=X) height j (Fin r) = Fin ((IZR j + r) / (IZR height - 1)).
Proof. exact pixel_u_exact. Qed.
Lemma cell : forall n i r, (2 <= n)%Z -> 0 <= r < 1 -> IZR i / (IZR n - 1) <= (IZR i + r) / (IZR n - 1) < (IZR i + 1) / (IZR n - 1).
Proof.
  intros n i r N R. apply IZR_le in N. assert (P : 0 < / (IZR n - 1)) by (apply Rinv_0_lt_compat; lra). unfold Rdiv. split.
  - apply Rmult_le_compat_r; lra.
  - apply Rmult_lt_compat_r; lra.
Qed.
Lemma viewport_cell : forall width height i j g, (2 <= width)%Z -> (2 <= height)%Z -> exists u v,
  pixel_u (F:=X) width i (fst (pcg_real_01 (F:=X) g)) = Fin u /\ pixel_v (F:=X) height j (fst (pcg_real_01 (F:=X) g)) = Fin v /\
  IZR i / (IZR width - 1) <= u < (IZR i + 1) / (IZR width - 1) /\ IZR j / (IZR height - 1) <= v < (IZR j + 1) / (IZR height - 1).
Proof.
  intros width height i j g Wd Ht. rewrite pcg_real_01_draw. cbn [fst]. pose proof (draw_range g) as D.
  exists ((IZR i + draw g) / (IZR width - 1)), ((IZR j + draw g) / (IZR height - 1)).
  split; [apply pixel_u_exact; exact Wd|]. split; [apply pixel_v_exact; exact Ht|]. split; apply cell; auto.
Qed.
(* all but the last column and row are in the unit square *)
Lemma viewport_inside : forall n i g, (2 <= n)%Z -> (0 <= i < n - 1)%Z -> exists u, pixel_u (F:=X) n i (fst (pcg_real_01 (F:=X) g)) = Fin u /\ 0 <= u < 1.
Proof.
  intros n i g N I. destruct (viewport_cell n n i i g N N) as (u & _ & E & _ & [A B] & _). exists u. split; [exact E|].
  destruct I as [I1 I2]. apply IZR_le in I1, N. assert (I3 : IZR (i + 1) <= IZR (n - 1)) by (apply IZR_le; lia). rewrite plus_IZR, minus_IZR in I3.
  assert (P : 0 < / (IZR n - 1)) by (apply Rinv_0_lt_compat; lra). split.
  - eapply Rle_trans; [|exact A]. apply Rmult_le_pos; lra.
  - eapply Rlt_le_trans; [exact B|]. apply Rmult_le_reg_r with (IZR n - 1); [lra|]. unfold Rdiv. rewrite Rmult_assoc, Rinv_l by lra. lra.
Qed.
(* the last column and row are outside, except when the draw is 0 *)
Lemma viewport_last : forall n g, (2 <= n)%Z -> exists u, pixel_u (F:=X) n (n - 1) (fst (pcg_real_01 (F:=X) g)) = Fin u /\ 1 <= u /\ (fst (pcg_real_01 (F:=X) g) <> Fin 0 -> 1 < u).
Proof.
  intros n g N. rewrite pcg_real_01_draw. cbn [fst]. exists ((IZR (n - 1) + draw g) / (IZR n - 1)). split; [apply pixel_u_exact; exact N|].
  pose proof (draw_range g) as D. apply IZR_le in N. rewrite minus_IZR.
  assert (E : (IZR n - 1 + draw g) / (IZR n - 1) = 1 + draw g / (IZR n - 1)) by (field; lra). rewrite E.
  assert (P : 0 < / (IZR n - 1)) by (apply Rinv_0_lt_compat; lra). split.
  - assert (0 <= draw g / (IZR n - 1)) by (apply Rmult_le_pos; lra). lra.
  - intros Z. assert (draw g <> 0) by congruence. assert (0 < draw g / (IZR n - 1)) by (apply Rmult_lt_0_compat; lra). lra.
Qed.
(* an image one pixel wide: division by zero *)
Lemma viewport_one : forall g, ~ is_fin (pixel_u (F:=X) 1 0 (fst (pcg_real_01 (F:=X) g))).
Proof.
  intros g. rewrite pcg_real_01_draw. cbn [fst]. unfold pixel_u. cbn [nadd nofZ ndiv XR xadd]. unfold xdiv. change (IZR (1 - 1)) with 0.
  destruct (Req_EM_T 0 0) as [_|C]; [|lra]. unfold xscale_inf, is_fin. intros [r E]. destruct (Rlt_dec 0 _); [discriminate|]. destruct (Rlt_dec _ 0); discriminate.
Qed.
End Viewport.

(** *** two schedules, two images *)
Section Schedule.
Notation X := (XR double_limits).
Variable rec0 : hit_record xr.
Let zero := V3 0 0 0.
(* a light filling the left edge of the view *)
Let q : rect xr := Rect (Fin (-10)) (Fin (-9/10)) (Fin (-10)) (Fin 10) (Fin (-1)).
Definition lamp_hit (w : unit) (r : ray xr) (t_min t_max : xr) : outcome (option unit * hit_record xr * unit) :=
  obind (xy_hit (F:=X) q r t_min t_max rec0) (fun '(b, rec) => Ok (if b then Some tt else None, rec, tt)).
(* diffuse_light does not scatter *)
Definition lamp_scatter (m : unit) (w : unit) (r : ray xr) (rec : hit_record xr) : outcome (@scattering X * unit) := Ok (None, tt).
Definition lamp_emitted (m : unit) (rec : hit_record xr) : vec3 xr := fin3 (V3 1 1 1).
Definition lamp_camera : @camera X := make_camera (F:=X) (fin3 zero) (fin3 (V3 0 0 (-1))) (fin3 (V3 0 1 0)) (Fin 90) (Fin 1).

Lemma lamp_ray : forall s t, get_ray (F:=X) lamp_camera (Fin s) (Fin t) = Ray (fin3 zero) (fin3 (V3 (2 * s - 1) (2 * t - 1) (-1))).
Proof.
  intros s t. unfold lamp_camera. rewrite ray_eq.
  - assert (S0 : subR zero (V3 0 0 (-1)) = V3 0 0 1) by (unfold subR, zero; cbn; f_equal; ring).
    assert (N1 : normR (V3 0 0 1) = 1) by (unfold normR, normsqR, dotR; cbn; replace (0 * 0 + 0 * 0 + 1 * 1) with 1 by ring; apply sqrt_1).
    rewrite S0, N1. assert (C : crossR (V3 0 1 0) (scaleR (/ 1) (V3 0 0 1)) = V3 1 0 0) by (unfold crossR, scaleR; cbn; f_equal; field).
    rewrite C. assert (N2 : normR (V3 1 0 0) = 1) by (unfold normR, normsqR, dotR; cbn; replace (1 * 1 + 0 * 0 + 0 * 0) with 1 by ring; apply sqrt_1).
    rewrite N2. replace (90 * PI / 360) with (PI / 4) by field. rewrite tan_PI4. f_equal. f_equal. unfold subR, addR, scaleR, crossR. cbn. f_equal; field.
  - unfold zero. intros E. injection E. lra.
  - unfold crossR, subR, zero, zeroR. cbn. intros E. injection E. lra.
  - lra.
Qed.
Lemma lamp_seen : forall a b, 0 <= b <= 2 -> 0 <= a <= 2 ->
  ray_color (F:=X) lamp_hit lamp_scatter lamp_emitted 8 tt (get_ray (F:=X) lamp_camera (Fin a) (Fin b)) (fin3 zero) =
  Ok (fin3 (if Rlt_dec (1 / 20) a then zero else V3 1 1 1), tt).
Proof.
  intros a b B A. rewrite lamp_ray. cbn [ray_color].
  assert (T : ndiv (NumOps:=X) (nsub (NumOps:=X) (Fin (-1)) (Fin 0)) (Fin (-1)) = Fin 1).
  { cbn [ndiv nsub XR xsub]. rewrite xdiv_fin by lra. f_equal. field. }
  assert (E : exists rec, lamp_hit tt (Ray (fin3 zero) (fin3 (V3 (2 * a - 1) (2 * b - 1) (-1)))) (nmul (NumOps:=X) (nofZ (NumOps:=X) 1000) (neps (NumOps:=X))) (ninf (NumOps:=X)) =
    Ok (if Rlt_dec (1 / 20) a then None else Some tt, rec, tt)).
  { unfold lamp_hit, xy_hit, rect_hit. cbn [r_orig r_dir q q_k q_a0 q_a1 q_b0 q_b1 fin3 map3 zero vx vy vz].
    change (@num X) with xr in *. rewrite T. cbn [nltb nmul nadd nofZ neps ninf XR xltb xmul xadd l_eps double_limits].
    assert (P : 1000 * / IZR (2 ^ 52) <= 1) by (apply Rmult_le_reg_r with (IZR (2 ^ 52)); [apply IZR_lt; reflexivity|]; rewrite Rmult_assoc, Rinv_l by (apply IZR_neq; discriminate); rewrite Rmult_1_r, Rmult_1_l; apply IZR_le; discriminate).
    rewrite (Rltb_false 1) by exact P. cbn [orb].
    rewrite (Rltb_false (0 + 1 * (2 * a - 1)) (-10)), (Rltb_false (0 + 1 * (2 * b - 1)) (-10)), (Rltb_false 10) by lra. cbn [orb]. rewrite !orb_false_r.
    destruct (Rlt_dec (1 / 20) a).
    - rewrite (Rltb_true (-9 / 10)) by lra. eexists. reflexivity.
    - rewrite (Rltb_false (-9 / 10)) by lra. eexists. reflexivity. }
  destruct E as (rec & ->). cbn [obind]. destruct (Rlt_dec (1 / 20) a); reflexivity.
Qed.
Notation lamp_pixel := (pixel (F:=X) lamp_hit lamp_scatter lamp_emitted 2 2 (fin3 zero) lamp_camera).
Lemma lamp_pixel_eq : forall i j g, (0 <= i < 2)%Z -> (0 <= j < 2)%Z ->
  lamp_pixel 1 i j g tt = Ok (if Rlt_dec (1 / 20) (IZR i + draw g) then [0; 0; 0; 255]%Z else [255; 255; 255; 255]%Z, pcg_next (pcg_next g), tt).
Proof.
  intros i j g I J. unfold pixel. cbn [samples]. unfold sample. rewrite !pcg_real_01_draw. rewrite pixel_u_exact, pixel_v_exact by lia.
  pose proof (draw_range g) as D1. pose proof (draw_range (pcg_next g)) as D2.
  assert (I2 : 0 <= IZR i <= 1) by (split; apply IZR_le; lia). assert (J2 : 0 <= IZR j <= 1) by (split; apply IZR_le; lia).
  replace ((IZR i + draw g) / (2 - 1)) with (IZR i + draw g) by field. replace ((IZR j + draw (pcg_next g)) / (2 - 1)) with (IZR j + draw (pcg_next g)) by field.
  rewrite lamp_seen by lra. cbn [obind].
  assert (G : forall c : R, (c = 0 \/ c = 1) ->
    to_8bit_rgba (F:=X) (vec_list (F:=X) (vdiv (F:=X) (vadd (F:=X) (V3 (nofZ (NumOps:=X) 0) (nofZ (NumOps:=X) 0) (nofZ (NumOps:=X) 0)) (fin3 (V3 c c c))) (nofZ (NumOps:=X) (Z.of_nat 1)))) =
    Ok (let b := if Req_EM_T c 0 then 0%Z else 255%Z in [b; b; b; 255]%Z)).
  { intros c C. change (V3 (nofZ (NumOps:=X) 0) (nofZ (NumOps:=X) 0) (nofZ (NumOps:=X) 0)) with (fin3 zero). rewrite vadd_fin.
    change (nofZ (NumOps:=X) (Z.of_nat 1)) with (Fin 1). rewrite vdiv_fin by lra. rewrite rgba_exact by (unfold scaleR, addR, zero; cbn; lra).
    unfold scaleR, addR, zero. cbn [map app vx vy vz]. replace (/ 1 * (0 + c)) with c by field.
    assert (Ez : Flocq.Core.Raux.Zfloor (255 * sqrt (Rmin c 1)) = if Req_EM_T c 0 then 0%Z else 255%Z).
    { destruct C as [-> | ->].
      - rewrite Rmin_left by lra. rewrite sqrt_0. destruct (Req_EM_T 0 0); [|lra]. replace (255 * 0) with (IZR 0) by (cbn; ring). apply Flocq.Core.Raux.Zfloor_IZR.
      - rewrite Rmin_left by lra. rewrite sqrt_1. destruct (Req_EM_T 1 0); [lra|]. replace (255 * 1) with (IZR 255) by (cbn; ring). apply Flocq.Core.Raux.Zfloor_IZR. }
    rewrite Ez. reflexivity. }
  destruct (Rlt_dec (1 / 20) (IZR i + draw g)).
  - unfold zero at 1. rewrite G by auto. cbn [obind]. destruct (Req_EM_T 0 0); [|lra]. reflexivity.
  - rewrite G by auto. cbn [obind]. destruct (Req_EM_T 1 0); [lra|]. reflexivity.
Qed.
Lemma draw_lt : forall g k, (20 * (pcg_output (pc_state g) + k * 2 ^ 32) <=? 2 ^ 32)%Z = true -> IZR k + draw g <= 1 / 20.
Proof.
  intros g k H. apply Z.leb_le, IZR_le in H. rewrite mult_IZR, plus_IZR, mult_IZR in H. unfold draw. apply Rmult_le_reg_r with (IZR (2 ^ 32)); [apply IZR_lt; reflexivity|].
  rewrite Rmult_plus_distr_r. unfold Rdiv at 1. rewrite (Rmult_assoc _ (/ _)), Rinv_l, Rmult_1_r by (apply IZR_neq; discriminate). lra.
Qed.
Lemma draw_gt : forall g k, (2 ^ 32 <? 20 * (pcg_output (pc_state g) + k * 2 ^ 32))%Z = true -> 1 / 20 < IZR k + draw g.
Proof.
  intros g k H. apply Z.ltb_lt, IZR_lt in H. rewrite mult_IZR, plus_IZR, mult_IZR in H. unfold draw. apply Rmult_lt_reg_r with (IZR (2 ^ 32)); [apply IZR_lt; reflexivity|].
  rewrite Rmult_plus_distr_r. unfold Rdiv at 2. rewrite (Rmult_assoc _ (/ _)), Rinv_l, Rmult_1_r by (apply IZR_neq; discriminate). lra.
Qed.
Notation lamp_scene := (render_scene (F:=X) lamp_hit lamp_scatter lamp_emitted 2 2 (fin3 zero) lamp_camera).
Definition rows_up : list (Z * Z) := [(0, 0); (1, 0); (0, 1); (1, 1)]%Z.
Definition rows_down : list (Z * Z) := [(0, 1); (1, 1); (0, 0); (1, 0)]%Z.
Ltac lamp_dark := destruct (Rlt_dec (1 / 20) _) as [_|C]; [|exfalso; apply C; apply draw_gt; vm_compute; reflexivity].
Ltac lamp_lit := destruct (Rlt_dec (1 / 20) _) as [C|_]; [exfalso; refine (Rle_not_lt _ _ (draw_lt _ _ _) C); vm_compute; reflexivity|].
Lemma lamp_up : lamp_scene 1 rows_up tt = Ok [0; 0; 0; 255; 0; 0; 0; 255; 255; 255; 255; 255; 0; 0; 0; 255]%Z.
Proof.
  unfold render_scene, rows_up. cbn [render].
  rewrite lamp_pixel_eq by lia. lamp_lit. cbn [obind].
  change (write_pixel 2 2 0 0 [255; 255; 255; 255]%Z (new_image 2 2)) with (Ok [0; 0; 0; 0; 0; 0; 0; 0; 255; 255; 255; 255; 0; 0; 0; 0]%Z). cbn [obind].
  rewrite lamp_pixel_eq by lia. lamp_dark. cbn [obind].
  change (write_pixel 2 2 1 0 [0; 0; 0; 255]%Z [0; 0; 0; 0; 0; 0; 0; 0; 255; 255; 255; 255; 0; 0; 0; 0]%Z) with (Ok [0; 0; 0; 0; 0; 0; 0; 0; 255; 255; 255; 255; 0; 0; 0; 255]%Z). cbn [obind].
  rewrite lamp_pixel_eq by lia. lamp_dark. cbn [obind].
  change (write_pixel 2 2 0 1 [0; 0; 0; 255]%Z [0; 0; 0; 0; 0; 0; 0; 0; 255; 255; 255; 255; 0; 0; 0; 255]%Z) with (Ok [0; 0; 0; 255; 0; 0; 0; 0; 255; 255; 255; 255; 0; 0; 0; 255]%Z). cbn [obind].
  rewrite lamp_pixel_eq by lia. lamp_dark. reflexivity.
Qed.
Lemma lamp_down : lamp_scene 1 rows_down tt = Ok [255; 255; 255; 255; 0; 0; 0; 255; 0; 0; 0; 255; 0; 0; 0; 255]%Z.
Proof.
  unfold render_scene, rows_down. cbn [render].
  rewrite lamp_pixel_eq by lia. lamp_lit. cbn [obind].
  change (write_pixel 2 2 0 1 [255; 255; 255; 255]%Z (new_image 2 2)) with (Ok [255; 255; 255; 255; 0; 0; 0; 0; 0; 0; 0; 0; 0; 0; 0; 0]%Z). cbn [obind].
  rewrite lamp_pixel_eq by lia. lamp_dark. cbn [obind].
  change (write_pixel 2 2 1 1 [0; 0; 0; 255]%Z [255; 255; 255; 255; 0; 0; 0; 0; 0; 0; 0; 0; 0; 0; 0; 0]%Z) with (Ok [255; 255; 255; 255; 0; 0; 0; 255; 0; 0; 0; 0; 0; 0; 0; 0]%Z). cbn [obind].
  rewrite lamp_pixel_eq by lia. lamp_dark. cbn [obind].
  change (write_pixel 2 2 0 0 [0; 0; 0; 255]%Z [255; 255; 255; 255; 0; 0; 0; 255; 0; 0; 0; 0; 0; 0; 0; 0]%Z) with (Ok [255; 255; 255; 255; 0; 0; 0; 255; 0; 0; 0; 255; 0; 0; 0; 0]%Z). cbn [obind].
  rewrite lamp_pixel_eq by lia. lamp_dark. reflexivity.
Qed.
End Schedule.
