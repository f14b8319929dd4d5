(** enneper.cpp never gets to its picture. *)
From Coq Require Import Reals Lra ZArith Lia List Bool.
From Verif Require Import Spec_Random Num XR Spec Spec_Scene Spec_Light Spec_Shapes Spec_Image Spec_World M_Vec M_Rng M_Roots M_Hittable M_Materials M_Shapes M_Surfaces M_Image M_World M_Programs
  P_Vec P_Rng P_Quadratic P_Flat P_Camera P_Enneper P_Fractal P_Programs P_Shows.
Import ListNotations.
Local Open Scope R_scope.

Section Void.
Context {L : limits}.
Notation X := (XR L).

(** neither a value nor out of fuel, or a value *)
Definition settled {A} (x : outcome A) : Prop := x <> OutOfFuel.
Lemma settled_bind : forall A B (x : outcome A) (f : A -> outcome B), settled x -> (forall a, x = Ok a -> settled (f a)) -> settled (obind x f).
Proof. intros A B [a| |] f H K; unfold settled in *; cbn [obind]; [apply K; reflexivity|discriminate|congruence]. Qed.
Lemma settled_byte : forall v : list xr, settled (to_8bit_rgba (F:=X) v).
Proof.
  intros v. unfold to_8bit_rgba. apply settled_bind; [|intros; discriminate].
  induction v as [|x v IH]; [discriminate|]. cbn [mapM]. apply settled_bind.
  - unfold to_byte, to_uint8, to_range, settled. destruct (ntrunc _) as [z|]; [|discriminate]. destruct (_ && _)%bool; discriminate.
  - intros a _. apply settled_bind; [exact IH|]. intros; discriminate.
Qed.
Lemma settled_store : forall img n c, settled (store img n c).
Proof.
  intros img n c. unfold store. destruct (n <? 0)%Z; [discriminate|]. generalize (Z.to_nat n). induction img as [|x img IH]; intros [|k]; cbn [replace]; try discriminate.
  apply settled_bind; [apply IH|]. intros; discriminate.
Qed.
Lemma settled_write : forall w h i j c img, settled (write_pixel w h i j c img).
Proof.
  intros w h i j c img. unfold write_pixel. destruct c as [|c0 [|c1 [|c2 [|c3 [|c4 c]]]]]; try discriminate.
  apply settled_bind; [apply settled_store|]. intros a _. apply settled_bind; [apply settled_store|]. intros b _. apply settled_bind; [apply settled_store|]. intros d _. apply settled_store.
Qed.

Variables (lamp : disk xr) (m0 m1 : material_ptr (F:=X)) (cam : camera (F:=X)) (fuel spp : nat) (width height : Z) (en : enneper xr).
Notation scene := (Scene (F:=X) [of_enneper (F:=X) en; of_disk (F:=X) lamp] [m0; m1]).
Notation rc := (ray_color (F:=X) (world_hit (F:=X) scene) (scatter (F:=X) fuel) (emitted (F:=X)) 8).
Lemma void_ray : forall s r bg, (exists w, enneper_window (F:=X) en r (nmul (NumOps:=X) (nofZ (NumOps:=X) 1000) (neps (NumOps:=X))) (ninf (NumOps:=X)) = Some w) -> rc s r bg = Undef.
Proof.
  intros s r bg [w W]. unfold ray_color, world_hit. destruct (st_junk s 0%nat) as [temp rec]. unfold list_hit. cbn [objects materials list_loop hit of_enneper].
  rewrite (proj1 enneper_always_undefined), W. reflexivity.
Qed.
Lemma clear_ray : forall s r bg, enneper_window (F:=X) en r (nmul (NumOps:=X) (nofZ (NumOps:=X) 1000) (neps (NumOps:=X))) (ninf (NumOps:=X)) = None ->
  (forall rec, hit (of_disk (F:=X) lamp) r (nmul (NumOps:=X) (nofZ (NumOps:=X) 1000) (neps (NumOps:=X))) (ninf (NumOps:=X)) rec = Ok (false, rec)) -> exists s', rc s r bg = Ok (bg, s').
Proof.
  intros s r bg W H. unfold ray_color, world_hit. destruct (st_junk s 0%nat) as [temp rec]. unfold list_hit. cbn [objects materials list_loop].
  change (hit (of_enneper (F:=X) en)) with (enneper_hit (F:=X) en). rewrite (proj1 enneper_always_undefined), W. cbn [obind]. rewrite H. cbn [obind]. eexists. reflexivity.
Qed.

(** a picture of which no ray comes to anything but the background or the undefined behaviour *)
Variable bg : vec3 xr.
Notation camera_ray i j x y := (get_ray (F:=X) cam (pixel_u (F:=X) width i (Fin x)) (pixel_v (F:=X) height j (Fin y))).
Hypothesis hidden : forall i j x y rec, hit (of_disk (F:=X) lamp) (camera_ray i j x y) (nmul (NumOps:=X) (nofZ (NumOps:=X) 1000) (neps (NumOps:=X))) (ninf (NumOps:=X)) rec = Ok (false, rec).
Variables (i0 j0 : Z).
Hypothesis seen : forall x y, 0 <= x < 1 -> 0 <= y < 1 -> exists w, enneper_window (F:=X) en (camera_ray i0 j0 x y) (nmul (NumOps:=X) (nofZ (NumOps:=X) 1000) (neps (NumOps:=X))) (ninf (NumOps:=X)) = Some w.
Notation smp := (sample (F:=X) (world_hit (F:=X) scene) (scatter (F:=X) fuel) (emitted (F:=X)) width height bg cam).
Notation smps := (samples (F:=X) (world_hit (F:=X) scene) (scatter (F:=X) fuel) (emitted (F:=X)) width height bg cam).
Notation pix := (pixel (F:=X) (world_hit (F:=X) scene) (scatter (F:=X) fuel) (emitted (F:=X)) width height bg cam).
Notation rend := (render (F:=X) (world_hit (F:=X) scene) (scatter (F:=X) fuel) (emitted (F:=X)) width height bg cam).

Lemma sample_settled : forall i j g s, settled (smp i j g s).
Proof.
  intros i j g s. unfold sample. rewrite !pcg_real_01_draw. apply settled_bind; [|intros [c s'] _; discriminate].
  destruct (enneper_window (F:=X) en (camera_ray i j (draw g) (draw (pcg_next g))) (nmul (NumOps:=X) (nofZ (NumOps:=X) 1000) (neps (NumOps:=X))) (ninf (NumOps:=X))) as [w|] eqn:W.
  - rewrite void_ray by (exists w; exact W). discriminate.
  - destruct (clear_ray s _ bg W (hidden i j (draw g) (draw (pcg_next g)))) as [s' E]. rewrite E. discriminate.
Qed.
Lemma sample_void : forall g s, smp i0 j0 g s = Undef.
Proof.
  intros g s. unfold sample. rewrite !pcg_real_01_draw. rewrite void_ray; [reflexivity|]. apply seen; apply draw_range.
Qed.
Lemma samples_settled : forall n i j c g s, settled (smps n i j c g s).
Proof.
  induction n as [|n IH]; intros i j c g s; [discriminate|]. cbn [samples]. apply settled_bind; [apply sample_settled|]. intros [[c' g'] s'] _. apply IH.
Qed.
Lemma pixel_settled : forall i j g s, settled (pix spp i j g s).
Proof.
  intros i j g s. unfold pixel. apply settled_bind; [apply samples_settled|]. intros [[c g'] s'] _. apply settled_bind; [apply settled_byte|]. intros; discriminate.
Qed.
Hypothesis some : (1 <= spp)%nat.
Lemma pixel_void : forall g s, pix spp i0 j0 g s = Undef.
Proof. intros g s. destruct spp as [|n]; [lia|]. unfold pixel. cbn [samples]. rewrite sample_void. reflexivity. Qed.
Lemma render_void : forall order img g s, In (i0, j0) order -> rend spp order img g s = Undef.
Proof.
  induction order as [|[i j] order IH]; intros img g s I; [destruct I|]. cbn [render]. destruct I as [I|I].
  - injection I as -> ->. rewrite pixel_void. reflexivity.
  - pose proof (pixel_settled i j g s) as P. destruct (pix spp i j g s) as [[[c g'] s']| |]; [|reflexivity|contradiction P; reflexivity].
    cbn [obind]. pose proof (settled_write width height i j c img) as Wr. destruct (write_pixel width height i j c img) as [img'| |]; [|reflexivity|contradiction Wr; reflexivity].
    cbn [obind]. apply IH. exact I.
Qed.
End Void.

Section Program.
Context {L : limits}.
Notation X := (XR L).
Lemma small_square : forall q, - (1 / 100) <= q <= 1 / 100 -> 0 <= q * q <= 1 / 10000.
Proof. intros q H. split; nra. Qed.
(** the camera of enneper.cpp and its middle pixel *)
Lemma middle_seen : forall x y, l_min L < 1 / 1000 -> l_eps L < 1 / 1000 -> 0 <= x < 1 -> 0 <= y < 1 ->
  exists w, enneper_window (F:=X) (Enneper (Fin 4)) (get_ray (F:=X) (make_camera (F:=X) (fin3 (V3 10 (-10) 0)) (fin3 (V3 0 0 0)) (fin3 (V3 0 0 1)) (Fin 40) (Fin 1))
    (pixel_u (F:=X) 800 400 (Fin x)) (pixel_v (F:=X) 800 400 (Fin y))) (nmul (NumOps:=X) (nofZ (NumOps:=X) 1000) (neps (NumOps:=X))) (ninf (NumOps:=X)) = Some w.
Proof.
  intros x y M Ep Hx Hy. pose proof (l_min_pos L) as Mp. pose proof (l_eps_pos L) as Epp.
  assert (N : V3 10 (-10) 0 <> V3 0 0 0) by (intros K; injection K; lra).
  assert (C : crossR (V3 0 0 1) (subR (V3 10 (-10) 0) (V3 0 0 0)) <> zeroR) by (unfold crossR, subR, zeroR; cbn; intros K; injection K; lra).
  destruct (camera_frame (L:=L) (V3 10 (-10) 0) (V3 0 0 0) (V3 0 0 1) 40 1 N C ltac:(lra)) as (u & v & w & Nu & Nv & Nw & Uv & Uw & Vw & Cr & (k & Hk & Ew) & _ & _ & G).
  rewrite pixel_u_eq, pixel_v_eq by lia. rewrite G. clear G.
  pose proof tan_ninth as T. assert (T1 : tan (40 * PI / 360) < 1).
  { rewrite <- tan_PI4. pose proof PI_RGT_0. apply tan_increasing; lra. }
  set (h := tan (40 * PI / 360)) in *.
  set (p := 1 * h * (2 * ((400 + x) / (800 - 1)) - 1)). set (q := h * (2 * ((400 + y) / (800 - 1)) - 1)).
  assert (Bp : - (1 / 100) <= p <= 1 / 100).
  { unfold p. replace (2 * ((400 + x) / (800 - 1)) - 1) with ((1 + 2 * x) / 799) by field. assert (0 <= (1 + 2 * x) / 799 <= 1 / 200) by lra. nra. }
  assert (Bq : - (1 / 100) <= q <= 1 / 100).
  { unfold q. replace (2 * ((400 + y) / (800 - 1)) - 1) with ((1 + 2 * y) / 799) by field. assert (0 <= (1 + 2 * y) / 799 <= 1 / 200) by lra. nra. }
  set (D := subR (addR (scaleR p u) (scaleR q v)) w).
  pose proof (unit_normsq _ Nu) as Qu. pose proof (unit_normsq _ Nv) as Qv. pose proof (unit_normsq _ Nw) as Qw.
  assert (A : normsqR D = 1 + p * p + q * q).
  { transitivity (p * p * normsqR u + q * q * normsqR v + normsqR w + 2 * p * q * dotR u v - 2 * p * dotR u w - 2 * q * dotR v w); [unfold D, normsqR, dotR, subR, addR, scaleR; cbn [vx vy vz]; ring|]. rewrite Qu, Qv, Qw, Uv, Uw, Vw. ring. }
  assert (Kk : k * k * 200 = 1) by (rewrite Ew in Qw; unfold normsqR, dotR, scaleR, subR in Qw; cbn [vx vy vz] in Qw; lra).
  assert (Ef : V3 10 (-10) 0 = scaleR (200 * k) w).
  { rewrite Ew. unfold scaleR, subR; cbn [vx vy vz]. apply V3_ext.
    - replace (200 * k * (k * (10 - 0))) with (10 * (k * k * 200)) by ring. rewrite Kk. ring.
    - replace (200 * k * (k * (-10 - 0))) with (-10 * (k * k * 200)) by ring. rewrite Kk. ring.
    - ring. }
  assert (B : dotR (V3 10 (-10) 0) D = - (200 * k)).
  { rewrite Ef. transitivity (200 * k * (p * dotR u w + q * dotR v w - normsqR w)); [unfold D, normsqR, dotR, subR, addR, scaleR; cbn [vx vy vz]; ring|]. rewrite Uw, Vw, Qw. ring. }
  pose proof (small_square p Bp) as Sp. pose proof (small_square q Bq) as Sq.
  assert (Hk2 : 14 <= 200 * k <= 15) by nra.
  unfold enneper_window. cbn [r_orig r_dir en_radius].
  change (squared_norm (F:=X) (fin3 D)) with (squared_norm (F:=XR L) (fin3 D)). rewrite !squared_norm_fin. 
  assert (Dt : dot (F:=X) (fin3 (V3 10 (-10) 0)) (fin3 D) = Fin (dotR (V3 10 (-10) 0) D)) by apply dot_fin. rewrite Dt, A, B.
  assert (N2 : normsqR (V3 10 (-10) 0) = 200) by (unfold normsqR, dotR; cbn; lra). rewrite N2.
  set (a := 1 + p * p + q * q) in *.
  change (nmul (NumOps:=X) (nofZ (NumOps:=X) 2) (Fin (- (200 * k)))) with (Fin (2 * - (200 * k))).
  change (nsub (NumOps:=X) (Fin 200) (nmul (NumOps:=X) (Fin 4) (Fin 4))) with (Fin (200 - 4 * 4)).
  assert (Ha : 1 <= a <= 1 + 1 / 5000) by (unfold a; lra).
  destruct (quadratic_roots_correct L a (2 * - (200 * k)) (200 - 4 * 4)) as [[_ Z]|(r0 & r1 & E & Le & F & _)].
  - right. rewrite Rabs_pos_eq; lra.
  - right. rewrite Rabs_left; lra.
  - intros [K _]. lra.
  - exfalso. apply (Z ((200 * k + sqrt (200 * k * (200 * k) - a * 184)) / a)).
    assert (P : 0 <= 200 * k * (200 * k) - a * 184) by (replace (200 * k * (200 * k)) with (200 * (k * k * 200)) by ring; rewrite Kk; lra).
    pose proof (sqrt_sqrt _ P) as Sq2. set (z := sqrt _) in *. unfold quadR.
    transitivity ((z * z - (200 * k * (200 * k) - a * 184)) / a); [field; lra|rewrite Sq2; field; lra].
  - rewrite E. specialize (F ltac:(lra)).
    assert (S1 : 1 <= r1).
    { apply Rnot_lt_le. intros K. pose proof (F 1) as F1. unfold quadR in F1. pose proof (F 2) as F2. unfold quadR in F2.
      assert (V : r0 + r1 = 2 * (200 * k) / a).
      { pose proof (F 0) as F0. unfold quadR in F0. assert (a * (r0 + r1) = 2 * (200 * k)) by lra. rewrite <- H. field. lra. }
      assert (2 * (200 * k) / a <= 2) by lra. assert (2 < 2 * (200 * k) / a); [|lra]. apply Rmult_lt_reg_r with a; [lra|]. replace (2 * (200 * k) / a * a) with (2 * (200 * k)) by (field; lra). lra. }
    change (nmul (NumOps:=X) (nofZ (NumOps:=X) 1000) (neps (NumOps:=X))) with (Fin (1000 * l_eps L)).
    change (nltb (NumOps:=X) (Fin r1) (Fin (1000 * l_eps L))) with (Rltb r1 (1000 * l_eps L)). rewrite Rltb_false by lra.
    eexists. reflexivity.
Qed.
Lemma enneper_void : forall tex order fuel s, l_min L < 1 / 1000 -> l_eps L < 1 / 1000 -> schedule 800 800 order ->
  exists p, enneper_program (F:=X) tex = Ok p /\ run (F:=X) p fuel order s = Undef.
Proof.
  intros tex order fuel s M Ep [_ So]. pose proof (l_min_pos L) as Mp. pose proof (l_eps_pos L) as Epp.
  assert (N : V3 10 (-10) 0 <> V3 0 0 0) by (intros K; injection K; lra).
  assert (C : crossR (V3 0 0 1) (subR (V3 10 (-10) 0) (V3 0 0 0)) <> zeroR) by (unfold crossR, subR, zeroR; cbn; intros K; injection K; lra).
  destruct (backlight_hidden L (V3 10 (-10) 0) (V3 0 0 0) (V3 0 0 1) 40 1 10 N C ltac:(lra) ltac:(lra) ltac:(lra)) as (lamp & El & Hid).
  unfold enneper_program, enneper_camera.
  change (V3 (nofZ (NumOps:=X) 10) (nofZ (NumOps:=X) (-10)) (nofZ (NumOps:=X) 0)) with (fin3 (V3 10 (-10) 0)).
  change (V3 (nofZ (NumOps:=X) 0) (nofZ (NumOps:=X) 0) (nofZ (NumOps:=X) 1)) with (fin3 (V3 0 0 1)).
  change (V3 (nofZ (NumOps:=X) 0) (nofZ (NumOps:=X) 0) (nofZ (NumOps:=X) 0)) with (fin3 (V3 0 0 0)).
  change (nofZ (NumOps:=X) 40) with (Fin 40). change (nofZ (NumOps:=X) 1) with (Fin 1). change (nofZ (NumOps:=X) 10) with (Fin 10).
  destruct (backlight (F:=X) _) as [o d]. cbn [fst snd] in El. change (make_disk (F:=X) (Fin 10) o d = Ok lamp) in El.
  rewrite El. unfold omap. cbn [obind]. eexists. split; [reflexivity|].
  unfold run. cbn [p_height p_width p_background p_spp p_items p_from p_at p_up p_vfov p_aspect].
  replace (to_int64 (F:=X) (ndiv (NumOps:=X) (nofZ (NumOps:=X) 800) (Fin 1))) with (Ok 800%Z) by (symmetry; cbn [nofZ ndiv XR]; rewrite xdiv_fin by lra; replace (800 / 1) with 800 by field; apply to_int64_IZR; lia).
  cbn [obind]. unfold render_scene, p_camera, p_scene. cbn [p_height p_width p_background p_spp p_items p_from p_at p_up p_vfov p_aspect number fold_left add empty_list objects materials app].
  match goal with |- omap ?f ?r = Undef => enough (E : r = Undef) by (rewrite E; reflexivity) end.
  apply (render_void (L:=L) lamp (0%nat, Lambertian (F:=X) tex) (1%nat, light (F:=X) (V3 (Fin 2) (Fin 2) (Fin 2))) _ fuel 16 800 800 (Enneper (Fin 4)) _) with (i0:=400%Z) (j0:=400%Z).
  - intros i j x y rec. rewrite pixel_u_eq, pixel_v_eq by lia. apply (Hid _ _ (1000 * l_eps L) PInf rec); [lra|discriminate].
  - intros x y Hx Hy. apply middle_seen; assumption.
  - lia.
  - apply So. lia.
Qed.
End Program.
