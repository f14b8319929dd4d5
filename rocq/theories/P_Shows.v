(** The example programs whose objects are spheres, rectangles, ellipsoids and disks produce a picture. *)
From Coq Require Import Reals Lra ZArith Lia List Bool String.
From Flocq Require Import Core.
From Verif Require Import Spec_Random Num XR Spec Spec_Scene Spec_Light Spec_Shapes Spec_Image Spec_World Spec_Programs M_Vec M_Rng M_Hittable M_Materials M_Shapes M_Image M_World M_Programs
  P_Vec P_Flat P_Camera P_Furnace P_Fractal P_Programs P_Marbles.
Import ListNotations.
Local Open Scope R_scope.

Lemma number_in : forall (F : NumOps) (l : list (hittable * material)) k o m, In (o, m) (number (F:=F) k l) -> In (o, snd m) l.
Proof.
  intros F l. induction l as [|[o' m'] l IH]; intros k o m I; cbn [number In] in *; [exact I|].
  destruct I as [I|I]; [injection I as <- <-; left; reflexivity|right; apply IH with (S k); exact I].
Qed.

Section Shows.
Context {L : limits}.
Notation X := (XR L).

Lemma to_int_IZR : forall z, (- 2 ^ 31 <= z < 2 ^ 31)%Z -> to_int (F:=X) (Fin (IZR z)) = Ok z.
Proof.
  intros z H. unfold to_int, to_range. cbn [ntrunc XR xtrunc]. rewrite Ztrunc_IZR.
  replace (- 2 ^ 31 <=? z)%Z with true by (symmetry; apply Z.leb_le; lia). replace (z <=? 2 ^ 31 - 1)%Z with true by (symmetry; apply Z.leb_le; lia). reflexivity.
Qed.
Lemma height_eq : forall w a h, a <> 0 -> IZR w / a = IZR h -> (- 2 ^ 31 <= h < 2 ^ 31)%Z -> height_of (F:=X) w (Fin a) = Ok h.
Proof. intros w a h Ha E H. unfold height_of. cbn [nofZ ndiv XR]. rewrite xdiv_fin by exact Ha. rewrite E. apply to_int_IZR. exact H. Qed.
Lemma dec16 : dec (F:=X) 16 10 = Fin (8 / 5).
Proof. apply dec_red; [discriminate|lra]. Qed.

(** *** A program with objects and materials of the kinds of [solid] and [sound] *)
Lemma shown : forall (p : program (F:=X)) tol (bg from at_ up : vec3 R) vfov aspect height order s,
  p_background p = fin3 bg -> p_from p = fin3 from -> p_at p = fin3 at_ -> p_up p = fin3 up -> p_vfov p = Fin vfov -> p_aspect p = Fin aspect -> p_height p = Ok height ->
  0 <= tol <= 1 / 8 -> l_min L < 1 / 4 -> (forall o m, In (o, m) (p_items p) -> solid tol o /\ sound tol m) -> nonneg3 bg ->
  from <> at_ -> crossR up (subR from at_) <> zeroR -> 0 < vfov < 180 -> (2 <= p_width p)%Z -> (2 <= height)%Z -> (1 <= p_spp p)%nat -> schedule (p_width p) height order -> good_state s ->
  exists k img, (forall fuel, (k <= fuel)%nat -> run (F:=X) p fuel order s = Ok img) /\ List.length img = Z.to_nat (4 * p_width p * height) /\ Forall byte img /\
    forall i j d, (0 <= i < p_width p)%Z -> (0 <= j < height)%Z -> nth (offset (p_width p) height i j 3) img d = 255%Z.
Proof.
  intros p tol bg from at_ up vfov aspect height order s Eb Ef Ea Eu Ev Es Eh T M I B N C V W H Hs So Gs.
  destruct (whole_scene L tol (number 0 (p_items p)) bg from at_ up vfov aspect (p_width p) height (p_spp p) order s) as (k & img & R & R'); auto.
  { intros o m Im. apply I. apply number_in with 0%nat. exact Im. }
  exists k, img. split; [|exact R']. intros fuel Hf. unfold run, p_camera, p_scene. rewrite Eh, Eb, Ef, Ea, Eu, Ev, Es. cbn [obind]. unfold scene_of in R. rewrite (R fuel Hf). reflexivity.
Qed.

Lemma marble_sound : forall m : material (F:=X), marble_material m -> sound (1 / 100) m.
Proof.
  intros m H. destruct H as [c U|c U|].
  - apply Sound_lambertian, solid_good. unfold unit_color, nonneg3 in *; lra.
  - apply Sound_metal, solid_good. unfold unit_color, nonneg3 in *; lra.
  - apply Sound_dielectric; try lra. apply solid_good. unfold nonneg3; cbn; lra.
Qed.
Lemma spheres_shown : forall d order s, l_min L < 1 / 1000 -> unit_draws d -> schedule 1800 1125 order -> good_state s ->
  exists k img, (forall fuel, (k <= fuel)%nat -> run (F:=X) (render_spheres (F:=X) (fun n => Fin (d n))) fuel order s = Ok img) /\
    List.length img = Z.to_nat (4 * 1800 * 1125) /\ Forall byte img /\ forall i j d, (0 <= i < 1800)%Z -> (0 <= j < 1125)%Z -> nth (offset 1800 1125 i j 3) img d = 255%Z.
Proof.
  intros d order s M U So Gs. pose proof (l_min_pos L) as Mp.
  destruct (scattered (L:=L) d U) as (g & cells & small & E & Gg & _ & _ & _ & _ & _ & Fa & _).
  destruct (shown (render_spheres (F:=X) (fun n => Fin (d n))) (1 / 100) (V3 (7 / 10) (4 / 5) 1) (V3 13 2 3) (V3 0 0 0) (V3 0 1 0) 20 (8 / 5) 1125 order s) as (k & img & R); cbn [p_background p_from p_at p_up p_vfov p_aspect p_height p_width p_spp p_items render_spheres]; auto; try lra; try lia.
  - rewrite (dec_red 7 10 (7 / 10)), (dec_red 8 10 (4 / 5)) by (try discriminate; lra). reflexivity.
  - apply dec16.
  - rewrite dec16. apply height_eq; [lra|field|lia].
  - intros o m I. rewrite E in I. destruct I as [I|I]; [|apply in_app_or in I; destruct I as [I|I]].
    + injection I as <- <-. split; [apply Solid_sphere; cbn; lra|apply Sound_lambertian; exact Gg].
    + apply in_map_iff in I. destruct I as ([c m'] & I & J). unfold marble_item in I. cbn [fst snd] in I. injection I as <- <-. rewrite Forall_forall in Fa. destruct (Fa _ J) as [Mm _]. cbn [snd] in Mm.
      split; [apply Solid_sphere; cbn; lra|apply marble_sound; exact Mm].
    + destruct I as [I|[I|[I|[]]]]; injection I as <- <-; (split; [apply Solid_sphere; cbn; lra|]).
      * apply marble_sound. constructor.
      * apply marble_sound. constructor. unfold unit_color; cbn; lra.
      * apply marble_sound. constructor. unfold unit_color; cbn; lra.
  - unfold nonneg3; cbn; lra.
  - intros K. injection K. lra.
  - unfold crossR, subR, zeroR; cbn. intros K. injection K. lra.
  - exists k, img. exact R.
Qed.
Lemma lights_shown : forall order s, l_min L < 1 / 1000 -> schedule 1800 1125 order -> good_state s ->
  exists k img, (forall fuel, (k <= fuel)%nat -> run (F:=X) (with_lights (F:=X)) fuel order s = Ok img) /\
    List.length img = Z.to_nat (4 * 1800 * 1125) /\ Forall byte img /\ forall i j d, (0 <= i < 1800)%Z -> (0 <= j < 1125)%Z -> nth (offset 1800 1125 i j 3) img d = 255%Z.
Proof.
  intros order s M So Gs. pose proof (l_min_pos L) as Mp.
  destruct (shown (with_lights (F:=X)) (1 / 100) (V3 (1 / 100) (1 / 50) (1 / 100)) (V3 26 3 6) (V3 0 2 0) (V3 0 1 0) 20 (8 / 5) 1125 order s) as (k & img & R); cbn [p_background p_from p_at p_up p_vfov p_aspect p_height p_width p_spp p_items with_lights]; auto; try lra; try lia.
  - rewrite (dec_red 1 100 (1 / 100)), (dec_red 2 100 (1 / 50)) by (try discriminate; lra). reflexivity.
  - apply dec16.
  - rewrite dec16. apply height_eq; [lra|field|lia].
  - intros o m I. unfold simple_light in I.
    rewrite (dec_red 8 10 (4 / 5)), (dec_red 2 10 (1 / 5)), (dec_red 4 10 (2 / 5)), (dec_red 9 10 (9 / 10)) in I by (try discriminate; lra).
    destruct I as [I|[I|[I|[]]]]; injection I as <- <-.
    + split; [apply (Solid_sphere (L:=L) (1 / 100) (Sphere (V3 0 (-1000) 0) 1000)); cbn; lra|].
      apply Sound_lambertian, (checker_good (L:=L) (V3 (4 / 5) 0 1) (V3 0 (4 / 5) 1)); unfold nonneg3; cbn; lra.
    + split; [apply (Solid_sphere (L:=L) (1 / 100) (Sphere (V3 0 2 0) 2)); cbn; lra|].
      apply Sound_metal, (solid_good (L:=L) (V3 (1 / 5) (2 / 5) (9 / 10))); unfold nonneg3; cbn; lra.
    + split; [apply (Solid_xy (L:=L) (1 / 100) (Rect 3 5 1 3 (-2))); cbn; lra|].
      apply Sound_light, (solid_good (L:=L) (V3 4 4 4)); unfold nonneg3; cbn; lra.
  - unfold nonneg3; cbn; lra.
  - intros K. injection K. lra.
  - unfold crossR, subR, zeroR; cbn. intros K. injection K. lra.
  - exists k, img. exact R.
Qed.
End Shows.

(** *** The tangent of half the angle of view *)
Lemma tan_above : forall x, 0 < x < PI / 2 -> x < tan x.
Proof.
  intros x Hx. assert (Hc : 0 < cos x) by (apply cos_gt_0; lra).
  assert (D : forall c, 0 <= c <= x -> derivable_pt_lim (fun y => sin y - y * cos y) c (c * sin c)).
  { intros c _. replace (c * sin c) with (cos c - (1 * cos c + c * (- sin c))) by ring.
    apply derivable_pt_lim_minus; [apply derivable_pt_lim_sin|]. apply (derivable_pt_lim_mult (fun y => y) cos); [apply derivable_pt_lim_id|apply derivable_pt_lim_cos]. }
  destruct (MVT_cor2 (fun y => sin y - y * cos y) (fun c => c * sin c) 0 x) as (c & E & Hc'); [lra|exact D|].
  rewrite sin_0, Rmult_0_l, !Rminus_0_r in E.
  assert (0 < sin c) by (apply sin_gt_0; lra).
  assert (0 < c * sin c * x) by (apply Rmult_lt_0_compat; [apply Rmult_lt_0_compat|]; lra).
  unfold tan. apply Rmult_lt_reg_r with (cos x); [exact Hc|]. replace (sin x / cos x * cos x) with (sin x) by (field; lra). lra.
Qed.
Lemma tan_ninth : 1 / 3 < tan (40 * PI / 360).
Proof.
  pose proof PI2_3_2 as P3. pose proof PI_RGT_0 as P0. replace (40 * PI / 360) with (PI / 9) by field. apply Rlt_trans with (PI / 9); [lra|]. apply tan_above. lra.
Qed.

(** *** The frames of ellipsoid_curvature.cpp *)
Section Frames.
Context {L : limits}.
Notation X := (XR L).

Lemma frame_from_eq : forall i, frame_from (F:=X) i = fin3 (eye i).
Proof.
  intros i. unfold frame_from. cbv zeta. change (nmul (NumOps:=X) (nmul (NumOps:=X) (nofZ (NumOps:=X) 2) (npi (NumOps:=X))) (nofZ (NumOps:=X) i)) with (Fin (2 * PI * IZR i)).
  change (nofZ (NumOps:=X) 360) with (Fin 360). cbn [ndiv XR]. rewrite xdiv_fin by lra. reflexivity.
Qed.
Lemma egg_eq : shown_ellipsoid (F:=X) = finellipsoid egg.
Proof. unfold shown_ellipsoid. rewrite (dec_red 195 100 (39 / 20)), (dec_red 15 10 (3 / 2)), (dec_red 25 10 (5 / 2)) by (try discriminate; lra). reflexivity. Qed.
Lemma eye_sq : forall i, vx (eye i) * vx (eye i) + vz (eye i) * vz (eye i) = 49.
Proof. intros i. unfold eye; cbn [vx vz]. pose proof (sin2_cos2 (2 * PI * IZR i / 360)) as T. unfold Rsqr in T. rewrite <- (Rmult_1_r 49), <- T. ring. Qed.
Lemma eye_off : forall i, eye i <> V3 0 0 0.
Proof. intros i E. pose proof (eye_sq i) as Q. rewrite E in Q. cbn in Q. lra. Qed.
Lemma eye_cross : forall i, crossR (V3 0 1 0) (subR (eye i) (V3 0 0 0)) <> zeroR.
Proof.
  intros i E. pose proof (eye_sq i) as Q. destruct (eye i) as [a b c]. unfold crossR, subR, zeroR in E; cbn [vx vy vz] in *. injection E as E1 E2 E3.
  assert (Hc : c = 0) by lra. assert (Ha : a = 0) by lra. rewrite Ha, Hc in Q. lra.
Qed.
Lemma frame_camera_eq : forall i, frame_camera (F:=X) i = make_camera (F:=X) (fin3 (eye i)) (fin3 (V3 0 0 0)) (fin3 (V3 0 1 0)) (Fin 40) (Fin (8 / 5)).
Proof. intros i. unfold frame_camera. rewrite frame_from_eq, dec16. reflexivity. Qed.

(** the ellipsoid lies within 5/2 of its axis and within 3/2 of the horizontal plane *)
Lemma egg_in : forall p, on_ellipsoid egg p -> vx p * vx p + vz p * vz p <= 25 / 4 /\ vy p * vy p <= 9 / 4.
Proof.
  intros [x y z] H. unfold on_ellipsoid, egg in H; cbn [el_center el_scales vx vy vz] in *.
  assert (E : (x - 0) / (39 / 20) * ((x - 0) / (39 / 20)) + (y - 0) / (3 / 2) * ((y - 0) / (3 / 2)) + (z - 0) / (5 / 2) * ((z - 0) / (5 / 2)) = 1) by (rewrite <- H; ring).
  replace ((x - 0) / (39 / 20) * ((x - 0) / (39 / 20))) with (400 / 1521 * (x * x)) in E by field.
  replace ((y - 0) / (3 / 2) * ((y - 0) / (3 / 2))) with (4 / 9 * (y * y)) in E by field.
  replace ((z - 0) / (5 / 2) * ((z - 0) / (5 / 2))) with (4 / 25 * (z * z)) in E by field.
  pose proof (Rle_0_sqr x). pose proof (Rle_0_sqr y). pose proof (Rle_0_sqr z). unfold Rsqr in *. lra.
Qed.
Lemma abs_by_sq : forall a b, 0 <= b -> a * a <= b * b -> - b <= a <= b.
Proof. intros a b Hb H. split; nra. Qed.

(** a camera that looks horizontally: its frame *)
Lemma level_frame : forall u v w : vec3 R, normsqR u = 1 -> normsqR v = 1 -> normsqR w = 1 -> dotR u w = 0 -> crossR u v = w -> vy u = 0 -> vy w = 0 -> 0 < vy v ->
  u = V3 (vz w) 0 (- vx w) /\ v = V3 0 1 0.
Proof.
  intros [u1 u2 u3] [v1 v2 v3] [w1 w2 w3]. unfold normsqR, dotR, crossR; cbn [vx vy vz]. intros Qu Qv Qw Uw C Hu Hw Hv. subst u2 w2. injection C as C1 C2 C3.
  set (e := u1 * w3 - u3 * w1).
  assert (E1 : u1 = e * w3) by (unfold e; replace u1 with (u1 * (w1 * w1 + 0 * 0 + w3 * w3)) at 1 by (rewrite Qw; ring); replace ((u1 * w3 - u3 * w1) * w3) with (u1 * w3 * w3 - w1 * (u3 * w3)) by ring; replace (u3 * w3) with (- (u1 * w1)) by lra; ring).
  assert (E3 : u3 = - (e * w1)) by (unfold e; replace u3 with (u3 * (w1 * w1 + 0 * 0 + w3 * w3)) at 1 by (rewrite Qw; ring); replace (- ((u1 * w3 - u3 * w1) * w1)) with (u3 * w1 * w1 - w3 * (u1 * w1)) by ring; replace (u1 * w1) with (- (u3 * w3)) by lra; ring).
  assert (Ee : e * e = 1) by (replace (e * e) with (e * e * (w1 * w1 + 0 * 0 + w3 * w3)) by (rewrite Qw; ring); rewrite E1, E3 in Qu; lra).
  assert (Ev : e * v2 = 1).
  { replace (e * v2) with (e * v2 * (w1 * w1 + 0 * 0 + w3 * w3)) by (rewrite Qw; ring). rewrite <- Qw. rewrite E1 in C3. rewrite E3 in C1.
    replace (e * v2 * (w1 * w1 + 0 * 0 + w3 * w3)) with ((0 * v3 - - (e * w1) * v2) * w1 + (e * w3 * v2 - 0 * v1) * w3) by ring. rewrite C1, C3. ring. }
  assert (He : e = v2) by (replace e with (e * (e * v2)) by (rewrite Ev; ring); replace (e * (e * v2)) with (e * e * v2) by ring; rewrite Ee; ring).
  assert (H1 : v2 = 1) by (rewrite He in Ee; nra). rewrite H1 in *. rewrite He in E1, E3. clear Ev Ee He. clearbody e.
  assert (v1 = 0 /\ v3 = 0) as [-> ->] by (split; nra).
  split; apply V3_ext; cbn [vx vy vz]; try rewrite E1; try rewrite E3; ring.
Qed.
(** every point of the ellipsoid is in every picture, ahead of the camera *)
Lemma frame_shows : forall i p, on_ellipsoid egg p -> exists s t k, 0 <= s <= 1 /\ 0 <= t <= 1 /\ 0 < k /\
  exists d, get_ray (F:=X) (frame_camera (F:=X) i) (Fin s) (Fin t) = Ray (fin3 (eye i)) (fin3 d) /\ p = addR (eye i) (scaleR k d).
Proof.
  intros i p H. rewrite frame_camera_eq.
  destruct (camera_frame (L:=L) (eye i) (V3 0 0 0) (V3 0 1 0) 40 (8 / 5) (eye_off i) (eye_cross i) ltac:(lra)) as (u & v & w & Nu & Nv & Nw & Uv & Uw & Vw & Cr & (k' & Hk' & Ew) & Uup & Vup & G).
  pose proof (egg_in p H) as [Hxz Hy]. pose proof (eye_sq i) as Q. pose proof tan_ninth as T. set (h := tan (40 * PI / 360)) in *.
  pose proof (unit_normsq _ Nu) as Qu. pose proof (unit_normsq _ Nv) as Qv. pose proof (unit_normsq _ Nw) as Qw.
  assert (Ey : vy (eye i) = 0) by reflexivity.
  destruct (level_frame u v w Qu Qv Qw Uw Cr) as [Eu Ev].
  { unfold dotR in Uup; cbn [vx vy vz] in Uup. lra. }
  { rewrite Ew. unfold scaleR, subR; cbn [vx vy vz]. rewrite Ey. ring. }
  { unfold dotR in Vup; cbn [vx vy vz] in Vup. lra. }
  assert (K7 : k' * 7 = 1).
  { rewrite Ew in Qw. unfold normsqR, dotR, scaleR, subR in Qw; cbn [vx vy vz] in Qw. rewrite Ey in Qw.
    assert ((k' * 7) * (k' * 7) = 1) by (rewrite <- Qw; replace (k' * 7 * (k' * 7)) with (k' * k' * 49) by ring; rewrite <- Q; ring). nra. }
  assert (Ee : eye i = scaleR 7 w).
  { rewrite Ew. unfold scaleR, subR; cbn [vx vy vz]. destruct (eye i) as [e1 e2 e3]; cbn [vx vy vz]. apply V3_ext; rewrite <- Rmult_assoc, (Rmult_comm 7 k'), K7; ring. }
  assert (Wy : vy w = 0) by (rewrite Ew; unfold scaleR, subR; cbn [vx vy vz]; rewrite Ey; ring).
  clear Ew Cr Uv Uw Vw Uup Vup Nu Nv Nw Qu Qv Q Ey. rewrite Ee in *. rewrite Eu, Ev in G. clear Eu Ev Ee.
  destruct p as [x y z], w as [a b c]; unfold normsqR, dotR in Qw; cbn [vx vy vz] in *. subst b.
  assert (Sq : (x * c - z * a) * (x * c - z * a) + (x * a + z * c) * (x * a + z * c) <= 25 / 4).
  { replace ((x * c - z * a) * (x * c - z * a) + (x * a + z * c) * (x * a + z * c)) with ((x * x + z * z) * (a * a + 0 * 0 + c * c)) by ring. rewrite Qw. lra. }
  set (m := x * c - z * a) in *. set (n := x * a + z * c) in *. pose proof (Rle_0_sqr m) as Sm. pose proof (Rle_0_sqr n) as Sn. unfold Rsqr in *.
  assert (Bn : - (5 / 2) <= n <= 5 / 2) by (apply abs_by_sq; lra).
  assert (By : - (3 / 2) <= y <= 3 / 2) by (apply abs_by_sq; lra).
  assert (Bm : - (8 / 15 * (7 - n)) <= m <= 8 / 15 * (7 - n)).
  { apply abs_by_sq; [lra|]. nra. }
  set (k := 7 - n). assert (Hk : 9 / 2 <= k) by (unfold k; lra).
  assert (Bm2 : - (8 / 5 * h * k) <= m <= 8 / 5 * h * k) by (fold k in Bm; nra).
  assert (By2 : - (h * k) <= y <= h * k) by nra.
  assert (Hp : 0 < h * k) by (apply Rmult_lt_0_compat; lra).
  exists (1 / 2 + m / (2 * (8 / 5 * h * k))), (1 / 2 + y / (2 * (h * k))), k.
  assert (Frac : forall q r, 0 < r -> - r <= q <= r -> 0 <= 1 / 2 + q / (2 * r) <= 1).
  { intros q r Hr Hq. assert (- (1 / 2) <= q / (2 * r) <= 1 / 2); [|lra]. split; [apply Rmult_le_reg_r with (2 * r); [lra|]|apply Rmult_le_reg_r with (2 * r); [lra|]]; replace (q / (2 * r) * (2 * r)) with q by (field; lra); lra. }
  split; [apply Frac; [lra|exact Bm2]|]. split; [apply Frac; [exact Hp|exact By2]|]. split; [lra|].
  eexists. split; [apply G|]. unfold addR, subR, scaleR; cbn [vx vy vz].
  replace (8 / 5 * h * (2 * (1 / 2 + m / (2 * (8 / 5 * h * k))) - 1)) with (m / k) by (field; lra).
  replace (h * (2 * (1 / 2 + y / (2 * (h * k))) - 1)) with (y / k) by (field; lra).
  apply V3_ext.
  - replace (7 * a + k * (m / k * c + y / k * 0 - a)) with (7 * a + m * c - k * a) by (field; lra). unfold k, m, n. replace x with (x * (a * a + 0 * 0 + c * c)) at 1 by (rewrite Qw; ring). ring.
  - field. lra.
  - replace (7 * c + k * (m / k * - a + y / k * 0 - c)) with (7 * c - m * a - k * c) by (field; lra). unfold k, m, n. replace z with (z * (a * a + 0 * 0 + c * c)) at 1 by (rewrite Qw; ring). ring.
Qed.
(** the lamp is behind the camera, away from the ellipsoid *)
Lemma frame_lamp_ok : forall i, l_min L < 1 -> exists o d lamp, frame_lamp (F:=X) i = Ok lamp /\ make_disk (F:=X) (Fin 10) (fin3 o) (fin3 d) = Ok lamp /\ normR d = 1 /\
  (forall p, on_disk o d 10 p -> 14 <= normR p) /\ (forall p, on_ellipsoid egg p -> normR p < 3).
Proof.
  intros i M. unfold frame_lamp. rewrite frame_camera_eq.
  destruct (backlight_correct (L:=L) (eye i) (V3 0 0 0) (V3 0 1 0) 40 (8 / 5) (eye_off i) (eye_cross i) ltac:(lra)) as (o & d & E & Eo & Nd & k & Hk & Ek).
  destruct (make_disk_ok (L:=L) 10 o d Nd M) as (e1 & e2 & _ & Ed). rewrite E. exists o, d. eexists. split; [exact Ed|]. split; [exact Ed|]. split; [exact Nd|].
  pose proof (eye_sq i) as Q. pose proof (unit_normsq d Nd) as Qd. assert (Ey : vy (eye i) = 0) by reflexivity. split.
  - intros p [Pl _]. destruct (eye i) as [a b c], o as [o1 o2 o3], d as [d1 d2 d3], p as [p1 p2 p3]. unfold normsqR, dotR, addR, scaleR, subR in *; cbn [vx vy vz] in *. injection Eo as O1 O2 O3. injection Ek as K1 K2 K3.
    assert (A1 : k * d1 = - a) by lra. assert (A2 : k * d2 = - b) by lra. assert (A3 : k * d3 = - c) by lra.
    assert (Kk : k * k = 49).
    { replace (k * k) with (k * k * (d1 * d1 + d2 * d2 + d3 * d3)) by (rewrite Qd; ring). replace (k * k * (d1 * d1 + d2 * d2 + d3 * d3)) with ((k * d1) * (k * d1) + (k * d2) * (k * d2) + (k * d3) * (k * d3)) by ring. rewrite A1, A2, A3, Ey. lra. }
    assert (K7 : k = 7) by nra. subst k.
    assert (Dp : p1 * d1 + p2 * d2 + p3 * d3 = -14) by (assert (o1 = -14 * d1) by lra; assert (o2 = -14 * d2) by lra; assert (o3 = -14 * d3) by lra; subst o1 o2 o3; replace (p1 * d1 + p2 * d2 + p3 * d3) with ((p1 - -14 * d1) * d1 + (p2 - -14 * d2) * d2 + (p3 - -14 * d3) * d3 - 14 * (d1 * d1 + d2 * d2 + d3 * d3)) by ring; rewrite Pl, Qd; ring).
    unfold normR. rewrite <- (sqrt_square 14) by lra. apply sqrt_le_1_alt. unfold normsqR, dotR; cbn [vx vy vz].
    pose proof (Rle_0_sqr (p1 + 14 * d1)). pose proof (Rle_0_sqr (p2 + 14 * d2)). pose proof (Rle_0_sqr (p3 + 14 * d3)). unfold Rsqr in *.
    replace (p1 * p1 + p2 * p2 + p3 * p3) with ((p1 + 14 * d1) * (p1 + 14 * d1) + (p2 + 14 * d2) * (p2 + 14 * d2) + (p3 + 14 * d3) * (p3 + 14 * d3) - 28 * (p1 * d1 + p2 * d2 + p3 * d3) - 196 * (d1 * d1 + d2 * d2 + d3 * d3)) by ring.
    rewrite Dp, Qd. lra.
  - intros p Hp. destruct (egg_in p Hp) as [H1 H2]. unfold normR. rewrite <- (sqrt_square 3) by lra. apply sqrt_lt_1_alt. unfold normsqR, dotR. pose proof (Rle_0_sqr (vx p)). pose proof (Rle_0_sqr (vy p)). pose proof (Rle_0_sqr (vz p)). unfold Rsqr in *. lra.
Qed.
Lemma frame_shown : forall tex i order s, l_min L < 1 / 1000 -> good_texture tex -> schedule 1200 750 order -> good_state s ->
  exists p k img, frame_program (F:=X) tex i = Ok p /\ (forall fuel, (k <= fuel)%nat -> run (F:=X) p fuel order s = Ok img) /\
    List.length img = Z.to_nat (4 * 1200 * 750) /\ Forall byte img /\ forall i j d, (0 <= i < 1200)%Z -> (0 <= j < 750)%Z -> nth (offset 1200 750 i j 3) img d = 255%Z.
Proof.
  intros tex i order s M Gt So Gs. pose proof (l_min_pos L) as Mp. destruct (frame_lamp_ok i ltac:(lra)) as (o & d & lamp & El & Em & Nd & _).
  unfold frame_program. rewrite El. unfold omap. cbn [obind].
  match goal with |- context [Ok ?q = Ok _] => exists q; destruct (shown q (1 / 100) (V3 0 0 0) (eye i) (V3 0 0 0) (V3 0 1 0) 40 (8 / 5) 750 order s) as (k & img & R);
    cbn [p_background p_from p_at p_up p_vfov p_aspect p_height p_width p_spp p_items]; auto; try lra; try lia end.
  - apply frame_from_eq.
  - apply dec16.
  - rewrite dec16. apply height_eq; [lra|field|lia].
  - intros ob m [I|[I|[]]]; injection I as <- <-.
    + rewrite egg_eq. split; [apply Solid_ellipsoid with (5 / 2); cbn; lra|apply Sound_lambertian; exact Gt].
    + split; [apply (Solid_disk (L:=L) (1 / 100) 10 o d lamp); [lra|exact Nd|exact Em]|]. apply Sound_light, (solid_good (L:=L) (V3 1 1 1)). unfold nonneg3; cbn; lra.
  - unfold nonneg3; cbn; lra.
  - apply eye_off.
  - apply eye_cross.
  - exists k, img. split; [reflexivity|exact R].
Qed.
Lemma inv_rt2 : ndiv (NumOps:=X) (nofZ (NumOps:=X) 1) (nsqrt (NumOps:=X) (nofZ (NumOps:=X) 2)) = Fin (1 / sqrt 2).
Proof. cbn [nofZ ndiv nsqrt XR]. rewrite xsqrt_fin by lra. apply xdiv_fin. pose proof (sqrt_lt_R0 2 ltac:(lra)). lra. Qed.
Lemma disk_shown : forall tex order s, l_min L < 1 / 1000 -> good_texture tex -> schedule 800 800 order -> good_state s ->
  exists p k img, disk_program (F:=X) tex = Ok p /\ (forall fuel, (k <= fuel)%nat -> run (F:=X) p fuel order s = Ok img) /\
    List.length img = Z.to_nat (4 * 800 * 800) /\ Forall byte img /\ forall i j d, (0 <= i < 800)%Z -> (0 <= j < 800)%Z -> nth (offset 800 800 i j 3) img d = 255%Z.
Proof.
  intros tex order s M Gt So Gs. pose proof (l_min_pos L) as Mp.
  assert (N : V3 0 (-4) 2 <> V3 0 0 0) by (intros K; injection K; lra).
  assert (C : crossR (V3 0 0 1) (subR (V3 0 (-4) 2) (V3 0 0 0)) <> zeroR) by (unfold crossR, subR, zeroR; cbn; intros K; injection K; lra).
  destruct (backlight_correct (L:=L) (V3 0 (-4) 2) (V3 0 0 0) (V3 0 0 1) 40 1 N C ltac:(lra)) as (o & d & E & _ & Nd & _).
  assert (Nn : normR (V3 (1 / sqrt 2) 0 (- (1 / sqrt 2))) = 1).
  { apply normR_unit. unfold normsqR, dotR; cbn [vx vy vz]. pose proof (sqrt_lt_R0 2 ltac:(lra)) as S2. pose proof (sqrt_sqrt 2 ltac:(lra)) as Q2. replace (1 / sqrt 2 * (1 / sqrt 2) + 0 * 0 + - (1 / sqrt 2) * - (1 / sqrt 2)) with (2 / (sqrt 2 * sqrt 2)) by (field; lra). rewrite Q2. field. }
  destruct (make_disk_ok (L:=L) 10 o d Nd ltac:(lra)) as (e1 & e2 & _ & Ed).
  destruct (make_disk_ok (L:=L) 1 (V3 0 0 0) (V3 (1 / sqrt 2) 0 (- (1 / sqrt 2))) Nn ltac:(lra)) as (f1 & f2 & _ & Ek).
  unfold disk_program. rewrite inv_rt2. cbv zeta.
  change (make_camera (F:=X) (V3 (nofZ (NumOps:=X) 0) (nofZ (NumOps:=X) (-4)) (nofZ (NumOps:=X) 2)) (V3 (nofZ (NumOps:=X) 0) (nofZ (NumOps:=X) 0) (nofZ (NumOps:=X) 0)) (V3 (nofZ (NumOps:=X) 0) (nofZ (NumOps:=X) 0) (nofZ (NumOps:=X) 1)) (nofZ (NumOps:=X) 40) (nofZ (NumOps:=X) 1))
    with (make_camera (F:=X) (fin3 (V3 0 (-4) 2)) (fin3 (V3 0 0 0)) (fin3 (V3 0 0 1)) (Fin 40) (Fin 1)).
  rewrite E.
  change (make_disk (F:=X) (nofZ (NumOps:=X) 1) (V3 (nofZ (NumOps:=X) 0) (nofZ (NumOps:=X) 0) (nofZ (NumOps:=X) 0)) (V3 (Fin (1 / sqrt 2)) (nofZ (NumOps:=X) 0) (nneg (NumOps:=X) (Fin (1 / sqrt 2)))))
    with (make_disk (F:=X) (Fin 1) (fin3 (V3 0 0 0)) (fin3 (V3 (1 / sqrt 2) 0 (- (1 / sqrt 2))))).
  rewrite Ek. change (nofZ (NumOps:=X) 10) with (Fin 10). rewrite Ed. unfold omap. cbn [obind].
  match goal with |- context [Ok ?q = Ok _] => exists q; destruct (shown q (1 / 100) (V3 0 0 0) (V3 0 (-4) 2) (V3 0 0 0) (V3 0 0 1) 40 1 800 order s) as (k & img & R);
    cbn [p_background p_from p_at p_up p_vfov p_aspect p_height p_width p_spp p_items]; auto; try lra; try lia end.
  - cbn [nofZ ndiv XR]. rewrite xdiv_fin by lra. replace (800 / 1) with 800 by field. apply to_int64_IZR. lia.
  - intros ob m [I|[I|[]]]; injection I as <- <-.
    + split; [eapply Solid_disk; [|exact Nn|exact Ek]; lra|apply Sound_lambertian; exact Gt].
    + split; [eapply Solid_disk; [|exact Nd|exact Ed]; lra|]. apply Sound_light, (solid_good (L:=L) (V3 5 5 5)). unfold nonneg3; cbn; lra.
  - unfold nonneg3; cbn; lra.
  - exists k, img. split; [reflexivity|exact R].
Qed.
End Frames.
