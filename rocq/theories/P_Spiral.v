(** The margins of the picture of helicoid.cpp. *)
From Coq Require Import Reals ZArith Lra Lia List Bool.
From Verif Require Import Spec_Random Num XR Spec Spec_Scene Spec_Light Spec_Shapes Spec_Image Spec_World Spec_Shades M_Vec M_Roots M_Rng M_Hittable M_Materials M_Shapes M_Surfaces M_Image M_World M_Programs
  P_Vec P_Rng P_Quadratic P_Flat P_Cylinder P_List P_Camera P_Light P_Path P_Render P_World P_Fractal P_Maps P_Programs P_Shades P_Can.
Import ListNotations.
Local Open Scope R_scope.

Section Spiral.
Context {L : limits}.
Notation X := (XR L).
Hypothesis M : l_min L < 1 / 1000.
Definition spiral_camera : camera (F:=X) := make_camera (F:=X) (fin3 (V3 0 (-4) 0)) (fin3 (V3 0 0 0)) (fin3 (V3 0 1 1)) (Fin 40) (Fin 1).
Definition spiral_ray (s t : R) : ray R := Ray (V3 0 (-4) 0) (V3 (tan20 * (2 * s - 1)) 1 (tan20 * (2 * t - 1))).
Lemma spiral_off : V3 0 (-4) 0 <> V3 0 0 0.
Proof. intros Q. injection Q. intros. lra. Qed.
Lemma spiral_cross : crossR (V3 0 1 1) (subR (V3 0 (-4) 0) (V3 0 0 0)) <> zeroR.
Proof. unfold crossR, subR, zeroR; cbn [vx vy vz]. intros Q. injection Q. intros. lra. Qed.
Lemma spiral_rays : forall s t, get_ray (F:=X) spiral_camera (Fin s) (Fin t) = finray (spiral_ray s t).
Proof.
  destruct (camera_frame (L:=L) (V3 0 (-4) 0) (V3 0 0 0) (V3 0 1 1) 40 1) as (u & v & w & Nu & Nv & Nw & Uv & Uw & Vw & Cr & (k & Hk & Ew) & Uup & Vup & E); [exact spiral_off|exact spiral_cross|lra|].
  pose proof (unit_normsq u Nu) as Nu2. pose proof (unit_normsq w Nw) as Nw2. pose proof (unit_normsq v Nv) as Nv2.
  destruct u as [ux uy uz], v as [v1 v2 v3], w as [w1 w2 w3]. unfold normsqR, dotR, crossR, scaleR, subR in *; cbn [vx vy vz] in *.
  injection Ew as W1 W2 W3. injection Cr as C1 C2 C3. assert (H2 : w2 + ux * v3 - uz * v1 = 0) by lra. clear C1 C2 C3.
  assert (Z1 : w1 = 0) by lra. assert (Z3 : w3 = 0) by lra. assert (Z2 : w2 < 0) by lra. clear W1 W2 W3. subst w1 w3. assert (w2 = -1) by nra. subst w2.
  assert (uy = 0) by lra. subst uy. assert (uz = 0) by lra. subst uz. assert (v2 = 0) by lra. subst v2.
  assert (v1 = 0) by nra. subst v1. assert (0 < v3) by lra. assert (v3 = 1) by nra. subst v3. assert (ux = 1) by lra. subst ux.
  intros s t. unfold spiral_camera. rewrite E. unfold finray, spiral_ray; cbn [r_orig r_dir]. f_equal. f_equal. apply V3_ext; unfold subR, addR, scaleR; cbn [vx vy vz]; ring.
Qed.

(** rays past the cylinder *)
Section Past.
Variables A B : R.
Hypothesis Past : 1 / 15 < A * A.
Notation r := (finray (Ray (V3 0 (-4) 0) (V3 A 1 B))).
Lemma no_roots : quadratic_roots (F:=X) (Fin (A * A + 1 * 1)) (Fin (2 * (0 * A + -4 * 1))) (Fin (0 * 0 + -4 * -4 - 1 * 1)) = [].
Proof.
  destruct (quadratic_roots_set L (A * A + 1 * 1) (2 * (0 * A + -4 * 1)) (0 * 0 + -4 * -4 - 1 * 1)) as (l & E & _ & _ & Z).
  { right. rewrite Rabs_pos_eq; lra. } { right. rewrite Rabs_left; lra. } { lra. }
  destruct l as [|x l]; [exact E|exfalso]. assert (Q : quadR (A * A + 1 * 1) (2 * (0 * A + -4 * 1)) (0 * 0 + -4 * -4 - 1 * 1) x = 0) by (apply Z; left; reflexivity).
  unfold quadR in Q. assert (S1 : 0 <= (x - 15 / 4) * (x - 15 / 4)) by apply Rle_0_sqr.
  assert (X0 : 0 < x * x) by (destruct (Req_dec x 0) as [->|]; [lra|nra]). assert (0 < (A * A - 1 / 15) * (x * x)) by (apply Rmult_lt_0_compat; lra). lra.
Qed.
Lemma past_helicoid : forall lo hi rec, hit (of_helicoid (F:=X) (Helicoid (Fin 1) (Fin 3))) r lo hi rec = Ok (false, rec).
Proof.
  intros lo hi rec. cbn [hit of_helicoid]. unfold helicoid_hit, helicoid_window.
  cbn [finray fin3 map3 r_orig r_dir vx vy vz he_radius he_speed]. xred. rewrite Rltb_true by lra. rewrite no_roots. reflexivity.
Qed.
Lemma past_cylinder : forall lo hi rec z0 z1, hit (of_cylinder (F:=X) (Cylinder (Fin 1) z0 z1)) r lo hi rec = Ok (false, rec).
Proof.
  intros lo hi rec z0 z1. cbn [hit of_cylinder]. unfold cylinder_hit. cbn [finray fin3 map3 r_orig r_dir vx vy vz c_radius]. xred. rewrite no_roots. reflexivity.
Qed.
End Past.

(** the lamps at the sides *)
Lemma side_lamp : forall c, Rabs c = 8 -> exists lamp, make_disk (F:=X) (Fin 10) (fin3 (V3 c 0 0)) (fin3 (V3 1 0 0)) = Ok lamp /\
  forall A B a (hi : xr) (rec : hit_record xr), Rabs A < 2 / 5 -> hi <> NaN -> 0 <= a -> hit (of_disk (F:=X) lamp) (finray (Ray (V3 0 (-4) 0) (V3 A 1 B))) (Fin a) hi rec = Ok (false, rec).
Proof.
  intros c Hc. destruct (make_disk_ok (L:=L) 10 (V3 c 0 0) (V3 1 0 0)) as (e1 & e2 & Fr & E).
  { unfold normR, normsqR, dotR; cbn [vx vy vz]. replace (1 * 1 + 0 * 0 + 0 * 0) with 1 by ring. apply sqrt_1. } { lra. }
  eexists. split; [exact E|]. intros A B a hi rec HA Hh Ha.
  destruct (disk_contract (L:=L) 10 (V3 c 0 0) e1 e2 (V3 1 0 0) (Ray (V3 0 (-4) 0) (V3 A 1 B)) ltac:(lra) Fr) as [C Q].
  destruct (C (Fin a) hi rec ltac:(discriminate) Hh) as (b & rec' & Eh & H). destruct b.
  - exfalso. destruct H as (t & _ & (_ & Pl & Ds) & [W _] & _). cbn in W.
    unfold pointR, lineR, dotR, subR, addR, scaleR in Pl. cbn [r_orig r_dir vx vy vz] in Pl.
    assert (At : t * A = c) by lra.
    assert (T : 20 <= t). { assert (Rabs (t * A) = 8) by (rewrite At; exact Hc). rewrite Rabs_mult, (Rabs_pos_eq t) in H by lra. nra. }
    unfold distR, normR in Ds. apply Rsqr_incr_1 in Ds; [|apply sqrt_pos|lra]. unfold Rsqr in Ds. rewrite sqrt_sqrt in Ds by apply normsqR_nonneg.
    unfold normsqR, dotR, pointR, lineR, subR, addR, scaleR in Ds. cbn [r_orig r_dir vx vy vz] in Ds. nra.
  - rewrite Eh. rewrite (Q _ _ _ _ Eh). reflexivity.
Qed.

(** the columns left and right of the cylinder *)
Lemma columns : forall i x, (0 <= i < 1200)%Z -> tick x -> let A := tan20 * (2 * ((IZR i + x) / IZR (1200 - 1)) - 1) in Rabs A < 2 / 5 /\ ((i <= 173)%Z \/ (1025 <= i)%Z -> 1 / 15 < A * A).
Proof.
  intros i x Hi Tx. destruct (tick_bounds x Tx) as [X0 X1]. pose proof tan20_below. pose proof tan20_above. destruct tan20_cubic as [[T0 _] _]. change (1200 - 1)%Z with 1199%Z. cbv zeta.
  assert (0 <= IZR i <= 1199) by (split; apply IZR_le; lia). set (m := 2 * ((IZR i + x) / 1199) - 1).
  assert (Mb : Rabs m <= 1201 / 1199) by (apply Rabs_le; unfold m; lra). split.
  - rewrite Rabs_mult, (Rabs_pos_eq tan20) by lra. apply Rle_lt_trans with (tan20 * (1201 / 1199)); [apply Rmult_le_compat_l; lra|]. lra.
  - intros Out. assert (Mo : 70959 / 100000 < Rabs m).
    { unfold m. destruct Out as [O|O]; [rewrite Rabs_left|rewrite Rabs_pos_eq]; apply IZR_le in O; lra. }
    replace (tan20 * m * (tan20 * m)) with (tan20 * tan20 * (Rabs m * Rabs m)) by (rewrite <- Rabs_mult, (Rabs_pos_eq (m * m)) by (apply Rle_0_sqr); ring).
    assert (3639 / 10000 * (3639 / 10000) <= tan20 * tan20) by (apply Rmult_le_compat; lra). assert (70959 / 100000 * (70959 / 100000) <= Rabs m * Rabs m) by (apply Rmult_le_compat; lra).
    assert (3639 / 10000 * (3639 / 10000) * (70959 / 100000 * (70959 / 100000)) <= tan20 * tan20 * (Rabs m * Rabs m)) by (apply Rmult_le_compat; lra). lra.
Qed.
Lemma spiral_program : forall tex, exists p, helicoid_program (F:=X) tex = Ok p /\ p_width p = 1200%Z /\ p_height p = Ok 1200%Z /\ p_spp p = 512%nat /\ p_background p = fin3 (V3 0 0 0) /\
  (forall s t, get_ray (F:=X) (p_camera p) (Fin s) (Fin t) = finray (spiral_ray s t)) /\
  (* no lamp is seen directly *)
  (exists lamps, skipn 2 (p_items p) = map (fun k => (of_disk (F:=X) k, light (F:=X) (fin3 (V3 1 1 1)))) lamps /\ length lamps = 3%nat /\
    forall i j x y k a hi rec, (0 <= i < 1200)%Z -> (0 <= j < 1200)%Z -> tick x -> tick y -> In k lamps -> 0 <= a -> hi <> NaN ->
      hit (of_disk (F:=X) k) (get_ray (F:=X) (p_camera p) (Fin ((IZR i + x) / IZR (1200 - 1))) (Fin ((IZR j + y) / IZR (1200 - 1)))) (Fin a) hi rec = Ok (false, rec)) /\
  (* black margins *)
  forall fuel i j x y depth w, (0 <= i < 1200)%Z -> (i <= 173)%Z \/ (1025 <= i)%Z -> (0 <= j < 1200)%Z -> tick x -> tick y ->
    ray_color (F:=X) (world_hit (F:=X) (p_scene p)) (scatter (F:=X) fuel) (emitted (F:=X)) (S depth) w (get_ray (F:=X) (p_camera p) (Fin ((IZR i + x) / IZR (1200 - 1))) (Fin ((IZR j + y) / IZR (1200 - 1)))) (p_background p) = Ok (fin3 (V3 0 0 0), drop_junk w).
Proof.
  intros tex. pose proof (l_min_pos L) as Mp.
  destruct (backlight_hidden L (V3 0 (-4) 0) (V3 0 0 0) (V3 0 1 1) 40 1 10 spiral_off spiral_cross ltac:(lra) ltac:(lra) ltac:(lra)) as (k1 & E1 & H1). fold spiral_camera in E1, H1.
  destruct (side_lamp 8 ltac:(apply Rabs_pos_eq; lra)) as (k2 & E2 & H2). destruct (side_lamp (-8) ltac:(rewrite Rabs_left; lra)) as (k3 & E3 & H3).
  assert (E : exists p, helicoid_program (F:=X) tex = Ok p /\ p_width p = 1200%Z /\ p_height p = Ok 1200%Z /\ p_spp p = 512%nat /\ p_background p = fin3 (V3 0 0 0) /\ p_camera (F:=X) p = spiral_camera /\
    exists z0 z1 e, p_items p = [(of_helicoid (F:=X) (Helicoid (Fin 1) (Fin 3)), Lambertian (F:=X) tex); (of_cylinder (F:=X) (Cylinder (Fin 1) z0 z1), Dielectric (F:=X) (Fin 1) e);
      (of_disk (F:=X) k1, light (F:=X) (fin3 (V3 1 1 1))); (of_disk (F:=X) k2, light (F:=X) (fin3 (V3 1 1 1))); (of_disk (F:=X) k3, light (F:=X) (fin3 (V3 1 1 1)))]).
  { unfold helicoid_program. change (make_camera (F:=X) _ _ _ _ _) with spiral_camera. destruct (backlight (F:=X) spiral_camera) as [o d]. cbn [fst snd] in E1.
    change (make_disk (F:=X) (nofZ (NumOps:=X) 10) o d) with (make_disk (F:=X) (Fin 10) o d). rewrite E1. cbn [obind].
    match goal with |- context [obind ?e _] => change e with (make_disk (F:=X) (Fin 10) (fin3 (V3 8 0 0)) (fin3 (V3 1 0 0))) end. rewrite E2. cbn [obind].
    match goal with |- context [omap _ ?e] => change e with (make_disk (F:=X) (Fin 10) (fin3 (V3 (-8) 0 0)) (fin3 (V3 1 0 0))) end. rewrite E3. unfold omap. cbn [obind].
    eexists. split; [reflexivity|]. cbn [p_width p_height p_spp p_background p_items]. split; [reflexivity|]. split.
    - cbn [nofZ ndiv XR]. rewrite xdiv_fin by lra. replace (1200 / 1) with (IZR 1200) by lra. apply to_int64_IZR. lia.
    - split; [reflexivity|]. split; [reflexivity|]. split; [reflexivity|]. eexists _, _, _. reflexivity. }
  destruct E as (p & E & Ew & Eh & Es & Eb & Ec & z0 & z1 & e & Ei). exists p. split; [exact E|]. split; [exact Ew|]. split; [exact Eh|]. split; [exact Es|]. split; [exact Eb|].
  split; [intros s t; rewrite Ec; apply spiral_rays|].
  assert (Dark : forall i j x y k a hi rec, (0 <= i < 1200)%Z -> tick x -> In k [k1; k2; k3] -> 0 <= a -> hi <> NaN ->
      hit (of_disk (F:=X) k) (get_ray (F:=X) spiral_camera (Fin ((IZR i + x) / IZR (1200 - 1))) (Fin ((IZR j + y) / IZR (1200 - 1)))) (Fin a) hi rec = Ok (false, rec)).
  { intros i j x y k a hi rec Hi Tx [<-|[<-|[<-|[]]]] Ha Hh.
    - apply H1; assumption.
    - rewrite spiral_rays. apply H2; auto. apply (columns i x Hi Tx).
    - rewrite spiral_rays. apply H3; auto. apply (columns i x Hi Tx). }
  split.
  - exists [k1; k2; k3]. rewrite Ei. split; [reflexivity|]. split; [reflexivity|]. intros i j x y k a hi rec Hi Hj Tx Ty K Ha Hh. rewrite Ec. apply Dark; auto.
  - intros fuel i j x y depth w Hi Out Hj Tx Ty. rewrite Ec, Eb. destruct (columns i x Hi Tx) as [_ Past]. specialize (Past Out).
    set (lo := nmul (NumOps:=X) (nofZ (NumOps:=X) 1000) (neps (NumOps:=X))).
    assert (Lo : lo = Fin (1000 * l_eps L)) by reflexivity. pose proof (l_eps_pos L) as Ep.
    set (r := get_ray (F:=X) spiral_camera (Fin ((IZR i + x) / IZR (1200 - 1))) (Fin ((IZR j + y) / IZR (1200 - 1)))).
    assert (Er : r = finray (spiral_ray ((IZR i + x) / IZR (1200 - 1)) ((IZR j + y) / IZR (1200 - 1)))) by apply spiral_rays.
    assert (G : forall rec, hit (of_helicoid (F:=X) (Helicoid (Fin 1) (Fin 3))) r lo PInf rec = Ok (false, rec)) by (intros rec; rewrite Er; apply past_helicoid; exact Past).
    assert (G' : forall rec, hit (of_cylinder (F:=X) (Cylinder (Fin 1) z0 z1)) r lo PInf rec = Ok (false, rec)) by (intros rec; rewrite Er; apply past_cylinder; exact Past).
    assert (D : forall k rec, In k [k1; k2; k3] -> hit (of_disk (F:=X) k) r lo PInf rec = Ok (false, rec)) by (intros k rec K; rewrite Lo; apply Dark; auto; [lra|discriminate]).
    assert (Wh : exists rec, world_hit (F:=X) (p_scene p) w r lo PInf = Ok (None, rec, drop_junk w)).
    { unfold world_hit. destruct (st_junk w 0%nat) as [temp0 rec0]. unfold p_scene. rewrite Ei. cbn [number fold_left]. unfold list_hit, add, empty_list. cbn [objects materials app list_loop].
      match goal with |- context [obind (hit ?o ?q ?a ?b ?t) _] => replace (hit o q a b t) with (@Ok (bool * hit_record xr) (false, t)) by (symmetry; apply G) end. cbn [obind].
      match goal with |- context [obind (hit ?o ?q ?a ?b ?t) _] => replace (hit o q a b t) with (@Ok (bool * hit_record xr) (false, t)) by (symmetry; apply G') end. cbn [obind].
      match goal with |- context [obind (hit ?o ?q ?a ?b ?t) _] => replace (hit o q a b t) with (@Ok (bool * hit_record xr) (false, t)) by (symmetry; apply D; cbn; auto) end. cbn [obind].
      match goal with |- context [obind (hit ?o ?q ?a ?b ?t) _] => replace (hit o q a b t) with (@Ok (bool * hit_record xr) (false, t)) by (symmetry; apply D; cbn; auto) end. cbn [obind].
      match goal with |- context [obind (hit ?o ?q ?a ?b ?t) _] => replace (hit o q a b t) with (@Ok (bool * hit_record xr) (false, t)) by (symmetry; apply D; cbn; auto) end. cbn [obind].
      eexists. reflexivity. }
    destruct Wh as [rec Wh]. cbn [ray_color]. fold lo. change (ninf (NumOps:=X)) with PInf. change (@num X) with xr in *. rewrite Wh. reflexivity.
Qed.
End Spiral.

Section Pixels.
Context {L : limits}.
Notation X := (XR L).
Lemma spiral_pixels : l_min L < 1 / 1000 -> forall tex, exists p, helicoid_program (F:=X) tex = Ok p /\
  forall fuel i j g w, (0 <= i < 1200)%Z -> (i <= 173)%Z \/ (1025 <= i)%Z -> (0 <= j < 1200)%Z ->
  exists g' w', pixel (F:=X) (world_hit (F:=X) (p_scene p)) (scatter (F:=X) fuel) (emitted (F:=X)) 1200 1200 (p_background p) (p_camera p) (p_spp p) i j g w = Ok ([0; 0; 0; 255]%Z, g', w').
Proof.
  intros M tex. destruct (spiral_program (L:=L) M tex) as (p & E & _ & _ & Es & Eb & _ & _ & R). exists p. split; [exact E|].
  intros fuel i j g w Hi Out Hj.
  assert (One : forall g w, exists g' w', sample (F:=X) (world_hit (F:=X) (p_scene p)) (scatter (F:=X) fuel) (emitted (F:=X)) 1200 1200 (p_background p) (p_camera p) i j g w = Ok (fin3 (V3 0 0 0), g', w')).
  { intros g0 w0. unfold sample. rewrite pcg_real_01_draw. rewrite pcg_real_01_draw. unfold pixel_u, pixel_v. cbn [nadd ndiv nofZ XR xadd]. rewrite !xdiv_fin by (apply not_0_IZR; lia).
    specialize (R fuel i j (draw g0) (draw (pcg_next g0)) 7%nat w0 Hi Out Hj (draw_tick _) (draw_tick _)). change (@num X) with xr in *. rewrite R. cbn [obind]. eexists _, _. reflexivity. }
  assert (All : forall n g w, exists g' w', samples (F:=X) (world_hit (F:=X) (p_scene p)) (scatter (F:=X) fuel) (emitted (F:=X)) 1200 1200 (p_background p) (p_camera p) n i j (fin3 (V3 0 0 0)) g w = Ok (fin3 (V3 0 0 0), g', w')).
  { induction n as [|n IH]; intros g0 w0; [eexists _, _; reflexivity|]. cbn [samples]. destruct (One g0 w0) as (g1 & w1 & E1). change (@num X) with xr in *. rewrite E1. cbn [obind]. rewrite vadd_fin.
    replace (addR (V3 0 0 0) (V3 0 0 0)) with (V3 0 0 0) by (unfold addR; cbn [vx vy vz]; apply V3_ext; ring). apply IH. }
  destruct (All (p_spp p) g w) as (g' & w' & Ea). exists g', w'. unfold pixel. change (V3 (nofZ (NumOps:=X) 0) (nofZ (NumOps:=X) 0) (nofZ (NumOps:=X) 0)) with (fin3 (V3 0 0 0)).
  change (@num X) with xr in *. rewrite Ea. cbn [obind]. rewrite Es. change (nofZ (NumOps:=X) (Z.of_nat 512)) with (Fin 512). rewrite vdiv_fin by lra.
  rewrite rgba_exact by (cbn [scaleR vx vy vz]; lra). cbn [obind scaleR vx vy vz]. replace (/ 512 * 0) with 0 by ring. cbn [map app]. change (Flocq.Core.Raux.Zfloor (255 * sqrt (Rmin 0 1))) with (shade 0). rewrite shade_0. reflexivity.
Qed.
(** rays in the middle column do meet the cylinder *)
Lemma spiral_seen : l_min L < 1 / 1000 -> forall tex, exists p r, helicoid_program (F:=X) tex = Ok p /\
  get_ray (F:=X) (p_camera p) (Fin ((IZR 599 + 1 / 2) / IZR (1200 - 1))) (Fin ((IZR 599 + 1 / 2) / IZR (1200 - 1))) = finray r /\ on_cylinder (Cylinder 1 (-3) 3) (pointR r 3).
Proof.
  intros M tex. destruct (spiral_program (L:=L) M tex) as (p & E & _ & _ & _ & _ & G & _). exists p, (spiral_ray ((IZR 599 + 1 / 2) / IZR (1200 - 1)) ((IZR 599 + 1 / 2) / IZR (1200 - 1))). split; [exact E|]. split; [apply G|].
  unfold spiral_ray. change (IZR (1200 - 1)) with 1199. replace ((599 + 1 / 2) / 1199) with (1 / 2) by field. unfold on_cylinder, pointR, lineR; cbn [r_orig r_dir vx vy vz c_radius c_zmin c_zmax addR scaleR]. 
  replace (2 * (1 / 2) - 1) with 0 by field. rewrite !Rmult_0_r. lra.
Qed.
End Pixels.

Section Stated.
Context {L : limits}.
Notation X := (XR L).
Lemma spiral_setup : l_min L < 1 / 1000 -> forall tex, exists p, helicoid_program (F:=X) tex = Ok p /\ p_width p = 1200%Z /\ p_height p = Ok 1200%Z /\ p_spp p = 512%nat /\
  forall s t, get_ray (F:=X) (p_camera p) (Fin s) (Fin t) = finray (Ray (V3 0 (-4) 0) (V3 (tan20 * (2 * s - 1)) 1 (tan20 * (2 * t - 1)))).
Proof. intros M tex. destruct (spiral_program (L:=L) M tex) as (p & E & W & H & N & _ & G & _). exists p. repeat (split; [assumption|]). exact G. Qed.
Lemma spiral_lamps : l_min L < 1 / 1000 -> forall tex, exists p solid glass lamps, helicoid_program (F:=X) tex = Ok p /\
  p_items p = solid :: glass :: map (fun k => (of_disk (F:=X) k, light (F:=X) (fin3 (V3 1 1 1)))) lamps /\ length lamps = 3%nat /\
  forall i j x y k a hi rec, (0 <= i < 1200)%Z -> (0 <= j < 1200)%Z -> tick x -> tick y -> In k lamps -> 0 <= a -> hi <> NaN ->
    hit (of_disk (F:=X) k) (get_ray (F:=X) (p_camera p) (Fin ((IZR i + x) / IZR (1200 - 1))) (Fin ((IZR j + y) / IZR (1200 - 1)))) (Fin a) hi rec = Ok (false, rec).
Proof.
  intros M tex. destruct (spiral_program (L:=L) M tex) as (p & E & _ & _ & _ & _ & _ & (lamps & I & N & Hh) & _).
  destruct (p_items p) as [|a [|b tl]] eqn:Ei; [destruct lamps; discriminate..|]. cbn [skipn] in I. exists p, a, b, lamps. split; [exact E|]. split; [rewrite Ei, I; reflexivity|]. split; [exact N|exact Hh].
Qed.
Lemma spiral_margins : l_min L < 1 / 1000 -> forall tex, exists p, helicoid_program (F:=X) tex = Ok p /\
  forall fuel i j x y depth w, (0 <= i < 1200)%Z -> (i <= 173)%Z \/ (1025 <= i)%Z -> (0 <= j < 1200)%Z -> tick x -> tick y ->
    ray_color (F:=X) (world_hit (F:=X) (p_scene p)) (scatter (F:=X) fuel) (emitted (F:=X)) (S depth) w (get_ray (F:=X) (p_camera p) (Fin ((IZR i + x) / IZR (1200 - 1))) (Fin ((IZR j + y) / IZR (1200 - 1)))) (p_background p) = Ok (fin3 (V3 0 0 0), drop_junk w).
Proof. intros M tex. destruct (spiral_program (L:=L) M tex) as (p & E & _ & _ & _ & _ & _ & _ & R). exists p. split; [exact E|exact R]. Qed.
End Stated.
