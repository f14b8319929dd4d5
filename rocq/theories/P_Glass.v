(** Rendering scenes with media, and the picture of ellipsoid.cpp. *)
From Coq Require Import String Reals ZArith Lra Lia List Bool Psatz.
From Flocq Require Import Core.
From Verif Require Import Spec_Random Num XR Spec Spec_Scene Spec_Light Spec_Shapes Spec_Image Spec_World Spec_Shades Spec_Fog M_Vec M_Roots M_Rng M_Hittable M_Materials M_Shapes M_Image M_World M_Programs M_Fog
  P_Vec P_Flat P_Maps P_Camera P_Light P_Path P_World P_Furnace P_Marbles P_Shows P_Shades P_Fog P_Can.
Import ListNotations.
Local Open Scope R_scope.

Lemma shade_byte : forall a, 0 <= a -> byte (shade a).
Proof.
  intros a Ha. unfold shade, byte. assert (M0 : 0 <= Rmin a 1) by (apply Rmin_glb; lra). pose proof (sqrt_pos (Rmin a 1)). pose proof (sqrt_sqrt _ M0) as Q.
  assert (sqrt (Rmin a 1) <= 1) by (apply Rle_trans with (sqrt 1); [apply sqrt_le_1_alt; exact (Rmin_r a 1)|rewrite sqrt_1; lra]).
  split; [apply Zfloor_lub; lra|]. apply Z.lt_succ_r, lt_IZR. pose proof (Zfloor_lb (255 * sqrt (Rmin a 1))). change (Z.succ 255) with 256%Z. lra.
Qed.
Lemma shade_mono : forall a b, a <= b -> (shade a <= shade b)%Z.
Proof.
  intros a b H. unfold shade. apply Zfloor_le. apply Rmult_le_compat_l; [lra|]. apply sqrt_le_1_alt. apply Rle_min_compat_r. exact H.
Qed.
Lemma total_pos : forall n c, total nonneg3 n c -> nonneg3 c.
Proof. intros n c H. induction H as [|n c d _ IH Hd]; unfold nonneg3, addR in *; cbn [vx vy vz] in *; lra. Qed.

(** a picture whose pixels are all known is a list of bytes *)
Lemma picture_bytes : forall width height img spp, (1 <= spp)%nat -> (0 <= height)%Z -> length img = Z.to_nat (4 * width * height) ->
  (forall i j, (0 <= i < width)%Z -> (0 <= j < height)%Z -> pixel_of width height img i j nonneg3 spp) ->
  Forall byte img /\ forall i j d, (0 <= i < width)%Z -> (0 <= j < height)%Z -> nth (offset width height i j 3) img d = 255%Z.
Proof.
  intros width height img spp Hs H0 Ln P. assert (S0 : 1 <= INR spp) by (apply (le_INR 1); exact Hs). assert (Q0 : 0 < / INR spp) by (apply Rinv_0_lt_compat; lra). split.
  - apply Forall_forall. intros z Hz. destruct (In_nth _ _ 0%Z Hz) as (n & Hn & Ez). rewrite Ln in Hn.
    destruct (P_Render.offset_onto width height H0 n Hn) as (i & j & c & (Ii & Ij & Ic) & ->).
    destruct (P i j Ii Ij) as (col & Tc & Nc). apply total_pos in Tc. destruct Tc as (? & ? & ?). rewrite Nc in Ez by exact Ic. rewrite <- Ez.
    assert (C : (c = 0 \/ c = 1 \/ c = 2 \/ c = 3)%Z) by lia. destruct C as [ -> |[ -> |[ -> | -> ]]]; [| | |change (0 <= 255 <= 255)%Z; lia]; cbn; apply shade_byte; apply Rmult_le_pos; lra.
  - intros i j d Ii Ij. destruct (P i j Ii Ij) as (col & Tc & Nc). rewrite Nc by lia. reflexivity.
Qed.

Section Glass.
Context {L : limits}.
Notation X := (XR L).

Lemma foggy_scene : forall (tol : R) (things : list (thing (F:=X) * material_ptr (F:=X))) (bg from at_ up : vec3 R) (vfov aspect : R) width height spp order (s : state (F:=X)),
  0 <= tol <= 1 / 8 -> l_min L < 1 / 4 -> (forall t m, In (t, m) things -> well_placed tol t (snd m)) -> nonneg3 bg ->
  from <> at_ -> crossR up (subR from at_) <> zeroR -> 0 < vfov < 180 -> (2 <= width)%Z -> (2 <= height)%Z -> (1 <= spp)%nat -> schedule width height order -> fair_state s ->
  exists k img, (forall fuel, (k <= fuel)%nat ->
    render_scene (F:=X) (fog_hit (F:=X) things) (scatter (F:=X) fuel) (emitted (F:=X)) width height (fin3 bg)
      (make_camera (F:=X) (fin3 from) (fin3 at_) (fin3 up) (Fin vfov) (Fin aspect)) spp order s = Ok img) /\
    length img = Z.to_nat (4 * width * height) /\ Forall byte img /\
    forall i j d, (0 <= i < width)%Z -> (0 <= j < height)%Z -> nth (offset width height i j 3) img d = 255%Z.
Proof.
  intros tol things bg from at_ up vfov aspect width height spp order s T M G B N C V W2 H2 Hs So Gs.
  destruct (fog_scene tol things T M G nonneg3 bg B) with (cam := make_camera (F:=X) (fin3 from) (fin3 at_) (fin3 up) (Fin vfov) (Fin aspect)) (width := width) (height := height) (spp := spp) (order := order) (s := s)
    as (k & img & R & Ln & P); auto.
  { unfold nonneg3; cbn; lra. }
  { intros t [j m] rec p Hin Ep. pose proof (G t _ Hin) as W. cbn [snd] in W.
    assert (Comb : forall e a, nonneg3 e -> nonneg3 a -> nonneg3 e /\ forall c, nonneg3 c -> nonneg3 (addR e (hadamardR c a))).
    { intros e a Ne Na. split; [exact Ne|]. intros c Nc. unfold nonneg3, addR, hadamardR in *; cbn [vx vy vz]. destruct Ne as (? & ? & ?), Nc as (? & ? & ?), Na as (? & ? & ?).
      repeat split; apply Rplus_le_le_0_compat; auto; apply Rmult_le_pos; auto. }
    assert (Z : nonneg3 (V3 0 0 0)) by (unfold nonneg3; cbn; lra). assert (O : nonneg3 (V3 1 1 1)) by (unfold nonneg3; cbn; lra).
    assert (TX : forall tex, good_texture tex -> exists e a, fin3 (V3 0 0 0) = fin3 e /\ tex rec = fin3 a /\ nonneg3 e /\ forall c, nonneg3 c -> nonneg3 (addR e (hadamardR c a))).
    { intros tex Gt. destruct (Gt rec p Ep) as (a & Ea & Na). exists (V3 0 0 0), a. split; [reflexivity|]. split; [exact Ea|]. apply Comb; assumption. }
    inversion W as [o m' S0 Sm|o d tex Cl Hd Gt]; subst.
    - destruct Sm as [tex Gt|tex Gt|ir em I0 I1 I2 Ge|em Ge|tex Gt]; unfold emitted, tint; cbn [snd]; try exact (TX tex Gt).
      + destruct (Ge rec p Ep) as (e & Ee & Ne). exists e, (V3 1 1 1). split; [exact Ee|]. split; [reflexivity|]. apply Comb; assumption.
      + destruct (Ge rec p Ep) as (e & Ee & Ne). exists e, (V3 0 0 0). split; [exact Ee|]. split; [reflexivity|]. apply Comb; assumption.
    - exact (TX tex Gt). }
  { intros u v. destruct (camera_long L from at_ up vfov aspect N C V u v) as (r & E & _ & D). exists r. auto. }
  exists k, img. split; [exact R|]. split; [exact Ln|]. apply picture_bytes with spp; auto. lia.
Qed.

(** *** ellipsoid.cpp *)
Definition stone : ellipsoid R := Ellipsoid (V3 260 250 45) (V3 210 (385 / 2) 140).
Lemma stone_eq : glass_ellipsoid (F:=X) = finellipsoid stone.
Proof.
  unfold glass_ellipsoid. rewrite (dec_red (L:=L) 35 10 (7 / 2)); [|lia|lra]. unfold finellipsoid, stone, fin3, map3; cbn [el_center el_scales vx vy vz nmul nofZ XR xmul]. f_equal. f_equal; f_equal; lra.
Qed.
Lemma dusk_pos : forall c, dusk c -> 0 <= vx c <= vy c /\ vy c <= vz c.
Proof.
  intros c [ -> |(n & -> )]; cbn [vx vy vz]; [lra|]. assert (0 <= (1 / 50) ^ n) by (apply pow_le; lra).
  assert ((1 / 50) ^ n <= (2 / 5) ^ n) by (apply pow_incr; lra). assert ((2 / 5) ^ n <= (9 / 10) ^ n) by (apply pow_incr; lra). lra.
Qed.
Lemma dusk_total : forall n c, total dusk n c -> 0 <= vx c <= vy c /\ vy c <= vz c.
Proof. intros n c H. induction H as [|n c d _ IH Hd]; [cbn; lra|]. apply dusk_pos in Hd. unfold addR; cbn [vx vy vz]. lra. Qed.

Hypothesis M : l_min L < 1 / 1000000.
Lemma glass_placed : forall t m, In (t, m) (glass_scene (F:=X)) -> well_placed (1 / 1000) t (snd m).
Proof.
  intros t m Hin. pose proof (l_min_pos L) as M0. unfold glass_scene in Hin. rewrite !stone_eq in Hin. rewrite (dec_red 15 10 (3 / 2)), (dec_red 15 1000 (3 / 200)), (dec_red 2 100 (1 / 50)), (dec_red 4 10 (2 / 5)), (dec_red 9 10 (9 / 10)) in Hin by (try discriminate; lra).
  destruct Hin as [E|[E|[E|[]]]]; injection E as <- <-; cbn [snd].
  - apply Placed_plain.
    + change (glass_lamp (F:=X)) with (of_xz (F:=X) (finrect (Rect 123 423 147 412 700))). apply Solid_xz; cbn; lra.
    + apply Sound_light. apply (solid_good (L:=L) (V3 7 7 7)). unfold nonneg3; cbn; lra.
  - apply Placed_plain.
    + apply Solid_ellipsoid with 210; cbn [stone el_scales vx vy vz]; lra.
    + unfold glass. apply Sound_dielectric; [lra|lra|lra|]. apply (solid_good (L:=L) (V3 0 0 0)). unfold nonneg3; cbn; lra.
  - apply Placed_fog; [apply Closed_ellipsoid with 210; cbn [stone el_scales vx vy vz]; lra|lra|]. apply (solid_good (L:=L) (V3 (1 / 50) (2 / 5) (9 / 10))). unfold nonneg3; cbn; lra.
Qed.
Lemma glass_dyes : forall t m rec p, In (t, m) (glass_scene (F:=X)) -> h_p rec = fin3 p ->
  exists e a, emitted (F:=X) m rec = fin3 e /\ tint (F:=X) m rec = fin3 a /\ dusk e /\ forall c, dusk c -> dusk (addR e (hadamardR c a)).
Proof.
  intros t m rec p Hin _. unfold glass_scene in Hin. rewrite (dec_red 2 100 (1 / 50)), (dec_red 4 10 (2 / 5)), (dec_red 9 10 (9 / 10)) in Hin by (try discriminate; lra).
  destruct Hin as [E|[E|[E|[]]]]; injection E as _ <-.
  - exists (V3 7 7 7), (V3 0 0 0). split; [reflexivity|]. split; [reflexivity|]. assert (D7 : dusk (V3 7 7 7)) by (right; exists 0%nat; apply V3_ext; cbn; ring). split; [exact D7|].
    intros c _. replace (addR (V3 7 7 7) (hadamardR c (V3 0 0 0))) with (V3 7 7 7) by (unfold addR, hadamardR; cbn [vx vy vz]; apply V3_ext; ring). exact D7.
  - exists (V3 0 0 0), (V3 1 1 1). split; [reflexivity|]. split; [reflexivity|]. split; [left; reflexivity|].
    intros [c1 c2 c3] Dc. unfold addR, hadamardR; cbn [vx vy vz]. replace (V3 (0 + c1 * 1) (0 + c2 * 1) (0 + c3 * 1)) with (V3 c1 c2 c3) by (apply V3_ext; ring). exact Dc.
  - exists (V3 0 0 0), (V3 (1 / 50) (2 / 5) (9 / 10)). split; [reflexivity|]. split; [reflexivity|].
    split; [left; reflexivity|]. intros c [ -> |(n & -> )]; [left|right; exists (S n)]; unfold addR, hadamardR; cbn [vx vy vz pow]; apply V3_ext; ring.
Qed.
Lemma glass_camera_eq : glass_camera (F:=X) = make_camera (F:=X) (fin3 (V3 478 278 (-600))) (fin3 (V3 278 278 0)) (fin3 (V3 0 1 0)) (Fin 40) (Fin 1).
Proof. reflexivity. Qed.
Lemma glass_height_eq : glass_height (F:=X) = Ok 1800%Z.
Proof. unfold glass_height, glass_width. rewrite dec16. apply height_eq; [lra|lra|lia]. Qed.
Lemma glass_picture : forall order (s : state (F:=X)), schedule 2880 1800 order -> fair_state s -> exists k img,
  (forall fuel, (k <= fuel)%nat -> glass_run (F:=X) fuel order s = Ok img) /\ length img = Z.to_nat (4 * 2880 * 1800) /\
  forall i j, (0 <= i < 2880)%Z -> (0 <= j < 1800)%Z -> pixel_of 2880 1800 img i j dusk 32 /\ exists r g b, (0 <= r <= g)%Z /\ (g <= b <= 255)%Z /\
    forall k d, (0 <= k < 4)%Z -> nth (offset 2880 1800 i j k) img d = nth (Z.to_nat k) [r; g; b; 255]%Z d.
Proof.
  intros order s So Gs.
  destruct (fog_scene (L:=L) (1 / 1000) (glass_scene (F:=X)) ltac:(lra) ltac:(lra) glass_placed dusk (V3 0 0 0)) with (cam := glass_camera (F:=X)) (width := 2880%Z) (height := 1800%Z) (spp := 32%nat) (order := order) (s := s)
    as (k & img & R & Ln & P); auto; try lia.
  { left. reflexivity. } { left. reflexivity. } { exact glass_dyes. }
  { intros u v. rewrite glass_camera_eq. destruct (camera_long L (V3 478 278 (-600)) (V3 278 278 0) (V3 0 1 0) 40 1) with (s := u) (t := v) as (r & E & _ & D).
    - intros Q. injection Q. lra.
    - unfold crossR, subR, zeroR; cbn [vx vy vz]. intros Q. injection Q. lra.
    - lra.
    - exists r. auto. }
  { intros c Dc. apply dusk_pos in Dc. unfold nonneg3. lra. }
  exists k, img. split; [|split; [exact Ln|]].
  - intros fuel Hf. unfold glass_run. rewrite glass_height_eq. cbn [obind]. exact (R fuel Hf).
  - intros i j Hi Hj. split; [exact (P i j Hi Hj)|]. destruct (P i j Hi Hj) as (c & Tc & N). apply dusk_total in Tc.
    assert (S0 : 0 < / INR 32) by (apply Rinv_0_lt_compat; apply lt_0_INR; lia).
    exists (shade (vx c / INR 32)), (shade (vy c / INR 32)), (shade (vz c / INR 32)). unfold Rdiv.
    assert (B1 : byte (shade (vx c * / INR 32))) by (apply shade_byte, Rmult_le_pos; lra). assert (B3 : byte (shade (vz c * / INR 32))) by (apply shade_byte, Rmult_le_pos; lra).
    split; [split; [apply B1|apply shade_mono, Rmult_le_compat_r; lra]|]. split; [split; [apply shade_mono, Rmult_le_compat_r; lra|apply B3]|]. intros k' d Hk. rewrite N by exact Hk. reflexivity.
Qed.
End Glass.

(** the lamp is not in view *)
Lemma glass_lamp_hidden : forall (L : limits) i j x y a (hi : xr) (rec : hit_record xr), (0 <= i < 2880)%Z -> (0 <= j < 1800)%Z -> tick x -> tick y -> 0 <= a -> hi <> NaN ->
  hit (glass_lamp (F:=XR L)) (get_ray (F:=XR L) (glass_camera (F:=XR L)) (Fin ((IZR i + x) / IZR (2880 - 1))) (Fin ((IZR j + y) / IZR (1800 - 1)))) (Fin a) hi rec = Ok (false, rec).
Proof.
  intros L i j x y a hi rec Hi Hj Tx Ty Ha Hh. rewrite glass_camera_eq.
  destruct (camera_frame (L:=L) (V3 478 278 (-600)) (V3 278 278 0) (V3 0 1 0) 40 1) as (u & v & w & Nu & Nv & Nw & Uv & Uw & Vw & Cr & (k & Hk & Ew) & Uup & Vup & E).
  { intros Q. injection Q. lra. } { unfold crossR, subR, zeroR; cbn [vx vy vz]. intros Q. injection Q. lra. } { lra. }
  rewrite E. set (s := (IZR i + x) / IZR (2880 - 1)). set (t := (IZR j + y) / IZR (1800 - 1)).
  set (A := 1 * tan20 * (2 * s - 1)). set (B := tan20 * (2 * t - 1)). set (d := subR (addR (scaleR A u) (scaleR B v)) w).
  change (Ray (fin3 (V3 478 278 (-600))) (fin3 d)) with (finray (Ray (V3 478 278 (-600)) d)).
  change (glass_lamp (F:=XR L)) with (of_xz (F:=XR L) (finrect (Rect 123 423 147 412 700))).
  assert (Dw : dotR d w = -1).
  { unfold d. replace (dotR (subR (addR (scaleR A u) (scaleR B v)) w) w) with (A * dotR u w + B * dotR v w - normsqR w) by (unfold dotR, normsqR, subR, addR, scaleR; unfold dotR; cbn [vx vy vz]; ring).
    rewrite Uw, Vw, (unit_normsq w Nw). ring. }
  destruct (xz_contract (L:=L) (Rect 123 423 147 412 700) ltac:(cbn; lra) ltac:(cbn; lra) (Ray (V3 478 278 (-600)) d)) as [C Q].
  { intros Z. cbn [r_dir] in Z. rewrite Z in Dw. unfold dotR, zeroR in Dw; cbn [vx vy vz] in Dw. lra. } { cbn [r_orig r_dir vy q_k]. lra. }
  destruct (C (Fin a) hi rec ltac:(discriminate) Hh) as (b & rec' & Eh & H). change (@num (XR L)) with xr in *. rewrite Eh. destruct b; [exfalso|rewrite (Q _ _ _ _ Eh); reflexivity].
  destruct H as (t0 & _ & On & [W _] & _). cbn [at_least] in W.
  assert (Bb : Rabs B <= 3644 / 10000).
  { destruct (tick_bounds y Ty) as [Y0 Y1]. pose proof tan20_below. destruct tan20_cubic as [[T0 _] _]. unfold B, t. change (1800 - 1)%Z with 1799%Z.
    assert (0 <= IZR j <= 1799) by (split; apply IZR_le; lia).
    set (m := 2 * ((IZR j + y) / 1799) - 1). assert (Mb : - (1801 / 1799) <= m <= 1801 / 1799) by (unfold m; lra). clearbody m.
    rewrite Rabs_mult, (Rabs_pos_eq tan20) by lra. assert (Rabs m <= 1801 / 1799) by (apply Rabs_le; exact Mb). pose proof (Rabs_pos m).
    apply Rle_trans with (tan20 * (1801 / 1799)); [apply Rmult_le_compat_l; lra|]. lra. }
  clearbody A B. pose proof (unit_normsq w Nw) as Nw2. pose proof (unit_normsq v Nv) as Nv2.
  destruct On as (Oy & Ox & Oz). unfold pointR, lineR in *; cbn [r_orig r_dir] in *. unfold d in *. clear d Eh C Q E.
  destruct u as [u1 u2 u3], v as [v1 v2 v3], w as [w1 w2 w3]. unfold dotR, normsqR, subR, addR, scaleR, dotR in *; cbn [vx vy vz q_k q_a0 q_a1 q_b0 q_b1] in *.
  injection Ew as W1 W2 W3. assert (w1 = 200 * k) by lra. assert (w2 = 0) by lra. assert (w3 = -600 * k) by lra. clear W1 W2 W3. subst w1 w2 w3. assert (u2 = 0) by lra. subst u2.
  assert (K2 : 400000 * (k * k) = 1) by lra. assert (Kb : k < 158115 / 100000000) by nra.
  assert (T0 : t0 <= 1073).
  { set (px := 478 + t0 * (A * u1 + B * v1 - 200 * k)) in *. set (pz := -600 + t0 * (A * u3 + B * v3 - -600 * k)) in *.
    assert (Q : t0 = k * (200 * (478 - px) + 600 * (pz + 600))).
    { unfold px, pz. transitivity (- t0 * (-1)); [ring|]. rewrite <- Dw. ring. }
    clearbody px pz. rewrite Q. nra. }
  assert (V1 : Rabs v2 <= 1) by (apply Rabs_le; split; nra).
  assert (Y : Rabs (B * v2) <= 3644 / 10000).
  { rewrite Rabs_mult. pose proof (Rabs_pos B). pose proof (Rabs_pos v2). nra. }
  apply abs_le in Y. replace (A * 0 + B * v2 - 0) with (B * v2) in Oy by ring. set (z := B * v2) in *. clearbody z. nra.
Qed.
