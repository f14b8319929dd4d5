(** Rendering a scene of solids and sound materials; one diffuse sphere. *)
From Coq Require Import Reals ZArith Lra Lia List Bool Psatz.
From Verif Require Import Spec_Random Num XR Spec Spec_Scene Spec_Light Spec_Shapes Spec_Image Spec_World M_Vec M_Roots M_Rng M_Hittable M_Materials M_Shapes M_Image M_World
  P_Vec P_Rng P_Quadratic P_Sphere P_List P_Light P_Lambert P_Path P_Camera P_Maps P_Image P_Render P_World.
Import ListNotations.
Local Open Scope R_scope.

(** ** Bytes of a pixel *)
Section Bytes.
Context {F : NumOps} {M W : Type}.
Variable world_hit : W -> ray num -> num -> num -> outcome (option M * hit_record num * W).
Variable scatter : M -> W -> ray num -> hit_record num -> outcome (scattering * W).
Variable emitted : M -> hit_record num -> vec3 num.
Variables (width height : Z) (background : vec3 num) (cam : camera).

Lemma to_byte_range : forall x z, to_byte x = Ok z -> byte z.
Proof.
  intros x z E. unfold to_byte, to_uint8, to_range in E. destruct (ntrunc _) as [y|]; [|discriminate].
  destruct ((0 <=? y)%Z && (y <=? 255)%Z) eqn:B; [|discriminate]. injection E as <-. apply andb_true_iff in B. destruct B as [A B].
  apply Z.leb_le in A, B. split; assumption.
Qed.
Lemma pixel_bytes : forall spp i j g w c g' w', pixel world_hit scatter emitted width height background cam spp i j g w = Ok (c, g', w') ->
  exists a b d, c = [a; b; d; 255%Z] /\ byte a /\ byte b /\ byte d.
Proof.
  intros spp i j g w c g' w' E. unfold pixel in E. destruct (samples _ _ _ _ _ _ _ _ _ _ _ _ _) as [[[col g1] w1]| |]; cbn [obind] in E; try discriminate.
  unfold to_8bit_rgba, vec_list in E. cbn [mapM length Nat.eqb] in E.
  destruct (to_byte _) as [a| |] eqn:A; cbn [obind] in E; try discriminate. destruct (to_byte (vy _)) as [b| |] eqn:B; cbn [obind] in E; try discriminate.
  destruct (to_byte (vz _)) as [d| |] eqn:D; cbn [obind] in E; try discriminate. injection E as <- _ _.
  exists a, b, d. split; [reflexivity|]. split; [exact (to_byte_range _ _ A)|]. split; [exact (to_byte_range _ _ B)|exact (to_byte_range _ _ D)].
Qed.
End Bytes.

(** ** Totality of the renderer *)
Section Total.
Context {L : limits}.
Notation X := (XR L).
Variables (tol : R) (items : list (hittable (F:=X) * material_ptr (F:=X))) (bg : vec3 R) (cam : camera (F:=X)) (width height : Z).
Hypothesis T : 0 <= tol <= 1 / 8.
Hypothesis M : l_min L < 1 / 4.
Hypothesis G : good_items tol items.
Hypothesis B : nonneg3 bg.
Hypothesis cam_rays : forall s t, exists r, get_ray (F:=X) cam (Fin s) (Fin t) = finray r /\ long (r_dir r).
Hypothesis (W2 : (2 <= width)%Z) (H2 : (2 <= height)%Z).
Notation wh := (world_hit (F:=X) (scene_of items)).
Notation sc := (scatter (F:=X)).
Notation em := (emitted (F:=X)).

Lemma sample_ok : forall i j g s, good_state s -> exists k c g' s',
  (forall fuel, (k <= fuel)%nat -> sample (F:=X) wh (sc fuel) em width height (fin3 bg) cam i j g s = Ok (fin3 c, g', s')) /\ nonneg3 c /\ good_state s'.
Proof.
  intros i j g s Gs. unfold sample. rewrite pcg_real_01_draw. rewrite pcg_real_01_draw.
  unfold pixel_u, pixel_v. cbn [nadd ndiv nofZ XR xadd]. rewrite !xdiv_fin by (apply not_0_IZR; lia).
  match goal with |- context [get_ray cam (Fin ?a) (Fin ?b)] => destruct (cam_rays a b) as (r & Er & D) end.
  destruct (colour_ok tol items bg T M G B 8 s r Gs D) as (k & c & s' & E & Nc & Gs').
  exists k, c. eexists _, s'. split; [|split; assumption]. intros fuel Hf. change (@num X) with xr in *. rewrite Er. rewrite (E fuel Hf). cbn [obind]. reflexivity.
Qed.
Lemma samples_ok : forall n i j c g s, nonneg3 c -> good_state s -> exists k c' g' s',
  (forall fuel, (k <= fuel)%nat -> samples (F:=X) wh (sc fuel) em width height (fin3 bg) cam n i j (fin3 c) g s = Ok (fin3 c', g', s')) /\ nonneg3 c' /\ good_state s'.
Proof.
  induction n as [|n IH]; intros i j c g s Nc Gs.
  - exists 0%nat, c, g, s. split; [reflexivity|split; assumption].
  - destruct (sample_ok i j g s Gs) as (k1 & c1 & g1 & s1 & E1 & N1 & G1).
    destruct (IH i j (addR c c1) g1 s1) as (k2 & c2 & g2 & s2 & E2 & N2 & G2); [unfold nonneg3, addR in *; cbn [vx vy vz]; lra|exact G1|].
    exists (Nat.max k1 k2), c2, g2, s2. split; [|split; assumption]. intros fuel Hf. cbn [samples]. change (@num X) with xr in *. rewrite (E1 fuel) by lia. cbn [obind].
    rewrite vadd_fin. change (@num X) with xr in *. rewrite (E2 fuel) by lia. reflexivity.
Qed.
Lemma pixel_ok : forall spp i j g s, (1 <= spp)%nat -> good_state s -> exists k c g' s',
  (forall fuel, (k <= fuel)%nat -> pixel (F:=X) wh (sc fuel) em width height (fin3 bg) cam spp i j g s = Ok (c, g', s')) /\ good_state s' /\ length c = 4%nat.
Proof.
  intros spp i j g s Hs Gs. unfold pixel. change (V3 (nofZ (NumOps:=X) 0) (nofZ (NumOps:=X) 0) (nofZ (NumOps:=X) 0)) with (fin3 (V3 0 0 0)).
  destruct (samples_ok spp i j (V3 0 0 0) g s) as (k & c & g' & s' & E & N & G'); [unfold nonneg3; cbn; lra|exact Gs|].
  assert (S0 : 1 <= INR spp) by (apply (le_INR 1); exact Hs).
  assert (Q : nonneg3 (scaleR (/ INR spp) c)).
  { assert (0 < / INR spp) by (apply Rinv_0_lt_compat; lra). destruct N as (? & ? & ?). unfold nonneg3, scaleR; cbn [vx vy vz]. repeat split; apply Rmult_le_pos; lra. }
  exists k. eexists _, g', s'. split; [|split; [exact G'|]].
  - intros fuel Hf. rewrite (E fuel Hf). cbn [obind]. change (nofZ (NumOps:=X) (Z.of_nat spp)) with (Fin (IZR (Z.of_nat spp))). rewrite <- INR_IZR_INZ. rewrite vdiv_fin by lra.
    rewrite rgba_exact by apply Q. reflexivity.
  - reflexivity.
Qed.
Lemma render_ok : forall spp, (1 <= spp)%nat -> forall order img g s, (forall i j, In (i, j) order -> (0 <= i < width)%Z /\ (0 <= j < height)%Z) ->
  length img = Z.to_nat (4 * width * height) -> good_state s -> exists k img' g' s',
  (forall fuel, (k <= fuel)%nat -> render (F:=X) wh (sc fuel) em width height (fin3 bg) cam spp order img g s = Ok (img', g', s')).
Proof.
  intros spp Hs. induction order as [|[i j] order IH]; intros img g s I Li Gs.
  - exists 0%nat, img, g, s. reflexivity.
  - destruct (pixel_ok spp i j g s Hs Gs) as (k1 & c & g1 & s1 & E1 & G1 & Lc).
    destruct (I i j (or_introl eq_refl)) as [Ii Ij].
    destruct (write_pixel_spec width height ltac:(lia) i j c img Ii Ij Lc Li) as (img1 & Ew & L1 & _).
    destruct (IH img1 g1 s1) as (k2 & img2 & g2 & s2 & E2); [intros; apply I; right; assumption|congruence|exact G1|].
    exists (Nat.max k1 k2), img2, g2, s2. intros fuel Hf. cbn [render]. change (@num X) with xr in *. rewrite (E1 fuel) by lia. cbn [obind]. rewrite Ew. cbn [obind].
    apply E2. lia.
Qed.
Lemma render_scene_ok : forall spp order s, (1 <= spp)%nat -> schedule width height order -> good_state s -> exists k img,
  (forall fuel, (k <= fuel)%nat -> render_scene (F:=X) wh (sc fuel) em width height (fin3 bg) cam spp order s = Ok img) /\
  length img = Z.to_nat (4 * width * height) /\ Forall byte img /\
  forall i j d, (0 <= i < width)%Z -> (0 <= j < height)%Z -> nth (offset width height i j 3) img d = 255%Z.
Proof.
  intros spp order s Hs So Gs.
  destruct (render_ok spp Hs order (new_image width height) pcg_seed s) as (k & img & g' & s' & E).
  { intros i j. apply So. } { unfold new_image. apply repeat_length. } { exact Gs. }
  exists k, img. assert (R : forall fuel, (k <= fuel)%nat -> render_scene (F:=X) wh (sc fuel) em width height (fin3 bg) cam spp order s = Ok img).
  { intros fuel Hf. unfold render_scene. change (@num X) with xr in *. rewrite (E fuel Hf). reflexivity. }
  split; [exact R|].
  destruct (scene_frame (F:=X) wh (sc k) em width height (fin3 bg) cam ltac:(lia) spp order s img So (R k (le_n k))) as [Ln Px]. split; [exact Ln|].
  assert (K : forall i j, (0 <= i < width)%Z -> (0 <= j < height)%Z -> exists a b d, byte a /\ byte b /\ byte d /\
     forall k d0, (0 <= k < 4)%Z -> nth (offset width height i j k) img d0 = nth (Z.to_nat k) [a; b; d; 255%Z] d0).
  { intros i j Ii Ij. destruct (Px i j Ii Ij) as (g0 & w0 & c & g1 & w1 & Ep & Nc). destruct (pixel_bytes _ _ _ _ _ _ _ _ _ _ _ _ _ _ _ Ep) as (a & b & d & -> & Ba & Bb & Bd).
    exists a, b, d. auto. }
  split.
  - apply Forall_forall. intros z Hz. destruct (In_nth _ _ 0%Z Hz) as (n & Hn & Ez). rewrite Ln in Hn.
    destruct (offset_onto width height ltac:(lia) n Hn) as (i & j & c & (Ii & Ij & Ic) & ->).
    destruct (K i j Ii Ij) as (a & b & d & Ba & Bb & Bd & Nc). rewrite Nc in Ez by exact Ic. rewrite <- Ez.
    assert (C : (c = 0 \/ c = 1 \/ c = 2 \/ c = 3)%Z) by lia. destruct C as [ -> |[ -> |[ -> | -> ]]]; [exact Ba|exact Bb|exact Bd|change (0 <= 255 <= 255)%Z; lia].
  - intros i j d0 Ii Ij. destruct (K i j Ii Ij) as (a & b & d & _ & _ & _ & Nc). rewrite Nc by lia. reflexivity.
Qed.
End Total.

Lemma camera_long : forall (L : limits) (from at_ up : vec3 R) (vfov aspect : R), from <> at_ -> crossR up (subR from at_) <> zeroR -> 0 < vfov < 180 ->
  forall s t, exists r, get_ray (F:=XR L) (make_camera (F:=XR L) (fin3 from) (fin3 at_) (fin3 up) (Fin vfov) (Fin aspect)) (Fin s) (Fin t) = finray r /\ r_orig r = from /\ long (r_dir r).
Proof.
  intros L from at_ up vfov aspect N C V s t. destruct (camera_frame (L:=L) from at_ up vfov aspect N C V) as (u & v & w & Nu & Nv & Nw & Uv & Uw & Vw & _ & _ & _ & _ & E).
  eexists (Ray from _). split; [apply E|]. split; [reflexivity|]. cbn [r_dir]. unfold long.
  set (a := aspect * _ * _). set (b := tan _ * _).
  replace (normsqR _) with (a * a * normsqR u + b * b * normsqR v + normsqR w + 2 * a * b * dotR u v - 2 * a * dotR u w - 2 * b * dotR v w)
    by (unfold normsqR, dotR, subR, addR, scaleR; cbn [vx vy vz]; ring).
  rewrite (unit_normsq u Nu), (unit_normsq v Nv), (unit_normsq w Nw), Uv, Uw, Vw. nra.
Qed.

Lemma whole_scene : forall (L : limits) (tol : R) (items : list (hittable (F:=XR L) * material_ptr (F:=XR L))) (bg from at_ up : vec3 R) (vfov aspect : R) width height spp order s,
  0 <= tol <= 1 / 8 -> l_min L < 1 / 4 -> (forall o m, In (o, m) items -> solid tol o /\ sound tol (snd m)) -> nonneg3 bg ->
  from <> at_ -> crossR up (subR from at_) <> zeroR -> 0 < vfov < 180 -> (2 <= width)%Z -> (2 <= height)%Z -> (1 <= spp)%nat -> schedule width height order -> good_state s ->
  exists k img, (forall fuel, (k <= fuel)%nat ->
    render_scene (F:=XR L) (world_hit (F:=XR L) (scene_of items)) (scatter (F:=XR L) fuel) (emitted (F:=XR L)) width height (fin3 bg)
      (make_camera (F:=XR L) (fin3 from) (fin3 at_) (fin3 up) (Fin vfov) (Fin aspect)) spp order s = Ok img) /\
    length img = Z.to_nat (4 * width * height) /\ Forall byte img /\
    forall i j d, (0 <= i < width)%Z -> (0 <= j < height)%Z -> nth (offset width height i j 3) img d = 255%Z.
Proof.
  intros L tol items bg from at_ up vfov aspect width height spp order s T M G B N C V W2 H2 Hs So Gs.
  apply render_scene_ok with tol; auto.
  - unfold good_items. apply Forall_forall. intros [o m] I. exact (G o m I).
  - intros u v. destruct (camera_long L from at_ up vfov aspect N C V u v) as (r & E & _ & D). exists r. auto.
Qed.

(** ** One diffuse sphere *)
Section Furnace.
Context {L : limits}.
Notation X := (XR L).
Variables (s : sphere R) (tex : hit_record xr -> vec3 xr) (j : nat) (bg : vec3 R).
Hypothesis Rp : 0 < s_radius s.
Hypothesis Tx : good_texture tex.
Hypothesis M1 : l_min L < 1.
Hypothesis M2 : l_min L < 2 * s_radius s.
Notation c0 := (s_center s).
Notation rho := (s_radius s).
Definition ball : hittable (F:=X) := of_sphere (F:=X) (finsphere s).
Definition skin : material_ptr (F:=X) := (j, Lambertian (F:=X) tex).
Definition lo0 : xr := nmul (NumOps:=X) (nofZ (NumOps:=X) 1000) (neps (NumOps:=X)).
Notation color fuel depth w r := (ray_color (F:=X) (world_hit (F:=X) (scene_of [(ball, skin)])) (scatter (F:=X) fuel) (emitted (F:=X)) depth w r (fin3 bg)).

Lemma in_lo0 : forall t, in_window lo0 (ninf (NumOps:=X)) t <-> 1000 * l_eps L <= t.
Proof. intros t. unfold lo0, in_window; cbn. tauto. Qed.

Lemma world_one : forall (w : state (F:=X)) (r : ray R), sphere_off_threshold (l_min L) s r ->
  (exists rec, world_hit (F:=X) (scene_of [(ball, skin)]) w (finray r) lo0 (ninf (NumOps:=X)) = Ok (None, rec, drop_junk w) /\
     forall t, 1000 * l_eps L <= t -> ~ on_sphere s (pointR r t)) \/
  (exists t rec, world_hit (F:=X) (scene_of [(ball, skin)]) w (finray r) lo0 (ninf (NumOps:=X)) = Ok (Some skin, rec, drop_junk w) /\
     on_sphere s (pointR r t) /\ 1000 * l_eps L <= t /\ (forall t', on_sphere s (pointR r t') -> 1000 * l_eps L <= t' -> t <= t') /\ describes_sphere s r t rec).
Proof.
  intros w r Off. destruct (sphere_contract (L:=L) s Rp r Off) as [C _]. unfold world_hit. destruct (st_junk w 0%nat) as [temp0 rec0].
  unfold list_hit. rewrite scene_objects, scene_materials. cbn [map fst snd list_loop].
  destruct (C lo0 (ninf (NumOps:=X)) temp0) as (b & rec' & E & H); [discriminate|discriminate|].
  change (@num X) with xr in *. unfold ball. rewrite E. cbn [obind]. destruct b.
  - right. destruct H as (t & Et & On & W & F & D). exists t, rec'. rewrite Et. cbn [nltb XR xltb ninf obind nth_error].
    split; [reflexivity|]. split; [exact On|]. split; [exact (proj1 (in_lo0 t) W)|]. split; [|exact D]. intros t' On' W'. apply F; [exact On'|exact (proj2 (in_lo0 _) W')].
  - left. exists rec0. split; [reflexivity|]. intros t Ht On. apply (H t On). exact (proj2 (in_lo0 t) Ht).
Qed.

Lemma on_sphere_sq : forall p, on_sphere s p -> normsqR (subR p c0) = rho * rho.
Proof. intros p H. unfold on_sphere, distR in H. rewrite <- H. symmetry. apply normR_sq. Qed.
Lemma sq_on_sphere : forall p, normsqR (subR p c0) = rho * rho -> on_sphere s p.
Proof. intros p H. unfold on_sphere, distR, normR. rewrite H. apply sqrt_square. lra. Qed.
Lemma point_sq : forall r t, normsqR (subR (pointR r t) c0) = normsqR (subR (r_orig r) c0) + 2 * dotR (subR (r_orig r) c0) (r_dir r) * t + normsqR (r_dir r) * (t * t).
Proof. intros r t. unfold pointR, lineR, normsqR, dotR, subR, addR, scaleR; cbn [vx vy vz]; ring. Qed.
Lemma from_surface : forall p d t, on_sphere s p -> (on_sphere s (pointR (Ray p d) t) <-> t * (normsqR d * t + 2 * dotR (subR p c0) d) = 0).
Proof.
  intros p d t H. apply on_sphere_sq in H. split; intros E.
  - apply on_sphere_sq in E. rewrite point_sq in E. cbn [r_orig r_dir] in E. lra.
  - apply sq_on_sphere. rewrite point_sq. cbn [r_orig r_dir]. lra.
Qed.

(* [up] = 1: the normal points out of the sphere, [up] = -1: into it *)
Definition surface (up : R) (p n : vec3 R) : Prop := on_sphere s p /\ normR n = 1 /\ subR p c0 = scaleR (up * rho) n.
Lemma leaving : forall up p n d, up = 1 \/ up = -1 -> surface up p n -> 1 <= dotR d n -> sphere_off_threshold (l_min L) s (Ray p d) /\ 1 <= normsqR d /\
  dotR (subR p c0) d = up * rho * dotR d n.
Proof.
  intros up p n d U (On & Nn & E) D.
  assert (Dd : dotR (subR p c0) d = up * rho * dotR d n) by (rewrite E; unfold dotR, scaleR; cbn [vx vy vz]; ring).
  assert (A : 1 <= normsqR d). { pose proof (cauchy d n) as C. rewrite (unit_normsq n Nn) in C. nra. }
  pose proof (l_min_pos L). split; [|split; assumption]. unfold sphere_off_threshold. cbn [r_orig r_dir]. split.
  - intros ->. unfold normsqR, dotR, zeroR in A; cbn in A. lra.
  - split; right; [rewrite Rabs_pos_eq; lra|]. rewrite Dd. destruct U as [-> | ->].
    + rewrite Rabs_pos_eq by nra. nra.
    + rewrite Rabs_left by nra. nra.
Qed.

Lemma skin_scatters : forall (w : state (F:=X)) (r : ray xr) (rec : hit_record xr) p n, good_state w -> h_p rec = fin3 p -> h_normal rec = fin3 n -> normR n = 1 ->
  exists k a d w', (forall fuel, (k <= fuel)%nat -> scatter (F:=X) fuel skin w r rec = Ok (Some (fin3 a, finray (Ray p d)), w')) /\ tex rec = fin3 a /\ nonneg3 a /\
    1 <= dotR d n /\ normR d <= 2 /\ good_state w'.
Proof.
  intros w r rec p n G Ep En Nn. destruct (Tx rec p Ep) as (a & Ea & Na). pose proof G as (Gw & Gu & Gn).
  destruct (lambertian_side (L:=L) tex (st_pcg w j) rec n (Gw j) En Nn) as (k & d & g' & E & D1 & D2).
  assert (Pr : proper 0 (Ray p (negR n)) rec).
  { exists p, n. split; [exact Ep|]. split; [exact En|]. split; [unfold near_unit; rewrite (unit_normsq n Nn), Rminus_eq_0, Rabs_R0; lra|].
    cbn [r_dir]. replace (dotR (negR n) n) with (- normsqR n) by (unfold normsqR, dotR, negR; cbn [vx vy vz]; ring). rewrite (unit_normsq n Nn). lra. }
  destruct (lambertian_ok (L:=L) 0 tex (st_pcg w j) (Ray p (negR n)) rec ltac:(lra) (Gw j) Pr) as (k2 & out & g2 & E2 & _ & W2).
  assert (g2 = g').
  { specialize (E (Nat.max k k2) ltac:(lia)). specialize (E2 (Nat.max k k2) ltac:(lia)). change (@num X) with xr in *. rewrite E in E2. injection E2 as _ <-. reflexivity. }
  subst g2. exists k, a, d, (set_pcg (F:=X) j g' w). split; [|split; [exact Ea|split; [exact Na|split; [exact D1|split; [exact D2|]]]]].
  - intros fuel Hf. unfold scatter, skin; cbn [fst snd]. change (@num X) with xr in *. rewrite (E fuel Hf). cbn [obind]. rewrite Ea, Ep. reflexivity.
  - split; [|split; assumption]. intros i. cbn [st_pcg set_pcg]. destruct (Nat.eqb i j); [exact W2|apply Gw].
Qed.

(* a record of a hit: the stored normal, and on which side *)
Lemma record_side : forall r t rec, describes_sphere s r t rec -> on_sphere s (pointR r t) -> exists n, h_p rec = fin3 (pointR r t) /\ h_normal rec = fin3 n /\ normR n = 1 /\
  (dotR (r_dir r) (subR (pointR r t) c0) < 0 -> surface 1 (pointR r t) n) /\ (0 <= dotR (r_dir r) (subR (pointR r t) c0) -> surface (-1) (pointR r t) n).
Proof.
  intros r t rec ((Et & Ep) & (n & En & Nn & Dn & F1 & F2) & _) On. exists n. split; [exact Ep|]. split; [exact En|]. split; [exact Nn|].
  set (p := pointR r t) in *. pose proof (on_sphere_sq p On) as Q.
  assert (K : forall k, n = scaleR k (subR p c0) -> k * k * (rho * rho) = 1).
  { intros k ->. pose proof (unit_normsq _ Nn) as U. rewrite normsqR_scale, Q in U. exact U. }
  destruct (h_front rec).
  - destruct (F1 eq_refl) as [D (k & Kp & Ek)]. specialize (K k Ek). split; [|intros; lra]. intros _. split; [exact On|]. split; [exact Nn|].
    assert (Kp' : 0 < k * rho) by nra. assert (Kr : k * rho = 1) by (apply Rmult_eq_reg_r with (k * rho + 1); [nra|lra]). rewrite Ek. destruct (subR p c0) as [x y z]. unfold scaleR; cbn [vx vy vz]. apply V3_ext; rewrite <- Rmult_assoc; replace (1 * rho * k) with (k * rho) by ring; rewrite Kr; ring.
  - destruct (F2 eq_refl) as [D (k & Kp & Ek)]. specialize (K k Ek). split; [intros; lra|]. intros _. split; [exact On|]. split; [exact Nn|].
    assert (Kp' : k * rho < 0) by nra. assert (Kr : k * rho = -1) by (apply Rmult_eq_reg_r with (k * rho - 1); [nra|lra]). rewrite Ek. destruct (subR p c0) as [x y z]. unfold scaleR; cbn [vx vy vz]. apply V3_ext; rewrite <- Rmult_assoc; replace (-1 * rho * k) with (- (k * rho)) by ring; rewrite Kr; ring.
Qed.

Lemma black_skin : forall rec : hit_record xr, emitted (F:=X) skin rec = fin3 (V3 0 0 0).
Proof. reflexivity. Qed.

Lemma escaped : forall depth (w : state (F:=X)) p n d, surface 1 p n -> 1 <= dotR d n -> forall fuel, color fuel (S depth) w (finray (Ray p d)) = Ok (fin3 bg, drop_junk w).
Proof.
  intros depth w p n d Sf D fuel. destruct (leaving 1 p n d (or_introl eq_refl) Sf D) as (Off & A & Dd). pose proof (l_eps_pos L) as E0.
  cbn [ray_color]. fold lo0. destruct (world_one w (Ray p d) Off) as [(rec & E & _)|(t & rec & E & On & Ht & _)]; change (@num X) with xr in *; rewrite E; cbn [obind]; [reflexivity|].
  exfalso. apply (from_surface p d t (proj1 Sf)) in On. rewrite Dd in On. assert (0 < rho * dotR d n) by nra. assert (0 <= normsqR d * t) by nra. apply Rmult_integral in On. lra.
Qed.

Hypothesis M3 : 2000 * l_eps L <= rho.
Lemma caught : forall depth (w : state (F:=X)) p n d, good_state w -> surface (-1) p n -> 1 <= dotR d n -> normR d <= 2 ->
  exists k w', (forall fuel, (k <= fuel)%nat -> color fuel depth w (finray (Ray p d)) = Ok (fin3 (V3 0 0 0), w')) /\ good_state w'.
Proof.
  induction depth as [|depth IH]; intros w p n d G Sf D N2.
  - exists 0%nat, w. split; [reflexivity|exact G].
  - destruct (leaving (-1) p n d (or_intror eq_refl) Sf D) as (Off & A & Dd). pose proof (l_eps_pos L) as E0.
    assert (A4 : normsqR d <= 4). { rewrite <- normR_sq. pose proof (normR_nonneg d). nra. }
    set (t1 := 2 * rho * dotR d n / normsqR d).
    assert (T1 : 1000 * l_eps L <= t1).
    { unfold t1. apply Rmult_le_reg_r with (normsqR d); [lra|]. replace (2 * rho * dotR d n / normsqR d * normsqR d) with (2 * rho * dotR d n) by (field; lra). nra. }
    assert (On1 : on_sphere s (pointR (Ray p d) t1)).
    { apply from_surface; [exact (proj1 Sf)|]. rewrite Dd. unfold t1. field. lra. }
    cbn [ray_color]. fold lo0.
    destruct (world_one w (Ray p d) Off) as [(rec & E & Miss)|(t & rec & E & On & Ht & Fst & Ds)]; [exfalso; exact (Miss t1 T1 On1)|].
    destruct (record_side _ _ _ Ds On) as (n' & Ep & En & Nn & _ & In).
    assert (Tt : t = t1).
    { apply (from_surface p d t (proj1 Sf)) in On. rewrite Dd in On. assert (Tn : t <> 0) by lra. apply Rmult_integral in On. destruct On as [On|On]; [lra|].
      unfold t1. apply Rmult_eq_reg_r with (normsqR d); [|lra]. replace (2 * rho * dotR d n / normsqR d * normsqR d) with (2 * rho * dotR d n) by (field; lra). lra. }
    assert (Out : 0 <= dotR (r_dir (Ray p d)) (subR (pointR (Ray p d) t) c0)).
    { cbn [r_dir]. replace (dotR d (subR (pointR (Ray p d) t) c0)) with (dotR (subR p c0) d + t * normsqR d) by (unfold pointR, lineR, normsqR, dotR, subR, addR, scaleR; cbn [vx vy vz r_orig r_dir]; ring).
      rewrite Dd, Tt. unfold t1. replace (-1 * rho * dotR d n + 2 * rho * dotR d n / normsqR d * normsqR d) with (rho * dotR d n) by (field; lra). nra. }
    destruct (skin_scatters (drop_junk w) (finray (Ray p d)) rec _ n' (proj2 (proj2 (good_drop w G))) Ep En Nn) as (k1 & a & d' & w1 & Es & _ & _ & D' & N' & G1).
    destruct (IH w1 _ n' d' G1 (In Out) D' N') as (k2 & w2 & Ec & G2).
    exists (Nat.max k1 k2), w2. split; [|exact G2]. intros fuel Hf. change (@num X) with xr in *. rewrite E. cbn [obind]. rewrite (Es fuel) by lia. cbn [obind].
    rewrite (Ec fuel) by lia. cbn [obind]. rewrite hadamard_fin, black_skin, vadd_fin. unfold addR, hadamardR; cbn [vx vy vz]. do 3 f_equal. apply V3_ext; ring.
Qed.

(** the sphere seen from outside: nothing between 0 and the start of the window *)
Lemma furnace_outside : forall depth (w : state (F:=X)) r, good_state w -> sphere_off_threshold (l_min L) s r -> rho < distR (r_orig r) c0 ->
  (forall t, 0 <= t < 1000 * l_eps L -> ~ on_sphere s (pointR r t)) -> (forall t, on_sphere s (pointR r t) -> dotR (r_dir r) (subR (pointR r t) c0) <> 0) ->
  exists k c w', (forall fuel, (k <= fuel)%nat -> color fuel (S (S depth)) w (finray r) = Ok (fin3 c, w')) /\ good_state w' /\
    ((forall t, 0 <= t -> ~ on_sphere s (pointR r t)) /\ c = bg \/
     exists t rec a, 0 <= t /\ on_sphere s (pointR r t) /\ (forall t', 0 <= t' -> on_sphere s (pointR r t') -> t <= t') /\ describes_sphere s r t rec /\ tex rec = fin3 a /\ c = hadamardR bg a).
Proof.
  clear M3. intros depth w r G Off Dist Clip Tan. pose proof (l_eps_pos L) as E0.
  destruct (world_one w r Off) as [(rec & E & Miss)|(t & rec & E & On & Ht & Fst & Ds)].
  - exists 0%nat, bg, (drop_junk w). split; [intros fuel _; cbn [ray_color]; fold lo0; change (@num X) with xr in *; rewrite E; reflexivity|]. split; [apply good_drop; exact G|].
    left. split; [|reflexivity]. intros t Ht On. destruct (Rlt_dec t (1000 * l_eps L)); [exact (Clip t ltac:(lra) On)|exact (Miss t ltac:(lra) On)].
  - destruct (record_side _ _ _ Ds On) as (n & Ep & En & Nn & Fr & _).
    assert (First : forall t', 0 <= t' -> on_sphere s (pointR r t') -> t <= t').
    { intros t' H0 On'. destruct (Rlt_dec t' (1000 * l_eps L)); [exfalso; exact (Clip t' ltac:(lra) On')|apply Fst; [exact On'|lra]]. }
    assert (Front : dotR (r_dir r) (subR (pointR r t) c0) < 0).
    { specialize (Tan t On). pose proof (on_sphere_sq _ On) as Q. rewrite point_sq in Q.
      replace (dotR (r_dir r) (subR (pointR r t) c0)) with (dotR (subR (r_orig r) c0) (r_dir r) + t * normsqR (r_dir r)) in * by (unfold pointR, lineR, normsqR, dotR, subR, addR, scaleR; cbn [vx vy vz]; ring).
      assert (Far : rho * rho < normsqR (subR (r_orig r) c0)). { unfold distR in Dist. rewrite <- normR_sq. nra. }
      destruct Off as [Dz _]. apply normsqR_pos in Dz.
      set (a := normsqR (r_dir r)) in *. set (b := dotR (subR (r_orig r) c0) (r_dir r)) in *. set (q := normsqR (subR (r_orig r) c0)) in *.
      set (t1 := - (2 * b) / a - t).
      assert (On1 : on_sphere s (pointR r t1)).
      { apply sq_on_sphere. rewrite point_sq. fold a b q. rewrite <- Q. unfold t1. field. lra. }
      assert (Pr : a * (t * t1) = q - rho * rho). { rewrite <- Q. unfold t1. field. lra. }
      assert (Sm : a * (t + t1) = - (2 * b)) by (unfold t1; field; lra).
      clearbody t1.
      assert (T1 : 0 < t1). { destruct (Rlt_dec 0 t1); [assumption|exfalso]. assert (0 < t) by lra. assert (t * t1 <= 0) by nra. nra. }
      specialize (First t1 ltac:(lra) On1). nra. }
    destruct (skin_scatters (drop_junk w) (finray r) rec _ n (proj2 (proj2 (good_drop w G))) Ep En Nn) as (k1 & a & d' & w1 & Es & Ea & _ & D' & N' & G1).
    exists k1, (hadamardR bg a), (drop_junk w1). split; [|split; [apply good_drop; exact G1|]].
    + intros fuel Hf. remember (S depth) as dd. cbn [ray_color]. fold lo0. change (@num X) with xr in *. rewrite E. cbn [obind]. rewrite (Es fuel) by lia. cbn [obind]. subst dd.
      pose proof (escaped depth w1 _ n d' (Fr Front) D' fuel) as Ec. change (@num X) with xr in *. rewrite Ec. cbn [obind]. rewrite hadamard_fin, black_skin, vadd_fin. unfold addR, hadamardR; cbn [vx vy vz]. do 3 f_equal. apply V3_ext; ring.
    + right. exists t, rec, a. split; [lra|]. auto.
Qed.

(** grazed, or seen from inside: black *)
Lemma furnace_caught : forall depth (w : state (F:=X)) r, good_state w -> sphere_off_threshold (l_min L) s r ->
  (exists t, 1000 * l_eps L <= t /\ on_sphere s (pointR r t)) ->
  (forall t, 1000 * l_eps L <= t -> on_sphere s (pointR r t) -> 0 <= dotR (r_dir r) (subR (pointR r t) c0)) ->
  exists k w', (forall fuel, (k <= fuel)%nat -> color fuel depth w (finray r) = Ok (fin3 (V3 0 0 0), w')) /\ good_state w'.
Proof.
  intros depth w r G Off (t0 & T0 & O0) In. destruct depth as [|depth].
  { exists 0%nat, w. split; [reflexivity|exact G]. }
  destruct (world_one w r Off) as [(rec & E & Miss)|(t & rec & E & On & Ht & Fst & Ds)]; [exfalso; exact (Miss t0 T0 O0)|].
  destruct (record_side _ _ _ Ds On) as (n & Ep & En & Nn & _ & Bk).
  destruct (skin_scatters (drop_junk w) (finray r) rec _ n (proj2 (proj2 (good_drop w G))) Ep En Nn) as (k1 & a & d' & w1 & Es & Ea & _ & D' & N' & G1).
  destruct (caught depth w1 _ n d' G1 (Bk (In t Ht On)) D' N') as (k2 & w2 & Ec & G2).
  exists (Nat.max k1 k2), w2. split; [|exact G2]. intros fuel Hf. cbn [ray_color]. fold lo0. change (@num X) with xr in *. rewrite E. cbn [obind]. rewrite (Es fuel) by lia. cbn [obind].
  rewrite (Ec fuel) by lia. cbn [obind]. rewrite hadamard_fin, black_skin, vadd_fin. unfold addR, hadamardR; cbn [vx vy vz]. do 3 f_equal. apply V3_ext; ring.
Qed.

Lemma furnace_inside : forall depth (w : state (F:=X)) r, good_state w -> sphere_off_threshold (l_min L) s r -> distR (r_orig r) c0 < rho ->
  (forall t, 0 <= t < 1000 * l_eps L -> ~ on_sphere s (pointR r t)) ->
  exists k w', (forall fuel, (k <= fuel)%nat -> color fuel depth w (finray r) = Ok (fin3 (V3 0 0 0), w')) /\ good_state w'.
Proof.
  intros depth w r G Off Dist Clip. pose proof (l_eps_pos L) as E0.
  assert (Near : normsqR (subR (r_orig r) c0) < rho * rho). { unfold distR in Dist. rewrite <- normR_sq. pose proof (normR_nonneg (subR (r_orig r) c0)). nra. }
  pose proof Off as [Dz _]. apply normsqR_pos in Dz.
  set (a := normsqR (r_dir r)) in *. set (b := dotR (subR (r_orig r) c0) (r_dir r)) in *. set (q := normsqR (subR (r_orig r) c0)) in *.
  assert (Rt : forall t, on_sphere s (pointR r t) <-> q + 2 * b * t + a * (t * t) = rho * rho).
  { intros t. split; [intros H; apply on_sphere_sq in H; rewrite point_sq in H; exact H|]. intros H. apply sq_on_sphere. rewrite point_sq. exact H. }
  assert (Dt : forall t, dotR (r_dir r) (subR (pointR r t) c0) = b + t * a) by (intros t; unfold a, b, pointR, lineR, normsqR, dotR, subR, addR, scaleR; cbn [vx vy vz]; ring).
  apply furnace_caught; auto.
  - assert (Di : 0 <= b * b - a * (q - rho * rho)) by nra.
    set (sq := sqrt (b * b - a * (q - rho * rho))). assert (Sq : sq * sq = b * b - a * (q - rho * rho)) by (apply sqrt_sqrt; exact Di).
    assert (S0 : 0 <= sq) by apply sqrt_pos. assert (Sb : - b < sq /\ b < sq) by (split; nra).
    set (t := (sq - b) / a). assert (At : a * t = sq - b) by (unfold t; field; lra).
    assert (On : on_sphere s (pointR r t)). { apply Rt. apply Rmult_eq_reg_l with a; [|lra]. replace (a * (q + 2 * b * t + a * (t * t))) with (a * q + 2 * b * (a * t) + (a * t) * (a * t)) by ring. rewrite At. nra. }
    assert (Tp : 0 < t) by nra. exists t. split; [|exact On]. destruct (Rlt_dec t (1000 * l_eps L)); [exfalso; exact (Clip t ltac:(lra) On)|lra].
  - intros t Ht On. apply Rt in On. rewrite Dt. nra.
Qed.
End Furnace.
