(** The image theorems in the form in which they are stated. *)
From Coq Require Import Reals Lra ZArith Lia List Bool Ascii.
From Flocq Require Import Core BinarySingleNaN.
From Verif Require Import Num XR FL Spec M_Vec M_Rng M_Hittable M_Materials M_Tables M_Image M_Fractal Spec_Image P_Vec P_FL P_Round P_Angle P_Png P_Cost P_Maps P_Render P_Viewport P_Fractal.
Import ListNotations.
Local Open Scope R_scope.

(** *** frames *)
Section Scene.
Context {F : NumOps}.
Context {M W : Type}.
Variable world_hit : W -> ray num -> num -> num -> outcome (option M * hit_record num * W).
Variable scatter : M -> W -> ray num -> hit_record num -> outcome (scattering * W).
Variable emitted : M -> hit_record num -> vec3 num.
Variables (width height : Z) (background : vec3 num) (cam : camera).
Hypothesis (W1 : (0 <= width)%Z) (H1 : (0 <= height)%Z).
Notation pix := (pixel world_hit scatter emitted width height background cam).
Notation scene := (render_scene world_hit scatter emitted width height background cam).

Lemma new_length : length (new_image width height) = Z.to_nat (4 * width * height).
Proof. unfold new_image. apply repeat_length. Qed.
Lemma scene_frame : forall spp order w img, schedule width height order -> scene spp order w = Ok img ->
  length img = Z.to_nat (4 * width * height) /\
  forall i j, (0 <= i < width)%Z -> (0 <= j < height)%Z -> exists g0 w0 c g1 w1, pix spp i j g0 w0 = Ok (c, g1, w1) /\
    forall k d, (0 <= k < 4)%Z -> nth (offset width height i j k) img d = nth (Z.to_nat k) c d.
Proof.
  intros spp order w img (ND & S) R. unfold render_scene in R. destruct (render _ _ _ _ _ _ _ _ _ _ _ _) as [[[img' g'] w']| |] eqn:E; try discriminate. injection R as <-.
  destruct (render_frame world_hit scatter emitted width height background cam W1 spp order _ _ _ _ _ _ E new_length) as (Ln & P & _); auto.
  { intros i j I. apply S. exact I. }
  cbn [fst]. split; [rewrite Ln; apply new_length|]. intros i j I J. apply P. apply S. split; assumption.
Qed.
Lemma scene_total : forall spp order w, schedule width height order -> (forall i j g w, (0 <= i < width)%Z -> (0 <= j < height)%Z -> exists r, pix spp i j g w = Ok r) ->
  exists img, scene spp order w = Ok img.
Proof.
  intros spp order w (ND & S) P. destruct (render_total world_hit scatter emitted width height background cam W1 spp order (new_image width height) pcg_seed w) as (r & E).
  - intros i j g w0 I. apply S in I. destruct I. apply P; assumption.
  - apply new_length.
  - intros i j I. apply S. exact I.
  - unfold render_scene. rewrite E. eexists. reflexivity.
Qed.
(* a scene whose pixels do not depend on the draws or on the state has one image *)
Lemma scene_unique : forall spp o1 o2 w (col : Z -> Z -> list Z), schedule width height o1 -> schedule width height o2 ->
  (forall i j g w, (0 <= i < width)%Z -> (0 <= j < height)%Z -> exists g' w', pix spp i j g w = Ok (col i j, g', w')) ->
  scene spp o1 w = scene spp o2 w.
Proof.
  intros spp o1 o2 w col S1 S2 P.
  assert (T : forall o, schedule width height o -> exists img, scene spp o w = Ok img).
  { intros o S. apply scene_total; auto. intros i j g w0 I J. destruct (P i j g w0 I J) as (g' & w' & E). rewrite E. eauto. }
  destruct (T o1 S1) as (i1 & E1). destruct (T o2 S2) as (i2 & E2). rewrite E1, E2. f_equal.
  destruct (scene_frame _ _ _ _ S1 E1) as (L1 & F1). destruct (scene_frame _ _ _ _ S2 E2) as (L2 & F2).
  apply nth_ext with (d := 0%Z) (d' := 0%Z); [congruence|]. intros n Hn. rewrite L1 in Hn.
  destruct (offset_onto width height H1 n Hn) as (i & j & c & (I & J & C) & ->).
  destruct (F1 i j I J) as (g & w0 & c0 & g1 & w1 & A & A'). destruct (F2 i j I J) as (h & v0 & d0 & h1 & v1 & B & B').
  destruct (P i j g w0 I J) as (? & ? & Q). rewrite A in Q. injection Q as -> _ _. destruct (P i j h v0 I J) as (? & ? & Q). rewrite B in Q. injection Q as -> _ _.
  rewrite A', B' by assumption. reflexivity.
Qed.
Lemma scene_draws : forall spp o1 o2 img g w i1 g1 w1 i2 g2 w2, schedule width height o1 -> schedule width height o2 ->
  render world_hit scatter emitted width height background cam spp o1 img g w = Ok (i1, g1, w1) ->
  render world_hit scatter emitted width height background cam spp o2 img g w = Ok (i2, g2, w2) -> g1 = g2.
Proof.
  intros spp o1 o2 img g w i1 g1 w1 i2 g2 w2 (N1 & S1) (N2 & S2) R1 R2.
  apply render_draws in R1. apply render_draws in R2. rewrite R1, R2.
  assert (E : length o1 = length o2); [|rewrite E; reflexivity].
  apply Nat.le_antisymm; apply NoDup_incl_length; auto; intros [i j] I; [apply S2, S1|apply S1, S2]; exact I.
Qed.
End Scene.

Lemma rows_schedule : forall o, o = rows_up \/ o = rows_down -> schedule 2 2 o.
Proof.
  intros o H. split.
  - destruct H as [-> | ->]; unfold rows_up, rows_down; repeat constructor; cbn; intuition congruence.
  - intros i j. transitivity ((i = 0 \/ i = 1)%Z /\ (j = 0 \/ j = 1)%Z); [|lia].
    destruct H as [-> | ->]; unfold rows_up, rows_down; cbn [In]; split.
    1,3: intros H; repeat destruct H as [H|H]; try (injection H as <- <-; auto); contradiction.
    all: intros [[-> | ->] [-> | ->]]; auto 6.
Qed.
Lemma schedule_case : forall rec0, schedule 2 2 rows_up /\ schedule 2 2 rows_down /\
  let scene o := render_scene (F:=XR double_limits) (lamp_hit rec0) lamp_scatter lamp_emitted 2 2 (fin3 (V3 0 0 0)) lamp_camera 1 o tt in
  exists a b, scene rows_up = Ok a /\ scene rows_down = Ok b /\ a <> b.
Proof.
  intros rec0. split; [apply rows_schedule; auto|]. split; [apply rows_schedule; auto|].
  cbv zeta. do 2 eexists. split; [apply lamp_up|]. split; [apply lamp_down|]. discriminate.
Qed.

(** *** bytes and colour maps, every format *)
Section Formats.
Variables prec emax : Z.
Context (Hp : Prec_gt_0 prec) (Hm : Prec_lt_emax prec emax).
Variable lm : libm (binary_float prec emax).
Notation float := (binary_float prec emax).
Notation N := (FL prec emax Hp Hm lm).
Hypothesis P8 : (8 <= prec)%Z.
Hypothesis E128 : (128 <= emax)%Z.

Lemma quantise : exists f : xr -> Z,
  (forall c : vec3 float, nonneg (vx c) -> nonneg (vy c) -> nonneg (vz c) ->
     to_8bit_rgba (F:=N) (vec_list (F:=N) c) = Ok [f (fval (vx c)); f (fval (vy c)); f (fval (vz c)); 255%Z]) /\
  (forall a b c d : float, nonneg a -> nonneg b -> nonneg c -> nonneg d ->
     to_8bit_rgba (F:=N) [a; b; c; d] = Ok [f (fval a); f (fval b); f (fval c); f (fval d)]) /\
  (forall x, byte (f x)) /\ (forall x y, xleb (Fin 0) x = true -> xleb x y = true -> (f x <= f y)%Z) /\
  f (Fin 0) = 0%Z /\ (forall x, xleb (Fin 1) x = true -> f x = 255%Z) /\
  (forall a, 0 <= a <= 1 -> IZR (f (Fin a)) <= 255 * sqrt a + bpow radix2 (8 - prec) /\ 255 * sqrt a - bpow radix2 (8 - prec) < IZR (f (Fin a)) + 1).
Proof.
  exists (the_byte prec emax). split; [|split; [|split; [|split; [|split; [|split]]]]].
  - intros c A B C. apply (rgba_ok prec emax Hp Hm lm P8); assumption.
  - intros a b c d A B C D. unfold to_8bit_rgba. cbn [mapM].
    rewrite !(to_byte_eq prec emax Hp Hm lm P8) by assumption. reflexivity.
  - apply the_byte_range; assumption.
  - apply the_byte_mono; assumption.
  - apply the_byte_0; assumption.
  - apply the_byte_1; assumption.
  - apply the_byte_close; assumption.
Qed.
Lemma quantise_bad : forall c : vec3 float, ~ nonneg (vx c) \/ ~ nonneg (vy c) \/ ~ nonneg (vz c) -> to_8bit_rgba (F:=N) (vec_list (F:=N) c) = Undef.
Proof.
  intros [c1 c2 c3] H. unfold to_8bit_rgba, vec_list. cbn [mapM vx vy vz] in *. unfold nonneg in H.
  assert (K : forall x : float, (exists b, to_byte (F:=N) x = Ok b) \/ to_byte (F:=N) x = Undef).
  { intros x. destruct (xleb (Fin 0) (fval x)) eqn:E; [left; eexists; apply (to_byte_eq prec emax Hp Hm lm P8); exact E|right; apply to_byte_bad; assumption]. }
  assert (B : forall x : float, xleb (Fin 0) (fval x) <> true -> to_byte (F:=N) x = Undef).
  { intros x E. apply to_byte_bad; auto. apply not_true_is_false. exact E. }
  destruct (K c1) as [(b & E)|E]; rewrite E; [|reflexivity]. cbn [obind].
  destruct (K c2) as [(b' & E')|E']; rewrite E'; [|reflexivity]. cbn [obind].
  destruct H as [H|[H|H]]; apply B in H; rewrite H in *; try discriminate. reflexivity.
Qed.

Lemma in_maps_unit : forall tr tg tb, In (tr, tg, tb) maps -> unit_table tr = true /\ unit_table tg = true /\ unit_table tb = true.
Proof.
  assert (A : forallb (fun m => unit_table (fst (fst m)) && unit_table (snd (fst m)) && unit_table (snd m)) maps = true) by (vm_compute; reflexivity).
  intros tr tg tb H. pose proof (proj1 (forallb_forall _ _) A _ H) as B. cbn [fst snd] in B. apply andb_prop in B. destruct B as [B C]. apply andb_prop in B. tauto.
Qed.
Lemma map_defined : forall tr tg tb (x : float), In (tr, tg, tb) maps -> fval x <> NaN -> exists c r g b, color_map (F:=N) tr tg tb x = Ok c /\
  fval (vx c) = Fin r /\ fval (vy c) = Fin g /\ fval (vz c) = Fin b /\ 0 <= r <= 1 /\ 0 <= g <= 1 /\ 0 <= b <= 1.
Proof.
  intros tr tg tb x I H. apply in_maps_unit in I. destruct I as (A & B & C).
  destruct (color_map_unit prec emax Hp Hm lm P8 E128 tr tg tb x A B C H) as (c & E & (r & Vr & R) & (g & Vg & G) & (b & Vb & B')).
  apply val_fval in Vr, Vg, Vb. exists c, r, g, b. repeat (split; [assumption|]). assumption.
Qed.
Lemma map_nan : forall tr tg tb (x : float), fval x = NaN -> color_map (F:=N) tr tg tb x = Undef.
Proof. intros. apply color_map_nan; assumption. Qed.
Lemma map_shown : forall tr tg tb (x : float), In (tr, tg, tb) maps -> fval x <> NaN ->
  exists r g b, byte r /\ byte g /\ byte b /\ obind (color_map (F:=N) tr tg tb x) (fun c => to_8bit_rgba (F:=N) (vec_list (F:=N) c)) = Ok [r; g; b; 255%Z].
Proof.
  intros tr tg tb x I H. destruct (map_defined tr tg tb x I H) as (c & r & g & b & E & Er & Eg & Eb & R & G & B). rewrite E. cbn [obind].
  destruct quantise as (f & Q & _ & By & _). assert (K : forall (t : float) a, fval t = Fin a -> 0 <= a -> nonneg t).
  { intros t a Et A. unfold nonneg. rewrite Et. cbn [xleb]. apply Rleb_iff. exact A. }
  do 3 eexists. split; [apply (By (fval (vx c)))|]. split; [apply (By (fval (vy c)))|]. split; [apply (By (fval (vz c)))|].
  apply Q; eapply K; eauto; lra.
Qed.

(** *** cost *)
Lemma times_of : forall l, all_times l -> times prec emax l.
Proof. intros l H t I. destruct (H t I) as (r & E & R). exists r. split; [apply val_fval; exact E|exact R]. Qed.
Lemma varied_of : forall l, all_times l -> varied l -> distinct prec emax l.
Proof.
  intros l T (t & u & It & Iu & D). destruct (T t It) as (r & E & _). destruct (T u Iu) as (q & E' & _). exists t, u, r, q.
  split; [exact It|]. split; [exact Iu|]. split; [apply val_fval; exact E|]. split; [apply val_fval; exact E'|]. intros ->. apply D. congruence.
Qed.
Lemma cost_unit : forall l c, all_times l -> varied l -> In c l -> exists s, fval (cost_scalar (F:=N) l c) = Fin s /\ 0 <= s <= 1.
Proof.
  intros l c T V I. destruct (cost_scalar_unit prec emax Hp Hm lm P8 l c (times_of l T) (varied_of l T V) I) as (s & E & S). exists s. split; [apply val_fval; exact E|exact S].
Qed.
Lemma cost_monotone : forall l c d, all_times l -> varied l -> In c l -> In d l -> xleb (fval c) (fval d) = true ->
  xleb (fval (cost_scalar (F:=N) l c)) (fval (cost_scalar (F:=N) l d)) = true.
Proof.
  intros l c d T V C D H. destruct (T c C) as (r & Er & _). destruct (T d D) as (q & Eq & _). rewrite Er, Eq in H. cbn [xleb] in H. apply Rleb_iff in H.
  destruct (cost_scalar_mono prec emax Hp Hm lm P8 l c d r q (times_of l T) (varied_of l T V) C D) as (s & s' & A & B & S); auto; try (apply val_fval; assumption).
  apply val_fval in A, B. rewrite A, B. apply Rleb_iff. exact S.
Qed.
Lemma cost_ends : forall l c, all_times l -> varied l -> In c l ->
  ((forall t, In t l -> xleb (fval c) (fval t) = true) -> fval (cost_scalar (F:=N) l c) = Fin 0) /\
  ((forall t, In t l -> xleb (fval t) (fval c) = true) -> fval (cost_scalar (F:=N) l c) = Fin 1).
Proof.
  intros l c T V C. destruct (T c C) as (r & Er & _). destruct (cost_scalar_ends prec emax Hp Hm lm P8 l c r (times_of l T) (varied_of l T V) C (proj2 (val_fval _ _ _ _) Er)) as (A & B).
  split; intros H; apply val_fval; [apply A|apply B]; intros t q I Q; apply val_fval in Q; specialize (H t I); rewrite Er, Q in H; apply Rleb_iff in H; exact H.
Qed.
Lemma cost_shown : forall l c, all_times l -> varied l -> In c l -> exists r g b, byte r /\ byte g /\ byte b /\ cost_pixel (F:=N) l c = Ok [r; g; b; 255%Z].
Proof.
  intros l c T V I. destruct (cost_unit l c T V I) as (s & E & S). apply map_shown; [right; right; left; reflexivity|]. rewrite E. discriminate.
Qed.
Lemma cost_equal : forall l c r, 0 <= r -> In c l -> (forall t, In t l -> fval t = Fin r) -> fval (cost_scalar (F:=N) l c) = NaN /\ cost_pixel (F:=N) l c = Undef.
Proof.
  intros l c r R I A. assert (E : cost_scalar (F:=N) l c = B754_nan).
  { apply (cost_scalar_equal prec emax Hp Hm lm P8 l c r R I). intros t It. apply val_fval. apply A. exact It. }
  rewrite E. split; [reflexivity|]. unfold cost_pixel, inferno. rewrite color_map_nan; [reflexivity|rewrite E; reflexivity].
Qed.
(** *** progress *)
Lemma progress_cells : forall (p : float) r, fval p = Fin r -> 0 <= r <= 1 -> exists k, (k <= 100)%nat /\
  display_progress (F:=N) p = Ok (bar k, Z.of_nat k) /\ length (bar k) = 100%nat /\
  INR k <= 100 * r + bpow radix2 (6 - prec) /\ 100 * r - bpow radix2 (6 - prec) < INR k + 1.
Proof.
  intros p r E R. destruct (progress_fl prec emax Hp Hm lm P8 p r (proj2 (val_fval _ _ _ _) E) R) as (k & K & D & B). exists k. split; [exact K|].
  split; [|split; [apply bar_length; exact K|exact B]]. rewrite D, cells_bar by exact K. reflexivity.
Qed.
End Formats.

(** *** the colour of a root *)
Section Root.
Context {L : limits}.
Notation X := (XR L).
Lemma root_angle : forall a b, exists s, root_scalar (F:=X) (cfin a b) = Fin s /\ 0 <= s < 1 /\
  a = sqrt (a * a + b * b) * cos (2 * PI * s) /\ b = sqrt (a * a + b * b) * sin (2 * PI * s).
Proof.
  intros a b. pose proof PI_RGT_0 as P. unfold root_scalar, cfin. cbn [re im]. xred.
  assert (K : - PI < Ratan2 b a <= PI /\ a = sqrt (a * a + b * b) * cos (Ratan2 b a) /\ b = sqrt (a * a + b * b) * sin (Ratan2 b a)).
  { destruct (Rle_lt_dec (a * a + b * b) 0) as [Z0|Z0].
    - assert (a = 0 /\ b = 0) as (-> & ->) by (pose proof (Rle_0_sqr a); pose proof (Rle_0_sqr b); unfold Rsqr in *; split; apply Rsqr_0_uniq; unfold Rsqr; lra).
      rewrite Ratan2_zero. replace (0 * 0 + 0 * 0) with 0 by ring. rewrite sqrt_0. lra.
    - destruct (Ratan2_polar b a Z0) as (C & S & B). auto. }
  destruct K as (B & C & S). set (t := Ratan2 b a) in *.
  destruct (Rltb_spec t 0) as [T|T]; xred; rewrite xdiv_fin by lra; eexists; (split; [reflexivity|]).
  - replace (2 * PI * ((t + 2 * PI) / (2 * PI))) with (t + 2 * PI) by (field; lra). rewrite cos_plus, sin_plus, cos_2PI, sin_2PI.
    replace (cos t * 1 - sin t * 0) with (cos t) by ring. replace (sin t * 1 + cos t * 0) with (sin t) by ring. split; [|split; assumption].
    split; [apply Rmult_le_pos; [lra|apply Rlt_le, Rinv_0_lt_compat; lra]|]. apply Rmult_lt_reg_r with (2 * PI); [lra|]. unfold Rdiv. rewrite Rmult_assoc, Rinv_l by lra. lra.
  - replace (2 * PI * (t / (2 * PI))) with t by (field; lra). split; [|split; assumption].
    split; [apply Rmult_le_pos; [lra|apply Rlt_le, Rinv_0_lt_compat; lra]|]. apply Rmult_lt_reg_r with (2 * PI); [lra|]. unfold Rdiv. rewrite Rmult_assoc, Rinv_l by lra. lra.
Qed.
(* the colour of every root is displayable *)
Lemma root_shown : forall a b, exists c, obind (smooth_cool_warm (F:=X) (root_scalar (F:=X) (cfin a b))) (fun c => to_8bit_rgba (F:=X) (vec_list (F:=X) c)) = Ok c /\
  length c = 4%nat /\ forall z, In z c -> byte z.
Proof.
  intros a b. destruct (root_angle a b) as (s & E & _). rewrite E.
  destruct (map_range (L:=L) smooth_cool_warm_r smooth_cool_warm_g smooth_cool_warm_b s) as (c & Ec & R & G & B); [cbn; auto 10|].
  unfold smooth_cool_warm. rewrite Ec. cbn [obind]. rewrite rgba_exact by lra. eexists. split; [reflexivity|]. split; [reflexivity|].
  assert (K : forall x, 0 <= x -> byte (Zfloor (255 * sqrt (Rmin x 1)))).
  { intros x X0. pose proof (sqrt_pos (Rmin x 1)). assert (sqrt (Rmin x 1) <= 1) by (rewrite <- sqrt_1 at 2; apply sqrt_le_1_alt, Rmin_r).
    split; [apply Zfloor_lub; cbn; lra|]. apply le_IZR. eapply Rle_trans; [apply Zfloor_lb|]. lra. }
  cbn [map app In]. intros z [<-|[<-|[<-|[<-|[]]]]]; try (apply K; lra). split; lia.
Qed.
End Root.

(** *** a scene without objects *)
Section Empty.
Context {L : limits}.
Notation X := (XR L).
Context {M W : Type}.
Variable world_hit : W -> ray xr -> xr -> xr -> outcome (option M * hit_record xr * W).
Variable scatter : M -> W -> ray xr -> hit_record xr -> outcome (@scattering X * W).
Variable emitted : M -> hit_record xr -> vec3 xr.
Variables (width height : Z) (bg : vec3 R) (cam : @camera X).
Hypothesis (W1 : (0 <= width)%Z) (H1 : (0 <= height)%Z).
Hypothesis misses : forall w r a b, exists rec w', world_hit w r a b = Ok (None, rec, w').
Hypothesis (B1 : 0 <= vx bg) (B2 : 0 <= vy bg) (B3 : 0 <= vz bg).
Notation smp := (samples (F:=X) world_hit scatter emitted width height (fin3 bg) cam).

Lemma empty_samples : forall n i j c g w, exists g' w', smp n i j (fin3 c) g w = Ok (fin3 (addR c (scaleR (INR n) bg)), g', w').
Proof.
  induction n as [|n IH]; intros i j c g w.
  - exists g, w. cbn [samples]. replace (addR c (scaleR (INR 0) bg)) with c; [reflexivity|]. destruct c; unfold addR, scaleR; cbn; apply V3_ext; ring.
  - cbn [samples]. unfold sample. destruct (pcg_real_01 (F:=X) g) as [r1 g1]. destruct (pcg_real_01 (F:=X) g1) as [r2 g2].
    cbn [ray_color]. destruct (misses w (get_ray (F:=X) cam (pixel_u (F:=X) width i r1) (pixel_v (F:=X) height j r2)) (nmul (NumOps:=X) (nofZ (NumOps:=X) 1000) (neps (NumOps:=X))) (ninf (NumOps:=X))) as (rec & w' & E).
    change (@num X) with xr in *. rewrite E. cbn [obind]. rewrite vadd_fin. destruct (IH i j (addR c bg) g2 w') as (g' & w'' & E'). exists g', w''.
    rewrite E'. replace (addR (addR c bg) (scaleR (INR n) bg)) with (addR c (scaleR (INR (S n)) bg)); [reflexivity|]. rewrite S_INR. unfold addR, scaleR. cbn [vx vy vz]. apply V3_ext; ring.
Qed.
Lemma empty_pixel : forall spp i j g w, (1 <= spp)%nat -> exists g' w', pixel (F:=X) world_hit scatter emitted width height (fin3 bg) cam spp i j g w =
  Ok (map (fun a => Zfloor (255 * sqrt (Rmin a 1))) [vx bg; vy bg; vz bg] ++ [255%Z], g', w').
Proof.
  intros spp i j g w H. unfold pixel. change (V3 (nofZ (NumOps:=X) 0) (nofZ (NumOps:=X) 0) (nofZ (NumOps:=X) 0)) with (fin3 (V3 0 0 0)).
  destruct (empty_samples spp i j (V3 0 0 0) g w) as (g' & w' & E). exists g', w'. rewrite E. cbn [obind].
  assert (S0 : 1 <= INR spp) by (apply (le_INR 1); exact H).
  change (nofZ (NumOps:=X) (Z.of_nat spp)) with (Fin (IZR (Z.of_nat spp))). rewrite <- INR_IZR_INZ. rewrite vdiv_fin by lra.
  replace (scaleR (/ INR spp) (addR (V3 0 0 0) (scaleR (INR spp) bg))) with bg by (destruct bg; unfold scaleR, addR; cbn; apply V3_ext; field; lra).
  rewrite rgba_exact by assumption. reflexivity.
Qed.
Lemma empty_scene : forall spp order w, (1 <= spp)%nat -> schedule width height order -> exists img,
  render_scene (F:=X) world_hit scatter emitted width height (fin3 bg) cam spp order w = Ok img /\ length img = Z.to_nat (4 * width * height) /\
  forall i j k d, (0 <= i < width)%Z -> (0 <= j < height)%Z -> (0 <= k < 4)%Z ->
    nth (offset width height i j k) img d = nth (Z.to_nat k) (map (fun a => Zfloor (255 * sqrt (Rmin a 1))) [vx bg; vy bg; vz bg] ++ [255%Z]) d.
Proof.
  intros spp order w H S. destruct (scene_total (F:=X) world_hit scatter emitted width height (fin3 bg) cam W1 spp order w S) as (img & E).
  { intros i j g w0 _ _. destruct (empty_pixel spp i j g w0 H) as (g' & w' & E). change (@num X) with xr in *. rewrite E. eauto. }
  exists img. split; [exact E|]. destruct (scene_frame (F:=X) world_hit scatter emitted width height (fin3 bg) cam W1 spp order w img S E) as (Ln & P). split; [exact Ln|].
  intros i j k d I J K. destruct (P i j I J) as (g0 & w0 & c & g1 & w1 & Ec & Hc). rewrite Hc by exact K.
  destruct (empty_pixel spp i j g0 w0 H) as (g' & w' & Ep). change (@num X) with xr in *. rewrite Ec in Ep. injection Ep as -> _ _. reflexivity.
Qed.
End Empty.
