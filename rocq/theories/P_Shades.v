(** Rendering in exact arithmetic when the colours of the samples are known. *)
From Coq Require Import Reals ZArith Lra Lia List Bool.
From Flocq Require Import Core.
From Verif Require Import Spec_Random Num XR Spec Spec_Scene Spec_Light Spec_Shapes Spec_Image Spec_World Spec_Shades M_Vec M_Rng M_Hittable M_Materials M_Shapes M_Image M_World
  P_Vec P_Rng P_Maps P_Light P_Path P_Render P_World.
Import ListNotations.
Local Open Scope R_scope.

Section Shades.
Context {L : limits}.
Notation X := (XR L).
Context {W M : Type}.
Variable wh : W -> ray xr -> xr -> xr -> outcome (option M * hit_record xr * W).
Variable sc : nat -> M -> W -> ray xr -> hit_record xr -> outcome (scattering (F:=X) * W).
Variable em : M -> hit_record xr -> vec3 xr.
Variables (bg : vec3 R) (cam : camera (F:=X)) (width height : Z).
Variable Good : W -> Prop.
Variable Shade : Z -> Z -> vec3 R -> Prop.
Hypothesis (W2 : (2 <= width)%Z) (H2 : (2 <= height)%Z).
(** the colour of one sample *)
Hypothesis one : forall i j x y w, (0 <= i < width)%Z -> (0 <= j < height)%Z -> tick x -> tick y -> Good w -> exists k c w',
  (forall fuel, (k <= fuel)%nat -> ray_color (F:=X) wh (sc fuel) em 8 w (get_ray (F:=X) cam (Fin ((IZR i + x) / IZR (width - 1))) (Fin ((IZR j + y) / IZR (height - 1)))) (fin3 bg) = Ok (fin3 c, w')) /\
  Shade i j c /\ nonneg3 c /\ Good w'.

Lemma draw_tick : forall g, tick (draw g).
Proof. intros g. exists (pcg_output (pc_state g)). split; [apply pcg_output_range|reflexivity]. Qed.

Lemma sample_shade : forall i j g w, (0 <= i < width)%Z -> (0 <= j < height)%Z -> Good w -> exists k c g' w',
  (forall fuel, (k <= fuel)%nat -> sample (F:=X) wh (sc fuel) em width height (fin3 bg) cam i j g w = Ok (fin3 c, g', w')) /\ Shade i j c /\ nonneg3 c /\ Good w'.
Proof.
  intros i j g w Hi Hj G. unfold sample. rewrite pcg_real_01_draw. rewrite pcg_real_01_draw.
  unfold pixel_u, pixel_v. cbn [nadd ndiv nofZ XR xadd]. rewrite !xdiv_fin by (apply not_0_IZR; lia).
  destruct (one i j (draw g) (draw (pcg_next g)) w Hi Hj (draw_tick _) (draw_tick _) G) as (k & c & w' & E & S' & N & G').
  exists k, c. eexists _, w'. split; [|auto]. intros fuel Hf. change (@num X) with xr in *. rewrite (E fuel Hf). cbn [obind]. reflexivity.
Qed.
Lemma samples_shade : forall n m i j c g w, (0 <= i < width)%Z -> (0 <= j < height)%Z -> total (Shade i j) m c -> nonneg3 c -> Good w -> exists k c' g' w',
  (forall fuel, (k <= fuel)%nat -> samples (F:=X) wh (sc fuel) em width height (fin3 bg) cam n i j (fin3 c) g w = Ok (fin3 c', g', w')) /\ total (Shade i j) (n + m) c' /\ nonneg3 c' /\ Good w'.
Proof.
  induction n as [|n IH]; intros m i j c g w Hi Hj T Nc G.
  - exists 0%nat, c, g, w. split; [reflexivity|auto].
  - destruct (sample_shade i j g w Hi Hj G) as (k1 & c1 & g1 & w1 & E1 & S1 & N1 & G1).
    destruct (IH (S m) i j (addR c c1) g1 w1 Hi Hj) as (k2 & c2 & g2 & w2 & E2 & T2 & N2 & G2); [constructor; assumption|unfold nonneg3, addR in *; cbn [vx vy vz]; lra|exact G1|].
    exists (Nat.max k1 k2), c2, g2, w2. split; [|split; [replace (S n + m)%nat with (n + S m)%nat by lia; exact T2|auto]].
    intros fuel Hf. cbn [samples]. change (@num X) with xr in *. rewrite (E1 fuel) by lia. cbn [obind].
    rewrite vadd_fin. change (@num X) with xr in *. rewrite (E2 fuel) by lia. reflexivity.
Qed.
Lemma pixel_shade : forall spp i j g w, (1 <= spp)%nat -> (0 <= i < width)%Z -> (0 <= j < height)%Z -> Good w -> exists k c g' w',
  (forall fuel, (k <= fuel)%nat -> pixel (F:=X) wh (sc fuel) em width height (fin3 bg) cam spp i j g w = Ok (map shade [vx c / INR spp; vy c / INR spp; vz c / INR spp] ++ [255%Z], g', w')) /\
  total (Shade i j) spp c /\ nonneg3 c /\ Good w'.
Proof.
  intros spp i j g w Hs Hi Hj G. unfold pixel. change (V3 (nofZ (NumOps:=X) 0) (nofZ (NumOps:=X) 0) (nofZ (NumOps:=X) 0)) with (fin3 (V3 0 0 0)).
  destruct (samples_shade spp 0 i j (V3 0 0 0) g w Hi Hj) as (k & c & g' & w' & E & T & N & G'); [constructor|unfold nonneg3; cbn; lra|exact G|].
  rewrite Nat.add_0_r in T.
  assert (S0 : 1 <= INR spp) by (apply (le_INR 1); exact Hs). assert (Q0 : 0 < / INR spp) by (apply Rinv_0_lt_compat; lra).
  assert (Q : nonneg3 (scaleR (/ INR spp) c)).
  { destruct N as (? & ? & ?). unfold nonneg3, scaleR; cbn [vx vy vz]. repeat split; apply Rmult_le_pos; lra. }
  exists k, c, g', w'. split; [|auto]. intros fuel Hf. rewrite (E fuel Hf). cbn [obind].
  change (nofZ (NumOps:=X) (Z.of_nat spp)) with (Fin (IZR (Z.of_nat spp))). rewrite <- INR_IZR_INZ. rewrite vdiv_fin by lra.
  rewrite rgba_exact by apply Q. cbn [obind scaleR vx vy vz]. unfold shade. rewrite !(Rmult_comm (/ INR spp)). reflexivity.
Qed.
Lemma render_shade : forall spp, (1 <= spp)%nat -> forall order img g w, (forall i j, In (i, j) order -> (0 <= i < width)%Z /\ (0 <= j < height)%Z) -> NoDup order ->
  length img = Z.to_nat (4 * width * height) -> Good w -> exists k img' g' w',
  (forall fuel, (k <= fuel)%nat -> render (F:=X) wh (sc fuel) em width height (fin3 bg) cam spp order img g w = Ok (img', g', w')) /\ length img' = length img /\
  (forall i j, In (i, j) order -> pixel_of width height img' i j (Shade i j) spp) /\
  (forall i j k d, (0 <= i < width)%Z -> (0 <= j < height)%Z -> (0 <= k < 4)%Z -> ~ In (i, j) order -> nth (offset width height i j k) img' d = nth (offset width height i j k) img d).
Proof.
  intros spp Hs. induction order as [|[i j] order IH]; intros img g w I Nd Li G.
  - exists 0%nat, img, g, w. split; [reflexivity|]. split; [reflexivity|]. split; [intros i j []|auto].
  - destruct (I i j (or_introl eq_refl)) as [Ii Ij]. inversion Nd as [|? ? N1 N2]; subst.
    destruct (pixel_shade spp i j g w Hs Ii Ij G) as (k1 & c & g1 & w1 & E1 & T1 & Nc & G1).
    destruct (write_pixel_spec width height ltac:(lia) i j (map shade [vx c / INR spp; vy c / INR spp; vz c / INR spp] ++ [255%Z]) img Ii Ij eq_refl Li) as (img1 & Ew & L1 & A1 & B1).
    destruct (IH img1 g1 w1) as (k2 & img2 & g2 & w2 & E2 & L2 & A2 & B2); [intros; apply I; right; assumption|exact N2|congruence|exact G1|].
    exists (Nat.max k1 k2), img2, g2, w2. split; [|split; [congruence|split]].
    + intros fuel Hf. cbn [render]. change (@num X) with xr in *. rewrite (E1 fuel) by lia. cbn [obind]. rewrite Ew. cbn [obind]. apply E2. lia.
    + intros a b [Q|Q]; [|apply A2; exact Q]. injection Q as <- <-. exists c. split; [exact T1|]. intros k d K. rewrite B2 by auto. apply A1. exact K.
    + intros a b k d Ra Rb K Q. rewrite B2; auto; [|intros Q2; apply Q; right; exact Q2]. apply B1; auto. intros Q2. apply Q. left. injection Q2 as -> ->. reflexivity.
Qed.
Lemma scene_shades : forall spp order w, (1 <= spp)%nat -> schedule width height order -> Good w -> exists k img,
  (forall fuel, (k <= fuel)%nat -> render_scene (F:=X) wh (sc fuel) em width height (fin3 bg) cam spp order w = Ok img) /\
  length img = Z.to_nat (4 * width * height) /\ forall i j, (0 <= i < width)%Z -> (0 <= j < height)%Z -> pixel_of width height img i j (Shade i j) spp.
Proof.
  intros spp order w Hs (Nd & So) G.
  destruct (render_shade spp Hs order (new_image width height) pcg_seed w) as (k & img & g' & w' & E & Ln & P & _).
  { intros i j. apply So. } { exact Nd. } { unfold new_image. apply repeat_length. } { exact G. }
  exists k, img. split; [|split].
  - intros fuel Hf. unfold render_scene. change (@num X) with xr in *. rewrite (E fuel Hf). reflexivity.
  - rewrite Ln. unfold new_image. apply repeat_length.
  - intros i j Hi Hj. apply P. apply So. auto.
Qed.
End Shades.
