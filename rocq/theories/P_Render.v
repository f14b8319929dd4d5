(** render_scene: the frame buffer, the schedule and the generator. *)
From Coq Require Import Reals Lra ZArith Lia List Bool Permutation.
From Verif Require Import Num XR M_Vec M_Rng M_Hittable M_Materials M_Image Spec_Image P_Rng.
Import ListNotations.
Local Open Scope Z_scope.

(** *** stores *)
Lemma replace_spec : forall l n v, (n < length l)%nat -> exists l', replace n v l = Ok l' /\ length l' = length l /\
  forall m d, nth m l' d = if Nat.eqb m n then v else nth m l d.
Proof.
  induction l as [|a l IH]; intros n v N; cbn [length] in N; [lia|]. destruct n as [|n].
  - exists (v :: l). cbn [replace]. split; [reflexivity|]. split; [reflexivity|]. intros [|m] d; reflexivity.
  - destruct (IH n v ltac:(lia)) as (l' & E & Len & Nth). exists (a :: l'). cbn [replace]. rewrite E. split; [reflexivity|]. split; [cbn; lia|].
    intros [|m] d; cbn [nth Nat.eqb]; [reflexivity|apply Nth].
Qed.
Lemma store_spec : forall img idx v, 0 <= idx < Z.of_nat (length img) -> exists img', store img idx v = Ok img' /\ length img' = length img /\
  forall m d, nth m img' d = if Nat.eqb m (Z.to_nat idx) then v else nth m img d.
Proof.
  intros img idx v H. unfold store. rewrite (proj2 (Z.ltb_ge _ _)) by lia. apply replace_spec. lia.
Qed.

Lemma stores_spec : forall l img, NoDup (map fst l) -> (forall idx v, In (idx, v) l -> 0 <= idx < Z.of_nat (length img)) ->
  exists img', stores l img = Ok img' /\ length img' = length img /\
    (forall idx v d, In (idx, v) l -> nth (Z.to_nat idx) img' d = v) /\
    (forall m d, (forall idx v, In (idx, v) l -> Z.to_nat idx <> m) -> nth m img' d = nth m img d).
Proof.
  induction l as [|[idx v] l IH]; intros img N R.
  - exists img. split; [reflexivity|]. split; [reflexivity|]. split; [intros ? ? ? []|reflexivity].
  - cbn [map fst] in N. inversion N as [|? ? N1 N2]; subst.
    destruct (store_spec img idx v (R idx v (or_introl eq_refl))) as (img1 & E1 & L1 & S1).
    destruct (IH img1 N2) as (img2 & E2 & L2 & A2 & B2). { intros i w I. rewrite L1. apply (R i w). right; exact I. }
    exists img2. cbn [stores]. rewrite E1. cbn [obind]. split; [exact E2|]. split; [lia|]. split.
    + intros i w d [E|I]; [|apply A2; exact I]. injection E as <- <-. rewrite B2.
      * rewrite S1, Nat.eqb_refl. reflexivity.
      * intros i w I E. apply N1. apply (in_map fst) in I. cbn [fst] in I.
        assert (Ei : i = idx).
        { apply in_map_iff in I as ([i' w'] & <- & I). cbn [fst] in *. pose proof (R i' w' (or_intror I)). pose proof (R idx v (or_introl eq_refl)). lia. }
        subst i. exact I.
    + intros m d H. rewrite B2; [|intros i w I; apply (H i w); right; exact I]. rewrite S1.
      destruct (Nat.eqb_spec m (Z.to_nat idx)) as [E|E]; [|reflexivity]. exfalso. apply (H idx v (or_introl eq_refl)). auto.
Qed.

Lemma NoDup_app_intro : forall T (a b : list T), NoDup a -> NoDup b -> (forall x, In x a -> ~ In x b) -> NoDup (a ++ b).
Proof.
  induction a as [|x a IH]; intros b A B D; cbn [app]; [exact B|]. inversion A as [|? ? A1 A2]; subst. constructor.
  - rewrite in_app_iff. intros [I|I]; [contradiction|]. apply (D x (or_introl eq_refl)). exact I.
  - apply IH; auto. intros y I. apply D. right. exact I.
Qed.

Section Frame.
Variables width height : Z.
Hypothesis (W1 : 0 <= width) (H1 : 0 <= height).
Notation place i j c := (pixel_index width height i j + c).

Lemma place_offset : forall i j c, Z.to_nat (place i j c) = offset width height i j c.
Proof. intros i j c. unfold pixel_index, offset. f_equal. ring. Qed.
Lemma place_range : forall i j c, 0 <= i < width -> 0 <= j < height -> 0 <= c < 4 -> 0 <= place i j c < 4 * width * height.
Proof.
  intros i j c I J C. unfold pixel_index. assert (0 <= width * (height - 1 - j)) by nia.
  assert (width * (height - 1 - j) <= width * (height - 1)) by nia. nia.
Qed.
Lemma place_inj : forall i j c i' j' c', 0 <= i < width -> 0 <= j < height -> 0 <= c < 4 -> 0 <= i' < width -> 0 <= j' < height -> 0 <= c' < 4 ->
  place i j c = place i' j' c' -> i = i' /\ j = j' /\ c = c'.
Proof.
  intros i j c i' j' c' I J C I' J' C' E. unfold pixel_index in E.
  assert (E1 : 4 * (width * (height - 1 - j) + i) + c = 4 * (width * (height - 1 - j') + i') + c') by lia.
  assert (c = c' /\ width * (height - 1 - j) + i = width * (height - 1 - j') + i') as [-> E2] by lia. clear E1 E.
  assert (height - 1 - j = height - 1 - j' /\ i = i') as [E3 ->]; [|lia].
  set (a := height - 1 - j) in *. set (b := height - 1 - j') in *. clearbody a b.
  assert (a = b) by nia. subst b. lia.
Qed.
Lemma place_onto : forall n, 0 <= n < 4 * width * height -> exists i j c, (0 <= i < width /\ 0 <= j < height /\ 0 <= c < 4) /\ n = place i j c.
Proof.
  intros n N. assert (Wp : 0 < width) by nia. exists (n / 4 mod width), (height - 1 - n / 4 / width), (n mod 4).
  pose proof (Z.mod_pos_bound n 4 ltac:(lia)). pose proof (Z.mod_pos_bound (n / 4) width Wp). pose proof (Z.div_mod n 4 ltac:(lia)) as D1. pose proof (Z.div_mod (n / 4) width ltac:(lia)) as D2.
  assert (0 <= n / 4) by (apply Z.div_pos; lia). assert (0 <= n / 4 / width) by (apply Z.div_pos; lia).
  assert (n / 4 < width * height) by (apply Z.div_lt_upper_bound; lia). assert (n / 4 / width < height) by (apply Z.div_lt_upper_bound; lia).
  split; [lia|]. unfold pixel_index. set (a := n / 4) in *. replace (height - 1 - (height - 1 - a / width)) with (a / width) by ring.
  rewrite D1 at 1. fold a. rewrite D2 at 1. ring.
Qed.

Lemma frame_written : forall col order, store_schedule width height order -> exists img,
  stores (pixel_stores width height col order) (new_image width height) = Ok img /\ length img = Z.to_nat (4 * width * height) /\
  forall i j c d, 0 <= i < width -> 0 <= j < height -> 0 <= c < 4 -> nth (offset width height i j c) img d = col i j c.
Proof.
  intros col order [N In_]. destruct (stores_spec (pixel_stores width height col order) (new_image width height)) as (img & E & Len & A & _).
  - unfold pixel_stores. rewrite map_map. assert (G : forall l, NoDup l -> (forall p, In p l -> In p order) -> NoDup (map (fun x => fst (let '(i, j, c) := x in (place i j c, col i j c))) l)).
    { induction l as [|[[i j] c] l IH]; intros Nl Sub; cbn [map]; [constructor|]. inversion Nl; subst. constructor.
      - intros I. apply in_map_iff in I as ([[i' j'] c'] & Eq & I). cbn [fst] in Eq.
        assert (P : In (i, j, c) order) by (apply Sub; left; reflexivity). assert (P' : In (i', j', c') order) by (apply Sub; right; exact I).
        apply In_ in P, P'. apply place_inj in Eq as (-> & -> & ->); try lia. contradiction.
      - apply IH; auto. intros p Ip. apply Sub. right. exact Ip. }
    apply G; auto.
  - intros idx v I. unfold pixel_stores in I. apply in_map_iff in I as ([[i j] c] & Eq & I). injection Eq as <- <-. apply In_ in I.
    unfold new_image. rewrite repeat_length. pose proof (place_range i j c ltac:(lia) ltac:(lia) ltac:(lia)). rewrite Z2Nat.id; lia.
  - exists img. split; [exact E|]. unfold new_image in Len. rewrite repeat_length in Len. split; [exact Len|].
    intros i j c d I J C. rewrite <- place_offset. apply A. unfold pixel_stores. apply in_map_iff. exists (i, j, c). split; [reflexivity|]. apply In_. lia.
Qed.
Lemma offset_onto : forall n, (n < Z.to_nat (4 * width * height))%nat -> exists i j c, (0 <= i < width /\ 0 <= j < height /\ 0 <= c < 4) /\ n = offset width height i j c.
Proof.
  intros n N. destruct (place_onto (Z.of_nat n)) as (i & j & c & R & E); [lia|]. exists i, j, c. split; [exact R|]. rewrite <- place_offset. lia.
Qed.
Lemma frame_unique : forall col o1 o2, store_schedule width height o1 -> store_schedule width height o2 ->
  stores (pixel_stores width height col o1) (new_image width height) = stores (pixel_stores width height col o2) (new_image width height).
Proof.
  intros col o1 o2 S1 S2. destruct (frame_written col o1 S1) as (m1 & -> & L1 & A1), (frame_written col o2 S2) as (m2 & -> & L2 & A2). f_equal.
  apply nth_ext with (d := 0) (d' := 0); [lia|]. intros n N. rewrite L1 in N. destruct (offset_onto n N) as (i & j & c & R & ->).
  rewrite A1, A2 by lia. reflexivity.
Qed.

(** *** the loop over the pixels *)
Lemma write_pixel_spec : forall i j c img, 0 <= i < width -> 0 <= j < height -> length c = 4%nat -> length img = Z.to_nat (4 * width * height) ->
  exists img', write_pixel width height i j c img = Ok img' /\ length img' = length img /\
    (forall k d, 0 <= k < 4 -> nth (offset width height i j k) img' d = nth (Z.to_nat k) c d) /\
    (forall i' j' k d, 0 <= i' < width -> 0 <= j' < height -> 0 <= k < 4 -> (i', j') <> (i, j) -> nth (offset width height i' j' k) img' d = nth (offset width height i' j' k) img d).
Proof.
  intros i j c img I J C Len. destruct c as [|c0 [|c1 [|c2 [|c3 [|]]]]]; cbn [length] in C; try lia. clear C.
  assert (E0 : write_pixel width height i j [c0; c1; c2; c3] img = stores [(place i j 0, c0); (place i j 1, c1); (place i j 2, c2); (place i j 3, c3)] img).
  { unfold write_pixel. cbn [stores]. destruct (store img (place i j 0) c0) as [m0| |]; cbn [obind]; auto. destruct (store m0 (place i j 1) c1) as [m1| |]; cbn [obind]; auto.
    destruct (store m1 (place i j 2) c2) as [m2| |]; cbn [obind]; auto. destruct (store m2 (place i j 3) c3); reflexivity. }
  rewrite E0. destruct (stores_spec [(place i j 0, c0); (place i j 1, c1); (place i j 2, c2); (place i j 3, c3)] img) as (img' & E & L & A & B).
  - cbn [map fst]. repeat constructor; cbn [In]; lia.
  - intros idx v Iv. assert (G : forall k, 0 <= k < 4 -> 0 <= place i j k < Z.of_nat (length img)).
    { intros k K. pose proof (place_range i j k I J K). rewrite Len, Z2Nat.id; lia. }
    cbn [In] in Iv. destruct Iv as [Q|[Q|[Q|[Q|[]]]]]; injection Q as <- <-; apply G; lia.
  - exists img'. split; [exact E|]. split; [exact L|]. split.
    + intros k d K. rewrite <- place_offset. assert (k = 0 \/ k = 1 \/ k = 2 \/ k = 3) as [->|[->|[->| ->]]] by lia; cbn [Z.to_nat nth Pos.to_nat Pos.iter_op Nat.add];
        apply A; cbn [In]; auto.
    + intros i' j' k d I' J' K Ne. rewrite <- place_offset. apply B. intros idx v Iv Q.
      assert (G : exists k', 0 <= k' < 4 /\ idx = place i j k').
      { cbn [In] in Iv. destruct Iv as [R|[R|[R|[R|[]]]]]; injection R as <- <-; [exists 0|exists 1|exists 2|exists 3]; split; auto; lia. }
      destruct G as (k' & K' & ->). pose proof (place_range i j k' I J K'). pose proof (place_range i' j' k I' J' K).
      assert (Q2 : place i j k' = place i' j' k) by lia. apply place_inj in Q2 as (-> & -> & _); try lia. apply Ne. reflexivity.
Qed.
End Frame.

Lemma in_upto : forall n k, In k (upto n) <-> 0 <= k < n.
Proof.
  intros n k. unfold upto. rewrite in_map_iff. split.
  - intros (x & <- & I). apply in_seq in I. lia.
  - intros H. exists (Z.to_nat k). split; [lia|]. apply in_seq. lia.
Qed.
Lemma nodup_upto : forall n, NoDup (upto n).
Proof. intros n. unfold upto. apply FinFun.Injective_map_NoDup; [intros a b; apply Nat2Z.inj|apply seq_NoDup]. Qed.
Lemma raster_schedule : forall width height, schedule width height (raster width height).
Proof.
  intros width height. unfold raster. split.
  - assert (G : forall l, NoDup l -> NoDup (flat_map (fun j : Z => map (fun i : Z => (i, j)) (upto width)) l)).
    { induction l as [|j l IH]; intros N; cbn [flat_map]; [constructor|]. inversion N as [|? ? N1 N2]; subst. apply NoDup_app_intro.
      - apply FinFun.Injective_map_NoDup; [intros a b E; injection E; auto|apply nodup_upto].
      - apply IH. exact N2.
      - intros [a b] I1 I2. apply in_map_iff in I1 as (x & E & _). injection E as <- <-. apply in_flat_map in I2 as (y & Iy & I2).
        apply in_map_iff in I2 as (z & E & _). injection E as _ ->. contradiction. }
    apply G, nodup_upto.
  - intros i j. rewrite in_flat_map. split.
    + intros (y & Iy & I). apply in_map_iff in I as (x & E & I). injection E as <- <-. apply in_upto in Iy, I. lia.
    + intros [I J]. exists j. split; [apply in_upto; exact J|]. apply in_map_iff. exists i. split; [reflexivity|apply in_upto; exact I].
Qed.

Section Loop.
Context {F : NumOps}.
Context {M W : Type}.
Variable world_hit : W -> ray num -> num -> num -> outcome (option M * hit_record num * W).
Variable scatter : M -> W -> ray num -> hit_record num -> outcome (scattering * W).
Variable emitted : M -> hit_record num -> vec3 num.
Variables (width height : Z) (background : vec3 num) (cam : camera).
Hypothesis (W1 : 0 <= width) (H1 : 0 <= height).
Notation pix := (pixel world_hit scatter emitted width height background cam).
Notation rend := (render world_hit scatter emitted width height background cam).

Lemma rgba_length : forall v r, to_8bit_rgba v = Ok r -> length v = 3%nat -> length r = 4%nat.
Proof.
  intros v r E L. destruct v as [|a [|b [|c [|]]]]; cbn [length] in L; try lia. unfold to_8bit_rgba in E. cbn [mapM length Nat.eqb] in E.
  destruct (to_byte a); cbn [obind] in E; try discriminate. destruct (to_byte b); cbn [obind] in E; try discriminate. destruct (to_byte c); cbn [obind] in E; try discriminate.
  injection E as <-. reflexivity.
Qed.
Lemma pixel_length : forall spp i j g w c g' w', pix spp i j g w = Ok (c, g', w') -> length c = 4%nat.
Proof.
  intros spp i j g w c g' w' E. unfold pixel in E. destruct (samples _ _ _ _ _ _ _ _ _ _ _ _ _) as [[[col g1] w1]| |]; cbn [obind] in E; try discriminate.
  destruct (to_8bit_rgba (vec_list (vdiv col (nofZ (Z.of_nat spp))))) as [r| |] eqn:R; cbn [obind] in E; try discriminate. injection E as <- _ _.
  eapply rgba_length; [exact R|reflexivity].
Qed.

Lemma render_frame : forall spp order img g w img' g' w', rend spp order img g w = Ok (img', g', w') ->
  length img = Z.to_nat (4 * width * height) -> (forall i j, In (i, j) order -> 0 <= i < width /\ 0 <= j < height) -> NoDup order ->
  length img' = length img /\
  (forall i j, In (i, j) order -> exists g0 w0 c g1 w1, pix spp i j g0 w0 = Ok (c, g1, w1) /\ forall k d, 0 <= k < 4 -> nth (offset width height i j k) img' d = nth (Z.to_nat k) c d) /\
  (forall i j k d, 0 <= i < width -> 0 <= j < height -> 0 <= k < 4 -> ~ In (i, j) order -> nth (offset width height i j k) img' d = nth (offset width height i j k) img d).
Proof.
  intros spp order. induction order as [|[i j] order IH]; intros img g w img' g' w' E Len R N.
  - cbn [render] in E. injection E as <- _ _. split; [reflexivity|]. split; [intros i j []|auto].
  - cbn [render] in E. destruct (pix spp i j g w) as [[[c g1] w1]| |] eqn:P; cbn [obind] in E; try discriminate.
    destruct (R i j (or_introl eq_refl)) as [I J]. inversion N as [|? ? N1 N2]; subst.
    destruct (write_pixel_spec width height W1 i j c img I J (pixel_length _ _ _ _ _ _ _ _ P) Len) as (img1 & E1 & L1 & A1 & B1).
    rewrite E1 in E. cbn [obind] in E. destruct (IH _ _ _ _ _ _ E ltac:(lia) ltac:(intros a b H; apply R; right; exact H) N2) as (L2 & A2 & B2).
    split; [lia|]. split.
    + intros a b [Q|Q]; [|apply A2; exact Q]. injection Q as <- <-. exists g, w, c, g1, w1. split; [exact P|]. intros k d K. rewrite B2 by auto. apply A1. exact K.
    + intros a b k d Ra Rb K Q. rewrite B2; auto; [|intros Q2; apply Q; right; exact Q2]. apply B1; auto. intros Q2. apply Q. left. injection Q2 as -> ->. reflexivity.
Qed.
Lemma render_total : forall spp order img g w, (forall i j g w, In (i, j) order -> exists r, pix spp i j g w = Ok r) ->
  length img = Z.to_nat (4 * width * height) -> (forall i j, In (i, j) order -> 0 <= i < width /\ 0 <= j < height) -> exists r, rend spp order img g w = Ok r.
Proof.
  intros spp order. induction order as [|[i j] order IH]; intros img g w P Len R; cbn [render]; [eauto|].
  destruct (P i j g w (or_introl eq_refl)) as [[[c g1] w1] E]. rewrite E. cbn [obind]. destruct (R i j (or_introl eq_refl)) as [I J].
  destruct (write_pixel_spec width height W1 i j c img I J (pixel_length _ _ _ _ _ _ _ _ E) Len) as (img1 & E1 & L1 & _).
  rewrite E1. cbn [obind]. apply IH; [intros; apply P; right; assumption|lia|intros; apply R; right; assumption].
Qed.

(* the generator *)
Lemma iter_add : forall A (f : A -> A) a b x, Nat.iter a f (Nat.iter b f x) = Nat.iter (b + a) f x.
Proof. intros A f a b x. induction a as [|a IH]; [rewrite Nat.add_0_r; reflexivity|]. rewrite Nat.add_succ_r. exact (f_equal f IH). Qed.
Lemma sample_draws : forall i j g w c g' w', sample world_hit scatter emitted width height background cam i j g w = Ok (c, g', w') -> g' = Nat.iter 2 pcg_next g.
Proof.
  intros i j g w c g' w' E. unfold sample, pcg_real_01, pcg32_random_r in E. destruct (ray_color _ _ _ _ _ _ _) as [[c1 w1]| |]; cbn [obind] in E; try discriminate.
  injection E as _ <- _. reflexivity.
Qed.
Lemma samples_draws : forall n i j col g w c g' w', samples world_hit scatter emitted width height background cam n i j col g w = Ok (c, g', w') -> g' = Nat.iter (2 * n) pcg_next g.
Proof.
  induction n as [|n IH]; intros i j col g w c g' w' E; cbn [samples] in E.
  - injection E as _ <- _. reflexivity.
  - destruct (sample _ _ _ _ _ _ _ _ _ _ _) as [[[c1 g1] w1]| |] eqn:S; cbn [obind] in E; try discriminate. apply IH in E. apply sample_draws in S. subst.
    rewrite iter_add. f_equal. lia.
Qed.
Lemma pixel_draws : forall spp i j g w c g' w', pix spp i j g w = Ok (c, g', w') -> g' = Nat.iter (2 * spp) pcg_next g.
Proof.
  intros spp i j g w c g' w' E. unfold pixel in E. destruct (samples _ _ _ _ _ _ _ _ _ _ _ _ _) as [[[col g1] w1]| |] eqn:S; cbn [obind] in E; try discriminate.
  apply samples_draws in S. destruct (to_8bit_rgba _); cbn [obind] in E; try discriminate. injection E as _ <- _. exact S.
Qed.
Lemma render_draws : forall spp order img g w img' g' w', rend spp order img g w = Ok (img', g', w') -> g' = Nat.iter (2 * spp * length order) pcg_next g.
Proof.
  intros spp order. induction order as [|[i j] order IH]; intros img g w img' g' w' E; cbn [render] in E.
  - injection E as _ <- _. rewrite Nat.mul_0_r. reflexivity.
  - destruct (pix spp i j g w) as [[[c g1] w1]| |] eqn:P; cbn [obind] in E; try discriminate. apply pixel_draws in P.
    destruct (write_pixel _ _ _ _ _ _) as [img1| |]; cbn [obind] in E; try discriminate. apply IH in E. subst. rewrite iter_add. f_equal. cbn [length]. lia.
Qed.
End Loop.
