(** newton_fractal.cpp in exact arithmetic: g at every number, the symmetries of its iteration,
    and the picture. *)
From Coq Require Import Reals Lra Psatz ZArith Lia List Bool.
From Flocq Require Import Core.
From Verif Require Import Num XR M_Vec M_Tables M_Image M_Fractal Spec_Image P_Render P_Image P_Fractal P_Picture.
Import ListNotations.
Local Open Scope R_scope.

Section Basin.
Context {L : limits}.
Notation X := (XR L).
Notation eps := (l_eps L).

(** *** g *)
Definition re4 (x y : R) : R := x ^ 4 - 6 * x ^ 2 * y ^ 2 + y ^ 4.
Definition im4 (x y : R) : R := 4 * x * y * (x ^ 2 - y ^ 2).
Definition re3 (x y : R) : R := x ^ 3 - 3 * x * y ^ 2.
Definition im3 (x y : R) : R := 3 * x ^ 2 * y - y ^ 3.
Definition w1 x y := re4 x y * (re4 x y + 15) - im4 x y * im4 x y - 16.
Definition w2 x y := re4 x y * im4 x y + im4 x y * (re4 x y + 15).
Definition d1 x y := 4 * re3 x y * (2 * re4 x y + 15) - 4 * im3 x y * (2 * im4 x y).
Definition d2 x y := 4 * re3 x y * (2 * im4 x y) + 4 * im3 x y * (2 * re4 x y + 15).
Lemma g_fin : forall x y, g (F:=X) (cfin x y) = (cfin (w1 x y) (w2 x y), cfin (d1 x y) (d2 x y)).
Proof.
  intros x y. unfold g, c_mul, c_sub_real, c_add_real, c_scale, cfin. cbn [re im]. xred. unfold w1, w2, d1, d2, re4, im4, re3, im3. f_equal; f_equal; f_equal; ring.
Qed.
(* one step *)
Definition n1 x y := x - (w1 x y * d1 x y + w2 x y * d2 x y) / (d1 x y * d1 x y + d2 x y * d2 x y).
Definition n2 x y := y - (w2 x y * d1 x y - w1 x y * d2 x y) / (d1 x y * d1 x y + d2 x y * d2 x y).
Definition size (a b : R) : R := sqrt (a * a + b * b).
Lemma newton_flat : forall x y k n, d1 x y = 0 -> d2 x y = 0 -> complex_newton (F:=X) (Fin k) n (g (F:=X)) (cfin x y) = OutOfFuel.
Proof.
  intros x y k [|n] A B; [reflexivity|]. cbn [complex_newton]. rewrite g_fin, A, B.
  assert (Z : c_sub (F:=X) (cfin x y) (c_div (F:=X) (cfin (w1 x y) (w2 x y)) (cfin 0 0)) = Cpx NaN NaN).
  { unfold c_sub, c_div, cfin. cbn [re im]. xred. replace (w1 x y * 0 + w2 x y * 0) with 0 by ring. replace (0 * 0 + 0 * 0) with 0 by ring. replace (w2 x y * 0 - w1 x y * 0) with 0 by ring.
    rewrite xdiv_zero_zero. reflexivity. }
  rewrite Z. unfold c_abs, c_mul, cfin. cbn [re im]. xred. unfold xsqrt at 2. cbn [xmul].
  replace (xleb _ NaN) with false by (destruct (xsqrt _); reflexivity). apply newton_nan.
Qed.
Lemma newton_next : forall x y k n, d1 x y <> 0 \/ d2 x y <> 0 -> complex_newton (F:=X) (Fin k) (S n) (g (F:=X)) (cfin x y) =
  if Rleb (size (w1 x y) (w2 x y)) (k * eps * size (n1 x y * d1 x y - n2 x y * d2 x y) (n1 x y * d2 x y + n2 x y * d1 x y)) then Ok (cfin (n1 x y) (n2 x y))
  else complex_newton (F:=X) (Fin k) n (g (F:=X)) (cfin (n1 x y) (n2 x y)).
Proof.
  intros x y k n D. cbn [complex_newton]. rewrite g_fin.
  assert (P : d1 x y * d1 x y + d2 x y * d2 x y <> 0).
  { pose proof (Rle_0_sqr (d1 x y)). pose proof (Rle_0_sqr (d2 x y)). unfold Rsqr in *. destruct D as [D|D]; [assert (0 < d1 x y * d1 x y) by (apply Rsqr_pos_lt; exact D)|assert (0 < d2 x y * d2 x y) by (apply Rsqr_pos_lt; exact D)]; lra. }
  assert (A : c_sub (F:=X) (cfin x y) (c_div (F:=X) (cfin (w1 x y) (w2 x y)) (cfin (d1 x y) (d2 x y))) = cfin (n1 x y) (n2 x y)).
  { unfold c_sub, c_div, cfin. cbn [re im]. xred. rewrite !xdiv_fin by exact P. reflexivity. }
  rewrite A. set (a := n1 x y). set (b := n2 x y).
  assert (S : forall p q, 0 <= p * p + q * q) by (intros p q; pose proof (Rle_0_sqr p); pose proof (Rle_0_sqr q); unfold Rsqr in *; lra).
  assert (B : nleb (NumOps:=X) (c_abs (F:=X) (cfin (w1 x y) (w2 x y))) (nmul (NumOps:=X) (nmul (NumOps:=X) (Fin k) (neps (NumOps:=X))) (c_abs (F:=X) (c_mul (F:=X) (cfin a b) (cfin (d1 x y) (d2 x y))))) =
    Rleb (size (w1 x y) (w2 x y)) (k * eps * size (a * d1 x y - b * d2 x y) (a * d2 x y + b * d1 x y))).
  { unfold c_abs, c_mul, cfin. cbn [re im]. xred. rewrite !xsqrt_fin by apply S. reflexivity. }
  rewrite B. reflexivity.
Qed.
Lemma flat_or : forall x y, d1 x y = 0 /\ d2 x y = 0 \/ (d1 x y <> 0 \/ d2 x y <> 0).
Proof. intros x y. destruct (Req_dec (d1 x y) 0), (Req_dec (d2 x y) 0); auto. Qed.
(* the result is a number *)
Lemma newton_finite : forall k n x y z, complex_newton (F:=X) (Fin k) n (g (F:=X)) (cfin x y) = Ok z -> exists a b, z = cfin a b.
Proof.
  intros k n. induction n as [|n IH]; intros x y z E; [discriminate|]. destruct (flat_or x y) as [[A B]|D].
  - rewrite newton_flat in E by assumption. discriminate.
  - rewrite newton_next in E by exact D. destruct (Rleb _ _); [injection E as <-; eauto|]. apply IH in E. exact E.
Qed.
Lemma newton_outcome : forall k n x y, complex_newton (F:=X) (Fin k) n (g (F:=X)) (cfin x y) = OutOfFuel \/ exists a b, complex_newton (F:=X) (Fin k) n (g (F:=X)) (cfin x y) = Ok (cfin a b).
Proof.
  intros k n. induction n as [|n IH]; intros x y; [left; reflexivity|]. destruct (flat_or x y) as [[A B]|D]; [left; apply newton_flat; assumption|].
  rewrite newton_next by exact D. destruct (Rleb _ _); [right; eauto|apply IH].
Qed.

(** *** symmetries *)
Lemma size_comm : forall a b, size a b = size b a.
Proof. intros a b. unfold size. f_equal. ring. Qed.
Lemma size_opp2 : forall a b, size a (- b) = size a b.
Proof. intros a b. unfold size. f_equal. ring. Qed.
Lemma size_opp : forall a b, size (- a) (- b) = size a b.
Proof. intros a b. unfold size. f_equal. ring. Qed.
Lemma newton_conj : forall k n x y, complex_newton (F:=X) (Fin k) n (g (F:=X)) (cfin x (- y)) = omap (flip_im (L:=L)) (complex_newton (F:=X) (Fin k) n (g (F:=X)) (cfin x y)).
Proof.
  intros k n. induction n as [|n IH]; intros x y; [reflexivity|].
  assert (W1 : w1 x (- y) = w1 x y) by (unfold w1, re4, im4; ring). assert (W2 : w2 x (- y) = - w2 x y) by (unfold w2, re4, im4; ring).
  assert (D1 : d1 x (- y) = d1 x y) by (unfold d1, re4, im4, re3, im3; ring). assert (D2 : d2 x (- y) = - d2 x y) by (unfold d2, re4, im4, re3, im3; ring).
  destruct (flat_or x y) as [[A B]|D].
  - rewrite !newton_flat; auto; rewrite ?D1, ?D2, ?A, ?B; ring.
  - assert (P : d1 x y * d1 x y + d2 x y * d2 x y <> 0).
    { pose proof (Rle_0_sqr (d1 x y)). pose proof (Rle_0_sqr (d2 x y)). unfold Rsqr in *. destruct D as [D|D]; [assert (0 < d1 x y * d1 x y) by (apply Rsqr_pos_lt; exact D)|assert (0 < d2 x y * d2 x y) by (apply Rsqr_pos_lt; exact D)]; lra. }
    rewrite (newton_next x (- y)), (newton_next x y) by (rewrite ?D1, ?D2; destruct D as [D|D]; [left|right]; lra).
    assert (N1 : n1 x (- y) = n1 x y) by (unfold n1; rewrite W1, W2, D1, D2; field; exact P). assert (N2 : n2 x (- y) = - n2 x y) by (unfold n2; rewrite W1, W2, D1, D2; field; exact P).
    rewrite N1, N2, W1, W2, D1, D2, size_opp2.
    replace (n1 x y * d1 x y - - n2 x y * - d2 x y) with (n1 x y * d1 x y - n2 x y * d2 x y) by ring.
    replace (n1 x y * - d2 x y + - n2 x y * d1 x y) with (- (n1 x y * d2 x y + n2 x y * d1 x y)) by ring. rewrite size_opp2.
    destruct (Rleb _ _); [reflexivity|]. apply IH.
Qed.
Lemma newton_swap : forall k n x y, complex_newton (F:=X) (Fin k) n (g (F:=X)) (cfin y x) = omap (swap_parts (L:=L)) (complex_newton (F:=X) (Fin k) n (g (F:=X)) (cfin x y)).
Proof.
  intros k n. induction n as [|n IH]; intros x y; [reflexivity|].
  assert (W1 : w1 y x = w1 x y) by (unfold w1, re4, im4; ring). assert (W2 : w2 y x = - w2 x y) by (unfold w2, re4, im4; ring).
  assert (D1 : d1 y x = - d2 x y) by (unfold d1, d2, re4, im4, re3, im3; ring). assert (D2 : d2 y x = - d1 x y) by (unfold d1, d2, re4, im4, re3, im3; ring).
  destruct (flat_or x y) as [[A B]|D].
  - rewrite !newton_flat; auto; rewrite ?D1, ?D2, ?A, ?B; ring.
  - assert (P : d1 x y * d1 x y + d2 x y * d2 x y <> 0).
    { pose proof (Rle_0_sqr (d1 x y)). pose proof (Rle_0_sqr (d2 x y)). unfold Rsqr in *. destruct D as [D|D]; [assert (0 < d1 x y * d1 x y) by (apply Rsqr_pos_lt; exact D)|assert (0 < d2 x y * d2 x y) by (apply Rsqr_pos_lt; exact D)]; lra. }
    rewrite (newton_next y x) by (rewrite ?D1, ?D2; destruct D as [D|D]; [right|left]; lra). rewrite (newton_next x y) by exact D.
    assert (N1 : n1 y x = n2 x y) by (unfold n1, n2; rewrite W1, W2, D1, D2; field; lra). assert (N2 : n2 y x = n1 x y) by (unfold n1, n2; rewrite W1, W2, D1, D2; field; lra).
    rewrite N1, N2, W1, W2, D1, D2, size_opp2.
    replace (n2 x y * - d2 x y - n1 x y * - d1 x y) with (n1 x y * d1 x y - n2 x y * d2 x y) by ring.
    replace (n2 x y * - d1 x y + n1 x y * - d2 x y) with (- (n1 x y * d2 x y + n2 x y * d1 x y)) by ring. rewrite size_opp2.
    destruct (Rleb _ _); [reflexivity|]. apply IH.
Qed.
(* mirrored pixels *)
Notation pmap w h x y := (@Map X w h (Fin x) (Fin y)).
Lemma pixel_mirror : forall k n w h x y i j, (2 <= w)%Z -> (2 <= h)%Z -> x < 0 -> y < 0 ->
  complex_newton (F:=X) (Fin k) n (g (F:=X)) (to_complex (F:=X) (pmap w h x y) i (h - 1 - j)) =
  omap (flip_im (L:=L)) (complex_newton (F:=X) (Fin k) n (g (F:=X)) (to_complex (F:=X) (pmap w h x y) i j)).
Proof.
  intros k n w h x y i j Wd Ht Hx Hy. rewrite !to_complex_exact by lia. rewrite <- newton_conj. f_equal. f_equal. unfold cfin. f_equal. f_equal.
  apply IZR_le in Ht. rewrite !minus_IZR, Rabs_left by lra. field. lra.
Qed.
Lemma pixel_transpose : forall k n w x i j, (2 <= w)%Z ->
  complex_newton (F:=X) (Fin k) n (g (F:=X)) (to_complex (F:=X) (pmap w w x x) j i) =
  omap (swap_parts (L:=L)) (complex_newton (F:=X) (Fin k) n (g (F:=X)) (to_complex (F:=X) (pmap w w x x) i j)).
Proof. intros k n w x i j Wd. rewrite !to_complex_exact by lia. apply newton_swap. Qed.

(** *** the picture *)
Notation window w h := (pmap w h (-2) (-2)).
Lemma minus_two : nneg (NumOps:=X) (nofZ (NumOps:=X) 2) = Fin (-2).
Proof. xred. reflexivity. Qed.
Lemma color_cases : forall k n w h i j, (2 <= w)%Z -> (2 <= h)%Z ->
  (complex_newton (F:=X) (Fin k) n (g (F:=X)) (to_complex (F:=X) (window w h) i j) = OutOfFuel /\ fractal_color (F:=X) (Fin k) n (window w h) i j = OutOfFuel) \/
  exists a b c, complex_newton (F:=X) (Fin k) n (g (F:=X)) (to_complex (F:=X) (window w h) i j) = Ok (cfin a b) /\
    obind (smooth_cool_warm (F:=X) (root_scalar (F:=X) (cfin a b))) (fun c => to_8bit_rgba (F:=X) (vec_list (F:=X) c)) = Ok c /\
    fractal_color (F:=X) (Fin k) n (window w h) i j = Ok c /\ length c = 4%nat.
Proof.
  intros k n w h i j Wd Ht. unfold fractal_color. rewrite to_complex_exact by assumption.
  match goal with |- context [cfin ?x ?y] => destruct (newton_outcome k n x y) as [E|(a & b & E)]; rewrite E end.
  - left. auto.
  - right. destruct (root_shown (L:=L) a b) as (c & Ec & C4 & _). exists a, b, c. cbn [obind]. auto.
Qed.
Lemma marks : forall w h, (46 <= w < 2 ^ 63)%Z -> (46 <= h < 2 ^ 63)%Z -> forall l img, (forall a b, In (a, b) l -> Rabs a <= sqrt 2 /\ Rabs b <= sqrt 2) ->
  length img = Z.to_nat (4 * w * h) ->
  exists img', mark (F:=X) (window w h) (map (fun ab => cfin (fst ab) (snd ab)) l) img = Ok img' /\ length img' = length img /\
  (forall i j k d, (0 <= k < 4)%Z -> in_mark L w h l i j -> nth (offset w h i j k) img' d = nth (Z.to_nat k) [0; 0; 0; 255]%Z d) /\
  (forall i j k d, (0 <= i < w)%Z -> (0 <= j < h)%Z -> (0 <= k < 4)%Z -> ~ in_mark L w h l i j -> nth (offset w h i j k) img' d = nth (offset w h i j k) img d).
Proof.
  intros w h Wd Ht. induction l as [|[a b] l IH]; intros img Sm Len; cbn [map mark fst snd].
  - exists img. split; [reflexivity|]. split; [reflexivity|]. split; [intros i j k d _ (a & b & ic & jc & [] & _)|auto].
  - destruct (Sm a b (or_introl eq_refl)) as (Sa & Sb). destruct (root_pixel (L:=L) w h a b Wd Ht Sa Sb) as (ic & jc & E & Ic & Jc). rewrite E. cbn [obind pm_width pm_height].
    assert (Eq : forall l m, blacken w h l m = paint (fun i j => write_pixel w h i j [0; 0; 0; 255]%Z) l m).
    { induction l0 as [|[p q] l0 IH0]; intros m; cbn [blacken paint]; [reflexivity|]. destruct (write_pixel w h p q _ m); cbn [obind]; auto. }
    rewrite Eq. assert (Rg : forall i j, In (i, j) (disk_pixels 7 ic jc) -> (0 <= i < w)%Z /\ (0 <= j < h)%Z) by (intros i j D; apply disk_in in D; lia).
    destruct (paint_spec w h ltac:(lia) (fun i j => write_pixel w h i j [0; 0; 0; 255]%Z) (fun _ _ => [0; 0; 0; 255]%Z) (disk_pixels 7 ic jc)
      ltac:(auto) Rg (disk_pixels 7 ic jc) img ltac:(auto) Len) as (m1 & -> & L1 & A1 & B1). cbn [obind].
    destruct (IH m1 ltac:(intros p q Q; apply Sm; right; exact Q) ltac:(lia)) as (m2 & E2 & L2 & A2 & B2).
    exists m2. split; [exact E2|]. split; [lia|].
    assert (Dec : forall i j, in_mark L w h ((a, b) :: l) i j <-> In (i, j) (disk_pixels 7 ic jc) \/ in_mark L w h l i j).
    { intros i j. split.
      - intros (p & q & ip & jp & [Q|Q] & Ep & D).
        + injection Q as <- <-. rewrite E in Ep. injection Ep as <- <-. left. apply disk_all; lia.
        + right. exists p, q, ip, jp. auto.
      - intros [D|(p & q & ip & jp & Q & Ep & D)].
        + exists a, b, ic, jc. split; [left; reflexivity|]. split; [exact E|]. apply disk_in in D. lia.
        + exists p, q, ip, jp. split; [right; exact Q|auto]. }
    split.
    + intros i j k d K H. apply Dec in H.
      assert (Rij : (0 <= i < w)%Z /\ (0 <= j < h)%Z).
      { destruct H as [H|(p & q & ip & jp & Q & Ep & D)]; [apply Rg; exact H|]. destruct (Sm p q (or_intror Q)) as (Sp & Sq).
        destruct (root_pixel (L:=L) w h p q Wd Ht Sp Sq) as (ip' & jp' & Ep' & Ip & Jp). rewrite Ep in Ep'. injection Ep' as <- <-. lia. }
      destruct (Classical_Prop.classic (in_mark L w h l i j)) as [Q|Q]; [apply A2; assumption|]. destruct H as [H|H]; [|contradiction].
      rewrite B2; [apply A1; assumption|apply Rij|apply Rij|exact K|exact Q].
    + intros i j k d I J K H. rewrite Dec in H. rewrite B2; auto.
Qed.
Lemma marked_eq : marked_roots (F:=X) = map (fun ab => cfin (fst ab) (snd ab)) roots.
Proof.
  unfold marked_roots, roots, cfin. cbn [map fst snd]. xred. rewrite xsqrt_fin by lra. cbn [xneg].
  repeat f_equal; lra.
Qed.
Lemma fractal_loop_hangs : forall k n m order img, (forall i j, In (i, j) order -> fractal_color (F:=X) (Fin k) n m i j <> Undef) ->
  (exists i j, In (i, j) order /\ fractal_color (F:=X) (Fin k) n m i j = OutOfFuel) ->
  (0 <= pm_width m)%Z -> length img = Z.to_nat (4 * pm_width m * pm_height m) -> (forall i j, In (i, j) order -> (0 <= i < pm_width m)%Z /\ (0 <= j < pm_height m)%Z) ->
  (forall i j c, In (i, j) order -> fractal_color (F:=X) (Fin k) n m i j = Ok c -> length c = 4%nat) ->
  fractal_loop (F:=X) (Fin k) n m order img = OutOfFuel.
Proof.
  intros k n m order. induction order as [|[i j] order IH]; intros img U (p & q & H & E) Wd Len Rg C4; [destruct H|].
  cbn [fractal_loop]. destruct (fractal_color (F:=X) (Fin k) n m i j) as [c| |] eqn:Q; cbn [obind]; [|exfalso; apply (U i j (or_introl eq_refl)); exact Q|reflexivity].
  destruct H as [H|H]; [injection H as -> ->; rewrite Q in E; discriminate|].
  destruct (Rg i j (or_introl eq_refl)) as [I J].
  destruct (write_pixel_spec (pm_width m) (pm_height m) Wd i j c img I J (C4 i j c (or_introl eq_refl) Q) Len) as (m1 & -> & L1 & _). cbn [obind].
  apply IH; auto; [intros a b Iab; apply U; right; exact Iab|exists p, q; auto|lia|intros a b Iab; apply Rg; right; exact Iab|intros a b c' Iab; apply C4; right; exact Iab].
Qed.
(* some pixel at which the iteration does not end within the fuel *)
Lemma fractal_hangs : forall k n w h i j, (2 <= w)%Z -> (2 <= h)%Z -> (0 <= i < w)%Z -> (0 <= j < h)%Z ->
  complex_newton (F:=X) (Fin k) n (g (F:=X)) (to_complex (F:=X) (window w h) i j) = OutOfFuel -> fractal (F:=X) (Fin k) n w h = OutOfFuel.
Proof.
  intros k n w h i j Wd Ht I J E. unfold fractal. rewrite minus_two. destruct (raster_schedule w h) as (_ & Sr).
  rewrite fractal_loop_hangs; [reflexivity| | |cbn [pm_width]; lia| | |].
  - intros a b _ U. destruct (color_cases k n w h a b Wd Ht) as [(_ & Q)|(? & ? & ? & _ & _ & Q & _)]; rewrite U in Q; discriminate.
  - exists i, j. split; [apply Sr; auto|]. destruct (color_cases k n w h i j Wd Ht) as [(_ & Q)|(? & ? & ? & Q & _)]; [exact Q|rewrite E in Q; discriminate].
  - unfold new_image. rewrite repeat_length. reflexivity.
  - intros a b Q. apply Sr in Q. exact Q.
  - intros a b c _ Q. destruct (color_cases k n w h a b Wd Ht) as [(_ & U)|(? & ? & c' & _ & _ & U & C4)]; rewrite Q in U; [discriminate|]. injection U as <-. exact C4.
Qed.
Lemma fractal_drawn : forall k n w h, (46 <= w < 2 ^ 63)%Z -> (46 <= h < 2 ^ 63)%Z ->
  (forall i j, (0 <= i < w)%Z -> (0 <= j < h)%Z -> complex_newton (F:=X) (Fin k) n (g (F:=X)) (to_complex (F:=X) (window w h) i j) <> OutOfFuel) ->
  exists img, fractal (F:=X) (Fin k) n w h = Ok img /\ length img = Z.to_nat (4 * w * h) /\
  forall i j, (0 <= i < w)%Z -> (0 <= j < h)%Z ->
    (in_mark L w h roots i j -> forall c d, (0 <= c < 4)%Z -> nth (offset w h i j c) img d = nth (Z.to_nat c) [0; 0; 0; 255]%Z d) /\
    (~ in_mark L w h roots i j -> exists a b col, complex_newton (F:=X) (Fin k) n (g (F:=X)) (to_complex (F:=X) (window w h) i j) = Ok (cfin a b) /\
      obind (smooth_cool_warm (F:=X) (root_scalar (F:=X) (cfin a b))) (fun c => to_8bit_rgba (F:=X) (vec_list (F:=X) c)) = Ok col /\
      forall c d, (0 <= c < 4)%Z -> nth (offset w h i j c) img d = nth (Z.to_nat c) col d).
Proof.
  intros k n w h Wd Ht En. unfold fractal. rewrite minus_two, marked_eq. destruct (raster_schedule w h) as (_ & Sr).
  set (col := fun i j => match fractal_color (F:=X) (Fin k) n (window w h) i j with Ok c => c | _ => [] end).
  assert (C : forall i j, (0 <= i < w)%Z -> (0 <= j < h)%Z -> fractal_color (F:=X) (Fin k) n (window w h) i j = Ok (col i j) /\ length (col i j) = 4%nat).
  { intros i j I J. unfold col. destruct (color_cases k n w h i j ltac:(lia) ltac:(lia)) as [(Q & _)|(a & b & c & _ & _ & Q & C4)]; [exfalso; exact (En i j I J Q)|]. rewrite Q. auto. }
  set (step := fun i j img => obind (fractal_color (F:=X) (Fin k) n (window w h) i j) (fun c => write_pixel w h i j c img)).
  assert (Eq : forall l m, fractal_loop (F:=X) (Fin k) n (window w h) l m = paint step l m).
  { induction l as [|[i j] l IH]; intros m; cbn [fractal_loop paint]; [reflexivity|]. unfold step at 1. cbn [pm_width pm_height]. destruct (fractal_color _ _ _ i j) as [c| |]; cbn [obind]; auto.
    destruct (write_pixel w h i j c m); cbn [obind]; auto. }
  rewrite Eq. destruct (paint_spec w h ltac:(lia) step col (raster w h)) with (l := raster w h) (img := new_image w h) as (m1 & -> & L1 & A1 & _).
  - intros i j m Q. apply Sr in Q as [I J]. destruct (C i j I J) as (Ec & C4). split; [exact C4|]. unfold step. rewrite Ec. reflexivity.
  - intros i j Q. apply Sr. exact Q.
  - auto.
  - unfold new_image. rewrite repeat_length. reflexivity.
  - cbn [obind]. unfold new_image in L1. rewrite repeat_length in L1.
    destruct (marks w h Wd Ht roots m1 ltac:(intros a b Q; apply root_size; exact Q) L1) as (m2 & E2 & L2 & A2 & B2).
    exists m2. split; [exact E2|]. split; [lia|]. intros i j I J. split.
    + intros H c d K. apply A2; assumption.
    + intros H. destruct (color_cases k n w h i j ltac:(lia) ltac:(lia)) as [(Q & _)|(a & b & c & Q1 & Q2 & Q3 & _)]; [exfalso; exact (En i j I J Q)|].
      exists a, b, c. split; [exact Q1|]. split; [exact Q2|]. intros c' d K. rewrite B2, A1; auto; [|apply Sr; auto]. unfold col. rewrite Q3. reflexivity.
Qed.
(* an image with a middle pixel *)
Lemma fractal_odd : forall k n p q, (1 <= p)%Z -> (1 <= q)%Z -> fractal (F:=X) (Fin k) n (2 * p + 1) (2 * q + 1) = OutOfFuel.
Proof.
  intros k n p q P Q. apply (fractal_hangs k n _ _ p q); try lia. rewrite to_complex_exact by lia.
  rewrite !plus_IZR, !mult_IZR. apply IZR_le in P, Q. rewrite Rabs_left by lra.
  replace (-2 + 2 * - -2 * IZR p / (2 * IZR p + 1 - 1)) with 0 by (field; lra). replace (-2 + 2 * - -2 * IZR q / (2 * IZR q + 1 - 1)) with 0 by (field; lra). apply newton_origin.
Qed.
End Basin.
