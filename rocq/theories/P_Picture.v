(** The picture of the times of render_scene and the picture of newton_fractal. *)
From Coq Require Import Reals Lra Psatz ZArith Lia String Ascii List Bool.
From Flocq Require Import Core BinarySingleNaN.
From Verif Require Import Num XR FL M_Vec M_Tables M_Image M_Fractal Spec_Image P_FL P_Round P_Render P_Cost P_Image P_Fractal.
Import ListNotations.
Local Open Scope Z_scope.

(** *** writing pixels one after the other *)
(* [order] visited with colours given by [col], over an image of the right size *)
Section Paint.
Variables (width height : Z).
Hypothesis W1 : 0 <= width.
Variable step : Z -> Z -> image -> outcome image.
Variable col : Z -> Z -> list Z.
Variable order : list (Z * Z).
Hypothesis Hstep : forall i j img, In (i, j) order -> length (col i j) = 4%nat /\ step i j img = write_pixel width height i j (col i j) img.
Hypothesis R : forall i j, In (i, j) order -> 0 <= i < width /\ 0 <= j < height.
Fixpoint paint (l : list (Z * Z)) (img : image) : outcome image :=
  match l with [] => Ok img | (i, j) :: l => obind (step i j img) (paint l) end.
Lemma paint_spec : forall l img, (forall i j, In (i, j) l -> In (i, j) order) -> length img = Z.to_nat (4 * width * height) ->
  exists img', paint l img = Ok img' /\ length img' = length img /\
  (forall i j k d, In (i, j) l -> 0 <= k < 4 -> nth (offset width height i j k) img' d = nth (Z.to_nat k) (col i j) d) /\
  (forall i j k d, 0 <= i < width -> 0 <= j < height -> 0 <= k < 4 -> ~ In (i, j) l -> nth (offset width height i j k) img' d = nth (offset width height i j k) img d).
Proof.
  induction l as [|[i j] l IH]; intros img Sub Len.
  - exists img. cbn [paint]. split; [reflexivity|]. split; [reflexivity|]. split; [intros i j k d []|auto].
  - cbn [paint]. assert (I0 : In (i, j) order) by (apply Sub; left; reflexivity). destruct (Hstep i j img I0) as (C4 & ->). destruct (R i j I0) as [I J].
    destruct (write_pixel_spec width height W1 i j (col i j) img I J C4 Len) as (m1 & -> & L1 & A1 & B1). cbn [obind].
    destruct (IH m1 ltac:(intros a b H; apply Sub; right; exact H) ltac:(lia)) as (m2 & E2 & L2 & A2 & B2).
    exists m2. split; [exact E2|]. split; [lia|]. split.
    + intros a b k d [Q|Q] K; [|apply A2; assumption]. injection Q as <- <-.
      destruct (in_dec (fun p q : Z * Z => ltac:(decide equality; apply Z.eq_dec)) (i, j) l) as [Q|Q]; [apply A2; assumption|].
      rewrite B2 by auto. apply A1. exact K.
    + intros a b k d Ra Rb K Q. rewrite B2; auto; [|intros Q2; apply Q; right; exact Q2]. apply B1; auto. intros Q2. apply Q. left. congruence.
Qed.
End Paint.

(** *** the times *)
Section Times.
Context {F : NumOps}.
Variables (width height : Z).
Hypothesis W1 : 0 <= width.
Variable time : Z -> Z -> num.
Notation at_ := (cost_index width height).
Lemma set_time_spec : forall l n (t : num), (n < length l)%nat -> exists l', set_time n t l = Ok l' /\ length l' = length l /\
  nth_error l' n = Some t /\ forall m, m <> n -> nth_error l' m = nth_error l m.
Proof.
  induction l as [|a l IH]; intros n t N; cbn [length] in N; [lia|]. destruct n as [|n].
  - exists (t :: l). cbn [set_time length nth_error]. split; [reflexivity|]. split; [reflexivity|]. split; [reflexivity|]. intros [|m] M; [lia|reflexivity].
  - destruct (IH n t ltac:(lia)) as (l' & E & Len & A & B). exists (a :: l'). cbn [set_time length nth_error]. rewrite E. split; [reflexivity|].
    split; [lia|]. split; [exact A|]. intros [|m] M; [reflexivity|]. cbn [nth_error]. apply B. lia.
Qed.
Lemma at_range : forall i j, 0 <= i < width -> 0 <= j < height -> 0 <= at_ i j < width * height.
Proof. intros i j I J. unfold cost_index. assert (width * (height - 1 - j) <= width * (height - 1)) by (apply Z.mul_le_mono_nonneg_l; lia). assert (0 <= width * (height - 1 - j)) by (apply Z.mul_nonneg_nonneg; lia). lia. Qed.
Lemma at_inj : forall i j i' j', 0 <= i < width -> 0 <= i' < width -> at_ i j = at_ i' j' -> i = i' /\ j = j'.
Proof.
  intros i j i' j' I I' E. unfold cost_index in E. assert (E2 : width * (j' - j) = i' - i) by lia.
  assert (j' - j = 0) by (destruct (Z.lt_trichotomy (j' - j) 0) as [Q|[Q|Q]]; [nia|exact Q|nia]). nia.
Qed.
Lemma at_onto : forall n, 0 <= n < width * height -> exists i j, 0 <= i < width /\ 0 <= j < height /\ n = at_ i j.
Proof.
  intros n N. assert (width <> 0) by (intros Q; rewrite Q in N; lia). exists (n mod width), (height - 1 - n / width). pose proof (Z.mod_pos_bound n width ltac:(lia)). pose proof (Z.div_mod n width ltac:(lia)).
  assert (0 <= n / width) by (apply Z.div_pos; lia). assert (n / width < height) by (apply Z.div_lt_upper_bound; lia). unfold cost_index. split; [lia|]. split; [lia|].
  replace (height - 1 - (height - 1 - n / width)) with (n / width) by lia. lia.
Qed.
Lemma record_spec : forall order cost, length cost = Z.to_nat (width * height) -> (forall i j, In (i, j) order -> 0 <= i < width /\ 0 <= j < height) ->
  exists cost', record_times width height time order cost = Ok cost' /\ length cost' = length cost /\
  (forall i j, In (i, j) order -> nth_error cost' (Z.to_nat (at_ i j)) = Some (time i j)) /\
  (forall i j, 0 <= i < width -> 0 <= j < height -> ~ In (i, j) order -> nth_error cost' (Z.to_nat (at_ i j)) = nth_error cost (Z.to_nat (at_ i j))).
Proof.
  induction order as [|[i j] order IH]; intros cost Len R; cbn [record_times].
  - exists cost. split; [reflexivity|]. split; [reflexivity|]. split; [intros i j []|auto].
  - destruct (R i j (or_introl eq_refl)) as [I J]. pose proof (at_range i j I J) as Q. rewrite (proj2 (Z.ltb_ge _ _)) by lia.
    destruct (set_time_spec cost (Z.to_nat (at_ i j)) (time i j) ltac:(lia)) as (c1 & -> & L1 & A1 & B1). cbn [obind].
    destruct (IH c1 ltac:(lia) ltac:(intros a b H; apply R; right; exact H)) as (c2 & E2 & L2 & A2 & B2).
    exists c2. split; [exact E2|]. split; [lia|]. split.
    + intros a b [H|H]; [|apply A2; exact H]. injection H as <- <-.
      destruct (in_dec (fun p q : Z * Z => ltac:(decide equality; apply Z.eq_dec)) (i, j) order) as [H|H]; [apply A2; exact H|]. rewrite B2 by auto. exact A1.
    + intros a b Ra Rb H. rewrite B2; auto; [|intros H2; apply H; right; exact H2]. apply B1. intros E. apply Z2Nat.inj in E; [|pose proof (at_range a b Ra Rb); lia|lia].
      apply at_inj in E as (-> & ->); auto. apply H. left. reflexivity.
Qed.
Lemma record_same : forall o1 o2, schedule width height o1 -> schedule width height o2 ->
  record_times width height time o1 (repeat (nofZ 0) (Z.to_nat (width * height))) = record_times width height time o2 (repeat (nofZ 0) (Z.to_nat (width * height))).
Proof.
  intros o1 o2 (_ & S1) (_ & S2).
  destruct (record_spec o1 (repeat (nofZ 0) (Z.to_nat (width * height))) (repeat_length _ _) (fun i j => proj1 (S1 i j))) as (c1 & -> & L1 & A1 & _).
  destruct (record_spec o2 (repeat (nofZ 0) (Z.to_nat (width * height))) (repeat_length _ _) (fun i j => proj1 (S2 i j))) as (c2 & -> & L2 & A2 & _).
  f_equal. rewrite repeat_length in L1, L2. apply nth_ext with (d := nofZ 0) (d' := nofZ 0); [lia|]. intros n N.
  destruct (at_onto (Z.of_nat n) ltac:(lia)) as (i & j & I & J & Q). pose proof (A1 i j (proj2 (S1 i j) (conj I J))) as E1. pose proof (A2 i j (proj2 (S2 i j) (conj I J))) as E2.
  rewrite <- Q, Nat2Z.id in E1, E2. apply nth_error_nth with (d := nofZ 0) in E1, E2. congruence.
Qed.
(* after the loop over the pixels the vector holds the time of every pixel, and nothing else *)
Lemma times_recorded : forall order, schedule width height order -> exists cost, record_times width height time order (repeat (nofZ 0) (Z.to_nat (width * height))) = Ok cost /\
  (forall i j, 0 <= i < width -> 0 <= j < height -> get_time cost (at_ i j) = Ok (time i j)) /\
  forall t, In t cost <-> exists i j, 0 <= i < width /\ 0 <= j < height /\ t = time i j.
Proof.
  intros order (_ & S). destruct (record_spec order (repeat (nofZ 0) (Z.to_nat (width * height))) (repeat_length _ _) (fun i j => proj1 (S i j))) as (cost & E & Len & A & _).
  rewrite repeat_length in Len. exists cost. split; [exact E|].
  assert (G : forall i j, 0 <= i < width -> 0 <= j < height -> nth_error cost (Z.to_nat (at_ i j)) = Some (time i j)) by (intros i j I J; apply A, S; auto).
  split.
  - intros i j I J. pose proof (at_range i j I J). unfold get_time. rewrite (proj2 (Z.ltb_ge _ _)), G by lia. reflexivity.
  - intros t. split.
    + intros H. apply In_nth_error in H as (n & H). assert (N : (n < length cost)%nat) by (apply nth_error_Some; congruence).
      destruct (at_onto (Z.of_nat n) ltac:(lia)) as (i & j & I & J & Q). exists i, j. split; [exact I|]. split; [exact J|].
      pose proof (G i j I J) as H2. rewrite <- Q, Nat2Z.id in H2. congruence.
    + intros (i & j & I & J & ->). eapply nth_error_In. apply G; assumption.
Qed.
Lemma cost_index_4 : forall i j, at_ i j * 4 = pixel_index width height i j.
Proof. intros i j. unfold cost_index, pixel_index. ring. Qed.
Lemma cost_pixel_length : forall cost (t : num) c, cost_pixel cost t = Ok c -> length c = 4%nat.
Proof.
  intros cost t c E. unfold cost_pixel in E. destruct (inferno _) as [v| |]; cbn [obind] in E; try discriminate. eapply rgba_length; [exact E|reflexivity].
Qed.
Definition drawable : Prop := forall cost i j, 0 <= i < width -> 0 <= j < height ->
  (forall t, In t cost <-> exists a b, 0 <= a < width /\ 0 <= b < height /\ t = time a b) -> exists c, cost_pixel cost (time i j) = Ok c.
Lemma picture_of_times : forall order img, schedule width height order -> length img = Z.to_nat (4 * width * height) -> drawable ->
  exists img' cost, cost_picture width height time order img = Ok img' /\ length img' = length img /\
  (forall t, In t cost <-> exists i j, 0 <= i < width /\ 0 <= j < height /\ t = time i j) /\
  forall i j, 0 <= i < width -> 0 <= j < height -> exists c, cost_pixel cost (time i j) = Ok c /\
    forall k d, 0 <= k < 4 -> nth (offset width height i j k) img' d = nth (Z.to_nat k) c d.
Proof.
  intros order img S Len P. destruct (times_recorded order S) as (cost & E & G & M). unfold cost_picture. rewrite E. cbn [obind].
  set (col := fun i j => match cost_pixel cost (time i j) with Ok c => c | _ => [] end).
  assert (C : forall i j, 0 <= i < width -> 0 <= j < height -> cost_pixel cost (time i j) = Ok (col i j)).
  { intros i j I J. unfold col. destruct (P cost i j I J M) as (c & ->). reflexivity. }
  destruct (raster_schedule width height) as (_ & Sr).
  destruct (paint_spec width height W1 (cost_write width height cost) col (raster width height)) with (l := raster width height) (img := img) as (img' & E2 & L2 & A & _); auto.
  - intros i j m H. apply Sr in H as [I J]. pose proof (C i j I J) as Q. split; [eapply cost_pixel_length; exact Q|].
    unfold cost_write. rewrite G by assumption. cbn [obind]. rewrite Q. cbn [obind]. rewrite cost_index_4. reflexivity.
  - intros i j H. apply Sr. exact H.
  - exists img', cost. assert (Eq : forall l m, cost_loop width height cost l m = paint (cost_write width height cost) l m).
    { induction l as [|[i j] l IH]; intros m; cbn [cost_loop paint]; [reflexivity|]. destruct (cost_write width height cost i j m); cbn [obind]; auto. }
    rewrite Eq. split; [exact E2|]. split; [exact L2|]. split; [exact M|]. intros i j I J. exists (col i j). split; [apply C; assumption|].
    intros k d K. apply A; [apply Sr; auto|exact K].
Qed.
Lemma picture_same : forall o1 o2 m1 m2, 0 <= height -> schedule width height o1 -> schedule width height o2 ->
  length m1 = Z.to_nat (4 * width * height) -> length m2 = Z.to_nat (4 * width * height) -> drawable ->
  cost_picture width height time o1 m1 = cost_picture width height time o2 m2.
Proof.
  intros o1 o2 m1 m2 H1 S1 S2 L1 L2 P. destruct (times_recorded o1 S1) as (cost & E & G & M).
  destruct (picture_of_times o1 m1 S1 L1 P) as (p1 & c1 & E1 & Q1 & M1 & A1). destruct (picture_of_times o2 m2 S2 L2 P) as (p2 & c2 & E2 & Q2 & M2 & A2).
  assert (C : forall order m p, schedule width height order -> length m = Z.to_nat (4 * width * height) -> cost_picture width height time order m = Ok p ->
    forall i j k d, 0 <= i < width -> 0 <= j < height -> 0 <= k < 4 -> exists c, cost_pixel cost (time i j) = Ok c /\ nth (offset width height i j k) p d = nth (Z.to_nat k) c d).
  { intros order m p So Lm Ep i j k d I J K. destruct (P cost i j I J M) as (c & Ec). exists c. split; [exact Ec|].
    unfold cost_picture in Ep. rewrite (record_same order o1 So S1), E in Ep. cbn [obind] in Ep.
    destruct (raster_schedule width height) as (_ & Sr).
    destruct (paint_spec width height W1 (cost_write width height cost) (fun i j => match cost_pixel cost (time i j) with Ok c => c | _ => [] end) (raster width height))
      with (l := raster width height) (img := m) as (q & Eq & _ & A & _); auto.
    - intros a b n Iab. apply Sr in Iab as [Ia Jb]. destruct (P cost a b Ia Jb M) as (x & Ex). rewrite Ex. split; [eapply cost_pixel_length; exact Ex|].
      unfold cost_write. rewrite G by assumption. cbn [obind]. rewrite Ex. cbn [obind]. rewrite cost_index_4. reflexivity.
    - intros a b Iab. apply Sr. exact Iab.
    - assert (Eqn : forall l n, cost_loop width height cost l n = paint (cost_write width height cost) l n).
      { induction l as [|[a b] l IH]; intros n; cbn [cost_loop paint]; [reflexivity|]. destruct (cost_write width height cost a b n); cbn [obind]; auto. }
      rewrite Eqn in Ep. assert (p = q) by congruence. subst q. rewrite A; [|apply Sr; auto|exact K]. rewrite Ec. reflexivity. }
  rewrite E1, E2. f_equal. apply nth_ext with (d := 0) (d' := 0); [lia|]. intros n N.
  destruct (offset_onto width height H1 n ltac:(lia)) as (i & j & k & (I & J & K) & ->).
  destruct (C o1 m1 p1 S1 L1 E1 i j k 0 I J K) as (x & Ex & ->). destruct (C o2 m2 p2 S2 L2 E2 i j k 0 I J K) as (y & Ey & ->). congruence.
Qed.
End Times.

(** *** floating point *)
Section Drawn.
Variables prec emax : Z.
Context (Hp : Prec_gt_0 prec) (Hm : Prec_lt_emax prec emax).
Variable lm : libm (binary_float prec emax).
Hypothesis P8 : 8 <= prec.
Hypothesis E128 : 128 <= emax.
Notation float := (binary_float prec emax).
Notation N := (FL prec emax Hp Hm lm).
Variables (width height : Z) (time : Z -> Z -> float).
Hypothesis W1 : 0 <= width.
Hypothesis T : timed width height time.
Hypothesis V : uneven width height time.
Lemma drawn_list : forall cost : list float, (forall t, In t cost <-> exists a b, 0 <= a < width /\ 0 <= b < height /\ t = time a b) -> all_times cost /\ varied cost.
Proof.
  intros cost M. split.
  - intros t I. apply M in I as (a & b & A & B & ->). apply T; assumption.
  - destruct V as (a & b & a' & b' & A & B & A' & B' & D). exists (time a b), (time a' b'). split; [apply M; eauto|]. split; [apply M; eauto 6|exact D].
Qed.
Lemma drawn_ok : drawable (F:=N) width height time.
Proof.
  intros cost i j I J M. destruct (drawn_list cost M) as (At & Va).
  destruct (cost_shown prec emax Hp Hm lm P8 E128 cost (time i j) At Va) as (r & g & b & _ & _ & _ & E); [apply M; eauto|]. eauto.
Qed.
Lemma cost_drawn : forall order img, schedule width height order -> length img = Z.to_nat (4 * width * height) ->
  exists img' lo hi, cost_picture (F:=N) width height time order img = Ok img' /\ length img' = length img /\
  extreme width height time (fun x y => xleb x y = true) lo /\ extreme width height time (fun x y => xleb y x = true) hi /\
  forall i j, 0 <= i < width -> 0 <= j < height -> exists r g b, byte r /\ byte g /\ byte b /\
    obind (inferno (F:=N) (ndiv (NumOps:=N) (nsub (NumOps:=N) (time i j) lo) (nsub (NumOps:=N) hi lo))) (fun c => to_8bit_rgba (F:=N) (vec_list (F:=N) c)) = Ok [r; g; b; 255] /\
    forall k d, 0 <= k < 4 -> nth (offset width height i j k) img' d = nth (Z.to_nat k) [r; g; b; 255] d.
Proof.
  intros order img S Len. destruct (picture_of_times (F:=N) width height W1 time order img S Len drawn_ok) as (img' & cost & E & L & M & A).
  destruct (drawn_list cost M) as (At & Va). assert (NE : cost <> []) by (destruct Va as (t & _ & I & _); intros ->; destruct I).
  destruct (range_spec prec emax Hp Hm lm P8 cost (times_of prec emax cost At) NE) as (a & b & Va' & Vb' & _ & All & (ta & Ia & Ta) & (tb & Ib & Tb)).
  apply val_fval in Va', Vb', Ta, Tb.
  exists img', (cost_min (F:=N) cost), (cost_max (F:=N) cost). split; [exact E|]. split; [exact L|].
  assert (B : forall i j, 0 <= i < width -> 0 <= j < height -> exists r, fval (time i j) = Fin r /\ (a <= r <= b)%R).
  { intros i j I J. assert (In (time i j) cost) as Q by (apply M; eauto). destruct (At _ Q) as (r & Er & _). exists r. split; [exact Er|]. apply (All (time i j)); [exact Q|apply val_fval; exact Er]. }
  split; [|split].
  - split.
    + apply M in Ia as (i & j & I & J & ->). exists i, j. split; [exact I|]. split; [exact J|]. congruence.
    + intros i j I J. destruct (B i j I J) as (r & -> & R). rewrite Va'. cbn [xleb]. apply Rleb_iff. lra.
  - split.
    + apply M in Ib as (i & j & I & J & ->). exists i, j. split; [exact I|]. split; [exact J|]. congruence.
    + intros i j I J. destruct (B i j I J) as (r & -> & R). rewrite Vb'. cbn [xleb]. apply Rleb_iff. lra.
  - intros i j I J. destruct (A i j I J) as (c & Ec & Ac).
    destruct (cost_shown prec emax Hp Hm lm P8 E128 cost (time i j) At Va) as (r & g & b' & R & G & B' & Es); [apply M; eauto|].
    exists r, g, b'. split; [exact R|]. split; [exact G|]. split; [exact B'|]. split; [exact Es|].
    assert (c = [r; g; b'; 255]) by congruence. subst c. exact Ac.
Qed.
Lemma cost_same : forall o1 o2 m1 m2, 0 <= height -> schedule width height o1 -> schedule width height o2 ->
  length m1 = Z.to_nat (4 * width * height) -> length m2 = Z.to_nat (4 * width * height) ->
  cost_picture (F:=N) width height time o1 m1 = cost_picture (F:=N) width height time o2 m2.
Proof. intros. apply picture_same; auto. apply drawn_ok. Qed.
End Drawn.
(* double: the first and the last colour *)
Notation shown lm s := (obind (inferno (F:=F64 lm) s) (fun c => to_8bit_rgba (F:=F64 lm) (vec_list (F:=F64 lm) c))).
Lemma colour_first : forall lm (s : binary64), fval s = Fin 0 -> shown lm s = Ok [13; 3; 30; 255].
Proof. intros lm s E. apply val_fval in E. apply val_zero in E as ([|] & ->); vm_compute; reflexivity. Qed.
Lemma colour_last : forall lm (s : binary64), fval s = Fin 1 -> shown lm s = Ok [249; 255; 204; 255].
Proof.
  intros lm s E. assert (s = d64 1 0) as ->; [|vm_compute; reflexivity].
  assert (E1 : fval (d64 1 0) = Fin 1) by (vm_compute; f_equal; lra). apply val_fval in E, E1. destruct E as (F1 & V1), E1 as (F2 & V2).
  apply B2R_Bsign_inj; auto; [congruence|]. destruct s as [sg|sg| |sg m e b]; try discriminate; cbn [B2R] in V1; [lra|].
  destruct sg; [|reflexivity]. exfalso. assert (F2R (Float radix2 (Zneg m) e) < 0)%R by (apply F2R_lt_0; reflexivity). cbn [cond_Zopp Z.opp] in V1. lra.
Qed.
Lemma cost_slowest : forall lm width height (time : Z -> Z -> binary64), 0 <= width -> timed width height time -> uneven width height time ->
  forall order img, schedule width height order -> length img = Z.to_nat (4 * width * height) ->
  exists img', cost_picture (F:=F64 lm) width height time order img = Ok img' /\
  forall i j, 0 <= i < width -> 0 <= j < height ->
    ((forall a b, 0 <= a < width -> 0 <= b < height -> xleb (fval (time i j)) (fval (time a b)) = true) -> forall k d, 0 <= k < 4 -> nth (offset width height i j k) img' d = nth (Z.to_nat k) [13; 3; 30; 255] d) /\
    ((forall a b, 0 <= a < width -> 0 <= b < height -> xleb (fval (time a b)) (fval (time i j)) = true) -> forall k d, 0 <= k < 4 -> nth (offset width height i j k) img' d = nth (Z.to_nat k) [249; 255; 204; 255] d).
Proof.
  intros lm width height time W1 T V order img S Len.
  destruct (picture_of_times (F:=F64 lm) width height W1 time order img S Len (drawn_ok 53 1024 Hprec53 Hmax1024 lm ltac:(lia) ltac:(lia) width height time T V)) as (img' & cost & E & L & M & A).
  destruct (drawn_list 53 1024 width height time T V cost M) as (At & Va). exists img'. split; [exact E|]. intros i j I J.
  destruct (A i j I J) as (c & Ec & Ac). unfold cost_pixel in Ec.
  destruct (cost_ends 53 1024 Hprec53 Hmax1024 lm ltac:(lia) cost (time i j) At Va ltac:(apply M; eauto)) as (Lo & Hi).
  split; intros H.
  - assert (Z : fval (cost_scalar (F:=F64 lm) cost (time i j)) = Fin 0) by (apply Lo; intros t It; apply M in It as (a & b & Ia & Jb & ->); apply H; assumption).
    rewrite (colour_first lm _ Z) in Ec. injection Ec as <-. exact Ac.
  - assert (Z : fval (cost_scalar (F:=F64 lm) cost (time i j)) = Fin 1) by (apply Hi; intros t It; apply M in It as (a & b & Ia & Jb & ->); apply H; assumption).
    rewrite (colour_last lm _ Z) in Ec. injection Ec as <-. exact Ac.
Qed.

(** *** the name of the file *)
Lemma substring_stem : forall a b, substring 0 (String.length a) (a ++ b) = a.
Proof. induction a as [|c a IH]; intros b; cbn [String.length append substring]; [destruct b; reflexivity|]. f_equal. apply IH. Qed.
Lemma append_length : forall a b, String.length (a ++ b) = (String.length a + String.length b)%nat.
Proof. induction a as [|c a IH]; intros b; cbn [append String.length Nat.add]; [reflexivity|]. rewrite IH. reflexivity. Qed.
Lemma substring_length : forall n s, (n <= String.length s)%nat -> String.length (substring 0 n s) = n.
Proof. induction n as [|n IH]; intros [|c s] H; cbn [String.length substring] in *; try lia; try reflexivity. rewrite IH; lia. Qed.
Lemma cost_name_stem : forall stem ext, String.length ext = 4%nat -> Z.of_nat (String.length (stem ++ ext)) < 2 ^ 64 -> cost_filename (stem ++ ext) = (stem ++ "_cost.png")%string.
Proof.
  intros stem ext X B. unfold cost_filename. rewrite append_length, X in *. rewrite Z.mod_small by lia.
  replace (Z.to_nat _) with (String.length stem) by lia. rewrite substring_stem. reflexivity.
Qed.
Lemma cost_name_other : forall name, Z.of_nat (String.length name) < 2 ^ 64 -> cost_filename name <> name.
Proof.
  intros name B E. apply (f_equal String.length) in E. unfold cost_filename in E. rewrite append_length in E.
  set (n := Z.of_nat (String.length name)) in *. pose proof (Z.mod_pos_bound (n - 4) (2 ^ 64) ltac:(lia)).
  rewrite substring_length in E by (unfold n in *; lia). change (String.length "_cost.png") with 9%nat in E.
  destruct (Z.le_gt_cases 4 n); [rewrite Z.mod_small in E by lia; lia|].
  replace ((n - 4) mod 2 ^ 64) with (n - 4 + 2 ^ 64) in E by (apply Z.mod_unique with (q := -1); lia). lia.
Qed.
