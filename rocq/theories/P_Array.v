(** Matrix and tensor storage for arbitrary dimensions. *)
From Coq Require Import Reals Lra ZArith List Bool Arith Lia.
From Verif Require Import Num XR M_Array Spec.
Import ListNotations.
Local Open Scope R_scope.

(** *** Index arithmetic *)
Lemma midx_range : forall rows cols i j, (i < rows -> j < cols -> midx cols i j < rows * cols)%nat.
Proof. intros; unfold midx; nia. Qed.
Lemma midx_inj : forall cols i j i' j', (j < cols -> j' < cols ->
  midx cols i j = midx cols i' j' -> i = i' /\ j = j')%nat.
Proof.
  unfold midx; intros cols i j i' j' Hj Hj' E.
  assert (i = i') by nia. subst; split; auto; lia.
Qed.
Lemma tidx_midx : forall rows cols i j k, tidx rows cols i j k = midx (rows * cols) i (midx cols j k).
Proof. intros; unfold tidx, midx; lia. Qed.
Lemma tidx_range : forall panels rows cols i j k,
  (i < panels -> j < rows -> k < cols -> tidx rows cols i j k < panels * (rows * cols))%nat.
Proof. intros; rewrite tidx_midx; apply midx_range; auto; apply midx_range; auto. Qed.
Lemma tidx_inj : forall rows cols i j k i' j' k',
  (j < rows -> k < cols -> j' < rows -> k' < cols ->
   tidx rows cols i j k = tidx rows cols i' j' k' -> i = i' /\ j = j' /\ k = k')%nat.
Proof.
  intros rows cols i j k i' j' k' Hj Hk Hj' Hk' E; rewrite !tidx_midx in E.
  apply midx_inj in E; try (apply midx_range; auto). destruct E as [-> E].
  apply midx_inj in E; auto.
Qed.

(** *** Loops *)
Lemma for_from_seq : forall {S} n lo (body : nat -> S -> outcome S) (s : nat -> S),
  (forall j, (lo <= j < lo + n)%nat -> body j (s j) = Ok (s (Datatypes.S j))) ->
  for_from lo n body (s lo) = Ok (s (lo + n)%nat).
Proof.
  intros S n; induction n as [|n IH]; intros lo body s H.
  - rewrite Nat.add_0_r; reflexivity.
  - cbn [for_from]. rewrite H by lia. cbn [obind]. rewrite IH by (intros; apply H; lia).
    f_equal; f_equal; lia.
Qed.
Lemma for_seq : forall {S} n (body : nat -> S -> outcome S) (s : nat -> S) s0 sn,
  s0 = s O -> sn = s n ->
  (forall j, (j < n)%nat -> body j (s j) = Ok (s (Datatypes.S j))) ->
  for_ n body s0 = Ok sn.
Proof.
  intros S n body s s0 sn -> -> H; unfold for_.
  rewrite for_from_seq; auto. intros; apply H; lia.
Qed.
Lemma for_from_undef : forall {S} n lo k (body : nat -> S -> outcome S) s sk,
  (k < n)%nat -> for_from lo k body s = Ok sk -> body (lo + k)%nat sk = Undef -> for_from lo n body s = Undef.
Proof.
  intros S n; induction n as [|n IH]; intros lo k body s sk Hk E U; [lia|].
  destruct k as [|k].
  - injection E as <-. rewrite Nat.add_0_r in U. cbn [for_from]; rewrite U; reflexivity.
  - cbn [for_from] in E |- *. destruct (body lo s) as [s'| |]; try discriminate. cbn [obind] in *.
    apply (IH (Datatypes.S lo) k body s' sk); auto; [lia|]. rewrite <- U; f_equal; lia.
Qed.

(** *** Arrays as tables *)
Definition tab (N : nat) (g : nat -> option xr) : list (option xr) := map g (seq 0 N).
Lemma tab_ext : forall N g g', (forall n, (n < N)%nat -> g n = g' n) -> tab N g = tab N g'.
Proof.
  intros N g g' H; apply map_ext_in; intros n Hn; apply H. apply in_seq in Hn; lia.
Qed.
Lemma nth_error_tab : forall N g n, (n < N)%nat -> nth_error (tab N g) n = Some (g n).
Proof.
  intros N g n H; unfold tab. rewrite nth_error_map.
  rewrite (nth_error_nth' _ O) by (rewrite seq_length; auto). rewrite seq_nth by auto. reflexivity.
Qed.
Lemma nth_error_tab_out : forall N g n, (N <= n)%nat -> nth_error (tab N g) n = None.
Proof. intros; apply nth_error_None; unfold tab; rewrite map_length, seq_length; auto. Qed.

Section L.
Variable L : limits.

Lemma aget_tab : forall N g n x, (n < N)%nat -> g n = Some x -> aget (F:=XR L) (tab N g) n = Ok x.
Proof. intros N g n x H E; unfold aget. rewrite nth_error_tab, E; auto. Qed.
Lemma aget_tab_out : forall N g n, (N <= n)%nat -> aget (F:=XR L) (tab N g) n = Undef.
Proof. intros N g n H; unfold aget. rewrite nth_error_tab_out; auto. Qed.

Definition upd (g : nat -> option xr) (i : nat) (x : xr) : nat -> option xr :=
  fun n => if Nat.eqb n i then Some x else g n.

Lemma aset_map : forall g x i len s, (i < len)%nat ->
  aset (F:=XR L) (map g (seq s len)) i x = Ok (map (upd g (s + i) x) (seq s len)).
Proof.
  intros g x i; induction i as [|i IH]; intros len s H; destruct len as [|len]; try lia.
  - cbn [seq map aset]. f_equal. f_equal.
    + unfold upd; rewrite Nat.add_0_r, Nat.eqb_refl; auto.
    + apply map_ext_in; intros n Hn; apply in_seq in Hn. unfold upd.
      destruct (Nat.eqb_spec n (s + 0)); auto; lia.
  - cbn [seq map aset]. rewrite IH by lia. cbn [obind]. f_equal. f_equal.
    + unfold upd. destruct (Nat.eqb_spec s (s + S i)); auto; lia.
    + replace (S s + i)%nat with (s + S i)%nat by lia; auto.
Qed.
Lemma aset_tab : forall N g i x, (i < N)%nat -> aset (F:=XR L) (tab N g) i x = Ok (tab N (upd g i x)).
Proof. intros; unfold tab; rewrite aset_map by auto; auto. Qed.

Lemma repeat_tab : forall N, repeat (@None xr) N = tab N (fun _ => None).
Proof.
  intros N; unfold tab. generalize O. induction N as [|N IH]; intros s; auto.
  cbn [repeat seq map]. f_equal. apply IH.
Qed.

Lemma stored_list_of : forall n f, stored (list_of n f) = tab n (fun i => Some (Fin (f i))).
Proof. intros; unfold stored, list_of, tab; apply map_map. Qed.

Lemma flat_map_tab : forall (A : Type) cols rows s (g : nat -> nat -> A),
  (0 < cols)%nat ->
  flat_map (fun i => map (g i) (seq 0 cols)) (seq s rows) =
  map (fun n => g (n / cols)%nat (n mod cols)%nat) (seq (s * cols) (rows * cols)).
Proof.
  intros A cols rows; induction rows as [|rows IH]; intros s g Hc; auto.
  cbn [seq flat_map]. rewrite IH by auto.
  replace (S rows * cols)%nat with (cols + rows * cols)%nat by lia.
  rewrite seq_app, map_app. f_equal.
  - replace (s * cols)%nat with (s * cols + 0)%nat by lia.
    assert (W : forall k m, (k + m <= cols)%nat ->
      map (g s) (seq k m) = map (fun n => g (n / cols)%nat (n mod cols)%nat) (seq (s * cols + k) m)).
    { intros k m; revert k; induction m as [|m IHm]; intros k Hk; auto.
      cbn [seq map]. f_equal.
      - f_equal.
        + symmetry; rewrite Nat.div_add_l by lia. rewrite Nat.div_small by lia. lia.
        + symmetry; rewrite Nat.add_comm, Nat.mod_add by lia. apply Nat.mod_small; lia.
      - rewrite IHm by lia. f_equal. f_equal. lia. }
    apply W; lia.
  - f_equal. f_equal. lia.
Qed.

Lemma stored_row_major : forall rows cols f, (0 < cols)%nat ->
  stored (row_major rows cols f) = tab (rows * cols) (fun n => Some (Fin (f (n / cols)%nat (n mod cols)%nat))).
Proof.
  intros rows cols f Hc; unfold stored, row_major, tab.
  rewrite flat_map_tab by auto. rewrite map_map. reflexivity.
Qed.

Lemma row_major_0 : forall rows f, row_major rows 0 f = [].
Proof. intros; unfold row_major. induction (seq 0 rows); auto. Qed.

Lemma aget_row_major : forall rows cols f i j, (i < rows -> j < cols ->
  aget (F:=XR L) (stored (row_major rows cols f)) (midx cols i j) = Ok (Fin (f i j)))%nat.
Proof.
  intros rows cols f i j Hi Hj. rewrite stored_row_major by lia.
  apply aget_tab; [apply midx_range; auto|]. unfold midx.
  rewrite Nat.div_add_l by lia. rewrite Nat.div_small by lia.
  rewrite (Nat.add_comm (i * cols)), Nat.mod_add by lia. rewrite Nat.mod_small by lia.
  rewrite Nat.add_0_r; auto.
Qed.

Lemma aget_list_of : forall n f i, (i < n)%nat -> aget (F:=XR L) (stored (list_of n f)) i = Ok (Fin (f i)).
Proof. intros; rewrite stored_list_of; apply aget_tab; auto. Qed.

Lemma panel_major_row : forall panels rows cols f,
  panel_major panels rows cols f = row_major panels (rows * cols) (fun i n => f i (n / cols)%nat (n mod cols)%nat).
Proof.
  intros; unfold panel_major. unfold row_major at 2. apply flat_map_ext; intros i.
  destruct cols as [|cols].
  - rewrite Nat.mul_0_r, row_major_0; auto.
  - unfold row_major. rewrite flat_map_tab by lia. reflexivity.
Qed.

Lemma aget_panel_major : forall panels rows cols f i j k, (i < panels -> j < rows -> k < cols ->
  aget (F:=XR L) (stored (panel_major panels rows cols f)) (tidx rows cols i j k) = Ok (Fin (f i j k)))%nat.
Proof.
  intros panels rows cols f i j k Hi Hj Hk. rewrite panel_major_row, tidx_midx.
  rewrite aget_row_major by (auto; apply midx_range; auto). do 2 f_equal. unfold midx.
  rewrite Nat.div_add_l by lia. rewrite Nat.div_small by lia.
  rewrite (Nat.add_comm (j * cols)), Nat.mod_add by lia. rewrite Nat.mod_small by lia.
  rewrite Nat.add_0_r; auto.
Qed.

(** accumulation into one cell *)
Lemma for_accumulate : forall N n c (term : nat -> R) (body : nat -> list (option xr) -> outcome (list (option xr))) g a,
  (c < N)%nat ->
  (forall k g' a', (k < n)%nat -> g' c = Some (Fin a') ->
      body k (tab N g') = Ok (tab N (upd g' c (Fin (a' + term k))))) ->
  g c = Some (Fin a) ->
  for_ n body (tab N g) = Ok (tab N (upd g c (Fin (a + sumR n term)))).
Proof.
  intros N n c term body g a Hc Hb Hg.
  apply (for_seq n body (fun k => tab N (upd g c (Fin (a + sumR k term))))); auto.
  - apply tab_ext; intros i Hi; unfold upd. cbn [sumR]. rewrite Rplus_0_r.
    destruct (Nat.eqb_spec i c); subst; auto.
  - intros k Hk. rewrite (Hb k _ (a + sumR k term)); auto.
    + f_equal. apply tab_ext; intros i Hi; unfold upd. cbn [sumR].
      destruct (Nat.eqb_spec i c); auto. do 2 f_equal. ring.
    + unfold upd. rewrite Nat.eqb_refl; auto.
Qed.

Definition fill (h : nat -> R) (k : nat) : nat -> option xr :=
  fun n => if Nat.ltb n k then Some (Fin (h n)) else None.

Lemma fill_0 : forall N h, repeat (@None xr) N = tab N (fill h 0).
Proof. intros; apply repeat_tab. Qed.
Lemma fill_step : forall N h k, (k < N)%nat -> tab N (upd (fill h k) k (Fin (h k))) = tab N (fill h (S k)).
Proof.
  intros N h k H; apply tab_ext; intros n Hn; unfold upd, fill.
  destruct (Nat.eqb_spec n k); subst.
  - destruct (Nat.ltb_spec k (S k)); auto; lia.
  - destruct (Nat.ltb_spec n k), (Nat.ltb_spec n (S k)); auto; lia.
Qed.
Lemma fill_all : forall N h, tab N (fill h N) = tab N (fun n => Some (Fin (h n))).
Proof. intros; apply tab_ext; intros n Hn; unfold fill. destruct (Nat.ltb_spec n N); auto; lia. Qed.

Lemma upd_upd : forall N g i x y, tab N (upd (upd g i x) i y) = tab N (upd g i y).
Proof. intros; apply tab_ext; intros n Hn; unfold upd. destruct (Nat.eqb n i); auto. Qed.

Lemma mat_vec_correct : forall rows cols (m : nat -> nat -> R) (v : nat -> R),
  mat_vec (F:=XR L) rows cols (stored (row_major rows cols m)) (stored (list_of cols v)) =
  Ok (stored (list_of rows (applyR cols m v))).
Proof.
  intros rows cols m v; unfold mat_vec.
  apply (for_seq rows _ (fun i => tab rows (fill (applyR cols m v) i))).
  - apply fill_0.
  - rewrite fill_all. apply stored_list_of.
  - intros i Hi. rewrite aset_tab by auto. cbn [obind].
    rewrite (for_accumulate rows cols i (fun k => m i k * v k) _ _ 0); auto.
    + rewrite Rplus_0_l, upd_upd. f_equal. apply fill_step; auto.
    + intros k g' a' Hk Hg'. rewrite (aget_tab _ _ _ _ Hi Hg'). cbn [obind].
      rewrite aget_row_major, aget_list_of by auto. cbn [obind].
      rewrite aset_tab by auto. reflexivity.
    + unfold upd; rewrite Nat.eqb_refl; auto.
Qed.

Lemma mat_mat_correct : forall rows cols cols2 (a b : nat -> nat -> R),
  mat_mat (F:=XR L) rows cols cols2 (stored (row_major rows cols a)) (stored (row_major cols cols2 b)) =
  Ok (stored (row_major rows cols2 (mulR cols a b))).
Proof.
  intros rows cols cols2 a b.
  destruct (Nat.eq_dec cols2 0) as [->|Hc2].
  { rewrite (row_major_0 rows). unfold mat_mat. rewrite Nat.mul_0_r.
    apply (for_seq rows _ (fun _ => [])); auto. }
  unfold mat_mat.
  set (h := fun n => mulR cols a b (n / cols2)%nat (n mod cols2)%nat).
  apply (for_seq rows _ (fun i => tab (rows * cols2) (fill h (i * cols2)))).
  - apply fill_0.
  - rewrite fill_all. apply stored_row_major; lia.
  - intros i Hi.
    apply (for_seq cols2 _ (fun j => tab (rows * cols2) (fill h (i * cols2 + j)))).
    + rewrite Nat.add_0_r; auto.
    + do 2 f_equal. lia.
    + intros j Hj.
      assert (Hc : (midx cols2 i j < rows * cols2)%nat) by (apply midx_range; auto).
      rewrite aset_tab by auto. cbn [obind].
      rewrite (for_accumulate _ cols (midx cols2 i j) (fun k => a i k * b k j) _ _ 0); auto.
      * rewrite Rplus_0_l, upd_upd. f_equal.
        replace (sumR cols (fun k => a i k * b k j)) with (h (midx cols2 i j)).
        { replace (i * cols2 + S j)%nat with (S (midx cols2 i j)) by (unfold midx; lia).
          apply fill_step; auto. }
        unfold h, mulR, midx.
        rewrite Nat.div_add_l by lia. rewrite Nat.div_small by lia.
        rewrite (Nat.add_comm (i * cols2)), Nat.mod_add by lia. rewrite Nat.mod_small by lia.
        rewrite Nat.add_0_r; auto.
      * intros k g' a' Hk Hg'. rewrite (aget_tab _ _ _ _ Hc Hg'). cbn [obind].
        rewrite !aget_row_major by auto. cbn [obind].
        rewrite aset_tab by auto. reflexivity.
      * unfold upd; rewrite Nat.eqb_refl; auto.
Qed.

Lemma contract_correct : forall panels n (t : nat -> nat -> nat -> R) (x y : nat -> R),
  contract (F:=XR L) panels n n (stored (panel_major panels n n t)) (stored (list_of n x)) (stored (list_of n y)) =
  Ok (stored (list_of panels (fun i => sumR n (fun j => sumR n (fun k => t i j k * x j * y k))))).
Proof.
  intros panels n t x y; unfold contract.
  set (h := fun i => sumR n (fun j => sumR n (fun k => t i j k * x j * y k))).
  apply (for_seq panels _ (fun i => tab panels (fill h i))).
  - apply fill_0.
  - rewrite fill_all. apply stored_list_of.
  - intros i Hi. rewrite aset_tab by auto. cbn [obind].
    rewrite (for_accumulate panels n i (fun j => sumR n (fun k => t i j k * x j * y k)) _ _ 0); auto.
    + rewrite Rplus_0_l, upd_upd. f_equal. apply fill_step; auto.
    + intros j g' a' Hj Hg'.
      apply (for_accumulate panels n i (fun k => t i j k * x j * y k)); auto.
      intros k g2 a2 Hk Hg2. rewrite (aget_tab _ _ _ _ Hi Hg2). cbn [obind].
      rewrite aget_panel_major, !aget_list_of by auto. cbn [obind].
      rewrite aset_tab by auto. reflexivity.
    + unfold upd; rewrite Nat.eqb_refl; auto.
Qed.

(** With fewer rows than columns the contraction runs off the end of the storage. *)
Lemma for_ok_step : forall {S} n (body : nat -> S -> outcome S) s s',
  for_ n body s = Ok s' -> forall k, (k < n)%nat -> exists a b, body k a = Ok b.
Proof.
  intros S n body s s'; unfold for_. intros E k Hk.
  assert (W : forall n lo s, for_from lo n body s = Ok s' -> (lo <= k < lo + n)%nat -> exists a b, body k a = Ok b).
  { clear. induction n as [|n IH]; intros lo s E Hk; [lia|].
    cbn [for_from] in E. destruct (body lo s) as [s1| |] eqn:B; try discriminate. cbn [obind] in E.
    destruct (Nat.eq_dec k lo) as [->|]; [eauto|]. apply (IH (Datatypes.S lo) s1); auto; lia. }
  apply (W n O s); auto; lia.
Qed.

Lemma length_row_major : forall rows cols f, length (row_major rows cols f) = (rows * cols)%nat.
Proof.
  intros; unfold row_major.
  assert (W : forall l, length (flat_map (fun i => map (f i) (seq 0 cols)) l) = (length l * cols)%nat).
  { induction l; auto. simpl flat_map. rewrite app_length, map_length, seq_length, IHl. simpl; lia. }
  rewrite W, seq_length; auto.
Qed.

Lemma contract_out_of_bounds : forall panels rows cols (t : nat -> nat -> nat -> R) (x y : nat -> R),
  (0 < panels -> 0 < rows -> rows < cols ->
   forall z, contract (F:=XR L) panels rows cols (stored (panel_major panels rows cols t))
     (stored (list_of cols x)) (stored (list_of rows y)) <> Ok z)%nat.
Proof.
  intros panels rows cols t x y Hp Hr Hc z E; unfold contract in E.
  destruct (for_ok_step _ _ _ _ E (panels - 1)%nat ltac:(lia)) as [z1 [z2 E1]].
  destruct (aset z1 (panels - 1) _) as [z3| |]; try discriminate. cbn [obind] in E1.
  destruct (for_ok_step _ _ _ _ E1 (cols - 1)%nat ltac:(lia)) as [z4 [z5 E2]].
  destruct (for_ok_step _ _ _ _ E2 O ltac:(lia)) as [z6 [z7 E3]].
  destruct (aget z6 (panels - 1)) as [z8| |]; try discriminate. cbn [obind] in E3.
  unfold aget at 1 in E3.
  rewrite (proj2 (nth_error_None _ _)) in E3; [discriminate|].
  unfold stored; rewrite map_length, panel_major_row, length_row_major. unfold tidx.
  assert (M : (rows * cols <= (cols - 1) * cols)%nat) by (apply Nat.mul_le_mono_r; lia).
  destruct panels as [|p]; [lia|]. replace (S p - 1)%nat with p by lia. rewrite <- Nat.mul_assoc. lia.
Qed.

Lemma column_correct : forall rows cols (m : nat -> nat -> R) j, (j < cols)%nat ->
  column (F:=XR L) rows cols (stored (row_major rows cols m)) j = Ok (stored (list_of rows (fun i => m i j))).
Proof.
  intros rows cols m j Hj; unfold column.
  apply (for_seq rows _ (fun i => tab rows (fill (fun i => m i j) i))).
  - apply fill_0.
  - rewrite fill_all. apply stored_list_of.
  - intros i Hi. rewrite aget_row_major by auto. cbn [obind]. rewrite aset_tab by auto.
    f_equal. exact (fill_step rows (fun i => m i j) i Hi).
Qed.
End L.

(** *** Associativity *)
Lemma sumR_ext : forall n f g, (forall k, (k < n)%nat -> f k = g k) -> sumR n f = sumR n g.
Proof. induction n; simpl; intros; auto. rewrite (IHn f g), H by auto; auto. Qed.
Lemma sumR_plus : forall n f g, sumR n (fun k => f k + g k) = sumR n f + sumR n g.
Proof. induction n; simpl; intros; [ring|]. rewrite IHn; ring. Qed.
Lemma sumR_scal : forall n f c, sumR n (fun k => c * f k) = c * sumR n f.
Proof. induction n; simpl; intros; [ring|]. rewrite IHn; ring. Qed.
Lemma sumR_zero : forall n, sumR n (fun _ => 0) = 0.
Proof. induction n; simpl; auto. rewrite IHn; ring. Qed.
Lemma sumR_swap : forall n m f, sumR n (fun i => sumR m (fun j => f i j)) = sumR m (fun j => sumR n (fun i => f i j)).
Proof.
  induction n; simpl; intros.
  - symmetry; apply sumR_zero.
  - rewrite IHn, sumR_plus; auto.
Qed.
Lemma apply_mul : forall n m a b v i, applyR m (mulR n a b) v i = applyR n a (applyR m b v) i.
Proof.
  intros; unfold applyR, mulR.
  transitivity (sumR m (fun k => sumR n (fun l => a i l * (b l k * v k)))).
  - apply sumR_ext; intros k _. rewrite Rmult_comm, <- sumR_scal. apply sumR_ext; intros; ring.
  - rewrite sumR_swap. apply sumR_ext; intros l _. rewrite sumR_scal; auto.
Qed.
