(** Equidistribution of the PCG outputs, and termination of rejection sampling. *)
From Coq Require Import ZArith Lia List Bool Permutation Zpow_facts.
From Verif Require Import Spec_Random Num M_Rng P_Rng P_Period.
Import ListNotations.
Local Open Scope Z_scope.

(** ** Sums over a range *)

Lemma in_words : forall n x, In x (words n) <-> 0 <= x < n.
Proof.
  intros n x. unfold words. rewrite in_map_iff. split.
  - intros (k & <- & K). apply in_seq in K. lia.
  - intros H. exists (Z.to_nat x). split; [lia|]. apply in_seq. lia.
Qed.
Lemma NoDup_words : forall n, NoDup (words n).
Proof. intros n. apply NoDup_map_in; [intros; lia|apply seq_NoDup]. Qed.
Lemma words_succ : forall n, 0 <= n -> words (n + 1) = words n ++ [n].
Proof.
  intros n H. unfold words. replace (Z.to_nat (n + 1)) with (S (Z.to_nat n)) by lia.
  rewrite seq_S, map_app. cbn [map Nat.add]. rewrite Z2Nat.id by lia. reflexivity.
Qed.
Lemma total_app : forall l m, total (l ++ m) = total l + total m.
Proof. induction l as [|x l IH]; intros m; cbn; [reflexivity|rewrite IH; ring]. Qed.
Lemma total_perm : forall l m, Permutation l m -> total l = total m.
Proof. induction 1; cbn; lia. Qed.
Lemma total_plus : forall (f g : Z -> Z) l, total (map (fun x => f x + g x) l) = total (map f l) + total (map g l).
Proof. intros f g l. induction l as [|x l IH]; cbn; [reflexivity|rewrite IH; ring]. Qed.
Lemma total_lower : forall (f : Z -> Z) b l, (forall x, In x l -> b <= f x) -> b * Z.of_nat (length l) <= total (map f l).
Proof.
  intros f b l H. induction l as [|x l IH]; [cbn; lia|]. cbn [length map total]. rewrite Nat2Z.inj_succ.
  pose proof (H x (or_introl eq_refl)). assert (b * Z.of_nat (length l) <= total (map f l)) by (apply IH; intros; apply H; cbn; auto). lia.
Qed.
Lemma length_words : forall n, 0 <= n -> Z.of_nat (length (words n)) = n.
Proof. intros n H. unfold words. rewrite map_length, seq_length. lia. Qed.

(** a permutation of the range *)
Lemma total_bijection : forall n (h f : Z -> Z), (forall x, 0 <= x < n -> 0 <= h x < n) ->
  (forall x y, 0 <= x < n -> 0 <= y < n -> h x = h y -> x = y) ->
  total (map (fun x => f (h x)) (words n)) = total (map f (words n)).
Proof.
  intros n h f Hr Hi. rewrite <- (map_map h f). apply total_perm, Permutation_map.
  assert (ND : NoDup (map h (words n))).
  { apply NoDup_map_in; [|apply NoDup_words]. intros x y X Y. rewrite in_words in X, Y. auto. }
  assert (I : incl (map h (words n)) (words n)).
  { intros z Z. apply in_map_iff in Z. destruct Z as (x & <- & X). rewrite in_words in *. auto. }
  apply NoDup_Permutation_bis; [exact ND| |exact I]. rewrite map_length. lia.
Qed.

Lemma total_split : forall m n (f : Z -> Z), 0 <= m -> 0 <= n ->
  total (map f (words (m * n))) = total (map (fun a => total (map (fun b => f (a * n + b)) (words n))) (words m)).
Proof.
  intros m n f Hm Hn. revert m Hm. apply natlike_ind; [reflexivity|]. intros m Hm IH.
  unfold Z.succ. rewrite words_succ, map_app, total_app, <- IH by lia. cbn [map total].
  assert (A : forall k, 0 <= k -> total (map f (words (m * n + k))) = total (map f (words (m * n))) + total (map (fun b => f (m * n + b)) (words k))).
  { apply natlike_ind; [rewrite Z.add_0_r; cbn; lia|]. intros k Hk IHk. unfold Z.succ. rewrite Z.add_assoc.
    rewrite !words_succ, !map_app, !total_app, IHk by nia. cbn. lia. }
  replace ((m + 1) * n) with (m * n + n) by ring. rewrite A by lia. lia.
Qed.
Lemma total_const : forall c n, 0 <= n -> total (map (fun _ => c) (words n)) = c * n.
Proof. intros c. apply natlike_ind; [cbn; lia|]. intros n Hn IH. unfold Z.succ. rewrite words_succ, map_app, total_app, IH by lia. cbn. ring. Qed.
Lemma total_scale : forall c (f : Z -> Z) l, total (map (fun x => c * f x) l) = c * total (map f l).
Proof. intros c f l. induction l as [|x l IH]; cbn; [ring|rewrite IH; ring]. Qed.
Lemma total_ext : forall (f g : Z -> Z) l, (forall x, In x l -> f x = g x) -> total (map f l) = total (map g l).
Proof. intros f g l H. f_equal. apply map_ext_in. exact H. Qed.

(** ** Bits of the output *)
Lemma shift_bits : forall x i n, 0 <= n -> 0 <= i -> Z.testbit (Z.shiftr x n) i = Z.testbit x (i + n).
Proof. intros. rewrite Z.shiftr_spec by lia. reflexivity. Qed.

(* the word before the rotation *)
Definition xorword (x : Z) : Z := Z.shiftr (Z.lxor (Z.shiftr x 18) x) 27 mod 2 ^ 32.
Lemma xorword_range : forall x, 0 <= xorword x < 2 ^ 32.
Proof. intros. apply Z.mod_pos_bound. lia. Qed.
Lemma xorword_bit : forall x i, 0 <= i < 32 -> Z.testbit (xorword x) i = xorb (Z.testbit x (i + 45)) (Z.testbit x (i + 27)).
Proof.
  intros x i H. unfold xorword. rewrite Z.mod_pow2_bits_low by lia. rewrite Z.shiftr_spec by lia. rewrite Z.lxor_spec, Z.shiftr_spec by lia.
  f_equal. f_equal. lia.
Qed.

Definition rotate (w r : Z) : Z := Z.lor (Z.shiftr w r) (Z.shiftl w (Z.land (- r) 31) mod 2 ^ 32).
Lemma rotate_bit : forall w r i, 0 <= w < 2 ^ 32 -> 0 <= r < 32 -> 0 <= i < 32 ->
  Z.testbit (rotate w r) i = Z.testbit w ((i + r) mod 32).
Proof.
  intros w r i Hw Hr Hi. unfold rotate. rewrite Z.lor_spec, Z.shiftr_spec by lia.
  rewrite Z.mod_pow2_bits_low by lia. change 31 with (Z.ones 5). rewrite Z.land_ones by lia. change (2 ^ 5) with 32.
  assert (High : forall j, 32 <= j -> Z.testbit w j = false).
  { intros j Hj. rewrite <- (Z.mod_small w (2 ^ 32)) by lia. apply Z.mod_pow2_bits_high. lia. }
  destruct (Z.eq_dec r 0) as [->|R0].
  - change (- 0 mod 32) with 0. rewrite Z.shiftl_0_r, Z.add_0_r, Z.mod_small by lia. apply orb_diag.
  - replace (- r mod 32) with (32 - r) by (apply (Zmod_unique (- r) 32 (-1)); lia).
    rewrite Z.shiftl_spec by lia. destruct (Z_lt_dec (i + r) 32) as [L|L].
    + rewrite (Z.mod_small (i + r)) by lia. rewrite (Z.testbit_neg_r w (i - (32 - r))) by lia. apply orb_false_r.
    + rewrite High by lia. cbn [orb]. f_equal. apply (Zmod_unique (i + r) 32 1); lia.
Qed.
Lemma rotate_range : forall w r, 0 <= w < 2 ^ 32 -> 0 <= r < 32 -> 0 <= rotate w r < 2 ^ 32.
Proof.
  intros w r Hw Hr. unfold rotate. apply lor_lt_pow; [lia| |apply Z.mod_pos_bound; lia].
  rewrite Z.shiftr_div_pow2 by lia. assert (0 < 2 ^ r) by (apply Z.pow_pos_nonneg; lia).
  split; [apply Z.div_pos; lia|]. apply Z.div_lt_upper_bound; nia.
Qed.
Lemma word_ext : forall a b n, 0 <= n -> 0 <= a < 2 ^ n -> 0 <= b < 2 ^ n -> (forall i, 0 <= i < n -> Z.testbit a i = Z.testbit b i) -> a = b.
Proof.
  intros a b n Hn Ha Hb H. apply Z.bits_inj'. intros i Hi. destruct (Z_lt_dec i n); [apply H; lia|].
  rewrite <- (Z.mod_small a (2 ^ n)), <- (Z.mod_small b (2 ^ n)) by lia. rewrite !Z.mod_pow2_bits_high by lia. reflexivity.
Qed.
Lemma rotate_inj : forall r w w', 0 <= r < 32 -> 0 <= w < 2 ^ 32 -> 0 <= w' < 2 ^ 32 -> rotate w r = rotate w' r -> w = w'.
Proof.
  intros r w w' Hr Hw Hw' E. apply (word_ext w w' 32); try lia. intros i Hi.
  pose proof (f_equal (fun z => Z.testbit z ((i - r) mod 32)) E) as B. cbv beta in B.
  assert (0 <= (i - r) mod 32 < 32) by (apply Z.mod_pos_bound; lia).
  rewrite !rotate_bit in B by lia. rewrite Z.add_mod_idemp_l in B by lia. replace (i - r + r) with i in B by ring.
  rewrite Z.mod_small in B by lia. exact B.
Qed.

Lemma output_eq : forall x, word64 x -> pcg_output x = rotate (xorword x) (x / 2 ^ 59).
Proof.
  intros x [H0 H1]. unfold pcg_output, rotate, xorword. rewrite (Z.shiftr_div_pow2 x 59) by lia.
  rewrite (Z.mod_small (x / 2 ^ 59)); [reflexivity|]. split; [apply Z.div_pos; lia|]. apply Z.div_lt_upper_bound; lia.
Qed.

(** The state with its middle 32 bits replaced by the output. *)
Definition scramble (x : Z) : Z := (x / 2 ^ 59 * 2 ^ 32 + pcg_output x) * 2 ^ 27 + x mod 2 ^ 27.
Definition middle (z : Z) : Z := z / 2 ^ 27 mod 2 ^ 32.

Lemma top_range : forall x, word64 x -> 0 <= x / 2 ^ 59 < 32.
Proof. intros x [H0 H1]. split; [apply Z.div_pos; lia|]. apply Z.div_lt_upper_bound; lia. Qed.
Lemma scramble_range : forall x, word64 x -> word64 (scramble x).
Proof.
  intros x H. pose proof (top_range x H). pose proof (pcg_output_range x). pose proof (Z.mod_pos_bound x (2 ^ 27) ltac:(lia)).
  unfold word64, scramble in *. set (t := x / 2 ^ 59) in *. set (o := pcg_output x) in *. set (l := x mod 2 ^ 27) in *.
  change (2 ^ 64) with (32 * 2 ^ 32 * 2 ^ 27). lia.
Qed.
Lemma scramble_middle : forall x, word64 x -> middle (scramble x) = pcg_output x.
Proof.
  intros x H. pose proof (pcg_output_range x). pose proof (Z.mod_pos_bound x (2 ^ 27) ltac:(lia)).
  unfold middle, scramble. rewrite Z.div_add_l, (Z.div_small (x mod 2 ^ 27)), Z.add_0_r by lia.
  rewrite Z.add_comm, Z.mod_add by lia. apply Z.mod_small. lia.
Qed.
Lemma div_bits : forall x n i, 0 <= n -> 0 <= i -> Z.testbit (x / 2 ^ n) i = Z.testbit x (i + n).
Proof. intros. rewrite <- Z.shiftr_div_pow2 by lia. apply Z.shiftr_spec. lia. Qed.

Lemma scramble_inj : forall x y, word64 x -> word64 y -> scramble x = scramble y -> x = y.
Proof.
  intros x y Hx Hy E.
  pose proof (scramble_middle x Hx) as Mx. pose proof (scramble_middle y Hy) as My. rewrite E, My in Mx.
  assert (L : x mod 2 ^ 27 = y mod 2 ^ 27).
  { apply (f_equal (fun z => z mod 2 ^ 27)) in E. unfold scramble in E. rewrite !(Z.add_comm (_ * 2 ^ 27)), !Z.mod_add, !Zmod_mod in E by lia. exact E. }
  assert (T : x / 2 ^ 59 = y / 2 ^ 59).
  { unfold scramble in E. rewrite L, Mx in E. lia. }
  rewrite !output_eq in Mx by assumption. rewrite T in Mx. pose proof (top_range y Hy) as R.
  apply rotate_inj in Mx; [|exact R|apply xorword_range|apply xorword_range].
  destruct Hx as [X0 X1], Hy as [Y0 Y1].
  assert (Hi : forall i, 59 <= i < 64 -> Z.testbit x i = Z.testbit y i).
  { intros i Hi. apply (f_equal (fun z => Z.testbit z (i - 59))) in T. rewrite !div_bits in T by lia.
    replace (i - 59 + 59) with i in T by ring. exact T. }
  assert (Above : forall z i, 0 <= z < 2 ^ 64 -> 64 <= i -> Z.testbit z i = false).
  { intros z i Hz I. rewrite <- (Z.mod_small z (2 ^ 64)) by lia. apply Z.mod_pow2_bits_high. lia. }
  assert (B : forall i, 27 <= i < 59 -> xorb (Z.testbit x (i + 18)) (Z.testbit x i) = xorb (Z.testbit y (i + 18)) (Z.testbit y i)).
  { intros i Hi'. apply (f_equal (fun z => Z.testbit z (i - 27))) in Mx. rewrite !xorword_bit in Mx by lia.
    replace (i - 27 + 45) with (i + 18) in Mx by ring. replace (i - 27 + 27) with i in Mx by ring. exact (eq_sym Mx). }
  assert (Cancel : forall a b c d, xorb a b = xorb c d -> a = c -> b = d) by (intros [] [] [] []; cbn; congruence).
  assert (M1 : forall i, 41 <= i < 59 -> Z.testbit x i = Z.testbit y i).
  { intros i Hi'. apply (Cancel _ _ _ _ (B i ltac:(lia))). destruct (Z_lt_dec (i + 18) 64); [apply Hi; lia|].
    rewrite !Above by lia. reflexivity. }
  assert (M2 : forall i, 27 <= i < 41 -> Z.testbit x i = Z.testbit y i).
  { intros i Hi'. apply (Cancel _ _ _ _ (B i ltac:(lia))). destruct (Z_lt_dec (i + 18) 59); [apply M1; lia|apply Hi; lia]. }
  apply (word_ext x y 64); try lia. intros i I.
  destruct (Z_lt_dec i 27) as [i27|i27].
  - apply (f_equal (fun z => Z.testbit z i)) in L. rewrite !Z.mod_pow2_bits_low in L by lia. exact L.
  - destruct (Z_lt_dec i 41); [apply M2; lia|]. destruct (Z_lt_dec i 59); [apply M1; lia|apply Hi; lia].
Qed.

Opaque words.

(** ** Equidistribution: over all states, every 32-bit output occurs 2^32 times. *)
Lemma equidistributed_gen : forall (A B N : Z) (f : Z -> Z), 0 <= A -> 0 <= B -> 0 < N ->
  total (map (fun z => f (z / B mod N)) (words (A * N * B))) = 0 + A * B * total (map f (words N)) \/ B = 0.
Proof.
  intros A B N f HA HB HN. destruct (Z.eq_dec B 0) as [->|B0]; [right; reflexivity|left].
  rewrite total_split by nia.
  erewrite total_ext with (g := fun a => B * f (a mod N)).
  2:{ intros a Ia. erewrite total_ext with (g := fun _ => f (a mod N)).
      - rewrite total_const by lia. ring.
      - intros b Ib. apply in_words in Ib. rewrite Z.div_add_l, (Z.div_small b), Z.add_0_r by lia. reflexivity. }
  rewrite total_scale. rewrite total_split by lia.
  erewrite total_ext with (g := fun _ => total (map f (words N))).
  2:{ intros a Ia. apply total_ext. intros b Ib. apply in_words in Ib. f_equal. rewrite Z.add_comm, Z.mod_add by lia. apply Z.mod_small. lia. }
  rewrite total_const by lia. ring.
Qed.
Lemma output_equidistributed : forall f : Z -> Z, total (map (fun x => f (pcg_output x)) (words (2 ^ 64))) = 2 ^ 32 * total (map f (words (2 ^ 32))).
Proof.
  intros f. transitivity (total (map (fun x => f (middle (scramble x))) (words (2 ^ 64)))).
  - apply total_ext. intros x X. pose proof (proj1 (in_words _ _) X) as X'. rewrite (scramble_middle x X'). reflexivity.
  - rewrite (total_bijection (2 ^ 64) scramble (fun z => f (middle z)) scramble_range scramble_inj).
    destruct (equidistributed_gen 32 (2 ^ 27) (2 ^ 32) f) as [E|E]; [lia..| |discriminate E].
    unfold middle. change (2 ^ 64) with (32 * 2 ^ 32 * 2 ^ 27). etransitivity; [exact E|]. change (32 * 2 ^ 27) with (2 ^ 32). ring.
Qed.

(** ** Three consecutive outputs that form a point of the ball *)
Lemma sum_squares : forall N n, 0 <= n -> 3 * total (map (fun k => (2 * k - N) ^ 2) (words n)) =
  2 * n * (n - 1) * (2 * n - 1) - 6 * N * n * (n - 1) + 3 * N ^ 2 * n.
Proof.
  intros N. apply natlike_ind; [change (words 0) with (@nil Z); cbn [map total]; ring|]. intros n Hn IH. unfold Z.succ.
  rewrite words_succ, map_app, total_app by lia. cbn [map total]. rewrite Z.mul_add_distr_l, IH. ring.
Qed.

(* the state update for the increment i *)
Definition step (i x : Z) : Z := (x * pcg_mult + Z.lor i 1) mod 2 ^ 64.
Lemma step_range : forall i x, word64 (step i x).
Proof. intros. apply Z.mod_pos_bound. lia. Qed.
Lemma step_inj : forall i x y, word64 x -> word64 y -> step i x = step i y -> x = y.
Proof. intros i x y. exact (lcg_inj 64 pcg_mult (Z.lor i 1) mult_mod4 (inc_odd i) x y). Qed.

Definition square_norm3 (i x : Z) : Z :=
  (2 * pcg_output x - 2 ^ 32) ^ 2 + (2 * pcg_output (step i x) - 2 ^ 32) ^ 2 + (2 * pcg_output (step i (step i x)) - 2 ^ 32) ^ 2.

Lemma total_steps : forall i (f : Z -> Z),
  total (map (fun x => f (pcg_output x) + f (pcg_output (step i x)) + f (pcg_output (step i (step i x)))) (words (2 ^ 64))) =
  3 * 2 ^ 32 * total (map f (words (2 ^ 32))).
Proof.
  intros i f. rewrite !total_plus.
  rewrite (total_bijection (2 ^ 64) (fun x => step i (step i x)) (fun x => f (pcg_output x))).
  - rewrite (total_bijection (2 ^ 64) (step i) (fun x => f (pcg_output x)) (fun x _ => step_range i x) (step_inj i)).
    rewrite output_equidistributed. ring.
  - intros; apply step_range.
  - intros x y X Y E. apply (step_inj i); auto. apply (step_inj i); auto using step_range.
Qed.

(** some state has a value of f at most the mean *)
Lemma below_mean : forall n (f : Z -> Z) b, 0 < n -> total (map f (words n)) < b * n -> exists x, 0 <= x < n /\ f x < b.
Proof.
  intros n f b Hn H.
  destruct (existsb (fun x => f x <? b) (words n)) eqn:E.
  - apply existsb_exists in E. destruct E as (x & X & L). exists x. split; [apply in_words; exact X|apply Z.ltb_lt; exact L].
  - exfalso. assert (A : forall x, In x (words n) -> b <= f x).
    { intros x X. destruct (f x <? b) eqn:L; [|apply Z.ltb_ge; exact L].
      assert (T : existsb (fun x => f x <? b) (words n) = true) by (apply existsb_exists; exists x; auto). congruence. }
    pose proof (total_lower f b (words n) A) as T. rewrite length_words in T by lia. lia.
Qed.

Lemma mod4_square : forall i x, square_norm3 i x mod 4 = 0.
Proof.
  intros i x. unfold square_norm3. set (a := pcg_output x). set (b := pcg_output (step i x)). set (c := pcg_output _).
  replace (_ + _ + _) with (((a - 2 ^ 31) ^ 2 + (b - 2 ^ 31) ^ 2 + (c - 2 ^ 31) ^ 2) * 4); [apply Z_mod_mult|].
  change (2 ^ 32) with (2 * 2 ^ 31). ring.
Qed.

Theorem good_state : forall i, exists x, word64 x /\ square_norm3 i x <= 2 ^ 64.
Proof.
  intros i. destruct (below_mean (2 ^ 64) (square_norm3 i) (2 ^ 64 + 4)) as (x & X & L).
  - lia.
  - unfold square_norm3. rewrite (total_steps i (fun k => (2 * k - 2 ^ 32) ^ 2)).
    pose proof (sum_squares (2 ^ 32) (2 ^ 32) ltac:(lia)) as S. set (t := total _) in *. lia.
  - exists x. split; [exact X|]. pose proof (mod4_square i x) as M. pose proof (Z.div_mod (square_norm3 i x) 4 ltac:(lia)). change (2 ^ 64) with (4 * 2 ^ 62) in *. lia.
Qed.

(** Three steps at a time also reach every state. *)
Lemma three_steps : forall i x, word64 x ->
  step i (step i (step i x)) = lcg 64 (pcg_mult ^ 3) (Z.lor i 1 * (1 + pcg_mult + pcg_mult ^ 2)) x.
Proof.
  intros i x _. unfold step, lcg. change (Z.of_nat 64) with 64. set (c := Z.lor i 1). set (a := pcg_mult).
  transitivity ((((x * a + c) * a + c) * a + c) mod 2 ^ 64); [|f_equal; ring].
  assert (E : forall y, (y mod 2 ^ 64 * a + c) mod 2 ^ 64 = (y * a + c) mod 2 ^ 64).
  { intros y. rewrite <- (Z.add_mod_idemp_l (y mod 2 ^ 64 * a)), Z.mul_mod_idemp_l, Z.add_mod_idemp_l by lia. reflexivity. }
  rewrite (E (x * a + c)), (E ((x * a + c) * a + c)). reflexivity.
Qed.

Lemma lcg_ext : forall k a c f n x, (forall y, 0 <= y < 2 ^ Z.of_nat k -> f y = lcg k a c y) -> 0 <= x < 2 ^ Z.of_nat k ->
  Nat.iter n f x = Nat.iter n (lcg k a c) x.
Proof.
  intros k a c f n x H X. induction n as [|n IH]; [reflexivity|]. cbn [Nat.iter nat_rect] in *.
  change (nat_rect _ x (fun _ => f) n) with (Nat.iter n f x) in *. change (nat_rect _ x (fun _ => lcg k a c) n) with (Nat.iter n (lcg k a c) x) in *.
  rewrite IH. apply H. apply lcg_iter_range. exact X.
Qed.

Lemma three_reach : forall i x y, word64 x -> word64 y -> exists n, Nat.iter n (fun z => step i (step i (step i z))) x = y.
Proof.
  intros i x y X Y.
  destruct (lcg_reaches 64 (pcg_mult ^ 3) (Z.lor i 1 * (1 + pcg_mult + pcg_mult ^ 2)) eq_refl) with (x := x) (y := y) as (n & _ & E).
  - rewrite Z.mul_mod, inc_odd by lia. reflexivity.
  - exact X.
  - exact Y.
  - exists n. etransitivity; [|exact E]. apply lcg_ext; [|exact X]. intros z Z. apply three_steps. exact Z.
Qed.
