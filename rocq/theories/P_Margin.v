(** Some three consecutive outputs of the generator lie in the ball with room to spare,
    whatever the increment.  Bit 27 of the state is the exclusive or of two bits of the
    output and one of the rotation; states in which it is set have a smaller mean square. *)
From Coq Require Import ZArith Lia List Bool Zpow_facts.
From Verif Require Import Spec_Random Num M_Rng P_Rng P_Period P_Equi.
Import ListNotations.
Local Open Scope Z_scope.

(** ** Signs of bits *)
Definition sign (b : bool) : Z := if b then -1 else 1.
Lemma sign_xor : forall a b, sign (xorb a b) = sign a * sign b.
Proof. intros [] []; reflexivity. Qed.
Lemma sign_sq : forall a, sign a * sign a = 1.
Proof. intros []; reflexivity. Qed.
Lemma sign_neg : forall a, sign (negb a) = - sign a.
Proof. intros []; reflexivity. Qed.

(** ** Flipping one bit of a word *)
Definition flip (p v : Z) : Z := Z.lxor v (2 ^ p).
Lemma flip_bit : forall p v i, 0 <= p -> 0 <= i -> Z.testbit (flip p v) i = xorb (Z.testbit v i) (p =? i).
Proof. intros p v i P I. unfold flip. rewrite Z.lxor_spec, Z.pow2_bits_eqb by lia. reflexivity. Qed.
Lemma flip_flip : forall p v, flip p (flip p v) = v.
Proof. intros. unfold flip. rewrite Z.lxor_assoc, Z.lxor_nilpotent, Z.lxor_0_r. reflexivity. Qed.
Lemma flip_value : forall p v, 0 <= p -> flip p v = v + sign (Z.testbit v p) * 2 ^ p.
Proof.
  assert (Z0 : forall p v, 0 <= p -> Z.testbit v p = false -> flip p v = v + 2 ^ p).
  { intros p v P B. unfold flip. symmetry. apply Z.add_nocarry_lxor. apply Z.bits_inj'. intros i I.
    rewrite Z.land_spec, Z.pow2_bits_eqb, Z.bits_0 by lia. destruct (Z.eqb_spec p i) as [<-|]; [rewrite B|rewrite andb_false_r]; reflexivity. }
  intros p v P. destruct (Z.testbit v p) eqn:B; cbn [sign].
  - assert (B' : Z.testbit (flip p v) p = false) by (rewrite flip_bit, B, Z.eqb_refl by lia; reflexivity).
    pose proof (Z0 p (flip p v) P B') as E. rewrite flip_flip in E. lia.
  - rewrite Z0 by assumption. ring.
Qed.
Lemma flip_range : forall n p v, 0 <= p < n -> 0 <= v < 2 ^ n -> 0 <= flip p v < 2 ^ n.
Proof.
  intros n p v P V. assert (E : flip p v = flip p v mod 2 ^ n).
  { apply Z.bits_inj'. intros i I. destruct (Z_lt_dec i n).
    - rewrite Z.mod_pow2_bits_low by lia. reflexivity.
    - rewrite Z.mod_pow2_bits_high, flip_bit by lia. rewrite (proj2 (Z.eqb_neq p i)) by lia.
      rewrite <- (Z.mod_small v (2 ^ n)) by lia. rewrite Z.mod_pow2_bits_high by lia. reflexivity. }
  rewrite E. apply Z.mod_pos_bound. apply Z.pow_pos_nonneg; lia.
Qed.
Lemma total_flip : forall n p f, 0 <= p < n -> total (map (fun v => f (flip p v)) (words (2 ^ n))) = total (map f (words (2 ^ n))).
Proof.
  intros n p f P. apply total_bijection.
  - intros x X. apply flip_range; assumption.
  - intros x y _ _ E. rewrite <- (flip_flip p x), E. apply flip_flip.
Qed.
Lemma twice : forall n p f g, 0 <= p < n -> (forall v, f v + f (flip p v) = g v) -> 2 * total (map f (words (2 ^ n))) = total (map g (words (2 ^ n))).
Proof. intros n p f g P E. rewrite <- (total_ext (fun v => f v + f (flip p v)) g) by (intros; apply E). rewrite total_plus, total_flip by assumption. ring. Qed.

Lemma sum_sign : forall n p, 0 <= p < n -> total (map (fun v => sign (Z.testbit v p)) (words (2 ^ n))) = 0.
Proof.
  intros n p P. pose proof (twice n p (fun v => sign (Z.testbit v p))
    (fun _ => 0) P) as T. cbv beta in T. lapply T; clear T; [intros T|].
  - rewrite total_const in T by (apply Z.pow_nonneg; lia). lia.
  - intros v. rewrite flip_bit, Z.eqb_refl, xorb_true_r, sign_neg by lia. ring.
Qed.
Lemma sum_signs : forall n p q, 0 <= p < n -> 0 <= q < n -> p <> q ->
  total (map (fun v => sign (Z.testbit v p) * sign (Z.testbit v q)) (words (2 ^ n))) = 0.
Proof.
  intros n p q P Q N. pose proof (twice n p (fun v => sign (Z.testbit v p) * sign (Z.testbit v q))
    (fun _ => 0) P) as T. cbv beta in T. lapply T; clear T; [intros T|].
  - rewrite total_const in T by (apply Z.pow_nonneg; lia). lia.
  - intros v. rewrite !flip_bit, Z.eqb_refl, (proj2 (Z.eqb_neq p q)), xorb_true_r, xorb_false_r, sign_neg by lia. ring.
Qed.
Lemma sum_sign_linear : forall n m q, 0 <= q < n ->
  total (map (fun v => sign (Z.testbit v q) * (2 * v - m)) (words (2 ^ n))) = - (2 ^ q * 2 ^ n).
Proof.
  intros n m q Q. pose proof (twice n q (fun v => sign (Z.testbit v q) * (2 * v - m))
    (fun _ => - (2 * 2 ^ q)) Q) as T. cbv beta in T. lapply T; clear T; [intros T|].
  - rewrite total_const in T by (apply Z.pow_nonneg; lia). lia.
  - intros v. rewrite flip_bit, Z.eqb_refl, xorb_true_r, sign_neg, flip_value by lia.
    pose proof (sign_sq (Z.testbit v q)) as E. set (s := sign (Z.testbit v q)) in *.
    replace (s * (2 * v - m) + - s * (2 * (v + s * 2 ^ q) - m)) with (- (2 * (s * s) * 2 ^ q)) by ring. rewrite E. ring.
Qed.
Lemma sum_signs_square : forall n m p q, 0 <= p < n -> 0 <= q < n -> p <> q ->
  total (map (fun v => sign (Z.testbit v p) * sign (Z.testbit v q) * (2 * v - m) ^ 2) (words (2 ^ n))) = 2 * (2 ^ p * 2 ^ q * 2 ^ n).
Proof.
  intros n m p q P Q N. pose proof (twice n p (fun v => sign (Z.testbit v p) * sign (Z.testbit v q) * (2 * v - m) ^ 2)
    (fun v => - (4 * 2 ^ p) * (sign (Z.testbit v q) * (2 * v - m)) + - (4 * (2 ^ p * 2 ^ p)) * (sign (Z.testbit v p) * sign (Z.testbit v q))) P) as T. cbv beta in T. lapply T; clear T; [intros T|].
  - rewrite total_plus, !total_scale, sum_signs, sum_sign_linear in T by assumption.
    set (a := total _) in *. lia.
  - intros v. rewrite !flip_bit, Z.eqb_refl, (proj2 (Z.eqb_neq p q)), xorb_true_r, xorb_false_r, sign_neg, flip_value by lia.
    pose proof (sign_sq (Z.testbit v p)) as E. set (s := sign (Z.testbit v p)) in *. set (r := sign (Z.testbit v q)) in *.
    replace (s * r * (2 * v - m) ^ 2 + - s * r * (2 * (v + s * 2 ^ p) - m) ^ 2)
      with (- (4 * 2 ^ p) * (s * s) * (r * (2 * v - m)) + - (4 * (2 ^ p * 2 ^ p)) * ((s * s) * s * r)) by ring.
    rewrite E. ring.
Qed.

(** ** Bit 27 of the state *)
Definition csq (v : Z) : Z := (2 * v - 2 ^ 32) ^ 2.
Definition mixed (t v : Z) : bool := xorb (xorb (Z.testbit v ((0 - t) mod 32)) (Z.testbit v ((18 - t) mod 32))) (Z.testbit t 4).
Lemma bit27 : forall x, word64 x -> Z.testbit x 27 = mixed (x / 2 ^ 59) (pcg_output x).
Proof.
  intros x X. pose proof (top_range x X) as T. rewrite output_eq by exact X. unfold mixed.
  pose proof (Z.mod_pos_bound (0 - x / 2 ^ 59) 32 ltac:(lia)). pose proof (Z.mod_pos_bound (18 - x / 2 ^ 59) 32 ltac:(lia)).
  rewrite !rotate_bit by (try apply xorword_range; lia). rewrite !Z.add_mod_idemp_l by lia.
  replace (0 - x / 2 ^ 59 + x / 2 ^ 59) with 0 by ring. replace (18 - x / 2 ^ 59 + x / 2 ^ 59) with 18 by ring.
  change (0 mod 32) with 0. change (18 mod 32) with 18. rewrite !xorword_bit by lia. rewrite div_bits by lia.
  change (0 + 45) with 45. change (0 + 27) with 27. change (18 + 45) with 63. change (18 + 27) with 45. change (4 + 59) with 63.
  destruct (Z.testbit x 45), (Z.testbit x 27), (Z.testbit x 63); reflexivity.
Qed.

(** ** The mean square over the states with given low 28 bits *)
Definition class_total (r : Z) : Z := total (map (fun y => csq (pcg_output (y * 2 ^ 28 + r))) (words (2 ^ 36))).
Definition excess : Z := total (map (fun t => sign (Z.testbit t 4) * (2 * (2 ^ ((0 - t) mod 32) * 2 ^ ((18 - t) mod 32) * 2 ^ 32))) (words 32)).
Lemma excess_value : 2 ^ 81 + 2 ^ 38 < excess.
Proof. vm_compute. reflexivity. Qed.

Lemma inner_sum : forall t, 0 <= t < 32 ->
  total (map (fun v => sign (mixed t v) * csq v) (words (2 ^ 32))) = sign (Z.testbit t 4) * (2 * (2 ^ ((0 - t) mod 32) * 2 ^ ((18 - t) mod 32) * 2 ^ 32)).
Proof.
  intros t T. pose proof (Z.mod_pos_bound (0 - t) 32 ltac:(lia)) as P. pose proof (Z.mod_pos_bound (18 - t) 32 ltac:(lia)) as Q.
  rewrite <- (sum_signs_square 32 (2 ^ 32) _ _ P Q), <- total_scale.
  - apply total_ext. intros v _. unfold mixed, csq. rewrite !sign_xor. ring.
  - intros E. pose proof (Z.div_mod (0 - t) 32 ltac:(lia)). pose proof (Z.div_mod (18 - t) 32 ltac:(lia)). lia.
Qed.

Lemma class_value : forall r, 0 <= r < 2 ^ 28 ->
  2 * class_total r = 32 * total (map csq (words (2 ^ 32))) + sign (Z.testbit r 27) * excess.
Proof.
  intros r R. set (b := r / 2 ^ 27). set (l := r mod 2 ^ 27).
  pose proof (Z.div_mod r (2 ^ 27) ltac:(lia)) as E. fold b l in E.
  pose proof (Z.mod_pos_bound r (2 ^ 27) ltac:(lia)) as Lr. fold l in Lr.
  assert (B : b = 0 \/ b = 1) by lia.
  assert (Bb : Z.testbit r 27 = Z.odd b).
  { unfold b. rewrite <- Z.bit0_odd, div_bits by lia. reflexivity. }
  rewrite Bb.
  set (F := fun z => (1 + sign (Z.odd b) * sign (mixed (z / 2 ^ 32) (z mod 2 ^ 32))) * csq (z mod 2 ^ 32)).
  set (k := fun x => scramble (x * 2 ^ 27 + l) / 2 ^ 27).
  assert (WX : forall x, 0 <= x < 2 ^ 37 -> word64 (x * 2 ^ 27 + l)) by (intros x X; unfold word64; lia).
  assert (KX : forall x, 0 <= x < 2 ^ 37 -> k x = (x * 2 ^ 27 + l) / 2 ^ 59 * 2 ^ 32 + pcg_output (x * 2 ^ 27 + l) /\ scramble (x * 2 ^ 27 + l) = k x * 2 ^ 27 + l).
  { intros x X. unfold k. unfold scramble at 1 3. assert (M : (x * 2 ^ 27 + l) mod 2 ^ 27 = l) by (rewrite Z.add_comm, Z.mod_add by lia; apply Z.mod_small; lia).
    rewrite !M. rewrite Z.div_add_l, (Z.div_small l), Z.add_0_r by lia. split; [reflexivity|]. unfold scramble. rewrite M. reflexivity. }
  transitivity (total (map (fun x => F (k x)) (words (2 ^ 36 * 2)))).
  - rewrite total_split by lia. unfold class_total. rewrite <- total_scale. apply total_ext. intros y Y. apply (proj1 (in_words _ _)) in Y.
    replace (words 2) with [0; 1] by (vm_compute; reflexivity). cbn [map total].
    assert (V : forall c, c = 0 \/ c = 1 -> F (k (y * 2 + c)) = (1 + sign (Z.odd b) * sign (Z.odd c)) * csq (pcg_output ((y * 2 + c) * 2 ^ 27 + l))).
    { intros c C. set (x := y * 2 + c). assert (X : 0 <= x < 2 ^ 37) by (unfold x; lia). destruct (KX x X) as [-> _]. unfold F.
      pose proof (pcg_output_range (x * 2 ^ 27 + l)) as O.
      assert (D : ((x * 2 ^ 27 + l) / 2 ^ 59 * 2 ^ 32 + pcg_output (x * 2 ^ 27 + l)) / 2 ^ 32 = (x * 2 ^ 27 + l) / 2 ^ 59)
        by (rewrite Z.div_add_l, (Z.div_small (pcg_output _)), Z.add_0_r by lia; reflexivity).
      assert (M : ((x * 2 ^ 27 + l) / 2 ^ 59 * 2 ^ 32 + pcg_output (x * 2 ^ 27 + l)) mod 2 ^ 32 = pcg_output (x * 2 ^ 27 + l))
        by (rewrite Z.add_comm, Z.mod_add by lia; apply Z.mod_small; lia).
      rewrite D, M, <- bit27 by (apply WX; exact X).
      assert (T : Z.testbit (x * 2 ^ 27 + l) 27 = Z.odd c).
      { change 27 with (0 + 27) at 2. rewrite <- div_bits, Z.bit0_odd by lia. rewrite Z.div_add_l, (Z.div_small l), Z.add_0_r by lia.
        unfold x. rewrite Z.odd_add, Z.odd_mul, andb_false_r. apply xorb_false_l. }
      rewrite T. reflexivity. }
    rewrite (V 0), (V 1) by auto. destruct B as [B|B]; rewrite B; cbn [Z.odd sign].
    + replace (y * 2 ^ 28 + r) with ((y * 2 + 0) * 2 ^ 27 + l) by (rewrite E, B; ring). ring.
    + replace (y * 2 ^ 28 + r) with ((y * 2 + 1) * 2 ^ 27 + l) by (rewrite E, B; ring). ring.
  - change (2 ^ 36 * 2) with (2 ^ 37). rewrite (total_bijection (2 ^ 37) k F).
    + change (2 ^ 37) with (32 * 2 ^ 32). rewrite total_split by lia. unfold excess. rewrite <- (total_scale (sign (Z.odd b))).
      rewrite (Z.mul_comm 32), <- (total_const (total (map csq (words (2 ^ 32)))) 32) by lia. rewrite <- total_plus.
      apply total_ext. intros t T. apply (proj1 (in_words _ _)) in T. rewrite <- inner_sum by exact T. rewrite <- total_scale, <- total_plus.
      apply total_ext. intros v V. apply (proj1 (in_words _ _)) in V. unfold F.
      rewrite Z.div_add_l, (Z.div_small v), Z.add_0_r by lia. rewrite (Z.add_comm (t * 2 ^ 32)), Z.mod_add, (Z.mod_small v) by lia. ring.
    + intros x X. destruct (KX x X) as [-> _]. pose proof (pcg_output_range (x * 2 ^ 27 + l)). pose proof (top_range _ (WX x X)).
      change (2 ^ 37) with (32 * 2 ^ 32). lia.
    + intros x y X Y K. destruct (KX x X) as [_ SX]. destruct (KX y Y) as [_ SY]. rewrite K, <- SY in SX.
      apply scramble_inj in SX; [lia|apply WX; exact X|apply WX; exact Y].
Qed.

(** ** The step, on low bits *)
Definition low_step (i r : Z) : Z := step i r mod 2 ^ 28.
Lemma low_step_range : forall i r, 0 <= low_step i r < 2 ^ 28.
Proof. intros. apply Z.mod_pos_bound. lia. Qed.
Lemma low_step_lcg : forall i r, low_step i r = lcg 28 pcg_mult (Z.lor i 1) r.
Proof.
  intros i r. unfold low_step, step, lcg. change (Z.of_nat 28) with 28. rewrite <- Znumtheory.Zmod_div_mod; [reflexivity|lia|lia|].
  exists (2 ^ 36). reflexivity.
Qed.
Lemma step_low : forall i y r, step i (y * 2 ^ 28 + r) mod 2 ^ 28 = low_step i r.
Proof.
  intros i y r. rewrite low_step_lcg. change (low_step i (y * 2 ^ 28 + r) = lcg 28 pcg_mult (Z.lor i 1) r). rewrite low_step_lcg. unfold lcg. change (Z.of_nat 28) with 28.
  replace ((y * 2 ^ 28 + r) * pcg_mult + Z.lor i 1) with (r * pcg_mult + Z.lor i 1 + y * pcg_mult * 2 ^ 28) by ring. apply Z.mod_add. lia.
Qed.
Lemma low_step_inj : forall i x y, 0 <= x < 2 ^ 28 -> 0 <= y < 2 ^ 28 -> low_step i x = low_step i y -> x = y.
Proof. intros i x y X Y. rewrite !low_step_lcg. exact (lcg_inj 28 pcg_mult (Z.lor i 1) mult_mod4 (inc_odd i) x y X Y). Qed.

Lemma class_step : forall i r f, 0 <= r < 2 ^ 28 ->
  total (map (fun y => f (step i (y * 2 ^ 28 + r))) (words (2 ^ 36))) = total (map (fun y => f (y * 2 ^ 28 + low_step i r)) (words (2 ^ 36))).
Proof.
  intros i r f R. set (h := fun y => step i (y * 2 ^ 28 + r) / 2 ^ 28).
  assert (H : forall y, step i (y * 2 ^ 28 + r) = h y * 2 ^ 28 + low_step i r).
  { intros y. unfold h. rewrite <- (step_low i y r). pose proof (Z.div_mod (step i (y * 2 ^ 28 + r)) (2 ^ 28) ltac:(lia)). lia. }
  rewrite (total_ext _ (fun y => f (h y * 2 ^ 28 + low_step i r))) by (intros y _; rewrite H; reflexivity).
  apply (total_bijection (2 ^ 36) h (fun z => f (z * 2 ^ 28 + low_step i r))).
  - intros y Y. pose proof (step_range i (y * 2 ^ 28 + r)) as [S1 S2]. unfold h. split; [apply Z.div_pos; lia|]. apply Z.div_lt_upper_bound; lia.
  - intros x y X Y E. assert (S : step i (x * 2 ^ 28 + r) = step i (y * 2 ^ 28 + r)) by (rewrite !H, E; reflexivity).
    apply step_inj in S; unfold word64; lia.
Qed.

(** in some class at least two of the three bits are set *)
Lemma majority : forall i, exists r, 0 <= r < 2 ^ 28 /\
  sign (Z.testbit r 27) + sign (Z.testbit (low_step i r) 27) + sign (Z.testbit (low_step i (low_step i r)) 27) <= -1.
Proof.
  intros i. destruct (below_mean (2 ^ 28) (fun r => sign (Z.testbit r 27) + sign (Z.testbit (low_step i r) 27) + sign (Z.testbit (low_step i (low_step i r)) 27)) 1) as (r & R & L).
  - lia.
  - rewrite !total_plus.
    rewrite (total_bijection (2 ^ 28) (fun r => low_step i (low_step i r)) (fun r => sign (Z.testbit r 27))).
    + rewrite (total_bijection (2 ^ 28) (low_step i) (fun r => sign (Z.testbit r 27)) (fun x _ => low_step_range i x) (low_step_inj i)).
      rewrite !sum_sign by lia. lia.
    + intros; apply low_step_range.
    + intros x y X Y E. apply (low_step_inj i); auto. apply (low_step_inj i); auto using low_step_range.
  - exists r. split; [exact R|]. destruct (Z.testbit r 27), (Z.testbit (low_step i r) 27), (Z.testbit (low_step i (low_step i r)) 27); cbn in *; lia.
Qed.

Lemma class_sum : forall i r, 0 <= r < 2 ^ 28 ->
  total (map (fun y => square_norm3 i (y * 2 ^ 28 + r)) (words (2 ^ 36))) = class_total r + class_total (low_step i r) + class_total (low_step i (low_step i r)).
Proof.
  intros i r R. unfold class_total.
  rewrite <- (class_step i _ (fun x => csq (pcg_output x)) (low_step_range i r)).
  rewrite <- (class_step i r (fun x => csq (pcg_output (step i x))) R).
  rewrite <- (class_step i r (fun x => csq (pcg_output x)) R).
  rewrite <- !total_plus. reflexivity.
Qed.
Lemma square_total : 3 * total (map csq (words (2 ^ 32))) = 2 ^ 96 + 2 ^ 33.
Proof. exact (sum_squares (2 ^ 32) (2 ^ 32) ltac:(lia)). Qed.
Lemma margin_arithmetic : forall a0 a1 a2 m w s0 s1 s2, 2 * a0 = 32 * m + s0 * w -> 2 * a1 = 32 * m + s1 * w -> 2 * a2 = 32 * m + s2 * w ->
  3 * m = 2 ^ 96 + 2 ^ 33 -> 2 ^ 81 + 2 ^ 38 < w -> s0 + s1 + s2 <= -1 -> a0 + a1 + a2 < (2 ^ 64 - 2 ^ 44) * 2 ^ 36.
Proof.
  intros. assert ((s0 + s1 + s2) * w <= -1 * w) by (apply Z.mul_le_mono_nonneg_r; lia). lia.
Qed.

Theorem margin_state : forall i, exists x, word64 x /\ square_norm3 i x < 2 ^ 64 - 2 ^ 44.
Proof.
  intros i. destruct (majority i) as (r & R & M).
  destruct (below_mean (2 ^ 36) (fun y => square_norm3 i (y * 2 ^ 28 + r)) (2 ^ 64 - 2 ^ 44)) as (y & Y & L).
  - lia.
  - rewrite class_sum by exact R.
    exact (margin_arithmetic _ _ _ _ _ _ _ _ (class_value r R) (class_value _ (low_step_range i r)) (class_value _ (low_step_range i (low_step i r))) square_total excess_value M).
  - exists (y * 2 ^ 28 + r). split; [unfold word64; lia|exact L].
Qed.
