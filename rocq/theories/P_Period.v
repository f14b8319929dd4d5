(** Full period of linear congruential generators modulo a power of two, and of PCG. *)
From Coq Require Import ZArith Lia List Bool Znumtheory Zpow_facts.
From Verif Require Import Spec_Random Num M_Rng.
Import ListNotations.
Local Open Scope Z_scope.

(** ** Sums of powers *)
Fixpoint geom (a : Z) (n : nat) : Z := match n with O => 0 | S n => 1 + a * geom a n end.

Lemma geom_add : forall a n m, geom a (n + m) = geom a n + a ^ Z.of_nat n * geom a m.
Proof.
  intros a n m. induction n as [|n IH]; [cbn [Nat.add geom Z.of_nat]; change (a ^ 0) with 1; ring|].
  cbn [Nat.add geom]. rewrite IH. rewrite Nat2Z.inj_succ, Z.pow_succ_r by lia. ring.
Qed.

Lemma odd_pow_mod4 : forall a n, a mod 4 = 1 -> a ^ Z.of_nat n mod 4 = 1.
Proof.
  intros a n H. induction n as [|n IH]; [reflexivity|].
  rewrite Nat2Z.inj_succ, Z.pow_succ_r, Z.mul_mod, H, IH by lia. reflexivity.
Qed.

Lemma geom_parity : forall a n, a mod 4 = 1 -> geom a n mod 2 = Z.of_nat n mod 2.
Proof.
  intros a n H. assert (a mod 2 = 1).
  { rewrite (Z.div_mod a 4), H by lia. replace (4 * (a / 4) + 1) with (1 + (2 * (a / 4)) * 2) by ring. rewrite Z.mod_add by lia. reflexivity. }
  induction n as [|n IH]; [reflexivity|]. cbn [geom]. rewrite Nat2Z.inj_succ. unfold Z.succ.
  rewrite Z.add_mod, Z.mul_mod, IH, H0 by lia. rewrite Z.mul_1_l, Zmod_mod. rewrite Z.add_comm. symmetry. apply Z.add_mod. lia.
Qed.

Lemma rel_prime_pow2 : forall k b, b mod 2 = 1 -> rel_prime (2 ^ Z.of_nat k) b.
Proof.
  intros k b H. apply rel_prime_sym, Zpow_facts.rel_prime_Zpower_r; [lia|]. apply rel_prime_sym, prime_rel_prime; [apply prime_2|].
  intros D. apply Zdivide_mod in D. lia.
Qed.

(** The key fact: the sum of n powers is divisible by the same powers of two as n. *)
Lemma geom_divide : forall a, a mod 4 = 1 -> forall k n, (2 ^ Z.of_nat k | geom a n) -> (2 ^ Z.of_nat k | Z.of_nat n).
Proof.
  intros a Ha k. induction k as [|k IH]; intros n D; [exists (Z.of_nat n); change (2 ^ Z.of_nat 0) with 1; ring|].
  rewrite Nat2Z.inj_succ, Z.pow_succ_r in D |- * by lia.
  assert (E : geom a n mod 2 = 0). { apply Zdivide_mod. eapply Z.divide_trans; [|exact D]. exists (2 ^ Z.of_nat k). ring. }
  rewrite (geom_parity a n Ha) in E. assert (V : exists m, n = (m + m)%nat).
  { exists (Z.to_nat (Z.of_nat n / 2)). pose proof (Z.div_mod (Z.of_nat n) 2 ltac:(lia)).
    assert (0 <= Z.of_nat n / 2) by (apply Z.div_pos; lia). lia. }
  destruct V as [m ->]. rewrite geom_add in D.
  pose proof (odd_pow_mod4 a m Ha) as O. set (p := a ^ Z.of_nat m) in *.
  assert (P : p = 1 + 4 * (p / 4)) by (pose proof (Z.div_mod p 4 ltac:(lia)); lia).
  replace (geom a m + p * geom a m) with (2 * (geom a m * (1 + (p / 4) * 2))) in D
    by (transitivity ((1 + (1 + 4 * (p / 4))) * geom a m); [ring|rewrite <- P; ring]).
  apply Z.mul_divide_cancel_l in D; [|lia]. rewrite Z.mul_comm in D.
  apply Gauss in D; [|apply rel_prime_pow2; rewrite Z.mod_add by lia; reflexivity].
  apply IH in D. rewrite Nat2Z.inj_add. destruct D as [q ->]. exists q. ring.
Qed.
Lemma geom_divide_conv : forall a, a mod 4 = 1 -> forall k n, (2 ^ Z.of_nat k | Z.of_nat n) -> (2 ^ Z.of_nat k | geom a n).
Proof.
  intros a Ha k. induction k as [|k IH]; intros n D; [exists (geom a n); change (2 ^ Z.of_nat 0) with 1; ring|].
  rewrite Nat2Z.inj_succ, Z.pow_succ_r in D |- * by lia.
  destruct D as [q D]. assert (V : exists m, n = (m + m)%nat /\ (2 ^ Z.of_nat k | Z.of_nat m)).
  { assert (0 < 2 ^ Z.of_nat k) by (apply Z.pow_pos_nonneg; lia).
    assert (0 <= q) by nia. exists (Z.to_nat (q * 2 ^ Z.of_nat k)). split; [nia|]. rewrite Z2Nat.id by nia. exists q. ring. }
  destruct V as [m [-> Dm]]. rewrite geom_add. apply IH in Dm. destruct Dm as [s Hs]. rewrite Hs.
  pose proof (odd_pow_mod4 a m Ha) as O. set (p := a ^ Z.of_nat m) in *.
  assert (P : p = 1 + 4 * (p / 4)) by (pose proof (Z.div_mod p 4 ltac:(lia)); lia).
  exists (s * (1 + (p / 4) * 2)). rewrite P at 1. ring.
Qed.

Lemma NoDup_map_in : forall (A B : Type) (f : A -> B) l,
  (forall x y, In x l -> In y l -> f x = f y -> x = y) -> NoDup l -> NoDup (map f l).
Proof.
  intros A B f l H N. induction N as [|x l X N IH]; [constructor|]. cbn. constructor.
  - intros I. apply in_map_iff in I. destruct I as (y & E & Y). apply X. rewrite <- (H y x); cbn; auto.
  - apply IH. intros; apply H; cbn; auto.
Qed.

(** ** The generator *)
Section LCG.
Variables (k : nat) (a c : Z).
Hypothesis Ha : a mod 4 = 1.
Hypothesis Hc : c mod 2 = 1.
Let M := 2 ^ Z.of_nat k.
Definition lcg (x : Z) : Z := (x * a + c) mod 2 ^ Z.of_nat k.

Lemma M_pos : 0 < M.
Proof. apply Z.pow_pos_nonneg; lia. Qed.

Lemma lcg_range : forall x, 0 <= lcg x < M.
Proof. intros. apply Z.mod_pos_bound, M_pos. Qed.

Lemma lcg_iter : forall n x, Nat.iter n lcg x mod M = (x + (x * (a - 1) + c) * geom a n) mod M.
Proof.
  pose proof M_pos. induction n as [|n IH]; intros x; [cbn; f_equal; ring|].
  cbn [Nat.iter nat_rect]. change (nat_rect _ x (fun _ => lcg) n) with (Nat.iter n lcg x). unfold lcg at 1. fold M. rewrite Zmod_mod.
  rewrite <- Z.add_mod_idemp_l, <- Z.mul_mod_idemp_l by lia. rewrite IH.
  rewrite Z.mul_mod_idemp_l, Z.add_mod_idemp_l by lia. f_equal. cbn [geom]. ring.
Qed.

Lemma lcg_iter_range : forall n x, 0 <= x < M -> 0 <= Nat.iter n lcg x < M.
Proof. intros [|n] x H; [exact H|apply lcg_range]. Qed.

(** equal after n and after n+d steps only if the modulus divides d *)
Lemma lcg_gap : forall n d x, Nat.iter (n + d) lcg x = Nat.iter n lcg x -> (M | Z.of_nat d).
Proof.
  intros n d x H. pose proof M_pos. apply (f_equal (fun y => y mod M)) in H. rewrite !lcg_iter, geom_add in H.
  apply (geom_divide a Ha). fold M.
  assert (D : (M | (x * (a - 1) + c) * a ^ Z.of_nat n * geom a d)).
  { apply Zmod_divide; [lia|]. replace ((x * (a - 1) + c) * a ^ Z.of_nat n * geom a d) with
      ((x + (x * (a - 1) + c) * (geom a n + a ^ Z.of_nat n * geom a d)) - (x + (x * (a - 1) + c) * geom a n)) by ring.
    rewrite Zminus_mod, H, Z.sub_diag. apply Zmod_0_l. }
  apply Gauss in D; [exact D|]. apply rel_prime_pow2.
  assert (A2 : a mod 2 = 1).
  { rewrite (Z.div_mod a 4), Ha by lia. replace (4 * (a / 4) + 1) with (1 + (2 * (a / 4)) * 2) by ring. rewrite Z.mod_add by lia. reflexivity. }
  assert (P2 : a ^ Z.of_nat n mod 2 = 1).
  { pose proof (odd_pow_mod4 a n Ha) as O. set (p := a ^ Z.of_nat n) in *. rewrite (Z.div_mod p 4), O by lia.
    replace (4 * (p / 4) + 1) with (1 + (2 * (p / 4)) * 2) by ring. rewrite Z.mod_add by lia. reflexivity. }
  rewrite Z.mul_mod, P2, Z.mul_1_r, Zmod_mod by lia.
  rewrite Z.add_mod, Z.mul_mod, Zminus_mod, A2, Hc by lia. cbn. rewrite Z.mul_0_r. reflexivity.
Qed.

Lemma lcg_no_repeat : forall n m x, Z.of_nat n < M -> Z.of_nat m < M -> Nat.iter n lcg x = Nat.iter m lcg x -> n = m.
Proof.
  assert (W : forall n d x, Z.of_nat (n + d) < M -> Nat.iter (n + d) lcg x = Nat.iter n lcg x -> d = O).
  { intros n d x Hd H. apply lcg_gap in H. destruct d; [reflexivity|]. apply Z.divide_pos_le in H; lia. }
  intros n m x Hn Hm H. destruct (Nat.le_ge_cases n m) as [L|L].
  - replace m with (n + (m - n))%nat in * by lia. symmetry in H. apply W in H; [lia|exact Hm].
  - replace n with (m + (n - m))%nat in * by lia. apply W in H; [lia|exact Hn].
Qed.

Lemma lcg_period : forall x, 0 <= x < M -> Nat.iter (Z.to_nat M) lcg x = x.
Proof.
  intros x Hx. pose proof M_pos. pose proof (lcg_iter (Z.to_nat M) x) as E.
  rewrite (Z.mod_small (Nat.iter _ _ _)) in E by (apply lcg_iter_range; exact Hx). rewrite E.
  destruct (geom_divide_conv a Ha k (Z.to_nat M)) as [q Q]; [rewrite Z2Nat.id by lia; exists 1; fold M; lia|].
  rewrite Q. fold M. rewrite Z.mul_assoc, Z.mod_add by lia. apply Z.mod_small. exact Hx.
Qed.

Lemma lcg_returns : forall x, 0 <= x < M -> exists n, Z.of_nat n = M /\ Nat.iter n lcg x = x.
Proof. intros x Hx. pose proof M_pos. exists (Z.to_nat M). split; [apply Z2Nat.id; lia|apply lcg_period; exact Hx]. Qed.

(** every state is reached *)
Lemma lcg_reaches : forall x y, 0 <= x < M -> 0 <= y < M -> exists n, Z.of_nat n < M /\ Nat.iter n lcg x = y.
Proof.
  intros x y Hx Hy. pose proof M_pos.
  set (N := Z.to_nat M). assert (HN : Z.of_nat N = M) by (apply Z2Nat.id; lia).
  set (orbit := map (fun n => Nat.iter n lcg x) (seq 0 N)). set (all := map Z.of_nat (seq 0 N)).
  assert (ND : NoDup orbit).
  { unfold orbit. apply NoDup_map_in; [|apply seq_NoDup].
    intros n m Hn Hm. rewrite in_seq in Hn, Hm. apply lcg_no_repeat; lia. }
  assert (I : incl orbit all).
  { intros z Hz. apply in_map_iff in Hz. destruct Hz as (n & <- & _). apply in_map_iff.
    pose proof (lcg_iter_range n x Hx). exists (Z.to_nat (Nat.iter n lcg x)). split; [lia|]. apply in_seq. lia. }
  assert (J : incl all orbit).
  { apply NoDup_length_incl; [exact ND| |exact I]. unfold all, orbit. rewrite !map_length. lia. }
  assert (A : In y all) by (apply in_map_iff; exists (Z.to_nat y); split; [lia|apply in_seq; lia]).
  apply J, in_map_iff in A. destruct A as (n & E & Hn). apply in_seq in Hn. exists n. split; [lia|exact E].
Qed.

Lemma lcg_inj : forall x y, 0 <= x < M -> 0 <= y < M -> lcg x = lcg y -> x = y.
Proof.
  intros x y Hx Hy E. pose proof M_pos. destruct (lcg_reaches x y Hx Hy) as (n & Hn & Y).
  destruct n as [|n]; [exact Y|].
  assert (Q : Nat.iter (S (S n)) lcg x = Nat.iter 1 lcg x).
  { cbn [Nat.iter nat_rect] in *. rewrite Y. symmetry. exact E. }
  replace (S (S n)) with (1 + S n)%nat in Q by lia. apply lcg_gap in Q. apply Z.divide_pos_le in Q; lia.
Qed.
End LCG.

(** ** PCG *)
Lemma mult_mod4 : pcg_mult mod 4 = 1.
Proof. reflexivity. Qed.
Lemma inc_odd : forall i, Z.lor i 1 mod 2 = 1.
Proof. intros i. rewrite Zmod_odd, <- Z.bit0_odd, Z.lor_spec. cbn. rewrite orb_true_r. reflexivity. Qed.

Lemma pcg_iter : forall n g, Nat.iter n pcg_next g = PCG (Nat.iter n (lcg 64 pcg_mult (Z.lor (pc_inc g) 1)) (pc_state g)) (pc_inc g).
Proof.
  induction n as [|n IH]; intros g; [destruct g; reflexivity|].
  cbn [Nat.iter nat_rect]. change (nat_rect _ g (fun _ => pcg_next) n) with (Nat.iter n pcg_next g). rewrite IH. reflexivity.
Qed.


Lemma pcg_full_period : forall g, word64 (pc_state g) ->
  (forall t, word64 t -> exists n, Z.of_nat n < 2 ^ 64 /\ pc_state (Nat.iter n pcg_next g) = t) /\
  (forall n m, Z.of_nat n < 2 ^ 64 -> Z.of_nat m < 2 ^ 64 -> Nat.iter n pcg_next g = Nat.iter m pcg_next g -> n = m) /\
  (exists n, Z.of_nat n = 2 ^ 64 /\ Nat.iter n pcg_next g = g).
Proof.
  intros g H. pose proof (inc_odd (pc_inc g)) as O. split; [|split].
  - intros t T. destruct (lcg_reaches 64 pcg_mult _ mult_mod4 O (pc_state g) t H T) as (n & Hn & E).
    exists n. split; [exact Hn|]. rewrite pcg_iter. exact E.
  - intros n m Hn Hm E. rewrite !pcg_iter in E. injection E as E.
    exact (lcg_no_repeat 64 pcg_mult _ mult_mod4 O n m (pc_state g) Hn Hm E).
  - destruct (lcg_returns 64 pcg_mult (Z.lor (pc_inc g) 1) mult_mod4 (pc_state g) H) as (n & Hn & E).
    exists n. split; [exact Hn|]. rewrite pcg_iter, E. destruct g; reflexivity.
Qed.
