(** The generator and the boxes: ranges (C47, C48 in exact arithmetic, C49). *)
From Coq Require Import Reals Lra Lia ZArith List Bool.
From Verif Require Import Num XR Spec_Iter M_Rng.
Import ListNotations.

Section Range.
Local Open Scope Z_scope.

Lemma lor_lt_pow : forall n a b, 0 <= n -> 0 <= a < 2 ^ n -> 0 <= b < 2 ^ n -> 0 <= Z.lor a b < 2 ^ n.
Proof.
  intros n a b Hn Ha Hb. split; [apply Z.lor_nonneg; lia|].
  destruct (Z.eq_dec (Z.lor a b) 0) as [->|E]; [lia|].
  apply Z.log2_lt_pow2; [pose proof (proj2 (Z.lor_nonneg a b)); lia|].
  rewrite Z.log2_lor by lia.
  destruct (Z.eq_dec a 0) as [->|Ea]; [simpl in *|].
  - destruct (Z.eq_dec b 0) as [->|Eb]; [now contradiction E|].
    assert (Z.log2 b < n) by (apply Z.log2_lt_pow2; lia). pose proof (Z.log2_nonneg b). lia.
  - assert (Z.log2 a < n) by (apply Z.log2_lt_pow2; lia).
    destruct (Z.eq_dec b 0) as [->|Eb]; [simpl; pose proof (Z.log2_nonneg a); lia|].
    assert (Z.log2 b < n) by (apply Z.log2_lt_pow2; lia). lia.
Qed.

Lemma pcg_output_range : forall s, 0 <= pcg_output s < 2 ^ 32.
Proof.
  intros s; unfold pcg_output.
  pose proof (Z.mod_pos_bound (Z.shiftr (Z.lxor (Z.shiftr s 18) s) 27) (2 ^ 32) eq_refl) as X.
  set (x := _ mod 2 ^ 32) in *. clearbody x.
  pose proof (Z.mod_pos_bound (Z.shiftr s 59) (2 ^ 32) eq_refl) as R.
  set (r := Z.shiftr s 59 mod 2 ^ 32) in *. clearbody r.
  apply lor_lt_pow; [lia| |apply Z.mod_pos_bound; reflexivity].
  rewrite Z.shiftr_div_pow2 by lia. split; [apply Z.div_pos; lia|].
  apply Z.le_lt_trans with x; [|lia]. apply Z.div_le_upper_bound; [lia|].
  assert (1 <= 2 ^ r) by (pose proof (Z.pow_pos_nonneg 2 r); lia). nia.
Qed.
End Range.

Local Open Scope R_scope.

(** The real number drawn in exact arithmetic. *)
Definition draw (g : pcg) : R := IZR (pcg_output (pc_state g)) / IZR (2 ^ 32).

Lemma draw_range : forall g, 0 <= draw g < 1.
Proof.
  intros g; unfold draw. destruct (pcg_output_range (pc_state g)) as [A B].
  apply IZR_le in A; apply IZR_lt in B. split.
  - apply Rmult_le_pos; [exact A|]. apply Rlt_le, Rinv_0_lt_compat; apply IZR_lt; reflexivity.
  - apply Rmult_lt_reg_r with (IZR (2 ^ 32)); [apply IZR_lt; reflexivity|].
    unfold Rdiv; rewrite Rmult_assoc, Rinv_l, Rmult_1_r, Rmult_1_l; [exact B|].
    apply not_0_IZR; discriminate.
Qed.

Lemma iter_shift : forall A (f : A -> A) n x, Nat.iter n f (f x) = Nat.iter (S n) f x.
Proof. induction n as [|n IH]; intros x; [reflexivity|]. simpl in *. now rewrite IH. Qed.

Section Exact.
Variable L : limits.

Lemma pcg_real_01_draw : forall g, pcg_real_01 (F:=XR L) g = (Fin (draw g), pcg_next g).
Proof.
  intros g; unfold pcg_real_01, pcg32_random_r. cbn [ndiv nofZ XR].
  rewrite xdiv_fin by (apply not_0_IZR; discriminate). reflexivity.
Qed.

Lemma random_point_rng : forall ends g,
  snd (random_point (F:=XR L) ends g) = Nat.iter (length ends) pcg_next g.
Proof.
  induction ends as [|[lo hi] ends IH]; intros g; cbn [random_point length]; [reflexivity|].
  rewrite pcg_real_01_draw. specialize (IH (pcg_next g)).
  destruct (random_point (F:=XR L) ends (pcg_next g)) as [v g2]; cbn [snd] in *. rewrite IH.
  apply iter_shift.
Qed.

Lemma random_point_length : forall ends g, length (fst (random_point (F:=XR L) ends g)) = length ends.
Proof.
  induction ends as [|[lo hi] ends IH]; intros g; cbn [random_point length]; [reflexivity|].
  rewrite pcg_real_01_draw. specialize (IH (pcg_next g)).
  destruct (random_point (F:=XR L) ends (pcg_next g)) as [v g2]; cbn [fst length] in *. now rewrite IH.
Qed.

Lemma random_coord : forall u lo hi x, 0 <= u < 1 -> proper_ends (lo, hi) ->
  xadd (xmul (Fin u) (xsub hi lo)) lo = Fin x ->
  (match lo with Fin l => l <= x | MInf => True | _ => False end) /\
  (match hi with Fin h => x <= h | PInf => True | _ => False end).
Proof.
  intros u lo hi x Hu P H.
  destruct lo as [l| | |], hi as [h| | |]; simpl in P; try contradiction; simpl in H;
    unfold xscale_inf in H; try destruct (Rlt_dec 0 u); try destruct (Rlt_dec u 0); simpl in H; try discriminate.
  all: injection H as <-; split; nra.
Qed.

(** A random point with real coordinates lies in the box. *)
Lemma random_point_within : forall ends g x, Forall proper_ends ends ->
  fst (random_point (F:=XR L) ends g) = map Fin x -> within ends x.
Proof.
  induction ends as [|[lo hi] ends IH]; intros g x P H; cbn [random_point] in H.
  - destruct x; [constructor|discriminate].
  - rewrite pcg_real_01_draw in H. specialize (IH (pcg_next g)).
    change (@num (XR L)) with xr in *.
    destruct (random_point (F:=XR L) ends (pcg_next g)) as [v g2]; cbn [fst] in *.
    destruct x as [|y x]; [discriminate|]. cbn [map] in H. injection H as H1 H2.
    inversion P as [|? ? P1 P2]; subst. constructor.
    + exact (random_coord _ _ _ _ (draw_range g) P1 H1).
    + apply IH; auto.
Qed.

(** A box of intervals of reals: the random point is real and inside. *)
Lemma random_point_finite : forall (b : list (R * R)) g, Forall (fun p => fst p <= snd p) b ->
  exists x, fst (random_point (F:=XR L) (map (fun p => (Fin (fst p), Fin (snd p))) b) g) = map Fin x /\
            Forall2 (fun p y => fst p <= y <= snd p) b x.
Proof.
  induction b as [|[l h] b IH]; intros g P; cbn [map random_point].
  - exists []; split; [reflexivity|constructor].
  - inversion P as [|? ? P1 P2]; subst. rewrite pcg_real_01_draw.
    destruct (IH (pcg_next g) P2) as (x & E & W). cbn [fst snd] in *.
    change (@num (XR L)) with xr in *.
    match type of E with fst ?e = _ => destruct e as [v g2] end; cbn [fst snd] in *. subst v.
    exists (draw g * (h - l) + l :: x); split; [reflexivity|].
    constructor; [|exact W]. pose proof (draw_range g). cbn [fst snd]. nra.
Qed.

(** contains(v) on real points. *)
Lemma contains_vec_within : forall ends x, Forall proper_ends ends -> length x = length ends ->
  (contains_vec (F:=XR L) ends (map Fin x) = true <-> within ends x).
Proof.
  induction ends as [|[lo hi] ends IH]; intros x P Hl; destruct x as [|y x]; try discriminate.
  - split; [constructor|reflexivity].
  - inversion P as [|? ? P1 P2]; subst. cbn [map contains_vec nltb XR].
    injection Hl as Hl. specialize (IH x P2 Hl).
    assert (C : xltb (Fin y) lo || xltb hi (Fin y) = false <->
      (match lo with Fin l => l <= y | MInf => True | _ => False end) /\
      (match hi with Fin h => y <= h | PInf => True | _ => False end)).
    { destruct lo as [l| | |], hi as [h| | |]; simpl in P1; try contradiction; simpl;
        repeat match goal with |- context [Rltb ?p ?q] => destruct (Rltb_spec p q) end; simpl; split; intros; try lra; try tauto; try discriminate; auto. }
    change (@num (XR L)) with xr in *.
    destruct (xltb (Fin y) lo || xltb hi (Fin y)) eqn:B.
    + split; [discriminate|]. intros W; inversion W as [|? ? ? ? W1 W2]; subst.
      apply C in W1; discriminate.
    + rewrite IH. split; intros W.
      * constructor; [apply C; reflexivity|exact W].
      * inversion W; subst; assumption.
Qed.
End Exact.
