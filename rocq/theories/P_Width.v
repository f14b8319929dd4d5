(** Width, degeneracy and emptiness of intervals. *)
From Coq Require Import Reals ZArith Lra Lia Bool.
From Flocq Require Import Core Plus_error BinarySingleNaN.
From Verif Require Import Num XR FL Spec Spec_Interval M_Interval P_FL P_Round P_Interval P_IntervalFL.
Local Open Scope R_scope.

Section Width.
Variables prec emax : Z.
Context (Hp : Prec_gt_0 prec) (Hm : Prec_lt_emax prec emax).
Variable lm : libm_rnd (binary_float prec emax).
Notation float := (binary_float prec emax).
Notation fe := (SpecFloat.fexp prec emax).
Notation format := (generic_format radix2 fe).
Notation RFL := (RF prec emax Hp Hm lm).
Notation rx := (roundx prec emax).
Let Hv : Valid_exp fe := fexp_correct prec emax Hp.
Local Existing Instance Hv.

Lemma round_diff : forall m a b, format a -> format b -> a <> b -> round radix2 fe (round_mode m) (b - a) <> 0.
Proof.
  intros m a b Fa Fb Ne. unfold Prec_gt_0 in Hp. unfold Prec_lt_emax in Hm. set (e0 := SpecFloat.emin prec emax).
  destruct (Rle_dec (Rabs (b - a)) (bpow radix2 (prec + e0))) as [S1|S1].
  - rewrite round_generic; [lra|apply valid_rnd_round_mode|]. change fe with (FLT_exp e0 prec). unfold Rminus. apply FLT_format_plus_small; auto using generic_format_opp.
  - apply Rnot_le_lt in S1. assert (Fp : format (bpow radix2 (prec + e0))) by (apply format_big; [exact Hp|unfold e0; lia]).
    assert (Fn : format (- bpow radix2 (prec + e0))) by (apply generic_format_opp; exact Fp). pose proof (bpow_gt_0 radix2 (prec + e0)) as P0.
    destruct (Rle_dec 0 (b - a)) as [S2|S2].
    + rewrite Rabs_pos_eq in S1 by lra. apply Rgt_not_eq. apply Rlt_le_trans with (bpow radix2 (prec + e0)); [exact P0|].
      rewrite <- (round_generic radix2 fe (round_mode m) _ Fp). apply round_le; [exact Hv|apply valid_rnd_round_mode|lra].
    + rewrite Rabs_left in S1 by lra. apply Rlt_not_eq. apply Rle_lt_trans with (- bpow radix2 (prec + e0)); [|lra].
      rewrite <- (round_generic radix2 fe (round_mode m) _ Fn). apply round_le; [exact Hv|apply valid_rnd_round_mode|lra].
Qed.

Lemma width_fval : forall m (X : interval float) a b, denoteI X = finI a b -> fval (i_width (F:=RFL) m X : float) = rx (fl_mode m) (b - a).
Proof. intros m [l h] a b E. injection E as E1 E2. cbn [i_lo i_hi] in *. unfold i_width. cbn [rsub RF i_lo i_hi]. rewrite minus_fval by assumption. rewrite E1, E2. reflexivity. Qed.
Lemma ends_format : forall (X : interval float) a b, denoteI X = finI a b -> format a /\ format b.
Proof.
  intros [l h] a b E. injection E as E1 E2. cbn [i_lo i_hi] in *. split; [apply (float_fin prec emax l a E1)|apply (float_fin prec emax h b E2)].
Qed.

Lemma width_zero : forall m (X : interval float) a b, denoteI X = finI a b -> (fval (i_width (F:=RFL) m X : float) = Fin 0 <-> a = b).
Proof.
  intros m X a b E. rewrite (width_fval m X a b E). destruct (ends_format X a b E) as [Fa Fb]. split.
  - intros Z. destruct (Req_dec a b) as [|Ne]; [assumption|exfalso]. pose proof (round_diff (fl_mode m) a b Fa Fb Ne) as N. pose proof (big_pos prec emax Hp) as B.
    revert Z. unfold roundx. destruct (Rlt_bool _ _); [intros Z; injection Z; exact N|]. destruct (overflow_to_inf _ _), (Rlt_bool (b - a) 0); try discriminate; intros Z; injection Z; lra.
  - intros ->. replace (b - b) with 0 by ring. unfold roundx. rewrite round_0 by apply valid_rnd_round_mode. rewrite Rabs_R0, Rlt_bool_true by apply bpow_gt_0. reflexivity.
Qed.
Lemma width_up : forall (X : interval float) x y, inF X x -> inF X y -> at_most (fval (i_width (F:=RFL) FE_UPWARD X : float)) (y - x).
Proof.
  intros [l h] x y [X1 X2] [Y1 Y2]. cbn [denoteI i_lo i_hi] in *. unfold i_width. cbn [rsub RF i_lo i_hi fl_mode]. rewrite minus_fval by assumption.
  apply xrnd_up; [exact Hp|]. destruct (fval l), (fval h); cbn in *; try exact I; try contradiction. lra.
Qed.
Lemma width_down : forall (X : interval float) a b, denoteI X = finI a b -> at_least (fval (i_width (F:=RFL) FE_DOWNWARD X : float)) (b - a).
Proof. intros X a b E. rewrite (width_fval _ X a b E). apply rx_down; assumption. Qed.
Lemma width_sign : forall m (X : interval float) a b, denoteI X = finI a b -> a <= b -> xleb (Fin 0) (fval (i_width (F:=RFL) m X : float)) = true.
Proof.
  intros m X a b E H. rewrite (width_fval m X a b E). pose proof (rx_le prec emax Hp Hm (fl_mode m) 0 (b - a) ltac:(lra)) as K.
  replace (rx (fl_mode m) 0) with (Fin 0) in K; [exact K|]. unfold roundx. rewrite round_0 by apply valid_rnd_round_mode. rewrite Rabs_R0, Rlt_bool_true by apply bpow_gt_0. reflexivity.
Qed.

Lemma one_fval : fval (rofZ (RndOps:=RFL) 1 : float) = Fin 1.
Proof.
  unfold Prec_gt_0 in Hp. unfold Prec_lt_emax in Hm. cbn [rofZ RF]. assert (F1 : format 1) by (change 1 with (bpow radix2 0); apply format_big; [exact Hp|unfold SpecFloat.emin; lia]).
  pose proof (binary_normalize_correct prec emax Hp Hm mode_NE 1 0 false) as C. cbn zeta in C.
  assert (Ef : F2R (Float radix2 1 0) = 1) by (unfold F2R; cbn; ring). rewrite Ef, (round_generic radix2 fe _ 1 F1), Rlt_bool_true in C.
  - destruct C as (C1 & C2 & _). rewrite fval_finite by exact C2. rewrite C1. reflexivity.
  - rewrite Rabs_pos_eq by lra. change 1 with (bpow radix2 0). apply bpow_lt. lia.
Qed.
Lemma degenerate_one : forall (X : interval float) a b, denoteI X = finI a b ->
  (fval (i_degenerate (F:=RFL) X : float) = Fin 1 <-> exists x, forall y, inF X y <-> y = x) /\
  (fval (i_degenerate (F:=RFL) X : float) = Fin 1 \/ fval (i_degenerate (F:=RFL) X : float) = Fin 0).
Proof.
  intros [l h] a b E. injection E as E1 E2. cbn [i_lo i_hi] in *. unfold i_degenerate, inF, inI, denoteI. cbn [reqb RF i_lo i_hi]. rewrite Beqb_fval, E1, E2. cbn [xeqb in_window at_least at_most].
  unfold Reqb. destruct (Req_EM_T a b) as [->|Ne]; [rewrite one_fval|rewrite zero_fval by assumption].
  - split; [|left; reflexivity]. split; [|reflexivity]. intros _. exists b. intros y. cbn. split; [intros [? ?]; cbn in *; lra|intros ->; split; cbn; lra].
  - split; [|right; reflexivity]. split; [intros Z; injection Z; lra|]. intros (x & H). exfalso. cbn in H.
    destruct (Rle_dec a b) as [K|K]; [apply Ne; transitivity x; [|symmetry]; apply H; split; cbn; lra|]. pose proof (proj2 (H x) eq_refl) as [K1 K2]. cbn in K1, K2. lra.
Qed.
Lemma empty_members : forall (X : interval float) a b, denoteI X = finI a b -> (i_empty (F:=RFL) X = true <-> ~ exists x, inF X x).
Proof.
  intros [l h] a b E. injection E as E1 E2. cbn [i_lo i_hi] in *. unfold i_empty, inF, inI, denoteI. cbn [rltb RF i_lo i_hi]. rewrite Bltb_fval, E1, E2. cbn [xltb]. rewrite Rltb_iff. split.
  - intros H (x & K1 & K2). cbn in K1, K2. lra.
  - intros H. apply Rnot_le_lt. intros K. apply H. exists a. split; cbn; lra.
Qed.
Lemma default_members : i_empty (F:=RFL) (i_default (F:=RFL)) = false /\ forall x, ~ inF (i_default (F:=RFL) : interval float) x.
Proof. split; [reflexivity|]. intros x [H _]. exact H. Qed.
End Width.

Lemma width_nearest : forall lm, exists (X : interval binary64) x y, inF X x /\ inF X y /\ ~ at_most (fval (i_width (F:=RF64 lm) FE_TONEAREST X : binary64)) (y - x).
Proof.
  intros lm. exists (Itv (d64 (-1) (-60)) (d64 1 0)), (- / IZR (2 ^ 60)), 1.
  assert (E1 : fval (d64 (-1) (-60)) = Fin (- / IZR (2 ^ 60))).
  { rewrite fval_finite by (vm_compute; reflexivity). f_equal. vm_compute. lra. }
  assert (E2 : fval (d64 1 0) = Fin 1) by (rewrite fval_finite by (vm_compute; reflexivity); f_equal; vm_compute; lra).
  assert (E3 : fval (i_width (F:=RF64 lm) FE_TONEAREST (Itv (d64 (-1) (-60)) (d64 1 0)) : binary64) = Fin 1) by (rewrite fval_finite by (vm_compute; reflexivity); f_equal; vm_compute; lra).
  assert (P : 0 < / IZR (2 ^ 60)) by (apply Rinv_0_lt_compat, IZR_lt; reflexivity).
  unfold inF, inI, denoteI. cbn [i_lo i_hi]. rewrite E1, E2. split; [cbn [in_window at_least at_most]; split; cbn; lra|]. split; [split; cbn; lra|].
  change (rnum (RndOps:=RF64 lm)) with binary64 in *. rewrite E3. cbn [at_most]. lra.
Qed.
Lemma width_case : denoteI (Itv (d64 (-2) 0) (d64 1 0)) = finI (-2) 1 /\ denoteI (Itv (d64 1 0) (d64 1 0)) = finI 1 1.
Proof.
  assert (E2 : fval (d64 1 0) = Fin 1) by (rewrite fval_finite by (vm_compute; reflexivity); f_equal; vm_compute; lra).
  assert (E1 : fval (d64 (-2) 0) = Fin (-2)) by (rewrite fval_finite by (vm_compute; reflexivity); f_equal; vm_compute; lra).
  unfold denoteI. cbn [i_lo i_hi]. rewrite E1, E2. split; reflexivity.
Qed.
