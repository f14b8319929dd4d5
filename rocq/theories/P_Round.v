(** Rounded arithmetic: the operations of FL on finite numbers that do not overflow. *)
From Coq Require Import Reals Lra ZArith Lia List Bool.
From Flocq Require Import Core BinarySingleNaN.
From Verif Require Import Num XR FL P_FL.
Local Open Scope R_scope.

Section Round.
Variables prec emax : Z.
Context (Hp : Prec_gt_0 prec) (Hm : Prec_lt_emax prec emax).
Notation float := (binary_float prec emax).
Notation fe := (SpecFloat.fexp prec emax).
Notation rnd := (round radix2 (SpecFloat.fexp prec emax) ZnearestE).
Notation format := (generic_format radix2 (SpecFloat.fexp prec emax)).

(** a finite float and its value *)
Definition val (x : float) (r : R) : Prop := is_finite x = true /\ B2R x = r.

Lemma val_fval : forall x r, val x r <-> fval x = Fin r.
Proof.
  intros x r. split.
  - intros [H <-]. apply fval_finite. exact H.
  - unfold val. destruct x as [s|[]| |s m e b]; cbn [fval is_finite B2R]; intros H; try discriminate; injection H as <-; auto.
Qed.

Global Instance fe_valid : Valid_exp fe.
Proof. apply fexp_correct. exact Hp. Qed.

Lemma emin_le : (SpecFloat.emin prec emax + prec < emax)%Z.
Proof. unfold SpecFloat.emin. unfold Prec_gt_0 in Hp. unfold Prec_lt_emax in Hm. lia. Qed.

(** representable numbers *)
Lemma format_F2R : forall m e, (Z.abs m <= 2 ^ prec)%Z -> (SpecFloat.emin prec emax <= e)%Z -> format (IZR m * bpow radix2 e).
Proof.
  intros m e H E. unfold Prec_gt_0 in Hp. destruct (Z_lt_le_dec (Z.abs m) (2 ^ prec)) as [H1|H1].
  - apply (generic_format_FLT radix2 (SpecFloat.emin prec emax) prec). exists (Float radix2 m e); [reflexivity|exact H1|exact E].
  - assert (A : (m = 2 ^ prec \/ m = - 2 ^ prec)%Z) by lia.
    assert (P : format (bpow radix2 (prec + e))).
    { apply generic_format_bpow. unfold SpecFloat.fexp. lia. }
    destruct A as [-> | ->].
    + rewrite (IZR_Zpower radix2) by lia. rewrite <- bpow_plus. exact P.
    + rewrite opp_IZR, (IZR_Zpower radix2) by lia. rewrite Ropp_mult_distr_l_reverse, <- bpow_plus. apply generic_format_opp. exact P.
Qed.

Lemma format_big : forall e, (SpecFloat.emin prec emax <= e)%Z -> format (bpow radix2 e).
Proof. intros e H. apply generic_format_bpow. unfold SpecFloat.fexp. unfold Prec_gt_0 in Hp. lia. Qed.

Lemma no_overflow : forall rm (V : Valid_rnd rm) x, Rabs x <= bpow radix2 (emax - 1) -> Rlt_bool (Rabs (round radix2 fe rm x)) (bpow radix2 emax) = true.
Proof.
  intros rm V x H. apply Rlt_bool_true. apply Rle_lt_trans with (bpow radix2 (emax - 1)); [|apply bpow_lt; lia].
  apply abs_round_le_generic; [apply fexp_correct; exact Hp|exact V| |exact H]. apply format_big. pose proof emin_le. unfold Prec_gt_0 in Hp. lia.
Qed.

Section Modes.
Variable m : mode.
Notation rm := (round radix2 (SpecFloat.fexp prec emax) (round_mode m)).

Lemma plus_val_m : forall x y a b, val x a -> val y b -> Rabs (a + b) <= bpow radix2 (emax - 1) -> val (Bplus m x y) (rm (a + b)).
Proof.
  intros x y a b [X <-] [Y <-] H. pose proof (Bplus_correct prec emax Hp Hm m x y X Y) as C.
  rewrite no_overflow in C by (auto; apply valid_rnd_round_mode). destruct C as (C1 & C2 & _). split; auto.
Qed.
Lemma minus_val_m : forall x y a b, val x a -> val y b -> Rabs (a - b) <= bpow radix2 (emax - 1) -> val (Bminus m x y) (rm (a - b)).
Proof.
  intros x y a b [X <-] [Y <-] H. pose proof (Bminus_correct prec emax Hp Hm m x y X Y) as C.
  rewrite no_overflow in C by (auto; apply valid_rnd_round_mode). destruct C as (C1 & C2 & _). split; auto.
Qed.
Lemma mult_val_m : forall x y a b, val x a -> val y b -> Rabs (a * b) <= bpow radix2 (emax - 1) -> val (Bmult m x y) (rm (a * b)).
Proof.
  intros x y a b [X <-] [Y <-] H. pose proof (Bmult_correct prec emax Hp Hm m x y) as C.
  rewrite no_overflow in C by (auto; apply valid_rnd_round_mode). destruct C as (C1 & C2 & _). split; auto. rewrite C2, X, Y. reflexivity.
Qed.
Lemma div_val_m : forall x y a b, val x a -> val y b -> b <> 0 -> Rabs (a / b) <= bpow radix2 (emax - 1) -> val (Bdiv m x y) (rm (a / b)).
Proof.
  intros x y a b [X <-] [Y <-] B H. pose proof (Bdiv_correct prec emax Hp Hm m x y B) as C.
  rewrite no_overflow in C by (auto; apply valid_rnd_round_mode). destruct C as (C1 & C2 & _). split; auto. rewrite C2, X. reflexivity.
Qed.
End Modes.

(** round to nearest, with conclusions in terms of the instance *)
Variable lm : libm float.
Notation N := (FL prec emax Hp Hm lm).

Lemma plus_val : forall x y a b, val x a -> val y b -> Rabs (a + b) <= bpow radix2 (emax - 1) -> val (nadd (NumOps:=N) x y) (rnd (a + b)).
Proof. exact (plus_val_m mode_NE). Qed.
Lemma minus_val : forall x y a b, val x a -> val y b -> Rabs (a - b) <= bpow radix2 (emax - 1) -> val (nsub (NumOps:=N) x y) (rnd (a - b)).
Proof. exact (minus_val_m mode_NE). Qed.
Lemma mult_val : forall x y a b, val x a -> val y b -> Rabs (a * b) <= bpow radix2 (emax - 1) -> val (nmul (NumOps:=N) x y) (rnd (a * b)).
Proof. exact (mult_val_m mode_NE). Qed.
Lemma div_val : forall x y a b, val x a -> val y b -> b <> 0 -> Rabs (a / b) <= bpow radix2 (emax - 1) -> val (ndiv (NumOps:=N) x y) (rnd (a / b)).
Proof. exact (div_val_m mode_NE). Qed.
Lemma ofZ_val : forall z, Rabs (IZR z) <= bpow radix2 (emax - 1) -> val (nofZ (NumOps:=N) z) (rnd (IZR z)).
Proof.
  intros z H. pose proof (binary_normalize_correct prec emax Hp Hm mode_NE z 0 false) as C. cbv zeta in C.
  replace (F2R {| Fnum := z; Fexp := 0 |}) with (IZR z) in C by (unfold F2R; cbn; ring).
  rewrite no_overflow in C by (auto; apply valid_rnd_round_mode). destruct C as (C1 & C2 & _). split; auto.
Qed.
Lemma ltb_val : forall x y a b, val x a -> val y b -> nltb (NumOps:=N) x y = Rltb a b.
Proof. intros x y a b X Y. cbn [nltb FL]. rewrite Bltb_fval. apply val_fval in X, Y. rewrite X, Y. reflexivity. Qed.
Lemma leb_val : forall x y a b, val x a -> val y b -> nleb (NumOps:=N) x y = Rleb a b.
Proof. intros x y a b X Y. cbn [nleb FL]. rewrite Bleb_fval. apply val_fval in X, Y. rewrite X, Y. reflexivity. Qed.

Lemma val_format : forall x a, val x a -> format a.
Proof. intros x a [_ <-]. apply generic_format_B2R. Qed.
Lemma val_bound : forall x a, val x a -> Rabs a <= bpow radix2 emax - bpow radix2 (emax - prec).
Proof. intros x a [_ <-]. apply abs_B2R_le_emax_minus_prec. exact Hp. Qed.
Lemma rnd_id : forall a, format a -> rnd a = a.
Proof. intros a H. apply round_generic; [apply valid_rnd_N|exact H]. Qed.
Lemma rnd_le : forall a b, a <= b -> rnd a <= rnd b.
Proof. intros a b H. apply round_le; [apply fexp_correct; exact Hp|apply valid_rnd_N|exact H]. Qed.

(** the error below a power of two *)
Lemma rnd_error : forall x e, (SpecFloat.emin prec emax <= e - prec)%Z -> Rabs x <= bpow radix2 e -> Rabs (rnd x - x) <= bpow radix2 (e - prec - 1).
Proof.
  intros x e He H. unfold Prec_gt_0 in Hp. destruct (Rle_lt_or_eq_dec _ _ H) as [H1|H1].
  - eapply Rle_trans; [apply error_le_half_ulp; apply fexp_correct; exact Hp|].
    replace (bpow radix2 (e - prec - 1)) with (/ 2 * bpow radix2 (e - prec)).
    2:{ replace (e - prec - 1)%Z with (-1 + (e - prec))%Z by ring. rewrite bpow_plus. reflexivity. }
    apply Rmult_le_compat_l; [lra|]. destruct (Req_dec x 0) as [->|X0].
    + change fe with (FLT_exp (SpecFloat.emin prec emax) prec). rewrite ulp_FLT_0 by exact Hp. apply bpow_le. exact He.
    + rewrite ulp_neq_0 by exact X0. apply bpow_le. unfold cexp, SpecFloat.fexp. pose proof (mag_le_bpow radix2 x e X0 H1). lia.
  - assert (F : format x).
    { assert (B : format (bpow radix2 e)) by (apply format_big; lia).
      unfold Rabs in H1. destruct (Rcase_abs x); [rewrite <- (Ropp_involutive x), H1; apply generic_format_opp|rewrite H1]; exact B. }
    rewrite rnd_id by exact F. rewrite Rminus_diag_eq, Rabs_R0 by reflexivity. apply bpow_ge_0.
Qed.

Lemma rnd_le_mid : forall u v d, format u -> 0 <= u -> d <= ulp radix2 fe u -> v < u + d / 2 -> rnd v <= u.
Proof.
  intros u v d F U D V. apply round_N_le_midp; [apply fexp_correct; exact Hp|exact F|]. rewrite succ_eq_pos by exact U. lra.
Qed.
Lemma ulp_lower : forall u e, bpow radix2 e <= u -> bpow radix2 (e + 1 - prec) <= ulp radix2 fe u.
Proof.
  intros u e H. pose proof (bpow_gt_0 radix2 e). rewrite ulp_neq_0 by lra. apply bpow_le. unfold cexp, SpecFloat.fexp.
  assert ((e < mag radix2 u)%Z). { apply mag_gt_bpow. rewrite Rabs_pos_eq; lra. } lia.
Qed.
End Round.
