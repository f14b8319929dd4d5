(** Concrete cases meeting the hypotheses of the theorems in T_Algebra.v. *)
From Coq Require Import Reals Lra ZArith List Bool.
From Verif Require Import Num XR Spec P_Vec P_Matrix.
Import ListNotations.
Local Open Scope R_scope.

Lemma double_min_small : l_min double_limits < 1 / 1000.
Proof.
  simpl l_min. apply Rmult_lt_reg_l with (IZR (2 ^ 1022)).
  - apply IZR_lt; reflexivity.
  - rewrite Rinv_r by (apply not_0_IZR; discriminate).
    apply Rmult_lt_reg_r with 1000; [lra|].
    replace (IZR (2 ^ 1022) * (1 / 1000) * 1000) with (IZR (2 ^ 1022)) by field.
    rewrite Rmult_1_l. apply IZR_lt; reflexivity.
Qed.
Lemma double_min_off : forall x, 1 / 1000 <= Rabs x -> off_threshold (l_min double_limits) x.
Proof. intros; right; pose proof double_min_small; lra. Qed.

Lemma ex_unit : normR (V3 (3 / 5) 0 (4 / 5)) = 1.
Proof.
  unfold normR, normsqR, dotR; cbn [vx vy vz].
  replace (3 / 5 * (3 / 5) + 0 * 0 + 4 / 5 * (4 / 5)) with 1 by field. apply sqrt_1.
Qed.

Lemma ex_solve2 : det2R (M2 1 2 3 4) <> 0 /\ off_threshold (l_eps double_limits * l_eps double_limits) (a10 (M2 1 2 3 4)).
Proof.
  split; [unfold det2R; simpl; lra|]. right. cbn [a10]. rewrite Rabs_right by lra.
  pose proof (l_eps_pos double_limits). 
  assert (l_eps double_limits <= 1).
  { simpl l_eps. rewrite <- Rinv_1. apply Rinv_le_contravar; [lra|]. apply IZR_le; discriminate. }
  nra.
Qed.

Lemma ex_solve3 : detR (M3 1 2 3 4 5 6 7 8 10) <> 0 /\ pivots_ok (M3 1 2 3 4 5 6 7 8 10).
Proof.
  split; [unfold detR; simpl; lra|]. left; cbn; repeat split; lra.
Qed.
Lemma ex_solve3_zero : detR (M3 0 2 3 4 5 6 7 8 10) <> 0 /\ pivots_ok (M3 0 2 3 4 5 6 7 8 10).
Proof.
  split; [unfold detR; simpl; lra|]. right; cbn; repeat split; lra.
Qed.

(* x^2 - 5x + 6 *)
Lemma ex_quadratic : off_threshold (l_min double_limits) 1 /\ off_threshold (l_min double_limits) (-5) /\
  ~ (1 = 0 /\ -5 = 0 /\ 6 = 0).
Proof.
  repeat split; [apply double_min_off; rewrite Rabs_R1; lra|apply double_min_off; rewrite Rabs_left; lra|lra].
Qed.

(* x^3 - 2x + 1 = (x-1)(x^2+x-1): three distinct real roots *)
Lemma ex_cubic : cubic_off_threshold (l_min double_limits) 1 0 (-2) 1 /\ ~ cubic_double_root 1 0 (-2) 1.
Proof.
  pose proof double_min_small as Hs; pose proof (l_min_pos double_limits) as Hp.
  split.
  - unfold cubic_off_threshold. repeat split; try (intros; exfalso; lra).
    + apply double_min_off; rewrite Rabs_R1; lra.
    + intros; apply double_min_off; rewrite Rabs_R1; lra.
    + intros _ _. right. unfold cubic_inflection.
      replace ((2 * 0 ^ 3 - 9 * 1 * 0 * -2 + 27 * 1 ^ 2 * 1) / (54 * 1 ^ 3)) with (1 / 2) by field.
      rewrite Rabs_right by lra. set (m := l_min double_limits) in *. simpl. nra.
  - intros [_ [_ [D _]]]. unfold cubic_discriminant in D. lra.
Qed.

(* x^3 - 3x + 2 = (x-1)^2 (x+2) *)
Lemma ex_cubic_double : cubic_off_threshold (l_min double_limits) 1 0 (-3) 2 /\ cubic_double_root 1 0 (-3) 2.
Proof.
  pose proof double_min_small as Hs; pose proof (l_min_pos double_limits) as Hp.
  split.
  - unfold cubic_off_threshold. repeat split; try (intros; exfalso; lra).
    + apply double_min_off; rewrite Rabs_R1; lra.
    + intros; apply double_min_off; rewrite Rabs_right; lra.
    + intros _ _. right. unfold cubic_inflection.
      replace ((2 * 0 ^ 3 - 9 * 1 * 0 * -3 + 27 * 1 ^ 2 * 2) / (54 * 1 ^ 3)) with 1 by field.
      rewrite Rabs_R1. set (m := l_min double_limits) in *. simpl. nra.
  - unfold cubic_double_root, cubic_discriminant; repeat split; lra.
Qed.

(* x^4 + x - 1 *)
Lemma ex_quartic : quartic_off_threshold (l_min double_limits) 1 0 0 1 (-1) /\ ~ quartic_degenerate 1 0 0 1 (-1).
Proof.
  pose proof double_min_small as Hs; pose proof (l_min_pos double_limits) as Hp.
  assert (Ep : qrt_p 1 0 0 = 0) by (unfold qrt_p; field).
  assert (Eq : qrt_q 1 0 0 1 = 1) by (unfold qrt_q; field).
  assert (Er : qrt_r 1 0 0 1 (-1) = -1) by (unfold qrt_r; field).
  assert (O1 : off_threshold (l_min double_limits) 1) by (apply double_min_off; rewrite Rabs_R1; lra).
  assert (Om : off_threshold (l_min double_limits) (-1)) by (apply double_min_off; rewrite Rabs_left; lra).
  split.
  - unfold quartic_off_threshold; cbv zeta. rewrite Ep, Eq, Er.
    split; [lra|]. split; [auto|].
    split; [intros; exfalso; lra|]. split; [auto|]. split; [intros; exfalso; lra|].
    split; [auto|]. split; [intros; exfalso; lra|]. split; [auto|]. split; [intros; exfalso; lra|].
    intros _ _ _ _. split.
    + unfold cubic_off_threshold.
      replace (- (1) * 1) with (-1) by ring.
      split; [auto|]. split; [intros; exfalso; lra|]. split; [auto|].
      split; [intros; exfalso; lra|]. intros _ _. right. unfold cubic_inflection.
      replace ((2 * (2 * 0) ^ 3 - 9 * 1 * (2 * 0) * (0 * 0 - 4 * -1) + 27 * 1 ^ 2 * -1) / (54 * 1 ^ 3)) with (- (1 / 2)) by field.
      rewrite Rabs_Ropp, Rabs_right by lra. set (m := l_min double_limits) in *. simpl. nra.
    + intros z Hz HR. unfold resolvent, cubicR in HR.
      assert (B : 1 / 100 < z). { destruct (Rle_or_lt z (1 / 100)); auto. exfalso. assert (z ^ 3 <= 1). { simpl. nra. } assert (z ^ 3 <= 1 / 100 * 1). { simpl. nra. } lra. }
      apply Rlt_trans with (1 / 1000); [auto|].
      rewrite <- (sqrt_square (1 / 1000)) by lra. apply sqrt_lt_1; lra.
  - intros [[C _]|[[_ [C _]]|[_ [_ [C _]]]]]; try lra; rewrite Er in C; lra.
Qed.

(* x^4 - 3x^2 + 2x: zero constant term, the reduced cubic is x^3 - 3x + 2 *)
Lemma ex_quartic_degenerate :
  quartic_off_threshold (l_min double_limits) 1 0 (-3) 2 0 /\ quartic_degenerate 1 0 (-3) 2 0.
Proof.
  pose proof double_min_small as Hs.
  assert (O1 : off_threshold (l_min double_limits) 1) by (apply double_min_off; rewrite Rabs_R1; lra).
  split.
  - unfold quartic_off_threshold; cbv zeta.
    split; [lra|]. split; [auto|].
    split; [intros; exfalso; lra|]. split; [intros; left; auto|].
    split; [intros _ _; apply ex_cubic_double|].
    repeat split; intros; exfalso; lra.
  - right; left. split; [lra|]. split; [auto|]. apply ex_cubic_double.
Qed.
