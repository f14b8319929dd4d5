(** Angles: atan2, acos and the parameter computations shared by the shapes. *)
From Coq Require Import Reals Lra ZArith Bool.
From Verif Require Import Num XR M_Vec M_Hittable M_Shapes.
Local Open Scope R_scope.

Lemma PI_pos : 0 < PI.
Proof. exact PI_RGT_0. Qed.

Lemma cos_atan : forall x, cos (atan x) = / sqrt (1 + x * x).
Proof.
  intros x. pose proof (cos_atan x) as H. rewrite H. unfold Rsqr. field_simplify_eq; auto.
  all: apply Rgt_not_eq, sqrt_lt_R0; nra.
Qed.
Lemma sin_atan : forall x, sin (atan x) = x / sqrt (1 + x * x).
Proof. intros x. rewrite sin_atan. reflexivity. Qed.

Lemma hyp_scale : forall x y, 0 < x -> sqrt (x * x + y * y) = x * sqrt (1 + (y / x) * (y / x)).
Proof.
  intros x y Hx. replace (x * x + y * y) with (x * x * (1 + y / x * (y / x))) by (field; lra).
  rewrite sqrt_mult_alt by nra. rewrite sqrt_square by lra. reflexivity.
Qed.

(** atan2 is the polar angle in (-PI, PI]. *)
Lemma Ratan2_polar : forall y x, 0 < x * x + y * y ->
  let rho := sqrt (x * x + y * y) in
  rho * cos (Ratan2 y x) = x /\ rho * sin (Ratan2 y x) = y /\ - PI < Ratan2 y x <= PI.
Proof.
  intros y x H rho. pose proof PI_pos as P. unfold Ratan2.
  pose proof (atan_bound (y / x)) as B.
  assert (S : forall z, 0 < sqrt (1 + z * z)) by (intros; apply sqrt_lt_R0; nra).
  destruct (Rlt_dec 0 x) as [Hx|Hx].
  - unfold rho. rewrite hyp_scale, cos_atan, sin_atan by auto. specialize (S (y / x)).
    repeat split; try lra; field; repeat split; lra.
  - destruct (Rlt_dec x 0) as [Hx'|Hx'].
    + assert (E : rho = - x * sqrt (1 + (y / x) * (y / x))).
      { unfold rho. replace (x * x) with (- x * - x) by ring. rewrite hyp_scale by lra.
        do 2 f_equal. f_equal. field. lra. }
      specialize (S (y / x)).
      destruct (Rlt_dec y 0) as [Hy|Hy].
      * assert (A : 0 < atan (y / x)).
        { rewrite <- atan_0. apply atan_increasing. apply Rmult_lt_reg_r with (- x); [lra|].
          replace (y / x * - x) with (- y) by (field; lra). lra. }
        rewrite cos_minus, sin_minus, cos_PI, sin_PI, cos_atan, sin_atan, E.
        repeat split; try lra; field; repeat split; lra.
      * assert (A : atan (y / x) <= 0).
        { rewrite <- atan_0. destruct (Req_dec y 0) as [->|N]; [right; f_equal; field; lra|].
          left. apply atan_increasing. apply Rmult_lt_reg_r with (- x); [lra|].
          replace (y / x * - x) with (- y) by (field; lra). lra. }
        rewrite cos_plus, sin_plus, cos_PI, sin_PI, cos_atan, sin_atan, E.
        repeat split; try lra; field; repeat split; lra.
    + assert (x = 0) by lra. subst x.
      assert (E : rho = Rabs y).
      { unfold rho. rewrite <- sqrt_Rsqr_abs. f_equal. unfold Rsqr. ring. }
      rewrite E. destruct (Rlt_dec 0 y).
      * rewrite cos_PI2, sin_PI2, Rabs_right by lra. repeat split; lra.
      * destruct (Rlt_dec y 0); [|nra].
        rewrite cos_neg, sin_neg, cos_PI2, sin_PI2, Rabs_left by lra. repeat split; lra.
Qed.

Lemma Ratan2_zero : Ratan2 0 0 = 0.
Proof. unfold Ratan2. repeat destruct (Rlt_dec _ _); lra. Qed.

Section L.
Context {L : limits}.

(** u in [0,1) with (cos 2 PI u, sin 2 PI u) the direction of (x,y) *)
Lemma azimuth_spec : forall y x : R, exists u, azimuth (F:=XR L) (Fin y) (Fin x) = Fin u /\ 0 <= u < 1 /\
  sqrt (x * x + y * y) * cos (2 * PI * u) = x /\ sqrt (x * x + y * y) * sin (2 * PI * u) = y.
Proof.
  intros y x. pose proof PI_pos as P. unfold azimuth; xred. rewrite xdiv_fin by lra. xred.
  destruct (Rle_lt_or_eq_dec 0 (x * x + y * y)) as [H|H]; [nra| |].
  - destruct (Ratan2_polar y x H) as [C [S B]].
    assert (D : Ratan2 y x = 2 * PI * (Ratan2 y x / (2 * PI))) by (field; lra).
    set (u := Ratan2 y x / (2 * PI)) in *.
    destruct (Rltb_spec u 0) as [Hu|Hu]; eexists; (split; [reflexivity|]).
    + split; [split; nra|].
      replace (2 * PI * (u + 1)) with (2 * PI * u + 2 * PI) by ring. rewrite <- D.
      rewrite cos_plus, sin_plus, cos_2PI, sin_2PI.
      split; [etransitivity; [|exact C]|etransitivity; [|exact S]]; ring.
    + split; [split; nra|]. rewrite <- D. auto.
  - assert (x = 0) by nra. assert (y = 0) by nra. subst. rewrite Ratan2_zero.
    replace (0 / (2 * PI)) with 0 by (field; lra). rewrite Rltb_false by lra.
    exists 0. split; auto. split; [lra|]. rewrite !Rmult_0_l, Rplus_0_l, sqrt_0. lra.
Qed.

Lemma colatitude_spec : forall z : R, -1 <= z <= 1 -> exists v, colatitude (F:=XR L) (Fin z) = Fin v /\ 0 <= v <= 1 /\
  cos (PI * v) = z /\ sin (PI * v) = sqrt (1 - z * z) /\ 0 <= sin (PI * v).
Proof.
  intros z Hz. pose proof PI_pos as P. unfold colatitude; xred. unfold xunit.
  destruct (Rle_dec (Rabs z) 1) as [_|C]; [|exfalso; apply C; apply Rabs_le; lra].
  rewrite xdiv_fin by lra. xred. pose proof (acos_bound z) as B.
  assert (D : PI * (acos z / PI) = acos z) by (field; lra).
  assert (V : 0 <= acos z / PI <= 1).
  { split; [apply Rmult_le_pos; [lra|left; apply Rinv_0_lt_compat; lra]|].
    apply Rmult_le_reg_l with PI; lra. }
  rewrite Rltb_false by lra. exists (acos z / PI). split; auto. split; auto. rewrite D.
  split; [apply cos_acos; lra|].
  assert (S : sin (acos z) = sqrt (1 - z * z)) by (rewrite sin_acos by lra; unfold Rsqr; reflexivity).
  split; auto. apply sin_ge_0; lra.
Qed.
End L.
