(** Facts about the IEEE instance: comparisons are those of the extended reals. *)
From Coq Require Import Reals Lra ZArith List Bool.
From Flocq Require Import Core BinarySingleNaN.
From Verif Require Import Num XR FL.
Local Open Scope R_scope.

Section Float.
Variables prec emax : Z.
Notation float := (binary_float prec emax).

(** The extended real denoted by a float. *)
Definition fval (x : float) : xr :=
  match x with
  | B754_zero _ => Fin 0
  | B754_infinity s => if s then MInf else PInf
  | B754_nan => NaN
  | B754_finite _ _ _ _ => Fin (B2R x)
  end.

Lemma fval_finite : forall x : float, is_finite x = true -> fval x = Fin (B2R x).
Proof. destruct x; simpl; intros; try discriminate; reflexivity. Qed.

Lemma fval_nan : forall x : float, is_nan x = true <-> fval x = NaN.
Proof. destruct x as [s|[|]| |]; simpl; split; congruence. Qed.

Lemma Rlt_bool_Rltb : forall x y, Rlt_bool x y = Rltb x y.
Proof. intros; destruct (Rltb_spec x y); [apply Rlt_bool_true|apply Rlt_bool_false]; auto. Qed.
Lemma Rle_bool_Rleb : forall x y, Rle_bool x y = Rleb x y.
Proof. intros; destruct (Rleb_spec x y); [apply Rle_bool_true|apply Rle_bool_false]; auto. Qed.
Lemma Req_bool_Reqb : forall x y, Req_bool x y = Reqb x y.
Proof. intros; destruct (Reqb_spec x y); [apply Req_bool_true|apply Req_bool_false]; auto. Qed.

Lemma Bltb_fval : forall x y : float, Bltb x y = xltb (fval x) (fval y).
Proof.
  intros x y.
  destruct (is_finite x) eqn:Fx, (is_finite y) eqn:Fy;
    try (rewrite Bltb_correct, (fval_finite x), (fval_finite y), Rlt_bool_Rltb by auto; reflexivity);
    destruct x as [sx|[|]| |[|] mx ex Bx], y as [sy|[|]| |[|] my ey By]; try discriminate; reflexivity.
Qed.
Lemma Bleb_fval : forall x y : float, Bleb x y = xleb (fval x) (fval y).
Proof.
  intros x y.
  destruct (is_finite x) eqn:Fx, (is_finite y) eqn:Fy;
    try (rewrite Bleb_correct, (fval_finite x), (fval_finite y), Rle_bool_Rleb by auto; reflexivity);
    destruct x as [sx|[|]| |[|] mx ex Bx], y as [sy|[|]| |[|] my ey By]; try discriminate; reflexivity.
Qed.
Lemma Beqb_fval : forall x y : float, Beqb x y = xeqb (fval x) (fval y).
Proof.
  intros x y.
  destruct (is_finite x) eqn:Fx, (is_finite y) eqn:Fy;
    try (rewrite Beqb_correct, (fval_finite x), (fval_finite y), Req_bool_Reqb by auto; reflexivity);
    destruct x as [sx|[|]| |[|] mx ex Bx], y as [sy|[|]| |[|] my ey By]; try discriminate; reflexivity.
Qed.

Lemma fval_opp : forall x : float, fval (Bopp x) = xneg (fval x).
Proof.
  intros x; destruct (is_finite x) eqn:Fx.
  - rewrite (fval_finite x), fval_finite, B2R_Bopp; auto; rewrite is_finite_Bopp; auto.
  - destruct x as [s|[|]| |s m e B]; try reflexivity; discriminate.
Qed.
Lemma fval_abs : forall x : float, fval (Babs x) = xabs (fval x).
Proof.
  intros x; destruct (is_finite x) eqn:Fx.
  - rewrite (fval_finite x), fval_finite, B2R_Babs; auto; rewrite is_finite_Babs; auto.
  - destruct x as [s|[|]| |s m e B]; try reflexivity; discriminate.
Qed.
End Float.
Arguments fval {prec emax} x.

Lemma xltb_irrefl : forall x, xltb x x = false.
Proof. destruct x; try reflexivity; apply Rltb_false; lra. Qed.
