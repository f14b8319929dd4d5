(** IEEE-754 scalars: Flocq's binary floats with a single NaN, of any precision and
    exponent range, rounding to nearest even.  The libm functions, whose results
    the standard leaves to the implementation, are arbitrary functions. *)
From Coq Require Import ZArith Reals List Bool Lia.
From Flocq Require Import Core BinarySingleNaN.
From Verif Require Import Num.

Record libm (T : Type) : Type := {
  lm_pi : T;
  lm_sin : T -> T; lm_cos : T -> T; lm_tan : T -> T;
  lm_asin : T -> T; lm_acos : T -> T; lm_atan2 : T -> T -> T;
  lm_exp : T -> T; lm_log : T -> T; lm_cbrt : T -> T; lm_round : T -> T
}.

Section FL.
Variables prec emax : Z.
Variable Hprec : Prec_gt_0 prec.
Variable Hmax : Prec_lt_emax prec emax.
Variable lm : libm (binary_float prec emax).

Notation float := (binary_float prec emax).
Let norm (m e : Z) : float := binary_normalize prec emax Hprec Hmax mode_NE m e false.

Definition fl_copysign (x y : float) : float :=
  if Bool.eqb (Bsign x) (Bsign y) then x else Bopp x.

Definition FL : NumOps := {|
  num := float;
  nadd := Bplus mode_NE; nsub := Bminus mode_NE; nmul := Bmult mode_NE;
  ndiv := Bdiv mode_NE;
  nneg := Bopp; nabs := Babs; nsqrt := Bsqrt mode_NE; nfma := Bfma mode_NE;
  ncopysign := fl_copysign;
  nfloor := Bnearbyint mode_DN;
  nltb := Bltb; nleb := Bleb; neqb := Beqb;
  nisnan := is_nan;
  nofZ := fun z => norm z 0;
  ntrunc := fun x => if is_finite x then Some (Btrunc x) else None;
  nnan := B754_nan; ninf := B754_infinity false;
  neps := norm 1 (1 - prec); nmin := norm 1 (2 - emax);
  nmax := norm (2 ^ prec - 1) (emax - prec);
  npi := lm_pi _ lm;
  nsin := lm_sin _ lm; ncos := lm_cos _ lm; ntan := lm_tan _ lm;
  nasin := lm_asin _ lm; nacos := lm_acos _ lm; natan2 := lm_atan2 _ lm;
  nexp := lm_exp _ lm; nlog := lm_log _ lm; ncbrt := lm_cbrt _ lm;
  nround := lm_round _ lm
|}.
End FL.

(** IEEE double and float. *)
Definition Hprec53 : Prec_gt_0 53 := eq_refl.
Definition Hmax1024 : Prec_lt_emax 53 1024 := eq_refl.
Definition Hprec24 : Prec_gt_0 24 := eq_refl.
Definition Hmax128 : Prec_lt_emax 24 128 := eq_refl.
Notation binary64 := (binary_float 53 1024).
Notation binary32 := (binary_float 24 128).
Definition F64 (lm : libm binary64) : NumOps := FL 53 1024 Hprec53 Hmax1024 lm.
Definition F32 (lm : libm binary32) : NumOps := FL 24 128 Hprec24 Hmax128 lm.
(* m * 2^e as a double / float *)
Definition d64 (m e : Z) : binary64 := binary_normalize 53 1024 Hprec53 Hmax1024 mode_NE m e false.
Definition d32 (m e : Z) : binary32 := binary_normalize 24 128 Hprec24 Hmax128 mode_NE m e false.
