(** Independent specification for the generator and the boxes it samples, on IEEE
    numbers.  Nothing here refers to the model of the code. *)
From Coq Require Import Reals ZArith List.
From Flocq Require Import Core BinarySingleNaN.
Local Open Scope R_scope.

(** a value of uint64_t *)
Definition word64 (x : Z) : Prop := (0 <= x < 2 ^ 64)%Z.

(** 0, 1, ..., n-1, and the sum of a list *)
Definition words (n : Z) : list Z := map Z.of_nat (seq 0 (Z.to_nat n)).
Fixpoint total (l : list Z) : Z := match l with nil => 0%Z | cons x l => (x + total l)%Z end.

Section Spec.
Variables prec emax : Z.
Context (Hp : Prec_gt_0 prec) (Hm : Prec_lt_emax prec emax).
Notation float := (binary_float prec emax).

(** a finite float denoting the real [r] *)
Definition denotes (x : float) (r : R) : Prop := is_finite x = true /\ B2R x = r.
(** two finite ends in order *)
Definition real_ends (p : float * float) : Prop :=
  is_finite (fst p) = true /\ is_finite (snd p) = true /\ B2R (fst p) <= B2R (snd p).
(** a finite coordinate between its ends *)
Definition inside (p : float * float) (x : float) : Prop :=
  is_finite x = true /\ B2R (fst p) <= B2R x <= B2R (snd p).
(** the width of the interval does not overflow *)
Definition finite_width (p : float * float) : Prop :=
  is_finite (Bminus (prec_gt_0_ := Hp) (prec_lt_emax_ := Hm) mode_NE (snd p) (fst p)) = true.
(** IEEE less-or-equal, false on NaN *)
Definition le_float (x y : float) : Prop := match Bcompare x y with Some Lt | Some Eq => True | _ => False end.
End Spec.
Arguments denotes {prec emax} x r.
Arguments real_ends {prec emax} p.
Arguments inside {prec emax} p x.
Arguments finite_width {prec emax Hp Hm} p.
Arguments le_float {prec emax} x y.
