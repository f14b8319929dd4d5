(** Vocabulary of the interval theorems. *)
From Coq Require Import Reals ZArith.
From Flocq Require Import Core BinarySingleNaN.
From Verif Require Import Num XR Spec M_Interval P_FL.
Local Open Scope R_scope.

(** the real x lies in the interval, whose ends may be infinite *)
Definition inI (X : interval xr) (x : R) : Prop := in_window (i_lo X) (i_hi X) x.
(** the extended reals between which an interval of floats lies *)
Definition denoteI {prec emax} (X : interval (binary_float prec emax)) : interval xr := Itv (fval (i_lo X)) (fval (i_hi X)).
(** the real x lies in the interval of floats *)
Definition inF {prec emax} (X : interval (binary_float prec emax)) (x : R) : Prop := inI (denoteI X) x.
(** real interval with finite ends *)
Definition finI (a b : R) : interval xr := Itv (Fin a) (Fin b).
(** everything *)
Definition lineI : interval xr := Itv MInf PInf.
(** the first interval is [0,0] and the second the whole line: 0 times infinity *)
Definition zero_line (X Y : interval xr) : Prop := X = finI 0 0 /\ Y = lineI.
(** the ends are numbers or infinite *)
Definition num_ends (X : interval xr) : Prop := i_lo X <> NaN /\ i_hi X <> NaN.
(** [lo] is the largest float that is at most [t], [hi] the least that is at least [t] *)
Definition best_below {prec emax} (lo : binary_float prec emax) (t : R) : Prop :=
  at_least (fval lo) t /\ forall f : binary_float prec emax, at_least (fval f) t -> xleb (fval f) (fval lo) = true.
Definition best_above {prec emax} (hi : binary_float prec emax) (t : R) : Prop :=
  at_most (fval hi) t /\ forall f : binary_float prec emax, at_most (fval f) t -> xleb (fval hi) (fval f) = true.

(** The extended real obtained by rounding t to the format with overflow: beyond the range
    the result is infinite or the largest finite number, according to the mode. *)
Definition roundx (prec emax : Z) (m : mode) (t : R) : xr :=
  let v := round radix2 (SpecFloat.fexp prec emax) (round_mode m) t in
  let big := bpow radix2 emax - bpow radix2 (emax - prec) in
  if Rlt_bool (Rabs v) (bpow radix2 emax) then Fin v
  else if overflow_to_inf m (Rlt_bool t 0) then (if Rlt_bool t 0 then MInf else PInf)
  else (if Rlt_bool t 0 then Fin (- big) else Fin big).
