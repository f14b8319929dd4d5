(** Model of include/drt/interval.hpp.

    The dynamic rounding mode of <cfenv> is explicit: every operation takes the mode in
    force and returns the mode it leaves behind.  The scalar operations that depend on the
    mode take it as an argument.  The messages written to std::cerr are not modelled.
    [abs], [min] and [max] at interval.hpp:165-169 and 241-242 are unqualified calls; we take them as
    the functions of <cmath> and <algorithm>.  (Nothing in the repository instantiates them.) *)
From Coq Require Import ZArith Reals List Bool.
From Flocq Require Import Core BinarySingleNaN.
From Verif Require Import Num XR FL.

(** the four modes of <cfenv> *)
Inductive fe_mode := FE_TONEAREST | FE_DOWNWARD | FE_UPWARD | FE_TOWARDZERO.

Class RndOps := {
  rnum : Type;
  radd : fe_mode -> rnum -> rnum -> rnum; rsub : fe_mode -> rnum -> rnum -> rnum;
  rmul : fe_mode -> rnum -> rnum -> rnum; rdiv : fe_mode -> rnum -> rnum -> rnum;
  rsqrt : fe_mode -> rnum -> rnum; rexp : fe_mode -> rnum -> rnum; rlog : fe_mode -> rnum -> rnum;
  rpow : fe_mode -> rnum -> Z -> rnum;
  rabs : rnum -> rnum; rneg : rnum -> rnum;
  rltb : rnum -> rnum -> bool; rleb : rnum -> rnum -> bool; reqb : rnum -> rnum -> bool;
  rofZ : Z -> rnum; rnan : rnum; rinf : rnum
}.

Record interval (T : Type) := Itv { i_lo : T; i_hi : T }.
Arguments Itv {T}. Arguments i_lo {T}. Arguments i_hi {T}.

Section Interval.
Context {F : RndOps}.
Notation itv := (interval rnum).

(* std::min, std::max *)
Definition r_min (a b : rnum) : rnum := if rltb b a then b else a.
Definition r_max (a b : rnum) : rnum := if rltb a b then b else a.

(* interval.hpp:11-12 the default constructor *)
Definition i_default : itv := Itv rnan rnan.
(* interval.hpp:27-29 empty *)
Definition i_empty (x : itv) : bool := rltb (i_hi x) (i_lo x).
(* interval.hpp:39-41 width *)
Definition i_width (m : fe_mode) (x : itv) : rnum := rsub m (i_hi x) (i_lo x).
(* interval.hpp:43-45 degenerate, which returns the comparison as a Real *)
Definition i_degenerate (x : itv) : rnum := if reqb (i_lo x) (i_hi x) then rofZ 1 else rofZ 0.

(* interval.hpp:47-56 operator-=, on the objects at two addresses of a store, which may be
   the same: the second subtraction reads what the first has written *)
Definition store := nat -> itv.
Definition write (s : store) (p : nat) (x : itv) : store := fun q => if Nat.eqb q p then x else s q.
Definition i_sub_assign (m : fe_mode) (s : store) (this r : nat) : store * fe_mode :=
  let original := m in
  let m := FE_DOWNWARD in
  let s := write s this (Itv (rsub m (i_lo (s this)) (i_hi (s r))) (i_hi (s this))) in
  let m := FE_UPWARD in
  let s := write s this (Itv (i_lo (s this)) (rsub m (i_hi (s this)) (i_lo (s r)))) in
  let m := original in
  (s, m).

(* interval.hpp:67-84 operator>= *)
Definition i_ge (x r : itv) : bool :=
  if negb (i_empty x) then
    if rleb (i_hi r) (i_lo x) then true
    else if rltb (i_hi x) (i_lo r) then false else false
  else false.

(* interval.hpp:86-97 operator+ *)
Definition i_add (m : fe_mode) (x r : itv) : itv * fe_mode :=
  let original := m in
  let m := FE_DOWNWARD in
  let a := radd m (i_lo x) (i_lo r) in
  let m := FE_UPWARD in
  let b := radd m (i_hi x) (i_hi r) in
  let m := original in
  (Itv a b, m).

(* interval.hpp:99-109 operator- *)
Definition i_sub (m : fe_mode) (x y : itv) : itv * fe_mode :=
  let original := m in
  let m := FE_DOWNWARD in
  let a := rsub m (i_lo x) (i_hi y) in
  let m := FE_UPWARD in
  let b := rsub m (i_hi x) (i_lo y) in
  let m := original in
  (Itv a b, m).

(* interval.hpp:111-127 operator* *)
Definition i_mul (m : fe_mode) (x y : itv) : itv :=
  let arr := cons (rmul m (i_lo x) (i_lo y)) (cons (rmul m (i_lo x) (i_hi y))
             (cons (rmul m (i_hi x) (i_lo y)) (cons (rmul m (i_hi x) (i_hi y)) nil))) in
  let '(a, b) := fold_left (fun '(a, b) v =>
    (if rltb v a then v else a, if rltb b v then v else b)) arr (rinf, rneg rinf) in
  Itv a b.

(* interval.hpp:130-144 operator/ *)
Definition i_div (m : fe_mode) (x y : itv) : itv :=
  if rleb (i_lo y) (rofZ 0) && rltb (rofZ 0) (i_hi y) then
    i_mul m x (Itv (rdiv m (rofZ 1) (i_hi y)) rinf)
  else i_mul m x (Itv (rdiv m (rofZ 1) (i_hi y)) (rdiv m (rofZ 1) (i_lo y))).

(* interval.hpp:146-160 pow *)
Definition i_pow (m : fe_mode) (x : itv) (p : Z) : itv :=
  if Z.even p then
    if rleb (rofZ 0) (i_lo x) then Itv (rpow m (i_lo x) p) (rpow m (i_hi x) p)
    else if rleb (i_hi x) (rofZ 0) then Itv (rpow m (i_hi x) p) (rpow m (i_lo x) p)
    else Itv (rofZ 0) (rpow m (i_hi x) p)
  else Itv (rpow m (i_lo x) p) (rpow m (i_hi x) p).

(* interval.hpp:162-171 abs *)
Definition i_abs (x : itv) : itv :=
  let a := r_min (rabs (i_lo x)) (rabs (i_hi x)) in
  let a := if rltb (i_lo x) (rofZ 0) && rltb (rofZ 0) (i_hi x) then rofZ 0 else a in
  Itv a (r_max (rabs (i_lo x)) (rabs (i_hi x))).

(* interval.hpp:173-183 intersection *)
Definition i_intersection (x y : itv) : itv :=
  if rltb (i_hi x) (i_lo y) || rltb (i_hi y) (i_lo x) then i_default
  else Itv (r_max (i_lo x) (i_lo y)) (r_min (i_hi x) (i_hi y)).

(* interval.hpp:185-193 hull *)
Definition i_hull (x y : itv) : itv :=
  Itv (r_min (i_lo x) (i_lo y)) (r_min (i_hi x) (i_hi y)).

(* interval.hpp:195-205 exp, 207-217 log, 219-234 sqrt *)
Definition i_directed (f : fe_mode -> rnum -> rnum) (m : fe_mode) (x : itv) : itv * fe_mode :=
  let original := m in
  let m := FE_DOWNWARD in
  let a := f m (i_lo x) in
  let m := FE_UPWARD in
  let b := f m (i_hi x) in
  let m := original in
  (Itv a b, m).
Definition i_exp := i_directed rexp.
Definition i_log := i_directed rlog.
Definition i_sqrt := i_directed rsqrt.

(* interval.hpp:236-244 distance *)
Definition i_distance (m : fe_mode) (x y : itv) : rnum :=
  r_max (rabs (rsub m (i_lo x) (i_lo y))) (rabs (rsub m (i_hi x) (i_hi y))).
End Interval.

(** Exact extended reals: the mode has no effect. *)
Fixpoint xpow (x : xr) (n : nat) : xr :=
  match n with O => Fin 1 | S n => xmul x (xpow x n) end.
Definition xpowZ (x : xr) (p : Z) : xr :=
  if (p <? 0)%Z then xdiv (Fin 1) (xpow x (Z.to_nat (- p))) else xpow x (Z.to_nat p).
Definition RX : RndOps := {|
  rnum := xr;
  radd _ := xadd; rsub _ := xsub; rmul _ := xmul; rdiv _ := xdiv;
  rsqrt _ := xsqrt; rexp _ := xexp; rlog _ := xlog; rpow _ := xpowZ;
  rabs := xabs; rneg := xneg;
  rltb := xltb; rleb := xleb; reqb := xeqb;
  rofZ z := Fin (IZR z); rnan := NaN; rinf := PInf
|}.

(** IEEE floats; exp, log and pow are arbitrary functions of the mode and their arguments. *)
Record libm_rnd (T : Type) := {
  lr_exp : fe_mode -> T -> T; lr_log : fe_mode -> T -> T; lr_pow : fe_mode -> T -> Z -> T
}.
Definition fl_mode (m : fe_mode) : mode :=
  match m with FE_TONEAREST => mode_NE | FE_DOWNWARD => mode_DN | FE_UPWARD => mode_UP | FE_TOWARDZERO => mode_ZR end.
Definition RF (prec emax : Z) (Hp : Prec_gt_0 prec) (Hm : Prec_lt_emax prec emax)
  (lm : libm_rnd (binary_float prec emax)) : RndOps := {|
  rnum := binary_float prec emax;
  radd m := Bplus (fl_mode m); rsub m := Bminus (fl_mode m); rmul m := Bmult (fl_mode m);
  rdiv m := Bdiv (fl_mode m); rsqrt m := Bsqrt (fl_mode m);
  rexp := lr_exp _ lm; rlog := lr_log _ lm; rpow := lr_pow _ lm;
  rabs := Babs; rneg := Bopp; rltb := Bltb; rleb := Bleb; reqb := Beqb;
  rofZ z := binary_normalize prec emax Hp Hm mode_NE z 0 false;
  rnan := B754_nan; rinf := B754_infinity false
|}.
Definition RF64 (lm : libm_rnd binary64) : RndOps := RF 53 1024 Hprec53 Hmax1024 lm.
