(** Scalars of the model.

    The C++ library is templated over a scalar type [Real].  [NumOps] lists the
    operations on [Real] which the library uses; every function of the model is
    written once over an arbitrary [NumOps] and instantiated in XR.v (exact
    arithmetic with special values) and FL.v (IEEE-754 binary arithmetic). *)
From Coq Require Import ZArith List Bool.
Import ListNotations.

(** Result of a computation that may meet undefined behaviour (an uninitialised
    read, an out-of-range conversion to an integer, [std::sort] on unordered data,
    [back()] of an empty vector, ...) or may need more loop iterations than the
    given fuel. *)
Inductive outcome (A : Type) : Type :=
| Ok (a : A)
| Undef
| OutOfFuel.
Arguments Ok {A} a.
Arguments Undef {A}.
Arguments OutOfFuel {A}.

Definition obind {A B : Type} (x : outcome A) (f : A -> outcome B) : outcome B :=
  match x with
  | Ok a => f a
  | Undef => Undef
  | OutOfFuel => OutOfFuel
  end.

Definition omap {A B : Type} (f : A -> B) (x : outcome A) : outcome B :=
  obind x (fun a => Ok (f a)).

(** Operations on the scalar type [Real] of the library. *)
Class NumOps : Type := {
  num : Type;
  nadd : num -> num -> num;
  nsub : num -> num -> num;
  nmul : num -> num -> num;
  ndiv : num -> num -> num;
  nneg : num -> num;
  nabs : num -> num;                 (* std::abs *)
  nsqrt : num -> num;                (* std::sqrt *)
  nfma : num -> num -> num -> num;   (* std::fma(x,y,z) = x*y+z *)
  ncopysign : num -> num -> num;     (* std::copysign *)
  nfloor : num -> num;               (* std::floor *)
  nltb : num -> num -> bool;         (* operator<  *)
  nleb : num -> num -> bool;         (* operator<= *)
  neqb : num -> num -> bool;         (* operator== *)
  nisnan : num -> bool;              (* std::isnan *)
  nofZ : Z -> num;                   (* conversion of an integer (literal) *)
  ntrunc : num -> option Z;          (* truncation towards zero; None: NaN or infinite *)
  nnan : num;                        (* numeric_limits::quiet_NaN() *)
  ninf : num;                        (* numeric_limits::infinity() *)
  neps : num;                        (* numeric_limits::epsilon() *)
  nmin : num;                        (* numeric_limits::min(), smallest normal *)
  nmax : num;                        (* numeric_limits::max() *)
  npi : num;                         (* M_PI *)
  nsin : num -> num;
  ncos : num -> num;
  ntan : num -> num;
  nasin : num -> num;
  nacos : num -> num;
  natan2 : num -> num -> num;        (* atan2(y,x) *)
  nexp : num -> num;
  nlog : num -> num;
  ncbrt : num -> num;
  nround : num -> num                (* std::round, halfway away from zero *)
}.

Declare Scope num_scope.
Delimit Scope num_scope with num.
Infix "+" := nadd : num_scope.
Infix "-" := nsub : num_scope.
Infix "*" := nmul : num_scope.
Infix "/" := ndiv : num_scope.
Notation "- x" := (nneg x) : num_scope.
Infix "<?" := nltb : num_scope.
Infix "<=?" := nleb : num_scope.
Infix "=?" := neqb : num_scope.
Notation "x >? y" := (nltb y x) (only parsing) : num_scope.
Notation "x >=? y" := (nleb y x) (only parsing) : num_scope.
(* integer literals of the C++ source, e.g. (# 2) *)
Notation "# n" := (nofZ n%Z) (at level 5, n at level 4, format "# n") : num_scope.

(** 3-vectors, 2-vectors, 3x3 and 2x2 matrices over any scalar type: the
    instantiations of vec.hpp:17 and matrix.hpp:13 used by the library.  Storage
    order of matrices is checked separately (M_Array.v). *)
Record vec3 (T : Type) : Type := V3 { vx : T; vy : T; vz : T }.
Arguments V3 {T} _ _ _.
Arguments vx {T} _.
Arguments vy {T} _.
Arguments vz {T} _.

Record vec2 (T : Type) : Type := V2 { wx : T; wy : T }.
Arguments V2 {T} _ _.
Arguments wx {T} _.
Arguments wy {T} _.

Record mat2 (T : Type) : Type := M2 { a00 : T; a01 : T; a10 : T; a11 : T }.
Arguments M2 {T} _ _ _ _.
Arguments a00 {T} _.
Arguments a01 {T} _.
Arguments a10 {T} _.
Arguments a11 {T} _.

Record mat3 (T : Type) : Type := M3 {
  m00 : T; m01 : T; m02 : T;
  m10 : T; m11 : T; m12 : T;
  m20 : T; m21 : T; m22 : T }.
Arguments M3 {T} _ _ _ _ _ _ _ _ _.
Arguments m00 {T} _.
Arguments m01 {T} _.
Arguments m02 {T} _.
Arguments m10 {T} _.
Arguments m11 {T} _.
Arguments m12 {T} _.
Arguments m20 {T} _.
Arguments m21 {T} _.
Arguments m22 {T} _.

Definition map3 {A B} (f : A -> B) (v : vec3 A) : vec3 B := V3 (f (vx v)) (f (vy v)) (f (vz v)).
Definition map2v {A B} (f : A -> B) (v : vec2 A) : vec2 B := V2 (f (wx v)) (f (wy v)).
Definition mapm2 {A B} (f : A -> B) (m : mat2 A) : mat2 B :=
  M2 (f (a00 m)) (f (a01 m)) (f (a10 m)) (f (a11 m)).
Definition mapm3 {A B} (f : A -> B) (m : mat3 A) : mat3 B :=
  M3 (f (m00 m)) (f (m01 m)) (f (m02 m)) (f (m10 m)) (f (m11 m)) (f (m12 m))
     (f (m20 m)) (f (m21 m)) (f (m22 m)).

(** Standard-library helpers, written as libstdc++ defines them. *)
Section Std.
Context {F : NumOps}.
Local Open Scope num_scope.

(* std::min(a,b): (b < a) ? b : a *)
Definition std_min (a b : num) : num := if b <? a then b else a.
(* std::max(a,b): (a < b) ? b : a *)
Definition std_max (a b : num) : num := if a <? b then b else a.
(* std::clamp(v,lo,hi): (v < lo) ? lo : (hi < v) ? hi : v *)
Definition std_clamp (v lo hi : num) : num :=
  if v <? lo then lo else if hi <? v then hi else v.
(* C fmin/fmax: a NaN argument is ignored *)
Definition c_fmin (a b : num) : num :=
  if nisnan a then b else if nisnan b then a else if b <? a then b else a.
Definition c_fmax (a b : num) : num :=
  if nisnan a then b else if nisnan b then a else if a <? b then b else a.
(* std::max of a three-element initializer list: std::max_element keeps the first maximum *)
Definition std_max3 (a b c : num) : num := std_max (std_max a b) c.
Definition std_min3 (a b c : num) : num := std_min (std_min a b) c.

(** [std::sort] with the default comparison: some ordering of the data if no
    element is NaN; with a NaN, [operator<] is not a strict weak ordering and the
    behaviour is undefined. *)
Fixpoint insert_sorted (x : num) (l : list num) : list num :=
  match l with
  | [] => [x]
  | y :: l' => if x <? y then x :: y :: l' else y :: insert_sorted x l'
  end.
Definition sort_list (l : list num) : list num := fold_right insert_sorted [] l.
Definition std_sort (l : list num) : outcome (list num) :=
  if existsb nisnan l then Undef else Ok (sort_list l).

End Std.
