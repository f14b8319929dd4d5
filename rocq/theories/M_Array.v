(** Storage-level model of matrix.hpp and tensor.hpp for arbitrary dimensions.

    An array member [Real M_[n]] is a list of [n] cells; a cell is [None] while
    uninitialised.  Reading an uninitialised cell, and reading or writing outside the
    array, are undefined. *)
From Coq Require Import ZArith List Bool Arith.
From Verif Require Import Num.
Import ListNotations.

Section Array.
Context {F : NumOps}.
Local Open Scope num_scope.
Local Notation "x <- e ;; f" := (obind e (fun x => f)) (at level 61, e at next level, right associativity).

Definition array := list (option num).

Definition aget (a : array) (i : nat) : outcome num :=
  match nth_error a i with Some (Some x) => Ok x | _ => Undef end.

Fixpoint aset (a : array) (i : nat) (x : num) : outcome array :=
  match a, i with
  | [], _ => Undef
  | _ :: a', O => Ok (Some x :: a')
  | c :: a', S i' => b <- aset a' i' x ;; Ok (c :: b)
  end.

(* for (int64_t i = 0; i < n; ++i) body *)
Fixpoint for_from {S : Type} (i n : nat) (body : nat -> S -> outcome S) (s : S) : outcome S :=
  match n with
  | O => Ok s
  | Datatypes.S n' => s' <- body i s ;; for_from (Datatypes.S i) n' body s'
  end.
Definition for_ {S : Type} (n : nat) (body : nat -> S -> outcome S) (s : S) : outcome S :=
  for_from 0 n body s.

(* matrix.hpp:18-24, 63: element (i,j) lives in cell i*cols + j *)
Definition midx (cols i j : nat) : nat := (i * cols + j)%nat.
(* tensor.hpp:16-22: element (i,j,k) lives in cell i*rows*cols + j*cols + k *)
Definition tidx (rows cols i j k : nat) : nat := (i * rows * cols + j * cols + k)%nat.

(* matrix.hpp:26-32 column j *)
Definition column (rows cols : nat) (m : array) (j : nat) : outcome array :=
  for_ rows (fun i c => x <- aget m (midx cols i j) ;; aset c i x) (repeat None rows).

(* matrix.hpp:124-134 M*v *)
Definition mat_vec (rows cols : nat) (m v : array) : outcome array :=
  for_ rows (fun i w =>
    w <- aset w i (#0) ;;
    for_ cols (fun j w =>
      wi <- aget w i ;; mij <- aget m (midx cols i j) ;; vj <- aget v j ;;
      aset w i (wi + mij * vj)) w)
  (repeat None rows).

(* matrix.hpp:136-149 A*B *)
Definition mat_mat (rows cols cols2 : nat) (a b : array) : outcome array :=
  for_ rows (fun i m =>
    for_ cols2 (fun j m =>
      m <- aset m (midx cols2 i j) (#0) ;;
      for_ cols (fun k m =>
        mij <- aget m (midx cols2 i j) ;;
        aik <- aget a (midx cols i k) ;; bkj <- aget b (midx cols2 k j) ;;
        aset m (midx cols2 i j) (mij + aik * bkj)) m) m)
  (repeat None (rows * cols2)).

(* tensor.hpp:25-36 contraction T(x,y); note j runs over cols and k over rows *)
Definition contract (panels rows cols : nat) (t x y : array) : outcome array :=
  for_ panels (fun i z =>
    z <- aset z i (#0) ;;
    for_ cols (fun j z =>
      for_ rows (fun k z =>
        zi <- aget z i ;; tijk <- aget t (tidx rows cols i j k) ;;
        xj <- aget x j ;; yk <- aget y k ;;
        aset z i (zi + tijk * xj * yk)) z) z)
  (repeat None panels).
End Array.
