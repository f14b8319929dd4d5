(** Vocabulary of the theorems about the colours in the pictures of the example programs. *)
From Coq Require Import Reals ZArith List.
From Flocq Require Import Core.
From Verif Require Import Num XR Spec Spec_Image M_Vec M_Image.
Import ListNotations.
Local Open Scope R_scope.

(** a draw of the generator: a multiple of 2^-32 in [0, 1) *)
Definition tick (x : R) : Prop := exists n, (0 <= n < 2 ^ 32)%Z /\ x = IZR n / IZR (2 ^ 32).
(** the sum of n colours, each of them in P *)
Inductive total (P : vec3 R -> Prop) : nat -> vec3 R -> Prop :=
| Total_none : total P 0 (V3 0 0 0)
| Total_more : forall n c d, total P n c -> P d -> total P (S n) (addR c d).
(** the byte for an intensity: gamma 2, cut off at 1 *)
Definition shade (a : R) : Z := Zfloor (255 * sqrt (Rmin a 1)).
(** the four bytes of a pixel are those of the mean of n colours in P, and 255 *)
Definition pixel_of (width height : Z) (img : image) (i j : Z) (P : vec3 R -> Prop) (n : nat) : Prop :=
  exists c, total P n c /\ forall k d, (0 <= k < 4)%Z ->
    nth (offset width height i j k) img d = nth (Z.to_nat k) (map shade [vx c / INR n; vy c / INR n; vz c / INR n] ++ [255%Z]) d.
