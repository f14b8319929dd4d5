(** What std::sort asks of its comparator ([alg.sorting]): a strict weak ordering of the elements. *)
From Coq Require Import ZArith.
From Flocq Require Import Core BinarySingleNaN.
From Verif Require Import Num.
Definition strict_weak {A : Type} (P : A -> Prop) (lt : A -> A -> Prop) : Prop :=
  (forall a, P a -> ~ lt a a) /\
  (forall a b c, P a -> P b -> P c -> lt a b -> lt b c -> lt a c) /\
  (forall a b c, P a -> P b -> P c -> ~ lt a b -> ~ lt b a -> ~ lt b c -> ~ lt c b -> ~ lt a c /\ ~ lt c a).
(** all coordinates are finite *)
Definition finite3 {prec emax : Z} (v : vec3 (binary_float prec emax)) : Prop := is_finite (vx v) = true /\ is_finite (vy v) = true /\ is_finite (vz v) = true.
