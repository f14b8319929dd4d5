(** Vocabulary of the theorems about where the fractal iterations end: Newton's map of
    z^8 + 15 z^4 - 16 on the complex numbers. *)
From Coq Require Import Reals ZArith.
From Coquelicot Require Import Complex.
Local Open Scope R_scope.
Local Open Scope C_scope.

Fixpoint cpower (z : C) (n : nat) : C := match n with O => 1 | S n => z * cpower z n end.
(** where the derivative is zero, the quotient is 0 and the map stands still *)
Definition newton_map (z : C) : C := z - (cpower z 8 + 15 * cpower z 4 - 16) / (8 * cpower z 7 + 60 * cpower z 3).
(** the point at distance r from 0 in the k-th of eight directions *)
Definition eighth (k : Z) (r : R) : C := ((r * cos (2 * PI * (IZR k / 8)))%R, (r * sin (2 * PI * (IZR k / 8)))%R).
