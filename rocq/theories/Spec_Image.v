(** Vocabulary of the theorems about images, colour maps and the fractal. *)
From Coq Require Import Reals ZArith List Bool Ascii.
From Flocq Require Import Core BinarySingleNaN.
From Verif Require Import Num XR FL M_Tables M_Image M_Fractal P_FL P_Round.
Import ListNotations.
Local Open Scope R_scope.

(** a table of the source as a function on 0..255 *)
Definition entry (t : list (Z * Z)) (k : nat) : R := let mk := nth k t (0%Z, 0%Z) in IZR (fst mk) / IZR (2 ^ snd mk).

(** the maps of color_maps.hpp: their tables of red, green and blue *)
Definition maps : list (list (Z * Z) * list (Z * Z) * list (Z * Z)) :=
  [(plasma_r, plasma_g, plasma_b); (viridis_r, viridis_g, viridis_b); (inferno_r, inferno_g, inferno_b);
   (blackbody_r, blackbody_g, blackbody_b); (kindlmann_r, kindlmann_g, kindlmann_b);
   (extended_kindlmann_r, extended_kindlmann_g, extended_kindlmann_b); (smooth_cool_warm_r, smooth_cool_warm_g, smooth_cool_warm_b)].

(** the nearest point of the unit interval *)
Definition unitR (x : R) : R := Rmax 0 (Rmin 1 x).

Definition byte (z : Z) : Prop := (0 <= z <= 255)%Z.

(** a bar with [k] of its 100 cells filled *)
Definition bar (k : nat) : list ascii :=
  repeat "="%char k ++ (if Nat.eqb k 100 then [] else ">"%char :: repeat " "%char (99 - k)).

(** the pixels of an image, each once, in some order *)
Definition schedule (width height : Z) (order : list (Z * Z)) : Prop :=
  NoDup order /\ forall i j, In (i, j) order <-> (0 <= i < width /\ 0 <= j < height)%Z.
(** the byte stores of an image, each once, in some order: channel c of pixel (i, j) *)
Definition store_schedule (width height : Z) (order : list (Z * Z * Z)) : Prop :=
  NoDup order /\ forall i j c, In (i, j, c) order <-> (0 <= i < width /\ 0 <= j < height /\ 0 <= c < 4)%Z.
(** the place of channel c of pixel (i, j): rows from top to bottom, row j = 0 being the lowest *)
Definition offset (width height i j c : Z) : nat := Z.to_nat (4 * (width * (height - 1 - j) + i) + c).
(** a sequence of byte stores *)
Fixpoint stores (l : list (Z * Z)) (img : image) : outcome image :=
  match l with [] => Ok img | (idx, v) :: l => obind (store img idx v) (stores l) end.
(** the stores of the image whose pixel (i, j) has the colour [col i j], in the given order *)
Definition pixel_stores (width height : Z) (col : Z -> Z -> Z -> Z) (order : list (Z * Z * Z)) : list (Z * Z) :=
  map (fun '(i, j, c) => ((pixel_index width height i j + c)%Z, col i j c)) order.

(** a float that is at least 0: not negative, not NaN, possibly infinite *)
Definition nonneg {prec emax : Z} (x : binary_float prec emax) : Prop := xleb (Fin 0) (fval x) = true.
(** pixel times: finite and not negative; not all equal *)
Definition all_times {prec emax : Z} (l : list (binary_float prec emax)) : Prop := forall t, In t l -> exists r, fval t = Fin r /\ 0 <= r.
Definition varied {prec emax : Z} (l : list (binary_float prec emax)) : Prop := exists t u, In t l /\ In u l /\ fval t <> fval u.

(** the times of the pixels of an image: finite and not negative; not all equal; an extreme one *)
Definition timed {prec emax : Z} (width height : Z) (time : Z -> Z -> binary_float prec emax) : Prop :=
  forall i j, (0 <= i < width)%Z -> (0 <= j < height)%Z -> exists r, fval (time i j) = Fin r /\ 0 <= r.
Definition uneven {prec emax : Z} (width height : Z) (time : Z -> Z -> binary_float prec emax) : Prop :=
  exists i j i' j', (0 <= i < width)%Z /\ (0 <= j < height)%Z /\ (0 <= i' < width)%Z /\ (0 <= j' < height)%Z /\ fval (time i j) <> fval (time i' j').
Definition extreme {prec emax : Z} (width height : Z) (time : Z -> Z -> binary_float prec emax) (le : xr -> xr -> Prop) (t : binary_float prec emax) : Prop :=
  (exists i j, (0 <= i < width)%Z /\ (0 <= j < height)%Z /\ fval t = fval (time i j)) /\
  forall i j, (0 <= i < width)%Z -> (0 <= j < height)%Z -> le (fval t) (fval (time i j)).

(** the complex number a + bi, and the units 1, i, -1, -i *)
Definition cfin (a b : R) : cpx xr := Cpx (Fin a) (Fin b).
Inductive unit4 : R -> R -> Prop := U1 : unit4 1 0 | U2 : unit4 0 1 | U3 : unit4 (-1) 0 | U4 : unit4 0 (-1).
(** the roots of g: its real and imaginary parts *)
Definition roots : list (R * R) :=
  [(-1, 0); (1, 0); (0, 1); (0, -1); (sqrt 2, sqrt 2); (sqrt 2, - sqrt 2); (- sqrt 2, - sqrt 2); (- sqrt 2, sqrt 2)].
(** the function u + iv of x + iy has the complex derivative a + bi: the four partial derivatives *)
Definition holomorphic (u v : R -> R -> R) (x y a b : R) : Prop :=
  derivable_pt_lim (fun s => u s y) x a /\ derivable_pt_lim (fun s => v s y) x b /\
  derivable_pt_lim (fun t => u x t) y (- b) /\ derivable_pt_lim (fun t => v x t) y a.
(** powers of x + iy as repeated products, and a function that computes them *)
Fixpoint powC (n : nat) (x y : R) : R * R :=
  match n with O => (1, 0) | S n => let p := powC n x y in (x * fst p - y * snd p, x * snd p + y * fst p) end.
Definition powers (cpow : cpx xr -> Z -> cpx xr) : Prop :=
  forall n x y, cpow (cfin x y) (Z.of_nat n) = cfin (fst (powC n x y)) (snd (powC n x y)).
(** a + bi turned into a - bi, and into b + ai *)
Definition flip_im {L : limits} (z : cpx xr) : cpx xr := Cpx (re z) (xneg (im z)).
Definition swap_parts {L : limits} (z : cpx xr) : cpx xr := Cpx (im z) (re z).
(** the pixel (i, j) belongs to the disk of radius 7 around the pixel of one of the points [l]; the
    rightmost column and the uppermost row of each disk are left out *)
Definition in_mark (L : limits) (w h : Z) (l : list (R * R)) (i j : Z) : Prop := exists a b ic jc, In (a, b) l /\
  to_pixel (F:=XR L) (@Map (XR L) w h (Fin (-2)) (Fin (-2))) (cfin a b) = Ok (ic, jc) /\
  (ic - 7 <= i < ic + 7 /\ jc - 7 <= j < jc + 7 /\ (i - ic) * (i - ic) + (j - jc) * (j - jc) <= 7 * 7)%Z.
(** long double of x86: 64 bits of precision *)
Notation binary80 := (binary_float 64 16384).
Definition Hprec64 : Prec_gt_0 64 := eq_refl.
Definition Hmax16384 : Prec_lt_emax 64 16384 := eq_refl.
Definition F80 (lm : libm binary80) : NumOps := FL 64 16384 Hprec64 Hmax16384 lm.
