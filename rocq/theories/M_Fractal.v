(** Model of src/newton_fractal.cpp: the polynomials, the two iterations, plane_pixel_map and
    the program.

    std::pow of a complex number is the parameter [cpow] of the two functions that call it
    (the program calls neither).  Complex products and quotients are the plain formulas: the Makefile sets
    -ffast-math, which includes -fcx-limited-range. *)
From Coq Require Import ZArith List Bool.
From Verif Require Import Num M_Image.
Import ListNotations.

Record cpx (T : Type) : Type := Cpx { re : T; im : T }.
Arguments Cpx {T} _ _.
Arguments re {T} _.
Arguments im {T} _.

Section Fractal.
Context {F : NumOps}.
Local Open Scope num_scope.
Notation C := (cpx num).

(** std::complex *)
Definition c_mul (a b : C) : C := Cpx (re a * re b - im a * im b) (re a * im b + im a * re b).
Definition c_div (a b : C) : C :=
  let d := re b * re b + im b * im b in
  Cpx ((re a * re b + im a * im b) / d) ((im a * re b - re a * im b) / d).
Definition c_sub (a b : C) : C := Cpx (re a - re b) (im a - im b).
Definition c_scale (t : num) (a : C) : C := Cpx (t * re a) (t * im a).   (* Real * complex *)
Definition c_add_real (a : C) (t : num) : C := Cpx (re a + t) (im a).    (* complex + Real *)
Definition c_sub_real (a : C) (t : num) : C := Cpx (re a - t) (im a).    (* complex - Real *)
Definition c_abs (a : C) : num := nsqrt (re a * re a + im a * im a).     (* hypot *)

(* newton_fractal.cpp:19-26 g *)
Definition g (z : C) : C * C :=
  let z2 := c_mul z z in
  let z3 := c_mul z z2 in
  let z4 := c_mul z2 z2 in
  let w := c_sub_real (c_mul z4 (c_add_real z4 (#15))) (#16) in
  let dw := c_mul (c_scale (#4) z3) (c_add_real (c_scale (#2) z4) (#15)) in
  (w, dw).

(* newton_fractal.cpp:38-47 complex_newton; the literal 1.4 is the parameter [k14] *)
Fixpoint complex_newton (k14 : num) (fuel : nat) (f : C -> C * C) (z : C) : outcome C :=
  match fuel with
  | O => OutOfFuel
  | S fuel =>
      let '(y, dy) := f z in
      let z := c_sub z (c_div y dy) in
      if c_abs y <=? k14 * neps * c_abs (c_mul z dy) then Ok z else complex_newton k14 fuel f z
  end.

(* newton_fractal.cpp:10-16 fifth_roots *)
Definition fifth_roots (cpow : C -> Z -> C) (z : C) : C * C :=
  let v := cpow z 4%Z in
  let dw := c_scale (#5) v in
  let w := c_sub_real (c_mul v z) (#1) in
  (w, dw).
(* newton_fractal.cpp:28-35 fifth_roots_halley *)
Definition fifth_roots_halley (cpow : C -> Z -> C) (z : C) : C * C * C :=
  let zcb := cpow z 3%Z in
  let dw := c_mul (c_scale (#5) zcb) z in
  let w := c_sub_real (c_mul (c_mul zcb z) z) (#1) in
  let ddw := c_scale (#20) zcb in
  (w, dw, ddw).
(* newton_fractal.cpp:49-59 complex_halley *)
Fixpoint complex_halley (fuel : nat) (f : C -> C * C * C) (z : C) : outcome C :=
  match fuel with
  | O => OutOfFuel
  | S fuel =>
      let '(y, dy, ddy) := f z in
      let z := c_sub z (c_div (c_mul (c_scale (#2) y) dy) (c_sub (c_mul (c_scale (#2) dy) dy) (c_mul y ddy))) in
      if c_abs y <=? neps * c_abs (c_mul z dy) / #2 then Ok z else complex_halley fuel f z
  end.

(** plane_pixel_map, newton_fractal.cpp:62-93; [abs] is taken as the absolute value of Real *)
Record plane_pixel_map : Type := Map { pm_width : Z; pm_height : Z; pm_xmin : num; pm_ymin : num }.
(* newton_fractal.cpp:73-77 to_complex *)
Definition to_complex (m : plane_pixel_map) (i j : Z) : C :=
  Cpx (pm_xmin m + #2 * nabs (pm_xmin m) * nofZ i / nofZ (pm_width m - 1))
      (pm_ymin m + #2 * nabs (pm_ymin m) * nofZ j / nofZ (pm_height m - 1)).
(* newton_fractal.cpp:79-87 to_pixel *)
Definition to_pixel (m : plane_pixel_map) (z : C) : outcome (Z * Z) :=
  let ii := nofZ (pm_width m - 1) * (re z - pm_xmin m) / (#2 * nabs (pm_xmin m)) in
  let jj := nofZ (pm_height m - 1) * (im z - pm_ymin m) / (#2 * nabs (pm_ymin m)) in
  obind (to_int64 (nround ii)) (fun i => obind (to_int64 (nround jj)) (fun j => Ok (i, j))).

(* newton_fractal.cpp:108-113 the scalar passed to the colour map for the root rt *)
Definition root_scalar (rt : C) : num :=
  let theta := natan2 (im rt) (re rt) in
  let theta := if theta <? #0 then theta + #2 * npi else theta in
  theta / (#2 * npi).
(* newton_fractal.cpp:139-143 the pixels of the disk drawn around (ic, jc) *)
Definition disk_pixels (r ic jc : Z) : list (Z * Z) :=
  filter (fun '(i, j) => negb (r * r <? (i - ic) * (i - ic) + (j - jc) * (j - jc))%Z)
    (flat_map (fun i => map (fun j => ((ic - r + i)%Z, (jc - r + j)%Z)) (upto (2 * r))) (upto (2 * r))).

(* newton_fractal.cpp:104-117 the bytes of the pixel (i, j); the program prints a message where
   the scalar is not a number *)
Definition fractal_color (k14 : num) (fuel : nat) (m : plane_pixel_map) (i j : Z) : outcome (list Z) :=
  obind (complex_newton k14 fuel g (to_complex m i j)) (fun rt =>
  obind (smooth_cool_warm (root_scalar rt)) (fun c => to_8bit_rgba (vec_list c))).
(* newton_fractal.cpp:101-124 the loop over the pixels *)
Fixpoint fractal_loop (k14 : num) (fuel : nat) (m : plane_pixel_map) (order : list (Z * Z)) (img : image) : outcome image :=
  match order with
  | [] => Ok img
  | (i, j) :: order =>
      obind (fractal_color k14 fuel m i j) (fun c =>
      obind (write_pixel (pm_width m) (pm_height m) i j c img) (fractal_loop k14 fuel m order))
  end.
(* newton_fractal.cpp:126-134 *)
Definition marked_roots : list C :=
  let s := nsqrt (#2) in
  [Cpx (- #1) (#0); Cpx (#1) (#0); Cpx (#0) (#1); Cpx (#0) (- #1); Cpx s s; Cpx s (- s); Cpx (- s) (- s); Cpx (- s) s].
(* newton_fractal.cpp:139-150 one disk *)
Fixpoint blacken (width height : Z) (l : list (Z * Z)) (img : image) : outcome image :=
  match l with
  | [] => Ok img
  | (i, j) :: l => obind (write_pixel width height i j [0; 0; 0; 255]%Z img) (blacken width height l)
  end.
(* newton_fractal.cpp:135-151 the disks *)
Fixpoint mark (m : plane_pixel_map) (l : list C) (img : image) : outcome image :=
  match l with
  | [] => Ok img
  | z :: l => obind (to_pixel m z) (fun '(ic, jc) =>
              obind (blacken (pm_width m) (pm_height m) (disk_pixels 7 ic jc) img) (mark m l))
  end.
(* newton_fractal.cpp:96-151 main up to write_png, whose width and height are 4096 *)
Definition fractal (k14 : num) (fuel : nat) (width height : Z) : outcome image :=
  let m := Map width height (- #2) (- #2) in
  obind (fractal_loop k14 fuel m (raster width height) (new_image width height)) (mark m marked_roots).
End Fractal.
