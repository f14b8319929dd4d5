(** The picture of the times, and the picture of the Newton fractal. *)
From Coq Require Import Reals ZArith String List Bool.
From Coquelicot Require Import Complex.
From Flocq Require Import Core BinarySingleNaN.
From Verif Require Import Num XR FL M_Vec M_Image M_Fractal Spec_Image Spec_Fractal P_FL P_Picture P_Basin P_Halley P_Disks P_Fifths P_Hue E_Picture.
Import ListNotations.
Local Open Scope R_scope.

(** ** C91 *)
(* every byte of the picture is drawn over, and every pixel has the colour of its own time, taken
   as a fraction of the way from the shortest to the longest time of the image *)
Theorem C91_drawn : forall prec emax (Hp : Prec_gt_0 prec) (Hm : Prec_lt_emax prec emax) (lm : libm (binary_float prec emax)), (8 <= prec)%Z -> (128 <= emax)%Z ->
  forall width height (time : Z -> Z -> binary_float prec emax), (0 <= width)%Z -> timed width height time -> uneven width height time ->
  forall order img, schedule width height order -> length img = Z.to_nat (4 * width * height) ->
  exists img' lo hi, cost_picture (F:=FL prec emax Hp Hm lm) width height time order img = Ok img' /\ length img' = length img /\
  extreme width height time (fun x y => xleb x y = true) lo /\ extreme width height time (fun x y => xleb y x = true) hi /\
  forall i j, (0 <= i < width)%Z -> (0 <= j < height)%Z -> exists r g b, byte r /\ byte g /\ byte b /\
    obind (inferno (F:=FL prec emax Hp Hm lm) (ndiv (NumOps:=FL prec emax Hp Hm lm) (nsub (NumOps:=FL prec emax Hp Hm lm) (time i j) lo) (nsub (NumOps:=FL prec emax Hp Hm lm) hi lo)))
      (fun c => to_8bit_rgba (F:=FL prec emax Hp Hm lm) (vec_list (F:=FL prec emax Hp Hm lm) c)) = Ok [r; g; b; 255%Z] /\
    forall k d, (0 <= k < 4)%Z -> nth (offset width height i j k) img' d = nth (Z.to_nat k) [r; g; b; 255%Z] d.
Proof. exact cost_drawn. Qed.
Print Assumptions C91_drawn.
(* neither the order in which the pixels were visited nor the picture drawn over matters *)
Theorem C91_over : forall prec emax (Hp : Prec_gt_0 prec) (Hm : Prec_lt_emax prec emax) (lm : libm (binary_float prec emax)), (8 <= prec)%Z -> (128 <= emax)%Z ->
  forall width height (time : Z -> Z -> binary_float prec emax), (0 <= width)%Z -> timed width height time -> uneven width height time ->
  forall o1 o2 m1 m2, (0 <= height)%Z -> schedule width height o1 -> schedule width height o2 ->
  length m1 = Z.to_nat (4 * width * height) -> length m2 = Z.to_nat (4 * width * height) ->
  cost_picture (F:=FL prec emax Hp Hm lm) width height time o1 m1 = cost_picture (F:=FL prec emax Hp Hm lm) width height time o2 m2.
Proof. exact cost_same. Qed.
Print Assumptions C91_over.
(* double, the type of the times: the fastest and the slowest pixels *)
Theorem C91_ends : forall lm width height (time : Z -> Z -> binary64), (0 <= width)%Z -> timed width height time -> uneven width height time ->
  forall order img, schedule width height order -> length img = Z.to_nat (4 * width * height) ->
  exists img', cost_picture (F:=F64 lm) width height time order img = Ok img' /\
  forall i j, (0 <= i < width)%Z -> (0 <= j < height)%Z ->
    ((forall a b, (0 <= a < width)%Z -> (0 <= b < height)%Z -> xleb (fval (time i j)) (fval (time a b)) = true) ->
       forall k d, (0 <= k < 4)%Z -> nth (offset width height i j k) img' d = nth (Z.to_nat k) [13; 3; 30; 255]%Z d) /\
    ((forall a b, (0 <= a < width)%Z -> (0 <= b < height)%Z -> xleb (fval (time a b)) (fval (time i j)) = true) ->
       forall k d, (0 <= k < 4)%Z -> nth (offset width height i j k) img' d = nth (Z.to_nat k) [249; 255; 204; 255]%Z d).
Proof. exact cost_slowest. Qed.
Print Assumptions C91_ends.
(* the file: another name than that of the picture of the scene *)
Theorem C91_name : forall stem ext, String.length ext = 4%nat -> (Z.of_nat (String.length (stem ++ ext)) < 2 ^ 64)%Z -> cost_filename (stem ++ ext) = (stem ++ "_cost.png")%string.
Proof. exact cost_name_stem. Qed.
Print Assumptions C91_name.
Theorem C91_other_name : forall name, (Z.of_nat (String.length name) < 2 ^ 64)%Z -> cost_filename name <> name.
Proof. exact cost_name_other. Qed.
Print Assumptions C91_other_name.
Example C91_case : forall lm, timed 2 1 two_times /\ uneven 2 1 two_times /\
  cost_picture (F:=F64 lm) 2 1 two_times (raster 2 1) (new_image 2 1) = Ok [13; 3; 30; 255; 249; 255; 204; 255]%Z.
Proof. exact two_times_case. Qed.

(** ** C92 *)
Theorem C92_g : forall (L : limits) x y, exists u v a b,
  (forall s t, fst (g (F:=XR L) (cfin s t)) = cfin (u s t) (v s t)) /\ snd (g (F:=XR L) (cfin x y)) = cfin a b /\ holomorphic u v x y a b.
Proof. exact @g_derivative. Qed.
Print Assumptions C92_g.
Theorem C92_fifth : forall (L : limits) cpow, powers cpow -> forall x y, exists u v a b,
  (forall s t, fst (fifth_roots (F:=XR L) cpow (cfin s t)) = cfin (u s t) (v s t)) /\ snd (fifth_roots (F:=XR L) cpow (cfin x y)) = cfin a b /\ holomorphic u v x y a b.
Proof. exact @fifth_derivative. Qed.
Print Assumptions C92_fifth.
Theorem C92_halley : forall (L : limits) cpow, powers cpow -> forall x y, exists u v p q a b,
  (forall s t, fst (fifth_roots_halley (F:=XR L) cpow (cfin s t)) = (cfin (u s t) (v s t), cfin (p s t) (q s t))) /\
  snd (fifth_roots_halley (F:=XR L) cpow (cfin x y)) = cfin a b /\ holomorphic u v x y (p x y) (q x y) /\ holomorphic p q x y a b.
Proof. exact @halley_derivatives. Qed.
Print Assumptions C92_halley.
Theorem C92_g_zeros : forall (L : limits) x y, fst (g (F:=XR L) (cfin x y)) = cfin 0 0 <-> In (x, y) roots.
Proof. exact @g_zeros. Qed.
Print Assumptions C92_g_zeros.
Theorem C92_fifth_zeros : forall (L : limits) cpow, powers cpow -> forall x y, fst (fifth_roots (F:=XR L) cpow (cfin x y)) = cfin 0 0 <->
  exists k, (0 <= k < 5)%Z /\ x = cos (2 * PI * IZR k / 5) /\ y = sin (2 * PI * IZR k / 5).
Proof. exact @fifth_zeros. Qed.
Print Assumptions C92_fifth_zeros.
Example C92_case : powers cpow_case /\ forall n, cpow_case (Cpx NaN NaN) n = Cpx NaN NaN.
Proof. exact powers_case. Qed.

(** ** C93 *)
(* the picture, if the iteration ends at every pixel: black disks, elsewhere the colour of the root *)
Theorem C93_drawn : forall (L : limits) k n w h, (46 <= w < 2 ^ 63)%Z -> (46 <= h < 2 ^ 63)%Z ->
  (forall i j, (0 <= i < w)%Z -> (0 <= j < h)%Z -> complex_newton (F:=XR L) (Fin k) n (g (F:=XR L)) (to_complex (F:=XR L) (@Map (XR L) w h (Fin (-2)) (Fin (-2))) i j) <> OutOfFuel) ->
  exists img, fractal (F:=XR L) (Fin k) n w h = Ok img /\ length img = Z.to_nat (4 * w * h) /\
  forall i j, (0 <= i < w)%Z -> (0 <= j < h)%Z ->
    (in_mark L w h roots i j -> forall c d, (0 <= c < 4)%Z -> nth (offset w h i j c) img d = nth (Z.to_nat c) [0; 0; 0; 255]%Z d) /\
    (~ in_mark L w h roots i j -> exists a b col, complex_newton (F:=XR L) (Fin k) n (g (F:=XR L)) (to_complex (F:=XR L) (@Map (XR L) w h (Fin (-2)) (Fin (-2))) i j) = Ok (cfin a b) /\
      obind (smooth_cool_warm (F:=XR L) (root_scalar (F:=XR L) (cfin a b))) (fun c => to_8bit_rgba (F:=XR L) (vec_list (F:=XR L) c)) = Ok col /\
      forall c d, (0 <= c < 4)%Z -> nth (offset w h i j c) img d = nth (Z.to_nat c) col d).
Proof. exact @fractal_drawn. Qed.
Print Assumptions C93_drawn.
(* otherwise there is none *)
Theorem C93_waits : forall (L : limits) k n w h i j, (2 <= w)%Z -> (2 <= h)%Z -> (0 <= i < w)%Z -> (0 <= j < h)%Z ->
  complex_newton (F:=XR L) (Fin k) n (g (F:=XR L)) (to_complex (F:=XR L) (@Map (XR L) w h (Fin (-2)) (Fin (-2))) i j) = OutOfFuel -> fractal (F:=XR L) (Fin k) n w h = OutOfFuel.
Proof. exact @fractal_hangs. Qed.
Print Assumptions C93_waits.
(* so an image with a middle pixel is never finished *)
Theorem C93_odd : forall (L : limits) k n p q, (1 <= p)%Z -> (1 <= q)%Z -> fractal (F:=XR L) (Fin k) n (2 * p + 1) (2 * q + 1) = OutOfFuel.
Proof. exact @fractal_odd. Qed.
Print Assumptions C93_odd.
Example C93_case : forall L : limits, exists k, 0 < k /\ forall i j, (0 <= i < 46)%Z -> (0 <= j < 46)%Z ->
  complex_newton (F:=XR L) (Fin k) 1 (g (F:=XR L)) (to_complex (F:=XR L) (@Map (XR L) 46 46 (Fin (-2)) (Fin (-2))) i j) <> OutOfFuel.
Proof. exact @ends_46. Qed.

(** ** C94 *)
Theorem C94_conjugate : forall (L : limits) k n x y, complex_newton (F:=XR L) (Fin k) n (g (F:=XR L)) (cfin x (- y)) =
  omap (flip_im (L:=L)) (complex_newton (F:=XR L) (Fin k) n (g (F:=XR L)) (cfin x y)).
Proof. exact @newton_conj. Qed.
Print Assumptions C94_conjugate.
Theorem C94_swap : forall (L : limits) k n x y, complex_newton (F:=XR L) (Fin k) n (g (F:=XR L)) (cfin y x) =
  omap (swap_parts (L:=L)) (complex_newton (F:=XR L) (Fin k) n (g (F:=XR L)) (cfin x y)).
Proof. exact @newton_swap. Qed.
Print Assumptions C94_swap.
(* on the pixels: upside down, and across the diagonal of a square picture *)
Theorem C94_mirror : forall (L : limits) k n w h x y i j, (2 <= w)%Z -> (2 <= h)%Z -> x < 0 -> y < 0 ->
  complex_newton (F:=XR L) (Fin k) n (g (F:=XR L)) (to_complex (F:=XR L) (@Map (XR L) w h (Fin x) (Fin y)) i (h - 1 - j)) =
  omap (flip_im (L:=L)) (complex_newton (F:=XR L) (Fin k) n (g (F:=XR L)) (to_complex (F:=XR L) (@Map (XR L) w h (Fin x) (Fin y)) i j)).
Proof. exact @pixel_mirror. Qed.
Print Assumptions C94_mirror.
Theorem C94_transpose : forall (L : limits) k n w x i j, (2 <= w)%Z ->
  complex_newton (F:=XR L) (Fin k) n (g (F:=XR L)) (to_complex (F:=XR L) (@Map (XR L) w w (Fin x) (Fin x)) j i) =
  omap (swap_parts (L:=L)) (complex_newton (F:=XR L) (Fin k) n (g (F:=XR L)) (to_complex (F:=XR L) (@Map (XR L) w w (Fin x) (Fin x)) i j)).
Proof. exact @pixel_transpose. Qed.
Print Assumptions C94_transpose.

(** ** C95 *)
(* all starting values within 1/6 of a root; missing: the values outside of these disks and of the
   half lines below *)
Theorem C95_disks_partial : forall (L : limits) cpow, powers cpow -> forall k x y, (0 <= k < 5)%Z ->
  Cmod (Cminus (x, y) (cos (2 * PI * IZR k / 5), sin (2 * PI * IZR k / 5))) <= 1 / 6 -> exists fuel a,
  complex_halley (F:=XR L) fuel (fifth_roots_halley (F:=XR L) cpow) (cfin x y) = Ok (cfin (fst a) (snd a)) /\
  Cmod (Cminus a (cos (2 * PI * IZR k / 5), sin (2 * PI * IZR k / 5))) <= Cmod (Cminus (x, y) (cos (2 * PI * IZR k / 5), sin (2 * PI * IZR k / 5))) / 2 /\
  Cmod (Cminus a (cos (2 * PI * IZR k / 5), sin (2 * PI * IZR k / 5))) <= l_eps L * Cmod a.
Proof. exact (fun L cpow H k x y => @fifth_disks L cpow H k (x, y)). Qed.
Print Assumptions C95_disks_partial.
(* the five half lines through the roots *)
Theorem C95_rays_partial : forall (L : limits) cpow, powers cpow -> forall k x, (0 <= k < 5)%Z -> 0 < x -> exists fuel r,
  complex_halley (F:=XR L) fuel (fifth_roots_halley (F:=XR L) cpow) (cfin (cos (2 * PI * IZR k / 5) * x) (sin (2 * PI * IZR k / 5) * x)) =
  Ok (cfin (cos (2 * PI * IZR k / 5) * r) (sin (2 * PI * IZR k / 5) * r)) /\ 0 < r /\ Rabs (r - 1) <= 5 / 2 * l_eps L * r.
Proof. exact @halley_rays. Qed.
Print Assumptions C95_rays_partial.
Theorem C95_origin_refuted : forall (L : limits) cpow, powers cpow -> forall fuel, (forall z, cpow (Cpx NaN NaN) z = Cpx NaN NaN) ->
  complex_halley (F:=XR L) fuel (fifth_roots_halley (F:=XR L) cpow) (cfin 0 0) = OutOfFuel.
Proof. exact @halley_origin. Qed.
Print Assumptions C95_origin_refuted.
Example C95_case : powers cpow_case /\ forall n, cpow_case (Cpx NaN NaN) n = Cpx NaN NaN.
Proof. exact powers_case. Qed.

(** ** C107 *)
Theorem C107_near : forall (L : limits) k fuel x y v, complex_newton (F:=XR L) (Fin k) fuel (g (F:=XR L)) (cfin x y) = Ok v ->
  exists a p, v = cfin (fst a) (snd a) /\ In p roots /\ Cmod (a - p)%C <= 9 * k * l_eps L * Cmod a.
Proof. exact (fun L k n x y => @returned_near L k n (x, y)). Qed.
Print Assumptions C107_near.
Example C107_case : forall L : limits, exists fuel v, complex_newton (F:=XR L) (Fin 1) fuel (g (F:=XR L)) (cfin (21 / 20) (1 / 20)) = Ok v.
Proof. exact @near_case. Qed.

(** ** C108 *)
(* one step of the iteration leaves the unit interval for a number beyond 3 / epsilon, and stops *)
Theorem C108_large_refuted : forall (L : limits) cpow, powers cpow -> l_eps L <= 1 / 100 -> exists x a, -1 < x < 0 /\
  complex_halley (F:=XR L) 1 (fifth_roots_halley (F:=XR L) cpow) (cfin x 0) = Ok (cfin a 0) /\ 3 / l_eps L <= Rabs a.
Proof. exact @halley_large. Qed.
Print Assumptions C108_large_refuted.
(* missing: the large numbers, which are returned *)
Theorem C108_near_partial : forall (L : limits) cpow, powers cpow -> forall fuel x y v, (forall m, cpow (Cpx NaN NaN) m = Cpx NaN NaN) -> l_eps L <= 1 / 10 ->
  complex_halley (F:=XR L) fuel (fifth_roots_halley (F:=XR L) cpow) (cfin x y) = Ok v -> exists a, v = cfin (fst a) (snd a) /\
  (1 <= 20 * l_eps L * Cmod a \/ exists k, (0 <= k < 5)%Z /\ Cmod (Cminus a (cos (2 * PI * IZR k / 5), sin (2 * PI * IZR k / 5))) <= 4 * l_eps L * Cmod a).
Proof. exact (fun L cpow H n x y => @halley_returned L cpow H n (x, y)). Qed.
Print Assumptions C108_near_partial.
Example C108_case : l_eps double_limits <= 1 / 100 /\ powers cpow_case /\ (forall n, cpow_case (Cpx NaN NaN) n = Cpx NaN NaN) /\
  forall L : limits, exists fuel v, complex_halley (F:=XR L) fuel (fifth_roots_halley (F:=XR L) cpow_case) (cfin (21 / 20) (1 / 20)) = Ok v.
Proof. exact halley_case. Qed.

(** ** C109 *)
(* of two numbers as near to the root 1 as wanted, one is shown in the first colour of the map and
   the other in the last *)
Theorem C109_one_refuted : forall (L : limits) k r, 0 < k -> 0 < r -> exists x y a b,
  Cmod (x - 1, y) <= r /\ Cmod (a - 1, b) <= r /\
  complex_newton (F:=XR L) (Fin k) 1 (g (F:=XR L)) (cfin x y) = Ok (cfin a b) /\
  obind (smooth_cool_warm (F:=XR L) (root_scalar (F:=XR L) (cfin a b))) (fun c => to_8bit_rgba (F:=XR L) (vec_list (F:=XR L) c)) = Ok [122; 139; 221; 255]%Z /\
  complex_newton (F:=XR L) (Fin k) 1 (g (F:=XR L)) (cfin x (- y)) = Ok (cfin a (- b)) /\
  obind (smooth_cool_warm (F:=XR L) (root_scalar (F:=XR L) (cfin a (- b)))) (fun c => to_8bit_rgba (F:=XR L) (vec_list (F:=XR L) c)) = Ok [214; 32; 98; 255]%Z.
Proof. exact @two_colours. Qed.
Print Assumptions C109_one_refuted.
(* the scalar is near to an eighth, and the root is in that direction; the direction 0 = 8 is that
   of the root 1.  Missing: one scalar for the root 1 *)
Theorem C109_scalar_partial : forall (L : limits) k fuel x y v, k * l_eps L <= 1 / 30 -> complex_newton (F:=XR L) (Fin k) fuel (g (F:=XR L)) (cfin x y) = Ok v ->
  exists a b s j r, v = cfin a b /\ root_scalar (F:=XR L) v = Fin s /\ (0 <= j <= 8)%Z /\ In (eighth j r) roots /\
  Cmod ((a, b) - eighth j r)%C <= 9 * k * l_eps L * Cmod (a, b) /\ Rabs (s - IZR j / 8) <= 3 * (k * l_eps L).
Proof. exact @returned_scalar. Qed.
Print Assumptions C109_scalar_partial.
Example C109_case : 1000 * l_eps double_limits <= 1 / 30 /\ forall L : limits, exists fuel v, complex_newton (F:=XR L) (Fin 1) fuel (g (F:=XR L)) (cfin (21 / 20) (1 / 20)) = Ok v.
Proof. exact hue_case. Qed.
