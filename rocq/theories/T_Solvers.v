(** Properties C12-C18, C90: the iterative solvers. *)
From Coq Require Import Reals ZArith List Bool.
From Verif Require Import Num XR FL Spec Spec_Iter M_Vec M_Matrix M_Rng M_Iter
  P_Bisect P_Newton P_NewtonND P_Stale P_Ko P_Bounded3 E_Solvers Spec_Solver E_Bounded.
Import ListNotations.
Local Open Scope R_scope.

(** ** C12 *)
(* Full statement: a non-NaN pair (lo,hi) lies in the window and brackets a sign change. *)
Theorem C12_bracket_refuted : forall L : limits, exists (f : xr -> xr) (g : R -> R) (a b lo up : R),
  computes f g /\ continuity g /\ a < b /\
  (exists n, forall fuel, (n <= fuel)%nat -> bisect (F:=XR L) fuel f (Fin a) (Fin b) = Ok (Fin lo, Fin up)) /\
  forall t, lo <= t <= up -> 0 < g t.
Proof. exact @bisect_no_bracket. Qed.
Print Assumptions C12_bracket_refuted.
Theorem C12_window_refuted : forall L : limits, exists (f : xr -> xr) (g : R -> R) (a b : R),
  computes f g /\ continuity g /\ a < b /\
  exists n, forall fuel, (n <= fuel)%nat -> exists lo up,
    bisect (F:=XR L) fuel f (Fin a) (Fin b) = Ok (Fin lo, Fin up) /\ b < up.
Proof. exact @bisect_outside. Qed.
Print Assumptions C12_window_refuted.
(* What holds: the answer is a zero at the left end, or NaN when no cell of the scan shows a
   sign change, or it comes from the first cell with a sign change: a zero found in the right
   half of that cell, or the last 2^-40th of it.  Missing: a bracket inside the window. *)
Theorem C12_bisect_cell_partial : forall (L : limits) (f : xr -> xr) (g : R -> R), computes f g ->
  forall (fuel : nat) (a : R) (hi lo up : xr), right_end hi ->
  bisect (F:=XR L) fuel f (Fin a) hi = Ok (lo, up) ->
  let d := cell_width (l_eps L) a hi in
  (g a = 0 /\ lo = Fin a /\ up = Fin a) \/
  (g a <> 0 /\ lo = NaN /\ up = NaN /\
   exists n, ~ below (a + INR n * d) hi /\
     forall j, (j < n)%nat -> below (a + INR j * d) hi /\ 0 < g (a + INR j * d) * g (a + INR (S j) * d)) \/
  (g a <> 0 /\ exists k, let x := a + INR k * d in
     below x hi /\ g x * g (x + d) <= 0 /\
     (forall j, (j < k)%nat -> 0 < g (a + INR j * d) * g (a + INR (S j) * d)) /\
     ((exists z, lo = Fin z /\ up = Fin z /\ g z = 0 /\ x + d / 2 <= z < x + d) \/
      (lo = Fin (x + d - d / 2 ^ 40) /\ up = Fin (x + d)))).
Proof. exact @bisect_spec. Qed.
Print Assumptions C12_bisect_cell_partial.
Example C12_case : forall L : limits, exists n, forall fuel, (n <= fuel)%nat ->
  bisect (F:=XR L) fuel (lift1 (fun x => x - 1 / 4)) (Fin 0) (Fin 8) = Ok (Fin (1 - / 2 ^ 40), Fin 1).
Proof. exact (fun L => bisect_left_root L _ (lift1_computes _)). Qed.

(** ** C13 *)
(* Full statement: bisect terminates for every function and every window. *)
Theorem C13_infinite_window_refuted : forall (L : limits) (fuel : nat) (a : R),
  bisect (F:=XR L) fuel (fun _ => Fin 1) (Fin a) PInf = OutOfFuel.
Proof. exact @bisect_unbounded_forever. Qed.
Print Assumptions C13_infinite_window_refuted.
(* in double precision a finite window is enough: [0, 2^60], f = 1 *)
Theorem C13_double_refuted : forall (lm : libm binary64) (fuel : nat),
  bisect (F:=F64 lm) fuel (fun _ => d64 1 0) (d64 0 0) (d64 1 60) = OutOfFuel.
Proof. exact @bisect_stuck. Qed.
Print Assumptions C13_double_refuted.
(* in exact arithmetic it terminates on every finite window; missing: rounding *)
Theorem C13_finite_window_partial : forall (L : limits) (f : xr -> xr) (g : R -> R), computes f g ->
  forall a b : R, exists n, forall fuel, (n <= fuel)%nat ->
  exists p, bisect (F:=XR L) fuel f (Fin a) (Fin b) = Ok p.
Proof. exact @bisect_terminates. Qed.
Print Assumptions C13_finite_window_partial.

(** ** C14 *)
Theorem C14_newton : forall (L : limits) (f : xr -> xr * xr) (g d : R -> R) (a b : R), computes2 f g d -> a <= b ->
  exists n, forall fuel, (n <= fuel)%nat ->
  exists r k, newton (F:=XR L) fuel f (Fin a) (Fin b) = Ok (r, k) /\ (k <= 35)%nat /\
    (r = NaN \/
     (exists t, r = Fin t /\ a <= t <= b /\ accepted (l_eps L) g d t) \/
     (exists lo up, bisect (F:=XR L) fuel (fun x => fst (f x)) (Fin a) (Fin b) = Ok (Fin lo, Fin up) /\
                    r = Fin ((lo + up) / 2))).
Proof. exact @newton_main. Qed.
Print Assumptions C14_newton.
Example C14_case : forall (L : limits) (fuel : nat),
  newton (F:=XR L) fuel (lift2 (fun x => x - 1 / 4) (fun _ => 1)) (Fin 0) (Fin 8) = Ok (Fin (1 / 4), 3%nat).
Proof. exact @newton_line. Qed.

(** ** C15 *)
(* Full statement: at a critical point without a real solution of the quadratic model halley
   continues from the bisection result.  It throws that result away and answers NaN. *)
Theorem C15_critical_point_refuted : forall L : limits, exists (f : xr -> xr * xr * xr) (g d d2 : R -> R) (a b : R),
  computes3 f g d d2 /\ (forall x, derivable_pt_lim g x (d x) /\ derivable_pt_lim d x (d2 x)) /\ a < b /\
  exists n, forall fuel, (n <= fuel)%nat ->
    (exists lo up, bisect (F:=XR L) fuel (fun x => fst (fst (f x))) (Fin a) (Fin b) = Ok (Fin lo, Fin up)) /\
    halley (F:=XR L) fuel f (Fin a) (Fin b) = Ok (NaN, 3%nat).
Proof. exact @halley_discards. Qed.
Print Assumptions C15_critical_point_refuted.
(* the same for every function with such a critical point at the left end *)
Theorem C15_always_nan : forall (L : limits) (f : xr -> xr * xr * xr) (g d d2 : R -> R) (a b : R),
  computes3 f g d d2 -> f NaN = (NaN, NaN, NaN) ->
  g a <> 0 -> d a = 0 -> d2 a = 0 \/ 0 < g a * d2 a ->
  exists n, forall fuel, (n <= fuel)%nat ->
  halley (F:=XR L) fuel f (Fin a) (Fin b) = Ok (NaN, 3%nat).
Proof. exact @halley_critical_nan. Qed.
Print Assumptions C15_always_nan.
(* Without critical points halley behaves as newton does; missing: critical points. *)
Theorem C15_halley_regular_partial : forall (L : limits) (f : xr -> xr * xr * xr) (g d d2 : R -> R) (a b : R),
  computes3 f g d d2 -> f NaN = (NaN, NaN, NaN) -> (forall x, d x <> 0) -> a <= b ->
  exists n, forall fuel, (n <= fuel)%nat ->
  exists r k, halley (F:=XR L) fuel f (Fin a) (Fin b) = Ok (r, k) /\ (k <= 35)%nat /\
    (r = NaN \/
     (exists t, r = Fin t /\ a <= t <= b /\ accepted (l_eps L) g d t) \/
     (exists lo up, bisect (F:=XR L) fuel (fun x => fst (fst (f x))) (Fin a) (Fin b) = Ok (Fin lo, Fin up) /\
                    r = Fin ((lo + up) / 2))).
Proof. exact @halley_main. Qed.
Print Assumptions C15_halley_regular_partial.
Example C15_case :
  let f := lift3 (fun x => x - 1 / 4) (fun _ => 1) (fun _ => 0) in
  computes3 f (fun x => x - 1 / 4) (fun _ => 1) (fun _ => 0) /\ f NaN = (NaN, NaN, NaN) /\
  (forall x : R, (fun _ : R => 1) x <> 0).
Proof. exact halley_line_hyps. Qed.

(** ** C16 *)
(* Full statement: a result that is not all-NaN has a small residual.  False: after a random
   restart the residual is compared with the tolerance of the previous iterate. *)
Theorem C16_residual_refuted : forall L : limits, l_eps L <= 1 ->
  exists f V J (bound : bounds (F:=XR L)) guess r g c, computes_system f V J /\
    Forall proper_ends (b_ends bound) /\
    newton_nd (F:=XR L) f bound guess 16 = Ok (map Fin r, g, c) /\
    ~ small_residual (l_eps L) (V r) (J r) r.
Proof. exact @newton_accepts_stale. Qed.
Print Assumptions C16_residual_refuted.
(* What holds: the residual is small, or the result is a point drawn by bound.random(). *)
Theorem C16_newton_nd_partial : forall (L : limits) f V J (bound : bounds (F:=XR L)) guess n r g c,
  computes_system f V J ->
  newton_nd (F:=XR L) f bound guess n = Ok (map Fin r, g, c) -> r <> [] ->
  small_residual (l_eps L) (V r) (J r) r \/
  exists k, map Fin r = fst (random_point (F:=XR L) (b_ends bound)
                          (Nat.iter (k * length (b_ends bound)) pcg_next (b_rng bound))).
Proof. exact @newton_nd_spec. Qed.
Print Assumptions C16_newton_nd_partial.
(* without bounds nothing is missing *)
Theorem C16_newton_nd_unbounded : forall (L : limits) f V J d rng guess n r g c, computes_system f V J ->
  newton_nd (F:=XR L) f (Bounds (F:=XR L) (repeat (MInf, PInf) d) rng) guess n = Ok (map Fin r, g, c) -> r <> [] ->
  small_residual (l_eps L) (V r) (J r) r.
Proof. exact @newton_nd_unbounded. Qed.
Print Assumptions C16_newton_nd_unbounded.
Example C16_case : forall L : limits, exists g c,
  newton_nd (F:=XR L) (lift_system half_V half_J) (Bounds (F:=XR L) (repeat (MInf, PInf) 2) pcg_seed) quarter 16
  = Ok (map Fin half, g, c).
Proof. exact @newton_nd_run. Qed.

(** ** C17 *)
(* the function is NaN away from real vectors; the generator state counts the randomisations *)
Theorem C17_halley_nd : forall (L : limits) f V J (bound : bounds (F:=XR L)) guess n r g c, computes_system2 f V J ->
  (forall x, (forall y, x <> map Fin y) -> fst (fst (f x)) <> [] /\ all_nan (fst (fst (f x)))) ->
  Forall proper_ends (b_ends bound) ->
  halley_nd (F:=XR L) f bound guess n = Ok (r, g, c) ->
  (exists k, (k <= 5)%nat /\ g = Nat.iter (k * length (b_ends bound)) pcg_next (b_rng bound)) /\
  (Z.of_nat (length c) <= 1 + Z.max 1 n)%Z /\
  (all_nan r \/ exists x, r = map Fin x /\
     (length x = length (b_ends bound) -> within (b_ends bound) x) /\ small_residual (l_eps L) (V x) (J x) x).
Proof. exact @halley_nd_full. Qed.
Print Assumptions C17_halley_nd.
(* the same without an assumption on f away from the real vectors *)
Theorem C17_halley_nd_real : forall (L : limits) f V J (bound : bounds (F:=XR L)) guess n r g c, computes_system2 f V J ->
  halley_nd (F:=XR L) f bound guess n = Ok (r, g, c) ->
  (exists k, (k <= 5)%nat /\ g = Nat.iter (k * length (b_ends bound)) pcg_next (b_rng bound)) /\
  (Z.of_nat (length c) <= 1 + Z.max 1 n)%Z /\
  (all_nan r \/
   forall x, r = map Fin x -> length x = length (b_ends bound) -> Forall proper_ends (b_ends bound) ->
     within (b_ends bound) x /\ small_residual (l_eps L) (V x) (J x) x).
Proof. exact @halley_nd_spec. Qed.
Print Assumptions C17_halley_nd_real.
Example C17_case : forall L : limits, exists g c,
  halley_nd (F:=XR L) (lift_system2 half_V half_J zeroH) (box01 L) quarter 16 = Ok (map Fin half, g, c).
Proof. exact @halley_nd_run. Qed.
Example C17_case_nan : forall V J H x, (forall y, x <> map Fin y) ->
  fst (fst (lift_system2 V J H x)) <> [] /\ all_nan (fst (fst (lift_system2 V J H x))).
Proof. exact lift_system2_nan. Qed.

(** ** C18 *)
(* [ko_solution]: t is real and in the third bound, the surface point at (u,v) is real, and
   its distance from the ray's point at t is below 2 eps / |d|. *)
Theorem C18_ko_method : forall (L : limits) (h : @surface (XR L)) (o d : vec3 R), d <> zeroR ->
  forall b0 b1 b2 : xr * xr, proper_ends b2 -> l_min L < l_eps L * l_eps L ->
  forall rng u0 v0, exists a k,
  ko_method (F:=XR L) h (Ray (fin3 o) (fin3 d)) b0 b1 b2 rng u0 v0 = Ok (a, k) /\ (k <= 50)%nat /\
  (a = vnans (F:=XR L) \/ exists u v t, a = V3 u v t /\ ko_solution (l_eps L) (fun u v => fst (fst (h u v))) o d b2 u v t).
Proof. exact @ko_method_spec. Qed.
Print Assumptions C18_ko_method.
Example C18_case : forall (L : limits) rng,
  ko_method (F:=XR L) (plane_surface L) (Ray (fin3 (V3 0 0 0)) (fin3 (V3 0 0 1)))
    (Fin (-1), Fin 1) (Fin (-1), Fin 1) (Fin 0, PInf) rng NaN NaN = Ok (V3 (Fin 0) (Fin 0) (Fin 1), 1%nat).
Proof. exact @ko_plane. Qed.

(** ** C90 *)
(* Full statement: a real result lies in the box, in every dimension and for every box.
   False: a start outside the box that solves the system is returned, and a Jacobian entry
   of size eps^2 or less, which solve ignores, can send the line search out of the box. *)
Theorem C90_outside_refuted : forall (L : limits) rng n, exists f V J,
  computes_system f V J /\ plane_jacobian V J /\ (forall x, exists p s, J x = [[p; 0]; [0; s]]) /\
  exists x0 x1 g c,
    newton_nd (F:=XR L) f (Bounds (F:=XR L) [(Fin 0, Fin 1); (Fin 0, Fin 1)] rng) [Fin (-5); Fin (-5)] n = Ok ([Fin x0; Fin x1], g, c) /\
    ~ 0 <= x0 <= 1 /\ ~ 0 <= x1 <= 1.
Proof. exact @newton_far. Qed.
Print Assumptions C90_outside_refuted.
Theorem C90_step_refuted : forall (L : limits) rng n, exists f V J B s0 s1,
  computes_system f V J /\ plane_jacobian V J /\ 0 <= B /\ - B <= s0 <= B /\ -2 <= s1 <= 2 /\
  exists x0 x1 g c,
    newton_nd (F:=XR L) f (Bounds (F:=XR L) [(Fin (- B), Fin B); (Fin (-2), Fin 2)] rng) [Fin s0; Fin s1] n = Ok ([Fin x0; Fin x1], g, c) /\
    ~ - B <= x0 <= B /\ ~ -2 <= x1 <= 2.
Proof. exact @newton_wild. Qed.
Print Assumptions C90_step_refuted.
(* What holds in the plane: no other Jacobian leads out of the smallest box that contains the
   box and the start. *)
Theorem C90_plane_partial : forall (L : limits) (f : system (F:=XR L)) V J lo0 hi0 lo1 hi1 rng s0 s1 n r g c,
  (forall x y, f [Fin x; Fin y] = (map Fin (V [x; y]), map (map Fin) (J [x; y]))) -> (forall w, exists x y p q r s, f w = ([x; y], [[p; q]; [r; s]])) ->
  (forall a b, a = NaN \/ b = NaN -> all_nan (fst (f [a; b]))) -> lo0 <= hi0 -> lo1 <= hi1 ->
  (forall x0 x1, Rmin lo0 s0 <= x0 <= Rmax hi0 s0 -> Rmin lo1 s1 <= x1 <= Rmax hi1 s1 ->
     forall p q r s, J [x0; x1] = [[p; q]; [r; s]] -> r = 0 \/ l_eps L * l_eps L < Rabs r) ->
  newton_nd (F:=XR L) f (Bounds (F:=XR L) [(Fin lo0, Fin hi0); (Fin lo1, Fin hi1)] rng) [Fin s0; Fin s1] n = Ok (r, g, c) ->
  all_nan r \/ exists x0 x1, r = [Fin x0; Fin x1] /\ Rmin lo0 s0 <= x0 <= Rmax hi0 s0 /\ Rmin lo1 s1 <= x1 <= Rmax hi1 s1.
Proof. exact @newton_box. Qed.
Print Assumptions C90_plane_partial.
Example C90_case : forall (L : limits) rng n,
  computes_system near_f (plane_V (fun x _ => x - 1 / 2) (fun _ y => y - 1 / 2)) far_J /\
  (forall w, exists x y p q r s, near_f w = ([x; y], [[p; q]; [r; s]])) /\
  (forall a b, a = NaN \/ b = NaN -> all_nan (fst (near_f [a; b]))) /\
  (forall x0 x1 p q r s, far_J [x0; x1] = [[p; q]; [r; s]] -> r = 0) /\ exists g c,
  newton_nd (F:=XR L) near_f (Bounds (F:=XR L) [(Fin 0, Fin 1); (Fin 0, Fin 1)] rng) [Fin (1 / 4); Fin (3 / 4)] n = Ok ([Fin (1 / 2); Fin (1 / 2)], g, c).
Proof. exact @newton_box_case. Qed.
(* What holds in space, the only other size that solve handles: where solve can eliminate, the
   call ends, and in the smallest box that contains the box and the start. *)
Theorem C90_space_partial : forall (L : limits) (f : system (F:=XR L)) V J lo0 hi0 lo1 hi1 lo2 hi2 rng s0 s1 s2 n,
  (forall x y z, f [Fin x; Fin y; Fin z] = (map Fin (coords (V x y z)), map (map Fin) (matrix_rows (J x y z)))) ->
  lo0 <= hi0 -> lo1 <= hi1 -> lo2 <= hi2 ->
  (forall x y z, Rmin lo0 s0 <= x <= Rmax hi0 s0 -> Rmin lo1 s1 <= y <= Rmax hi1 s1 -> Rmin lo2 s2 <= z <= Rmax hi2 s2 ->
     detR (J x y z) <> 0 /\ pivots_ok (J x y z)) ->
  exists r g c, newton_nd (F:=XR L) f (Bounds (F:=XR L) [(Fin lo0, Fin hi0); (Fin lo1, Fin hi1); (Fin lo2, Fin hi2)] rng) [Fin s0; Fin s1; Fin s2] n = Ok (r, g, c) /\
  (all_nan r \/ exists x y z, r = [Fin x; Fin y; Fin z] /\
     Rmin lo0 s0 <= x <= Rmax hi0 s0 /\ Rmin lo1 s1 <= y <= Rmax hi1 s1 /\ Rmin lo2 s2 <= z <= Rmax hi2 s2).
Proof. exact @newton_box3. Qed.
Print Assumptions C90_space_partial.
Example C90_space_case :
  (forall x y z, line_f [Fin x; Fin y; Fin z] = (map Fin (coords (line_V x y z)), map (map Fin) (matrix_rows (M3 1 2 3 4 5 6 7 8 10)))) /\
  detR (M3 1 2 3 4 5 6 7 8 10) <> 0 /\ pivots_ok (M3 1 2 3 4 5 6 7 8 10).
Proof. exact newton_box3_case. Qed.
