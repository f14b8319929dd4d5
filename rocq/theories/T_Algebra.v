(** Properties C01-C11: vectors, matrices, polynomial roots. *)
From Coq Require Import Reals ZArith List Bool.
From Flocq Require Import BinarySingleNaN Core.
From Verif Require Import Num XR FL M_Vec M_Matrix M_Array M_Roots Spec
  P_Vec P_Matrix P_Array P_Quadratic P_Cubic P_Quartic E_Algebra.
Import ListNotations.
Local Open Scope R_scope.

(** ** C01 *)
Theorem C01_normalize : forall (L : limits) (v : vec3 R), v <> V3 0 0 0 ->
  exists w, normalize (F:=XR L) (fin3 v) = fin3 w /\ normR w = 1 /\
            exists k, 0 < k /\ w = scaleR k v.
Proof. exact normalize_correct. Qed.
Print Assumptions C01_normalize.

Theorem C01_reflect : forall (L : limits) (v n : vec3 R), normR n = 1 ->
  exists w, reflect (F:=XR L) (fin3 v) (fin3 n) = fin3 w /\
    normR w = normR v /\
    dotR w n = - dotR v n /\
    subR w (scaleR (dotR w n) n) = subR v (scaleR (dotR v n) n) /\
    reflect (F:=XR L) (fin3 w) (fin3 n) = fin3 v.
Proof. exact reflect_correct. Qed.
Print Assumptions C01_reflect.
Example C01_reflect_case : normR (V3 (3 / 5) 0 (4 / 5)) = 1.
Proof. exact ex_unit. Qed.

(* orthogonal to both, Lagrange's identity, right-handed *)
Theorem C01_cross : forall (L : limits) (u v : vec3 R),
  exists w, cross (F:=XR L) (fin3 u) (fin3 v) = fin3 w /\
    dotR w u = 0 /\ dotR w v = 0 /\
    normsqR w = normsqR u * normsqR v - dotR u v * dotR u v /\
    detR (M3 (vx u) (vx v) (vx w) (vy u) (vy v) (vy w) (vz u) (vz v) (vz w)) = normsqR w.
Proof. exact cross_correct. Qed.
Print Assumptions C01_cross.

(** ** C02 *)
Theorem C02_inverse3 : forall (L : limits) (m : mat3 R) (out : mat3 xr),
  (l_min L < Rabs (detR m) ->
     exists w, inverse3 (F:=XR L) (finm3 m) out = (true, finm3 w) /\
               mmR m w = id3R /\ mmR w m = id3R) /\
  (Rabs (detR m) <= l_min L -> inverse3 (F:=XR L) (finm3 m) out = (false, out)).
Proof. exact inverse3_correct. Qed.
Print Assumptions C02_inverse3.

Theorem C02_inverse2 : forall (L : limits) (m : mat2 R) (out : mat2 xr),
  (l_min L < Rabs (det2R m) ->
     exists w, inverse2 (F:=XR L) (finm2 m) out = (true, finm2 w) /\
               mm2R m w = id2R /\ mm2R w m = id2R) /\
  (Rabs (det2R m) <= l_min L -> inverse2 (F:=XR L) (finm2 m) out = (false, out)).
Proof. exact inverse2_correct. Qed.
Print Assumptions C02_inverse2.

(* the overload returning by value hands back uninitialised storage on failure *)
Theorem C02_inverse_by_value_undefined : forall (L : limits) (m : mat3 R),
  Rabs (detR m) <= l_min L -> inverse3_value (F:=XR L) (finm3 m) = Undef.
Proof. exact inverse3_value_undefined. Qed.
Print Assumptions C02_inverse_by_value_undefined.

(** ** C03 *)
Theorem C03_solve2 : forall (L : limits) (m : mat2 R) (b : vec2 R),
  det2R m <> 0 -> off_threshold (l_eps L * l_eps L) (a10 m) ->
  exists x, solve2 (F:=XR L) (finm2 m) (fin2 b) = fin2 x /\ mv2R m x = b /\
            forall x', mv2R m x' = b -> x' = x.
Proof. exact solve2_correct. Qed.
Print Assumptions C03_solve2.
Example C03_case : det2R (M2 1 2 3 4) <> 0 /\
  off_threshold (l_eps double_limits * l_eps double_limits) (a10 (M2 1 2 3 4)).
Proof. exact ex_solve2. Qed.

(* inside the threshold the answer is wrong although the determinant is 1 *)
Theorem C03_small_pivot_refuted : forall (L : limits),
  exists (m : mat2 R) (b : vec2 R), det2R m = 1 /\
    forall x, solve2 (F:=XR L) (finm2 m) (fin2 b) = fin2 x -> mv2R m x <> b.
Proof. exact solve2_small_pivot_wrong. Qed.
Print Assumptions C03_small_pivot_refuted.

(** ** C04.  Full statement: for every m with detR m <> 0 and every b, solve returns the
    x with m x = b.  It is false; exactly the matrices with [pivots_ok] are solved. *)
Theorem C04_solve3_partial : forall (L : limits) (m : mat3 R), detR m <> 0 ->
  ((forall b, exists x, solve3 (F:=XR L) (finm3 m) (fin3 b) = Ok (fin3 x) /\ mvR m x = b)
   <-> pivots_ok m).
Proof. exact solve3_domain. Qed.
Print Assumptions C04_solve3_partial.
Example C04_case : detR (M3 1 2 3 4 5 6 7 8 10) <> 0 /\ pivots_ok (M3 1 2 3 4 5 6 7 8 10).
Proof. exact ex_solve3. Qed.
Example C04_case_zero_corner : detR (M3 0 2 3 4 5 6 7 8 10) <> 0 /\ pivots_ok (M3 0 2 3 4 5 6 7 8 10).
Proof. exact ex_solve3_zero. Qed.

Theorem C04_identity_refuted : forall (L : limits) (b : vec3 R),
  solve3 (F:=XR L) (finm3 (M3 1 0 0 0 1 0 0 0 1)) (fin3 b) = Undef.
Proof. exact solve3_identity. Qed.
Print Assumptions C04_identity_refuted.

(** ** C05 *)
Theorem C05_matrix_cells : forall rows cols i j i' j' : nat,
  (i < rows -> j < cols -> i' < rows -> j' < cols ->
   midx cols i j < rows * cols /\ (midx cols i j = midx cols i' j' -> i = i' /\ j = j'))%nat.
Proof.
  exact (fun rows cols i j i' j' Hi Hj Hi' Hj' =>
    conj (midx_range rows cols i j Hi Hj) (midx_inj cols i j i' j' Hj Hj')).
Qed.
Print Assumptions C05_matrix_cells.

Theorem C05_tensor_cells : forall panels rows cols i j k i' j' k' : nat,
  (i < panels -> j < rows -> k < cols -> i' < panels -> j' < rows -> k' < cols ->
   tidx rows cols i j k < panels * (rows * cols) /\
   (tidx rows cols i j k = tidx rows cols i' j' k' -> i = i' /\ j = j' /\ k = k'))%nat.
Proof.
  exact (fun panels rows cols i j k i' j' k' Hi Hj Hk Hi' Hj' Hk' =>
    conj (tidx_range panels rows cols i j k Hi Hj Hk)
         (tidx_inj rows cols i j k i' j' k' Hj Hk Hj' Hk')).
Qed.
Print Assumptions C05_tensor_cells.

Theorem C05_matrix_vector : forall (L : limits) rows cols (m : nat -> nat -> R) (v : nat -> R),
  mat_vec (F:=XR L) rows cols (stored (row_major rows cols m)) (stored (list_of cols v)) =
  Ok (stored (list_of rows (applyR cols m v))).
Proof. exact mat_vec_correct. Qed.
Print Assumptions C05_matrix_vector.

Theorem C05_matrix_matrix : forall (L : limits) rows cols cols2 (a b : nat -> nat -> R),
  mat_mat (F:=XR L) rows cols cols2 (stored (row_major rows cols a)) (stored (row_major cols cols2 b)) =
  Ok (stored (row_major rows cols2 (mulR cols a b))).
Proof. exact mat_mat_correct. Qed.
Print Assumptions C05_matrix_matrix.

Theorem C05_column : forall (L : limits) rows cols (m : nat -> nat -> R) j, (j < cols)%nat ->
  column (F:=XR L) rows cols (stored (row_major rows cols m)) j = Ok (stored (list_of rows (fun i => m i j))).
Proof. exact column_correct. Qed.
Print Assumptions C05_column.

Theorem C05_associative : forall n m (a b : nat -> nat -> R) (v : nat -> R) i,
  applyR m (mulR n a b) v i = applyR n a (applyR m b v) i.
Proof. exact apply_mul. Qed.
Print Assumptions C05_associative.

(* square panels, as in every use in the library *)
Theorem C05_contraction_partial : forall (L : limits) panels n (t : nat -> nat -> nat -> R) (x y : nat -> R),
  contract (F:=XR L) panels n n (stored (panel_major panels n n t)) (stored (list_of n x)) (stored (list_of n y)) =
  Ok (stored (list_of panels (fun i => sumR n (fun j => sumR n (fun k => t i j k * x j * y k))))).
Proof. exact contract_correct. Qed.
Print Assumptions C05_contraction_partial.

(* with fewer rows than columns it reads outside the array *)
Theorem C05_contraction_refuted : forall (L : limits) panels rows cols
  (t : nat -> nat -> nat -> R) (x y : nat -> R),
  (0 < panels -> 0 < rows -> rows < cols ->
   forall z, contract (F:=XR L) panels rows cols (stored (panel_major panels rows cols t))
     (stored (list_of cols x)) (stored (list_of rows y)) <> Ok z)%nat.
Proof. exact contract_out_of_bounds. Qed.
Print Assumptions C05_contraction_refuted.

(** ** C06 *)
Theorem C06_quadratic : forall (L : limits) (a b c : R),
  off_threshold (l_min L) a -> off_threshold (l_min L) b -> ~ (a = 0 /\ b = 0 /\ c = 0) ->
  (quadratic_roots (F:=XR L) (Fin a) (Fin b) (Fin c) = [] /\ (forall x, quadR a b c x <> 0)) \/
  (exists r0 r1, quadratic_roots (F:=XR L) (Fin a) (Fin b) (Fin c) = [Fin r0; Fin r1] /\ r0 <= r1 /\
     (a <> 0 -> forall x, quadR a b c x = a * (x - r0) * (x - r1)) /\
     (a = 0 -> r0 = r1 /\ forall x, quadR a b c x = b * (x - r0) /\ b <> 0)).
Proof. exact quadratic_roots_correct. Qed.
Print Assumptions C06_quadratic.
Example C06_case : off_threshold (l_min double_limits) 1 /\ off_threshold (l_min double_limits) (-5) /\
  ~ (1 = 0 /\ -5 = 0 /\ 6 = 0).
Proof. exact ex_quadratic. Qed.

(* the excluded polynomial 0: the code meant to return {0,0} but returns NaNs *)
Theorem C06_zero_polynomial_refuted : forall (L : limits),
  quadratic_roots (F:=XR L) (Fin 0) (Fin 0) (Fin 0) = [NaN; NaN].
Proof. exact quadratic_roots_zero_poly. Qed.
Print Assumptions C06_zero_polynomial_refuted.

(** ** C07 *)
Theorem C07_quadratic_shape : forall (prec emax : Z) (Hp : Prec_gt_0 prec) (Hm : Prec_lt_emax prec emax)
  (lm : libm (binary_float prec emax)) (a b c : binary_float prec emax),
  quadratic_roots (F:=FL prec emax Hp Hm lm) a b c = [] \/
  exists r0 r1, quadratic_roots (F:=FL prec emax Hp Hm lm) a b c = [r0; r1] /\ Bltb r1 r0 = false.
Proof. exact quadratic_roots_shape. Qed.
Print Assumptions C07_quadratic_shape.

(** ** C08 *)
Theorem C08_first_root_in_range : forall (L : limits) (a b c : R) (lo hi : xr),
  off_threshold (l_min L) a -> off_threshold (l_min L) b -> ~ (a = 0 /\ b = 0 /\ c = 0) ->
  (first_quadratic_root_in_range (F:=XR L) (Fin a) (Fin b) (Fin c) lo hi = None /\
     forall x, in_window lo hi x -> quadR a b c x <> 0) \/
  (exists t, first_quadratic_root_in_range (F:=XR L) (Fin a) (Fin b) (Fin c) lo hi = Some (Fin t) /\
     quadR a b c t = 0 /\ in_window lo hi t /\
     forall x, in_window lo hi x -> quadR a b c x = 0 -> t <= x).
Proof. exact first_root_correct. Qed.
Print Assumptions C08_first_root_in_range.

(** ** C09.  Full statement: the list is increasing and x is in it iff x is a root.
    It holds exactly off the cubics with a root of multiplicity two. *)
Theorem C09_cubic_partial : forall (L : limits) (a b c d : R), cubic_off_threshold (l_min L) a b c d ->
  ((exists l, cubic_roots (F:=XR L) (Fin a) (Fin b) (Fin c) (Fin d) = Ok (map Fin l) /\ increasing l /\
      forall x, In x l <-> cubicR a b c d x = 0)
   <-> ~ cubic_double_root a b c d).
Proof. exact cubic_complete_iff. Qed.
Print Assumptions C09_cubic_partial.
Example C09_case : cubic_off_threshold (l_min double_limits) 1 0 (-2) 1 /\ ~ cubic_double_root 1 0 (-2) 1.
Proof. exact ex_cubic. Qed.

(* in every case: sorted, and nothing but roots *)
Theorem C09_cubic_sound : forall (L : limits) (a b c d : R), cubic_off_threshold (l_min L) a b c d ->
  exists l, cubic_roots (F:=XR L) (Fin a) (Fin b) (Fin c) (Fin d) = Ok (map Fin l) /\
    increasing l /\ (forall x, In x l -> cubicR a b c d x = 0) /\ (a <> 0 -> l <> []).
Proof. exact cubic_sound. Qed.
Print Assumptions C09_cubic_sound.

Theorem C09_double_root_refuted : forall (L : limits) (a b c d : R), cubic_off_threshold (l_min L) a b c d ->
  cubic_double_root a b c d ->
  exists l x, cubic_roots (F:=XR L) (Fin a) (Fin b) (Fin c) (Fin d) = Ok (map Fin l) /\
    cubicR a b c d x = 0 /\ ~ In x l.
Proof. exact cubic_double_missed. Qed.
Print Assumptions C09_double_root_refuted.
Example C09_double_case : cubic_off_threshold (l_min double_limits) 1 0 (-3) 2 /\ cubic_double_root 1 0 (-3) 2.
Proof. exact ex_cubic_double. Qed.

(** ** C10.  Full statement: x is in the list iff x is a root.  It holds exactly off the
    quartics that reduce to a cubic with a double root. *)
Theorem C10_quartic_partial : forall (L : limits) (a b c d e : R),
  quartic_off_threshold (l_min L) a b c d e ->
  ((exists l, quartic_roots (F:=XR L) (Fin a) (Fin b) (Fin c) (Fin d) (Fin e) = Ok (map Fin l) /\
      forall x, In x l <-> quarticR a b c d e x = 0)
   <-> ~ quartic_degenerate a b c d e).
Proof. exact quartic_complete_iff. Qed.
Print Assumptions C10_quartic_partial.
Example C10_case : quartic_off_threshold (l_min double_limits) 1 0 0 1 (-1) /\ ~ quartic_degenerate 1 0 0 1 (-1).
Proof. exact ex_quartic. Qed.

Theorem C10_quartic_sound : forall (L : limits) (a b c d e : R),
  quartic_off_threshold (l_min L) a b c d e ->
  exists l, quartic_roots (F:=XR L) (Fin a) (Fin b) (Fin c) (Fin d) (Fin e) = Ok (map Fin l) /\
    forall x, In x l -> quarticR a b c d e x = 0.
Proof. exact quartic_sound. Qed.
Print Assumptions C10_quartic_sound.
(* a root that is missed, for every other quartic *)
Theorem C10_double_root_refuted : forall (L : limits) (a b c d e : R),
  quartic_off_threshold (l_min L) a b c d e -> quartic_degenerate a b c d e ->
  exists l x, quartic_roots (F:=XR L) (Fin a) (Fin b) (Fin c) (Fin d) (Fin e) = Ok (map Fin l) /\
    quarticR a b c d e x = 0 /\ ~ In x l.
Proof. exact quartic_double_missed. Qed.
Print Assumptions C10_double_root_refuted.
Example C10_degenerate_case :
  quartic_off_threshold (l_min double_limits) 1 0 (-3) 2 0 /\ quartic_degenerate 1 0 (-3) 2 0.
Proof. exact ex_quartic_degenerate. Qed.

(** ** C11.  Full statement: the list is always increasing. *)
Theorem C11_quartic_sorted_partial : forall (L : limits) (a b c d e : R),
  quartic_off_threshold (l_min L) a b c d e -> a = 0 \/ e <> 0 ->
  exists l, quartic_roots (F:=XR L) (Fin a) (Fin b) (Fin c) (Fin d) (Fin e) = Ok (map Fin l) /\ increasing l.
Proof. exact quartic_sorted_exact. Qed.
Print Assumptions C11_quartic_sorted_partial.

(* also with rounding, for every IEEE input *)
Theorem C11_quartic_sorted_float_partial : forall (prec emax : Z) (Hp : Prec_gt_0 prec)
  (Hm : Prec_lt_emax prec emax) (lm : libm (binary_float prec emax)) (a b c d e : binary_float prec emax) l,
  Bleb (Babs a) (nmin (NumOps:=FL prec emax Hp Hm lm)) = true \/
  Bleb (Babs e) (nmin (NumOps:=FL prec emax Hp Hm lm)) = false ->
  quartic_roots (F:=FL prec emax Hp Hm lm) a b c d e = Ok l -> non_decreasing l.
Proof. exact quartic_non_decreasing. Qed.
Print Assumptions C11_quartic_sorted_float_partial.

(* x^4 - x^3 *)
Theorem C11_unsorted_refuted : forall (L : limits), l_min L < 1 ->
  quartic_roots (F:=XR L) (Fin 1) (Fin (-1)) (Fin 0) (Fin 0) (Fin 0) = Ok (map Fin [0; 0; 1; 0]).
Proof. exact quartic_unsorted. Qed.
Print Assumptions C11_unsorted_refuted.
