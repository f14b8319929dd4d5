(** Interval arithmetic. *)
From Coq Require Import Reals ZArith Bool.
From Flocq Require Import Core BinarySingleNaN.
From Verif Require Import Num XR FL Spec M_Interval Spec_Interval P_FL P_Interval P_IntervalFL P_Width E_Interval.
Local Open Scope R_scope.

(** ** C50 *)
Theorem C50_sum : forall prec emax (Hp : Prec_gt_0 prec) (Hm : Prec_lt_emax prec emax) lm m (X Y : interval (binary_float prec emax)) x y,
  inF X x -> inF Y y -> exists Z, i_add (F:=RF prec emax Hp Hm lm) m X Y = (Z, m) /\ inF Z (x + y).
Proof. exact @add_contains. Qed.
Print Assumptions C50_sum.
Theorem C50_difference : forall prec emax (Hp : Prec_gt_0 prec) (Hm : Prec_lt_emax prec emax) lm m (X Y : interval (binary_float prec emax)) x y,
  inF X x -> inF Y y -> exists Z, i_sub (F:=RF prec emax Hp Hm lm) m X Y = (Z, m) /\ inF Z (x - y).
Proof. exact @sub_contains. Qed.
Print Assumptions C50_difference.
(* the ends are the best the format allows *)
Theorem C50_sum_best : forall prec emax (Hp : Prec_gt_0 prec) (Hm : Prec_lt_emax prec emax) lm m (X Y : interval (binary_float prec emax)) a b c d,
  denoteI X = finI a b -> denoteI Y = finI c d ->
  exists Z, i_add (F:=RF prec emax Hp Hm lm) m X Y = (Z, m) /\ best_below (i_lo Z) (a + c) /\ best_above (i_hi Z) (b + d).
Proof. exact @add_best. Qed.
Print Assumptions C50_sum_best.
Theorem C50_difference_best : forall prec emax (Hp : Prec_gt_0 prec) (Hm : Prec_lt_emax prec emax) lm m (X Y : interval (binary_float prec emax)) a b c d,
  denoteI X = finI a b -> denoteI Y = finI c d ->
  exists Z, i_sub (F:=RF prec emax Hp Hm lm) m X Y = (Z, m) /\ best_below (i_lo Z) (a - d) /\ best_above (i_hi Z) (b - c).
Proof. exact @sub_best. Qed.
Print Assumptions C50_difference_best.
(* -=: missing is the case of an interval subtracted from itself, refuted below *)
Theorem C50_assign_partial : forall prec emax (Hp : Prec_gt_0 prec) (Hm : Prec_lt_emax prec emax) lm m (s : nat -> interval (binary_float prec emax)) p q x y,
  p <> q -> inF (s p) x -> inF (s q) y ->
  exists s', i_sub_assign (F:=RF prec emax Hp Hm lm) m s p q = (s', m) /\ inF (s' p) (x - y) /\ forall r, r <> p -> s' r = s r.
Proof. exact @sub_assign_contains. Qed.
Print Assumptions C50_assign_partial.
Theorem C50_alias_refuted : forall lm m, exists (s s' : nat -> interval binary64) x y, inF (s 0%nat) x /\ inF (s 0%nat) y /\
  i_sub_assign (F:=RF64 lm) m s 0%nat 0%nat = (s', m) /\ ~ inF (s' 0%nat) (x - y).
Proof. exact alias_case. Qed.
Print Assumptions C50_alias_refuted.
Example C50_case : inF (pt 1 0) 1 /\ inF (pt 1 (-60)) (/ 1152921504606846976) /\
  (forall lm, exists Z, i_add (F:=RF64 lm) FE_TONEAREST (pt 1 0) (pt 1 (-60)) = (Z, FE_TONEAREST) /\ denoteI Z = finI 1 (1 + / 4503599627370496)).
Proof. exact add_case. Qed.

(** ** C51 *)
(* in exact arithmetic; missing is [0,0] times the whole line, refuted below *)
Theorem C51_exact_partial : forall m X Y x y, inI X x -> inI Y y -> ~ zero_line X Y -> ~ zero_line Y X -> inI (i_mul (F:=RX) m X Y) (x * y).
Proof. exact mul_contains. Qed.
Print Assumptions C51_exact_partial.
Theorem C51_exact_tight : forall m a b c d, a <= b -> c <= d -> exists l h, i_mul (F:=RX) m (finI a b) (finI c d) = finI l h /\
  (exists x y, a <= x <= b /\ c <= y <= d /\ l = x * y) /\ (exists x y, a <= x <= b /\ c <= y <= d /\ h = x * y).
Proof. exact mul_tight. Qed.
Print Assumptions C51_exact_tight.
Theorem C51_line_refuted : forall m, inI (finI 0 0) 0 /\ inI lineI 5 /\ ~ inI (i_mul (F:=RX) m (finI 0 0) lineI) (0 * 5).
Proof. exact mul_line_case. Qed.
Print Assumptions C51_line_refuted.
(* with rounding the computed interval contains the product rounded in the mode in force, for
   every format; missing is the product itself, refuted below *)
Theorem C51_rounded_partial : forall prec emax (Hp : Prec_gt_0 prec) (Hm : Prec_lt_emax prec emax) lm m (X Y : interval (binary_float prec emax)) x y,
  inF X x -> inF Y y -> ~ zero_line (denoteI X) (denoteI Y) -> ~ zero_line (denoteI Y) (denoteI X) ->
  let Z := denoteI (i_mul (F:=RF prec emax Hp Hm lm) m X Y) in
  xleb (i_lo Z) (roundx prec emax (fl_mode m) (x * y)) = true /\ xleb (roundx prec emax (fl_mode m) (x * y)) (i_hi Z) = true.
Proof. exact @mul_rounded. Qed.
Print Assumptions C51_rounded_partial.
Theorem C51_rounding_refuted : forall lm m, exists (X : interval binary64) x, inF X x /\ ~ inF (i_mul (F:=RF64 lm) m X X) (x * x).
Proof. exact mul_case. Qed.
Print Assumptions C51_rounding_refuted.
Example C51_case : inF (pt 3 0) 3 /\ ~ zero_line (denoteI (pt 3 0)) (denoteI (pt 1 0)).
Proof. exact mul_fin_case. Qed.

(** ** C52 *)
(* in exact arithmetic; missing are the negative points of divisors that are not negative throughout *)
Theorem C52_exact_partial : forall m X Y x y, inI X x -> inI Y y -> 0 < y \/ (exists d, i_hi Y = Fin d /\ d < 0) ->
  inI (i_div (F:=RX) m X Y) (x / y).
Proof. exact div_contains. Qed.
Print Assumptions C52_exact_partial.
Theorem C52_sign_refuted : forall m, inI (finI 1 1) 1 /\ inI (finI (-1) 1) (-1) /\ ~ inI (i_div (F:=RX) m (finI 1 1) (finI (-1) 1)) (1 / -1).
Proof. exact div_sign_case. Qed.
Print Assumptions C52_sign_refuted.
Theorem C52_rounding_refuted : forall lm m, exists (X Y : interval binary64) x y,
  inF X x /\ inF Y y /\ y <> 0 /\ ~ inF (i_div (F:=RF64 lm) m X Y) (x / y).
Proof. exact div_round_case. Qed.
Print Assumptions C52_rounding_refuted.
Example C52_case : inI (finI (-1) 4) 2 /\ 0 < 2.
Proof. exact div_pos_case. Qed.

(** ** C53 *)
(* in exact arithmetic; missing are even powers of points further from 0 than the upper end *)
Theorem C53_exact_partial : forall m X x n, inI X x ->
  Nat.even n = false \/ xleb (Fin 0) (i_lo X) = true \/ xleb (i_hi X) (Fin 0) = true \/ at_most (i_hi X) (- x) ->
  inI (i_pow (F:=RX) m X (Z.of_nat n)) (x ^ n).
Proof. exact pow_contains. Qed.
Print Assumptions C53_exact_partial.
Theorem C53_tight : forall m a b n, a <= b -> Nat.even n = false \/ 0 <= a \/ b <= 0 -> exists l h,
  i_pow (F:=RX) m (finI a b) (Z.of_nat n) = finI l h /\ (l = a ^ n \/ l = b ^ n) /\ (h = a ^ n \/ h = b ^ n).
Proof. exact pow_tight. Qed.
Print Assumptions C53_tight.
Theorem C53_even_refuted : forall m, inI (finI (-2) 1) (-2) /\ ~ inI (i_pow (F:=RX) m (finI (-2) 1) 2) ((-2) ^ 2).
Proof. exact pow_case. Qed.
Print Assumptions C53_even_refuted.
Example C53_case : inI (finI (-1) 3) (-1) /\ at_most (i_hi (finI (-1) 3)) (- -1) /\ xleb (Fin 0) (i_lo (finI (-1) 3)) = false.
Proof. exact pow_good_case. Qed.

(** ** C54 *)
Theorem C54_intersection : forall prec emax (Hp : Prec_gt_0 prec) (Hm : Prec_lt_emax prec emax) lm (X Y : interval (binary_float prec emax)),
  num_ends (denoteI X) -> num_ends (denoteI Y) ->
  forall x, inF (i_intersection (F:=RF prec emax Hp Hm lm) X Y) x <-> inF X x /\ inF Y x.
Proof. exact @intersection_float. Qed.
Print Assumptions C54_intersection.
(* the least interval containing both only if the upper ends agree *)
Theorem C54_hull_partial : forall prec emax (Hp : Prec_gt_0 prec) (Hm : Prec_lt_emax prec emax) lm (X Y : interval (binary_float prec emax)),
  num_ends (denoteI X) -> num_ends (denoteI Y) -> i_hi X = i_hi Y ->
  (forall x, inF X x \/ inF Y x -> inF (i_hull (F:=RF prec emax Hp Hm lm) X Y) x) /\
  (forall Z : interval (binary_float prec emax), num_ends (denoteI Z) -> (exists x, inF X x) -> (exists y, inF Y y) ->
    (forall x, inF X x \/ inF Y x -> inF Z x) -> forall x, inF (i_hull (F:=RF prec emax Hp Hm lm) X Y) x -> inF Z x).
Proof. exact @hull_float. Qed.
Print Assumptions C54_hull_partial.
(* what the code computes instead: the upper end is the smaller of the two *)
Theorem C54_hull_members : forall prec emax (Hp : Prec_gt_0 prec) (Hm : Prec_lt_emax prec emax) lm (X Y : interval (binary_float prec emax)),
  num_ends (denoteI X) -> num_ends (denoteI Y) -> forall x, inF (i_hull (F:=RF prec emax Hp Hm lm) X Y) x <->
  (at_least (fval (i_lo X)) x \/ at_least (fval (i_lo Y)) x) /\ at_most (fval (i_hi X)) x /\ at_most (fval (i_hi Y)) x.
Proof. exact @hull_members_float. Qed.
Print Assumptions C54_hull_members.
Theorem C54_hull_refuted : forall lm, exists (X Y : interval binary64) y, inF Y y /\ ~ inF (i_hull (F:=RF64 lm) X Y) y.
Proof. exact hull_float_case. Qed.
Print Assumptions C54_hull_refuted.
(* empty() is false for the interval returned for disjoint arguments: its ends are NaN *)
Theorem C54_empty_refuted : forall lm, exists X Y : interval binary64, (exists x, inF X x) /\ (exists y, inF Y y) /\
  (forall x, ~ (inF X x /\ inF Y x)) /\ i_empty (F:=RF64 lm) (i_intersection (F:=RF64 lm) X Y) = false.
Proof. exact empty_float. Qed.
Print Assumptions C54_empty_refuted.
(* ... and for every pair of disjoint arguments *)
Theorem C54_never_empty : forall X Y, num_ends X -> num_ends Y -> (exists x, inI X x) -> (exists y, inI Y y) ->
  (forall x, ~ (inI X x /\ inI Y x)) -> i_empty (F:=RX) (i_intersection (F:=RX) X Y) = false.
Proof. exact empty_case. Qed.
Print Assumptions C54_never_empty.
Example C54_case : num_ends (finI 0 1) /\ num_ends (finI 2 3) /\ (forall x, ~ (inI (finI 0 1) x /\ inI (finI 2 3) x)) /\
  i_empty (F:=RX) (i_intersection (F:=RX) (finI 0 1) (finI 2 3)) = false.
Proof. exact empty_nonvacuous. Qed.

(** ** C55 *)
Theorem C55_sqrt : forall prec emax (Hp : Prec_gt_0 prec) (Hm : Prec_lt_emax prec emax) lm m (X : interval (binary_float prec emax)) x,
  inF X x -> xleb (Fin 0) (fval (i_lo X)) = true ->
  exists Z, i_sqrt (F:=RF prec emax Hp Hm lm) m X = (Z, m) /\ inF Z (sqrt x).
Proof. exact @sqrt_contains. Qed.
Print Assumptions C55_sqrt.
Theorem C55_exp_exact : forall m X x, inI X x -> exists Y, i_exp (F:=RX) m X = (Y, m) /\ inI Y (exp x).
Proof. exact exp_contains. Qed.
Print Assumptions C55_exp_exact.
Theorem C55_log_exact : forall m X x, inI X x -> xleb (Fin 0) (i_lo X) = true -> 0 < x -> exists Y, i_log (F:=RX) m X = (Y, m) /\ inI Y (ln x).
Proof. exact log_contains. Qed.
Print Assumptions C55_log_exact.
(* with rounding, for a libm whose exp and log round in the direction asked for; without that
   assumption nothing is known of the library functions *)
Theorem C55_exp_partial : forall prec emax (Hp : Prec_gt_0 prec) (Hm : Prec_lt_emax prec emax) lm,
  (forall f : binary_float prec emax, fval f <> NaN ->
    xleb (fval (lr_exp _ lm FE_DOWNWARD f)) (xexp (fval f)) = true /\ xleb (xexp (fval f)) (fval (lr_exp _ lm FE_UPWARD f)) = true) ->
  forall m (X : interval (binary_float prec emax)) x, inF X x -> exists Z, i_exp (F:=RF prec emax Hp Hm lm) m X = (Z, m) /\ inF Z (exp x).
Proof. exact @exp_directed. Qed.
Print Assumptions C55_exp_partial.
Theorem C55_log_partial : forall prec emax (Hp : Prec_gt_0 prec) (Hm : Prec_lt_emax prec emax) lm,
  (forall f : binary_float prec emax, xleb (Fin 0) (fval f) = true ->
    xleb (fval (lr_log _ lm FE_DOWNWARD f)) (xlog (fval f)) = true /\ xleb (xlog (fval f)) (fval (lr_log _ lm FE_UPWARD f)) = true) ->
  forall m (X : interval (binary_float prec emax)) x, inF X x -> xleb (Fin 0) (fval (i_lo X)) = true -> 0 < x ->
  exists Z, i_log (F:=RF prec emax Hp Hm lm) m X = (Z, m) /\ inF Z (ln x).
Proof. exact @log_directed. Qed.
Print Assumptions C55_log_partial.
Example C55_case : inF (pt 3 0) 3 /\ xleb (Fin 0) (fval (i_lo (pt 3 0))) = true.
Proof. exact sqrt_case. Qed.
Example C55_log_case : inI (finI 0 2) 1 /\ xleb (Fin 0) (i_lo (finI 0 2)) = true /\ 0 < 1.
Proof. exact log_case. Qed.
Example C55_libm_case : exists lm : libm_rnd binary64,
  (forall f : binary64, fval f <> NaN -> xleb (fval (lr_exp _ lm FE_DOWNWARD f)) (xexp (fval f)) = true /\ xleb (xexp (fval f)) (fval (lr_exp _ lm FE_UPWARD f)) = true) /\
  (forall f : binary64, xleb (Fin 0) (fval f) = true -> xleb (fval (lr_log _ lm FE_DOWNWARD f)) (xlog (fval f)) = true /\ xleb (xlog (fval f)) (fval (lr_log _ lm FE_UPWARD f)) = true).
Proof. exact libm_case. Qed.

(** ** C56 *)
Theorem C56_metric : forall m, exists dist : R * R -> R * R -> R,
  (forall X Y, i_distance (F:=RX) m (finI (fst X) (snd X)) (finI (fst Y) (snd Y)) = Fin (dist X Y)) /\
  (forall X Y, 0 <= dist X Y) /\ (forall X Y, dist X Y = 0 <-> X = Y) /\ (forall X Y, dist X Y = dist Y X) /\
  (forall X Y Z, dist X Z <= dist X Y + dist Y Z).
Proof. exact distance_metric. Qed.
Print Assumptions C56_metric.
(* it is the Hausdorff distance of the two sets of ends *)
Theorem C56_value : forall m a b c d, i_distance (F:=RX) m (finI a b) (finI c d) = Fin (Rmax (Rabs (a - c)) (Rabs (b - d))).
Proof. exact distance_fin. Qed.
Print Assumptions C56_value.

(** ** C77 *)
Theorem C77_sound : forall prec emax (Hp : Prec_gt_0 prec) (Hm : Prec_lt_emax prec emax) lm (X Y : interval (binary_float prec emax)),
  i_ge (F:=RF prec emax Hp Hm lm) X Y = true -> forall x y, inF X x -> inF Y y -> y <= x.
Proof. exact @ge_float. Qed.
Print Assumptions C77_sound.
Theorem C77_complete : forall prec emax (Hp : Prec_gt_0 prec) (Hm : Prec_lt_emax prec emax) lm (X Y : interval (binary_float prec emax)) a b c d,
  denoteI X = finI a b -> denoteI Y = finI c d -> a <= b -> c <= d ->
  (forall x y, inF X x -> inF Y y -> y <= x) -> i_ge (F:=RF prec emax Hp Hm lm) X Y = true.
Proof. exact @ge_float_complete. Qed.
Print Assumptions C77_complete.
Example C77_case : forall lm, i_ge (F:=RF64 lm) (pt 3 0) (pt 1 0) = true /\ i_ge (F:=RF64 lm) (pt 1 0) (pt 3 0) = false.
Proof. exact ge_case. Qed.

(** ** C78 *)
Theorem C78_abs : forall prec emax (Hp : Prec_gt_0 prec) (Hm : Prec_lt_emax prec emax) lm (X : interval (binary_float prec emax)) x,
  inF X x -> inF (i_abs (F:=RF prec emax Hp Hm lm) X) (Rabs x).
Proof. exact @abs_float. Qed.
Print Assumptions C78_abs.
Theorem C78_tight : forall prec emax (Hp : Prec_gt_0 prec) (Hm : Prec_lt_emax prec emax) lm (X : interval (binary_float prec emax)) a b,
  denoteI X = finI a b -> a <= b -> exists l h, denoteI (i_abs (F:=RF prec emax Hp Hm lm) X) = finI l h /\
  (exists x, a <= x <= b /\ l = Rabs x) /\ (exists x, a <= x <= b /\ h = Rabs x).
Proof. exact @abs_float_tight. Qed.
Print Assumptions C78_tight.
Example C78_case : denoteI (Itv (d64 (-2) 0) (d64 1 0)) = finI (-2) 1 /\ -2 <= 1.
Proof. exact abs_case. Qed.

(** ** C86 *)
(* whatever the rounding mode *)
Theorem C86_zero : forall prec emax (Hp : Prec_gt_0 prec) (Hm : Prec_lt_emax prec emax) lm m (X : interval (binary_float prec emax)) a b,
  denoteI X = finI a b -> (fval (i_width (F:=RF prec emax Hp Hm lm) m X) = Fin 0 <-> a = b).
Proof. exact @width_zero. Qed.
Print Assumptions C86_zero.
Theorem C86_sign : forall prec emax (Hp : Prec_gt_0 prec) (Hm : Prec_lt_emax prec emax) lm m (X : interval (binary_float prec emax)) a b,
  denoteI X = finI a b -> a <= b -> xleb (Fin 0) (fval (i_width (F:=RF prec emax Hp Hm lm) m X)) = true.
Proof. exact @width_sign. Qed.
Print Assumptions C86_sign.
(* Full statement: the width is never less than the distance of two members.  Proved under
   upward rounding; width() does not set the mode, and under the default one it is false. *)
Theorem C86_width_partial : forall prec emax (Hp : Prec_gt_0 prec) (Hm : Prec_lt_emax prec emax) lm (X : interval (binary_float prec emax)) x y,
  inF X x -> inF X y -> at_most (fval (i_width (F:=RF prec emax Hp Hm lm) FE_UPWARD X)) (y - x).
Proof. exact @width_up. Qed.
Print Assumptions C86_width_partial.
Theorem C86_width_below_partial : forall prec emax (Hp : Prec_gt_0 prec) (Hm : Prec_lt_emax prec emax) lm (X : interval (binary_float prec emax)) a b,
  denoteI X = finI a b -> at_least (fval (i_width (F:=RF prec emax Hp Hm lm) FE_DOWNWARD X)) (b - a).
Proof. exact @width_down. Qed.
Print Assumptions C86_width_below_partial.
Theorem C86_nearest_refuted : forall lm, exists (X : interval binary64) x y, inF X x /\ inF X y /\
  ~ at_most (fval (i_width (F:=RF64 lm) FE_TONEAREST X)) (y - x).
Proof. exact width_nearest. Qed.
Print Assumptions C86_nearest_refuted.
Theorem C86_degenerate : forall prec emax (Hp : Prec_gt_0 prec) (Hm : Prec_lt_emax prec emax) lm (X : interval (binary_float prec emax)) a b,
  denoteI X = finI a b ->
  (fval (i_degenerate (F:=RF prec emax Hp Hm lm) X) = Fin 1 <-> exists x, forall y, inF X y <-> y = x) /\
  (fval (i_degenerate (F:=RF prec emax Hp Hm lm) X) = Fin 1 \/ fval (i_degenerate (F:=RF prec emax Hp Hm lm) X) = Fin 0).
Proof. exact @degenerate_one. Qed.
Print Assumptions C86_degenerate.
Theorem C86_empty : forall prec emax (Hp : Prec_gt_0 prec) (Hm : Prec_lt_emax prec emax) lm (X : interval (binary_float prec emax)) a b,
  denoteI X = finI a b -> (i_empty (F:=RF prec emax Hp Hm lm) X = true <-> ~ exists x, inF X x).
Proof. exact @empty_members. Qed.
Print Assumptions C86_empty.
(* the default interval, whose ends are NaN, has no members but is not reported empty *)
Theorem C86_default_refuted : forall prec emax (Hp : Prec_gt_0 prec) (Hm : Prec_lt_emax prec emax) lm,
  i_empty (F:=RF prec emax Hp Hm lm) (i_default (F:=RF prec emax Hp Hm lm)) = false /\
  forall x, ~ inF (i_default (F:=RF prec emax Hp Hm lm)) x.
Proof. exact @default_members. Qed.
Print Assumptions C86_default_refuted.
Example C86_case : denoteI (Itv (d64 (-2) 0) (d64 1 0)) = finI (-2) 1 /\ denoteI (Itv (d64 1 0) (d64 1 0)) = finI 1 1.
Proof. exact width_case. Qed.
