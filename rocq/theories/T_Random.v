(** Theorems about the generator, the sampler of the unit ball, Lambertian scattering and
    boxes (C44-C49, C72, C85). *)
From Coq Require Import Reals ZArith List Bool.
From Flocq Require Import Core BinarySingleNaN.
From Verif Require Import Spec_Random Num XR FL Spec Spec_Iter M_Vec M_Rng M_Hittable M_Materials
  P_Rng P_Lambert P_Double P_Bounds P_Sampler P_Centre E_Random.
Import ListNotations.
Local Open Scope R_scope.

(** ** C44 *)
(* The direction also has length at most 2.  Exact arithmetic. *)
Theorem C44_lambertian : forall (L : limits) tex g (rec : hit_record xr) (n : vec3 R),
  word64 (pc_state g) -> h_normal rec = fin3 n -> normR n = 1 ->
  exists k d g', (forall fuel, (k <= fuel)%nat ->
      lambertian_scatter (F:=XR L) fuel tex g rec = Ok (Some (tex rec, Ray (h_p rec) (fin3 d)), g')) /\
    1 <= dotR d n /\ normR d <= 2.
Proof. exact @lambertian_side. Qed.
Print Assumptions C44_lambertian.
Example C44_seed : word64 (pc_state pcg_seed).
Proof. exact seed_word. Qed.
Example C44_normal : normR (V3 (3 / 5) 0 (4 / 5)) = 1.
Proof. exact normal_case. Qed.

(** ** C45 *)
(* The first triple of draws in the ball is returned.  [cubeR g] is made of the next three
   draws of g, each moved to [-1,1). *)
Theorem C45_sampler_exact : forall (L : limits) g, word64 (pc_state g) -> exists m,
  (forall fuel, (m < fuel)%nat ->
     random_unit_vector (F:=XR L) fuel g = Ok (fin3 (cubeR (Nat.iter m next3 g)), Nat.iter (S m) next3 g)) /\
  normsqR (cubeR (Nat.iter m next3 g)) <= 1 /\ forall k, (k < m)%nat -> 1 < normsqR (cubeR (Nat.iter k next3 g)).
Proof. exact @sampler_exact. Qed.
Print Assumptions C45_sampler_exact.
(* In double precision, with the squared norm as computed; the coordinates are exact. *)
Theorem C45_sampler_double : forall lm g, word64 (pc_state g) -> exists m v,
  (forall fuel, (m < fuel)%nat -> random_unit_vector (F:=F64 lm) fuel g = Ok (v, Nat.iter (S m) next3 g)) /\
  nleb (NumOps:=F64 lm) (squared_norm (F:=F64 lm) v) (nofZ (NumOps:=F64 lm) 1) = true /\ cube_val (Nat.iter m next3 g) v.
Proof. exact sampler_double. Qed.
Print Assumptions C45_sampler_double.
(* In every binary format of at least 24 bits and with exponents up to at least 64, for
   every state and every increment: the vector is the first triple whose squared norm, as
   computed, is at most 1, and its coordinates are those of the draws up to 3/2^25. *)
Theorem C45_sampler_formats : forall prec emax (Hp : Prec_gt_0 prec) (Hm : Prec_lt_emax prec emax) lm,
  (24 <= prec)%Z -> (64 <= emax)%Z -> forall g, word64 (pc_state g) -> exists m v c,
  (forall fuel, (m < fuel)%nat -> random_unit_vector (F:=FL prec emax Hp Hm lm) fuel g = Ok (v, Nat.iter (S m) next3 g)) /\
  nleb (NumOps:=FL prec emax Hp Hm lm) (squared_norm (F:=FL prec emax Hp Hm lm) v) (nofZ (NumOps:=FL prec emax Hp Hm lm) 1) = true /\
  denotes (vx v) (vx c) /\ denotes (vy v) (vy c) /\ denotes (vz v) (vz c) /\
  Rabs (vx c - vx (cubeR (Nat.iter m next3 g))) <= 3 / 2 ^ 25 /\ Rabs (vy c - vy (cubeR (Nat.iter m next3 g))) <= 3 / 2 ^ 25 /\
  Rabs (vz c - vz (cubeR (Nat.iter m next3 g))) <= 3 / 2 ^ 25.
Proof. exact sampler_formats. Qed.
Print Assumptions C45_sampler_formats.
(* single precision, from the state that lambertian's constructors set: the fourth triple *)
Example C45_single_seed : forall lm, exists v,
  random_unit_vector (F:=F32 lm) 4 pcg_seed = Ok (v, Nat.iter 4 next3 pcg_seed).
Proof. exact seed_single. Qed.
(* some three draws are well inside the ball, whatever the increment *)
Theorem C45_margin : forall (i : Z), exists x, word64 x /\ normsqR (cubeR (PCG x i)) < 1 - / 2 ^ 20.
Proof. exact margin_cube. Qed.
Print Assumptions C45_margin.

(** ** C46 *)
Theorem C46_full_period : forall g, word64 (pc_state g) ->
  (forall t, word64 t -> exists n, (Z.of_nat n < 2 ^ 64)%Z /\ pc_state (Nat.iter n (fun h => snd (pcg32_random_r h)) g) = t) /\
  (forall n m, (Z.of_nat n < 2 ^ 64)%Z -> (Z.of_nat m < 2 ^ 64)%Z ->
     Nat.iter n (fun h => snd (pcg32_random_r h)) g = Nat.iter m (fun h => snd (pcg32_random_r h)) g -> n = m) /\
  (exists n, (Z.of_nat n = 2 ^ 64)%Z /\ Nat.iter n (fun h => snd (pcg32_random_r h)) g = g).
Proof. exact full_period. Qed.
Print Assumptions C46_full_period.
(* the first four outputs from the seed, as a check of the model *)
Example C46_outputs : map (fun n => fst (pcg32_random_r (Nat.iter n (fun h => snd (pcg32_random_r h)) pcg_seed))) [0; 1; 2; 3]%nat
  = [0; 2484769643; 220887133; 3193637852]%Z.
Proof. exact seed_outputs. Qed.

(** ** C72 *)
(* Of the 2^64 states, 2^32 give each output, whatever the increment. *)
Theorem C72_equidistributed : forall i v, (0 <= v < 2 ^ 32)%Z ->
  total (map (fun x => if Z.eqb (fst (pcg32_random_r (PCG x i))) v then 1%Z else 0%Z) (words (2 ^ 64))) = (2 ^ 32)%Z.
Proof. exact each_output. Qed.
Print Assumptions C72_equidistributed.
Theorem C72_output_range : forall s, (0 <= pcg_output s < 2 ^ 32)%Z.
Proof. exact pcg_output_range. Qed.
Print Assumptions C72_output_range.

(** ** C47 *)
Theorem C47_double : forall lm g, denotes (fst (pcg_real_01 (F:=F64 lm) g)) (IZR (fst (pcg32_random_r g)) / 2 ^ 32) /\
  0 <= IZR (fst (pcg32_random_r g)) / 2 ^ 32 < 1.
Proof. exact double_draw. Qed.
Print Assumptions C47_double.
(* In single precision 1 is returned sooner or later, from every state. *)
Theorem C47_float_refuted : forall lm g, word64 (pc_state g) ->
  exists n, denotes (fst (pcg_real_01 (F:=F32 lm) (Nat.iter n (fun h => snd (pcg32_random_r h)) g))) 1.
Proof. exact float_one_val. Qed.
Print Assumptions C47_float_refuted.
(* Full statement: r < 1. *)
Theorem C47_float_partial : forall lm g, exists r, denotes (fst (pcg_real_01 (F:=F32 lm) g)) r /\ 0 <= r <= 1.
Proof. exact float_range. Qed.
Print Assumptions C47_float_partial.

(** ** C48 *)
(* Full statement: for every box.  In double it holds exactly when no width overflows. *)
Theorem C48_double_partial : forall lm (ends : list (binary64 * binary64)) g, Forall real_ends ends ->
  (Forall2 inside ends (fst (random_point (F:=F64 lm) ends g)) <-> Forall (finite_width (Hp:=Hprec53) (Hm:=Hmax1024)) ends).
Proof. exact random_inside_double. Qed.
Print Assumptions C48_double_partial.
(* the assertion of newton *)
Theorem C48_contains_partial : forall lm (ends : list (binary64 * binary64)) g, Forall real_ends ends -> Forall (finite_width (Hp:=Hprec53) (Hm:=Hmax1024)) ends ->
  contains_vec (F:=F64 lm) ends (fst (random_point (F:=F64 lm) ends g)) = true.
Proof. exact random_then_contains. Qed.
Print Assumptions C48_contains_partial.
Example C48_case : Forall real_ends unit_box /\ Forall (finite_width (Hp:=Hprec53) (Hm:=Hmax1024)) unit_box.
Proof. exact unit_box_ok. Qed.
Theorem C48_overflow_refuted : forall lm g, Forall real_ends wide_box /\
  ~ Forall2 inside wide_box (fst (random_point (F:=F64 lm) wide_box g)).
Proof. exact wide_escape. Qed.
Print Assumptions C48_overflow_refuted.
(* In single precision, as long as no draw is rounded up to 1 ... *)
Theorem C48_float_partial : forall lm (ends : list (binary32 * binary32)) g, Forall real_ends ends ->
  (forall k, (k < length ends)%nat -> B2R (fst (pcg_real_01 (F:=F32 lm) (Nat.iter k pcg_next g))) < 1) ->
  (Forall2 inside ends (fst (random_point (F:=F32 lm) ends g)) <-> Forall (finite_width (Hp:=Hprec24) (Hm:=Hmax128)) ends).
Proof. exact random_inside_float. Qed.
Print Assumptions C48_float_partial.
(* ... but on [-1, 3*2^-25] every generator sooner or later leaves the box. *)
Theorem C48_float_refuted : forall lm g, word64 (pc_state g) -> exists n,
  contains_vec (F:=F32 lm) float_box (fst (random_point (F:=F32 lm) float_box (Nat.iter n pcg_next g))) = false.
Proof. exact float_escape. Qed.
Print Assumptions C48_float_refuted.
Example C48_float_case : Forall real_ends float_box /\ Forall (finite_width (Hp:=Hprec24) (Hm:=Hmax128)) float_box.
Proof. exact float_box_real. Qed.
(* Exact arithmetic. *)
Theorem C48_exact_partial : forall (L : limits) (b : list (R * R)) g, Forall (fun p => fst p <= snd p) b ->
  exists x, fst (random_point (F:=XR L) (map (fun p => (Fin (fst p), Fin (snd p))) b) g) = map Fin x /\
            Forall2 (fun p y => fst p <= y <= snd p) b x.
Proof. exact @random_point_finite. Qed.
Print Assumptions C48_exact_partial.

(** ** C49 *)
(* Full statement: all three overloads, every argument.  contains(vec) is right for all
   IEEE numbers of any format that are not NaN, infinities included. *)
Theorem C49_vec_partial : forall prec emax Hp Hm lm (ends : list (binary_float prec emax * binary_float prec emax)) v,
  length v = length ends ->
  Forall (fun p => is_nan (fst p) = false /\ is_nan (snd p) = false) ends -> Forall (fun x => is_nan x = false) v ->
  (contains_vec (F:=FL prec emax Hp Hm lm) ends v = true <-> Forall2 (fun p x => le_float (fst p) x /\ le_float x (snd p)) ends v).
Proof. exact contains_vec_exact. Qed.
Print Assumptions C49_vec_partial.
Theorem C49_exact_partial : forall (L : limits) ends x, Forall proper_ends ends -> length x = length ends ->
  (contains_vec (F:=XR L) ends (map Fin x) = true <-> within ends x).
Proof. exact @contains_vec_within. Qed.
Print Assumptions C49_exact_partial.
(* NaN is in every interval. *)
Theorem C49_nan_refuted : forall lm, exists ends v, contains_vec (F:=F64 lm) ends v = true /\ ends = [(d64 0 0, d64 1 0)] /\ v = [B754_nan].
Proof. exact nan_refuted. Qed.
Print Assumptions C49_nan_refuted.
(* contains(x,y) and contains(x,y,z) compare x instead of y with the end of the second pair. *)
Theorem C49_xy_refuted : forall L : limits, exists b0 b1 : xr * xr, exists x y,
  contains_xy (F:=XR L) b0 b1 x y = true /\ b1 = (Fin 0, Fin 1) /\ y = Fin 5.
Proof. exact xy_wrong. Qed.
Print Assumptions C49_xy_refuted.
Theorem C49_xy_misses_refuted : forall L : limits, exists b0 b1 : xr * xr, exists x y,
  contains_xy (F:=XR L) b0 b1 x y = false /\ b0 = (Fin 0, Fin 9) /\ b1 = (Fin 0, Fin 1) /\ x = Fin 5 /\ y = Fin 0.
Proof. exact xy_misses. Qed.
Print Assumptions C49_xy_misses_refuted.
Theorem C49_xyz_refuted : forall L : limits, exists b0 b1 b2 : xr * xr, exists x y z,
  contains_xyz (F:=XR L) b0 b1 b2 x y z = true /\ b1 = (Fin 0, Fin 1) /\ y = Fin 5.
Proof. exact xyz_wrong. Qed.
Print Assumptions C49_xyz_refuted.
(* They are right when x and y are on the same side of that end. *)
Theorem C49_xy_partial : forall (F : NumOps) b0 b1 (x y : @num F), nltb (snd b1) x = nltb (snd b1) y ->
  contains_xy b0 b1 x y = contains_vec [b0; b1] [x; y].
Proof. exact xy_agrees. Qed.
Print Assumptions C49_xy_partial.
Theorem C49_xyz_partial : forall (F : NumOps) b0 b1 b2 (x y z : @num F), nltb (snd b1) x = nltb (snd b1) y ->
  contains_xyz b0 b1 b2 x y z = contains_vec [b0; b1; b2] [x; y; z].
Proof. exact xyz_agrees. Qed.
Print Assumptions C49_xyz_partial.

(** ** C85 *)
(* Exact arithmetic: the point half way between the ends. *)
Theorem C85_centre : forall (L : limits) (b : list (R * R)), exists c,
  bounds_center (F:=XR L) (map (fun p => (Fin (fst p), Fin (snd p))) b) = map Fin c /\ Forall2 (fun p x => x - fst p = snd p - x) b c.
Proof. exact @centre_exact. Qed.
Print Assumptions C85_centre.
(* IEEE numbers of any format, with rounding: the centre is in the box just when no sum of
   two ends overflows. *)
Theorem C85_centre_float : forall prec emax Hp Hm lm (ends : list (binary_float prec emax * binary_float prec emax)), Forall real_ends ends ->
  (Forall2 inside ends (bounds_center (F:=FL prec emax Hp Hm lm) ends) <->
   Forall (fun p => is_finite (Bplus (prec_gt_0_:=Hp) (prec_lt_emax_:=Hm) mode_NE (fst p) (snd p)) = true) ends).
Proof. exact centre_inside. Qed.
Print Assumptions C85_centre_float.
Example C85_centre_case : Forall real_ends unit_box /\
  Forall (fun p : binary64 * binary64 => is_finite (Bplus (prec_gt_0_:=Hprec53) (prec_lt_emax_:=Hmax1024) mode_NE (fst p) (snd p)) = true) unit_box.
Proof. exact centre_case. Qed.
Theorem C85_overflow_refuted : forall lm, exists box : list (binary64 * binary64), Forall real_ends box /\
  ~ Forall2 inside box (bounds_center (F:=F64 lm) box) /\ contains_vec (F:=F64 lm) box (bounds_center (F:=F64 lm) box) = false.
Proof. exact far_centre_refuted. Qed.
Print Assumptions C85_overflow_refuted.
Theorem C85_volume : forall (L : limits) (b : list (R * R)),
  bounds_volume (F:=XR L) (map (fun p => (Fin (fst p), Fin (snd p))) b) = Fin (fold_right (fun p v => (snd p - fst p) * v) 1 b).
Proof. exact @volume_exact. Qed.
Print Assumptions C85_volume.
(* Full statement: empty() tells whether the box has an interior, for all ends and with
   rounding.  Proved in exact arithmetic for ends in order; false otherwise. *)
Theorem C85_empty_partial : forall (L : limits) (b : list (R * R)), Forall (fun p => fst p <= snd p) b ->
  (bounds_empty (F:=XR L) (map (fun p => (Fin (fst p), Fin (snd p))) b) = true <-> ~ exists x, Forall2 (fun p y => fst p < y < snd p) b x).
Proof. exact @empty_exact. Qed.
Print Assumptions C85_empty_partial.
(* two pairs the wrong way round make a positive volume *)
Theorem C85_reversed_refuted : forall L : limits, exists b : list (R * R), bounds_empty (F:=XR L) (map (fun p => (Fin (fst p), Fin (snd p))) b) = false /\
  ~ exists x, Forall2 (fun p y => fst p <= y <= snd p) b x.
Proof. exact backwards. Qed.
Print Assumptions C85_reversed_refuted.
(* the volume of a small box underflows *)
Theorem C85_underflow_refuted : forall lm, exists (box : list (binary64 * binary64)) v, bounds_empty (F:=F64 lm) box = true /\
  contains_vec (F:=F64 lm) box v = true /\ Forall2 (fun p x => B2R (fst p) < B2R x < B2R (snd p)) box v.
Proof. exact tiny_refuted. Qed.
Print Assumptions C85_underflow_refuted.
