(** Independent specification: ordinary real vector algebra and polynomials.
    Nothing here refers to the model of the code. *)
From Coq Require Import Reals List ZArith.
From Flocq Require Import BinarySingleNaN.
From Verif Require Import Num XR.
Import ListNotations.
Local Open Scope R_scope.

(** *** Vectors of R^3 *)
Definition dotR (u v : vec3 R) : R := vx u * vx v + vy u * vy v + vz u * vz v.
Definition addR (u v : vec3 R) : vec3 R := V3 (vx u + vx v) (vy u + vy v) (vz u + vz v).
Definition subR (u v : vec3 R) : vec3 R := V3 (vx u - vx v) (vy u - vy v) (vz u - vz v).
Definition scaleR (k : R) (v : vec3 R) : vec3 R := V3 (k * vx v) (k * vy v) (k * vz v).
Definition negR (v : vec3 R) : vec3 R := V3 (- vx v) (- vy v) (- vz v).
Definition crossR (u v : vec3 R) : vec3 R :=
  V3 (vy u * vz v - vz u * vy v) (vz u * vx v - vx u * vz v) (vx u * vy v - vy u * vx v).
Definition normsqR (v : vec3 R) : R := dotR v v.
Definition normR (v : vec3 R) : R := sqrt (normsqR v).
Definition zeroR : vec3 R := V3 0 0 0.
(** The point at parameter t of the line through o with direction d. *)
Definition lineR (o d : vec3 R) (t : R) : vec3 R := addR o (scaleR t d).
Definition distR (p q : vec3 R) : R := normR (subR p q).

(** *** Matrices *)
Definition mvR (m : mat3 R) (v : vec3 R) : vec3 R :=
  V3 (m00 m * vx v + m01 m * vy v + m02 m * vz v)
     (m10 m * vx v + m11 m * vy v + m12 m * vz v)
     (m20 m * vx v + m21 m * vy v + m22 m * vz v).
Definition mv2R (m : mat2 R) (v : vec2 R) : vec2 R :=
  V2 (a00 m * wx v + a01 m * wy v) (a10 m * wx v + a11 m * wy v).
Definition detR (m : mat3 R) : R :=
  m00 m * (m11 m * m22 m - m12 m * m21 m) - m01 m * (m10 m * m22 m - m12 m * m20 m)
  + m02 m * (m10 m * m21 m - m11 m * m20 m).
Definition det2R (m : mat2 R) : R := a00 m * a11 m - a01 m * a10 m.
Definition id3R : mat3 R := M3 1 0 0 0 1 0 0 0 1.
Definition id2R : mat2 R := M2 1 0 0 1.
Definition mmR (a b : mat3 R) : mat3 R :=
  M3 (m00 a * m00 b + m01 a * m10 b + m02 a * m20 b)
     (m00 a * m01 b + m01 a * m11 b + m02 a * m21 b)
     (m00 a * m02 b + m01 a * m12 b + m02 a * m22 b)
     (m10 a * m00 b + m11 a * m10 b + m12 a * m20 b)
     (m10 a * m01 b + m11 a * m11 b + m12 a * m21 b)
     (m10 a * m02 b + m11 a * m12 b + m12 a * m22 b)
     (m20 a * m00 b + m21 a * m10 b + m22 a * m20 b)
     (m20 a * m01 b + m21 a * m11 b + m22 a * m21 b)
     (m20 a * m02 b + m21 a * m12 b + m22 a * m22 b).
Definition mm2R (a b : mat2 R) : mat2 R :=
  M2 (a00 a * a00 b + a01 a * a10 b) (a00 a * a01 b + a01 a * a11 b)
     (a10 a * a00 b + a11 a * a10 b) (a10 a * a01 b + a11 a * a11 b).

(** The matrices on which the elimination of [solve] meets no vanishing pivot. *)
Definition pivots_ok (m : mat3 R) : Prop :=
  (m00 m <> 0 /\ m10 m <> 0 /\ m20 m <> 0 /\ m00 m * m21 m <> m01 m * m20 m) \/
  (m00 m = 0 /\ m01 m <> 0 /\ m10 m <> 0 /\ m20 m <> 0 /\ m10 m * m21 m <> m11 m * m20 m).

(** *** Polynomials *)
Definition quadR (a b c x : R) : R := a * x ^ 2 + b * x + c.
Definition cubicR (a b c d x : R) : R := a * x ^ 3 + b * x ^ 2 + c * x + d.
Definition quarticR (a b c d e x : R) : R := a * x ^ 4 + b * x ^ 3 + c * x ^ 2 + d * x + e.

(** A list of reals in increasing (not necessarily strict) order. *)
Fixpoint increasing (l : list R) : Prop :=
  match l with
  | [] => True
  | x :: l' => (forall y, In y l' -> x <= y) /\ increasing l'
  end.

(** [x] is zero or above the threshold [m] in magnitude. *)
Definition off_threshold (m x : R) : Prop := x = 0 \/ m < Rabs x.

(** *** Parameter windows [lo,hi], whose ends may be infinite *)
Definition at_least (lo : xr) (t : R) : Prop :=
  match lo with Fin a => a <= t | MInf => True | _ => False end.
Definition at_most (hi : xr) (t : R) : Prop :=
  match hi with Fin b => t <= b | PInf => True | _ => False end.
Definition in_window (lo hi : xr) (t : R) : Prop := at_least lo t /\ at_most hi t.

(** *** Invariants of the cubic a x^3 + b x^2 + c x + d *)
(** classical discriminant: positive for three distinct real roots, negative for one *)
Definition cubic_discriminant (a b c d : R) : R :=
  18 * a * b * c * d - 4 * b ^ 3 * d + b ^ 2 * c ^ 2 - 4 * a * c ^ 3 - 27 * a ^ 2 * d ^ 2.
(** half the value of the depressed monic cubic at 0 *)
Definition cubic_inflection (a b c d : R) : R :=
  (2 * b ^ 3 - 9 * a * b * c + 27 * a ^ 2 * d) / (54 * a ^ 3).

(** No coefficient that [cubic_roots] compares with the smallest normal number [m]
    lies strictly between 0 and [m], and the polynomial is not identically 0. *)
Definition cubic_off_threshold (m a b c d : R) : Prop :=
  off_threshold m a /\
  (a = 0 -> off_threshold m b /\ off_threshold m c /\ ~ (b = 0 /\ c = 0 /\ d = 0)) /\
  (a <> 0 -> off_threshold m d) /\
  (a <> 0 -> d = 0 -> off_threshold m b) /\
  (a <> 0 -> d <> 0 -> off_threshold (m ^ 3) (cubic_inflection a b c d)).

(** A cubic with non-zero constant term and a root of multiplicity exactly two. *)
Definition cubic_double_root (a b c d : R) : Prop :=
  a <> 0 /\ d <> 0 /\ cubic_discriminant a b c d = 0 /\ b ^ 2 <> 3 * a * c.

(** *** Quartics a x^4 + b x^3 + c x^2 + d x + e *)
(** coefficients of the depressed monic quartic y^4 + p y^2 + q y + r, x = y - b/(4a) *)
Definition qrt_p (a b c : R) : R := c / a - 3 * (b / a) ^ 2 / 8.
Definition qrt_q (a b c d : R) : R := d / a - b / a * (c / a) / 2 + (b / a) ^ 3 / 8.
Definition qrt_r (a b c d e : R) : R :=
  e / a - b / a * (d / a) / 4 + (b / a) ^ 2 * (c / a) / 16 - 3 * (b / a) ^ 4 / 256.
(** resolvent cubic z^3 + 2 p z^2 + (p^2 - 4 r) z - q^2 *)
Definition resolvent (p q r z : R) : R := cubicR 1 (2 * p) (p * p - 4 * r) (- q * q) z.

(** No quantity that [quartic_roots] compares with the smallest normal number [m]
    lies strictly between 0 and [m], and the polynomial is not identically 0. *)
Definition quartic_off_threshold (m a b c d e : R) : Prop :=
  let p := qrt_p a b c in let q := qrt_q a b c d in let r := qrt_r a b c d e in
  m < 1 /\ off_threshold m a /\
  (a = 0 -> cubic_off_threshold m b c d e) /\
  (a <> 0 -> off_threshold m e) /\
  (a <> 0 -> e = 0 -> cubic_off_threshold m a b c d) /\
  (a <> 0 -> e <> 0 -> off_threshold m r) /\
  (a <> 0 -> e <> 0 -> r = 0 -> cubic_off_threshold m 1 0 p q) /\
  (a <> 0 -> e <> 0 -> r <> 0 -> off_threshold m q) /\
  (a <> 0 -> e <> 0 -> r <> 0 -> q = 0 -> off_threshold m p) /\
  (a <> 0 -> e <> 0 -> r <> 0 -> q <> 0 ->
     cubic_off_threshold m 1 (2 * p) (p * p - 4 * r) (- q * q) /\
     (forall z, 0 < z -> resolvent p q r z = 0 -> m < sqrt z)).

(** The quartics which reduce to a cubic with a root of multiplicity exactly two. *)
Definition quartic_degenerate (a b c d e : R) : Prop :=
  (a = 0 /\ cubic_double_root b c d e) \/
  (a <> 0 /\ e = 0 /\ cubic_double_root a b c d) \/
  (a <> 0 /\ e <> 0 /\ qrt_r a b c d e = 0 /\
     cubic_double_root 1 0 (qrt_p a b c) (qrt_q a b c d)).

(** *** Matrices of any size, and their row-major storage *)
Fixpoint sumR (n : nat) (f : nat -> R) : R :=
  match n with O => 0 | S n' => sumR n' f + f n' end.
Definition list_of (n : nat) (f : nat -> R) : list R := map f (seq 0 n).
(** the [rows x cols] matrix [f] written row after row *)
Definition row_major (rows cols : nat) (f : nat -> nat -> R) : list R :=
  flat_map (fun i => map (f i) (seq 0 cols)) (seq 0 rows).
(** the [panels x rows x cols] tensor [f] written panel after panel *)
Definition panel_major (panels rows cols : nat) (f : nat -> nat -> nat -> R) : list R :=
  flat_map (fun i => row_major rows cols (f i)) (seq 0 panels).
Definition mulR (n : nat) (a b : nat -> nat -> R) (i j : nat) : R := sumR n (fun k => a i k * b k j).
Definition applyR (n : nat) (a : nat -> nat -> R) (v : nat -> R) (i : nat) : R :=
  sumR n (fun k => a i k * v k).
(** initialised storage holding the reals [l] *)
Definition stored (l : list R) : list (option xr) := map (fun x => Some (Fin x)) l.

(** Floats: no later entry is smaller than an earlier one. *)
Fixpoint non_decreasing {prec emax : Z} (l : list (binary_float prec emax)) : Prop :=
  match l with
  | [] => True
  | x :: l' => (forall y, In y l' -> Bltb y x = false) /\ non_decreasing l'
  end.
