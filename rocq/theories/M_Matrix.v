(** Model of include/drt/matrix.hpp for the sizes 2x2 and 3x3 it implements. *)
From Coq Require Import ZArith List Bool.
From Verif Require Import Num M_Vec.
Import ListNotations.

Section Matrix.
Context {F : NumOps}.
Local Open Scope num_scope.

(* matrix.hpp:67-79 determinant, rows == 2 *)
Definition determinant2 (m : mat2 num) : num :=
  difference_of_products (a00 m) (a11 m) (a01 m) (a10 m).
(* matrix.hpp:67-79 determinant, rows == 3 *)
Definition determinant3 (m : mat3 num) : num :=
  m00 m * (m11 m * m22 m - m12 m * m21 m) - m01 m * (m10 m * m22 m - m12 m * m20 m)
  + m02 m * (m10 m * m21 m - m11 m * m20 m).

(* matrix.hpp:92-122 bool inverse(m, m_inv), rows == 2.  [out] is the prior content
   of m_inv; the result pairs the returned flag with the final content. *)
Definition inverse2 (m out : mat2 num) : bool * mat2 num :=
  let det := determinant2 m in
  if nabs det <=? nmin then (false, out)
  else
    let inv_det := #1 / det in
    (true, M2 (a11 m * inv_det) (- a01 m * inv_det)
              (- a10 m * inv_det) (a00 m * inv_det)).

(* matrix.hpp:92-122, rows == 3 *)
Definition inverse3 (m out : mat3 num) : bool * mat3 num :=
  let det := determinant3 m in
  if nabs det <=? nmin then (false, out)
  else
    let inv_det := #1 / det in
    (true,
     M3 ((m11 m * m22 m - m12 m * m21 m) * inv_det)
        ((m02 m * m21 m - m01 m * m22 m) * inv_det)
        ((m01 m * m12 m - m02 m * m11 m) * inv_det)
        ((m12 m * m20 m - m10 m * m22 m) * inv_det)
        ((m00 m * m22 m - m02 m * m20 m) * inv_det)
        ((m02 m * m10 m - m00 m * m12 m) * inv_det)
        ((m10 m * m21 m - m11 m * m20 m) * inv_det)
        ((m01 m * m20 m - m00 m * m21 m) * inv_det)
        ((m00 m * m11 m - m01 m * m10 m) * inv_det)).

(* matrix.hpp:82-89 inverse(m) by value: m_inv starts uninitialised, so reading the
   result after a failed inversion is undefined *)
Definition inverse3_value (m : mat3 num) : outcome (mat3 num) :=
  match inverse3 m m with
  | (true, r) => Ok r
  | (false, _) => Undef
  end.
Definition inverse2_value (m : mat2 num) : outcome (mat2 num) :=
  match inverse2 m m with
  | (true, r) => Ok r
  | (false, _) => Undef
  end.

(* matrix.hpp:125-134 M*v (3x3, 2x2) *)
Definition mulmv3 (m : mat3 num) (v : vec3 num) : vec3 num :=
  V3 (#0 + m00 m * vx v + m01 m * vy v + m02 m * vz v)
     (#0 + m10 m * vx v + m11 m * vy v + m12 m * vz v)
     (#0 + m20 m * vx v + m21 m * vy v + m22 m * vz v).
Definition mulmv2 (m : mat2 num) (v : vec2 num) : vec2 num :=
  V2 (#0 + a00 m * wx v + a01 m * wy v) (#0 + a10 m * wx v + a11 m * wy v).

(* matrix.hpp:137-149 A*B (3x3, 2x2) *)
Definition mulmm3 (a b : mat3 num) : mat3 num :=
  M3 (#0 + m00 a * m00 b + m01 a * m10 b + m02 a * m20 b)
     (#0 + m00 a * m01 b + m01 a * m11 b + m02 a * m21 b)
     (#0 + m00 a * m02 b + m01 a * m12 b + m02 a * m22 b)
     (#0 + m10 a * m00 b + m11 a * m10 b + m12 a * m20 b)
     (#0 + m10 a * m01 b + m11 a * m11 b + m12 a * m21 b)
     (#0 + m10 a * m02 b + m11 a * m12 b + m12 a * m22 b)
     (#0 + m20 a * m00 b + m21 a * m10 b + m22 a * m20 b)
     (#0 + m20 a * m01 b + m21 a * m11 b + m22 a * m21 b)
     (#0 + m20 a * m02 b + m21 a * m12 b + m22 a * m22 b).
Definition mulmm2 (a b : mat2 num) : mat2 num :=
  M2 (#0 + a00 a * a00 b + a01 a * a10 b) (#0 + a00 a * a01 b + a01 a * a11 b)
     (#0 + a10 a * a00 b + a11 a * a10 b) (#0 + a10 a * a01 b + a11 a * a11 b).

(* matrix.hpp:157-179 solve, rows == 2 *)
Definition solve2 (m : mat2 num) (b : vec2 num) : vec2 num :=
  if nabs (a10 m) <=? neps * neps then
    let v1 := wy b / a11 m in
    let v0 := (wx b - a01 m * v1) / a00 m in
    V2 v0 v1
  else
    let rM10 := #1 / a10 m in
    let m00dm10 := a00 m * rM10 in
    let b1 := wx b - wy b * m00dm10 in
    let v1 := b1 / (a01 m - a11 m * m00dm10) in
    let v0 := wy b - a11 m * v1 in
    V2 (v0 * rM10) v1.

(** Reading a cell of a local array: undefined when never written. *)
Definition read (c : option num) : outcome num :=
  match c with Some x => Ok x | None => Undef end.

Local Notation "x <- e ;; f" := (obind e (fun x => f)) (at level 61, e at next level, right associativity).

(* matrix.hpp:180-275 solve, rows == 3.  The local matrix A and vector y start
   uninitialised ([None]); the cells A(i,0) are written but never read. *)
Definition solve3 (m : mat3 num) (b : vec3 num) : outcome (vec3 num) :=
  if negb (m00 m =? #0) then
    let A01 := m01 m / m00 m in
    let A02 := m02 m / m00 m in
    let y0 := vx b / m00 m in
    let '(cA11, cA12, cy1) :=
      if negb (m10 m =? #0)
      then (Some (A01 - m11 m / m10 m), Some (A02 - m12 m / m10 m), Some (y0 - vy b / m10 m))
      else (None, None, None) in
    let '(cA21, cA22, cy2) :=
      if negb (m20 m =? #0)
      then (Some (A01 - m21 m / m20 m), Some (A02 - m22 m / m20 m), Some (y0 - vz b / m20 m))
      else (None, None, None) in
    A11 <- read cA11 ;;
    if negb (A11 =? #0) then
      A12' <- read cA12 ;;
      y1' <- read cy1 ;;
      let A12 := A12' / A11 in
      let y1 := y1' / A11 in
      A22' <- read cA22 ;;
      A21 <- read cA21 ;;
      y2' <- read cy2 ;;
      let A22 := A12 - A22' / A21 in
      let y2 := y1 - y2' / A21 in
      let v2 := y2 / A22 in
      let v1 := y1 - A12 * v2 in
      let v0 := y0 - A01 * v1 - A02 * v2 in
      Ok (V3 v0 v1 v2)
    else
      A12 <- read cA12 ;;
      A21 <- read cA21 ;;
      y1 <- read cy1 ;;
      y2 <- read cy2 ;;
      A22 <- read cA22 ;;
      let v2 := y1 / A12 in
      let v1 := (y2 - A22 * v2) / A21 in
      let v0 := y0 - A01 * v1 - A02 * v2 in
      Ok (V3 v0 v1 v2)
  else if negb (m20 m =? #0) then
    let A21 := m21 m / m20 m in
    let A22 := m22 m / m20 m in
    let y2 := vz b / m20 m in
    let '(cA11, cA12, cy1) :=
      if negb (m10 m =? #0)
      then (Some (A21 - m11 m / m10 m), Some (A22 - m12 m / m10 m), Some (y2 - vy b / m10 m))
      else (None, None, None) in
    A11 <- read cA11 ;;
    A12' <- read cA12 ;;
    y1' <- read cy1 ;;
    let '(A12, y1) :=
      if A11 =? #0 then (A12', y1') else (A12' / A11, y1' / A11) in
    let A02 := A12 - m02 m / m01 m in
    let y0 := y1 - vx b / m01 m in
    let y0 := y0 / A02 in
    let v2 := y0 in
    let v1 := y1 - A12 * v2 in
    let v0 := y2 - A21 * v1 - A22 * v2 in
    Ok (V3 v0 v1 v2)
  else Undef. (* matrix.hpp:270-279: v is returned uninitialised *)

End Matrix.
