(** Model of include/drt/roots.hpp: polynomial roots (bisect is in M_Iter.v). *)
From Coq Require Import ZArith List Bool.
From Verif Require Import Num.
Import ListNotations.

Section Roots.
Context {F : NumOps}.
Local Open Scope num_scope.
Local Notation "x <- e ;; f" := (obind e (fun x => f)) (at level 61, e at next level, right associativity).

(* roots.hpp:14-20 discriminant *)
Definition discriminant (a b c : num) : num :=
  let w := #4 * a * c in
  let e := nfma (- c) (#4 * a) w in
  let f := nfma b b (- w) in
  f + e.

(* roots.hpp:25-87 quadratic_roots; the returned vector is a list *)
Definition quadratic_roots (a b c : num) : list num :=
  if nabs a <=? nmin then
    if (b =? #0) && negb (c =? #0) then
      if negb (c =? #0) then [] else [#0; #0]
    else [(- c) / b; (- c) / b]
  else if nabs b <=? nmin then
    let x0_sq := (- c) / a in
    if x0_sq <? #0 then []
    else let x0 := nsqrt x0_sq in [- x0; x0]
  else
    let delta := discriminant a b c in
    if delta <? #0 then []
    else
      let q := (- (b + ncopysign (nsqrt delta) b)) / #2 in
      let x0 := q / a in
      let x1 := c / q in
      if x0 <? x1 then [x0; x1] else [x1; x0].

(* roots.hpp:91-103 first_quadratic_root_in_range *)
Definition first_quadratic_root_in_range (a b c tmin tmax : num) : option num :=
  match quadratic_roots a b c with
  | [r0; r1] =>
      if (r0 >=? tmin) && (r0 <=? tmax) then Some r0
      else if (r1 >=? tmin) && (r1 <=? tmax) then Some r1
      else None
  | _ => None
  end.

(* roots.hpp:105-107 sgn *)
Definition sgn (v : num) : Z := (Z.b2z (#0 <? v)%num - Z.b2z (v <? #0)%num)%Z.

(* roots.hpp:113-153 cubic_roots *)
Definition cubic_roots (a b c d : num) : outcome (list num) :=
  if nabs a <=? nmin then Ok (quadratic_roots b c d)
  else if nabs d <=? nmin then std_sort (quadratic_roots a b c ++ [#0])
  else
    let p := b / a in
    let q := c / a in
    let r := d / a in
    let Q := (p * p - #3 * q) / #9 in
    let R := (#2 * p * p * p - #9 * p * q + #27 * r) / #54 in
    if R * R <? Q * Q * Q then
      let rtQ := nsqrt Q in
      let theta := nacos (R / (Q * rtQ)) in
      std_sort [ (- #2) * rtQ * ncos (theta / #3) - p / #3;
                 (- #2) * rtQ * ncos ((theta + #2 * npi) / #3) - p / #3;
                 (- #2) * rtQ * ncos ((theta - #2 * npi) / #3) - p / #3 ]
    else
      let arg := R * R - Q * Q * Q in
      let A := nofZ (- sgn R)%Z * ncbrt (nabs R + nsqrt arg) in
      if nabs A <=? nmin then Ok [A - p / #3]
      else Ok [A + Q / A - p / #3].

(* roots.hpp:240-255 one Halley correction of an approximate root r of the quartic *)
Definition quartic_halley_step (a b c d e r : num) : num :=
  let df := #4 * a * r + #3 * b in
  let df := df * r + #2 * c in
  let df := df * r + d in
  let d2f := #12 * a * r + #6 * b in
  let d2f := d2f * r + #2 * c in
  let f := a * r + b in
  let f := f * r + c in
  let f := f * r + d in
  let f := f * r + e in
  let denom := #2 * df * df - f * d2f in
  if nabs denom >? nmin then r - #2 * f * df / denom else r.

(* roots.hpp:160-259 quartic_roots *)
Definition quartic_roots (a b c d e : num) : outcome (list num) :=
  if nabs a <=? nmin then cubic_roots b c d e
  else if nabs e <=? nmin then
    v <- cubic_roots a b c d ;; Ok (v ++ [#0])
  else
    let A := b / a in
    let B := c / a in
    let C := d / a in
    let D := e / a in
    let Asq := A * A in
    let p := B - #3 * Asq / #8 in
    let q := C - A * B / #2 + Asq * A / #8 in
    let r := D - A * C / #4 + Asq * B / #16 - #3 * Asq * Asq / #256 in
    if nabs r <=? nmin then
      v <- cubic_roots (#1) (#0) p q ;;
      std_sort (map (fun y => y - A / #4) (v ++ [#0]))
    else if nabs q <=? nmin then
      let w := quadratic_roots (#1) p r in
      std_sort (flat_map (fun r => if r >=? #0
                                   then [nsqrt r - A / #4; (- nsqrt r) - A / #4]
                                   else []) w)
    else
      z_roots <- cubic_roots (#1) (#2 * p) (p * p - #4 * r) ((- q) * q) ;;
      match rev z_roots with
      | [] => Undef                      (* back() of an empty vector *)
      | zb :: _ =>
          if zb <=? #0 then Ok []
          else
            let s := nsqrt zb in
            let v := (p + s * s + q / s) / #2 in
            let u := v - q / s in
            let roots1 := quadratic_roots (#1) s u in
            let roots2 := quadratic_roots (#1) (- s) v in
            let roots1 := map (fun r => r - A / #4) (roots1 ++ roots2) in
            let roots1 := map (quartic_halley_step a b c d e) roots1 in
            std_sort roots1
      end.

End Roots.
