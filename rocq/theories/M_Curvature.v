(** The scalar by which the programs colour a surface by its Gaussian curvature. *)
From Coq Require Import ZArith.
From Verif Require Import Num M_Hittable.

Section Curvature.
Context {F : NumOps}.
Local Open Scope num_scope.

(* torus_curvature.cpp:32-38, ellipsoid_curvature.cpp:32-39: [bounds] is what
   gaussian_curvature_bounds() returned; the result is handed to the colour map *)
Definition linear_scalar (bounds : num * num) (hr : hit_record num) : num :=
  let kappa_min := fst bounds in
  let kappa_max := snd bounds in
  let kappa := gaussian_curvature hr in
  (kappa - kappa_min) / (kappa_max - kappa_min).

(* helicoid.cpp:29-36, enneper.cpp:29-36 *)
Definition log_scalar (bounds : num * num) (hr : hit_record num) : num :=
  let ln_nkmin := nlog (- snd bounds) in
  let ln_nkmax := nlog (- fst bounds) in
  let kappa := gaussian_curvature hr in
  let ln_nk := nlog (- kappa) in
  (ln_nk - ln_nkmin) / (ln_nkmax - ln_nkmin).
End Curvature.
