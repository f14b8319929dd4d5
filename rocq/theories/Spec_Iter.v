(** Independent specification for the iterative solvers.  Nothing here refers to the
    model of the code. *)
From Coq Require Import Reals List ZArith.
From Verif Require Import Num XR Spec.
Import ListNotations.
Local Open Scope R_scope.

(** [f] computes the real function [g] on real arguments; elsewhere it is arbitrary. *)
Definition computes (f : xr -> xr) (g : R -> R) : Prop := forall x, f (Fin x) = Fin (g x).
Definition computes2 (f : xr -> xr * xr) (g d : R -> R) : Prop :=
  forall x, f (Fin x) = (Fin (g x), Fin (d x)).
Definition computes3 (f : xr -> xr * xr * xr) (g d d2 : R -> R) : Prop :=
  forall x, f (Fin x) = (Fin (g x), Fin (d x), Fin (d2 x)).

(** A right end of a window: a real number or +infinity. *)
Definition below (x : R) (hi : xr) : Prop :=
  match hi with Fin b => x < b | PInf => True | _ => False end.
Definition upto (x : R) (hi : xr) : Prop :=
  match hi with Fin b => x <= b | PInf => True | _ => False end.
Definition right_end (hi : xr) : Prop := hi = PInf \/ exists b, hi = Fin b.

(** The width of the cells in which bisect looks for a sign change. *)
Definition cell_width (eps a : R) (hi : xr) : R :=
  match hi with
  | Fin b => Rmax (Rmin ((b - a) / 8) 1) (10 * eps * Rabs a)
  | _ => Rmax 1 (10 * eps * Rabs a)
  end.

(** A point accepted by the residual test of newton and halley. *)
Definition accepted (eps : R) (g d : R -> R) (t : R) : Prop :=
  Rabs (g t) <= eps * Rabs (t * d t).

(** *** Systems of equations, vectors as lists *)

(** sum_j |J_j x_j| *)
Fixpoint weighted (row x : list R) : R :=
  match row, x with
  | a :: row', y :: x' => Rabs (a * y) + weighted row' x'
  | _, _ => 0
  end.
(** max_k sum_j |J_kj x_j| *)
Definition max_weighted (J : list (list R)) (x : list R) : R :=
  fold_right (fun row m => Rmax (weighted row x) m) 0 J.
(** Every |v_i| is at most eps * max_k sum_j |J_kj x_j|. *)
Definition small_residual (eps : R) (v : list R) (J : list (list R)) (x : list R) : Prop :=
  forall vi, In vi v -> Rabs vi <= eps * max_weighted J x.
(** [f] computes a value and a Jacobian (and second derivatives) on real vectors;
    elsewhere it is arbitrary. *)
Definition computes_system (f : list xr -> list xr * list (list xr))
    (V : list R -> list R) (J : list R -> list (list R)) : Prop :=
  forall x, f (map Fin x) = (map Fin (V x), map (map Fin) (J x)).
Definition computes_system2 (f : list xr -> list xr * list (list xr) * list (list (list xr)))
    (V : list R -> list R) (J : list R -> list (list R)) : Prop :=
  forall x, fst (f (map Fin x)) = (map Fin (V x), map (map Fin) (J x)).

(** The ends of a box: an interval of reals, possibly unbounded on either side. *)
Definition proper_ends (b : xr * xr) : Prop :=
  match b with
  | (Fin l, Fin h) => l <= h
  | (Fin _, PInf) | (MInf, Fin _) | (MInf, PInf) => True
  | _ => False
  end.
(** Each coordinate is within its bounds. *)
Definition within (ends : list (xr * xr)) (x : list R) : Prop :=
  Forall2 (fun b y => (match fst b with Fin l => l <= y | MInf => True | _ => False end) /\
                      (match snd b with Fin h => y <= h | PInf => True | _ => False end)) ends x.
Definition all_nan (v : list xr) : Prop := Forall (fun x => x = NaN) v.

(** What a non-NaN result (u,v,t) of ko_method means for the surface [h] and the ray from
    [o] in direction [d]: the surface point at (u,v) is the ray's point at t up to
    2 eps / |d|, and t is in the third bound. *)
Definition ko_solution (eps : R) (h : xr -> xr -> vec3 xr) (o d : vec3 R) (b2 : xr * xr) (u v t : xr) : Prop :=
  exists tau p, t = Fin tau /\ within [b2] [tau] /\ h u v = fin3 p /\
    normR (subR (addR o (scaleR tau d)) p) * normR d < 2 * eps.
