(** What the theorems on rendering in floating point talk about. *)
From Coq Require Import Reals List.
From Flocq Require Import Core BinarySingleNaN.
From Verif Require Import Num XR FL Spec_Random M_Vec M_Rng M_Hittable M_Materials M_Shapes M_World M_Fog P_FL.
Local Open Scope R_scope.

Section Spec.
Variables prec emax : Z.
Context (Hp : Prec_gt_0 prec) (Hm : Prec_lt_emax prec emax).
Variable lm : libm (binary_float prec emax).
Notation float := (binary_float prec emax).
Notation N := (FL prec emax Hp Hm lm).

(** a number of the interval [0, b], and a colour with such components *)
Definition at_most (b : R) (x : float) : Prop := exists a, fval x = Fin a /\ 0 <= a <= b.
Definition at_most3 (b : R) (v : vec3 float) : Prop := at_most b (vx v) /\ at_most b (vy v) /\ at_most b (vz v).
(** whatever the ray, the window and the record are, even NaN, hit returns *)
Definition answers (o : hittable (F:=N)) : Prop :=
  forall (r : ray float) (lo hi : float) (rec : hit_record float), exists found rec', hit o r lo hi rec = Ok (found, rec').
(** an object, or a medium in such an object *)
Definition thing_answers (t : thing (F:=N)) : Prop := match t with Plain o => answers o | Fog b _ => answers b end.
(** reflects at most what it gets, and emits at most b, in every record *)
Definition moderate_material (b : R) (m : material (F:=N)) : Prop :=
  match m with
  | Lambertian albedo | Metal albedo | Isotropic albedo => forall rec, at_most3 1 (albedo rec)
  | Dielectric _ emit | DiffuseLight emit => forall rec, at_most3 b (emit rec)
  end.
(** the generators hold values of uint64_t; all else may be anything *)
Definition word_state (s : state (F:=N)) : Prop := forall k, word64 (pc_state (st_pcg s k)).
End Spec.
