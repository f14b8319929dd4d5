(** Vocabulary of the scene theorems: what a primitive promises, boxes, windows. *)
From Coq Require Import Reals List.
From Verif Require Import Num XR Spec M_Vec M_Hittable.
Import ListNotations.
Local Open Scope R_scope.

Definition finray (r : ray R) : ray xr := Ray (fin3 (r_orig r)) (fin3 (r_dir r)).
(** the point of the ray at parameter t *)
Definition pointR (r : ray R) (t : R) : vec3 R := lineR (r_orig r) (r_dir r) t.

(** strictly before / after an end of a window *)
Definition before (t : R) (hi : xr) : Prop :=
  match hi with Fin b => t < b | PInf => True | _ => False end.
Definition after (lo : xr) (t : R) : Prop :=
  match lo with Fin a => a < t | MInf => True | _ => False end.

(** the closed box with corners [lo], [hi] *)
Definition in_box (b : aabb R) (p : vec3 R) : Prop :=
  (vx (b_min b) <= vx p <= vx (b_max b)) /\ (vy (b_min b) <= vy p <= vy (b_max b)) /\
  (vz (b_min b) <= vz p <= vz (b_max b)).
Definition in_open_box (b : aabb R) (p : vec3 R) : Prop :=
  (vx (b_min b) < vx p < vx (b_max b)) /\ (vy (b_min b) < vy p < vy (b_max b)) /\
  (vz (b_min b) < vz p < vz (b_max b)).
Definition finbox (b : aabb R) : aabb xr := Box (fin3 (b_min b)) (fin3 (b_max b)).
Definition box_within (a b : aabb R) : Prop := forall p, in_box a p -> in_box b p.

(** [o.hit(r, lo, hi, rec)] is exact, if the ray meets [o] exactly at the parameters
    satisfying [meets] and [describes t] says what a record at t must contain: it
    reports the first meeting in the closed window, or a miss if there is none. *)
Definition hit_exact {L : limits} (r : ray R) (o : hittable (F:=XR L))
  (meets : R -> Prop) (describes : R -> hit_record xr -> Prop) (lo hi : xr) (rec : hit_record xr) : Prop :=
  exists b rec', hit o (finray r) lo hi rec = Ok (b, rec') /\
    if b : bool then
      exists t, h_t rec' = Fin t /\ meets t /\ in_window lo hi t /\
        (forall t', meets t' -> in_window lo hi t' -> t <= t') /\ describes t rec'
    else forall t, meets t -> ~ in_window lo hi t.

(** ... for all windows, whose ends may be infinite but not NaN. *)
Definition hit_contract {L : limits} (r : ray R) (o : hittable (F:=XR L))
  (meets : R -> Prop) (describes : R -> hit_record xr -> Prop) : Prop :=
  forall lo hi rec, lo <> NaN -> hi <> NaN -> hit_exact r o meets describes lo hi rec.

(** A miss leaves the record alone. *)
Definition quiet {L : limits} (r : ray R) (o : hittable (F:=XR L)) : Prop :=
  forall lo hi rec rec', hit o (finray r) lo hi rec = Ok (false, rec') -> rec' = rec.

(** Each meeting point has a piece of the ray of positive length on one side which stays
    in the (closed) box. *)
Definition boxed (r : ray R) (meets : R -> Prop) (b : aabb R) : Prop :=
  forall t, meets t -> exists a c, a < c /\ a <= t <= c /\
    forall s, a < s < c -> in_box b (pointR r s).

(** The scene obtained by a sequence of calls of [add]. *)
Definition scene_of {L : limits} {M : Type} (items : list (hittable (F:=XR L) * M)) : hittable_list (F:=XR L) :=
  fold_left (fun s '(o, m) => add s o m) items empty_list.

(** Corner-wise containment of boxes over any scalar type: [a] lies in [b]. *)
Definition box_le {F : NumOps} (a b : aabb num) : Prop :=
  nleb (vx (b_min b)) (vx (b_min a)) = true /\ nleb (vy (b_min b)) (vy (b_min a)) = true /\
  nleb (vz (b_min b)) (vz (b_min a)) = true /\
  nleb (vx (b_max a)) (vx (b_max b)) = true /\ nleb (vy (b_max a)) (vy (b_max b)) = true /\
  nleb (vz (b_max a)) (vz (b_max b)) = true.
(** no coordinate is NaN *)
Definition no_nan_box {F : NumOps} (a : aabb num) : Prop :=
  nisnan (vx (b_min a)) = false /\ nisnan (vy (b_min a)) = false /\ nisnan (vz (b_min a)) = false /\
  nisnan (vx (b_max a)) = false /\ nisnan (vy (b_max a)) = false /\ nisnan (vz (b_max a)) = false.

(** The objects at the leaves of a hierarchy. *)
Fixpoint leaves {F : NumOps} (t : bvh) : list hittable :=
  match t with Leaf o => [o] | Node l r _ => leaves l ++ leaves r end.
(** Each node's box contains the boxes of all leaves below it. *)
Fixpoint covering {L : limits} (box : hittable (F:=XR L) -> aabb R) (t : bvh (F:=XR L)) : Prop :=
  match t with
  | Leaf _ => True
  | Node l r bx => covering box l /\ covering box r /\
      exists B, bx = finbox B /\ forall o, In o (leaves l ++ leaves r) -> box_within (box o) B
  end.
