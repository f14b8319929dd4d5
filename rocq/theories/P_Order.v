(** The comparator of bvh.hpp is a strict weak ordering unless a box has a NaN corner. *)
From Coq Require Import Reals Lra ZArith List Bool.
From Flocq Require Import Core BinarySingleNaN.
From Verif Require Import Num XR FL Spec Spec_Order M_Vec M_Hittable M_Shapes P_FL.
Local Open Scope R_scope.

Lemma xltb_weak : strict_weak (fun x => x <> NaN) (fun x y => xltb x y = true).
Proof.
  split; [|split].
  - intros [a| | |] N H; cbn in H; try discriminate; try (apply N; reflexivity). apply Rltb_iff in H. lra.
  - intros [a| | |] [b| | |] [c| | |] _ _ _ H K; cbn in *; try discriminate; try reflexivity. apply Rltb_iff in H, K. apply Rltb_iff. lra.
  - intros [a| | |] [b| | |] [c| | |] A B C H1 H2 H3 H4; cbn in *; try (exfalso; now auto); try (split; discriminate); try (split; auto; fail).
    assert (J : forall x y, Rltb x y <> true -> y <= x) by (intros x y H; apply Rnot_lt_le; intros K; apply H, Rltb_iff, K). apply J in H1, H2, H3, H4. split; intros K; apply Rltb_iff in K; lra.
Qed.

Section Order.
Context {F : NumOps}.
Variable key : num -> xr.
Hypothesis Hkey : forall x y, nltb x y = xltb (key x) (key y).
Lemma compare_weak : forall axis,
  strict_weak (fun o : hittable => exists b, bounding_box o = Some b /\ key (on_axis axis (b_min b)) <> NaN) (fun a b => box_compare axis a b = Ok true) /\
  forall a b ba bb, bounding_box a = Some ba -> bounding_box b = Some bb -> exists less, box_compare axis a b = Ok less.
Proof.
  intros axis. destruct xltb_weak as (W1 & W2 & W3).
  assert (E : forall a b ba bb, bounding_box a = Some ba -> bounding_box b = Some bb -> box_compare axis a b = Ok (xltb (key (on_axis axis (b_min ba))) (key (on_axis axis (b_min bb))))).
  { intros a b ba bb Ha Hb. unfold box_compare. rewrite Ha, Hb, Hkey. reflexivity. }
  assert (I : forall x, (Ok x = Ok true :> outcome bool) <-> x = true) by (intros x; split; [intros H; injection H; auto|intros ->; reflexivity]).
  split; [split; [|split]|].
  - intros a (b & Hb & N) H. rewrite (E a a b b Hb Hb) in H. apply (I _) in H. exact (W1 _ N H).
  - intros a b c (ba & Ha & Na) (bb & Hb & Nb) (bc & Hc & Nc). rewrite (E _ _ _ _ Ha Hb), (E _ _ _ _ Hb Hc), (E _ _ _ _ Ha Hc). rewrite !I. apply W2; assumption.
  - intros a b c (ba & Ha & Na) (bb & Hb & Nb) (bc & Hc & Nc). rewrite (E _ _ _ _ Ha Hb), (E _ _ _ _ Hb Ha), (E _ _ _ _ Hb Hc), (E _ _ _ _ Hc Hb), (E _ _ _ _ Ha Hc), (E _ _ _ _ Hc Ha). rewrite !I. apply W3; assumption.
  - intros a b ba bb Ha Hb. eexists. apply (E _ _ _ _ Ha Hb).
Qed.
End Order.

Lemma compare_exact : forall (L : limits) axis,
  strict_weak (fun o : hittable (F:=XR L) => exists b, bounding_box o = Some b /\ on_axis (F:=XR L) axis (b_min b) <> NaN) (fun a b => box_compare axis a b = Ok true) /\
  forall (a b : hittable (F:=XR L)) ba bb, bounding_box a = Some ba -> bounding_box b = Some bb -> exists less, box_compare axis a b = Ok less.
Proof. intros L axis. exact (compare_weak (F:=XR L) (fun x => x) (fun x y => eq_refl) axis). Qed.
Lemma compare_float : forall (prec emax : Z) (Hp : Prec_gt_0 prec) (Hm : Prec_lt_emax prec emax) (lm : libm (binary_float prec emax)) axis,
  let N := FL prec emax Hp Hm lm in
  strict_weak (fun o : hittable (F:=N) => exists b, bounding_box o = Some b /\ is_nan (on_axis (F:=N) axis (b_min b) : binary_float prec emax) = false) (fun a b => box_compare axis a b = Ok true) /\
  forall (a b : hittable (F:=N)) ba bb, bounding_box a = Some ba -> bounding_box b = Some bb -> exists less, box_compare axis a b = Ok less.
Proof.
  intros prec emax Hp Hm lm axis N. destruct (compare_weak (F:=N) (fun x : binary_float prec emax => fval x) (Bltb_fval prec emax) axis) as [W E]. split; [|exact E].
  assert (Q : forall x : binary_float prec emax, is_nan x = false -> fval x <> NaN) by (intros [s|s| |s m e B] H; cbn in *; try discriminate; destruct s; discriminate).
  destruct W as (W1 & W2 & W3). split; [|split].
  - intros a (b & Hb & H). apply W1. exists b. auto.
  - intros a b c (ba & Ha & Na) (bb & Hb & Nb) (bc & Hc & Nc). apply W2; [exists ba|exists bb|exists bc]; auto.
  - intros a b c (ba & Ha & Na) (bb & Hb & Nb) (bc & Hc & Nc). apply W3; [exists ba|exists bb|exists bc]; auto.
Qed.

(** finite parameters give boxes without NaN *)
Section Finite.
Variables (prec emax : Z).
Context (Hp : Prec_gt_0 prec) (Hm : Prec_lt_emax prec emax).
Notation float := (binary_float prec emax).
Variable lm : libm float.
Notation N := (FL prec emax Hp Hm lm).
Lemma minus_finite : forall x y : float, is_finite x = true -> is_nan y = false -> is_nan (Bminus mode_NE x y) = false.
Proof.
  intros x y X Y. destruct (is_finite y) eqn:Fy.
  - pose proof (Bminus_correct prec emax Hp Hm mode_NE x y X Fy) as C. destruct Rlt_bool.
    + destruct C as (_ & C & _). destruct (Bminus mode_NE x y); try discriminate; reflexivity.
    + destruct C as [C _]. unfold binary_overflow in C. cbn in C. destruct (Bminus mode_NE x y); try discriminate; reflexivity.
  - destruct y as [s|s| |s m e B]; try discriminate. destruct x as [s0|s0| |s0 m e B]; try discriminate; reflexivity.
Qed.
Lemma plus_finite : forall x y : float, is_finite x = true -> is_finite y = true -> is_nan (Bplus mode_NE x y) = false.
Proof.
  intros x y X Y. pose proof (Bplus_correct prec emax Hp Hm mode_NE x y X Y) as C. destruct Rlt_bool.
  - destruct C as (_ & C & _). destruct (Bplus mode_NE x y); try discriminate; reflexivity.
  - destruct C as [C _]. unfold binary_overflow in C. cbn in C. destruct (Bplus mode_NE x y); try discriminate; reflexivity.
Qed.
Lemma finite_nan : forall x : float, is_finite x = true -> is_nan x = false.
Proof. intros [s|s| |s m e B] H; try discriminate; reflexivity. Qed.
Lemma opp_nan : forall x : float, is_nan x = false -> is_nan (Bopp x) = false.
Proof. intros [s|s| |s m e B] H; try discriminate; reflexivity. Qed.
Lemma boxes_ordered : forall axis,
  (forall s, finite3 (s_center s) -> is_finite (s_radius s) = true -> exists b, bounding_box (of_sphere (F:=N) s) = Some b /\ is_nan (on_axis (F:=N) axis (b_min b) : float) = false) /\
  (forall s, finite3 (el_center s) -> finite3 (el_scales s) -> exists b, bounding_box (of_ellipsoid (F:=N) s) = Some b /\ is_nan (on_axis (F:=N) axis (b_min b) : float) = false) /\
  (forall s, finite3 (o_center s) -> is_finite (o_R s) = true -> is_finite (o_r s) = true -> exists b, bounding_box (of_torus (F:=N) s) = Some b /\ is_nan (on_axis (F:=N) axis (b_min b) : float) = false) /\
  (forall s, finite3 (dk_center s) -> is_finite (dk_radius s) = true -> exists b, bounding_box (of_disk (F:=N) s) = Some b /\ is_nan (on_axis (F:=N) axis (b_min b) : float) = false).
Proof.
  intros axis. split; [|split; [|split]].
  - intros [[x y z] r] (X & Y & Z0) H. cbn [s_center s_radius vx vy vz] in *. eexists. split; [reflexivity|]. destruct axis as [|[|axis]]; cbn [on_axis b_min vsub vx vy vz s_center s_radius]; apply minus_finite; auto using finite_nan.
  - intros [[x y z] [a b c]] (X & Y & Z0) (A & B & C). cbn [el_center el_scales vx vy vz] in *. eexists. split; [reflexivity|]. destruct axis as [|[|axis]]; cbn [on_axis b_min vsub vx vy vz el_center el_scales]; apply minus_finite; auto using finite_nan.
  - intros o (X & Y & Z0) HR Hr. eexists. split; [reflexivity|]. destruct axis as [|[|axis]]; cbn [on_axis b_min vsub vx vy vz]; apply minus_finite; auto using finite_nan; apply plus_finite; auto.
  - intros k (X & Y & Z0) H. eexists. split; [reflexivity|]. destruct axis as [|[|axis]]; cbn [on_axis b_min vx vy vz]; [apply opp_nan|apply opp_nan|]; apply finite_nan; assumption.
Qed.
End Finite.
(** a sphere of infinite radius at infinity has a NaN corner, and the others are equivalent to it but not to each other *)
Definition lost64 : sphere binary64 := Sphere (V3 (B754_infinity false) (d64 0 0) (d64 0 0)) (B754_infinity false).
Definition left64 : sphere binary64 := Sphere (V3 (d64 0 0) (d64 0 0) (d64 0 0)) (d64 1 0).
Definition right64 : sphere binary64 := Sphere (V3 (d64 5 0) (d64 0 0) (d64 0 0)) (d64 1 0).
Lemma compare_nan : forall lm, exists a b c : hittable (F:=F64 lm), (exists ba bb bc, bounding_box a = Some ba /\ bounding_box b = Some bb /\ bounding_box c = Some bc) /\
  box_compare 0 a b <> Ok true /\ box_compare 0 b a <> Ok true /\ box_compare 0 b c <> Ok true /\ box_compare 0 c b <> Ok true /\ box_compare 0 a c = Ok true.
Proof.
  intros lm. exists (of_sphere (F:=F64 lm) left64), (of_sphere (F:=F64 lm) lost64), (of_sphere (F:=F64 lm) right64). split; [do 3 eexists; repeat split|].
  assert (Q : forall x, x = false -> (Ok x : outcome bool) <> Ok true) by (intros x ->; discriminate).
  unfold box_compare. cbn [bounding_box of_sphere sphere_box]. split; [|split; [|split; [|split]]]; [| | | |apply f_equal; vm_compute; reflexivity]; apply Q; vm_compute; reflexivity.
Qed.
