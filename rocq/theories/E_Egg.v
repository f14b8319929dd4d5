(** An ellipsoid in double precision: centre (1, 0, 0), semi-axes 2, 1 and 1, seen from (5, 0, 0). *)
From Coq Require Import Reals Lra ZArith Lia List Bool.
From Flocq Require Import Core BinarySingleNaN.
From Verif Require Import Num XR FL Spec Spec_Accuracy Spec_Egg M_Vec M_Roots M_Hittable M_Shapes P_FL P_Round P_Egg E_Accuracy E_Nearest E_Shown.
Local Open Scope R_scope.

Definition egg64 := Ellipsoid (V3 (d64 1 0) (d64 0 0) (d64 0 0)) (V3 (d64 2 0) (d64 1 0) (d64 1 0)).
Definition at_egg64 := Ray (V3 (d64 5 0) (d64 0 0) (d64 0 0)) (V3 (d64 (-1) 0) (d64 0 0) (d64 0 0)).
Lemma some_not_none : forall A (x : option A), match x with Some _ => true | None => false end = true -> x <> None.
Proof. intros A [a|] H; discriminate. Qed.
Lemma egg_case : (24 <= 53)%Z /\ (12 * 38 + 10 * 53 + 36 <= 1024)%Z /\
  map3 fval (el_center egg64) = fin3 (V3 1 0 0) /\ map3 fval (el_scales egg64) = fin3 (V3 2 1 1) /\ map3 fval (r_orig at_egg64) = fin3 (V3 5 0 0) /\ map3 fval (r_dir at_egg64) = fin3 (V3 (-1) 0 0) /\
  moderate3 38 (V3 1 0 0) /\ moderate3 38 (V3 2 1 1) /\ moderate3 38 (V3 5 0 0) /\ moderate3 38 (V3 (-1) 0 0) /\ V3 (-1) 0 0 <> V3 0 0 0 /\
  within_axes 3 (V3 2 1 1) (V3 5 0 0) /\ within_axes 3 (V3 2 1 1) (V3 1 0 0) /\
  forall lm rec, exists rec', ellipsoid_hit (F:=F64 lm) egg64 at_egg64 (d64 0 0) (d64 100 0) rec = Ok (true, rec').
Proof.
  split; [lia|]. split; [lia|]. unfold map3, fin3, egg64, at_egg64; cbn [vx vy vz el_center el_scales r_orig r_dir]. rewrite !d64_small by lia.
  split; [reflexivity|]. split; [reflexivity|]. split; [reflexivity|]. split; [reflexivity|].
  assert (M : forall x, 1 <= Rabs x <= 8 -> moderate 38 x).
  { intros x H. right. split; [apply Rle_trans with (bpow radix2 0); [apply bpow_le; lia|cbn; lra]|apply Rle_trans with (bpow radix2 3); [cbn; lra|apply bpow_le; lia]]. }
  assert (M' : forall x, 1 <= x <= 8 -> moderate 38 x) by (intros x H; apply M; rewrite Rabs_pos_eq; lra).
  assert (Z : moderate 38 0) by (left; reflexivity).
  unfold moderate3; cbn [vx vy vz]. split; [split; [apply M'; lra|auto]|]. split; [split; [apply M'; lra|split; apply M'; lra]|]. split; [split; [apply M'; lra|auto]|].
  split; [split; [apply M; rewrite Rabs_left; lra|auto]|]. split; [intros E; injection E as E; lra|].
  unfold within_axes; cbn [vx vy vz]. assert (A : forall x, 0 <= x -> Rabs x = x) by (intros; apply Rabs_pos_eq; assumption). rewrite !A by lra. split; [lra|]. split; [lra|].
  intros lm rec. apply egg_struck.
  apply some_not_none. vm_compute. reflexivity.
Qed.
Lemma egg_small : 11500 * bpow radix2 (- (53)) * (3 * 3) <= 1 / 4.
Proof. apply Rle_trans with (11500 * bpow radix2 (- (24)) * (3 * 3)); [|cbn; lra]. apply Rmult_le_compat_r; [lra|]. apply Rmult_le_compat_l; [lra|]. apply bpow_le. lia. Qed.
