(** A view in double precision: from (3, 4, 0) towards the origin, with the z axis upwards, a viewport
    whose half height is the tangent one, and the aspect ratio 3/2. *)
From Coq Require Import Reals Lra ZArith Lia List Bool.
From Flocq Require Import Core BinarySingleNaN.
From Verif Require Import Num XR FL Spec Spec_Light Spec_Accuracy M_Vec M_Image P_FL P_Round E_Accuracy E_Nearest E_Shown.
Local Open Scope R_scope.

Lemma view_case : (24 <= 53)%Z /\ (64 <= 1024)%Z /\ (4 * 172 + 6 * 53 + 16 <= 1024)%Z /\ 64 <= 64 /\ 2 * 64 <= bpow radix2 172 /\
  map3 fval (V3 (d64 3 0) (d64 4 0) (d64 0 0)) = fin3 (V3 3 4 0) /\ map3 fval (V3 (d64 0 0) (d64 0 0) (d64 0 0)) = fin3 (V3 0 0 0) /\ map3 fval (V3 (d64 0 0) (d64 0 0) (d64 1 0)) = fin3 (V3 0 0 1) /\
  moderate3 172 (V3 3 4 0) /\ moderate3 172 (V3 0 0 0) /\ subR (V3 3 4 0) (V3 0 0 0) <> V3 0 0 0 /\ normsqR (V3 0 0 1) <= 4 /\
  unitR (subR (V3 3 4 0) (V3 0 0 0)) = V3 (3 / 5) (4 / 5) 0 /\ 1 / 10 <= normR (crossR (V3 0 0 1) (unitR (subR (V3 3 4 0) (V3 0 0 0)))) /\
  fval (ntan (NumOps:=F64 flat_libm) (ndiv (NumOps:=F64 flat_libm) (ndiv (NumOps:=F64 flat_libm) (nmul (NumOps:=F64 flat_libm) (d64 90 0) (npi (NumOps:=F64 flat_libm))) (nofZ (NumOps:=F64 flat_libm) 180)) (nofZ (NumOps:=F64 flat_libm) 2))) = Fin 1 /\
  fval (d64 3 (-1)) = Fin (3 / 2) /\ within3 64 (V3 3 4 0).
Proof.
  split; [lia|]. split; [lia|]. split; [lia|]. split; [lra|]. split. { apply Rle_trans with (bpow radix2 7); [cbn; lra|apply bpow_le; lia]. }
  unfold map3, fin3; cbn [vx vy vz]. rewrite !d64_small by lia. split; [reflexivity|]. split; [reflexivity|]. split; [reflexivity|].
  assert (M : forall x, 1 <= x <= 4 -> moderate 172 x).
  { intros x H. right. rewrite Rabs_pos_eq by lra. split; [apply Rle_trans with (bpow radix2 0); [apply bpow_le; lia|cbn; lra]|apply Rle_trans with (bpow radix2 2); [cbn; lra|apply bpow_le; lia]]. }
  split. { unfold moderate3; cbn [vx vy vz]. split; [apply M; lra|]. split; [apply M; lra|left; reflexivity]. }
  split. { unfold moderate3; cbn [vx vy vz]. split; [|split]; left; reflexivity. }
  split. { unfold subR; cbn [vx vy vz]. intros E. inversion E. lra. }
  split. { unfold normsqR, dotR; cbn [vx vy vz]. lra. }
  assert (W : unitR (subR (V3 3 4 0) (V3 0 0 0)) = V3 (3 / 5) (4 / 5) 0).
  { assert (Nm : normR (subR (V3 3 4 0) (V3 0 0 0)) = 5). { unfold normR, normsqR, dotR, subR; cbn [vx vy vz]. replace ((3 - 0) * (3 - 0) + (4 - 0) * (4 - 0) + (0 - 0) * (0 - 0)) with (5 * 5) by ring. apply sqrt_square. lra. }
    unfold unitR. rewrite Nm. unfold scaleR, subR; cbn [vx vy vz]. f_equal; field. }
  split; [exact W|]. split.
  { rewrite W. unfold normR, normsqR, dotR, crossR; cbn [vx vy vz]. match goal with |- _ <= sqrt ?t => replace t with (1 * 1) by field end. rewrite sqrt_square by lra. lra. }
  split. { transitivity (fval (d64 1 0)); [reflexivity|]. rewrite d64_small by lia. reflexivity. }
  split. { rewrite d64_val by lia. reflexivity. }
  unfold within3; cbn [vx vy vz]. split; [|split]; apply Rabs_le; lra.
Qed.
