(** A camera in double precision: three units in front of the origin, with a viewport of 4 by 2. *)
From Coq Require Import Reals Lra ZArith Lia List Bool.
From Flocq Require Import Core BinarySingleNaN.
From Verif Require Import Num XR FL Spec Spec_Accuracy M_Vec M_Image P_FL P_Round E_Accuracy E_Nearest.
Local Open Scope R_scope.

Definition cam64 (lm : libm binary64) : camera (F:=F64 lm) :=
  Camera (F:=F64 lm) (V3 (d64 0 0) (d64 0 0) (d64 3 0)) (V3 (d64 (-2) 0) (d64 (-1) 0) (d64 2 0)) (V3 (d64 4 0) (d64 0 0) (d64 0 0)) (V3 (d64 0 0) (d64 2 0) (d64 0 0)) (V3 (d64 0 0) (d64 0 0) (d64 0 0)).
Lemma cam_case : forall lm, (24 <= 53)%Z /\ (64 <= 1024)%Z /\ (4 * 172 + 6 * 53 + 16 <= 1024)%Z /\ bpow radix2 (-172) <= 4 <= bpow radix2 172 /\
  (map3 fval (cam_origin (F:=F64 lm) (cam64 lm)) = fin3 (V3 0 0 3) /\ map3 fval (cam_lower_left (F:=F64 lm) (cam64 lm)) = fin3 (V3 (-2) (-1) 2) /\
   map3 fval (cam_horizontal (F:=F64 lm) (cam64 lm)) = fin3 (V3 4 0 0) /\ map3 fval (cam_vertical (F:=F64 lm) (cam64 lm)) = fin3 (V3 0 2 0)) /\
  within3 4 (V3 0 0 3) /\ within3 4 (V3 (-2) (-1) 2) /\ within3 4 (V3 4 0 0) /\ within3 4 (V3 0 2 0) /\ (2 <= 1200 <= 2 ^ 24)%Z /\ (2 <= 750 <= 2 ^ 24)%Z.
Proof.
  intros lm. split; [lia|]. split; [lia|]. split; [lia|].
  split. { split; [apply Rle_trans with (bpow radix2 0); [apply bpow_le; lia|cbn; lra]|apply Rle_trans with (bpow radix2 2); [cbn; lra|apply bpow_le; lia]]. }
  split. { unfold cam64, map3, fin3; cbn [cam_origin cam_lower_left cam_horizontal cam_vertical vx vy vz]. rewrite !d64_small by lia. split; [|split; [|split]]; reflexivity. }
  assert (W : forall a b c, -4 <= a <= 4 -> -4 <= b <= 4 -> -4 <= c <= 4 -> within3 4 (V3 a b c)) by (intros a b c A B C; unfold within3; cbn [vx vy vz]; split; [|split]; apply Rabs_le; lra).
  split; [apply W; lra|]. split; [apply W; lra|]. split; [apply W; lra|]. split; [apply W; lra|]. lia.
Qed.
