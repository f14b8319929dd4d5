(** A ray in double precision that meets glass of index 3/2. *)
From Coq Require Import Reals Lra ZArith Lia List Bool.
From Flocq Require Import Core BinarySingleNaN.
From Verif Require Import Num XR FL Spec Spec_Light Spec_Accuracy Spec_Bend M_Vec M_Hittable M_Materials P_FL P_Round E_Accuracy E_Nearest.
Local Open Scope R_scope.

Definition oblique64 : ray binary64 := Ray (V3 (d64 0 0) (d64 0 0) (d64 0 0)) (V3 (d64 3 0) (d64 (-4) 0) (d64 0 0)).
Definition facing64 : hit_record binary64 := let n := B754_nan in HR (V3 n n n) (V3 (d64 0 0) (d64 1 0) (d64 0 0)) n n n n true n n n n n n n.
(* with a draw of 1/2 the ray is refracted: its second component stays negative; with a draw of 0 it is mirrored *)
Lemma slant_two : forall lm, let y draw := vy (r_dir (snd (dielectric_scatter (F:=F64 lm) (d64 3 (-1)) draw oblique64 facing64))) in
  Bltb (y (d64 1 (-1))) (d64 0 0) = true /\ Bltb (d64 0 0) (y (d64 0 0)) = true.
Proof. intros lm y. split; vm_compute; reflexivity. Qed.
Lemma slant_case : forall lm, (24 <= 53)%Z /\ (64 <= 1024)%Z /\ (2 * 400 + 2 * 53 + 8 <= 1024)%Z /\ fval (d64 3 (-1)) = Fin (3 / 2) /\ 1 / 4 <= 3 / 2 <= 4 /\
  map3 fval (r_dir oblique64) = fin3 (V3 3 (-4) 0) /\ moderate3 400 (V3 3 (-4) 0) /\ V3 3 (-4) 0 <> V3 0 0 0 /\ map3 fval (h_normal facing64) = fin3 (V3 0 1 0) /\
  Rabs (normsqR (V3 0 1 0) - 1) <= 0 /\ dotR (V3 3 (-4) 0) (V3 0 1 0) <= 0 /\ dotR (unitR (V3 3 (-4) 0)) (V3 0 1 0) <= - (80 * bpow radix2 (-53)) /\
  let y draw := vy (r_dir (snd (dielectric_scatter (F:=F64 lm) (d64 3 (-1)) draw oblique64 facing64))) in
  Bltb (y (d64 1 (-1))) (d64 0 0) = true /\ Bltb (d64 0 0) (y (d64 0 0)) = true.
Proof.
  intros lm. split; [lia|]. split; [lia|]. split; [lia|]. split; [rewrite d64_val by lia; f_equal; cbn; lra|]. split; [lra|].
  split; [unfold oblique64, map3, fin3; cbn [r_dir vx vy vz]; rewrite !d64_val by lia; unfold map3; cbn [vx vy vz]; f_equal; f_equal; cbn; ring|].
  assert (B : forall x, 1 <= Rabs x <= 4 -> moderate 400 x).
  { intros x H. right. split; [apply Rle_trans with 1; [|lra]; change 1 with (bpow radix2 0); apply bpow_le; lia|]. apply Rle_trans with (bpow radix2 2); [cbn; lra|]. apply bpow_le. lia. }
  split; [unfold moderate3; cbn [vx vy vz]; split; [apply B; rewrite Rabs_pos_eq; lra|]; split; [apply B; rewrite Rabs_left; lra|left; reflexivity]|].
  split; [intros Q; apply (f_equal vx) in Q; cbn in Q; lra|].
  split; [unfold facing64, map3, fin3; cbn [h_normal vx vy vz]; rewrite !d64_val by lia; unfold map3; cbn [vx vy vz]; f_equal; f_equal; cbn; ring|].
  split; [unfold normsqR, dotR; cbn [vx vy vz]; rewrite Rabs_pos_eq; lra|]. split; [unfold dotR; cbn [vx vy vz]; lra|].
  split; [|exact (slant_two lm)].
  assert (E : normR (V3 3 (-4) 0) = 5) by (unfold normR, normsqR, dotR; cbn [vx vy vz]; replace (3 * 3 + -4 * -4 + 0 * 0) with (5 * 5) by lra; apply sqrt_square; lra).
  unfold unitR, scaleR, dotR; cbn [vx vy vz]. rewrite E. assert (bpow radix2 (-53) <= bpow radix2 (-10)) by (apply bpow_le; lia). assert (bpow radix2 (-10) = / 1024) by (cbn; lra). lra.
Qed.
