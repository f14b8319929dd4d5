(** Concrete cases for the accuracy theorems, on doubles. *)
From Coq Require Import Reals Lra ZArith Lia List Bool.
From Flocq Require Import Core BinarySingleNaN.
From Verif Require Import Num XR FL Spec Spec_Scene Spec_Accuracy M_Vec M_Roots M_Hittable M_Shapes P_FL P_Round P_Accuracy.
Import ListNotations.
Local Open Scope R_scope.

Lemma d64_val : forall m e, (Z.abs m <= 2 ^ 53)%Z -> (-1074 <= e <= 900)%Z -> fval (d64 m e) = Fin (IZR m * bpow radix2 e).
Proof.
  intros m e M E. apply val_fval. unfold d64. pose proof (binary_normalize_correct 53 1024 Hprec53 Hmax1024 mode_NE m e false) as C. unfold F2R in C. cbn [Fnum Fexp] in C.
  assert (A : Rabs (IZR m * bpow radix2 e) <= bpow radix2 (1024 - 1)).
  { rewrite Rabs_mult, (Rabs_pos_eq (bpow radix2 e)) by apply bpow_ge_0. apply Rle_trans with (bpow radix2 53 * bpow radix2 e); [|rewrite <- bpow_plus; apply bpow_le; lia].
    apply Rmult_le_compat_r; [apply bpow_ge_0|]. rewrite <- abs_IZR. rewrite <- (IZR_Zpower radix2) by lia. apply IZR_le. exact M. }
  rewrite (no_overflow 53 1024 Hprec53 Hmax1024) in C; [|apply valid_rnd_round_mode|exact A]. destruct C as (C1 & C2 & _). split; [exact C2|]. rewrite C1. cbn [round_mode]. apply rnd_id.
  apply format_F2R; [exact Hprec53|exact M|unfold SpecFloat.emin; lia].
Qed.
Lemma moderate_pow : forall k m e, (0 <= k)%Z -> (1 <= Z.abs m < 2 ^ 10)%Z -> (- k <= e <= k - 10)%Z -> moderate k (IZR m * bpow radix2 e).
Proof.
  intros k m e K M E. right. rewrite Rabs_mult, (Rabs_pos_eq (bpow radix2 e)), <- abs_IZR by apply bpow_ge_0. split.
  - apply Rle_trans with (1 * bpow radix2 e); [rewrite Rmult_1_l; apply bpow_le; lia|]. apply Rmult_le_compat_r; [apply bpow_ge_0|]. apply IZR_le. lia.
  - apply Rle_trans with (bpow radix2 10 * bpow radix2 e); [|rewrite <- bpow_plus; apply bpow_le; lia]. apply Rmult_le_compat_r; [apply bpow_ge_0|]. change (bpow radix2 10) with (IZR (2 ^ 10)). apply IZR_le. lia.
Qed.

(** x^2 - 2^60 x + 1: the two terms of b^2 - 4ac differ by a factor 2^118, and the smaller root,
    about 2^-60, is lost by the textbook formula *)
Lemma accuracy_case : (8 <= 53)%Z /\ (2 * 450 + 2 * 53 + 8 <= 1024)%Z /\
  (fval (d64 1 0) = Fin 1 /\ fval (d64 (-1) 60) = Fin (- bpow radix2 60)) /\
  (moderate 450 1 /\ moderate 450 (- bpow radix2 60)) /\
  0 <= - bpow radix2 60 * - bpow radix2 60 - 4 * 1 * 1.
Proof.
  assert (B : 4 <= bpow radix2 60) by (change 4 with (bpow radix2 2); apply bpow_le; lia).
  split; [lia|]. split; [lia|]. split; [split|split; [split|]].
  - rewrite d64_val by lia. f_equal. cbn. ring.
  - rewrite d64_val by lia. f_equal. ring.
  - replace 1 with (1 * bpow radix2 0) by (cbn; ring). apply moderate_pow; lia.
  - replace (- bpow radix2 60) with (-1 * bpow radix2 60) by ring. apply moderate_pow; lia.
  - nra.
Qed.

(** outside the moderate range the discriminant overflows: x^2 + 2^600 x + 1 *)
Lemma overflow_case : forall lm, exists (fa fb fc : binary64) (b : R) f0 f1,
  fval fa = Fin 1 /\ fval fb = Fin b /\ fval fc = Fin 1 /\ 4 <= b * b - 4 * 1 * 1 /\
  quadratic_roots (F:=F64 lm) fa fb fc = [f0; f1] /\ fval f0 = MInf /\ fval f1 = Fin 0.
Proof.
  intros lm. exists (d64 1 0), (d64 1 600), (d64 1 0), (1 * bpow radix2 600), (B754_infinity true), (B754_zero true).
  split; [rewrite d64_val by lia; f_equal; cbn; ring|]. split; [apply d64_val; lia|]. split; [rewrite d64_val by lia; f_equal; cbn; ring|]. split.
  - assert (B : 4 <= bpow radix2 600) by (change 4 with (bpow radix2 2); apply bpow_le; lia). nra.
  - split; [|split; reflexivity]. vm_compute. reflexivity.
Qed.

(** a vector whose squares span 2^200 *)
Lemma lengths_case : (2 * 450 + 2 * 53 + 8 <= 1024)%Z /\ map3 fval (V3 (d64 3 0) (d64 (-5) (-100)) (d64 0 0)) = fin3 (V3 3 (-5 * bpow radix2 (-100)) 0) /\
  moderate3 450 (V3 3 (-5 * bpow radix2 (-100)) 0) /\ V3 3 (-5 * bpow radix2 (-100)) 0 <> V3 0 0 0.
Proof.
  split; [lia|]. split; [|split].
  - unfold fin3, map3. cbn [vx vy vz]. rewrite !d64_val by lia. replace (3 * bpow radix2 0) with 3 by (cbn; ring). replace (0 * bpow radix2 0) with 0 by ring. reflexivity.
  - split; [|split]; cbn [vx vy vz]; [replace 3 with (3 * bpow radix2 0) by (cbn; ring); apply moderate_pow; lia|apply moderate_pow; lia|left; reflexivity].
  - intros H. injection H as H _. lra.
Qed.

(** the unit sphere seen from three units away *)
Definition ball64 : sphere binary64 := Sphere (V3 (d64 0 0) (d64 0 0) (d64 0 0)) (d64 1 0).
Definition look64 : ray binary64 := Ray (V3 (d64 0 0) (d64 0 0) (d64 (-3) 0)) (V3 (d64 0 0) (d64 0 0) (d64 1 0)).
Lemma sphere_case : (24 <= 53)%Z /\ (4 * 172 + 6 * 53 + 16 <= 1024)%Z /\
  (let c := V3 0 0 0 in let o := V3 0 0 (-3) in let d := V3 0 0 1 in let r := 1 in let S := 3 in let u := bpow radix2 (-53) in
   (map3 fval (s_center ball64) = fin3 c /\ fval (s_radius ball64) = Fin r /\ map3 fval (r_orig look64) = fin3 o /\ map3 fval (r_dir look64) = fin3 d) /\
   (moderate3 172 c /\ moderate 172 r /\ moderate3 172 o /\ moderate3 172 d /\ r <> 0 /\ d <> V3 0 0 0) /\
   (within3 S o /\ within3 S c /\ Rabs r <= S) /\
   400 * u * (S * S) * normsqR d <= dotR (subR o c) d * dotR (subR o c) d - normsqR d * (normsqR (subR o c) - r * r) /\
   forall t, Rabs (normsqR (subR (lineR o d t) c) - r * r) <= 2700 * u * (S * S) -> xleb (fval (d64 1 (-10))) (Fin t) && xleb (Fin t) (fval (B754_infinity false : binary64)) = true).
Proof.
  assert (V0 : fval (d64 0 0) = Fin 0) by (rewrite d64_val by lia; f_equal; ring). assert (V1 : fval (d64 1 0) = Fin 1) by (rewrite d64_val by lia; f_equal; cbn; ring). assert (V3' : fval (d64 (-3) 0) = Fin (-3)) by (rewrite d64_val by lia; f_equal; cbn; ring).
  assert (M1 : moderate 172 1) by (replace 1 with (1 * bpow radix2 0) by (cbn; ring); apply moderate_pow; lia). assert (M3 : moderate 172 (-3)) by (replace (-3) with (-3 * bpow radix2 0) by (cbn; ring); apply moderate_pow; lia). assert (M0 : moderate 172 0) by (left; reflexivity).
  assert (U : 0 < bpow radix2 (-53) <= 1 / 1000000) by (split; [apply bpow_gt_0|cbn; lra]). set (u := bpow radix2 (-53)) in *.
  split; [lia|]. split; [lia|]. cbv zeta. split; [|split; [|split; [|split]]].
  - unfold ball64, look64, fin3, map3. cbn [s_center s_radius r_orig r_dir vx vy vz]. rewrite V0, V1, V3'. auto.
  - unfold moderate3. cbn [vx vy vz]. repeat (split; [auto with real|]). intros H. injection H as H. lra.
  - unfold within3. cbn [vx vy vz]. rewrite Rabs_R0, Rabs_R1, Rabs_left by lra. lra.
  - unfold normsqR, dotR, subR. cbn [vx vy vz]. nra.
  - intros t H. unfold normsqR, dotR, subR, lineR, addR, scaleR in H. cbn [vx vy vz] in H. apply Rabs_le_inv in H. rewrite d64_val by lia. cbn [fval xleb]. rewrite andb_true_r. apply Rleb_true. cbn [bpow]. change (Z.pow_pos radix2 10) with 1024%Z.
    destruct (Rle_lt_dec (1 * / 1024) t); [assumption|exfalso]. assert (t < 1) by lra. nra.
Qed.

(** the unit cube, and a ray into it which is parallel to a pair of faces and descends along another *)
Definition cube64 : aabb binary64 := Box (V3 (d64 0 0) (d64 0 0) (d64 0 0)) (V3 (d64 1 0) (d64 1 0) (d64 1 0)).
Definition slant64 : ray binary64 := Ray (V3 (d64 (-1) 0) (d64 1 (-1)) (d64 1 0)) (V3 (d64 2 0) (d64 0 0) (d64 (-1) 0)).
Lemma cube_case : (2 * 450 + 2 * 53 + 8 <= 1024)%Z /\
  (let b := Box (V3 0 0 0) (V3 1 1 1) in let r := Ray (V3 (-1) (/ 2) 1) (V3 2 0 (-1)) in let u := bpow radix2 (-53) in
   (map3 fval (b_min cube64) = fin3 (b_min b) /\ map3 fval (b_max cube64) = fin3 (b_max b) /\ map3 fval (r_orig slant64) = fin3 (r_orig r) /\ map3 fval (r_dir slant64) = fin3 (r_dir r)) /\
   (moderate3 450 (b_min b) /\ moderate3 450 (b_max b) /\ moderate3 450 (r_orig r) /\ moderate3 450 (r_dir r)) /\
   (in_window (fval (d64 1 (-10))) (fval (B754_infinity false : binary64)) (/ 2) /\ in_window (fval (d64 1 (-10))) (fval (B754_infinity false : binary64)) 1) /\
   in_box b (pointR r (/ 2)) /\ in_box b (pointR r 1) /\ / 2 + 4 * u * Rabs (/ 2) < 1 - 4 * u * Rabs 1).
Proof.
  assert (V0 : fval (d64 0 0) = Fin 0) by (rewrite d64_val by lia; f_equal; ring). assert (V1 : fval (d64 1 0) = Fin 1) by (rewrite d64_val by lia; f_equal; cbn; ring). assert (V2 : fval (d64 2 0) = Fin 2) by (rewrite d64_val by lia; f_equal; cbn; ring).
  assert (Vm : fval (d64 (-1) 0) = Fin (-1)) by (rewrite d64_val by lia; f_equal; cbn; ring). assert (Vh : fval (d64 1 (-1)) = Fin (/ 2)) by (rewrite d64_val by lia; f_equal; cbn; ring).
  assert (M1 : moderate 450 1) by (replace 1 with (1 * bpow radix2 0) by (cbn; ring); apply moderate_pow; lia). assert (M2 : moderate 450 2) by (replace 2 with (2 * bpow radix2 0) by (cbn; ring); apply moderate_pow; lia). assert (M0 : moderate 450 0) by (left; reflexivity).
  assert (Mm : moderate 450 (-1)) by (replace (-1) with (-1 * bpow radix2 0) by (cbn; ring); apply moderate_pow; lia). assert (Mh : moderate 450 (/ 2)) by (replace (/ 2) with (1 * bpow radix2 (-1)) by (cbn; ring); apply moderate_pow; lia).
  assert (U : 0 < bpow radix2 (-53) <= 1 / 1000000) by (split; [apply bpow_gt_0|cbn; lra]). set (u := bpow radix2 (-53)) in *.
  split; [lia|]. cbv zeta. split; [|split; [|split; [|split; [|split]]]].
  - unfold cube64, slant64, fin3, map3. cbn [b_min b_max r_orig r_dir vx vy vz]. rewrite V0, V1, V2, Vm, Vh. auto.
  - unfold moderate3. cbn [b_min b_max r_orig r_dir vx vy vz]. auto 10.
  - unfold in_window. rewrite d64_val by lia. cbn [fval at_least at_most bpow]. change (Z.pow_pos radix2 10) with 1024%Z. lra.
  - unfold in_box, pointR, lineR, addR, scaleR. cbn [b_min b_max r_orig r_dir vx vy vz]. lra.
  - unfold in_box, pointR, lineR, addR, scaleR. cbn [b_min b_max r_orig r_dir vx vy vz]. lra.
  - rewrite Rabs_R1, Rabs_pos_eq by lra. lra.
Qed.
