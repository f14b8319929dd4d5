(** A sphere of radius 5 met off its axis by a ray in double precision. *)
From Coq Require Import Reals Lra ZArith Lia List Bool.
From Flocq Require Import Core BinarySingleNaN.
From Verif Require Import Num XR FL Spec Spec_Light Spec_Accuracy Spec_Bend M_Vec M_Roots M_Hittable M_Shapes P_FL P_Round E_Accuracy E_Nearest E_Acne.
Local Open Scope R_scope.

Definition globe64 : sphere binary64 := Sphere (V3 (d64 0 0) (d64 0 0) (d64 0 0)) (d64 5 0).
Definition aside64 : ray binary64 := Ray (V3 (d64 3 0) (d64 0 0) (d64 (-20) 0)) (V3 (d64 0 0) (d64 0 0) (d64 1 0)).
Lemma globe_hit : forall lm, exists rec', sphere_hit (F:=F64 lm) globe64 aside64 (d64 1000 (-52)) (B754_infinity false) blank64 = Ok (true, rec') /\ map3 fval (h_p rec') = fin3 (V3 3 0 (-4)).
Proof.
  intros lm. assert (T : match root_of (F:=F64 lm) globe64 aside64 (d64 1000 (-52)) (B754_infinity false) with Some t => let p := ray_at (F:=F64 lm) aside64 t in Beqb (vx p) (d64 3 0) && Beqb (vy p) (d64 0 0) && Beqb (vz p) (d64 (-4) 0) | None => false end = true) by (vm_compute; reflexivity).
  destruct (root_of (F:=F64 lm) globe64 aside64 (d64 1000 (-52)) (B754_infinity false)) as [t|] eqn:R0; [|discriminate]. destruct (point_hit (F:=F64 lm) _ _ _ _ t blank64 R0) as (rec' & Eh & Ep). exists rec'. split; [exact Eh|].
  cbv zeta in T. rewrite <- Ep in T. exact (point_val _ _ _ _ _ _ _ (d64_small 3 ltac:(lia)) (d64_small 0 ltac:(lia)) (d64_small (-4) ltac:(lia)) T).
Qed.
Lemma globe_case : forall lm, (24 <= 53)%Z /\ (4 * 172 + 6 * 53 + 16 <= 1024)%Z /\
  let c := V3 0 0 0 in let o := V3 3 0 (-20) in let d := V3 0 0 1 in let r := 5 in let S := 20 in let e := bpow radix2 (-53) * (S / Rabs r * (S / Rabs r)) in
  (map3 fval (s_center globe64) = fin3 c /\ fval (s_radius globe64) = Fin r /\ map3 fval (r_orig aside64) = fin3 o /\ map3 fval (r_dir aside64) = fin3 d) /\
  (moderate3 172 c /\ moderate 172 r /\ moderate3 172 o /\ moderate3 172 d /\ r <> 0 /\ d <> V3 0 0 0) /\ (within3 S o /\ within3 S c /\ Rabs r <= S) /\ e <= / 3000000 /\
  (fval (d64 3 (-1)) = Fin (3 / 2) /\ 1 / 4 <= 3 / 2 <= 4) /\
  exists rec' p, sphere_hit (F:=F64 lm) globe64 aside64 (d64 1000 (-52)) (B754_infinity false) blank64 = Ok (true, rec') /\ map3 fval (h_p rec') = fin3 p /\
    3100 * e <= Rabs (dotR (unitR d) (unitR (scaleR (/ r) (subR p c)))).
Proof.
  intros lm. split; [lia|]. split; [lia|]. cbv zeta.
  assert (Md : forall m, (Z.abs m <= 20)%Z -> m <> 0%Z -> moderate 172 (IZR m)).
  { intros m H Z0. right. rewrite <- abs_IZR. split.
    - apply Rle_trans with 1; [change 1 with (bpow radix2 0); apply bpow_le; lia|apply IZR_le; lia].
    - apply Rle_trans with (bpow radix2 5); [replace (bpow radix2 5) with (IZR 32) by (cbn; lra); apply IZR_le; lia|apply bpow_le; lia]. }
  assert (M0 : moderate 172 0) by (left; reflexivity).
  assert (E5 : Rabs 5 = 5) by (apply Rabs_pos_eq; lra). rewrite E5.
  assert (U : 0 < bpow radix2 (-53) <= / 1000000000) by (split; [apply bpow_gt_0|apply Rle_trans with (bpow radix2 (-30)); [apply bpow_le; lia|cbn; lra]]).
  split.
  { unfold globe64, aside64, map3, fin3; cbn [s_center s_radius r_orig r_dir vx vy vz]. rewrite !d64_val by lia. unfold map3; cbn [vx vy vz]. split; [|split; [|split]]; repeat f_equal; cbn; lra. }
  split. { split; [split; [exact M0|split; exact M0]|]. split; [apply (Md 5%Z); lia|]. split; [split; [apply (Md 3%Z); lia|split; [exact M0|apply (Md (-20)%Z); lia]]|].
    split; [split; [exact M0|split; [exact M0|apply (Md 1%Z); lia]]|]. split; [lra|]. intros Q. apply (f_equal vz) in Q. cbn in Q. lra. }
  split. { unfold within3; cbn [vx vy vz]. split; [|split; [|lra]]; (split; [|split]); apply Rabs_le; lra. }
  split; [lra|]. split; [split; [rewrite d64_val by lia; f_equal; cbn; lra|lra]|].
  destruct (globe_hit lm) as (rec' & H & P). exists rec', (V3 3 0 (-4)). split; [exact H|]. split; [exact P|].
  assert (E1 : normR (V3 0 0 1) = 1) by (unfold normR, normsqR, dotR; cbn [vx vy vz]; replace (0 * 0 + 0 * 0 + 1 * 1) with (1 * 1) by lra; apply sqrt_square; lra).
  assert (E2 : normR (scaleR (/ 5) (subR (V3 3 0 (-4)) (V3 0 0 0))) = 1) by (unfold normR, normsqR, dotR, scaleR, subR; cbn [vx vy vz]; match goal with |- sqrt ?x = _ => replace x with (1 * 1) by lra end; apply sqrt_square; lra).
  unfold unitR. rewrite E1, E2. unfold dotR, scaleR, subR; cbn [vx vy vz]. match goal with |- _ <= Rabs ?x => replace x with (- (4 / 5)) by lra end. rewrite Rabs_Ropp, Rabs_pos_eq by lra. lra.
Qed.
