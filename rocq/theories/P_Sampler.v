(** The rejection sampler in any binary format of at least 24 bits. *)
From Coq Require Import Reals Lra ZArith Lia List Bool.
From Flocq Require Import Core Mult_error BinarySingleNaN.
From Verif Require Import Spec_Random Num XR FL Spec M_Vec M_Rng M_Hittable M_Materials P_FL P_Round P_Rng P_Period P_Equi P_Lambert P_Margin.
Import ListNotations.
Local Open Scope R_scope.

Section Sampler.
Variables prec emax : Z.
Context (Hp : Prec_gt_0 prec) (Hm : Prec_lt_emax prec emax).
Variable lm : libm (binary_float prec emax).
Hypothesis P24 : (24 <= prec)%Z.
Hypothesis E64 : (64 <= emax)%Z.
Notation float := (binary_float prec emax).
Notation fe := (SpecFloat.fexp prec emax).
Notation rnd := (round radix2 (SpecFloat.fexp prec emax) ZnearestE).
Notation format := (generic_format radix2 (SpecFloat.fexp prec emax)).
Notation val := (val prec emax).
Notation N := (FL prec emax Hp Hm lm).
Notation b2 := (bpow radix2).

Lemma tiny : (SpecFloat.emin prec emax <= -60 - prec)%Z.
Proof. unfold SpecFloat.emin. lia. Qed.
Lemma error_at : forall x e k, (-60 <= e)%Z -> (e - 25 <= k)%Z -> Rabs x <= b2 e -> Rabs (rnd x - x) <= b2 k.
Proof.
  intros x e k E K H. eapply Rle_trans; [apply rnd_error with (e := e); [exact Hp|pose proof tiny; lia|exact H]|]. apply bpow_le. lia.
Qed.
Lemma small : forall x, Rabs x <= b2 40 -> Rabs x <= b2 (emax - 1).
Proof. intros x H. eapply Rle_trans; [exact H|]. apply bpow_le. lia. Qed.
Lemma small4 : forall x, -4 <= x <= 4 -> Rabs x <= b2 (emax - 1).
Proof. intros x H. apply small. apply Rle_trans with 4; [apply Rabs_le; lra|]. change 4 with (b2 2). apply bpow_le. lia. Qed.
Lemma format_Z : forall z, (Z.abs z <= 2 ^ 24)%Z -> format (IZR z).
Proof.
  intros z H. replace (IZR z) with (IZR z * b2 0) by (cbn; ring). apply format_F2R; [exact Hp| |pose proof tiny; lia].
  apply Z.le_trans with (2 ^ 24)%Z; [exact H|]. apply Z.pow_le_mono_r; lia.
Qed.
Lemma ofZ_small : forall z, (Z.abs z <= 2 ^ 24)%Z -> val (nofZ (NumOps:=N) z) (IZR z).
Proof.
  intros z H. pose proof (ofZ_val prec emax Hp Hm lm z) as V. rewrite rnd_id in V by (apply format_Z; exact H). apply V.
  apply small. apply Rle_trans with (b2 24); [|apply bpow_le; lia]. rewrite <- abs_IZR. change (b2 24) with (IZR (2 ^ 24)). apply IZR_le. exact H.
Qed.
Lemma between : forall a x b, format a -> format b -> a <= x <= b -> a <= rnd x <= b.
Proof.
  intros a x b A B H. split.
  - rewrite <- (rnd_id prec emax a A). apply rnd_le; [exact Hp|apply H].
  - rewrite <- (rnd_id prec emax b B). apply rnd_le; [exact Hp|apply H].
Qed.

(* an integer divided by a power of two is only rounded once *)
Lemma format_scaled : forall x e, format x -> x = 0 \/ 1 <= Rabs x -> (-32 <= e)%Z -> format (x * b2 e).
Proof.
  intros x e F [->|H] E; [rewrite Rmult_0_l; apply generic_format_0|].
  change fe with (FLT_exp (SpecFloat.emin prec emax) prec). apply mult_bpow_exact_FLT; [exact F|].
  assert (0 < mag radix2 x)%Z by (apply mag_gt_bpow; exact H). pose proof tiny. lia.
Qed.

Lemma draw_close : forall g, exists u, val (fst (pcg_real_01 (F:=N) g)) u /\ 0 <= u <= 1 /\ format (2 * u) /\ Rabs (u - IZR (pcg_output (pc_state g)) / IZR (2 ^ 32)) <= b2 (-25).
Proof.
  intros g. unfold pcg_real_01, pcg32_random_r. cbn [fst]. pose proof (pcg_output_range (pc_state g)) as O. set (o := pcg_output (pc_state g)) in *. clearbody o.
  assert (R0 : 0 <= IZR o <= b2 32).
  { split; [apply IZR_le; lia|]. change (b2 32) with (IZR (2 ^ 32)). apply IZR_le. lia. }
  assert (A : Rabs (IZR o) <= b2 32) by (rewrite Rabs_pos_eq; apply R0).
  pose proof (ofZ_val prec emax Hp Hm lm o (small _ (Rle_trans _ _ _ A (bpow_le radix2 32 40 ltac:(lia))))) as V.
  assert (F32 : format (b2 32)) by (apply format_big; [exact Hp|pose proof tiny; lia]).
  assert (V32 : val (nofZ (NumOps:=N) (2 ^ 32)) (b2 32)).
  { pose proof (ofZ_val prec emax Hp Hm lm (2 ^ 32)) as W. change (IZR (2 ^ 32)) with (b2 32) in W. rewrite rnd_id in W by exact F32. apply W.
    apply small. rewrite Rabs_pos_eq by apply bpow_ge_0. apply bpow_le. lia. }
  pose proof (between 0 _ _ (generic_format_0 _ _) F32 R0) as RB.
  pose proof (error_at (IZR o) 32 7 ltac:(lia) ltac:(lia) A) as Er.
  assert (FX : format (rnd (IZR o))) by (apply generic_format_round; [apply fexp_correct; exact Hp|apply valid_rnd_N]).
  assert (X1 : rnd (IZR o) = 0 \/ 1 <= Rabs (rnd (IZR o))).
  { destruct (Z.eq_dec o 0) as [->|O0]; [left; apply round_0; apply valid_rnd_N|right].
    rewrite Rabs_pos_eq by apply RB. rewrite <- (rnd_id prec emax 1) by exact (format_Z 1 ltac:(lia)). apply rnd_le; [exact Hp|]. apply IZR_le. lia. }
  set (x := rnd (IZR o)) in *. clearbody x.
  assert (D : x / b2 32 = x * b2 (-32)) by reflexivity.
  pose proof (bpow_gt_0 radix2 32) as B0.
  assert (I32 : b2 32 * b2 (-32) = 1) by (rewrite <- bpow_plus; reflexivity). pose proof (bpow_gt_0 radix2 (-32)) as B1.
  assert (U : 0 <= x * b2 (-32) <= 1) by (split; nra).
  exists (x * b2 (-32)). split; [|split; [exact U|split]].
  - pose proof (div_val prec emax Hp Hm lm _ _ _ _ V V32 ltac:(lra)) as W. rewrite D, rnd_id in W by (apply format_scaled; auto; lia).
    apply W. apply small4. lra.
  - replace (2 * (x * b2 (-32))) with (x * b2 (-31)); [apply format_scaled; auto; lia|]. change (b2 (-31)) with (b2 (1 + -32)). rewrite bpow_plus. change (b2 1) with 2. ring.
  - change (IZR o / IZR (2 ^ 32)) with (IZR o * b2 (-32)). replace (x * b2 (-32) - IZR o * b2 (-32)) with ((x - IZR o) * b2 (-32)) by ring.
    rewrite Rabs_mult, (Rabs_pos_eq (b2 (-32))) by lra. change (b2 (-25)) with (b2 (7 + -32)). rewrite bpow_plus. apply Rmult_le_compat_r; lra.
Qed.

(* one coordinate, and its square *)
Definition exactly (o : Z) : R := 2 * (IZR o / IZR (2 ^ 32)) - 1.
Lemma coord_close : forall g, exists c, val (nsub (NumOps:=N) (nmul (NumOps:=N) (nofZ (NumOps:=N) 2) (fst (pcg_real_01 (F:=N) g))) (nofZ (NumOps:=N) 1)) c /\
  -1 <= c <= 1 /\ Rabs (c - exactly (pcg_output (pc_state g))) <= 3 * b2 (-25).
Proof.
  intros g. destruct (draw_close g) as (u & V & U & F2 & Er). set (d := fst (pcg_real_01 (F:=N) g)) in *. clearbody d.
  pose proof (mult_val prec emax Hp Hm lm _ _ _ _ (ofZ_small 2 ltac:(lia)) V (small4 (2 * u) ltac:(lra))) as M. rewrite rnd_id in M by exact F2.
  pose proof (minus_val prec emax Hp Hm lm _ _ _ _ M (ofZ_small 1 ltac:(lia)) (small4 (2 * u - 1) ltac:(lra))) as S.
  exists (rnd (2 * u - 1)). split; [exact S|]. split; [apply (between (-1)); [exact (format_Z (-1) ltac:(lia))|exact (format_Z 1 ltac:(lia))|lra]|].
  pose proof (error_at (2 * u - 1) 0 (-25) ltac:(lia) ltac:(lia) ltac:(cbn; apply Rabs_le; lra)) as E2.
  unfold exactly. apply Rabs_le_inv in Er, E2. apply Rabs_le. lra.
Qed.
Lemma exactly_range : forall o, (0 <= o < 2 ^ 32)%Z -> -1 <= exactly o <= 1.
Proof.
  intros o O. unfold exactly. assert (P : 0 < IZR (2 ^ 32)) by (apply IZR_lt; lia).
  assert (0 <= IZR o / IZR (2 ^ 32)) by (apply Rmult_le_pos; [apply IZR_le; lia|apply Rlt_le, Rinv_0_lt_compat; exact P]).
  assert (IZR o / IZR (2 ^ 32) <= 1) by (apply Rmult_le_reg_r with (IZR (2 ^ 32)); [exact P|unfold Rdiv; rewrite Rmult_assoc, Rinv_l, Rmult_1_r, Rmult_1_l by lra; apply IZR_le; lia]). lra.
Qed.
Lemma square_close : forall c a y, val c a -> -1 <= a <= 1 -> -1 <= y <= 1 -> Rabs (a - y) <= 3 * b2 (-25) ->
  exists q, val (nmul (NumOps:=N) c c) q /\ 0 <= q <= 1 /\ q <= y * y + 7 * b2 (-25).
Proof.
  intros c a y V A Y E. assert (SQ : 0 <= a * a <= 1) by nra.
  exists (rnd (a * a)). split; [apply mult_val; auto; apply small4; lra|].
  split; [apply (between 0); [apply generic_format_0|exact (format_Z 1 ltac:(lia))|exact SQ]|].
  pose proof (error_at (a * a) 0 (-25) ltac:(lia) ltac:(lia) ltac:(cbn; rewrite Rabs_pos_eq; lra)) as E2.
  apply Rabs_le_inv in E, E2. pose proof (bpow_gt_0 radix2 (-25)). set (h := b2 (-25)) in *.
  assert (a * a - y * y <= 6 * h) by (replace (a * a - y * y) with ((a - y) * (a + y)) by ring; nra). lra.
Qed.

Lemma accepts_float : forall i, exists x, word64 x /\ accepts (F:=N) (PCG x i).
Proof.
  intros i. destruct (margin_state i) as (x & X & Mg). exists x. split; [exact X|]. unfold accepts.
  set (g0 := PCG x i). set (g1 := pcg_next g0). set (g2 := pcg_next g1).
  destruct (coord_close g0) as (c0 & V0 & B0 & E0). destruct (coord_close g1) as (c1 & V1 & B1 & E1). destruct (coord_close g2) as (c2 & V2 & B2 & E2).
  change (fst (random_cube (F:=N) g0)) with (V3
    (nsub (NumOps:=N) (nmul (NumOps:=N) (nofZ (NumOps:=N) 2) (fst (pcg_real_01 (F:=N) g0))) (nofZ (NumOps:=N) 1))
    (nsub (NumOps:=N) (nmul (NumOps:=N) (nofZ (NumOps:=N) 2) (fst (pcg_real_01 (F:=N) g1))) (nofZ (NumOps:=N) 1))
    (nsub (NumOps:=N) (nmul (NumOps:=N) (nofZ (NumOps:=N) 2) (fst (pcg_real_01 (F:=N) g2))) (nofZ (NumOps:=N) 1))).
  match type of V0 with val ?a _ => set (f0 := a) in * end.
  match type of V1 with val ?a _ => set (f1 := a) in * end.
  match type of V2 with val ?a _ => set (f2 := a) in * end.
  clearbody f0 f1 f2.
  change (pc_state g0) with x in E0. change (pc_state g1) with (step i x) in E1. change (pc_state g2) with (step i (step i x)) in E2.
  unfold square_norm3 in Mg.
  assert (K0 := exactly_range _ (pcg_output_range x)). assert (K1 := exactly_range _ (pcg_output_range (step i x))). assert (K2 := exactly_range _ (pcg_output_range (step i (step i x)))).
  set (k0 := pcg_output x) in *. set (k1 := pcg_output (step i x)) in *. set (k2 := pcg_output (step i (step i x))) in *. clearbody k0 k1 k2 g0 g1 g2.
  assert (SQ : forall o, IZR ((2 * o - 2 ^ 32) ^ 2) = exactly o * exactly o * b2 64).
  { intros o. unfold exactly. change (b2 64) with (IZR (2 ^ 64)). change (2 ^ 64)%Z with (2 ^ 32 * 2 ^ 32)%Z. rewrite Z.pow_2_r, !mult_IZR, minus_IZR, mult_IZR.
    field. apply not_0_IZR. discriminate. }
  assert (MS : exactly k0 * exactly k0 + exactly k1 * exactly k1 + exactly k2 * exactly k2 < 1 - b2 (-20)).
  { apply IZR_lt in Mg. rewrite !plus_IZR, !SQ, minus_IZR in Mg. change (IZR (2 ^ 64)) with (b2 64) in Mg. change (IZR (2 ^ 44)) with (b2 (-20 + 64)) in Mg.
    rewrite bpow_plus in Mg. pose proof (bpow_gt_0 radix2 64) as P. apply Rmult_lt_reg_r with (b2 64); [exact P|]. lra. }
  destruct (square_close _ _ _ V0 B0 K0 E0) as (q0 & W0 & R0 & L0). destruct (square_close _ _ _ V1 B1 K1 E1) as (q1 & W1 & R1 & L1).
  destruct (square_close _ _ _ V2 B2 K2 E2) as (q2 & W2 & R2 & L2).
  assert (H20 : b2 (-20) = 32 * b2 (-25)) by (change 32 with (b2 5); rewrite <- bpow_plus; reflexivity).
  assert (H24 : b2 (-24) = 2 * b2 (-25)) by (change 2 with (b2 1); rewrite <- bpow_plus; reflexivity).
  unfold squared_norm; cbn [vx vy vz].
  pose proof (plus_val prec emax Hp Hm lm _ _ _ _ (ofZ_small 0 ltac:(lia)) W0 (small4 (0 + q0) ltac:(lra))) as Z0.
  rewrite Rplus_0_l, rnd_id in Z0 by (eapply val_format; exact W0).
  pose proof (plus_val prec emax Hp Hm lm _ _ _ _ Z0 W1 (small4 (q0 + q1) ltac:(lra))) as P1.
  assert (RB := between 0 (q0 + q1) 2 (generic_format_0 _ _) (format_Z 2 ltac:(lia)) ltac:(lra)).
  pose proof (error_at (q0 + q1) 1 (-24) ltac:(lia) ltac:(lia) ltac:(change (b2 1) with 2; rewrite Rabs_pos_eq; lra)) as ES.
  pose proof (plus_val prec emax Hp Hm lm _ _ _ _ P1 W2 (small4 (rnd (q0 + q1) + q2) ltac:(lra))) as P2.
  etransitivity; [exact (ltb_val prec emax Hp Hm lm _ _ _ _ (ofZ_small 1 ltac:(lia)) P2)|].
  apply Rltb_false. apply Rabs_le_inv in ES. pose proof (bpow_gt_0 radix2 (-25)).
  apply (between 0); [apply generic_format_0|exact (format_Z 1 ltac:(lia))|lra].
Qed.

(* the squared norm of three coordinates, as computed, is a number *)
Lemma norm_number : forall g, exists s, val (squared_norm (F:=N) (fst (random_cube (F:=N) g))) s.
Proof.
  intros g0. set (g1 := pcg_next g0). set (g2 := pcg_next g1).
  destruct (coord_close g0) as (c0 & V0 & B0 & _). destruct (coord_close g1) as (c1 & V1 & B1 & _). destruct (coord_close g2) as (c2 & V2 & B2 & _).
  change (fst (random_cube (F:=N) g0)) with (V3
    (nsub (NumOps:=N) (nmul (NumOps:=N) (nofZ (NumOps:=N) 2) (fst (pcg_real_01 (F:=N) g0))) (nofZ (NumOps:=N) 1))
    (nsub (NumOps:=N) (nmul (NumOps:=N) (nofZ (NumOps:=N) 2) (fst (pcg_real_01 (F:=N) g1))) (nofZ (NumOps:=N) 1))
    (nsub (NumOps:=N) (nmul (NumOps:=N) (nofZ (NumOps:=N) 2) (fst (pcg_real_01 (F:=N) g2))) (nofZ (NumOps:=N) 1))).
  assert (Z0 : Rabs (c0 - c0) <= 3 * b2 (-25)) by (replace (c0 - c0) with 0 by ring; rewrite Rabs_R0; pose proof (bpow_ge_0 radix2 (-25)); lra).
  assert (Z1 : Rabs (c1 - c1) <= 3 * b2 (-25)) by (replace (c1 - c1) with 0 by ring; rewrite Rabs_R0; pose proof (bpow_ge_0 radix2 (-25)); lra).
  assert (Z2 : Rabs (c2 - c2) <= 3 * b2 (-25)) by (replace (c2 - c2) with 0 by ring; rewrite Rabs_R0; pose proof (bpow_ge_0 radix2 (-25)); lra).
  destruct (square_close _ _ _ V0 B0 B0 Z0) as (q0 & W0 & R0 & _). destruct (square_close _ _ _ V1 B1 B1 Z1) as (q1 & W1 & R1 & _).
  destruct (square_close _ _ _ V2 B2 B2 Z2) as (q2 & W2 & R2 & _). clear Z0 Z1 Z2.
  unfold squared_norm; cbn [vx vy vz].
  pose proof (plus_val prec emax Hp Hm lm _ _ _ _ (ofZ_small 0 ltac:(lia)) W0 (small4 (0 + q0) ltac:(lra))) as Z0.
  rewrite Rplus_0_l, rnd_id in Z0 by (eapply val_format; exact W0).
  pose proof (plus_val prec emax Hp Hm lm _ _ _ _ Z0 W1 (small4 (q0 + q1) ltac:(lra))) as P1.
  assert (RB := between 0 (q0 + q1) 2 (generic_format_0 _ _) (format_Z 2 ltac:(lia)) ltac:(lra)).
  pose proof (plus_val prec emax Hp Hm lm _ _ _ _ P1 W2 (small4 (rnd (q0 + q1) + q2) ltac:(lra))) as P2.
  eexists. exact P2.
Qed.

Definition close_coord (x : float) (r : R) : Prop := exists c, val x c /\ -1 <= c <= 1 /\ Rabs (c - r) <= 3 * b2 (-25).
Lemma cube_close : forall g, close_coord (vx (fst (random_cube (F:=N) g))) (2 * draw g - 1) /\
  close_coord (vy (fst (random_cube (F:=N) g))) (2 * draw (pcg_next g) - 1) /\ close_coord (vz (fst (random_cube (F:=N) g))) (2 * draw (pcg_next (pcg_next g)) - 1).
Proof. intros g. split; [exact (coord_close g)|]. split; [exact (coord_close (pcg_next g))|exact (coord_close (pcg_next (pcg_next g)))]. Qed.

Lemma sampler_any : forall g, word64 (pc_state g) -> exists m v,
  (forall fuel, (m < fuel)%nat -> random_unit_vector (F:=N) fuel g = Ok (v, Nat.iter (S m) next3 g)) /\
  nleb (NumOps:=N) (squared_norm (F:=N) v) (nofZ (NumOps:=N) 1) = true /\
  close_coord (vx v) (2 * draw (Nat.iter m next3 g) - 1) /\ close_coord (vy v) (2 * draw (pcg_next (Nat.iter m next3 g)) - 1) /\
  close_coord (vz v) (2 * draw (pcg_next (pcg_next (Nat.iter m next3 g))) - 1).
Proof.
  intros g W. destruct (always_terminates N accepts_float g W) as (n & A).
  destruct (loop_terminates n g A) as (m & _ & Am & _ & R). exists m, (fst (random_cube (F:=N) (Nat.iter m next3 g))).
  split; [intros fuel H; apply R; lia|]. split; [|apply cube_close].
  unfold accepts in Am. destruct (norm_number (Nat.iter m next3 g)) as (s & V). set (h := squared_norm _) in *. clearbody h.
  etransitivity; [exact (leb_val prec emax Hp Hm lm _ _ _ _ V (ofZ_small 1 ltac:(lia)))|].
  pose proof (eq_trans (eq_sym Am) (ltb_val prec emax Hp Hm lm _ _ _ _ (ofZ_small 1 ltac:(lia)) V)) as LT.
  match type of LT with _ = Rltb ?a ?b => destruct (Rltb_spec a b) as [K|K]; [discriminate|] end. apply Rleb_iff. exact K.
Qed.

Lemma sampler_formats : forall g, word64 (pc_state g) -> exists m v c,
  (forall fuel, (m < fuel)%nat -> random_unit_vector (F:=N) fuel g = Ok (v, Nat.iter (S m) next3 g)) /\
  nleb (NumOps:=N) (squared_norm (F:=N) v) (nofZ (NumOps:=N) 1) = true /\
  denotes (vx v) (vx c) /\ denotes (vy v) (vy c) /\ denotes (vz v) (vz c) /\
  Rabs (vx c - vx (cubeR (Nat.iter m next3 g))) <= 3 / 2 ^ 25 /\ Rabs (vy c - vy (cubeR (Nat.iter m next3 g))) <= 3 / 2 ^ 25 /\
  Rabs (vz c - vz (cubeR (Nat.iter m next3 g))) <= 3 / 2 ^ 25.
Proof.
  intros g W. destruct (sampler_any g W) as (m & v & R & L & (cx & X & _ & DX) & (cy & Y & _ & DY) & (cz & Zv & _ & DZ)).
  assert (E : 3 * b2 (-25) = 3 / 2 ^ 25) by (replace (2 ^ 25) with (IZR (2 ^ 25)) by (cbn; lra); reflexivity).
  rewrite E in DX, DY, DZ. exists m, v, (V3 cx cy cz). split; [exact R|]. split; [exact L|]. repeat (split; [assumption|]). exact DZ.
Qed.
End Sampler.

Lemma seed_single : forall lm, exists v, random_unit_vector (F:=F32 lm) 4 pcg_seed = Ok (v, Nat.iter 4 next3 pcg_seed).
Proof.
  intros lm. destruct (loop_terminates (F:=F32 lm) 3 pcg_seed) as (m & M & A & Rj & R); [vm_compute; reflexivity|].
  assert (m = 3)%nat as ->.
  { destruct m as [|[|[|m]]]; [exfalso; vm_compute in A; discriminate..|lia]. }
  eexists. apply R. lia.
Qed.
Lemma margin_cube : forall i : Z, exists x, word64 x /\ normsqR (cubeR (PCG x i)) < 1 - / 2 ^ 20.
Proof.
  intros i. destruct (margin_state i) as (x & X & M). exists x. split; [exact X|]. rewrite cubeR_normsq. apply IZR_lt in M. rewrite minus_IZR in M.
  assert (P : 0 < IZR (2 ^ 64)) by (apply IZR_lt; lia). apply Rmult_lt_reg_r with (IZR (2 ^ 64)); [exact P|].
  unfold Rdiv. rewrite Rmult_assoc, Rinv_l, Rmult_1_r by lra.
  replace ((1 - / 2 ^ 20) * IZR (2 ^ 64)) with (IZR (2 ^ 64) - IZR (2 ^ 44)); [exact M|]. change (2 ^ 64)%Z with (2 ^ 20 * 2 ^ 44)%Z. rewrite mult_IZR.
  replace (IZR (2 ^ 20)) with (2 ^ 20) by (cbn; lra). field.
Qed.
