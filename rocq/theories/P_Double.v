(** The rejection sampler in double precision. *)
From Coq Require Import Reals Lra ZArith Lia List Bool.
From Flocq Require Import Core BinarySingleNaN.
From Verif Require Import Spec_Random Spec Num XR FL Spec M_Vec M_Rng M_Hittable M_Materials P_FL P_Round P_Rng P_Period P_Equi P_Lambert.
Import ListNotations.
Local Open Scope R_scope.

(** ** An upper bound for the rounding of a square, and its mean *)
Section Bound.
Local Open Scope Z_scope.
(* rounding up to the nearest multiple of 512, ties up; negative errors dropped *)
Definition up512 (j : Z) : Z := Z.max 0 (256 - (j ^ 2 + 256) mod 512).
Definition J1 : Z := 1518500096.
Definition J2 : Z := 1518500352.
Definition slack (k : Z) : Z :=
  if k <? 2 ^ 31 - J2 then up512 (k - 2 ^ 31)
  else if k <? 2 ^ 31 - J1 then 256
  else if k <? 2 ^ 31 - 2 ^ 30 then 128
  else if k <? 2 ^ 31 - 2 ^ 29 then 64
  else if k <? 2 ^ 31 + 2 ^ 29 then 16
  else if k <? 2 ^ 31 + 2 ^ 30 then 64
  else if k <? 2 ^ 31 + J1 then 128
  else if k <? 2 ^ 31 + J2 then 256
  else up512 (k - 2 ^ 31).

Lemma total_more : forall (f : Z -> Z) a n, 0 <= a -> 0 <= n ->
  total (map f (words (a + n))) = total (map f (words a)) + total (map (fun t => f (a + t)) (words n)).
Proof.
  intros f a n Ha Hn. revert n Hn. apply natlike_ind.
  - rewrite Z.add_0_r. change (words 0) with (@nil Z). cbn. lia.
  - intros k Hk IHk. unfold Z.succ. rewrite Z.add_assoc. rewrite !words_succ, !map_app, !total_app, IHk by lia. cbn. lia.
Qed.
Lemma total_le : forall (f g : Z -> Z) l, (forall x, In x l -> f x <= g x) -> total (map f l) <= total (map g l).
Proof.
  intros f g l H. induction l as [|x l IH]; cbn; [lia|]. pose proof (H x (or_introl eq_refl)).
  assert (total (map f l) <= total (map g l)) by (apply IH; intros; apply H; cbn; auto). lia.
Qed.
Lemma segment_const : forall (f : Z -> Z) a b c, 0 <= a <= b -> (forall k, a <= k < b -> f k = c) ->
  total (map f (words b)) = total (map f (words a)) + c * (b - a).
Proof.
  intros f a b c H E. replace b with (a + (b - a)) at 1 by ring. rewrite total_more by lia. f_equal.
  rewrite <- (total_const c (b - a)) by lia. apply total_ext. intros t T. apply in_words in T. apply E. lia.
Qed.
Lemma up512_period : forall j m, up512 (j + 256 * m) = up512 j.
Proof.
  intros j m. unfold up512. do 2 f_equal. replace ((j + 256 * m) ^ 2 + 256) with (j ^ 2 + 256 + (j * m + 128 * m ^ 2) * 512) by ring.
  apply Z.mod_add. lia.
Qed.
Definition block : Z := total (map up512 (words 256)).
Lemma segment_up512 : forall (f : Z -> Z) a n, 0 <= a -> 0 <= n -> (forall k, a * 256 <= k < (a + n) * 256 -> f k = up512 (k - 2 ^ 31)) ->
  total (map f (words ((a + n) * 256))) = total (map f (words (a * 256))) + n * block.
Proof.
  intros f a n Ha Hn E. rewrite Z.mul_add_distr_r, total_more by lia. f_equal.
  rewrite total_split by lia. rewrite (total_ext _ (fun _ => block)).
  - rewrite total_const by lia. ring.
  - intros x X. apply in_words in X. unfold block. apply total_ext. intros t T. apply in_words in T. rewrite E by nia.
    rewrite <- (up512_period t (a + x - 2 ^ 23)). f_equal. ring.
Qed.
Lemma block_value : block = 17728.
Proof. vm_compute. reflexivity. Qed.

Lemma slack_total : 3 * total (map slack (words (2 ^ 32))) < 2 ^ 40 - 2 ^ 31.
Proof.
  assert (S : total (map slack (words (2 ^ 32))) = 2 * (2456966 * block + 256 * 256 + 128 * (J1 - 2 ^ 30) + 64 * 2 ^ 29 + 16 * 2 ^ 29)).
  { replace (2 ^ 32) with ((14320250 + 2456966) * 256) by reflexivity.
    assert (B : forall f a b c, 0 <= a <= b -> (forall k, a <= k < b -> f k = c) ->
      total (map f (words b)) = total (map f (words a)) + c * (b - a)) by exact segment_const.
    Ltac cut := intros; unfold slack, J1, J2 in *; repeat match goal with |- context [?a <? ?b] => destruct (Z.ltb_spec a b); try lia end.
    rewrite segment_up512; [|lia|lia|cut; reflexivity].
    rewrite (B slack (2 ^ 31 + J1) (14320250 * 256) 256); [|unfold J1; lia|cut].
    rewrite (B slack (2 ^ 31 + 2 ^ 30) (2 ^ 31 + J1) 128); [|unfold J1; lia|cut].
    rewrite (B slack (2 ^ 31 + 2 ^ 29) (2 ^ 31 + 2 ^ 30) 64); [|lia|cut].
    rewrite (B slack (2 ^ 31 - 2 ^ 29) (2 ^ 31 + 2 ^ 29) 16); [|lia|cut].
    rewrite (B slack (2 ^ 31 - 2 ^ 30) (2 ^ 31 - 2 ^ 29) 64); [|lia|cut].
    rewrite (B slack (2 ^ 31 - J1) (2 ^ 31 - 2 ^ 30) 128); [|unfold J1; lia|cut].
    rewrite (B slack (2 ^ 31 - J2) (2 ^ 31 - J1) 256); [|unfold J1, J2; lia|cut].
    replace (2 ^ 31 - J2) with ((0 + 2456966) * 256) by reflexivity.
    rewrite segment_up512; [|lia|lia|cut; reflexivity].
    change (words (0 * 256)) with (@nil Z). cbn [map total]. unfold J1, J2. lia. }
  rewrite S, block_value. unfold J1. reflexivity.
Qed.

Definition upper (k : Z) : Z := (k - 2 ^ 31) ^ 2 + slack k.
Lemma upper_state : forall i, exists x, word64 x /\
  upper (pcg_output x) + upper (pcg_output (step i x)) + upper (pcg_output (step i (step i x))) < 2 ^ 62 + 2 ^ 8.
Proof.
  intros i. apply (below_mean (2 ^ 64) (fun x => upper (pcg_output x) + upper (pcg_output (step i x)) + upper (pcg_output (step i (step i x))))); [lia|].
  rewrite (total_steps i upper).
  assert (U : total (map upper (words (2 ^ 32))) = total (map (fun k => (k - 2 ^ 31) ^ 2) (words (2 ^ 32))) + total (map slack (words (2 ^ 32)))) by apply total_plus.
  pose proof (sum_squares (2 ^ 32) (2 ^ 32) ltac:(lia)) as Q.
  rewrite (total_ext _ (fun k => 4 * (k - 2 ^ 31) ^ 2)) in Q by (intros; change (2 ^ 32) with (2 * 2 ^ 31); ring).
  rewrite total_scale in Q. pose proof slack_total as T.
  set (a := total (map (fun k => (k - 2 ^ 31) ^ 2) (words (2 ^ 32)))) in *.
  set (b := total (map slack (words (2 ^ 32)))) in *. set (c := total (map upper (words (2 ^ 32)))) in *. lia.
Qed.
End Bound.

(** ** Rounding *)
Section Double.
Variable lm : libm binary64.
Notation N := (F64 lm).
Notation val64 := (val 53 1024).
Notation rnd64 := (round radix2 (SpecFloat.fexp 53 1024) ZnearestE).
Notation format64 := (generic_format radix2 (SpecFloat.fexp 53 1024)).
Notation b2 := (bpow radix2).

Lemma small_ok : forall x e, Rabs x <= b2 e -> (e <= 1023)%Z -> Rabs x <= b2 (1024 - 1).
Proof. intros x e H E. eapply Rle_trans; [exact H|]. apply bpow_le. lia. Qed.
Lemma IZR_b2 : forall m e, IZR m * b2 e = F2R (Float radix2 m e).
Proof. reflexivity. Qed.
Lemma abs_F2R : forall m e p, (Z.abs m <= 2 ^ p)%Z -> (0 <= p)%Z -> Rabs (IZR m * b2 e) <= b2 (p + e).
Proof.
  intros m e p H P. rewrite Rabs_mult, (Rabs_pos_eq (b2 e)) by apply bpow_ge_0. rewrite bpow_plus.
  apply Rmult_le_compat_r; [apply bpow_ge_0|]. rewrite <- abs_IZR, <- (IZR_Zpower radix2) by exact P. apply IZR_le. exact H.
Qed.

(* exact operations *)
Lemma exact_F2R : forall m e, (Z.abs m <= 2 ^ 53)%Z -> (-1074 <= e)%Z -> rnd64 (IZR m * b2 e) = IZR m * b2 e.
Proof. intros m e M E. apply rnd_id. apply format_F2R; [reflexivity|exact M|exact E]. Qed.
Lemma ofZ_exact : forall z, (Z.abs z <= 2 ^ 53)%Z -> val64 (nofZ (NumOps:=N) z) (IZR z).
Proof.
  intros z H. pose proof (ofZ_val 53 1024 Hprec53 Hmax1024 lm z) as V. assert (E : IZR z = IZR z * b2 0) by (cbn; ring).
  rewrite E in V |- *. rewrite exact_F2R in V by (auto; lia). apply V. apply small_ok with (53 + 0)%Z; [apply abs_F2R|]; auto; lia.
Qed.

Lemma draw64 : forall g, val64 (fst (pcg_real_01 (F:=N) g)) (draw g).
Proof.
  intros g. unfold pcg_real_01, pcg32_random_r, draw. cbn [fst]. pose proof (pcg_output_range (pc_state g)) as O. set (o := pcg_output (pc_state g)) in *.
  assert (E : IZR o / IZR (2 ^ 32) = IZR o * b2 (-32)) by reflexivity.
  pose proof (div_val 53 1024 Hprec53 Hmax1024 lm _ _ _ _ (ofZ_exact o ltac:(lia)) (ofZ_exact (2 ^ 32) ltac:(lia))) as V.
  rewrite E in V |- *. rewrite exact_F2R in V by lia. apply V; [apply not_0_IZR; discriminate|].
  apply small_ok with (32 + -32)%Z; [apply abs_F2R|]; lia.
Qed.

(* the coordinate 2u-1 is j/2^31 with j = k-2^31 *)
Definition coord (g : pcg) : R := IZR (pcg_output (pc_state g) - 2 ^ 31) * b2 (-31).
Lemma coord_val : forall g, val64 (nsub (NumOps:=N) (nmul (NumOps:=N) (nofZ (NumOps:=N) 2) (fst (pcg_real_01 (F:=N) g))) (nofZ (NumOps:=N) 1)) (coord g).
Proof.
  intros g. pose proof (draw64 g) as D. unfold coord. pose proof (pcg_output_range (pc_state g)) as O. unfold draw in D.
  set (o := pcg_output (pc_state g)) in *. set (u := fst (pcg_real_01 (F:=N) g)) in *. clearbody u.
  pose proof (mult_val 53 1024 Hprec53 Hmax1024 lm _ _ _ _ (ofZ_exact 2 ltac:(lia)) D) as M.
  replace (2 * (IZR o / IZR (2 ^ 32))) with (IZR o * b2 (-31)) in M.
  2:{ change (b2 (-31)) with (/ IZR (2 ^ 31)). change (2 ^ 32)%Z with (2 * 2 ^ 31)%Z. rewrite mult_IZR. field. apply not_0_IZR. discriminate. }
  rewrite exact_F2R in M by lia. specialize (M (small_ok _ (32 + -31) (abs_F2R o (-31) 32 ltac:(lia) ltac:(lia)) ltac:(lia))).
  pose proof (minus_val 53 1024 Hprec53 Hmax1024 lm _ _ _ _ M (ofZ_exact 1 ltac:(lia))) as S.
  replace (IZR o * b2 (-31) - 1) with (IZR (o - 2 ^ 31) * b2 (-31)) in S.
  2:{ rewrite minus_IZR. change (b2 (-31)) with (/ IZR (2 ^ 31)). field. apply not_0_IZR. discriminate. }
  rewrite exact_F2R in S by lia. apply S. apply small_ok with (32 + -31)%Z; [apply abs_F2R|]; lia.
Qed.

Lemma square_upper : forall k, (0 <= k < 2 ^ 32)%Z ->
  rnd64 (IZR (k - 2 ^ 31) * b2 (-31) * (IZR (k - 2 ^ 31) * b2 (-31))) <= IZR (upper k) * b2 (-62).
Proof.
  intros k K. set (j := (k - 2 ^ 31)%Z).
  replace (IZR j * b2 (-31) * (IZR j * b2 (-31))) with (IZR (j ^ 2) * b2 (-62)).
  2:{ rewrite Z.pow_2_r, mult_IZR. change (b2 (-62)) with (b2 (-31 + -31)). rewrite bpow_plus. ring. }
  set (s := (j ^ 2)%Z). assert (Hs : (0 <= s <= 2 ^ 62)%Z) by (unfold s, j; nia).
  assert (Near : forall e c, (s <= 2 ^ (62 + e))%Z -> (0 <= 62 + e <= 62)%Z -> c = (2 ^ (8 + e))%Z -> (0 <= 8 + e)%Z ->
    rnd64 (IZR s * b2 (-62)) <= IZR (s + c) * b2 (-62)).
  { intros e c S E -> E8. pose proof (rnd_error 53 1024 Hprec53 (IZR s * b2 (-62)) e) as R.
    assert (B : Rabs (IZR s * b2 (-62)) <= b2 e).
    { replace e with (62 + e + -62)%Z by ring. apply abs_F2R; lia. }
    specialize (R ltac:(change (SpecFloat.emin 53 1024) with (-1074)%Z; lia) B).
    apply Rabs_le_inv in R. rewrite plus_IZR, Rmult_plus_distr_r.
    replace (IZR (2 ^ (8 + e)) * b2 (-62)) with (b2 (e - 53 - 1)); [lra|].
    rewrite (IZR_Zpower radix2) by lia. rewrite <- bpow_plus. f_equal. ring. }
  assert (Top : (2 ^ 61 <= s)%Z -> rnd64 (IZR s * b2 (-62)) <= IZR (s + up512 j) * b2 (-62)).
  { intros S. set (t := ((s + 256) / 512)%Z). pose proof (Z.div_mod (s + 256) 512 ltac:(lia)) as D. fold t in D.
    pose proof (Z.mod_pos_bound (s + 256) 512 ltac:(lia)) as MB.
    apply Rle_trans with (IZR t * b2 (-53)).
    - assert (T : (2 ^ 52 <= t <= 2 ^ 53)%Z) by lia.
      apply rnd_le_mid with (prec := 53%Z) (d := b2 (-53)).
      + reflexivity.
      + apply format_F2R; [reflexivity|lia|]. change (SpecFloat.emin 53 1024) with (-1074)%Z. lia.
      + apply Rmult_le_pos; [apply IZR_le; lia|apply bpow_ge_0].
      + change (-53)%Z with (-1 + 1 - 53)%Z. apply ulp_lower. change (b2 (-1)) with (b2 (52 + -53)). rewrite bpow_plus.
        apply Rmult_le_compat_r; [apply bpow_ge_0|]. change (b2 52) with (IZR (2 ^ 52)). apply IZR_le. lia.
      + replace (b2 (-53)) with (512 * b2 (-62)) by (change 512 with (b2 9); rewrite <- bpow_plus; reflexivity).
        pose proof (bpow_gt_0 radix2 (-62)). assert (IZR s < IZR (512 * t + 256)) by (apply IZR_lt; lia).
        rewrite plus_IZR, mult_IZR in H0. nra.
    - replace (b2 (-53)) with (512 * b2 (-62)) by (change 512 with (b2 9); rewrite <- bpow_plus; reflexivity).
      rewrite <- Rmult_assoc. apply Rmult_le_compat_r; [apply bpow_ge_0|]. rewrite <- mult_IZR. apply IZR_le. unfold up512. fold s. lia. }
  unfold upper, slack. fold j. fold s. unfold J1, J2 in *.
  destruct (Z.ltb_spec k (2 ^ 31 - 1518500352)); [apply Top; unfold s, j; nia|].
  destruct (Z.ltb_spec k (2 ^ 31 - 1518500096)); [apply (Near 0%Z); [lia|lia|reflexivity|lia]|].
  destruct (Z.ltb_spec k (2 ^ 31 - 2 ^ 30)); [apply (Near (-1)%Z); [unfold s, j; nia|lia|reflexivity|lia]|].
  destruct (Z.ltb_spec k (2 ^ 31 - 2 ^ 29)); [apply (Near (-2)%Z); [unfold s, j; nia|lia|reflexivity|lia]|].
  destruct (Z.ltb_spec k (2 ^ 31 + 2 ^ 29)); [apply (Near (-4)%Z); [unfold s, j; nia|lia|reflexivity|lia]|].
  destruct (Z.ltb_spec k (2 ^ 31 + 2 ^ 30)); [apply (Near (-2)%Z); [unfold s, j; nia|lia|reflexivity|lia]|].
  destruct (Z.ltb_spec k (2 ^ 31 + 1518500096)); [apply (Near (-1)%Z); [unfold s, j; nia|lia|reflexivity|lia]|].
  destruct (Z.ltb_spec k (2 ^ 31 + 1518500352)); [apply (Near 0%Z); [lia|lia|reflexivity|lia]|].
  apply Top. unfold s, j. nia.
Qed.

Lemma format_int : forall z, (Z.abs z <= 2 ^ 53)%Z -> format64 (IZR z).
Proof. intros z H. replace (IZR z) with (IZR z * b2 0) by (cbn; ring). apply format_F2R; [reflexivity|exact H|]. change (SpecFloat.emin 53 1024) with (-1074)%Z. lia. Qed.

(** three squares with a sum below 1 + 2^-54 are accepted *)
Lemma sum_accepted : forall a b c : R, 0 <= a <= 1 -> 0 <= b <= 1 -> 0 <= c <= 1 -> a + b + c < 1 + b2 (-54) ->
  rnd64 (rnd64 (a + b) + c) <= 1.
Proof.
  intros a b c Ha Hb Hc S. assert (F1 : format64 1) by (apply format_int; lia).
  assert (U : b2 (-52) <= ulp radix2 (SpecFloat.fexp 53 1024) 1) by (change (-52)%Z with (0 + 1 - 53)%Z; apply ulp_lower; cbn; lra).
  assert (D : b2 (-52) = 4 * b2 (-54)) by (change 4 with (b2 2); rewrite <- bpow_plus; reflexivity).
  pose proof (bpow_gt_0 radix2 (-54)).
  assert (E : rnd64 (a + b) <= a + b + b2 (-54)).
  { destruct (Rle_lt_dec (a + b) 1) as [L|L].
    - pose proof (rnd_error 53 1024 Hprec53 (a + b) 0 ltac:(change (SpecFloat.emin 53 1024) with (-1074)%Z; lia) ltac:(rewrite Rabs_pos_eq; cbn; lra)) as R.
      change (0 - 53 - 1)%Z with (-54)%Z in R. apply Rabs_le_inv in R. lra.
    - assert (rnd64 (a + b) <= 1) by (apply rnd_le_mid with (prec := 53%Z) (d := b2 (-52)); [reflexivity|exact F1|lra|exact U|lra]). lra. }
  apply rnd_le_mid with (prec := 53%Z) (d := b2 (-52)); [reflexivity|exact F1|lra|exact U|lra].
Qed.

Lemma accepts_double : forall i, exists x, word64 x /\ accepts (F:=N) (PCG x i).
Proof.
  intros i. destruct (upper_state i) as (x & X & U). exists x. split; [exact X|]. unfold accepts.
  set (g0 := PCG x i). set (g1 := pcg_next g0). set (g2 := pcg_next g1).
  pose proof (coord_val g0) as V0. pose proof (coord_val g1) as V1. pose proof (coord_val g2) as V2.
  change (fst (random_cube (F:=N) g0)) with (V3
    (nsub (NumOps:=N) (nmul (NumOps:=N) (nofZ (NumOps:=N) 2) (fst (pcg_real_01 (F:=N) g0))) (nofZ (NumOps:=N) 1))
    (nsub (NumOps:=N) (nmul (NumOps:=N) (nofZ (NumOps:=N) 2) (fst (pcg_real_01 (F:=N) g1))) (nofZ (NumOps:=N) 1))
    (nsub (NumOps:=N) (nmul (NumOps:=N) (nofZ (NumOps:=N) 2) (fst (pcg_real_01 (F:=N) g2))) (nofZ (NumOps:=N) 1))).
  match type of V0 with val _ _ ?a _ => set (c0 := a) in * end.
  match type of V1 with val _ _ ?a _ => set (c1 := a) in * end.
  match type of V2 with val _ _ ?a _ => set (c2 := a) in * end.
  clearbody c0 c1 c2.
  unfold coord in V0, V1, V2.
  change (pc_state g0) with x in V0. change (pc_state g1) with (step i x) in V1. change (pc_state g2) with (step i (step i x)) in V2.
  set (k0 := pcg_output x) in *. set (k1 := pcg_output (step i x)) in *. set (k2 := pcg_output (step i (step i x))) in *.
  assert (K0 := pcg_output_range x). assert (K1 := pcg_output_range (step i x)). assert (K2 := pcg_output_range (step i (step i x))).
  fold k0 in K0. fold k1 in K1. fold k2 in K2. clearbody k0 k1 k2.
  assert (Sq : forall c k, (0 <= k < 2 ^ 32)%Z -> val64 c (IZR (k - 2 ^ 31) * b2 (-31)) ->
    exists q, val64 (nmul (NumOps:=N) c c) q /\ 0 <= q <= 1 /\ q <= IZR (upper k) * b2 (-62)).
  { intros c k K V. pose proof (mult_val 53 1024 Hprec53 Hmax1024 lm _ _ _ _ V V) as M. pose proof (square_upper k K) as SU.
    pose proof (abs_F2R (k - 2 ^ 31) (-31) 31 ltac:(lia) ltac:(lia)) as A. set (y := IZR (k - 2 ^ 31) * b2 (-31)) in *.
    change (31 + -31)%Z with 0%Z in A. cbn in A. apply Rabs_le_inv in A.
    assert (Y : 0 <= y * y <= 1) by nra. exists (rnd64 (y * y)). split.
    - apply M. rewrite Rabs_pos_eq by apply Y. apply Rle_trans with 1; [apply Y|]. change 1 with (b2 0). apply bpow_le. lia.
    - split; [|exact SU]. split.
      + rewrite <- (round_0 radix2 (SpecFloat.fexp 53 1024) ZnearestE). apply rnd_le; [reflexivity|apply Y].
      + apply Rle_trans with (rnd64 1); [apply rnd_le; [reflexivity|apply Y]|]. right. apply rnd_id. apply format_int. lia. }
  destruct (Sq c0 k0 K0 V0) as (q0 & W0 & R0 & B0). destruct (Sq c1 k1 K1 V1) as (q1 & W1 & R1 & B1). destruct (Sq c2 k2 K2 V2) as (q2 & W2 & R2 & B2).
  unfold squared_norm; cbn [vx vy vz].
  assert (Z0 : val64 (nadd (NumOps:=N) (nofZ (NumOps:=N) 0) (nmul (NumOps:=N) c0 c0)) q0).
  { pose proof (plus_val 53 1024 Hprec53 Hmax1024 lm _ _ _ _ (ofZ_exact 0 ltac:(lia)) W0) as P. rewrite Rplus_0_l in P.
    rewrite rnd_id in P by (eapply val_format; exact W0). apply P. rewrite Rabs_pos_eq by apply R0. apply Rle_trans with 1; [apply R0|]. change 1 with (b2 0). apply bpow_le. lia. }
  assert (S2 : forall y, 0 <= y <= 4 -> Rabs y <= b2 (1024 - 1)).
  { intros y Y. rewrite Rabs_pos_eq by apply Y. apply Rle_trans with 4; [apply Y|]. change 4 with (b2 2). apply bpow_le. lia. }
  pose proof (plus_val 53 1024 Hprec53 Hmax1024 lm _ _ _ _ Z0 W1 (S2 (q0 + q1) ltac:(lra))) as P1.
  assert (RB : 0 <= rnd64 (q0 + q1) <= 2).
  { split.
    - rewrite <- (round_0 radix2 (SpecFloat.fexp 53 1024) ZnearestE). apply rnd_le; [reflexivity|lra].
    - apply Rle_trans with (rnd64 2); [apply rnd_le; [reflexivity|lra]|]. right. apply rnd_id. apply format_int. lia. }
  pose proof (plus_val 53 1024 Hprec53 Hmax1024 lm _ _ _ _ P1 W2 (S2 (rnd64 (q0 + q1) + q2) ltac:(lra))) as P2.
  etransitivity; [exact (ltb_val 53 1024 Hprec53 Hmax1024 lm _ _ _ _ (ofZ_exact 1 ltac:(lia)) P2)|].
  apply Rltb_false. apply sum_accepted; auto.
  apply IZR_lt in U. rewrite !plus_IZR in U. pose proof (bpow_gt_0 radix2 (-62)).
  assert (H62 : IZR (2 ^ 62) * b2 (-62) = 1) by (change (IZR (2 ^ 62)) with (b2 62); rewrite <- bpow_plus; reflexivity).
  assert (H54 : IZR (2 ^ 8) * b2 (-62) = b2 (-54)) by (change (IZR (2 ^ 8)) with (b2 8); rewrite <- bpow_plus; reflexivity).
  nra.
Qed.

(* the vector of the coordinates drawn from g *)
Definition cube_val (g : pcg) (v : vec3 binary64) : Prop :=
  denotes (vx v) (2 * draw g - 1) /\ denotes (vy v) (2 * draw (pcg_next g) - 1) /\ denotes (vz v) (2 * draw (pcg_next (pcg_next g)) - 1).
Lemma coord_draw : forall g, coord g = 2 * draw g - 1.
Proof.
  intros g. unfold coord, draw. rewrite minus_IZR. change (b2 (-31)) with (/ IZR (2 ^ 31)). change (2 ^ 32)%Z with (2 * 2 ^ 31)%Z. rewrite mult_IZR.
  field. apply not_0_IZR. discriminate.
Qed.
Lemma cube_drawn : forall g, cube_val g (fst (random_cube (F:=N) g)).
Proof.
  intros g. unfold cube_val. rewrite <- !coord_draw.
  split; [exact (coord_val g)|]. split; [exact (coord_val (pcg_next g))|exact (coord_val (pcg_next (pcg_next g)))].
Qed.
Lemma sampler_double : forall g, word64 (pc_state g) -> exists m v,
  (forall fuel, (m < fuel)%nat -> random_unit_vector (F:=N) fuel g = Ok (v, Nat.iter (S m) next3 g)) /\
  nleb (NumOps:=N) (squared_norm (F:=N) v) (nofZ (NumOps:=N) 1) = true /\ cube_val (Nat.iter m next3 g) v.
Proof.
  intros g W. destruct (always_terminates N accepts_double g W) as (n & A).
  destruct (loop_terminates n g A) as (m & _ & Am & _ & R). exists m, (fst (random_cube (F:=N) (Nat.iter m next3 g))).
  split; [intros fuel H; apply R; lia|]. split; [|apply cube_drawn].
  unfold accepts in Am. destruct (cube_drawn (Nat.iter m next3 g)) as (X & Y & Z). set (h := Nat.iter m next3 g) in *.
  destruct (fst (random_cube (F:=N) h)) as [x y z]. cbn [vx vy vz] in *.
  assert (B : forall g, Rabs (2 * draw g - 1) <= 1) by (intros q; apply Rabs_le; pose proof (draw_range q); lra).
  assert (S2 : forall y, 0 <= y <= 4 -> Rabs y <= b2 (1024 - 1)).
  { intros q Q. rewrite Rabs_pos_eq by apply Q. apply Rle_trans with 4; [apply Q|]. change 4 with (b2 2). apply bpow_le. lia. }
  assert (RI : forall z q, (0 <= z <= 4)%Z -> 0 <= q <= IZR z -> 0 <= rnd64 q <= IZR z).
  { intros k q K Q. split.
    - rewrite <- (round_0 radix2 (SpecFloat.fexp 53 1024) ZnearestE). apply rnd_le; [reflexivity|apply Q].
    - rewrite <- (rnd_id 53 1024 (IZR k) (format_int k ltac:(lia))). apply rnd_le; [reflexivity|apply Q]. }
  assert (SQ : forall c a, val64 c a -> Rabs a <= 1 -> exists q, val64 (nmul (NumOps:=N) c c) q /\ 0 <= q <= 1).
  { intros c a V Ha. apply Rabs_le_inv in Ha. assert (Y' : 0 <= a * a <= 1) by nra. exists (rnd64 (a * a)).
    split; [apply (mult_val 53 1024 Hprec53 Hmax1024 lm _ _ _ _ V V); apply S2; lra|apply (RI 1%Z); [lia|exact Y']]. }
  destruct (SQ x _ X (B _)) as (q0 & V0 & B0). destruct (SQ y _ Y (B _)) as (q1 & V1 & B1). destruct (SQ z _ Z (B _)) as (q2 & V2 & B2).
  unfold squared_norm in *. cbn [vx vy vz] in *.
  pose proof (plus_val 53 1024 Hprec53 Hmax1024 lm _ _ _ _ (ofZ_exact 0 ltac:(lia)) V0 (S2 (0 + q0) ltac:(lra))) as P0.
  pose proof (RI 1%Z (0 + q0) ltac:(lia) ltac:(lra)) as R0.
  pose proof (plus_val 53 1024 Hprec53 Hmax1024 lm _ _ _ _ P0 V1 (S2 (rnd64 (0 + q0) + q1) ltac:(lra))) as P1.
  pose proof (RI 2%Z (rnd64 (0 + q0) + q1) ltac:(lia) ltac:(lra)) as R1.
  pose proof (plus_val 53 1024 Hprec53 Hmax1024 lm _ _ _ _ P1 V2 (S2 (rnd64 (rnd64 (0 + q0) + q1) + q2) ltac:(lra))) as P2.
  pose proof (ltb_val 53 1024 Hprec53 Hmax1024 lm _ _ _ _ (ofZ_exact 1 ltac:(lia)) P2) as LT.
  etransitivity; [exact (leb_val 53 1024 Hprec53 Hmax1024 lm _ _ _ _ P2 (ofZ_exact 1 ltac:(lia)))|].
  pose proof (eq_trans (eq_sym Am) LT) as LT2. match type of LT2 with _ = Rltb ?a ?b => destruct (Rltb_spec a b) as [K|K]; [discriminate|] end.
  apply Rleb_iff. exact K.
Qed.
End Double.
