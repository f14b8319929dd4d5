(** The cost map and the progress bar with rounding. *)
From Coq Require Import Reals Lra ZArith Lia List Bool Ascii.
From Flocq Require Import Core BinarySingleNaN Plus_error.
From Verif Require Import Num XR FL P_FL P_Round M_Tables M_Image P_Png.
Import ListNotations.
Local Open Scope R_scope.

Section Cost.
Variables prec emax : Z.
Context (Hp : Prec_gt_0 prec) (Hm : Prec_lt_emax prec emax).
Variable lm : libm (binary_float prec emax).
Notation float := (binary_float prec emax).
Notation fe := (SpecFloat.fexp prec emax).
Notation N := (FL prec emax Hp Hm lm).
Notation rnd := (round radix2 (SpecFloat.fexp prec emax) ZnearestE).
Notation format := (generic_format radix2 (SpecFloat.fexp prec emax)).
Notation val := (val prec emax).
Hypothesis P8 : (8 <= prec)%Z.

(* max() is the largest finite number *)
Lemma nmax_val : val (nmax (NumOps:=N)) (bpow radix2 emax - bpow radix2 (emax - prec)).
Proof.
  unfold Prec_lt_emax, Prec_gt_0 in *. cbn [nmax FL].
  pose proof (binary_normalize_correct prec emax Hp Hm mode_NE (2 ^ prec - 1) (emax - prec) false) as C. cbv zeta in C.
  assert (E : F2R (Float radix2 (2 ^ prec - 1) (emax - prec)) = bpow radix2 emax - bpow radix2 (emax - prec)).
  { unfold F2R. cbn [Fnum Fexp]. rewrite minus_IZR, (IZR_Zpower radix2) by lia. rewrite Rmult_minus_distr_r, <- bpow_plus.
    replace (prec + (emax - prec))%Z with emax by ring. cbn. ring. }
  assert (F : format (bpow radix2 emax - bpow radix2 (emax - prec))).
  { rewrite <- E. unfold F2R. cbn [Fnum Fexp]. apply format_F2R; auto.
    - assert (0 < 2 ^ prec)%Z by (apply Z.pow_pos_nonneg; lia). lia.
    - unfold SpecFloat.emin. lia. }
  rewrite E in C. rewrite round_generic in C by (auto; apply valid_rnd_round_mode).
  pose proof (bpow_gt_0 radix2 (emax - prec)). pose proof (bpow_le radix2 (emax - prec) emax ltac:(lia)).
  rewrite Rlt_bool_true in C by (rewrite Rabs_pos_eq; lra). destruct C as (C1 & C2 & _). split; auto.
Qed.

(* a difference of non-negative numbers does not overflow *)
Lemma minus_val_nonneg : forall (x y : float) a b, val x a -> val y b -> 0 <= b <= a -> val (nsub (NumOps:=N) x y) (rnd (a - b)).
Proof.
  intros x y a b [X <-] [Y <-] H. pose proof (Bminus_correct prec emax Hp Hm mode_NE x y X Y) as C. cbn [round_mode] in C.
  assert (B : 0 <= rnd (B2R x - B2R y) <= B2R x).
  { split; [apply (rnd_ge_gen prec emax); auto; [apply generic_format_0|lra]|apply (rnd_le_gen prec emax); auto; [apply generic_format_B2R|lra]]. }
  rewrite Rlt_bool_true in C; [|rewrite Rabs_pos_eq by apply B; eapply Rle_lt_trans; [apply B|]; eapply Rle_lt_trans; [apply Rle_abs|apply abs_B2R_lt_emax]].
  destruct C as (C1 & C2 & _). split; auto.
Qed.

(** a list of times *)
Definition times (l : list float) : Prop := forall t, In t l -> exists r, val t r /\ 0 <= r.

Notation step := (fun '(min_time, max_time) t =>
    let max_time := if nltb (NumOps:=N) max_time t then t else max_time in
    let min_time := if nltb (NumOps:=N) t min_time then t else min_time in (min_time, max_time)).
Lemma range_fold : forall l (mn mx : float) a b, times l -> val mn a -> val mx b -> 
  exists mn' mx' a' b', fold_left step l (mn, mx) = (mn', mx') /\ val mn' a' /\ val mx' b' /\ a' <= a /\ b <= b' /\
    (forall t r, In t l -> val t r -> a' <= r <= b') /\
    (a' = a \/ exists t, In t l /\ val t a') /\ (b' = b \/ exists t, In t l /\ val t b').
Proof.
  induction l as [|t l IH]; intros mn mx a b T A B.
  - exists mn, mx, a, b. cbn [fold_left]. repeat split; auto; try lra; try apply A; try apply B; destruct H.
  - destruct (T t (or_introl eq_refl)) as (r & R & R0). assert (T2 : times l) by (intros x I; apply T; right; exact I). cbn [fold_left].
    rewrite (ltb_val prec emax Hp Hm lm t mn r a R A), (ltb_val prec emax Hp Hm lm mx t b r B R).
    set (mn1 := if Rltb r a then t else mn). set (mx1 := if Rltb b r then t else mx).
    assert (V1 : val mn1 (Rmin a r)) by (unfold mn1, Rmin; destruct (Rltb_spec r a); destruct (Rle_dec a r); auto; lra).
    assert (V2 : val mx1 (Rmax b r)) by (unfold mx1, Rmax; destruct (Rltb_spec b r); destruct (Rle_dec b r); auto; replace b with r by lra; auto; replace r with b by lra; auto).
    destruct (IH mn1 mx1 _ _ T2 V1 V2) as (mn' & mx' & a' & b' & E & W1 & W2 & L1 & L2 & All & Ea & Eb).
    exists mn', mx', a', b'. pose proof (Rmin_l a r). pose proof (Rmin_r a r). pose proof (Rmax_l b r). pose proof (Rmax_r b r).
    split; [exact E|]. split; [exact W1|]. split; [exact W2|]. split; [lra|]. split; [lra|]. split; [|split].
    + intros x s [<-|I] S; [|eapply All; eauto]. assert (s = r) by (destruct S as [_ <-], R as [_ <-]; reflexivity). lra.
    + destruct Ea as [->|(x & I & X)]; [|right; exists x; split; [right; exact I|exact X]].
      unfold Rmin. destruct (Rle_dec a r); [left; reflexivity|right; exists t; split; [left; reflexivity|exact R]].
    + destruct Eb as [->|(x & I & X)]; [|right; exists x; split; [right; exact I|exact X]].
      unfold Rmax. destruct (Rle_dec b r); [right; exists t; split; [left; reflexivity|exact R]|left; reflexivity].
Qed.

(* the extremes are attained *)
Lemma range_spec : forall l, times l -> l <> [] -> exists a b,
  val (cost_min (F:=N) l) a /\ val (cost_max (F:=N) l) b /\ 0 <= a <= b /\ (forall t r, In t l -> val t r -> a <= r <= b) /\
  (exists t, In t l /\ val t a) /\ (exists t, In t l /\ val t b).
Proof.
  intros l T NE. pose proof nmax_val as V1. pose proof (zero_val prec emax Hp Hm lm P8) as V0.
  destruct (range_fold l _ _ _ _ T V1 V0) as (mn & mx & a & b & E & A & B & A1 & B1 & All & Ea & Eb).
  assert (E2 : cost_range (F:=N) l = (mn, mx)) by exact E. unfold cost_min, cost_max. rewrite E2. cbn [fst snd].
  destruct l as [|t0 l]; [contradiction|]. destruct (T t0 (or_introl eq_refl)) as (r0 & R0 & N0).
  assert (Bnd : forall t r, In t (t0 :: l) -> val t r -> r <= bpow radix2 emax - bpow radix2 (emax - prec)).
  { intros t r _ V. pose proof (val_bound prec emax Hp t r V) as Q. apply Rabs_le_inv in Q. lra. }
  assert (Ea' : exists t, In t (t0 :: l) /\ val t a).
  { destruct Ea as [->|Q]; auto. exists t0. split; [left; reflexivity|].
    pose proof (All t0 r0 (or_introl eq_refl) R0). pose proof (Bnd t0 r0 (or_introl eq_refl) R0). 
    replace (bpow radix2 emax - bpow radix2 (emax - prec)) with r0 by lra. exact R0. }
  assert (Eb' : exists t, In t (t0 :: l) /\ val t b).
  { destruct Eb as [->|Q]; auto. exists t0. split; [left; reflexivity|].
    pose proof (All t0 r0 (or_introl eq_refl) R0). replace 0 with r0 by lra. exact R0. }
  assert (A0 : 0 <= a).
  { destruct Ea' as (t & I & Q). destruct (T t I) as (r & R & RN). destruct Q as [_ <-], R as [_ <-]. exact RN. }
  rewrite (ltb_val prec emax Hp Hm lm mn (nofZ (NumOps:=N) 0) a 0 A V0). rewrite (Rltb_false a 0) by lra.
  exists a, b. pose proof (All t0 r0 (or_introl eq_refl) R0). repeat split; try apply A; try apply B; try lra; auto; eapply All; eauto.
Qed.

Lemma minus_neq : forall a b, format a -> format b -> a <> b -> rnd (a - b) <> 0.
Proof.
  intros a b A B H. unfold Rminus. apply round_plus_neq_0; auto.
  - apply fexp_correct. exact Hp.
  - apply monotone_exp_not_FTZ; [apply fexp_correct; exact Hp|]. apply FLT_exp_monotone.
  - apply valid_rnd_N.
  - apply generic_format_opp. exact B.
  - lra.
Qed.

Definition distinct (l : list float) : Prop := exists t u r q, In t l /\ In u l /\ val t r /\ val u q /\ r <> q.
Lemma val_fun : forall (x : float) a b, val x a -> val x b -> a = b.
Proof. intros x a b [_ <-] [_ <-]. reflexivity. Qed.

Lemma cost_scalar_val : forall l c r, times l -> distinct l -> In c l -> val c r -> exists a b,
  val (cost_min (F:=N) l) a /\ val (cost_max (F:=N) l) b /\ a <= r <= b /\ a < b /\ 0 < rnd (b - a) /\ 0 <= rnd (r - a) <= rnd (b - a) /\
  val (cost_scalar (F:=N) l c) (rnd (rnd (r - a) / rnd (b - a))).
Proof.
  intros l c r T (t & u & rt & ru & It & Iu & Vt & Vu & D) I V.
  destruct (range_spec l T ltac:(intros ->; destruct I)) as (a & b & A & B & AB & All & _).
  exists a, b. pose proof (All c r I V) as R. pose proof (All t rt It Vt) as R1. pose proof (All u ru Iu Vu) as R2.
  assert (L : a < b) by (destruct (Rtotal_order rt ru) as [?|[?|?]]; lra).
  assert (S1 : val (nsub (NumOps:=N) c (cost_min (F:=N) l)) (rnd (r - a))) by (apply minus_val_nonneg; auto; lra).
  assert (S2 : val (nsub (NumOps:=N) (cost_max (F:=N) l) (cost_min (F:=N) l)) (rnd (b - a))) by (apply minus_val_nonneg; auto; lra).
  assert (G0 : 0 <= rnd (b - a)) by (apply (rnd_ge_gen prec emax); auto; [apply generic_format_0|lra]).
  assert (G : rnd (b - a) <> 0) by (apply minus_neq; [apply (val_format _ _ _ _ B)|apply (val_format _ _ _ _ A)|lra]).
  assert (Q : 0 <= rnd (r - a) <= rnd (b - a)) by (split; [apply (rnd_ge_gen prec emax); auto; [apply generic_format_0|lra]|apply rnd_le; auto; lra]).
  split; [exact A|]. split; [exact B|]. split; [exact R|]. split; [exact L|]. split; [lra|]. split; [exact Q|].
  unfold cost_scalar. apply div_val; auto.
  assert (H : 0 <= rnd (r - a) / rnd (b - a) <= 1).
  { split; [apply Rmult_le_pos; [lra|apply Rlt_le, Rinv_0_lt_compat; lra]|]. apply Rmult_le_reg_r with (rnd (b - a)); [lra|].
    unfold Rdiv. rewrite Rmult_assoc, Rinv_l by lra. lra. }
  rewrite Rabs_pos_eq by lra. pose proof (bp8 prec emax Hm P8). lra.
Qed.
Lemma ratio_unit : forall p q, 0 < q -> 0 <= p <= q -> 0 <= p / q <= 1.
Proof.
  intros p q Q P. split; [apply Rmult_le_pos; [lra|apply Rlt_le, Rinv_0_lt_compat; lra]|]. apply Rmult_le_reg_r with q; [lra|].
  unfold Rdiv. rewrite Rmult_assoc, Rinv_l by lra. lra.
Qed.
Lemma cost_scalar_unit : forall l c, times l -> distinct l -> In c l -> exists s, val (cost_scalar (F:=N) l c) s /\ 0 <= s <= 1.
Proof.
  intros l c T D I. destruct (T c I) as (r & V & _). destruct (cost_scalar_val l c r T D I V) as (a & b & _ & _ & _ & _ & G & Q & S).
  eexists. split; [exact S|]. apply (rnd_unit prec emax); auto. apply ratio_unit; auto.
Qed.
(* the fastest pixel gets 0, the slowest 1, and slower pixels do not get less *)
Lemma cost_scalar_mono : forall l c d r q, times l -> distinct l -> In c l -> In d l -> val c r -> val d q -> r <= q ->
  exists s s', val (cost_scalar (F:=N) l c) s /\ val (cost_scalar (F:=N) l d) s' /\ s <= s'.
Proof.
  intros l c d r q T D Ic Id Vc Vd H. destruct (cost_scalar_val l c r T D Ic Vc) as (a & b & A & B & _ & _ & G & Q & S).
  destruct (cost_scalar_val l d q T D Id Vd) as (a' & b' & A' & B' & _ & _ & _ & _ & S').
  assert (a' = a) by (eapply val_fun; eauto). assert (b' = b) by (eapply val_fun; eauto). subst a' b'.
  do 2 eexists. split; [exact S|]. split; [exact S'|]. apply rnd_le; auto. unfold Rdiv. apply Rmult_le_compat_r; [apply Rlt_le, Rinv_0_lt_compat; lra|].
  apply rnd_le; auto. lra.
Qed.
Lemma cost_scalar_ends : forall l c r, times l -> distinct l -> In c l -> val c r ->
  ((forall t q, In t l -> val t q -> r <= q) -> val (cost_scalar (F:=N) l c) 0) /\ ((forall t q, In t l -> val t q -> q <= r) -> val (cost_scalar (F:=N) l c) 1).
Proof.
  intros l c r T D I V. destruct (cost_scalar_val l c r T D I V) as (a & b & A & B & R & AB & G & Q & S).
  destruct (range_spec l T ltac:(intros ->; destruct I)) as (a' & b' & A' & B' & _ & _ & (ta & Ia & Va) & (tb & Ib & Vb)).
  assert (a' = a) by exact (val_fun _ _ _ A' A). assert (b' = b) by exact (val_fun _ _ _ B' B). subst a' b'. split; intros H.
  - pose proof (H ta a Ia Va). replace r with a in S by lra. replace (a - a) with 0 in S by ring. rewrite (rnd_id prec emax 0) in S by apply generic_format_0.
    unfold Rdiv in S. rewrite Rmult_0_l, (rnd_id prec emax 0) in S by apply generic_format_0. exact S.
  - pose proof (H tb b Ib Vb). replace r with b in S by lra. unfold Rdiv in S. rewrite Rinv_r, (rnd_id prec emax 1) in S; [exact S|apply (format_small prec emax); auto; lia|lra].
Qed.
(* equal times: 0/0 *)
Lemma val_zero : forall x : float, val x 0 -> exists s, x = B754_zero s.
Proof.
  intros [s|s| |s m e b] [F V]; try discriminate; [eauto|]. exfalso. cbn [B2R] in V. apply eq_0_F2R in V. destruct s; discriminate.
Qed.
Lemma cost_scalar_equal : forall l c r, 0 <= r -> In c l -> (forall t, In t l -> val t r) -> cost_scalar (F:=N) l c = B754_nan.
Proof.
  intros l c r R I H. assert (T : times l) by (intros t J; exists r; auto).
  destruct (range_spec l T ltac:(intros ->; destruct I)) as (a & b & A & B & AB & All & (ta & Ia & Va) & (tb & Ib & Vb)).
  assert (a = r) by (eapply val_fun; [exact Va|auto]). assert (b = r) by (eapply val_fun; [exact Vb|auto]). subst a b.
  assert (S1 : val (nsub (NumOps:=N) c (cost_min (F:=N) l)) (rnd (r - r))) by (apply minus_val_nonneg; auto; lra).
  assert (S2 : val (nsub (NumOps:=N) (cost_max (F:=N) l) (cost_min (F:=N) l)) (rnd (r - r))) by (apply minus_val_nonneg; auto; lra).
  replace (r - r) with 0 in * by ring. rewrite (rnd_id prec emax 0) in * by apply generic_format_0.
  apply val_zero in S1 as [s1 S1], S2 as [s2 S2]. unfold cost_scalar. rewrite S1, S2. destruct s1, s2; reflexivity.
Qed.

(** progress bar *)
Lemma progress_fl : forall (p : float) r, val p r -> 0 <= r <= 1 -> exists k, (k <= 100)%nat /\
  display_progress (F:=N) p = Ok (cells 100 0 (Z.of_nat k), Z.of_nat k) /\
  INR k <= 100 * r + bpow radix2 (6 - prec) /\ 100 * r - bpow radix2 (6 - prec) < INR k + 1.
Proof.
  intros p r V R. pose proof (small_val prec emax Hp Hm lm P8 100 ltac:(lia)) as V100. pose proof (bp8 prec emax Hm P8) as B8.
  assert (M1 : val (nmul (NumOps:=N) (nofZ (NumOps:=N) 100) p) (rnd (100 * r))) by (apply mult_val; auto; rewrite Rabs_pos_eq; lra).
  assert (M2 : val (nmul (NumOps:=N) p (nofZ (NumOps:=N) 100)) (rnd (100 * r))).
  { rewrite (Rmult_comm 100 r). apply mult_val; auto. rewrite Rabs_pos_eq; lra. }
  set (q := rnd (100 * r)) in *.
  assert (Q : 0 <= q <= 100).
  { split; [apply (rnd_ge_gen prec emax); auto; [apply generic_format_0|lra]|apply (rnd_le_gen prec emax); auto; [apply (format_small prec emax Hp Hm P8 100); lia|lra]]. }
  assert (Z0 : (0 <= Ztrunc q <= 100)%Z).
  { split; [rewrite <- (Ztrunc_IZR 0)|rewrite <- (Ztrunc_IZR 100)]; apply Ztrunc_le; apply Q. }
  exists (Z.to_nat (Ztrunc q)). split; [lia|]. rewrite Z2Nat.id by lia. split.
  - unfold display_progress, to_int, to_range. rewrite (trunc_val prec emax Hp Hm lm _ _ M1), (trunc_val prec emax Hp Hm lm _ _ M2).
    rewrite (proj2 (Z.leb_le (- 2 ^ 31) (Ztrunc q))), (proj2 (Z.leb_le (Ztrunc q) (2 ^ 31 - 1))) by lia. reflexivity.
  - rewrite INR_IZR_INZ, Z2Nat.id by lia. rewrite Ztrunc_floor by apply Q.
    assert (E : Rabs (q - 100 * r) <= bpow radix2 (7 - prec - 1)).
    { apply rnd_error; auto; [unfold SpecFloat.emin, Prec_lt_emax in *; lia|]. change (bpow radix2 7) with 128. rewrite Rabs_pos_eq; lra. }
    replace (7 - prec - 1)%Z with (6 - prec)%Z in E by ring. apply Rabs_le_inv in E. pose proof (Zfloor_lb q). pose proof (Zfloor_ub q). lra.
Qed.
End Cost.

(** the cells of the bar *)
Lemma cells_before : forall n i pos, (Z.of_nat (i + n) <= pos)%Z -> cells n i pos = repeat "="%char n.
Proof.
  induction n as [|n IH]; intros i pos H; cbn [cells repeat]; [reflexivity|]. rewrite (proj2 (Z.ltb_lt _ _)) by lia. f_equal. apply IH. lia.
Qed.
Lemma cells_after : forall n i pos, (pos < Z.of_nat i)%Z -> cells n i pos = repeat " "%char n.
Proof.
  induction n as [|n IH]; intros i pos H; cbn [cells repeat]; [reflexivity|]. rewrite (proj2 (Z.ltb_ge _ _)), (proj2 (Z.eqb_neq _ _)) by lia. f_equal. apply IH. lia.
Qed.
Lemma cells_at : forall a b i, cells (a + S b) i (Z.of_nat (i + a)) = repeat "="%char a ++ ">"%char :: repeat " "%char b.
Proof.
  induction a as [|a IH]; intros b i; cbn [Nat.add repeat app].
  - cbn [cells]. rewrite (proj2 (Z.ltb_ge _ _)), (proj2 (Z.eqb_eq _ _)) by lia. f_equal. apply cells_after. lia.
  - cbn [cells]. rewrite (proj2 (Z.ltb_lt _ _)) by lia. f_equal. replace (i + S a)%nat with (S i + a)%nat by lia. apply IH.
Qed.
Lemma cells_bar : forall k, (k <= 100)%nat -> cells 100 0 (Z.of_nat k) = repeat "="%char k ++ (if Nat.eqb k 100 then [] else ">"%char :: repeat " "%char (99 - k)).
Proof.
  intros k K. destruct (Nat.eqb_spec k 100) as [->|H].
  - rewrite app_nil_r. apply cells_before. cbn. lia.
  - pose proof (cells_at k (99 - k) 0) as C. replace (k + S (99 - k))%nat with 100%nat in C by lia. exact C.
Qed.
