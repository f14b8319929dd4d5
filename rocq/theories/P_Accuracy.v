(** Rounding errors of difference_of_products, discriminant and quadratic_roots, in every format. *)
From Coq Require Import Reals Lra Psatz ZArith Lia List Bool.
From Flocq Require Import Core BinarySingleNaN Relative Mult_error.
From Verif Require Import Num XR FL Spec Spec_Accuracy M_Vec M_Roots P_FL P_Round.
Import ListNotations.
Local Open Scope R_scope.

Section Acc.
Variables prec emax : Z.
Context (Hp : Prec_gt_0 prec) (Hm : Prec_lt_emax prec emax).
Variable lm : libm (binary_float prec emax).
Notation float := (binary_float prec emax).
Notation N := (FL prec emax Hp Hm lm).
Notation fe := (SpecFloat.fexp prec emax).
Notation rnd := (round radix2 (SpecFloat.fexp prec emax) ZnearestE).
Notation format := (generic_format radix2 (SpecFloat.fexp prec emax)).
Notation val := (val prec emax).
Notation b2 := (bpow radix2).
Notation u := (bpow radix2 (- prec)).

Lemma fma_val : forall x y z a b c, val x a -> val y b -> val z c -> Rabs (a * b + c) <= b2 (emax - 1) -> val (nfma (NumOps:=N) x y z) (rnd (a * b + c)).
Proof.
  intros x y z a b c [X <-] [Y <-] [Z <-] H. pose proof (Bfma_correct prec emax Hp Hm mode_NE x y z X Y Z) as C. cbv zeta in C.
  rewrite no_overflow in C by (auto; apply valid_rnd_round_mode). destruct C as (C1 & C2 & _). split; auto.
Qed.
Lemma opp_val : forall x a, val x a -> val (nneg (NumOps:=N) x) (- a).
Proof. intros x a H. apply val_fval in H. apply val_fval. cbn [nneg FL]. rewrite fval_opp, H. reflexivity. Qed.
Lemma abs_val : forall x a, val x a -> val (nabs (NumOps:=N) x) (Rabs a).
Proof. intros x a H. apply val_fval in H. apply val_fval. cbn [nabs FL]. rewrite fval_abs, H. reflexivity. Qed.
Lemma sqrt_val : forall x a, val x a -> 0 <= a -> val (nsqrt (NumOps:=N) x) (rnd (sqrt a)).
Proof.
  intros x a [X <-] A. destruct (Bsqrt_correct prec emax Hp Hm mode_NE x) as (C1 & C2 & _). split; [|exact C1]. cbn [nsqrt FL]. rewrite C2.
  destruct x as [s|s| |s m e b]; try discriminate; [reflexivity|]. destruct s; [|reflexivity]. exfalso. cbn [B2R] in A. assert (F2R (Float radix2 (SpecFloat.cond_Zopp true (Z.pos m)) e) < 0) by (apply F2R_lt_0; reflexivity). lra.
Qed.

(** *** relative errors, and numbers on a grid *)
Lemma u_eq : / 2 * b2 (- prec + 1) = u.
Proof. rewrite bpow_plus. change (b2 1) with 2. field. Qed.
Lemma rel : forall x, (x = 0 \/ b2 (2 - emax) <= Rabs x) -> exists d, Rabs d <= u /\ rnd x = x * (1 + d).
Proof.
  intros x [->|H]; [exists 0; rewrite round_0, Rabs_R0 by apply valid_rnd_N; split; [apply bpow_ge_0|ring]|].
  rewrite <- u_eq. apply (relative_error_N_FLT_ex radix2 (SpecFloat.emin prec emax) prec Hp (fun x => negb (Z.even x))).
  unfold SpecFloat.emin. replace (3 - emax - prec + prec - 1)%Z with (2 - emax)%Z by ring. exact H.
Qed.
Definition grid (l : Z) (x : R) : Prop := exists m, x = IZR m * b2 l.
Lemma grid_down : forall l l' x, (l' <= l)%Z -> grid l x -> grid l' x.
Proof.
  intros l l' x H (m & ->). exists (m * 2 ^ (l - l'))%Z. rewrite mult_IZR, (IZR_Zpower radix2) by lia. rewrite Rmult_assoc, <- bpow_plus. do 2 f_equal. ring.
Qed.
Lemma grid_plus : forall l x y, grid l x -> grid l y -> grid l (x + y).
Proof. intros l x y (m & ->) (n & ->). exists (m + n)%Z. rewrite plus_IZR. ring. Qed.
Lemma grid_opp : forall l x, grid l x -> grid l (- x).
Proof. intros l x (m & ->). exists (- m)%Z. rewrite opp_IZR. ring. Qed.
Lemma grid_mult : forall l l' x y, grid l x -> grid l' y -> grid (l + l') (x * y).
Proof. intros l l' x y (m & ->) (n & ->). exists (m * n)%Z. rewrite mult_IZR, bpow_plus. ring. Qed.
Lemma grid_0 : forall l, grid l 0.
Proof. intros l. exists 0%Z. ring. Qed.
Lemma grid_large : forall l x, grid l x -> x = 0 \/ b2 l <= Rabs x.
Proof.
  intros l x (m & ->). destruct (Z.eq_dec m 0) as [->|M]; [left; ring|right]. rewrite Rabs_mult, (Rabs_pos_eq (b2 l)) by apply bpow_ge_0.
  rewrite <- (Rmult_1_l (b2 l)) at 1. apply Rmult_le_compat_r; [apply bpow_ge_0|]. rewrite <- abs_IZR. apply IZR_le. lia.
Qed.
Lemma format_grid : forall x e, format x -> b2 e <= Rabs x -> grid (e + 1 - prec) x.
Proof.
  intros x e F H. apply (grid_down (cexp radix2 fe x)).
  - unfold cexp, SpecFloat.fexp. assert (e < mag radix2 x)%Z by (apply mag_gt_bpow; exact H). lia.
  - exists (Ztrunc (scaled_mantissa radix2 fe x)). exact F.
Qed.
Lemma rnd_grid : forall l x, (SpecFloat.emin prec emax <= l)%Z -> grid l x -> grid l (rnd x).
Proof.
  intros l x E G. destruct (Z_le_dec l (cexp radix2 fe x)) as [C|C].
  - apply (grid_down (cexp radix2 fe x)); [exact C|]. unfold round, F2R. cbn [Fnum Fexp]. eexists. reflexivity.
  - destruct G as (m & E2). rewrite round_generic; [exists m; exact E2|apply valid_rnd_N|].
    apply generic_format_F2R' with (Float radix2 m l); [unfold F2R; cbn [Fnum Fexp]; symmetry; exact E2|]. intros _. cbn [Fexp]. lia.
Qed.

(** numbers of moderate size *)
Variable k : Z.
Hypothesis K : (2 * k + 2 * prec + 8 <= emax)%Z.
Hypothesis K0 : (0 <= k)%Z.
Hypothesis P8 : (8 <= prec)%Z.
Notation moderate := (Spec_Accuracy.moderate k).

Lemma u_small : 0 < u <= 1 / 256.
Proof. split; [apply bpow_gt_0|]. replace (1 / 256) with (b2 (-8)) by (cbn; lra). apply bpow_le. lia. Qed.
Lemma moderate_bound : forall x, moderate x -> Rabs x <= b2 k.
Proof. intros x [->|H]; [rewrite Rabs_R0; apply bpow_ge_0|apply H]. Qed.
Lemma moderate_grid : forall x, format x -> moderate x -> grid (- k + 1 - prec) x.
Proof. intros x F [->|H]; [apply grid_0|]. apply format_grid; [exact F|apply H]. Qed.
Lemma product_bound : forall x y, moderate x -> moderate y -> Rabs (x * y) <= b2 (2 * k).
Proof.
  intros x y X Y. rewrite Rabs_mult. replace (2 * k)%Z with (k + k)%Z by ring. rewrite bpow_plus. apply Rmult_le_compat; try apply Rabs_pos; apply moderate_bound; assumption.
Qed.
Lemma small_sum : forall x n, Rabs x <= IZR n * b2 (2 * k) -> (0 <= n <= 64)%Z -> Rabs x <= b2 (emax - 1).
Proof.
  intros x n H L. eapply Rle_trans; [exact H|]. apply Rle_trans with (b2 6 * b2 (2 * k)); [apply Rmult_le_compat_r; [apply bpow_ge_0|]; change (b2 6) with 64; apply IZR_le; lia|].
  rewrite <- bpow_plus. apply bpow_le. lia.
Qed.

(** f + e, where w is the rounded cd, f the rounded ab - w, and e = w - cd *)
Lemma on_grid : forall y e, grid e y -> Rabs y < b2 (e + prec) -> (SpecFloat.emin prec emax <= e)%Z -> format y.
Proof.
  intros y e (m & ->) H E. apply format_F2R; [exact Hp| |exact E]. apply le_IZR. rewrite abs_IZR, (IZR_Zpower radix2) by lia.
  apply Rmult_le_reg_r with (b2 e); [apply bpow_gt_0|]. rewrite <- bpow_plus. rewrite Rabs_mult, (Rabs_pos_eq (b2 e)) in H by apply bpow_ge_0. replace (prec + e)%Z with (e + prec)%Z by ring. lra.
Qed.
Lemma product_grid : forall a b M, format a -> format b -> b2 M <= Rabs (a * b) -> (Rabs a < b2 (emax - 1)) -> moderate a -> moderate b -> grid (M + 1 - 2 * prec) (a * b).
Proof.
  intros a b M Fa Fb H _ Ma Mb. destruct (Req_dec a 0) as [->|Za]; [rewrite Rmult_0_l; apply grid_0|]. destruct (Req_dec b 0) as [->|Zb]; [rewrite Rmult_0_r; apply grid_0|].
  assert (Ga : grid (mag radix2 a - 1 + 1 - prec) a) by (apply format_grid; [exact Fa|apply bpow_mag_le; exact Za]).
  assert (Gb : grid (mag radix2 b - 1 + 1 - prec) b) by (apply format_grid; [exact Fb|apply bpow_mag_le; exact Zb]).
  pose proof (grid_mult _ _ _ _ Ga Gb) as G. eapply grid_down; [|exact G].
  assert (L : Rabs (a * b) < b2 (mag radix2 a + mag radix2 b)).
  { rewrite Rabs_mult, bpow_plus. apply Rmult_le_0_lt_compat; try apply Rabs_pos; apply bpow_mag_gt. }
  assert (M < mag radix2 a + mag radix2 b)%Z by (apply (lt_bpow radix2); lra). lia.
Qed.
(** either ab - w is a float, or removing the error of w does not cancel more than half of it *)
Lemma split_case : forall a b p, format a -> format b -> moderate a -> moderate b -> grid (2 * (- k + 1 - prec)) p -> (p = 0 \/ b2 (- (2 * k)) <= Rabs p) ->
  let w := rnd p in format (a * b - w) \/ Rabs (a * b - w) <= 2 * Rabs (a * b - p).
Proof.
  intros a b p Fa Fb Ma Mb Gp Lp w. pose proof u_small as U.
  destruct (Rle_lt_dec (Rabs (a * b - w)) (2 * Rabs (a * b - p))) as [|C]; [right; assumption|left].
  destruct Lp as [->|Lp]; [exfalso; revert C; unfold w; rewrite round_0 by apply valid_rnd_N; pose proof (Rabs_pos (a * b - 0)); lra|].
  destruct (rel p) as (d & D & Ew). { right. eapply Rle_trans; [|exact Lp]. apply bpow_le. lia. } fold w in Ew.
  pose proof D as D'. apply Rabs_le_inv in D'.
  assert (Zp : p <> 0) by (intros ->; rewrite Rabs_R0 in Lp; pose proof (bpow_gt_0 radix2 (- (2 * k))); lra).
  assert (Zw : w <> 0) by (rewrite Ew; apply Rmult_integral_contrapositive_currified; [exact Zp|lra]).
  assert (Fw : format w) by (apply generic_format_round; [apply fe_valid; exact Hp|apply valid_rnd_N]).
  set (M := mag radix2 w : Z). pose proof (bpow_mag_le radix2 w Zw) as W1. pose proof (bpow_mag_gt radix2 w) as W2. fold M in W1, W2.
  assert (ML : (- (2 * k) <= M)%Z).
  { assert (- (2 * k) - 1 < M)%Z; [|lia]. apply (lt_bpow radix2). eapply Rle_lt_trans; [|exact W2]. rewrite Ew, Rabs_mult. rewrite (Rabs_pos_eq (1 + d)) by lra. replace (b2 (- (2 * k) - 1)) with (b2 (- (2 * k)) * / 2) by (unfold Zminus; rewrite bpow_plus; reflexivity).
    pose proof (bpow_gt_0 radix2 (- (2 * k))). apply Rmult_le_compat; lra. }
  set (W := b2 (M - prec)). assert (W0 : 0 < W) by apply bpow_gt_0.
  set (y := a * b - w) in *. set (x := a * b - p) in *. set (e := w - p).
  assert (Exy : x = y + e) by (unfold x, y, e; ring).
  assert (He : Rabs e <= / 2 * W).
  { unfold e, w. eapply Rle_trans; [apply error_le_half_ulp_round; [apply fe_valid; exact Hp|apply (FLT_exp_monotone (SpecFloat.emin prec emax) prec)]|]. fold w. right. rewrite ulp_neq_0 by exact Zw. unfold W. do 2 f_equal. unfold cexp. fold M. unfold SpecFloat.fexp, SpecFloat.emin. lia. }
  assert (Hy : Rabs y < 2 * Rabs e).
  { assert (Rabs y <= Rabs x + Rabs e) by (replace y with (x - e) by (rewrite Exy; ring); eapply Rle_trans; [apply Rabs_triang|]; rewrite Rabs_Ropp; lra). lra. }
  assert (Gw : grid (M - prec) w) by (replace (M - prec)%Z with (M - 1 + 1 - prec)%Z by ring; apply format_grid; assumption).
  assert (Ba : Rabs a < b2 (emax - 1)) by (eapply Rle_lt_trans; [apply moderate_bound; exact Ma|]; apply bpow_lt; lia).
  assert (Em : (SpecFloat.emin prec emax <= M - 2 * prec - 1)%Z) by (unfold SpecFloat.emin; lia).
  destruct (Rle_lt_dec (b2 (M - 1)) (Rabs (a * b))) as [A|A].
  - apply (on_grid y (M - 2 * prec)); [|replace (M - 2 * prec + prec)%Z with (M - prec)%Z by ring; fold W; lra|lia].
    unfold y. apply grid_plus; [|apply grid_opp; apply (grid_down (M - prec)); [lia|exact Gw]].
    replace (M - 2 * prec)%Z with (M - 1 + 1 - 2 * prec)%Z by ring. apply product_grid; assumption.
  - assert (E1 : b2 (M - 1) = b2 (prec - 1) * W) by (unfold W; rewrite <- bpow_plus; f_equal; ring).
    assert (P2 : 4 <= b2 (prec - 1)) by (change 4 with (b2 2); apply bpow_le; lia).
    assert (E2 : b2 (M - 1) = 2 * b2 (M - 2)) by (replace (M - 1)%Z with (1 + (M - 2))%Z by ring; rewrite bpow_plus; reflexivity).
    assert (Tr : Rabs w <= Rabs (a * b) + Rabs y) by (replace w with (a * b - y) by (unfold y; ring); eapply Rle_trans; [apply Rabs_triang|]; rewrite Rabs_Ropp; lra).
    destruct (Rle_lt_dec (b2 (M - 1)) (Rabs p)) as [Pp|Pp].
    + exfalso. (* |w| is the power of two, and y and e have the same sign *)
      assert (Wp : Rabs w = b2 (M - 1)).
      { destruct Gw as (n & En). assert (An : Rabs w = IZR (Z.abs n) * W) by (rewrite En, Rabs_mult, <- abs_IZR, (Rabs_pos_eq (b2 (M - prec))) by apply bpow_ge_0; reflexivity).
        rewrite An in W1, Tr |- *. rewrite E1 in *. rewrite <- (IZR_Zpower radix2) in * by lia. assert (N1 : IZR (radix2 ^ (prec - 1)) <= IZR (Z.abs n)) by (apply Rmult_le_reg_r with W; assumption).
        assert (N2 : IZR (Z.abs n) < IZR (radix2 ^ (prec - 1)) + 1) by (apply Rmult_lt_reg_r with W; [exact W0|]; lra). rewrite <- plus_IZR in N2. apply le_IZR in N1. apply lt_IZR in N2. f_equal. f_equal. lia. }
      assert (Hx : Rabs y <= Rabs x).
      { assert (Sx : Rabs p - Rabs (a * b) <= Rabs x) by (unfold x; rewrite (Rabs_minus_sym (a * b) p); apply Rabs_triang_inv).
        assert (Sy : Rabs y <= Rabs w - Rabs (a * b)).
        { assert (Yw : Rabs y < Rabs w) by (rewrite Wp, E1; nra).
          unfold y in *. unfold Rabs in *. destruct (Rcase_abs (a * b - w)), (Rcase_abs (a * b)), (Rcase_abs w); lra. }
        lra. }
      pose proof (Rabs_pos x). lra.
    + assert (Hmp : (mag radix2 p <= M - 1)%Z) by (apply mag_le_bpow; assumption).
      assert (He2 : Rabs e <= / 4 * W).
      { unfold e, w. eapply Rle_trans; [apply error_le_half_ulp; apply fe_valid; exact Hp|]. rewrite ulp_neq_0 by exact Zp.
        assert (Cc : (cexp radix2 fe p <= M - prec - 1)%Z) by (unfold cexp, SpecFloat.fexp, SpecFloat.emin; lia). pose proof (bpow_le radix2 _ _ Cc) as Q. replace (b2 (M - prec - 1)) with (W * / 2) in Q by (unfold W, Zminus; rewrite (bpow_plus radix2 (M + - prec) (- (1))); reflexivity). lra. }
      apply (on_grid y (M - 2 * prec - 1)); [|replace (M - 2 * prec - 1 + prec)%Z with (M - prec - 1)%Z by ring; replace (b2 (M - prec - 1)) with (W * / 2) by (unfold W, Zminus; rewrite (bpow_plus radix2 (M + - prec) (- (1))); reflexivity); lra|lia].
      unfold y. apply grid_plus; [|apply grid_opp; apply (grid_down (M - prec)); [lia|exact Gw]].
      replace (M - 2 * prec - 1)%Z with (M - 2 + 1 - 2 * prec)%Z by ring. apply product_grid; auto. assert (4 * W <= b2 (M - 1)) by (rewrite E1; nra). lra.
Qed.

Definition near_difference (r x : R) : Prop := Rabs (r - x) <= 3 * u * (1 + u) * Rabs x.
Lemma difference_real : forall a b c d c' d' (fa fb fc fd fc' fd' : float), val fa a -> val fb b -> val fc c -> val fd d -> val fc' c' -> val fd' d' -> c' * d' = - (c * d) ->
  Rabs (a * b) <= b2 (2 * k) -> Rabs (c * d) <= 4 * b2 (2 * k) ->
  moderate a -> moderate b -> grid (2 * (- k + 1 - prec)) (a * b) -> grid (2 * (- k + 1 - prec)) (c * d) -> (c * d = 0 \/ b2 (- (2 * k)) <= Rabs (c * d)) ->
  exists r, val (nadd (NumOps:=N) (nfma (NumOps:=N) fa fb (nneg (NumOps:=N) (nmul (NumOps:=N) fc fd))) (nfma (NumOps:=N) fc' fd' (nmul (NumOps:=N) fc fd))) r /\
  near_difference r (a * b - c * d) /\ grid (2 * (- k + 1 - prec)) r /\ Rabs r <= 16 * b2 (2 * k).
Proof.
  intros a b c d c' d' fa fb fc fd fc' fd' Va Vb Vc Vd Vc' Vd' Ecd Ba Bc Ma Mb Ga Gc Lc. pose proof u_small as U. set (l := (2 * (- k + 1 - prec))%Z) in *.
  pose proof (bpow_gt_0 radix2 (2 * k)) as T0. set (T := b2 (2 * k)) in *.
  assert (El : (SpecFloat.emin prec emax <= l)%Z) by (unfold SpecFloat.emin, l; lia).
  assert (Ln : b2 (2 - emax) <= b2 l) by (apply bpow_le; unfold l; lia).
  assert (Rg : forall x, grid l x -> exists e, Rabs e <= u /\ rnd x = x * (1 + e)).
  { intros x G. apply rel. destruct (grid_large l x G) as [|H]; [left; assumption|right; lra]. }
  assert (Vw : val (nmul (NumOps:=N) fc fd) (rnd (c * d))) by (apply mult_val; auto; apply (small_sum _ 4); [exact Bc|lia]).
  set (w := rnd (c * d)) in *. destruct (Rg (c * d) Gc) as (d0 & D0 & Ew). fold w in Ew. assert (Gw : grid l w) by (apply rnd_grid; assumption).
  assert (Bw : Rabs w <= 5 * T) by (rewrite Ew, Rabs_mult; assert (Rabs (1 + d0) <= 1 + 1 / 256) by (apply Rabs_le_inv in D0; apply Rabs_le; lra); pose proof (Rabs_pos (c * d)); pose proof (Rabs_pos (1 + d0)); nra).
  assert (Fe : format (w - c * d)).
  { apply (mult_error_FLT radix2 (SpecFloat.emin prec emax) prec); [apply valid_rnd_N|apply val_format with fc; exact Vc|apply val_format with fd; exact Vd|].
    intros NZ. destruct Lc as [Z|H]; [contradiction|]. eapply Rle_trans; [|exact H]. apply bpow_le. unfold SpecFloat.emin. lia. }
  assert (Bcw : Rabs (w - c * d) <= u * Rabs (c * d)).
  { rewrite Ew. replace (c * d * (1 + d0) - c * d) with (d0 * (c * d)) by ring. rewrite Rabs_mult. apply Rmult_le_compat_r; [apply Rabs_pos|exact D0]. }
  assert (Ve : val (nfma (NumOps:=N) fc' fd' (nmul (NumOps:=N) fc fd)) (w - c * d)).
  { rewrite <- (rnd_id prec emax (w - c * d) Fe). replace (w - c * d) with (c' * d' + w) by (rewrite Ecd; ring). apply fma_val; [exact Vc'|exact Vd'|exact Vw|].
    replace (c' * d' + w) with (w - c * d) by (rewrite Ecd; ring). apply (small_sum _ 4); [|lia]. fold T. eapply Rle_trans; [exact Bcw|]. pose proof (Rabs_pos (c * d)). nra. }
  assert (Vf : val (nfma (NumOps:=N) fa fb (nneg (NumOps:=N) (nmul (NumOps:=N) fc fd))) (rnd (a * b + - w))).
  { apply fma_val; [exact Va|exact Vb|apply opp_val; exact Vw|]. apply (small_sum _ 6); [|lia]. fold T. eapply Rle_trans; [apply Rabs_triang|]. rewrite Rabs_Ropp. lra. }
  assert (Gf : grid l (a * b + - w)) by (apply grid_plus; [exact Ga|apply grid_opp; exact Gw]).
  destruct (Rg _ Gf) as (d1 & D1 & Ef). set (f := rnd (a * b + - w)) in *.
  assert (Gs : grid l (f + (w - c * d))).
  { apply grid_plus; [apply rnd_grid; assumption|]. apply grid_plus; [exact Gw|apply grid_opp; exact Gc]. }
  destruct (Rg _ Gs) as (d2 & D2 & Er).
  assert (Bf : Rabs f <= 7 * T).
  { rewrite Ef, Rabs_mult. assert (Rabs (1 + d1) <= 1 + 1 / 256) by (apply Rabs_le_inv in D1; apply Rabs_le; lra). assert (Rabs (a * b + - w) <= 6 * T) by (eapply Rle_trans; [apply Rabs_triang|]; rewrite Rabs_Ropp; lra). pose proof (Rabs_pos (a * b + - w)). pose proof (Rabs_pos (1 + d1)). nra. }
  assert (Bs : Rabs (f + (w - c * d)) <= 8 * T).
  { eapply Rle_trans; [apply Rabs_triang|]. pose proof (Rabs_pos (c * d)). nra. }
  exists (rnd (f + (w - c * d))). split; [|split; [|split]].
  - apply plus_val; auto. apply (small_sum _ 8); [exact Bs|lia].
  - set (x := a * b - c * d) in *. unfold near_difference. pose proof (Rabs_pos x) as X0.
    assert (Y : exists t, Rabs t <= 2 * u * Rabs x /\ f + (w - c * d) = x + t).
    { destruct (split_case a b (c * d) (val_format _ _ _ _ Va) (val_format _ _ _ _ Vb) Ma Mb Gc Lc) as [H|H]; fold w in H.
      - exists 0. split; [rewrite Rabs_R0; nra|]. unfold f. rewrite rnd_id by exact H. unfold x. ring.
      - exists (d1 * (a * b - w)). split; [|rewrite Ef; unfold x; ring]. rewrite Rabs_mult. replace (2 * u * Rabs x) with (u * (2 * Rabs x)) by ring. apply Rmult_le_compat; auto using Rabs_pos. }
    destruct Y as (t & Ht & Et). rewrite Er, Et. replace ((x + t) * (1 + d2) - x) with (x * d2 + t * (1 + d2)) by ring.
    assert (B : Rabs (1 + d2) <= 1 + u) by (apply Rabs_le_inv in D2; apply Rabs_le; lra). eapply Rle_trans; [apply Rabs_triang|]. rewrite !Rabs_mult.
    assert (I1 : Rabs x * Rabs d2 <= Rabs x * u) by (apply Rmult_le_compat_l; assumption). assert (I2 : Rabs t * Rabs (1 + d2) <= 2 * u * Rabs x * (1 + u)) by (apply Rmult_le_compat; auto using Rabs_pos). nra.
  - apply rnd_grid; assumption.
  - rewrite Er, Rabs_mult. assert (Rabs (1 + d2) <= 1 + 1 / 256) by (apply Rabs_le_inv in D2; apply Rabs_le; lra). pose proof (Rabs_pos (f + (w - c * d))). pose proof (Rabs_pos (1 + d2)). nra.
Qed.

Lemma product_low : forall x y, moderate x -> moderate y -> x * y = 0 \/ b2 (- (2 * k)) <= Rabs (x * y).
Proof.
  intros x y [->|X] [->|Y]; try (left; ring). right. rewrite Rabs_mult. replace (- (2 * k))%Z with (- k + - k)%Z by ring. rewrite bpow_plus. apply Rmult_le_compat; try apply bpow_ge_0; [apply X|apply Y].
Qed.

(** *** difference_of_products *)
Lemma difference_accurate : forall (fa fb fc fd : float) a b c d, val fa a -> val fb b -> val fc c -> val fd d -> moderate a -> moderate b -> moderate c -> moderate d ->
  exists r, val (difference_of_products (F:=N) fa fb fc fd) r /\ near_difference r (a * b - c * d).
Proof.
  intros fa fb fc fd a b c d Va Vb Vc Vd Ma Mb Mc Md.
  destruct (difference_real a b c d (- c) d fa fb fc fd (nneg (NumOps:=N) fc) fd) as (r & V & D & _); auto.
  - apply opp_val. exact Vc.
  - ring.
  - apply product_bound; assumption.
  - eapply Rle_trans; [apply product_bound; assumption|]. pose proof (bpow_gt_0 radix2 (2 * k)). lra.
  - replace (2 * (- k + 1 - prec))%Z with ((- k + 1 - prec) + (- k + 1 - prec))%Z by ring. apply grid_mult; apply moderate_grid; auto; eapply val_format; eassumption.
  - replace (2 * (- k + 1 - prec))%Z with ((- k + 1 - prec) + (- k + 1 - prec))%Z by ring. apply grid_mult; apply moderate_grid; auto; eapply val_format; eassumption.
  - apply product_low; assumption.
  - exists r. split; [exact V|exact D].
Qed.

(** *** discriminant *)
Lemma four_val : forall (fa : float) a, val fa a -> moderate a -> val (nmul (NumOps:=N) (nofZ (NumOps:=N) 4) fa) (4 * a).
Proof.
  intros fa a V M. pose proof (moderate_bound a M) as B.
  assert (F4 : format (IZR 4)).
  { replace (IZR 4) with (IZR 4 * b2 0) by (cbn; ring). apply format_F2R; [exact Hp|change (Z.abs 4) with (2 ^ 2)%Z; apply Z.pow_le_mono_r; lia|unfold SpecFloat.emin; lia]. }
  assert (V4 : val (nofZ (NumOps:=N) 4) 4).
  { rewrite <- (rnd_id prec emax 4 F4). apply ofZ_val. rewrite Rabs_pos_eq by lra. change 4 with (b2 2). apply bpow_le. lia. }
  assert (Fa : format (4 * a)).
  { destruct (Req_dec a 0) as [->|Z]; [rewrite Rmult_0_r; apply generic_format_0|]. destruct M as [M|M]; [contradiction|].
    destruct (format_grid a (- k) (val_format _ _ _ _ V) (proj1 M)) as (m & E).
    pose proof (val_format _ _ _ _ V) as Fo. change 4 with (b2 2). rewrite Rmult_comm.
    apply (generic_format_F2R' radix2 fe _ (Float radix2 (Ztrunc (scaled_mantissa radix2 fe a)) (cexp radix2 fe a + 2))).
    - unfold F2R. cbn [Fnum Fexp]. rewrite bpow_plus, <- Rmult_assoc. f_equal. symmetry. exact Fo.
    - intros _. cbn [Fexp]. unfold cexp, SpecFloat.fexp. rewrite mag_mult_bpow by exact Z. lia. }
  rewrite <- (rnd_id prec emax _ Fa). apply mult_val; auto. rewrite Rabs_mult, (Rabs_pos_eq 4) by lra. apply Rle_trans with (b2 2 * b2 k); [change (b2 2) with 4; lra|]. rewrite <- bpow_plus. apply bpow_le. lia.
Qed.
Lemma discriminant_accurate : forall (fa fb fc : float) a b c, val fa a -> val fb b -> val fc c -> moderate a -> moderate b -> moderate c ->
  exists r, val (discriminant (F:=N) fa fb fc) r /\ near_difference r (b * b - 4 * a * c) /\ grid (2 * (- k + 1 - prec)) r /\ Rabs r <= 16 * b2 (2 * k).
Proof.
  intros fa fb fc a b c Va Vb Vc Ma Mb Mc. pose proof (four_val fa a Va Ma) as V4.
  assert (E2 : (2 * (- k + 1 - prec) = (- k + 1 - prec) + (- k + 1 - prec))%Z) by ring.
  destruct (difference_real b b (4 * a) c (- c) (4 * a) fb fb (nmul (NumOps:=N) (nofZ (NumOps:=N) 4) fa) fc (nneg (NumOps:=N) fc) (nmul (NumOps:=N) (nofZ (NumOps:=N) 4) fa)) as (r & V & D & G & B); auto.
  - apply opp_val. exact Vc.
  - ring.
  - apply product_bound; assumption.
  - rewrite Rmult_assoc, Rabs_mult, (Rabs_pos_eq 4) by lra. pose proof (product_bound a c Ma Mc). lra.
  - rewrite E2. apply grid_mult; apply moderate_grid; auto; eapply val_format; eassumption.
  - rewrite Rmult_assoc. assert (G : grid (- k + 1 - prec + (- k + 1 - prec)) (a * c)) by (apply grid_mult; apply moderate_grid; auto; eapply val_format; eassumption). rewrite E2. destruct G as (m & ->). exists (4 * m)%Z. rewrite mult_IZR. ring.
  - rewrite Rmult_assoc. destruct (product_low a c Ma Mc) as [-> | H]; [left; ring|right]. rewrite Rabs_mult, (Rabs_pos_eq 4) by lra. pose proof (Rabs_pos (a * c)). lra.
  - exists r. split; [exact V|]. split; [exact D|]. split; assumption.
Qed.

(** *** quadratic_roots *)
Lemma min_val : val (nmin (NumOps:=N)) (b2 (2 - emax)).
Proof.
  assert (Fo : format (b2 (2 - emax))) by (apply format_big; [exact Hp|unfold SpecFloat.emin; lia]).
  cbn [nmin FL]. pose proof (binary_normalize_correct prec emax Hp Hm mode_NE 1 (2 - emax) false) as C. unfold F2R in C. cbn [Fnum Fexp] in C. rewrite Rmult_1_l in C.
  rewrite no_overflow in C; [|exact Hp|exact Hm|apply valid_rnd_round_mode|rewrite Rabs_pos_eq by apply bpow_ge_0; apply bpow_le; lia].
  destruct C as (C1 & C2 & _). split; [exact C2|]. rewrite C1. cbn [round_mode]. apply rnd_id; exact Fo.
Qed.
Lemma sign_val : forall (y : float) b, val y b -> b <> 0 -> (Bsign y = true /\ b < 0) \/ (Bsign y = false /\ 0 < b).
Proof.
  intros y b [F <-] Z. destruct y as [s|s| |s m e P]; try discriminate; [cbn in Z; lra|]. cbn [B2R Bsign]. destruct s; [left|right]; (split; [reflexivity|]).
  - apply (F2R_lt_0 radix2 (Float radix2 (SpecFloat.cond_Zopp true (Z.pos m)) e)). reflexivity.
  - apply (F2R_gt_0 radix2 (Float radix2 (SpecFloat.cond_Zopp false (Z.pos m)) e)). reflexivity.
Qed.
Lemma copysign_val : forall (x y : float) a b, val x a -> val y b -> 0 <= a -> b <> 0 -> val (ncopysign (NumOps:=N) x y) (if Rltb b 0 then - a else a).
Proof.
  intros x y a b X Y A B. destruct (Req_dec a 0) as [->|Z].
  - replace (if Rltb b 0 then - 0 else 0) with 0 by (destruct (Rltb b 0); ring). cbn [ncopysign FL]. unfold fl_copysign. destruct (Bool.eqb _ _); [exact X|]. replace 0 with (- 0) by ring. apply opp_val. exact X.
  - destruct (sign_val x a X Z) as [[_ ?]|[S1 _]]; [lra|]. cbn [ncopysign FL]. unfold fl_copysign. rewrite S1. destruct (sign_val y b Y B) as [[S2 H]|[S2 H]]; rewrite S2; cbn [Bool.eqb].
    + rewrite Rltb_true by exact H. apply opp_val. exact X.
    + rewrite Rltb_false by lra. exact X.
Qed.
Lemma two_val : val (nofZ (NumOps:=N) 2) 2.
Proof.
  assert (F2 : format (IZR 2)).
  { replace (IZR 2) with (IZR 2 * b2 0) by (cbn; ring). apply format_F2R; [exact Hp|change (Z.abs 2) with (2 ^ 1)%Z; apply Z.pow_le_mono_r; lia|unfold SpecFloat.emin; lia]. }
  rewrite <- (rnd_id prec emax 2 F2). apply ofZ_val. rewrite Rabs_pos_eq by lra. change 2 with (b2 1). apply bpow_le. lia.
Qed.
Lemma zero_val : val (nofZ (NumOps:=N) 0) 0.
Proof. split; reflexivity. Qed.
End Acc.

(** the real analysis *)
Section Reals.
Variable v : R.
Hypothesis V : 0 < v <= 1 / 256.

Lemma sqrt_close : forall D r, 0 <= D -> 0 <= r -> Rabs (r - D * D) <= 3 * v * (1 + v) * (D * D) -> Rabs (sqrt r - D) <= 2 * v * D.
Proof.
  intros D r HD Hr H. pose proof (sqrt_pos r) as S0. pose proof (sqrt_sqrt r Hr) as S2. set (s := sqrt r) in *. rewrite <- S2 in H. apply Rabs_le_inv in H. destruct HD as [HD|<-]; [|assert (s = 0) by nra; apply Rabs_le; lra].
  assert (D2 : 0 < D * D) by nra. assert (V2 : 0 <= v * v <= v / 256) by nra.
  apply Rabs_le. split.
  - destruct (Rle_lt_dec (D - 2 * v * D) s) as [|C]; [lra|exfalso]. assert (s * s <= (D - 2 * v * D) * (D - 2 * v * D)) by (apply Rmult_le_compat; lra). nra.
  - destruct (Rle_lt_dec s (D + 2 * v * D)) as [|C]; [lra|exfalso]. assert ((D + 2 * v * D) * (D + 2 * v * D) <= s * s) by (apply Rmult_le_compat; nra). nra.
Qed.
Lemma q_close : forall B D s d1 d2, 0 < B -> 0 <= D -> 0 <= s -> Rabs (s - D) <= 2 * v * D -> Rabs d1 <= v -> Rabs d2 <= v ->
  Rabs ((B + s * (1 + d1)) * (1 + d2) - (B + D)) <= 9 / 2 * v * (B + D).
Proof.
  intros B D s d1 d2 HB HD Hs H H1 H2. set (T := B + D) in *. assert (T0 : 0 < T) by (unfold T; lra).
  set (g := s * (1 + d1) - D).
  assert (G : Rabs g <= (3 * v + 2 * v * v) * T).
  { unfold g. replace (s * (1 + d1) - D) with ((s - D) * (1 + d1) + D * d1) by ring. eapply Rle_trans; [apply Rabs_triang|]. rewrite !Rabs_mult, (Rabs_pos_eq D) by lra.
    assert (Rabs (1 + d1) <= 1 + v) by (apply Rabs_le_inv in H1; apply Rabs_le; lra). pose proof (Rabs_pos (1 + d1)). pose proof (Rabs_pos (s - D)). pose proof (Rabs_pos d1).
    assert (D <= T) by (unfold T; lra). assert (2 * v * D <= 2 * v * T) by (apply Rmult_le_compat_l; lra).
    assert (Rabs (s - D) * Rabs (1 + d1) <= 2 * v * T * (1 + v)) by (apply Rmult_le_compat; lra). assert (D * Rabs d1 <= T * v) by (apply Rmult_le_compat; lra). nra. }
  replace ((B + s * (1 + d1)) * (1 + d2) - T) with (g + g * d2 + T * d2) by (unfold g, T; ring).
  eapply Rle_trans; [apply Rabs_triang|]. assert (Rabs (g + g * d2) <= Rabs g + Rabs g * Rabs d2) by (rewrite <- Rabs_mult; apply Rabs_triang). rewrite (Rabs_mult T), (Rabs_pos_eq T) by lra.
  assert (Rabs g * Rabs d2 <= (3 * v + 2 * v * v) * T * v) by (apply Rmult_le_compat; try apply Rabs_pos; assumption).
  assert (T * Rabs d2 <= T * v) by (apply Rmult_le_compat_l; lra).
  assert (F : (3 * v + 2 * v * v) + (3 * v + 2 * v * v) * v + v <= 9 / 2 * v) by nra. nra.
Qed.
Lemma times_close : forall x e d, Rabs e <= 9 / 2 * v -> Rabs d <= v -> Rabs (x * (1 + e) * (1 + d) - x) <= 6 * v * Rabs x.
Proof.
  intros x e d E D. replace (x * (1 + e) * (1 + d) - x) with (x * (e + d + e * d)) by ring. rewrite Rabs_mult, Rmult_comm. apply Rmult_le_compat_r; [apply Rabs_pos|].
  eapply Rle_trans; [apply Rabs_triang|]. rewrite Rabs_mult. assert (Rabs (e + d) <= Rabs e + Rabs d) by apply Rabs_triang. assert (Rabs e * Rabs d <= 9 / 2 * v * v) by (apply Rmult_le_compat; try apply Rabs_pos; assumption). nra.
Qed.
Lemma over_close : forall x e d, Rabs e <= 9 / 2 * v -> Rabs d <= v -> Rabs (x / (1 + e) * (1 + d) - x) <= 6 * v * Rabs x.
Proof.
  intros x e d E D. apply Rabs_le_inv in E, D. assert (P : 0 < 1 + e) by lra. replace (x / (1 + e) * (1 + d) - x) with (x * ((d - e) / (1 + e))) by (field; lra). rewrite Rabs_mult, Rmult_comm. apply Rmult_le_compat_r; [apply Rabs_pos|].
  unfold Rdiv. rewrite Rabs_mult, (Rabs_pos_eq (/ (1 + e))) by (left; apply Rinv_0_lt_compat; exact P). apply Rmult_le_reg_r with (1 + e); [exact P|]. rewrite Rmult_assoc, Rinv_l, Rmult_1_r by lra.
  assert (Rabs (d - e) <= 11 / 2 * v) by (apply Rabs_le; lra). assert (11 / 2 * v <= 6 * v * (1 + e)) by nra. lra.
Qed.
Lemma sort_close : forall c x0 x1 r0 r1, 0 <= c < 1 -> x0 <= x1 -> r1 <= r0 -> Rabs (x0 - r0) <= c * Rabs r0 -> Rabs (x1 - r1) <= c * Rabs r1 -> Rabs (x0 - r1) <= c * Rabs r1 /\ Rabs (x1 - r0) <= c * Rabs r0.
Proof.
  intros c x0 x1 r0 r1 C X Rr H0 H1. apply Rabs_le_inv in H0, H1.
  assert (A : r1 - c * Rabs r1 <= r0 - c * Rabs r0 /\ r1 + c * Rabs r1 <= r0 + c * Rabs r0) by (unfold Rabs; destruct (Rcase_abs r1), (Rcase_abs r0); nra).
  split; apply Rabs_le; lra.
Qed.
End Reals.

Section Quad.
Variables prec emax : Z.
Context (Hp : Prec_gt_0 prec) (Hm : Prec_lt_emax prec emax).
Variable lm : libm (binary_float prec emax).
Notation float := (binary_float prec emax).
Notation N := (FL prec emax Hp Hm lm).
Notation rnd := (round radix2 (SpecFloat.fexp prec emax) ZnearestE).
Notation val := (val prec emax).
Notation b2 := (bpow radix2).
Notation u := (bpow radix2 (- prec)).
Variable k : Z.
Hypothesis K : (2 * k + 2 * prec + 8 <= emax)%Z.
Hypothesis K0 : (0 <= k)%Z.
Hypothesis P8 : (8 <= prec)%Z.

Definition accurate (a b c y0 y1 : R) : Prop := exists t0 t1, two_roots a b c t0 t1 /\ Rabs (y0 - t0) <= 6 * u * Rabs t0 /\ Rabs (y1 - t1) <= 6 * u * Rabs t1.

Lemma accurate_sort : forall a b c x0 x1 r0 r1, (forall X, a * (X * X) + b * X + c = a * ((X - r0) * (X - r1))) -> Rabs (x0 - r0) <= 6 * u * Rabs r0 -> Rabs (x1 - r1) <= 6 * u * Rabs r1 ->
  x0 <= x1 -> accurate a b c x0 x1.
Proof.
  intros a b c x0 x1 r0 r1 E H0 H1 X. pose proof (u_small prec P8) as U. destruct (Rle_lt_dec r0 r1) as [L|L].
  - exists r0, r1. repeat split; assumption.
  - destruct (sort_close (6 * u) x0 x1 r0 r1) as [A B]; try assumption; [lra|lra|]. exists r1, r0. repeat split; try assumption; [lra|]. intros Y. rewrite E. ring.
Qed.

Lemma factor_bounds : forall x d, 0 <= x -> Rabs d <= u -> x / 2 <= x * (1 + d) <= 257 / 256 * x.
Proof. intros x d X H. pose proof (u_small prec P8). apply Rabs_le_inv in H. split; nra. Qed.

(** sizes *)
Lemma size_ok : forall x, b2 (- (2 * k)) <= 16 * Rabs x -> b2 (2 - emax) <= Rabs x.
Proof.
  intros x H. apply Rmult_le_reg_l with 16; [lra|]. eapply Rle_trans; [|exact H]. change 16 with (b2 4). rewrite <- bpow_plus. apply bpow_le. lia.
Qed.
Lemma kk : b2 (2 * k) = b2 k * b2 k /\ b2 (- (2 * k)) = b2 (- k) * b2 (- k) /\ b2 k * b2 (- k) = 1 /\ 0 < b2 k /\ 0 < b2 (- k).
Proof.
  rewrite <- !bpow_plus. repeat split; try apply bpow_gt_0; [f_equal; ring|f_equal; ring|]. replace (k + - k)%Z with 0%Z by ring. reflexivity.
Qed.
Lemma quotient_bounds : forall x y A B, 0 < A -> 0 < B -> A <= Rabs x <= B -> forall A' B', 0 < A' -> 0 < B' -> A' <= Rabs y <= B' -> A / B' <= Rabs (x / y) <= B / A'.
Proof.
  intros x y A B A0 B0 H A' B' A'0 B'0 H'. assert (Y : y <> 0) by (intros ->; rewrite Rabs_R0 in H'; lra). unfold Rdiv. rewrite Rabs_mult, Rabs_inv. split; apply Rmult_le_compat; try lra; try apply Rabs_pos; try (left; apply Rinv_0_lt_compat; lra); apply Rinv_le_contravar; lra.
Qed.
(** a rounded quotient *)
Lemma div_rel : forall (x y : float) a b, val x a -> val y b -> b <> 0 -> (a = 0 \/ b2 (- k) / 4 <= Rabs a) -> Rabs a <= 4 * b2 k -> b2 (- k) / 4 <= Rabs b <= 4 * b2 k ->
  exists d, Rabs d <= u /\ val (ndiv (NumOps:=N) x y) (a / b * (1 + d)).
Proof.
  intros x y a b X Y B A1 A2 B2. destruct kk as (E1 & E2 & E3 & T1 & T2).
  assert (S1 : Rabs (a / b) <= 16 * b2 (2 * k)).
  { rewrite E1. destruct A1 as [->|A1]; [unfold Rdiv; rewrite Rmult_0_l, Rabs_R0; nra|]. destruct (quotient_bounds a b (b2 (- k) / 4) (4 * b2 k)) with (A' := b2 (- k) / 4) (B' := 4 * b2 k) as [_ Q]; try lra.
    eapply Rle_trans; [exact Q|]. right. replace (b2 (- k)) with (/ b2 k) by (symmetry; apply Rmult_eq_reg_l with (b2 k); [rewrite E3, Rinv_r; lra|lra]). field. lra. }
  destruct (rel prec emax Hp (a / b)) as (d & D & Ed).
  { destruct A1 as [->|A1]; [left; unfold Rdiv; ring|right]. apply size_ok. rewrite E2. destruct (quotient_bounds a b (b2 (- k) / 4) (4 * b2 k)) with (A' := b2 (- k) / 4) (B' := 4 * b2 k) as [Q _]; try lra.
    assert (E : b2 (- k) / 4 / (4 * b2 k) = b2 (- k) * b2 (- k) / 16) by (replace (b2 (- k)) with (/ b2 k) by (symmetry; apply Rmult_eq_reg_l with (b2 k); [rewrite E3, Rinv_r; lra|lra]); field; lra). lra. }
  exists d. split; [exact D|]. rewrite <- Ed. apply div_val; auto. apply (small_sum prec emax k K P8 _ 16); [exact S1|lia].
Qed.

(** the case of a nonzero b *)
Lemma half_format : forall x, generic_format radix2 (SpecFloat.fexp prec emax) x -> b2 (- (2 * k) - 2) <= Rabs x -> generic_format radix2 (SpecFloat.fexp prec emax) (x / 2).
Proof.
  intros x Fo H. assert (Z : x <> 0) by (intros ->; rewrite Rabs_R0 in H; pose proof (bpow_gt_0 radix2 (- (2 * k) - 2)); lra).
  assert (- (2 * k) - 2 < mag radix2 x)%Z by (apply mag_gt_bpow; exact H). change (/ 2) with (b2 (-1)). replace (x / 2) with (x * b2 (-1)) by (cbn; field).
  apply (generic_format_F2R' radix2 _ _ (Float radix2 (Ztrunc (scaled_mantissa radix2 (SpecFloat.fexp prec emax) x)) (cexp radix2 (SpecFloat.fexp prec emax) x + -1))).
  - unfold F2R. cbn [Fnum Fexp]. rewrite bpow_plus, <- Rmult_assoc. f_equal. symmetry. exact Fo.
  - intros _. cbn [Fexp]. unfold cexp, SpecFloat.fexp, SpecFloat.emin. rewrite mag_mult_bpow by exact Z. lia.
Qed.
Lemma main_case : forall (fa fb fc : float) a b c delta, val fa a -> val fb b -> val fc c -> moderate k a -> moderate k b -> moderate k c -> a <> 0 -> b <> 0 ->
  val (discriminant (F:=N) fa fb fc) delta -> near_difference prec delta (b * b - 4 * a * c) -> grid (2 * (- k + 1 - prec)) delta -> Rabs delta <= 16 * b2 (2 * k) ->
  0 <= delta -> 0 <= b * b - 4 * a * c ->
  let q := ndiv (NumOps:=N) (nneg (NumOps:=N) (nadd (NumOps:=N) fb (ncopysign (NumOps:=N) (nsqrt (NumOps:=N) (discriminant (F:=N) fa fb fc)) fb))) (nofZ (NumOps:=N) 2) in
  exists x0 x1 r0 r1, val (ndiv (NumOps:=N) q fa) x0 /\ val (ndiv (NumOps:=N) fc q) x1 /\ (forall X, a * (X * X) + b * X + c = a * ((X - r0) * (X - r1))) /\
    Rabs (x0 - r0) <= 6 * u * Rabs r0 /\ Rabs (x1 - r1) <= 6 * u * Rabs r1.
Proof.
  intros fa fb fc a b c delta Va Vb Vc Ma Mb Mc Za Zb Vd Nd Gd Bd Pd PD. cbv zeta.
  pose proof (u_small prec P8) as U. destruct kk as (E1 & E2 & E3 & T1 & T2).
  destruct Ma as [?|[La Ha]]; [contradiction|]. destruct Mb as [?|[Lb Hb]]; [contradiction|].
  assert (Hc : Rabs c <= b2 k) by (apply moderate_bound; exact Mc).
  set (D := sqrt (b * b - 4 * a * c)) in *. assert (D0 : 0 <= D) by apply sqrt_pos. assert (DD : D * D = b * b - 4 * a * c) by (apply sqrt_sqrt; exact PD).
  set (B := Rabs b) in *. assert (BB : B * B = b * b) by (unfold B; rewrite <- Rabs_mult; apply Rabs_pos_eq; nra). assert (B0 : 0 < B) by (apply Rabs_pos_lt; exact Zb).
  assert (Hac : Rabs (4 * a * c) <= 4 * (b2 k * b2 k)).
  { rewrite Rmult_assoc, Rabs_mult, (Rabs_pos_eq 4), Rabs_mult by lra. assert (Rabs a * Rabs c <= b2 k * b2 k) by (apply Rmult_le_compat; auto using Rabs_pos). lra. }
  assert (DB : D <= 3 * b2 k).
  { destruct (Rle_lt_dec D (3 * b2 k)) as [|C]; [assumption|exfalso]. pose proof (Rle_abs (- (4 * a * c))) as Q. rewrite Rabs_Ropp in Q. assert (B * B <= b2 k * b2 k) by (apply Rmult_le_compat; lra). nra. }
  (* the square root *)
  assert (Cs : Rabs (sqrt delta - D) <= 2 * u * D).
  { apply sqrt_close; auto. unfold near_difference in Nd. rewrite DD. rewrite (Rabs_pos_eq (b * b - 4 * a * c)) in Nd by exact PD. exact Nd. }
  pose proof (sqrt_val prec emax Hp Hm lm _ _ Vd Pd) as Vs.
  destruct (rel prec emax Hp (sqrt delta)) as (d1 & D1 & Es).
  { destruct (grid_large _ _ Gd) as [->|G]; [left; apply sqrt_0|right]. rewrite Rabs_pos_eq by apply sqrt_pos. rewrite Rabs_pos_eq in G by exact Pd.
    apply Rle_trans with (sqrt (b2 (2 * (- k + 1 - prec)))); [|apply sqrt_le_1_alt; exact G]. replace (2 * (- k + 1 - prec))%Z with ((- k + 1 - prec) + (- k + 1 - prec))%Z by ring. rewrite bpow_plus, sqrt_square by apply bpow_ge_0. apply bpow_le. lia. }
  rewrite Es in Vs. set (s := sqrt delta) in *. assert (s0 : 0 <= s) by apply sqrt_pos.
  assert (sB : s <= 4 * b2 k).
  { apply Rabs_le_inv in Cs. assert (u * D <= 1 / 256 * (4 * b2 k)) by (apply Rmult_le_compat; lra). lra. }
  assert (s1 : 0 <= s * (1 + d1)) by (apply Rabs_le_inv in D1; apply Rmult_le_pos; lra).
  assert (sB1 : s * (1 + d1) <= 5 * b2 k) by (pose proof (factor_bounds s d1 s0 D1); lra).
  pose proof (copysign_val prec emax Hp Hm lm _ _ _ _ Vs Vb s1 Zb) as Vc2.
  set (g := if Rltb b 0 then -1 else 1). assert (Gb : b = g * B).
  { unfold g, B. destruct (Rltb_spec b 0); [rewrite Rabs_left by lra|rewrite Rabs_pos_eq by lra]; ring. }
  assert (G1 : Rabs g = 1) by (unfold g; destruct (Rltb b 0); [rewrite Rabs_left by lra|rewrite Rabs_pos_eq by lra]; ring).
  assert (Gg : g * g = 1) by (unfold g; destruct (Rltb b 0); ring).
  replace (if Rltb b 0 then - (s * (1 + d1)) else s * (1 + d1)) with (g * (s * (1 + d1))) in Vc2 by (unfold g; destruct (Rltb b 0); ring).
  (* the sum *)
  assert (Em : b + g * (s * (1 + d1)) = g * (B + s * (1 + d1))) by (rewrite Gb at 1; ring).
  assert (Am : Rabs (b + g * (s * (1 + d1))) = B + s * (1 + d1)) by (rewrite Em, Rabs_mult, G1, Rabs_pos_eq by lra; ring).
  assert (K2 : b2 k <= b2 (2 * k)) by (apply bpow_le; lia). assert (K3 : b2 (- (2 * k)) <= b2 (- k)) by (apply bpow_le; lia).
  assert (Vm : val (nadd (NumOps:=N) fb (ncopysign (NumOps:=N) (nsqrt (NumOps:=N) (discriminant (F:=N) fa fb fc)) fb)) (rnd (b + g * (s * (1 + d1))))).
  { apply plus_val; auto. apply (small_sum prec emax k K P8 _ 6); [|lia]. rewrite Am. lra. }
  destruct (rel prec emax Hp (b + g * (s * (1 + d1)))) as (d2 & D2 & Er).
  { right. apply size_ok. rewrite Am. lra. }
  rewrite Er, Em in Vm.
  (* half of it *)
  pose proof (opp_val prec emax Hp Hm lm _ _ Vm) as Vn. set (m := - (g * (B + s * (1 + d1)) * (1 + d2))) in *.
  assert (Am2 : Rabs m = (B + s * (1 + d1)) * (1 + d2)).
  { unfold m. rewrite Rabs_Ropp, !Rabs_mult, G1. apply Rabs_le_inv in D2. rewrite !Rabs_pos_eq by lra. ring. }
  assert (Lm : B / 2 <= Rabs m <= 7 * b2 k) by (rewrite Am2; destruct (factor_bounds (B + s * (1 + d1)) d2) as [F1 F2]; [lra|exact D2|]; lra).
  assert (Lq : b2 (- (2 * k)) <= 16 * Rabs (m / 2)) by (unfold Rdiv; rewrite Rabs_mult, (Rabs_pos_eq (/ 2)) by lra; lra).
  assert (Fh : generic_format radix2 (SpecFloat.fexp prec emax) (m / 2)).
  { apply half_format; [eapply val_format; exact Vn|]. eapply Rle_trans; [|apply Lm]. apply Rle_trans with (b2 (- k) * b2 (-1)); [rewrite <- bpow_plus; apply bpow_le; lia|change (b2 (-1)) with (/ 2); lra]. }
  assert (Vq : val (ndiv (NumOps:=N) (nneg (NumOps:=N) (nadd (NumOps:=N) fb (ncopysign (NumOps:=N) (nsqrt (NumOps:=N) (discriminant (F:=N) fa fb fc)) fb))) (nofZ (NumOps:=N) 2)) (rnd (m / 2))).
  { apply div_val; [exact Vn|apply (two_val prec emax Hp Hm lm k K K0 P8)|lra|]. apply (small_sum prec emax k K P8 _ 6); [|lia]. unfold Rdiv. rewrite Rabs_mult, (Rabs_pos_eq (/ 2)) by lra. lra. }
  rewrite rnd_id in Vq by exact Fh.
  (* the exact q, and how far the computed one is off *)
  set (Q := - (b + g * D) / 2). assert (EQ : Q = - g * ((B + D) / 2)) by (unfold Q; rewrite Gb at 1; field).
  assert (AQ : Rabs Q = (B + D) / 2) by (rewrite EQ, Rabs_mult, Rabs_Ropp, G1, Rabs_pos_eq by lra; ring).
  assert (ZQ : Q <> 0) by (intros Z; rewrite Z, Rabs_R0 in AQ; lra).
  set (e := (B + s * (1 + d1)) * (1 + d2) / (B + D) - 1).
  assert (He : Rabs e <= 9 / 2 * u).
  { pose proof (q_close u U B D s d1 d2 B0 D0 s0 Cs D1 D2) as H. unfold e. replace ((B + s * (1 + d1)) * (1 + d2) / (B + D) - 1) with (((B + s * (1 + d1)) * (1 + d2) - (B + D)) * / (B + D)) by (field; lra).
    rewrite Rabs_mult, (Rabs_pos_eq (/ (B + D))) by (left; apply Rinv_0_lt_compat; lra). apply Rmult_le_reg_r with (B + D); [lra|]. rewrite Rmult_assoc, Rinv_l, Rmult_1_r by lra. exact H. }
  assert (Eqq : m / 2 = Q * (1 + e)).
  { rewrite EQ. unfold m, e. field. lra. }
  rewrite Eqq in Vq. set (q := ndiv _ _) in *.
  assert (Lqq : b2 (- k) / 4 <= Rabs (Q * (1 + e)) <= 4 * b2 k).
  { rewrite Rabs_mult, AQ. pose proof He as He2. apply Rabs_le_inv in He2. rewrite (Rabs_pos_eq (1 + e)) by lra. split.
    - assert (B / 2 * (1 / 2) <= (B + D) / 2 * (1 + e)) by (apply Rmult_le_compat; lra). lra.
    - assert ((B + D) / 2 * (1 + e) <= 2 * b2 k * 2) by (apply Rmult_le_compat; lra). lra. }
  assert (Zq : Q * (1 + e) <> 0) by (intros Z; rewrite Z, Rabs_R0 in Lqq; lra).
  destruct (div_rel q fa (Q * (1 + e)) a Vq Va Za) as (d5 & D5 & V0); [right; lra|lra|lra|].
  destruct (div_rel fc q c (Q * (1 + e)) Vc Vq Zq) as (d6 & D6 & V1); [destruct Mc as [->|[Lc _]]; [left; reflexivity|right; lra]|lra|lra|].
  assert (RQ : Q * Q + b * Q + a * c = 0).
  { unfold Q. replace (- (b + g * D) / 2 * (- (b + g * D) / 2) + b * (- (b + g * D) / 2) + a * c) with ((g * g * (D * D) - b * b) / 4 + a * c) by field. rewrite Gg, DD. field. }
  exists (Q * (1 + e) / a * (1 + d5)), (c / (Q * (1 + e)) * (1 + d6)), (Q / a), (c / Q). split; [exact V0|]. split; [exact V1|]. split; [|split].
  - intros X. replace (a * ((X - Q / a) * (X - c / Q))) with (a * (X * X) - (Q * Q + a * c) / Q * X + c) by (field; split; assumption). replace (Q * Q + a * c) with (- b * Q) by lra. field. exact ZQ.
  - replace (Q * (1 + e) / a * (1 + d5)) with (Q / a * (1 + e) * (1 + d5)) by (field; exact Za). apply times_close; auto.
  - assert (1 + e <> 0) by (intros Z; rewrite Z, Rmult_0_r in Zq; lra).
    replace (c / (Q * (1 + e)) * (1 + d6)) with (c / Q / (1 + e) * (1 + d6)) by (field; split; assumption). apply over_close; auto.
Qed.

Lemma near_sign : forall r x, near_difference prec r x -> (0 <= x -> 0 <= r) /\ (x < 0 -> r < 0).
Proof.
  intros r x H. pose proof (u_small prec P8) as U. unfold near_difference in H. pose proof (Rabs_pos x). assert (A : 3 * u * (1 + u) * Rabs x <= 1 / 50 * Rabs x) by (apply Rmult_le_compat_r; [assumption|nra]).
  assert (B : Rabs (r - x) <= 1 / 50 * Rabs x) by lra. apply Rabs_le_inv in B. split; intros X; [rewrite Rabs_pos_eq in B by lra|rewrite Rabs_left in B by lra]; lra.
Qed.

Lemma quadratic_accurate : forall (fa fb fc : float) a b c, val fa a -> val fb b -> val fc c -> moderate k a -> moderate k b -> moderate k c -> a <> 0 ->
  let D := b * b - 4 * a * c in
  (D < 0 -> quadratic_roots (F:=N) fa fb fc = []) /\
  (0 <= D -> exists f0 f1 y0 y1, quadratic_roots (F:=N) fa fb fc = [f0; f1] /\ val f0 y0 /\ val f1 y1 /\ accurate a b c y0 y1).
Proof.
  intros fa fb fc a b c Va Vb Vc Ma Mb Mc Za D. pose proof (u_small prec P8) as U. destruct kk as (E1 & E2 & E3 & T1 & T2).
  pose proof Ma as Ma'. destruct Ma' as [?|[La Ha]]; [contradiction|].
  assert (Nm : b2 (2 - emax) < b2 (- k)) by (apply bpow_lt; lia). pose proof (min_val prec emax Hp Hm lm k K K0 P8) as Vn.
  unfold quadratic_roots. rewrite (leb_val prec emax Hp Hm lm _ _ _ _ (abs_val prec emax Hp Hm lm _ _ Va) Vn). rewrite Rleb_false by lra.
  rewrite (leb_val prec emax Hp Hm lm _ _ _ _ (abs_val prec emax Hp Hm lm _ _ Vb) Vn).
  destruct (Req_dec b 0) as [Zb|Zb].
  - (* b = 0 *)
    subst b. rewrite Rabs_R0, Rleb_true by apply bpow_ge_0.
    pose proof (opp_val prec emax Hp Hm lm _ _ Vc) as Vo.
    destruct (div_rel (nneg (NumOps:=N) fc) fa (- c) a Vo Va Za) as (d & Dd & Vx).
    { destruct Mc as [->|[Lc _]]; [left; ring|right]. rewrite Rabs_Ropp. lra. }
    { rewrite Rabs_Ropp. pose proof (moderate_bound k c Mc). lra. }
    { lra. }
    cbv zeta. rewrite (ltb_val prec emax Hp Hm lm _ _ _ _ Vx (zero_val prec emax Hp Hm lm)). pose proof Dd as Dd'. apply Rabs_le_inv in Dd'. set (x := - c / a) in *.
    assert (Ex : c = - x * a) by (unfold x; field; exact Za). assert (ED : D = 4 * (a * a) * x) by (unfold D; rewrite Ex; ring). assert (aa : 0 < a * a) by nra.
    destruct (Rltb_spec (x * (1 + d)) 0) as [Neg|Pos].
    + assert (XN : x < 0) by nra. split; [reflexivity|intros PD; exfalso; rewrite ED in PD; nra].
    + assert (X0 : 0 <= x) by (destruct (Rle_lt_dec 0 x); [assumption|nra]).
      split; [intros ND; exfalso; rewrite ED in ND; nra|]. intros _.
      pose proof (sqrt_val prec emax Hp Hm lm _ _ Vx Pos) as Vs.
      destruct (rel prec emax Hp (sqrt (x * (1 + d)))) as (d2 & D2 & Es).
      { destruct (Req_dec c 0) as [Zc|Zc]; [left; unfold x; rewrite Zc; replace (- 0 / a * (1 + d)) with 0 by (field; exact Za); apply sqrt_0|right]. rewrite Rabs_pos_eq by apply sqrt_pos.
        destruct Mc as [?|[Lc Hc]]; [contradiction|].
        destruct (quotient_bounds (- c) a (b2 (- k)) (b2 k)) with (A' := b2 (- k)) (B' := b2 k) as [Q _]; try lra; [rewrite Rabs_Ropp; lra|]. fold x in Q. rewrite (Rabs_pos_eq x) in Q by exact X0.
        assert (Ek : b2 (- k) / b2 k = b2 (- k) * b2 (- k)) by (replace (b2 (- k)) with (/ b2 k) by (symmetry; apply Rmult_eq_reg_l with (b2 k); [rewrite E3, Rinv_r; lra|lra]); field; lra). rewrite Ek in Q.
        apply Rle_trans with (sqrt ((b2 (- k) / 2) * (b2 (- k) / 2))); [|apply sqrt_le_1_alt; nra]. rewrite sqrt_square by lra.
        apply Rle_trans with (b2 (- k) * b2 (-1)); [|change (b2 (-1)) with (/ 2); lra]. rewrite <- bpow_plus. apply bpow_le. lia. }
      rewrite Es in Vs. set (s := sqrt (x * (1 + d))) in *.
      exists (nneg (NumOps:=N) (nsqrt (NumOps:=N) (ndiv (NumOps:=N) (nneg (NumOps:=N) fc) fa))), (nsqrt (NumOps:=N) (ndiv (NumOps:=N) (nneg (NumOps:=N) fc) fa)), (- (s * (1 + d2))), (s * (1 + d2)).
      split; [reflexivity|]. split; [apply opp_val; exact Vs|]. split; [exact Vs|].
      set (w := sqrt x). assert (w0 : 0 <= w) by apply sqrt_pos. assert (ww : w * w = x) by (apply sqrt_sqrt; exact X0).
      assert (Hs : Rabs (s * (1 + d2) - w) <= 6 * u * Rabs w).
      { assert (Sm : s = w * sqrt (1 + d)) by (unfold s, w; apply sqrt_mult; lra). set (z := sqrt (1 + d)) in *. assert (z0 : 0 <= z) by apply sqrt_pos. assert (zz : z * z = 1 + d) by (apply sqrt_sqrt; lra).
        assert (Hz : Rabs (z - 1) <= u) by (apply Rabs_le; split; nra). rewrite Sm. replace (w * z * (1 + d2) - w) with (w * (1 + (z - 1)) * (1 + d2) - w) by ring. apply times_close; auto. lra. }
      exists (- w), w. split; [split; [lra|]|split; [|exact Hs]].
      * intros X. rewrite Ex, <- ww. ring.
      * replace (- (s * (1 + d2)) - - w) with (- (s * (1 + d2) - w)) by ring. rewrite !Rabs_Ropp. exact Hs.
  - (* b <> 0 *)
    pose proof Mb as Mb'. destruct Mb' as [?|[Lb Hb]]; [contradiction|]. rewrite Rleb_false by lra.
    destruct (discriminant_accurate prec emax Hp Hm lm k K K0 P8 fa fb fc a b c Va Vb Vc Ma Mb Mc) as (delta & Vd & Nd & Gd & Bd). fold D in Nd.
    cbv zeta. rewrite (ltb_val prec emax Hp Hm lm _ _ _ _ Vd (zero_val prec emax Hp Hm lm)). destruct (Rltb_spec delta 0) as [Neg|Pos].
    + split; [reflexivity|]. intros PD. apply (near_sign delta D) in PD; [lra|exact Nd].
    + split; [intros ND; apply (near_sign delta D) in ND; [lra|exact Nd]|]. intros PD.
      destruct (main_case fa fb fc a b c delta Va Vb Vc Ma Mb Mc Za Zb Vd Nd Gd Bd Pos PD) as (x0 & x1 & r0 & r1 & V0 & V1 & Sp & H0 & H1).
      rewrite (ltb_val prec emax Hp Hm lm _ _ _ _ V0 V1). destruct (Rltb_spec x0 x1) as [L|L].
      * do 2 eexists. exists x0, x1. split; [reflexivity|]. split; [exact V0|]. split; [exact V1|]. apply accurate_sort with r0 r1; auto. lra.
      * do 2 eexists. exists x1, x0. split; [reflexivity|]. split; [exact V1|]. split; [exact V0|]. apply accurate_sort with r1 r0; auto. intros X. rewrite Sp. ring.
Qed.
End Quad.

(** the statements, about floats through their values *)
Section Statements.
Variables prec emax : Z.
Context (Hp : Prec_gt_0 prec) (Hm : Prec_lt_emax prec emax).
Variable lm : libm (binary_float prec emax).
Notation float := (binary_float prec emax).
Notation N := (FL prec emax Hp Hm lm).
Notation u := (bpow radix2 (- prec)).
Variable k : Z.
Hypothesis P8 : (8 <= prec)%Z.
Hypothesis K0 : (0 <= k)%Z.
Hypothesis K : (2 * k + 2 * prec + 8 <= emax)%Z.

Lemma difference_stated : forall (fa fb fc fd : float) a b c d, fval fa = Fin a -> fval fb = Fin b -> fval fc = Fin c -> fval fd = Fin d ->
  moderate k a -> moderate k b -> moderate k c -> moderate k d ->
  exists r, fval (difference_of_products (F:=N) fa fb fc fd) = Fin r /\ Rabs (r - (a * b - c * d)) <= 3 * u * (1 + u) * Rabs (a * b - c * d).
Proof.
  intros fa fb fc fd a b c d A B C D Ma Mb Mc Md. apply val_fval in A, B, C, D.
  destruct (difference_accurate prec emax Hp Hm lm k K K0 P8 fa fb fc fd a b c d A B C D Ma Mb Mc Md) as (r & V & E). exists r. split; [apply val_fval; exact V|exact E].
Qed.
Lemma cross_stated : forall (fv fw : vec3 float) (v w : vec3 R), map3 fval fv = fin3 v -> map3 fval fw = fin3 w ->
  (moderate k (vx v) /\ moderate k (vy v) /\ moderate k (vz v)) -> (moderate k (vx w) /\ moderate k (vy w) /\ moderate k (vz w)) ->
  exists x, map3 fval (cross (F:=N) fv fw) = fin3 x /\
    Rabs (vx x - vx (crossR v w)) <= 3 * u * (1 + u) * Rabs (vx (crossR v w)) /\
    Rabs (vy x - vy (crossR v w)) <= 3 * u * (1 + u) * Rabs (vy (crossR v w)) /\
    Rabs (vz x - vz (crossR v w)) <= 3 * u * (1 + u) * Rabs (vz (crossR v w)).
Proof.
  intros [f1 f2 f3] [g1 g2 g3] [v1 v2 v3] [w1 w2 w3] E1 E2 (M1 & M2 & M3) (N1 & N2 & N3). unfold fin3, map3 in E1, E2. cbn [vx vy vz] in *. injection E1 as A1 A2 A3. injection E2 as B1 B2 B3.
  destruct (difference_stated f2 g3 f3 g2 v2 w3 v3 w2) as (x & X1 & X2); auto.
  destruct (difference_stated f3 g1 f1 g3 v3 w1 v1 w3) as (y & Y1 & Y2); auto.
  destruct (difference_stated f1 g2 f2 g1 v1 w2 v2 w1) as (z & Z1 & Z2); auto.
  exists (V3 x y z). unfold cross, fin3, map3, crossR. cbn [vx vy vz]. split; [congruence|]. auto.
Qed.
Lemma discriminant_stated : forall (fa fb fc : float) a b c, fval fa = Fin a -> fval fb = Fin b -> fval fc = Fin c -> moderate k a -> moderate k b -> moderate k c ->
  exists r, fval (discriminant (F:=N) fa fb fc) = Fin r /\ Rabs (r - (b * b - 4 * a * c)) <= 3 * u * (1 + u) * Rabs (b * b - 4 * a * c).
Proof.
  intros fa fb fc a b c A B C Ma Mb Mc. apply val_fval in A, B, C.
  destruct (discriminant_accurate prec emax Hp Hm lm k K K0 P8 fa fb fc a b c A B C Ma Mb Mc) as (r & V & E & _). exists r. split; [apply val_fval; exact V|exact E].
Qed.
Lemma quadratic_stated : forall (fa fb fc : float) a b c, fval fa = Fin a -> fval fb = Fin b -> fval fc = Fin c -> moderate k a -> moderate k b -> moderate k c -> a <> 0 ->
  (b * b - 4 * a * c < 0 -> quadratic_roots (F:=N) fa fb fc = []) /\
  (0 <= b * b - 4 * a * c -> exists f0 f1 y0 y1 t0 t1, quadratic_roots (F:=N) fa fb fc = [f0; f1] /\ fval f0 = Fin y0 /\ fval f1 = Fin y1 /\
     two_roots a b c t0 t1 /\ Rabs (y0 - t0) <= 6 * u * Rabs t0 /\ Rabs (y1 - t1) <= 6 * u * Rabs t1).
Proof.
  intros fa fb fc a b c A B C Ma Mb Mc Za. apply val_fval in A, B, C.
  destruct (quadratic_accurate prec emax Hp Hm lm k K K0 P8 fa fb fc a b c A B C Ma Mb Mc Za) as [H1 H2]. split; [exact H1|].
  intros PD. destruct (H2 PD) as (f0 & f1 & y0 & y1 & E & V0 & V1 & t0 & t1 & T & B0 & B1). exists f0, f1, y0, y1, t0, t1. split; [exact E|]. split; [apply val_fval; exact V0|]. split; [apply val_fval; exact V1|]. auto.
Qed.
Lemma first_stated : forall (fa fb fc lo hi : float) a b c, fval fa = Fin a -> fval fb = Fin b -> fval fc = Fin c -> moderate k a -> moderate k b -> moderate k c -> a <> 0 ->
  let inside y := xleb (fval lo) (Fin y) && xleb (Fin y) (fval hi) = true in
  let near y t := Rabs (y - t) <= 6 * u * Rabs t in
  (b * b - 4 * a * c < 0 -> first_quadratic_root_in_range (F:=N) fa fb fc lo hi = None) /\
  (forall t0 t1, two_roots a b c t0 t1 ->
     match first_quadratic_root_in_range (F:=N) fa fb fc lo hi with
     | Some f => exists y, fval f = Fin y /\ inside y /\ (near y t0 \/ near y t1 /\ exists y0, near y0 t0 /\ ~ inside y0)
     | None => exists y0 y1, near y0 t0 /\ near y1 t1 /\ ~ inside y0 /\ ~ inside y1
     end).
Proof.
  intros fa fb fc lo hi a b c A B C Ma Mb Mc Za inside near. destruct (quadratic_stated fa fb fc a b c A B C Ma Mb Mc Za) as [H1 H2]. unfold first_quadratic_root_in_range. split; [intros H; rewrite (H1 H); reflexivity|].
  intros t0 t1 [Tl T].
  assert (PD : 0 <= b * b - 4 * a * c).
  { pose proof (T 0) as E0. pose proof (T 1) as E1. pose proof (T (-1)) as E2. assert (Ec : c = a * (t0 * t1)) by lra. assert (Eb : b = - a * (t0 + t1)) by lra. rewrite Ec, Eb. replace (- a * (t0 + t1) * (- a * (t0 + t1)) - 4 * a * (a * (t0 * t1))) with ((a * (t0 - t1)) * (a * (t0 - t1))) by ring. apply Rle_0_sqr. }
  destruct (H2 PD) as (f0 & f1 & y0 & y1 & s0 & s1 & E & V0 & V1 & [Sl S1] & N0 & N1).
  assert (Es : s0 = t0 /\ s1 = t1).
  { assert (Q : forall X, (X - t0) * (X - t1) = (X - s0) * (X - s1)) by (intros X; apply Rmult_eq_reg_l with a; [rewrite <- T, <- S1; reflexivity|exact Za]).
    pose proof (Q 0). pose proof (Q 1). assert (t0 + t1 = s0 + s1) by lra. assert (t0 * t1 = s0 * s1) by lra. assert (Hsq : (t1 - t0) * (t1 - t0) = (s1 - s0) * (s1 - s0)) by nra. assert (t1 - t0 = s1 - s0) by (apply Rsqr_inj; [lra|lra|exact Hsq]). lra. }
  destruct Es as [-> ->]. rewrite E.
  assert (W : forall f y, fval f = Fin y -> andb (nleb (NumOps:=N) lo f) (nleb (NumOps:=N) f hi) = xleb (fval lo) (Fin y) && xleb (Fin y) (fval hi)) by (intros f y Vf; cbn [nleb FL]; rewrite !Bleb_fval, Vf; reflexivity).
  rewrite (W f0 y0 V0), (W f1 y1 V1). destruct (xleb (fval lo) (Fin y0) && xleb (Fin y0) (fval hi)) eqn:I0.
  - exists y0. split; [exact V0|]. split; [exact I0|]. left. exact N0.
  - assert (O0 : ~ inside y0) by (unfold inside; rewrite I0; discriminate). destruct (xleb (fval lo) (Fin y1) && xleb (Fin y1) (fval hi)) eqn:I1.
    + exists y1. split; [exact V1|]. split; [exact I1|]. right. split; [exact N1|]. exists y0. split; [exact N0|exact O0].
    + exists y0, y1. split; [exact N0|]. split; [exact N1|]. split; [exact O0|]. unfold inside. rewrite I1. discriminate.
Qed.
End Statements.
