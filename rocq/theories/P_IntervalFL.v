(** Interval arithmetic with IEEE rounding. *)
From Coq Require Import Reals ZArith Lra Lia List Bool.
From Flocq Require Import Core BinarySingleNaN.
From Verif Require Import Num XR FL Spec M_Interval Spec_Interval P_FL P_Interval.
Import ListNotations.
Local Open Scope R_scope.

Section Round.
Variables prec emax : Z.
Context (Hp : Prec_gt_0 prec) (Hm : Prec_lt_emax prec emax).
Notation float := (binary_float prec emax).
Notation fe := (SpecFloat.fexp prec emax).
Notation format := (generic_format radix2 fe).
Notation big := (bpow radix2 emax - bpow radix2 (emax - prec)).
Notation rx := (roundx prec emax).

Lemma ve : Valid_exp fe.
Proof. apply fexp_correct. exact Hp. Qed.
Lemma fe_emax : fe emax = (emax - prec)%Z.
Proof. unfold SpecFloat.fexp, SpecFloat.emin. unfold Prec_gt_0 in Hp. unfold Prec_lt_emax in Hm. lia. Qed.
Lemma big_lt : big < bpow radix2 emax.
Proof. pose proof (bpow_gt_0 radix2 (emax - prec)). lra. Qed.
Lemma big_pos : 0 < big.
Proof. assert (bpow radix2 (emax - prec) < bpow radix2 emax) by (apply bpow_lt; unfold Prec_gt_0 in Hp; lia). lra. Qed.
Lemma below_big : forall v, format v -> v < bpow radix2 emax -> v <= big.
Proof.
  intros v F H. rewrite <- fe_emax, <- pred_bpow. apply pred_ge_gt; [apply ve|exact F| |exact H].
  apply generic_format_bpow. unfold SpecFloat.fexp, SpecFloat.emin. unfold Prec_gt_0 in Hp. unfold Prec_lt_emax in Hm. lia.
Qed.
Lemma abs_below_big : forall v, format v -> Rabs v < bpow radix2 emax -> - big <= v <= big.
Proof.
  intros v F H. apply Rabs_lt_inv in H. split; [|apply below_big; tauto].
  assert (- v <= big); [|lra]. apply below_big; [apply generic_format_opp; exact F|lra].
Qed.

Lemma sign_le : forall x : float, Bsign x = true -> B2R x <= 0.
Proof. intros [s|s| |s m e B]; cbn [Bsign B2R]; intros E; try lra. subst s. apply F2R_le_0. cbn. lia. Qed.
Lemma sign_ge : forall x : float, Bsign x = false -> 0 <= B2R x.
Proof. intros [s|s| |s m e B]; cbn [Bsign B2R]; try lra; intros E. subst s. apply F2R_ge_0. cbn. lia. Qed.

Lemma overflow_fval : forall m s t (x : float), B2SF x = binary_overflow prec emax m s -> Rlt_bool t 0 = s ->
  bpow radix2 emax <= Rabs (round radix2 fe (round_mode m) t) -> fval x = rx m t.
Proof.
  intros m s t x H T O. unfold roundx. rewrite Rlt_bool_false by exact O. rewrite T. unfold binary_overflow in H.
  destruct (overflow_to_inf m s).
  - destruct x as [sx|sx| |sx mx ex Bx]; try discriminate. cbn in H. injection H as ->. destruct s; reflexivity.
  - destruct x as [sx|sx| |sx mx ex Bx]; try discriminate. cbn [B2SF] in H. injection H as -> -> ->.
    assert (E : IZR (2 ^ prec - 1) * bpow radix2 (emax - prec) = big).
    { rewrite minus_IZR. change 2%Z with (radix_val radix2). rewrite IZR_Zpower by (unfold Prec_gt_0 in Hp; lia).
      rewrite Rmult_minus_distr_r, Rmult_1_l, <- bpow_plus. f_equal. f_equal. lia. }
    assert (Q : (0 < 2 ^ prec - 1)%Z). { assert (2 ^ 0 < 2 ^ prec)%Z by (apply Z.pow_lt_mono_r; unfold Prec_gt_0 in Hp; lia). lia. }
    cbn [fval]. unfold B2R, F2R; cbn [Fnum Fexp]. destruct s; cbn [cond_Zopp].
    + rewrite Pos2Z.opp_pos || idtac. replace (Z.neg (Z.to_pos (2 ^ prec - 1))) with (- (2 ^ prec - 1))%Z by (rewrite <- Pos2Z.opp_pos, Z2Pos.id by exact Q; reflexivity).
      rewrite opp_IZR. f_equal. rewrite <- E. ring.
    + rewrite Z2Pos.id by exact Q. f_equal. exact E.
Qed.

(** rounding of an extended real *)
Definition xrnd (m : mode) (v : xr) : xr := match v with Fin r => rx m r | _ => v end.

Lemma no_over : forall m t, Rlt_bool (Rabs (round radix2 fe (round_mode m) t)) (bpow radix2 emax) = true -> rx m t = Fin (round radix2 fe (round_mode m) t).
Proof. intros m t H. unfold roundx. rewrite H. reflexivity. Qed.
Lemma round_nonneg : forall m t, 0 <= t -> 0 <= round radix2 fe (round_mode m) t.
Proof. intros m t H. rewrite <- (round_0 radix2 fe (round_mode m)). apply round_le; auto; [apply ve|apply valid_rnd_round_mode]. Qed.
Lemma round_nonpos : forall m t, t <= 0 -> round radix2 fe (round_mode m) t <= 0.
Proof. intros m t H. rewrite <- (round_0 radix2 fe (round_mode m)). apply round_le; auto; [apply ve|apply valid_rnd_round_mode]. Qed.
Lemma over_nonzero : forall m t, bpow radix2 emax <= Rabs (round radix2 fe (round_mode m) t) -> t <> 0.
Proof.
  intros m t H ->. rewrite round_0 in H by apply valid_rnd_round_mode. rewrite Rabs_R0 in H. pose proof (bpow_gt_0 radix2 emax). lra.
Qed.

Lemma plus_fval : forall m (x y : float), fval (Bplus m x y) = xrnd m (xadd (fval x) (fval y)).
Proof.
  intros m x y. destruct (is_finite x) eqn:Fx, (is_finite y) eqn:Fy.
  - rewrite (fval_finite _ _ x Fx), (fval_finite _ _ y Fy). cbn [xadd xrnd].
    pose proof (Bplus_correct prec emax Hp Hm m x y Fx Fy) as C.
    destruct (Rlt_bool _ _) eqn:O in C.
    + destruct C as (C1 & C2 & _). rewrite (fval_finite _ _ _ C2), C1. symmetry. apply no_over. exact O.
    + destruct C as [C S]. apply Rlt_bool_false_inv in O || (assert (O' := O)). 
      assert (O2 : bpow radix2 emax <= Rabs (round radix2 fe (round_mode m) (B2R x + B2R y))) by (destruct (Rlt_bool_spec (Rabs (round radix2 fe (round_mode m) (B2R x + B2R y))) (bpow radix2 emax)); [congruence|auto]).
      apply (overflow_fval m _ _ _ C); [|exact O2]. pose proof (over_nonzero _ _ O2).
      destruct (Bsign x) eqn:Sx.
      * apply Rlt_bool_true. pose proof (sign_le x Sx). pose proof (sign_le y (eq_sym S)). lra.
      * apply Rlt_bool_false. pose proof (sign_ge x Sx). pose proof (sign_ge y (eq_sym S)). lra.
  - destruct x as [sx|sx| |sx mx ex Bx], y as [sy|[|]| |sy my ey By]; try discriminate; reflexivity.
  - destruct x as [sx|[|]| |sx mx ex Bx], y as [sy|sy| |sy my ey By]; try discriminate; reflexivity.
  - destruct x as [sx|[|]| |sx mx ex Bx], y as [sy|[|]| |sy my ey By]; try discriminate; reflexivity.
Qed.
Lemma minus_fval : forall m (x y : float), fval (Bminus m x y) = xrnd m (xsub (fval x) (fval y)).
Proof.
  intros m x y. destruct (is_finite x) eqn:Fx, (is_finite y) eqn:Fy.
  - rewrite (fval_finite _ _ x Fx), (fval_finite _ _ y Fy). cbn [xsub xrnd].
    pose proof (Bminus_correct prec emax Hp Hm m x y Fx Fy) as C.
    destruct (Rlt_bool _ _) eqn:O in C.
    + destruct C as (C1 & C2 & _). rewrite (fval_finite _ _ _ C2), C1. symmetry. apply no_over. exact O.
    + destruct C as [C S].
      assert (O2 : bpow radix2 emax <= Rabs (round radix2 fe (round_mode m) (B2R x - B2R y))) by (destruct (Rlt_bool_spec (Rabs (round radix2 fe (round_mode m) (B2R x - B2R y))) (bpow radix2 emax)); [congruence|auto]).
      apply (overflow_fval m _ _ _ C); [|exact O2]. pose proof (over_nonzero _ _ O2).
      destruct (Bsign x) eqn:Sx; destruct (Bsign y) eqn:Sy; try discriminate.
      * apply Rlt_bool_true. pose proof (sign_le x Sx). pose proof (sign_ge y Sy). lra.
      * apply Rlt_bool_false. pose proof (sign_ge x Sx). pose proof (sign_le y Sy). lra.
  - destruct x as [sx|sx| |sx mx ex Bx], y as [sy|[|]| |sy my ey By]; try discriminate; reflexivity.
  - destruct x as [sx|[|]| |sx mx ex Bx], y as [sy|sy| |sy my ey By]; try discriminate; reflexivity.
  - destruct x as [sx|[|]| |sx mx ex Bx], y as [sy|[|]| |sy my ey By]; try discriminate; reflexivity.
Qed.
Lemma finite_sign : forall s m e (B : SpecFloat.bounded prec emax m e = true), if s : bool then B2R (B754_finite s m e B : float) < 0 else 0 < B2R (B754_finite s m e B : float).
Proof. intros [|] m e B; [apply F2R_lt_0|apply F2R_gt_0]; cbn; lia. Qed.
Lemma mult_fval : forall m (x y : float), fval (Bmult m x y) = xrnd m (xmul (fval x) (fval y)).
Proof.
  intros m x y. destruct (is_finite x) eqn:Fx, (is_finite y) eqn:Fy.
  - rewrite (fval_finite _ _ x Fx), (fval_finite _ _ y Fy). cbn [xmul xrnd].
    pose proof (Bmult_correct prec emax Hp Hm m x y) as C.
    destruct (Rlt_bool _ _) eqn:O in C.
    + destruct C as (C1 & C2 & _). rewrite Fx, Fy in C2. rewrite (fval_finite _ _ _ C2), C1. symmetry. apply no_over. exact O.
    + assert (O2 : bpow radix2 emax <= Rabs (round radix2 fe (round_mode m) (B2R x * B2R y))) by (destruct (Rlt_bool_spec (Rabs (round radix2 fe (round_mode m) (B2R x * B2R y))) (bpow radix2 emax)); [congruence|auto]).
      apply (overflow_fval m _ _ _ C); [|exact O2]. pose proof (over_nonzero _ _ O2) as NZ.
      destruct (Bsign x) eqn:Sx; destruct (Bsign y) eqn:Sy; cbn [xorb].
      * apply Rlt_bool_false. pose proof (sign_le x Sx). pose proof (sign_le y Sy). nra.
      * apply Rlt_bool_true. pose proof (sign_le x Sx). pose proof (sign_ge y Sy). assert (B2R x * B2R y <= 0) by nra. lra.
      * apply Rlt_bool_true. pose proof (sign_ge x Sx). pose proof (sign_le y Sy). assert (B2R x * B2R y <= 0) by nra. lra.
      * apply Rlt_bool_false. pose proof (sign_ge x Sx). pose proof (sign_ge y Sy). nra.
  - destruct y as [sy|sy| |sy my ey By]; try discriminate; destruct x as [sx|sx| |sx mx ex Bx]; try discriminate; try reflexivity.
    + cbn [fval]. destruct sy; cbn [xmul]; rewrite scale_zero; reflexivity.
    + cbn [fval]. pose proof (finite_sign sx mx ex Bx) as S. destruct sx, sy; cbn [xmul]; [rewrite scale_neg by exact S|rewrite scale_neg by exact S|rewrite scale_pos by exact S|rewrite scale_pos by exact S]; reflexivity.
  - destruct x as [sx|sx| |sx mx ex Bx]; try discriminate; destruct y as [sy|sy| |sy my ey By]; try discriminate; try reflexivity.
    + cbn [fval]. destruct sx; cbn [xmul]; rewrite scale_zero; reflexivity.
    + cbn [fval]. pose proof (finite_sign sy my ey By) as S. destruct sx, sy; cbn [xmul]; first [rewrite scale_neg by exact S|rewrite scale_pos by exact S]; reflexivity.
  - destruct x as [sx|[|]| |sx mx ex Bx], y as [sy|[|]| |sy my ey By]; try discriminate; reflexivity.
Qed.

(** monotonicity and direction *)
Lemma rx_cases : forall m t, (Rabs (round radix2 fe (round_mode m) t) < bpow radix2 emax /\ rx m t = Fin (round radix2 fe (round_mode m) t)) \/
  (bpow radix2 emax <= round radix2 fe (round_mode m) t /\ 0 < t /\ rx m t = if overflow_to_inf m false then PInf else Fin big) \/
  (round radix2 fe (round_mode m) t <= - bpow radix2 emax /\ t < 0 /\ rx m t = if overflow_to_inf m true then MInf else Fin (- big)).
Proof.
  intros m t. unfold roundx. destruct (Rlt_bool_spec (Rabs (round radix2 fe (round_mode m) t)) (bpow radix2 emax)) as [H|H]; [left; auto|right].
  pose proof (over_nonzero _ _ H) as NZ. pose proof (bpow_gt_0 radix2 emax).
  destruct (Rlt_bool_spec t 0) as [N|N].
  - right. pose proof (round_nonpos m t ltac:(lra)). rewrite Rabs_left1 in H by lra. repeat split; try lra. 
  - left. pose proof (round_nonneg m t N). rewrite Rabs_pos_eq in H by lra. repeat split; try lra.
Qed.
Lemma round_format : forall m t, format (round radix2 fe (round_mode m) t).
Proof. intros m t. apply generic_format_round; [apply ve|apply valid_rnd_round_mode]. Qed.
Lemma rx_le : forall m s t, s <= t -> xleb (rx m s) (rx m t) = true.
Proof.
  intros m s t H. assert (R : round radix2 fe (round_mode m) s <= round radix2 fe (round_mode m) t) by (apply round_le; auto; [apply ve|apply valid_rnd_round_mode]).
  pose proof (bpow_gt_0 radix2 emax) as BP. pose proof big_lt as BL. pose proof big_pos as BB.
  assert (RR : forall a b, a <= b -> xleb (Fin a) (Fin b) = true) by (intros; cbn; apply Rleb_iff; auto).
  destruct (rx_cases m s) as [[S1 S2]|[(S1 & S2 & S3)|(S1 & S2 & S3)]], (rx_cases m t) as [[T1 T2]|[(T1 & T2 & T3)|(T1 & T2 & T3)]].
  - rewrite S2, T2. apply RR. exact R.
  - rewrite S2, T3. destruct overflow_to_inf; [reflexivity|]. apply RR. apply abs_below_big; [apply round_format|exact S1].
  - exfalso. apply Rabs_lt_inv in S1. lra.
  - exfalso. apply Rabs_lt_inv in T1. lra.
  - rewrite S3, T3. destruct overflow_to_inf; [reflexivity|apply RR; lra].
  - exfalso. lra.
  - rewrite S3, T2. destruct overflow_to_inf; [reflexivity|]. apply RR. apply abs_below_big; [apply round_format|exact T1].
  - rewrite S3, T3. destruct (overflow_to_inf m true), (overflow_to_inf m false); try reflexivity. apply RR. lra.
  - rewrite S3, T3. destruct overflow_to_inf; [reflexivity|apply RR; lra].
Qed.
Lemma rx_down : forall t, at_least (rx mode_DN t) t.
Proof.
  intros t. pose proof (round_DN_pt radix2 fe t) as (_ & D & _). change Zfloor with (round_mode mode_DN) in D.
  destruct (rx_cases mode_DN t) as [[S1 S2]|[(S1 & S2 & S3)|(S1 & S2 & S3)]]; [rewrite S2|rewrite S3|rewrite S3]; cbn; auto.
  pose proof big_lt. lra.
Qed.
Lemma rx_up : forall t, at_most (rx mode_UP t) t.
Proof.
  intros t. pose proof (round_UP_pt radix2 fe t) as (_ & D & _). change Zceil with (round_mode mode_UP) in D.
  destruct (rx_cases mode_UP t) as [[S1 S2]|[(S1 & S2 & S3)|(S1 & S2 & S3)]]; [rewrite S2|rewrite S3|rewrite S3]; cbn; auto.
  pose proof big_lt. lra.
Qed.
Lemma float_fin : forall (f : float) q, fval f = Fin q -> format q /\ Rabs q < bpow radix2 emax.
Proof.
  intros f q H. assert (E : is_finite f = true) by (destruct f as [s|[|]| |s m e B]; cbn in *; congruence).
  rewrite fval_finite in H by exact E. injection H as <-. split; [apply generic_format_B2R|apply abs_B2R_lt_emax].
Qed.
Lemma rx_down_best : forall t (f : float), at_least (fval f) t -> xleb (fval f) (rx mode_DN t) = true.
Proof.
  intros t f H. pose proof (round_DN_pt radix2 fe t) as (_ & _ & D). change Zfloor with (round_mode mode_DN) in D.
  destruct (fval f) as [q| | |] eqn:E; try contradiction.
  - apply float_fin in E. destruct E as [E1 E2]. cbn in H. specialize (D q E1 H).
    destruct (rx_cases mode_DN t) as [[S1 S2]|[(S1 & S2 & S3)|(S1 & S2 & S3)]]; [rewrite S2|rewrite S3|rewrite S3]; cbn.
    + apply Rleb_iff. exact D.
    + apply Rleb_iff. apply abs_below_big; auto.
    + exfalso. apply Rabs_lt_inv in E2. lra.
  - destruct (rx_cases mode_DN t) as [[S1 S2]|[(S1 & S2 & S3)|(S1 & S2 & S3)]]; [rewrite S2|rewrite S3|rewrite S3]; reflexivity.
Qed.
Lemma rx_up_best : forall t (f : float), at_most (fval f) t -> xleb (rx mode_UP t) (fval f) = true.
Proof.
  intros t f H. pose proof (round_UP_pt radix2 fe t) as (_ & _ & D). change Zceil with (round_mode mode_UP) in D.
  destruct (fval f) as [q| | |] eqn:E; try contradiction.
  - apply float_fin in E. destruct E as [E1 E2]. cbn in H. specialize (D q E1 H).
    destruct (rx_cases mode_UP t) as [[S1 S2]|[(S1 & S2 & S3)|(S1 & S2 & S3)]]; [rewrite S2|rewrite S3|rewrite S3]; cbn.
    + apply Rleb_iff. exact D.
    + exfalso. apply Rabs_lt_inv in E2. lra.
    + apply Rleb_iff. apply abs_below_big; auto.
  - destruct (rx_cases mode_UP t) as [[S1 S2]|[(S1 & S2 & S3)|(S1 & S2 & S3)]]; [rewrite S2|rewrite S3|rewrite S3]; reflexivity.
Qed.

(** ** sums and differences *)
Variable lm : libm_rnd float.
Notation RFL := (RF prec emax Hp Hm lm).

Lemma least_trans : forall a s t, at_least a s -> s <= t -> at_least a t.
Proof. intros [a| | |] s t; cbn; auto; lra. Qed.
Lemma most_trans : forall a s t, at_most a s -> t <= s -> at_most a t.
Proof. intros [a| | |] s t; cbn; auto; lra. Qed.
Lemma xrnd_down : forall v t, at_least v t -> at_least (xrnd mode_DN v) t.
Proof. intros [a| | |] t H; cbn [xrnd]; auto. eapply least_trans; [apply rx_down|exact H]. Qed.
Lemma xrnd_up : forall v t, at_most v t -> at_most (xrnd mode_UP v) t.
Proof. intros [a| | |] t H; cbn [xrnd]; auto. eapply most_trans; [apply rx_up|exact H]. Qed.
Lemma add_contains : forall m X Y x y, inF X x -> inF Y y -> exists Z, i_add (F:=RFL) m X Y = (Z, m) /\ inF Z (x + y).
Proof.
  intros m [a b] [c d] x y [X1 X2] [Y1 Y2]. eexists. split; [reflexivity|]. unfold inF, inI, in_window, denoteI in *. cbn [i_lo i_hi radd RF fl_mode] in *.
  rewrite !plus_fval. split.
  - apply xrnd_down. destruct (fval a), (fval c); cbn in *; try contradiction; auto; lra.
  - apply xrnd_up. destruct (fval b), (fval d); cbn in *; try contradiction; auto; lra.
Qed.
Lemma sub_contains : forall m X Y x y, inF X x -> inF Y y -> exists Z, i_sub (F:=RFL) m X Y = (Z, m) /\ inF Z (x - y).
Proof.
  intros m [a b] [c d] x y [X1 X2] [Y1 Y2]. eexists. split; [reflexivity|]. unfold inF, inI, in_window, denoteI in *. cbn [i_lo i_hi rsub RF fl_mode] in *.
  rewrite !minus_fval. split.
  - apply xrnd_down. destruct (fval a), (fval d); cbn in *; try contradiction; auto; lra.
  - apply xrnd_up. destruct (fval b), (fval c); cbn in *; try contradiction; auto; lra.
Qed.
Lemma best_down_intro : forall (g : float) t, fval g = rx mode_DN t -> best_below g t.
Proof. intros g t E. split; [rewrite E; apply rx_down|intros f H; rewrite E; apply rx_down_best; exact H]. Qed.
Lemma best_up_intro : forall (g : float) t, fval g = rx mode_UP t -> best_above g t.
Proof. intros g t E. split; [rewrite E; apply rx_up|intros f H; rewrite E; apply rx_up_best; exact H]. Qed.
Lemma add_best : forall m X Y a b c d, denoteI X = finI a b -> denoteI Y = finI c d ->
  exists Z, i_add (F:=RFL) m X Y = (Z, m) /\ best_below (i_lo Z) (a + c) /\ best_above (i_hi Z) (b + d).
Proof.
  intros m [xa xb] [ya yb] a b c d EX EY. unfold denoteI, finI in *. cbn [i_lo i_hi] in *. injection EX as A B. injection EY as C D.
  eexists. split; [reflexivity|]. cbn [i_lo i_hi radd RF fl_mode]. split; [apply best_down_intro|apply best_up_intro]; rewrite plus_fval; [rewrite A, C|rewrite B, D]; reflexivity.
Qed.
Lemma sub_best : forall m X Y a b c d, denoteI X = finI a b -> denoteI Y = finI c d ->
  exists Z, i_sub (F:=RFL) m X Y = (Z, m) /\ best_below (i_lo Z) (a - d) /\ best_above (i_hi Z) (b - c).
Proof.
  intros m [xa xb] [ya yb] a b c d EX EY. unfold denoteI, finI in *. cbn [i_lo i_hi] in *. injection EX as A B. injection EY as C D.
  eexists. split; [reflexivity|]. cbn [i_lo i_hi rsub RF fl_mode]. split; [apply best_down_intro|apply best_up_intro]; rewrite minus_fval; [rewrite A, D|rewrite B, C]; reflexivity.
Qed.
(* -= on different objects is the difference and touches nothing else *)
Lemma sub_assign_eq : forall m s p q, p <> q -> exists s', i_sub_assign (F:=RFL) m s p q = (s', m) /\
  s' p = fst (i_sub (F:=RFL) m (s p) (s q)) /\ forall r, r <> p -> s' r = s r.
Proof.
  intros m s p q N. eexists. split; [reflexivity|]. unfold write. rewrite Nat.eqb_refl.
  assert (E : Nat.eqb q p = false) by (apply Nat.eqb_neq; auto). rewrite E. split; [reflexivity|].
  intros r Hr. apply Nat.eqb_neq in Hr. rewrite Hr. reflexivity.
Qed.

(** ** products *)
Lemma fold_fval : forall l (a b : float), let r := fold_left (fun '(a, b) v => (if Bltb v a then v else a, if Bltb b v then v else b)) l (a, b) in
  (fval (fst r), fval (snd r)) = fold_left step4 (map fval l) (fval a, fval b).
Proof.
  induction l as [|v l IH]; intros a b; [reflexivity|]. cbn [fold_left map]. cbn zeta in *. rewrite IH.
  assert (E : step4 (fval a, fval b) (fval v) = (fval (if Bltb v a then v else a), fval (if Bltb b v then v else b))).
  { cbn [step4]. rewrite !Bltb_fval. destruct (xltb (fval v) (fval a)), (xltb (fval b) (fval v)); reflexivity. }
  rewrite E. reflexivity.
Qed.
Lemma mul_denote : forall m X Y, let v := fun x y => xrnd (fl_mode m) (xmul x y) in let A := denoteI X in let B := denoteI Y in
  denoteI (i_mul (F:=RFL) m X Y) =
  let r := fold_left step4 [v (i_lo A) (i_lo B); v (i_lo A) (i_hi B); v (i_hi A) (i_lo B); v (i_hi A) (i_hi B)] (PInf, MInf) in
  Itv (fst r) (snd r).
Proof.
  intros m [xa xb] [ya yb]. cbv zeta.
  set (l := [Bmult (fl_mode m) xa ya; Bmult (fl_mode m) xa yb; Bmult (fl_mode m) xb ya; Bmult (fl_mode m) xb yb]).
  pose proof (fold_fval l (B754_infinity false) (Bopp (B754_infinity false))) as E. cbn zeta in E.
  assert (M : i_mul (F:=RFL) m (Itv xa xb) (Itv ya yb) = let '(a, b) := fold_left (fun '(a, b) v => (if Bltb v a then v else a, if Bltb b v then v else b)) l (B754_infinity false, Bopp (B754_infinity false)) in Itv a b) by reflexivity.
  destruct (fold_left (fun '(a, b) v => (if Bltb v a then v else a, if Bltb b v then v else b)) l (B754_infinity false, Bopp (B754_infinity false))) as [p q].
  rewrite M. cbn [fst snd] in E. unfold denoteI; cbn [i_lo i_hi].
  change (fval (B754_infinity false : float)) with PInf in E. change (fval (Bopp (B754_infinity false : float))) with MInf in E.
  unfold l in E. cbn [map] in E. rewrite !mult_fval in E. rewrite <- E. reflexivity.
Qed.
Lemma xleb_least : forall a t, xleb a (Fin t) = true <-> at_least a t.
Proof. intros [a| | |] t; cbn; split; auto; try discriminate; try contradiction; apply Rleb_iff. Qed.
Lemma xleb_most : forall a t, xleb (Fin t) a = true <-> at_most a t.
Proof. intros [a| | |] t; cbn; split; auto; try discriminate; try contradiction; apply Rleb_iff. Qed.
Lemma xleb_trans : forall a b c, xleb a b = true -> xleb b c = true -> xleb a c = true.
Proof.
  intros [a| | |] [b| | |] [c| | |]; cbn; try discriminate; auto. rewrite !Rleb_iff. lra.
Qed.
Lemma fold_low_x : forall l a b t, a <> NaN -> b <> NaN -> (xleb a t = true -> xleb (fst (fold_left step4 l (a, b))) t = true) /\
  (forall v, In v l -> xleb v t = true -> xleb (fst (fold_left step4 l (a, b))) t = true).
Proof.
  induction l as [|w l IH]; intros a b t A B; [split; [auto|intros v []]|]. cbn [fold_left].
  pose proof (step_num a b w A B) as [A' B'].
  assert (S1 : xleb a t = true -> xleb (fst (step4 (a, b) w)) t = true).
  { intros H. cbn [step4 fst]. destruct (xltb w a) eqn:E; [|exact H]. apply (xleb_trans w a t); [|exact H].
    destruct w, a; cbn in *; try discriminate; auto. apply Rltb_iff in E. apply Rleb_iff. lra. }
  assert (S2 : xleb w t = true -> xleb (fst (step4 (a, b) w)) t = true).
  { intros H. cbn [step4 fst]. destruct (xltb w a) eqn:E; [exact H|]. apply (xleb_trans a w t); [|exact H].
    destruct w as [w| | |], a as [a| | |]; cbn in *; try discriminate; try congruence; auto. destruct (Rltb_spec w a); [discriminate|]. apply Rleb_iff. lra. }
  destruct (step4 (a, b) w) as [a' b']. cbn [fst snd] in *. destruct (IH a' b' t A' B') as [I1 I2]. split; [auto|].
  intros v [<-|H] L; [apply I1; auto|apply (I2 v); auto].
Qed.
Lemma fold_high_x : forall l a b t, a <> NaN -> b <> NaN -> (xleb t b = true -> xleb t (snd (fold_left step4 l (a, b))) = true) /\
  (forall v, In v l -> xleb t v = true -> xleb t (snd (fold_left step4 l (a, b))) = true).
Proof.
  induction l as [|w l IH]; intros a b t A B; [split; [auto|intros v []]|]. cbn [fold_left].
  pose proof (step_num a b w A B) as [A' B'].
  assert (S1 : xleb t b = true -> xleb t (snd (step4 (a, b) w)) = true).
  { intros H. cbn [step4 snd]. destruct (xltb b w) eqn:E; [|exact H]. apply (xleb_trans t b w); [exact H|].
    destruct w, b; cbn in *; try discriminate; auto. apply Rltb_iff in E. apply Rleb_iff. lra. }
  assert (S2 : xleb t w = true -> xleb t (snd (step4 (a, b) w)) = true).
  { intros H. cbn [step4 snd]. destruct (xltb b w) eqn:E; [exact H|]. apply (xleb_trans t w b); [exact H|].
    destruct w as [w| | |], b as [b| | |], t as [t| | |]; cbn in *; try discriminate; try congruence; auto; destruct (Rltb_spec b w); try discriminate; apply Rleb_iff; lra. }
  destruct (step4 (a, b) w) as [a' b']. cbn [fst snd] in *. destruct (IH a' b' t A' B') as [I1 I2]. split; [auto|].
  intros v [<-|H] L; [apply I1; auto|apply (I2 v); auto].
Qed.
Lemma xrnd_low : forall m p t, at_least p t -> xleb (xrnd m p) (rx m t) = true.
Proof.
  intros m [p| | |] t H; cbn in H; try contradiction; cbn [xrnd]; [apply rx_le; exact H|].
  destruct (rx_cases m t) as [[S1 S2]|[(S1 & S2 & S3)|(S1 & S2 & S3)]]; [rewrite S2|rewrite S3|rewrite S3]; try reflexivity; destruct overflow_to_inf; reflexivity.
Qed.
Lemma xrnd_high : forall m p t, at_most p t -> xleb (rx m t) (xrnd m p) = true.
Proof.
  intros m [p| | |] t H; cbn in H; try contradiction; cbn [xrnd]; [apply rx_le; exact H|].
  destruct (rx_cases m t) as [[S1 S2]|[(S1 & S2 & S3)|(S1 & S2 & S3)]]; [rewrite S2|rewrite S3|rewrite S3]; try reflexivity; destruct overflow_to_inf; reflexivity.
Qed.
(* the product, rounded in the mode in force, is inside *)
Lemma mul_rounded : forall m X Y x y, inF X x -> inF Y y -> ~ zero_line (denoteI X) (denoteI Y) -> ~ zero_line (denoteI Y) (denoteI X) ->
  let Z := denoteI (i_mul (F:=RFL) m X Y) in
  xleb (i_lo Z) (rx (fl_mode m) (x * y)) = true /\ xleb (rx (fl_mode m) (x * y)) (i_hi Z) = true.
Proof.
  intros m X Y x y HX HY Z1 Z2. cbv zeta. rewrite mul_denote. cbv zeta. cbn [i_lo i_hi].
  pose proof (products_low _ _ x y HX HY Z1 Z2) as Lo. pose proof (products_high _ _ x y HX HY Z1 Z2) as Hi. unfold low4, high4 in *.
  set (l := [_; _; _; _]). split.
  - destruct (fold_low_x l PInf MInf (rx (fl_mode m) (x * y)) ltac:(discriminate) ltac:(discriminate)) as [_ G].
    destruct Lo as [H|[H|[H|H]]]; apply (xrnd_low (fl_mode m)) in H; (eapply G; [|exact H]); unfold l; cbn; auto.
  - destruct (fold_high_x l PInf MInf (rx (fl_mode m) (x * y)) ltac:(discriminate) ltac:(discriminate)) as [_ G].
    destruct Hi as [H|[H|[H|H]]]; apply (xrnd_high (fl_mode m)) in H; (eapply G; [|exact H]); unfold l; cbn; auto.
Qed.

(** ** square roots *)
Lemma sqrt_contains : forall m X x, inF X x -> xleb (Fin 0) (fval (i_lo X)) = true -> exists Z, i_sqrt (F:=RFL) m X = (Z, m) /\ inF Z (sqrt x).
Proof.
  intros m [a b] x [X1 X2] P. eexists. split; [reflexivity|]. unfold inF, inI, in_window, denoteI in *. cbn [i_lo i_hi rsqrt RF fl_mode] in *.
  assert (B0 : forall md (f : float) q, fval f = Fin q -> 0 <= q -> fval (Bsqrt md f) = Fin (round radix2 fe (round_mode md) (sqrt q))).
  { intros md f q E Q. assert (Ff : is_finite f = true) by (destruct f as [s|[|]| |s mm e B]; cbn in *; congruence).
    assert (Eq : B2R f = q) by (rewrite (fval_finite _ _ f Ff) in E; congruence).
    destruct (Bsqrt_correct prec emax Hp Hm md f) as (C1 & C2 & _).
    assert (F2 : is_finite (Bsqrt md f) = true).
    { rewrite C2. destruct f as [s|s| |[|] mm e B]; try discriminate; auto. pose proof (finite_sign true mm e B) as S. cbn beta iota in S. lra. }
    rewrite (fval_finite _ _ _ F2), C1, Eq. reflexivity. }
  split.
  - destruct (fval a) as [q| | |] eqn:E; cbn in X1; try contradiction; [|discriminate]. cbn in P. apply Rleb_iff in P.
    rewrite (B0 mode_DN a q E P). cbn. pose proof (round_DN_pt radix2 fe (sqrt q)) as (_ & D & _). change Zfloor with (round_mode mode_DN) in D.
    apply Rle_trans with (sqrt q); [exact D|apply sqrt_le_1_alt; exact X1].
  - assert (0 <= x) by (destruct (fval a); cbn in *; try contradiction; try discriminate; apply Rleb_iff in P; lra).
    destruct (fval b) as [q| | |] eqn:E; cbn in X2; try contradiction.
    + rewrite (B0 mode_UP b q E ltac:(lra)). cbn. pose proof (round_UP_pt radix2 fe (sqrt q)) as (_ & D & _). change Zceil with (round_mode mode_UP) in D.
      apply Rle_trans with (sqrt q); [apply sqrt_le_1_alt; exact X2|exact D].
    + destruct b as [s|[|]| |s mm e B]; cbn in E; try discriminate. exact I.
Qed.
(* exp and log, for a libm that honours the rounding direction *)
Lemma exp_directed : (forall f : float, fval f <> NaN -> xleb (fval (lr_exp _ lm FE_DOWNWARD f)) (xexp (fval f)) = true /\ xleb (xexp (fval f)) (fval (lr_exp _ lm FE_UPWARD f)) = true) ->
  forall m X x, inF X x -> exists Z, i_exp (F:=RFL) m X = (Z, m) /\ inF Z (exp x).
Proof.
  intros HL m [a b] x HX. destruct (exp_contains m (denoteI (Itv a b)) x HX) as (Y & EY & [Y1 Y2]). unfold i_exp, i_directed in EY. injection EY as <-. cbn [rexp RX i_lo i_hi denoteI] in Y1, Y2.
  eexists. split; [reflexivity|]. unfold inF, inI, in_window, denoteI in *. cbn [i_lo i_hi rexp RF] in *. destruct HX as [X1 X2].
  assert (Na : fval a <> NaN) by (intros E; rewrite E in X1; exact X1). assert (Nb : fval b <> NaN) by (intros E; rewrite E in X2; exact X2).
  split; [apply xleb_least|apply xleb_most].
  - eapply xleb_trans; [apply (HL a Na)|apply xleb_least; exact Y1].
  - eapply xleb_trans; [apply xleb_most; exact Y2|apply (HL b Nb)].
Qed.
Lemma log_directed : (forall f : float, xleb (Fin 0) (fval f) = true -> xleb (fval (lr_log _ lm FE_DOWNWARD f)) (xlog (fval f)) = true /\ xleb (xlog (fval f)) (fval (lr_log _ lm FE_UPWARD f)) = true) ->
  forall m X x, inF X x -> xleb (Fin 0) (fval (i_lo X)) = true -> 0 < x -> exists Z, i_log (F:=RFL) m X = (Z, m) /\ inF Z (ln x).
Proof.
  intros HL m [a b] x HX P Q. destruct (log_contains m (denoteI (Itv a b)) x HX P Q) as (Y & EY & [Y1 Y2]). unfold i_log, i_directed in EY. injection EY as <-. cbn [rlog RX i_lo i_hi denoteI] in Y1, Y2.
  eexists. split; [reflexivity|]. unfold inF, inI, in_window, denoteI in *. cbn [i_lo i_hi rlog RF] in *. destruct HX as [X1 X2].
  split; [apply xleb_least|apply xleb_most].
  - eapply xleb_trans; [apply (HL a P)|apply xleb_least; exact Y1].
  - eapply xleb_trans; [apply xleb_most; exact Y2|]. apply HL. destruct (fval b); cbn in *; try contradiction; auto. apply Rleb_iff. lra.
Qed.

(** ** comparisons *)
Lemma intersection_denote : forall X Y, denoteI (i_intersection (F:=RFL) X Y) = i_intersection (F:=RX) (denoteI X) (denoteI Y).
Proof.
  intros [a b] [c d]. unfold i_intersection, r_min, r_max, i_default, denoteI. cbn [i_lo i_hi rltb RF RX rnum rnan]. rewrite !Bltb_fval.
  destruct (xltb (fval b) (fval c) || xltb (fval d) (fval a)); [reflexivity|]. cbn [i_lo i_hi].
  destruct (xltb (fval a) (fval c)), (xltb (fval d) (fval b)); reflexivity.
Qed.
Lemma hull_denote : forall X Y, denoteI (i_hull (F:=RFL) X Y) = i_hull (F:=RX) (denoteI X) (denoteI Y).
Proof.
  intros [a b] [c d]. unfold i_hull, r_min, denoteI. cbn [i_lo i_hi rltb RF RX rnum]. rewrite !Bltb_fval.
  destruct (xltb (fval c) (fval a)), (xltb (fval d) (fval b)); reflexivity.
Qed.
Lemma ge_denote : forall X Y, i_ge (F:=RFL) X Y = i_ge (F:=RX) (denoteI X) (denoteI Y).
Proof.
  intros [a b] [c d]. unfold i_ge, i_empty, denoteI. cbn [i_lo i_hi rltb rleb RF RX rnum]. rewrite !Bltb_fval, !Bleb_fval. reflexivity.
Qed.
Lemma zero_fval : fval (rofZ (RndOps:=RFL) 0) = Fin 0.
Proof. reflexivity. Qed.
Lemma abs_denote : forall X, denoteI (i_abs (F:=RFL) X) = i_abs (F:=RX) (denoteI X).
Proof.
  intros [a b]. unfold i_abs, r_min, r_max, denoteI. cbn [i_lo i_hi rltb rabs RF RX rnum]. change (binary_normalize prec emax Hp Hm mode_NE 0 0 false) with (rofZ (RndOps:=RFL) 0).
  rewrite !Bltb_fval, !fval_abs, zero_fval. cbn [rofZ RX]. f_equal.
  - destruct (xltb (fval a) (Fin 0) && xltb (Fin 0) (fval b)); [exact zero_fval|]. destruct (xltb (xabs (fval b)) (xabs (fval a))); rewrite fval_abs; reflexivity.
  - destruct (xltb (xabs (fval a)) (xabs (fval b))); rewrite fval_abs; reflexivity.
Qed.
End Round.

(** transfers *)
Section Transfer.
Variables prec emax : Z.
Context (Hp : Prec_gt_0 prec) (Hm : Prec_lt_emax prec emax).
Variable lm : libm_rnd (binary_float prec emax).
Notation RFL := (RF prec emax Hp Hm lm).
Notation itv := (interval (binary_float prec emax)).
Lemma sub_assign_contains : forall m s p q x y, p <> q -> inF (s p : itv) x -> inF (s q : itv) y ->
  exists s', i_sub_assign (F:=RFL) m s p q = (s', m) /\ inF (s' p : itv) (x - y) /\ forall r, r <> p -> s' r = s r.
Proof.
  intros m s p q x y N Hx Hy. destruct (sub_assign_eq prec emax Hp Hm lm m s p q N) as (s' & E & Ep & Er).
  exists s'. split; [exact E|]. split; [|exact Er]. destruct (sub_contains prec emax Hp Hm lm m _ _ x y Hx Hy) as (Z & EZ & HZ). rewrite Ep, EZ. exact HZ.
Qed.
Lemma intersection_float : forall X Y : itv, num_ends (denoteI X) -> num_ends (denoteI Y) -> forall x, inF (i_intersection (F:=RFL) X Y : itv) x <-> inF X x /\ inF Y x.
Proof. intros X Y HX HY x. unfold inF. rewrite intersection_denote. apply intersection_exact; auto. Qed.
Lemma hull_float : forall X Y : itv, num_ends (denoteI X) -> num_ends (denoteI Y) -> i_hi X = i_hi Y ->
  (forall x, inF X x \/ inF Y x -> inF (i_hull (F:=RFL) X Y : itv) x) /\
  (forall Z : itv, num_ends (denoteI Z) -> (exists x, inF X x) -> (exists y, inF Y y) -> (forall x, inF X x \/ inF Y x -> inF Z x) ->
    forall x, inF (i_hull (F:=RFL) X Y : itv) x -> inF Z x).
Proof.
  intros X Y HX HY E. assert (E' : i_hi (denoteI X) = i_hi (denoteI Y)) by (unfold denoteI; cbn [i_hi]; rewrite E; reflexivity).
  destruct (hull_same_top _ _ HX HY E') as [A B]. unfold inF. rewrite hull_denote. split; [exact A|]. intros Z HZ. apply B. exact HZ.
Qed.
Lemma hull_members_float : forall X Y : itv, num_ends (denoteI X) -> num_ends (denoteI Y) -> forall x,
  inF (i_hull (F:=RFL) X Y : itv) x <-> (at_least (fval (i_lo X)) x \/ at_least (fval (i_lo Y)) x) /\ at_most (fval (i_hi X)) x /\ at_most (fval (i_hi Y)) x.
Proof. intros X Y HX HY x. unfold inF. rewrite hull_denote. apply (hull_members _ _ HX HY). Qed.
Lemma ge_float : forall X Y : itv, i_ge (F:=RFL) X Y = true -> forall x y, inF X x -> inF Y y -> y <= x.
Proof. intros X Y H. rewrite ge_denote in H. exact (ge_sound _ _ H). Qed.
Lemma ge_float_complete : forall (X Y : itv) a b c d, denoteI X = finI a b -> denoteI Y = finI c d -> a <= b -> c <= d ->
  (forall x y, inF X x -> inF Y y -> y <= x) -> i_ge (F:=RFL) X Y = true.
Proof. intros X Y a b c d EX EY H1 H2 H. rewrite ge_denote, EX, EY. apply ge_complete; auto. unfold inF in H. rewrite EX, EY in H. exact H. Qed.
Lemma abs_float : forall (X : itv) x, inF X x -> inF (i_abs (F:=RFL) X : itv) (Rabs x).
Proof. intros X x H. unfold inF. rewrite abs_denote. apply abs_contains. exact H. Qed.
Lemma abs_float_tight : forall (X : itv) a b, denoteI X = finI a b -> a <= b -> exists l h, denoteI (i_abs (F:=RFL) X : itv) = finI l h /\
  (exists x, a <= x <= b /\ l = Rabs x) /\ (exists x, a <= x <= b /\ h = Rabs x).
Proof. intros X a b E H. rewrite abs_denote, E. apply abs_tight. exact H. Qed.
End Transfer.
