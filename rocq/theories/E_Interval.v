(** Concrete interval cases: hypotheses met, and counterexamples. *)
From Coq Require Import Reals ZArith Lra Lia List Bool.
From Flocq Require Import Core BinarySingleNaN.
From Verif Require Import Num XR FL Spec M_Interval Spec_Interval P_FL P_Interval P_IntervalFL.
Import ListNotations.
Local Open Scope R_scope.

Lemma fv64 : forall (x : binary64) s m e, B2SF x = SpecFloat.S754_finite s m e -> fval x = Fin (IZR (cond_Zopp s (Zpos m)) * bpow radix2 e).
Proof. intros [s'|s'| |s' m' e' B] s m e H; try discriminate. cbn [B2SF] in H. injection H as -> -> ->. reflexivity. Qed.
Definition pt (m e : Z) : interval binary64 := Itv (d64 m e) (d64 m e).
Ltac fv := erewrite fv64; [|vm_compute; reflexivity]; cbn [cond_Zopp Z.opp bpow radix_val radix2 Z.pow_pos Pos.iter Z.mul Pos.mul].
Lemma d_1 : fval (d64 1 0) = Fin 1.
Proof. fv. f_equal. lra. Qed.
Lemma d_3 : fval (d64 3 0) = Fin 3.
Proof. fv. f_equal. lra. Qed.
Lemma d_m1 : fval (d64 (-1) 0) = Fin (-1).
Proof. fv. f_equal. lra. Qed.
Lemma d_m2 : fval (d64 (-2) 0) = Fin (-2).
Proof. fv. f_equal. lra. Qed.
Lemma d_tiny : fval (d64 1 (-60)) = Fin (/ 1152921504606846976).
Proof. fv. f_equal. lra. Qed.
Lemma d_next : fval (d64 4503599627370497 (-52)) = Fin (1 + / 4503599627370496).
Proof. fv. f_equal. lra. Qed.
Lemma in_pt : forall m e v, fval (d64 m e) = Fin v -> inF (pt m e) v.
Proof. intros m e v H. unfold inF, inI, in_window, denoteI, pt. cbn [i_lo i_hi]. rewrite H. cbn. lra. Qed.

(* the sum [1,1] + [2^-60,2^-60]: not representable, contained *)
Lemma add_case : inF (pt 1 0) 1 /\ inF (pt 1 (-60)) (/ 1152921504606846976) /\
  (forall lm, exists Z, i_add (F:=RF64 lm) FE_TONEAREST (pt 1 0) (pt 1 (-60)) = (Z, FE_TONEAREST) /\ denoteI Z = finI 1 (1 + / 4503599627370496)).
Proof.
  split; [exact (in_pt _ _ _ d_1)|]. split; [exact (in_pt _ _ _ d_tiny)|].
  intros lm. eexists. split; [reflexivity|]. unfold denoteI, finI. cbn [i_lo i_hi]. f_equal; fv; f_equal; lra.
Qed.
(* x -= x with x = [-2,-1]: the upper end is computed from the new lower end *)
Lemma alias_case : forall lm m, exists (s s' : nat -> interval binary64) x y, inF (s 0%nat) x /\ inF (s 0%nat) y /\
  i_sub_assign (F:=RF64 lm) m s 0%nat 0%nat = (s', m) /\ ~ inF (s' 0%nat) (x - y).
Proof.
  intros lm m. exists (fun _ => Itv (d64 (-2) 0) (d64 (-1) 0)). eexists. exists (-1), (-2).
  assert (I : forall v, -2 <= v <= -1 -> inF (Itv (d64 (-2) 0) (d64 (-1) 0)) v).
  { intros v H. unfold inF, inI, in_window, denoteI. cbn [i_lo i_hi]. rewrite d_m2, d_m1. cbn. lra. }
  split; [apply I; lra|]. split; [apply I; lra|]. split; [reflexivity|]. unfold inF, inI, in_window, denoteI, write. cbn [i_lo i_hi Nat.eqb]. intros [_ H].
  match goal with H : at_most (fval ?t) _ |- _ => assert (E : fval t = Fin 0) end.
  { match goal with |- fval ?t = _ => replace t with (B754_zero false : binary64) by (apply B2SF_inj; vm_compute; reflexivity) end. reflexivity. }
  rewrite E in H. cbn in H. lra.
Qed.
(* products are computed in the mode in force, so one end at least is on the wrong side *)
Lemma mul_case : forall lm m, exists (X : interval binary64) x, inF X x /\ ~ inF (i_mul (F:=RF64 lm) m X X) (x * x).
Proof.
  intros lm m. exists (pt 4503599627370497 (-52)), (1 + / 4503599627370496). split; [exact (in_pt _ _ _ d_next)|].
  unfold inF, inI, in_window, denoteI. destruct m; intros [H1 H2]; cbn [i_lo i_hi] in H1, H2.
  - match type of H2 with at_most ?t _ => assert (E : t = Fin (4503599627370498 * / 4503599627370496)) by (fv; f_equal; lra) end. rewrite E in H2. cbn in H2. lra.
  - match type of H2 with at_most ?t _ => assert (E : t = Fin (4503599627370498 * / 4503599627370496)) by (fv; f_equal; lra) end. rewrite E in H2. cbn in H2. lra.
  - match type of H1 with at_least ?t _ => assert (E : t = Fin (4503599627370499 * / 4503599627370496)) by (fv; f_equal; lra) end. rewrite E in H1. cbn in H1. lra.
  - match type of H2 with at_most ?t _ => assert (E : t = Fin (4503599627370498 * / 4503599627370496)) by (fv; f_equal; lra) end. rewrite E in H2. cbn in H2. lra.
Qed.
Lemma mul_fin_case : inF (pt 3 0) 3 /\ ~ zero_line (denoteI (pt 3 0)) (denoteI (pt 1 0)).
Proof.
  split; [exact (in_pt _ _ _ d_3)|]. intros [_ H]. unfold lineI, denoteI, pt in H. cbn [i_lo i_hi] in H. rewrite d_1 in H. discriminate.
Qed.
Lemma mul_line_case : forall m, inI (finI 0 0) 0 /\ inI lineI 5 /\ ~ inI (i_mul (F:=RX) m (finI 0 0) lineI) (0 * 5).
Proof.
  intros m. split; [unfold inI, in_window, finI; cbn; lra|]. split; [split; exact I|]. apply mul_zero_line. left. split; reflexivity.
Qed.
Lemma div_round_case : forall lm m, exists (X Y : interval binary64) x y, inF X x /\ inF Y y /\ y <> 0 /\ ~ inF (i_div (F:=RF64 lm) m X Y) (x / y).
Proof.
  intros lm m. exists (pt 1 0), (pt 3 0), 1, 3. split; [exact (in_pt _ _ _ d_1)|]. split; [exact (in_pt _ _ _ d_3)|]. split; [lra|].
  unfold inF, inI, in_window, denoteI. destruct m; intros [H1 H2]; cbn [i_lo i_hi] in H1, H2.
  - match type of H2 with at_most ?t _ => assert (E : t = Fin (6004799503160661 * / 18014398509481984)) by (fv; f_equal; lra) end. rewrite E in H2. cbn in H2. lra.
  - match type of H2 with at_most ?t _ => assert (E : t = Fin (6004799503160661 * / 18014398509481984)) by (fv; f_equal; lra) end. rewrite E in H2. cbn in H2. lra.
  - match type of H1 with at_least ?t _ => assert (E : t = Fin (6004799503160662 * / 18014398509481984)) by (fv; f_equal; lra) end. rewrite E in H1. cbn in H1. lra.
  - match type of H2 with at_most ?t _ => assert (E : t = Fin (6004799503160661 * / 18014398509481984)) by (fv; f_equal; lra) end. rewrite E in H2. cbn in H2. lra.
Qed.
Ltac rr := repeat (match goal with |- context [Rltb ?a ?b] => first [rewrite (Rltb_true a b) by lra|rewrite (Rltb_false a b) by lra]
                    | |- context [Rleb ?a ?b] => first [rewrite (Rleb_true a b) by lra|rewrite (Rleb_false a b) by lra] end; cbn [andb orb negb]).
(* 1 / -1 with the divisor in [-1,1]: the code keeps only the positive reciprocals *)
Lemma div_sign_case : forall m, inI (finI 1 1) 1 /\ inI (finI (-1) 1) (-1) /\ ~ inI (i_div (F:=RX) m (finI 1 1) (finI (-1) 1)) (1 / -1).
Proof.
  intros m. unfold inI, in_window. split; [cbn; lra|]. split; [cbn; lra|].
  rewrite i_div_eq. unfold finI. cbn [i_lo i_hi xleb xltb]. rr. rewrite i_mul_eq. cbn [i_lo i_hi]. rewrite xdiv_fin by lra.
  replace (1 / 1) with 1 by lra. cbn [xmul]. rewrite !scale_pos by lra. cbn [fold_left step4 xltb fst snd]. rr. cbn [xltb fst snd]. rr. cbn [xltb fst snd].
  intros [H _]. cbn in H. lra.
Qed.
Lemma div_pos_case : inI (finI (-1) 4) 2 /\ 0 < 2.
Proof. split; [cbn; unfold inI, in_window; cbn; lra|lra]. Qed.
(* (-2)^2 with the base in [-2,1] *)
Lemma pow_case : forall m, inI (finI (-2) 1) (-2) /\ ~ inI (i_pow (F:=RX) m (finI (-2) 1) 2) ((-2) ^ 2).
Proof.
  intros m. unfold inI, in_window. split; [cbn; lra|]. unfold i_pow, finI. cbn [rleb rofZ rpow RX rnum i_lo i_hi xleb Z.even]. rr.
  change 2%Z with (Z.of_nat 2). rewrite xpowZ_nat, xpow_fin. intros [_ H]. cbn in H. lra.
Qed.
Lemma pow_good_case : inI (finI (-1) 3) (-1) /\ at_most (i_hi (finI (-1) 3)) (- -1) /\ xleb (Fin 0) (i_lo (finI (-1) 3)) = false.
Proof. unfold inI, in_window, finI. cbn. split; [lra|]. split; [lra|]. apply Rleb_false. lra. Qed.
Lemma hull_case : exists X Y x, num_ends X /\ num_ends Y /\ inI Y x /\ ~ inI (i_hull (F:=RX) X Y) x.
Proof.
  exists (finI 0 1), (finI 2 3), 2. split; [split; discriminate|]. split; [split; discriminate|]. split; [unfold inI, in_window; cbn; lra|].
  intros H. apply hull_members in H; [|split; discriminate|split; discriminate]. destruct H as (_ & H & _). cbn in H. lra.
Qed.
Lemma empty_case : forall X Y, num_ends X -> num_ends Y -> (exists x, inI X x) -> (exists y, inI Y y) -> (forall x, ~ (inI X x /\ inI Y x)) ->
  i_empty (F:=RX) (i_intersection (F:=RX) X Y) = false.
Proof.
  intros [a b] [c d] [A B] [C D] (x & X1 & X2) (y & Y1 & Y2) N. unfold i_intersection, i_empty, i_default, r_max, r_min. cbn [i_lo i_hi rltb RX rnum rnan] in *.
  destruct (xltb b c) eqn:E1; [reflexivity|]. destruct (xltb d a) eqn:E2; [reflexivity|]. cbn [orb i_lo i_hi].
  destruct (xltb a c) eqn:E3, (xltb d b) eqn:E4; destruct a as [a| | |], b as [b| | |], c as [c| | |], d as [d| | |]; cbn in *; try contradiction; try congruence; try reflexivity;
    repeat match goal with H : Rltb _ _ = true |- _ => apply Rltb_iff in H | H : Rltb ?u ?v = false |- _ => destruct (Rltb_spec u v); [discriminate|clear H] end; try (apply Rltb_false; lra).
Qed.
Lemma empty_nonvacuous : num_ends (finI 0 1) /\ num_ends (finI 2 3) /\ (forall x, ~ (inI (finI 0 1) x /\ inI (finI 2 3) x)) /\
  i_empty (F:=RX) (i_intersection (F:=RX) (finI 0 1) (finI 2 3)) = false.
Proof.
  assert (N : forall x, ~ (inI (finI 0 1) x /\ inI (finI 2 3) x)) by (intros x [[_ H] [H' _]]; cbn in *; lra).
  split; [split; discriminate|]. split; [split; discriminate|]. split; [exact N|].
  apply empty_case; auto; try (split; discriminate); [exists 0|exists 2]; unfold inI, in_window; cbn; lra.
Qed.
Lemma sqrt_case : inF (pt 3 0) 3 /\ xleb (Fin 0) (fval (i_lo (pt 3 0))) = true.
Proof. split; [exact (in_pt _ _ _ d_3)|]. cbn [pt i_lo]. rewrite d_3. apply Rleb_iff. lra. Qed.
Lemma log_case : inI (finI 0 2) 1 /\ xleb (Fin 0) (i_lo (finI 0 2)) = true /\ 0 < 1.
Proof. unfold inI, in_window, finI. cbn. split; [lra|]. split; [apply Rleb_iff; lra|lra]. Qed.
(* a libm that always answers with the infinities honours the directions *)
Lemma libm_case : exists lm : libm_rnd binary64,
  (forall f : binary64, fval f <> NaN -> xleb (fval (lr_exp _ lm FE_DOWNWARD f)) (xexp (fval f)) = true /\ xleb (xexp (fval f)) (fval (lr_exp _ lm FE_UPWARD f)) = true) /\
  (forall f : binary64, xleb (Fin 0) (fval f) = true -> xleb (fval (lr_log _ lm FE_DOWNWARD f)) (xlog (fval f)) = true /\ xleb (xlog (fval f)) (fval (lr_log _ lm FE_UPWARD f)) = true).
Proof.
  set (g := fun (m : fe_mode) (_ : binary64) => match m with FE_DOWNWARD => B754_infinity true | _ => B754_infinity false end : binary64).
  exists {| lr_exp := g; lr_log := g; lr_pow := fun m x _ => g m x |}. cbn [lr_exp lr_log]. unfold g. cbn [fval].
  split; intros f H; destruct (fval f) as [v| | |]; cbn in *; try congruence; auto.
  apply Rleb_iff in H. destruct (Rlt_dec 0 v); [split; reflexivity|]. destruct (Rlt_dec v 0); [lra|split; reflexivity].
Qed.
(* disjoint intersections, over doubles *)
Lemma empty_float : forall lm, exists X Y : interval binary64, (exists x, inF X x) /\ (exists y, inF Y y) /\ (forall x, ~ (inF X x /\ inF Y x)) /\
  i_empty (F:=RF64 lm) (i_intersection (F:=RF64 lm) X Y) = false.
Proof.
  intros lm. exists (pt 1 0), (pt 3 0). split; [eexists; exact (in_pt _ _ _ d_1)|]. split; [eexists; exact (in_pt _ _ _ d_3)|]. split.
  - intros x [[_ H] [H' _]]. unfold denoteI, pt in *. cbn [i_lo i_hi] in *. rewrite d_1 in H. rewrite d_3 in H'. cbn in *. lra.
  - vm_compute. reflexivity.
Qed.
Lemma hull_float_case : forall lm, exists (X Y : interval binary64) y, inF Y y /\ ~ inF (i_hull (F:=RF64 lm) X Y : interval binary64) y.
Proof.
  intros lm. exists (pt 1 0), (pt 3 0), 3. split; [exact (in_pt _ _ _ d_3)|]. intros H.
  apply hull_members_float in H; try (split; unfold denoteI, pt; cbn [i_lo i_hi]; rewrite ?d_1, ?d_3; discriminate).
  destruct H as (_ & H & _). unfold pt in H; cbn [i_hi] in H. rewrite d_1 in H. cbn in H. lra.
Qed.
Lemma ge_case : forall lm, i_ge (F:=RF64 lm) (pt 3 0) (pt 1 0) = true /\ i_ge (F:=RF64 lm) (pt 1 0) (pt 3 0) = false.
Proof. intros lm. split; vm_compute; reflexivity. Qed.
Lemma abs_case : denoteI (Itv (d64 (-2) 0) (d64 1 0)) = finI (-2) 1 /\ -2 <= 1.
Proof. unfold denoteI, finI. cbn [i_lo i_hi]. rewrite d_m2, d_1. split; [reflexivity|lra]. Qed.
