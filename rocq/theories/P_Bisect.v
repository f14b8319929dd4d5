(** C12, C13: the bracketing search bisect. *)
From Coq Require Import Reals Lra Lia ZArith List Bool.
From Flocq Require Import Core BinarySingleNaN.
From Verif Require Import Num XR FL Spec_Iter M_Iter P_FL.
Import ListNotations.
Local Open Scope R_scope.

Lemma archimed_cor_nat : forall x, exists m, x <= INR (S m).
Proof.
  intros x. exists (Z.to_nat (up x)). rewrite S_INR, INR_IZR_INZ.
  destruct (archimed x) as [A _]. assert (IZR (up x) <= IZR (Z.of_nat (Z.to_nat (up x)))) by (apply IZR_le; lia).
  lra.
Qed.

Lemma Ok_inj : forall A (a b : A), Ok a = Ok b -> a = b.
Proof. intros A a b H; now injection H. Qed.

Lemma cell_width_pos : forall eps a hi, right_end hi -> below a hi -> 0 < cell_width eps a hi.
Proof.
  intros eps a hi [->|[b ->]] B; simpl in B; unfold cell_width.
  - pose proof (Rmax_l 1 (10 * eps * Rabs a)); lra.
  - pose proof (Rmax_l (Rmin ((b - a) / 8) 1) (10 * eps * Rabs a)).
    assert (0 < Rmin ((b - a) / 8) 1) by (apply Rmin_glb_lt; lra). lra.
Qed.

Section Exact.
Variable L : limits.
Local Notation eps := (l_eps L).

Lemma xltb_below : forall x hi, right_end hi -> (xltb (Fin x) hi = true <-> below x hi).
Proof.
  intros x hi [->|[b ->]]; simpl; [tauto|]. apply Rltb_iff.
Qed.
Lemma xltb_below_false : forall x hi, right_end hi -> (xltb (Fin x) hi = false <-> ~ below x hi).
Proof.
  intros x hi H; rewrite <- (xltb_below x hi H); destruct (xltb (Fin x) hi); split; congruence.
Qed.
Lemma xleb_below : forall x hi, right_end hi -> xleb hi (Fin x) = negb (xltb (Fin x) hi).
Proof.
  intros x hi [->|[b ->]]; simpl; [reflexivity|].
  destruct (Rleb_spec b x), (Rltb_spec x b); try reflexivity; lra.
Qed.


Lemma bisect_dt_width : forall a hi, right_end hi ->
  bisect_dt (F:=XR L) (Fin a) hi = Fin (cell_width eps a hi).
Proof.
  intros a hi [->|[b ->]]; unfold bisect_dt, std_min, cell_width.
  - replace (ndiv (NumOps:=XR L) (nsub (NumOps:=XR L) PInf (Fin a)) (nofZ (NumOps:=XR L) 8)) with PInf
      by (simpl; unfold xdiv; destruct (Rlt_dec 8 0); [lra|reflexivity]).
    xred. destruct (Rltb_spec 1 (10 * eps * Rabs a)).
    + rewrite Rmax_right by lra; reflexivity.
    + rewrite Rmax_left by lra; reflexivity.
  - xred. rewrite xdiv_fin by lra. xred. unfold Rmin, Rmax.
    destruct (Rltb_spec 1 ((b - a) / 8)), (Rle_dec ((b - a) / 8) 1); try lra; xred;
      match goal with |- context [Rltb ?x ?y] => destruct (Rltb_spec x y), (Rle_dec x y) end;
      try reflexivity; try (f_equal; lra).
    all: replace ((b - a) / 8) with 1 by lra;
      match goal with |- context [Rltb ?x ?y] => destruct (Rltb_spec x y), (Rle_dec x y) end;
      try reflexivity; try (f_equal; lra).
Qed.

Variable f : xr -> xr.
Variable g : R -> R.
Hypothesis Hf : computes f g.

(** The bisection loop: it never moves the right end, because f_min*f_min is never
    negative. *)
Lemma bisect_loop_spec : forall n fm x y, x < y ->
  (exists z, bisect_loop (F:=XR L) n f (Fin fm) (Fin x) (Fin y) = (Fin z, Fin z) /\
             g z = 0 /\ (x + y) / 2 <= z < y) \/
  bisect_loop (F:=XR L) n f (Fin fm) (Fin x) (Fin y) = (Fin (y - (y - x) / 2 ^ n), Fin y).
Proof.
  induction n as [|n IH]; intros fm x y Hxy; cbn [bisect_loop].
  - right; do 2 f_equal; simpl; field.
  - xred. rewrite xdiv_fin by lra. xred.
    rewrite (Reqb_false ((x + y) / 2) y) by (intro; lra). rewrite (Reqb_false ((x + y) / 2) x) by (intro; lra).
    cbn [orb]. rewrite !Hf; xred.
    destruct (Reqb_spec (g ((x + y) / 2)) 0) as [E|E].
    + left; exists ((x + y) / 2); split; [reflexivity|]; split; [exact E|lra].
    + rewrite (Rltb_false (fm * fm) 0) by nra.
      destruct (IH (g ((x + y) / 2)) ((x + y) / 2) y ltac:(lra)) as [(z & E1 & E2 & E3)|E1].
      * left; exists z; repeat split; auto; lra.
      * right; rewrite E1; do 2 f_equal. simpl; field. apply pow_nonzero; lra.
Qed.

(** The scan stops at the first cell with a sign change, or past the window. *)
Lemma bisect_scan_spec : forall fuel d hi x fm t, right_end hi ->
  bisect_scan (F:=XR L) fuel f (Fin d) hi (Fin (g x)) (Fin (g (x + d))) (Fin x) = Ok (fm, t) ->
  exists k, t = Fin (x + INR k * d) /\ fm = Fin (g (x + INR k * d)) /\
    (forall j, (j < k)%nat -> below (x + INR j * d) hi /\
               0 < g (x + INR j * d) * g (x + INR (S j) * d)) /\
    (~ below (x + INR k * d) hi \/ g (x + INR k * d) * g (x + INR (S k) * d) <= 0).
Proof.
  induction fuel as [|fuel IH]; intros d hi x fm t Hhi H; cbn [bisect_scan] in H; [discriminate|].
  xred.
  destruct (Rltb_spec 0 (g x * g (x + d))) as [P|P].
  - destruct (xltb (Fin x) hi) eqn:B; cbn [andb] in H.
    + rewrite Hf in H. apply (IH d hi (x + d)) in H; [|assumption].
      destruct H as (k & E1 & E2 & E3 & E4).
      exists (S k).
      replace (x + INR (S k) * d) with (x + d + INR k * d) by (rewrite S_INR; ring).
      replace (x + INR (S (S k)) * d) with (x + d + INR (S k) * d) by (rewrite !S_INR; ring).
      repeat split; auto.
      * intros. destruct j as [|j].
        -- simpl; rewrite Rmult_0_l, Rplus_0_r. apply xltb_below; auto.
        -- replace (x + INR (S j) * d) with (x + d + INR j * d) by (rewrite S_INR; ring).
           apply E3; lia.
      * destruct j as [|j].
        -- simpl; rewrite Rmult_0_l, Rplus_0_r, Rmult_1_l; exact P.
        -- replace (x + INR (S j) * d) with (x + d + INR j * d) by (rewrite S_INR; ring).
           replace (x + INR (S (S j)) * d) with (x + d + INR (S j) * d) by (rewrite !S_INR; ring).
           apply E3; lia.
    + injection H as <- <-. exists 0%nat. simpl; rewrite Rmult_0_l, Rplus_0_r.
      repeat split; auto; try (intros; lia).
      left; apply xltb_below_false; auto.
  - cbn [andb] in H. injection H as <- <-. exists 0%nat.
    simpl; rewrite Rmult_0_l, Rplus_0_r, Rmult_1_l. repeat split; auto; intros; lia.
Qed.

Lemma bisect_spec : forall fuel a hi lo up, right_end hi ->
  bisect (F:=XR L) fuel f (Fin a) hi = Ok (lo, up) ->
  let d := cell_width eps a hi in
  (g a = 0 /\ lo = Fin a /\ up = Fin a) \/
  (g a <> 0 /\ lo = NaN /\ up = NaN /\
   exists n, ~ below (a + INR n * d) hi /\
     forall j, (j < n)%nat -> below (a + INR j * d) hi /\ 0 < g (a + INR j * d) * g (a + INR (S j) * d)) \/
  (g a <> 0 /\ exists k, let x := a + INR k * d in
     below x hi /\ g x * g (x + d) <= 0 /\
     (forall j, (j < k)%nat -> 0 < g (a + INR j * d) * g (a + INR (S j) * d)) /\
     ((exists z, lo = Fin z /\ up = Fin z /\ g z = 0 /\ x + d / 2 <= z < x + d) \/
      (lo = Fin (x + d - d / 2 ^ 40) /\ up = Fin (x + d)))).
Proof.
  intros fuel a hi lo up Hhi H d. unfold bisect in H. rewrite Hf, bisect_dt_width in H by assumption.
  fold d in H. cbn [neqb nofZ XR xeqb] in H.
  destruct (Reqb_spec (g a) 0) as [Z|Z].
  - injection H as <- <-; auto.
  - right. cbn [nadd XR xadd] in H. rewrite Hf in H.
    rewrite ?Hf in H. destruct (bisect_scan (F:=XR L) fuel f (Fin d) hi (Fin (g a)) (Fin (g (a + d))) (Fin a)) as [[fm t]| |] eqn:S;
      cbn [obind] in H; try discriminate.
    apply bisect_scan_spec in S; [|assumption]. destruct S as (k & -> & -> & E3 & E4).
    change (nleb (NumOps:=XR L)) with xleb in H.
    rewrite xleb_below in H by assumption.
    destruct (xltb (Fin (a + INR k * d)) hi) eqn:B; cbn [negb] in H.
    + right. split; [assumption|]. exists k; intros x; fold x in E4, H, B |- *.
      apply xltb_below in B; [|assumption].
      assert (D : 0 < d).
      { assert (B0 : below a hi).
        { destruct k as [|k].
          - unfold x in B; simpl in B; rewrite Rmult_0_l, Rplus_0_r in B; exact B.
          - destruct (E3 0%nat ltac:(lia)) as [B0 _]; simpl in B0; rewrite Rmult_0_l, Rplus_0_r in B0; exact B0. }
        apply cell_width_pos; assumption. }
      split; [assumption|]. split.
      { destruct E4 as [E4|E4]; [contradiction|].
        replace (x + d) with (a + INR (S k) * d) by (unfold x; rewrite S_INR; ring). exact E4. }
      split; [intros j Hj; apply E3; exact Hj|].
      apply Ok_inj in H. cbn [xadd] in H.
      destruct (bisect_loop_spec 40 (g x) x (x + d) ltac:(lra)) as [(z & E & Ez & Hz)|E].
      * left; exists z. rewrite E in H; injection H as <- <-. repeat split; auto; lra.
      * right. rewrite E in H; injection H as <- <-. split; [|reflexivity]. replace (x + d - x) with d by ring. reflexivity.
    + injection H as <- <-. left. repeat split; auto. exists k; split; [|exact E3].
      apply xltb_below_false; assumption.
Qed.

(** *** Termination *)

Lemma bisect_scan_total : forall fuel d b x, x + INR fuel * d >= b -> (0 < fuel)%nat -> 0 < d \/ b <= x ->
  exists p, bisect_scan (F:=XR L) (S fuel) f (Fin d) (Fin b) (Fin (g x)) (Fin (g (x + d))) (Fin x) = Ok p.
Proof.
  induction fuel as [|fuel IH]; intros d b x Hb Hn Hd; [lia|].
  cbn [bisect_scan]. xred.
  destruct (Rltb_spec 0 (g x * g (x + d))) as [P|P]; [|eexists; reflexivity].
  destruct (Rltb_spec x b) as [B|B]; [|eexists; reflexivity]. cbn [andb]. rewrite Hf.
  destruct fuel as [|fuel].
  - simpl in Hb. cbn [bisect_scan]. xred. rewrite (Rltb_false (x + d) b) by lra.
    rewrite andb_false_r; eexists; reflexivity.
  - refine (IH d b (x + d) _ _ _); [rewrite S_INR in Hb; lra | lia | left; lra].
Qed.

Lemma bisect_scan_more : forall fuel h d hi fm fM x p,
  bisect_scan (F:=XR L) fuel h d hi fm fM x = Ok p ->
  forall n, (fuel <= n)%nat -> bisect_scan (F:=XR L) n h d hi fm fM x = Ok p.
Proof.
  induction fuel as [|fuel IH]; intros h d hi fm fM x p H n Hn; [discriminate|].
  destruct n as [|n]; [lia|]. cbn [bisect_scan] in *.
  destruct (_ && _); [|assumption]. apply IH; [assumption|lia].
Qed.

Lemma bisect_terminates : forall a b, exists n, forall fuel, (n <= fuel)%nat ->
  exists p, bisect (F:=XR L) fuel f (Fin a) (Fin b) = Ok p.
Proof.
  intros a b. set (d := cell_width eps a (Fin b)).
  assert (Hd : 0 < d \/ b <= a).
  { destruct (Rle_dec b a); [auto|left].
    apply cell_width_pos; simpl; [right; eauto|lra]. }
  assert (S : exists p n, bisect_scan (F:=XR L) n f (Fin d) (Fin b) (Fin (g a)) (Fin (g (a + d))) (Fin a) = Ok p).
  { destruct (Rle_dec b a) as [C|C].
    - exists (Fin (g a), Fin a), 1%nat. cbn [bisect_scan]. xred.
      rewrite (Rltb_false a b) by lra. rewrite andb_false_r; reflexivity.
    - destruct Hd as [Hd|Hd]; [|lra].
      destruct (archimed_cor_nat ((b - a) / d)) as [m Hm].
      destruct (bisect_scan_total (S m) d b a) as [p Hp]; [| lia | auto |].
      + assert ((b - a) / d * d <= INR (S m) * d) by (apply Rmult_le_compat_r; lra).
        replace ((b - a) / d * d) with (b - a) in H by (field; lra). lra.
      + exists p, (S (S m)); exact Hp. }
  destruct S as (p & n & S). exists n; intros fuel Hn.
  apply (bisect_scan_more _ _ _ _ _ _ _ _ S) in Hn.
  unfold bisect. rewrite Hf, bisect_dt_width by (right; eauto). fold d.
  cbn [neqb nofZ XR xeqb nadd xadd]. rewrite Hf. rewrite Hn.
  destruct (Reqb (g a) 0); [eexists; reflexivity|]. cbn [obind]. destruct p.
  match goal with |- context [if ?c then _ else _] => destruct c end; eexists; reflexivity.
Qed.
End Exact.

(** *** No bracket for the sign change *)

Lemma bisect_left_root : forall L f, computes f (fun x => x - 1 / 4) ->
  exists n, forall fuel, (n <= fuel)%nat ->
  bisect (F:=XR L) fuel f (Fin 0) (Fin 8) = Ok (Fin (1 - / 2 ^ 40), Fin 1).
Proof.
  intros L f Hf. destruct (bisect_terminates L f _ Hf 0 8) as [n Hn].
  exists n; intros fuel Hfuel. destruct (Hn fuel Hfuel) as [[lo up] E]. rewrite E.
  apply (bisect_spec L f _ Hf) in E; [|right; eauto].
  assert (W : cell_width (l_eps L) 0 (Fin 8) = 1).
  { unfold cell_width. rewrite Rabs_R0, Rmult_0_r. rewrite Rmin_right, Rmax_left; lra. }
  rewrite W in E.
  destruct E as [(E & _)|[(_ & _ & _ & k & E & F)|(_ & k & E)]]; [lra| |].
  - exfalso. destruct k as [|k]; [simpl in E; lra|].
    destruct (F 0%nat ltac:(lia)) as [_ F0]; simpl in F0; lra.
  - cbn zeta in E. destruct E as (E1 & E2 & E3 & E4).
    destruct k as [|k].
    + simpl INR in E4. rewrite Rmult_0_l in E4. destruct E4 as [(z & _ & _ & Z & Hz)|[-> ->]]; [lra|].
      do 3 f_equal; lra.
    + exfalso. pose proof (E3 0%nat ltac:(lia)) as P; simpl in P; lra.
Qed.

Lemma bisect_beyond : forall L f, computes f (fun x => 39 / 4 - x) ->
  exists n, forall fuel, (n <= fuel)%nat -> exists lo up,
  bisect (F:=XR L) fuel f (Fin 0) (Fin (19 / 2)) = Ok (Fin lo, Fin up) /\ 19 / 2 < up.
Proof.
  intros L f Hf. destruct (bisect_terminates L f _ Hf 0 (19 / 2)) as [n Hn].
  exists n; intros fuel Hfuel. destruct (Hn fuel Hfuel) as [[lo up] E]. rewrite E.
  apply (bisect_spec L f _ Hf) in E; [|right; eauto].
  assert (W : cell_width (l_eps L) 0 (Fin (19 / 2)) = 1).
  { unfold cell_width. rewrite Rabs_R0, Rmult_0_r. rewrite Rmin_right, Rmax_left; lra. }
  rewrite W in E.
  destruct E as [(E & _)|[(_ & _ & _ & k & E & F)|(_ & k & E)]]; [lra| |].
  - exfalso. simpl in E.
    assert (K : (9 < k)%nat).
    { destruct (Nat.lt_ge_cases 9 k) as [|C]; [assumption|]. apply le_INR in C. simpl in C. lra. }
    destruct (F 9%nat K) as [_ F0]; simpl in F0; lra.
  - cbn zeta in E. destruct E as (E1 & E2 & E3 & E4). simpl in E1.
    assert (K : (9 <= k)%nat).
    { destruct (Nat.le_gt_cases 9 k) as [|C]; [assumption|].
      assert (D : (k <= 8)%nat) by lia. apply le_INR in D. simpl in D. nra. }
    apply le_INR in K; simpl in K.
    destruct E4 as [(z & -> & -> & Z & Hz)|[-> ->]].
    + exists z, z; split; [reflexivity|]. lra.
    + do 2 eexists; split; [reflexivity|]. lra.
Qed.

(** *** Non-termination on an unbounded window *)

Lemma bisect_scan_forever : forall L d fuel x,
  bisect_scan (F:=XR L) fuel (fun _ => Fin 1) (Fin d) PInf (Fin 1) (Fin 1) (Fin x) = OutOfFuel.
Proof.
  induction fuel as [|fuel IH]; intros x; cbn [bisect_scan]; [reflexivity|].
  xred. rewrite (Rltb_true 0 (1 * 1)) by lra. cbn [andb]. apply IH.
Qed.

Lemma bisect_unbounded_forever : forall L fuel a,
  bisect (F:=XR L) fuel (fun _ => Fin 1) (Fin a) PInf = OutOfFuel.
Proof.
  intros L fuel a. unfold bisect. rewrite bisect_dt_width by (left; reflexivity).
  cbn [neqb XR xeqb nofZ]. rewrite (Reqb_false 1 0) by lra.
  cbn [nadd XR xadd]. rewrite bisect_scan_forever. reflexivity.
Qed.
(** *** Non-termination in floating-point arithmetic, on a finite window *)
Section Float.
Variable lm : libm binary64.
Let one : binary64 := d64 1 0.
Let big : binary64 := d64 1 60.
Let top : binary64 := d64 1 53.

Lemma B2R_one : B2R one = 1.
Proof. vm_compute; lra. Qed.
Lemma B2R_top : B2R top = IZR (2 ^ 53).
Proof. vm_compute; lra. Qed.
Lemma B2R_big : B2R big = IZR (2 ^ 60).
Proof. vm_compute; lra. Qed.
Lemma top_plus_one : B2R (@Bplus 53 1024 Hprec53 Hmax1024 mode_NE top one) = IZR (2 ^ 53).
Proof. vm_compute; lra. Qed.

Lemma round_top : round radix2 (SpecFloat.fexp 53 1024) (round_mode mode_NE) (IZR (2 ^ 53) + 1) = IZR (2 ^ 53).
Proof.
  pose proof (Bplus_correct 53 1024 Hprec53 Hmax1024 mode_NE top one eq_refl eq_refl) as H.
  rewrite B2R_top, B2R_one in H.
  destruct (Rlt_bool_spec (Rabs (round radix2 (SpecFloat.fexp 53 1024) (round_mode mode_NE) (IZR (2 ^ 53) + 1))) (bpow radix2 1024)) as [C|C].
  - destruct H as [H _]. rewrite <- H. apply top_plus_one.
  - exfalso. destruct H as [H _]. revert H. vm_compute. discriminate.
Qed.

Lemma plus_one_stays : forall x : binary64, is_finite x = true -> 0 <= B2R x <= IZR (2 ^ 53) ->
  is_finite (@Bplus 53 1024 Hprec53 Hmax1024 mode_NE x one) = true /\
  0 <= B2R (@Bplus 53 1024 Hprec53 Hmax1024 mode_NE x one) <= IZR (2 ^ 53).
Proof.
  intros x Fx Hx.
  pose proof (Bplus_correct 53 1024 Hprec53 Hmax1024 mode_NE x one Fx eq_refl) as H.
  rewrite B2R_one in H.
  assert (U : round radix2 (SpecFloat.fexp 53 1024) (round_mode mode_NE) (B2R x + 1) <= IZR (2 ^ 53)).
  { rewrite <- round_top. apply round_le; [apply (fexp_correct 53 1024 Hprec53)|apply valid_rnd_round_mode|lra]. }
  assert (D : 0 <= round radix2 (SpecFloat.fexp 53 1024) (round_mode mode_NE) (B2R x + 1)).
  { apply round_ge_generic; [apply (fexp_correct 53 1024 Hprec53)|apply valid_rnd_round_mode|apply generic_format_0|lra]. }
  rewrite Rlt_bool_true in H.
  - destruct H as (H1 & H2 & _). rewrite H1. auto.
  - rewrite Rabs_pos_eq by assumption. apply Rle_lt_trans with (1 := U).
    change (IZR (2 ^ 53)) with (bpow radix2 53). apply bpow_lt; lia.
Qed.

Lemma Bltb_stays : forall x : binary64, is_finite x = true -> 0 <= B2R x <= IZR (2 ^ 53) -> Bltb x big = true.
Proof.
  intros x Fx Hx. rewrite Bltb_correct by auto. apply Rlt_bool_true. rewrite B2R_big.
  apply Rle_lt_trans with (1 := proj2 Hx). apply IZR_lt; reflexivity.
Qed.

Lemma bisect_scan_stuck : forall fuel x, is_finite x = true -> 0 <= B2R x <= IZR (2 ^ 53) ->
  bisect_scan (F:=F64 lm) fuel (fun _ => one) one big one one x = OutOfFuel.
Proof.
  induction fuel as [|fuel IH]; intros x Fx Hx; cbn [bisect_scan]; [reflexivity|].
  replace (nltb (NumOps:=F64 lm) (nofZ (NumOps:=F64 lm) 0) (nmul (NumOps:=F64 lm) one one)) with true by (vm_compute; reflexivity).
  change (nltb (NumOps:=F64 lm) x big) with (Bltb x big).
  rewrite (Bltb_stays x Fx Hx). cbn [andb].
  destruct (plus_one_stays x Fx Hx) as [F1 H1]. exact (IH _ F1 H1).
Qed.

Lemma bisect_dt_one : bisect_dt (F:=F64 lm) (d64 0 0) big = one.
Proof. apply B2SF_inj. vm_compute. reflexivity. Qed.

Lemma bisect_stuck : forall fuel, bisect (F:=F64 lm) fuel (fun _ => one) (d64 0 0) big = OutOfFuel.
Proof.
  intros fuel. unfold bisect. rewrite bisect_dt_one.
  replace (neqb (NumOps:=F64 lm) one (nofZ (NumOps:=F64 lm) 0)) with false by (vm_compute; reflexivity).
  rewrite bisect_scan_stuck; [reflexivity|reflexivity|].
  change (B2R (d64 0 0)) with 0. split; [lra|]. apply IZR_le; discriminate.
Qed.
End Float.
