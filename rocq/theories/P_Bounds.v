(** Uniform draws and boxes in floating-point arithmetic. *)
From Coq Require Import Reals Lra ZArith Lia List Bool.
From Flocq Require Import Core Plus_error BinarySingleNaN.
From Verif Require Import Num XR FL Spec_Random M_Vec M_Rng M_Materials P_FL P_Round P_Rng P_Period P_Equi P_Lambert P_Double.
Import ListNotations.
Local Open Scope R_scope.

Section Bounds.
Variables prec emax : Z.
Context (Hp : Prec_gt_0 prec) (Hm : Prec_lt_emax prec emax).
Variable lm : libm (binary_float prec emax).
Notation float := (binary_float prec emax).
Notation fe := (SpecFloat.fexp prec emax).
Notation rnd := (round radix2 (SpecFloat.fexp prec emax) ZnearestE).
Notation format := (generic_format radix2 (SpecFloat.fexp prec emax)).
Notation val := (val prec emax).
Notation N := (FL prec emax Hp Hm lm).
Notation b2 := (bpow radix2).

Let Hv : Valid_exp fe := fexp_correct prec emax Hp.
Local Existing Instance Hv.

Lemma mult_val_fin : forall x y a b, val x a -> val y b -> Rabs (rnd (a * b)) < b2 emax -> val (nmul (NumOps:=N) x y) (rnd (a * b)).
Proof.
  intros x y a b [X <-] [Y <-] H. pose proof (Bmult_correct prec emax Hp Hm mode_NE x y) as C.
  cbn [round_mode] in C. rewrite (Rlt_bool_true _ _ H) in C. destruct C as (C1 & C2 & _). split; [|exact C1]. cbn [nmul FL]. rewrite C2, X, Y. reflexivity.
Qed.
Lemma plus_val_fin : forall x y a b, val x a -> val y b -> Rabs (rnd (a + b)) < b2 emax -> val (nadd (NumOps:=N) x y) (rnd (a + b)).
Proof.
  intros x y a b [X <-] [Y <-] H. pose proof (Bplus_correct prec emax Hp Hm mode_NE x y X Y) as C.
  cbn [round_mode] in C. rewrite (Rlt_bool_true _ _ H) in C. destruct C as (C1 & C2 & _). split; [exact C2|exact C1].
Qed.
Lemma minus_finite : forall x y a b, val x a -> val y b -> is_finite (nsub (NumOps:=N) x y) = true -> val (nsub (NumOps:=N) x y) (rnd (a - b)).
Proof.
  intros x y a b [X <-] [Y <-] H. pose proof (Bminus_correct prec emax Hp Hm mode_NE x y X Y) as C. cbn [round_mode] in C. cbn [nsub FL] in *.
  destruct (Rlt_bool _ _); [destruct C as (C1 & C2 & _); split; [exact C2|exact C1]|].
  destruct C as (C & _). destruct (Bminus mode_NE x y); cbn in H, C; try discriminate.
Qed.
Lemma val_lt : forall x a, val x a -> Rabs a < b2 emax.
Proof. intros x a V. pose proof (val_bound prec emax Hp x a V). pose proof (bpow_gt_0 radix2 (emax - prec)). lra. Qed.

Lemma format_1 : format 1.
Proof.
  change 1 with (b2 0). apply format_big; [exact Hp|]. unfold SpecFloat.emin. unfold Prec_gt_0 in Hp. unfold Prec_lt_emax in Hm. lia.
Qed.

(* a draw below 1 is at most 1 - 2^-prec *)
Lemma below_one : forall r, format r -> r < 1 -> r <= 1 - b2 (- prec).
Proof.
  intros r F H. pose proof (pred_ge_gt radix2 fe r 1 F format_1 H) as P. eapply Rle_trans; [exact P|].
  rewrite pred_eq_pos by lra. unfold pred_pos. rewrite (mag_unique radix2 1 1) by (rewrite Rabs_pos_eq by lra; cbn; lra).
  cbn [Z.sub Z.add Z.opp Z.pos_sub]. rewrite Req_bool_true by reflexivity.
  apply Rplus_le_compat_l, Ropp_le_contravar, bpow_le. unfold SpecFloat.fexp. lia.
Qed.

(* scaling down a normal number by less than one lowers it *)
Lemma scaled_pred : forall r D, format r -> 0 <= r < 1 -> format D -> b2 (SpecFloat.emin prec emax + prec) <= D -> rnd (r * D) <= pred radix2 fe D.
Proof.
  intros r D Fr Hr FD HD. pose proof (below_one r Fr ltac:(lra)) as B. pose proof (bpow_gt_0 radix2 (SpecFloat.emin prec emax + prec)) as P0.
  assert (D0 : 0 < D) by lra. destruct (mag radix2 D) as [m M]. cbn in *. specialize (M ltac:(lra)). rewrite Rabs_pos_eq in M by lra.
  assert (Em : (SpecFloat.emin prec emax + prec + 1 <= m)%Z).
  { assert (SpecFloat.emin prec emax + prec < m)%Z by (apply (lt_bpow radix2); lra). lia. }
  assert (MD : mag radix2 D = m :> Z) by (apply mag_unique; rewrite Rabs_pos_eq by lra; exact M).
  assert (L : r * D <= D - b2 (- prec) * D) by nra.
  assert (FP : format (pred radix2 fe D)) by (apply generic_format_pred; auto).
  assert (PE : pred radix2 fe D = if Req_bool D (b2 (m - 1)) then D - b2 (m - 1 - prec) else D - b2 (m - prec)).
  { rewrite pred_eq_pos by lra. unfold pred_pos. rewrite MD. destruct (Req_bool D (b2 (m - 1))).
    - unfold SpecFloat.fexp. rewrite Z.max_l by lia. reflexivity.
    - rewrite ulp_neq_0 by lra. unfold cexp. rewrite MD. unfold SpecFloat.fexp. rewrite Z.max_l by lia. reflexivity. }
  destruct (Req_bool_spec D (b2 (m - 1))) as [E|E].
  - assert (E2 : b2 (- prec) * D = b2 (m - 1 - prec)) by (rewrite E, <- bpow_plus; f_equal; lia).
    rewrite <- (rnd_id prec emax (pred radix2 fe D) FP). apply rnd_le; [exact Hp|]. rewrite PE, <- E2. exact L.
  - apply round_N_le_midp; auto. rewrite succ_pred by auto. rewrite PE.
    assert (E2 : b2 (- prec) * b2 (m - 1) = b2 (m - 1 - prec)) by (rewrite <- bpow_plus; f_equal; lia).
    assert (E3 : b2 (m - prec) = 2 * b2 (m - 1 - prec)) by (change 2 with (b2 1); rewrite <- bpow_plus; f_equal; lia).
    assert (b2 (m - 1) < D) by (destruct M as [[M1|M1] _]; [exact M1|congruence]). pose proof (bpow_gt_0 radix2 (- prec)). nra.
Qed.

(** ** One coordinate of random() *)
Lemma coordinate : forall (lo hi u : float) l h r, val lo l -> val hi h -> l <= h -> val u r -> 0 <= r < 1 ->
  is_finite (nsub (NumOps:=N) hi lo) = true ->
  exists x, val (nadd (NumOps:=N) (nmul (NumOps:=N) u (nsub (NumOps:=N) hi lo)) lo) x /\ l <= x <= h.
Proof.
  intros lo hi u l h r Vl Vh Hl Vu Hr Fin. pose proof (minus_finite _ _ _ _ Vh Vl Fin) as VD. set (D := rnd (h - l)) in *.
  pose proof (val_format _ _ _ _ Vl) as Fl. pose proof (val_format _ _ _ _ Vh) as Fh. pose proof (val_format _ _ _ _ Vu) as Fu.
  pose proof (val_format _ _ _ _ VD) as FD. pose proof (val_lt _ _ VD) as BD.
  assert (D0 : 0 <= D) by (unfold D; rewrite <- (round_0 radix2 fe ZnearestE); apply rnd_le; [exact Hp|lra]).
  assert (P0 : 0 <= rnd (r * D)) by (rewrite <- (round_0 radix2 fe ZnearestE); apply rnd_le; [exact Hp|nra]).
  assert (PD : rnd (r * D) <= D) by (rewrite <- (rnd_id prec emax D FD) at 2; apply rnd_le; [exact Hp|nra]).
  assert (PW : rnd (r * D) <= h - l).
  { destruct (Rle_lt_dec D (h - l)) as [C|C]; [lra|].
    assert (NF : b2 (SpecFloat.emin prec emax + prec) <= h - l).
    { destruct (Rle_lt_dec (b2 (SpecFloat.emin prec emax + prec)) (h - l)) as [K|K]; [exact K|]. exfalso.
      assert (format (h - l)).
      { change fe with (FLT_exp (SpecFloat.emin prec emax) prec). unfold Rminus. apply FLT_format_plus_small; [exact Hp|exact Fh|apply generic_format_opp; exact Fl|].
        change (h + - l) with (h - l). rewrite Rabs_pos_eq by lra. rewrite Z.add_comm. lra. }
      unfold D in C. rewrite rnd_id in C by assumption. lra. }
    apply Rle_trans with (pred radix2 fe D); [apply scaled_pred; auto; lra|].
    apply Rnot_lt_le. intros K. assert (D <= pred radix2 fe D).
    { unfold D at 1. rewrite <- (rnd_id prec emax (pred radix2 fe D)) by (apply generic_format_pred; auto). apply rnd_le; [exact Hp|lra]. }
    assert (pred radix2 fe D < D) by (apply pred_lt_id; lra). lra. }
  rewrite Rabs_pos_eq in BD by lra.
  pose proof (mult_val_fin _ _ _ _ Vu VD ltac:(rewrite Rabs_pos_eq; lra)) as VP.
  assert (X : l <= rnd (rnd (r * D) + l) <= h).
  { split.
    - rewrite <- (rnd_id prec emax l Fl) at 1. apply rnd_le; [exact Hp|lra].
    - rewrite <- (rnd_id prec emax h Fh) at 1. apply rnd_le; [exact Hp|lra]. }
  exists (rnd (rnd (r * D) + l)). split; [|exact X]. apply plus_val_fin; auto.
  pose proof (val_lt _ _ Vl) as Bl. pose proof (val_lt _ _ Vh) as Bh. apply Rabs_lt_inv in Bl, Bh. apply Rabs_lt. lra.
Qed.

Lemma coordinate_infinite : forall lo d u : float, is_finite lo = true -> is_finite u = true -> is_finite d = false ->
  is_finite (nadd (NumOps:=N) (nmul (NumOps:=N) u d) lo) = false.
Proof.
  intros lo d u L U D. cbn [nadd nmul FL]. destruct d as [s|s| |s m e b]; try discriminate; destruct u as [su|su| |su mu eu bu]; try discriminate;
    destruct lo as [sl|sl| |sl ml el bl]; try discriminate; reflexivity.
Qed.

(** ** The whole point *)
Lemma random_inside : (forall g, exists r, val (fst (pcg_real_01 (F:=N) g)) r /\ 0 <= r) ->
  forall ends g, Forall real_ends ends ->
  (forall k, (k < length ends)%nat -> B2R (fst (pcg_real_01 (F:=N) (Nat.iter k pcg_next g))) < 1) ->
  (Forall2 inside ends (fst (random_point (F:=N) ends g)) <-> Forall (finite_width (Hp:=Hp) (Hm:=Hm)) ends).
Proof.
  intros Dr. induction ends as [|[lo hi] ends IH]; intros g W U.
  - split; constructor.
  - inversion W as [|? ? W1 W2]; subst. assert (U0 := U O ltac:(cbn; lia)). change (B2R (fst (pcg_real_01 (F:=N) g)) < 1) in U0.
    specialize (IH (pcg_next g) W2). assert (IH' := IH). clear IH. rename IH' into IH.
    assert (IHU : forall k, (k < length ends)%nat -> B2R (fst (pcg_real_01 (F:=N) (Nat.iter k pcg_next (pcg_next g)))) < 1).
    { intros k K. rewrite iter_shift. apply U. cbn. lia. }
    specialize (IH IHU). clear U IHU. destruct (Dr g) as (r & V & R0). cbn [random_point].
    assert (G : snd (pcg_real_01 (F:=N) g) = pcg_next g) by reflexivity.
    destruct (pcg_real_01 (F:=N) g) as [u g1]. cbn [fst snd] in *. subst g1.
    destruct (random_point (F:=N) ends (pcg_next g)) as [v g2]. cbn [fst] in *.
    destruct W1 as (A & B & C). cbn [fst snd] in *.
    destruct V as [Vf Vr]. rewrite Vr in U0.
    assert (Here : inside (lo, hi) (nadd (NumOps:=N) (nmul (NumOps:=N) u (nsub (NumOps:=N) hi lo)) lo) <-> finite_width (Hp:=Hp) (Hm:=Hm) (lo, hi)).
    { split.
      - intros [I _]. unfold finite_width. cbn [fst snd]. change (Bminus mode_NE hi lo) with (nsub (NumOps:=N) hi lo). destruct (is_finite (nsub (NumOps:=N) hi lo)) eqn:E; [reflexivity|].
        rewrite (coordinate_infinite lo _ u A Vf E) in I. discriminate.
      - intros NO. unfold finite_width in NO. cbn [fst snd] in NO.
        destruct (coordinate lo hi u (B2R lo) (B2R hi) r (conj A eq_refl) (conj B eq_refl) C (conj Vf Vr) ltac:(lra) NO) as (x & [X1 X2] & X3).
        split; [exact X1|]. cbn [fst snd]. rewrite X2. exact X3. }
    split; intros H; inversion H; subst; constructor; try (apply Here; assumption); apply IH; assumption.
Qed.

(** ** contains *)
Lemma contains_vec_exact : forall ends v, length v = length ends ->
  Forall (fun p => is_nan (fst p) = false /\ is_nan (snd p) = false) ends -> Forall (fun x => is_nan x = false) v ->
  (contains_vec (F:=N) ends v = true <-> Forall2 (fun p x => le_float (fst p) x /\ le_float x (snd p)) ends v).
Proof.
  induction ends as [|[lo hi] ends IH]; intros [|x v] H A B; try discriminate.
  - split; constructor.
  - inversion A as [|? ? [A1 A2] A3]; inversion B as [|? ? B1 B2]; subst. cbn [fst snd] in *. injection H as H. specialize (IH v H A3 B2).
    cbn [contains_vec nltb FL].
    assert (Lo : Bltb x lo = false <-> le_float lo x).
    { unfold Bltb, SpecFloat.SFltb, le_float. rewrite (Bcompare_swap _ _ x lo). change (SpecFloat.SFcompare (B2SF x) (B2SF lo)) with (Bcompare x lo).
      rewrite (Bcompare_swap _ _ lo x).
      assert (Bcompare lo x <> None). { destruct x as [|[]| |[]], lo as [|[]| |[]]; try discriminate. }
      destruct (Bcompare lo x) as [[]|]; cbn; split; intros; auto; try discriminate; try contradiction; congruence. }
    assert (Hi : Bltb hi x = false <-> le_float x hi).
    { unfold Bltb, SpecFloat.SFltb, le_float. change (SpecFloat.SFcompare (B2SF hi) (B2SF x)) with (Bcompare hi x).
      rewrite (Bcompare_swap _ _ x hi).
      assert (Bcompare x hi <> None). { destruct x as [|[]| |[]], hi as [|[]| |[]]; try discriminate. }
      destruct (Bcompare x hi) as [[]|]; cbn; split; intros; auto; try discriminate; try contradiction; congruence. }
    destruct (Bltb x lo), (Bltb hi x); cbn [orb].
    1-3: split; [discriminate|]; intros F; inversion F as [|? ? ? ? [F1 F2] F3]; subst; cbn [fst snd] in *; apply Lo in F1; apply Hi in F2; discriminate.
    rewrite IH. split; intros F.
    + constructor; [split; [apply Lo|apply Hi]; reflexivity|exact F].
    + inversion F; assumption.
Qed.
End Bounds.

(** ** Double *)
Lemma draw_double : forall lm g, val 53 1024 (fst (pcg_real_01 (F:=F64 lm) g)) (draw g) /\ 0 <= draw g < 1.
Proof. intros lm g. split; [apply draw64|apply draw_range]. Qed.

Lemma random_inside_double : forall lm (ends : list (binary64 * binary64)) g, Forall real_ends ends ->
  (Forall2 (inside) ends (fst (random_point (F:=F64 lm) ends g)) <-> Forall (finite_width (Hp:=Hprec53) (Hm:=Hmax1024)) ends).
Proof.
  intros lm ends g H. apply (random_inside 53 1024 Hprec53 Hmax1024 lm).
  - intros h. destruct (draw_double lm h) as [V D]. exists (draw h). split; [exact V|apply D].
  - exact H.
  - intros k _. destruct (draw_double lm (Nat.iter k pcg_next g)) as [[_ V] D]. change (B2R (fst (pcg_real_01 (F:=F64 lm) (Nat.iter k pcg_next g))) < 1). rewrite V. apply D.
Qed.

(** ** Float *)
Notation rnd32 := (round radix2 (SpecFloat.fexp 24 128) ZnearestE).
Lemma pow32_val : forall lm, val 24 128 (nofZ (NumOps:=F32 lm) (2 ^ 32)) (IZR (2 ^ 32)).
Proof.
  intros lm. assert (F : generic_format radix2 (SpecFloat.fexp 24 128) (IZR (2 ^ 32))).
  { change (IZR (2 ^ 32)) with (bpow radix2 32). apply format_big; [reflexivity|]. unfold SpecFloat.emin. lia. }
  pose proof (ofZ_val 24 128 Hprec24 Hmax128 lm (2 ^ 32)) as V. rewrite (rnd_id _ _ _ F) in V. apply V.
  rewrite Rabs_pos_eq by (apply IZR_le; lia). change (IZR (2 ^ 32)) with (bpow radix2 32). apply bpow_le. lia.
Qed.
Lemma draw_float : forall lm g, exists r, val 24 128 (fst (pcg_real_01 (F:=F32 lm) g)) r /\ 0 <= r <= 1.
Proof.
  intros lm g. pose proof (pcg_output_range (pc_state g)) as O. unfold pcg_real_01, pcg32_random_r. cbn [fst].
  set (o := pcg_output (pc_state g)) in *.
  assert (P : 0 < IZR (2 ^ 32)) by (apply IZR_lt; reflexivity).
  assert (F : generic_format radix2 (SpecFloat.fexp 24 128) (IZR (2 ^ 32))) by (destruct (pow32_val lm) as [_ <-]; apply generic_format_B2R).
  assert (V : val 24 128 (nofZ (NumOps:=F32 lm) o) (rnd32 (IZR o))).
  { apply (ofZ_val 24 128 Hprec24 Hmax128 lm). rewrite Rabs_pos_eq by (apply IZR_le; lia).
    apply Rle_trans with (IZR (2 ^ 32)); [apply IZR_le; lia|]. change (IZR (2 ^ 32)) with (bpow radix2 32). apply bpow_le. lia. }
  assert (B : 0 <= rnd32 (IZR o) <= IZR (2 ^ 32)).
  { split.
    - rewrite <- (round_0 radix2 (SpecFloat.fexp 24 128) ZnearestE). apply rnd_le; [reflexivity|]. apply IZR_le. lia.
    - rewrite <- (rnd_id 24 128 (IZR (2 ^ 32)) F). apply rnd_le; [reflexivity|]. apply IZR_le. lia. }
  set (a := rnd32 (IZR o)) in *.
  assert (Q : 0 <= a / IZR (2 ^ 32) <= 1).
  { split; [apply Rmult_le_pos; [apply B|apply Rlt_le, Rinv_0_lt_compat; exact P]|].
    apply Rmult_le_reg_r with (IZR (2 ^ 32)); [exact P|]. unfold Rdiv. rewrite Rmult_assoc, Rinv_l by lra. lra. }
  exists (rnd32 (a / IZR (2 ^ 32))). split.
  - apply (div_val 24 128 Hprec24 Hmax128 lm _ _ _ _ V (pow32_val lm)); [lra|]. rewrite Rabs_pos_eq by apply Q.
    apply Rle_trans with 1; [apply Q|]. change 1 with (bpow radix2 0). apply bpow_le. lia.
  - split.
    + rewrite <- (round_0 radix2 (SpecFloat.fexp 24 128) ZnearestE). apply rnd_le; [reflexivity|apply Q].
    + rewrite <- (rnd_id 24 128 1 (format_1 24 128 Hprec24 Hmax128)). apply rnd_le; [reflexivity|apply Q].
Qed.

Lemma random_inside_float : forall lm (ends : list (binary32 * binary32)) g, Forall real_ends ends ->
  (forall k, (k < length ends)%nat -> B2R (fst (pcg_real_01 (F:=F32 lm) (Nat.iter k pcg_next g))) < 1) ->
  (Forall2 (inside) ends (fst (random_point (F:=F32 lm) ends g)) <-> Forall (finite_width (Hp:=Hprec24) (Hm:=Hmax128)) ends).
Proof.
  intros lm ends g H U. apply (random_inside 24 128 Hprec24 Hmax128 lm); auto.
  intros h. destruct (draw_float lm h) as (r & V & D). exists r. split; [exact V|apply D].
Qed.

(** the state whose output is 2^32-1 *)
Definition top_state : Z := (2 ^ 59 - 2 ^ 41)%Z.
Lemma top_word : word64 top_state.
Proof. unfold word64, top_state. lia. Qed.
Lemma top_draw : forall lm i, fst (pcg_real_01 (F:=F32 lm) (PCG top_state i)) = d32 1 0.
Proof. intros lm i. apply B2SF_inj. vm_compute. reflexivity. Qed.
Lemma float_one : forall lm g, word64 (pc_state g) ->
  exists n, fst (pcg_real_01 (F:=F32 lm) (Nat.iter n pcg_next g)) = d32 1 0.
Proof.
  intros lm g W. destruct (pcg_full_period g W) as (R & _). destruct (R _ top_word) as (n & _ & E). exists n.
  destruct (Nat.iter n pcg_next g) as [s i]. cbn [pc_state] in E. subst s. apply top_draw.
Qed.
Lemma B2R_one32 : B2R (d32 1 0) = 1.
Proof. vm_compute. lra. Qed.

Lemma real_ends_check : forall prec emax (p : binary_float prec emax * binary_float prec emax),
  is_finite (fst p) = true -> is_finite (snd p) = true -> Bleb (fst p) (snd p) = true -> real_ends p.
Proof.
  intros prec emax [a b] A B H. cbn [fst snd] in *. split; [exact A|]. split; [exact B|]. rewrite Bleb_correct in H by auto. cbn [fst snd].
  destruct (Rle_bool_spec (B2R a) (B2R b)); [assumption|discriminate].
Qed.

(** random() leaves its bounds *)
Definition float_box : list (binary32 * binary32) := [(d32 (-1) 0, d32 3 (-25))].
Lemma float_escape : forall lm g, word64 (pc_state g) -> exists n,
  contains_vec (F:=F32 lm) float_box (fst (random_point (F:=F32 lm) float_box (Nat.iter n pcg_next g))) = false.
Proof.
  intros lm g W. destruct (float_one lm g W) as (n & E). exists n. unfold float_box. cbn [random_point].
  change (pcg_real_01 (F:=F32 lm) (Nat.iter n pcg_next g)) with (fst (pcg_real_01 (F:=F32 lm) (Nat.iter n pcg_next g)), pcg_next (Nat.iter n pcg_next g)).
  change (@num (F32 lm)) with binary32 in *. rewrite E. cbv iota beta. cbn [fst]. vm_compute. reflexivity.
Qed.
Lemma float_box_real : Forall real_ends float_box /\ Forall (finite_width (Hp:=Hprec24) (Hm:=Hmax128)) float_box.
Proof.
  split; repeat (apply Forall_cons || apply Forall_nil); try (apply real_ends_check; vm_compute; reflexivity); vm_compute; reflexivity.
Qed.

(** overflow of the width *)
Definition wide_box : list (binary64 * binary64) := [(d64 (-1) 1023, d64 1 1023)].
Lemma wide_escape : forall lm g, Forall real_ends wide_box /\
  ~ Forall2 (inside) wide_box (fst (random_point (F:=F64 lm) wide_box g)).
Proof.
  intros lm g. assert (W : Forall real_ends wide_box).
  { apply Forall_cons; [apply real_ends_check; vm_compute; reflexivity|apply Forall_nil]. }
  split; [exact W|]. rewrite (random_inside_double lm _ g W). intros F. inversion F as [|? ? H _]; subst. vm_compute in H. discriminate.
Qed.

Definition unit_box : list (binary64 * binary64) := [(d64 0 0, d64 1 0); (d64 (-1) 0, d64 1 (-3))].
Lemma unit_box_ok : Forall real_ends unit_box /\ Forall (finite_width (Hp:=Hprec53) (Hm:=Hmax1024)) unit_box.
Proof.
  split; repeat (apply Forall_cons || apply Forall_nil); try (apply real_ends_check; vm_compute; reflexivity); vm_compute; reflexivity.
Qed.

(** ** The other overloads of contains *)
Lemma xy_wrong : forall L : limits, exists b0 b1 : xr * xr, exists x y,
  contains_xy (F:=XR L) b0 b1 x y = true /\ b1 = (Fin 0, Fin 1) /\ y = Fin 5.
Proof.
  intros L. exists (Fin 0, Fin 1), (Fin 0, Fin 1), (Fin 0), (Fin 5). split; [|auto].
  unfold contains_xy. cbn [nltb XR fst snd xltb]. rewrite !Rltb_false by lra. reflexivity.
Qed.
Lemma xy_misses : forall L : limits, exists b0 b1 : xr * xr, exists x y,
  contains_xy (F:=XR L) b0 b1 x y = false /\ b0 = (Fin 0, Fin 9) /\ b1 = (Fin 0, Fin 1) /\ x = Fin 5 /\ y = Fin 0.
Proof.
  intros L. exists (Fin 0, Fin 9), (Fin 0, Fin 1), (Fin 5), (Fin 0). split; [|auto 6].
  unfold contains_xy. cbn [nltb XR fst snd xltb]. rewrite (Rltb_false 5 0), (Rltb_false 9 5), (Rltb_true 1 5) by lra. rewrite orb_true_r. reflexivity.
Qed.
Lemma xyz_wrong : forall L : limits, exists b0 b1 b2 : xr * xr, exists x y z,
  contains_xyz (F:=XR L) b0 b1 b2 x y z = true /\ b1 = (Fin 0, Fin 1) /\ y = Fin 5.
Proof.
  intros L. exists (Fin 0, Fin 1), (Fin 0, Fin 1), (Fin 0, Fin 1), (Fin 0), (Fin 5), (Fin 0). split; [|auto].
  unfold contains_xyz. cbn [nltb XR fst snd xltb]. rewrite !Rltb_false by lra. reflexivity.
Qed.
Lemma nan_contained : forall lm, contains_vec (F:=F64 lm) [(d64 0 0, d64 1 0)] [B754_nan] = true.
Proof. intros lm. vm_compute. reflexivity. Qed.

(* the two overloads agree with the vector one when x and y are on the same side of the
   upper end of the second pair *)
Lemma xy_agrees : forall (F : NumOps) b0 b1 (x y : @num F), nltb (snd b1) x = nltb (snd b1) y -> contains_xy b0 b1 x y = contains_vec [b0; b1] [x; y].
Proof.
  intros F [a b] [c d] x y H. unfold contains_xy, contains_vec. cbn [fst snd] in *. rewrite H. reflexivity.
Qed.
Lemma xyz_agrees : forall (F : NumOps) b0 b1 b2 (x y z : @num F), nltb (snd b1) x = nltb (snd b1) y ->
  contains_xyz b0 b1 b2 x y z = contains_vec [b0; b1; b2] [x; y; z].
Proof.
  intros F [a b] [c d] [e f] x y z H. unfold contains_xyz, contains_vec. cbn [fst snd] in *. rewrite H. reflexivity.
Qed.

(** ** Every output occurs equally often *)
Lemma each_output : forall i v, (0 <= v < 2 ^ 32)%Z ->
  total (map (fun x => if Z.eqb (fst (pcg32_random_r (PCG x i))) v then 1%Z else 0%Z) (words (2 ^ 64))) = (2 ^ 32)%Z.
Proof.
  intros i v V. etransitivity; [exact (output_equidistributed (fun o => if Z.eqb o v then 1 else 0)%Z)|].
  assert (G : forall n w, (0 <= w < Z.of_nat n)%Z -> total (map (fun o => if Z.eqb o w then 1 else 0)%Z (map Z.of_nat (seq 0 n))) = 1%Z).
  { induction n as [|n IH]; intros w W; [lia|]. rewrite seq_S, !map_app, total_app. cbn [map total Nat.add].
    destruct (Z.eqb_spec (Z.of_nat n) w) as [E|E].
    - assert (Z : forall m, (m <= n)%nat -> total (map (fun o => if Z.eqb o w then 1 else 0)%Z (map Z.of_nat (seq 0 m))) = 0%Z).
      { induction m as [|m IHm]; intros M; [reflexivity|]. rewrite seq_S, !map_app, total_app. cbn [map total Nat.add]. rewrite IHm by lia.
        destruct (Z.eqb_spec (Z.of_nat m) w); lia. }
      rewrite (Z n) by lia. lia.
    - rewrite IH by lia. lia. }
  assert (Q : total (map (fun o => if Z.eqb o v then 1 else 0)%Z (words (2 ^ 32))) = 1%Z); [|rewrite Q; ring].
  Transparent words. unfold words. generalize (2 ^ 32)%Z V. intros N VN. apply G. lia.
Qed.
