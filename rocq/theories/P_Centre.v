(** Centre, volume and emptiness of boxes. *)
From Coq Require Import Reals Lra ZArith Lia List Bool.
From Flocq Require Import Core Mult_error BinarySingleNaN.
From Verif Require Import Num XR FL Spec_Random M_Rng P_FL P_Round P_Bounds.
Import ListNotations.
Local Open Scope R_scope.

Section Centre.
Variables prec emax : Z.
Context (Hp : Prec_gt_0 prec) (Hm : Prec_lt_emax prec emax).
Variable lm : libm (binary_float prec emax).
Notation float := (binary_float prec emax).
Notation fe := (SpecFloat.fexp prec emax).
Notation rnd := (round radix2 (SpecFloat.fexp prec emax) ZnearestE).
Notation format := (generic_format radix2 (SpecFloat.fexp prec emax)).
Notation val := (val prec emax).
Notation N := (FL prec emax Hp Hm lm).
Let Hv : Valid_exp fe := fexp_correct prec emax Hp.
Local Existing Instance Hv.

Lemma two_val : val (nofZ (NumOps:=N) 2) 2.
Proof.
  unfold Prec_gt_0 in Hp. unfold Prec_lt_emax in Hm. assert (F : format 2).
  { change 2 with (bpow radix2 1). apply format_big; [exact Hp|]. unfold SpecFloat.emin. lia. }
  pose proof (ofZ_val prec emax Hp Hm lm 2) as V. rewrite (rnd_id _ _ _ F) in V. apply V.
  rewrite Rabs_pos_eq by lra. change 2 with (bpow radix2 1). apply bpow_le. lia.
Qed.
Lemma format_double : forall a, format a -> format (2 * a).
Proof. intros a H. rewrite Rmult_comm. change 2 with (bpow radix2 1). apply mult_bpow_pos_exact_FLT; [exact H|lia]. Qed.

Lemma plus_finite : forall x y a b, val x a -> val y b -> is_finite (nadd (NumOps:=N) x y) = true -> val (nadd (NumOps:=N) x y) (rnd (a + b)).
Proof.
  intros x y a b [X <-] [Y <-] H. pose proof (Bplus_correct prec emax Hp Hm mode_NE x y X Y) as C. cbn [round_mode] in C. cbn [nadd FL] in *.
  destruct (Rlt_bool _ _); [destruct C as (C1 & C2 & _); split; [exact C2|exact C1]|].
  destruct C as (C & _). destruct (Bplus mode_NE x y); cbn in H, C; try discriminate.
Qed.

Lemma middle : forall lo hi : float, real_ends (lo, hi) ->
  (inside (lo, hi) (ndiv (NumOps:=N) (nadd (NumOps:=N) lo hi) (nofZ (NumOps:=N) 2)) <-> is_finite (Bplus mode_NE lo hi) = true).
Proof.
  intros lo hi (A & B & C). cbn [fst snd] in *. pose proof two_val as T2. split.
  - intros [I _]. change (Bplus mode_NE lo hi) with (nadd (NumOps:=N) lo hi). destruct (nadd (NumOps:=N) lo hi) as [s|s| |s m e b] eqn:E; try reflexivity; exfalso;
      destruct T2 as [T2 _]; cbn [ndiv FL] in I; destruct (nofZ (NumOps:=N) 2) as [s2|s2| |s2 m2 e2 b2]; discriminate.
  - intros Fi. pose proof (plus_finite lo hi _ _ (conj A eq_refl) (conj B eq_refl) Fi) as V.
    pose proof (val_format _ _ _ _ (conj A eq_refl : val lo (B2R lo))) as Fl. pose proof (val_format _ _ _ _ (conj B eq_refl : val hi (B2R hi))) as Fh.
    set (a := B2R lo) in *. set (b := B2R hi) in *.
    assert (S1 : 2 * a <= rnd (a + b)) by (rewrite <- (rnd_id prec emax _ (format_double a Fl)) at 1; apply rnd_le; [exact Hp|lra]).
    assert (S2 : rnd (a + b) <= 2 * b) by (rewrite <- (rnd_id prec emax _ (format_double b Fh)) at 1; apply rnd_le; [exact Hp|lra]).
    assert (Bd : Rabs (rnd (a + b) / 2) <= bpow radix2 (emax - 1)).
    { pose proof (val_lt _ _ Hp _ _ V) as K. assert (Eb : bpow radix2 emax = bpow radix2 (emax - 1) * 2) by (change 2 with (bpow radix2 1); rewrite <- bpow_plus; f_equal; lia).
      unfold Rdiv. rewrite Rabs_mult, (Rabs_pos_eq (/ 2)) by lra. lra. }
    pose proof (div_val prec emax Hp Hm lm _ _ _ _ V T2 ltac:(lra) Bd) as [D1 D2]. split; [exact D1|]. cbn [fst snd]. rewrite D2. fold a b. set (m := rnd (a + b) / 2). split.
    + rewrite <- (rnd_id prec emax a Fl). apply rnd_le; [exact Hp|unfold m; lra].
    + rewrite <- (rnd_id prec emax b Fh). apply rnd_le; [exact Hp|unfold m; lra].
Qed.

Lemma centre_inside : forall ends : list (float * float), Forall real_ends ends ->
  (Forall2 inside ends (bounds_center (F:=N) ends) <-> Forall (fun p => is_finite (Bplus mode_NE (fst p) (snd p)) = true) ends).
Proof.
  induction ends as [|[lo hi] ends IH]; intros W; [split; constructor|]. inversion W as [|? ? W1 W2]; subst. specialize (IH W2).
  pose proof (middle lo hi W1) as M. cbn [bounds_center map fst snd].
  split; intros H; inversion H; subst; constructor; try (apply M; assumption); apply IH; assumption.
Qed.
End Centre.

(** ** Exact arithmetic *)
Section Exact.
Context {L : limits}.
Notation X := (XR L).
Notation ends b := (map (fun p => (Fin (fst p), Fin (snd p))) b).

Lemma centre_exact : forall b : list (R * R), exists c, bounds_center (F:=X) (ends b) = map Fin c /\ Forall2 (fun p x => x - fst p = snd p - x) b c.
Proof.
  induction b as [|[l h] b (c & E & H)]; [exists []; split; [reflexivity|constructor]|].
  exists ((l + h) / 2 :: c). split.
  - change (xdiv (Fin (l + h)) (Fin 2) :: bounds_center (F:=X) (ends b) = Fin ((l + h) / 2) :: map Fin c). rewrite E. f_equal. unfold xdiv. destruct (Req_EM_T 2 0); [lra|reflexivity].
  - constructor; [cbn; lra|exact H].
Qed.

Definition product (b : list (R * R)) : R := fold_right (fun p v => (snd p - fst p) * v) 1 b.
Lemma volume_from : forall (b : list (R * R)) a, fold_left (fun v q => nmul (NumOps:=X) v (nsub (NumOps:=X) (snd q) (fst q))) (ends b) (Fin a) = Fin (a * product b).
Proof.
  induction b as [|[l h] b IH]; intros a; [cbn; f_equal; ring|]. cbn [map fold_left fst snd product fold_right].
  change (nmul (NumOps:=X) (Fin a) (nsub (NumOps:=X) (Fin h) (Fin l))) with (Fin (a * (h - l))). rewrite IH. f_equal. unfold product. ring.
Qed.
Lemma volume_exact : forall b : list (R * R), bounds_volume (F:=X) (ends b) = Fin (product b).
Proof. intros b. unfold bounds_volume. change (nofZ (NumOps:=X) 1) with (Fin 1). rewrite volume_from. f_equal. ring. Qed.
Lemma product_nonneg : forall b, Forall (fun p => fst p <= snd p) b -> 0 <= product b.
Proof. induction 1; cbn; [lra|]. apply Rmult_le_pos; [lra|assumption]. Qed.
Lemma product_pos : forall b, Forall (fun p => fst p < snd p) b -> 0 < product b.
Proof. induction 1; cbn; [lra|]. apply Rmult_lt_0_compat; [lra|assumption]. Qed.
Lemma product_zero : forall b, product b <> 0 -> Forall (fun p => fst p <= snd p) b -> Forall (fun p => fst p < snd p) b.
Proof.
  induction b as [|[l h] b IH]; intros P W; [constructor|]. inversion W; subst. cbn in *. fold (product b) in P. constructor.
  - assert (l <> h) by (intros ->; apply P; ring). cbn. lra.
  - apply IH; [intros Z; apply P; rewrite Z; ring|assumption].
Qed.

Lemma empty_exact : forall b : list (R * R), Forall (fun p => fst p <= snd p) b ->
  (bounds_empty (F:=X) (ends b) = true <-> ~ exists x, Forall2 (fun p y => fst p < y < snd p) b x).
Proof.
  intros b W. unfold bounds_empty. change (nleb (NumOps:=X)) with xleb. change (nofZ (NumOps:=X) 0) with (Fin 0). change (@num X) with xr in *. rewrite volume_exact. cbn [xleb].
  pose proof (product_nonneg b W) as N. split.
  - intros H (x & I). apply Rleb_iff in H.
    assert (S : Forall (fun p => fst p < snd p) b) by (clear -I; induction I; constructor; [lra|assumption]). apply product_pos in S. lra.
  - intros H. apply Rleb_iff. apply Rnot_lt_le. intros P. apply H. pose proof (product_zero b ltac:(lra) W) as S. clear -S.
    induction S as [|p b K S (x & I)]; [exists []; constructor|]. exists ((fst p + snd p) / 2 :: x). constructor; [lra|exact I].
Qed.
End Exact.

(** ** Failures *)
Lemma backwards : forall L : limits, exists b : list (R * R), bounds_empty (F:=XR L) (map (fun p => (Fin (fst p), Fin (snd p))) b) = false /\
  ~ exists x, Forall2 (fun p y => fst p <= y <= snd p) b x.
Proof.
  intros L. exists [(1, 0); (1, 0)]. split.
  - unfold bounds_empty. change (nleb (NumOps:=XR L)) with xleb. change (@num (XR L)) with xr in *. rewrite volume_exact. cbn. apply Rleb_false. lra.
  - intros (x & I). inversion I; subst. cbn in *. lra.
Qed.

Definition far_box : list (binary64 * binary64) := [(d64 1 1023, d64 1 1023)].
Lemma far_centre : forall lm, Forall real_ends far_box /\ ~ Forall2 inside far_box (bounds_center (F:=F64 lm) far_box) /\
  contains_vec (F:=F64 lm) far_box (bounds_center (F:=F64 lm) far_box) = false.
Proof.
  intros lm. assert (W : Forall real_ends far_box) by (apply Forall_cons; [apply real_ends_check; vm_compute; reflexivity|apply Forall_nil]).
  split; [exact W|]. split; [|vm_compute; reflexivity]. pose proof (centre_inside 53 1024 Hprec53 Hmax1024 lm far_box W) as C. intros K. apply C in K.
  inversion K as [|? ? H _]; subst. vm_compute in H. discriminate.
Qed.

Definition tiny_box : list (binary64 * binary64) := [(d64 0 0, d64 1 (-600)); (d64 0 0, d64 1 (-600))].
Lemma tiny_empty : forall lm, bounds_empty (F:=F64 lm) tiny_box = true /\
  exists v, contains_vec (F:=F64 lm) tiny_box v = true /\ Forall2 (fun p x => B2R (fst p) < B2R x < B2R (snd p)) tiny_box v.
Proof.
  intros lm. split; [vm_compute; reflexivity|]. exists [d64 1 (-601); d64 1 (-601)]. split; [vm_compute; reflexivity|].
  assert (Lt : forall x y : binary64, is_finite x = true -> is_finite y = true -> Bltb x y = true -> B2R x < B2R y).
  { intros x y Fx Fy H. rewrite Bltb_correct in H by assumption. destruct (Rlt_bool_spec (B2R x) (B2R y)); [assumption|discriminate]. }
  assert (E : B2R (d64 0 0) < B2R (d64 1 (-601)) < B2R (d64 1 (-600))) by (split; apply Lt; vm_compute; reflexivity).
  unfold tiny_box. repeat constructor; exact (proj1 E) || exact (proj2 E).
Qed.
Lemma centre_case : Forall real_ends unit_box /\ Forall (fun p : binary64 * binary64 => is_finite (Bplus (prec_gt_0_:=Hprec53) (prec_lt_emax_:=Hmax1024) mode_NE (fst p) (snd p)) = true) unit_box.
Proof. split; [exact (proj1 unit_box_ok)|]. repeat (apply Forall_cons || apply Forall_nil); vm_compute; reflexivity. Qed.

Lemma far_centre_refuted : forall lm, exists box : list (binary64 * binary64), Forall real_ends box /\
  ~ Forall2 inside box (bounds_center (F:=F64 lm) box) /\ contains_vec (F:=F64 lm) box (bounds_center (F:=F64 lm) box) = false.
Proof. intros lm. exists far_box. apply far_centre. Qed.
Lemma tiny_refuted : forall lm, exists (box : list (binary64 * binary64)) v, bounds_empty (F:=F64 lm) box = true /\
  contains_vec (F:=F64 lm) box v = true /\ Forall2 (fun p x => B2R (fst p) < B2R x < B2R (snd p)) box v.
Proof. intros lm. destruct (tiny_empty lm) as (E & v & C & H). exists tiny_box, v. auto. Qed.
