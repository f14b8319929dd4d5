(** The file names of the frames of ellipsoid_curvature.cpp. *)
From Coq Require Import String Ascii ZArith Lia List Decimal DecimalString DecimalFacts DecimalZ DecimalPos.
From Verif Require Import M_Image M_Programs P_Picture.
Local Open Scope string_scope.

Lemma app_cancel_r : forall c a b : string, (a ++ c)%string = (b ++ c)%string -> a = b.
Proof.
  intros c a. induction a as [|x a IH]; intros b E.
  - destruct b as [|y b]; [reflexivity|]. apply (f_equal String.length) in E. rewrite !append_length in E. cbn in E. lia.
  - destruct b as [|y b].
    + apply (f_equal String.length) in E. rewrite !append_length in E. cbn in E. lia.
    + cbn in E. injection E as -> E. rewrite (IH b E). reflexivity.
Qed.
Lemma app_cancel_l : forall c a b : string, (c ++ a)%string = (c ++ b)%string -> a = b.
Proof. induction c as [|x c IH]; intros a b E; [exact E|]. cbn in E. injection E as E. apply IH. exact E. Qed.
Lemma app_assoc_s : forall a b c : string, (a ++ (b ++ c))%string = ((a ++ b) ++ c)%string.
Proof. induction a as [|x a IH]; intros b c; [reflexivity|]. cbn. rewrite IH. reflexivity. Qed.

(** the number of a frame with its leading zeros *)
Definition digits (i : Z) : uint :=
  let u := match Z.to_int i with Pos u | Neg u => u end in
  if Z.ltb i 10 then D0 (D0 u) else if Z.ltb i 100 then D0 u else u.
Lemma to_int_pos : forall i, (0 <= i)%Z -> exists u, Z.to_int i = Pos u /\ u <> Nil /\ NilZero.string_of_int (Z.to_int i) = NilEmpty.string_of_uint u.
Proof.
  intros [|p|p] H; [| |lia].
  - exists (D0 Nil). repeat split. discriminate.
  - exists (Pos.to_uint p). cbn [Z.to_int]. pose proof (Unsigned.to_uint_nonnil p) as N. split; [reflexivity|]. split; [exact N|].
    cbn [NilZero.string_of_int]. unfold NilZero.string_of_uint. destruct (Pos.to_uint p); [contradiction N|..]; reflexivity.
Qed.
Lemma frame_name_eq : forall i, (0 <= i)%Z -> frame_name i = ("ellipsoid_curvature_" ++ (NilEmpty.string_of_uint (digits i) ++ ".png"))%string.
Proof.
  intros i H. destruct (to_int_pos i H) as (u & E & _ & S). unfold frame_name, digits. rewrite S, E. f_equal. rewrite app_assoc_s. f_equal.
  destruct (Z.ltb i 10); [reflexivity|]. destruct (Z.ltb i 100); reflexivity.
Qed.
Lemma digits_value : forall i, (0 <= i)%Z -> Z.of_uint (digits i) = i.
Proof.
  intros i H. destruct (to_int_pos i H) as (u & E & _ & _). pose proof (DecimalZ.of_to i) as R. rewrite E in R. cbn [Z.of_int] in R. unfold digits. rewrite E.
  destruct (Z.ltb i 10); [exact R|]. destruct (Z.ltb i 100); exact R.
Qed.
Lemma digits_inj : forall i j s, (0 <= i)%Z -> (0 <= j)%Z -> (NilEmpty.string_of_uint (digits i) ++ s)%string = (NilEmpty.string_of_uint (digits j) ++ s)%string -> i = j.
Proof.
  intros i j s Hi Hj E. apply app_cancel_r in E. apply (f_equal NilEmpty.uint_of_string) in E. rewrite !NilEmpty.usu in E. injection E as E.
  rewrite <- (digits_value i Hi), <- (digits_value j Hj), E. reflexivity.
Qed.
Lemma no_underscore : forall d s t, NilEmpty.string_of_uint d <> (s ++ String "_" t)%string.
Proof.
  induction d; intros s t E; destruct s as [|x s]; cbn in E; try discriminate; injection E as _ E; exact (IHd s t E).
Qed.

(** *** lengths *)
Lemma string_digits : forall d, String.length (NilEmpty.string_of_uint d) = nb_digits d.
Proof. induction d; cbn; auto. Qed.
Lemma double_digits : forall d, (nb_digits (Little.double d) <= S (nb_digits d) /\ nb_digits (Little.succ_double d) <= S (nb_digits d))%nat.
Proof. induction d as [|d [A B]|d [A B]|d [A B]|d [A B]|d [A B]|d [A B]|d [A B]|d [A B]|d [A B]|d [A B]]; cbn; lia. Qed.
Lemma little_digits : forall p, (nb_digits (Pos.to_little_uint p) <= Pos.size_nat p)%nat.
Proof.
  induction p as [p IH|p IH|]; cbn [Pos.to_little_uint Pos.size_nat]; [|..].
  - pose proof (proj2 (double_digits (Pos.to_little_uint p))). lia.
  - pose proof (proj1 (double_digits (Pos.to_little_uint p))). lia.
  - cbn. lia.
Qed.
Lemma size_small : forall p k, (Zpos p < 2 ^ Z.of_nat k)%Z -> (Pos.size_nat p <= k)%nat.
Proof.
  induction p as [p IH|p IH|]; intros k H; (destruct k as [|k]; [cbn in H; lia|]); cbn [Pos.size_nat]; [..|lia]; apply le_n_S, IH; rewrite Nat2Z.inj_succ, Z.pow_succ_r in H by lia; lia.
Qed.
Lemma frame_name_length : forall i, (0 <= i < 2 ^ 63)%Z -> (Z.of_nat (String.length (frame_name i)) < 2 ^ 64)%Z.
Proof.
  intros i H. rewrite frame_name_eq by lia. rewrite !append_length, string_digits. cbn [String.length].
  assert (nb_digits (digits i) <= 100)%nat; [|lia].
  assert (N : (nb_digits (match Z.to_int i with Pos u | Neg u => u end) <= 63)%nat).
  { destruct i as [|p|p]; [cbn; lia| |lia]. cbn [Z.to_int]. unfold Pos.to_uint. rewrite nb_digits_rev. pose proof (little_digits p). pose proof (size_small p 63 ltac:(change (Z.of_nat 63) with 63%Z; lia)). lia. }
  unfold digits. destruct (Z.ltb i 10); [cbn; lia|]. destruct (Z.ltb i 100); cbn; lia.
Qed.
Lemma frame_cost_name : forall i, (0 <= i < 2 ^ 63)%Z -> cost_filename (frame_name i) = ("ellipsoid_curvature_" ++ (NilEmpty.string_of_uint (digits i) ++ "_cost.png"))%string.
Proof.
  intros i H. pose proof (frame_name_length i H) as B. rewrite frame_name_eq in * by lia. rewrite app_assoc_s in *. rewrite cost_name_stem; [rewrite app_assoc_s; reflexivity|reflexivity|exact B].
Qed.

(** *** no two frames share a file *)
Lemma frame_files : forall i j, (0 <= i < 2 ^ 63)%Z -> (0 <= j < 2 ^ 63)%Z ->
  (frame_name i = frame_name j -> i = j) /\ (cost_filename (frame_name i) = cost_filename (frame_name j) -> i = j) /\ frame_name i <> cost_filename (frame_name j).
Proof.
  intros i j Hi Hj. rewrite !frame_cost_name, !frame_name_eq by lia. split; [|split]; intros E; apply app_cancel_l in E.
  - apply digits_inj with ".png"; [lia|lia|exact E].
  - apply digits_inj with "_cost.png"; [lia|lia|exact E].
  - change "_cost.png" with ("_cost" ++ ".png")%string in E. rewrite app_assoc_s in E. apply app_cancel_r in E. exact (no_underscore _ _ _ E).
Qed.
