(** Sorting lists of finite numbers, and of non-NaN floats. *)
From Coq Require Import Reals Lra ZArith List Bool Permutation.
From Flocq Require Import Core BinarySingleNaN.
From Verif Require Import Num XR FL Spec P_FL.
Import ListNotations.
Local Open Scope R_scope.

Section L.
Variable L : limits.

Fixpoint insertR (x : R) (l : list R) : list R :=
  match l with
  | [] => [x]
  | y :: l' => if Rltb x y then x :: y :: l' else y :: insertR x l'
  end.
Definition sortR (l : list R) : list R := fold_right insertR [] l.

Lemma insert_fin : forall x l,
  insert_sorted (F:=XR L) (Fin x) (map Fin l) = map Fin (insertR x l).
Proof.
  intros x l; induction l as [|y l IH]; auto.
  cbn [map insert_sorted insertR]; xred; rewrite IH; destruct (Rltb x y); reflexivity.
Qed.
Lemma sort_fin : forall l, sort_list (F:=XR L) (map Fin l) = map Fin (sortR l).
Proof.
  induction l as [|x l IH]; auto.
  unfold sort_list in *; cbn [map fold_right sortR]; rewrite IH; apply insert_fin.
Qed.
Lemma std_sort_fin : forall l, std_sort (F:=XR L) (map Fin l) = Ok (map Fin (sortR l)).
Proof.
  intros l; unfold std_sort; rewrite sort_fin.
  replace (existsb (nisnan (NumOps:=XR L)) (map Fin l)) with false; auto.
  induction l; auto.
Qed.

Lemma insertR_perm : forall x l, Permutation (x :: l) (insertR x l).
Proof.
  intros x l; induction l as [|y l IH]; simpl; auto.
  destruct (Rltb x y); auto. rewrite perm_swap; auto.
Qed.
Lemma sortR_perm : forall l, Permutation l (sortR l).
Proof.
  induction l; simpl; auto. rewrite <- insertR_perm; auto.
Qed.
Lemma sortR_In : forall x l, In x (sortR l) <-> In x l.
Proof.
  intros; split; apply Permutation_in; [apply Permutation_sym|]; apply sortR_perm.
Qed.
Lemma insertR_increasing : forall x l, increasing l -> increasing (insertR x l).
Proof.
  intros x l; induction l as [|y l IH]; simpl; intros H.
  - split; auto; intros y [].
  - destruct H as [H1 H2]; destruct (Rltb_spec x y); simpl.
    + split; auto. intros z [<-|Hz]; [lra|specialize (H1 z Hz); lra].
    + split; auto. intros z Hz.
      apply (Permutation_in z (Permutation_sym (insertR_perm x l))) in Hz.
      destruct Hz as [<-|Hz]; auto.
Qed.
Lemma sortR_increasing : forall l, increasing (sortR l).
Proof. induction l; simpl; auto. apply insertR_increasing; auto. Qed.

Lemma std_sort_correct : forall l,
  exists l', std_sort (F:=XR L) (map Fin l) = Ok (map Fin l') /\
             Permutation l l' /\ increasing l' /\ (forall x, In x l' <-> In x l).
Proof.
  intros l; exists (sortR l); repeat split.
  - apply std_sort_fin.
  - apply sortR_perm.
  - apply sortR_increasing.
  - apply sortR_In.
  - apply sortR_In.
Qed.
End L.

(** In IEEE arithmetic: whatever [std_sort] returns is in order. *)
Section Float.
Variables prec emax : Z.
Variable Hprec : Prec_gt_0 prec.
Variable Hmax : Prec_lt_emax prec emax.
Variable lm : libm (binary_float prec emax).
Notation float := (binary_float prec emax).
Notation FLi := (FL prec emax Hprec Hmax lm).

(** no later element is smaller than an earlier one, and none is NaN *)
Fixpoint ordered (l : list float) : Prop :=
  match l with
  | [] => True
  | x :: l' => is_nan x = false /\ (forall y, In y l' -> Bltb y x = false) /\ ordered l'
  end.

Lemma insert_In : forall (x : float) l z,
  In z (insert_sorted (F:=FLi) x l) <-> z = x \/ In z l.
Proof.
  intros x l z; induction l as [|y l IH]; simpl.
  - intuition (subst; auto).
  - destruct (Bltb x y); simpl; rewrite ?IH; intuition (subst; auto).
Qed.

Lemma insert_ordered : forall (x : float) l, is_nan x = false ->
  ordered l -> ordered (insert_sorted (F:=FLi) x l).
Proof.
  intros x l Nx; induction l as [|y l IH]; intros H.
  - simpl; repeat split; auto; intros y [].
  - destruct H as [Ny [H1 H2]]; cbn [insert_sorted].
    change (nltb (NumOps:=FLi) x y) with (Bltb x y).
    destruct (Bltb x y) eqn:E.
    + split; auto; split; [|split; auto].
      intros z [<-|Hz].
      * rewrite Bltb_fval in *. destruct (fval x), (fval y); simpl in *; auto; try discriminate.
        apply Rltb_iff in E; apply Rltb_false; lra.
      * specialize (H1 z Hz). rewrite Bltb_fval in *.
        destruct (fval x), (fval y), (fval z); simpl in *; auto; try discriminate.
        apply Rltb_iff in E. destruct (Rltb_spec r1 r0); [discriminate|]. apply Rltb_false; lra.
    + split; auto; split; auto.
      intros z Hz; apply insert_In in Hz; destruct Hz as [->|Hz]; auto.
Qed.

Lemma std_sort_ordered : forall l l' : list float,
  std_sort (F:=FLi) l = Ok l' -> ordered l'.
Proof.
  intros l l'; unfold std_sort.
  destruct (existsb (nisnan (NumOps:=FLi)) l) eqn:E; [discriminate|].
  intros H; injection H as <-.
  induction l as [|x l IH]; [exact I|].
  cbn [existsb] in E; apply orb_false_elim in E; destruct E as [E1 E2].
  cbn [sort_list fold_right]; apply insert_ordered; auto.
Qed.
End Float.
