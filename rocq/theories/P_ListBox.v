(** The bounding box of a list of objects (C82). *)
From Coq Require Import Reals ZArith List Bool.
From Flocq Require Import BinarySingleNaN Core.
From Verif Require Import Num XR FL M_Vec M_Hittable Spec Spec_Scene P_Surround.
Import ListNotations.

Section Order.
Context {F : NumOps}.
Hypothesis T : total_order F.

Lemma box_le_trans : forall a b c : aabb num, box_le a b -> box_le b c -> box_le a c.
Proof. destruct T as (_ & _ & TR). unfold box_le. intros a b c; intuition; eapply TR; eauto. Qed.
Lemma box_le_refl : forall a : aabb num, no_nan_box a -> box_le a a.
Proof.
  destruct T as (_ & TO & _). intros a (A & B & C & D & E & G). unfold box_le.
  assert (K : forall x : num, nisnan x = false -> nleb x x = true) by (intros x H; destruct (TO x x H H); auto).
  repeat split; apply K; auto.
Qed.

Lemma loop_none : forall objs first out, list_box_loop objs first out = None -> exists o, In o objs /\ bounding_box o = None.
Proof.
  induction objs as [|o objs IH]; intros first out H; cbn in H; [discriminate|].
  destruct (bounding_box o) eqn:E; [|exists o; cbn; auto].
  destruct (IH _ _ H) as (o' & I & N). exists o'. cbn; auto.
Qed.
Lemma loop_some : forall objs out B, list_box_loop objs false out = Some B ->
  no_nan_box out -> (forall o b, In o objs -> bounding_box o = Some b -> no_nan_box b) ->
  box_le out B /\ (forall o, In o objs -> exists b, bounding_box o = Some b /\ box_le b B) /\
  (forall C, box_le out C -> (forall o b, In o objs -> bounding_box o = Some b -> box_le b C) -> box_le B C).
Proof.
  induction objs as [|o objs IH]; intros out B H N A; cbn in H.
  - injection H as <-. split; [apply box_le_refl; auto|]. split; [intros o []|]. auto.
  - destruct (bounding_box o) as [t|] eqn:E; [|discriminate].
    assert (Nt : no_nan_box t) by (apply (A o); cbn; auto).
    destruct (surrounding_least T out t N Nt) as (NS & S1 & S2 & S3).
    destruct (IH _ _ H NS) as (K1 & K2 & K3); [intros o' b I; apply A; cbn; auto|].
    split; [eapply box_le_trans; eauto|]. split.
    + intros o' [<-|I]; [|apply K2; auto]. exists t. split; auto. eapply box_le_trans; eauto.
    + intros C HO HB. apply K3; [apply S3; auto; apply (HB o); cbn; auto|]. intros o' b I. apply HB; cbn; auto.
Qed.
Lemma list_box_spec : forall M (s : hittable_list (M:=M)) out0,
  (forall o b, In o (objects s) -> bounding_box o = Some b -> no_nan_box b) ->
  match list_bounding_box s out0 with
  | None => objects s = [] \/ exists o, In o (objects s) /\ bounding_box o = None
  | Some B => objects s <> [] /\ (forall o, In o (objects s) -> exists b, bounding_box o = Some b /\ box_le b B) /\
      forall C, (forall o b, In o (objects s) -> bounding_box o = Some b -> box_le b C) -> box_le B C
  end.
Proof.
  intros M [objs ms] out0 A. unfold list_bounding_box; cbn [objects] in *. destruct objs as [|o objs]; [auto|].
  destruct (list_box_loop (o :: objs) true out0) as [B|] eqn:E.
  - split; [discriminate|]. cbn in E. destruct (bounding_box o) as [t|] eqn:Et; [|discriminate].
    assert (Nt : no_nan_box t) by (apply (A o); cbn; auto).
    destruct (loop_some _ _ _ E Nt) as (K1 & K2 & K3); [intros o' b I; apply A; cbn; auto|].
    split.
    + intros o' [<-|I]; [exists t; auto|auto].
    + intros C HC. apply K3; [apply (HC o); cbn; auto|intros o' b I; apply HC; cbn; auto].
  - right. eapply loop_none; eauto.
Qed.
End Order.

Lemma list_box_xr : forall L M (s : hittable_list (F:=XR L) (M:=M)) out0,
  (forall o b, In o (objects s) -> bounding_box o = Some b -> no_nan_box (F:=XR L) b) ->
  match list_bounding_box (F:=XR L) s out0 with
  | None => objects s = [] \/ exists o, In o (objects s) /\ bounding_box o = None
  | Some B => objects s <> [] /\
      (forall o, In o (objects s) -> exists b, bounding_box o = Some b /\ box_le (F:=XR L) b B) /\
      forall C, (forall o b, In o (objects s) -> bounding_box o = Some b -> box_le (F:=XR L) b C) -> box_le (F:=XR L) B C
  end.
Proof. intros L. exact (@list_box_spec (XR L) (xr_order L)). Qed.
Lemma list_box_fl : forall prec emax Hp Hm lm M (s : hittable_list (F:=FL prec emax Hp Hm lm) (M:=M)) out0,
  let F := FL prec emax Hp Hm lm in
  (forall o b, In o (objects s) -> bounding_box o = Some b -> no_nan_box (F:=F) b) ->
  match list_bounding_box (F:=F) s out0 with
  | None => objects s = [] \/ exists o, In o (objects s) /\ bounding_box o = None
  | Some B => objects s <> [] /\
      (forall o, In o (objects s) -> exists b, bounding_box o = Some b /\ box_le (F:=F) b B) /\
      forall C, (forall o b, In o (objects s) -> bounding_box o = Some b -> box_le (F:=F) b C) -> box_le (F:=F) B C
  end.
Proof. intros. apply (list_box_spec (fl_order prec emax Hp Hm lm)). assumption. Qed.
