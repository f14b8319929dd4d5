(** hittable_list::hit (C38-C40). *)
From Coq Require Import Reals Lra List Bool Permutation Lia.
From Verif Require Import Num XR M_Vec M_Hittable Spec Spec_Scene.
Import ListNotations.
Local Open Scope R_scope.

Section Scene.
Context {L : limits} {M : Type}.
Notation object := (hittable (F:=XR L)).
Notation record := (hit_record xr).
Implicit Types (items : list (object * M)).

Lemma scene_of_gen : forall items (s : hittable_list (F:=XR L) (M:=M)),
  let s' := fold_left (fun s '(o, m) => add s o m) items s in
  objects s' = objects s ++ map fst items /\ materials s' = materials s ++ map snd items.
Proof.
  induction items as [|[o m] items IH]; intros s; simpl.
  - now rewrite !app_nil_r.
  - destruct (IH (add s o m)) as [E1 E2]. simpl in *. rewrite E1, E2, <- !app_assoc. auto.
Qed.
Lemma scene_objects : forall items, objects (scene_of items) = map fst items.
Proof. intros; apply (scene_of_gen items empty_list). Qed.
Lemma scene_materials : forall items, materials (scene_of items) = map snd items.
Proof. intros; apply (scene_of_gen items empty_list). Qed.

Variable r : ray R.
Variable meets : object -> R -> Prop.
Variable describes : object -> R -> record -> Prop.

Lemma window_before : forall lo hi t, in_window lo hi t -> before t hi \/ hi = Fin t.
Proof.
  intros lo [b| | |] t [_ H]; cbn in *; auto; try contradiction.
  destruct (Rle_lt_or_eq_dec _ _ H); [left|right; subst]; auto.
Qed.

(** The loop from index i on: either nothing beats the current closest, or the first
    nearest object of the rest is selected. *)
Lemma list_loop_spec : forall objs i lo temp closest rec idx,
  (forall o, In o objs -> hit_contract r o (meets o) (describes o)) -> lo <> NaN -> closest <> NaN ->
  exists idx' rec', list_loop (F:=XR L) (finray r) lo i objs temp closest rec idx = Ok (idx', rec') /\
   ((idx' = idx /\ rec' = rec /\
     forall o t, In o objs -> meets o t -> at_least lo t -> ~ before t closest) \/
    (exists k o t, idx' = Some (i + k)%nat /\ nth_error objs k = Some o /\ h_t rec' = Fin t /\
       meets o t /\ at_least lo t /\ before t closest /\ describes o t rec' /\
       (forall o' t', In o' objs -> meets o' t' -> at_least lo t' -> t <= t') /\
       (forall j o' t', (j < k)%nat -> nth_error objs j = Some o' -> meets o' t' -> at_least lo t' -> t < t'))).
Proof.
  induction objs as [|o objs IH]; intros i lo temp closest rec idx HC Hlo Hcl.
  - exists idx, rec; split; [reflexivity|left]. split; [|split]; auto.
  - cbn [list_loop].
    destruct (HC o (or_introl eq_refl) lo closest temp Hlo Hcl) as [b [temp' [E Hb]]]. rewrite E. cbn [obind].
    assert (HC' : forall o0, In o0 objs -> hit_contract r o0 (meets o0) (describes o0)) by (intros; apply HC; right; auto).
    destruct b.
    + destruct Hb as [t [Et [Mt [Wt [Ft Dt]]]]].
      change (@nltb (XR L)) with xltb. change (@num (XR L)) with xr in *.
      assert (AB : forall t', at_least lo t' -> before t' closest -> in_window lo closest t').
      { intros t' ? ?; split; auto. destruct closest; cbn in *; auto; lra. }
      match goal with |- context [if ?c then _ else _] => destruct c eqn:Lt end;
        match type of Lt with _ = ?b => change (xltb (@h_t xr temp') closest = b) in Lt end.
      * assert (Bt : before t closest).
        { rewrite Et in Lt. destruct closest; cbn in *; auto; try discriminate. apply Rltb_iff in Lt; auto. }
        destruct (IH (S i) lo temp' (h_t temp') temp' (Some i) HC' Hlo ltac:(rewrite Et; discriminate)) as [idx' [rec' [E' [[-> [-> N]]|[k [o' [t' [-> [Hk [Et' [Mt' [Lt' [Bt' [Dt' [F1 F2]]]]]]]]]]]]]]]; rewrite E'.
        -- exists (Some i), temp'; split; auto. right. exists O, o, t. rewrite Nat.add_0_r.
           repeat split; auto; try (apply Wt).
           ++ intros o' t' [<-|Ho'] Hm Hl.
              ** destruct (Rle_or_lt t t'); auto. apply Ft; auto. apply AB; auto.
                 destruct closest; cbn in *; auto; lra.
              ** specialize (N o' t' Ho' Hm Hl). rewrite Et in N. cbn in N. lra.
           ++ intros j o' t' Hj; lia.
        -- exists (Some (S i + k)%nat), rec'; split; auto. right. exists (S k), o', t'.
           rewrite Et in Bt'. cbn in Bt'.
           assert (K : forall t0, meets o t0 -> at_least lo t0 -> t <= t0).
           { intros t0 Hm Hl. destruct (Rle_or_lt t t0); auto. apply Ft; auto. apply AB; auto.
             destruct closest; cbn in *; auto; lra. }
           repeat split; auto.
           ++ f_equal; lia.
           ++ destruct closest; cbn in *; auto; lra.
           ++ intros o1 t1 [<-|Ho1] Hm Hl; [specialize (K t1 Hm Hl); lra|eauto].
           ++ intros [|j] o1 t1 Hj Hn Hm Hl; cbn in Hn; [injection Hn as <-; specialize (K t1 Hm Hl); lra|].
              apply (F2 j o1); auto; lia.
      * assert (Ec : closest = Fin t).
        { destruct (window_before lo closest t Wt) as [B|]; auto.
          rewrite Et in Lt. destruct closest; cbn in *; try discriminate; try contradiction.
          rewrite Rltb_true in Lt by auto; discriminate. }
        subst closest.
        destruct (IH (S i) lo temp' (Fin t) rec idx HC' Hlo Hcl) as [idx' [rec' [E' [[-> [-> N]]|[k [o' [t' [-> [Hk [Et' [Mt' [Lt' [Bt' [Dt' [F1 F2]]]]]]]]]]]]]]]; rewrite E'.
        -- exists idx, rec; split; auto. left. repeat split; auto.
           intros o' t' [<-|Ho'] Hm Hl B; [|eapply N; eauto].
           specialize (Ft t' Hm (AB t' Hl B)). cbn in B; lra.
        -- exists (Some (S i + k)%nat), rec'; split; auto. right. exists (S k), o', t'.
           cbn in Bt'.
           assert (K : forall t0, meets o t0 -> at_least lo t0 -> t <= t0).
           { intros t0 Hm Hl. destruct (Rle_or_lt t t0); auto. }
           repeat split; auto.
           ++ f_equal; lia.
           ++ intros o1 t1 [<-|Ho1] Hm Hl; [specialize (K t1 Hm Hl); lra|eauto].
           ++ intros [|j] o1 t1 Hj Hn Hm Hl; cbn in Hn; [injection Hn as <-; specialize (K t1 Hm Hl); lra|].
              apply (F2 j o1); auto; lia.
    + assert (K : forall t0, meets o t0 -> at_least lo t0 -> ~ at_most closest t0).
      { intros t0 Hm Hl Ha. apply (Hb t0 Hm); split; auto. }
      assert (BA : forall t0, before t0 closest -> at_most closest t0) by (intros; destruct closest; cbn in *; auto; lra).
      destruct (IH (S i) lo temp' closest rec idx HC' Hlo Hcl) as [idx' [rec' [E' [[-> [-> N]]|[k [o' [t' [-> [Hk [Et' [Mt' [Lt' [Bt' [Dt' [F1 F2]]]]]]]]]]]]]]]; rewrite E'.
      * exists idx, rec; split; auto. left. repeat split; auto.
        intros o' t' [<-|Ho'] Hm Hl B; [|eapply N; eauto]. apply (K t'); auto.
      * exists (Some (S i + k)%nat), rec'; split; auto. right. exists (S k), o', t'.
        assert (K' : forall t0, meets o t0 -> at_least lo t0 -> t' < t0).
        { intros t0 Hm Hl. destruct (Rlt_or_le t' t0); auto. exfalso. apply (K t0); auto.
          destruct closest; cbn in *; auto; lra. }
        repeat split; auto.
        -- f_equal; lia.
        -- intros o1 t1 [<-|Ho1] Hm Hl; [specialize (K' t1 Hm Hl); lra|eauto].
        -- intros [|j] o1 t1 Hj Hn Hm Hl; cbn in Hn; [injection Hn as <-; auto|].
           apply (F2 j o1); auto; lia.
Qed.

(** C38 *)
Lemma list_hit_nearest : forall items temp0 (lo hi : xr) rec, lo <> NaN -> hi <> NaN ->
  (forall o m, In (o, m) items -> hit_contract r o (meets o) (describes o)) ->
  exists res rec', list_hit (F:=XR L) temp0 (scene_of items) (finray r) lo hi rec = Ok (res, rec') /\
  match res with
  | Some m =>
      exists front o back t, items = front ++ (o, m) :: back /\
        h_t rec' = Fin t /\ meets o t /\ at_least lo t /\ before t hi /\ describes o t rec' /\
        (forall o' m' t', In (o', m') items -> meets o' t' -> at_least lo t' -> t <= t') /\
        (forall o' m' t', In (o', m') front -> meets o' t' -> at_least lo t' -> t < t')
  | None => rec' = rec /\
      forall o m t, In (o, m) items -> meets o t -> at_least lo t -> ~ before t hi
  end.
Proof.
  intros items temp0 lo hi rec Hlo Hhi HC. unfold list_hit. rewrite scene_objects, scene_materials.
  assert (HC' : forall o, In o (map fst items) -> hit_contract r o (meets o) (describes o)).
  { intros o Ho. apply in_map_iff in Ho. destruct Ho as [[o' m] [<- Ho]]. eapply HC; eauto. }
  destruct (list_loop_spec (map fst items) 0 lo temp0 hi rec None HC' Hlo Hhi) as
    [idx [rec' [E [[-> [-> N]]|[k [o [t [-> [Hk [Et [Mt [Lt [Bt [Dt [F1 F2]]]]]]]]]]]]]]]; rewrite E; cbn [obind].
  - exists None, rec; split; auto. split; auto.
    intros o m t Hi. apply N. apply in_map_iff. exists (o, m); auto.
  - cbn [Nat.add]. rewrite nth_error_map in Hk. destruct (nth_error items k) as [[o1 m]|] eqn:Hn; [|discriminate].
    cbn in Hk. injection Hk as ->.
    rewrite nth_error_map, Hn. cbn [option_map snd].
    exists (Some m), rec'; split; auto.
    destruct (nth_error_split _ _ Hn) as [front [back [Es Hlen]]].
    exists front, o, back, t. repeat split; auto.
    + intros o' m' t' Hi. apply F1. apply in_map_iff. exists (o', m'); auto.
    + intros o' m' t' Hi. apply In_nth_error in Hi. destruct Hi as [j Hj].
      assert (Hjl : (j < length front)%nat) by (apply nth_error_Some; congruence).
      apply (F2 j o'); [lia|]. rewrite nth_error_map, Es, nth_error_app1, Hj by auto. reflexivity.
Qed.

(** C39 *)
Lemma list_hit_order : forall items items' temp0 temp0' (lo hi : xr) rec0 rec0', lo <> NaN -> hi <> NaN ->
  Permutation items items' ->
  (forall o m, In (o, m) items -> hit_contract r o (meets o) (describes o)) ->
  exists res rec res' rec',
    list_hit (F:=XR L) temp0 (scene_of items) (finray r) lo hi rec0 = Ok (res, rec) /\
    list_hit (F:=XR L) temp0' (scene_of items') (finray r) lo hi rec0' = Ok (res', rec') /\
    (res = None <-> res' = None) /\
    (res <> None -> h_t rec = h_t rec') /\
    ((forall o m o' m' t, In (o, m) items -> In (o', m') items -> h_t rec = Fin t ->
        meets o t -> meets o' t -> m = m') -> res = res').
Proof.
  intros items items' temp0 temp0' lo hi rec0 rec0' Hlo Hhi HP HC.
  assert (HC' : forall o m, In (o, m) items' -> hit_contract r o (meets o) (describes o)).
  { intros o m Hi. apply (HC o m). eapply Permutation_in; [apply Permutation_sym; eauto|auto]. }
  destruct (list_hit_nearest items temp0 lo hi rec0 Hlo Hhi HC) as [res [rec [E S]]].
  destruct (list_hit_nearest items' temp0' lo hi rec0' Hlo Hhi HC') as [res' [rec' [E' S']]].
  exists res, rec, res', rec'. rewrite E, E'. split; auto. split; auto.
  assert (PI : forall x, In x items <-> In x items').
  { intros x; split; apply Permutation_in; auto. apply Permutation_sym; auto. }
  destruct res as [m|], res' as [m'|].
  - destruct S as [f [o [b [t [-> [Et [Mt [Lt [Bt [Dt [F1 F2]]]]]]]]]]].
    destruct S' as [f' [o' [b' [t' [-> [Et' [Mt' [Lt' [Bt' [Dt' [F1' F2']]]]]]]]]]].
    assert (I1 : In (o, m) (f ++ (o, m) :: b)) by (apply in_or_app; right; left; auto).
    assert (I2 : In (o', m') (f' ++ (o', m') :: b')) by (apply in_or_app; right; left; auto).
    assert (t = t').
    { apply Rle_antisym; [apply (F1 o' m'); auto; apply PI; auto|apply (F1' o m); auto; apply PI; auto]. }
    subst t'. split; [split; discriminate|]. split; [intros _; congruence|].
    intros U. f_equal. apply (U o m o' m' t); auto. apply PI; auto.
  - exfalso. destruct S as [f [o [b [t [-> [Et [Mt [Lt [Bt _]]]]]]]]]. destruct S' as [_ N].
    apply (N o m t); auto. apply PI. apply in_or_app; right; left; auto.
  - exfalso. destruct S' as [f [o [b [t [-> [Et [Mt [Lt [Bt _]]]]]]]]]. destruct S as [_ N].
    apply (N o m' t); auto. apply PI. apply in_or_app; right; left; auto.
  - split; [tauto|]. split; [congruence|auto].
Qed.
End Scene.

(** C40, the part that holds: if every primitive's record is a function of the meeting
    parameter only, the scene returns the record that the chosen object alone produces. *)
Lemma list_hit_own_record : forall (L : limits) (M : Type) (r : ray R)
  (meets : hittable (F:=XR L) -> R -> Prop) (written : hittable (F:=XR L) -> R -> hit_record xr)
  (items : list (hittable (F:=XR L) * M)) temp0 (lo hi : xr) rec0 m rec, lo <> NaN -> hi <> NaN ->
  (forall o m, In (o, m) items -> hit_contract r o (meets o) (fun t h => h = written o t)) ->
  list_hit (F:=XR L) temp0 (scene_of items) (finray r) lo hi rec0 = Ok (Some m, rec) ->
  exists o, In (o, m) items /\
    forall temp0' rec0', list_hit (F:=XR L) temp0' (scene_of [(o, m)]) (finray r) lo hi rec0' = Ok (Some m, rec).
Proof.
  intros L M r meets written items temp0 lo hi rec0 m rec Hlo Hhi HC E.
  destruct (list_hit_nearest r meets (fun o t h => h = written o t) items temp0 lo hi rec0 Hlo Hhi HC) as [res [rec1 [E1 S]]].
  rewrite E in E1. injection E1 as <- <-.
  destruct S as [f [o [b [t [-> [Et [Mt [Lt [Bt [Dt [F1 F2]]]]]]]]]]].
  assert (I1 : In (o, m) (f ++ (o, m) :: b)) by (apply in_or_app; right; left; auto).
  exists o; split; auto. intros temp0' rec0'.
  assert (HC1 : forall o0 m0, In (o0, m0) [(o, m)] -> hit_contract r o0 (meets o0) (fun t h => h = written o0 t)).
  { intros o0 m0 [Eq|[]]. injection Eq as <- <-. eapply HC; eauto. }
  destruct (list_hit_nearest r meets (fun o t h => h = written o t) [(o, m)] temp0' lo hi rec0' Hlo Hhi HC1) as [res [rec1 [E1 S]]].
  rewrite E1. destruct res as [m1|].
  - destruct S as [f1 [o1 [b1 [t1 [Es [Et1 [Mt1 [Lt1 [Bt1 [Dt1 [F3 F4]]]]]]]]]]].
    destruct f1 as [|? [|]]; try discriminate. injection Es as <- <- _.
    assert (t = t1) by (apply Rle_antisym; [apply (F1 o m); auto|apply (F3 o m); auto; left; auto]).
    subst; reflexivity.
  - destruct S as [_ N]. exfalso. apply (N o m t); auto. left; auto.
Qed.
