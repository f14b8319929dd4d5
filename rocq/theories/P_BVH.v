(** bvh_node (C41, C42). *)
From Coq Require Import Reals Lra List Bool Permutation Lia Arith.
From Verif Require Import Num XR M_Vec M_Hittable Spec Spec_Scene P_Box P_Surround P_List.
Import ListNotations.
Local Open Scope R_scope.

Section BVH.
Context {L : limits}.
Notation object := (hittable (F:=XR L)).
Notation record := (hit_record xr).
Variable box : object -> aabb R.

(** *** Construction *)
Lemma make_node_ok : forall l r bl br,
  bvh_box (F:=XR L) l = Some (finbox bl) -> bvh_box (F:=XR L) r = Some (finbox br) ->
  covering box l -> covering box r ->
  (forall o, In o (leaves l) -> box_within (box o) bl) ->
  (forall o, In o (leaves r) -> box_within (box o) br) ->
  exists B, make_node (F:=XR L) l r = Ok (Node l r (finbox B)) /\
    covering box (Node l r (finbox B)) /\
    (forall o, In o (leaves l ++ leaves r) -> box_within (box o) B).
Proof.
  intros l r bl br El Er Cl Cr Wl Wr.
  destruct (surrounding_box_real L bl br) as [B [E [W1 [W2 _]]]].
  assert (W : forall o, In o (leaves l ++ leaves r) -> box_within (box o) B).
  { intros o Ho. apply in_app_or in Ho. destruct Ho as [Ho|Ho]; intros p Hp.
    - apply W1, (Wl o Ho), Hp.
    - apply W2, (Wr o Ho), Hp. }
  exists B. unfold make_node. rewrite El, Er, E. split; auto. split; auto.
  cbn [covering]. split; auto. split; auto. exists B; auto.
Qed.

Lemma range_length : forall A (v : list A) s e, (e <= length v)%nat -> length (range v s e) = (e - s)%nat.
Proof. intros; unfold range. rewrite firstn_length, skipn_length. lia. Qed.

Lemma range_nth : forall A (v : list A) s e k, (s + k < e)%nat ->
  nth_error (range v s e) k = nth_error v (s + k).
Proof.
  intros A v s e k H. unfold range.
  assert (F : forall (l : list A) n k, (k < n)%nat -> nth_error (firstn n l) k = nth_error l k).
  { intros l n; revert l; induction n; intros l j Hj; [lia|]. destruct l; [now destruct j|].
    destruct j; cbn; auto. apply IHn; lia. }
  assert (G : forall (l : list A) n k, nth_error (skipn n l) k = nth_error l (n + k)).
  { intros l n; revert l; induction n; intros l j; cbn; auto. destruct l; [now destruct j|]. apply IHn. }
  rewrite F by lia. apply G.
Qed.

Lemma range_replace : forall A (v w : list A) s e m, (s <= m)%nat -> (m <= e)%nat -> (e <= length v)%nat ->
  length w = (e - s)%nat ->
  range (replace_range v s e w) s m = firstn (m - s) w /\
  range (replace_range v s e w) m e = skipn (m - s) w /\
  length (replace_range v s e w) = length v.
Proof.
  intros A v w s e m H1 H2 H3 Hw. unfold range, replace_range.
  assert (Ls : length (firstn s v) = s) by (rewrite firstn_length; lia).
  assert (Sk : forall k (x y : list A), skipn (length x + k) (x ++ y) = skipn k y).
  { intros k x y; induction x; cbn; auto. }
  repeat split.
  - replace s with (length (firstn s v) + 0)%nat at 2 by lia. rewrite Sk; cbn [skipn].
    rewrite firstn_app. replace (m - s - length w)%nat with 0%nat by lia. cbn. apply app_nil_r.
  - replace m with (length (firstn s v) + (m - s))%nat at 2 by lia. rewrite Sk.
    rewrite skipn_app. rewrite firstn_app, skipn_length.
    replace (e - m - (length w - (m - s)))%nat with 0%nat by lia. cbn [firstn]. rewrite app_nil_r.
    apply firstn_all2. rewrite skipn_length; lia.
  - rewrite !app_length, skipn_length. lia.
Qed.

Section Build.
Variable axis : list bool -> nat.
Variable sort : nat -> list object -> list object.
Hypothesis sort_perm : forall a l, Permutation l (sort a l).

Lemma build_spec : forall fuel path objs start end_,
  (start < end_)%nat -> (end_ <= length objs)%nat -> (end_ - start <= fuel)%nat ->
  (forall o, In o (range objs start end_) -> bounding_box (F:=XR L) o = Some (finbox (box o))) ->
  exists t B, bvh_build (F:=XR L) axis sort fuel path objs start end_ = Ok t /\
    (forall o, In o (leaves t) <-> In o (range objs start end_)) /\
    covering box t /\ bvh_box (F:=XR L) t = Some (finbox B) /\
    (forall o, In o (leaves t) -> box_within (box o) B).
Proof.
  induction fuel as [|fuel IH]; intros path objs start end_ H1 H2 H3 HB; [lia|].
  cbn [bvh_build].
  remember (end_ - start)%nat as span eqn:Hspan.
  assert (Nth : forall k, (start + k < end_)%nat -> exists o, nth_error objs (start + k) = Some o /\ In o (range objs start end_)).
  { intros k Hk. destruct (nth_error objs (start + k)) as [o|] eqn:E.
    - exists o; split; auto. apply nth_error_In with (n := k). rewrite range_nth; auto.
    - apply nth_error_None in E. lia. }
  assert (Leafs : forall a b, In a (range objs start end_) -> In b (range objs start end_) ->
    exists B, make_node (F:=XR L) (Leaf a) (Leaf b) = Ok (Node (Leaf a) (Leaf b) (finbox B)) /\
      covering box (Node (Leaf a) (Leaf b) (finbox B)) /\ (forall o, In o [a; b] -> box_within (box o) B)).
  { intros a b Ha Hb. destruct (make_node_ok (Leaf a) (Leaf b) (box a) (box b)) as [B [E [C W]]]; cbn; auto.
    - intros o [<-|[]] p; auto.
    - intros o [<-|[]] p; auto.
    - exists B; auto. }
  destruct span as [|[|[|span]]]; [lia| | |].
  - (* one object *)
    destruct (Nth 0%nat ltac:(lia)) as [o [E Hin]]. rewrite Nat.add_0_r in E. rewrite E.
    destruct (Leafs o o Hin Hin) as [B [Em [C W]]]. rewrite Em.
    exists (Node (Leaf o) (Leaf o) (finbox B)), B. cbn [leaves bvh_box app].
    split; auto. split; [|split; [|split]]; auto.
    intros o'. pose proof (range_length _ objs start end_ H2) as RL. rewrite <- Hspan in RL.
    destruct (range objs start end_) as [|x [|]] eqn:Er; try discriminate.
    destruct Hin as [->|[]]. cbn; tauto.
  - (* two objects *)
    destruct (Nth 0%nat ltac:(lia)) as [a [Ea Ha]]. rewrite Nat.add_0_r in Ea. rewrite Ea.
    destruct (Nth 1%nat ltac:(lia)) as [b [Eb Hb]]. rewrite Nat.add_1_r in Eb. rewrite Eb.
    unfold box_compare. rewrite (HB a Ha), (HB b Hb). cbn [obind].
    assert (Er : range objs start end_ = [a; b]).
    { pose proof (range_length _ objs start end_ H2) as RL. rewrite <- Hspan in RL.
      pose proof (range_nth _ objs start end_ 0 ltac:(lia)) as N0. pose proof (range_nth _ objs start end_ 1 ltac:(lia)) as N1.
      rewrite Nat.add_0_r in N0. rewrite Nat.add_1_r in N1. rewrite Ea in N0. rewrite Eb in N1.
      destruct (range objs start end_) as [|x [|y [|]]]; try discriminate. cbn in *. congruence. }
    match goal with |- context [if ?c then _ else _] => destruct c end.
    + destruct (Leafs a b Ha Hb) as [B [Em [C W]]]. rewrite Em.
      exists (Node (Leaf a) (Leaf b) (finbox B)), B. cbn [leaves bvh_box app].
      split; auto. split; [|split; [|split]]; auto. rewrite Er; tauto.
    + destruct (Leafs b a Hb Ha) as [B [Em [C W]]]. rewrite Em.
      exists (Node (Leaf b) (Leaf a) (finbox B)), B. cbn [leaves bvh_box app].
      split; auto. split; [|split; [|split]]; auto. rewrite Er; cbn; tauto.
  - (* at least three *)
    set (n := S (S (S span))) in *.
    set (w := sort (axis path) (range objs start end_)).
    assert (Pw : Permutation (range objs start end_) w) by apply sort_perm.
    assert (Lw : length w = (end_ - start)%nat).
    { rewrite <- (Permutation_length Pw). apply range_length; auto. }
    assert (Hd : (1 <= Nat.div2 n)%nat /\ (Nat.div2 n < n)%nat).
    { split; [unfold n; cbn; lia|]. apply Nat.lt_div2. unfold n; lia. }
    set (mid := (start + Nat.div2 n)%nat).
    destruct (range_replace _ objs w start end_ mid ltac:(unfold mid; lia) ltac:(unfold mid; lia) H2 Lw) as [R1 [R2 R3]].
    set (objs' := replace_range objs start end_ w) in *.
    assert (Split : forall o, In o (range objs start end_) <-> In o (range objs' start mid) \/ In o (range objs' mid end_)).
    { intros o. rewrite R1, R2, <- in_app_iff, firstn_skipn. split; apply Permutation_in; auto. apply Permutation_sym; auto. }
    destruct (IH (true :: path) objs' start mid ltac:(unfold mid; lia) ltac:(unfold mid; lia) ltac:(unfold mid; lia)) as [l [Bl [El [Il [Cl [Xl Wl]]]]]].
    { intros o Ho. apply HB, Split; auto. }
    destruct (IH (false :: path) objs' mid end_ ltac:(unfold mid; lia) ltac:(lia) ltac:(unfold mid; lia)) as [r [Br [Er [Ir [Cr [Xr Wr]]]]]].
    { intros o Ho. apply HB, Split; auto. }
    rewrite El; cbn [obind]. rewrite Er; cbn [obind].
    destruct (make_node_ok l r Bl Br Xl Xr Cl Cr Wl Wr) as [B [Em [C W]]]. rewrite Em.
    exists (Node l r (finbox B)), B. cbn [leaves bvh_box].
    split; auto. split; [|split; [|split]]; auto.
    intros o. rewrite in_app_iff, Il, Ir, Split. tauto.
Qed.

(** C42 *)
Lemma bvh_build_ok : forall objs fuel, objs <> [] -> (length objs <= fuel)%nat ->
  (forall o, In o objs -> bounding_box (F:=XR L) o = Some (finbox (box o))) ->
  exists t, bvh_of_list (F:=XR L) axis sort fuel objs = Ok t /\
    (forall o, In o (leaves t) <-> In o objs) /\ covering box t.
Proof.
  intros objs fuel Hn Hf HB.
  assert (R0 : range objs 0 (length objs) = objs) by (unfold range; cbn; rewrite Nat.sub_0_r; apply firstn_all).
  destruct (build_spec fuel [] objs 0 (length objs)) as [t [B [E [I [C _]]]]]; auto.
  - destruct objs; [congruence|cbn; lia].
  - lia.
  - rewrite R0; auto.
  - rewrite R0 in I. exists t; auto.
Qed.
End Build.

(** the empty list: unbounded recursion *)
Lemma bvh_build_empty : forall axis sort fuel, bvh_of_list (F:=XR L) axis sort fuel [] = OutOfFuel.
Proof.
  intros axis sort fuel. unfold bvh_of_list.
  assert (H : forall fuel path objs, bvh_build (F:=XR L) axis sort fuel path objs 0 (length (@nil object)) = OutOfFuel).
  { clear fuel; induction fuel as [|fuel IH]; intros path objs; [reflexivity|].
    cbn [bvh_build]. cbn in IH. cbn. rewrite IH. reflexivity. }
  apply H.
Qed.

(** *** Intersection *)
Section Hit.
Variable r : ray R.
Variable meets : object -> R -> Prop.
Variable describes : object -> R -> record -> Prop.

Lemma boxed_hit : forall o B lo hi t, boxed r (meets o) (box o) -> box_within (box o) B ->
  meets o t -> after lo t -> before t hi -> aabb_hit (F:=XR L) (finbox B) (finray r) lo hi = true.
Proof.
  intros o B lo hi t Hb Hw Hm Ha Hbf.
  assert (Hl : lo <> NaN) by (destruct lo; cbn in *; congruence || contradiction).
  assert (Hh : hi <> NaN) by (destruct hi; cbn in *; congruence || contradiction).
  apply aabb_hit_iff; auto.
  destruct (Hb t Hm) as [a [c [Hac [[Hat Htc] K]]]].
  assert (exists a0, a0 < t /\ at_least lo a0) as [a0 [Pa Qa]]
    by (destruct lo as [lo| | |]; cbn in *; try contradiction; [exists lo; split; lra|exists (t - 1); split; auto; lra]).
  assert (exists c0, t < c0 /\ at_most hi c0) as [c0 [Pc Qc]]
    by (destruct hi as [hi| | |]; cbn in *; try contradiction; [exists hi; split; lra|exists (t + 1); split; auto; lra]).
  pose proof (Rmax_l a a0); pose proof (Rmax_r a a0); pose proof (Rmin_l c c0); pose proof (Rmin_r c c0).
  exists (Rmax a a0), (Rmin c c0). split; [|split; [|split]].
  - apply Rmax_lub_lt; apply Rmin_glb_lt; lra.
  - destruct lo; cbn in *; auto; lra.
  - destruct hi; cbn in *; auto; lra.
  - intros s Hs. apply Hw, K. lra.
Qed.

(** C41 *)
Lemma bvh_hit_spec : forall t (lo hi : xr) (rec : record), lo <> NaN -> hi <> NaN ->
  covering box t ->
  (forall o, In o (leaves t) -> hit_contract r o (meets o) (describes o) /\ quiet r o /\ boxed r (meets o) (box o)) ->
  exists b rec', bvh_hit (F:=XR L) t (finray r) lo hi rec = Ok (b, rec') /\
    if b : bool then
      exists o s, In o (leaves t) /\ h_t rec' = Fin s /\ meets o s /\ in_window lo hi s /\ describes o s rec' /\
        forall o' s', In o' (leaves t) -> meets o' s' -> after lo s' -> before s' hi -> s <= s'
    else rec' = rec /\ forall o' s', In o' (leaves t) -> meets o' s' -> after lo s' -> before s' hi -> False.
Proof.
  assert (AW : forall lo hi s, after lo s -> before s hi -> in_window lo hi s).
  { intros lo hi s; unfold in_window; destruct lo, hi; cbn; intros; try contradiction; split; auto; lra. }
  induction t as [o|l IHl rt IHr bx]; intros lo hi rec Hlo Hhi HC HO.
  - destruct (HO o (or_introl eq_refl)) as [Hc [Hq Hb]]. cbn [bvh_hit leaves].
    destruct (Hc lo hi rec Hlo Hhi) as [b [rec' [E H]]]. exists b, rec'; split; auto. destruct b.
    + destruct H as [t [Et [Mt [Wt [Ft Dt]]]]]. exists o, t. repeat split; auto; try (left; reflexivity); try apply Wt.
      intros o' s' [<-|[]] Hm Ha Hbf. apply Ft; auto.
    + split; [eapply Hq; eauto|]. intros o' s' [<-|[]] Hm Ha Hbf. apply (H s' Hm); auto.
  - destruct HC as [Cl [Cr [B [-> W]]]]. cbn [bvh_hit leaves].
    destruct (aabb_hit (F:=XR L) (finbox B) (finray r) lo hi) eqn:EB.
    2:{ exists false, rec; split; auto. split; auto. intros o s Ho Hm Ha Hb.
        assert (aabb_hit (F:=XR L) (finbox B) (finray r) lo hi = true); [|congruence].
        apply (boxed_hit o B lo hi s); auto. apply HO; auto. }
    destruct (IHl lo hi rec Hlo Hhi Cl) as [b1 [rec1 [E1 S1]]]; [intros; apply HO; cbn [leaves]; apply in_or_app; auto|].
    rewrite E1; cbn [obind].
    assert (Hhi1 : (if b1 then h_t rec1 else hi) <> NaN)
      by (destruct b1; [destruct S1 as [o1 [s1 [_ [T1 _]]]]; change (@num (XR L)) with xr in *; rewrite T1; discriminate|auto]).
    destruct (IHr lo (if b1 then h_t rec1 else hi) rec1 Hlo Hhi1 Cr) as [b2 [rec2 [E2 S2]]]; [intros; apply HO; cbn [leaves]; apply in_or_app; auto|].
    change (@num (XR L)) with xr in *. rewrite E2; cbn [obind].
    exists (b1 || b2), rec2; split; auto.
    destruct b1; cbn [orb].
    + destruct S1 as [o1 [s1 [I1 [T1 [M1 [W1 [D1 F1]]]]]]]. rewrite T1 in *.
      destruct b2.
      * destruct S2 as [o2 [s2 [I2 [T2 [M2 [[W2 W2'] [D2 F2]]]]]]]. cbn in W2'.
        exists o2, s2. repeat split; auto.
        -- apply in_or_app; auto.
        -- destruct W1 as [_ W1]. destruct hi; cbn in *; auto; lra.
        -- intros o' s' Ho Hm Ha Hb. apply in_app_or in Ho. destruct Ho as [Ho|Ho].
           ++ specialize (F1 o' s' Ho Hm Ha Hb). lra.
           ++ destruct (Rlt_or_le s' s1); [|lra]. apply (F2 o' s'); auto.
      * destruct S2 as [-> N2]. exists o1, s1. repeat split; auto; try apply W1.
        -- apply in_or_app; auto.
        -- intros o' s' Ho Hm Ha Hb. apply in_app_or in Ho. destruct Ho as [Ho|Ho]; [eauto|].
           destruct (Rlt_or_le s' s1); [|lra]. exfalso. apply (N2 o' s'); auto.
    + destruct S1 as [-> N1]. destruct b2.
      * destruct S2 as [o2 [s2 [I2 [T2 [M2 [W2 [D2 F2]]]]]]]. exists o2, s2. repeat split; auto; try apply W2.
        -- apply in_or_app; auto.
        -- intros o' s' Ho Hm Ha Hb. apply in_app_or in Ho. destruct Ho as [Ho|Ho]; [exfalso|]; eauto.
      * destruct S2 as [-> N2]. split; auto. intros o' s' Ho Hm Ha Hb. apply in_app_or in Ho. destruct Ho; eauto.
Qed.
End Hit.
End BVH.

Lemma bvh_same_as_list : forall (L : limits) (M : Type) (r : ray R) (box : hittable (F:=XR L) -> aabb R)
  (meets : hittable (F:=XR L) -> R -> Prop) describes axis sort fuel
  (items : list (hittable (F:=XR L) * M)) (lo hi : xr) temp0 rec0 rec1,
  (forall a l, Permutation l (sort a l)) -> items <> [] -> (length items <= fuel)%nat ->
  lo <> NaN -> hi <> NaN ->
  (forall o m, In (o, m) items -> hit_contract r o (meets o) (describes o) /\ quiet r o /\
     bounding_box (F:=XR L) o = Some (finbox (box o)) /\ boxed r (meets o) (box o)) ->
  (forall o m t, In (o, m) items -> meets o t -> lo <> Fin t /\ hi <> Fin t) ->
  exists tree b rec res rec',
    bvh_of_list (F:=XR L) axis sort fuel (map fst items) = Ok tree /\
    bvh_hit (F:=XR L) tree (finray r) lo hi rec0 = Ok (b, rec) /\
    list_hit (F:=XR L) temp0 (scene_of items) (finray r) lo hi rec1 = Ok (res, rec') /\
    (b = true <-> res <> None) /\
    (b = true -> h_t rec = h_t rec' /\
       exists o m t, In (o, m) items /\ h_t rec = Fin t /\ meets o t /\ describes o t rec).
Proof.
  intros L M r box meets describes axis sort fuel items lo hi temp0 rec0 rec1 HS Hn Hf Hlo Hhi HO HE.
  assert (HM : forall o, In o (map fst items) -> exists m, In (o, m) items).
  { intros o Ho. apply in_map_iff in Ho. destruct Ho as [[o' m] [<- Ho]]. exists m; auto. }
  destruct (bvh_build_ok box axis sort HS (map fst items) fuel) as [tree [Et [It Ct]]].
  { destruct items; [congruence|discriminate]. }
  { now rewrite map_length. }
  { intros o Ho. destruct (HM o Ho) as [m Hm]. apply (HO o m Hm). }
  destruct (bvh_hit_spec box r meets describes tree lo hi rec0 Hlo Hhi Ct) as [b [rec [Eb Sb]]].
  { intros o Ho. apply It in Ho. destruct (HM o Ho) as [m Hm]. destruct (HO o m Hm) as [? [? [? ?]]]. auto. }
  destruct (list_hit_nearest r meets describes items temp0 lo hi rec1 Hlo Hhi) as [res [rec' [El Sl]]].
  { intros o m Hm. apply (HO o m Hm). }
  exists tree, b, rec, res, rec'. repeat (split; [assumption|]).
  assert (Str : forall o m t, In (o, m) items -> meets o t -> at_least lo t -> after lo t).
  { intros o m t Hi Hm Ha. destruct (HE o m t Hi Hm) as [N _]. destruct lo; cbn in *; auto.
    destruct Ha as [|<-]; auto. congruence. }
  assert (Stb : forall o m t, In (o, m) items -> meets o t -> at_most hi t -> before t hi).
  { intros o m t Hi Hm Ha. destruct (HE o m t Hi Hm) as [_ N]. destruct hi; cbn in *; auto.
    destruct Ha as [|<-]; auto. congruence. }
  assert (Inl : forall o m, In (o, m) items -> In o (leaves tree)).
  { intros o m Hi. apply It. apply in_map_iff. exists (o, m); auto. }
  destruct b.
  - destruct Sb as [o [t [Ho [Ht [Hm [[W1 W2] [D F]]]]]]].
    assert (Ho' : In o (map fst items)) by (apply It; auto). destruct (HM o Ho') as [m Hi].
    destruct res as [m'|].
    + split; [split; congruence|]. intros _. split; [|exists o, m, t; auto].
      destruct Sl as [f [o' [bk [t' [Es [Ht' [Hm' [Lt' [Bt' [D' [F1 _]]]]]]]]]]].
      assert (Hi' : In (o', m') items) by (rewrite Es; apply in_or_app; right; left; auto).
      rewrite Ht, Ht'. f_equal. apply Rle_antisym.
      * apply (F o' t'); eauto.
      * apply (F1 o m t); auto.
    + exfalso. destruct Sl as [_ N]. apply (N o m t); eauto.
  - destruct Sb as [-> N]. destruct res as [m'|]; [|split; [split; congruence|congruence]].
    exfalso. destruct Sl as [f [o' [bk [t' [Es [Ht' [Hm' [Lt' [Bt' _]]]]]]]]].
    assert (Hi' : In (o', m') items) by (rewrite Es; apply in_or_app; right; left; auto).
    apply (N o' t'); eauto.
Qed.
