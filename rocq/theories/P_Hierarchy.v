(** Construction of hierarchies in floating point, and what they find. *)
From Coq Require Import Reals Lra List Bool Permutation Lia Arith ZArith.
From Flocq Require Import Core BinarySingleNaN.
From Verif Require Import Num XR FL M_Vec M_Roots M_Hittable M_Shapes Spec Spec_Scene Spec_Accuracy Spec_Nearest Spec_Hierarchy P_FL P_BVH P_BoxFloat P_Nearest P_Tree.
Import ListNotations.
Local Open Scope R_scope.

Section Float.
Variables prec emax : Z.
Variable Hp : Prec_gt_0 prec.
Variable Hm : Prec_lt_emax prec emax.
Variable lm : libm (binary_float prec emax).
Notation float := (binary_float prec emax).
Notation N := (FL prec emax Hp Hm lm).
Notation record := (hit_record float).
Notation object := (hittable (F:=N)).
Variable k : Z.
Notation bvalue := (box_value prec emax k).

Lemma fmin_value : forall (x y : float) a b, fval x = Fin a -> fval y = Fin b -> fval (c_fmin (F:=N) x y) = Fin (Rmin a b).
Proof.
  intros x y a b A B. unfold c_fmin. cbn [nisnan nltb FL]. 
  destruct (is_nan x) eqn:Nx; [apply fval_nan in Nx; congruence|]. destruct (is_nan y) eqn:Ny; [apply fval_nan in Ny; congruence|].
  rewrite Bltb_fval, A, B. cbn [xltb]. unfold Rmin. destruct (Rltb_spec b a), (Rle_dec a b); try lra; [rewrite B|rewrite A]; reflexivity.
Qed.
Lemma fmax_value : forall (x y : float) a b, fval x = Fin a -> fval y = Fin b -> fval (c_fmax (F:=N) x y) = Fin (Rmax a b).
Proof.
  intros x y a b A B. unfold c_fmax. cbn [nisnan nltb FL]. 
  destruct (is_nan x) eqn:Nx; [apply fval_nan in Nx; congruence|]. destruct (is_nan y) eqn:Ny; [apply fval_nan in Ny; congruence|].
  rewrite Bltb_fval, A, B. cbn [xltb]. unfold Rmax. destruct (Rltb_spec a b), (Rle_dec a b); try lra; rewrite ?A, ?B; try reflexivity; f_equal; lra.
Qed.
Lemma moderate_min : forall a b, moderate k a -> moderate k b -> moderate k (Rmin a b) /\ moderate k (Rmax a b).
Proof. intros a b A B. unfold Rmin, Rmax. destruct (Rle_dec a b); auto. Qed.
Lemma surround_value : forall fa fb a b, bvalue fa a -> bvalue fb b -> exists B, bvalue (surrounding_box (F:=N) fa fb) B /\ box_within a B /\ box_within b B.
Proof.
  intros [[f1 f2 f3] [f4 f5 f6]] [[g1 g2 g3] [g4 g5 g6]] [[a1 a2 a3] [A1 A2 A3]] [[b1 b2 b3] [B1 B2 B3]] (P1 & P2 & P3 & P4) (Q1 & Q2 & Q3 & Q4).
  unfold moderate3, fin3, map3 in *; cbn [b_min b_max vx vy vz] in *. injection P1 as X1 X2 X3. injection P2 as X4 X5 X6. injection Q1 as Y1 Y2 Y3. injection Q2 as Y4 Y5 Y6.
  exists (Box (V3 (Rmin a1 b1) (Rmin a2 b2) (Rmin a3 b3)) (V3 (Rmax A1 B1) (Rmax A2 B2) (Rmax A3 B3))). split.
  - unfold surrounding_box, box_value, moderate3, fin3, map3; cbn [b_min b_max vx vy vz].
    rewrite (fmin_value _ _ _ _ X1 Y1), (fmin_value _ _ _ _ X2 Y2), (fmin_value _ _ _ _ X3 Y3), (fmax_value _ _ _ _ X4 Y4), (fmax_value _ _ _ _ X5 Y5), (fmax_value _ _ _ _ X6 Y6).
    split; [reflexivity|]. split; [reflexivity|]. split; (split; [|split]); apply moderate_min; tauto.
  - pose proof (Rmin_l a1 b1); pose proof (Rmin_r a1 b1); pose proof (Rmin_l a2 b2); pose proof (Rmin_r a2 b2);
    pose proof (Rmin_l a3 b3); pose proof (Rmin_r a3 b3); pose proof (Rmax_l A1 B1); pose proof (Rmax_r A1 B1);
    pose proof (Rmax_l A2 B2); pose proof (Rmax_r A2 B2); pose proof (Rmax_l A3 B3); pose proof (Rmax_r A3 B3).
    unfold box_within, in_box; cbn [b_min b_max vx vy vz]. split; intros p ?; lra.
Qed.

Notation lvs := (tree_leaves (F:=N)).
Definition own (o : object) (b : aabb R) : Prop := exists fb, bounding_box o = Some fb /\ bvalue fb b.
Definition around (os : list object) (B : aabb R) : Prop := forall o b, In o os -> own o b -> box_within b B.
Fixpoint nested (t : bvh (F:=N)) : Prop :=
  match t with Leaf _ => True | Node l r fb => nested l /\ nested r /\ exists B, bvalue fb B /\ around (lvs l ++ lvs r) B end.
Lemma make_node_nested : forall l r fl fr Bl Br, bvh_box (F:=N) l = Some fl -> bvh_box (F:=N) r = Some fr -> bvalue fl Bl -> bvalue fr Br -> nested l -> nested r -> around (lvs l) Bl -> around (lvs r) Br ->
  exists fb B, make_node (F:=N) l r = Ok (Node l r fb) /\ nested (Node l r fb) /\ bvalue fb B /\ around (lvs l ++ lvs r) B.
Proof.
  intros l r fl fr Bl Br El Er Vl Vr Cl Cr Wl Wr. destruct (surround_value fl fr Bl Br Vl Vr) as (B & V & W1 & W2).
  assert (W : around (lvs l ++ lvs r) B).
  { intros o b Ho Hb p Hpp. apply in_app_or in Ho. destruct Ho as [Ho|Ho]; [apply W1, (Wl o b Ho Hb), Hpp|apply W2, (Wr o b Ho Hb), Hpp]. }
  exists (surrounding_box (F:=N) fl fr), B. unfold make_node. rewrite El, Er. split; [reflexivity|]. split; [|auto]. cbn [nested]. split; [exact Cl|]. split; [exact Cr|]. exists B. auto.
Qed.
Lemma own_unique : forall o b b', own o b -> own o b' -> b = b'.
Proof.
  intros o b b' (fb & E & V) (fb' & E' & V'). rewrite E in E'. injection E' as <-. destruct b as [[a1 a2 a3] [A1 A2 A3]], b' as [[c1 c2 c3] [C1 C2 C3]]. unfold box_value, fin3, map3 in *. cbn [b_min b_max vx vy vz] in *.
  destruct V as (P1 & P2 & _), V' as (Q1 & Q2 & _). rewrite P1 in Q1. rewrite P2 in Q2. injection Q1. injection Q2. intros. subst. reflexivity.
Qed.

Section Build.
Variable axis : list bool -> nat.
Variable sort : nat -> list object -> list object.
Hypothesis sort_perm : forall a l, Permutation l (sort a l).

Lemma build_nested : forall fuel path objs start end_, (start < end_)%nat -> (end_ <= length objs)%nat -> (end_ - start <= fuel)%nat ->
  (forall o, In o (range objs start end_) -> exists b, own o b) ->
  exists t fb B, bvh_build (F:=N) axis sort fuel path objs start end_ = Ok t /\ (forall o, In o (lvs t) <-> In o (range objs start end_)) /\
    nested t /\ bvh_box (F:=N) t = Some fb /\ bvalue fb B /\ around (lvs t) B.
Proof.
  induction fuel as [|fuel IH]; intros path objs start end_ H1 H2 H3 HB; [lia|].
  cbn [bvh_build].
  remember (end_ - start)%nat as span eqn:Hspan.
  assert (Nth : forall k, (start + k < end_)%nat -> exists o, nth_error objs (start + k) = Some o /\ In o (range objs start end_)).
  { intros j Hk. destruct (nth_error objs (start + j)) as [o|] eqn:E.
    - exists o; split; auto. apply nth_error_In with (n := j). rewrite range_nth; auto.
    - apply nth_error_None in E. lia. }
  assert (Leafs : forall a b, In a (range objs start end_) -> In b (range objs start end_) ->
    exists fb B, make_node (F:=N) (Leaf a) (Leaf b) = Ok (Node (Leaf a) (Leaf b) fb) /\ nested (Node (Leaf a) (Leaf b) fb) /\ bvalue fb B /\ around [a; b] B).
  { intros a b Ha Hb. destruct (HB a Ha) as (ba & fa & Ea & Va). destruct (HB b Hb) as (bb & fb & Eb & Vb).
    apply (make_node_nested (Leaf a) (Leaf b) fa fb ba bb Ea Eb Va Vb I I).
    - intros o b' [<-|[]] Ob. rewrite (own_unique a b' ba Ob (ex_intro _ fa (conj Ea Va))). intros p; auto.
    - intros o b' [<-|[]] Ob. rewrite (own_unique b b' bb Ob (ex_intro _ fb (conj Eb Vb))). intros p; auto. }
  destruct span as [|[|[|span]]]; [lia| | |].
  - destruct (Nth 0%nat ltac:(lia)) as [o [E Hin]]. rewrite Nat.add_0_r in E. rewrite E.
    destruct (Leafs o o Hin Hin) as (fb & B & Em & C & V & W). rewrite Em.
    exists (Node (Leaf o) (Leaf o) fb), fb, B. cbn [tree_leaves bvh_box app].
    split; [reflexivity|]. split; [|split; [exact C|split; [reflexivity|split; [exact V|exact W]]]].
    intros o'. pose proof (range_length _ objs start end_ H2) as RL. rewrite <- Hspan in RL.
    destruct (range objs start end_) as [|x [|]] eqn:Er; try discriminate.
    destruct Hin as [->|[]]. cbn; tauto.
  - destruct (Nth 0%nat ltac:(lia)) as [a [Ea Ha]]. rewrite Nat.add_0_r in Ea. rewrite Ea.
    destruct (Nth 1%nat ltac:(lia)) as [b [Eb Hb]]. rewrite Nat.add_1_r in Eb. rewrite Eb.
    unfold box_compare. destruct (HB a Ha) as (ba & fa & Fa & Va). destruct (HB b Hb) as (bb & fb0 & Fb & Vb). rewrite Fa, Fb. cbn [obind].
    assert (Er : range objs start end_ = [a; b]).
    { pose proof (range_length _ objs start end_ H2) as RL. rewrite <- Hspan in RL.
      pose proof (range_nth _ objs start end_ 0 ltac:(lia)) as N0. pose proof (range_nth _ objs start end_ 1 ltac:(lia)) as N1.
      rewrite Nat.add_0_r in N0. rewrite Nat.add_1_r in N1. rewrite Ea in N0. rewrite Eb in N1.
      destruct (range objs start end_) as [|x [|y [|]]]; try discriminate. cbn in *. congruence. }
    match goal with |- context [if ?c then _ else _] => destruct c end.
    + destruct (Leafs a b Ha Hb) as (fb & B & Em & C & V & W). rewrite Em.
      exists (Node (Leaf a) (Leaf b) fb), fb, B. cbn [tree_leaves bvh_box app].
      split; [reflexivity|]. split; [rewrite Er; tauto|split; [exact C|split; [reflexivity|split; [exact V|exact W]]]].
    + destruct (Leafs b a Hb Ha) as (fb & B & Em & C & V & W). rewrite Em.
      exists (Node (Leaf b) (Leaf a) fb), fb, B. cbn [tree_leaves bvh_box app].
      split; [reflexivity|]. split; [rewrite Er; cbn; tauto|split; [exact C|split; [reflexivity|split; [exact V|exact W]]]].
  - set (n := S (S (S span))) in *.
    set (w := sort (axis path) (range objs start end_)).
    assert (Pw : Permutation (range objs start end_) w) by apply sort_perm.
    assert (Lw : length w = (end_ - start)%nat).
    { rewrite <- (Permutation_length Pw). apply range_length; auto. }
    assert (Hd : (1 <= Nat.div2 n)%nat /\ (Nat.div2 n < n)%nat).
    { split; [unfold n; cbn; lia|]. apply Nat.lt_div2. unfold n; lia. }
    set (mid := (start + Nat.div2 n)%nat).
    destruct (range_replace _ objs w start end_ mid ltac:(unfold mid; lia) ltac:(unfold mid; lia) H2 Lw) as [R1 [R2 R3]].
    set (objs' := replace_range objs start end_ w) in *.
    assert (Split : forall o, In o (range objs start end_) <-> In o (range objs' start mid) \/ In o (range objs' mid end_)).
    { intros o. rewrite R1, R2, <- in_app_iff, firstn_skipn. split; apply Permutation_in; auto. apply Permutation_sym; auto. }
    destruct (IH (true :: path) objs' start mid ltac:(unfold mid; lia) ltac:(unfold mid; lia) ltac:(unfold mid; lia)) as (l & fl & Bl & El & Il & Cl & Xl & Vl & Wl).
    { intros o Ho. apply HB, Split; auto. }
    destruct (IH (false :: path) objs' mid end_ ltac:(unfold mid; lia) ltac:(lia) ltac:(unfold mid; lia)) as (r & fr & Br & Er & Ir & Cr & Xr & Vr & Wr).
    { intros o Ho. apply HB, Split; auto. }
    rewrite El; cbn [obind]. rewrite Er; cbn [obind].
    destruct (make_node_nested l r fl fr Bl Br Xl Xr Vl Vr Cl Cr Wl Wr) as (fb & B & Em & C & V & W). rewrite Em.
    exists (Node l r fb), fb, B. cbn [tree_leaves bvh_box].
    split; [reflexivity|]. split; [|split; [exact C|split; [reflexivity|split; [exact V|exact W]]]].
    intros o. rewrite in_app_iff, Il, Ir, Split. tauto.
Qed.
End Build.

Variables (fr : ray float) (r : ray R).
Hypothesis P8 : (8 <= prec)%Z.
Hypothesis K0 : (0 <= k)%Z.
Hypothesis K : (2 * k + 2 * prec + 8 <= emax)%Z.
Hypothesis Ro : map3 fval (r_orig fr) = fin3 (r_orig r).
Hypothesis Rd : map3 fval (r_dir fr) = fin3 (r_dir r).
Hypothesis Mo : moderate3 k (r_orig r).
Hypothesis Md : moderate3 k (r_dir r).

Lemma at_most_le : forall (t hi : float) x, Bleb t hi = true -> at_most (fval t) x -> at_most (fval hi) x.
Proof. intros t hi x. rewrite Bleb_fval. destruct (fval t) as [a| | |], (fval hi) as [b| | |]; cbn [xleb at_most]; intros H A; try discriminate; try contradiction; auto. destruct (Rleb_spec a b); [lra|discriminate]. Qed.
Lemma passes_exposed : forall tree o b lo t, nested tree -> In o (lvs tree) -> own o b -> passes prec r (fval lo) (fval t) b -> exposed (F:=N) fr lo t tree o.
Proof.
  intros tree o b lo t. induction tree as [o'|l IHl rt IHr fb]; cbn [nested tree_leaves exposed]; intros Ne Hi Ow Pa.
  - destruct Hi as [->|[]]. reflexivity.
  - destruct Ne as (Nl & Nr & B & (V1 & V2 & V3 & V4) & W). split.
    + intros hi Hh. destruct Pa as (t1 & t2 & L1 & U2 & G & I1 & I2).
      assert (t1 < t2). { pose proof (bpow_ge_0 radix2 (- prec)). pose proof (Rabs_pos t1). pose proof (Rabs_pos t2). assert (0 <= 4 * bpow radix2 (- prec) * Rabs t1) by nra. assert (0 <= 4 * bpow radix2 (- prec) * Rabs t2) by nra. lra. }
      pose proof (at_most_le t hi t2 Hh U2) as U2'.
      apply (not_culled_stated prec emax Hp Hm lm k P8 K0 K fb fr B r V1 V2 Ro Rd V3 V4 Mo Md lo hi t1 t2).
      * split; [exact L1|]. destruct (fval hi); cbn [at_most] in *; try contradiction; auto; lra.
      * split; [|exact U2']. destruct (fval lo); cbn [at_least] in *; try contradiction; auto; lra.
      * apply (W o b Hi Ow). exact I1.
      * apply (W o b Hi Ow). exact I2.
      * exact G.
    + apply in_app_or in Hi. destruct Hi as [Hi|Hi]; [left; apply IHl; auto|right; apply IHr; auto].
Qed.
Lemma hierarchy_float : forall axis sort fuel objs, (forall a l, Permutation l (sort a l)) -> objs <> [] -> (length objs <= fuel)%nat ->
  (forall o, In o objs -> round_object (F:=N) o) -> (forall o, In o objs -> exists b, own o b) ->
  exists tree, bvh_of_list (F:=N) axis sort fuel objs = Ok tree /\ forall lo hi rec, exists found rec', bvh_hit (F:=N) tree fr lo hi rec = Ok (found, rec') /\
  (found = false -> rec' = rec) /\
  (found = true -> (exists o, In o objs /\ exists temp, hit o fr lo hi temp = Ok (true, rec')) /\ Bleb lo (h_t rec') = true /\ Bleb (h_t rec') hi = true) /\
  forall o b t, In o objs -> own o b -> reports (F:=N) fr lo hi o t -> passes prec r (fval lo) (fval t) b -> found = true /\ Bleb (h_t rec') t = true.
Proof.
  intros axis sort fuel objs Sp Ne Fu Ro' Ow.
  assert (R0 : range objs 0 (length objs) = objs) by (unfold range; cbn; rewrite Nat.sub_0_r; apply firstn_all).
  destruct (build_nested axis sort Sp fuel [] objs 0 (length objs)) as (tree & fb & B & E & Il & C & _); [destruct objs; [congruence|cbn; lia]|lia|lia|rewrite R0; exact Ow|]. rewrite R0 in Il.
  exists tree. split; [exact E|]. intros lo hi rec. destruct (tree_hit prec emax Hp Hm lm fr lo tree (fun o I => Ro' o (proj1 (Il o) I)) hi rec) as (found & rec' & Eh & Fh & Th).
  exists found, rec'. split; [exact Eh|]. split; [intros Q; apply (Fh Q)|]. split.
  - intros Q. destruct (Th Q) as ((o & I & T) & L1 & U1 & _). split; [exists o; split; [apply Il; exact I|exact T]|]. auto.
  - intros o b t I Ob Re Pa. pose proof (passes_exposed tree o b lo t C (proj2 (Il o) I) Ob Pa) as Ex. destruct found.
    + split; [reflexivity|]. destruct (Th eq_refl) as (_ & _ & _ & Nr). exact (Nr o t Ex Re).
    + exfalso. destruct (Fh eq_refl) as [_ No]. exact (No o t Ex Re).
Qed.
End Float.
