(** bvh_node::hit in floating point. *)
From Coq Require Import Reals ZArith Lra Lia List Bool.
From Flocq Require Import Core IEEE754.BinarySingleNaN.
From Verif Require Import Num XR FL M_Vec M_Roots M_Hittable M_Shapes Spec_Nearest P_FL P_Quadratic P_Nearest.
Import ListNotations.
Local Open Scope R_scope.

Lemma xleb_trans : forall a b c, xleb a b = true -> xleb b c = true -> xleb a c = true.
Proof.
  intros [a| | |] [b| | |] [c| | |]; cbn [xleb]; intros H K; try discriminate; try reflexivity.
  destruct (Rleb_spec a b), (Rleb_spec b c); try discriminate. apply Rleb_true. lra.
Qed.

Section Float.
Variables prec emax : Z.
Variable Hp : Prec_gt_0 prec.
Variable Hm : Prec_lt_emax prec emax.
Variable lm : libm (binary_float prec emax).
Notation float := (binary_float prec emax).
Notation N := (FL prec emax Hp Hm lm).
Notation record := (hit_record float).

Definition closed (r : ray float) (lo : float) (o : hittable (F:=N)) : Prop :=
  exists (root : float -> option float) (write : float -> record -> record),
  (forall t rec, h_t (write t rec) = t) /\
  (forall hi rec, hit o r lo hi rec = Ok match root hi with None => (false, rec) | Some t => (true, write t rec) end) /\
  (forall hi t, root hi = Some t -> Bleb lo t = true /\ Bleb t hi = true) /\
  (forall hi hi' t, Bleb hi' hi = true -> Bleb t hi' = true -> (root hi = Some t <-> root hi' = Some t)).
Lemma first_root_closed : forall a b c lo hi hi' t, Bleb hi' hi = true -> Bleb t hi' = true ->
  (first_quadratic_root_in_range (F:=N) a b c lo hi = Some t <-> first_quadratic_root_in_range (F:=N) a b c lo hi' = Some t).
Proof.
  intros a b c lo hi hi' t H K. unfold first_quadratic_root_in_range.
  destruct (quadratic_roots_shape prec emax Hp Hm lm a b c) as [E|(r0 & r1 & E & O)]; rewrite E; [reflexivity|].
  cbn [nleb FL]. rewrite Bltb_fval in O. rewrite Bleb_fval in H, K. rewrite !Bleb_fval.
  set (x0 := fval r0) in *; set (x1 := fval r1) in *; set (h := fval hi) in *; set (h' := fval hi') in *; set (l := fval lo) in *.
  assert (W : forall x, xleb x h' = true -> xleb x h = true) by (intros x X; exact (xleb_trans _ _ _ X H)).
  destruct (xleb l x0 && xleb x0 h) eqn:A, (xleb l x0 && xleb x0 h') eqn:A'.
  - reflexivity.
  - apply andb_true_iff in A. destruct A as [A1 A2]. rewrite A1 in A'. cbn [andb] in A'. split.
    + intros Q. injection Q as <-. fold x0 in K. congruence.
    + destruct (xleb l x1 && xleb x1 h') eqn:B; [|discriminate]. intros Q. injection Q as <-. fold x1 in K. exfalso.
      revert A2 A' K O H. generalize x0 x1 h h'. clear. intros [x0| | |] [x1| | |] [h| | |] [h'| | |]; cbn [xleb xltb]; try discriminate.
      all: try (destruct (Rleb_spec x0 h), (Rleb_spec x0 h'), (Rleb_spec x1 h'), (Rltb_spec x1 x0), (Rleb_spec h' h); try discriminate; lra).
      all: destruct (Rleb_spec x0 h'), (Rleb_spec x1 h'), (Rltb_spec x1 x0); try discriminate; lra.
  - apply andb_true_iff in A'. destruct A' as [A1 A2]. rewrite A1, (W _ A2) in A. discriminate.
  - destruct (xleb l x1 && xleb x1 h) eqn:B, (xleb l x1 && xleb x1 h') eqn:B'; try reflexivity; try (split; discriminate).
    + split; [|discriminate]. intros Q. injection Q as <-. fold x1 in K. apply andb_true_iff in B. destruct B as [B1 B2]. rewrite B1, K in B'. discriminate.
    + apply andb_true_iff in B'. destruct B' as [B1 B2]. rewrite B1, (W _ B2) in B. discriminate.
Qed.
Lemma first_root_in : forall a b c lo hi t, first_quadratic_root_in_range (F:=N) a b c lo hi = Some t -> Bleb lo t = true /\ Bleb t hi = true.
Proof.
  intros a b c lo hi t. unfold first_quadratic_root_in_range. destruct (quadratic_roots (F:=N) a b c) as [|r0 [|r1 [|]]]; try discriminate. cbn [nleb FL].
  destruct (Bleb lo r0 && Bleb r0 hi) eqn:A; [intros Q; injection Q as <-; apply andb_true_iff; exact A|].
  destruct (Bleb lo r1 && Bleb r1 hi) eqn:B; [|discriminate]. intros Q; injection Q as <-; apply andb_true_iff; exact B.
Qed.
Lemma round_closed : forall r lo o, round_object (F:=N) o -> closed r lo o.
Proof.
  assert (G : forall r lo (o : hittable (F:=N)) a b c (write : float -> record -> record), (forall t rec, h_t (write t rec) = t) ->
    (forall hi rec, hit o r lo hi rec = match first_quadratic_root_in_range (F:=N) a b c lo hi with None => Ok (false, rec) | Some t => Ok (true, write t rec) end) -> closed r lo o).
  { intros r lo o a b c write W H. exists (first_quadratic_root_in_range (F:=N) a b c lo), write. split; [exact W|]. split; [|split].
    - intros hi rec. rewrite H. destruct (first_quadratic_root_in_range (F:=N) a b c lo hi); reflexivity.
    - intros hi t. apply first_root_in.
    - intros hi hi' t. apply first_root_closed. }
  intros r lo o [(s & ->)|(s & ->)].
  - eapply (G r lo _ _ _ _ (fun t rec => let rec := set_t t rec in
    let rec := set_p (ray_at (F:=N) r (h_t rec)) rec in
    let rec := set_face_normal (F:=N) r (vdiv (F:=N) (vsub (F:=N) (h_p rec) (s_center s)) (s_radius s)) rec in
    let rec := set_v (snd (sphere_uv (F:=N) s (h_p rec))) (set_u (fst (sphere_uv (F:=N) s (h_p rec))) rec) in
    sphere_forms (F:=N) s (set_grad (nmul (NumOps:=N) (nofZ (NumOps:=N) 2) (s_radius s)) rec))); [reflexivity|].
    intros hi rec. cbn [hit of_sphere]. unfold sphere_hit. reflexivity.
  - eapply (G r lo _ _ _ _ (fun t rec => let sc := el_scales s in let rec := set_t t rec in
    let rec := set_p (ray_at (F:=N) r (h_t rec)) rec in
    let n := vsub (F:=N) (h_p rec) (el_center s) in
    let n := V3 (nmul (NumOps:=N) (vx n) (ndiv (NumOps:=N) (nofZ (NumOps:=N) 2) (nmul (NumOps:=N) (vx sc) (vx sc))))
                (nmul (NumOps:=N) (vy n) (ndiv (NumOps:=N) (nofZ (NumOps:=N) 2) (nmul (NumOps:=N) (vy sc) (vy sc))))
                (nmul (NumOps:=N) (vz n) (ndiv (NumOps:=N) (nofZ (NumOps:=N) 2) (nmul (NumOps:=N) (vz sc) (vz sc)))) in
    let rec := set_grad (norm (F:=N) n) rec in
    let n := vdiv (F:=N) n (h_grad rec) in
    let rec := set_v (snd (ellipsoid_uv (F:=N) s (h_p rec))) (set_u (fst (ellipsoid_uv (F:=N) s (h_p rec))) rec) in
    set_face_normal (F:=N) r n (ellipsoid_forms (F:=N) s rec))); [reflexivity|].
    intros hi rec. cbn [hit of_ellipsoid]. unfold ellipsoid_hit. reflexivity.
Qed.

Notation reports := (reports (F:=N)).
Lemma reports_root : forall r lo o, closed r lo o ->
  (forall hi rec, exists b rec', hit o r lo hi rec = Ok (b, rec') /\ (b = false -> rec' = rec /\ forall t, ~ reports r lo hi o t) /\ (b = true -> forall t, reports r lo hi o t -> t = h_t rec')) /\
  (forall hi t, reports r lo hi o t -> Bleb lo t = true /\ Bleb t hi = true) /\
  (forall hi hi' t, Bleb hi' hi = true -> Bleb t hi' = true -> (reports r lo hi o t <-> reports r lo hi' o t)) /\
  (forall hi hi' rec rec', Bleb hi' hi = true -> hit o r lo hi' rec = Ok (true, rec') -> hit o r lo hi rec = Ok (true, rec')).
Proof.
  intros r lo o (root & write & W & H & In_ & Nar).
  assert (R : forall hi t, reports r lo hi o t <-> root hi = Some t).
  { intros hi t. split.
    - intros (rec & rec' & E & T). rewrite H in E. destruct (root hi) as [t'|]; [|discriminate]. injection E as <-. rewrite W in T. exact (f_equal Some T).
    - intros E. exists (HR (V3 B754_nan B754_nan B754_nan) (V3 B754_nan B754_nan B754_nan) B754_nan B754_nan B754_nan B754_nan true B754_nan B754_nan B754_nan B754_nan B754_nan B754_nan B754_nan).
      eexists. split; [rewrite H, E; reflexivity|apply W]. }
  split; [|split; [|split]].
  - intros hi rec. rewrite H. destruct (root hi) as [t|] eqn:E; [exists true, (write t rec)|exists false, rec]; (split; [reflexivity|]); (split; [|]); try discriminate.
    + intros _ t' Q. apply R in Q. rewrite W. congruence.
    + intros _. split; [reflexivity|]. intros t' Q. apply R in Q. congruence.
  - intros hi t Q. apply R in Q. exact (In_ _ _ Q).
  - intros hi hi' t A B. rewrite !R. exact (Nar hi hi' t A B).
  - intros hi hi' rec rec' A E. rewrite H in E |- *. destruct (root hi') as [t|] eqn:Q; [|discriminate]. injection E as <-. rewrite (proj2 (Nar hi hi' t A (proj2 (In_ _ _ Q))) Q). reflexivity.
Qed.
Lemma exposed_leaf : forall r lo t tree o, exposed (F:=N) r lo t tree o -> In o (tree_leaves (F:=N) tree).
Proof. intros r lo t tree o. induction tree as [o'|l IHl rt IHr box]; cbn [exposed tree_leaves]; [intros ->; left; reflexivity|]. intros (_ & [E|E]); apply in_or_app; auto. Qed.

Lemma tree_hit : forall r lo tree, (forall o, In o (tree_leaves (F:=N) tree) -> round_object (F:=N) o) -> forall hi rec,
  exists b rec', bvh_hit (F:=N) tree r lo hi rec = Ok (b, rec') /\
  (b = false -> rec' = rec /\ forall o t, exposed (F:=N) r lo t tree o -> ~ reports r lo hi o t) /\
  (b = true -> (exists o, In o (tree_leaves (F:=N) tree) /\ exists temp, hit o r lo hi temp = Ok (true, rec')) /\ Bleb lo (h_t rec') = true /\ Bleb (h_t rec') hi = true /\
    forall o t, exposed (F:=N) r lo t tree o -> reports r lo hi o t -> Bleb (h_t rec') t = true).
Proof.
  intros r lo tree. induction tree as [o|l IHl rt IHr box]; intros A hi rec.
  - cbn [bvh_hit exposed tree_leaves] in *. destruct (reports_root r lo o (round_closed r lo o (A o (or_introl eq_refl)))) as (R1 & R2 & _). destruct (R1 hi rec) as (b & rec' & E & F0 & T0). exists b, rec'. split; [exact E|]. split.
    + intros Eb. destruct (F0 Eb) as [-> No]. split; [reflexivity|]. intros o' t -> Q. exact (No t Q).
    + intros Eb. subst b. assert (Q : reports r lo hi o (h_t rec')) by (exists rec, rec'; auto). destruct (R2 _ _ Q) as [Q1 Q2]. split; [exists o; split; [left; reflexivity|exists rec; exact E]|]. split; [exact Q1|]. split; [exact Q2|].
      intros o' t -> Q'. rewrite (T0 eq_refl _ Q'). rewrite Bleb_fval in *. destruct (fval (h_t rec')) as [z| | |], (fval lo) as [y| | |]; try discriminate Q1; try reflexivity; apply Rleb_true; lra.
  - cbn [bvh_hit tree_leaves] in *.
    assert (Al : forall o, In o (tree_leaves (F:=N) l) -> round_object (F:=N) o) by (intros o I; apply A; apply in_or_app; auto).
    assert (Ar : forall o, In o (tree_leaves (F:=N) rt) -> round_object (F:=N) o) by (intros o I; apply A; apply in_or_app; auto).
    destruct (aabb_hit (F:=N) box r lo hi) eqn:C.
    2:{ exists false, rec. split; [reflexivity|]. split; [|discriminate]. intros _. split; [reflexivity|]. intros o t Ex Q. pose proof (exposed_leaf _ _ _ _ _ Ex) as I. cbn [exposed] in Ex. destruct Ex as [Bx _].
        destruct (reports_root r lo o (round_closed r lo o (A o I))) as (_ & R2 & _). destruct (R2 _ _ Q) as [_ Q2]. rewrite (Bx hi Q2) in C. discriminate. }
    destruct (IHl Al hi rec) as (bl & recl & El & Fl & Tl). change (@num N) with float in *. rewrite El. cbn [obind]. destruct bl.
    + destruct (Tl eq_refl) as ((ol & Il & templ & Hl) & Ll & Ul & Nl). destruct (IHr Ar (h_t recl) recl) as (br & recr & Er & Fr & Tr). change (@num N) with float in *. rewrite Er. cbn [obind orb]. exists true, recr. split; [reflexivity|]. split; [discriminate|]. intros _.
      destruct br.
      * destruct (Tr eq_refl) as ((o_r & Ir & tempr & Hr) & Lr & Ur & Nr).
        split. { exists o_r. split; [apply in_or_app; right; exact Ir|]. exists tempr. destruct (reports_root r lo o_r (round_closed r lo o_r (Ar _ Ir))) as (_ & _ & _ & R4). exact (R4 hi (h_t recl) tempr recr Ul Hr). }
        split; [exact Lr|]. split; [rewrite Bleb_fval in *; exact (xleb_trans _ _ _ Ur Ul)|].
        intros o t Ex Q. cbn [exposed] in Ex. destruct Ex as (_ & [Ex|Ex]).
        -- pose proof (Nl o t Ex Q) as K. rewrite Bleb_fval in *. exact (xleb_trans _ _ _ Ur K).
        -- destruct (Bleb t (h_t recl)) eqn:K.
           ++ apply (Nr o t Ex). apply (proj1 (proj2 (proj2 (reports_root r lo o (round_closed r lo o (Ar _ (exposed_leaf _ _ _ _ _ Ex)))))) hi (h_t recl) t Ul K). exact Q.
           ++ destruct (proj1 (proj2 (reports_root r lo o (round_closed r lo o (Ar _ (exposed_leaf _ _ _ _ _ Ex))))) hi t Q) as [_ Q2]. rewrite Bleb_fval in *.
              revert Ur Ul K Q2. generalize (fval (h_t recr)) (fval (h_t recl)) (fval hi) (fval t). clear. intros [a| | |] [b| | |] [c| | |] [d| | |]; cbn [xleb]; intros; try discriminate; try reflexivity;
                destruct (Rleb_spec a b), (Rleb_spec d b); try discriminate; apply Rleb_true; lra.
      * destruct (Fr eq_refl) as [-> No]. split; [exists ol; split; [apply in_or_app; left; exact Il|exists templ; exact Hl]|]. split; [exact Ll|]. split; [exact Ul|].
        intros o t Ex Q. cbn [exposed] in Ex. destruct Ex as (_ & [Ex|Ex]); [exact (Nl o t Ex Q)|].
        pose proof (reports_root r lo o (round_closed r lo o (Ar _ (exposed_leaf _ _ _ _ _ Ex)))) as (_ & R2 & R3 & _). destruct (R2 _ _ Q) as [_ Q2].
        destruct (Bleb t (h_t recl)) eqn:K; [exfalso; apply (No o t Ex); apply (R3 hi (h_t recl) t Ul K); exact Q|]. rewrite Bleb_fval in *.
        revert Ul K Q2. generalize (fval (h_t recl)) (fval hi) (fval t). clear. intros [b| | |] [c| | |] [d| | |]; cbn [xleb]; intros; try discriminate; try reflexivity; destruct (Rleb_spec d b); try discriminate; apply Rleb_true; lra.
    + destruct (Fl eq_refl) as [-> Nol]. destruct (IHr Ar hi rec) as (br & recr & Er & Fr & Tr). change (@num N) with float in *. rewrite Er. cbn [obind orb]. exists br, recr. split; [reflexivity|]. split.
      * intros Eb. destruct (Fr Eb) as [-> No]. split; [reflexivity|]. intros o t Ex. cbn [exposed] in Ex. destruct Ex as (_ & [Ex|Ex]); [exact (Nol o t Ex)|exact (No o t Ex)].
      * intros Eb. destruct (Tr Eb) as ((o_r & Ir & Hr) & Lr & Ur & Nr). split; [exists o_r; split; [apply in_or_app; right; exact Ir|exact Hr]|]. split; [exact Lr|]. split; [exact Ur|].
        intros o t Ex Q. cbn [exposed] in Ex. destruct Ex as (_ & [Ex|Ex]); [destruct (Nol o t Ex Q)|exact (Nr o t Ex Q)].
Qed.
End Float.
