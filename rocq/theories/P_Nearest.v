(** Nearest hits in floating point. *)
From Coq Require Import Reals ZArith Lra Lia List Bool Permutation.
From Flocq Require Import Core IEEE754.BinarySingleNaN.
From Verif Require Import Num XR FL M_Vec M_Roots M_Hittable M_Shapes Spec_Nearest P_FL P_Quadratic.
Import ListNotations.
Local Open Scope R_scope.

Lemma xltb_trans : forall a b c, xltb a b = true -> xltb b c = true -> xltb a c = true.
Proof.
  intros [a| | |] [b| | |] [c| | |]; cbn [xltb]; intros H K; try discriminate; try reflexivity.
  apply Rltb_iff in H; apply Rltb_iff in K; apply Rltb_iff; lra.
Qed.
Lemma xltb_xleb : forall a b, xltb a b = true -> xleb a b = true.
Proof. intros [a| | |] [b| | |]; cbn [xltb xleb]; intros H; try discriminate; try reflexivity. apply Rltb_iff in H. apply Rleb_true. lra. Qed.
Lemma xleb_xltb : forall a b c, xleb a b = true -> xltb b c = true -> xleb a c = true.
Proof.
  intros [a| | |] [b| | |] [c| | |]; cbn [xltb xleb]; intros H K; try discriminate; try reflexivity.
  apply Rltb_iff in K. destruct (Rleb_spec a b); [|discriminate]. apply Rleb_true. lra.
Qed.
Lemma xleb_not : forall a b, xleb a b = true -> xltb b a = false.
Proof. intros [a| | |] [b| | |]; cbn [xltb xleb]; intros H; try discriminate; try reflexivity. destruct (Rleb_spec a b); [|discriminate]. apply Rltb_false. lra. Qed.
Lemma xltb_xleb_trans : forall a b c, xltb a b = true -> xleb c a = true -> xltb c b = true.
Proof.
  intros [a| | |] [b| | |] [c| | |]; cbn [xltb xleb]; intros H K; try discriminate; try reflexivity.
  apply Rltb_iff in H. destruct (Rleb_spec c a); [|discriminate]. apply Rltb_iff. lra.
Qed.
(** a number which is below one and not below the other is not NaN *)
Lemma xltb_split : forall t h g, xltb t h = true -> xltb g h = true -> xltb t g = false -> xleb g t = true.
Proof.
  intros [t| | |] [h| | |] [g| | |]; cbn [xltb xleb]; intros H K N; try discriminate; try reflexivity.
  all: destruct (Rltb_spec t g); [discriminate|]; apply Rleb_true; lra.
Qed.

Section Float.
Variables prec emax : Z.
Variable Hp : Prec_gt_0 prec.
Variable Hm : Prec_lt_emax prec emax.
Variable lm : libm (binary_float prec emax).
Notation float := (binary_float prec emax).
Notation N := (FL prec emax Hp Hm lm).
Notation record := (hit_record float).

(** what the loop of hittable_list needs to know of an object *)
Definition steady (r : ray float) (lo : float) (o : hittable (F:=N)) : Prop :=
  exists (root : float -> option float) (write : float -> record -> record),
  (forall hi t rec, root hi = Some t -> h_t (write t rec) = t) /\
  (forall hi rec, hit o r lo hi rec = Ok match root hi with None => (false, rec) | Some t => (true, write t rec) end) /\
  (forall hi t, root hi = Some t -> Bltb t lo = false) /\
  (forall hi hi' t, Bltb hi' hi = true -> Bltb t hi' = true -> (root hi = Some t <-> root hi' = Some t)).

Lemma first_root_steady : forall a b c lo hi hi' t, Bltb hi' hi = true -> Bltb t hi' = true ->
  (first_quadratic_root_in_range (F:=N) a b c lo hi = Some t <-> first_quadratic_root_in_range (F:=N) a b c lo hi' = Some t).
Proof.
  intros a b c lo hi hi' t H K. unfold first_quadratic_root_in_range.
  destruct (quadratic_roots_shape prec emax Hp Hm lm a b c) as [E|(r0 & r1 & E & O)]; rewrite E; [reflexivity|].
  cbn [nleb FL]. rewrite Bltb_fval in H, K, O. rewrite !Bleb_fval.
  set (x0 := fval r0) in *; set (x1 := fval r1) in *; set (h := fval hi) in *; set (h' := fval hi') in *; set (l := fval lo) in *.
  assert (W : forall x, xleb x h' = true -> xleb x h = true) by (intros x X; exact (xleb_xltb _ _ _ X H)).
  destruct (xleb l x0 && xleb x0 h) eqn:A, (xleb l x0 && xleb x0 h') eqn:A'.
  - reflexivity.
  - apply andb_true_iff in A. destruct A as [A1 A2]. rewrite A1 in A'. cbn [andb] in A'. split.
    + intros Q. injection Q as <-. fold x0 in K. rewrite (xltb_xleb _ _ K) in A'. discriminate.
    + destruct (xleb l x1 && xleb x1 h') eqn:B; [|discriminate]. intros Q. injection Q as <-. fold x1 in K. exfalso.
      apply andb_true_iff in B. destruct B as [_ B].
      revert A2 A' B O H. generalize x0 x1 h h'. clear. intros [x0| | |] [x1| | |] [h| | |] [h'| | |]; cbn [xleb xltb]; try discriminate.
      * destruct (Rleb_spec x0 h), (Rleb_spec x0 h'), (Rleb_spec x1 h'), (Rltb_spec x1 x0), (Rltb_spec h' h); try discriminate; lra.
      * destruct (Rleb_spec x0 h'), (Rleb_spec x1 h'), (Rltb_spec x1 x0); try discriminate; lra.
  - apply andb_true_iff in A'. destruct A' as [A1 A2]. rewrite A1, (W _ A2) in A. discriminate.
  - destruct (xleb l x1 && xleb x1 h) eqn:B, (xleb l x1 && xleb x1 h') eqn:B'; try reflexivity; try (split; discriminate).
    + split; [|discriminate]. intros Q. injection Q as <-. fold x1 in K. apply andb_true_iff in B. destruct B as [B1 B2]. rewrite B1, (xltb_xleb _ _ K) in B'. discriminate.
    + apply andb_true_iff in B'. destruct B' as [B1 B2]. rewrite B1, (W _ B2) in B. discriminate.
Qed.
Lemma first_root_window : forall a b c lo hi t, first_quadratic_root_in_range (F:=N) a b c lo hi = Some t -> Bltb t lo = false.
Proof.
  intros a b c lo hi t. unfold first_quadratic_root_in_range. destruct (quadratic_roots (F:=N) a b c) as [|r0 [|r1 [|]]]; try discriminate. cbn [nleb FL].
  destruct (Bleb lo r0 && Bleb r0 hi) eqn:A; [intros Q; injection Q as <-; apply andb_true_iff in A; destruct A as [A _]|
    destruct (Bleb lo r1 && Bleb r1 hi) eqn:B; [|discriminate]; intros Q; injection Q as <-; apply andb_true_iff in B; clear A; destruct B as [A _]];
    rewrite Bleb_fval in A; rewrite Bltb_fval; apply xleb_not; exact A.
Qed.
Lemma steady_first : forall r lo (o : hittable (F:=N)) a b c (write : float -> record -> record), (forall t rec, h_t (write t rec) = t) ->
  (forall hi rec, hit o r lo hi rec = match first_quadratic_root_in_range (F:=N) a b c lo hi with None => Ok (false, rec) | Some t => Ok (true, write t rec) end) -> steady r lo o.
Proof.
  intros r lo o a b c write W H. exists (first_quadratic_root_in_range (F:=N) a b c lo), write. split; [intros hi t rec _; apply W|]. split; [|split].
  - intros hi rec. rewrite H. destruct (first_quadratic_root_in_range (F:=N) a b c lo hi); reflexivity.
  - intros hi t. apply first_root_window.
  - intros hi hi' t. apply first_root_steady.
Qed.
Lemma sphere_steady : forall r lo s, steady r lo (of_sphere (F:=N) s).
Proof.
  intros r lo s. eapply (steady_first r lo _ _ _ _ (fun t rec => let rec := set_t t rec in
    let rec := set_p (ray_at (F:=N) r (h_t rec)) rec in
    let rec := set_face_normal (F:=N) r (vdiv (F:=N) (vsub (F:=N) (h_p rec) (s_center s)) (s_radius s)) rec in
    let rec := set_v (snd (sphere_uv (F:=N) s (h_p rec))) (set_u (fst (sphere_uv (F:=N) s (h_p rec))) rec) in
    sphere_forms (F:=N) s (set_grad (nmul (NumOps:=N) (nofZ (NumOps:=N) 2) (s_radius s)) rec))); [reflexivity|].
  intros hi rec. cbn [hit of_sphere]. unfold sphere_hit. reflexivity.
Qed.
Lemma ellipsoid_steady : forall r lo s, steady r lo (of_ellipsoid (F:=N) s).
Proof.
  intros r lo s. eapply (steady_first r lo _ _ _ _ (fun t rec => let sc := el_scales s in let rec := set_t t rec in
    let rec := set_p (ray_at (F:=N) r (h_t rec)) rec in
    let n := vsub (F:=N) (h_p rec) (el_center s) in
    let n := V3 (nmul (NumOps:=N) (vx n) (ndiv (NumOps:=N) (nofZ (NumOps:=N) 2) (nmul (NumOps:=N) (vx sc) (vx sc))))
                (nmul (NumOps:=N) (vy n) (ndiv (NumOps:=N) (nofZ (NumOps:=N) 2) (nmul (NumOps:=N) (vy sc) (vy sc))))
                (nmul (NumOps:=N) (vz n) (ndiv (NumOps:=N) (nofZ (NumOps:=N) 2) (nmul (NumOps:=N) (vz sc) (vz sc)))) in
    let rec := set_grad (norm (F:=N) n) rec in
    let n := vdiv (F:=N) n (h_grad rec) in
    let rec := set_v (snd (ellipsoid_uv (F:=N) s (h_p rec))) (set_u (fst (ellipsoid_uv (F:=N) s (h_p rec))) rec) in
    set_face_normal (F:=N) r n (ellipsoid_forms (F:=N) s rec))); [reflexivity|].
  intros hi rec. cbn [hit of_ellipsoid]. unfold ellipsoid_hit. reflexivity.
Qed.
(** one parameter, found without the window, and tests which do not look at it *)
Lemma steady_single : forall r lo (o : hittable (F:=N)) (before after : bool) t (write : record -> record), (forall rec, h_t (write rec) = t) ->
  (forall hi rec, hit o r lo hi rec = if before then Ok (false, rec) else if Bltb t lo || Bltb hi t then Ok (false, rec) else if after then Ok (false, rec) else Ok (true, write rec)) -> steady r lo o.
Proof.
  intros r lo o before after t write W H. exists (fun hi => if before then None else if Bltb t lo || Bltb hi t then None else if after then None else Some t), (fun _ => write).
  assert (A : forall hi t', (if before then None else if Bltb t lo || Bltb hi t then None else if after then None else Some t) = Some t' -> t' = t /\ Bltb t lo = false).
  { intros hi t'. destruct before; [discriminate|]. destruct (Bltb t lo); [discriminate|]. destruct (Bltb hi t), after; try discriminate. intros Q. injection Q as <-. auto. }
  split; [|split; [|split]].
  - intros hi t' rec E. rewrite (proj1 (A _ _ E)). apply W.
  - intros hi rec. rewrite H. destruct before, (Bltb t lo), (Bltb hi t), after; reflexivity.
  - intros hi t' E. destruct (A _ _ E) as [-> Q]. exact Q.
  - intros hi hi' t' K T. destruct before; [reflexivity|]. destruct (Bltb t lo); [reflexivity|]. cbn [orb].
    assert (B : t' = t -> Bltb hi t = false /\ Bltb hi' t = false).
    { intros ->. rewrite !Bltb_fval in *. split; apply xleb_not, xltb_xleb; [exact (xltb_trans _ _ _ T K)|exact T]. }
    destruct after; [destruct (Bltb hi t), (Bltb hi' t); reflexivity|].
    destruct (Bltb hi t) eqn:C, (Bltb hi' t) eqn:D; try reflexivity; split; try discriminate; intros Q; injection Q as Q; destruct (B (eq_sym Q)); congruence.
Qed.
Lemma disk_steady : forall r lo k, steady r lo (of_disk (F:=N) k).
Proof.
  intros r lo k. eapply (steady_single r lo); [|intros hi rec; cbn [hit of_disk]; unfold disk_hit; cbv zeta; reflexivity]. intros rec. reflexivity.
Qed.
Lemma rect_steady : forall r lo n q o1 o2 o3 d1 d2 d3 (o : hittable (F:=N)), (forall hi rec, hit o r lo hi rec = rect_hit (F:=N) n q o1 o2 o3 d1 d2 d3 r lo hi rec) -> steady r lo o.
Proof.
  intros r lo n q o1 o2 o3 d1 d2 d3 o E. eapply (steady_single r lo _ false); [|intros hi rec; rewrite E; unfold rect_hit; cbv zeta; reflexivity]. intros rec. reflexivity.
Qed.
Lemma simple_steady : forall r lo o, simple_object (F:=N) o -> steady r lo o.
Proof.
  intros r lo o [(s & ->)|[(s & ->)|[(k & ->)|[(q & ->)|[(q & ->)|(q & ->)]]]]].
  - apply sphere_steady.
  - apply ellipsoid_steady.
  - apply disk_steady.
  - eapply rect_steady. intros hi rec. cbn [hit of_xy]. unfold xy_hit. reflexivity.
  - eapply rect_steady. intros hi rec. cbn [hit of_xz]. unfold xz_hit. reflexivity.
  - eapply rect_steady. intros hi rec. cbn [hit of_yz]. unfold yz_hit. reflexivity.
Qed.

(** ** The loop *)
Notation seenf := (seen (F:=N)).
Lemma seen_root : forall r lo o, steady r lo o -> exists (root : float -> option float) (write : float -> record -> record),
  (forall hi t rec, root hi = Some t -> h_t (write t rec) = t) /\
  (forall hi rec, hit o r lo hi rec = Ok match root hi with None => (false, rec) | Some t => (true, write t rec) end) /\
  (forall hi t, root hi = Some t -> Bltb t lo = false) /\
  (forall hi t, seenf r lo hi o t <-> root hi = Some t /\ Bltb t hi = true) /\
  (forall hi hi' t, Bltb hi' hi = true -> Bltb t hi' = true -> (root hi = Some t <-> root hi' = Some t)).
Proof.
  intros r lo o (root & write & W & H & Lo & Nar). exists root, write. split; [exact W|]. split; [exact H|]. split; [exact Lo|]. split; [|exact Nar].
  intros hi t. split.
  - intros (B & rec & rec' & E & T). rewrite H in E. destruct (root hi) as [t'|] eqn:R; [|discriminate]. injection E as <-. rewrite (W _ _ _ R) in T. subst t'. auto.
  - intros (R & B). split; [exact B|]. exists (HR (V3 B754_nan B754_nan B754_nan) (V3 B754_nan B754_nan B754_nan) B754_nan B754_nan B754_nan B754_nan true B754_nan B754_nan B754_nan B754_nan B754_nan B754_nan B754_nan).
    eexists. split; [rewrite H, R; reflexivity|]. apply (W _ _ _ R).
Qed.
Lemma seen_narrow : forall r lo o hi hi' t, steady r lo o -> Bltb hi' hi = true -> (seenf r lo hi' o t <-> seenf r lo hi o t /\ Bltb t hi' = true).
Proof.
  intros r lo o hi hi' t S K. destruct (seen_root r lo o S) as (root & write & _ & _ & _ & Se & Nar). rewrite !Se. split.
  - intros (R & B). split; [split|exact B]; [apply (Nar hi hi' t K B); exact R|]. rewrite !Bltb_fval in *. exact (xltb_trans _ _ _ B K).
  - intros ((R & _) & B). split; [apply (Nar hi hi' t K B); exact R|exact B].
Qed.
Lemma loop_nearest : forall r lo objs i temp hi rec idx, (forall o, In o objs -> steady r lo o) ->
  exists idx' rec', list_loop (F:=N) r lo i objs temp hi rec idx = Ok (idx', rec') /\
  ((idx' = idx /\ rec' = rec /\ forall o t, In o objs -> ~ seenf r lo hi o t) \/
   (exists front o back, objs = front ++ o :: back /\ idx' = Some (i + length front)%nat /\ seenf r lo hi o (h_t rec') /\ Bltb (h_t rec') lo = false /\
     (exists temp', hit o r lo hi temp' = Ok (true, rec')) /\
     (forall o' t', In o' objs -> seenf r lo hi o' t' -> Bleb (h_t rec') t' = true) /\
     (forall o' t', In o' front -> seenf r lo hi o' t' -> Bltb (h_t rec') t' = true))).
Proof.
  intros r lo objs. induction objs as [|o objs IH]; intros i temp hi rec idx A.
  - exists idx, rec. split; [reflexivity|]. left. split; [reflexivity|]. split; [reflexivity|]. intros o t [].
  - destruct (seen_root r lo o (A o (or_introl eq_refl))) as (root & write & W & H & Lo & Se & Nar). cbn [list_loop]. rewrite H. cbn [obind].
    assert (A' : forall o, In o objs -> steady r lo o) by (intros o' I; apply A; right; exact I).
    destruct (root hi) as [t|] eqn:R.
    + cbn [obind]. change (@num N) with float. rewrite (W hi t temp R). cbn [nltb FL]. destruct (Bltb t hi) eqn:B.
      * destruct (IH (S i) (write t temp) t (write t temp) (Some i) A') as (idx' & rec' & E & Q). exists idx', rec'. split; [exact E|]. right.
        destruct Q as [(-> & -> & No)|(front & o1 & back & -> & -> & Se1 & L1 & (temp1 & E1) & All & Fr)].
        -- exists [], o, objs. rewrite (W hi t temp R). split; [reflexivity|]. split; [cbn [length]; rewrite Nat.add_0_r; reflexivity|]. split; [apply Se; auto|]. split; [exact (Lo _ _ R)|].
           split; [exists temp; rewrite H, R; reflexivity|]. split; [|intros o' t' []]. intros o' t' [<-|I] Q.
           ++ apply Se in Q. destruct Q as [Q1 Q2]. rewrite R in Q1. injection Q1 as <-. rewrite Bltb_fval in Q2. rewrite Bleb_fval. destruct (fval t) as [z| | |]; try reflexivity; [apply Rleb_true; lra|destruct (fval hi); discriminate].
           ++ destruct (Bltb t' t) eqn:K; [exfalso; apply (No o' t' I); apply (seen_narrow r lo o' hi t t' (A' _ I) B); auto|]. destruct Q as [Q _]. cbn [nltb FL] in Q. rewrite Bltb_fval in *. rewrite Bleb_fval. exact (xltb_split _ _ _ Q B K).
        -- exists (o :: front), o1, back. split; [reflexivity|]. split; [cbn [length]; f_equal; lia|]. pose proof Se1 as [Lt _]. cbn [nltb FL] in Lt.
           assert (I1 : In o1 (front ++ o1 :: back)) by (apply in_or_app; right; left; reflexivity).
           split; [apply (seen_narrow r lo o1 hi t _ (A' _ I1) B) in Se1; apply Se1|]. split; [exact L1|].
           split. { exists temp1. destruct (seen_root r lo o1 (A' _ I1)) as (root1 & write1 & W1 & H1 & _ & _ & Nar1). rewrite H1 in E1 |- *. destruct (root1 t) as [t1|] eqn:R1; [|discriminate]. injection E1 as <-.
             rewrite (W1 _ _ _ R1) in Lt. rewrite (proj2 (Nar1 hi t t1 B Lt) R1). reflexivity. }
           assert (Rest : forall o' t', In o' (front ++ o1 :: back) -> seenf r lo hi o' t' -> Bltb t' t = false -> Bltb (h_t rec') t' = true).
           { intros o' t' I Q K. destruct Q as [Q _]. cbn [nltb FL] in Q. rewrite Bltb_fval in *. pose proof (xltb_split _ _ _ Q B K) as Z0.
             revert Z0 Lt. generalize (fval t) (fval t') (fval (h_t rec')). clear. intros [x| | |] [y| | |] [z| | |]; cbn [xleb xltb]; intros; try discriminate; try reflexivity.
             destruct (Rleb_spec x y), (Rltb_spec z x); try discriminate. apply Rltb_true. lra. }
           split.
           ++ intros o' t' [<-|I] Q.
              ** apply Se in Q. destruct Q as [Q1 _]. rewrite R in Q1. injection Q1 as <-. rewrite Bltb_fval in Lt. rewrite Bleb_fval. apply xltb_xleb. exact Lt.
              ** destruct (Bltb t' t) eqn:K; [apply (All o' t' I); apply (seen_narrow r lo o' hi t t' (A' _ I) B); auto|]. pose proof (Rest o' t' I Q K) as Z1. rewrite Bltb_fval in Z1. rewrite Bleb_fval. apply xltb_xleb. exact Z1.
           ++ intros o' t' [<-|I] Q.
              ** apply Se in Q. destruct Q as [Q1 _]. rewrite R in Q1. injection Q1 as <-. exact Lt.
              ** assert (I' : In o' (front ++ o1 :: back)) by (apply in_or_app; left; exact I).
                 destruct (Bltb t' t) eqn:K; [apply (Fr o' t' I); apply (seen_narrow r lo o' hi t t' (A' _ I') B); auto|exact (Rest o' t' I' Q K)].
      * destruct (IH (S i) (write t temp) hi rec idx A') as (idx' & rec' & E & Q). exists idx', rec'. split; [exact E|].
        assert (Me : forall t', ~ seenf r lo hi o t'). { intros t' Q'. apply Se in Q'. destruct Q' as [Q1 Q2]. rewrite R in Q1. injection Q1 as <-. congruence. }
        destruct Q as [(-> & -> & No)|(front & o1 & back & -> & -> & Se1 & L1 & E1 & All & Fr)]; [left; split; [reflexivity|]; split; [reflexivity|]; intros o' t' [<-|I]; [apply Me|apply (No o' t' I)]|].
        right. exists (o :: front), o1, back. split; [reflexivity|]. split; [cbn [length]; f_equal; lia|]. split; [exact Se1|]. split; [exact L1|]. split; [exact E1|].
        split; intros o' t' [<-|I] Q; [destruct (Me _ Q)|apply (All o' t' I Q)|destruct (Me _ Q)|apply (Fr o' t' I Q)].
    + destruct (IH (S i) temp hi rec idx A') as (idx' & rec' & E & Q). exists idx', rec'. split; [exact E|].
      assert (Me : forall t', ~ seenf r lo hi o t'). { intros t' Q'. apply Se in Q'. destruct Q' as [Q1 Q2]. rewrite R in Q1. discriminate. }
      destruct Q as [(-> & -> & No)|(front & o1 & back & -> & -> & Se1 & L1 & E1 & All & Fr)]; [left; split; [reflexivity|]; split; [reflexivity|]; intros o' t' [<-|I]; [apply Me|apply (No o' t' I)]|].
      right. exists (o :: front), o1, back. split; [reflexivity|]. split; [cbn [length]; f_equal; lia|]. split; [exact Se1|]. split; [exact L1|]. split; [exact E1|].
      split; intros o' t' [<-|I] Q; [destruct (Me _ Q)|apply (All o' t' I Q)|destruct (Me _ Q)|apply (Fr o' t' I Q)].
Qed.

Lemma scene_with_gen : forall M (items : list (hittable (F:=N) * M)) (s : hittable_list (F:=N) (M:=M)),
  let s' := fold_left (fun s '(o, m) => add s o m) items s in
  objects s' = objects s ++ map fst items /\ materials s' = materials s ++ map snd items.
Proof.
  induction items as [|[o m] items IH]; intros s; simpl.
  - now rewrite !app_nil_r.
  - destruct (IH (add s o m)) as [E1 E2]. simpl in *. rewrite E1, E2, <- !app_assoc. auto.
Qed.
Lemma nearest_float : forall M (items : list (hittable (F:=N) * M)) temp0 (r : ray float) (lo hi : float) rec, (forall o m, In (o, m) items -> simple_object (F:=N) o) ->
  exists res rec', list_hit (F:=N) temp0 (scene_with (F:=N) items) r lo hi rec = Ok (res, rec') /\
  match res with
  | Some m => exists front o back, items = front ++ (o, m) :: back /\ (exists temp, hit o r lo hi temp = Ok (true, rec')) /\
      Bltb (h_t rec') hi = true /\ (is_nan lo = false -> Bleb lo (h_t rec') = true) /\
      (forall o' m' t', In (o', m') items -> seen (F:=N) r lo hi o' t' -> Bleb (h_t rec') t' = true) /\
      (forall o' m' t', In (o', m') front -> seen (F:=N) r lo hi o' t' -> Bltb (h_t rec') t' = true)
  | None => rec' = rec /\ forall o m t, In (o, m) items -> ~ seen (F:=N) r lo hi o t
  end.
Proof.
  intros M items temp0 r lo hi rec A. unfold list_hit. destruct (scene_with_gen M items empty_list) as [Eo Em]. change (fold_left _ items empty_list) with (scene_with (F:=N) items) in Eo, Em. cbn [objects materials empty_list app] in Eo, Em.
  rewrite Eo, Em. assert (St : forall o, In o (map fst items) -> steady r lo o). { intros o I. apply in_map_iff in I. destruct I as ([o' m] & <- & I). apply simple_steady. exact (A _ _ I). }
  destruct (loop_nearest r lo (map fst items) 0 temp0 hi rec None St) as (idx & rec' & E & Q). change (@num N) with float in *. rewrite E. cbn [obind].
  destruct Q as [(-> & -> & No)|(front & o & back & Ei & -> & Se & L1 & T & All & Fr)].
  - exists None, rec. split; [reflexivity|]. split; [reflexivity|]. intros o m t I. apply No. apply in_map_iff. exists (o, m). auto.
  - cbn [Nat.add]. apply map_eq_app in Ei. destruct Ei as (f1 & b1 & -> & <- & Eb). destruct b1 as [|[o1 m] b1]; [discriminate|]. cbn [map fst] in Eb. injection Eb as -> <-.
    rewrite map_app, nth_error_app2 by (rewrite !map_length; lia). rewrite !map_length, Nat.sub_diag. cbn [map snd nth_error]. exists (Some m), rec'. split; [reflexivity|].
    exists f1, o, b1. split; [reflexivity|]. split; [exact T|]. destruct Se as [B _]. cbn [nltb FL] in B. split; [exact B|]. split; [|split].
    + intros Nl. rewrite Bltb_fval in L1, B. rewrite Bleb_fval. assert (fval lo <> NaN) by (clear -Nl; destruct lo as [s|[]| |s m e B0]; try discriminate Nl; unfold fval; discriminate). revert L1 B H. generalize (fval lo) (fval hi) (fval (h_t rec')). clear.
      intros [x| | |] [y| | |] [z| | |]; cbn [xleb xltb]; intros; try discriminate; try reflexivity; try congruence; destruct (Rltb_spec z x); try discriminate; apply Rleb_true; lra.
    + intros o' m' t' I. apply All. apply in_map_iff. exists (o', m'). auto.
    + intros o' m' t' I. apply Fr. apply in_map_iff. exists (o', m'). auto.
Qed.
Lemma nearest_order : forall M (items items' : list (hittable (F:=N) * M)) temp0 temp0' (r : ray float) (lo hi : float) rec0 rec0', Permutation items items' -> (forall o m, In (o, m) items -> simple_object (F:=N) o) ->
  exists res rec res' rec', list_hit (F:=N) temp0 (scene_with (F:=N) items) r lo hi rec0 = Ok (res, rec) /\ list_hit (F:=N) temp0' (scene_with (F:=N) items') r lo hi rec0' = Ok (res', rec') /\
  (res = None <-> res' = None) /\ (res <> None -> Beqb (h_t rec) (h_t rec') = true).
Proof.
  intros M items items' temp0 temp0' r lo hi rec0 rec0' P A.
  assert (A' : forall o m, In (o, m) items' -> simple_object (F:=N) o) by (intros o m I; apply (A o m); apply (Permutation_in _ (Permutation_sym P)); exact I).
  destruct (nearest_float M items temp0 r lo hi rec0 A) as (res & rec & E & Q). destruct (nearest_float M items' temp0' r lo hi rec0' A') as (res' & rec' & E' & Q').
  exists res, rec, res', rec'. split; [exact E|]. split; [exact E'|].
  assert (S1 : forall (o : hittable (F:=N)) h, Bltb (h_t h) hi = true -> (exists temp, hit o r lo hi temp = Ok (true, h)) -> seen (F:=N) r lo hi o (h_t h)).
  { intros o h B (temp & T). split; [exact B|]. exists temp, h. auto. }
  destruct res as [m|], res' as [m'|].
  - destruct Q as (f & o & b & -> & T & B & _ & All & _), Q' as (f' & o' & b' & -> & T' & B' & _ & All' & _).
    split; [split; discriminate|]. intros _.
    assert (I : In (o, m) (f' ++ (o', m') :: b')) by (apply (Permutation_in _ P); apply in_or_app; right; left; reflexivity).
    assert (I' : In (o', m') (f ++ (o, m) :: b)) by (apply (Permutation_in _ (Permutation_sym P)); apply in_or_app; right; left; reflexivity).
    pose proof (All _ _ _ I' (S1 o' rec' B' T')) as L1. pose proof (All' _ _ _ I (S1 o rec B T)) as L2.
    change (@num N) with float in *. rewrite Bleb_fval in L1, L2. rewrite Beqb_fval. revert L1 L2. generalize (fval (h_t rec)) (fval (h_t rec')). clear. intros [x| | |] [y| | |]; cbn [xleb xeqb]; intros; try discriminate; try reflexivity.
    destruct (Rleb_spec x y), (Rleb_spec y x); try discriminate. apply Reqb_iff. lra.
  - exfalso. destruct Q as (f & o & b & -> & T & B & _), Q' as [_ No]. apply (No o m (h_t rec)); [apply (Permutation_in _ P); apply in_or_app; right; left; reflexivity|]. apply S1; assumption.
  - exfalso. destruct Q' as (f & o & b & -> & T & B & _), Q as [_ No]. apply (No o m' (h_t rec')); [apply (Permutation_in _ (Permutation_sym P)); apply in_or_app; right; left; reflexivity|]. apply S1; assumption.
  - split; [tauto|congruence].
Qed.
End Float.
