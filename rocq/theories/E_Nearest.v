(** Concrete cases for the nearest hits in floating point, on doubles. *)
From Coq Require Import Reals Lra ZArith Lia List Bool.
From Flocq Require Import Core BinarySingleNaN.
From Verif Require Import Num XR FL M_Vec M_Roots M_Hittable M_Shapes Spec Spec_Scene Spec_Accuracy Spec_Nearest Spec_Hierarchy P_FL E_Accuracy.
Import ListNotations.

Definition near64 : sphere binary64 := Sphere (V3 (d64 0 0) (d64 0 0) (d64 5 0)) (d64 1 0).
Definition far64 : sphere binary64 := Sphere (V3 (d64 0 0) (d64 0 0) (d64 9 0)) (d64 1 0).
Definition up64 : ray binary64 := Ray (V3 (d64 1 (-1)) (d64 0 0) (d64 0 0)) (V3 (d64 0 0) (d64 0 0) (d64 1 0)).
Definition two64 (lm : libm binary64) : list (hittable (F:=F64 lm) * bool) := [(of_sphere (F:=F64 lm) far64, false); (of_sphere (F:=F64 lm) near64, true)].
Definition blank64 : hit_record binary64 := let n := B754_nan in HR (V3 n n n) (V3 n n n) n n n n true n n n n n n n.
Section Root.
Context {F : NumOps}.
Local Open Scope num_scope.
Definition root_of (s : sphere num) (r : ray num) (lo hi : num) : option num :=
  let oc := vsub (r_orig r) (s_center s) in
  first_quadratic_root_in_range (squared_norm (r_dir r)) (#2 * dot oc (r_dir r)) (squared_norm oc - s_radius s * s_radius s) lo hi.
Lemma root_hit : forall s r lo hi t rec, root_of s r lo hi = Some t -> exists rec', sphere_hit s r lo hi rec = Ok (true, rec') /\ h_t rec' = t.
Proof. intros s r lo hi t rec E. unfold sphere_hit. unfold root_of in E. cbv zeta in E |- *. rewrite E. eexists. split; reflexivity. Qed.
End Root.
Lemma opt : forall (A : Type) (x : option A) (P : A -> bool), match x with Some t => P t | None => false end = true -> exists t, x = Some t /\ P t = true.
Proof. intros A [t|] P H; [exists t; auto|discriminate]. Qed.
(** in any arithmetic: the sphere is seen between two given parameters *)
Section Found.
Context {F : NumOps}.
Lemma found_between : forall s r lo hi a b (rec : hit_record num), match root_of s r lo hi with Some t => nltb a t && nltb t b && nltb t hi | None => false end = true ->
  exists t, nltb a t = true /\ nltb t b = true /\ seen r lo hi (of_sphere s) t /\ reports r lo hi (of_sphere s) t.
Proof.
  intros s r lo hi a b rec H. apply opt in H. destruct H as (t & E & H). apply andb_true_iff in H. destruct H as [H H3]. apply andb_true_iff in H. destruct H as [H1 H2].
  destruct (root_hit s r lo hi t rec E) as (rec' & E' & T). exists t. split; [exact H1|]. split; [exact H2|]. split; [split; [exact H3|]|]; exists rec, rec'; auto.
Qed.
End Found.
Lemma near_found : forall lm, exists t, Bltb (d64 33 (-3)) t = true /\ Bltb t (d64 6 0) = true /\ seen (F:=F64 lm) up64 (d64 1 (-10)) (B754_infinity false) (of_sphere (F:=F64 lm) near64) t /\
  reports (F:=F64 lm) up64 (d64 1 (-10)) (B754_infinity false) (of_sphere (F:=F64 lm) near64) t.
Proof. intros lm. apply (found_between (F:=F64 lm) near64 up64 (d64 1 (-10)) (B754_infinity false) (d64 33 (-3)) (d64 6 0) blank64). vm_compute. reflexivity. Qed.
Lemma far_found : forall lm, exists t, Bltb (d64 6 0) t = true /\ Bltb t (d64 10 0) = true /\ seen (F:=F64 lm) up64 (d64 1 (-10)) (B754_infinity false) (of_sphere (F:=F64 lm) far64) t /\
  reports (F:=F64 lm) up64 (d64 1 (-10)) (B754_infinity false) (of_sphere (F:=F64 lm) far64) t.
Proof. intros lm. apply (found_between (F:=F64 lm) far64 up64 (d64 1 (-10)) (B754_infinity false) (d64 6 0) (d64 10 0) blank64). vm_compute. reflexivity. Qed.
Lemma two64_case : forall lm, (forall o m, In (o, m) (two64 lm) -> simple_object (F:=F64 lm) o) /\
  exists t t', seen (F:=F64 lm) up64 (d64 1 (-10)) (B754_infinity false) (of_sphere (F:=F64 lm) near64) t /\ seen (F:=F64 lm) up64 (d64 1 (-10)) (B754_infinity false) (of_sphere (F:=F64 lm) far64) t' /\
    Bltb t (d64 6 0) = true /\ Bltb (d64 6 0) t' = true.
Proof.
  intros lm. split.
  - intros o m [E|[E|[]]]; injection E as <- <-; left; eexists; reflexivity.
  - destruct (near_found lm) as (t & _ & A & B & _). destruct (far_found lm) as (t' & A' & _ & B' & _). exists t, t'. auto.
Qed.
Local Open Scope R_scope.
Lemma d64_small : forall m, (Z.abs m <= 1000)%Z -> fval (d64 m 0) = Fin (IZR m).
Proof. intros m M. rewrite d64_val by lia. f_equal. cbn [bpow]. ring. Qed.
Lemma small_moderate : forall m, (Z.abs m <= 1000)%Z -> moderate 450 (IZR m).
Proof.
  intros m M. destruct (Z.eq_dec m 0) as [->|Z0]; [left; reflexivity|]. replace (IZR m) with (IZR m * bpow radix2 0) by (cbn [bpow]; ring). apply moderate_pow; lia.
Qed.
Definition ball_box (z : Z) : aabb R := Box (V3 (-1) (-1) (IZR (z - 1))) (V3 1 1 (IZR (z + 1))).
Lemma ball_value : forall lm z, (z = 5 \/ z = 9)%Z -> exists fb, bounding_box (of_sphere (F:=F64 lm) (Sphere (V3 (d64 0 0) (d64 0 0) (d64 z 0)) (d64 1 0))) = Some fb /\ box_value 53 1024 450 fb (ball_box z).
Proof.
  intros lm z Hz. exists (Box (V3 (d64 (-1) 0) (d64 (-1) 0) (d64 (z - 1) 0)) (V3 (d64 1 0) (d64 1 0) (d64 (z + 1) 0))). split.
  - cbn [bounding_box of_sphere]. unfold sphere_box, vsub, vadd; cbn [s_center s_radius vx vy vz]. f_equal. f_equal; f_equal; apply B2SF_inj; destruct Hz as [->| ->]; vm_compute; reflexivity.
  - unfold box_value, ball_box, fin3, map3, moderate3; cbn [b_min b_max vx vy vz]. rewrite !d64_small by lia. split; [reflexivity|]. split; [reflexivity|].
    split; (split; [|split]); apply small_moderate; lia.
Qed.
Lemma tree64_case : forall lm, (2 * 450 + 2 * 53 + 8 <= 1024)%Z /\ (forall o, In o (map fst (two64 lm)) -> round_object (F:=F64 lm) o /\ exists fb b, bounding_box o = Some fb /\ box_value 53 1024 450 fb b) /\
  (let r := Ray (V3 (/ 2) 0 0) (V3 0 0 1) in (map3 fval (r_orig up64) = fin3 (r_orig r) /\ map3 fval (r_dir up64) = fin3 (r_dir r) /\ moderate3 450 (r_orig r) /\ moderate3 450 (r_dir r)) /\
   exists fb b t, bounding_box (of_sphere (F:=F64 lm) near64) = Some fb /\ box_value 53 1024 450 fb b /\ reports (F:=F64 lm) up64 (d64 1 (-10)) (B754_infinity false) (of_sphere (F:=F64 lm) near64) t /\ passes 53 r (fval (d64 1 (-10))) (fval t) b).
Proof.
  intros lm. split; [lia|]. split.
  - intros o [<-|[<-|[]]]; (split; [left; eexists; reflexivity|]); [destruct (ball_value lm 9 (or_intror eq_refl)) as (fb & E)|destruct (ball_value lm 5 (or_introl eq_refl)) as (fb & E)]; exists fb; eexists; exact E.
  - assert (H2 : fval (d64 1 (-1)) = Fin (/ 2)) by (rewrite d64_val by lia; f_equal; cbn; lra).
    split.
    + unfold up64, fin3, map3, moderate3; cbn [r_orig r_dir vx vy vz]. rewrite H2, !d64_small by lia. split; [reflexivity|]. split; [reflexivity|].
      split; (split; [|split]); try (left; reflexivity); [|apply (small_moderate 1); lia]. replace (/ 2) with (IZR 1 * bpow radix2 (-1)) by (cbn; lra). apply moderate_pow; lia.
    + destruct (ball_value lm 5 (or_introl eq_refl)) as (fb & E & V). destruct (near_found lm) as (t & A & _ & _ & A').
      exists fb, (ball_box 5), t. split; [exact E|]. split; [exact V|]. split; [exact A'|].
      rewrite Bltb_fval in A. rewrite d64_val in A by lia. exists 4, (33 / 8). split; [|split; [|split]].
      * rewrite d64_val by lia. cbn. lra.
      * destruct (fval t) as [x| | |]; cbn [xltb at_most] in *; try discriminate; try exact I. destruct (Rltb_spec (33 * bpow radix2 (-3)) x); [|discriminate]. cbn in H. lra.
      * rewrite !Rabs_pos_eq by lra. assert (bpow radix2 (- (53)) <= bpow radix2 (-20)) by (apply bpow_le; lia).
        change (bpow radix2 (-20)) with (/ IZR (2 ^ 20)) in H. change (IZR (2 ^ 20)) with 1048576 in H. lra.
      * unfold in_box, pointR, lineR, ball_box; cbn [b_min b_max r_orig r_dir vx vy vz addR scaleR]. change (IZR (5 - 1)) with 4. change (IZR (5 + 1)) with 6. lra.
Qed.
