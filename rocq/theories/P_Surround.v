(** surrounding_box (C37). *)
From Coq Require Import Reals ZArith Lra List Bool.
From Flocq Require Import BinarySingleNaN Core.
From Verif Require Import Num XR FL P_FL M_Vec M_Hittable Spec Spec_Scene.
Local Open Scope R_scope.

(** comparisons restricted to non-NaN values form a total order *)
Definition total_order (F : NumOps) : Prop :=
  (forall a b : num, nisnan a = false -> nisnan b = false -> nltb a b = negb (nleb b a)) /\
  (forall a b : num, nisnan a = false -> nisnan b = false -> nleb a b = true \/ nleb b a = true) /\
  (forall a b c : num, nleb a b = true -> nleb b c = true -> nleb a c = true).

Section Order.
Context {F : NumOps}.
Hypothesis T : total_order F.

Lemma fmin_spec : forall a b : num, nisnan a = false -> nisnan b = false ->
  nisnan (c_fmin a b) = false /\ nleb (c_fmin a b) a = true /\ nleb (c_fmin a b) b = true /\
  (forall c, nleb c a = true -> nleb c b = true -> nleb c (c_fmin a b) = true).
Proof.
  destruct T as [LT [TO TR]]. intros a b Ha Hb. unfold c_fmin. rewrite Ha, Hb, LT by auto.
  destruct (nleb a b) eqn:E; simpl.
  - repeat split; auto. destruct (TO a a Ha Ha); auto.
  - repeat split; auto; [destruct (TO a b Ha Hb); congruence|destruct (TO b b Hb Hb); auto].
Qed.
Lemma fmax_spec : forall a b : num, nisnan a = false -> nisnan b = false ->
  nisnan (c_fmax a b) = false /\ nleb a (c_fmax a b) = true /\ nleb b (c_fmax a b) = true /\
  (forall c, nleb a c = true -> nleb b c = true -> nleb (c_fmax a b) c = true).
Proof.
  destruct T as [LT [TO TR]]. intros a b Ha Hb. unfold c_fmax. rewrite Ha, Hb, LT by auto.
  destruct (nleb b a) eqn:E; simpl.
  - repeat split; auto. destruct (TO a a Ha Ha); auto.
  - repeat split; auto; [destruct (TO a b Ha Hb); congruence|destruct (TO b b Hb Hb); auto].
Qed.

Lemma surrounding_least : forall a b : aabb num, no_nan_box a -> no_nan_box b ->
  no_nan_box (surrounding_box a b) /\
  box_le a (surrounding_box a b) /\ box_le b (surrounding_box a b) /\
  forall c, box_le a c -> box_le b c -> box_le (surrounding_box a b) c.
Proof.
  intros [[a1 a2 a3] [A1 A2 A3]] [[b1 b2 b3] [B1 B2 B3]].
  unfold no_nan_box, box_le, surrounding_box; cbn [b_min b_max vx vy vz].
  intros [P1 [P2 [P3 [P4 [P5 P6]]]]] [Q1 [Q2 [Q3 [Q4 [Q5 Q6]]]]].
  destruct (fmin_spec a1 b1 P1 Q1) as [? [? [? K1]]], (fmin_spec a2 b2 P2 Q2) as [? [? [? K2]]],
    (fmin_spec a3 b3 P3 Q3) as [? [? [? K3]]], (fmax_spec A1 B1 P4 Q4) as [? [? [? K4]]],
    (fmax_spec A2 B2 P5 Q5) as [? [? [? K5]]], (fmax_spec A3 B3 P6 Q6) as [? [? [? K6]]].
  repeat (split; [tauto|]).
  intros [[c1 c2 c3] [C1 C2 C3]]; cbn [b_min b_max vx vy vz].
  intros [R1 [R2 [R3 [R4 [R5 R6]]]]] [S1 [S2 [S3 [S4 [S5 S6]]]]].
  repeat split; auto.
Qed.
End Order.

Lemma xr_order : forall L, total_order (XR L).
Proof.
  intros L; unfold total_order; xred. repeat split.
  - intros [a| | |] [b| | |]; cbn; try discriminate; auto. intros _ _. repeat rcase; auto; lra.
  - intros [a| | |] [b| | |]; cbn; try discriminate; auto. intros _ _.
    destruct (Rle_or_lt a b); [left|right]; apply Rleb_true; lra.
  - intros [a| | |] [b| | |] [c| | |]; cbn; try discriminate; auto.
    rewrite !Rleb_iff. intros; lra.
Qed.

Lemma fl_order : forall prec emax Hp Hm lm, total_order (FL prec emax Hp Hm lm).
Proof.
  intros. destruct (xr_order double_limits) as [X1 [X2 X3]].
  assert (N : forall x : binary_float prec emax, is_nan x = false -> xisnan (fval x) = false)
    by (intros [s|[|]| |]; simpl; auto).
  unfold total_order; change (@num (FL prec emax Hp Hm lm)) with (binary_float prec emax).
  repeat split.
  - intros a b Ha Hb. change (Bltb a b = negb (Bleb b a)). rewrite Bltb_fval, Bleb_fval.
    apply X1; apply N; assumption.
  - intros a b Ha Hb. change (Bleb a b = true \/ Bleb b a = true). rewrite !Bleb_fval.
    apply X2; apply N; assumption.
  - intros a b c. change (Bleb a b = true -> Bleb b c = true -> Bleb a c = true). rewrite !Bleb_fval. apply X3.
Qed.

Lemma surrounding_box_xr : forall L (a b : aabb xr), no_nan_box (F:=XR L) a -> no_nan_box (F:=XR L) b ->
  box_le (F:=XR L) a (surrounding_box (F:=XR L) a b) /\
  box_le (F:=XR L) b (surrounding_box (F:=XR L) a b) /\
  forall c, box_le (F:=XR L) a c -> box_le (F:=XR L) b c -> box_le (F:=XR L) (surrounding_box (F:=XR L) a b) c.
Proof. intros L a b Ha Hb. exact (proj2 (surrounding_least (xr_order L) a b Ha Hb)). Qed.

Lemma surrounding_box_fl : forall prec emax Hp Hm lm (a b : aabb (binary_float prec emax)),
  let F := FL prec emax Hp Hm lm in
  no_nan_box (F:=F) a -> no_nan_box (F:=F) b ->
  box_le (F:=F) a (surrounding_box (F:=F) a b) /\ box_le (F:=F) b (surrounding_box (F:=F) a b) /\
  forall c, box_le (F:=F) a c -> box_le (F:=F) b c -> box_le (F:=F) (surrounding_box (F:=F) a b) c.
Proof.
  intros prec emax Hp Hm lm a b F Ha Hb.
  exact (proj2 (surrounding_least (fl_order prec emax Hp Hm lm) a b Ha Hb)).
Qed.

(** on real boxes: every point of either box is in the surrounding one *)
Lemma surrounding_box_real : forall L (a b : aabb R), exists s,
  surrounding_box (F:=XR L) (finbox a) (finbox b) = finbox s /\
  box_within a s /\ box_within b s /\
  (forall c, (exists p, in_box a p) -> (exists p, in_box b p) ->
     box_within a c -> box_within b c -> box_within s c).
Proof.
  intros L [[a1 a2 a3] [A1 A2 A3]] [[b1 b2 b3] [B1 B2 B3]].
  exists (Box (V3 (Rmin a1 b1) (Rmin a2 b2) (Rmin a3 b3)) (V3 (Rmax A1 B1) (Rmax A2 B2) (Rmax A3 B3))).
  assert (Mn : forall x y, c_fmin (F:=XR L) (Fin x) (Fin y) = Fin (Rmin x y)).
  { intros; unfold c_fmin; xred. rcase; f_equal; unfold Rmin; destruct (Rle_dec x y); lra. }
  assert (Mx : forall x y, c_fmax (F:=XR L) (Fin x) (Fin y) = Fin (Rmax x y)).
  { intros; unfold c_fmax; xred. rcase; f_equal; unfold Rmax; destruct (Rle_dec x y); lra. }
  split.
  { unfold surrounding_box, finbox, fin3, map3; cbn [b_min b_max vx vy vz].
    rewrite !Mn, !Mx. reflexivity. }
  pose proof (Rmin_l a1 b1); pose proof (Rmin_r a1 b1); pose proof (Rmin_l a2 b2); pose proof (Rmin_r a2 b2);
  pose proof (Rmin_l a3 b3); pose proof (Rmin_r a3 b3); pose proof (Rmax_l A1 B1); pose proof (Rmax_r A1 B1);
  pose proof (Rmax_l A2 B2); pose proof (Rmax_r A2 B2); pose proof (Rmax_l A3 B3); pose proof (Rmax_r A3 B3).
  unfold box_within, in_box; cbn [b_min b_max vx vy vz].
  split; [intros p ?; lra|]. split; [intros p ?; lra|].
  intros [[c1 c2 c3] [C1 C2 C3]] [p Hp] [q Hq] KA KB [x y z]; cbn [b_min b_max vx vy vz] in *.
  pose proof (KA (V3 a1 a2 a3)) as KA1; pose proof (KA (V3 A1 A2 A3)) as KA2.
  pose proof (KB (V3 b1 b2 b3)) as KB1; pose proof (KB (V3 B1 B2 B3)) as KB2. cbn in *.
  specialize (KA1 ltac:(lra)); specialize (KA2 ltac:(lra)); specialize (KB1 ltac:(lra)); specialize (KB2 ltac:(lra)).
  assert (c1 <= Rmin a1 b1) by (apply Rmin_glb; lra). assert (c2 <= Rmin a2 b2) by (apply Rmin_glb; lra).
  assert (c3 <= Rmin a3 b3) by (apply Rmin_glb; lra). assert (Rmax A1 B1 <= C1) by (apply Rmax_lub; lra).
  assert (Rmax A2 B2 <= C2) by (apply Rmax_lub; lra). assert (Rmax A3 B3 <= C3) by (apply Rmax_lub; lra).
  intros; lra.
Qed.
