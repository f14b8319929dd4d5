(** The example programs in floating point. *)
From Coq Require Import String Reals Lra ZArith Lia List Bool.
From Flocq Require Import Core BinarySingleNaN.
From Verif Require Import Spec_Random Num XR FL Spec Spec_Image Spec_Nearest Spec_Shown M_Vec M_Rng M_Hittable M_Materials M_Shapes M_Image M_World M_Programs M_Fog
  P_FL P_Round P_Shows P_Shown.
Import ListNotations.
Local Open Scope R_scope.

Section Programs.
Variables prec emax : Z.
Context (Hp : Prec_gt_0 prec) (Hm : Prec_lt_emax prec emax).
Variable lm : libm (binary_float prec emax).
Hypothesis P24 : (24 <= prec)%Z.
Hypothesis E128 : (128 <= emax)%Z.
Notation float := (binary_float prec emax).
Notation format := (generic_format radix2 (SpecFloat.fexp prec emax)).
Notation N := (FL prec emax Hp Hm lm).
Notation at_most := (Spec_Shown.at_most prec emax).
Notation at_most3 := (Spec_Shown.at_most3 prec emax).
Notation answers := (answers prec emax Hp Hm lm).
Notation moderate := (moderate_material prec emax Hp Hm lm).
Notation word_state := (word_state prec emax Hp Hm lm).
Notation b2 := (bpow radix2).

Lemma program_shown : forall (p : program (F:=N)) e height order s, (SpecFloat.emin prec emax <= e)%Z -> (e + prec < emax)%Z ->
  (forall o m, In (o, m) (p_items p) -> answers o /\ moderate (b2 e) m) -> at_most3 (b2 e) (p_background p) -> p_height p = Ok height ->
  (0 < p_width p)%Z -> (0 < height)%Z -> (1 <= p_spp p)%nat -> (8 * Z.of_nat (p_spp p) <= 2 ^ prec)%Z -> schedule (p_width p) height order -> word_state s ->
  exists k img, (forall fuel, (k <= fuel)%nat -> run (F:=N) p fuel order s = Ok img) /\
    List.length img = Z.to_nat (4 * p_width p * height) /\ Forall byte img /\
    forall i j d, (0 <= i < p_width p)%Z -> (0 <= j < height)%Z -> nth (offset (p_width p) height i j 3) img d = 255%Z.
Proof.
  intros p e height order s E1 E2 I Bg Eh W H S1 S2 So Ws.
  destruct (scene_shown prec emax Hp Hm lm P24 E128 e E1 E2 (number (F:=N) 0 (p_items p)) (p_background p)) with (cam := p_camera (F:=N) p) (width := p_width p) (height := height) (spp := p_spp p) (order := order) (s := s)
    as (k & img & R & Rest); try assumption.
  { intros o m J. apply number_in in J. apply I. exact J. }
  exists k, img. split; [|exact Rest]. intros fuel Hf. unfold run. rewrite Eh. cbn [obind]. apply R. exact Hf.
Qed.

(** *** literals *)
Lemma big_prec : (2 ^ 24 <= 2 ^ prec)%Z.
Proof. apply Z.pow_le_mono_r; lia. Qed.
Lemma small_format : forall n e, (0 <= n <= 2 ^ 24)%Z -> (-60 <= e <= 60)%Z -> format (IZR n * b2 e) /\ IZR n * b2 e <= b2 (emax - 1).
Proof.
  intros n e Hn He. pose proof big_prec. unfold Prec_lt_emax in Hm. split.
  - apply format_F2R; [exact Hp|lia|]. unfold SpecFloat.emin. lia.
  - apply Rle_trans with (b2 24 * b2 60); [|rewrite <- bpow_plus; apply bpow_le; lia]. apply Rmult_le_compat; [apply (IZR_le 0); lia|apply bpow_ge_0| |apply bpow_le; lia].
    rewrite <- (IZR_Zpower radix2) by lia. apply IZR_le. apply Hn.
Qed.
Lemma int_upto : forall n e, (0 <= n <= 2 ^ 24)%Z -> IZR n <= b2 e -> at_most (b2 e) (nofZ (NumOps:=N) n).
Proof. intros n e Hn He. pose proof big_prec. exists (IZR n). split; [apply val_fval; apply integer_upto; [exact P24|exact E128|lia]|]. split; [apply (IZR_le 0); lia|exact He]. Qed.
Lemma dec_upto : forall n d e, (-60 <= e <= 60)%Z -> (0 <= n <= 2 ^ 24)%Z -> (1 <= d <= 2 ^ 24)%Z -> IZR n <= b2 e * IZR d -> at_most (b2 e) (dec (F:=N) n d).
Proof.
  intros n d e He Hn Hd L. pose proof big_prec. assert (D : 1 <= IZR d) by (apply IZR_le; lia). assert (N0 : 0 <= IZR n) by (apply (IZR_le 0); lia).
  destruct (small_format 1 e ltac:(lia) He) as [F S]. rewrite Rmult_1_l in F, S.
  assert (M : 0 <= IZR n / IZR d <= b2 e).
  { split; [apply Rmult_le_pos; [lra|left; apply Rinv_0_lt_compat; lra]|]. apply Rmult_le_reg_r with (IZR d); [lra|]. unfold Rdiv. rewrite Rmult_assoc, Rinv_l by lra. lra. }
  pose proof (div_val prec emax Hp Hm lm _ _ _ _ (integer_upto prec emax Hp Hm lm P24 E128 n ltac:(lia)) (integer_upto prec emax Hp Hm lm P24 E128 d ltac:(lia)) ltac:(lra) ltac:(rewrite Rabs_pos_eq; lra)) as V.
  eexists. split; [apply val_fval; exact V|]. apply rnd_between; assumption.
Qed.
Lemma half_upto : forall x, at_most 1 x -> at_most (b2 (-1)) (ndiv (NumOps:=N) x (nofZ (NumOps:=N) 2)).
Proof.
  intros x (a & X & A). apply val_fval in X. destruct (small_format 1 (-1) ltac:(lia) ltac:(lia)) as [F S]. rewrite Rmult_1_l in F, S. pose proof big_prec.
  assert (H2 : b2 (-1) = / 2) by reflexivity.
  pose proof (div_val prec emax Hp Hm lm x _ a _ X (integer_upto prec emax Hp Hm lm P24 E128 2 ltac:(lia)) ltac:(lra) ltac:(rewrite Rabs_pos_eq; lra)) as V.
  eexists. split; [apply val_fval; exact V|]. apply rnd_between; [exact Hp|exact F|lra].
Qed.
Lemma metal_upto : forall x, at_most 1 x -> at_most 1 (nadd (NumOps:=N) (ndiv (NumOps:=N) x (nofZ (NumOps:=N) 2)) (dec (F:=N) 5 10)).
Proof.
  intros x H. destruct (small_format 1 0 ltac:(lia) ltac:(lia)) as [F S]. rewrite Rmult_1_l in F, S. change (b2 0) with 1 in *.
  assert (E : b2 (-1) + b2 (-1) = 1) by (change (b2 (-1)) with (/ 2); lra).
  replace 1 with (b2 (-1) + b2 (-1)). apply plus_upto; rewrite ?E; try assumption; [apply half_upto; exact H|].
  apply dec_upto; try lia. change (b2 (-1)) with (/ 2). lra.
Qed.
Lemma product_upto : forall x y, at_most 1 x -> at_most 1 y -> at_most 1 (nmul (NumOps:=N) x y).
Proof. intros x y X Y. destruct (small_format 1 0 ltac:(lia) ltac:(lia)) as [F S]. rewrite Rmult_1_l in F, S. change (b2 0) with 1 in *. apply mult_upto; assumption. Qed.

(** *** render_spheres.cpp *)
Lemma ball_item : forall c r m b, moderate b m -> answers (of_sphere (F:=N) (Sphere c r)) /\ moderate b m.
Proof. intros c r m b M. split; [apply simple_answers; left; eauto|exact M]. Qed.
Lemma glass_moderate : forall ir b, 0 <= b -> moderate b (glass (F:=N) ir).
Proof. intros ir b B rec. unfold solid_color. repeat split; apply zero_upto; exact B. Qed.
Lemma cell_upto : forall a b d, (forall n, at_most 1 (d n)) -> (forall o m, In (o, m) (fst (cell (F:=N) a b d)) -> answers o /\ moderate 1 m) /\ forall n, at_most 1 (snd (cell (F:=N) a b d) n).
Proof.
  intros a b d U. unfold cell. cbv zeta.
  repeat match goal with |- context [if ?b then _ else _] => destruct b end; cbn [fst snd]; (split; [intros o m I|intros n; apply U]).
  1-3: destruct I as [I|[]]; apply pair_equal_spec in I; destruct I as [<- <-].
  - apply ball_item. intros rec. repeat split; apply product_upto; apply U.
  - apply ball_item. intros rec. repeat split; apply metal_upto; apply U.
  - apply ball_item. apply glass_moderate. lra.
  - destruct I.
Qed.
Lemma place_upto : forall cells d o m, (forall n, at_most 1 (d n)) -> In (o, m) (place (F:=N) cells d) -> answers o /\ moderate 1 m.
Proof.
  induction cells as [|[a b] cells IH]; intros d o m U I; [destruct I|]. cbn [place] in I. destruct (cell_upto a b d U) as [C U'].
  destruct (cell (F:=N) a b d) as [x d']. cbn [fst snd] in *. apply in_app_or in I. destruct I as [I|I]; [apply C; exact I|apply (IH d'); assumption].
Qed.
Lemma powers : b2 0 = 1 /\ b2 2 = 4 /\ b2 3 = 8.
Proof. cbn. lra. Qed.
Ltac literal := cbn [vx vy vz]; destruct powers as (?P0 & ?P2 & ?P3); first [apply dec_upto; [lia|lia|lia|lra] | apply int_upto; [lia|lra]].
Lemma random_scene_upto : forall d o m, (forall n, at_most 1 (d n)) -> In (o, m) (random_scene (F:=N) d) -> answers o /\ moderate 1 m.
Proof.
  intros d o m U [I|I].
  - apply pair_equal_spec in I; destruct I as [<- <-]. apply ball_item. intros rec. unfold checker_texture, solid_color. change 1 with (b2 0). match goal with |- context [if ?b then _ else _] => destruct b end; repeat split; literal.
  - apply in_app_or in I. destruct I as [I|I]; [apply (place_upto M_Programs.grid d); assumption|].
    destruct I as [I|[I|[I|[]]]]; (apply pair_equal_spec in I; destruct I as [<- <-]); apply ball_item; [apply glass_moderate; lra|..]; intros rec; change 1 with (b2 0); repeat split; literal.
Qed.
Lemma exponents : forall e, (-60 <= e <= 60)%Z -> (SpecFloat.emin prec emax <= e)%Z.
Proof. intros e He. unfold SpecFloat.emin. unfold Prec_lt_emax in Hm. lia. Qed.
Hypothesis room : (prec + 4 < emax)%Z.
Lemma spheres_float : forall d order s, (forall n, at_most 1 (d n)) -> height_of (F:=N) 1800 (dec (F:=N) 16 10) = Ok 1125%Z -> schedule 1800 1125 order -> word_state s ->
  exists k img, (forall fuel, (k <= fuel)%nat -> run (F:=N) (render_spheres (F:=N) d) fuel order s = Ok img) /\
    List.length img = Z.to_nat (4 * 1800 * 1125) /\ Forall byte img /\ forall i j z, (0 <= i < 1800)%Z -> (0 <= j < 1125)%Z -> nth (offset 1800 1125 i j 3) img z = 255%Z.
Proof.
  intros d order s U H So W. pose proof big_prec.
  apply (program_shown (render_spheres (F:=N) d) 0 1125 order s); cbn [render_spheres p_items p_background p_height p_width p_spp]; try assumption; try lia.
  - apply exponents. lia.
  - intros o m I. change (b2 0) with 1. apply (random_scene_upto d); assumption.
  - repeat split; literal.
Qed.
Lemma lights_float : forall order s, height_of (F:=N) 1800 (dec (F:=N) 16 10) = Ok 1125%Z -> schedule 1800 1125 order -> word_state s ->
  exists k img, (forall fuel, (k <= fuel)%nat -> run (F:=N) (with_lights (F:=N)) fuel order s = Ok img) /\
    List.length img = Z.to_nat (4 * 1800 * 1125) /\ Forall byte img /\ forall i j z, (0 <= i < 1800)%Z -> (0 <= j < 1125)%Z -> nth (offset 1800 1125 i j 3) img z = 255%Z.
Proof.
  intros order s H So W. pose proof big_prec.
  apply (program_shown (with_lights (F:=N)) 2 1125 order s); cbn [with_lights p_items p_background p_height p_width p_spp]; try assumption; try lia.
  - apply exponents. lia.
  - intros o m [I|[I|[I|[]]]]; apply pair_equal_spec in I; destruct I as [<- <-].
    + apply ball_item. intros rec. unfold checker_texture, solid_color. change 1 with (b2 0). match goal with |- context [if ?b then _ else _] => destruct b end; repeat split; literal.
    + apply ball_item. intros rec. change 1 with (b2 0). repeat split; literal.
    + split; [apply simple_answers; right; right; right; left; eauto|]. intros rec. repeat split; literal.
  - repeat split; literal.
Qed.
Lemma can_float : forall order s, to_int64 (F:=N) (ndiv (NumOps:=N) (nofZ (NumOps:=N) 1200) (dec (F:=N) 16 10)) = Ok 750%Z -> schedule 1200 750 order -> word_state s ->
  exists k img, (forall fuel, (k <= fuel)%nat -> run (F:=N) (cylinder_program (F:=N)) fuel order s = Ok img) /\
    List.length img = Z.to_nat (4 * 1200 * 750) /\ Forall byte img /\ forall i j z, (0 <= i < 1200)%Z -> (0 <= j < 750)%Z -> nth (offset 1200 750 i j 3) img z = 255%Z.
Proof.
  intros order s H So W. pose proof big_prec.
  apply (program_shown (cylinder_program (F:=N)) 2 750 order s); cbn [cylinder_program p_items p_background p_height p_width p_spp]; try assumption; try lia.
  - apply exponents. lia.
  - intros o m [I|[I|[]]]; apply pair_equal_spec in I; destruct I as [<- <-].
    + split; [apply simple_answers; right; right; right; right; right; eauto|]. intros rec. repeat split; literal.
    + split; [apply cylinder_answers|]. intros rec. change 1 with (b2 0). repeat split; literal.
  - repeat split; literal.
Qed.
Lemma ok_inj : forall (A : Type) (a b : A), Ok a = Ok b -> a = b.
Proof. congruence. Qed.
Lemma frame_float : forall tex i p order s, (forall rec, at_most3 1 (tex rec)) -> height_of (F:=N) 1200 (dec (F:=N) 16 10) = Ok 750%Z -> frame_program (F:=N) tex i = Ok p -> schedule 1200 750 order -> word_state s ->
  exists k img, (forall fuel, (k <= fuel)%nat -> run (F:=N) p fuel order s = Ok img) /\
    List.length img = Z.to_nat (4 * 1200 * 750) /\ Forall byte img /\ forall i j z, (0 <= i < 1200)%Z -> (0 <= j < 750)%Z -> nth (offset 1200 750 i j 3) img z = 255%Z.
Proof.
  intros tex i p order s T H Ep So W. pose proof big_prec. unfold frame_program in Ep. destruct (frame_lamp i) as [lamp| |]; try discriminate. cbn [omap obind] in Ep. apply ok_inj in Ep. subst p.
  match goal with |- context [run ?q] => apply (program_shown q 0 750 order s) end; cbn [p_items p_background p_height p_width p_spp]; try assumption; try lia.
  - apply exponents. lia.
  - intros o m [I|[I|[]]]; apply pair_equal_spec in I; destruct I as [<- <-].
    + split; [apply simple_answers; right; left; eauto|]. exact T.
    + split; [apply simple_answers; right; right; left; eauto|]. intros rec. repeat split; literal.
  - repeat split; literal.
Qed.
Lemma disk_float : forall tex p order s, (forall rec, at_most3 1 (tex rec)) -> to_int64 (F:=N) (ndiv (NumOps:=N) (nofZ (NumOps:=N) 800) (nofZ (NumOps:=N) 1)) = Ok 800%Z -> disk_program (F:=N) tex = Ok p -> schedule 800 800 order -> word_state s ->
  exists k img, (forall fuel, (k <= fuel)%nat -> run (F:=N) p fuel order s = Ok img) /\
    List.length img = Z.to_nat (4 * 800 * 800) /\ Forall byte img /\ forall i j z, (0 <= i < 800)%Z -> (0 <= j < 800)%Z -> nth (offset 800 800 i j 3) img z = 255%Z.
Proof.
  intros tex p order s T H Ep So W. pose proof big_prec. unfold disk_program in Ep. destruct (backlight _) as [o d]. destruct (make_disk (nofZ 1) _ _) as [k1| |]; try discriminate.
  cbn [obind] in Ep. destruct (make_disk (nofZ 10) _ _) as [lamp| |]; try discriminate. cbn [omap obind] in Ep. apply ok_inj in Ep. subst p.
  match goal with |- context [run ?q] => apply (program_shown q 3 800 order s) end; cbn [p_items p_background p_height p_width p_spp]; try assumption; try lia.
  - apply exponents. lia.
  - intros o' m [I|[I|[]]]; apply pair_equal_spec in I; destruct I as [<- <-].
    + split; [apply simple_answers; right; right; left; eauto|]. exact T.
    + split; [apply simple_answers; right; right; left; eauto|]. intros rec. repeat split; literal.
  - repeat split; literal.
Qed.
Lemma glass_float : forall order s, glass_height (F:=N) = Ok 1800%Z -> schedule 2880 1800 order -> word_state s ->
  exists k img, (forall fuel, (k <= fuel)%nat -> glass_run (F:=N) fuel order s = Ok img) /\
    List.length img = Z.to_nat (4 * 2880 * 1800) /\ Forall byte img /\ forall i j z, (0 <= i < 2880)%Z -> (0 <= j < 1800)%Z -> nth (offset 2880 1800 i j 3) img z = 255%Z.
Proof.
  intros order s H So W. pose proof big_prec.
  destruct (fog_shown prec emax Hp Hm lm P24 E128 3 ltac:(apply exponents; lia) ltac:(lia) (glass_scene (F:=N)) (V3 (nofZ (NumOps:=N) 0) (nofZ (NumOps:=N) 0) (nofZ (NumOps:=N) 0)))
    with (cam := glass_camera (F:=N)) (width := 2880%Z) (height := 1800%Z) (spp := 32%nat) (order := order) (s := s) as (k & img & R & Rest); try assumption; try lia.
  - intros t m [I|[I|[I|[]]]]; apply pair_equal_spec in I; destruct I as [<- <-]; cbn [thing_answers snd].
    + split; [apply simple_answers; right; right; right; right; left; eexists; reflexivity|]. intros rec. repeat split; literal.
    + split; [apply simple_answers; right; left; eexists; reflexivity|]. apply glass_moderate. apply bpow_ge_0.
    + split; [apply simple_answers; right; left; eexists; reflexivity|]. intros rec. change 1 with (b2 0). repeat split; literal.
  - repeat split; literal.
  - exists k, img. split; [|exact Rest]. intros fuel Hf. unfold glass_run. rewrite H. cbn [obind]. apply R. exact Hf.
Qed.
End Programs.
