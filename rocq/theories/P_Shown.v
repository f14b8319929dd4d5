(** Rendering in floating point: no NaN, no overflow, every byte defined. *)
From Coq Require Import Reals Lra ZArith Lia List Bool.
From Flocq Require Import Core BinarySingleNaN.
From Verif Require Import Spec_Random Num XR FL Spec Spec_Image Spec_Nearest Spec_Shown M_Vec M_Roots M_Rng M_Hittable M_Materials M_Shapes M_Image M_World M_Programs M_Fog
  P_FL P_Round P_Quadratic P_List P_Equi P_Lambert P_Image P_Png P_Render P_Furnace P_Nearest P_Sampler.
Import ListNotations.
Local Open Scope R_scope.

Section Shown.
Variables prec emax : Z.
Context (Hp : Prec_gt_0 prec) (Hm : Prec_lt_emax prec emax).
Variable lm : libm (binary_float prec emax).
Hypothesis P24 : (24 <= prec)%Z.
Hypothesis E128 : (128 <= emax)%Z.
Notation float := (binary_float prec emax).
Notation fe := (SpecFloat.fexp prec emax).
Notation rnd := (round radix2 (SpecFloat.fexp prec emax) ZnearestE).
Notation format := (generic_format radix2 (SpecFloat.fexp prec emax)).
Notation N := (FL prec emax Hp Hm lm).
Notation at_most := (Spec_Shown.at_most prec emax).
Notation at_most3 := (Spec_Shown.at_most3 prec emax).
Notation answers := (answers prec emax Hp Hm lm).
Notation word_state := (word_state prec emax Hp Hm lm).
Notation b2 := (bpow radix2).

Lemma format_0 : format 0.
Proof. apply generic_format_0. Qed.
Lemma zero_upto : forall b, 0 <= b -> at_most b (nofZ (NumOps:=N) 0).
Proof.
  intros b B. exists 0. split; [|lra]. apply val_fval. pose proof (ofZ_val prec emax Hp Hm lm 0) as V. rewrite rnd_id in V by apply format_0.
  apply V. rewrite Rabs_R0. apply bpow_ge_0.
Qed.
Lemma upto_weak : forall a b x, a <= b -> at_most a x -> at_most b x.
Proof. intros a b x H (r & E & R). exists r. split; [exact E|lra]. Qed.
Lemma upto3_weak : forall a b v, a <= b -> at_most3 a v -> at_most3 b v.
Proof. intros a b v H (X & Y & Zv). repeat split; eapply upto_weak; eassumption. Qed.
Lemma rnd_between : forall a x, format a -> 0 <= x <= a -> 0 <= rnd x <= a.
Proof.
  intros a x F [A B]. split.
  - pose proof (rnd_le prec emax Hp 0 x A) as H. rewrite (rnd_id prec emax 0 format_0) in H. exact H.
  - pose proof (rnd_le prec emax Hp x a B) as H. rewrite (rnd_id prec emax a F) in H. exact H.
Qed.
Lemma plus_upto : forall a b x y, format (a + b) -> a + b <= b2 (emax - 1) -> at_most a x -> at_most b y -> at_most (a + b) (nadd (NumOps:=N) x y).
Proof.
  intros a b x y F S (r & X & R) (t & Y & T). apply val_fval in X, Y.
  pose proof (plus_val prec emax Hp Hm lm x y r t X Y ltac:(rewrite Rabs_pos_eq; lra)) as V. exists (rnd (r + t)). split; [apply val_fval; exact V|].
  apply rnd_between; [exact F|lra].
Qed.
Lemma mult_upto : forall a x y, format a -> a <= b2 (emax - 1) -> at_most a x -> at_most 1 y -> at_most a (nmul (NumOps:=N) x y).
Proof.
  intros a x y F S (r & X & R) (t & Y & T). apply val_fval in X, Y. assert (M : 0 <= r * t <= a) by nra.
  pose proof (mult_val prec emax Hp Hm lm x y r t X Y ltac:(rewrite Rabs_pos_eq; lra)) as V. exists (rnd (r * t)). split; [apply val_fval; exact V|].
  apply rnd_between; [exact F|lra].
Qed.
Lemma div_upto : forall a x y t, format a -> a <= b2 (emax - 1) -> at_most a x -> val prec emax y t -> 1 <= t -> at_most a (ndiv (NumOps:=N) x y).
Proof.
  intros a x y t F S (r & X & R) Y T. apply val_fval in X.
  assert (M : 0 <= r / t <= a).
  { split; [apply Rmult_le_pos; [lra|left; apply Rinv_0_lt_compat; lra]|]. apply Rmult_le_reg_r with t; [lra|]. unfold Rdiv. rewrite Rmult_assoc, Rinv_l by lra. nra. }
  pose proof (div_val prec emax Hp Hm lm x y r t X Y ltac:(lra) ltac:(rewrite Rabs_pos_eq; lra)) as V. exists (rnd (r / t)). split; [apply val_fval; exact V|].
  apply rnd_between; [exact F|lra].
Qed.
Lemma integer_upto : forall z, (0 <= z <= 2 ^ prec)%Z -> val prec emax (nofZ (NumOps:=N) z) (IZR z).
Proof.
  intros z Hz. pose proof (ofZ_val prec emax Hp Hm lm z) as V. assert (F : format (IZR z)).
  { replace (IZR z) with (IZR z * b2 0) by (cbn; ring). apply format_F2R; [exact Hp|lia|]. unfold SpecFloat.emin. unfold Prec_lt_emax in Hm. lia. }
  rewrite rnd_id in V by exact F. apply V. rewrite Rabs_pos_eq by (apply (IZR_le 0); lia). apply Rle_trans with (b2 prec).
  - rewrite <- (IZR_Zpower radix2) by lia. apply IZR_le. apply Hz.
  - apply bpow_le. unfold Prec_lt_emax in Hm. lia.
Qed.

(** ** Answers *)
Lemma simple_answers : forall o, simple_object (F:=N) o -> answers o.
Proof.
  intros o S r lo hi rec. destruct (simple_steady prec emax Hp Hm lm r lo o S) as (root & write & _ & H & _). rewrite H.
  destruct (root hi); eauto.
Qed.
Lemma cylinder_answers : forall c, answers (of_cylinder (F:=N) c).
Proof.
  intros c r lo hi rec. cbn [hit of_cylinder]. unfold cylinder_hit. cbv zeta. change (@num N) with float in *.
  match goal with |- context [quadratic_roots ?a ?b ?d] => destruct (quadratic_roots_shape prec emax Hp Hm lm a b d) as [E|(r0 & r1 & E & _)]; rewrite E; clear E end; [eauto|].
  assert (K : forall rc, exists found rec', cylinder_finish (F:=N) c r rc = Ok (found, rec')).
  { intros rc. unfold cylinder_finish. cbv zeta. destruct (cylinder_uv _ _). eauto. }
  repeat match goal with |- context [if ?b then _ else _] => destruct b end; eauto.
Qed.
Lemma objects_answer : (forall o, simple_object (F:=N) o -> answers o) /\ (forall c, answers (of_cylinder (F:=N) c)).
Proof. split; [exact simple_answers|exact cylinder_answers]. Qed.
Lemma scene_parts : forall (items : list (hittable (F:=N) * material_ptr (F:=N))) s, length (objects s) = length (materials s) ->
  let s' := fold_left (fun s '(o, m) => add s o m) items s in
  objects s' = objects s ++ map fst items /\ materials s' = materials s ++ map snd items.
Proof.
  induction items as [|[o m] items IH]; intros s E; cbn [fold_left map]; [rewrite !app_nil_r; auto|].
  destruct (IH (add s o m)) as [A B]; [cbn [add objects materials]; rewrite !app_length; cbn; lia|].
  cbv zeta. rewrite A, B. cbn [add objects materials fst snd]. rewrite <- !app_assoc. auto.
Qed.
Lemma loop_answers : forall objs r lo i temp hi rec idx, (forall o, In o objs -> answers o) -> (forall n, idx = Some n -> (n < i + length objs)%nat) ->
  exists idx' rec', list_loop (F:=N) r lo i objs temp hi rec idx = Ok (idx', rec') /\ forall n, idx' = Some n -> (n < i + length objs)%nat.
Proof.
  induction objs as [|o objs IH]; intros r lo i temp hi rec idx A L.
  - exists idx, rec. split; [reflexivity|exact L].
  - cbn [list_loop]. destruct (A o (or_introl eq_refl) r lo hi temp) as (found & rec' & E). change (@num N) with float in *. rewrite E. cbn [obind].
    assert (A' : forall o, In o objs -> answers o) by (intros o' I; apply A; right; exact I). cbn [length] in *.
    destruct found; [match goal with |- context [if ?b then _ else _] => destruct b end|].
    all: match goal with |- exists _ _, list_loop ?r ?lo ?i ?objs ?t ?h ?rc ?id = _ /\ _ => destruct (IH r lo i t h rc id A') as (idx' & rec'' & E' & L') end;
      [intros n Hn; try (injection Hn as <-; lia); try (specialize (L n Hn); lia)|exists idx', rec''; split; [exact E'|intros n Hn; specialize (L' n Hn); lia]].
Qed.
Lemma scene_answers : forall (items : list (hittable (F:=N) * material_ptr (F:=N))) temp0 r lo hi rec, (forall o m, In (o, m) items -> answers o) ->
  exists m rec', list_hit (F:=N) temp0 (scene_with (F:=N) items) r lo hi rec = Ok (m, rec') /\ forall mp, m = Some mp -> exists o, In (o, mp) items.
Proof.
  intros items temp0 r lo hi rec A. unfold list_hit. destruct (scene_parts items empty_list eq_refl) as [Eo Em]. fold (scene_with (F:=N) items) in Eo, Em.
  cbn [empty_list objects materials app] in Eo, Em. change (@num N) with float in *. rewrite Eo, Em.
  destruct (loop_answers (map fst items) r lo 0 temp0 hi rec None) as (idx & rec' & E & L).
  { intros o I. apply in_map_iff in I. destruct I as ([o' m] & <- & I). exact (A _ _ I). } { discriminate. }
  change (@num N) with float in *. rewrite E. cbn [obind]. destruct idx as [n|]; [|exists None, rec'; split; [reflexivity|discriminate]].
  specialize (L n eq_refl). rewrite map_length in L. cbn [Nat.add] in L. destruct (nth_error (map snd items) n) as [mp|] eqn:Q.
  - exists (Some mp), rec'. split; [reflexivity|]. intros mp' H. injection H as <-. apply nth_error_In in Q. apply in_map_iff in Q.
    destruct Q as ([o m] & <- & I). exists o. exact I.
  - apply nth_error_None in Q. rewrite map_length in Q. lia.
Qed.

(** ** Scattering *)
Lemma word_next3 : forall n g, word64 (pc_state g) -> word64 (pc_state (Nat.iter n next3 g)).
Proof.
  intros [|n] g W; [exact W|]. cbn [Nat.iter nat_rect]. change (nat_rect _ g (fun _ => next3) n) with (Nat.iter n next3 g). unfold next3. apply step_range.
Qed.
Lemma one_upto : at_most3 1 (V3 (nofZ (NumOps:=N) 1) (nofZ (NumOps:=N) 1) (nofZ (NumOps:=N) 1)).
Proof.
  assert (U : at_most 1 (nofZ (NumOps:=N) 1)).
  { exists 1. split; [apply val_fval; apply integer_upto; split; [lia|]; apply (Z.pow_le_mono_r 2 0 prec); lia|lra]. }
  repeat split; exact U.
Qed.
Lemma scatter_answers : forall b m s r rec, moderate_material prec emax Hp Hm lm b (snd m) -> word_state s -> exists k sc s',
  (forall fuel, (k <= fuel)%nat -> scatter (F:=N) fuel m s r rec = Ok (sc, s')) /\ word_state s' /\
  match sc with None => True | Some (att, _) => at_most3 1 att end.
Proof.
  intros b [j m] s r rec M W. cbn [snd] in M. unfold scatter. cbn [fst snd]. destruct m as [tex|tex|ir em|em|tex]; cbn [moderate_material] in M.
  - destruct (sampler_formats prec emax Hp Hm lm P24 ltac:(lia) (st_pcg s j) (W j)) as (m & v & _ & E & _).
    exists (S m). eexists _, _. split; [|split].
    + intros fuel Hf. unfold lambertian_scatter, random_in_hemisphere. change (@num N) with float in *. rewrite E by lia. cbn [obind]. reflexivity.
    + intros i. cbn [st_pcg set_pcg]. destruct (Nat.eqb i j); [apply (word_next3 (S m)); apply W|apply W].
    + cbn. apply M.
  - exists 0%nat. unfold metal_scatter. cbv zeta.
    match goal with |- context [if ?b then Some _ else None] => destruct b end; eexists _, _; (split; [intros fuel _; reflexivity|split; [exact W|]]); [apply M|exact I].
  - exists 0%nat. eexists _, _. split; [intros fuel _; reflexivity|]. split; [exact W|]. unfold dielectric_scatter. cbv zeta. apply one_upto.
  - exists 0%nat. eexists _, _. split; [intros fuel _; reflexivity|]. split; [exact W|exact I].
  - exists 0%nat. eexists _, _. split; [intros fuel _; reflexivity|]. split; [exact W|]. unfold isotropic_scatter. apply M.
Qed.

(** ** Colours *)
Section Colours.
Variable e : Z.
Hypothesis e_min : (SpecFloat.emin prec emax <= e)%Z.
Hypothesis e_max : (e + prec < emax)%Z.
Notation B n := (IZR n * b2 e).
Variables (wh : state (F:=N) -> ray float -> float -> float -> outcome (option (material_ptr (F:=N)) * hit_record float * state (F:=N))) (bg : vec3 float).
Hypothesis wh_ok : forall s r lo hi, word_state s -> exists m rec s', wh s r lo hi = Ok (m, rec, s') /\ word_state s' /\
  forall mp, m = Some mp -> moderate_material prec emax Hp Hm lm (b2 e) (snd mp).
Hypothesis bg_ok : at_most3 (b2 e) bg.
Notation sc := (scatter (F:=N)).
Notation em := (emitted (F:=N)).

Lemma B_format : forall n, (0 <= n <= 2 ^ prec)%Z -> format (B n) /\ 0 <= B n <= b2 (emax - 1).
Proof.
  intros n Hn. split; [apply format_F2R; [exact Hp|lia|exact e_min]|]. pose proof (bpow_gt_0 radix2 e) as E0. split; [apply Rmult_le_pos; [apply (IZR_le 0); lia|lra]|].
  apply Rle_trans with (b2 prec * b2 e).
  - apply Rmult_le_compat_r; [lra|]. rewrite <- (IZR_Zpower radix2) by lia. apply IZR_le. apply Hn.
  - rewrite <- bpow_plus. apply bpow_le. lia.
Qed.
Lemma B_le : forall n m, (n <= m)%Z -> B n <= B m.
Proof. intros n m H. apply Rmult_le_compat_r; [apply bpow_ge_0|apply IZR_le; exact H]. Qed.
Lemma zero3 : forall n, (0 <= n)%Z -> at_most3 (B n) (V3 (nofZ (NumOps:=N) 0) (nofZ (NumOps:=N) 0) (nofZ (NumOps:=N) 0)).
Proof. intros n Hn. assert (0 <= B n) by (apply Rmult_le_pos; [apply (IZR_le 0); lia|apply bpow_ge_0]). repeat split; apply zero_upto; assumption. Qed.
Lemma add3 : forall n m v w, (0 <= n)%Z -> (0 <= m)%Z -> (n + m <= 2 ^ prec)%Z -> at_most3 (B n) v -> at_most3 (B m) w -> at_most3 (B (n + m)) (vadd (F:=N) v w).
Proof.
  intros n m v w Hn Hm' H (X & Y & Zv) (X' & Y' & Z'). destruct (B_format (n + m) ltac:(lia)) as [F [_ S]]. rewrite plus_IZR, Rmult_plus_distr_r in *.
  repeat split; cbn [vadd vx vy vz]; apply plus_upto; assumption.
Qed.
Lemma colour_answers : forall depth s r, (Z.of_nat depth <= 2 ^ prec)%Z -> word_state s -> exists k c s',
  (forall fuel, (k <= fuel)%nat -> ray_color (F:=N) wh (sc fuel) em depth s r bg = Ok (c, s')) /\ at_most3 (B (Z.of_nat depth)) c /\ word_state s'.
Proof.
  induction depth as [|depth IH]; intros s r D W.
  - exists 0%nat. eexists _, s. split; [intros; reflexivity|]. split; [apply zero3; lia|exact W].
  - destruct (wh_ok s r (nmul (NumOps:=N) (nofZ (NumOps:=N) 1000) (neps (NumOps:=N))) (ninf (NumOps:=N)) W) as (m & rec & s0 & Eh & W1 & Im).
    destruct m as [mp|].
    2:{ exists 0%nat, bg, s0. change (@num N) with float in *. split; [intros fuel _; cbn [ray_color]; change (@num N) with float in *; rewrite Eh; reflexivity|]. split; [|exact W1].
        eapply upto3_weak; [|exact bg_ok]. replace (b2 e) with (B 1) at 1 by ring. apply B_le. lia. }
    pose proof (Im mp eq_refl) as M.
    assert (Ee : at_most3 (B 1) (em mp rec)).
    { replace (B 1) with (b2 e) by ring. unfold emitted. destruct (snd mp) as [tex|tex|ir emt|emt|tex]; cbn [moderate_material] in M; try apply M.
      all: replace (b2 e) with (B 1) by ring; apply zero3; lia. }
    destruct (scatter_answers (b2 e) mp s0 r rec M W1) as (k1 & scat & s1 & E1 & W2 & A1). destruct scat as [[att out]|].
    2:{ exists k1. eexists _, s1. change (@num N) with float in *. split; [intros fuel Hf; cbn [ray_color]; change (@num N) with float in *; rewrite Eh; cbn [obind]; rewrite (E1 fuel Hf); reflexivity|]. split; [|exact W2].
        eapply upto3_weak; [|exact Ee]. apply B_le. lia. }
    destruct (IH s1 out ltac:(lia) W2) as (k2 & c & s2 & E2 & Cc & W3).
    exists (Nat.max k1 k2). eexists _, s2. change (@num N) with float in *. split; [|split; [|exact W3]].
    + intros fuel Hf. cbn [ray_color]. change (@num N) with float in *. rewrite Eh. cbn [obind]. rewrite (E1 fuel) by lia. cbn [obind]. rewrite (E2 fuel) by lia. cbn [obind]. reflexivity.
    + replace (Z.of_nat (S depth)) with (1 + Z.of_nat depth)%Z by lia. apply add3; [lia|lia|lia|exact Ee|].
      destruct (B_format (Z.of_nat depth) ltac:(lia)) as [F [_ S]]. destruct Cc as (X & Y & Zv), A1 as (X' & Y' & Z'). repeat split; cbn [vx vy vz]; apply mult_upto; assumption.
Qed.

(** ** Pixels *)
Variables (cam : camera (F:=N)) (width height : Z).
Hypothesis (W0 : (0 < width)%Z) (H0 : (0 < height)%Z).
Lemma sample_answers : forall i j g s, word_state s -> exists k c g' s',
  (forall fuel, (k <= fuel)%nat -> sample (F:=N) wh (sc fuel) em width height bg cam i j g s = Ok (c, g', s')) /\ at_most3 (B 8) c /\ word_state s'.
Proof.
  intros i j g s W. unfold sample. destruct (pcg_real_01 g) as [r1 g1]. destruct (pcg_real_01 g1) as [r2 g2].
  match goal with |- context [ray_color _ _ _ 8 s ?r bg] => destruct (colour_answers 8 s r) as (k & c & s' & E & U & W') end;
    [apply Z.le_trans with (2 ^ 3)%Z; [cbn; lia|apply Z.pow_le_mono_r; lia]|exact W|].
  exists k, c, g2, s'. change (@num N) with float in *. split; [intros fuel Hf; rewrite (E fuel Hf); reflexivity|split; assumption].
Qed.
Lemma samples_answers : forall n i j m c g s, (0 <= m)%Z -> (m + 8 * Z.of_nat n <= 2 ^ prec)%Z -> at_most3 (B m) c -> word_state s -> exists k c' g' s',
  (forall fuel, (k <= fuel)%nat -> samples (F:=N) wh (sc fuel) em width height bg cam n i j c g s = Ok (c', g', s')) /\ at_most3 (B (m + 8 * Z.of_nat n)) c' /\ word_state s'.
Proof.
  induction n as [|n IH]; intros i j m c g s M0 M1 Uc W.
  - exists 0%nat, c, g, s. split; [reflexivity|]. replace (m + 8 * Z.of_nat 0)%Z with m by lia. split; assumption.
  - destruct (sample_answers i j g s W) as (k1 & c1 & g1 & s1 & E1 & U1 & W1).
    destruct (IH i j (m + 8)%Z (vadd (F:=N) c c1) g1 s1) as (k2 & c2 & g2 & s2 & E2 & U2 & W2); [lia|lia|apply add3; [lia|lia|lia|assumption|assumption]|exact W1|].
    exists (Nat.max k1 k2), c2, g2, s2. change (@num N) with float in *. split; [|split; [replace (m + 8 * Z.of_nat (S n))%Z with (m + 8 + 8 * Z.of_nat n)%Z by lia; exact U2|exact W2]].
    intros fuel Hf. cbn [samples]. rewrite (E1 fuel) by lia. cbn [obind]. apply E2. lia.
Qed.
Variable spp : nat.
Hypothesis spp_1 : (1 <= spp)%nat.
Hypothesis spp_max : (8 * Z.of_nat spp <= 2 ^ prec)%Z.
Lemma pixel_answers : forall i j g s, word_state s -> exists k c g' s',
  (forall fuel, (k <= fuel)%nat -> pixel (F:=N) wh (sc fuel) em width height bg cam spp i j g s = Ok (c, g', s')) /\ word_state s' /\ length c = 4%nat.
Proof.
  intros i j g s W. unfold pixel.
  destruct (samples_answers spp i j 0 (V3 (nofZ (NumOps:=N) 0) (nofZ (NumOps:=N) 0) (nofZ (NumOps:=N) 0)) g s) as (k & c & g' & s' & E & U & W');
    [lia|lia|apply zero3; lia|exact W|].
  pose proof (integer_upto (Z.of_nat spp) ltac:(lia)) as V. assert (S1 : 1 <= IZR (Z.of_nat spp)) by (apply IZR_le; lia).
  destruct (B_format (0 + 8 * Z.of_nat spp) ltac:(lia)) as [F [_ S]].
  assert (Q : at_most3 (B (0 + 8 * Z.of_nat spp)) (vdiv (F:=N) c (nofZ (NumOps:=N) (Z.of_nat spp)))).
  { destruct U as (X & Y & Zv). repeat split; cbn [vdiv vx vy vz]; eapply div_upto; eassumption. }
  assert (P : forall b x, at_most b x -> xleb (Fin 0) (fval x) = true) by (intros b x (a & -> & A); cbn; apply Rleb_iff; lra).
  destruct Q as (X & Y & Zv).
  exists k. eexists _, g', s'. change (@num N) with float in *. split; [|split; [exact W'|]].
  - intros fuel Hf. rewrite (E fuel Hf). cbn [obind]. rewrite (rgba_ok prec emax Hp Hm lm ltac:(lia)); [|eapply P; eassumption|eapply P; eassumption|eapply P; eassumption]. reflexivity.
  - reflexivity.
Qed.
Lemma render_answers : forall order img g s, (forall i j, In (i, j) order -> (0 <= i < width)%Z /\ (0 <= j < height)%Z) ->
  length img = Z.to_nat (4 * width * height) -> word_state s -> exists k img' g' s',
  (forall fuel, (k <= fuel)%nat -> render (F:=N) wh (sc fuel) em width height bg cam spp order img g s = Ok (img', g', s')).
Proof.
  induction order as [|[i j] order IH]; intros img g s I Li Ws.
  - exists 0%nat, img, g, s. reflexivity.
  - destruct (pixel_answers i j g s Ws) as (k1 & c & g1 & s1 & E1 & G1 & Lc).
    destruct (I i j (or_introl eq_refl)) as [Ii Ij].
    destruct (write_pixel_spec width height ltac:(lia) i j c img Ii Ij Lc Li) as (img1 & Ew & L1 & _).
    destruct (IH img1 g1 s1) as (k2 & img2 & g2 & s2 & E2); [intros; apply I; right; assumption|congruence|exact G1|].
    exists (Nat.max k1 k2), img2, g2, s2. intros fuel Hf. cbn [render]. change (@num N) with float in *. rewrite (E1 fuel) by lia. cbn [obind]. rewrite Ew. cbn [obind].
    apply E2. lia.
Qed.
Lemma render_shown : forall order s, schedule width height order -> word_state s -> exists k img,
  (forall fuel, (k <= fuel)%nat -> render_scene (F:=N) wh (sc fuel) em width height bg cam spp order s = Ok img) /\
  length img = Z.to_nat (4 * width * height) /\ Forall byte img /\
  forall i j d, (0 <= i < width)%Z -> (0 <= j < height)%Z -> nth (offset width height i j 3) img d = 255%Z.
Proof.
  intros order s So Ws.
  destruct (render_answers order (new_image width height) pcg_seed s) as (k & img & g' & s' & E).
  { intros i j. apply So. } { unfold new_image. apply repeat_length. } { exact Ws. }
  exists k, img. assert (R : forall fuel, (k <= fuel)%nat -> render_scene (F:=N) wh (sc fuel) em width height bg cam spp order s = Ok img).
  { intros fuel Hf. unfold render_scene. change (@num N) with float in *. rewrite (E fuel Hf). reflexivity. }
  split; [exact R|].
  destruct (scene_frame (F:=N) wh (sc k) em width height bg cam ltac:(lia) spp order s img So (R k (le_n k))) as [Ln Px]. split; [exact Ln|].
  assert (K : forall i j, (0 <= i < width)%Z -> (0 <= j < height)%Z -> exists a b d, byte a /\ byte b /\ byte d /\
     forall k d0, (0 <= k < 4)%Z -> nth (offset width height i j k) img d0 = nth (Z.to_nat k) [a; b; d; 255%Z] d0).
  { intros i j Ii Ij. destruct (Px i j Ii Ij) as (g0 & w0 & c & g1 & w1 & Ep & Nc). destruct (pixel_bytes _ _ _ _ _ _ _ _ _ _ _ _ _ _ _ Ep) as (a & b & d & -> & Ba & Bb & Bd).
    exists a, b, d. auto. }
  split.
  - apply Forall_forall. intros z Hz. destruct (In_nth _ _ 0%Z Hz) as (n & Hn & Ez). rewrite Ln in Hn.
    destruct (offset_onto width height ltac:(lia) n Hn) as (i & j & c & (Ii & Ij & Ic) & ->).
    destruct (K i j Ii Ij) as (a & b & d & Ba & Bb & Bd & Nc). rewrite Nc in Ez by exact Ic. rewrite <- Ez.
    assert (C : (c = 0 \/ c = 1 \/ c = 2 \/ c = 3)%Z) by lia. destruct C as [ -> |[ -> |[ -> | -> ]]]; [exact Ba|exact Bb|exact Bd|change (0 <= 255 <= 255)%Z; lia].
  - intros i j d0 Ii Ij. destruct (K i j Ii Ij) as (a & b & d & _ & _ & _ & Nc). rewrite Nc by lia. reflexivity.
Qed.
End Colours.

(** ** Lists of objects, and media among them *)
Section Lists.
Variable e : Z.
Hypothesis e_min : (SpecFloat.emin prec emax <= e)%Z.
Hypothesis e_max : (e + prec < emax)%Z.
Variables (items : list (hittable (F:=N) * material_ptr (F:=N))) (bg : vec3 float).
Hypothesis items_ok : forall o m, In (o, m) items -> answers o /\ moderate_material prec emax Hp Hm lm (b2 e) (snd m).
Hypothesis bg_ok : at_most3 (b2 e) bg.
Notation wh := (world_hit (F:=N) (scene_with (F:=N) items)).
Lemma world_answers : forall s r lo hi, word_state s -> exists m rec s', wh s r lo hi = Ok (m, rec, s') /\ word_state s' /\
  forall mp, m = Some mp -> moderate_material prec emax Hp Hm lm (b2 e) (snd mp).
Proof.
  intros s r lo hi W. unfold world_hit. destruct (st_junk s 0) as [t0 r0].
  destruct (scene_answers items t0 r lo hi r0) as (m & rec & E & I); [intros o m I; apply (items_ok o m I)|].
  exists m, rec, (drop_junk s). change (@num N) with float in *. rewrite E. split; [reflexivity|]. split; [exact W|].
  intros mp Q. destruct (I mp Q) as (o & J). apply (items_ok o mp J).
Qed.
Lemma list_colour : forall depth s r, (Z.of_nat depth <= 2 ^ prec)%Z -> word_state s -> exists k c s',
  (forall fuel, (k <= fuel)%nat -> ray_color (F:=N) wh (scatter (F:=N) fuel) (emitted (F:=N)) depth s r bg = Ok (c, s')) /\ at_most3 (IZR (Z.of_nat depth) * b2 e) c /\ word_state s'.
Proof. exact (colour_answers e e_min e_max wh bg world_answers bg_ok). Qed.
Lemma scene_shown : forall cam width height, (0 < width)%Z -> (0 < height)%Z -> forall spp, (1 <= spp)%nat -> (8 * Z.of_nat spp <= 2 ^ prec)%Z ->
  forall order s, schedule width height order -> word_state s -> exists k img,
  (forall fuel, (k <= fuel)%nat -> render_scene (F:=N) wh (scatter (F:=N) fuel) (emitted (F:=N)) width height bg cam spp order s = Ok img) /\
  length img = Z.to_nat (4 * width * height) /\ Forall byte img /\
  forall i j d, (0 <= i < width)%Z -> (0 <= j < height)%Z -> nth (offset width height i j 3) img d = 255%Z.
Proof. exact (render_shown e e_min e_max wh bg world_answers bg_ok). Qed.
End Lists.

Section Media.
Variable e : Z.
Hypothesis e_min : (SpecFloat.emin prec emax <= e)%Z.
Hypothesis e_max : (e + prec < emax)%Z.
Variables (things : list (thing (F:=N) * material_ptr (F:=N))) (bg : vec3 float).
Hypothesis things_ok : forall t m, In (t, m) things -> thing_answers prec emax Hp Hm lm t /\ moderate_material prec emax Hp Hm lm (b2 e) (snd m).
Hypothesis bg_ok : at_most3 (b2 e) bg.
Notation wh := (fog_hit (F:=N) things).
Lemma medium_answers : forall b nid draw r1 r2, answers b -> forall r lo hi rec, exists found rec', medium_hit (F:=N) (hit b) nid draw r1 r2 r lo hi rec = Ok (found, rec').
Proof.
  intros b nid draw r1 r2 A r lo hi rec. unfold medium_hit.
  match goal with |- context [hit b r ?x ?y r1] => destruct (A r x y r1) as (f1 & q1 & E1) end. change (@num N) with float in *. rewrite E1. cbn [obind]. destruct f1; cbn [negb]; [|eauto].
  match goal with |- context [hit b r ?x ?y r2] => destruct (A r x y r2) as (f2 & q2 & E2) end. change (@num N) with float in *. rewrite E2. cbn [obind]. destruct f2; cbn [negb]; [|eauto].
  cbv zeta. repeat match goal with |- context [if ?c then Ok _ else _] => destruct c end; eauto.
Qed.
Lemma settle_in : forall l k s o m, In (o, m) (settle_all (F:=N) k s l) -> exists t draw junk, In (t, m) l /\ o = settle (F:=N) draw junk t.
Proof.
  induction l as [|[t m'] l IH]; intros k s o m I; [destruct I|]. cbn [settle_all] in I. destruct I as [I|I].
  - apply pair_equal_spec in I. destruct I as [<- <-]. eexists t, _, _. split; [left; reflexivity|reflexivity].
  - destruct (IH _ _ _ _ I) as (t' & d & j & J & E). exists t', d, j. split; [right; exact J|exact E].
Qed.
Lemma fog_answers : forall s r lo hi, word_state s -> exists m rec s', wh s r lo hi = Ok (m, rec, s') /\ word_state s' /\
  forall mp, m = Some mp -> moderate_material prec emax Hp Hm lm (b2 e) (snd mp).
Proof.
  intros s r lo hi W. unfold fog_hit. destruct (st_junk s 0) as [t0 r0].
  destruct (scene_answers (settle_all (F:=N) 0 s things) t0 r lo hi r0) as (m & rec & E & I).
  { intros o m I. destruct (settle_in _ _ _ _ _ I) as (t & draw & junk & J & ->). destruct (things_ok t m J) as [A _]. destruct t as [o|b d]; [exact A|].
    intros r' lo' hi' rec'. cbn [settle hit]. apply medium_answers. exact A. }
  exists m, rec, (skip (length things) s). unfold scene_with in E. change (@num N) with float in *. rewrite E. split; [reflexivity|]. split; [exact W|].
  intros mp Q. destruct (I mp Q) as (o & J). destruct (settle_in _ _ _ _ _ J) as (t & _ & _ & J' & _). apply (things_ok t mp J').
Qed.
Lemma fog_shown : forall cam width height, (0 < width)%Z -> (0 < height)%Z -> forall spp, (1 <= spp)%nat -> (8 * Z.of_nat spp <= 2 ^ prec)%Z ->
  forall order s, schedule width height order -> word_state s -> exists k img,
  (forall fuel, (k <= fuel)%nat -> render_scene (F:=N) wh (scatter (F:=N) fuel) (emitted (F:=N)) width height bg cam spp order s = Ok img) /\
  length img = Z.to_nat (4 * width * height) /\ Forall byte img /\
  forall i j d, (0 <= i < width)%Z -> (0 <= j < height)%Z -> nth (offset width height i j 3) img d = 255%Z.
Proof. exact (render_shown e e_min e_max wh bg fog_answers bg_ok). Qed.
End Media.
End Shown.
