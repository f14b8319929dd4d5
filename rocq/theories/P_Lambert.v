(** Rejection sampling in the ball and Lambertian scattering. *)
From Coq Require Import Reals ZArith Lia Lra List Bool.
From Verif Require Import Spec_Random Num XR Spec M_Vec M_Rng M_Hittable M_Materials P_Vec P_Rng P_Period P_Equi.
Import ListNotations.

(** ** The loop, over any scalars *)
Section Loop.
Context {F : NumOps}.
Local Open Scope num_scope.
Definition next3 (g : pcg) : pcg := pcg_next (pcg_next (pcg_next g)).
Definition accepts (g : pcg) : Prop := (squared_norm (fst (random_cube g)) >? #1) = false.

Lemma random_cube_next : forall g, snd (random_cube g) = next3 g.
Proof. reflexivity. Qed.

Lemma loop_step : forall fuel g, random_unit_vector (S fuel) g =
  (if squared_norm (fst (random_cube g)) >? #1 then random_unit_vector fuel (next3 g) else Ok (fst (random_cube g), next3 g)).
Proof. reflexivity. Qed.

(* the first triple of draws that is accepted is returned *)
Lemma loop_terminates : forall n g, accepts (Nat.iter n next3 g) ->
  exists m, (m <= n)%nat /\ accepts (Nat.iter m next3 g) /\ (forall k, (k < m)%nat -> ~ accepts (Nat.iter k next3 g)) /\
    forall fuel, (S m <= fuel)%nat -> random_unit_vector fuel g = Ok (fst (random_cube (Nat.iter m next3 g)), Nat.iter (S m) next3 g).
Proof.
  induction n as [|n IH]; intros g A.
  - exists O. repeat split; auto; [lia|].
    intros [|fuel] H; [lia|]. rewrite loop_step. cbn in A. unfold accepts in A. rewrite A. reflexivity.
  - destruct (squared_norm (fst (random_cube g)) >? #1) eqn:E.
    + rewrite <- iter_shift in A. destruct (IH (next3 g) A) as (m & M & Am & Rj & R). rewrite iter_shift in Am.
      exists (S m). split; [lia|]. split; [exact Am|]. split.
      * intros [|k] K; [cbn; unfold accepts; rewrite E; discriminate|]. rewrite <- iter_shift. apply Rj. lia.
      * intros [|fuel] H; [lia|]. rewrite loop_step, E. rewrite R by lia. rewrite !iter_shift. reflexivity.
    + exists O. repeat split; auto; [lia|lia|].
      intros [|fuel] H; [lia|]. rewrite loop_step, E. reflexivity.
Qed.
End Loop.

Lemma next3_iter : forall n g, Nat.iter n next3 g =
  PCG (Nat.iter n (fun z => step (pc_inc g) (step (pc_inc g) (step (pc_inc g) z))) (pc_state g)) (pc_inc g).
Proof.
  induction n as [|n IH]; intros g; [destruct g; reflexivity|].
  cbn [Nat.iter nat_rect] in *. change (nat_rect _ g (fun _ => next3) n) with (Nat.iter n next3 g) in *. rewrite IH. reflexivity.
Qed.

(** A state accepted for every increment is enough. *)
Lemma always_terminates : forall (F : NumOps), (forall i, exists x, word64 x /\ accepts (F:=F) (PCG x i)) ->
  forall g, word64 (pc_state g) -> exists n, accepts (F:=F) (Nat.iter n next3 g).
Proof.
  intros F H g W. destruct (H (pc_inc g)) as (x & X & A).
  destruct (three_reach (pc_inc g) (pc_state g) x W X) as (n & E). exists n. rewrite next3_iter, E. exact A.
Qed.

(** ** Exact arithmetic *)
Section Exact.
Context {L : limits}.
Local Open Scope R_scope.
Definition cubeR (g : pcg) : vec3 R :=
  V3 (2 * draw g - 1) (2 * draw (pcg_next g) - 1) (2 * draw (pcg_next (pcg_next g)) - 1).

Lemma random_cube_fin : forall g, random_cube (F:=XR L) g = (fin3 (cubeR g), next3 g).
Proof. intros g. unfold random_cube. rewrite !pcg_real_01_draw. reflexivity. Qed.

Lemma cubeR_normsq : forall x i, normsqR (cubeR (PCG x i)) = IZR (square_norm3 i x) / IZR (2 ^ 64).
Proof.
  intros x i. unfold normsqR, dotR, cubeR, draw; cbn [vx vy vz pc_state pcg_next pc_inc].
  change ((x * pcg_mult + Z.lor i 1) mod 2 ^ 64)%Z with (step i x).
  change ((step i x * pcg_mult + Z.lor i 1) mod 2 ^ 64)%Z with (step i (step i x)).
  unfold square_norm3. rewrite !plus_IZR, !Z.pow_2_r, !mult_IZR, !minus_IZR, !mult_IZR.
  replace (IZR (2 ^ 64)) with (IZR (2 ^ 32) * IZR (2 ^ 32)) by (rewrite <- mult_IZR; reflexivity).
  assert (IZR (2 ^ 32) <> 0) by (apply not_0_IZR; discriminate). set (N := IZR (2 ^ 32)) in *.
  field. exact H.
Qed.

Lemma accepts_exact : forall i, exists x, word64 x /\ accepts (F:=XR L) (PCG x i).
Proof.
  intros i. destruct (good_state i) as (x & X & S). exists x. split; [exact X|].
  unfold accepts. rewrite random_cube_fin. cbn [fst]. rewrite squared_norm_fin. cbn [nltb XR nofZ xltb].
  apply Rltb_false. rewrite cubeR_normsq. apply IZR_le in S.
  apply Rmult_le_reg_r with (IZR (2 ^ 64)); [apply IZR_lt; reflexivity|].
  unfold Rdiv. rewrite Rmult_assoc, Rinv_l, Rmult_1_r, Rmult_1_l by (apply not_0_IZR; discriminate). exact S.
Qed.

Lemma sampler_exact : forall g, word64 (pc_state g) -> exists m,
  (forall fuel, (m < fuel)%nat -> random_unit_vector (F:=XR L) fuel g = Ok (fin3 (cubeR (Nat.iter m next3 g)), Nat.iter (S m) next3 g)) /\
  normsqR (cubeR (Nat.iter m next3 g)) <= 1 /\ forall k, (k < m)%nat -> 1 < normsqR (cubeR (Nat.iter k next3 g)).
Proof.
  intros g W. destruct (always_terminates (XR L) accepts_exact g W) as (n & A).
  destruct (loop_terminates n g A) as (m & _ & N & Rj & R).
  assert (AN : forall k, accepts (F:=XR L) (Nat.iter k next3 g) <-> normsqR (cubeR (Nat.iter k next3 g)) <= 1).
  { intros k. unfold accepts. rewrite random_cube_fin. cbn [fst]. rewrite squared_norm_fin. cbn [nltb XR nofZ xltb].
    destruct (Rltb_spec 1 (normsqR (cubeR (Nat.iter k next3 g)))); split; intros; try discriminate; auto; lra. }
  exists m. split; [|split; [apply AN; exact N|]].
  - intros fuel H. rewrite R by lia. rewrite random_cube_fin. reflexivity.
  - intros k K. apply Rnot_le_lt. intros X. apply (Rj k K). apply AN. exact X.
Qed.

(** ** Scattering *)
Lemma lambertian_side : forall tex g (rec : hit_record xr) n, word64 (pc_state g) -> h_normal rec = fin3 n -> normR n = 1 ->
  exists k d g', (forall fuel, (k <= fuel)%nat ->
      lambertian_scatter (F:=XR L) fuel tex g rec = Ok (Some (tex rec, Ray (h_p rec) (fin3 d)), g')) /\
    1 <= dotR d n /\ normR d <= 2.
Proof.
  intros tex g rec n W En Hn. destruct (sampler_exact g W) as (m & R & N & _).
  set (v := cubeR (Nat.iter m next3 g)) in *. set (g' := Nat.iter (S m) next3 g) in *. clearbody v g'. set (k := S m).
  assert (U : dotR n n = 1) by (apply unit_normsq; exact Hn).
  set (h := if Rltb 0 (dotR v n) then v else negR v).
  assert (Hh : 0 <= dotR h n /\ normsqR h <= 1).
  { unfold h. destruct (Rltb_spec 0 (dotR v n)).
    - split; [lra|exact N].
    - unfold normsqR, dotR, negR in *; cbn [vx vy vz] in *. split; nra. }
  set (d := if Rltb (normsqR (addR n h)) (sqrt (l_eps L)) then n else addR n h).
  exists k, d, g'. split.
  - intros fuel Hf. unfold lambertian_scatter, random_in_hemisphere. rewrite (R fuel Hf). cbn [obind].
    change (@num (XR L)) with xr. rewrite En. rewrite dot_fin. cbn [nltb XR nofZ xltb].
    assert (Eh : (if Rltb 0 (dotR v n) then fin3 v else vneg (F:=XR L) (fin3 v)) = fin3 h).
    { unfold h. destruct (Rltb 0 (dotR v n)); [reflexivity|apply vneg_fin]. }
    match goal with |- context [if ?c then fin3 v else ?e] => change (if c then fin3 v else e) with (if Rltb 0 (dotR v n) then fin3 v else vneg (F:=XR L) (fin3 v)) end.
    rewrite Eh. rewrite vadd_fin, squared_norm_fin. cbn [nltb nsqrt neps XR].
    rewrite xsqrt_fin by (apply Rlt_le, l_eps_pos). cbn [xltb].
    unfold d. destruct (Rltb (normsqR (addR n h)) (sqrt (l_eps L))); reflexivity.
  - destruct Hh as [H1 H2]. unfold d. destruct (Rltb (normsqR (addR n h)) (sqrt (l_eps L))).
    + split; [lra|]. rewrite Hn. lra.
    + split; [unfold dotR, addR in *; cbn [vx vy vz]; lra|].
      rewrite <- (sqrt_pow2 2) by lra. apply sqrt_le_1_alt.
      assert (C : dotR n h * dotR n h <= 1).
      { assert (LI : dotR n h * dotR n h + normsqR (crossR n h) = normsqR n * normsqR h).
        { unfold normsqR, dotR, crossR; cbn [vx vy vz]; ring. }
        pose proof (normsqR_nonneg (crossR n h)). unfold normsqR at 2 in LI. rewrite U in LI. lra. }
      replace (normsqR (addR n h)) with (dotR n n + 2 * dotR n h + normsqR h) by (unfold normsqR, dotR, addR; cbn [vx vy vz]; ring).
      rewrite U. nra.
Qed.
End Exact.
