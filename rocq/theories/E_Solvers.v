(** Concrete inputs for the theorems about the iterative solvers. *)
From Coq Require Import Reals Lra Lia ZArith List Bool.
From Verif Require Import Num XR Spec Spec_Iter M_Vec M_Matrix M_Rng M_Iter P_Vec P_Bisect P_Newton P_NewtonND P_Stale P_Ko.
Import ListNotations.
Local Open Scope R_scope.

(** Real functions as functions of machine numbers: NaN elsewhere. *)
Definition lift1 (g : R -> R) (x : xr) : xr := match x with Fin r => Fin (g r) | _ => NaN end.
Definition lift2 (g d : R -> R) (x : xr) : xr * xr := (lift1 g x, lift1 d x).
Definition lift3 (g d d2 : R -> R) (x : xr) : xr * xr * xr := (lift1 g x, lift1 d x, lift1 d2 x).
Definition lift_system2 (V : list R -> list R) (J : list R -> list (list R)) (H : list (list (list xr))) (l : list xr) :
  list xr * list (list xr) * list (list (list xr)) := (lift_system V J l, H).

Lemma lift1_computes : forall g, computes (lift1 g) g.
Proof. intros g x; reflexivity. Qed.
Lemma lift2_computes : forall g d, computes2 (lift2 g d) g d.
Proof. intros g d x; reflexivity. Qed.
Lemma lift3_computes : forall g d d2, computes3 (lift3 g d d2) g d d2.
Proof. intros g d d2 x; reflexivity. Qed.
Lemma lift_system2_computes : forall V J H, computes_system2 (lift_system2 V J H) V J.
Proof. intros V J H x; exact (lift_system_computes V J x). Qed.
Lemma reals_of_none : forall l, (forall y, l <> map Fin y) -> reals_of l = None.
Proof.
  induction l as [|a l IH]; intros H; [now destruct (H [])|].
  destruct a as [r| | |]; cbn; try reflexivity.
  rewrite IH; [reflexivity|]. intros y E. apply (H (r :: y)). cbn. now rewrite E.
Qed.
Lemma lift_system2_nan : forall V J H x, (forall y, x <> map Fin y) ->
  fst (fst (lift_system2 V J H x)) <> [] /\ all_nan (fst (fst (lift_system2 V J H x))).
Proof.
  intros V J H x Hx. unfold lift_system2, lift_system. rewrite (reals_of_none x Hx). cbn [fst].
  split.
  - destruct x; [now destruct (Hx [])|discriminate].
  - unfold all_nan. apply Forall_map. apply Forall_forall. reflexivity.
Qed.

(** *** Refutations *)
Lemma bisect_no_bracket : forall L : limits, exists (f : xr -> xr) (g : R -> R) (a b lo up : R),
  computes f g /\ continuity g /\ a < b /\
  (exists n, forall fuel, (n <= fuel)%nat -> bisect (F:=XR L) fuel f (Fin a) (Fin b) = Ok (Fin lo, Fin up)) /\
  forall t, lo <= t <= up -> 0 < g t.
Proof.
  intros L. exists (lift1 (fun x => x - 1 / 4)), (fun x => x - 1 / 4), 0, 8, (1 - / 2 ^ 40), 1.
  split; [apply lift1_computes|]. split; [reg|]. split; [lra|].
  split; [apply bisect_left_root; apply lift1_computes|].
  intros t [H _]. assert (/ 2 ^ 40 < 1 / 2).
  { replace (1 / 2) with (/ 2 ^ 1) by lra. apply Rinv_lt_contravar; [|apply Rlt_pow; [lra|lia]].
    apply Rmult_lt_0_compat; apply pow_lt; lra. }
  lra.
Qed.

Lemma bisect_outside : forall L : limits, exists (f : xr -> xr) (g : R -> R) (a b : R),
  computes f g /\ continuity g /\ a < b /\
  exists n, forall fuel, (n <= fuel)%nat -> exists lo up,
    bisect (F:=XR L) fuel f (Fin a) (Fin b) = Ok (Fin lo, Fin up) /\ b < up.
Proof.
  intros L. exists (lift1 (fun x => 39 / 4 - x)), (fun x => 39 / 4 - x), 0, (19 / 2).
  split; [apply lift1_computes|]. split; [reg|]. split; [lra|].
  apply bisect_beyond. apply lift1_computes.
Qed.

Lemma halley_discards : forall L : limits, exists (f : xr -> xr * xr * xr) (g d d2 : R -> R) (a b : R),
  computes3 f g d d2 /\ (forall x, derivable_pt_lim g x (d x) /\ derivable_pt_lim d x (d2 x)) /\ a < b /\
  exists n, forall fuel, (n <= fuel)%nat ->
    (exists lo up, bisect (F:=XR L) fuel (fun x => fst (fst (f x))) (Fin a) (Fin b) = Ok (Fin lo, Fin up)) /\
    halley (F:=XR L) fuel f (Fin a) (Fin b) = Ok (NaN, 3%nat).
Proof.
  intros L. exists (lift3 (fun x => 1 + x ^ 2 - x ^ 4) (fun x => 2 * x - 4 * x ^ 3) (fun x => 2 - 12 * x ^ 2)).
  eexists _, _, _, 0, 8. split; [apply lift3_computes|]. split.
  - intros x; split.
    + replace (2 * x - 4 * x ^ 3) with (0 + INR 2 * x ^ 1 - INR 4 * x ^ 3) by (simpl; ring).
      apply derivable_pt_lim_minus; [apply derivable_pt_lim_plus; [apply derivable_pt_lim_const|]|]; apply derivable_pt_lim_pow.
    + replace (2 - 12 * x ^ 2) with (2 * 1 - 4 * (INR 3 * x ^ 2)) by (simpl; ring).
      apply derivable_pt_lim_minus; apply derivable_pt_lim_scal; [apply derivable_pt_lim_id|apply derivable_pt_lim_pow].
  - split; [lra|]. apply halley_quartic; [apply lift3_computes|reflexivity].
Qed.

Lemma newton_accepts_stale : forall L : limits, l_eps L <= 1 ->
  exists f V J (bound : bounds (F:=XR L)) guess r g c, computes_system f V J /\
    Forall proper_ends (b_ends bound) /\
    newton_nd (F:=XR L) f bound guess 16 = Ok (map Fin r, g, c) /\
    ~ small_residual (l_eps L) (V r) (J r) r.
Proof.
  intros L HL. exists (lift_system (sV L) sJ), (sV L), sJ, (box01 L), [Fin (1 / 2); Fin (1 / 2)].
  eexists _, _, _. split; [apply lift_system_computes|]. split.
  - repeat constructor; cbn; lra.
  - split; [apply newton_stale; [exact HL|apply lift_system_computes]|]. apply stale_residual.
Qed.

(** *** Runs *)
Section Runs.
Variable L : limits.
Ltac rb := repeat match goal with
  | |- context [Rltb ?p ?q] => first [rewrite (Rltb_true p q) by lra | rewrite (Rltb_false p q) by lra]
  | |- context [Rleb ?p ?q] => first [rewrite (Rleb_true p q) by lra | rewrite (Rleb_false p q) by lra]
  | |- context [Reqb ?p ?q] => first [rewrite (Reqb_true p q) by lra | rewrite (Reqb_false p q) by lra]
  end.

(** newton solves x - 1/4 = 0 on [0,8] in one step. *)
Lemma newton_line : forall fuel,
  newton (F:=XR L) fuel (lift2 (fun x => x - 1 / 4) (fun _ => 1)) (Fin 0) (Fin 8) = Ok (Fin (1 / 4), 3%nat).
Proof.
  intros fuel. unfold newton, lift2. cbn [lift1 newton_loop]. unfold newton_body. xred.
  rewrite Reqb_false by (intro; lra). rewrite (Reqb_false 1 0) by (intro; lra).
  rewrite xdiv_fin by lra. xred. rb. cbn [orb obind].
  replace (0 - (0 - 1 / 4) / 1) with (1 / 4) by lra. cbn [lift1]. xred.
  replace (1 / 4 - 1 / 4) with 0 by lra. rewrite Rabs_R0. pose proof (l_eps_pos L).
  rewrite !Rltb_false; [reflexivity|]. apply Rmult_le_pos; [lra|apply Rabs_pos].
Qed.

Lemma halley_line_hyps :
  let f := lift3 (fun x => x - 1 / 4) (fun _ => 1) (fun _ => 0) in
  computes3 f (fun x => x - 1 / 4) (fun _ => 1) (fun _ => 0) /\ f NaN = (NaN, NaN, NaN) /\
  (forall x : R, (fun _ : R => 1) x <> 0).
Proof. intros f. split; [apply lift3_computes|]. split; [reflexivity|]. intros x; lra. Qed.

(** The system x - 1/2 = y - 1/2 = 0 and its Jacobian. *)
Definition half_V (x : list R) : list R := match x with [a; b] => [a - 1 / 2; b - 1 / 2] | _ => [] end.
Definition half_J (x : list R) : list (list R) := [[1; 0]; [0; 1]].
Definition quarter : list xr := [Fin (1 / 4); Fin (1 / 4)].
Definition half : list R := [1 / 2; 1 / 2].

Lemma residual_zero : forall x, nleb (NumOps:=XR L) (lmaxnorm (F:=XR L) [Fin 0; Fin 0])
  (expected_residual (F:=XR L) [[Fin 1; Fin 0]; [Fin 0; Fin 1]] (map Fin x)) = true.
Proof.
  intros x. change [[Fin 1; Fin 0]; [Fin 0; Fin 1]] with (map (map Fin) [[1; 0]; [0; 1]]).
  unfold expected_residual. 
  assert (K : forall J e, 0 <= e -> exists E, 0 <= E /\
    fold_left (fun e row => let r := row_residual (F:=XR L) row (map Fin x) in
                          if nltb (NumOps:=XR L) e r then r else e) (map (map Fin) J) (Fin e) = Fin E).
  { induction J as [|row J IH]; intros e He; cbn [map fold_left]; [exists e; auto|].
    rewrite row_residual_fin. cbv zeta. cbn [nltb XR xltb]. destruct (Rltb_spec e (l_eps L * weighted row x)).
    - apply IH; lra.
    - apply IH; lra. }
  destruct (K [[1; 0]; [0; 1]] 0 ltac:(lra)) as (E & HE & EE).
  cbn [map] in EE |- *. cbn [nofZ XR] in *. rewrite EE. cbn [lmaxnorm fold_left]. xred.
  rewrite Rabs_R0, Rltb_false by lra. apply Rleb_true; lra.
Qed.
Lemma residual_zero_lt : forall x, nltb (NumOps:=XR L)
  (expected_residual (F:=XR L) [[Fin 1; Fin 0]; [Fin 0; Fin 1]] (map Fin x)) (lmaxnorm (F:=XR L) [Fin 0; Fin 0]) = false.
Proof.
  intros x. pose proof (residual_zero x) as H.
  set (m := lmaxnorm _) in *. set (e := expected_residual _ _) in *. clearbody m e.
  change (@num (XR L)) with xr in *. destruct m as [m| | |], e as [e| | |]; cbn in *; try reflexivity; try discriminate.
  apply Rltb_false. apply Rleb_iff in H. lra.
Qed.

Definition free_ends : list (xr * xr) := [(MInf, PInf); (MInf, PInf)].
Definition ns0 : nstate (F:=XR L) :=
  NS (F:=XR L) quarter [Fin (-1 / 4); Fin (-1 / 4)] [[Fin 1; Fin 0]; [Fin 0; Fin 1]] (Fin (1 / 16)) (Fin 0) 0 pcg_seed [quarter].
Definition ns1 : nstate (F:=XR L) :=
  NS (F:=XR L) (map Fin half) [Fin 0; Fin 0] [[Fin 1; Fin 0]; [Fin 0; Fin 1]] (Fin 0)
    (expected_residual (F:=XR L) [[Fin 1; Fin 0]; [Fin 0; Fin 1]] (map Fin half)) 0 pcg_seed [map Fin half; quarter].
Lemma newton_nd_body_run :
  newton_nd_body (F:=XR L) (lift_system half_V half_J) free_ends ns0 = Ok (Go ns1).
Proof.
  unfold newton_nd_body. unfold ns0 at 1 2. cbn [ns_J ns_v lneg map]. xred. rewrite solve_diag by lra. cbn [obind].
  assert (U : ladd (F:=XR L) (ns_guess ns0) [Fin (- (-1 / 4) / 1); Fin (- (-1 / 4) / 1)] = map Fin half).
  { unfold ladd. cbn [ns_guess ns0 quarter combine map fst snd half]. xred. 
    f_equal; [|f_equal]; apply Fin_eq; field. }
  rewrite U. cbn [contains_vec free_ends half map]. xred. cbn [orb].
  change [Fin (1 / 2); Fin (1 / 2)] with (map Fin half).
  unfold newton_accept. replace (lift_system half_V half_J (map Fin half)) with ([Fin 0; Fin 0], [[Fin 1; Fin 0]; [Fin 0; Fin 1]]).
  2:{ unfold lift_system. rewrite reals_of_fin. cbn [half_V half half_J map]. replace (1 / 2 - 1 / 2) with 0 by lra. reflexivity. }
  rewrite sqn2, half_fin. cbn [ns_g ns0 ns_left ns_rng ns_calls].
  replace ((0 * 0 + 0 * 0) / 2) with 0 by lra. xred. rb. reflexivity.
Qed.
Lemma newton_nd_run : exists g c,
  newton_nd (F:=XR L) (lift_system half_V half_J) (Bounds (F:=XR L) (repeat (MInf, PInf) 2) pcg_seed) quarter 16
  = Ok (map Fin half, g, c).
Proof.
  eexists _, _. unfold newton_nd. change (Z.to_nat (16 - 1)) with 15%nat.
  unfold quarter at 1. unfold lift_system at 1. cbn [reals_of half_V half_J map].
  replace (1 / 4 - 1 / 2) with (-1 / 4) by lra. rewrite sqn2, half_fin.
  replace ((-1 / 4 * (-1 / 4) + -1 / 4 * (-1 / 4)) / 2) with (1 / 16) by field.
  cbn [b_ends b_rng repeat].
  match goal with |- newton_nd_loop ?f ?e 15 ?s = _ => change s with ns0; change e with free_ends end.
  cbn [newton_nd_loop]. rewrite newton_nd_body_run. cbn [obind]. unfold ns1 at 1 2. cbn [ns_v ns_expected].
  rewrite residual_zero_lt.
  unfold newton_nd_finish, ns1. cbn [ns_v ns_expected ns_guess ns_rng ns_calls].
  rewrite residual_zero. reflexivity.
Qed.

Definition zeroH : list (list (list xr)) := [[[Fin 0; Fin 0]; [Fin 0; Fin 0]]; [[Fin 0; Fin 0]; [Fin 0; Fin 0]]].
Definition hs0 : hstate (F:=XR L) :=
  HS (F:=XR L) quarter [Fin (-1 / 4); Fin (-1 / 4)] [[Fin 1; Fin 0]; [Fin 0; Fin 1]] zeroH (Fin 0) 0 pcg_seed [quarter].
Definition hs1 : hstate (F:=XR L) :=
  HS (F:=XR L) (map Fin half) [Fin 0; Fin 0] [[Fin 1; Fin 0]; [Fin 0; Fin 1]] zeroH
    (expected_residual (F:=XR L) [[Fin 1; Fin 0]; [Fin 0; Fin 1]] (map Fin half)) 0 pcg_seed [map Fin half; quarter].
Lemma contract_zero : forall x y, lcontract (F:=XR L) zeroH [Fin x; Fin y] [Fin x; Fin y] = [Fin 0; Fin 0].
Proof.
  intros x y. unfold lcontract, zeroH. cbn [combine map fst snd fold_left]. xred.
  replace (0 + 0 * x * x + 0 * x * y + 0 * y * x + 0 * y * y) with 0 by ring. reflexivity.
Qed.
Lemma halley_nd_body_run :
  halley_nd_body (F:=XR L) (lift_system2 half_V half_J zeroH) [(Fin 0, Fin 1); (Fin 0, Fin 1)] hs0 = Ok (Go hs1).
Proof.
  unfold halley_nd_body. unfold hs0 at 1 2 3 4. cbn [hs_J hs_v hs_H lneg map]. xred. rewrite solve_diag by lra.
  cbn [obind]. rewrite contract_zero, solve_diag by lra. cbn [obind].
  assert (U : halley_update (F:=XR L) (hs_guess hs0) [Fin (- (-1 / 4) / 1); Fin (- (-1 / 4) / 1)] [Fin (0 / 1); Fin (0 / 1)] = map Fin half).
  { cbn [hs_guess hs0 quarter halley_update]. xred. rewrite !xdiv_fin by lra. xred.
    rewrite !Reqb_false by (intro; lra). rewrite !xdiv_fin by lra. xred.
    unfold half; cbn [map]. f_equal; [|f_equal]; apply Fin_eq; field. }
  rewrite U. unfold half at 1; cbn [contains_vec map]. xred. rb. cbn [orb].
  unfold lift_system2, lift_system. rewrite reals_of_fin. cbn [half_V half half_J map].
  replace (1 / 2 - 1 / 2) with 0 by lra. reflexivity.
Qed.
Lemma halley_nd_run : exists g c,
  halley_nd (F:=XR L) (lift_system2 half_V half_J zeroH) (box01 L) quarter 16 = Ok (map Fin half, g, c).
Proof.
  eexists _, _. unfold halley_nd. change (Z.to_nat (16 - 1)) with 15%nat.
  unfold quarter at 1. unfold lift_system2 at 1, lift_system at 1. cbn [reals_of half_V half_J map].
  replace (1 / 4 - 1 / 2) with (-1 / 4) by lra.
  cbn [b_ends b_rng box01 make_bounds].
  match goal with |- halley_nd_loop ?f ?e 15 ?s = _ => change s with hs0 end.
  cbn [halley_nd_loop]. rewrite halley_nd_body_run. cbn [obind]. unfold hs1 at 1 2. cbn [hs_v hs_expected].
  rewrite residual_zero_lt.
  unfold halley_nd_finish, hs1. cbn [hs_v hs_expected hs_guess hs_rng hs_calls].
  rewrite residual_zero. reflexivity.
Qed.

(** ko_method finds the plane z = 1 above the origin at time 1. *)
Definition plane_surface : @surface (XR L) := fun u v =>
  (V3 u v (Fin 1), (V3 (Fin 1) (Fin 0) (Fin 0), V3 (Fin 0) (Fin 1) (Fin 0)),
   (V3 (Fin 0) (Fin 0) (Fin 0), V3 (Fin 0) (Fin 0) (Fin 0), V3 (Fin 0) (Fin 0) (Fin 0))).
Lemma ko_loop_return : forall h r b0 b1 b2 n s k a, ko_body (F:=XR L) h r b0 b1 b2 s = Ok (Return a) ->
  ko_loop (F:=XR L) h r b0 b1 b2 n s k = Ok (a, S k).
Proof. intros h r b0 b1 b2 [|n] s k a H; cbn [ko_loop]; rewrite H; reflexivity. Qed.
Lemma ko_plane : forall rng,
  ko_method (F:=XR L) plane_surface (Ray (fin3 (V3 0 0 0)) (fin3 (V3 0 0 1)))
    (Fin (-1), Fin 1) (Fin (-1), Fin 1) (Fin 0, PInf) rng NaN NaN = Ok (V3 (Fin 0) (Fin 0) (Fin 1), 1%nat).
Proof.
  intros rng. unfold ko_method. apply ko_loop_return. cbn [nisnan XR xisnan fst snd]. unfold ko_body.
  cbn [ks_u ks_v plane_surface r_orig r_dir nadd ndiv nofZ XR xadd].
  rewrite xdiv_fin by lra. replace ((-1 + 1) / 2) with 0 by lra.
  change (@V3 (@num (XR L)) (Fin 0) (Fin 0) (Fin 1)) with (fin3 (V3 0 0 1)).
  rewrite vsub_fin, cross_fin, squared_norm_fin, !dot_fin.
  unfold crossR, subR, normsqR, dotR. cbn [vx vy vz].
  match goal with |- context [if ?c then _ else _] => replace c with true end.
  2:{ symmetry. pose proof (l_eps_pos L). change (Rltb ((0 - 0) * 1 - (1 - 0) * 0) (4 * l_eps L * l_eps L) = true) || idtac.
      cbn. apply Rltb_true. nra. }
  cbn [ndiv XR fst snd]. rewrite xdiv_fin by lra. cbn [nltb XR xltb]. rb. cbn [orb].
  do 3 f_equal. apply Fin_eq. field.
Qed.
End Runs.
