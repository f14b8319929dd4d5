From Coq Require Import Reals Lra Lia ZArith List Bool.
From Verif Require Import Num XR Spec_Iter M_Rng M_Iter M_Matrix P_Bisect P_Rng P_NewtonND.
Import ListNotations.
Local Open Scope R_scope.
(** *** newton accepts a restart point with the residual of an earlier iterate *)
Section Stale.
Variable L : limits.
Local Notation eps := (l_eps L).
Hypothesis small_eps : eps <= 1.

Definition sV (x : list R) : list R :=
  match x with
  | [x0; x1] => if Req_EM_T x0 (1 / 2) then [-1 / 4; 0]
                else if Req_EM_T x0 (3 / 4) then [-1 / 8; 0] else [3 / 320 * eps; 0]
  | _ => []
  end.
Definition sJ (x : list R) : list (list R) :=
  match x with
  | [x0; x1] => if Req_EM_T x0 (1 / 2) then [[1; 0]; [0; 1]]
                else if Req_EM_T x0 (3 / 4) then [[1 / 80; 0]; [0; 1 / 80]] else [[0; 0]; [0; 0]]
  | _ => []
  end.

Ltac rb := repeat match goal with
  | |- context [Rltb ?p ?q] => first [rewrite (Rltb_true p q) by lra | rewrite (Rltb_false p q) by lra]
  | |- context [Rleb ?p ?q] => first [rewrite (Rleb_true p q) by lra | rewrite (Rleb_false p q) by lra]
  | |- context [Reqb ?p ?q] => first [rewrite (Reqb_true p q) by lra | rewrite (Reqb_false p q) by lra]
  end.

Lemma solve_diag : forall k v0 v1, 0 < k ->
  lsolve (F:=XR L) [[Fin k; Fin 0]; [Fin 0; Fin k]] [Fin v0; Fin v1] = Ok [Fin (v0 / k); Fin (v1 / k)].
Proof.
  intros k v0 v1 Hk. unfold lsolve, solve2. cbn [a00 a01 a10 a11 wx wy]. xred.
  rewrite Rabs_R0. pose proof (l_eps_pos L). rewrite Rleb_true by nra.
  rewrite !xdiv_fin by lra. xred. rewrite !xdiv_fin by lra. cbn [wx wy].
  repeat f_equal; field; lra.
Qed.

Definition box01 : bounds (F:=XR L) := make_bounds (F:=XR L) [(Fin 0, Fin 1); (Fin 0, Fin 1)].
Definition stale_point : list R := [draw pcg_seed; draw (pcg_next pcg_seed)].

Lemma sV_half : forall y, sV [1 / 2; y] = [-1 / 4; 0].
Proof. intros; unfold sV; destruct (Req_EM_T (1 / 2) (1 / 2)); [reflexivity|lra]. Qed.
Lemma sJ_half : forall y, sJ [1 / 2; y] = [[1; 0]; [0; 1]].
Proof. intros; unfold sJ; destruct (Req_EM_T (1 / 2) (1 / 2)); [reflexivity|lra]. Qed.
Lemma sV_34 : forall y, sV [3 / 4; y] = [-1 / 8; 0].
Proof. intros; unfold sV; destruct (Req_EM_T (3 / 4) (1 / 2)); [lra|]. destruct (Req_EM_T (3 / 4) (3 / 4)); [reflexivity|lra]. Qed.
Lemma sJ_34 : forall y, sJ [3 / 4; y] = [[1 / 80; 0]; [0; 1 / 80]].
Proof. intros; unfold sJ; destruct (Req_EM_T (3 / 4) (1 / 2)); [lra|]. destruct (Req_EM_T (3 / 4) (3 / 4)); [reflexivity|lra]. Qed.
Lemma draw_seed : draw pcg_seed = 0.
Proof.
  unfold draw. replace (pcg_output (pc_state pcg_seed)) with 0%Z by (vm_compute; reflexivity). lra.
Qed.
Lemma sV_0 : forall y, sV [0; y] = [3 / 320 * eps; 0].
Proof. intros; unfold sV; destruct (Req_EM_T 0 (1 / 2)); [lra|]. destruct (Req_EM_T 0 (3 / 4)); [lra|reflexivity]. Qed.
Lemma sJ_0 : forall y, sJ [0; y] = [[0; 0]; [0; 0]].
Proof. intros; unfold sJ; destruct (Req_EM_T 0 (1 / 2)); [lra|]. destruct (Req_EM_T 0 (3 / 4)); [lra|reflexivity]. Qed.

Variable f : list xr -> list xr * list (list xr).
Hypothesis Hf : computes_system f sV sJ.

Lemma f_half : f [Fin (1 / 2); Fin (1 / 2)] = ([Fin (-1 / 4); Fin 0], [[Fin 1; Fin 0]; [Fin 0; Fin 1]]).
Proof. pose proof (Hf [1 / 2; 1 / 2]) as H. rewrite sV_half, sJ_half in H. exact H. Qed.
Lemma f_34 : f [Fin (3 / 4); Fin (1 / 2)] = ([Fin (-1 / 8); Fin 0], [[Fin (1 / 80); Fin 0]; [Fin 0; Fin (1 / 80)]]).
Proof. pose proof (Hf [3 / 4; 1 / 2]) as H. rewrite sV_34, sJ_34 in H. exact H. Qed.
Lemma f_0 : forall y, f [Fin 0; Fin y] = ([Fin (3 / 320 * eps); Fin 0], [[Fin 0; Fin 0]; [Fin 0; Fin 0]]).
Proof. intros y; pose proof (Hf [0; y]) as H. rewrite sV_0, sJ_0 in H. exact H. Qed.

Let p1 : R := draw (pcg_next pcg_seed).
Let ends : list (xr * xr) := [(Fin 0, Fin 1); (Fin 0, Fin 1)].

Definition st0 : nstate (F:=XR L) :=
  NS (F:=XR L) [Fin (1 / 2); Fin (1 / 2)] [Fin (-1 / 4); Fin 0] [[Fin 1; Fin 0]; [Fin 0; Fin 1]]
    (Fin (1 / 32)) (Fin 0) 0 pcg_seed [[Fin (1 / 2); Fin (1 / 2)]].
Definition st1 : nstate (F:=XR L) :=
  NS (F:=XR L) [Fin (3 / 4); Fin (1 / 2)] [Fin (-1 / 8); Fin 0] [[Fin (1 / 80); Fin 0]; [Fin 0; Fin (1 / 80)]]
    (Fin (1 / 128)) (Fin (3 / 320 * eps)) 0 pcg_seed
    [[Fin (3 / 4); Fin (1 / 2)]; [Fin (1 / 2); Fin (1 / 2)]].
Definition st2 : nstate (F:=XR L) :=
  NS (F:=XR L) [Fin 0; Fin p1] [Fin (3 / 320 * eps); Fin 0] [[Fin 0; Fin 0]; [Fin 0; Fin 0]]
    (Fin ((3 / 320 * eps) * (3 / 320 * eps) / 2)) (Fin (3 / 320 * eps)) 1 (pcg_next (pcg_next pcg_seed))
    [[Fin 0; Fin p1]; [Fin (3 / 4); Fin (1 / 2)]; [Fin (1 / 2); Fin (1 / 2)]].

Lemma exp34 : expected_residual (F:=XR L) [[Fin (1 / 80); Fin 0]; [Fin 0; Fin (1 / 80)]] [Fin (3 / 4); Fin (1 / 2)] = Fin (3 / 320 * eps).
Proof.
  unfold expected_residual, row_residual. cbn [combine fold_left fst snd]. xred.
  rewrite !Rabs_mult, Rabs_R0, !(Rabs_pos_eq (1 / 80)), (Rabs_pos_eq (3 / 4)), (Rabs_pos_eq (1 / 2)) by lra.
  pose proof (l_eps_pos L).
  rewrite Rltb_true by nra. xred. rewrite Rltb_false by nra. f_equal; field.
Qed.

Lemma sqn2 : forall x y, lsqnorm (F:=XR L) [Fin x; Fin y] = Fin (x * x + y * y).
Proof. intros; unfold lsqnorm; cbn [fold_left]; xred; f_equal; ring. Qed.
Lemma half_fin : forall x, ndiv (NumOps:=XR L) (Fin x) (nofZ (NumOps:=XR L) 2) = Fin (x / 2).
Proof. intros; cbn [ndiv nofZ XR]; apply xdiv_fin; lra. Qed.

Lemma Fin_eq : forall x y, x = y -> Fin x = Fin y.
Proof. intros x y ->; reflexivity. Qed.

Lemma body0 : newton_nd_body (F:=XR L) f ends st0 = Ok (Go st1).
Proof.
  unfold newton_nd_body. unfold st0 at 1 2. cbn [ns_J ns_v lneg map]. xred.
  replace (Fin (- (-1 / 4))) with (Fin (1 / 4)) by (apply Fin_eq; lra).
  rewrite Ropp_0. rewrite solve_diag by lra. cbn [obind].
  replace (Fin (1 / 4 / 1)) with (Fin (1 / 4)) by (apply Fin_eq; lra).
  replace (Fin (0 / 1)) with (Fin 0) by (apply Fin_eq; lra).
  unfold st0 at 1. cbn [ns_guess ladd combine map fst snd]. unfold ladd at 1. cbn [combine map fst snd]. xred.
  unfold contains_vec at 1. unfold ends at 1. xred. rb. cbn [orb].
  f_equal. f_equal. unfold ladd; unfold st0 at 2; cbn [ns_guess combine map fst snd]; xred.
  replace (Fin (1 / 2 + 1 / 4)) with (Fin (3 / 4)) by (apply Fin_eq; lra).
  replace (Fin (1 / 2 + 0)) with (Fin (1 / 2)) by (apply Fin_eq; lra).
  unfold newton_accept. rewrite f_34. rewrite sqn2, half_fin. unfold st0; cbn [ns_v ns_J ns_g ns_guess ns_calls ns_rng ns_left].
  xred. rb. rewrite exp34. unfold st1. f_equal. apply Fin_eq; lra.
Qed.

Lemma body1 : newton_nd_body (F:=XR L) f ends st1 = Ok (Go st2).
Proof.
  unfold newton_nd_body. unfold st1 at 1 2. cbn [ns_J ns_v lneg map]. xred.
  replace (Fin (- (-1 / 8))) with (Fin (1 / 8)) by (apply Fin_eq; lra).
  rewrite Ropp_0. rewrite solve_diag by lra. cbn [obind].
  replace (Fin (1 / 8 / (1 / 80))) with (Fin 10) by (apply Fin_eq; lra).
  replace (Fin (0 / (1 / 80))) with (Fin 0) by (apply Fin_eq; lra).
  unfold st1 at 1. cbn [ns_guess ladd combine map fst snd]. unfold ladd at 1. cbn [combine map fst snd]. xred.
  unfold contains_vec at 1. unfold ends at 1. xred. rb. cbn [orb].
  unfold ladd at 1. unfold st1 at 1 2. cbn [ns_guess combine map fst snd]. unfold ends at 1. cbn [lambda_max]. xred. rb.
  rewrite xdiv_fin by lra. unfold std_min. xred. rb. xred.
  rewrite xdiv_fin by lra. xred. rb.
  unfold st1 at 1. cbn [ns_rng]. unfold ends at 1. cbn [random_point]. rewrite !pcg_real_01_draw. cbn [random_point].
  xred. rewrite draw_seed. fold p1.
  unfold st1 at 1. cbn [ns_left Nat.ltb Nat.leb].
  replace (Fin (0 * (1 - 0) + 0)) with (Fin 0) by (apply Fin_eq; lra).
  replace (Fin (p1 * (1 - 0) + 0)) with (Fin p1) by (apply Fin_eq; lra).
  rewrite f_0. rewrite sqn2, half_fin. unfold st1, st2. cbn [ns_left ns_expected ns_calls].
  do 3 f_equal. apply Fin_eq; lra.
Qed.

Lemma newton_stale : newton_nd (F:=XR L) f box01 [Fin (1 / 2); Fin (1 / 2)] 16 =
  Ok (map Fin [0; p1], pcg_next (pcg_next pcg_seed), ns_calls st2).
Proof.
  pose proof (l_eps_pos L).
  unfold newton_nd. rewrite f_half. rewrite sqn2, half_fin.
  change (Z.to_nat (16 - 1)) with 15%nat. cbn [box01 make_bounds b_ends b_rng].
  match goal with |- newton_nd_loop f _ 15 ?s = _ => replace s with st0 by (unfold st0; f_equal; apply Fin_eq; lra) end.
  change [(Fin 0, Fin 1); (Fin 0, Fin 1)] with ends.
  cbn [newton_nd_loop]. rewrite body0. cbn [obind].
  assert (M1 : nltb (NumOps:=XR L) (ns_expected st1) (lmaxnorm (F:=XR L) (ns_v st1)) = true).
  { unfold st1; cbn [ns_expected ns_v lmaxnorm fold_left]; xred.
    rewrite Rabs_R0, Rabs_left by lra. rb. xred. apply Rltb_true. lra. }
  rewrite M1. cbn [newton_nd_loop]. rewrite body1. cbn [obind].
  assert (N : lmaxnorm (F:=XR L) (ns_v st2) = Fin (3 / 320 * eps)).
  { unfold st2; cbn [ns_v lmaxnorm fold_left]; xred. rewrite Rabs_R0, Rabs_pos_eq by nra.
    rewrite Rltb_false by nra. reflexivity. }
  assert (M2 : nltb (NumOps:=XR L) (ns_expected st2) (lmaxnorm (F:=XR L) (ns_v st2)) = false).
  { rewrite N. unfold st2; cbn [ns_expected]; xred. apply Rltb_false; lra. }
  assert (M3 : nleb (NumOps:=XR L) (lmaxnorm (F:=XR L) (ns_v st2)) (ns_expected st2) = true).
  { rewrite N. unfold st2; cbn [ns_expected]; xred. apply Rleb_true; lra. }
  rewrite M2. unfold newton_nd_finish. rewrite M3. reflexivity.
Qed.

Lemma stale_residual : ~ small_residual eps (sV [0; p1]) (sJ [0; p1]) [0; p1].
Proof.
  rewrite sV_0, sJ_0. intros H. specialize (H (3 / 320 * eps) (or_introl eq_refl)).
  unfold max_weighted, weighted in H; cbn [fold_right] in H. pose proof (l_eps_pos L).
  rewrite !Rmult_0_l, Rabs_R0, (Rabs_pos_eq (3 / 320 * eps)) in H by nra.
  replace (0 + (0 + 0)) with 0 in H by ring. rewrite !(Rmax_left 0 0) in H by lra. lra.
Qed.
End Stale.

(** A function for the counterexample: any lift of sV, sJ. *)
Fixpoint reals_of (l : list xr) : option (list R) :=
  match l with
  | [] => Some []
  | Fin x :: l' => match reals_of l' with Some r => Some (x :: r) | None => None end
  | _ => None
  end.
Definition lift_system (V : list R -> list R) (J : list R -> list (list R)) (l : list xr) : list xr * list (list xr) :=
  match reals_of l with
  | Some x => (map Fin (V x), map (map Fin) (J x))
  | None => (map (fun _ => NaN) l, map (fun _ => map (fun _ => NaN) l) l)
  end.
Lemma reals_of_fin : forall x, reals_of (map Fin x) = Some x.
Proof. induction x as [|a x IH]; simpl; [reflexivity|]. now rewrite IH. Qed.
Lemma lift_system_computes : forall V J, computes_system (lift_system V J) V J.
Proof. intros V J x; unfold lift_system; now rewrite reals_of_fin. Qed.
