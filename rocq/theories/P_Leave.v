(** A ray that starts on a sphere and leaves it, in exact arithmetic. *)
From Coq Require Import Reals ZArith Lra Lia List Bool Psatz.
From Verif Require Import Spec_Random Num XR Spec Spec_Scene Spec_Light Spec_Shapes Spec_World M_Vec M_Roots M_Rng M_Hittable M_Materials M_Shapes M_World
  P_Vec P_Rng P_Quadratic P_Sphere P_Light P_Lambert P_Furnace.
Import ListNotations.
Local Open Scope R_scope.

Section Leave.
Context {L : limits}.
Notation X := (XR L).

(** a t^2 + b t with a, b >= 0 has no root beyond 0; whatever the thresholds do *)
Lemma no_return : forall a b lo hi, 0 <= a -> 0 <= b -> xltb (Fin 0) lo = true -> first_quadratic_root_in_range (F:=X) (Fin a) (Fin b) (Fin 0) lo hi = None.
Proof.
  intros a b lo hi A B Lo. pose proof (l_min_pos L) as M.
  assert (N0 : forall x, x <= 0 -> nleb (NumOps:=X) lo (Fin x) = false).
  { intros x Hx. destruct lo as [l| | |]; cbn in Lo |- *; try discriminate; try reflexivity. apply Rltb_iff in Lo. apply Rleb_false. lra. }
  assert (NN : nleb (NumOps:=X) lo NaN = false) by (destruct lo; reflexivity).
  assert (Done : forall x0 x1 : xr, nleb (NumOps:=X) lo x0 = false -> nleb (NumOps:=X) lo x1 = false ->
    match [x0; x1] with [r0; r1] => if nleb (NumOps:=X) lo r0 && nleb (NumOps:=X) r0 hi then Some r0 else if nleb (NumOps:=X) lo r1 && nleb (NumOps:=X) r1 hi then Some r1 else None | _ => None end = None).
  { intros x0 x1 -> ->. reflexivity. }
  unfold first_quadratic_root_in_range, quadratic_roots. cbn [nabs nleb XR xabs xleb nmin]. rewrite (Rabs_pos_eq a A), (Rabs_pos_eq b B).
  destruct (Rleb_spec a (l_min L)) as [Ha|Ha].
  - cbn [neqb nofZ XR xeqb]. destruct (Reqb_spec b 0) as [->|Hb]; rewrite (Reqb_true 0 0) by reflexivity; cbn [andb negb].
    + apply Done; cbn [ndiv nneg XR xneg]; rewrite Ropp_0, xdiv_zero_zero; exact NN.
    + apply Done; cbn [ndiv nneg XR xneg]; rewrite xdiv_fin by exact Hb; apply N0; unfold Rdiv; rewrite Ropp_0, Rmult_0_l; lra.
  - destruct (Rleb_spec b (l_min L)) as [Hb|Hb].
    + cbn [ndiv nneg XR xneg]. rewrite xdiv_fin by lra. replace (- 0 / a) with 0 by (unfold Rdiv; rewrite Ropp_0; ring). cbn [nltb nofZ XR xltb]. rewrite Rltb_false by lra.
      cbn [nsqrt nneg XR]. rewrite xsqrt_fin by lra. rewrite sqrt_0. cbn [xneg]. apply Done; apply N0; lra.
    + change (@num X) with xr in *. rewrite discriminant_fin. cbn [nltb nofZ XR xltb]. rewrite Rltb_false by nra. cbn [nsqrt XR]. rewrite xsqrt_fin by nra.
      replace (b * b - 4 * a * 0) with (b * b) by ring. rewrite sqrt_square by exact B. assert (Hcs : xcopysign (Fin b) (Fin b) = Fin b) by (unfold xcopysign, xnegative; cbn [xabs]; rewrite Rltb_false, Rabs_pos_eq by exact B; reflexivity).
      cbn [ncopysign nadd nneg ndiv nofZ XR]. rewrite Hcs. cbn [xadd xneg]. rewrite (xdiv_fin _ 2) by lra. replace (- (b + b) / 2) with (- b) by field. rewrite !xdiv_fin by lra.
      replace (0 / - b) with 0 by (field; lra). assert (Q : - b / a <= 0) by (unfold Rdiv; assert (0 < / a) by (apply Rinv_0_lt_compat; lra); nra).
      cbn [xltb]. destruct (Rltb (- b / a) 0); apply Done; apply N0; lra.
Qed.

Variable s : sphere R.
Hypothesis Rp : 0 < s_radius s.
Lemma leave_miss : forall p d lo hi (rec : hit_record xr), on_sphere s p -> 0 <= dotR (subR p (s_center s)) d -> xltb (Fin 0) lo = true ->
  sphere_hit (F:=X) (finsphere s) (finray (Ray p d)) lo hi rec = Ok (false, rec).
Proof.
  intros p d lo hi rec On D Lo. apply (on_sphere_sq s) in On. unfold sphere_hit.
  change (r_orig (finray (Ray p d))) with (fin3 p). change (r_dir (finray (Ray p d))) with (fin3 d). change (s_center (finsphere s)) with (fin3 (s_center s)). change (s_radius (finsphere s)) with (Fin (s_radius s)).
  rewrite vsub_fin, !squared_norm_fin, dot_fin. xred. rewrite On, Rminus_eq_0.
  pose proof (no_return (normsqR d) (2 * dotR (subR p (s_center s)) d) lo hi) as N. change (@num X) with xr in *. rewrite N; [reflexivity| | |exact Lo]; [unfold normsqR, dotR; nra|lra].
Qed.

(** the record of a hit from outside *)
Lemma outside_record : forall (r : ray R) lo hi (rec rec' : hit_record xr), sphere_off_threshold (l_min L) s r -> lo <> NaN -> hi <> NaN ->
  sphere_hit (F:=X) (finsphere s) (finray r) lo hi rec = Ok (true, rec') -> h_front rec' = true ->
  exists p n, h_p rec' = fin3 p /\ h_normal rec' = fin3 n /\ normR n = 1 /\ dotR (r_dir r) n < 0 /\ on_sphere s p /\ subR p (s_center s) = scaleR (s_radius s) n.
Proof.
  intros r lo hi rec rec' Off Nl Nh E Fr. destruct (sphere_contract (L:=L) s Rp r Off) as [C _]. destruct (C lo hi rec Nl Nh) as (b & rec1 & E1 & H). unfold of_sphere in E1; cbn [hit] in E1. change (@num X) with xr in *. rewrite E in E1. injection E1 as <- <-.
  destruct H as (t & Et & On & _ & _ & Ds). pose proof Ds as (_ & (n0 & En0 & Nn0 & _ & F1 & _) & _). destruct (F1 Fr) as [Neg (k & Kp & Ek)].
  destruct (record_side s Rp r t rec' Ds On) as (n & Ep & En & Nn & Out & _). destruct (Out Neg) as (_ & _ & S1). exists (pointR r t), n. split; [exact Ep|]. split; [exact En|]. split; [exact Nn|].
  assert (Hn : n = n0). { rewrite En in En0. unfold fin3, map3 in En0. destruct n, n0; cbn in En0. injection En0 as -> -> ->. reflexivity. } rewrite <- Hn in Ek. clear Hn.
  split; [|split; [exact On|rewrite Rmult_1_l in S1; exact S1]].
  rewrite Ek. replace (dotR (r_dir r) (scaleR k (subR (pointR r t) (s_center s)))) with (k * dotR (r_dir r) (subR (pointR r t) (s_center s))) by (unfold dotR, scaleR; cbn [vx vy vz]; ring). nra.
Qed.
Lemma matte_leaves : forall tex g (r : ray R) lo hi (rec rec' : hit_record xr), word64 (pc_state g) -> sphere_off_threshold (l_min L) s r -> lo <> NaN -> hi <> NaN ->
  sphere_hit (F:=X) (finsphere s) (finray r) lo hi rec = Ok (true, rec') -> h_front rec' = true ->
  exists k out g', (forall fuel, (k <= fuel)%nat -> lambertian_scatter (F:=X) fuel tex g rec' = Ok (Some (tex rec', out), g')) /\
    forall lo' hi' (rec2 : hit_record xr), xltb (Fin 0) lo' = true -> sphere_hit (F:=X) (finsphere s) out lo' hi' rec2 = Ok (false, rec2).
Proof.
  intros tex g r lo hi rec rec' Wg Off Nl Nh E Fr. destruct (outside_record r lo hi rec rec' Off Nl Nh E Fr) as (p & n & Ep & En & Nn & _ & On & Sn).
  destruct (lambertian_side (L:=L) tex g rec' n Wg En Nn) as (k & d & g' & Es & D1 & _). exists k, (Ray (h_p rec') (fin3 d)), g'. split; [exact Es|]. intros lo' hi' rec2 Lo. rewrite Ep.
  apply (leave_miss p d lo' hi' rec2 On); [|exact Lo]. rewrite Sn. replace (dotR (scaleR (s_radius s) n) d) with (s_radius s * dotR d n) by (unfold dotR, scaleR; cbn [vx vy vz]; ring). nra.
Qed.
Lemma metal_leaves : forall tex (r : ray R) lo hi (rec rec' : hit_record xr), sphere_off_threshold (l_min L) s r -> lo <> NaN -> hi <> NaN ->
  sphere_hit (F:=X) (finsphere s) (finray r) lo hi rec = Ok (true, rec') -> h_front rec' = true ->
  exists out, metal_scatter (F:=X) tex (finray r) rec' = (true, (tex rec', out)) /\
    forall lo' hi' (rec2 : hit_record xr), xltb (Fin 0) lo' = true -> sphere_hit (F:=X) (finsphere s) out lo' hi' rec2 = Ok (false, rec2).
Proof.
  intros tex r lo hi rec rec' Off Nl Nh E Fr. destruct (outside_record r lo hi rec rec' Off Nl Nh E Fr) as (p & n & Ep & En & Nn & Dn & On & Sn). destruct Off as [Zd _].
  destruct (metal_correct (L:=L) tex r rec' n Zd En Nn) as (b & out & Em & Eo & _ & Hb). exists (Ray (h_p rec') (fin3 out)). split; [rewrite Em; f_equal; apply Hb; exact Dn|]. intros lo' hi' rec2 Lo. rewrite Ep.
  apply (leave_miss p out lo' hi' rec2 On); [|exact Lo]. rewrite Sn, Eo.
  assert (U : dotR (unitR (r_dir r)) n < 0).
  { unfold unitR. pose proof (normR_pos _ Zd) as Np. replace (dotR (scaleR (/ normR (r_dir r)) (r_dir r)) n) with (/ normR (r_dir r) * dotR (r_dir r) n) by (unfold dotR, scaleR; cbn [vx vy vz]; ring). assert (0 < / normR (r_dir r)) by (apply Rinv_0_lt_compat; exact Np). nra. }
  pose proof (unit_normsq n Nn) as U1. replace (dotR (scaleR (s_radius s) n) (mirrorR n (unitR (r_dir r)))) with (s_radius s * (dotR (unitR (r_dir r)) n * (1 - 2 * normsqR n))) by (unfold mirrorR, normsqR, dotR, subR, scaleR; cbn [vx vy vz]; ring). rewrite U1. nra.
Qed.
End Leave.
