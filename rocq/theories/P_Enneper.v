(** Enneper's surface (C26, C27, C29-C32, C34). *)
From Coq Require Import Reals Lra ZArith List Bool.
From Coquelicot Require Import Coquelicot.
From Verif Require Import Num XR FL Spec M_Vec M_Matrix M_Roots M_Rng M_Hittable M_Iter M_Surfaces
  Spec_Scene Spec_Shapes Spec_Surfaces Spec_Iter
  P_Vec P_Matrix P_Quadratic P_Deriv P_Sphere P_Curvature P_Normals P_Bisect P_FL P_Helicoid.
Import ListNotations.

(** *** The solver reads uninitialised storage, whatever the numbers *)
Section Any.
Context {F : NumOps}.
Local Open Scope num_scope.

Lemma solve3_undef : forall (m : mat3 num) b, neqb (m00 m) (#0) = false -> neqb (m10 m) (#0) = true -> solve3 m b = Undef.
Proof.
  intros m b H0 H1. unfold solve3. rewrite H0, H1. cbn [negb].
  destruct (if negb (m20 m =? #0) then _ else _) as [[? ?] ?]. reflexivity.
Qed.

Lemma solve3_fuel : forall (m : mat3 num) b, solve3 m b <> OutOfFuel.
Proof.
  intros m b. unfold solve3.
  repeat match goal with
  | |- context [if ?c then _ else _] => destruct c
  | |- context [read (Some _)] => cbn [read obind]
  | |- context [read None] => cbn [read obind]
  end; discriminate.
Qed.
Lemma lsolve_fuel : forall J b, lsolve J b <> OutOfFuel.
Proof.
  intros J b. unfold lsolve.
  repeat match goal with |- context [match ?l with [] => _ | _ :: _ => _ end] => destruct l; try discriminate end.
  match goal with |- obind ?e _ <> _ => pose proof (solve3_fuel _ _ : e <> _) as N; destruct e end; try discriminate.
  contradiction.
Qed.
Lemma newton_nd_fuel : forall f b g n, newton_nd f b g n <> OutOfFuel.
Proof.
  intros f b g n. unfold newton_nd. destruct (f g) as [v J]. generalize (Z.to_nat (n - 1)); intros k.
  generalize (NS g v J (lsqnorm v / #2) (#0) 0 (b_rng b) [g]). induction k as [|k IH]; intros s; cbn [newton_nd_loop];
  unfold newton_nd_body; destruct (lsolve (ns_J s) (lneg (ns_v s))) as [dw| |] eqn:E; cbn [obind]; try discriminate;
    try (exfalso; eapply lsolve_fuel; exact E).
  all: match goal with |- obind ?e _ <> _ => assert (X : exists a, e = Ok a) end.
  1,3: repeat match goal with |- context [if ?c then _ else _] => destruct c | |- context [let '(_, _) := ?e in _] => destruct e end; eauto.
  all: destruct X as [a ->]; cbn [obind]; destruct a as [?|s']; try discriminate; destruct (lmaxnorm _ >? _); try discriminate.
  apply IH.
Qed.

(** the centre of [-1,1] *)
Definition middle : num := (#(-1) + #1) / #2.
Definition middle_degenerate : Prop :=
  neqb (#1 - vz (enneper_at middle middle)) (#0) = false /\ neqb (#2 * middle * middle) (#0) = true.

Lemma enneper_uvt_undef : middle_degenerate -> forall o d a b, enneper_uvt o d a b = Undef.
Proof.
  intros [H0 H1] o d a b. unfold enneper_uvt.
  assert (Fu : forall uv w g, enneper_center_run o d uv w g <> OutOfFuel).
  { intros uv w g. unfold enneper_center_run.
    match goal with |- context [newton_nd ?f ?b0 ?g0 ?n] => pose proof (newton_nd_fuel f b0 g0 n) as N; destruct (newton_nd f b0 g0 n) end;
    cbn [obind]; try discriminate. congruence. }
  assert (M : forall w g, enneper_center_run o d (#(-1), #1) w g = Undef).
  { intros w g. unfold enneper_center_run, newton_nd, bounds_center. cbn [b_ends map fst snd].
    fold middle. unfold enneper_system at 1. cbn [nth]. cbn [b_rng].
    destruct (Z.to_nat (16 - 1)) eqn:E; [discriminate|].
    cbn [newton_nd_loop]. unfold newton_nd_body at 1. cbn [ns_J ns_v lneg map].
    unfold lsolve. cbn [map]. rewrite solve3_undef; [reflexivity| |]; unfold enneper_J; cbn [m00 m10]; assumption. }
  destruct (enneper_center_run o d (#(-2), #0) (a, b) pcg_seed) eqn:E0; cbn [obind]; [|auto|elim (Fu _ _ _ E0)].
  destruct (enneper_center_run o d (#0, #2) (a, b) (snd a0)) eqn:E1; cbn [obind]; [|auto|elim (Fu _ _ _ E1)].
  rewrite M. reflexivity.
Qed.

Lemma enneper_hit_undef : middle_degenerate -> forall s r lo hi rec,
  enneper_hit s r lo hi rec = match enneper_window s r lo hi with None => Ok (false, rec) | Some _ => Undef end.
Proof.
  intros H s r lo hi rec. unfold enneper_hit, enneper_hit_with.
  destruct (enneper_window s r lo hi) as [[lo' hi']|]; [|reflexivity].
  rewrite (enneper_uvt_undef H). reflexivity.
Qed.
End Any.

Local Open Scope R_scope.
Lemma middle_XR : forall L, middle_degenerate (F:=XR L).
Proof.
  intros L. unfold middle_degenerate, middle, enneper_at; cbn [vz]. xred. rewrite xdiv_fin by lra. xred.
  unfold Reqb. split; destruct (Req_EM_T _ _); auto; exfalso; lra.
Qed.
Lemma middle_F64 : forall lm, middle_degenerate (F:=F64 lm).
Proof. intros lm. split; vm_compute; reflexivity. Qed.
Lemma middle_F32 : forall lm, middle_degenerate (F:=F32 lm).
Proof. intros lm. split; vm_compute; reflexivity. Qed.

(** *** Derivatives *)
Definition enneper_su (u v : R) : vec3 R := V3 (1 - u ^ 2 + v ^ 2) (2 * u * v) (2 * u).
Definition enneper_sv (u v : R) : vec3 R := V3 (2 * u * v) (1 - v ^ 2 + u ^ 2) (- (2 * v)).
Definition enneper_suu (u v : R) : vec3 R := V3 (- (2 * u)) (2 * v) 2.
Definition enneper_suv (u v : R) : vec3 R := V3 (2 * v) (2 * u) 0.
Definition enneper_svv (u v : R) : vec3 R := V3 (2 * u) (- (2 * v)) (-2).

Lemma enneper_partials : partials enneper_sigma enneper_su enneper_sv /\
  partials enneper_su enneper_suu enneper_suv /\ partials enneper_sv enneper_suv enneper_svv.
Proof.
  unfold enneper_sigma, enneper_su, enneper_sv, enneper_suu, enneper_suv, enneper_svv.
  repeat split; cbn [vx vy vz]; dderiv.
Qed.

Notation ew u v := (1 + u ^ 2 + v ^ 2).
Lemma ew_pos : forall u v : R, 1 <= ew u v.
Proof. intros; nra. Qed.
Lemma enneper_up_norm : forall u v, normR (enneper_up u v) = ew u v.
Proof.
  intros. pose proof (ew_pos u v). unfold normR. replace (normsqR (enneper_up u v)) with ((ew u v) * (ew u v)).
  - rewrite sqrt_square; lra.
  - unfold enneper_up, normsqR, dotR; cbn [vx vy vz]. ring.
Qed.
Lemma enneper_up_nonzero : forall u v, enneper_up u v <> zeroR.
Proof.
  intros u v E. assert (N := enneper_up_norm u v). rewrite E in N. pose proof (ew_pos u v).
  replace (normR zeroR) with 0 in N; [lra|]. unfold normR, normsqR, dotR, zeroR; cbn.
  replace (0 * 0 + 0 * 0 + 0 * 0) with 0 by ring. symmetry; apply sqrt_0.
Qed.
Definition enneper_normal (u v : R) : vec3 R := scaleR (/ ew u v) (enneper_up u v).

Lemma enneper_forms_spec : forall u v,
  first_form enneper_sigma u v (ew u v ^ 2) 0 (ew u v ^ 2) /\
  second_form enneper_sigma (enneper_normal u v) u v 2 0 (-2).
Proof.
  intros u v. destruct enneper_partials as [P1 [P2 P3]]. pose proof (ew_pos u v) as W.
  split.
  - exists enneper_su, enneper_sv. split; [exact P1|].
    unfold enneper_su, enneper_sv, dotR; cbn [vx vy vz]. repeat split; ring.
  - exists enneper_su, enneper_sv, enneper_suu, enneper_suv, enneper_suv, enneper_svv.
    split; [exact P1|]. split; [exact P2|]. split; [exact P3|].
    split; [unfold enneper_normal; rewrite <- enneper_up_norm; apply normR_normalized, enneper_up_nonzero|].
    unfold enneper_normal, enneper_su, enneper_sv, enneper_suu, enneper_suv, enneper_svv, enneper_up, dotR, scaleR; cbn [vx vy vz].
    repeat split; field; lra.
Qed.
Lemma enneper_curvatures : forall u v, curvatures enneper_sigma (enneper_normal u v) u v (enneper_K u v) 0.
Proof.
  intros u v. destruct (enneper_forms_spec u v) as [FF SF]. pose proof (ew_pos u v) as W.
  do 6 eexists. split; [exact FF|]. split; [exact SF|].
  assert (0 < ew u v ^ 2) by nra. assert (0 < ew u v ^ 2 * ew u v ^ 2) by nra.
  repeat split; [lra| |]; unfold enneper_K; field; lra.
Qed.

Section L.
Context {L : limits}.

Lemma enneper_at_fin : forall u v, enneper_at (F:=XR L) (Fin u) (Fin v) = fin3 (enneper_sigma u v).
Proof.
  intros. unfold enneper_at, enneper_sigma, fin3, map3; cbn [vx vy vz]. xred.
  rewrite !xdiv_fin by lra. xred. apply V3x_ext; f_equal; field.
Qed.
Lemma enneper_J_spec : forall u v, exists su sv, partials enneper_sigma su sv /\
  let J := enneper_J (F:=XR L) (Fin u) (Fin v) in
  V3 (m00 J) (m10 J) (m20 J) = fin3 (su u v) /\ V3 (m01 J) (m11 J) (m21 J) = fin3 (sv u v).
Proof.
  intros u v. exists enneper_su, enneper_sv. split; [apply enneper_partials|].
  unfold enneper_J. rewrite enneper_at_fin.
  unfold fin3, map3, enneper_sigma, enneper_su, enneper_sv; cbn [m00 m10 m20 m01 m11 m21 vx vy vz]. xred.
  split; apply V3x_ext; f_equal; ring.
Qed.
Lemma enneper_H_spec : forall u v, exists su sv suu suv svu svv,
  partials enneper_sigma su sv /\ partials su suu suv /\ partials sv svu svv /\
  let H := enneper_H (F:=XR L) (Fin u) (Fin v) in
  map3 a00 H = fin3 (suu u v) /\ map3 a01 H = fin3 (suv u v) /\ map3 a10 H = fin3 (svu u v) /\ map3 a11 H = fin3 (svv u v) /\
  map3 a01 H = map3 a10 H.
Proof.
  intros u v. destruct enneper_partials as [P1 [P2 P3]].
  do 6 eexists. split; [exact P1|]. split; [exact P2|]. split; [exact P3|].
  unfold enneper_H, fin3, map3, enneper_suu, enneper_suv, enneper_svv; cbn [a00 a01 a10 a11 vx vy vz]. xred.
  repeat split; apply V3x_ext; f_equal; ring.
Qed.
Lemma enneper_bounds_spec : exists k0 k1, enneper_curvature_bounds (F:=XR L) = (Fin k0, Fin k1) /\
  (forall u v, -2 <= u <= 2 -> -2 <= v <= 2 -> k0 <= enneper_K u v <= k1) /\
  enneper_K 0 0 = k0 /\ enneper_K 2 2 = k1.
Proof.
  unfold enneper_curvature_bounds. xred. rewrite xdiv_fin by lra. do 2 eexists. split; [reflexivity|].
  unfold enneper_K. split; [|split; field].
  intros u v Hu Hv. assert (A : 1 <= ew u v <= 9) by nra. set (w := ew u v) in *.
  assert (1 <= w ^ 2 <= 81) by nra. assert (1 <= w ^ 4 <= 6561) by nra.
  assert (B : / 6561 <= / w ^ 4 <= 1).
  { split; [apply Rinv_le_contravar; lra|]. rewrite <- Rinv_1. apply Rinv_le_contravar; lra. }
  unfold Rdiv. split; [lra|]. replace (- (4) * / (9 * 9 * 9 * 9)) with (- 4 * / 6561) by field. lra.
Qed.
Lemma enneper_box_spec : forall s : enneper R, exists b, enneper_box (F:=XR L) (finenneper s) = Some (finbox b) /\
  forall p, on_enneper s p -> in_box b p.
Proof.
  intros s. exists (Box (V3 (- en_radius s) (- en_radius s) (- en_radius s)) (V3 (en_radius s) (en_radius s) (en_radius s))).
  split; [reflexivity|]. intros p [_ N]. pose proof (normR_sq p) as Q. pose proof (normR_nonneg p) as P.
  unfold normsqR, dotR in Q. unfold in_box; cbn. set (n := normR p) in *.
  repeat split; nra.
Qed.

(** *** hit, for a solver that answers with NaN or with numbers *)
Lemma enneper_window_spec : forall s (r : ray R) (lo hi : xr) lo' hi' t, 0 <= en_radius s ->
  r_dir r <> zeroR -> off_threshold (l_min L) (normsqR (r_dir r)) -> off_threshold (l_min L) (2 * dotR (r_orig r) (r_dir r)) ->
  lo <> NaN -> hi <> NaN ->
  enneper_window (F:=XR L) (finenneper s) (finray r) lo hi = Some (lo', hi') ->
  xltb (Fin t) lo' = false -> xltb hi' (Fin t) = false ->
  in_window lo hi t /\ normR (pointR r t) <= en_radius s.
Proof.
  intros s r lo hi lo' hi' t Hr Hd Ha Hb Hlo Hhi W A B. unfold enneper_window in W.
  cbn [finray r_orig r_dir finenneper en_radius] in W. rewrite !squared_norm_fin, dot_fin in W. xred.
  set (a := normsqR (r_dir r)) in *. set (b := 2 * dotR (r_orig r) (r_dir r)) in *.
  set (c := normsqR (r_orig r) - en_radius s * en_radius s) in *.
  assert (Pa : 0 < a).
  { pose proof (normR_pos _ Hd) as P. pose proof (normR_sq (r_dir r)) as Q. fold a in Q. nra. }
  destruct (quadratic_roots_correct L a b c Ha Hb) as [[E _]|(x0 & x1 & E & Le & F & _)]; [lra| |];
    change (@num (XR L)) with xr in *; rewrite E in W; [discriminate|].
  specialize (F (Rgt_not_eq _ _ Pa)).
  assert (T : in_window lo hi t /\ x0 <= t <= x1).
  { unfold std_max, std_min in W.
    match type of W with (if ?c then _ else _) = _ => destruct c eqn:E1 end; [discriminate|].
    match type of W with (if ?c then _ else _) = _ => destruct c eqn:E2 end; [discriminate|].
    injection W as <- <-.
    unfold in_window. destruct lo as [lo| | |], hi as [hi| | |]; try congruence; xred; try discriminate;
    repeat match goal with
    | H : context [Rltb ?p ?q] |- _ => destruct (Rltb_spec p q); xred
    end; try discriminate; cbn [at_least at_most]; repeat split; auto; lra. }
  destruct T as [T1 T2]. split; [exact T1|].
  assert (Q : normsqR (pointR r t) - en_radius s * en_radius s = quadR a b c t).
  { unfold quadR, a, b, c, pointR, lineR, normsqR, dotR, addR, scaleR; cbn [vx vy vz]. ring. }
  rewrite F in Q. pose proof (normR_sq (pointR r t)) as N. pose proof (normR_nonneg (pointR r t)).
  assert (0 <= (t - x0) * (x1 - t)) by (apply Rmult_le_pos; lra).
  assert (0 <= a * ((t - x0) * (x1 - t))) by (apply Rmult_le_pos; lra).
  set (n := normR (pointR r t)) in *. nra.
Qed.

Lemma enneper_forms_fin : forall (r : ray R) u v (rec : hit_record xr),
  let rec' := enneper_forms (F:=XR L) (finray r) (Fin u) (Fin v) rec in
  h_t rec' = h_t rec /\ h_p rec' = h_p rec /\ h_u rec' = h_u rec /\ h_v rec' = h_v rec /\
  facing_normal r (enneper_up u v) rec' /\ h_grad rec' = Fin (ew u v ^ 2) /\
  h_E rec' = Fin (ew u v ^ 2) /\ h_F rec' = Fin 0 /\ h_G rec' = Fin (ew u v ^ 2) /\
  h_e rec' = Fin 2 /\ h_f rec' = Fin 0 /\ h_g rec' = Fin (-2).
Proof.
  intros r u v rec. cbv zeta. pose proof (ew_pos u v) as W.
  set (su := enneper_su u v). set (sv := enneper_sv u v).
  assert (C : crossR su sv = scaleR (ew u v) (enneper_up u v)).
  { unfold su, sv, crossR, scaleR, enneper_su, enneper_sv, enneper_up; cbn [vx vy vz]. apply V3_ext; ring. }
  assert (Eg : normR (crossR su sv) = ew u v ^ 2).
  { rewrite C, normR_scale, Rabs_pos_eq, enneper_up_norm by lra. ring. }
  assert (P2 : 0 < ew u v ^ 2) by nra.
  assert (On : vdiv (F:=XR L) (fin3 (crossR su sv)) (Fin (ew u v ^ 2)) = fin3 (scaleR (/ ew u v) (enneper_up u v))).
  { rewrite vdiv_fin by lra. f_equal. rewrite C. unfold scaleR; cbn [vx vy vz]. apply V3_ext; field; lra. }
  unfold enneper_forms. change (@num (XR L)) with xr. xred.
  assert (Esu : V3 (Fin (1 - u * u + v * v)) (Fin (2 * u * v)) (Fin (2 * u)) = fin3 su).
  { unfold su, enneper_su, fin3, map3; cbn [vx vy vz]. apply V3x_ext; f_equal; ring. }
  assert (Esv : V3 (Fin (2 * u * v)) (Fin (1 - v * v + u * u)) (Fin (-2 * v)) = fin3 sv).
  { unfold sv, enneper_sv, fin3, map3; cbn [vx vy vz]. apply V3x_ext; f_equal; ring. }
  change (@num (XR L)) with xr in *. rewrite Esu, Esv. rewrite cross_fin, norm_fin.
  cbn [set_grad h_grad]. rewrite Eg. change (@num (XR L)) with xr in *. rewrite On.
  rewrite !squared_norm_fin. set (rec1 := set_grad _ _).
  assert (Nn : normR (scaleR (/ ew u v) (enneper_up u v)) = 1)
    by (rewrite <- enneper_up_norm; apply normR_normalized, enneper_up_nonzero).
  destruct (face_normal_spec (L:=L) r (enneper_up u v) (/ ew u v) rec1 (Rinv_0_lt_compat _ (Rlt_le_trans _ _ _ Rlt_0_1 W)) Nn) as [_ FN].
  assert (DE : normsqR su = ew u v ^ 2) by (unfold su, enneper_su, normsqR, dotR; cbn [vx vy vz]; ring).
  assert (DG : normsqR sv = ew u v ^ 2) by (unfold sv, enneper_sv, normsqR, dotR; cbn [vx vy vz]; ring).
  rewrite DE, DG.
  repeat match goal with |- _ /\ _ => split end; try (apply FN; reflexivity); reflexivity.
Qed.

Theorem enneper_hit_with_spec : forall uvt (s : enneper R) (r : ray R) (lo hi : xr) (rec rec' : hit_record xr),
  (forall o d a b w, uvt o d a b = Ok w -> (exists u v t, w = [Fin u; Fin v; Fin t]) \/ w = [NaN; NaN; NaN]) ->
  0 <= en_radius s -> r_dir r <> zeroR ->
  off_threshold (l_min L) (normsqR (r_dir r)) -> off_threshold (l_min L) (2 * dotR (r_orig r) (r_dir r)) ->
  lo <> NaN -> hi <> NaN ->
  enneper_hit_with (F:=XR L) uvt (finenneper s) (finray r) lo hi rec = Ok (true, rec') ->
  exists t u v, at_point r t rec' /\ h_u rec' = Fin u /\ h_v rec' = Fin v /\ in_window lo hi t /\
    normR (subR (pointR r t) (enneper_sigma u v)) <= 1 / 100000 /\ normR (pointR r t) <= en_radius s /\
    facing_normal r (enneper_up u v) rec' /\ normal_to enneper_sigma r rec' /\
    has_first_form enneper_sigma rec' /\ has_second_form enneper_sigma (enneper_normal u v) rec' /\
    curvatures enneper_sigma (enneper_normal u v) u v (enneper_K u v) 0 /\
    gaussian_curvature (F:=XR L) rec' = Fin (enneper_K u v) /\ mean_curvature (F:=XR L) rec' = Fin 0.
Proof.
  intros uvt s r lo hi rec rec' Or Hr Hd Ha Hb Hlo Hhi H. unfold enneper_hit_with in H.
  destruct (enneper_window (F:=XR L) (finenneper s) (finray r) lo hi) as [[lo' hi']|] eqn:W; [|discriminate].
  match type of H with obind ?e _ = _ => destruct e as [w| |] eqn:U end; cbn [obind] in H; try discriminate.
  apply Ok_inj in H. destruct (Or _ _ _ _ _ U) as [(u & v & t & ->)| ->]; [|cbn in H; discriminate]. clear U.
  unfold enneper_finish in H. cbn [nth] in H. change (@num (XR L)) with xr in H. cbn [nisnan XR xisnan] in H.
  cbn [nltb XR] in H. destruct (xltb (Fin t) lo' || xltb hi' (Fin t)) eqn:Win; [discriminate|].
  apply orb_false_elim in Win. destruct Win as [W1 W2].
  destruct (enneper_window_spec s r lo hi lo' hi' t Hr Hd Ha Hb Hlo Hhi W W1 W2) as [Hw Hn].
  rewrite enneper_at_fin in H.
  assert (RA : ray_at (F:=XR L) (finray r) (Fin t) = fin3 (pointR r t)) by apply ray_at_fin.
  change (@num (XR L)) with xr in *. rewrite RA in H. cbn [set_v set_u set_p set_t h_p] in H.
  rewrite vsub_fin, norm_fin in H. xred. rewrite xdiv_fin in H by lra. xred.
  match type of H with (if Rltb ?x ?y then _ else _) = _ => destruct (Rltb_spec x y) as [Hres|Hres]; [discriminate|] end.
  injection H as <-.
  match goal with |- context [enneper_forms _ _ _ ?r1] => set (rec1 := r1) end.
  destruct (enneper_forms_fin r u v rec1) as (F1 & F2 & F3 & F4 & FN & Fg & FE & FF & FG & Fe & Ff & Fgg).
  destruct (enneper_forms_spec u v) as [FS SS]. pose proof (ew_pos u v) as Pw.
  exists t, u, v.
  set (rec' := enneper_forms (F:=XR L) (finray r) (Fin u) (Fin v) rec1) in *. change (@num (XR L)) with xr in *.
  assert (S2 : has_second_form enneper_sigma (enneper_normal u v) rec').
  { exists u, v, 2, 0, (-2). repeat match goal with |- _ /\ _ => split end; auto. }
  assert (K : gaussian_curvature (F:=XR L) rec' = Fin (enneper_K u v) /\ mean_curvature (F:=XR L) rec' = Fin 0).
  { unfold gaussian_curvature, mean_curvature. change (@num (XR L)) with xr. rewrite FE, FF, FG, Fe, Ff, Fgg. xred.
    assert (0 < ew u v ^ 2) by nra. assert (0 < ew u v ^ 2 * ew u v ^ 2) by nra.
    rewrite !xdiv_fin by lra. unfold enneper_K. split; f_equal; field; lra. }
  repeat match goal with |- _ /\ _ => split end; auto; try apply Hw; try apply K.
  - split; [exact F1|exact F2].
  - apply (second_form_normal _ r (enneper_up u v) (/ ew u v)); [apply Rinv_neq_0_compat; lra|exact FN|exact S2].
  - exists u, v, (ew u v ^ 2), 0, (ew u v ^ 2). repeat match goal with |- _ /\ _ => split end; auto.
  - apply enneper_curvatures.
Qed.
End L.

(** *** In the form of the theorems *)
Lemma enneper_always_undefined :
  (forall (L : limits) s r lo hi rec, enneper_hit (F:=XR L) s r lo hi rec =
     match enneper_window (F:=XR L) s r lo hi with None => Ok (false, rec) | Some _ => Undef end) /\
  (forall lm s r lo hi rec, enneper_hit (F:=F64 lm) s r lo hi rec =
     match enneper_window (F:=F64 lm) s r lo hi with None => Ok (false, rec) | Some _ => Undef end) /\
  (forall lm s r lo hi rec, enneper_hit (F:=F32 lm) s r lo hi rec =
     match enneper_window (F:=F32 lm) s r lo hi with None => Ok (false, rec) | Some _ => Undef end).
Proof.
  split; [|split]; intros; apply enneper_hit_undef; [apply middle_XR|apply middle_F64|apply middle_F32].
Qed.

Section Forms.
Context {L : limits}.
Variables (uvt : vec3 xr -> vec3 xr -> xr -> xr -> outcome (list xr)) (s : enneper R) (r : ray R) (lo hi : xr) (rec rec' : hit_record xr).
Hypothesis Or : forall o d a b w, uvt o d a b = Ok w -> (exists u v t, w = [Fin u; Fin v; Fin t]) \/ w = [NaN; NaN; NaN].
Hypothesis Hr : 0 <= en_radius s.
Hypothesis Hd : r_dir r <> zeroR.
Hypothesis Ha : off_threshold (l_min L) (normsqR (r_dir r)).
Hypothesis Hb : off_threshold (l_min L) (2 * dotR (r_orig r) (r_dir r)).
Hypothesis Hlo : lo <> NaN.
Hypothesis Hhi : hi <> NaN.
Hypothesis H : enneper_hit_with (F:=XR L) uvt (finenneper s) (finray r) lo hi rec = Ok (true, rec').

Lemma enneper_meets : exists t u v, at_point r t rec' /\ h_u rec' = Fin u /\ h_v rec' = Fin v /\ in_window lo hi t /\
    normR (subR (pointR r t) (enneper_sigma u v)) <= 1 / 100000 /\ normR (pointR r t) <= en_radius s.
Proof.
  destruct (enneper_hit_with_spec uvt s r lo hi rec rec' Or Hr Hd Ha Hb Hlo Hhi H) as (t & u & v & K).
  exists t, u, v. tauto.
Qed.
Lemma enneper_hit_normal : normal_to enneper_sigma r rec' /\
  exists u v, h_u rec' = Fin u /\ h_v rec' = Fin v /\ facing_normal r (enneper_up u v) rec'.
Proof.
  destruct (enneper_hit_with_spec uvt s r lo hi rec rec' Or Hr Hd Ha Hb Hlo Hhi H) as (t & u & v & K).
  split; [tauto|]. exists u, v. tauto.
Qed.
Lemma enneper_hit_forms : has_first_form enneper_sigma rec' /\ exists n, has_second_form enneper_sigma n rec'.
Proof.
  destruct (enneper_hit_with_spec uvt s r lo hi rec rec' Or Hr Hd Ha Hb Hlo Hhi H) as (t & u & v & K).
  split; [tauto|]. eexists. apply K.
Qed.
Lemma enneper_hit_curvature : exists u v n K, h_u rec' = Fin u /\ h_v rec' = Fin v /\ curvatures enneper_sigma n u v K 0 /\
    gaussian_curvature (F:=XR L) rec' = Fin K /\ mean_curvature (F:=XR L) rec' = Fin 0.
Proof.
  destruct (enneper_hit_with_spec uvt s r lo hi rec rec' Or Hr Hd Ha Hb Hlo Hhi H) as (t & u & v & K).
  exists u, v, (enneper_normal u v), (enneper_K u v). tauto.
Qed.
End Forms.

Lemma enneper_jacobian : forall (L : limits) (u v : R),
  enneper_at (F:=XR L) (Fin u) (Fin v) = fin3 (enneper_sigma u v) /\
  exists su sv, partials enneper_sigma su sv /\
    let J := enneper_J (F:=XR L) (Fin u) (Fin v) in
    V3 (m00 J) (m10 J) (m20 J) = fin3 (su u v) /\ V3 (m01 J) (m11 J) (m21 J) = fin3 (sv u v).
Proof. intros. split; [apply enneper_at_fin|apply enneper_J_spec]. Qed.
Lemma enneper_bounds_right : forall (L : limits),
  (forall u v, exists n, curvatures enneper_sigma n u v (enneper_K u v) 0) /\
  exists k0 k1, enneper_curvature_bounds (F:=XR L) = (Fin k0, Fin k1) /\
  (forall u v, -2 <= u <= 2 -> -2 <= v <= 2 -> k0 <= enneper_K u v <= k1) /\
  enneper_K 0 0 = k0 /\ enneper_K 2 2 = k1.
Proof. intros L. split; [intros u v; eexists; apply enneper_curvatures|apply enneper_bounds_spec]. Qed.
