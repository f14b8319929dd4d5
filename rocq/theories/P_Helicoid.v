(** Helicoid (C25, C27, C29-C32, C34). *)
From Coq Require Import Reals Lra ZArith List Bool.
From Coquelicot Require Import Coquelicot.
From Verif Require Import Num XR Spec M_Vec M_Matrix M_Roots M_Rng M_Hittable M_Iter M_Surfaces
  Spec_Scene Spec_Shapes Spec_Surfaces Spec_Iter
  P_Vec P_Matrix P_Quadratic P_Angle P_Deriv P_Sphere P_Curvature P_Normals P_Bisect P_NewtonND.
Import ListNotations.
Local Open Scope R_scope.

(** *** Derivatives *)
Definition helicoid_su (s : helicoid R) (u v : R) : vec3 R :=
  V3 (- (2 * PI * he_radius s * v * sin (2 * PI * u))) (2 * PI * he_radius s * v * cos (2 * PI * u)) (he_speed s).
Definition helicoid_sv (s : helicoid R) (u v : R) : vec3 R :=
  V3 (he_radius s * cos (2 * PI * u)) (he_radius s * sin (2 * PI * u)) 0.
Definition helicoid_suu (s : helicoid R) (u v : R) : vec3 R :=
  V3 (- (4 * PI ^ 2 * he_radius s * v * cos (2 * PI * u))) (- (4 * PI ^ 2 * he_radius s * v * sin (2 * PI * u))) 0.
Definition helicoid_suv (s : helicoid R) (u v : R) : vec3 R :=
  V3 (- (2 * PI * he_radius s * sin (2 * PI * u))) (2 * PI * he_radius s * cos (2 * PI * u)) 0.
Definition helicoid_svv (s : helicoid R) (u v : R) : vec3 R := V3 0 0 0.

Lemma helicoid_partials : forall s, partials (helicoid_sigma s) (helicoid_su s) (helicoid_sv s) /\
  partials (helicoid_su s) (helicoid_suu s) (helicoid_suv s) /\
  partials (helicoid_sv s) (helicoid_suv s) (helicoid_svv s).
Proof.
  intros s. unfold helicoid_sigma, helicoid_su, helicoid_sv, helicoid_suu, helicoid_suv, helicoid_svv.
  repeat split; cbn [vx vy vz]; dderiv.
Qed.

Lemma helicoid_up_normsq : forall s u v, normsqR (helicoid_up s u v) = he_speed s ^ 2 + (2 * PI * he_radius s * v) ^ 2.
Proof.
  intros. unfold helicoid_up, normsqR, dotR; cbn [vx vy vz]. pose proof (sc2 (2 * PI * u)).
  replace (_ + _ + _) with (he_speed s ^ 2 * (sin (2 * PI * u) * sin (2 * PI * u) + cos (2 * PI * u) * cos (2 * PI * u)) + (2 * PI * he_radius s * v) ^ 2) by ring.
  rewrite H; ring.
Qed.
Lemma helicoid_up_nonzero : forall s u v, helicoid_ok s -> helicoid_up s u v <> zeroR.
Proof.
  intros s u v [_ Hs] E. assert (N : normsqR (helicoid_up s u v) = 0) by (rewrite E; unfold normsqR, dotR, zeroR; cbn; ring).
  rewrite helicoid_up_normsq in N. nra.
Qed.

Definition helicoid_normal (s : helicoid R) (u v : R) : vec3 R :=
  scaleR (/ normR (helicoid_up s u v)) (helicoid_up s u v).

Lemma helicoid_forms_spec : forall s u v, helicoid_ok s ->
  first_form (helicoid_sigma s) u v (he_speed s ^ 2 + (2 * PI * he_radius s * v) ^ 2) 0 (he_radius s ^ 2) /\
  second_form (helicoid_sigma s) (helicoid_normal s u v) u v 0
    (2 * PI * he_radius s * he_speed s / normR (helicoid_up s u v)) 0.
Proof.
  intros s u v Ok. destruct (helicoid_partials s) as [P1 [P2 P3]].
  pose proof (normR_pos _ (helicoid_up_nonzero s u v Ok)) as Np.
  pose proof (sc2 (2 * PI * u)) as S2.
  split.
  - exists (helicoid_su s), (helicoid_sv s). split; [exact P1|].
    unfold helicoid_su, helicoid_sv, dotR; cbn [vx vy vz]. repeat split.
    + replace (_ + _ + _) with (he_speed s ^ 2 + (2 * PI * he_radius s * v) ^ 2 * (sin (2 * PI * u) * sin (2 * PI * u) + cos (2 * PI * u) * cos (2 * PI * u))) by ring.
      rewrite S2; ring.
    + ring.
    + replace (_ + _ + _) with (he_radius s ^ 2 * (sin (2 * PI * u) * sin (2 * PI * u) + cos (2 * PI * u) * cos (2 * PI * u))) by ring.
      rewrite S2; ring.
  - exists (helicoid_su s), (helicoid_sv s), (helicoid_suu s), (helicoid_suv s), (helicoid_suv s), (helicoid_svv s).
    split; [exact P1|]. split; [exact P2|]. split; [exact P3|].
    split; [apply normR_normalized, helicoid_up_nonzero; auto|].
    unfold helicoid_normal. set (k := normR (helicoid_up s u v)) in *.
    unfold helicoid_su, helicoid_sv, helicoid_suu, helicoid_suv, helicoid_svv, helicoid_up, dotR, scaleR; cbn [vx vy vz].
    repeat split; try (field; lra).
    + replace (_ + _ + _) with (/ k * (2 * PI * he_radius s * v * he_speed s) * (sin (2 * PI * u) * sin (2 * PI * u) + cos (2 * PI * u) * cos (2 * PI * u)) - / k * (2 * PI * he_radius s * v * he_speed s)) by ring.
      rewrite S2; ring.
    + replace (- (2 * PI * he_radius s * sin (2 * PI * u)) * (/ k * - (he_speed s * sin (2 * PI * u))) +
        2 * PI * he_radius s * cos (2 * PI * u) * (/ k * (he_speed s * cos (2 * PI * u))) + 0 * (/ k * - (2 * PI * he_radius s * v)))
        with (/ k * (2 * PI * he_radius s * he_speed s) * (sin (2 * PI * u) * sin (2 * PI * u) + cos (2 * PI * u) * cos (2 * PI * u))) by ring.
      rewrite S2; field; lra.
Qed.

Lemma helicoid_curvatures : forall s u v, helicoid_ok s ->
  curvatures (helicoid_sigma s) (helicoid_normal s u v) u v (helicoid_K s v) 0.
Proof.
  intros s u v Ok. destruct (helicoid_forms_spec s u v Ok) as [FF SF].
  do 6 eexists. split; [exact FF|]. split; [exact SF|].
  destruct Ok as [Hr Hs]. pose proof PI_pos.
  pose proof (normR_sq (helicoid_up s u v)) as Q. rewrite helicoid_up_normsq in Q.
  pose proof (normR_pos _ (helicoid_up_nonzero s u v (conj Hr Hs))) as Np.
  set (W := he_speed s ^ 2 + (2 * PI * he_radius s * v) ^ 2) in *.
  assert (Wp : 0 < W) by (unfold W; nra).
  repeat split.
  - assert (0 < W * he_radius s ^ 2) by positive. lra.
  - unfold helicoid_K. fold W. set (k := normR (helicoid_up s u v)) in *.
    replace (0 * 0 - _) with (- (2 * PI * he_radius s * he_speed s) ^ 2 / (k * k)) by (field; lra).
    rewrite Q. field. split; lra.
  - field; split; lra.
Qed.

Section L.
Context {L : limits}.
Notation eps := (l_eps L).

Lemma helicoid_at_fin : forall s u v,
  helicoid_at (F:=XR L) (finhelicoid s) (Fin u) (Fin v) = fin3 (helicoid_sigma s u v).
Proof.
  intros. unfold helicoid_at, finhelicoid, helicoid_sigma, fin3, map3; cbn [he_radius he_speed vx vy vz]. xred.
  rewrite xdiv_fin by lra. xred. apply V3x_ext; f_equal; field.
Qed.

Lemma helicoid_J_spec : forall (s : helicoid R) u v, exists su sv, partials (helicoid_sigma s) su sv /\
  let J := helicoid_J (F:=XR L) (finhelicoid s) (Fin u) (Fin v) in
  V3 (m00 J) (m10 J) (m20 J) = fin3 (su u v) /\ V3 (m01 J) (m11 J) (m21 J) = fin3 (sv u v).
Proof.
  intros s u v. exists (helicoid_su s), (helicoid_sv s). split; [apply helicoid_partials|].
  unfold helicoid_J. rewrite helicoid_at_fin.
  unfold finhelicoid, fin3, map3, helicoid_sigma, helicoid_su, helicoid_sv; cbn [m00 m10 m20 m01 m11 m21 he_radius he_speed vx vy vz]. xred.
  split; apply V3x_ext; f_equal; ring.
Qed.

(** All second derivatives are right except d2/dudv, which lacks the factor r. *)
Lemma helicoid_H_spec : forall (s : helicoid R) u v, exists su sv suu suv svu svv,
  partials (helicoid_sigma s) su sv /\ partials su suu suv /\ partials sv svu svv /\
  let H := helicoid_H (F:=XR L) (finhelicoid s) (Fin u) (Fin v) in
  map3 a00 H = fin3 (suu u v) /\ map3 a11 H = fin3 (svv u v) /\
  map3 a01 H = map3 a10 H /\ suv u v = svu u v /\
  exists m, map3 a01 H = fin3 m /\ suv u v = scaleR (he_radius s) m /\ m <> zeroR.
Proof.
  intros s u v. destruct (helicoid_partials s) as [P1 [P2 P3]].
  do 6 eexists. split; [exact P1|]. split; [exact P2|]. split; [exact P3|].
  unfold helicoid_H. rewrite helicoid_at_fin.
  unfold finhelicoid, fin3, map3, helicoid_sigma, helicoid_suu, helicoid_suv, helicoid_svv; cbn [a00 a01 a10 a11 he_radius he_speed vx vy vz]. xred.
  split; [apply V3x_ext; f_equal; ring|]. split; [reflexivity|]. split; [reflexivity|]. split; [reflexivity|].
  exists (V3 (-2 * PI * sin (2 * PI * u)) (2 * PI * cos (2 * PI * u)) 0). split; [reflexivity|].
  split; [unfold scaleR; cbn [vx vy vz]; apply V3_ext; ring|].
  intros E. injection E as E1 E2. pose proof PI_pos. pose proof (sc2 (2 * PI * u)).
  assert (sin (2 * PI * u) = 0) by nra. assert (cos (2 * PI * u) = 0) by nra. nra.
Qed.

Lemma helicoid_H_wrong : forall (s : helicoid R) u v, he_radius s <> 1 ->
  forall su sv suu suv, partials (helicoid_sigma s) su sv -> partials su suu suv ->
  map3 a01 (helicoid_H (F:=XR L) (finhelicoid s) (Fin u) (Fin v)) <> fin3 (suv u v).
Proof.
  intros s u v N su sv suu suv P P2 E.
  destruct (helicoid_H_spec s u v) as (su' & sv' & suu' & suv' & svu' & svv' & P' & P2' & _ & H).
  destruct H as (_ & _ & _ & _ & m & Em & Es & Nm).
  assert (Q : forall a b, su a b = su' a b) by (intros a b; apply (partials_unique _ _ _ _ _ P P')).
  assert (S : suv u v = suv' u v).
  { destruct (P2 u v) as [_ B], (P2' u v) as [_ B'].
    exact (deriv3_unique _ _ _ _ (deriv3_ext _ (fun b => su' u b) _ _ (fun b => Q u b) B) B'). }
  rewrite Em, S, Es in E. apply fin3_inj in E.
  apply Nm. destruct m as [m0 m1 m2]. unfold scaleR, zeroR in *; cbn [vx vy vz] in E.
  injection E as E0 E1 E2. apply V3_ext; nra.
Qed.

(** *** The record after a hit *)
Lemma clamp01 : forall x : xr, x <> NaN -> exists y, std_clamp (F:=XR L) x (Fin 0) (Fin 1) = Fin y /\ 0 <= y <= 1.
Proof.
  intros x Hx. unfold std_clamp. destruct x as [x| | |]; xred; try congruence.
  - destruct (Rltb_spec x 0); [exists 0; split; [auto|lra]|]. destruct (Rltb_spec 1 x); [exists 1; split; [auto|lra]|].
    exists x; split; [auto|lra].
  - exists 1; split; [auto|lra].
  - exists 0; split; [auto|lra].
Qed.

Lemma roots_finite : forall a b c r0 r1, l_min L < Rabs a ->
  quadratic_roots (F:=XR L) (Fin a) (Fin b) (Fin c) = [r0; r1] ->
  exists x0 x1, r0 = Fin x0 /\ r1 = Fin x1 /\ x0 <= x1.
Proof.
  intros a b c r0 r1 Ha E.
  assert (X : exists b', quadratic_roots (F:=XR L) (Fin a) (Fin b) (Fin c) = quadratic_roots (F:=XR L) (Fin a) (Fin b') (Fin c) /\
                         off_threshold (l_min L) b').
  { destruct (Rle_dec (Rabs b) (l_min L)) as [Hb|Hb].
    - exists 0. split; [|left; auto]. unfold quadratic_roots. xred. rewrite (Rleb_false (Rabs a)) by auto.
      rewrite !Rleb_true; auto. rewrite Rabs_R0. pose proof (l_min_pos L); lra.
    - exists b. split; [auto|right; lra]. }
  destruct X as [b' [E' Hb]]. rewrite E' in E.
  pose proof (abs_gt_min_neq0 L a Ha) as Na.
  destruct (quadratic_roots_correct L a b' c (or_intror Ha) Hb) as [[E1 _]|[x0 [x1 [E1 [Le _]]]]]; [tauto| |];
    change (@num (XR L)) with xr in *; rewrite E1 in E; [discriminate|].
  injection E as <- <-. eauto.
Qed.

(** solutions of the general case: t is real unless everything is NaN *)
Lemma newton_value : forall f ends n (s : nstate (F:=XR L)) r g c,
  f (ns_guess s) = (ns_v s, ns_J s) ->
  newton_nd_loop (F:=XR L) f ends n s = Ok (r, g, c) ->
  all_nan r \/ lmaxnorm (F:=XR L) (fst (f r)) <> NaN.
Proof.
  intros f ends n s r g c I H.
  assert (ACC : forall (s : nstate (F:=XR L)) dw ng, f (ns_guess s) = (ns_v s, ns_J s) ->
    f (ns_guess (newton_accept (F:=XR L) f ends s dw ng)) =
    (ns_v (newton_accept (F:=XR L) f ends s dw ng), ns_J (newton_accept (F:=XR L) f ends s dw ng))).
  { intros s0 dw ng _. unfold newton_accept. destruct (f ng) as [v1 J1] eqn:E1.
    match goal with |- context [if ?c then _ else _] => destruct c end; [|cbn; auto].
    match goal with |- context [f (ladd ?p ?q)] => set (ng2 := ladd p q); destruct (f ng2) as [v2 J2] eqn:E2 end.
    match goal with |- context [if ?c then _ else _] => destruct c end; [|cbn; auto].
    match goal with |- context [@random_point ?F ?e ?g] => destruct (@random_point F e g) as [p g'] end.
    destruct (f p) as [v3 J3] eqn:E3. cbn; auto. }
  assert (BODY : forall (s : nstate (F:=XR L)) a, f (ns_guess s) = (ns_v s, ns_J s) ->
    newton_nd_body (F:=XR L) f ends s = Ok a ->
    match a with Return (x, g, c) => all_nan x | Go s' => f (ns_guess s') = (ns_v s', ns_J s') end).
  { intros s0 a I0 B. unfold newton_nd_body in B.
    match type of B with obind ?e _ = _ => destruct e as [dw| |] end; cbn [obind] in B; try discriminate.
    match type of B with (if ?c then _ else _) = _ => destruct c end.
    - apply Ok_inj in B; subst a. apply ACC, I0.
    - match type of B with (if ?c then _ else _) = _ => destruct c end.
      + match type of B with context [@random_point ?F ?e ?g] => destruct (@random_point F e g) as [p g'] end.
        match type of B with (if ?c then _ else _) = _ => destruct c end.
        * apply Ok_inj in B; subst a. apply lnans_nan.
        * destruct (f p) as [v J] eqn:E. apply Ok_inj in B; subst a. cbn; auto.
      + apply Ok_inj in B; subst a. apply ACC, I0. }
  assert (FIN : forall (s : nstate (F:=XR L)) r g c, f (ns_guess s) = (ns_v s, ns_J s) ->
    Ok (newton_nd_finish (F:=XR L) s) = Ok (r, g, c) -> all_nan r \/ lmaxnorm (F:=XR L) (fst (f r)) <> NaN).
  { intros s0 r0 g0 c0 I0 B. apply Ok_inj in B. unfold newton_nd_finish in B.
    match type of B with context [if ?c then _ else _] => destruct c eqn:T end; injection B as <- <- <-.
    - right. rewrite I0. cbn [fst]. intros E. change (@num (XR L)) with xr in *. rewrite E in T. cbn in T. discriminate.
    - left; apply lnans_nan. }
  revert s r g c I H.
  induction n as [|n IH]; intros s r g c I H; cbn [newton_nd_loop] in H;
    (match type of H with obind ?e _ = _ => destruct e as [a| |] eqn:B end; cbn [obind] in H; try discriminate);
    pose proof (BODY s a I B) as I'; destruct a as [[[x g'] c']|s'].
  - apply Ok_inj in H; injection H as <- <- <-; auto.
  - match type of H with (if ?c then _ else _) = _ => destruct c end; apply (FIN s' r g c I' H).
  - apply Ok_inj in H; injection H as <- <- <-; auto.
  - match type of H with (if ?c then _ else _) = _ => destruct c end.
    + apply (IH s' r g c I' H).
    + apply (FIN s' r g c I' H).
Qed.

Lemma helicoid_window_fin : forall s o d lo hi lo' hi', l_min L < vx d ^ 2 + vy d ^ 2 ->
  helicoid_window (F:=XR L) (finhelicoid s) (finray (Ray o d)) lo hi = Some (lo', hi') ->
  exists x0 x1, x0 <= x1 /\ xltb (Fin x1) lo = false /\ lo' = std_max (F:=XR L) lo (Fin x0) /\ hi' = std_min (F:=XR L) hi (Fin x1).
Proof.
  intros s o d lo hi lo' hi' Ha H.
  unfold helicoid_window in H. cbn [finray fin3 map3 r_orig r_dir vx vy vz finhelicoid he_radius he_speed] in H. xred.
  rewrite Rltb_true in H by nra.
  match type of H with match ?q with _ => _ end = _ => destruct q as [|r0 [|r1 [|]]] eqn:Q end; try discriminate.
  assert (Rabs (vx d * vx d + vy d * vy d) = vx d ^ 2 + vy d ^ 2) as Eab by (rewrite Rabs_pos_eq; nra).
  destruct (roots_finite _ _ _ r0 r1 (eq_ind_r (fun x => l_min L < x) Ha Eab) Q) as (x0 & x1 & -> & -> & Le).
  exists x0, x1. split; [auto|].
  match type of H with (if ?c then _ else _) = _ => destruct c eqn:C end; [discriminate|].
  repeat match type of H with (if ?c then _ else _) = _ => destruct c; try discriminate end.
  injection H as <- <-. repeat split; auto.
Qed.

Lemma window_real : forall lo hi x0 x1 (t : xr), x0 <= x1 -> xltb (Fin x1) lo = false ->
  xleb (std_max (F:=XR L) lo (Fin x0)) t = true -> xleb t (std_min (F:=XR L) hi (Fin x1)) = true ->
  exists t', t = Fin t' /\ at_least lo t' /\ at_most hi t' /\ x0 <= t' <= x1.
Proof.
  intros lo hi x0 x1 t Hx A B C. unfold std_max, std_min in *.
  destruct lo as [lo| | |], hi as [hi| | |], t as [t| | |]; xred;
    repeat (match goal with
    | H : context [Rltb ?a ?b] |- _ => destruct (Rltb_spec a b); xred
    | H : context [Rleb ?a ?b] |- _ => destruct (Rleb_spec a b); xred
    end); try discriminate; exists t; unfold at_least, at_most; repeat split; auto; try lra.
Qed.

Definition unit_interval (x : R) : Prop := 0 <= x <= 1.

Lemma helicoid_horizontal_spec : forall s o d lo hi t u v, helicoid_ok s ->
  (forall t, xleb lo t = true -> xleb t hi = true -> exists t', t = Fin t') ->
  helicoid_horizontal (F:=XR L) (finhelicoid s) (fin3 o) (fin3 d) lo hi = (t, u, v) ->
  t = NaN \/ exists t' u' v', t = Fin t' /\ u = Fin u' /\ v = Fin v' /\ 0 <= u' <= 1 /\ 0 <= v' <= 1 /\
    xleb lo t = true /\ xleb t hi = true.
Proof.
  intros s o d lo hi t u v [Hr Hs] W H. unfold helicoid_horizontal in H.
  cbn [finhelicoid he_radius he_speed fin3 map3 vx vy vz] in H. change (@num (XR L)) with xr in *. xred.
  rewrite !xdiv_fin in H by lra. xred. unfold xtan in H.
  set (U := vz o / he_speed s + 1 / 2) in *. set (T := 2 * PI * vz o / he_speed s) in *.
  destruct (Rltb U 0 || Rltb 1 U) eqn:HU; [injection H as <- <- <-; auto|].
  assert (CT : cos (2 * PI * U) = - cos T).
  { replace (2 * PI * U) with (T + PI) by (unfold U, T; field; lra). apply neg_cos. }
  match type of H with match ?e with _ => _ end = _ => destruct e as [[t1 v1]|] eqn:E end;
    [|injection H as <- <- <-; auto].
  destruct (xleb lo t1 && xleb t1 hi) eqn:B; [|injection H as <- <- <-; auto].
  apply andb_prop in B. destruct B as [B1 B2]. destruct (W t1 B1 B2) as [t' ->].
  destruct (clamp01 (Fin U)) as [u' [Eu Iu]]; [discriminate|].
  assert (Nv : v1 <> NaN).
  { destruct (Req_EM_T (cos T) 0) as [C0|C0].
    - exfalso. cbn in E. discriminate.
    - xred. destruct (Rleb (Rabs (tan T)) (l_min L)).
      + destruct (Rleb (Rabs (vy d)) (l_min L)).
        * destruct (Rltb (l_min L) (Rabs (vy o))); [discriminate|].
          match type of E with (if ?c then _ else _) = _ => destruct c end; injection E as _ <-; discriminate.
        * injection E as E1 <-. rewrite E1. xred. rewrite CT. rewrite xdiv_fin; [discriminate|].
          apply Rmult_integral_contrapositive_currified; [lra|intros X; apply C0; lra].
      + injection E as E1 <-. rewrite E1. xred. rewrite xsqrt_fin; [rewrite xdiv_fin by lra; discriminate|].
        apply Rplus_le_le_0_compat; apply Rle_0_sqr. }
  destruct (clamp01 v1 Nv) as [v' [Ev Iv]].
  change (@num (XR L)) with xr in *. rewrite Eu, Ev in H. injection H as <- <- <-.
  right. exists t', u', v'. repeat split; auto; lra.
Qed.

Lemma helicoid_vertical_spec : forall s o d t u v, helicoid_ok s -> vz d <> 0 ->
  helicoid_vertical (F:=XR L) (finhelicoid s) (fin3 o) (fin3 d) = (t, u, v) ->
  t = NaN \/ exists t' u' v', t = Fin t' /\ u = Fin u' /\ v = Fin v' /\ 0 <= u' <= 1 /\ 0 <= v' <= 1.
Proof.
  intros s o d t u v [Hr Hs] Hd H. unfold helicoid_vertical in H.
  cbn [finhelicoid he_radius he_speed fin3 map3 vx vy vz] in H. change (@num (XR L)) with xr in *. xred.
  rewrite xsqrt_fin in H by nra. rewrite !xdiv_fin in H by lra. xred. pose proof PI_pos.
  set (V := sqrt (vx o * vx o + vy o * vy o) / he_radius s) in *.
  destruct (Rltb 1 V); [injection H as <- <- <-; auto|]. right.
  assert (C : forall U T, (Fin T, std_clamp (F:=XR L) (Fin U) (Fin 0) (Fin 1), std_clamp (F:=XR L) (Fin V) (Fin 0) (Fin 1)) = (t, u, v) ->
     exists t' u' v', t = Fin t' /\ u = Fin u' /\ v = Fin v' /\ 0 <= u' <= 1 /\ 0 <= v' <= 1).
  { intros U T E. destruct (clamp01 (Fin U)) as [u' [Eu Iu]]; [discriminate|].
    destruct (clamp01 (Fin V)) as [v' [Ev Iv]]; [discriminate|].
    change (@num (XR L)) with xr in *. rewrite Eu, Ev in E. injection E as <- <- <-. exists T, u', v'. auto. }
  destruct (Rltb_spec V (l_min L)) as [Hv|Hv].
  - destruct (Rltb 0 (vz d)); rewrite xdiv_fin in H by lra; eapply C; exact H.
  - pose proof (l_min_pos L).
    assert (he_radius s * V <> 0) by (apply Rmult_integral_contrapositive_currified; lra).
    rewrite !xdiv_fin in H by lra. xred. rewrite xdiv_fin in H by lra. xred.
    destruct (Rltb (Ratan2 (vy o / (he_radius s * V)) (vx o / (he_radius s * V)) / (2 * PI)) 0); xred;
      rewrite xdiv_fin in H by lra; eapply C; exact H.
Qed.

Lemma xscale_inf_notfin : forall a b r, xscale_inf a b <> Fin r.
Proof. intros a b r. unfold xscale_inf. destruct (Rlt_dec 0 a), (Rlt_dec a 0), b; discriminate. Qed.
Lemma xmul_fin_r : forall x b r, xmul x (Fin b) = Fin r -> exists a, x = Fin a.
Proof. intros [a| | |] b r H; cbn in H; eauto; try discriminate; exfalso; eapply xscale_inf_notfin; eauto. Qed.
Lemma xmul_fin_l : forall x a r, xmul (Fin a) x = Fin r -> exists b, x = Fin b.
Proof. intros [b| | |] a r H; cbn in H; eauto; try discriminate; exfalso; eapply xscale_inf_notfin; eauto. Qed.
Lemma xadd_fin_l : forall x a r, xadd (Fin a) x = Fin r -> exists b, x = Fin b.
Proof. intros [b| | |] a r H; cbn in H; eauto; discriminate. Qed.
Lemma xadd_not_nan : forall x y, xadd x y <> NaN -> x <> NaN /\ y <> NaN.
Proof. intros [?| | |] [?| | |]; cbn; intros H; split; try discriminate; congruence. Qed.
Lemma xmul_not_nan : forall x y, xmul x y <> NaN -> x <> NaN /\ y <> NaN.
Proof. intros [?| | |] [?| | |]; cbn; intros H; split; try discriminate; congruence. Qed.

Lemma helicoid_system_value : forall s o d (w : list xr), helicoid_ok s ->
  lmaxnorm (F:=XR L) (fst (helicoid_system (F:=XR L) (finhelicoid s) (fin3 o) (fin3 d) w)) <> NaN ->
  exists t, nth 0 w NaN = Fin t /\ nth 1 w NaN <> NaN.
Proof.
  intros s o d w [Hr Hs] H. unfold helicoid_system in H.
  cbn [fst lmaxnorm fold_left finhelicoid he_radius he_speed fin3 map3 vx vy vz] in H.
  change (@num (XR L)) with xr in *. xred. rewrite xdiv_fin in H by lra. xred.
  set (t := nth 0 w NaN) in *. set (v := nth 1 w NaN) in *.
  match type of H with (if _ then _ else xabs ?a) <> _ => assert (A : a <> NaN) end.
  { intros E. apply H. rewrite E. cbn [xabs xltb]. reflexivity. }
  clear H. apply xadd_not_nan in A. destruct A as [_ A]. apply xmul_not_nan in A. destruct A as [Hv A].
  apply xmul_not_nan in A. destruct A as [_ A].
  match type of A with xlift cos ?e <> _ => destruct e as [y| | |] eqn:E; try (elim A; reflexivity) end.
  apply xmul_fin_l in E. destruct E as [z E]. apply xadd_fin_l in E. destruct E as [z' E].
  apply xmul_fin_r in E. destruct E as [t' E]. eauto.
Qed.

Lemma helicoid_general_spec : forall s o d lo hi t u v, helicoid_ok s ->
  helicoid_general (F:=XR L) (finhelicoid s) (fin3 o) (fin3 d) lo hi = Ok (t, u, v) ->
  t = NaN \/ exists t' u' v', t = Fin t' /\ u = Fin u' /\ v = Fin v' /\ 0 <= u' <= 1 /\ 0 <= v' <= 1.
Proof.
  intros s o d lo hi t u v Hok H. unfold helicoid_general in H.
  destruct (helicoid_vbounds (F:=XR L) (finhelicoid s) (fin3 o) (fin3 d) lo hi) as [vmin vmax].
  match type of H with obind ?e _ = _ => destruct e as [[[w g] c]| |] eqn:N end; cbn [obind] in H; try discriminate.
  cbn [fst] in H. apply Ok_inj in H.
  unfold newton_nd in N.
  match type of N with (let '(_, _) := ?e in _) = _ => destruct e as [v0 J0] eqn:E0 end.
  apply newton_value in N; [|cbn [ns_guess ns_v ns_J]; exact E0].
  change (@num (XR L)) with xr in *. xred.
  destruct N as [N|N].
  - left. destruct w as [|a w]; cbn [nth] in H; [injection H as <- _ _; auto|].
    inversion N; subst. injection H as <- _ _; auto.
  - apply helicoid_system_value in N; [|auto]. destruct N as [t' [Et Ev]]. rewrite Et in H.
    cbn [finhelicoid he_speed fin3 map3 vz xmul xadd] in H. destruct Hok as [Hr Hs].
    rewrite !xdiv_fin in H by lra. cbn [xadd] in H.
    match type of H with (_, std_clamp (Fin ?a) _ _, _) = _ =>
      destruct (clamp01 (Fin a)) as [u' [Eu Iu]]; [discriminate|] end.
    destruct (clamp01 _ Ev) as [v' [Ev' Iv]].
    change (@num (XR L)) with xr in *. rewrite Eu, Ev' in H. injection H as <- <- <-. right; exists t', u', v'; auto.
Qed.

Lemma helicoid_tuv_spec : forall s o d lo hi lo' hi' t u v, helicoid_ok s -> direction_ok (l_min L) d ->
  helicoid_window (F:=XR L) (finhelicoid s) (finray (Ray o d)) lo hi = Some (lo', hi') ->
  helicoid_tuv (F:=XR L) (finhelicoid s) (fin3 o) (fin3 d) lo' hi' = Ok (t, u, v) ->
  t = NaN \/ exists t' u' v', t = Fin t' /\ u = Fin u' /\ v = Fin v' /\ 0 <= u' <= 1 /\ 0 <= v' <= 1 /\
    (Rabs (vz d) <= l_min L -> in_window lo hi t').
Proof.
  intros s o d lo hi lo' hi' t u v Hok Hd W H. unfold helicoid_tuv in H.
  cbn [fin3 map3 vx vy vz] in H. xred.
  destruct (Rleb_spec (Rabs (vz d)) (l_min L)) as [Hz|Hz].
  - apply Ok_inj in H. destruct Hd as [Hd|Hd]; [|lra].
    apply helicoid_window_fin in W; [|exact Hd]. destruct W as (x0 & x1 & Le & Lt & -> & ->).
    apply helicoid_horizontal_spec in H; [|auto|].
    + destruct H as [H|(t' & u' & v' & -> & -> & -> & Hu & Hv & H1 & H2)]; [auto|right].
      destruct (window_real _ _ _ _ _ Le Lt H1 H2) as (t2 & E & A & B & _). injection E as <-.
      exists t', u', v'. repeat split; auto; lra.
    + intros t0 A B. destruct (window_real _ _ _ _ _ Le Lt A B) as (t2 & E & _). eauto.
  - destruct (Rleb_spec (vx d * vx d + vy d * vy d) (l_min L)) as [Hx|Hx].
    + apply Ok_inj in H. apply helicoid_vertical_spec in H; [|auto|].
      * destruct H as [H|(t' & u' & v' & -> & -> & -> & Hu & Hv)]; [auto|right].
        exists t', u', v'. repeat split; try lra; auto; intros; exfalso; lra.
      * intros E. rewrite E, Rabs_R0 in Hz. pose proof (l_min_pos L); lra.
    + apply helicoid_general_spec in H; [|auto].
      destruct H as [H|(t' & u' & v' & -> & -> & -> & Hu & Hv)]; [auto|right].
      exists t', u', v'. repeat split; try lra; auto; intros; exfalso; lra.
Qed.

(** The fields of the record. *)
Lemma helicoid_forms_fin : forall s (r : ray R) u v (rec : hit_record xr), helicoid_ok s ->
  h_u rec = Fin u -> h_v rec = Fin v ->
  let rec' := helicoid_forms (F:=XR L) (finhelicoid s) (finray r) rec in
  let k := normR (helicoid_up s u v) in
  h_t rec' = h_t rec /\ h_p rec' = h_p rec /\ h_u rec' = Fin u /\ h_v rec' = Fin v /\
  facing_normal r (helicoid_up s u v) rec' /\ h_grad rec' = Fin (he_radius s * k) /\
  h_E rec' = Fin (he_speed s ^ 2 + (2 * PI * he_radius s * v) ^ 2) /\ h_F rec' = Fin 0 /\
  h_G rec' = Fin (4 * PI ^ 2 * he_radius s ^ 2) /\
  h_e rec' = Fin 0 /\ h_f rec' = Fin (2 * PI * he_radius s * he_speed s / k) /\ h_g rec' = Fin 0.
Proof.
  intros s r u v rec Hok Eu Ev. cbv zeta.
  pose proof (normR_pos _ (helicoid_up_nonzero s u v Hok)) as Np.
  set (k := normR (helicoid_up s u v)) in *. pose proof Hok as [Hr Hs]. pose proof PI_pos as Pp.
  set (su := helicoid_su s u v). set (sv := helicoid_sv s u v).
  assert (C : crossR su sv = scaleR (he_radius s) (helicoid_up s u v)).
  { unfold su, sv, crossR, scaleR, helicoid_su, helicoid_sv, helicoid_up; cbn [vx vy vz]. pose proof (sc2 (2 * PI * u)).
    apply V3_ext; try ring.
    replace (_ - _) with (- (2 * PI * he_radius s * v * he_radius s) * (sin (2 * PI * u) * sin (2 * PI * u) + cos (2 * PI * u) * cos (2 * PI * u))) by ring.
    rewrite H; ring. }
  assert (Eg : normR (crossR su sv) = he_radius s * k).
  { rewrite C, normR_scale, Rabs_pos_eq by lra. reflexivity. }
  assert (On : vdiv (F:=XR L) (fin3 (crossR su sv)) (Fin (he_radius s * k)) = fin3 (scaleR (/ k) (helicoid_up s u v))).
  { assert (0 < he_radius s * k) by positive. rewrite vdiv_fin by lra. f_equal. rewrite C. unfold scaleR; cbn [vx vy vz]. apply V3_ext; field; lra. }
  unfold helicoid_forms. change (@num (XR L)) with xr. rewrite Eu, Ev. cbn [finhelicoid he_radius he_speed].
  xred.
  assert (Esu : V3 (Fin (-2 * PI * he_radius s * v * sin (2 * PI * u))) (Fin (2 * PI * he_radius s * v * cos (2 * PI * u))) (Fin (he_speed s)) = fin3 su).
  { unfold su, helicoid_su, fin3, map3; cbn [vx vy vz]. apply V3x_ext; f_equal; ring. }
  assert (Esv : V3 (Fin (he_radius s * cos (2 * PI * u))) (Fin (he_radius s * sin (2 * PI * u))) (Fin 0) = fin3 sv) by reflexivity.
  assert (Esuv : V3 (Fin (-2 * PI * he_radius s * sin (2 * PI * u))) (Fin (2 * PI * he_radius s * cos (2 * PI * u))) (Fin 0) = fin3 (helicoid_suv s u v)).
  { unfold helicoid_suv, fin3, map3; cbn [vx vy vz]. apply V3x_ext; f_equal; ring. }
  change (@num (XR L)) with xr in *. rewrite Esu, Esv, Esuv. rewrite cross_fin, norm_fin.
  cbn [set_grad h_grad]. rewrite Eg. change (@num (XR L)) with xr in *. rewrite On.
  rewrite !dot_fin. set (rec1 := set_first _ _ _ _).
  destruct (helicoid_forms_spec s u v Hok) as [_ SF].
  assert (Nn : normR (scaleR (/ k) (helicoid_up s u v)) = 1) by (apply normR_normalized, helicoid_up_nonzero; auto).
  destruct (face_normal_spec (L:=L) r (helicoid_up s u v) (/ k) rec1 (Rinv_0_lt_compat _ Np) Nn) as [FN _].
  assert (Df : dotR (helicoid_suv s u v) (scaleR (/ k) (helicoid_up s u v)) = 2 * PI * he_radius s * he_speed s / k).
  { unfold helicoid_suv, helicoid_up, dotR, scaleR; cbn [vx vy vz]. pose proof (sc2 (2 * PI * u)) as S2.
    replace (_ + _ + _) with (/ k * (2 * PI * he_radius s * he_speed s) * (sin (2 * PI * u) * sin (2 * PI * u) + cos (2 * PI * u) * cos (2 * PI * u))) by ring.
    rewrite S2; field; lra. }
  assert (DE : dotR su su = he_speed s ^ 2 + (2 * PI * he_radius s * v) ^ 2).
  { unfold su, helicoid_su, dotR; cbn [vx vy vz]. pose proof (sc2 (2 * PI * u)) as S2.
    replace (_ + _ + _) with (he_speed s ^ 2 + (2 * PI * he_radius s * v) ^ 2 * (sin (2 * PI * u) * sin (2 * PI * u) + cos (2 * PI * u) * cos (2 * PI * u))) by ring.
    rewrite S2; ring. }
  repeat match goal with |- _ /\ _ => split end; try exact FN;
    unfold set_face_normal, rec1; cbn [set_normal set_front set_first set_second set_grad h_t h_p h_u h_v h_grad h_E h_F h_G h_e h_f h_g];
    try reflexivity; try assumption; try (xred; f_equal; ring); f_equal; auto.
Qed.

Lemma max_norm_agree : forall (a b : vec3 R) m, exists M,
  max_norm (F:=XR L) (vsub (F:=XR L) (fin3 a) (fin3 b)) = Fin M /\ (M <= m -> agree m a b).
Proof.
  intros a b m. rewrite vsub_fin. unfold max_norm, fin3, map3, subR, agree; cbn [vx vy vz]. xred.
  repeat (rcase; xred); eexists; (split; [reflexivity|]); intros; lra.
Qed.

Lemma helicoid_finish_spec : forall s (r : ray R) t u v (rec rec' : hit_record xr),
  h_t rec = Fin t -> h_u rec = Fin u -> h_v rec = Fin v -> h_p rec = fin3 (pointR r t) ->
  helicoid_finish (F:=XR L) (finhelicoid s) (finray r) rec = Ok (true, rec') ->
  (exists c, rec' = set_cond c rec) /\
  agree (10 * (eps * helicoid_scale s (r_dir r) t u v)) (pointR r t) (helicoid_sigma s u v).
Proof.
  intros s r t u v rec rec' Et Eu Ev Ep H. unfold helicoid_finish in H.
  change (@num (XR L)) with xr in H. rewrite Et, Eu, Ev, Ep in H. rewrite helicoid_at_fin in H.
  destruct (max_norm_agree (pointR r t) (helicoid_sigma s u v) (10 * (eps * helicoid_scale s (r_dir r) t u v))) as [M [EM HM]].
  change (@num (XR L)) with xr in *. rewrite EM in H.
  match type of H with obind ?e _ = _ => destruct e as [Mi| |] end; cbn [obind] in H; try discriminate.
  apply Ok_inj in H. injection H as HB <-. split; [eexists; reflexivity|]. apply HM.
  match type of HB with negb (xltb (xmul _ (xmul (std_max3 (F:=XR L) (Fin ?a) (Fin ?b) (Fin ?c)) _)) _) = _ =>
    destruct (std_max3_spec (L:=L) a b c) as (m & Em & _ & _ & _ & Cm) end.
  change (@num (XR L)) with xr in *. rewrite Em in HB. xred.
  destruct (Rltb_spec (10 * (m * eps)) M) as [|HM']; [discriminate|].
  assert (m <= helicoid_scale s (r_dir r) t u v).
  { unfold helicoid_scale. cbv zeta.
    set (A := Rabs (t * vx (r_dir r)) + _ + _). set (B := Rabs (t * vy (r_dir r)) + _ + _). set (C := Rabs (t * vz (r_dir r)) + _).
    pose proof (Rmax_l (Rmax A B) C). pose proof (Rmax_r (Rmax A B) C). pose proof (Rmax_l A B). pose proof (Rmax_r A B).
    destruct Cm as [-> | [-> | ->]].
    - match goal with |- ?a <= _ => replace a with A; [lra|]; unfold A end.
      apply (f_equal2 Rplus); [apply (f_equal2 Rplus)|reflexivity]; rewrite <- Rabs_Ropp; f_equal; ring.
    - match goal with |- ?a <= _ => replace a with B; [lra|]; unfold B end.
      apply (f_equal2 Rplus); [apply (f_equal2 Rplus)|reflexivity]; [rewrite <- Rabs_Ropp|]; f_equal; ring.
    - match goal with |- ?a <= _ => replace a with C; [lra|]; unfold C end.
      rewrite Rmult_0_l, Rabs_R0, Rplus_0_r. apply (f_equal2 Rplus); [|reflexivity]. rewrite <- Rabs_Ropp; f_equal; ring. }
  pose proof (l_eps_pos L). nra.
Qed.

Theorem helicoid_hit_spec : forall (s : helicoid R) (r : ray R) (lo hi : xr) (rec rec' : hit_record xr),
  helicoid_ok s -> direction_ok (l_min L) (r_dir r) ->
  helicoid_hit (F:=XR L) (finhelicoid s) (finray r) lo hi rec = Ok (true, rec') ->
  exists t u v c rec1, h_t rec1 = Fin t /\ h_p rec1 = fin3 (pointR r t) /\ h_u rec1 = Fin u /\ h_v rec1 = Fin v /\
    rec' = set_cond c (helicoid_forms (F:=XR L) (finhelicoid s) (finray r) rec1) /\
    0 <= u <= 1 /\ 0 <= v <= 1 /\ (Rabs (vz (r_dir r)) <= l_min L -> in_window lo hi t) /\
    agree (10 * (eps * helicoid_scale s (r_dir r) t u v)) (pointR r t) (helicoid_sigma s u v).
Proof.
  intros s [o d] lo hi rec rec' Hok Hd H. unfold helicoid_hit in H.
  destruct (helicoid_window (F:=XR L) (finhelicoid s) (finray (Ray o d)) lo hi) as [[lo' hi']|] eqn:W; [|discriminate].
  match type of H with obind ?e _ = _ => destruct e as [[[t u] v]| |] eqn:T end; cbn [obind] in H; try discriminate.
  cbn [finray r_orig r_dir] in T.
  destruct (helicoid_tuv_spec s o d lo hi lo' hi' t u v Hok Hd W T) as [->|(t' & u' & v' & -> & -> & -> & Hu & Hv & Win)].
  - clear W T. cbn in H. discriminate.
  - clear W T.
    assert (RA : ray_at (F:=XR L) (finray (Ray o d)) (Fin t') = fin3 (pointR (Ray o d) t')) by apply ray_at_fin.
    set (rec0 := set_v (Fin v') (set_u (Fin u') (set_t (Fin t') rec))).
    set (rec1 := set_p (fin3 (pointR (Ray o d) t')) rec0).
    assert (H' : helicoid_finish (F:=XR L) (finhelicoid s) (finray (Ray o d)) (helicoid_forms (F:=XR L) (finhelicoid s) (finray (Ray o d)) rec1) = Ok (true, rec')).
    { cbv beta iota zeta in H. change (@num (XR L)) with xr in H. fold rec0 in H.
      assert (E : nisnan (NumOps:=XR L) (h_t rec0) = false) by reflexivity.
      change (@num (XR L)) with xr in E. rewrite E in H.
      change (h_t rec0) with (Fin t') in H. change (@num (XR L)) with xr in RA. rewrite RA in H. exact H. }
    clear H.
    destruct (helicoid_forms_fin s (Ray o d) u' v' rec1 Hok eq_refl eq_refl) as (F1 & F2 & F3 & F4 & _).
    destruct (helicoid_finish_spec s (Ray o d) t' u' v' _ rec' F1 F3 F4 F2 H') as [[c ->] A].
    exists t', u', v', c, rec1. repeat match goal with |- _ /\ _ => split end; try reflexivity; try apply Hu; try apply Hv; auto.
Qed.

Theorem helicoid_on_surface : forall (s : helicoid R) (r : ray R) (lo hi : xr) (rec rec' : hit_record xr),
  helicoid_ok s -> direction_ok (l_min L) (r_dir r) ->
  helicoid_hit (F:=XR L) (finhelicoid s) (finray r) lo hi rec = Ok (true, rec') ->
  meets_helicoid eps s r rec' /\
  (Rabs (vz (r_dir r)) <= l_min L -> exists t, h_t rec' = Fin t /\ in_window lo hi t).
Proof.
  intros s r lo hi rec rec' Hok Hd H.
  destruct (helicoid_hit_spec s r lo hi rec rec' Hok Hd H) as (t & u & v & c & rec1 & Et & Ep & Eu & Ev & -> & Hu & Hv & W & A).
  destruct (helicoid_forms_fin s r u v rec1 Hok Eu Ev) as (F1 & F2 & F3 & F4 & _).
  rewrite Et in F1; rewrite Ep in F2.
  split.
  - exists t, u, v. repeat split; auto; try lra; apply A.
  - intros Z. exists t. split; auto.
Qed.

Theorem helicoid_hit_record : forall (s : helicoid R) (r : ray R) (lo hi : xr) (rec rec' : hit_record xr),
  helicoid_ok s -> direction_ok (l_min L) (r_dir r) ->
  helicoid_hit (F:=XR L) (finhelicoid s) (finray r) lo hi rec = Ok (true, rec') ->
  exists u v, h_u rec' = Fin u /\ h_v rec' = Fin v /\
    facing_normal r (helicoid_up s u v) rec' /\ normal_to (helicoid_sigma s) r rec' /\
    h_grad rec' = Fin (he_radius s * normR (helicoid_up s u v)) /\
    (exists E F G e f g, first_form (helicoid_sigma s) u v E F G /\
       second_form (helicoid_sigma s) (helicoid_normal s u v) u v e f g /\
       h_E rec' = Fin E /\ h_F rec' = Fin F /\ h_G rec' = Fin (4 * PI ^ 2 * G) /\
       h_e rec' = Fin e /\ h_f rec' = Fin f /\ h_g rec' = Fin g) /\
    curvatures (helicoid_sigma s) (helicoid_normal s u v) u v (helicoid_K s v) 0 /\
    gaussian_curvature (F:=XR L) rec' = Fin (helicoid_K s v / (4 * PI ^ 2)) /\ mean_curvature (F:=XR L) rec' = Fin 0.
Proof.
  intros s r lo hi rec rec' Hok Hd H.
  destruct (helicoid_hit_spec s r lo hi rec rec' Hok Hd H) as (t & u & v & c & rec1 & Et & Ep & Eu & Ev & -> & Hu & Hv & W & A).
  destruct (helicoid_forms_fin s r u v rec1 Hok Eu Ev) as (F1 & F2 & F3 & F4 & FN & Fg & FE & FF & FG & Fe & Ff & Fgg).
  destruct (helicoid_forms_spec s u v Hok) as [FS SS].
  exists u, v. split; [exact F3|]. split; [exact F4|]. split; [exact FN|].
  split; [apply (second_form_normal _ r (helicoid_up s u v) (/ normR (helicoid_up s u v)));
    [apply Rinv_neq_0_compat; pose proof (normR_pos _ (helicoid_up_nonzero s u v Hok)); lra|exact FN|];
    do 5 eexists; repeat match goal with |- _ /\ _ => split end; eauto|]. split; [exact Fg|].
  split; [do 6 eexists; repeat match goal with |- _ /\ _ => split end; eauto|].
  split; [apply helicoid_curvatures; auto|].
    unfold gaussian_curvature, mean_curvature. cbn [set_cond h_E h_F h_G h_e h_f h_g].
    rewrite FE, FF, FG, Fe, Ff, Fgg. xred.
    destruct Hok as [Hr Hs]. pose proof PI_pos.
    pose proof (normR_sq (helicoid_up s u v)) as Q. rewrite helicoid_up_normsq in Q.
    pose proof (normR_pos _ (helicoid_up_nonzero s u v (conj Hr Hs))) as Np.
    set (WW := he_speed s ^ 2 + (2 * PI * he_radius s * v) ^ 2) in *. set (k := normR (helicoid_up s u v)) in *.
    assert (Wp : 0 < WW) by (unfold WW; nra).
    assert (0 < WW * (4 * PI ^ 2 * he_radius s ^ 2)) by positive.
    assert (k * k <> 0) by nra. unfold helicoid_K. fold WW.
    rewrite !xdiv_fin by lra. split; f_equal.
    + replace (0 * 0 - 2 * PI * he_radius s * he_speed s / k * (2 * PI * he_radius s * he_speed s / k))
        with (- (2 * PI * he_radius s * he_speed s) ^ 2 / (k * k)) by (field; lra).
      rewrite Q. field. repeat split; lra.
    + field. repeat split; lra.
Qed.

(** gaussian_curvature_bounds: the range of the reported value, 4 pi^2 times too small
    in magnitude. *)
Lemma helicoid_bounds_spec : forall s : helicoid R, helicoid_ok s ->
  exists k0 k1, helicoid_curvature_bounds (F:=XR L) (finhelicoid s) = (Fin k0, Fin k1) /\
    (forall v, 0 <= v <= 1 -> k0 <= helicoid_K s v / (4 * PI ^ 2) <= k1) /\
    helicoid_K s 0 / (4 * PI ^ 2) = k0 /\ helicoid_K s 1 / (4 * PI ^ 2) = k1 /\ helicoid_K s 0 < k0.
Proof.
  intros s [Hr Hs]. pose proof PI_pos as Hp.
  unfold helicoid_curvature_bounds, finhelicoid; cbn [he_radius he_speed]. xred.
  assert (A : 0 < he_speed s * he_speed s) by positive.
  assert (B : 0 < 4 * PI * PI * he_radius s * he_radius s) by positive.
  assert (C : 0 < he_speed s * he_speed s + 4 * PI * PI * he_radius s * he_radius s) by lra.
  rewrite xdiv_fin by lra. rewrite xdiv_fin by (apply Rmult_integral_contrapositive_currified; lra).
  do 2 eexists. split; [reflexivity|].
  set (l := he_speed s) in *. set (q := he_radius s) in *.
  assert (K : forall v, helicoid_K s v / (4 * PI ^ 2) = - (l * l / ((l * l + 4 * PI * PI * q * q * (v * v)) * (l * l + 4 * PI * PI * q * q * (v * v))))).
  { intros v. unfold helicoid_K. fold l q. assert (0 < l * l + 4 * PI * PI * q * q * (v * v)) by nra.
    field. repeat split; nra. }
  split; [|split; [|split]].
  - intros v [H0 H1]. rewrite K.
    assert (Hv : 0 <= v * v <= 1) by nra.
    set (w := l * l + 4 * PI * PI * q * q * (v * v)).
    assert (Hw : l * l <= w <= l * l + 4 * PI * PI * q * q) by (unfold w; nra).
    replace (- l * l / _) with (- (l * l / ((l * l + 4 * PI * PI * q * q) * (l * l + 4 * PI * PI * q * q)))) by (field; lra).
    replace (-1 / (l * l)) with (- (l * l / ((l * l) * (l * l)))) by (field; lra).
    split; apply Ropp_le_contravar; apply Rmult_le_compat_l; try lra; apply Rinv_le_contravar; try (apply Rmult_lt_0_compat; lra); apply Rmult_le_compat; lra.
  - rewrite K. field. lra.
  - rewrite K. replace (4 * PI * PI * q * q * (1 * 1)) with (4 * PI * PI * q * q) by ring. field. lra.
  - assert (E : helicoid_K s 0 = (helicoid_K s 0 / (4 * PI ^ 2)) * (4 * PI ^ 2)) by (field; lra).
    rewrite E, K.
    replace (- (l * l / _) * (4 * PI ^ 2)) with (-1 / (l * l) * (4 * PI ^ 2)) by (field; lra).
    pose proof PI2_1 as P1. assert (1 < 4 * PI ^ 2) by nra.
    assert (0 < 1 / (l * l)) by (apply Rdiv_lt_0_compat; lra).
    replace (-1 / (l * l)) with (- (1 / (l * l))) by (field; lra). nra.
Qed.

Lemma helicoid_box_spec : forall s : helicoid R, helicoid_ok s -> exists b,
  helicoid_box (F:=XR L) (finhelicoid s) = Some (finbox b) /\
  forall p, on_helicoid s p -> in_box b p.
Proof.
  intros s [Hr Hs]. unfold helicoid_box, finhelicoid; cbn [he_radius he_speed]. xred. rewrite !xdiv_fin by lra.
  exists (Box (V3 (- he_radius s) (- he_radius s) (- he_speed s / 2)) (V3 (he_radius s) (he_radius s) (he_speed s / 2))).
  split; [reflexivity|]. intros p (u & v & Hu & Hv & ->). unfold helicoid_sigma.
  pose proof (COS_bound (2 * PI * u)). pose proof (SIN_bound (2 * PI * u)).
  assert (0 <= he_radius s * v <= he_radius s) by nra.
  unfold in_box; cbn. repeat split; nra.
Qed.
End L.

(** *** In the form of the theorems *)
Section Forms.
Context {L : limits}.
Variables (s : helicoid R) (r : ray R) (lo hi : xr) (rec rec' : hit_record xr).
Hypothesis Hok : helicoid_ok s.
Hypothesis Hd : direction_ok (l_min L) (r_dir r).
Hypothesis H : helicoid_hit (F:=XR L) (finhelicoid s) (finray r) lo hi rec = Ok (true, rec').

Lemma helicoid_hit_normal : normal_to (helicoid_sigma s) r rec' /\
  exists u v, h_u rec' = Fin u /\ h_v rec' = Fin v /\ facing_normal r (helicoid_up s u v) rec'.
Proof.
  destruct (helicoid_hit_record s r lo hi rec rec' Hok Hd H) as (u & v & K). split; [tauto|]. exists u, v. tauto.
Qed.
Lemma four_pi2 : 1 < 4 * PI ^ 2.
Proof. pose proof PI2_1. nra. Qed.
Lemma helicoid_hit_forms : exists u v n E F G e f g, h_u rec' = Fin u /\ h_v rec' = Fin v /\
    first_form (helicoid_sigma s) u v E F G /\ second_form (helicoid_sigma s) n u v e f g /\
    h_E rec' = Fin E /\ h_F rec' = Fin F /\ h_G rec' = Fin (4 * PI ^ 2 * G) /\ G <> 4 * PI ^ 2 * G /\
    h_e rec' = Fin e /\ h_f rec' = Fin f /\ h_g rec' = Fin g.
Proof.
  destruct (helicoid_hit_record s r lo hi rec rec' Hok Hd H) as (u & v & Eu & Ev & _ & _ & _ & (E & F & G & e & f & g & FF & SF & K) & _).
  exists u, v, (helicoid_normal s u v), E, F, G, e, f, g.
  assert (G = he_radius s ^ 2).
  { destruct (helicoid_forms_spec s u v Hok) as [FF' _]. apply (first_form_unique _ _ _ _ _ _ _ _ _ FF FF'). }
  assert (G <> 4 * PI ^ 2 * G). { destruct Hok as [Hr _]. pose proof four_pi2. assert (0 < G) by nra. nra. }
  tauto.
Qed.
Lemma helicoid_K_neg : forall v, helicoid_K s v < 0.
Proof.
  intros v. destruct Hok as [Hr Hs]. pose proof PI_pos. unfold helicoid_K.
  set (W := he_speed s ^ 2 + (2 * PI * he_radius s * v) ^ 2). assert (0 < W) by (unfold W; nra).
  assert (0 < (2 * PI * he_speed s) ^ 2 / W ^ 2) by (apply Rdiv_lt_0_compat; [apply pow_lt; positive|nra]).
  replace (- (2 * PI * he_speed s) ^ 2 / W ^ 2) with (- ((2 * PI * he_speed s) ^ 2 / W ^ 2)) by (field; lra). lra.
Qed.
Lemma helicoid_hit_curvature : exists u v n K, h_u rec' = Fin u /\ h_v rec' = Fin v /\ curvatures (helicoid_sigma s) n u v K 0 /\ K < 0 /\
    gaussian_curvature (F:=XR L) rec' = Fin (K / (4 * PI ^ 2)) /\ mean_curvature (F:=XR L) rec' = Fin 0.
Proof.
  destruct (helicoid_hit_record s r lo hi rec rec' Hok Hd H) as (u & v & K).
  exists u, v, (helicoid_normal s u v), (helicoid_K s v). pose proof (helicoid_K_neg v). tauto.
Qed.
End Forms.

Lemma helicoid_jacobian : forall (L : limits) (s : helicoid R) (u v : R),
  helicoid_at (F:=XR L) (finhelicoid s) (Fin u) (Fin v) = fin3 (helicoid_sigma s u v) /\
  exists su sv, partials (helicoid_sigma s) su sv /\
    let J := helicoid_J (F:=XR L) (finhelicoid s) (Fin u) (Fin v) in
    V3 (m00 J) (m10 J) (m20 J) = fin3 (su u v) /\ V3 (m01 J) (m11 J) (m21 J) = fin3 (sv u v).
Proof. intros. split; [apply helicoid_at_fin|apply helicoid_J_spec]. Qed.
Lemma helicoid_bounds_wrong : forall (L : limits) (s : helicoid R), helicoid_ok s ->
  exists k0 k1, helicoid_curvature_bounds (F:=XR L) (finhelicoid s) = (Fin k0, Fin k1) /\
    (forall v, 0 <= v <= 1 -> k0 <= helicoid_K s v / (4 * PI ^ 2) <= k1) /\
    helicoid_K s 0 / (4 * PI ^ 2) = k0 /\ helicoid_K s 1 / (4 * PI ^ 2) = k1 /\
    helicoid_K s 0 < k0 /\ exists n, curvatures (helicoid_sigma s) n 0 0 (helicoid_K s 0) 0.
Proof.
  intros L s Hok. destruct (helicoid_bounds_spec (L:=L) s Hok) as (k0 & k1 & A & B & C & D & E).
  exists k0, k1. repeat match goal with |- _ /\ _ => split end; auto. eexists. apply helicoid_curvatures; auto.
Qed.
