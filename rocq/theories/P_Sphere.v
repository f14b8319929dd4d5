(** Sphere (C19, C27, C28, C31, C34). *)
From Coq Require Import Reals Lra ZArith List Bool.
From Verif Require Import Num XR Spec M_Vec M_Roots M_Hittable M_Shapes Spec_Scene Spec_Shapes
  P_Vec P_Quadratic P_Angle P_Deriv.
Import ListNotations.
Local Open Scope R_scope.

Lemma sc2 : forall x, sin x * sin x = 1 - cos x * cos x.
Proof. intros x; pose proof (sin2_cos2 x); unfold Rsqr in *; lra. Qed.

Lemma dotR_comm : forall u v, dotR u v = dotR v u.
Proof. intros; unfold dotR; ring. Qed.
Lemma scaleR_zero : forall u, u <> zeroR -> 0 < / normR u.
Proof. intros; apply Rinv_0_lt_compat, normR_pos; auto. Qed.

Section L.
Context {L : limits}.

(** set_face_normal with a unit vector along [outward] *)
Lemma face_normal_spec : forall (r : ray R) (outward : vec3 R) k (rec : hit_record xr), 0 < k ->
  normR (scaleR k outward) = 1 ->
  facing_normal r outward (set_face_normal (F:=XR L) (finray r) (fin3 (scaleR k outward)) rec) /\
  (forall rec' : hit_record xr, h_normal rec' = h_normal (set_face_normal (F:=XR L) (finray r) (fin3 (scaleR k outward)) rec) ->
     h_front rec' = h_front (set_face_normal (F:=XR L) (finray r) (fin3 (scaleR k outward)) rec) ->
     facing_normal r outward rec').
Proof.
  intros r w k rec Hk Hn.
  set (rec1 := set_face_normal (F:=XR L) (finray r) (fin3 (scaleR k w)) rec).
  assert (A : facing_normal r w rec1); [|split; auto].
  2:{ intros rec' E1 E2. unfold facing_normal in *. rewrite E1, E2. exact A. }
  unfold rec1, set_face_normal. cbn [finray r_dir]. rewrite dot_fin.
  assert (D : dotR (r_dir r) (scaleR k w) = k * dotR (r_dir r) w) by (unfold dotR, scaleR; cbn; ring).
  assert (D' : dotR (scaleR k w) (r_dir r) = k * dotR (r_dir r) w) by (rewrite dotR_comm; exact D).
  rewrite D. xred.
  destruct (Rltb_spec (k * dotR (r_dir r) w) 0) as [H|H]; unfold facing_normal, set_normal, set_front; cbn [h_normal h_front].
  - exists (scaleR k w). split; [reflexivity|]. split; [auto|]. split; [lra|]. split; [|discriminate].
    intros _. split; [nra|]. exists k; auto.
  - rewrite vneg_fin. exists (negR (scaleR k w)). split; [reflexivity|].
    assert (E : negR (scaleR k w) = scaleR (- k) w) by (unfold negR, scaleR; cbn; apply V3_ext; ring).
    split; [|split; [|split; [discriminate|]]].
    + rewrite <- Hn. unfold normR. f_equal. rewrite E, !normsqR_scale. ring.
    + rewrite E. unfold dotR, scaleR in *; cbn in *. nra.
    + intros _. split; [nra|]. exists (- k). split; [lra|auto].
Qed.

Variable s : sphere R.
Hypothesis Hr : 0 < s_radius s.

Lemma on_sphere_iff : forall p, on_sphere s p <-> normsqR (subR p (s_center s)) = s_radius s * s_radius s.
Proof.
  intros p. unfold on_sphere, distR. split; intros H.
  - rewrite <- normR_sq, H. reflexivity.
  - unfold normR. rewrite H, sqrt_square; lra.
Qed.

Lemma sphere_sigma_on : forall u v, on_sphere s (sphere_sigma s u v).
Proof.
  intros u v. apply on_sphere_iff. unfold sphere_sigma, normsqR, dotR, addR, subR, scaleR; cbn [vx vy vz].
  pose proof (sc2 (2 * PI * u)) as A. pose proof (sc2 (PI * v)) as B.
  set (su := sin (2 * PI * u)) in *. set (cu := cos (2 * PI * u)) in *.
  set (sv := sin (PI * v)) in *. set (cv := cos (PI * v)) in *.
  transitivity (s_radius s * s_radius s * (sv * sv * (cu * cu + su * su) + cv * cv)); [ring|].
  rewrite A. replace (cu * cu + (1 - cu * cu)) with 1 by ring. rewrite B. ring.
Qed.

(** C28 *)
Lemma sphere_uv_spec : forall p, on_sphere s p ->
  exists u v, sphere_uv (F:=XR L) (finsphere s) (fin3 p) = (Fin u, Fin v) /\ 0 <= u <= 1 /\ 0 <= v <= 1 /\
    sphere_sigma s u v = p.
Proof.
  intros p Hp. apply on_sphere_iff in Hp. destruct s as [[cx cy cz] R0]. destruct p as [px py pz]. cbn in *.
  unfold sphere_uv, finsphere, fin3, map3; cbn [s_center s_radius vx vy vz].
  unfold normsqR, dotR, subR in Hp; cbn [vx vy vz] in Hp.
  set (x := px - cx) in *. set (y := py - cy) in *. set (z := pz - cz) in *.
  xred. rewrite !xdiv_fin by lra. fold x y z.
  assert (N : (x / R0) * (x / R0) + (y / R0) * (y / R0) + (z / R0) * (z / R0) = 1).
  { transitivity ((x * x + y * y + z * z) / (R0 * R0)); [field; lra|]. rewrite Hp. field. lra. }
  destruct (colatitude_spec (L:=L) (z / R0)) as [v [Ev [Hv [Cv [Sv Pv]]]]]; [split; nra|].
  destruct (azimuth_spec (L:=L) (y / R0) (x / R0)) as [u [Eu [Hu [Cu Su]]]].
  rewrite Ev, Eu. exists u, v. split; auto. split; [lra|]. split; [lra|].
  unfold sphere_sigma, addR, scaleR; cbn [vx vy vz s_center s_radius].
  replace (1 - z / R0 * (z / R0)) with (x / R0 * (x / R0) + y / R0 * (y / R0)) in Sv by lra.
  rewrite Sv, Cv, (Rmult_comm (cos _)), (Rmult_comm (sin _)), Cu, Su.
  unfold x, y, z. apply V3_ext; field; lra.
Qed.

Lemma sphere_quad : forall (r : ray R) t,
  quadR (normsqR (r_dir r)) (2 * dotR (subR (r_orig r) (s_center s)) (r_dir r))
        (normsqR (subR (r_orig r) (s_center s)) - s_radius s * s_radius s) t = 0 <->
  on_sphere s (pointR r t).
Proof.
  intros r t. rewrite on_sphere_iff. unfold quadR, pointR, lineR, normsqR, dotR, addR, subR, scaleR; cbn [vx vy vz].
  split; intros; nra.
Qed.

Lemma sphere_forms_spec : forall u v,
  first_form (sphere_sigma s) u v ((2 * PI * s_radius s * sin (PI * v)) * (2 * PI * s_radius s * sin (PI * v))) 0
    (PI * PI * s_radius s * s_radius s) /\
  second_form (sphere_sigma s) (scaleR (/ s_radius s) (subR (s_center s) (sphere_sigma s u v))) u v
    ((2 * PI * s_radius s * sin (PI * v)) * (2 * PI * s_radius s * sin (PI * v)) / s_radius s) 0
    (PI * PI * s_radius s).
Proof.
  intros u v. destruct (sphere_partials s) as [P1 [P2 P3]].
  pose proof (sphere_sigma_on u v) as On. apply on_sphere_iff in On.
  pose proof (sc2 (2 * PI * u)) as A. pose proof (sc2 (PI * v)) as B.
  split.
  - exists (sphere_su s), (sphere_sv s). split; auto.
    unfold sphere_su, sphere_sv, dotR, scaleR; cbn [vx vy vz].
    set (su := sin (2 * PI * u)) in *. set (cu := cos (2 * PI * u)) in *.
    set (sv := sin (PI * v)) in *. set (cv := cos (PI * v)) in *.
    repeat split.
    + transitivity (4 * PI * PI * s_radius s * s_radius s * (sv * sv * (su * su + cu * cu))); [|ring].
      rewrite A. ring.
    + ring.
    + transitivity (PI * PI * s_radius s * s_radius s * (cv * cv * (su * su + cu * cu) + sv * sv)); [|ring].
      rewrite A, B. ring.
  - exists (sphere_su s), (sphere_sv s), (sphere_suu s), (sphere_suv s), (sphere_suv s), (sphere_svv s).
    split; [auto|]. split; [auto|]. split; [auto|].
    split.
    { apply normR_unit. rewrite normsqR_scale.
      replace (normsqR (subR (s_center s) (sphere_sigma s u v))) with (s_radius s * s_radius s).
      - field; lra.
      - rewrite <- On. unfold normsqR, dotR, subR; cbn; ring. }
    unfold sphere_su, sphere_sv, sphere_suu, sphere_suv, sphere_svv, sphere_sigma, addR, subR, dotR, scaleR; cbn [vx vy vz].
    set (su := sin (2 * PI * u)) in *. set (cu := cos (2 * PI * u)) in *.
    set (sv := sin (PI * v)) in *. set (cv := cos (PI * v)) in *.
    repeat split.
    + ring.
    + transitivity (- PI * s_radius s * (sv * cv * (su * su + cu * cu) - sv * cv)); [field; lra|]. rewrite A. ring.
    + transitivity (4 * PI * PI * s_radius s * (sv * sv * (su * su + cu * cu))); [rewrite A; field; lra|].
      field; lra.
    + ring.
    + transitivity (PI * PI * s_radius s * (sv * sv * (su * su + cu * cu) + cv * cv)); [rewrite A, B; field; lra|].
      field; lra.
Qed.

(** C19 *)
Lemma sphere_contract : forall r, sphere_off_threshold (l_min L) s r ->
  hit_contract (L:=L) r (of_sphere (F:=XR L) (finsphere s)) (fun t => on_sphere s (pointR r t)) (describes_sphere s r) /\
  quiet (L:=L) r (of_sphere (F:=XR L) (finsphere s)).
Proof.
  intros r [Hd [Ha Hb]].
  assert (K : forall lo hi (rec : hit_record xr),
    (sphere_hit (F:=XR L) (finsphere s) (finray r) lo hi rec = Ok (false, rec) /\
       forall t, on_sphere s (pointR r t) -> ~ in_window lo hi t) \/
    (exists t rec', sphere_hit (F:=XR L) (finsphere s) (finray r) lo hi rec = Ok (true, rec') /\
       h_t rec' = Fin t /\ on_sphere s (pointR r t) /\ in_window lo hi t /\
       (forall t', on_sphere s (pointR r t') -> in_window lo hi t' -> t <= t') /\ describes_sphere s r t rec')).
  { intros lo hi rec. unfold sphere_hit.
    change (r_orig (finray r)) with (fin3 (r_orig r)). change (r_dir (finray r)) with (fin3 (r_dir r)).
    change (s_center (finsphere s)) with (fin3 (s_center s)).
    change (s_radius (finsphere s)) with (Fin (s_radius s)).
    rewrite vsub_fin, !squared_norm_fin, dot_fin. xred.
    destruct (first_root_correct L (normsqR (r_dir r)) (2 * dotR (subR (r_orig r) (s_center s)) (r_dir r))
       (normsqR (subR (r_orig r) (s_center s)) - s_radius s * s_radius s) lo hi Ha Hb) as [[E N]|[t [E [Z [W F]]]]].
    - intros [A _]. apply normsqR_pos in Hd. lra.
    - left. rewrite E. split; auto. intros t On Wt. apply (N t Wt). apply sphere_quad, On.
    - right. rewrite E. cbn [h_t h_p set_t set_p].
      assert (Ep : ray_at (F:=XR L) (finray r) (Fin t) = fin3 (pointR r t)) by reflexivity.
      rewrite Ep, vsub_fin, vdiv_fin by lra.
      assert (On : on_sphere s (pointR r t)) by (apply sphere_quad; exact Z).
      assert (Nn : normR (scaleR (/ s_radius s) (subR (pointR r t) (s_center s))) = 1).
      { apply normR_unit. rewrite normsqR_scale. apply on_sphere_iff in On. rewrite On. field; lra. }
      destruct (sphere_uv_spec _ On) as [u [v [Euv [Hu [Hv Es]]]]].
      set (rec1 := set_face_normal (F:=XR L) _ _ _).
      assert (P1 : h_p rec1 = fin3 (pointR r t)) by reflexivity.
      assert (T1 : h_t rec1 = Fin t) by reflexivity.
      change (@num (XR L)) with xr in *. rewrite P1, Euv.
      exists t. eexists. split; [reflexivity|]. unfold sphere_forms.
      change (s_radius (finsphere s)) with (Fin (s_radius s)).
      cbn [h_t h_v set_second set_first set_grad set_v set_u]. xred.
      rewrite T1. split; [reflexivity|]. split; [exact On|]. split; [exact W|].
      split; [intros t' On' W'; apply F; auto; apply sphere_quad; auto|].
      rewrite xdiv_fin by lra.
      unfold describes_sphere.
      split; [split; [exact T1|exact P1]|].
      split; [|split; [|split; [|split]]].
      + destruct (face_normal_spec r (subR (pointR r t) (s_center s)) (/ s_radius s)
          (set_p (fin3 (pointR r t)) (set_t (Fin t) rec))) as [_ FN]; auto.
        apply Rinv_0_lt_compat; auto.
      + exists u, v. cbn. repeat split; auto; try tauto. rewrite Es. exact P1.
      + reflexivity.
      + destruct (sphere_forms_spec u v) as [F1 _]. do 5 eexists. cbn. repeat (split; [reflexivity|]). exact F1.
      + destruct (sphere_forms_spec u v) as [_ F2]. rewrite Es in F2. do 5 eexists. cbn. repeat (split; [reflexivity|]). exact F2. }
  split.
  - intros lo hi rec _ _. destruct (K lo hi rec) as [[E N]|[t [rec' [E [Et [On [W [F D]]]]]]]].
    + exists false, rec. split; auto.
    + exists true, rec'. split; auto. exists t. auto 6.
  - intros lo hi rec rec' E. cbn [hit of_sphere] in E.
    destruct (K lo hi rec) as [[E' _]|[t [rec1 [E' _]]]]; change (@num (XR L)) with xr in *; rewrite E' in E; congruence.
Qed.

(** C34 *)
Lemma sphere_boxed : exists B, sphere_box (F:=XR L) (finsphere s) = Some (finbox B) /\
  forall p, on_sphere s p -> in_box B p.
Proof.
  exists (Box (subR (s_center s) (V3 (s_radius s) (s_radius s) (s_radius s)))
              (addR (s_center s) (V3 (s_radius s) (s_radius s) (s_radius s)))).
  split; [reflexivity|]. intros p H. apply on_sphere_iff in H.
  unfold in_box, normsqR, dotR, subR, addR in *; cbn [b_min b_max vx vy vz] in *.
  set (x := vx p - vx (s_center s)) in *. set (y := vy p - vy (s_center s)) in *. set (z := vz p - vz (s_center s)) in *.
  assert (- s_radius s <= x <= s_radius s) by (split; nra).
  assert (- s_radius s <= y <= s_radius s) by (split; nra).
  assert (- s_radius s <= z <= s_radius s) by (split; nra).
  unfold x, y, z in *. repeat split; lra.
Qed.
End L.
