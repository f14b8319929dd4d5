(** Concrete helicoid and Enneper rays. *)
From Coq Require Import Reals Lra ZArith List Bool.
From Verif Require Import Num XR FL Spec M_Vec M_Matrix M_Roots M_Rng M_Hittable M_Iter M_Surfaces
  Spec_Scene Spec_Shapes Spec_Surfaces Spec_Iter
  P_Vec P_Matrix P_Quadratic P_Sphere P_Angle P_Curvature P_Normals P_Bisect P_Helicoid P_Enneper.
Import ListNotations.
Local Open Scope R_scope.

Definition unit_helicoid : helicoid R := Helicoid 1 1.
Definition wide_helicoid : helicoid R := Helicoid 2 1.
(** straight up, beside the axis *)
Definition rising_ray : ray R := Ray (V3 (1 / 2) 0 (-2)) (V3 0 0 1).
(** straight up along the axis *)
Definition core_ray : ray R := Ray (V3 0 0 (-2)) (V3 0 0 1).
(** horizontal, through the middle plane *)
Definition level_ray : ray R := Ray (V3 (- (1 / 2)) (-1) 0) (V3 0 1 0).

Section L.
Context {L : limits}.

Definition helicoid_matrix (s : helicoid R) (d : vec3 R) (u v : R) : mat3 R :=
  M3 (-2 * PI * (he_radius s * v * sin (2 * PI * u))) (he_radius s * cos (2 * PI * u)) (- vx d)
     (2 * PI * (he_radius s * v * cos (2 * PI * u))) (he_radius s * sin (2 * PI * u)) (- vy d)
     (he_speed s) 0 (- vz d).

Lemma helicoid_finish_eq : forall s (r : ray R) t u v (rec : hit_record xr),
  h_t rec = Fin t -> h_u rec = Fin u -> h_v rec = Fin v -> h_p rec = fin3 (helicoid_sigma s u v) ->
  (l_min L < Rabs (detR (helicoid_matrix s (r_dir r) u v)) -> exists c,
    helicoid_finish (F:=XR L) (finhelicoid s) (finray r) rec = Ok (true, set_cond c rec)) /\
  (Rabs (detR (helicoid_matrix s (r_dir r) u v)) <= l_min L ->
    helicoid_finish (F:=XR L) (finhelicoid s) (finray r) rec = Undef).
Proof.
  intros s r t u v rec Et Eu Ev Ep. unfold helicoid_finish. change (@num (XR L)) with xr.
  rewrite Et, Eu, Ev, Ep. unfold helicoid_J. rewrite helicoid_at_fin, vsub_fin.
  cbn [m00 m01 m02 m10 m11 m12 m20 m21 m22 finray r_dir finhelicoid he_radius he_speed].
  cbn [fin3 map3 helicoid_sigma vx vy vz]. xred.
  match goal with |- context [inverse3_value ?m] => change m with (finm3 (helicoid_matrix s (r_dir r) u v)) end.
  split; intros D.
  - unfold inverse3_value. destruct (inverse3_correct L (helicoid_matrix s (r_dir r) u v) (finm3 (helicoid_matrix s (r_dir r) u v))) as [X _].
    destruct (X D) as [w [E _]]. change (@num (XR L)) with xr in *. rewrite E. cbn [obind].
    match goal with |- context [max_norm ?x] => replace (max_norm (F:=XR L) x) with (Fin 0) end.
    2:{ unfold max_norm, subR; cbn [vx vy vz]. xred. rewrite !Rminus_eq_0. cbn [fin3 map3 vx vy vz xabs]. rewrite !Rabs_R0. xred. cbn [xltb]. rewrite !(Rltb_false 0 0) by lra. cbn [xltb]. rewrite ?(Rltb_false 0 0) by lra. reflexivity. }
    match goal with |- context [std_max3 (Fin ?a) (Fin ?b) (Fin ?c)] =>
      destruct (std_max3_spec (L:=L) a b c) as (m & Em & Hm & _) end.
    eexists. change (@num (XR L)) with xr in *. rewrite Em. xred. rewrite Rltb_false; [reflexivity|].
    assert (0 <= m).
    { eapply Rle_trans; [|exact Hm]. pose proof (Rabs_pos (t * - vx (r_dir r))).
      match goal with |- 0 <= ?a + Rabs ?b + Rabs ?c => pose proof (Rabs_pos b); pose proof (Rabs_pos c); lra end. }
    pose proof (l_eps_pos L). nra.
  - rewrite (inverse3_value_undefined L) by exact D. reflexivity.
Qed.

Lemma helicoid_vertical_hit : forall s (o : vec3 R) lo hi t u v (rec : hit_record xr), l_min L < 1 ->
  helicoid_vertical (F:=XR L) (finhelicoid s) (fin3 o) (fin3 (V3 0 0 1)) = (Fin t, Fin u, Fin v) ->
  exists rec1, h_t rec1 = Fin t /\ h_u rec1 = Fin u /\ h_v rec1 = Fin v /\ h_p rec1 = fin3 (pointR (Ray o (V3 0 0 1)) t) /\
  helicoid_hit (F:=XR L) (finhelicoid s) (finray (Ray o (V3 0 0 1))) lo hi rec =
  helicoid_finish (F:=XR L) (finhelicoid s) (finray (Ray o (V3 0 0 1)))
    (helicoid_forms (F:=XR L) (finhelicoid s) (finray (Ray o (V3 0 0 1))) rec1).
Proof.
  intros s o lo hi t u v rec Hm H. pose proof (l_min_pos L).
  assert (RA : ray_at (F:=XR L) (finray (Ray o (V3 0 0 1))) (Fin t) = fin3 (pointR (Ray o (V3 0 0 1)) t)) by apply ray_at_fin.
  exists (set_p (fin3 (pointR (Ray o (V3 0 0 1)) t)) (set_v (Fin v) (set_u (Fin u) (set_t (Fin t) rec)))).
  do 4 (split; [reflexivity|]).
  unfold helicoid_hit.
  assert (W : helicoid_window (F:=XR L) (finhelicoid s) (finray (Ray o (V3 0 0 1))) lo hi = Some (lo, hi)).
  { unfold helicoid_window. cbn [finray fin3 map3 r_orig r_dir vx vy vz]. xred. rewrite Rltb_false by lra. reflexivity. }
  rewrite W. unfold helicoid_tuv. cbn [finray r_orig r_dir].
  assert (N1 : nleb (NumOps:=XR L) (nabs (NumOps:=XR L) (vz (fin3 (V3 0 0 1)))) nmin = false).
  { cbn [fin3 map3 vz]. xred. rewrite Rabs_pos_eq by lra. apply Rleb_false; lra. }
  assert (N2 : nleb (NumOps:=XR L) (nadd (NumOps:=XR L) (nmul (NumOps:=XR L) (vx (fin3 (V3 0 0 1))) (vx (fin3 (V3 0 0 1))))
     (nmul (NumOps:=XR L) (vy (fin3 (V3 0 0 1))) (vy (fin3 (V3 0 0 1))))) nmin = true).
  { cbn [fin3 map3 vx vy]. xred. apply Rleb_true; lra. }
  change (@num (XR L)) with xr in *. rewrite N1, N2. change (@num (XR L)) with xr in *. rewrite H.
  cbv beta iota zeta. cbn [obind]. 
  assert (E : nisnan (NumOps:=XR L) (h_t (set_v (Fin v) (set_u (Fin u) (set_t (Fin t) rec)))) = false) by reflexivity.
  change (@num (XR L)) with xr in *. rewrite E. 
  change (h_t (set_v (Fin v) (set_u (Fin u) (set_t (Fin t) rec)))) with (Fin t). rewrite RA. reflexivity.
Qed.

Lemma Ratan2_pos : forall x, 0 < x -> Ratan2 0 x = 0.
Proof. intros x H. unfold Ratan2. destruct (Rlt_dec 0 x); [|lra]. replace (0 / x) with 0 by (field; lra). apply atan_0. Qed.

Lemma rising_tuv : l_min L < / 2 -> helicoid_vertical (F:=XR L) (finhelicoid unit_helicoid) (fin3 (r_orig rising_ray)) (fin3 (r_dir rising_ray)) =
  (Fin (3 / 2), Fin 0, Fin (1 / 2)).
Proof.
  intros Hm. pose proof PI_pos. unfold helicoid_vertical, unit_helicoid, rising_ray, finhelicoid, fin3, map3; cbn [he_radius he_speed r_orig r_dir vx vy vz]. xred.
  replace (1 / 2 * (1 / 2) + 0 * 0) with ((1 / 2) * (1 / 2)) by ring.
  rewrite xsqrt_fin, sqrt_square by lra. rewrite ?xdiv_fin by lra. xred.
  rewrite (Rltb_false 1 (1 / 2 / 1)) by lra. rewrite (Rltb_false (1 / 2 / 1) (l_min L)) by lra.
  rewrite ?xdiv_fin by lra. xred. replace (0 / (1 * (1 / 2 / 1))) with 0 by field. replace (1 / 2 / (1 * (1 / 2 / 1))) with 1 by field.
  rewrite Ratan2_pos by lra. rewrite ?xdiv_fin by lra. xred. replace (0 / (2 * PI)) with 0 by (field; lra). rewrite (Rltb_false 0 0) by lra.
  xred. rewrite ?xdiv_fin by lra. unfold std_clamp. xred. rewrite (Rltb_false 0 0), (Rltb_false 1 0), (Rltb_false (1 / 2 / 1) 0), (Rltb_false 1 (1 / 2 / 1)) by lra.
  replace (1 / 2 / 1) with (1 / 2) by field.
  match goal with |- (Fin ?a, _, _) = _ => replace a with (3 / 2) by field end. reflexivity.
Qed.

Lemma rising_hit : forall (rec : hit_record xr) lo hi, l_min L < / 2 -> exists rec',
  helicoid_hit (F:=XR L) (finhelicoid unit_helicoid) (finray rising_ray) lo hi rec = Ok (true, rec') /\ h_t rec' = Fin (3 / 2).
Proof.
  intros rec lo hi Hm.
  destruct (helicoid_vertical_hit unit_helicoid (r_orig rising_ray) lo hi (3 / 2) 0 (1 / 2) rec ltac:(lra) (rising_tuv Hm)) as (rec1 & E1 & E2 & E3 & E4 & E).
  change (Ray (r_orig rising_ray) (V3 0 0 1)) with rising_ray in *. change (@num (XR L)) with xr in *. rewrite E.
  assert (Ok1 : helicoid_ok unit_helicoid) by (unfold helicoid_ok; cbn; lra).
  destruct (helicoid_forms_fin (L:=L) unit_helicoid rising_ray 0 (1 / 2) rec1 Ok1 E2 E3) as (F1 & F2 & F3 & F4 & _).
  rewrite E1 in F1. rewrite E4 in F2.
  destruct (helicoid_finish_eq unit_helicoid rising_ray (3 / 2) 0 (1 / 2) _ F1 F3 F4) as [X _].
  - etransitivity; [exact F2|]. f_equal. unfold pointR, lineR, addR, scaleR, helicoid_sigma, rising_ray, unit_helicoid; cbn [r_orig r_dir vx vy vz he_radius he_speed].
    replace (2 * PI * 0) with 0 by ring. rewrite cos_0, sin_0. apply V3_ext; field.
  - destruct X as [c Ec].
    + unfold detR, helicoid_matrix, unit_helicoid, rising_ray; cbn [he_radius he_speed r_dir m00 m01 m02 m10 m11 m12 m20 m21 m22 vx vy vz].
      replace (2 * PI * 0) with 0 by ring. rewrite cos_0, sin_0. match goal with |- _ < Rabs ?x => replace x with PI by field end.
      pose proof PI2_1. rewrite Rabs_pos_eq; lra.
    + change (@num (XR L)) with xr in *. rewrite Ec. eexists; split; [reflexivity|]. exact F1.
Qed.

Lemma core_undef : forall (rec : hit_record xr) lo hi, l_min L < 1 ->
  helicoid_hit (F:=XR L) (finhelicoid unit_helicoid) (finray core_ray) lo hi rec = Undef.
Proof.
  intros rec lo hi Hm. pose proof (l_min_pos L).
  assert (T : helicoid_vertical (F:=XR L) (finhelicoid unit_helicoid) (fin3 (r_orig core_ray)) (fin3 (V3 0 0 1)) = (Fin (3 / 2), Fin 0, Fin 0)).
  { unfold helicoid_vertical, unit_helicoid, core_ray, finhelicoid, fin3, map3; cbn [he_radius he_speed r_orig r_dir vx vy vz]. xred.
    replace (0 * 0 + 0 * 0) with 0 by ring. rewrite xsqrt_fin, sqrt_0 by lra. rewrite ?xdiv_fin by lra. xred.
    replace (0 / 1) with 0 by field. rewrite (Rltb_false 1 0), (Rltb_true 0 (l_min L)), (Rltb_true 0 1) by lra.
    rewrite xdiv_fin by lra. unfold std_clamp. xred. rewrite (Rltb_false 0 0), (Rltb_false 1 0) by lra.
    match goal with |- (Fin ?a, _, _) = _ => replace a with (3 / 2) by field end. reflexivity. }
  destruct (helicoid_vertical_hit unit_helicoid (r_orig core_ray) lo hi (3 / 2) 0 0 rec Hm T) as (rec1 & E1 & E2 & E3 & E4 & E).
  change (Ray (r_orig core_ray) (V3 0 0 1)) with core_ray in *. change (@num (XR L)) with xr in *. rewrite E.
  assert (Ok1 : helicoid_ok unit_helicoid) by (unfold helicoid_ok; cbn; lra).
  destruct (helicoid_forms_fin (L:=L) unit_helicoid core_ray 0 0 rec1 Ok1 E2 E3) as (F1 & F2 & F3 & F4 & _).
  rewrite E1 in F1. rewrite E4 in F2.
  destruct (helicoid_finish_eq unit_helicoid core_ray (3 / 2) 0 0 _ F1 F3 F4) as [_ X].
  - etransitivity; [exact F2|]. f_equal. unfold pointR, lineR, addR, scaleR, helicoid_sigma, core_ray, unit_helicoid; cbn [r_orig r_dir vx vy vz he_radius he_speed].
    replace (2 * PI * 0) with 0 by ring. rewrite cos_0, sin_0. apply V3_ext; field.
  - apply X. unfold detR, helicoid_matrix, unit_helicoid, core_ray; cbn [he_radius he_speed r_dir m00 m01 m02 m10 m11 m12 m20 m21 m22 vx vy vz].
    match goal with |- Rabs ?x <= _ => replace x with 0 by ring end. rewrite Rabs_R0; lra.
Qed.

(** a horizontal ray, inside the window *)
Lemma level_hit : forall (rec : hit_record xr), l_min L < / 2 -> exists rec',
  helicoid_hit (F:=XR L) (finhelicoid unit_helicoid) (finray level_ray) (Fin 0) PInf rec = Ok (true, rec') /\ h_t rec' = Fin 1.
Proof.
  intros rec Hm. pose proof (l_min_pos L) as Hp. pose proof PI_pos.
  assert (W : exists x0 x1, x0 <= 1 <= x1 /\ helicoid_window (F:=XR L) (finhelicoid unit_helicoid) (finray level_ray) (Fin 0) PInf =
    Some (std_max (F:=XR L) (Fin 0) (Fin x0), Fin x1)).
  { unfold helicoid_window, finray, level_ray, unit_helicoid, finhelicoid, fin3, map3; cbn [r_orig r_dir vx vy vz he_radius he_speed]. xred.
    rewrite Rltb_true by lra.
    match goal with |- context [quadratic_roots (Fin ?a) (Fin ?b) (Fin ?c)] => set (a0 := a); set (b0 := b); set (c0 := c) end.
    assert (Ea : a0 = 1) by (unfold a0; ring). assert (Eb : b0 = -2) by (unfold b0; field). assert (Ec : c0 = 1 / 4) by (unfold c0; field).
    rewrite Ea, Eb, Ec. clear a0 b0 c0 Ea Eb Ec.
    destruct (quadratic_roots_correct L 1 (-2) (1 / 4)) as [[_ E]|(x0 & x1 & E & Le & F & _)].
    - right; rewrite Rabs_pos_eq; lra.
    - right; rewrite Rabs_left; lra.
    - lra.
    - exfalso. assert (S3 : sqrt 3 * sqrt 3 = 3) by (apply sqrt_sqrt; lra).
      apply (E (1 + sqrt 3 / 2)). unfold quadR. nra.
    - change (@num (XR L)) with xr in *. rewrite E. specialize (F ltac:(lra) 1). unfold quadR in F.
      assert (Hx : x0 <= 1 <= x1) by nra. exists x0, x1. split; [exact Hx|].
      cbn [nltb XR xltb]. rewrite (Rltb_false x1 0) by lra.
      unfold ray_at, vadd, vscale, std_min; cbn [r_orig r_dir vx vy vz]. xred.
      assert (M : exists m, std_max (F:=XR L) (Fin 0) (Fin x0) = Fin m) by (unfold std_max; xred; destruct (Rltb 0 x0); eauto).
      destruct M as [m Em]. change (@num (XR L)) with xr in *. rewrite Em. xred. rewrite !xdiv_fin by lra. unfold std_max. xred.
      replace (0 + x1 * 0) with 0 by ring. replace (0 + m * 0) with 0 by ring.
      rewrite !(Rltb_false 0 0) by lra. cbn [xltb]. rewrite (Rltb_false (1 / 2) 0), (Rltb_false 0 (- (1) / 2)) by lra. reflexivity. }
  destruct W as (x0 & x1 & Hx & W).
  unfold helicoid_hit. rewrite W.
  assert (T : helicoid_tuv (F:=XR L) (finhelicoid unit_helicoid) (r_orig (finray level_ray)) (r_dir (finray level_ray)) (std_max (F:=XR L) (Fin 0) (Fin x0)) (Fin x1)
     = Ok (Fin 1, Fin (1 / 2), Fin (1 / 2))).
  { unfold helicoid_tuv, helicoid_horizontal, finray, level_ray, unit_helicoid, finhelicoid, fin3, map3; cbn [r_orig r_dir vx vy vz he_radius he_speed]. xred.
    rewrite Rabs_R0, Rleb_true by lra. rewrite !xdiv_fin by lra. xred.
    replace (0 / 1 + 1 / 2) with (1 / 2) by field. replace (2 * PI * 0 / 1) with 0 by field.
    rewrite (Rltb_false (1 / 2) 0), (Rltb_false 1 (1 / 2)) by lra. cbn [orb]. unfold xtan. rewrite cos_0.
    destruct (Req_EM_T 1 0) as [|_]; [lra|]. rewrite tan_0. xred. rewrite Rabs_R0, Rleb_true by lra.
    rewrite Rabs_pos_eq, Rleb_false by lra. rewrite xdiv_fin by lra. xred.
    replace (2 * PI * (1 / 2)) with PI by field. rewrite cos_PI.
    rewrite xdiv_fin by lra. replace (- -1 / 1) with 1 by field.
    replace ((- (1 / 2) + 1 * 0) / (1 * -1)) with (1 / 2) by field.
    assert (M : exists m, std_max (F:=XR L) (Fin 0) (Fin x0) = Fin m /\ m <= 1) by (unfold std_max; xred; destruct (Rltb_spec 0 x0); eexists; split; eauto; lra).
    destruct M as [m [Em Hm1]]. change (@num (XR L)) with xr in *. rewrite Em. xred. rewrite !Rleb_true by lra. cbn [andb].
    unfold std_clamp. xred. rewrite (Rltb_false (1 / 2) 0), (Rltb_false 1 (1 / 2)) by lra. reflexivity. }
  change (@num (XR L)) with xr in *. rewrite T. cbn [obind]. cbv beta iota zeta.
  assert (RA : ray_at (F:=XR L) (finray level_ray) (Fin 1) = fin3 (pointR level_ray 1)) by apply ray_at_fin.
  set (rec0 := set_v (Fin (1 / 2)) (set_u (Fin (1 / 2)) (set_t (Fin 1) rec))).
  assert (E : nisnan (NumOps:=XR L) (h_t rec0) = false) by reflexivity.
  change (@num (XR L)) with xr in *. rewrite E. change (h_t rec0) with (Fin 1). rewrite RA.
  set (rec1 := set_p (fin3 (pointR level_ray 1)) rec0).
  assert (Ok1 : helicoid_ok unit_helicoid) by (unfold helicoid_ok; cbn; lra).
  destruct (helicoid_forms_fin (L:=L) unit_helicoid level_ray (1 / 2) (1 / 2) rec1 Ok1 eq_refl eq_refl) as (F1 & F2 & F3 & F4 & _).
  assert (P2 : 2 * PI * (1 / 2) = PI) by field.
  destruct (helicoid_finish_eq unit_helicoid level_ray 1 (1 / 2) (1 / 2) _ F1 F3 F4) as [X _].
  - etransitivity; [exact F2|]. unfold rec1; cbn [set_p h_p]. f_equal. unfold pointR, lineR, addR, scaleR, helicoid_sigma, level_ray, unit_helicoid; cbn [r_orig r_dir vx vy vz he_radius he_speed].
    rewrite P2, cos_PI, sin_PI. apply V3_ext; field.
  - destruct X as [c Ec].
    + unfold detR, helicoid_matrix, unit_helicoid, level_ray; cbn [he_radius he_speed r_dir m00 m01 m02 m10 m11 m12 m20 m21 m22 vx vy vz].
      rewrite P2, cos_PI, sin_PI. match goal with |- _ < Rabs ?x => replace x with 1 by field end.
      rewrite Rabs_pos_eq; lra.
    + change (@num (XR L)) with xr in *. rewrite Ec. eexists; split; [reflexivity|]. exact F1.
Qed.

(** *** Enneper *)
Definition climbing_ray : ray R := Ray (V3 0 0 (-2)) (V3 0 0 1).
Definition small_enneper : enneper R := Enneper 1.
(* a solver that finds the centre of the surface *)
Definition centre_solver : vec3 xr -> vec3 xr -> xr -> xr -> outcome (list xr) := fun _ _ _ _ => Ok [Fin 0; Fin 0; Fin 2].

Lemma climbing_window : l_min L < 1 ->
  enneper_window (F:=XR L) (finenneper small_enneper) (finray climbing_ray) (Fin 0) PInf = Some (Fin 1, Fin 3).
Proof.
  intros Hm. unfold enneper_window, finray, climbing_ray, small_enneper, finenneper. cbn [r_orig r_dir en_radius].
  rewrite !squared_norm_fin, dot_fin. unfold normsqR, dotR; cbn [vx vy vz]. xred.
  match goal with |- context [quadratic_roots (Fin ?a) (Fin ?b) (Fin ?c)] => set (a0 := a); set (b0 := b); set (c0 := c) end.
  assert (Ea : a0 = 1) by (unfold a0; ring). assert (Eb : b0 = -4) by (unfold b0; ring). assert (Ec : c0 = 3) by (unfold c0; ring).
  rewrite Ea, Eb, Ec. clear a0 b0 c0 Ea Eb Ec.
  destruct (quadratic_roots_correct L 1 (-4) 3) as [[_ E]|(x0 & x1 & E & Le & F & _)].
  - right; rewrite Rabs_pos_eq; lra.
  - right; rewrite Rabs_left; lra.
  - lra.
  - elim (E 1). unfold quadR; ring.
  - change (@num (XR L)) with xr in *. rewrite E. specialize (F ltac:(lra)). unfold quadR in F.
    assert (E0 := F 1). assert (E3 := F 3). assert (S : x0 + x1 = 4 /\ x0 * x1 = 3) by (pose proof (F 0); split; nra).
    assert (x0 = 1 /\ x1 = 3) as [-> ->].
    { destruct S as [S P]. assert (Z : (x0 - 1) * (x0 - 3) = 0) by nra. apply Rmult_integral in Z. nra. }
    unfold std_max, std_min. xred. rewrite (Rltb_false 3 0), (Rltb_true 0 1) by lra. reflexivity.
Qed.
Lemma climbing_undef : forall (rec : hit_record xr), l_min L < 1 ->
  enneper_hit (F:=XR L) (finenneper small_enneper) (finray climbing_ray) (Fin 0) PInf rec = Undef.
Proof. intros rec Hm. rewrite (enneper_hit_undef (middle_XR L)), (climbing_window Hm). reflexivity. Qed.

Lemma climbing_hit : forall (rec : hit_record xr), l_min L < 1 -> exists rec',
  enneper_hit_with (F:=XR L) centre_solver (finenneper small_enneper) (finray climbing_ray) (Fin 0) PInf rec = Ok (true, rec').
Proof.
  intros rec Hm. unfold enneper_hit_with. rewrite (climbing_window Hm). unfold centre_solver. cbn [obind].
  unfold enneper_finish. cbn [nth]. change (@num (XR L)) with xr. cbn [nisnan XR xisnan]. xred.
  rewrite (Rltb_false 2 1), (Rltb_false 3 2) by lra. cbn [orb].
  assert (RA : ray_at (F:=XR L) (finray climbing_ray) (Fin 2) = fin3 (pointR climbing_ray 2)) by apply ray_at_fin.
  change (@num (XR L)) with xr in *. rewrite RA. cbn [set_v set_u set_p set_t h_p].
  rewrite enneper_at_fin, vsub_fin, norm_fin. xred. rewrite xdiv_fin by lra. xred.
  replace (normR (subR (pointR climbing_ray 2) (enneper_sigma 0 0))) with 0.
  - rewrite Rltb_false by lra. eexists; reflexivity.
  - unfold normR. replace (normsqR _) with 0; [symmetry; apply sqrt_0|].
    unfold normsqR, dotR, subR, pointR, lineR, addR, scaleR, climbing_ray, enneper_sigma; cbn [r_orig r_dir vx vy vz]. field.
Qed.
Lemma climbing_ok : forall m, 0 < m < 1 -> 0 <= en_radius small_enneper /\ r_dir climbing_ray <> zeroR /\
  off_threshold m (normsqR (r_dir climbing_ray)) /\ off_threshold m (2 * dotR (r_orig climbing_ray) (r_dir climbing_ray)).
Proof.
  intros m Hm. unfold climbing_ray, small_enneper, off_threshold, normsqR, dotR, zeroR; cbn [r_orig r_dir vx vy vz en_radius].
  split; [lra|]. split; [intros E; injection E; lra|]. split; right.
  - replace (_ + _ + _) with 1 by ring. rewrite Rabs_pos_eq; lra.
  - match goal with |- _ < Rabs ?x => replace x with (-4) by ring end. rewrite Rabs_left; lra.
Qed.
End L.

(** *** In the form of the theorems *)
Lemma wide_ok : helicoid_ok wide_helicoid /\ he_radius wide_helicoid <> 1.
Proof. unfold helicoid_ok, wide_helicoid; cbn; lra. Qed.
Lemma helicoid_out_of_window : forall (L : limits) (rec : hit_record xr), l_min L < / 2 ->
  exists (s : helicoid R) (r : ray R) rec', helicoid_ok s /\
    helicoid_hit (F:=XR L) (finhelicoid s) (finray r) (Fin 0) (Fin 1) rec = Ok (true, rec') /\ h_t rec' = Fin (3 / 2).
Proof.
  intros L rec H. destruct (rising_hit (L:=L) rec (Fin 0) (Fin 1) H) as [rec' E].
  exists unit_helicoid, rising_ray, rec'. split; [unfold helicoid_ok; cbn; lra|exact E].
Qed.
Lemma helicoid_undefined : forall (L : limits) (rec : hit_record xr) (lo hi : xr), l_min L < 1 ->
  exists (s : helicoid R) (r : ray R), helicoid_ok s /\ r_dir r <> zeroR /\
    helicoid_hit (F:=XR L) (finhelicoid s) (finray r) lo hi rec = Undef.
Proof.
  intros L rec lo hi H. exists unit_helicoid, core_ray. split; [unfold helicoid_ok; cbn; lra|].
  split; [|apply core_undef; auto]. intros X. apply (f_equal vz) in X. cbn in X. lra.
Qed.
Lemma rising_direction : forall m, 0 < m -> m < / 2 -> direction_ok m (r_dir rising_ray).
Proof. intros m H0 H. unfold direction_ok, off_threshold; cbn. right. rewrite Rabs_R1. lra. Qed.
Lemma helicoid_wrong_form : forall (L : limits) (rec : hit_record xr) (lo hi : xr), l_min L < / 2 ->
  exists (s : helicoid R) (r : ray R) rec', helicoid_ok s /\
    helicoid_hit (F:=XR L) (finhelicoid s) (finray r) lo hi rec = Ok (true, rec') /\ ~ has_first_form (helicoid_sigma s) rec'.
Proof.
  intros L rec lo hi H. destruct (rising_hit (L:=L) rec lo hi H) as (rec' & E & _).
  assert (O : helicoid_ok unit_helicoid) by (unfold helicoid_ok; cbn; lra).
  exists unit_helicoid, rising_ray, rec'. split; [exact O|]. split; [exact E|].
  destruct (helicoid_hit_forms unit_helicoid rising_ray lo hi rec rec' O (rising_direction _ (l_min_pos L) H) E)
    as (u & v & n & E0 & F0 & G0 & e & f & g & Hu & Hv & FF & _ & _ & _ & HG & NG & _).
  intros (u' & v' & E1 & F1 & G1 & Hu' & Hv' & _ & _ & HG' & FF').
  rewrite Hu in Hu'; rewrite Hv in Hv'; rewrite HG in HG'. injection Hu' as <-; injection Hv' as <-; injection HG' as <-.
  destruct (first_form_unique _ _ _ _ _ _ _ _ _ FF FF') as (_ & _ & X). auto.
Qed.
Lemma helicoid_wrong_curvature : forall (L : limits) (rec : hit_record xr) (lo hi : xr), l_min L < / 2 ->
  exists (s : helicoid R) (r : ray R) rec' u v n K, helicoid_ok s /\
    helicoid_hit (F:=XR L) (finhelicoid s) (finray r) lo hi rec = Ok (true, rec') /\
    h_u rec' = Fin u /\ h_v rec' = Fin v /\ curvatures (helicoid_sigma s) n u v K 0 /\
    gaussian_curvature (F:=XR L) rec' <> Fin K.
Proof.
  intros L rec lo hi H. destruct (rising_hit (L:=L) rec lo hi H) as (rec' & E & _).
  assert (O : helicoid_ok unit_helicoid) by (unfold helicoid_ok; cbn; lra).
  destruct (helicoid_hit_curvature unit_helicoid rising_ray lo hi rec rec' O (rising_direction _ (l_min_pos L) H) E)
    as (u & v & n & K & Hu & Hv & C & Neg & G & _).
  exists unit_helicoid, rising_ray, rec', u, v, n, K.
  repeat match goal with |- _ /\ _ => split end; auto. rewrite G. intros X. injection X as X. pose proof four_pi2.
  assert (K = K / (4 * PI ^ 2) * (4 * PI ^ 2)) by (field; pose proof PI_pos; lra). change (K / (4 * PI ^ 2) = K) in X. rewrite X in H1. nra.
Qed.
