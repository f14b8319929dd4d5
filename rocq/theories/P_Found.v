(** Level and upright rays find the helicoid. *)
From Coq Require Import Reals Lra ZArith List Bool.
From Verif Require Import Num XR FL Spec M_Vec M_Matrix M_Roots M_Rng M_Iter M_Hittable M_Surfaces Spec_Iter Spec_Solver Spec_Scene Spec_Shapes Spec_Surfaces Spec_Matrix
  P_Vec P_Quadratic P_Sphere P_Angle P_Helicoid P_Condition P_Shallow E_Surfaces.
Import ListNotations.
Local Open Scope R_scope.

Section Found.
Context {L : limits}.
Notation X := (XR L).

Lemma clamp_in : forall x, 0 <= x <= 1 -> std_clamp (F:=X) (Fin x) (Fin 0) (Fin 1) = Fin x.
Proof. intros x H. unfold std_clamp. xred. rewrite (Rltb_false x 0), (Rltb_false 1 x) by lra. reflexivity. Qed.

(** what is left once the solver has answered with the crossing itself *)
Lemma found : forall s (r : ray R) (lo hi lo' hi' : xr) t u v (rec : hit_record xr), helicoid_ok s ->
  helicoid_window (F:=X) (finhelicoid s) (finray r) lo hi = Some (lo', hi') ->
  helicoid_tuv (F:=X) (finhelicoid s) (fin3 (r_orig r)) (fin3 (r_dir r)) lo' hi' = Ok (Fin t, Fin u, Fin v) ->
  pointR r t = helicoid_sigma s u v -> l_min L < Rabs (dotR (crossR (helicoid_su s u v) (helicoid_sv s u v)) (r_dir r)) ->
  exists rec', helicoid_hit (F:=X) (finhelicoid s) (finray r) lo hi rec = Ok (true, rec') /\
    at_point r t rec' /\ h_u rec' = Fin u /\ h_v rec' = Fin v.
Proof.
  intros s r lo hi lo' hi' t u v rec Hok W T P D.
  rewrite (hit_eq s r lo hi lo' hi' t u v rec W T).
  assert (RA : ray_at (F:=X) (finray r) (Fin t) = fin3 (pointR r t)) by (destruct r; apply ray_at_fin). change (@num X) with xr in *. rewrite RA.
  set (rec1 := set_p _ _).
  destruct (helicoid_forms_fin (L:=L) s r u v rec1 Hok eq_refl eq_refl) as (F1 & F2 & F3 & F4 & _).
  change (h_t rec1) with (Fin t) in F1. change (h_p rec1) with (fin3 (pointR r t)) in F2.
  destruct (helicoid_finish_eq (L:=L) s r t u v (helicoid_forms (F:=X) (finhelicoid s) (finray r) rec1) F1 F3 F4) as [Y _].
  - etransitivity; [exact F2|]. f_equal. exact P.
  - destruct Y as (c & Ec); [rewrite matrix_det, Rabs_Ropp; exact D|]. change (@num X) with xr in *. rewrite Ec.
    eexists; split; [reflexivity|]. split; [|split; [exact F3|exact F4]]. split; [exact F1|exact F2].
Qed.

Lemma tilt_eq : forall s u v d, dotR (crossR (helicoid_su s u v) (helicoid_sv s u v)) d =
  he_radius s * (he_speed s * (vy d * cos (2 * PI * u) - vx d * sin (2 * PI * u)) - 2 * PI * he_radius s * v * vz d).
Proof.
  intros s u v d. unfold dotR, crossR, helicoid_su, helicoid_sv; cbn [vx vy vz]. pose proof (sc2 (2 * PI * u)) as Q.
  match goal with |- ?a = _ => replace a with (he_radius s * (he_speed s * (vy d * cos (2 * PI * u) - vx d * sin (2 * PI * u)) - 2 * PI * he_radius s * v * vz d * (sin (2 * PI * u) * sin (2 * PI * u) + cos (2 * PI * u) * cos (2 * PI * u)))) by ring end.
  rewrite Q. ring.
Qed.

(** ** upright rays *)
Section Upright.
Variables (s : helicoid R) (o : vec3 R) (dz : R).
Hypothesis Hok : helicoid_ok s.
Hypothesis Hz : l_min L < Rabs dz.
Notation r := (Ray o (V3 0 0 dz)).
Notation rho := (sqrt (vx o * vx o + vy o * vy o)).
Lemma dz_nonzero : dz <> 0.
Proof. intros E. rewrite E, Rabs_R0 in Hz. pose proof (l_min_pos L). lra. Qed.
Lemma upright_window : forall lo hi, helicoid_window (F:=X) (finhelicoid s) (finray r) lo hi = Some (lo, hi).
Proof.
  intros lo hi. unfold helicoid_window. cbn [finray fin3 map3 r_orig r_dir vx vy vz]. xred. pose proof (l_min_pos L). rewrite Rltb_false by lra. reflexivity.
Qed.
Lemma upright_tuv : forall lo hi, helicoid_tuv (F:=X) (finhelicoid s) (fin3 o) (fin3 (V3 0 0 dz)) lo hi =
  Ok (helicoid_vertical (F:=X) (finhelicoid s) (fin3 o) (fin3 (V3 0 0 dz))).
Proof.
  intros lo hi. unfold helicoid_tuv.
  assert (N1 : nleb (NumOps:=X) (nabs (NumOps:=X) (vz (fin3 (V3 0 0 dz)))) nmin = false) by (cbn [fin3 map3 vz]; xred; apply Rleb_false; lra).
  assert (N2 : nleb (NumOps:=X) (nadd (NumOps:=X) (nmul (NumOps:=X) (vx (fin3 (V3 0 0 dz))) (vx (fin3 (V3 0 0 dz))))
     (nmul (NumOps:=X) (vy (fin3 (V3 0 0 dz))) (vy (fin3 (V3 0 0 dz))))) nmin = true).
  { cbn [fin3 map3 vx vy]. xred. pose proof (l_min_pos L). apply Rleb_true; lra. }
  change (@num X) with xr in *. rewrite N1, N2. reflexivity.
Qed.
Lemma rho_sq : 0 <= vx o * vx o + vy o * vy o.
Proof. apply Rplus_le_le_0_compat; apply Rle_0_sqr. Qed.
Lemma upright_out : he_radius s < rho -> helicoid_vertical (F:=X) (finhelicoid s) (fin3 o) (fin3 (V3 0 0 dz)) = (NaN, NaN, NaN).
Proof.
  intros H. destruct Hok as [Hr Hs]. unfold helicoid_vertical. cbn [finhelicoid he_radius he_speed fin3 map3 vx vy vz]. change (@num X) with xr in *. xred.
  rewrite xsqrt_fin by apply rho_sq. rewrite xdiv_fin by lra. xred. rewrite Rltb_true; [reflexivity|].
  apply Rmult_lt_reg_r with (he_radius s); [lra|]. unfold Rdiv. rewrite Rmult_assoc, Rinv_l by lra. lra.
Qed.
Lemma upright_in : l_min L * he_radius s <= rho <= he_radius s -> exists t u,
  helicoid_vertical (F:=X) (finhelicoid s) (fin3 o) (fin3 (V3 0 0 dz)) = (Fin t, Fin u, Fin (rho / he_radius s)) /\
  0 <= u < 1 /\ 0 <= rho / he_radius s <= 1 /\ pointR r t = helicoid_sigma s u (rho / he_radius s).
Proof.
  intros [H1 H2]. destruct Hok as [Hr Hs]. pose proof PI_pos as Pp. pose proof (l_min_pos L) as Lm. pose proof dz_nonzero as Nz.
  set (V := rho / he_radius s). assert (EV : he_radius s * V = rho) by (unfold V; field; lra).
  assert (Hrho : 0 < rho) by (assert (0 < l_min L * he_radius s) by (apply Rmult_lt_0_compat; lra); lra).
  assert (V1 : V <= 1) by (apply Rmult_le_reg_l with (he_radius s); lra).
  assert (V0 : l_min L <= V) by (apply Rmult_le_reg_l with (he_radius s); lra).
  unfold helicoid_vertical. cbn [finhelicoid he_radius he_speed fin3 map3 vx vy vz]. change (@num X) with xr in *. xred.
  rewrite xsqrt_fin by apply rho_sq. rewrite !xdiv_fin by lra. xred. fold V. rewrite (Rltb_false 1 V), (Rltb_false V) by lra.
  rewrite EV. rewrite !xdiv_fin by lra. xred. rewrite !xdiv_fin by lra. xred.
  assert (Q : sqrt (vx o / rho * (vx o / rho) + vy o / rho * (vy o / rho)) = 1).
  { replace (vx o / rho * (vx o / rho) + vy o / rho * (vy o / rho)) with ((vx o * vx o + vy o * vy o) / (rho * rho)) by (field; lra).
    rewrite sqrt_sqrt by apply rho_sq. unfold Rdiv. rewrite Rinv_r; [apply sqrt_1|].
    intros E. rewrite E, sqrt_0 in Hrho. lra. }
  assert (Qp : 0 < vx o / rho * (vx o / rho) + vy o / rho * (vy o / rho)).
  { destruct (Rlt_dec 0 (vx o / rho * (vx o / rho) + vy o / rho * (vy o / rho))) as [K|K]; [exact K|]. rewrite sqrt_neg_0 in Q by lra. lra. }
  destruct (Ratan2_polar (vy o / rho) (vx o / rho) Qp) as (C & Sn & B). rewrite Q in C, Sn. rewrite Rmult_1_l in C, Sn.
  set (a := Ratan2 (vy o / rho) (vx o / rho)) in *.
  assert (Ea : 2 * PI * (a / (2 * PI)) = a) by (field; lra).
  assert (Fin_ : forall u, 0 <= u < 1 -> cos (2 * PI * u) = cos a -> sin (2 * PI * u) = sin a ->
    exists t u0, (xdiv (xsub (xmul (Fin (he_speed s)) (xsub (Fin u) (Fin (1 / 2)))) (Fin (vz o))) (Fin dz), std_clamp (F:=X) (Fin u) (Fin 0) (Fin 1), std_clamp (F:=X) (Fin V) (Fin 0) (Fin 1)) = (Fin t, Fin u0, Fin V) /\
      0 <= u0 < 1 /\ 0 <= V <= 1 /\ pointR r t = helicoid_sigma s u0 V).
  { intros u Hu Cu Su. xred. rewrite xdiv_fin by lra. rewrite !clamp_in by lra.
    exists ((he_speed s * (u - 1 / 2) - vz o) / dz), u. split; [reflexivity|]. split; [exact Hu|]. split; [lra|].
    unfold pointR, lineR, addR, scaleR, helicoid_sigma; cbn [r_orig r_dir vx vy vz]. rewrite Cu, Su, C, Sn, EV. apply V3_ext; field; lra. }
  destruct (Rltb_spec (a / (2 * PI)) 0) as [K|K]; xred.
  - apply Fin_; [split; [|lra]|replace (2 * PI * (a / (2 * PI) + 1)) with (a + 2 * PI) by (field; lra); rewrite cos_plus, cos_2PI, sin_2PI; ring|
      replace (2 * PI * (a / (2 * PI) + 1)) with (a + 2 * PI) by (field; lra); rewrite sin_plus, cos_2PI, sin_2PI; ring].
    apply Rmult_le_reg_l with (2 * PI); [lra|]. rewrite Rmult_plus_distr_l, Ea. lra.
  - apply Fin_; [split; [lra|]|rewrite Ea; reflexivity|rewrite Ea; reflexivity].
    apply Rmult_lt_reg_l with (2 * PI); [lra|]. rewrite Ea. lra.
Qed.
Theorem upright_found : forall lo hi (rec : hit_record xr), l_min L * he_radius s <= rho <= he_radius s -> l_min L < 2 * PI * he_radius s * rho * Rabs dz ->
  exists rec' t u, helicoid_hit (F:=X) (finhelicoid s) (finray r) lo hi rec = Ok (true, rec') /\ at_point r t rec' /\ h_u rec' = Fin u /\
    h_v rec' = Fin (rho / he_radius s) /\ 0 <= u < 1 /\ pointR r t = helicoid_sigma s u (rho / he_radius s).
Proof.
  intros lo hi rec H D. destruct (upright_in H) as (t & u & T & Hu & Hv & P).
  destruct (found s r lo hi lo hi t u (rho / he_radius s) rec Hok (upright_window lo hi)) as (rec' & E & A & Eu & Ev).
  - cbn [r_orig r_dir]. rewrite upright_tuv, T. reflexivity.
  - exact P.
  - rewrite tilt_eq. cbn [r_dir vx vy vz]. destruct Hok as [Hr Hs]. pose proof PI_pos.
    replace (he_radius s * _) with (- (2 * PI * he_radius s * rho * dz)) by (field; lra).
    rewrite Rabs_Ropp, Rabs_mult, (Rabs_pos_eq (2 * PI * he_radius s * rho)); [exact D|].
    apply Rmult_le_pos; [apply Rmult_le_pos; lra|apply sqrt_pos].
  - exists rec', t, u. tauto.
Qed.
Theorem upright_missed : forall lo hi (rec : hit_record xr), he_radius s < rho ->
  (exists rec', helicoid_hit (F:=X) (finhelicoid s) (finray r) lo hi rec = Ok (false, rec')) /\ forall t, ~ on_helicoid s (pointR r t).
Proof.
  intros lo hi rec H. split.
  - unfold helicoid_hit. rewrite upright_window. change (r_orig (finray r)) with (fin3 o). change (r_dir (finray r)) with (fin3 (V3 0 0 dz)).
    rewrite upright_tuv. rewrite (upright_out H). eexists. reflexivity.
  - intros t (u & v & Hu & Hv & E). destruct Hok as [Hr Hs].
    assert (Ex : vx o = he_radius s * v * cos (2 * PI * u)) by (apply (f_equal vx) in E; cbn in E; lra).
    assert (Ey : vy o = he_radius s * v * sin (2 * PI * u)) by (apply (f_equal vy) in E; cbn in E; lra).
    assert (Q : vx o * vx o + vy o * vy o = (he_radius s * v) * (he_radius s * v)).
    { rewrite Ex, Ey. pose proof (sc2 (2 * PI * u)) as K.
      transitivity ((he_radius s * v) * (he_radius s * v) * (sin (2 * PI * u) * sin (2 * PI * u) + cos (2 * PI * u) * cos (2 * PI * u))); [ring|rewrite K; ring]. }
    rewrite Q, sqrt_square in H by (apply Rmult_le_pos; lra). nra.
Qed.
End Upright.

(** ** level rays *)
Section Level.
Variables (s : helicoid R) (o : vec3 R) (dx dy : R).
Hypothesis Hok : helicoid_ok s.
Notation d := (V3 dx dy 0).
Notation r := (Ray o (V3 dx dy 0)).
Hypothesis Ha : l_min L < dx ^ 2 + dy ^ 2.
Hypothesis Hb : off_threshold (l_min L) (2 * (vx o * dx + vy o * dy)).
Variables (t u v : R).
Hypothesis Hu : 0 <= u <= 1.
Hypothesis Hv : 0 <= v <= 1.
Hypothesis P : pointR r t = helicoid_sigma s u v.
Notation c := (cos (2 * PI * u)).
Notation sn := (sin (2 * PI * u)).
Hypothesis Hc : c <> 0.
Hypothesis Ht : off_threshold (l_min L) (sn / c).
Hypothesis Hd : l_min L < Rabs (dy * c - dx * sn).
Lemma px : vx o + t * dx = he_radius s * v * c.
Proof. pose proof (f_equal vx P) as E. cbn in E. exact E. Qed.
Lemma py : vy o + t * dy = he_radius s * v * sn.
Proof. pose proof (f_equal vy P) as E. cbn in E. exact E. Qed.
Lemma pz : vz o = he_speed s * (u - 1 / 2).
Proof. pose proof (f_equal vz P) as E. cbn in E. lra. Qed.
Lemma t_inside : out2 o d t = (he_radius s * v) * (he_radius s * v).
Proof.
  unfold out2. cbn [vx vy]. rewrite px, py. pose proof (sc2 (2 * PI * u)) as K.
  transitivity ((he_radius s * v) * (he_radius s * v) * (sn * sn + c * c)); [ring|rewrite K; ring].
Qed.
Lemma level_window : forall lo hi, in_window lo hi t -> exists a b,
  helicoid_window (F:=X) (finhelicoid s) (finray r) lo hi = Some (Fin a, Fin b) /\ a <= t <= b.
Proof.
  intros lo hi [Wl Wh]. destruct Hok as [Hr Hs]. pose proof (l_min_pos L) as Lm.
  set (qa := dx * dx + dy * dy). set (qb := 2 * (vx o * dx + vy o * dy)). set (qc := vx o * vx o + vy o * vy o - he_radius s * he_radius s).
  assert (A : 0 < qa) by (unfold qa; nra).
  assert (In0 : quadR qa qb qc t <= 0).
  { pose proof t_inside as K. assert (E : quadR qa qb qc t = out2 o d t - he_radius s * he_radius s) by (unfold quadR, qa, qb, qc, out2; cbn [vx vy]; ring).
    rewrite E, K. assert (0 <= he_radius s * he_radius s * (1 - v * v)) by (apply Rmult_le_pos; nra). lra. }
  unfold helicoid_window. cbn [finray fin3 map3 r_orig r_dir vx vy vz finhelicoid he_radius he_speed]. xred.
  fold qa qb qc. rewrite Rltb_true by (unfold qa; nra).
  destruct (quadratic_roots_correct L qa qb qc) as [[_ Q]|(x0 & x1 & Q & Le & Fa & _)].
  - right. rewrite Rabs_pos_eq; unfold qa in *; nra.
  - exact Hb.
  - lra.
  - exfalso. set (q := quadR qa qb qc t) in *. set (p := 2 * qa * t + qb).
    assert (Dp : 0 <= p * p - 4 * qa * q) by (assert (0 <= p * p) by apply Rle_0_sqr; assert (0 <= qa * - q) by (apply Rmult_le_pos; lra); lra).
    apply (Q (t + (- p + sqrt (p * p - 4 * qa * q)) / (2 * qa))).
    assert (SS := sqrt_sqrt _ Dp). set (w := sqrt _) in *.
    assert (Eq : quadR qa qb qc (t + (- p + w) / (2 * qa)) = (w * w - (p * p - 4 * qa * q)) / (4 * qa)) by (unfold q, p, quadR; field; lra).
    rewrite Eq, SS. field. lra.
  - assert (Hx : x0 <= t <= x1).
    { specialize (Fa ltac:(lra) t). rewrite Fa in In0. destruct (Rle_lt_dec x0 t), (Rle_lt_dec t x1); try lra; exfalso.
      - assert (0 < qa * ((t - x0) * (t - x1))) by (apply Rmult_lt_0_compat; [lra|apply Rmult_lt_0_compat; lra]). lra.
      - assert (0 < qa * ((x0 - t) * (x1 - t))) by (apply Rmult_lt_0_compat; [lra|apply Rmult_lt_0_compat; lra]). lra. }
    change (@num X) with xr in *. rewrite Q.
    assert (E1 : xltb (Fin x1) lo = false) by (destruct lo as [lo| | |]; cbn in *; [apply Rltb_false; lra|contradiction|reflexivity|contradiction]).
    cbn [nltb XR] in *. rewrite E1.
    assert (E2 : exists a, std_max (F:=X) lo (Fin x0) = Fin a /\ a <= t).
    { unfold std_max. destruct lo as [lo| | |]; cbn in *; try contradiction; [destruct (Rltb_spec lo x0); eexists; split; try reflexivity; lra|eexists; split; [reflexivity|lra]]. }
    assert (E3 : exists b, std_min (F:=X) hi (Fin x1) = Fin b /\ t <= b).
    { unfold std_min. destruct hi as [hi| | |]; cbn in *; try contradiction; [destruct (Rltb_spec x1 hi); eexists; split; try reflexivity; lra|eexists; split; [reflexivity|lra]]. }
    destruct E2 as (a & E2 & La), E3 as (b & E3 & Lb). change (@num X) with xr in *. rewrite E2, E3.
    exists a, b. unfold ray_at, vadd, vscale; cbn [finray fin3 map3 r_orig r_dir vx vy vz]. xred. rewrite !Rmult_0_r, !Rplus_0_r. rewrite !xdiv_fin by lra. xred.
    assert (M1 : std_max (F:=X) (Fin (vz o)) (Fin (vz o)) = Fin (vz o)) by (unfold std_max; xred; rewrite Rltb_false by lra; reflexivity).
    assert (M2 : std_min (F:=X) (Fin (vz o)) (Fin (vz o)) = Fin (vz o)) by (unfold std_min; xred; rewrite Rltb_false by lra; reflexivity).
    change (@num X) with xr in *. rewrite M1, M2. xred. rewrite pz.
    rewrite (Rltb_false (he_speed s / 2)) by nra. rewrite Rltb_false by nra. split; [reflexivity|lra].
Qed.
Lemma level_tuv : forall a b, a <= t <= b -> helicoid_tuv (F:=X) (finhelicoid s) (fin3 o) (fin3 d) (Fin a) (Fin b) = Ok (Fin t, Fin u, Fin v).
Proof.
  intros a b Hab. destruct Hok as [Hr Hs]. pose proof (l_min_pos L) as Lm. pose proof PI_pos as Pp.
  unfold helicoid_tuv. cbn [fin3 map3 vx vy vz]. xred. rewrite Rabs_R0, Rleb_true by lra.
  unfold helicoid_horizontal. cbn [finhelicoid he_radius he_speed fin3 map3 vx vy vz]. change (@num X) with xr in *. xred.
  rewrite !xdiv_fin by lra. xred.
  replace (vz o / he_speed s + 1 / 2) with u by (rewrite pz; field; lra).
  rewrite (Rltb_false u 0), (Rltb_false 1 u) by lra. cbn [orb].
  replace (2 * PI * vz o / he_speed s) with (2 * PI * u - PI) by (rewrite pz; field; lra).
  assert (Ec : cos (2 * PI * u - PI) = - c) by (rewrite cos_minus, cos_PI, sin_PI; ring).
  assert (Es : sin (2 * PI * u - PI) = - sn) by (rewrite sin_minus, cos_PI, sin_PI; ring).
  unfold xtan. rewrite Ec. destruct (Req_EM_T (- c) 0) as [Z|_]; [exfalso; lra|]. xred.
  assert (Et : tan (2 * PI * u - PI) = sn / c) by (unfold tan; rewrite Ec, Es; field; lra). rewrite Et.
  pose proof px as Px. pose proof py as Py.
  assert (Tn : forall A B, B <> 0 -> A = t * B -> A / B = t) by (intros A B NB E; rewrite E; field; exact NB).
  destruct Ht as [T0|T1].
  - assert (S0 : sn = 0) by (replace sn with (sn / c * c) by (field; exact Hc); rewrite T0; ring).
    rewrite T0, Rabs_R0, Rleb_true by lra. rewrite S0 in *. rewrite Rmult_0_r in Py, Hd. rewrite Rminus_0_r in Hd.
    assert (C1 : c * c = 1) by (pose proof (sc2 (2 * PI * u)) as K; rewrite S0 in K; lra).
    assert (Dy : Rabs (dy * c) = Rabs dy).
    { assert (Ac : Rabs c = 1) by (destruct (Rle_dec 0 c); [rewrite Rabs_pos_eq by lra; nra|rewrite Rabs_left by lra; nra]). rewrite Rabs_mult, Ac. ring. }
    rewrite Dy in Hd. rewrite Rleb_false by lra.
    assert (Ny : dy <> 0) by (intros E; rewrite E, Rabs_R0 in Hd; lra).
    rewrite xdiv_fin by exact Ny. xred. replace (- vy o / dy) with t by (field_simplify_eq; [lra|exact Ny]).
    rewrite Px. rewrite xdiv_fin by (apply Rmult_integral_contrapositive_currified; lra). xred.
    rewrite (Rleb_true a t), (Rleb_true t b) by lra. cbn [andb].
    replace (he_radius s * v * c / (he_radius s * c)) with v by (field; lra). rewrite !clamp_in by lra. reflexivity.
  - rewrite Rleb_false by lra.
    assert (Nd : dy - dx * (sn / c) <> 0).
    { replace (dy - dx * (sn / c)) with ((dy * c - dx * sn) / c) by (field; exact Hc). intros E.
      assert (Z : dy * c - dx * sn = 0) by (replace (dy * c - dx * sn) with ((dy * c - dx * sn) / c * c) by (field; exact Hc); rewrite E; ring).
      rewrite Z, Rabs_R0 in Hd. lra. }
    rewrite xdiv_fin by exact Nd. xred.
    rewrite (Tn (vx o * (sn / c) - vy o) (dy - dx * (sn / c)) Nd).
    2:{ assert (E : (vx o + t * dx) * (sn / c) = vy o + t * dy) by (rewrite Px, Py; field; exact Hc). lra. }
    rewrite (Rleb_true a t), (Rleb_true t b) by lra. cbn [andb].
    pose proof t_inside as K. unfold out2 in K. cbn [vx vy] in K. rewrite K.
    assert (0 <= he_radius s * v) by (apply Rmult_le_pos; lra).
    rewrite xsqrt_fin by nra. rewrite sqrt_square by lra. rewrite xdiv_fin by lra. replace (he_radius s * v / he_radius s) with v by (field; lra).
    rewrite !clamp_in by lra. reflexivity.
Qed.
Theorem level_found : forall lo hi (rec : hit_record xr), in_window lo hi t -> l_min L < he_radius s * he_speed s * Rabs (dy * c - dx * sn) ->
  exists rec', helicoid_hit (F:=X) (finhelicoid s) (finray r) lo hi rec = Ok (true, rec') /\ at_point r t rec' /\ h_u rec' = Fin u /\ h_v rec' = Fin v.
Proof.
  intros lo hi rec W D. destruct (level_window lo hi W) as (a & b & Ew & Hab).
  apply (found s r lo hi (Fin a) (Fin b) t u v rec Hok Ew (level_tuv a b Hab) P).
  rewrite tilt_eq. cbn [r_dir vx vy vz]. destruct Hok as [Hr Hs].
  replace (he_radius s * _) with ((he_radius s * he_speed s) * (dy * c - dx * sn)) by ring.
  rewrite Rabs_mult, (Rabs_pos_eq (he_radius s * he_speed s)) by (apply Rmult_le_pos; lra). exact D.
Qed.
End Level.
End Found.
