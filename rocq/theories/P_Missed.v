(** The ranges of u and v searched for a crossing of the helicoid, and a crossing that is missed. *)
From Coq Require Import Reals Lra ZArith List Bool.
From Verif Require Import Num XR FL Spec M_Vec M_Matrix M_Roots M_Rng M_Iter M_Hittable M_Surfaces Spec_Iter Spec_Solver Spec_Scene Spec_Shapes Spec_Surfaces Spec_Matrix
  P_Vec P_Torus P_Rng P_Bisect P_Quadratic P_NewtonND P_Helicoid P_Condition P_Bounded P_Shallow P_Found.
Import ListNotations.
Local Open Scope R_scope.

Section Ranges.
Context {L : limits}.
Notation X := (XR L).
Variables (s : helicoid R) (o d : vec3 R).
Hypothesis Hok : helicoid_ok s.
Notation r := (Ray o d).
Notation inside_solid := (inside_solid s o).
Lemma inside_dec : forall (A : Type) (p q : A), ~ inside_solid ->
  (if (Rltb (vx o * vx o + vy o * vy o) (he_radius s * he_radius s) && Rltb (vz o) (he_speed s / 2) && Rltb (- he_speed s / 2) (vz o))%bool then p else q) = q.
Proof.
  intros A p q N. destruct (Rltb_spec (vx o * vx o + vy o * vy o) (he_radius s * he_radius s)); cbn [andb]; [|reflexivity].
  destruct (Rltb_spec (vz o) (he_speed s / 2)); cbn [andb]; [|reflexivity]. destruct (Rltb_spec (- he_speed s / 2) (vz o)); [|reflexivity].
  exfalso. apply N. split; [nra|lra].
Qed.
Definition uat (t : R) : R := (vz o + t * vz d) / he_speed s + 1 / 2.
Lemma uat_iff : forall t x, x = uat t <-> vz (pointR r t) = he_speed s * (x - 1 / 2).
Proof.
  intros t x. destruct Hok as [Hr Hs]. unfold uat, pointR, lineR, addR, scaleR; cbn [r_orig r_dir vx vy vz]. split; intros E.
  - rewrite E. field; lra.
  - rewrite E. field; lra.
Qed.
Lemma uat_all : forall a b x, a <= b -> (uat a <= x <= uat b \/ uat b <= x <= uat a) -> exists t, a <= t <= b /\ uat t = x.
Proof.
  intros a b x Le H. destruct Hok as [Hr Hs]. destruct (Req_dec (uat a) (uat b)) as [E|N].
  - exists a. split; [lra|]. lra.
  - set (m := (x - uat a) / (uat b - uat a)).
    assert (Em : m * (uat b - uat a) = x - uat a) by (unfold m; field; lra).
    assert (Hm : 0 <= m <= 1) by (split; destruct (Rlt_dec (uat a) (uat b)); nra).
    exists (a + m * (b - a)). split; [nra|]. replace (uat (a + m * (b - a))) with (uat a + m * (uat b - uat a)) by (unfold uat; field; lra). lra.
Qed.
Lemma uat_mono : forall a b t, a <= t <= b -> uat a <= uat t <= uat b \/ uat b <= uat t <= uat a.
Proof.
  intros a b t H. destruct Hok as [Hr Hs].
  assert (E : forall p q, uat q - uat p = (q - p) * (vz d / he_speed s)) by (intros; unfold uat; field; lra).
  pose proof (E a t) as E1. pose proof (E t b) as E2. set (k := vz d / he_speed s) in *.
  destruct (Rle_dec 0 k); [left|right]; nra.
Qed.
Theorem ubounds_exact : forall a b, a <= b -> ~ inside_solid ->
  (helicoid_ubounds (F:=X) (finhelicoid s) (fin3 o) (fin3 d) (Fin a) (Fin b) = (NaN, NaN) /\
     forall t x, a <= t <= b -> vz (pointR r t) = he_speed s * (x - 1 / 2) -> ~ 0 <= x <= 1) \/
  exists p q, helicoid_ubounds (F:=X) (finhelicoid s) (fin3 o) (fin3 d) (Fin a) (Fin b) = (Fin p, Fin q) /\
    forall x, p <= x <= q <-> 0 <= x <= 1 /\ exists t, a <= t <= b /\ vz (pointR r t) = he_speed s * (x - 1 / 2).
Proof.
  intros a b Le N. destruct Hok as [Hr Hs].
  unfold helicoid_ubounds. cbn [finhelicoid he_radius he_speed fin3 map3 vx vy vz]. change (@num X) with xr in *. xred.
  rewrite !xdiv_fin by lra. xred. rewrite inside_dec by exact N. fold (uat a) (uat b).
  assert (K : forall m M, m <= M -> (forall x, m <= x <= M <-> exists t, a <= t <= b /\ uat t = x) ->
    let w := if (xltb (Fin 1) (std_max (F:=X) (Fin 0) (Fin m)) || xltb (std_min (F:=X) (Fin 1) (Fin M)) (Fin 0))%bool then (NaN, NaN) else (std_max (F:=X) (Fin 0) (Fin m), std_min (F:=X) (Fin 1) (Fin M)) in
    (w = (NaN, NaN) /\ forall t x, a <= t <= b -> vz (pointR r t) = he_speed s * (x - 1 / 2) -> ~ 0 <= x <= 1) \/
    exists p q, w = (Fin p, Fin q) /\ forall x, p <= x <= q <-> 0 <= x <= 1 /\ exists t, a <= t <= b /\ vz (pointR r t) = he_speed s * (x - 1 / 2)).
  { intros m M Hm K w.
    assert (Out : (M < 0 \/ 1 < m) -> forall t x, a <= t <= b -> vz (pointR r t) = he_speed s * (x - 1 / 2) -> ~ 0 <= x <= 1).
    { intros Z t x Ht E Hx. apply uat_iff in E. assert (m <= x <= M) by (apply K; exists t; auto). lra. }
    assert (In_ : forall p q, p = Rmax 0 m -> q = Rmin 1 M -> forall x, p <= x <= q <-> 0 <= x <= 1 /\ exists t, a <= t <= b /\ vz (pointR r t) = he_speed s * (x - 1 / 2)).
    { intros p q -> -> x. split.
      - intros Hx. pose proof (Rmax_l 0 m). pose proof (Rmax_r 0 m). pose proof (Rmin_l 1 M). pose proof (Rmin_r 1 M). split; [lra|].
        destruct (proj1 (K x)) as (t & Ht & E); [lra|]. exists t. split; [exact Ht|]. apply uat_iff. auto.
      - intros [Hx (t & Ht & E)]. apply uat_iff in E. assert (m <= x <= M) by (apply K; exists t; auto).
        split; [apply Rmax_lub; lra|apply Rmin_glb; lra]. }
    unfold w, std_max, std_min. cbn [nltb XR xltb].
    destruct (Rltb_spec 0 m), (Rltb_spec M 1); cbn [xltb].
    - destruct (Rltb_spec 1 m); [lra|]. destruct (Rltb_spec M 0); [lra|]. right. exists m, M. split; [reflexivity|]. apply In_; [rewrite Rmax_right; lra|rewrite Rmin_right; lra].
    - destruct (Rltb_spec 1 m); cbn [orb]; [left; split; [reflexivity|apply Out; lra]|]. rewrite (Rltb_false 1 0) by lra. right. exists m, 1. split; [reflexivity|]. apply In_; [rewrite Rmax_right; lra|rewrite Rmin_left; lra].
    - rewrite (Rltb_false 1 0) by lra. cbn [orb]. destruct (Rltb_spec M 0); [left; split; [reflexivity|apply Out; lra]|]. right. exists 0, M. split; [reflexivity|]. apply In_; [rewrite Rmax_left; lra|rewrite Rmin_right; lra].
    - rewrite !(Rltb_false 1 0) by lra. cbn [orb]. right. exists 0, 1. split; [reflexivity|]. apply In_; [rewrite Rmax_left; lra|rewrite Rmin_left; lra]. }
  destruct (Rltb_spec (uat b) (uat a)).
  - apply K; [lra|]. intros x. split; [intros Hx; destruct (uat_all a b x Le) as (t & Ht & E); [lra|exists t; auto]|].
    intros (t & Ht & <-). pose proof (uat_mono a b t Ht). lra.
  - apply K; [lra|]. intros x. split; [intros Hx; destruct (uat_all a b x Le) as (t & Ht & E); [lra|exists t; auto]|].
    intros (t & Ht & <-). pose proof (uat_mono a b t Ht). lra.
Qed.

(** *** v *)
Hypothesis Ha : l_min L < vx d ^ 2 + vy d ^ 2.
Notation tc := (- (vx o * vx d + vy o * vy d) / (vx d * vx d + vy d * vy d)).
Lemma qpos : 0 < vx d * vx d + vy d * vy d.
Proof. pose proof (l_min_pos L). nra. Qed.
Lemma out2_from : forall t, out2 o d t = out2 o d tc + (vx d * vx d + vy d * vy d) * (t - tc) * (t - tc).
Proof.
  intros t. pose proof qpos as A. set (t0 := tc).
  assert (E : t0 * (vx d * vx d + vy d * vy d) = - (vx o * vx d + vy o * vy d)) by (unfold t0; field; lra).
  transitivity (out2 o d t0 + (vx d * vx d + vy d * vy d) * (t - t0) * (t - t0) + 2 * (t - t0) * (t0 * (vx d * vx d + vy d * vy d) + (vx o * vx d + vy o * vy d))); [unfold out2; ring|rewrite E; ring].
Qed.
Lemma out2_le : forall p q, Rabs (p - tc) <= Rabs (q - tc) -> out2 o d p <= out2 o d q.
Proof.
  intros p q H. rewrite (out2_from p), (out2_from q). pose proof qpos as A. apply Rsqr_le_abs_1 in H. unfold Rsqr in H. nra.
Qed.
Lemma out2_max : forall a b t, a <= t <= b -> out2 o d t <= Rmax (out2 o d a) (out2 o d b).
Proof.
  intros a b t H. destruct (Rle_dec (Rabs (t - tc)) (Rabs (a - tc))) as [K|K].
  - eapply Rle_trans; [apply out2_le; exact K|apply Rmax_l].
  - eapply Rle_trans; [apply (out2_le t b)|apply Rmax_r]. unfold Rabs in *. destruct (Rcase_abs (t - tc)), (Rcase_abs (a - tc)), (Rcase_abs (b - tc)); lra.
Qed.
Lemma out2_min : forall a b t, a <= t <= b -> tc < a \/ b < tc -> Rmin (out2 o d a) (out2 o d b) <= out2 o d t.
Proof.
  intros a b t H [K|K].
  - eapply Rle_trans; [apply Rmin_l|]. apply out2_le. rewrite !Rabs_pos_eq; lra.
  - eapply Rle_trans; [apply Rmin_r|]. apply out2_le. rewrite !Rabs_left1; lra.
Qed.
Notation vat := (vat s o d).
Lemma vat_sq : forall t, 0 <= vat t /\ out2 o d t = (he_radius s * vat t) * (he_radius s * vat t).
Proof.
  intros t. split; [apply vat_pos; exact Hok|]. destruct Hok as [Hr Hs]. unfold P_Shallow.vat.
  replace (he_radius s * (sqrt (out2 o d t) / he_radius s)) with (sqrt (out2 o d t)) by (field; lra). rewrite sqrt_sqrt; [reflexivity|apply out2_pos].
Qed.
Lemma vat_max : forall a b t, a <= t <= b -> vat t <= Rmax (vat a) (vat b).
Proof.
  intros a b t H. pose proof (out2_max a b t H) as K. unfold Rmax in K. destruct (Rle_dec (out2 o d a) (out2 o d b)).
  - eapply Rle_trans; [apply (vat_le s o d Hok t b K)|apply Rmax_r].
  - eapply Rle_trans; [apply (vat_le s o d Hok t a K)|apply Rmax_l].
Qed.
Lemma vat_min : forall a b t, a <= t <= b -> tc < a \/ b < tc -> Rmin (vat a) (vat b) <= vat t.
Proof.
  intros a b t H T. pose proof (out2_min a b t H T) as K. unfold Rmin in K. destruct (Rle_dec (out2 o d a) (out2 o d b)).
  - eapply Rle_trans; [apply Rmin_l|apply (vat_le s o d Hok a t K)].
  - eapply Rle_trans; [apply Rmin_r|apply (vat_le s o d Hok b t K)].
Qed.
Lemma vbounds_eq : forall a b, ~ inside_solid -> helicoid_vbounds (F:=X) (finhelicoid s) (fin3 o) (fin3 d) (Fin a) (Fin b) =
  if ((Rltb tc a || Rltb b tc) && Rltb 1 (Rmin (vat a) (vat b)))%bool then (NaN, NaN) else (Fin (vat tc), Fin (Rmin (vat a) (vat b))).
Proof.
  intros a b N. destruct Hok as [Hr Hs]. pose proof qpos as A.
  unfold helicoid_vbounds. cbn [finhelicoid he_radius he_speed fin3 map3 vx vy vz].
  change (@num X) with xr in *. xred. rewrite !xdiv_fin by lra. xred.
  assert (Va : forall t, xdiv (xsqrt (Fin ((vx o + t * vx d) * (vx o + t * vx d) + (vy o + t * vy d) * (vy o + t * vy d)))) (Fin (he_radius s)) = Fin (vat t)).
  { intros t. rewrite xsqrt_fin by (apply out2_pos). rewrite xdiv_fin by lra. reflexivity. }
  rewrite !Va. rewrite inside_dec by exact N.
  pose proof (vat_pos s o d Hok a) as Pa. pose proof (vat_pos s o d Hok b) as Pb. set (t0 := tc).
  assert (E : (if (Rltb t0 a || Rltb b t0)%bool then
      let '(vmin, vmax) := if xltb (Fin (vat b)) (Fin (vat a)) then (Fin (vat b), Fin (vat a)) else (Fin (vat a), Fin (vat b)) in
      (xltb (Fin 1) (if xltb vmin (Fin 0) then Fin 0 else vmin) || xltb (if xltb (Fin 1) vmax then Fin 1 else vmax) (Fin 0))%bool
    else false) = ((Rltb t0 a || Rltb b t0) && Rltb 1 (Rmin (vat a) (vat b)))%bool).
  { destruct (Rltb t0 a || Rltb b t0)%bool; cbn [andb]; [|reflexivity]. cbn [xltb].
    destruct (Rltb_spec (vat b) (vat a)); cbn [xltb].
    - rewrite (Rltb_false (vat b) 0) by lra. rewrite Rmin_right by lra. cbn [xltb].
      destruct (Rltb_spec 1 (vat a)); cbn [xltb]; [rewrite (Rltb_false 1 0) by lra|rewrite (Rltb_false (vat a) 0) by lra]; rewrite orb_false_r; reflexivity.
    - rewrite (Rltb_false (vat a) 0) by lra. rewrite Rmin_left by lra. cbn [xltb].
      destruct (Rltb_spec 1 (vat b)); cbn [xltb]; [rewrite (Rltb_false 1 0) by lra|rewrite (Rltb_false (vat b) 0) by lra]; rewrite orb_false_r; reflexivity. }
  rewrite E. cbn [xltb]. destruct ((Rltb t0 a || Rltb b t0) && Rltb 1 (Rmin (vat a) (vat b)))%bool; [reflexivity|].
  destruct (Rltb_spec (vat a) (vat b)); [rewrite Rmin_left by lra|rewrite Rmin_right by lra]; reflexivity.
Qed.
Lemma vat_hits_one : forall a b, a <= b -> vat a < 1 < vat b \/ vat b < 1 < vat a -> exists t, a <= t <= b /\ vat t = 1.
Proof.
  intros a b Le H. destruct Hok as [Hr Hs].
  assert (Q : forall t, out2 o d t - he_radius s * he_radius s = (he_radius s * he_radius s) * ((vat t - 1) * (vat t + 1))) by (intros t; destruct (vat_sq t) as [_ E]; rewrite E; ring).
  destruct (IVT_cor (fun t => out2 o d t - he_radius s * he_radius s) a b) as (t & Ht & E).
  - unfold out2. reg.
  - exact Le.
  - rewrite !Q. destruct (vat_sq a) as [Pa _], (vat_sq b) as [Pb _].
    assert (Z : (vat a - 1) * (vat b - 1) <= 0) by nra. assert (Y : 0 <= (vat a + 1) * (vat b + 1)) by (apply Rmult_le_pos; lra).
    assert (R2 : 0 <= he_radius s * he_radius s * (he_radius s * he_radius s)) by (apply Rmult_le_pos; nra).
    replace (he_radius s * he_radius s * ((vat a - 1) * (vat a + 1)) * (he_radius s * he_radius s * ((vat b - 1) * (vat b + 1))))
      with ((he_radius s * he_radius s * (he_radius s * he_radius s)) * (((vat a + 1) * (vat b + 1)) * ((vat a - 1) * (vat b - 1)))) by ring.
    set (W := (vat a - 1) * (vat b - 1)) in *. set (Y0 := (vat a + 1) * (vat b + 1)) in *. set (R4 := he_radius s * he_radius s * (he_radius s * he_radius s)) in *.
    assert (0 <= R4 * (Y0 * - W)) by (apply Rmult_le_pos; [lra|apply Rmult_le_pos; lra]). lra.
  - exists t. split; [exact Ht|]. rewrite Q in E. destruct (vat_sq t) as [Pt _].
    apply Rmult_integral in E. destruct E as [E|E]; [nra|]. apply Rmult_integral in E. lra.
Qed.
Theorem vbounds_iff : forall a b, a <= b -> ~ inside_solid ->
  (forall t, a <= t <= b -> vat t <= 1 -> exists p q, helicoid_vbounds (F:=X) (finhelicoid s) (fin3 o) (fin3 d) (Fin a) (Fin b) = (Fin p, Fin q) /\ p <= vat t <= q)
  <-> Rmin 1 (vat a) = Rmin 1 (vat b).
Proof.
  intros a b Le N. rewrite (vbounds_eq a b N). split.
  - intros H. destruct (Req_dec (Rmin 1 (vat a)) (Rmin 1 (vat b))) as [E|E]; [exact E|exfalso].
    assert (M1 : Rmin (vat a) (vat b) < 1) by (unfold Rmin in *; destruct (Rle_dec 1 (vat a)), (Rle_dec 1 (vat b)), (Rle_dec (vat a) (vat b)); lra).
    rewrite (Rltb_false 1 (Rmin _ _)) in H by lra. rewrite andb_false_r in H.
    assert (K : exists t, a <= t <= b /\ vat t <= 1 /\ Rmin (vat a) (vat b) < vat t).
    { destruct (Rle_lt_dec (vat a) 1) as [Ka|Ka], (Rle_lt_dec (vat b) 1) as [Kb|Kb].
      - destruct (Rlt_le_dec (vat a) (vat b)); [exists b; rewrite Rmin_left by lra; lra|].
        exists a. split; [lra|]. split; [exact Ka|]. rewrite Rmin_right by lra. destruct (Req_dec (vat a) (vat b)) as [Z|Z]; [rewrite Z in E; congruence|lra].
      - rewrite Rmin_left in M1 by lra. destruct (vat_hits_one a b Le ltac:(lra)) as (t & Ht & Et). exists t. split; [exact Ht|]. rewrite Et. split; [lra|]. rewrite Rmin_left by lra. exact M1.
      - rewrite Rmin_right in M1 by lra. destruct (vat_hits_one a b Le ltac:(lra)) as (t & Ht & Et). exists t. split; [exact Ht|]. rewrite Et. split; [lra|]. rewrite Rmin_right by lra. exact M1.
      - exfalso. unfold Rmin in M1. destruct (Rle_dec (vat a) (vat b)); lra. }
    destruct K as (t & Ht & Lt & Gt). destruct (H t Ht Lt) as (p & q & E1 & E2). injection E1 as <- <-. lra.
  - intros E t Ht Lt. destruct ((Rltb tc a || Rltb b tc) && Rltb 1 (Rmin (vat a) (vat b)))%bool eqn:B.
    + exfalso. apply andb_prop in B. destruct B as [B1 B2]. apply Rltb_iff in B2.
      assert (T : tc < a \/ b < tc) by (apply orb_prop in B1; destruct B1 as [B1|B1]; apply Rltb_iff in B1; lra).
      pose proof (vat_min a b t Ht T). lra.
    + do 2 eexists. split; [reflexivity|]. split; [apply (vat_le s o d Hok); apply out2_le; unfold Rminus at 1; rewrite Rplus_opp_r, Rabs_R0; apply Rabs_pos|].
      pose proof (vat_max a b t Ht) as M. unfold Rmin, Rmax in *. destruct (Rle_dec 1 (vat a)), (Rle_dec 1 (vat b)), (Rle_dec (vat a) (vat b)); lra.
Qed.
Lemma vat_axis : forall t, vat t = axis_ratio s (pointR r t).
Proof. intros t. unfold P_Shallow.vat, axis_ratio, out2. cbn [pointR lineR addR scaleR r_orig r_dir vx vy]. do 2 f_equal. unfold pointR, lineR, addR, scaleR; cbn [r_orig r_dir vx vy vz]. ring. Qed.
Theorem vbounds_spec : forall a b, a <= b -> ~ inside_solid ->
  (forall t, a <= t <= b -> axis_ratio s (pointR r t) <= 1 ->
     exists p q, helicoid_vbounds (F:=X) (finhelicoid s) (fin3 o) (fin3 d) (Fin a) (Fin b) = (Fin p, Fin q) /\ p <= axis_ratio s (pointR r t) <= q)
  <-> Rmin 1 (axis_ratio s (pointR r a)) = Rmin 1 (axis_ratio s (pointR r b)).
Proof.
  intros a b Le N. rewrite <- !vat_axis. rewrite <- (vbounds_iff a b Le N).
  split; intros H t Ht; [rewrite vat_axis|rewrite <- vat_axis]; [|apply H; exact Ht]. specialize (H t Ht). rewrite <- vat_axis in H. rewrite <- vat_axis. exact H.
Qed.
End Ranges.
Lemma axis_sigma : forall s u v, helicoid_ok s -> 0 <= v -> axis_ratio s (helicoid_sigma s u v) = v.
Proof.
  intros s u v [Hr Hs] Hv. unfold axis_ratio, helicoid_sigma; cbn [vx vy]. pose proof (sin2_cos2 (2 * PI * u)) as Q. unfold Rsqr in Q.
  replace ((he_radius s * v * cos (2 * PI * u)) ^ 2 + (he_radius s * v * sin (2 * PI * u)) ^ 2)
    with ((he_radius s * v) * (he_radius s * v) * (sin (2 * PI * u) * sin (2 * PI * u) + cos (2 * PI * u) * cos (2 * PI * u))) by ring.
  rewrite Q, Rmult_1_r. rewrite sqrt_square by (apply Rmult_le_pos; lra). field. lra.
Qed.

(** ** A crossing that is missed *)
Lemma sin_ge : forall x, 0 <= x <= PI / 2 -> x * cos x <= sin x.
Proof.
  intros x [H0 H1]. destruct (Req_dec x 0) as [->|N]; [rewrite sin_0; lra|].
  destruct (MVT_cor2 sin cos 0 x ltac:(lra)) as (c & E & Hc); [intros; apply derivable_pt_lim_sin|].
  rewrite sin_0 in E. assert (cos x <= cos c) by (apply cos_decr_1; lra). nra.
Qed.
Lemma cos_ge : forall x, 0 <= x <= PI -> 1 - x * x / 2 <= cos x.
Proof.
  intros x [H0 H1]. replace x with (2 * (x / 2)) at 3 by field. rewrite cos_2a_sin.
  assert (S0 : 0 <= sin (x / 2)) by (apply sin_ge_0; lra).
  assert (S1 : sin (x / 2) <= x / 2) by (destruct (Req_dec x 0) as [->|N]; [replace (0 / 2) with 0 by field; rewrite sin_0; lra|apply Rlt_le, sin_lt_x; lra]). nra.
Qed.
Lemma abs_le_inv : forall x y, Rabs x <= y -> - y <= x <= y.
Proof. intros x y H. unfold Rabs in H. destruct (Rcase_abs x); lra. Qed.
Lemma small_prod : forall e x y, - e <= x <= e -> -1 <= y <= 1 -> x * y <= e.
Proof. intros e x y H1 H2. assert (Rabs (x * y) <= e * 1) by (rewrite Rabs_mult; apply Rmult_le_compat; try apply Rabs_pos; apply Rabs_le; lra). pose proof (Rle_abs (x * y)). lra. Qed.
Lemma sc2 : forall x, sin x * sin x + cos x * cos x = 1.
Proof. intros x. pose proof (sin2_cos2 x) as E. unfold Rsqr in E. exact E. Qed.
Definition round_helicoid : helicoid R := Helicoid 1 (2 * PI).
(* from above the top of the solid cylinder, down and sideways *)
Definition steep_ray : ray R := Ray (V3 (3 / 5) (1 / 10) (PI + 19 / 2000)) (V3 0 (-1) (- (19 / 20))).
Lemma round_ok : helicoid_ok round_helicoid.
Proof. pose proof PI_RGT_0. unfold helicoid_ok; cbn; lra. Qed.

(** the angle of the ruling at the height of the ray, from the top: f t = 19/20 (t - 1/100) *)
Lemma steep_crosses : exists t u v, 0 <= t <= 9 / 10 /\ 0 <= u <= 1 /\ 0 <= v <= 1 /\ pointR steep_ray t = helicoid_sigma round_helicoid u v /\ 37 / 100 < v * v.
Proof.
  pose proof PI_RGT_0 as Pp. pose proof PI_4 as P4. pose proof PI2_3_2 as P3.
  set (g := fun t => 3 / 5 * sin (19 / 20 * (t - 1 / 100)) + (1 / 10 - t) * cos (19 / 20 * (t - 1 / 100))).
  set (t2 := 1 / 100 + PI / 6 / (19 / 20)).
  assert (B2 : 53 / 100 <= t2 <= 3 / 4) by (unfold t2; split; lra).
  assert (G1 : 0 < g (1 / 5)).
  { unfold g. set (f := 19 / 20 * (1 / 5 - 1 / 100)). assert (Ef : f = 361 / 2000) by (unfold f; field).
    pose proof (sin_ge f ltac:(lra)) as Sg. assert (C : 0 < cos f) by (apply cos_gt_0; lra). nra. }
  destruct (IVT_cor g (1 / 5) t2) as (t & Ht & E).
  - unfold g. reg.
  - lra.
  - assert (G2 : g t2 <= 0).
    { unfold g. replace (19 / 20 * (t2 - 1 / 100)) with (PI / 6) by (unfold t2; field). rewrite sin_PI6, cos_PI6.
      assert (S3 : 17 / 10 <= sqrt 3) by (apply Rsqr_incr_0_var; [unfold Rsqr; rewrite sqrt_sqrt; lra|apply sqrt_pos]). nra. }
    nra.
  - assert (T5 : 1 / 5 < t) by (destruct (Req_dec t (1 / 5)) as [Z|Z]; [rewrite Z in E; lra|lra]).
    set (f := 19 / 20 * (t - 1 / 100)) in *. unfold g in E. fold f in E.
    assert (Hf : 0 <= f <= PI / 2) by (unfold f; lra).
    assert (C : 0 < cos f) by (apply cos_gt_0; [|unfold f]; lra).
    exists t, (1 - f / (2 * PI)), (3 / 5 / cos f).
    assert (Ey : 1 / 10 - t = - (3 / 5 / cos f * sin f)) by (apply Rmult_eq_reg_r with (cos f); [|lra]; replace (- (3 / 5 / cos f * sin f) * cos f) with (- (3 / 5 * sin f)) by (field; lra); lra).
    assert (V0 : 0 < 3 / 5 / cos f) by (apply Rdiv_lt_0_compat; lra).
    assert (V1 : (3 / 5 / cos f) * (3 / 5 / cos f) = 9 / 25 + (1 / 10 - t) * (1 / 10 - t)).
    { rewrite Ey. pose proof (sc2 f) as Q. replace (- (3 / 5 / cos f * sin f) * - (3 / 5 / cos f * sin f)) with ((3 / 5 / cos f) * (3 / 5 / cos f) * (sin f * sin f)) by ring.
      replace (sin f * sin f) with (1 - cos f * cos f) by lra. field. lra. }
    assert (Fu : 0 <= f / (2 * PI) <= 1) by (split; [apply Rmult_le_pos; [lra|apply Rlt_le, Rinv_0_lt_compat; lra]|apply Rmult_le_reg_r with (2 * PI); [lra|]; unfold Rdiv; rewrite Rmult_assoc, Rinv_l; lra]).
    split; [lra|]. split; [lra|]. split; [nra|]. split; [|nra].
    assert (Ag : 2 * PI * (1 - f / (2 * PI)) = - f + 2 * PI) by (field; lra).
    unfold pointR, lineR, addR, scaleR, helicoid_sigma, steep_ray, round_helicoid; cbn [r_orig r_dir vx vy vz he_radius he_speed]. rewrite Ag.
    rewrite cos_plus, sin_plus, cos_2PI, sin_2PI, cos_neg, sin_neg. apply V3_ext; [field; lra|lra|].
    unfold f. field. lra.
Qed.

Section Missed.
Context {L : limits}.
Notation X := (XR L).
Hypothesis Heps : l_eps L <= / 1000000.
Hypothesis Hmin : l_min L < / 10.
Notation s := round_helicoid.
Notation o := (r_orig steep_ray).
Notation d := (r_dir steep_ray).
Lemma steep_general : forall lo hi t u v a b, lo <= hi -> out2 o d lo <= 1 -> out2 o d hi <= 1 -> 0 <= a <= b -> b <= 1 ->
  helicoid_vbounds (F:=X) (finhelicoid s) (fin3 o) (fin3 d) (Fin lo) (Fin hi) = (Fin a, Fin b) ->
  helicoid_general (F:=X) (finhelicoid s) (fin3 o) (fin3 d) (Fin lo) (Fin hi) = Ok (Fin t, Fin u, Fin v) -> lo <= t <= hi /\ v <= b.
Proof.
  intros lo hi t u v a b Le H0 H1 Hab Hb E H. pose proof (l_eps_pos L) as Ep. pose proof PI_RGT_0 as Pp. unfold helicoid_general in H.
  change (@num X) with xr in *; rewrite E in H; unfold make_bounds in H.
  match type of H with obind ?e _ = _ => destruct e as [[[r g] c]| |] eqn:N end; cbn [obind fst] in H; try discriminate.
  match type of N with newton_nd _ _ [_; ?x] _ = _ => replace x with (Fin (b * (1 - 1000 * l_eps L))) in N by reflexivity end.
  assert (S1 : 0 <= b * (1 - 1000 * l_eps L) <= b) by (split; [apply Rmult_le_pos; lra|nra]).
  eapply (newton_keeps (helicoid_system (F:=X) (finhelicoid s) (fin3 o) (fin3 d)) (sys_V s o d) (sys_J s o d) (Fin lo, Fin hi) (Fin a, Fin b)) in N;
    [|exact (sys_fin s o d round_ok)|apply helicoid_plane|exact (sys_nan s o d round_ok)|exists lo, hi; auto|exists a, b; split; [reflexivity|lra]|].
  - destruct N as [A|(x0 & x1 & -> & [B0 B1] & [C0 C1])].
    + exfalso. destruct r as [|x r]; [discriminate H|]. inversion A; subst. discriminate H.
    + cbn [nth] in H. apply Ok_inj in H. injection H as <- _ Ev. cbn in B0, B1, C0, C1. split; [lra|].
      unfold std_clamp in Ev. cbn [nltb nofZ XR xltb] in Ev. destruct (Rltb_spec x1 0); [injection Ev as <-; lra|].
      destruct (Rltb_spec 1 x1); injection Ev as <-; lra.
  - intros x0 x1 _ [C0 C1] p q r1 t1 E1. injection E1 as _ _ <- _. right. apply (pivot s o d round_ok); [|cbn in C0, C1; lra].
    cbn [steep_ray r_orig r_dir vx vy vz round_helicoid he_radius he_speed]. rewrite !Rabs_left by lra.
    replace (2 * PI * 1 * - - (19 / 20) / (2 * PI)) with (19 / 20) by (field; lra). nra.
Qed.
Lemma steep_out2 : forall t, out2 o d t = 9 / 25 + (1 / 10 - t) * (1 / 10 - t).
Proof. intros t. unfold out2, steep_ray; cbn [r_orig r_dir vx vy]. field. Qed.
Lemma steep_vbounds : exists a b, helicoid_vbounds (F:=X) (finhelicoid s) (fin3 o) (fin3 d) (Fin 0) (Fin (9 / 10)) = (Fin a, Fin b) /\ 0 <= a <= b /\ b <= 1 /\ b * b <= 37 / 100.
Proof.
  pose proof (l_min_pos L) as Lm. pose proof PI_RGT_0 as Pp.
  assert (Ha : l_min L < vx d ^ 2 + vy d ^ 2) by (cbn; lra).
  assert (N : ~ inside_solid s o) by (intros [_ K]; cbn in K; lra).
  rewrite (vbounds_eq (L:=L) s o d round_ok Ha 0 (9 / 10) N).
  set (t0 := - _ / _). assert (E0 : t0 = 1 / 10) by (unfold t0; cbn; field). rewrite E0.
  rewrite (Rltb_false (1 / 10) 0), (Rltb_false (9 / 10) (1 / 10)) by lra. cbn [orb andb].
  assert (V : forall t, vat s o d t = sqrt (9 / 25 + (1 / 10 - t) * (1 / 10 - t))) by (intros; unfold vat; rewrite steep_out2; cbn; field).
  exists (vat s o d (1 / 10)), (Rmin (vat s o d 0) (vat s o d (9 / 10))). split; [reflexivity|].
  assert (A0 : vat s o d (1 / 10) <= vat s o d 0) by (apply vat_le; [exact round_ok|rewrite !steep_out2; lra]).
  assert (A1 : vat s o d 0 <= vat s o d (9 / 10)) by (apply vat_le; [exact round_ok|rewrite !steep_out2; lra]).
  rewrite Rmin_left by exact A1. pose proof (vat_pos s o d round_ok (1 / 10)).
  split; [lra|]. assert (Q : vat s o d 0 * vat s o d 0 = 37 / 100) by (rewrite V, sqrt_sqrt by nra; field). split; [nra|lra].
Qed.
Lemma steep_window : helicoid_window (F:=X) (finhelicoid s) (finray steep_ray) (Fin 0) PInf = Some (Fin 0, Fin (9 / 10)).
Proof.
  pose proof (l_min_pos L) as Lm. pose proof PI_RGT_0 as Pp.
  unfold helicoid_window, steep_ray, round_helicoid. cbn [finray fin3 map3 r_orig r_dir vx vy vz finhelicoid he_radius he_speed]. xred.
  rewrite Rltb_true by lra.
  match goal with |- context [quadratic_roots (Fin ?a) (Fin ?b) (Fin ?c)] => replace a with 1 by ring; replace b with (- (1 / 5)) by field; replace c with (- (63 / 100)) by field end.
  destruct (quadratic_roots_correct L 1 (- (1 / 5)) (- (63 / 100))) as [[_ Q]|(x0 & x1 & Q & Le & Fa & _)].
  - right. rewrite Rabs_R1. lra.
  - right. rewrite Rabs_left; lra.
  - lra.
  - exfalso. apply (Q (9 / 10)). unfold quadR. field.
  - specialize (Fa ltac:(lra)). pose proof (Fa (9 / 10)) as F1. pose proof (Fa (- (7 / 10))) as F2. unfold quadR in F1, F2.
    replace (1 * (9 / 10) ^ 2 + - (1 / 5) * (9 / 10) + - (63 / 100)) with 0 in F1 by field.
    replace (1 * (- (7 / 10)) ^ 2 + - (1 / 5) * - (7 / 10) + - (63 / 100)) with 0 in F2 by field.
    assert (X1 : x1 = 9 / 10 /\ x0 = - (7 / 10)).
    { symmetry in F1, F2. rewrite Rmult_1_l in F1, F2. apply Rmult_integral in F1. apply Rmult_integral in F2. lra. }
    destruct X1 as [-> ->]. change (@num X) with xr in *. rewrite Q. cbn [nltb XR xltb]. rewrite (Rltb_false (9 / 10) 0) by lra.
    unfold std_max at 1 3 4, std_min at 1 3 4. cbn [nltb XR xltb]. rewrite (Rltb_false 0 (- (7 / 10))) by lra.
    unfold ray_at, vadd, vscale; cbn [finray fin3 map3 r_orig r_dir vx vy vz]. xred. unfold std_max, std_min. cbn [nltb XR xltb]. rewrite !xdiv_fin by lra. cbn [xltb xadd xmul].
    repeat match goal with |- context [Rltb ?a ?b] => first [rewrite (Rltb_true a b) by lra|rewrite (Rltb_false a b) by lra]; cbn [xltb xadd xmul orb] end. reflexivity.
Qed.
Theorem steep_missed : forall (rec rec' : hit_record xr), helicoid_hit (F:=X) (finhelicoid s) (finray steep_ray) (Fin 0) PInf rec <> Ok (true, rec').
Proof.
  intros rec rec' H. pose proof (l_min_pos L) as Lm. pose proof (l_eps_pos L) as Ep. pose proof PI_RGT_0 as Pp. pose proof PI_4 as P4. pose proof PI2_3_2 as P3.
  assert (Hd : direction_ok (l_min L) d) by (left; cbn; lra).
  destruct (helicoid_on_surface s steep_ray (Fin 0) PInf rec rec' round_ok Hd H) as [(t & u & v & [Et _] & Eu & Ev & Hu & Hv & Ag) _].
  destruct (hit_outcome s steep_ray (Fin 0) PInf rec round_ok Hd) as [(r0 & K)|(lo' & hi' & t' & u' & v' & W & T & K1 & K2)]; [rewrite H in K; discriminate|].
  cbv zeta in K1, K2.
  destruct (Rle_lt_dec (Rabs (dotR (crossR (helicoid_su s u' v') (helicoid_sv s u' v')) d)) (l_min L)) as [D|D]; [rewrite (K1 D) in H; discriminate|].
  destruct (K2 D) as (b0 & r0 & M & big & K & Et' & Eu' & Ev' & _). rewrite H in K. clear K1 K2 D. assert (Er : rec' = r0) by congruence. subst r0. clear K.
  assert (t' = t /\ u' = u /\ v' = v) as (-> & -> & ->) by (pose proof (eq_trans (eq_sym Et') Et) as Z1; pose proof (eq_trans (eq_sym Eu') Eu) as Z2; pose proof (eq_trans (eq_sym Ev') Ev) as Z3; injection Z1; injection Z2; injection Z3; auto).
  rewrite steep_window in W. injection W as <- <-.
  unfold helicoid_tuv in T. cbn [fin3 map3 vx vy vz nabs nleb nmul nadd nmin XR xabs xleb xmul xadd] in T.
  rewrite (Rleb_false (Rabs _)) in T by (cbn [steep_ray r_dir vz]; rewrite Rabs_left by lra; lra). rewrite Rleb_false in T by (cbn [steep_ray r_dir vx vy]; lra).
  destruct steep_vbounds as (a & b & Eb & Hab & Hb & Bb).
  destruct (steep_general 0 (9 / 10) t u v a b) as [Ht Hvb]; try assumption; [lra|rewrite steep_out2; lra|rewrite steep_out2; lra|].
  clear T H Eb.
  set (tau := 10 * (l_eps L * helicoid_scale s d t u v)) in *.
  assert (Ht1 : tau <= / 9000).
  { assert (Sc : helicoid_scale s d t u v <= 10).
    { unfold helicoid_scale. cbn [round_helicoid he_radius he_speed steep_ray r_dir vx vy vz].
      pose proof (COS_bound (2 * PI * u)) as [C0 C1]. pose proof (SIN_bound (2 * PI * u)) as [S0 S1].
      set (c := cos (2 * PI * u)) in *. set (sn := sin (2 * PI * u)) in *.
      assert (Pr : forall x, Rabs x <= 1 -> Rabs (2 * PI * 1 * v * x * u) <= 8 /\ Rabs (1 * x * v) <= 1).
      { intros x Hx. assert (V1 : Rabs v <= 1) by (apply Rabs_le; lra). assert (U1 : Rabs u <= 1) by (apply Rabs_le; lra).
        pose proof (Rabs_pos x). pose proof (Rabs_pos v). pose proof (Rabs_pos u). split.
        - replace (2 * PI * 1 * v * x * u) with (2 * PI * (v * x * u)) by ring. rewrite Rabs_mult, (Rabs_pos_eq (2 * PI)) by lra. rewrite !Rabs_mult.
          assert (Rabs v * Rabs x <= 1) by nra. assert (0 <= Rabs v * Rabs x) by nra. assert (Rabs v * Rabs x * Rabs u <= 1) by nra. nra.
        - rewrite !Rabs_mult, Rabs_R1. nra. }
      destruct (Pr c) as [Q1 Q2]; [apply Rabs_le; lra|]. destruct (Pr sn) as [Q3 Q4]; [apply Rabs_le; lra|].
      apply Rmax_lub; [apply Rmax_lub|].
      - rewrite Rmult_0_r, Rabs_R0. lra.
      - rewrite (Rabs_left1 (t * -1)) by lra. lra.
      - rewrite (Rabs_left1 (t * - (19 / 20))) by lra. rewrite Rabs_pos_eq by (apply Rmult_le_pos; lra). nra. }
    unfold tau. assert (l_eps L * helicoid_scale s d t u v <= / 1000000 * 10) by (apply Rmult_le_compat; try lra; unfold helicoid_scale;
      eapply Rle_trans; [|apply Rmax_r]; apply Rplus_le_le_0_compat; apply Rabs_pos). lra. }
  destruct Ag as (A1 & A2 & A3). unfold pointR, lineR, addR, scaleR, helicoid_sigma, steep_ray, round_helicoid in A1, A2, A3. cbn [r_orig r_dir vx vy vz he_radius he_speed] in A1, A2, A3.
  set (f := 2 * PI - 2 * PI * u). assert (Hf0 : 0 <= f) by (unfold f; nra).
  assert (Au : 2 * PI * u = - f + 2 * PI) by (unfold f; ring).
  rewrite Au in A1, A2. rewrite cos_plus, cos_2PI, sin_2PI, cos_neg in A1. rewrite sin_plus, cos_2PI, sin_2PI, sin_neg in A2.
  assert (B1 : Rabs (3 / 5 - v * cos f) <= tau) by (match type of A1 with Rabs ?x <= _ => replace x with (3 / 5 - v * cos f) in A1 by ring end; exact A1).
  assert (B2 : Rabs (1 / 10 - t + v * sin f) <= tau) by (match type of A2 with Rabs ?x <= _ => replace x with (1 / 10 - t + v * sin f) in A2 by ring end; exact A2).
  assert (B3 : Rabs (f - 19 / 20 * (t - 1 / 100)) <= tau) by (match type of A3 with Rabs ?x <= _ => replace x with (f - 19 / 20 * (t - 1 / 100)) in A3 by (unfold f; field) end; exact A3).
  clear A1 A2 A3. apply abs_le_inv in B1. apply abs_le_inv in B2. apply abs_le_inv in B3.
  set (y := 1 / 10 - t) in *. pose proof (sc2 f) as Q. pose proof (COS_bound f) as [C0 C1]. pose proof (SIN_bound f) as [S0 S1].
  set (c := cos f) in *. set (sn := sin f) in *. set (p := 3 / 5 - v * c) in *. set (q := y + v * sn) in *.
  assert (Yy : y * y <= 107 / 10000).
  { assert (E : 9 / 25 + y * y = v * v + 2 * v * (p * c - q * sn) + p * p + q * q).
    { replace (3 / 5) with (p + v * c) in * by (unfold p; ring). replace (9 / 25) with ((p + v * c) * (p + v * c)) by (unfold p; field).
      replace y with (q - v * sn) by (unfold q; ring).
      transitivity (v * v * (sn * sn + c * c) + 2 * v * (p * c - q * sn) + p * p + q * q); [ring|rewrite Q; ring]. }
    assert (p * c <= tau) by (apply small_prod; lra). assert (q * - sn <= tau) by (apply small_prod; lra). assert (p * p <= tau) by (apply small_prod; lra). assert (q * q <= tau) by (apply small_prod; lra).
    assert (p * c - q * sn <= 2 * tau) by lra. assert (v * (p * c - q * sn) <= 2 * tau) by (destruct (Rle_lt_dec 0 (p * c - q * sn)); [apply Rle_trans with (1 * (p * c - q * sn)); [apply Rmult_le_compat_r; lra|lra]|apply Rle_trans with 0; [pose proof (Rmult_le_pos v (- (p * c - q * sn))); lra|lra]]).
    assert (v * v <= b * b) by (apply Rmult_le_compat; lra). lra. }
  assert (Ty : - (104 / 1000) <= y) by nra.
  assert (Tt : t <= 204 / 1000) by (unfold y in Ty; lra).
  assert (Hf1 : f <= 1 / 5) by lra.
  pose proof (cos_ge f ltac:(lra)) as Cg. fold c in Cg. pose proof (sin_ge f ltac:(lra)) as Sg. fold c sn in Sg.
  assert (Cl : 9 / 10 <= c) by nra.
  assert (Lin : 6 / 1000 <= 3 / 5 * f + y) by (unfold y; lra).
  assert (Sum : 3 / 5 * sn + y * c = p * sn + q * c) by (unfold p, q; ring).
  assert (3 / 5 * sn + y * c >= c * (3 / 5 * f + y)) by nra.
  assert (p * sn <= tau) by (apply small_prod; lra). assert (q * c <= tau) by (apply small_prod; lra). nra.
Qed.
Theorem slanted_missed : exists (s : helicoid R) (r : ray R) t u v, helicoid_ok s /\ direction_ok (l_min L) (r_dir r) /\ 0 <= t /\ 0 <= u <= 1 /\ 0 <= v <= 1 /\
  pointR r t = helicoid_sigma s u v /\
  forall (rec rec' : hit_record xr), helicoid_hit (F:=X) (finhelicoid s) (finray r) (Fin 0) PInf rec <> Ok (true, rec').
Proof.
  destruct steep_crosses as (t & u & v & Ht & Hu & Hv & P & _). exists s, steep_ray, t, u, v. split; [exact round_ok|].
  split; [left; cbn; lra|]. split; [lra|]. split; [exact Hu|]. split; [exact Hv|]. split; [exact P|exact steep_missed].
Qed.
Theorem vbounds_missed : exists (s : helicoid R) (r : ray R) a b t u v p q, helicoid_ok s /\
  helicoid_window (F:=X) (finhelicoid s) (finray r) (Fin 0) PInf = Some (Fin a, Fin b) /\ a <= t <= b /\ 0 <= u <= 1 /\ 0 <= v <= 1 /\
  pointR r t = helicoid_sigma s u v /\
  helicoid_vbounds (F:=X) (finhelicoid s) (fin3 (r_orig r)) (fin3 (r_dir r)) (Fin a) (Fin b) = (Fin p, Fin q) /\ q < v.
Proof.
  destruct steep_crosses as (t & u & v & Ht & Hu & Hv & P & V). destruct steep_vbounds as (a & b & Eb & Hab & Hb & Bb).
  exists s, steep_ray, 0, (9 / 10), t, u, v, a, b. split; [exact round_ok|]. split; [exact steep_window|].
  split; [lra|]. split; [exact Hu|]. split; [exact Hv|]. split; [exact P|]. split; [exact Eb|nra].
Qed.
End Missed.
