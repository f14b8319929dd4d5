(** Area and volume of spheres and tori (C83). *)
From Coq Require Import Reals Lra Psatz.
From Coquelicot Require Import Coquelicot.
From Verif Require Import Num XR Spec Spec_Shapes Spec_Scene Spec_Measure M_Vec M_Hittable M_Shapes P_Vec P_Deriv P_Angle P_Sphere P_Torus.
Local Open Scope R_scope.

(** *** Integrals *)
Lemma integral2_const : forall f g A, (forall u v, in_unit u -> in_unit v -> f u v = g v) -> is_RInt g 0 1 A -> integral2 f A.
Proof.
  intros f g A E H. exists g. split; [|exact H]. intros v Hv.
  apply (is_RInt_ext (fun _ => g v)).
  - intros u. rewrite Rmin_left, Rmax_right by lra. intros Hu. symmetry. apply E; unfold in_unit in *; lra.
  - pose proof (is_RInt_const (V:=R_NormedModule) 0 1 (g v)) as K.
    assert (Q : scal (1 - 0) (g v) = g v) by (unfold scal; simpl; unfold mult; simpl; ring). rewrite Q in K. exact K.
Qed.
Lemma antider : forall (F g : R -> R) (A : R), (forall x, is_derive F x (g x)) -> (forall x, ex_derive g x) -> F 1 - F 0 = A -> is_RInt g 0 1 A.
Proof.
  intros F g A D C <-. apply (is_RInt_derive (V:=R_CompleteNormedModule) F g); auto.
  intros x _. apply (ex_derive_continuous (V:=R_NormedModule)). auto.
Qed.

Lemma sin_integral : forall k, is_RInt (fun v => k * sin (PI * v)) 0 1 (2 * k / PI).
Proof.
  intros k. pose proof PI_pos. apply antider with (F := fun v => - (k * cos (PI * v) / PI)); try intros x.
  - auto_derive; auto. field. lra.
  - auto_derive; auto.
  - rewrite Rmult_1_r, Rmult_0_r, cos_PI, cos_0. field. lra.
Qed.
Lemma cos_integral : forall a k, is_RInt (fun v => a + k * cos (2 * PI * v)) 0 1 a.
Proof.
  intros a k. pose proof PI_pos. apply antider with (F := fun v => a * v + k * sin (2 * PI * v) / (2 * PI)); try intros x.
  - auto_derive; auto. field. lra.
  - auto_derive; auto.
  - rewrite !Rmult_1_r, (Rmult_0_r (2 * PI)), sin_2PI, sin_0. field. lra.
Qed.
Lemma id_integral : forall k, is_RInt (fun t => k * t) 0 1 (k / 2).
Proof.
  intros k. apply antider with (F := fun t => k * t ^ 2 / 2); try intros x; [auto_derive; auto; field|auto_derive; auto|field].
Qed.
Lemma sq_integral : forall k, is_RInt (fun t => k * t ^ 2) 0 1 (k / 3).
Proof.
  intros k. apply antider with (F := fun t => k * t ^ 3 / 3); try intros x; [auto_derive; auto; field|auto_derive; auto|field].
Qed.

(** *** Angles *)
Lemma cos_inj : forall v v', in_unit v -> in_unit v' -> cos (PI * v) = cos (PI * v') -> v = v'.
Proof.
  intros v v' H H' E. unfold in_unit in *. pose proof PI_pos.
  destruct (Rtotal_order v v') as [K|[K|K]]; auto; exfalso.
  - assert (cos (PI * v') < cos (PI * v)) by (apply cos_decreasing_1; nra). lra.
  - assert (cos (PI * v) < cos (PI * v')) by (apply cos_decreasing_1; nra). lra.
Qed.
Lemma angle_inj : forall u u', inside_unit u -> inside_unit u' ->
  cos (2 * PI * u) = cos (2 * PI * u') -> sin (2 * PI * u) = sin (2 * PI * u') -> u = u'.
Proof.
  intros u u' H H' C S. unfold inside_unit in *. pose proof PI_pos as P.
  assert (E : cos (2 * PI * u - 2 * PI * u') = 1).
  { rewrite cos_minus, C, S. pose proof (sin2_cos2 (2 * PI * u')) as Q. unfold Rsqr in Q. lra. }
  set (d := PI * (u - u')). replace (2 * PI * u - 2 * PI * u') with (2 * d) in E by (unfold d; ring).
  assert (Z : sin d = 0). { rewrite cos_2a_sin in E. assert (sin d * sin d = 0) by lra. apply Rmult_integral in H0. tauto. }
  destruct (Rtotal_order u u') as [K|[K|K]]; auto; exfalso.
  - assert (0 < sin (- d)) by (apply sin_gt_0; unfold d; nra). rewrite sin_neg in H0. lra.
  - assert (0 < sin d) by (apply sin_gt_0; unfold d; nra). lra.
Qed.
Lemma sin_inside : forall v, inside_unit v -> 0 < sin (PI * v).
Proof. intros v H. unfold inside_unit in H. pose proof PI_pos. apply sin_gt_0; nra. Qed.
Lemma sin_in : forall v, in_unit v -> 0 <= sin (PI * v).
Proof. intros v H. unfold in_unit in H. pose proof PI_pos. apply sin_ge_0; nra. Qed.

(** *** Spheres *)
Section Sphere_.
Variable s : sphere R.
Hypothesis Hr : 0 < s_radius s.

Lemma sphere_inj : forall u v u' v', inside_unit u -> inside_unit v -> inside_unit u' -> inside_unit v' ->
  sphere_sigma s u v = sphere_sigma s u' v' -> u = u' /\ v = v'.
Proof.
  intros u v u' v' Hu Hv Hu' Hv' E. unfold sphere_sigma, addR, scaleR in E; cbn [vx vy vz] in E.
  injection E; intros Ez Ey Ex.
  assert (Cv : cos (PI * v) = cos (PI * v')) by nra.
  assert (v = v') by (apply cos_inj; auto; unfold in_unit, inside_unit in *; lra). subst v'. split; auto.
  pose proof (sin_inside v Hv).
  assert (0 < s_radius s * sin (PI * v)) by nra.
  apply angle_inj; auto; apply Rmult_eq_reg_l with (s_radius s * sin (PI * v)); lra.
Qed.
Lemma sphere_sweeps : sweeps2 (sphere_sigma s) (on_sphere s).
Proof.
  split; [|apply sphere_inj]. intros p. split.
  - intros On. destruct (sphere_uv_spec (L:=double_limits) s Hr p On) as (u & v & _ & Hu & Hv & E). exists u, v. auto.
  - intros (u & v & _ & _ & ->). apply sphere_sigma_on; auto.
Qed.
Lemma sphere_element : forall u v, in_unit v -> normR (crossR (sphere_su s u v) (sphere_sv s u v)) = 2 * PI ^ 2 * s_radius s ^ 2 * sin (PI * v).
Proof.
  intros u v Hv. pose proof (sin_in v Hv) as S0. pose proof PI_pos. unfold normR.
  rewrite <- (sqrt_square (2 * PI ^ 2 * s_radius s ^ 2 * sin (PI * v))).
  2:{ repeat match goal with |- 0 <= _ * _ => apply Rmult_le_pos end; try lra; apply pow_le; lra. }
  f_equal. unfold normsqR, dotR, crossR, sphere_su, sphere_sv, scaleR; cbn [vx vy vz].
  pose proof (sc2 (2 * PI * u)) as A. pose proof (sc2 (PI * v)) as B.
  set (su := sin (2 * PI * u)) in *. set (cu := cos (2 * PI * u)) in *.
  set (sv := sin (PI * v)) in *. set (cv := cos (PI * v)) in *. set (q := s_radius s) in *.
  transitivity (4 * PI ^ 4 * q ^ 4 * (sv * sv) * (sv * sv * (su * su + cu * cu) + cv * cv * (su * su + cu * cu) * (su * su + cu * cu))); [ring|].
  replace (su * su + cu * cu) with 1 by lra. replace (sv * sv * 1 + cv * cv * 1 * 1) with 1 by lra. ring.
Qed.
Lemma sphere_area_integral : has_area (on_sphere s) (4 * PI * s_radius s * s_radius s).
Proof.
  exists (sphere_sigma s), (sphere_su s), (sphere_sv s). split; [apply sphere_sweeps|]. split; [apply sphere_partials|].
  apply integral2_const with (g := fun v => 2 * PI ^ 2 * s_radius s ^ 2 * sin (PI * v)).
  - intros u v _ Hv. apply sphere_element; auto.
  - pose proof PI_pos. replace (4 * PI * s_radius s * s_radius s) with (2 * (2 * PI ^ 2 * s_radius s ^ 2) / PI) by (field; lra).
    apply sin_integral.
Qed.

Definition shell (t : R) : sphere R := Sphere (s_center s) (t * s_radius s).
Definition ball_bt (t u v : R) : vec3 R :=
  scaleR (s_radius s) (V3 (cos (2 * PI * u) * sin (PI * v)) (sin (2 * PI * u) * sin (PI * v)) (cos (PI * v))).
Lemma shell_distance : forall t u v, 0 <= t -> distR (sphere_sigma (shell t) u v) (s_center s) = t * s_radius s.
Proof.
  intros t u v Ht. destruct (Rle_lt_or_eq_dec 0 t Ht) as [K|K].
  - apply (sphere_sigma_on (shell t)). cbn. nra.
  - subst t. unfold distR, normR, normsqR, dotR, subR, sphere_sigma, addR, scaleR; cbn [vx vy vz shell s_center s_radius].
    rewrite !Rmult_0_l. match goal with |- sqrt ?x = _ => replace x with 0 by ring end. apply sqrt_0.
Qed.
Lemma ball_sweeps : sweeps3 (fun t => sphere_sigma (shell t)) (in_ball s).
Proof.
  split.
  - intros p. unfold in_ball. split.
    + intros H. destruct (Rle_lt_or_eq_dec 0 (distR p (s_center s))) as [K|K]; [apply sqrt_pos| |].
      * set (d := distR p (s_center s)) in *.
        assert (Q : d / s_radius s * s_radius s = d) by (field; lra).
        assert (On : on_sphere (shell (d / s_radius s)) p) by (unfold on_sphere; cbn; fold d; lra).
        destruct (sphere_uv_spec (L:=double_limits) (shell (d / s_radius s)) ltac:(cbn; lra) p On) as (u & v & _ & Hu & Hv & E).
        exists (d / s_radius s), u, v. split; [|auto]. split; [apply Rmult_le_pos; [lra|left; apply Rinv_0_lt_compat; lra]|].
        apply Rmult_le_reg_r with (s_radius s); lra.
      * exists 0, 0, 0. unfold in_unit. repeat (split; [lra|]).
        unfold distR in K. symmetry in K. apply sqrt_eq_0 in K.
        2:{ unfold normsqR, dotR. nra. }
        unfold normsqR, dotR, subR in K; cbn [vx vy vz] in K.
        unfold sphere_sigma, addR, scaleR; cbn [vx vy vz shell s_center s_radius].
        destruct p as [x y z], (s_center s) as [cx cy cz]; cbn [vx vy vz] in *.
        pose proof (Rle_0_sqr (x - cx)) as X. pose proof (Rle_0_sqr (y - cy)) as Y. pose proof (Rle_0_sqr (z - cz)) as Z. unfold Rsqr in X, Y, Z.
        assert (x - cx = 0) by (apply Rsqr_0_uniq; unfold Rsqr; lra). assert (y - cy = 0) by (apply Rsqr_0_uniq; unfold Rsqr; lra).
        assert (z - cz = 0) by (apply Rsqr_0_uniq; unfold Rsqr; lra). rewrite !Rmult_0_l. apply V3_ext; lra.
    + intros (t & u & v & Ht & _ & _ & ->). unfold in_unit in Ht. rewrite shell_distance by lra. nra.
  - intros t u v t' u' v' Ht Hu Hv Ht' Hu' Hv' E. unfold inside_unit in Ht, Ht'.
    assert (T : t = t').
    { pose proof (shell_distance t u v ltac:(lra)) as D. pose proof (shell_distance t' u' v' ltac:(lra)) as D'. rewrite E in D. nra. }
    split; auto. subst t'.
    assert (K : 0 < s_radius (shell t)) by (cbn; nra). clear Ht'.
    unfold sphere_sigma, addR, scaleR in E; cbn [vx vy vz] in E. set (q := s_radius (shell t)) in *.
    injection E; intros Ez Ey Ex.
    assert (Cv : cos (PI * v) = cos (PI * v')) by nra.
    assert (v = v') by (apply cos_inj; auto; unfold in_unit, inside_unit in *; lra). subst v'. split; auto.
    pose proof (sin_inside v Hv). assert (0 < q * sin (PI * v)) by nra.
    apply angle_inj; auto; apply Rmult_eq_reg_l with (q * sin (PI * v)); lra.
Qed.
Lemma ball_element : forall t u v, in_unit v ->
  Rabs (dotR (ball_bt t u v) (crossR (sphere_su (shell t) u v) (sphere_sv (shell t) u v))) = 2 * PI ^ 2 * s_radius s ^ 3 * t ^ 2 * sin (PI * v).
Proof.
  intros t u v Hv. pose proof (sin_in v Hv) as S0. pose proof PI_pos.
  assert (P0 : 0 <= 2 * PI ^ 2 * s_radius s ^ 3 * t ^ 2 * sin (PI * v)).
  { repeat match goal with |- 0 <= _ * _ => apply Rmult_le_pos end; try lra; try (apply pow_le; lra). apply pow2_ge_0. }
  rewrite <- (Rabs_right _ (Rle_ge _ _ P0)), <- Rabs_Ropp. f_equal.
  unfold normsqR, dotR, crossR, ball_bt, sphere_su, sphere_sv, scaleR; cbn [vx vy vz shell s_radius].
  pose proof (sc2 (2 * PI * u)) as A. pose proof (sc2 (PI * v)) as B. clear P0.
  set (su := sin (2 * PI * u)) in *. set (cu := cos (2 * PI * u)) in *.
  set (sv := sin (PI * v)) in *. set (cv := cos (PI * v)) in *. set (q := s_radius s) in *.
  transitivity (2 * PI ^ 2 * q ^ 3 * t ^ 2 * sv * (sv * sv * (su * su + cu * cu) + cv * cv * (su * su + cu * cu))); [ring|].
  replace (su * su + cu * cu) with 1 by lra. replace (sv * sv * 1 + cv * cv * 1) with 1 by lra. ring.
Qed.
Lemma ball_volume_integral : has_volume (in_ball s) (4 * PI * s_radius s * s_radius s * s_radius s / 3).
Proof.
  exists (fun t => sphere_sigma (shell t)), ball_bt, (fun t => sphere_su (shell t)), (fun t => sphere_sv (shell t)).
  split; [apply ball_sweeps|]. split.
  - intros t u v. split; [|apply sphere_partials].
    unfold sphere_sigma, ball_bt; cbn [shell s_center s_radius]. repeat split; cbn [vx vy vz addR scaleR]; dderiv.
  - pose proof PI_pos. exists (fun t => 4 * PI * s_radius s ^ 3 * t ^ 2). split.
    + intros t Ht. apply integral2_const with (g := fun v => 2 * PI ^ 2 * s_radius s ^ 3 * t ^ 2 * sin (PI * v)).
      * intros u v _ Hv. apply ball_element; auto.
      * replace (4 * PI * s_radius s ^ 3 * t ^ 2) with (2 * (2 * PI ^ 2 * s_radius s ^ 3 * t ^ 2) / PI) by (field; lra). apply sin_integral.
    + replace (4 * PI * s_radius s * s_radius s * s_radius s / 3) with (4 * PI * s_radius s ^ 3 / 3) by field. apply sq_integral.
Qed.
End Sphere_.

(** *** Tori *)
Section Torus_.
Variable o : torus R.
Hypothesis Hr : 0 < o_r o.
Hypothesis HR : o_r o < o_R o.

Lemma tube_pos : forall v, 0 < o_R o + o_r o * cos (2 * PI * v).
Proof. intros v. pose proof (COS_bound (2 * PI * v)). nra. Qed.
Definition tube (t : R) : torus R := Torus (o_center o) (o_R o) (t * o_r o).
(* axis distance of a point of a tube *)
Lemma tube_axis : forall t u v, in_unit t ->
  let p := torus_sigma (tube t) u v in
  sqrt ((vx p - vx (o_center o)) ^ 2 + (vy p - vy (o_center o)) ^ 2) = o_R o + t * o_r o * cos (2 * PI * v) /\
  0 < o_R o + t * o_r o * cos (2 * PI * v).
Proof.
  intros t u v Ht p. unfold in_unit in Ht. pose proof (COS_bound (2 * PI * v)).
  assert (0 <= t * o_r o <= o_r o) by nra.
  assert (K : 0 < o_R o + t * o_r o * cos (2 * PI * v)) by nra. split; auto.
  rewrite <- (sqrt_square (o_R o + t * o_r o * cos (2 * PI * v))) by lra. f_equal.
  unfold p, torus_sigma, addR; cbn [vx vy vz tube o_center o_R o_r].
  pose proof (sc2 (2 * PI * u)) as A. set (m := o_R o + t * o_r o * cos (2 * PI * v)) in *.
  set (su := sin (2 * PI * u)) in *. set (cu := cos (2 * PI * u)) in *.
  transitivity (m * m * (su * su + cu * cu)); [ring|]. replace (su * su + cu * cu) with 1 by lra. ring.
Qed.
Lemma tube_polar : forall t u v, in_unit t -> let p := torus_sigma (tube t) u v in
  (sqrt ((vx p - vx (o_center o)) ^ 2 + (vy p - vy (o_center o)) ^ 2) - o_R o) ^ 2 + (vz p - vz (o_center o)) ^ 2 = (t * o_r o) ^ 2.
Proof.
  intros t u v Ht p. destruct (tube_axis t u v Ht) as [E _]. unfold p at 1 2. rewrite E.
  unfold p, torus_sigma, addR; cbn [vx vy vz tube o_center o_R o_r].
  pose proof (sc2 (2 * PI * v)) as A. set (sv := sin (2 * PI * v)) in *. set (cv := cos (2 * PI * v)) in *.
  transitivity ((t * o_r o) ^ 2 * (sv * sv + cv * cv)); [ring|]. replace (sv * sv + cv * cv) with 1 by lra. ring.
Qed.
Lemma tube_inj : forall t u v u' v', inside_unit t -> inside_unit u -> inside_unit v -> inside_unit u' -> inside_unit v' ->
  torus_sigma (tube t) u v = torus_sigma (tube t) u' v' -> u = u' /\ v = v'.
Proof.
  intros t u v u' v' Ht Hu Hv Hu' Hv' E. unfold inside_unit in Ht.
  destruct (tube_axis t u v) as [A Ap]; [unfold in_unit; lra|]. destruct (tube_axis t u' v') as [A' _]; [unfold in_unit; lra|].
  rewrite E in A. rewrite A in A'. assert (K : 0 < t * o_r o) by nra.
  unfold torus_sigma, addR in E; cbn [vx vy vz tube o_center o_R o_r] in E. injection E; intros Ez Ey Ex.
  assert (Cv : cos (2 * PI * v) = cos (2 * PI * v')) by nra. assert (Sv : sin (2 * PI * v) = sin (2 * PI * v')) by nra.
  split; [|apply angle_inj; auto]. rewrite <- Cv in Ex, Ey.
  apply angle_inj; auto; apply Rmult_eq_reg_l with (o_R o + t * o_r o * cos (2 * PI * v)); lra.
Qed.
End Torus_.
Section Torus2.
Variable o : torus R.
Hypothesis Hr : 0 < o_r o.
Hypothesis HR : o_r o < o_R o.

Lemma torus_inj : forall u v u' v', inside_unit u -> inside_unit v -> inside_unit u' -> inside_unit v' ->
  torus_sigma o u v = torus_sigma o u' v' -> u = u' /\ v = v'.
Proof.
  (* the tube of half the radius, seen from a torus of twice the tube radius, is [o] *)
  intros u v u' v' Hu Hv Hu' Hv' E.
  destruct (tube_axis o Hr HR 1 u v) as [A Ap]; [unfold in_unit; lra|]. destruct (tube_axis o Hr HR 1 u' v') as [A' _]; [unfold in_unit; lra|].
  assert (T : forall u v, torus_sigma (tube o 1) u v = torus_sigma o u v).
  { intros. unfold torus_sigma, tube; cbn [o_center o_R o_r]. rewrite Rmult_1_l. reflexivity. }
  rewrite T in A, A'. rewrite E in A. rewrite A in A'. rewrite Rmult_1_l in A', Ap.
  unfold torus_sigma, addR in E; cbn [vx vy vz] in E. injection E; intros Ez Ey Ex.
  assert (Cv : cos (2 * PI * v) = cos (2 * PI * v')) by nra. assert (Sv : sin (2 * PI * v) = sin (2 * PI * v')) by nra.
  split; [|apply angle_inj; auto]. rewrite <- Cv in Ex, Ey.
  apply angle_inj; auto; apply Rmult_eq_reg_l with (o_R o + o_r o * cos (2 * PI * v)); lra.
Qed.
Lemma torus_sweeps : sweeps2 (torus_sigma o) (on_torus o).
Proof.
  split; [|apply torus_inj]. intros p. split.
  - intros On. destruct (torus_uv_spec (L:=double_limits) o Hr HR p On) as (u & v & _ & Hu & Hv & E). exists u, v. auto.
  - intros (u & v & _ & _ & ->). apply torus_sigma_on; auto.
Qed.
Lemma torus_element : forall u v, normR (crossR (torus_su o u v) (torus_sv o u v)) =
  4 * PI ^ 2 * o_r o * o_R o + 4 * PI ^ 2 * o_r o ^ 2 * cos (2 * PI * v).
Proof.
  intros u v. pose proof PI_pos. pose proof (tube_pos o Hr HR v). unfold normR.
  replace (4 * PI ^ 2 * o_r o * o_R o + 4 * PI ^ 2 * o_r o ^ 2 * cos (2 * PI * v))
    with (4 * PI ^ 2 * o_r o * (o_R o + o_r o * cos (2 * PI * v))) by ring.
  rewrite <- (sqrt_square (4 * PI ^ 2 * o_r o * (o_R o + o_r o * cos (2 * PI * v)))).
  2:{ repeat match goal with |- 0 <= _ * _ => apply Rmult_le_pos end; try lra; apply pow_le; lra. }
  f_equal. unfold normsqR, dotR, crossR, torus_su, torus_sv, scaleR; cbn [vx vy vz].
  pose proof (sc2 (2 * PI * u)) as A. pose proof (sc2 (2 * PI * v)) as B.
  set (m := o_R o + o_r o * cos (2 * PI * v)) in *.
  set (su := sin (2 * PI * u)) in *. set (cu := cos (2 * PI * u)) in *.
  set (sv := sin (2 * PI * v)) in *. set (cv := cos (2 * PI * v)) in *. set (q := o_r o) in *.
  transitivity (16 * PI ^ 4 * q ^ 2 * (m * m) * (cv * cv * (su * su + cu * cu) + sv * sv * (su * su + cu * cu) * (su * su + cu * cu))); [ring|].
  replace (su * su + cu * cu) with 1 by lra. replace (cv * cv * 1 + sv * sv * 1 * 1) with 1 by lra. ring.
Qed.
Lemma torus_area_integral : has_area (on_torus o) (4 * PI * PI * o_R o * o_r o).
Proof.
  exists (torus_sigma o), (torus_su o), (torus_sv o). split; [apply torus_sweeps|]. split; [apply torus_partials|].
  apply integral2_const with (g := fun v => 4 * PI ^ 2 * o_r o * o_R o + 4 * PI ^ 2 * o_r o ^ 2 * cos (2 * PI * v)).
  - intros u v _ _. apply torus_element.
  - replace (4 * PI * PI * o_R o * o_r o) with (4 * PI ^ 2 * o_r o * o_R o) by ring. apply cos_integral.
Qed.

Definition solid_bt (t u v : R) : vec3 R :=
  scaleR (o_r o) (V3 (cos (2 * PI * v) * cos (2 * PI * u)) (cos (2 * PI * v) * sin (2 * PI * u)) (sin (2 * PI * v))).
Lemma solid_sweeps : sweeps3 (fun t => torus_sigma (tube o t)) (in_solid_torus o).
Proof.
  split.
  - intros p. unfold in_solid_torus. split.
    + intros H. cbv zeta in H.
      set (a := sqrt ((vx p - vx (o_center o)) ^ 2 + (vy p - vy (o_center o)) ^ 2)) in *. set (z := vz p - vz (o_center o)) in *.
      set (d := sqrt ((a - o_R o) ^ 2 + z ^ 2)).
      assert (D2 : d * d = (a - o_R o) ^ 2 + z ^ 2) by (apply sqrt_sqrt, Rplus_le_le_0_compat; apply pow2_ge_0).
      assert (D0 : 0 <= d) by apply sqrt_pos. clearbody d. assert (Dr : d <= o_r o) by nra.
      assert (Q : d / o_r o * o_r o = d) by (field; lra).
      destruct (Rle_lt_or_eq_dec 0 d D0) as [K|K].
      * assert (On : on_torus (tube o (d / o_r o)) p).
        { unfold on_torus; cbn [tube o_center o_R o_r]. cbv zeta. fold a z. rewrite Q. lra. }
        destruct (torus_uv_spec (L:=double_limits) (tube o (d / o_r o)) ltac:(cbn; lra) ltac:(cbn; lra) p On) as (u & v & _ & Hu & Hv & E).
        exists (d / o_r o), u, v. split; [|auto]. split; [apply Rmult_le_pos; [lra|left; apply Rinv_0_lt_compat; lra]|].
        apply Rmult_le_reg_r with (o_r o); lra.
      * (* on the core circle *)
        pose proof (pow2_ge_0 (a - o_R o)). pose proof (pow2_ge_0 z). subst d.
        assert (A : a - o_R o = 0) by (apply Rsqr_0_uniq; unfold Rsqr; nra). assert (Z : z = 0) by (apply Rsqr_0_uniq; unfold Rsqr; nra).
        destruct (azimuth_spec (L:=double_limits) (vy p - vy (o_center o)) (vx p - vx (o_center o))) as (u & _ & Hu & Cu & Su).
        replace (sqrt _) with a in Cu, Su by (unfold a; f_equal; ring).
        exists 0, u, 0. unfold in_unit. repeat (split; [lra|]).
        unfold torus_sigma, addR; cbn [vx vy vz tube o_center o_R o_r]. unfold z in *.
        destruct p as [px py pz], (o_center o) as [cx cy cz]; cbn [vx vy vz] in *. rewrite !Rmult_0_l, Rplus_0_r. apply V3_ext; nra.
    + intros (t & u & v & Ht & _ & _ & ->). cbv zeta. rewrite (tube_polar o Hr HR t u v Ht). unfold in_unit in Ht.
      assert (0 <= t * o_r o <= o_r o) by nra. nra.
  - intros t u v t' u' v' Ht Hu Hv Ht' Hu' Hv' E. unfold inside_unit in Ht, Ht'.
    assert (T : t = t').
    { pose proof (tube_polar o Hr HR t u v ltac:(unfold in_unit; lra)) as D. pose proof (tube_polar o Hr HR t' u' v' ltac:(unfold in_unit; lra)) as D'.
      cbv zeta in D, D'. rewrite E in D. rewrite D in D'. assert (0 < t * o_r o) by nra. assert (0 < t' * o_r o) by nra.
      assert (t * o_r o = t' * o_r o) by nra. nra. }
    split; auto. subst t'. apply (tube_inj o Hr HR t); auto.
Qed.
Lemma solid_element : forall t u v, in_unit t ->
  Rabs (dotR (solid_bt t u v) (crossR (torus_su (tube o t) u v) (torus_sv (tube o t) u v))) =
  4 * PI ^ 2 * o_r o ^ 2 * o_R o * t + 4 * PI ^ 2 * o_r o ^ 3 * t ^ 2 * cos (2 * PI * v).
Proof.
  intros t u v Ht. pose proof PI_pos. destruct (tube_axis o Hr HR t u v Ht) as [_ K].
  replace (4 * PI ^ 2 * o_r o ^ 2 * o_R o * t + 4 * PI ^ 2 * o_r o ^ 3 * t ^ 2 * cos (2 * PI * v))
    with (4 * PI ^ 2 * o_r o ^ 2 * t * (o_R o + t * o_r o * cos (2 * PI * v))) by ring.
  assert (P0 : 0 <= 4 * PI ^ 2 * o_r o ^ 2 * t * (o_R o + t * o_r o * cos (2 * PI * v))).
  { unfold in_unit in Ht. repeat match goal with |- 0 <= _ * _ => apply Rmult_le_pos end; try lra; apply pow_le; lra. }
  rewrite <- (Rabs_right _ (Rle_ge _ _ P0)). f_equal. clear P0.
  unfold dotR, crossR, solid_bt, torus_su, torus_sv, scaleR; cbn [vx vy vz tube o_R o_r].
  pose proof (sc2 (2 * PI * u)) as A. pose proof (sc2 (2 * PI * v)) as B.
  set (m := o_R o + t * o_r o * cos (2 * PI * v)) in *.
  set (su := sin (2 * PI * u)) in *. set (cu := cos (2 * PI * u)) in *.
  set (sv := sin (2 * PI * v)) in *. set (cv := cos (2 * PI * v)) in *. set (q := o_r o) in *.
  transitivity (4 * PI ^ 2 * q ^ 2 * t * m * (cv * cv * (su * su + cu * cu) + sv * sv * (su * su + cu * cu))); [ring|].
  replace (su * su + cu * cu) with 1 by lra. replace (cv * cv * 1 + sv * sv * 1) with 1 by lra. ring.
Qed.
Lemma torus_volume_integral : has_volume (in_solid_torus o) (2 * PI * PI * o_R o * o_r o * o_r o).
Proof.
  exists (fun t => torus_sigma (tube o t)), solid_bt, (fun t => torus_su (tube o t)), (fun t => torus_sv (tube o t)).
  split; [apply solid_sweeps|]. split.
  - intros t u v. split; [|apply torus_partials].
    unfold torus_sigma, solid_bt; cbn [tube o_center o_R o_r]. repeat split; cbn [vx vy vz addR scaleR]; dderiv.
  - exists (fun t => 4 * PI ^ 2 * o_r o ^ 2 * o_R o * t). split.
    + intros t Ht.
      apply integral2_const with (g := fun v => 4 * PI ^ 2 * o_r o ^ 2 * o_R o * t + 4 * PI ^ 2 * o_r o ^ 3 * t ^ 2 * cos (2 * PI * v)).
      * intros u v _ _. apply solid_element; auto.
      * apply cos_integral.
    + replace (2 * PI * PI * o_R o * o_r o * o_r o) with (4 * PI ^ 2 * o_r o ^ 2 * o_R o / 2) by field. apply id_integral.
Qed.
End Torus2.

(** *** The reported values *)
Lemma sphere_measures : forall (L : limits) (s : sphere R), 0 < s_radius s -> exists A V,
  sphere_area (F:=XR L) (finsphere s) = Fin A /\ has_area (on_sphere s) A /\
  sphere_volume (F:=XR L) (finsphere s) = Fin V /\ has_volume (in_ball s) V.
Proof.
  intros L s Hr. do 2 eexists. unfold sphere_area, sphere_volume, finsphere; cbn [s_radius]. xred. rewrite xdiv_fin by lra.
  repeat (split; [reflexivity|split]).
  - apply sphere_area_integral; auto.
  - split; [reflexivity|]. apply ball_volume_integral; auto.
Qed.
Lemma torus_measures : forall (L : limits) (o : torus R), 0 < o_r o -> o_r o < o_R o -> exists A V,
  torus_area (F:=XR L) (fintorus o) = Fin A /\ has_area (on_torus o) A /\
  torus_volume (F:=XR L) (fintorus o) = Fin V /\ has_volume (in_solid_torus o) V.
Proof.
  intros L o Hr HR. do 2 eexists. unfold torus_area, torus_volume, fintorus; cbn [o_R o_r]. xred.
  split; [reflexivity|]. split; [apply torus_area_integral; auto|]. split; [reflexivity|]. apply torus_volume_integral; auto.
Qed.
