(** Torus (C24, C27, C28, C31, C34). *)
From Coq Require Import Reals Lra ZArith List Bool.
From Verif Require Import Num XR Spec M_Vec M_Roots M_Hittable M_Shapes Spec_Scene Spec_Shapes
  P_Vec P_Quadratic P_Cubic P_Quartic P_Angle P_Deriv P_Sphere P_Flat.
Import ListNotations.
Local Open Scope R_scope.

Lemma quartic_order : forall (L : limits) a b c d e l, quartic_off_threshold (l_min L) a b c d e ->
  quartic_roots (F:=XR L) (Fin a) (Fin b) (Fin c) (Fin d) (Fin e) = Ok (map Fin l) ->
  increasing l \/ exists l', l = l' ++ [0] /\ increasing l'.
Proof.
  intros L a b c d e l H E. destruct (quartic_main L a b c d e H) as [l1 [E1 [Inc _]]].
  rewrite E in E1. injection E1 as E1. apply map_Fin_inj in E1. subst l1.
  unfold quartic_off_threshold in H; cbv zeta in H.
  destruct H as [Hm [Ha [H0 [He [He0 _]]]]].
  destruct (Req_dec a 0) as [->|Na]; [left; auto|]. destruct (Req_dec e 0) as [->|Ne]; [|left; auto].
  right. specialize (He0 Na eq_refl).
  destruct (cubic_roots_main L a b c d He0) as [l3 [E3 [Inc3 _]]].
  destruct (off_cases L a Ha) as [[-> _]|[_ Ea]]; [contradiction|].
  unfold quartic_roots in E; xred. rewrite Ea in E.
  rewrite Rabs_R0, Rleb_true in E by (pose proof (l_min_pos L); lra). rewrite E3 in E. cbn [obind] in E.
  injection E as E. exists l3. split; auto. apply map_Fin_inj. rewrite map_app. cbn [map]. auto.
Qed.

Lemma sq_bound : forall a b, 0 <= b -> a * a <= b * b -> - b <= a <= b.
Proof. intros; split; nra. Qed.

Section L.
Context {L : limits}.
Variable o : torus R.
Hypothesis Hr : 0 < o_r o.
Hypothesis HR : o_r o < o_R o.

Definition rel (p : vec3 R) : vec3 R := subR p (o_center o).

Lemma on_torus_poly : forall p, on_torus o p <->
  let w := rel p in
  (vx w * vx w + vy w * vy w + vz w * vz w + o_R o * o_R o - o_r o * o_r o) ^ 2 = 4 * o_R o * o_R o * (vx w * vx w + vy w * vy w).
Proof.
  intros p. unfold on_torus, rel, subR; cbn [vx vy vz].
  set (x := vx p - vx (o_center o)). set (y := vy p - vy (o_center o)). set (z := vz p - vz (o_center o)).
  set (s := sqrt (x ^ 2 + y ^ 2)). cbv zeta.
  assert (Hs : 0 <= s) by apply sqrt_pos.
  assert (Hss : s * s = x * x + y * y) by (unfold s; rewrite sqrt_sqrt by nra; ring).
  rewrite <- Hss. clear Hss. clearbody s. split; intros H.
  - assert (E : s * s + z * z + o_R o * o_R o - o_r o * o_r o = 2 * o_R o * s) by nra. rewrite E. ring.
  - assert (E : (s * s + z * z + o_R o * o_R o - o_r o * o_r o - 2 * o_R o * s) *
                (s * s + z * z + o_R o * o_R o - o_r o * o_r o + 2 * o_R o * s) = 0) by lra.
    apply Rmult_integral in E. destruct E as [E|E]; [lra|].
    exfalso. assert (0 <= o_R o * s) by (apply Rmult_le_pos; lra). nra.
Qed.

(** the distance from the axis, of a point of the torus *)
Lemma torus_axis : forall p, on_torus o p ->
  let w := rel p in let s := axis_distance o p in
  o_R o - o_r o <= s <= o_R o + o_r o /\ s * s = vx w * vx w + vy w * vy w /\ - o_r o <= vz w <= o_r o /\
  (s - o_R o) * (s - o_R o) + vz w * vz w = o_r o * o_r o.
Proof.
  intros p On. unfold on_torus in On. cbv zeta in On. cbv zeta. fold (axis_distance o p) in On.
  unfold rel, subR; cbn [vx vy vz]. set (z := vz p - vz (o_center o)) in *. set (s := axis_distance o p) in *.
  assert (Hss : s * s = (vx p - vx (o_center o)) * (vx p - vx (o_center o)) + (vy p - vy (o_center o)) * (vy p - vy (o_center o)))
    by (unfold s, axis_distance; rewrite sqrt_sqrt by (apply Rplus_le_le_0_compat; apply pow2_ge_0); ring).
  clearbody z s. assert (On' : (s - o_R o) * (s - o_R o) + z * z = o_r o * o_r o) by lra.
  pose proof (Rle_0_sqr z) as Z; pose proof (Rle_0_sqr (s - o_R o)) as S; unfold Rsqr in Z, S.
  assert (- o_r o <= s - o_R o <= o_r o) by (apply sq_bound; lra).
  assert (- o_r o <= z <= o_r o) by (apply sq_bound; lra).
  repeat split; auto; lra.
Qed.

Lemma coord_bound : forall x y s, 0 <= s -> s * s = x * x + y * y -> - s <= x <= s /\ - s <= y <= s.
Proof.
  intros x y s H E. pose proof (Rle_0_sqr x) as X; pose proof (Rle_0_sqr y) as Y; unfold Rsqr in X, Y.
  split; apply sq_bound; auto; lra.
Qed.

(** C34 *)
Lemma torus_boxed : exists B, torus_box (F:=XR L) (fintorus o) = Some (finbox B) /\
  forall p, on_torus o p -> in_box B p.
Proof.
  set (sh := V3 (o_R o + o_r o) (o_R o + o_r o) (o_r o)).
  exists (Box (subR (o_center o) sh) (addR (o_center o) sh)).
  split; [reflexivity|]. intros p H. destruct (torus_axis p H) as [A [B [C _]]].
  destruct (coord_bound _ _ _ (sqrt_pos _ : 0 <= axis_distance o p) B) as [X Y]. unfold rel, subR in *; cbn [vx vy vz] in *.
  unfold in_box, sh, addR; cbn [b_min b_max vx vy vz]. lra.
Qed.

Lemma torus_sigma_on : forall u v, on_torus o (torus_sigma o u v).
Proof.
  intros u v. apply on_torus_poly. unfold rel, torus_sigma, addR, subR; cbn [vx vy vz]. cbv zeta.
  pose proof (sc2 (2 * PI * u)) as A. pose proof (sc2 (2 * PI * v)) as B.
  set (su := sin (2 * PI * u)) in *. set (cu := cos (2 * PI * u)) in *.
  set (sv := sin (2 * PI * v)) in *. set (cv := cos (2 * PI * v)) in *.
  assert (E : forall c q, c + q - c = q) by (intros; ring). rewrite !E.
  set (m := o_R o + o_r o * cv).
  assert (E2 : m * cu * (m * cu) + m * su * (m * su) = m * m).
  { transitivity (m * m * (su * su + cu * cu)); [ring|]. rewrite A. ring. }
  rewrite E2. replace (o_r o * sv * (o_r o * sv)) with (o_r o * o_r o * (sv * sv)) by ring. rewrite B. unfold m. ring.
Qed.

(** C28 *)
Lemma torus_uv_spec : forall p, on_torus o p ->
  exists u v, torus_uv (F:=XR L) (fintorus o) (fin3 p) = (Fin u, Fin v) /\ 0 <= u <= 1 /\ 0 <= v <= 1 /\
    torus_sigma o u v = p.
Proof.
  intros p On. destruct (torus_axis p On) as [A [B [C D]]].
  pose proof PI_pos as P.
  assert (S0 : sqrt (vx (rel p) * vx (rel p) + vy (rel p) * vy (rel p)) = axis_distance o p).
  { rewrite <- B. apply sqrt_square; lra. }
  set (s := axis_distance o p) in *. clearbody s.
  unfold torus_uv, fintorus, fin3, map3; cbn [o_center o_R o_r vx vy vz]. xred. rewrite xdiv_fin by lra.
  unfold rel, subR in *; cbn [vx vy vz] in *.
  set (x := vx p - vx (o_center o)) in *. set (y := vy p - vy (o_center o)) in *. set (z := vz p - vz (o_center o)) in *.
  destruct (azimuth_spec (L:=L) y x) as [u [Eu [Hu [Cu Su]]]]. rewrite Eu. rewrite S0 in *.
  assert (Q : -1 <= z / o_r o <= 1).
  { split; apply Rmult_le_reg_r with (o_r o); auto; replace (z / o_r o * o_r o) with z by (field; lra); lra. }
  unfold xunit. destruct (Rle_dec (Rabs (z / o_r o)) 1) as [_|K]; [|exfalso; apply K, Rabs_le; lra].
  xred. pose proof (asin_bound (z / o_r o)) as AB. pose proof (sin_asin (z / o_r o) Q) as SA.
  assert (CA : cos (asin (z / o_r o)) = Rabs (s - o_R o) / o_r o).
  { rewrite cos_asin by auto. unfold Rsqr. 
    replace (1 - z / o_r o * (z / o_r o)) with ((Rabs (s - o_R o) / o_r o) * (Rabs (s - o_R o) / o_r o)).
    - apply sqrt_square. apply Rmult_le_pos; [apply Rabs_pos|left; apply Rinv_0_lt_compat; auto].
    - transitivity (Rabs (s - o_R o) * Rabs (s - o_R o) / (o_r o * o_r o)); [field; lra|].
      rewrite <- Rabs_mult, Rabs_right by nra. replace ((s - o_R o) * (s - o_R o)) with (o_r o * o_r o - z * z) by lra. field; lra. }
  set (a := asin (z / o_r o)) in *. clearbody a.
  set (v1 := if Rltb (x * x + y * y) (o_R o * o_R o) then PI - a else a).
  assert (V1 : - (PI / 2) <= v1 < 2 * PI /\ sin v1 = z / o_r o /\ cos v1 = (s - o_R o) / o_r o).
  { unfold v1. rewrite <- B. destruct (Rltb_spec (s * s) (o_R o * o_R o)) as [K|K].
    - assert (s < o_R o) by nra. split; [lra|]. rewrite Rtrigo_facts.cos_pi_minus, Rtrigo_facts.sin_pi_minus, CA, Rabs_left by lra.
      split; auto. field; lra.
    - assert (o_R o <= s) by nra. split; [lra|]. rewrite CA, Rabs_right by lra. split; auto. }
  replace (if Rltb (x * x + y * y) (o_R o * o_R o) then Fin (PI - a) else Fin a) with (Fin v1)
    by (unfold v1; destruct (Rltb _ _); reflexivity).
  destruct V1 as [V1 [SV CV]]. clearbody v1. xred.
  set (v2 := if Rltb v1 0 then v1 + 2 * PI else v1).
  assert (V2 : 0 <= v2 <= 2 * PI /\ sin v2 = z / o_r o /\ cos v2 = (s - o_R o) / o_r o).
  { unfold v2. destruct (Rltb_spec v1 0); [|split; [lra|auto]]. split; [lra|].
    rewrite sin_plus, cos_plus, sin_2PI, cos_2PI, SV, CV. split; ring. }
  replace (if Rltb v1 0 then Fin (v1 + 2 * PI) else Fin v1) with (Fin v2)
    by (unfold v2; destruct (Rltb _ _); reflexivity).
  rewrite xdiv_fin by lra. destruct V2 as [V2 [SV2 CV2]].
  exists u, (v2 / (2 * PI)). split; [reflexivity|]. split; [lra|]. split.
  - split; [apply Rmult_le_pos; [lra|left; apply Rinv_0_lt_compat; lra]|].
    apply Rmult_le_reg_r with (2 * PI); [lra|]. replace (v2 / (2 * PI) * (2 * PI)) with v2 by (field; lra). lra.
  - unfold torus_sigma, addR; cbn [vx vy vz]. replace (2 * PI * (v2 / (2 * PI))) with v2 by (field; lra).
    rewrite SV2, CV2. replace (o_R o + o_r o * ((s - o_R o) / o_r o)) with s by (field; lra).
    rewrite Cu, Su. replace (o_r o * (z / o_r o)) with z by (field; lra).
    unfold x, y, z. destruct p; cbn. apply V3_ext; ring.
Qed.

Definition torus_n (u v : R) : vec3 R :=
  V3 (cos (2 * PI * v) * cos (2 * PI * u)) (cos (2 * PI * v) * sin (2 * PI * u)) (sin (2 * PI * v)).

Lemma torus_forms_spec : forall u v,
  let m := o_R o + o_r o * cos (2 * PI * v) in
  first_form (torus_sigma o) u v (4 * PI * PI * m * m) 0 (4 * PI * PI * o_r o * o_r o) /\
  second_form (torus_sigma o) (torus_n u v) u v (-4 * PI * PI * m * cos (2 * PI * v)) 0 (-4 * PI * PI * o_r o).
Proof.
  intros u v m. destruct (torus_partials o) as [P1 [P2 P3]].
  pose proof (sc2 (2 * PI * u)) as A. pose proof (sc2 (2 * PI * v)) as B.
  split.
  - exists (torus_su o), (torus_sv o). split; auto.
    unfold torus_su, torus_sv, dotR, scaleR; cbn [vx vy vz]. fold m.
    set (su := sin (2 * PI * u)) in *. set (cu := cos (2 * PI * u)) in *.
    set (sv := sin (2 * PI * v)) in *. set (cv := cos (2 * PI * v)) in *.
    repeat split.
    + transitivity (4 * PI * PI * m * m * (su * su + cu * cu)); [rewrite A; ring|ring].
    + ring.
    + transitivity (4 * PI * PI * o_r o * o_r o * (sv * sv * (su * su + cu * cu) + cv * cv)); [rewrite A, B; ring|ring].
  - exists (torus_su o), (torus_sv o). do 4 eexists. split; [exact P1|]. split; [exact P2|]. split; [exact P3|].
    unfold torus_su, torus_sv, torus_suu, torus_suv, torus_svv, torus_n, normR, normsqR, dotR, scaleR; cbn [vx vy vz]. fold m.
    set (su := sin (2 * PI * u)) in *. set (cu := cos (2 * PI * u)) in *.
    set (sv := sin (2 * PI * v)) in *. set (cv := cos (2 * PI * v)) in *.
    repeat split.
    + replace (_ + _) with 1; [apply sqrt_1|].
      transitivity (sv * sv + cv * cv * (su * su + cu * cu)); [rewrite A, B; ring|ring].
    + ring.
    + transitivity (2 * PI * o_r o * sv * cv * (1 - (su * su + cu * cu))); [ring|rewrite A; ring].
    + transitivity (-4 * PI * PI * m * cv * (su * su + cu * cu)); [rewrite A; ring|ring].
    + ring.
    + transitivity (-4 * PI * PI * o_r o * (sv * sv + cv * cv * (su * su + cu * cu))); [rewrite A, B; ring|ring].
Qed.

Lemma torus_outward_spec : forall u v, torus_outward o (torus_sigma o u v) = scaleR (o_r o) (torus_n u v).
Proof.
  intros u v. pose proof (sc2 (2 * PI * u)) as A. unfold torus_outward, torus_sigma, torus_n, addR, scaleR; cbn [vx vy vz]. cbv zeta.
  set (su := sin (2 * PI * u)) in *. set (cu := cos (2 * PI * u)) in *.
  set (sv := sin (2 * PI * v)). pose proof (COS_bound (2 * PI * v)) as C. set (cv := cos (2 * PI * v)) in *.
  assert (E : forall c q, c + q - c = q) by (intros; ring). rewrite !E.
  set (m := o_R o + o_r o * cv). assert (Hm : 0 < m) by (unfold m; nra).
  assert (S : sqrt ((m * cu) ^ 2 + (m * su) ^ 2) = m).
  { replace ((m * cu) ^ 2 + (m * su) ^ 2) with (m * m).
    - apply sqrt_square; lra.
    - transitivity (m * m * (su * su + cu * cu)); [rewrite A; ring|ring]. }
  rewrite S. apply V3_ext; auto; unfold m in *; field; lra.
Qed.

(** on the torus the gradient is 8 R s times the outward vector *)
Lemma torus_gradient_fin : forall p, on_torus o p ->
  torus_gradient (F:=XR L) (fintorus o) (fin3 p) = fin3 (scaleR (8 * o_R o * axis_distance o p) (torus_outward o p)).
Proof.
  intros p On. destruct (torus_axis p On) as [A [B [C D]]].
  unfold torus_gradient, torus_outward, fintorus, fin3, map3, scaleR; cbn [o_center o_R o_r vx vy vz]. xred. cbv zeta.
  fold (axis_distance o p). set (s := axis_distance o p) in *. clearbody s.
  unfold rel, subR in *; cbn [vx vy vz] in *.
  set (x := vx p - vx (o_center o)) in *. set (y := vy p - vy (o_center o)) in *. set (z := vz p - vz (o_center o)) in *.
  assert (E : x * x + y * y + z * z - o_r o * o_r o = 2 * o_R o * s - o_R o * o_R o) by nra.
  rewrite E. apply V3x_ext; f_equal; field; lra.
Qed.

Lemma torus_outward_norm : forall p, on_torus o p -> normsqR (torus_outward o p) = o_r o * o_r o.
Proof.
  intros p On. destruct (torus_uv_spec p On) as [u [v [_ [_ [_ <-]]]]]. rewrite torus_outward_spec, normsqR_scale.
  destruct (torus_forms_spec u v) as [_ [? [? [? [? [? [? [_ [_ [_ [N _]]]]]]]]]]]. rewrite (unit_normsq _ N). ring.
Qed.

(** refine_hit_point does not move a point of the torus *)
Lemma torus_refine_id : forall p (d : vec3 R), on_torus o p ->
  torus_refine (F:=XR L) (fintorus o) (fin3 p) (fin3 d) = fin3 p.
Proof.
  intros p d On. destruct (torus_axis p On) as [A [B [C D]]]. pose proof (proj1 (on_torus_poly p) On) as Q.
  destruct (coord_bound _ _ _ (sqrt_pos _ : 0 <= axis_distance o p) B) as [X Y].
  unfold torus_refine.
  unfold fintorus, fin3, map3; cbn [o_center o_R o_r vx vy vz]. xred.
  unfold rel, subR in *; cbn [vx vy vz] in *. cbv zeta in Q.
  set (x := vx p - vx (o_center o)) in *. set (y := vy p - vy (o_center o)) in *. set (z := vz p - vz (o_center o)) in *.
  match goal with |- context [xdiv (Fin (- ?f)) _] => assert (F0 : f = 0) by lra; rewrite F0 end.
  unfold dot; cbn [vx vy vz]. xred.
  match goal with |- context [Reqb ?g 0] => set (gd := g) end.
  assert (P2 : (if negb (Reqb gd 0)
     then V3 (xadd (Fin (vx p)) (xmul (xdiv (Fin (- 0)) (Fin gd)) (Fin (vx d))))
             (xadd (Fin (vy p)) (xmul (xdiv (Fin (- 0)) (Fin gd)) (Fin (vy d))))
             (xadd (Fin (vz p)) (xmul (xdiv (Fin (- 0)) (Fin gd)) (Fin (vz d))))
     else V3 (Fin (vx p)) (Fin (vy p)) (Fin (vz p))) = V3 (Fin (vx p)) (Fin (vy p)) (Fin (vz p))).
  { destruct (Reqb_spec gd 0); cbn [negb]; auto. rewrite xdiv_fin by auto. xred.
    apply V3x_ext; f_equal; field; auto. }
  rewrite P2. cbn [vx vy vz]. unfold std_clamp. xred.
  rewrite !Rltb_false by (unfold x, y, z in *; lra). reflexivity.
Qed.

Lemma torus_poly : forall (r : ray R) t,
  (let '(c4, c3, c2, c1, c0) := torus_quartic o r in quarticR c4 c3 c2 c1 c0 t = 0) <-> on_torus o (pointR r t).
Proof.
  intros r t. rewrite on_torus_poly. unfold torus_quartic. set (oc := subR (r_orig r) (o_center o)). set (d := r_dir r). cbv zeta.
  assert (E : rel (pointR r t) = addR oc (scaleR t d)).
  { unfold oc, d, rel, pointR, lineR, addR, subR, scaleR; cbn [vx vy vz]. apply V3_ext; ring. }
  rewrite E. unfold quarticR, normsqR, dotR, addR, scaleR; cbn [vx vy vz]. clear E. clearbody oc d.
  match goal with |- ?q = 0 <-> ?a = ?b => assert (Q : q = a - b) by ring; rewrite Q end.
  split; intros H; lra.
Qed.

Lemma torus_coeffs_fin : forall r, torus_coeffs (F:=XR L) (fintorus o) (finray r) =
  let '(c4, c3, c2, c1, c0) := torus_quartic o r in (Fin c4, Fin c3, Fin c2, Fin c1, Fin c0).
Proof.
  intros r. unfold torus_coeffs, torus_quartic.
  change (r_orig (finray r)) with (fin3 (r_orig r)). change (r_dir (finray r)) with (fin3 (r_dir r)).
  change (o_center (fintorus o)) with (fin3 (o_center o)). rewrite vsub_fin, dot_fin.
  set (c := subR (r_orig r) (o_center o)). set (d := r_dir r).
  unfold fintorus, fin3, map3; cbn [o_center o_R o_r vx vy vz]. xred.
  unfold normsqR, dotR. clearbody c d. repeat (apply f_equal2); f_equal; ring.
Qed.

(** the first listed root of the window is the smallest *)
Lemma pick_spec : forall (lo hi : xr) l,
  (torus_pick (F:=XR L) lo hi (map Fin l) = NaN /\ forall x, In x l -> ~ in_window lo hi x) \/
  exists t, torus_pick (F:=XR L) lo hi (map Fin l) = Fin t /\ In t l /\ in_window lo hi t /\
    (increasing l -> forall x, In x l -> in_window lo hi x -> t <= x) /\
    (forall l', l = l' ++ [0] -> increasing l' -> (forall x, at_least lo x -> 0 < x) ->
       forall x, In x l -> in_window lo hi x -> t <= x).
Proof.
  intros lo hi l. induction l as [|a l IH]; [left; split; auto|].
  cbn [map torus_pick]. destruct (_ && _) eqn:W; [apply window_bool in W|apply window_bool_false in W].
  - right. exists a. split; auto. split; [left; auto|]. split; [auto|]. split.
    + intros [I _] x [->|Hx] _; [lra|auto].
    + intros l' E I Pos x Hx Wx. destruct l' as [|b l']; injection E as -> ->.
      * exfalso. destruct W as [W _]. specialize (Pos _ W). lra.
      * destruct I as [I _]. destruct Hx as [->|Hx]; [lra|]. apply in_app_or in Hx. destruct Hx as [Hx|[<-|[]]]; auto.
        exfalso. destruct Wx as [Wx _]. specialize (Pos _ Wx). lra.
  - destruct IH as [[E N]|[t [E [Ht [Wt [M1 M2]]]]]].
    + left. split; auto. intros x [->|Hx]; auto.
    + right. exists t. split; auto. split; [right; auto|]. split; [auto|]. split.
      * intros [_ I] x [->|Hx] Wx; [contradiction|auto].
      * intros l' El I Pos x [->|Hx] Wx; [contradiction|]. destruct l' as [|b l']; injection El as -> ->; [destruct Ht|].
        destruct I as [_ I]. eapply M2; eauto.
Qed.

(** the part of hit after a root is chosen *)
Lemma torus_finish_spec : forall r t (rec : hit_record xr), on_torus o (pointR r t) -> h_t rec = Fin t ->
  exists rec', torus_finish (F:=XR L) (fintorus o) (finray r) rec = Ok (true, rec') /\ describes_torus o r t rec'.
Proof.
  intros r t rec On Et. unfold torus_finish. change (@num (XR L)) with xr in *. rewrite Et.
  change (ray_at (F:=XR L) (finray r) (Fin t)) with (fin3 (pointR r t)).
  change (r_dir (finray r)) with (fin3 (r_dir r)).
  set (p := pointR r t) in *. change (h_p (set_p (fin3 p) rec)) with (fin3 p).
  rewrite (torus_refine_id p (r_dir r) On).
  set (rec0 := set_p (fin3 p) (set_p (fin3 p) rec)). change (h_p rec0) with (fin3 p).
  rewrite (torus_gradient_fin p On), norm_fin.
  destruct (torus_axis p On) as [A [B [C D]]]. set (s := axis_distance o p) in *.
  assert (Hs : 0 < s) by lra. assert (HRp : 0 < o_R o) by lra.
  assert (Hk : 0 < 8 * o_R o * s) by (repeat apply Rmult_lt_0_compat; lra).
  set (w := torus_outward o p) in *. assert (Nw : normsqR w = o_r o * o_r o) by (apply torus_outward_norm; auto).
  assert (N : normR (scaleR (8 * o_R o * s) w) = 8 * o_R o * o_r o * s).
  { unfold normR. rewrite normsqR_scale, Nw.
    replace (8 * o_R o * s * (8 * o_R o * s) * (o_r o * o_r o)) with ((8 * o_R o * o_r o * s) * (8 * o_R o * o_r o * s)) by ring.
    apply sqrt_square. left. repeat apply Rmult_lt_0_compat; lra. }
  rewrite N. assert (Hg : 8 * o_R o * o_r o * s <> 0) by (apply Rgt_not_eq; repeat apply Rmult_lt_0_compat; lra).
  match goal with |- context [h_grad ?q] => change (h_grad q) with (Fin (8 * o_R o * o_r o * s)) end.
  rewrite vdiv_fin by auto.
  assert (S : scaleR (/ (8 * o_R o * o_r o * s)) (scaleR (8 * o_R o * s) w) = scaleR (/ o_r o) w).
  { unfold scaleR; cbn [vx vy vz]. apply V3_ext; field; lra. }
  rewrite S.
  destruct (torus_uv_spec p On) as [u [v [Euv [Hu [Hv Es]]]]].
  set (rec1 := set_face_normal (F:=XR L) _ _ _).
  change (h_p rec1) with (fin3 p). rewrite Euv.
  set (rec2 := torus_forms (F:=XR L) _ _). change (h_p rec2) with (fin3 p).
  assert (Q : negb (nltb (NumOps:=XR L) (torus_expected (F:=XR L) (fintorus o) (fin3 p))
     (nabs (NumOps:=XR L) (torus_residual (F:=XR L) (fintorus o) (fin3 p)))) = true).
  { pose proof (proj1 (on_torus_poly p) On) as Z. unfold rel, subR in Z; cbn [vx vy vz] in Z. cbv zeta in Z.
    unfold torus_residual, torus_expected, fintorus, fin3, map3; cbn [o_center o_R o_r vx vy vz]. xred.
    match goal with |- context [Rltb _ (Rabs ?q)] => assert (Z0 : q = 0) by lra; rewrite Z0 end.
    rewrite Rabs_R0, Rltb_false; auto. pose proof (l_eps_pos L).
    apply Rmult_le_pos; [|lra]. repeat apply Rplus_le_le_0_compat; apply Rabs_pos. }
  change (@num (XR L)) with xr in *. rewrite Q. eexists. split; [reflexivity|].
  destruct (torus_forms_spec u v) as [F1 F2].
  assert (En : scaleR (/ o_r o) w = torus_n u v).
  { unfold w. rewrite <- Es, torus_outward_spec. unfold torus_n, scaleR; cbn [vx vy vz]. apply V3_ext; field; lra. }
  unfold describes_torus. fold p. cbv zeta. fold w. fold s.
  split; [split; [exact Et|reflexivity]|].
  split; [|split; [|split; [|split]]].
  - destruct (face_normal_spec (L:=L) r w (/ o_r o) (set_grad (Fin (8 * o_R o * o_r o * s)) rec0)) as [_ FN]; [apply Rinv_0_lt_compat; auto| |].
    + apply normR_unit. rewrite normsqR_scale, Nw. field; lra.
    + apply FN; reflexivity.
  - exists u, v. split; [reflexivity|]. split; [reflexivity|]. split; [exact Hu|]. split; [exact Hv|]. rewrite Es. reflexivity.
  - reflexivity.
  - exists u, v. do 3 eexists. split; [reflexivity|]. split; [reflexivity|].
    unfold rec2, torus_forms, fintorus; cbn [h_E h_F h_G h_u h_v set_first set_second set_u set_v o_R o_r]. xred.
    split; [reflexivity|]. split; [reflexivity|]. split; [reflexivity|]. exact F1.
  - exists u, v. do 3 eexists. split; [reflexivity|]. split; [reflexivity|].
    unfold rec2, torus_forms, fintorus; cbn [h_e h_f h_g h_u h_v set_first set_second set_u set_v o_R o_r]. xred.
    split; [reflexivity|]. split; [reflexivity|]. split; [reflexivity|]. rewrite En. exact F2.
Qed.

Lemma Rltb_ge : forall x y, Rltb x y = false -> y <= x.
Proof. intros x y. destruct (Rltb_spec x y); [discriminate|auto]. Qed.

Lemma descartes : forall a b c d e t, 0 < a -> 0 <= b -> 0 <= c -> 0 <= d -> 0 <= e -> 0 < t -> quarticR a b c d e t <> 0.
Proof.
  intros a b c d e t Ha Hb Hc Hd He Ht. unfold quarticR. apply Rgt_not_eq.
  assert (0 < t ^ 2) by (apply pow_lt; auto). assert (0 < t ^ 3) by (apply pow_lt; auto). assert (0 < t ^ 4) by (apply pow_lt; auto).
  assert (0 < a * t ^ 4) by (apply Rmult_lt_0_compat; auto).
  assert (0 <= b * t ^ 3) by (apply Rmult_le_pos; lra). assert (0 <= c * t ^ 2) by (apply Rmult_le_pos; lra).
  assert (0 <= d * t) by (apply Rmult_le_pos; lra). lra.
Qed.

(** C24: with a positive lower end, exact unless the quartic is degenerate; and every
    report is correct *)
Lemma torus_exact : forall r (lo hi : xr) (rec : hit_record xr), r_dir r <> zeroR -> torus_off_threshold (l_min L) o r ->
  (forall t, at_least lo t -> 0 < t) ->
  exists b rec', torus_hit (F:=XR L) (fintorus o) (finray r) lo hi rec = Ok (b, rec') /\
    (b = true -> exists t, h_t rec' = Fin t /\ on_torus o (pointR r t) /\ in_window lo hi t /\ describes_torus o r t rec') /\
    (~ torus_degenerate o r -> if b
      then exists t, h_t rec' = Fin t /\ forall t', on_torus o (pointR r t') -> in_window lo hi t' -> t <= t'
      else forall t, on_torus o (pointR r t) -> ~ in_window lo hi t).
Proof.
  intros r lo hi rec Hd Off Pos. unfold torus_hit. rewrite torus_coeffs_fin.
  unfold torus_off_threshold, torus_degenerate in *. pose proof (torus_poly r) as Poly.
  assert (C4 : let '(c4, _, _, _, _) := torus_quartic o r in 0 < c4).
  { unfold torus_quartic. apply pow_lt. apply normsqR_pos. exact Hd. }
  destruct (torus_quartic o r) as [[[[c4 c3] c2] c1] c0].
  xred.
  destruct (negb _) eqn:Neg.
  - exists false, rec. split; auto. split; [discriminate|]. intros _ t On [W _].
    apply Poly in On. revert On. apply negb_true_iff in Neg. repeat (apply orb_false_iff in Neg; destruct Neg as [Neg ?]).
    repeat match goal with H : Rltb _ _ = false |- _ => apply Rltb_ge in H end.
    apply descartes; auto.
  - destruct (quartic_main L _ _ _ _ _ Off) as [l [E [Inc [Snd [Cpl _]]]]].
    pose proof (quartic_order L _ _ _ _ _ l Off E) as Ord.
    match goal with |- context [obind ?q _] => change q with (quartic_roots (F:=XR L) (Fin c4) (Fin c3) (Fin c2) (Fin c1) (Fin c0)) end.
    rewrite E. cbn [obind].
    destruct (pick_spec lo hi l) as [[Ep N]|[t [Ep [Ht [Wt [M1 M2]]]]]];
      change (@num (XR L)) with xr in *; rewrite Ep; cbn [h_t set_t nisnan].
    + exists false. eexists. split; [reflexivity|]. split; [discriminate|]. intros Nd t On. apply N, Cpl, Poly; auto.
    + assert (On : on_torus o (pointR r t)) by (apply Poly, Snd; auto).
      destruct (torus_finish_spec r t (set_t (Fin t) rec) On eq_refl) as [rec' [Ef D]].
      exists true, rec'. split; [exact Ef|]. split.
      * intros _. exists t. split; [apply D|]. auto.
      * intros Nd. exists t. split; [apply D|]. intros t' On' W'. apply Poly in On'. apply Cpl in On'; auto.
        destruct Ord as [I|[l' [El I]]]; [apply M1; auto|]. apply (M2 l' El I Pos); auto.
Qed.
End L.

(** *** Where the full statement fails *)
Definition small_torus : torus R := Torus zeroR 2 1.
(** the torus lies behind the origin *)
Definition away_ray : ray R := Ray (V3 10 0 0) (V3 1 0 0).
Definition toward_ray : ray R := Ray (V3 (-10) 0 0) (V3 1 0 0).

Lemma away_quartic : torus_quartic small_torus away_ray = (1, 40, 590, 3800, 9009).
Proof.
  unfold torus_quartic, small_torus, away_ray, normsqR, dotR, subR, zeroR; cbn [o_center o_R o_r r_orig r_dir vx vy vz].
  repeat match goal with |- (_, _) = (_, _) => apply f_equal2 end; ring.
Qed.
Lemma toward_quartic : torus_quartic small_torus toward_ray = (1, -40, 590, -3800, 9009).
Proof.
  unfold torus_quartic, small_torus, toward_ray, normsqR, dotR, subR, zeroR; cbn [o_center o_R o_r r_orig r_dir vx vy vz].
  repeat match goal with |- (_, _) = (_, _) => apply f_equal2 end; ring.
Qed.

(** a window reaching behind the origin: the torus is missed *)
Lemma torus_behind : forall (L : limits) (rec : hit_record xr),
  torus_hit (F:=XR L) (fintorus small_torus) (finray away_ray) (Fin (-20)) (Fin 0) rec = Ok (false, rec) /\
  on_torus small_torus (pointR away_ray (-7)).
Proof.
  intros L rec. split.
  - unfold torus_hit. rewrite torus_coeffs_fin, away_quartic. xred. rewrite !Rltb_false by lra. reflexivity.
  - apply torus_poly; [cbn; lra|cbn; lra|]. rewrite away_quartic. unfold quarticR; lra.
Qed.

(** the depressed quartic of these rays is y^4 - 10 y^2 + 9 *)
Lemma toward_off : forall m, 0 < m < 1 -> torus_off_threshold m small_torus toward_ray /\ ~ torus_degenerate small_torus toward_ray.
Proof.
  intros m Hm. unfold torus_off_threshold, torus_degenerate. rewrite toward_quartic.
  assert (Ep : qrt_p 1 (-40) 590 = -10) by (unfold qrt_p; field).
  assert (Eq : qrt_q 1 (-40) 590 (-3800) = 0) by (unfold qrt_q; field).
  assert (Er : qrt_r 1 (-40) 590 (-3800) 9009 = 9) by (unfold qrt_r; field).
  split.
  - unfold quartic_off_threshold. rewrite Ep, Eq, Er. cbv zeta. unfold off_threshold.
    repeat split; intros; try lra; try (right; rewrite Rabs_right by lra; lra); try (right; rewrite Rabs_left by lra; lra); left; reflexivity.
  - unfold quartic_degenerate. rewrite Er. intros [[H _]|[[_ [H _]]|[_ [_ [H _]]]]]; lra.
Qed.

(** a miss overwrites rec.t *)
Lemma torus_miss_overwrites : forall (L : limits) (lo hi : xr) (rec : hit_record xr), l_min L < 1 ->
  (forall x, in_window lo hi x -> x < 7 \/ 13 < x) ->
  torus_hit (F:=XR L) (fintorus small_torus) (finray toward_ray) lo hi rec = Ok (false, set_t NaN rec).
Proof.
  intros L lo hi rec Hm HW. destruct (toward_off (l_min L) (conj (l_min_pos L) Hm)) as [Off Nd].
  unfold torus_hit. rewrite torus_coeffs_fin. unfold torus_off_threshold, torus_degenerate in *. rewrite toward_quartic in *.
  xred. rewrite (Rltb_true (-40)) by lra. cbn [orb negb].
  destruct (quartic_main L _ _ _ _ _ Off) as [l [E [_ [Snd _]]]].
  match goal with |- context [obind ?q _] => change q with (quartic_roots (F:=XR L) (Fin 1) (Fin (-40)) (Fin 590) (Fin (-3800)) (Fin 9009)) end.
  rewrite E. cbn [obind].
  destruct (pick_spec (L:=L) lo hi l) as [[Ep N]|[t [Ep [Ht [Wt _]]]]];
    change (@num (XR L)) with xr in *; rewrite Ep; cbn [h_t set_t nisnan]; [reflexivity|].
  exfalso. specialize (Snd t Ht). unfold quarticR in Snd. apply HW in Wt.
  assert (G : (t - 7) * (t - 9) * ((t - 11) * (t - 13)) = 0) by (rewrite <- Snd; ring).
  assert (0 < (t - 7) * (t - 9)) by (destruct Wt; nra).
  assert (0 < (t - 11) * (t - 13)) by (destruct Wt; nra).
  assert (0 < (t - 7) * (t - 9) * ((t - 11) * (t - 13))) by (apply Rmult_lt_0_compat; auto). lra.
Qed.

(** a tangent ray whose quartic 25 (t-1)^2 (t-2) (t-4) reduces to a cubic with a double root *)
Definition graze_torus : torus R := Torus zeroR (5 / 2) (sqrt 5).
Definition graze_ray : ray R := Ray (V3 (- (7 / 2)) 0 (-3)) (V3 2 0 1).
Lemma graze_quartic : torus_quartic graze_torus graze_ray = (25, -200, 525, -550, 200).
Proof.
  unfold torus_quartic, graze_torus, graze_ray, normsqR, dotR, subR, zeroR; cbn [o_center o_R o_r r_orig r_dir vx vy vz].
  assert (S : sqrt 5 ^ 2 = 5) by (cbn; rewrite Rmult_1_r; apply sqrt_sqrt; lra). rewrite !S.
  repeat match goal with |- (_, _) = (_, _) => apply f_equal2 end; field.
Qed.
Lemma graze_radii : 0 < o_r graze_torus /\ o_r graze_torus < o_R graze_torus.
Proof.
  cbn. split; [apply sqrt_lt_R0; lra|]. replace (5 / 2) with (sqrt (5 / 2 * (5 / 2))) by (apply sqrt_square; lra).
  apply sqrt_lt_1; lra.
Qed.
Lemma graze_off : forall m, 0 < m < 1 -> torus_off_threshold m graze_torus graze_ray /\ torus_degenerate graze_torus graze_ray.
Proof.
  intros m Hm. unfold torus_off_threshold, torus_degenerate. rewrite graze_quartic.
  assert (Ep : qrt_p 25 (-200) 525 = -3) by (unfold qrt_p; field).
  assert (Eq : qrt_q 25 (-200) 525 (-550) = -2) by (unfold qrt_q; field).
  assert (Er : qrt_r 25 (-200) 525 (-550) 200 = 0) by (unfold qrt_r; field).
  split.
  - unfold quartic_off_threshold, cubic_off_threshold. rewrite Ep, Eq, Er. cbv zeta. unfold off_threshold.
    assert (Ei : cubic_inflection 1 0 (-3) (-2) = -1) by (unfold cubic_inflection; field).
    assert (M3 : 0 < m ^ 3 < 1).
    { split; [apply pow_lt; lra|]. cbn. assert (m * m < 1) by nra. assert (0 < m * m) by nra. nra. }
    repeat split; intros; try lra; try (left; lra); try (right; rewrite Rabs_right by lra; lra); try (right; rewrite Rabs_left by lra; lra).
  - unfold quartic_degenerate. right; right. rewrite Ep, Eq, Er. repeat split; try lra.
    unfold cubic_double_root, cubic_discriminant. repeat split; lra.
Qed.

Lemma torus_grazed : forall L : limits, l_min L < 1 -> exists t, 0 < t /\ on_torus graze_torus (pointR graze_ray t) /\
  forall rec : hit_record xr, exists rec',
    torus_hit (F:=XR L) (fintorus graze_torus) (finray graze_ray) (Fin t) (Fin t) rec = Ok (false, rec').
Proof.
  intros L Hm. destruct (graze_off (l_min L) (conj (l_min_pos L) Hm)) as [Off Dg]. destruct graze_radii as [R1 R2].
  pose proof (torus_poly graze_torus R1 R2 graze_ray) as Poly.
  unfold torus_off_threshold, torus_degenerate in *. rewrite graze_quartic in *.
  destruct (quartic_main L _ _ _ _ _ Off) as [l [E [_ [_ [_ Miss]]]]]. destruct (Miss Dg) as [t [Ht Nt]].
  exists t. assert (Pt : 0 < t).
  { destruct (Rlt_or_le 0 t) as [|K]; auto. exfalso. unfold quarticR in Ht.
    assert (G : 25 * ((t - 1) * (t - 1)) * ((t - 2) * (t - 4)) = 0) by (rewrite <- Ht; ring).
    assert (0 < (t - 1) * (t - 1)) by nra. assert (0 < (t - 2) * (t - 4)) by nra.
    assert (0 < 25 * ((t - 1) * (t - 1)) * ((t - 2) * (t - 4))) by (apply Rmult_lt_0_compat; lra). lra. }
  split; auto. split; [apply Poly; auto|]. intros rec. unfold torus_hit. rewrite torus_coeffs_fin, graze_quartic.
  xred. rewrite (Rltb_true (-200)) by lra. cbn [orb negb].
  match goal with |- context [obind ?q _] => change q with (quartic_roots (F:=XR L) (Fin 25) (Fin (-200)) (Fin 525) (Fin (-550)) (Fin 200)) end.
  rewrite E. cbn [obind].
  destruct (pick_spec (L:=L) (Fin t) (Fin t) l) as [[Ep N]|[t' [Ep [Ht' [Wt _]]]]];
    change (@num (XR L)) with xr in *; rewrite Ep; cbn [h_t set_t nisnan].
  - eexists. reflexivity.
  - exfalso. apply Nt. unfold in_window in Wt; cbn in Wt. replace t with t' by lra. auto.
Qed.
