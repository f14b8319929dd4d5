(** The camera in exact arithmetic. *)
From Coq Require Import Reals Lra List.
From Verif Require Import Num XR Spec M_Vec M_Image P_Vec.
Local Open Scope R_scope.

Section Camera.
Context {L : limits}.
Variables (from at_ up : vec3 R) (vfov aspect : R).
Hypothesis Hat : from <> at_.
Hypothesis Hup : crossR up (subR from at_) <> zeroR.
Hypothesis Hfov : 0 < vfov < 180.
Let D := subR from at_.
Let w := scaleR (/ normR D) D.
Let u0 := crossR up w.
Let u := scaleR (/ normR u0) u0.
Let v := crossR w u.
Let h := tan (vfov * PI / 360).
Notation cam := (make_camera (F:=XR L) (fin3 from) (fin3 at_) (fin3 up) (Fin vfov) (Fin aspect)).

Lemma D_nonzero : D <> zeroR.
Proof.
  unfold D, subR, zeroR. intros E. apply Hat. destruct from as [a b c], at_ as [d e f]. cbn in E. injection E as E1 E2 E3. f_equal; lra.
Qed.
Lemma w_unit : normR w = 1.
Proof. apply normR_normalized. exact D_nonzero. Qed.
Lemma cross_scale : forall a b k, crossR a (scaleR k b) = scaleR k (crossR a b).
Proof. intros a b k. unfold crossR, scaleR. cbn. apply V3_ext; ring. Qed.
Lemma scale_zero : forall k a, scaleR k a = zeroR -> k <> 0 -> a = zeroR.
Proof.
  intros k [a b c] E K. unfold scaleR, zeroR in *. cbn in E. injection E as E1 E2 E3.
  apply Rmult_integral in E1, E2, E3. destruct E1, E2, E3; try contradiction. apply V3_ext; auto.
Qed.
Lemma u0_nonzero : u0 <> zeroR.
Proof.
  unfold u0, w. rewrite cross_scale. intros E. apply scale_zero in E; [apply Hup; exact E|].
  apply Rinv_neq_0_compat. pose proof (normR_pos D D_nonzero). lra.
Qed.
Lemma u_unit : normR u = 1.
Proof. apply normR_normalized. exact u0_nonzero. Qed.
Lemma dot_cross_l : forall a b, dotR (crossR a b) a = 0.
Proof. intros a b. unfold dotR, crossR. cbn. ring. Qed.
Lemma dot_cross_r : forall a b, dotR (crossR a b) b = 0.
Proof. intros a b. unfold dotR, crossR. cbn. ring. Qed.
Lemma dot_scale_l : forall k a b, dotR (scaleR k a) b = k * dotR a b.
Proof. intros k a b. unfold dotR, scaleR. cbn. ring. Qed.
Lemma dot_comm : forall a b, dotR a b = dotR b a.
Proof. intros a b. unfold dotR. ring. Qed.
Lemma u_w : dotR u w = 0.
Proof. unfold u. rewrite dot_scale_l. unfold u0. rewrite dot_cross_r. ring. Qed.
Lemma u_up : dotR u up = 0.
Proof. unfold u. rewrite dot_scale_l. unfold u0. rewrite dot_cross_l. ring. Qed.
Lemma lagrange : forall a b, normsqR (crossR a b) = normsqR a * normsqR b - dotR a b * dotR a b.
Proof. intros a b. unfold normsqR, dotR, crossR. cbn. ring. Qed.
Lemma v_unit : normR v = 1.
Proof.
  apply normR_unit. unfold v. rewrite lagrange. rewrite (unit_normsq _ w_unit), (unit_normsq _ u_unit), dot_comm, u_w. ring.
Qed.
Lemma triple : forall a b c, crossR a (crossR b c) = subR (scaleR (dotR a c) b) (scaleR (dotR a b) c).
Proof. intros a b c. unfold crossR, subR, scaleR, dotR. cbn. apply V3_ext; ring. Qed.
Lemma one_zero : forall a b, subR (scaleR 1 a) (scaleR 0 b) = a.
Proof. intros [x y z] b. unfold subR, scaleR. cbn. apply V3_ext; ring. Qed.
Lemma right_handed : crossR u v = w.
Proof.
  unfold v. rewrite triple. rewrite u_w. assert (E : dotR u u = 1) by (apply (unit_normsq _ u_unit)). rewrite E. apply one_zero.
Qed.
Lemma triple_dot : forall a b c, dotR (crossR a b) c = dotR b (crossR c a).
Proof. intros a b c. unfold dotR, crossR. cbn. ring. Qed.
Lemma v_up : 0 < dotR v up.
Proof.
  assert (E : dotR v up = dotR u u0) by (unfold v; rewrite triple_dot; reflexivity). rewrite E. unfold u. rewrite dot_scale_l.
  apply Rmult_lt_0_compat; [apply Rinv_0_lt_compat; apply normR_pos; exact u0_nonzero|]. apply (normsqR_pos u0 u0_nonzero).
Qed.
Lemma half_angle : 0 < vfov * PI / 360 < PI / 2.
Proof. pose proof PI_RGT_0. split; [|]; nra. Qed.
Lemma h_pos : 0 < h.
Proof. unfold h. apply tan_gt_0; apply half_angle. Qed.
Lemma camera_eq : cam = Camera (F:=XR L) (fin3 from) (fin3 (subR (subR (subR from (scaleR (/ 2) (scaleR (aspect * (2 * h)) u))) (scaleR (/ 2) (scaleR (2 * h) v))) w))
  (fin3 (scaleR (aspect * (2 * h)) u)) (fin3 (scaleR (2 * h) v)) (fin3 at_).
Proof.
  assert (Ew : normalize (F:=XR L) (vsub (F:=XR L) (fin3 from) (fin3 at_)) = fin3 w) by (rewrite vsub_fin, normalize_fin by exact D_nonzero; reflexivity).
  assert (Eu : normalize (F:=XR L) (cross (F:=XR L) (fin3 up) (fin3 w)) = fin3 u) by (rewrite cross_fin, normalize_fin by exact u0_nonzero; reflexivity).
  assert (Eh : ntan (NumOps:=XR L) (ndiv (NumOps:=XR L) (ndiv (NumOps:=XR L) (nmul (NumOps:=XR L) (Fin vfov) (npi (NumOps:=XR L))) (nofZ (NumOps:=XR L) 180)) (nofZ (NumOps:=XR L) 2)) = Fin h).
  { cbn [ntan ndiv nmul npi nofZ XR]. cbn [xmul]. rewrite xdiv_fin by lra. rewrite xdiv_fin by lra. cbn [xtan].
    replace (vfov * PI / 180 / 2) with (vfov * PI / 360) by field. destruct (Req_EM_T _ _) as [E|_]; [|reflexivity].
    exfalso. pose proof (cos_gt_0 (vfov * PI / 360)). pose proof half_angle. lra. }
  unfold make_camera. cbv zeta. rewrite Ew, Eu, Eh. rewrite cross_fin.
  change (nmul (NumOps:=XR L) (nofZ (NumOps:=XR L) 2) (Fin h)) with (Fin (2 * h)).
  change (nmul (NumOps:=XR L) (Fin aspect) (Fin (2 * h))) with (Fin (aspect * (2 * h))).
  rewrite !vscale_fin. change (nofZ (NumOps:=XR L) 2) with (Fin 2). rewrite !vdiv_fin by lra. rewrite !vsub_fin. reflexivity.
Qed.
Lemma ray_alg : forall f p q r a b s t,
  subR (addR (addR (subR (subR (subR f (scaleR (/ 2) (scaleR (a * (2 * b)) p))) (scaleR (/ 2) (scaleR (2 * b) q))) r) (scaleR s (scaleR (a * (2 * b)) p)))
    (scaleR t (scaleR (2 * b) q))) f = subR (addR (scaleR (a * b * (2 * s - 1)) p) (scaleR (b * (2 * t - 1)) q)) r.
Proof. intros. unfold subR, addR, scaleR. cbn. apply V3_ext; field. Qed.
Lemma centre_alg : forall f a d k x p q, k <> 0 -> d = subR f a -> addR f (scaleR k (subR (addR (scaleR (x * 0) p) (scaleR (x * 0) q)) (scaleR (/ k) d))) = a.
Proof.
  intros f [a b c] d k x p q K ->. unfold subR, addR, scaleR. cbn. apply V3_ext; field; exact K.
Qed.
Lemma ray_eq : forall s t, get_ray (F:=XR L) cam (Fin s) (Fin t) =
  Ray (fin3 from) (fin3 (subR (addR (scaleR (aspect * h * (2 * s - 1)) u) (scaleR (h * (2 * t - 1)) v)) w)).
Proof.
  intros s t. rewrite camera_eq. unfold get_ray. cbn [cam_origin cam_lower_left cam_horizontal cam_vertical].
  rewrite !vscale_fin, !vadd_fin, vsub_fin. f_equal. f_equal. apply ray_alg.
Qed.
Lemma camera_frame : exists u v w : vec3 R,
  normR u = 1 /\ normR v = 1 /\ normR w = 1 /\ dotR u v = 0 /\ dotR u w = 0 /\ dotR v w = 0 /\ crossR u v = w /\
  (exists k, 0 < k /\ w = scaleR k (subR from at_)) /\ dotR u up = 0 /\ 0 < dotR v up /\
  forall s t, get_ray (F:=XR L) cam (Fin s) (Fin t) =
    Ray (fin3 from) (fin3 (subR (addR (scaleR (aspect * tan (vfov * PI / 360) * (2 * s - 1)) u) (scaleR (tan (vfov * PI / 360) * (2 * t - 1)) v)) w)).
Proof.
  exists u, v, w. split; [exact u_unit|]. split; [exact v_unit|]. split; [exact w_unit|].
  split; [unfold v; rewrite dot_comm; apply dot_cross_r|]. split; [exact u_w|]. split; [unfold v; apply dot_cross_l|].
  split; [exact right_handed|]. split; [|split; [exact u_up|split; [exact v_up|exact ray_eq]]].
  exists (/ normR D). split; [apply Rinv_0_lt_compat; apply normR_pos; exact D_nonzero|reflexivity].
Qed.
Lemma camera_centre : exists d k, get_ray (F:=XR L) cam (Fin (1 / 2)) (Fin (1 / 2)) = Ray (fin3 from) (fin3 d) /\ 0 < k /\ addR from (scaleR k d) = at_.
Proof.
  rewrite ray_eq. eexists. exists (normR D). split; [reflexivity|]. pose proof (normR_pos D D_nonzero) as P. split; [exact P|].
  replace (2 * (1 / 2) - 1) with 0 by field. rewrite (Rmult_comm aspect h), Rmult_assoc, !Rmult_0_r. rewrite <- (Rmult_0_r 0). apply centre_alg; [lra|reflexivity].
Qed.
Lemma camera_fov : exists a b, get_ray (F:=XR L) cam (Fin (1 / 2)) (Fin 0) = Ray (fin3 from) (fin3 a) /\
  get_ray (F:=XR L) cam (Fin (1 / 2)) (Fin 1) = Ray (fin3 from) (fin3 b) /\ dotR a b = cos (vfov * PI / 180) * (normR a * normR b).
Proof.
  rewrite !ray_eq. do 2 eexists. split; [reflexivity|]. split; [reflexivity|].
  replace (2 * (1 / 2) - 1) with 0 by field. replace (2 * 0 - 1) with (-1) by ring. replace (2 * 1 - 1) with 1 by ring.
  assert (A : forall k, normsqR (subR (addR (scaleR (aspect * h * 0) u) (scaleR (h * k) v)) w) = h * h * (k * k) + 1).
  { intros k. assert (Ev : normsqR v = 1) by (apply unit_normsq, v_unit). assert (Ew : normsqR w = 1) by (apply unit_normsq, w_unit).
    assert (Evw : dotR v w = 0) by (unfold v; apply dot_cross_l).
    replace (normsqR (subR (addR (scaleR (aspect * h * 0) u) (scaleR (h * k) v)) w)) with (h * h * (k * k) * normsqR v - 2 * h * k * dotR v w + normsqR w)
      by (unfold normsqR, dotR, subR, addR, scaleR; cbn; ring). rewrite Ev, Ew, Evw. ring. }
  assert (B : dotR (subR (addR (scaleR (aspect * h * 0) u) (scaleR (h * -1) v)) w) (subR (addR (scaleR (aspect * h * 0) u) (scaleR (h * 1) v)) w) = 1 - h * h).
  { assert (Ev : normsqR v = 1) by (apply unit_normsq, v_unit). assert (Ew : normsqR w = 1) by (apply unit_normsq, w_unit).
    match goal with |- ?l = _ => replace l with (normsqR w - h * h * normsqR v) by (unfold normsqR, dotR, subR, addR, scaleR; cbn; ring) end. rewrite Ev, Ew. ring. }
  rewrite B. assert (N : normR (subR (addR (scaleR (aspect * h * 0) u) (scaleR (h * -1) v)) w) * normR (subR (addR (scaleR (aspect * h * 0) u) (scaleR (h * 1) v)) w) = 1 + h * h).
  { unfold normR. rewrite !A. replace (h * h * (-1 * -1) + 1) with (1 + h * h) by ring. replace (h * h * (1 * 1) + 1) with (1 + h * h) by ring. apply sqrt_sqrt. nra. }
  rewrite N. replace (vfov * PI / 180) with (2 * (vfov * PI / 360)) by field. rewrite cos_2a. unfold h, tan.
  pose proof (cos_gt_0 (vfov * PI / 360)) as C. pose proof half_angle. assert (C0 : cos (vfov * PI / 360) <> 0) by lra.
  pose proof (sin2_cos2 (vfov * PI / 360)) as S. unfold Rsqr in S. set (c := cos (vfov * PI / 360)) in *. set (sn := sin (vfov * PI / 360)) in *.
  assert (K : 1 + sn / c * (sn / c) = / (c * c)).
  { apply (Rmult_eq_reg_r (c * c)); [|nra]. field_simplify; [|exact C0|exact C0]. lra. }
  rewrite K. apply (Rmult_eq_reg_r (c * c)); [|nra]. field_simplify; [|exact C0|exact C0]. reflexivity.
Qed.
Lemma backlight_correct : exists o d, backlight (F:=XR L) cam = (fin3 o, fin3 d) /\ subR o from = subR from at_ /\ normR d = 1 /\
  exists k, 0 < k /\ addR o (scaleR k d) = from.
Proof.
  rewrite camera_eq. unfold backlight. cbn [cam_origin cam_lookat].
  assert (N : subR at_ from <> zeroR).
  { intros E. apply Hat. destruct from as [a b c], at_ as [d e f]. unfold subR, zeroR in E. cbn in E. injection E as E1 E2 E3. f_equal; lra. }
  change (nofZ (NumOps:=XR L) 2) with (Fin 2). rewrite vscale_fin, !vsub_fin, normalize_fin by exact N.
  do 2 eexists. split; [reflexivity|]. split; [unfold subR, scaleR; cbn; apply V3_ext; ring|]. split; [apply normR_normalized; exact N|].
  pose proof (normR_pos _ N) as P. exists (normR (subR at_ from)). split; [exact P|].
  unfold addR, scaleR. cbn. destruct from as [a b c] eqn:E. cbn. assert (Q : normR (subR at_ (V3 a b c)) <> 0) by lra.
  apply V3_ext; field_simplify; try exact Q; ring.
Qed.
End Camera.
