(** The example programs: the lamp behind the camera, the shape of the pixels, and the scenes. *)
From Coq Require Import Reals Lra ZArith Lia List Bool.
From Verif Require Import Spec_Random Num XR Spec Spec_Scene Spec_Light Spec_Shapes Spec_Image Spec_World Spec_Programs M_Vec M_Rng M_Hittable M_Materials M_Shapes M_Surfaces M_Image M_World M_Programs
  P_Vec P_Flat P_Camera P_Furnace.
Import ListNotations.
Local Open Scope R_scope.

(** ** The lamp *)
Lemma backlight_hidden : forall (L : limits) (from at_ up : vec3 R) (vfov aspect radius : R), from <> at_ -> crossR up (subR from at_) <> zeroR -> 0 < vfov < 180 ->
  0 < radius -> l_min L < 1 ->
  let cam := make_camera (F:=XR L) (fin3 from) (fin3 at_) (fin3 up) (Fin vfov) (Fin aspect) in
  exists lamp, make_disk (F:=XR L) (Fin radius) (fst (backlight (F:=XR L) cam)) (snd (backlight (F:=XR L) cam)) = Ok lamp /\
  forall s t a (hi : xr) (rec : hit_record xr), 0 <= a -> hi <> NaN ->
  hit (of_disk (F:=XR L) lamp) (get_ray (F:=XR L) cam (Fin s) (Fin t)) (Fin a) hi rec = Ok (false, rec).
Proof.
  intros L from at_ up vfov aspect radius N C V Hr Hm cam.
  destruct (backlight_correct (L:=L) from at_ up vfov aspect N C V) as (o & d & E & Eo & Nd & k & Hk & Ek).
  destruct (camera_frame (L:=L) from at_ up vfov aspect N C V) as (u & v & w & Nu & Nv & Nw & Uv & Uw & Vw & _ & (k' & Hk' & Ew) & _ & _ & G).
  destruct (make_disk_ok (L:=L) radius o d Nd Hm) as (e1 & e2 & Fr & Ed).
  fold cam in E. rewrite E. cbn [fst snd]. eexists. split; [exact Ed|].
  intros s t a hi rec Ha Hh. unfold cam. rewrite G.
  set (D := subR _ w). change (Ray (fin3 from) (fin3 D)) with (finray (Ray from D)).
  destruct (disk_contract (L:=L) radius o e1 e2 d (Ray from D) Hr Fr) as [Hc Hq].
  assert (Ek2 : scaleR k d = subR at_ from).
  { destruct from as [f1 f2 f3], at_ as [a1 a2 a3], o as [o1 o2 o3], d as [d1 d2 d3]. unfold subR, addR, scaleR in *; cbn [vx vy vz] in *. injection Eo as ? ? ?. injection Ek as ? ? ?. apply V3_ext; lra. }
  assert (Ew2 : w = scaleR (- (k' * k)) d).
  { rewrite Ew. replace (subR from at_) with (scaleR (-1) (subR at_ from)) by (unfold subR, scaleR; cbn; apply V3_ext; ring). rewrite <- Ek2. unfold scaleR; cbn [vx vy vz]; apply V3_ext; ring. }
  pose proof (unit_normsq d Nd) as Qd. pose proof (unit_normsq w Nw) as Qw.
  assert (Kk : k' * k = 1).
  { assert ((k' * k) * (k' * k) = 1) by (rewrite Ew2 in Qw; unfold normsqR, dotR, scaleR in *; cbn [vx vy vz] in *; nra). assert (0 < k' * k) by (apply Rmult_lt_0_compat; lra). nra. }
  assert (Wd : w = scaleR (-1) d) by (rewrite Ew2, Kk; unfold scaleR; cbn; apply V3_ext; ring).
  assert (Dd : dotR D d = 1).
  { assert (Ud : dotR u d = 0) by (rewrite Wd in Uw; unfold dotR, scaleR in *; cbn [vx vy vz] in *; lra).
    assert (Vd : dotR v d = 0) by (rewrite Wd in Vw; unfold dotR, scaleR in *; cbn [vx vy vz] in *; lra).
    unfold D. set (p := aspect * _ * _). set (q := tan _ * _).
    replace (dotR (subR (addR (scaleR p u) (scaleR q v)) w) d) with (p * dotR u d + q * dotR v d - dotR w d) by (unfold dotR, subR, addR, scaleR; cbn [vx vy vz]; ring).
    rewrite Ud, Vd, Wd. unfold normsqR, dotR, scaleR in *; cbn [vx vy vz] in *. lra. }
  destruct (Hc (Fin a) hi rec ltac:(discriminate) Hh) as (b & rec' & Eh & B). destruct b.
  - exfalso. destruct B as (t' & _ & [_ [Pl _]] & [W1 _] & _). cbn in W1.
    assert (K : dotR (subR (pointR (Ray from D) t') o) d = k * normsqR d + t' * dotR D d).
    { rewrite <- Ek. unfold pointR, lineR, addR, subR, scaleR, dotR, normsqR, dotR; cbn [r_orig r_dir vx vy vz]. ring. }
    rewrite Pl, Dd, Qd in K. lra.
  - rewrite Eh. rewrite (Hq _ _ _ _ Eh). reflexivity.
Qed.

(** ** The pixels *)
Lemma pixel_u_eq : forall (L : limits) n i x, (2 <= n)%Z -> pixel_u (F:=XR L) n i (Fin x) = Fin ((IZR i + x) / (IZR n - 1)).
Proof.
  intros L n i x Hn. pose proof (IZR_le _ _ Hn). unfold pixel_u. cbn [nadd nofZ ndiv XR xadd]. rewrite xdiv_fin by (rewrite minus_IZR; lra). rewrite minus_IZR. reflexivity.
Qed.
Lemma pixel_v_eq : forall (L : limits) n i x, (2 <= n)%Z -> pixel_v (F:=XR L) n i (Fin x) = Fin ((IZR i + x) / (IZR n - 1)).
Proof.
  intros L n i x Hn. pose proof (IZR_le _ _ Hn). unfold pixel_v. cbn [nadd nofZ ndiv XR xadd]. rewrite xdiv_fin by (rewrite minus_IZR; lra). rewrite minus_IZR. reflexivity.
Qed.
Lemma normR_scale_unit : forall k u, 0 <= k -> normR u = 1 -> normR (scaleR k u) = k.
Proof.
  intros k u Hk Hu. pose proof (unit_normsq u Hu) as Q. unfold normR. replace (normsqR (scaleR k u)) with (k * k * normsqR u) by (unfold normsqR, dotR, scaleR; cbn; ring).
  rewrite Q, Rmult_1_r. apply sqrt_square. exact Hk.
Qed.
Lemma pixels : forall (L : limits) (from at_ up : vec3 R) (vfov aspect : R) (width height : Z), from <> at_ -> crossR up (subR from at_) <> zeroR -> 0 < vfov < 180 -> 0 < aspect ->
  (2 <= width)%Z -> (2 <= height)%Z ->
  let cam := make_camera (F:=XR L) (fin3 from) (fin3 at_) (fin3 up) (Fin vfov) (Fin aspect) in
  exists right above d0, (forall i j x y, get_ray (F:=XR L) cam (pixel_u (F:=XR L) width i (Fin x)) (pixel_v (F:=XR L) height j (Fin y)) =
      Ray (fin3 from) (fin3 (addR d0 (addR (scaleR (IZR i + x) right) (scaleR (IZR j + y) above))))) /\
    dotR right above = 0 /\ 0 < normR above /\ 0 < normR right /\ normR right * (IZR width - 1) = aspect * (IZR height - 1) * normR above /\ (normR right = normR above <-> aspect * (IZR height - 1) = IZR width - 1).
Proof.
  intros L from at_ up vfov aspect width height N C V A Hw Hh cam.
  destruct (camera_frame (L:=L) from at_ up vfov aspect N C V) as (u & v & w & Nu & Nv & Nw & Uv & Uw & Vw & _ & _ & _ & _ & G).
  pose proof PI_RGT_0 as Pp. pose proof (IZR_le _ _ Hw) as W2. pose proof (IZR_le _ _ Hh) as H2.
  assert (T : 0 < tan (vfov * PI / 360)) by (apply tan_gt_0; nra).
  set (h := tan (vfov * PI / 360)) in *.
  exists (scaleR (2 * aspect * h / (IZR width - 1)) u), (scaleR (2 * h / (IZR height - 1)) v), (subR (scaleR (-1) (addR (scaleR (aspect * h) u) (scaleR h v))) w).
  split; [|split; [|split; [|split; [|split]]]].
  - intros i j x y. rewrite pixel_u_eq, pixel_v_eq by assumption. unfold cam. rewrite G. fold h. do 2 f_equal. unfold subR, addR, scaleR; cbn [vx vy vz]. apply V3_ext; field; lra.
  - transitivity ((2 * aspect * h / (IZR width - 1)) * (2 * h / (IZR height - 1)) * dotR u v); [unfold dotR, scaleR; cbn; ring|rewrite Uv; ring].
  - rewrite normR_scale_unit by (try exact Nv; apply Rlt_le, Rdiv_lt_0_compat; nra). apply Rdiv_lt_0_compat; nra.
  - rewrite normR_scale_unit by (try exact Nu; apply Rlt_le, Rdiv_lt_0_compat; nra). apply Rdiv_lt_0_compat; nra.
  - rewrite !normR_scale_unit by (try assumption; apply Rlt_le, Rdiv_lt_0_compat; nra). field. lra.
  - rewrite !normR_scale_unit by (try assumption; apply Rlt_le, Rdiv_lt_0_compat; nra).
    split; intros E.
    + apply Rmult_eq_reg_l with (2 * h); [|lra]. replace (2 * h * (aspect * (IZR height - 1))) with (2 * aspect * h / (IZR width - 1) * ((IZR width - 1) * (IZR height - 1))) by (field; lra). rewrite E. field. lra.
    + rewrite <- E. field. split; nra.
Qed.
Lemma pixels_proportional : forall aspect w h, 2 <= w -> 2 <= h -> aspect = w / h -> (aspect * (h - 1) = w - 1 <-> w = h).
Proof.
  intros aspect w h Hw Hh ->. split; intros E.
  - assert (w / h * (h - 1) * h = (w - 1) * h) by (rewrite E; reflexivity). replace (w / h * (h - 1) * h) with (w * (h - 1)) in H by (field; lra). lra.
  - subst w. field. lra.
Qed.

Lemma pixel_shape : forall (L : limits) (from at_ up : vec3 R) (vfov aspect : R) (width height : Z), from <> at_ -> crossR up (subR from at_) <> zeroR -> 0 < vfov < 180 -> 0 < aspect ->
  (2 <= width)%Z -> (2 <= height)%Z -> exists right above,
    pixel_steps (make_camera (F:=XR L) (fin3 from) (fin3 at_) (fin3 up) (Fin vfov) (Fin aspect)) width height right above /\
    dotR right above = 0 /\ 0 < normR right /\ 0 < normR above /\ normR right * (IZR width - 1) = aspect * (IZR height - 1) * normR above /\
    (normR right = normR above <-> aspect * (IZR height - 1) = IZR width - 1).
Proof.
  intros L from at_ up vfov aspect width height N C V A W H.
  destruct (pixels L from at_ up vfov aspect width height N C V A W H) as (right & above & d0 & G & O & Pa & Pr & E & I).
  exists right, above. split; [|auto]. intros i j x y. exists (fin3 from), (addR d0 (addR (scaleR (IZR i + x) right) (scaleR (IZR j + y) above))). rewrite !G, !plus_IZR.
  split; [reflexivity|]. split; do 2 f_equal; unfold addR, scaleR; cbn [vx vy vz]; apply V3_ext; ring.
Qed.
Lemma pixel_shape_proportional : forall (L : limits) (from at_ up : vec3 R) (vfov : R) (width height : Z), from <> at_ -> crossR up (subR from at_) <> zeroR -> 0 < vfov < 180 ->
  (2 <= width)%Z -> (2 <= height)%Z -> exists right above,
    pixel_steps (make_camera (F:=XR L) (fin3 from) (fin3 at_) (fin3 up) (Fin vfov) (Fin (IZR width / IZR height))) width height right above /\
    (normR right = normR above <-> width = height).
Proof.
  intros L from at_ up vfov width height N C V W H. pose proof (IZR_le _ _ W) as W2. pose proof (IZR_le _ _ H) as H2.
  destruct (pixel_shape L from at_ up vfov (IZR width / IZR height) width height N C V ltac:(apply Rdiv_lt_0_compat; lra) W H) as (right & above & P & _ & _ & _ & _ & I).
  exists right, above. split; [exact P|]. rewrite I, (pixels_proportional _ (IZR width) (IZR height) W2 H2 eq_refl). split; [apply eq_IZR|intros ->; reflexivity].
Qed.
