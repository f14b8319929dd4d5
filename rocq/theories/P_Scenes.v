(** Concrete scenes: where the list and the hierarchy go wrong (C40, C41), and the
    hierarchy over spheres. *)
From Coq Require Import Reals Lra ZArith List Bool Permutation.
From Verif Require Import Num XR Spec M_Vec M_Hittable M_Shapes Spec_Scene Spec_Shapes
  P_Vec P_Quadratic P_Box P_Surround P_List P_BVH P_Sphere P_Torus.
Import ListNotations.
Local Open Scope R_scope.

(** a coordinate along the ray stays in [m,M] on the side [e] of t *)
Lemma side_stays : forall m M o d t e, m <= o + t * d <= M -> (o + t * d = M -> e * d <= 0) -> (o + t * d = m -> 0 <= e * d) ->
  exists k, 0 < k /\ forall s, 0 < s < k -> m <= o + (t + e * s) * d <= M.
Proof.
  intros m M o d t e H HM Hm. set (x := o + t * d) in *.
  assert (X : forall s, o + (t + e * s) * d = x + s * (e * d)) by (intros; unfold x; ring).
  set (w := e * d) in *. clearbody x w.
  destruct (Req_dec w 0) as [->|Nw].
  { exists 1. split; [lra|]. intros s _. rewrite X. lra. }
  assert (A : 0 < Rabs w) by (apply Rabs_pos_lt; auto).
  assert (B : forall s y, 0 < s < y / Rabs w -> s * Rabs w < y).
  { intros s y [_ S]. apply Rmult_lt_compat_r with (r := Rabs w) in S; auto. unfold Rdiv in S. rewrite Rmult_assoc, Rinv_l, Rmult_1_r in S by lra. auto. }
  destruct (Rtotal_order w 0) as [Lw|[Ew|Gw]]; [|contradiction|].
  - destruct (Req_dec x m) as [->|Nx]; [exfalso; specialize (Hm eq_refl); lra|].
    exists ((x - m) / Rabs w). split; [apply Rmult_lt_0_compat; [lra|apply Rinv_0_lt_compat; auto]|].
    intros s Hs. rewrite X. pose proof (B s _ Hs) as K. rewrite Rabs_left in K by auto. split; [lra|]. assert (s * w <= 0) by nra. lra.
  - destruct (Req_dec x M) as [->|Nx]; [exfalso; specialize (HM eq_refl); lra|].
    exists ((M - x) / Rabs w). split; [apply Rmult_lt_0_compat; [lra|apply Rinv_0_lt_compat; auto]|].
    intros s Hs. rewrite X. pose proof (B s _ Hs) as K. rewrite Rabs_right in K by lra. split; [|lra]. assert (0 <= s * w) by nra. lra.
Qed.

Lemma side_boxed : forall (r : ray R) (B : aabb R) t e, (e = 1 \/ e = -1) -> in_box B (pointR r t) ->
  (forall f, f = @vx R \/ f = @vy R \/ f = @vz R ->
     (f (pointR r t) = f (b_max B) -> e * f (r_dir r) <= 0) /\ (f (pointR r t) = f (b_min B) -> 0 <= e * f (r_dir r))) ->
  exists a c, a < c /\ a <= t <= c /\ forall s, a < s < c -> in_box B (pointR r s).
Proof.
  intros r B t e He I H.
  destruct (H (@vx R)) as [X1 X2]; auto. destruct (H (@vy R)) as [Y1 Y2]; auto. destruct (H (@vz R)) as [Z1 Z2]; auto.
  unfold in_box, pointR, lineR, addR, scaleR in *; cbn [vx vy vz] in *. destruct I as [IX [IY IZ]].
  destruct (side_stays _ _ _ _ _ _ IX X1 X2) as [k1 [P1 K1]]. destruct (side_stays _ _ _ _ _ _ IY Y1 Y2) as [k2 [P2 K2]].
  destruct (side_stays _ _ _ _ _ _ IZ Z1 Z2) as [k3 [P3 K3]].
  set (k := Rmin k1 (Rmin k2 k3)). assert (Kp : 0 < k) by (repeat apply Rmin_glb_lt; auto).
  assert (Kl : k <= k1 /\ k <= k2 /\ k <= k3).
  { unfold k. pose proof (Rmin_l k1 (Rmin k2 k3)). pose proof (Rmin_r k1 (Rmin k2 k3)). pose proof (Rmin_l k2 k3). pose proof (Rmin_r k2 k3). lra. }
  clearbody k. destruct He as [-> | ->].
  - exists t, (t + k). split; [lra|]. split; [lra|]. intros s Hs.
    replace s with (t + 1 * (s - t)) by ring. split; [apply K1; lra|]. split; [apply K2; lra|apply K3; lra].
  - exists (t - k), t. split; [lra|]. split; [lra|]. intros s Hs.
    replace s with (t + -1 * (t - s)) by ring. split; [apply K1; lra|]. split; [apply K2; lra|apply K3; lra].
Qed.

Definition sphere_aabb (s : sphere R) : aabb R :=
  let w := V3 (s_radius s) (s_radius s) (s_radius s) in Box (subR (s_center s) w) (addR (s_center s) w).

Lemma sphere_boxed_ray : forall (s : sphere R) (r : ray R), 0 < s_radius s ->
  boxed r (fun t => on_sphere s (pointR r t)) (sphere_aabb s).
Proof.
  intros s r Hr t On. apply on_sphere_iff in On; auto.
  set (p := pointR r t) in *. set (c := s_center s) in *. set (R0 := s_radius s) in *.
  set (g := dotR (subR p c) (r_dir r)).
  assert (He : exists e, (e = 1 \/ e = -1) /\ e * g <= 0).
  { destruct (Rle_or_lt g 0); [exists 1|exists (-1)]; split; auto; lra. }
  destruct He as [e [He Hg]].
  unfold normsqR, dotR, subR in On; cbn [vx vy vz] in On.
  set (x := vx p - vx c) in *. set (y := vy p - vy c) in *. set (z := vz p - vz c) in *.
  assert (Sq : forall a, 0 <= a * a) by (intros a; apply Rle_0_sqr).
  pose proof (Sq x) as Sx; pose proof (Sq y) as Sy; pose proof (Sq z) as Sz.
  assert (Bd : - R0 <= x <= R0 /\ - R0 <= y <= R0 /\ - R0 <= z <= R0) by (split; [|split]; apply sq_bound; lra).
  assert (Eg : g = x * vx (r_dir r) + y * vy (r_dir r) + z * vz (r_dir r)) by reflexivity.
  assert (Z0 : forall a, a * a = 0 -> a = 0) by (intros a Ha; apply Rsqr_0_uniq; exact Ha).
  apply (side_boxed r (sphere_aabb s) t e He).
  - unfold in_box, sphere_aabb, addR, subR; cbn [b_min b_max vx vy vz]. fold p c R0. unfold x, y, z in Bd. lra.
  - fold p. unfold sphere_aabb, addR, subR. fold c R0. intros f [-> | [-> | ->]]; cbn [b_min b_max vx vy vz]; split; intros E.
    + assert (X : x = R0) by (unfold x; lra). rewrite X in *. rewrite (Z0 y), (Z0 z) in Eg by lra. nra.
    + assert (X : x = - R0) by (unfold x; lra). rewrite X in *. rewrite (Z0 y), (Z0 z) in Eg by lra. nra.
    + assert (X : y = R0) by (unfold y; lra). rewrite X in *. rewrite (Z0 x), (Z0 z) in Eg by lra. nra.
    + assert (X : y = - R0) by (unfold y; lra). rewrite X in *. rewrite (Z0 x), (Z0 z) in Eg by lra. nra.
    + assert (X : z = R0) by (unfold z; lra). rewrite X in *. rewrite (Z0 x), (Z0 y) in Eg by lra. nra.
    + assert (X : z = - R0) by (unfold z; lra). rewrite X in *. rewrite (Z0 x), (Z0 y) in Eg by lra. nra.
Qed.

Lemma sphere_box_eq : forall (L : limits) s, sphere_box (F:=XR L) (finsphere s) = Some (finbox (sphere_aabb s)).
Proof. reflexivity. Qed.

(** *** Hierarchies over spheres *)
Definition xr_val (x : xr) : R := match x with Fin a => a | _ => 0 end.
(** the sphere inscribed in an object's box *)
Definition inscribed {L : limits} (o : hittable (F:=XR L)) : sphere R :=
  match bounding_box o with
  | Some b =>
    let lo := map3 xr_val (b_min b) in let hi := map3 xr_val (b_max b) in
    Sphere (scaleR (/ 2) (addR lo hi)) ((vx hi - vx lo) / 2)
  | None => Sphere zeroR 0
  end.
Lemma inscribed_sphere : forall (L : limits) (s : sphere R), inscribed (of_sphere (F:=XR L) (finsphere s)) = s.
Proof.
  intros L [[c0 c1 c2] q]. unfold inscribed; cbn [bounding_box of_sphere]. rewrite sphere_box_eq.
  unfold finbox, sphere_aabb, fin3, map3, addR, subR, scaleR; cbn [b_min b_max vx vy vz s_center s_radius xr_val].
  f_equal; [apply V3_ext|]; field.
Qed.

Lemma bvh_spheres : forall (L : limits) (M : Type) (r : ray R) axis sort fuel
  (items : list (sphere R * M)) (lo hi : xr) temp0 rec0 rec1,
  let objs := map (fun '(s, m) => (of_sphere (F:=XR L) (finsphere s), m)) items in
  (forall a l, Permutation l (sort a l)) -> items <> [] -> (length items <= fuel)%nat ->
  lo <> NaN -> hi <> NaN ->
  (forall s m, In (s, m) items -> 0 < s_radius s /\ sphere_off_threshold (l_min L) s r) ->
  (forall s m t, In (s, m) items -> on_sphere s (pointR r t) -> lo <> Fin t /\ hi <> Fin t) ->
  exists tree b rec res rec',
    bvh_of_list (F:=XR L) axis sort fuel (map fst objs) = Ok tree /\
    bvh_hit (F:=XR L) tree (finray r) lo hi rec0 = Ok (b, rec) /\
    list_hit (F:=XR L) temp0 (scene_of objs) (finray r) lo hi rec1 = Ok (res, rec') /\
    (b = true <-> res <> None) /\
    (b = true -> h_t rec = h_t rec' /\
       exists s m t, In (s, m) items /\ h_t rec = Fin t /\ on_sphere s (pointR r t) /\ describes_sphere s r t rec).
Proof.
  intros L M r axis sort fuel items lo hi temp0 rec0 rec1 objs HS Hn Hf Hlo Hhi HO HE.
  assert (HI : forall o m, In (o, m) objs -> exists s, o = of_sphere (F:=XR L) (finsphere s) /\ In (s, m) items).
  { intros o m Hi. apply in_map_iff in Hi. destruct Hi as [[s m'] [E Hi]]. injection E as <- <-. exists s; auto. }
  destruct (bvh_same_as_list L M r (fun o => sphere_aabb (inscribed o))
    (fun o t => on_sphere (inscribed o) (pointR r t)) (fun o => describes_sphere (inscribed o) r)
    axis sort fuel objs lo hi temp0 rec0 rec1) as [tree [b [rec [res [rec' [E1 [E2 [E3 [E4 E5]]]]]]]]]; auto.
  - unfold objs. destruct items; [congruence|discriminate].
  - unfold objs. rewrite map_length. auto.
  - intros o m Hi. destruct (HI o m Hi) as [s [-> Hs]]. rewrite inscribed_sphere. destruct (HO s m Hs) as [P Off].
    destruct (sphere_contract (L:=L) s P r Off) as [C Q]. split; [exact C|]. split; [exact Q|]. split; [reflexivity|].
    apply sphere_boxed_ray; auto.
  - intros o m t Hi. destruct (HI o m Hi) as [s [-> Hs]]. rewrite inscribed_sphere. intros On. apply (HE s m t Hs On).
  - exists tree, b, rec, res, rec'. repeat (split; [assumption|]). intros Hb. destruct (E5 Hb) as [E6 [o [m [t [Hi [Ht [On D]]]]]]].
    split; auto. destruct (HI o m Hi) as [s [-> Hs]]. rewrite inscribed_sphere in *. exists s, m, t. auto.
Qed.

(** *** A sphere in front of a torus: the torus' miss overwrites the sphere's hit time *)
Definition front_sphere : sphere R := Sphere (V3 (-8) 0 0) 1.
Lemma front_off : forall m, 0 < m < 1 -> sphere_off_threshold m front_sphere toward_ray.
Proof.
  intros m Hm. unfold sphere_off_threshold, front_sphere, toward_ray, off_threshold, zeroR, normsqR, dotR, subR; cbn [s_center r_orig r_dir vx vy vz].
  split; [intros E; injection E; lra|]. split; right; [rewrite Rabs_right by lra; lra|rewrite Rabs_left by lra; lra].
Qed.
Lemma front_on : forall t, on_sphere front_sphere (pointR toward_ray t) <-> t = 1 \/ t = 3.
Proof.
  intros t. rewrite on_sphere_iff by (cbn; lra). unfold front_sphere, toward_ray, pointR, lineR, normsqR, dotR, subR, addR, scaleR; cbn [s_center s_radius r_orig r_dir vx vy vz].
  split; [intros E; assert (Z : (t - 1) * (t - 3) = 0) by nra; apply Rmult_integral in Z; lra|intros [-> | ->]; lra].
Qed.
Lemma front_hit : forall (L : limits) (rec : hit_record xr), l_min L < 1 -> exists rec',
  hit (of_sphere (F:=XR L) (finsphere front_sphere)) (finray toward_ray) (Fin 0) PInf rec = Ok (true, rec') /\ h_t rec' = Fin 1.
Proof.
  intros L rec Hm. destruct (sphere_contract (L:=L) front_sphere ltac:(cbn; lra) toward_ray (front_off _ (conj (l_min_pos L) Hm))) as [C _].
  destruct (C (Fin 0) PInf rec ltac:(discriminate) ltac:(discriminate)) as [b [rec' [E H]]].
  destruct b.
  - exists rec'. split; [exact E|]. destruct H as [t [Ht [Mt [Wt [Mn D]]]]]. rewrite Ht. f_equal.
    apply front_on in Mt. destruct Mt as [-> | ->]; auto. specialize (Mn 1). rewrite front_on in Mn.
    assert (3 <= 1) by (apply Mn; [auto|split; cbn; [lra|auto]]). lra.
  - exfalso. apply (H 1); [apply front_on; auto|]. split; cbn; [lra|auto].
Qed.

Lemma bvh_overwritten : forall (L : limits) axis sort (rec : hit_record xr), l_min L < 1 -> axis [] = 0%nat ->
  let objs := [of_sphere (F:=XR L) (finsphere front_sphere); of_torus (F:=XR L) (fintorus small_torus)] in
  exists tree rec', bvh_of_list (F:=XR L) axis sort 2 objs = Ok tree /\
    bvh_hit (F:=XR L) tree (finray toward_ray) (Fin 0) PInf rec = Ok (true, rec') /\ h_t rec' = NaN.
Proof.
  intros L axis sort rec Hm Ax objs.
  destruct (torus_boxed (L:=L) small_torus ltac:(cbn; lra)) as [B [EB HB]].
  destruct (surrounding_box_real L (sphere_aabb front_sphere) B) as [S [ES [S1 [S2 _]]]].
  exists (Node (Leaf (of_sphere (F:=XR L) (finsphere front_sphere))) (Leaf (of_torus (F:=XR L) (fintorus small_torus))) (finbox S)).
  destruct (front_hit L rec Hm) as [rec1 [E1 T1]].
  exists (set_t NaN rec1). split.
  - unfold bvh_of_list, objs. cbn [bvh_build length Nat.sub nth_error]. rewrite Ax. unfold box_compare.
    cbn [bounding_box of_sphere of_torus]. rewrite EB, sphere_box_eq.
    assert (X : nltb (NumOps:=XR L) (on_axis (F:=XR L) 0 (b_min (finbox (sphere_aabb front_sphere)))) (on_axis (F:=XR L) 0 (b_min (finbox B))) = true).
    { pose proof EB as EB'. unfold torus_box, fintorus, small_torus in EB'. cbn in EB'. injection EB' as EB' _ _ _ _ _.
      cbn [on_axis finbox b_min fin3 map3 vx]. xred. apply Rltb_true. cbn. lra. }
    match goal with |- context [obind (Ok ?b) _] => replace b with true by (symmetry; exact X) end. cbn [obind]. unfold make_node. cbn [bvh_box bounding_box of_sphere of_torus].
    rewrite EB, sphere_box_eq. rewrite <- ES. reflexivity.
  - split; [|reflexivity]. cbn [bvh_hit].
    assert (H : aabb_hit (F:=XR L) (finbox S) (finray toward_ray) (Fin 0) PInf = true).
    { apply aabb_hit_iff; try discriminate. exists 1, 3. split; [lra|]. split; [cbn; lra|]. split; [exact I|].
      intros s Hs. apply S1. unfold in_box, sphere_aabb, front_sphere, toward_ray, pointR, lineR, addR, subR, scaleR; cbn [b_min b_max vx vy vz s_center s_radius r_orig r_dir]. lra. }
    change (@num (XR L)) with xr in *. rewrite H. rewrite E1. cbn [obind]. change (@num (XR L)) with xr in *. rewrite T1.
    cbn [hit of_torus]. pose proof (torus_miss_overwrites L (Fin 0) (Fin 1) rec1 Hm) as TM.
    change (@num (XR L)) with xr in *. rewrite TM; [reflexivity|].
    intros x [_ X]. cbn in X. lra.
Qed.

(** *** A sphere behind a rectangle: the rectangle's record keeps the sphere's gradient *)
Definition axis_ray : ray R := Ray (V3 0 0 5) (V3 0 0 (-1)).
Definition origin_sphere : sphere R := Sphere zeroR 1.
Definition screen : rect R := Rect (-1) 1 (-1) 1 3.
Lemma screen_run : forall (L : limits) (hi : xr) (rec : hit_record xr), hi = PInf \/ hi = Fin 4 ->
  exists rec', hit (of_xy (F:=XR L) (finrect screen)) (finray axis_ray) (Fin 0) hi rec = Ok (true, rec') /\
    h_t rec' = Fin 2 /\ h_grad rec' = h_grad rec /\ h_E rec' = h_E rec.
Proof.
  intros L hi rec Hh. cbn [hit of_xy]. unfold xy_hit, rect_hit, finrect, screen, finray, axis_ray, fin3, map3; cbn [q_a0 q_a1 q_b0 q_b1 q_k r_orig r_dir vx vy vz]. xred.
  rewrite xdiv_fin by lra. replace ((3 - 5) / -1) with 2 by field.
  assert (X : xltb hi (Fin 2) = false) by (destruct Hh as [-> | ->]; cbn; [reflexivity|apply Rltb_false; lra]).
  xred. rewrite X. rewrite Rltb_false by lra. cbn [orb]. rewrite !Rltb_false by lra. cbn [orb].
  eexists. split; [reflexivity|]. repeat split.
Qed.
Lemma origin_hit : forall (L : limits) (rec : hit_record xr), l_min L < 1 -> exists rec',
  hit (of_sphere (F:=XR L) (finsphere origin_sphere)) (finray axis_ray) (Fin 0) PInf rec = Ok (true, rec') /\
  h_t rec' = Fin 4 /\ h_grad rec' = Fin 2.
Proof.
  intros L rec Hm.
  assert (Off : sphere_off_threshold (l_min L) origin_sphere axis_ray).
  { unfold sphere_off_threshold, origin_sphere, axis_ray, off_threshold, zeroR, normsqR, dotR, subR; cbn [s_center r_orig r_dir vx vy vz].
    pose proof (l_min_pos L). split; [intros E; injection E; lra|]. split; right; [rewrite Rabs_right by lra; lra|rewrite Rabs_left by lra; lra]. }
  destruct (sphere_contract (L:=L) origin_sphere ltac:(cbn; lra) axis_ray Off) as [C _].
  assert (On : forall t, on_sphere origin_sphere (pointR axis_ray t) <-> t = 4 \/ t = 6).
  { intros t. rewrite on_sphere_iff by (cbn; lra). unfold origin_sphere, axis_ray, zeroR, pointR, lineR, normsqR, dotR, subR, addR, scaleR; cbn [s_center s_radius r_orig r_dir vx vy vz].
    split; [intros E; assert (Z : (t - 4) * (t - 6) = 0) by nra; apply Rmult_integral in Z; lra|intros [-> | ->]; lra]. }
  destruct (C (Fin 0) PInf rec ltac:(discriminate) ltac:(discriminate)) as [b [rec' [E H]]].
  destruct b.
  2:{ exfalso. apply (H 4); [apply On; auto|]. split; cbn; [lra|auto]. }
  exists rec'. split; [exact E|]. destruct H as [t [Ht [Mt [Wt [Mn D]]]]].
  assert (T4 : t = 4).
  { apply On in Mt. destruct Mt as [-> | ->]; auto. specialize (Mn 4). rewrite On in Mn. assert (6 <= 4) by (apply Mn; [auto|split; cbn; [lra|auto]]). lra. }
  subst t. split; auto. destruct D as [_ [_ [_ [G _]]]]. change (@num (XR L)) with xr in *. rewrite G. cbn. f_equal. ring.
Qed.

(** the same rectangle is hit, with different records *)
Lemma list_leaks : forall (L : limits) (temp0 rec0 : hit_record xr), l_min L < 1 -> h_grad temp0 = NaN ->
  let sph := of_sphere (F:=XR L) (finsphere origin_sphere) in let scr := of_xy (F:=XR L) (finrect screen) in
  exists rec rec',
    list_hit (F:=XR L) temp0 (scene_of [(scr, true)]) (finray axis_ray) (Fin 0) PInf rec0 = Ok (Some true, rec) /\
    list_hit (F:=XR L) temp0 (scene_of [(sph, false); (scr, true)]) (finray axis_ray) (Fin 0) PInf rec0 = Ok (Some true, rec') /\
    h_grad rec = NaN /\ h_grad rec' = Fin 2.
Proof.
  intros L temp0 rec0 Hm Hg sph scr.
  destruct (screen_run L PInf temp0 (or_introl eq_refl)) as [r1 [E1 [T1 [G1 _]]]].
  destruct (origin_hit L temp0 Hm) as [r2 [E2 [T2 G2]]].
  destruct (screen_run L (Fin 4) r2 (or_intror eq_refl)) as [r3 [E3 [T3 [G3 _]]]].
  exists r1, r3. change (@num (XR L)) with xr in *. rewrite G1, G3. split; [|split; [|auto]].
  - unfold list_hit, scene_of, add, empty_list. cbn [fold_left objects materials app list_loop].
    unfold scr. rewrite E1. cbn [obind]. change (@num (XR L)) with xr in *. rewrite T1. reflexivity.
  - unfold list_hit, scene_of, add, empty_list. cbn [fold_left objects materials app list_loop].
    unfold sph. rewrite E2. cbn [obind]. change (@num (XR L)) with xr in *. rewrite T2. xred.
    unfold scr. change (@num (XR L)) with xr in *. rewrite E3. cbn [obind]. change (@num (XR L)) with xr in *. rewrite T3. xred. rewrite Rltb_true by lra. reflexivity.
Qed.
