(** Cases for the theorems about whole scenes. *)
From Coq Require Import Reals ZArith Lra Lia List Bool.
From Verif Require Import Spec_Random Num XR Spec Spec_Scene Spec_Light Spec_Shapes Spec_Image Spec_World M_Vec M_Rng M_Hittable M_Materials M_Shapes M_Image M_World
  P_Vec P_Sphere P_World P_Furnace E_Algebra.
Import ListNotations.
Local Open Scope R_scope.
Notation D := double_limits.

Definition paint (c : vec3 R) (_ : hit_record xr) : vec3 xr := fin3 c.
Lemma paint_good : forall c, nonneg3 c -> good_texture (paint c).
Proof. intros c H rec p _. exists c. split; [reflexivity|exact H]. Qed.

(** a glass ball, a steel ellipsoid, a lamp, a floor and a ball of fog *)
Definition demo : list (hittable (F:=XR D) * material_ptr (F:=XR D)) :=
  [(of_sphere (F:=XR D) (finsphere (Sphere (V3 0 1 0) 1)), (0%nat, Dielectric (F:=XR D) (Fin (3 / 2)) (paint (V3 0 0 0))));
   (of_ellipsoid (F:=XR D) (finellipsoid (Ellipsoid (V3 4 1 0) (V3 1 2 3))), (1%nat, Metal (F:=XR D) (paint (V3 1 1 (1 / 2)))));
   (of_xy (F:=XR D) (finrect (Rect 0 1 0 1 (-5))), (2%nat, DiffuseLight (F:=XR D) (paint (V3 4 4 4))));
   (of_xz (F:=XR D) (finrect (Rect (-10) 10 (-10) 10 0)), (3%nat, Lambertian (F:=XR D) (paint (V3 (1 / 2) (1 / 2) (1 / 2)))));
   (of_sphere (F:=XR D) (finsphere (Sphere (V3 (-4) 1 0) 1)), (4%nat, Isotropic (F:=XR D) (paint (V3 1 1 1))))].
Definition blank : hit_record xr := HR (V3 NaN NaN NaN) (V3 NaN NaN NaN) NaN NaN NaN NaN false NaN NaN NaN NaN NaN NaN NaN.
Definition demo_state : state (F:=XR D) :=
  State (F:=XR D) (fun _ => pcg_seed) (fun _ => Fin (1 / 3)) (fun _ => fin3 (V3 1 (-1) 2)) (fun _ => (blank, blank)).

Lemma paints : nonneg3 (V3 0 0 0) /\ nonneg3 (V3 1 1 (1 / 2)) /\ nonneg3 (V3 4 4 4) /\ nonneg3 (V3 (1 / 2) (1 / 2) (1 / 2)) /\ nonneg3 (V3 1 1 1).
Proof. unfold nonneg3; cbn. lra. Qed.
Lemma demo_state_good : good_state demo_state.
Proof.
  split; [|split].
  - intros k. vm_compute. split; [discriminate|reflexivity].
  - intros n. eexists. reflexivity.
  - intros n. eexists. split; [reflexivity|]. intros E. injection E. lra.
Qed.
Lemma demo_items : forall o m, In (o, m) demo -> solid (1 / 100) o /\ sound (1 / 100) (snd m).
Proof.
  pose proof double_min_small as S. pose proof (l_min_pos D) as P. pose proof paints as (P1 & P2 & P3 & P4 & P5).
  intros o m H. cbn [In demo] in H. destruct H as [H|[H|[H|[H|[H|[]]]]]]; injection H as <- <-; cbn [snd].
  - split; [apply Solid_sphere; cbn; lra|apply Sound_dielectric; [lra|lra|lra|apply paint_good; assumption]].
  - split; [apply Solid_ellipsoid with 3; cbn; lra|apply Sound_metal, paint_good; assumption].
  - split; [apply Solid_xy; cbn; lra|apply Sound_light, paint_good; assumption].
  - split; [apply Solid_xz; cbn; lra|apply Sound_lambertian, paint_good; assumption].
  - split; [apply Solid_sphere; cbn; lra|apply Sound_isotropic, paint_good; assumption].
Qed.
Lemma world_case : l_min D < 1 / 4 /\ (forall o m, In (o, m) demo -> solid (1 / 100) o /\ sound (1 / 100) (snd m)) /\ good_state demo_state.
Proof. pose proof double_min_small. split; [lra|]. split; [exact demo_items|exact demo_state_good]. Qed.

(** *** the unit sphere *)
Definition unit_ball : sphere R := Sphere (V3 0 0 0) 1.
Definition towards : ray R := Ray (V3 0 0 3) (V3 0 0 (-1)).
Definition grazing : ray R := Ray (V3 (-2) 0 1) (V3 1 0 0).

Lemma on_unit : forall p, on_sphere unit_ball p -> vx p * vx p + vy p * vy p + vz p * vz p = 1.
Proof.
  intros p H. apply on_sphere_sq in H. unfold normsqR, dotR, subR in H; cbn [vx vy vz s_center s_radius unit_ball] in H. lra.
Qed.
Lemma far_away : forall p, 1 < vx p * vx p + vy p * vy p + vz p * vz p -> 1 < distR p (V3 0 0 0).
Proof.
  intros p H. unfold distR, normR. rewrite <- sqrt_1. apply sqrt_lt_1_alt. unfold normsqR, dotR, subR; cbn [vx vy vz]. lra.
Qed.
Lemma double_eps_small : l_eps D < 1 / 10000.
Proof. cbn [l_eps D double_limits]. lra. Qed.

Lemma furnace_case : 0 < s_radius unit_ball /\ l_min D < 1 /\ l_min D < 2 * s_radius unit_ball /\ sphere_off_threshold (l_min D) unit_ball towards /\
  s_radius unit_ball < distR (r_orig towards) (s_center unit_ball) /\ (forall t, 0 <= t < 1000 * l_eps D -> ~ on_sphere unit_ball (pointR towards t)) /\
  (forall t, on_sphere unit_ball (pointR towards t) -> dotR (r_dir towards) (subR (pointR towards t) (s_center unit_ball)) <> 0) /\ on_sphere unit_ball (pointR towards 2).
Proof.
  pose proof double_min_small as S. pose proof (l_min_pos D) as P. pose proof double_eps_small as E. cbn [s_radius unit_ball].
  split; [lra|]. split; [lra|]. split; [lra|]. split; [|split; [|split; [|split]]].
  - unfold sphere_off_threshold. cbn [r_dir r_orig towards]. split; [intros H; injection H; lra|].
    unfold normsqR, dotR, subR; cbn [vx vy vz s_center unit_ball]. split; right; [rewrite Rabs_pos_eq; lra|rewrite Rabs_left; lra].
  - apply far_away. cbn. lra.
  - intros t Ht H. apply on_unit in H. cbn in H. nra.
  - intros t H. apply on_unit in H. unfold dotR, subR, pointR, lineR, addR, scaleR in *; cbn in *. nra.
  - apply sq_on_sphere; [cbn; lra|]. unfold normsqR, dotR, subR, pointR, lineR, addR, scaleR; cbn. lra.
Qed.

Lemma furnace_tangent : forall (L : limits) j depth (w : state (F:=XR L)), l_min L < 1 -> 2000 * l_eps L <= 1 -> good_state w ->
  sphere_off_threshold (l_min L) unit_ball grazing /\ s_radius unit_ball < distR (r_orig grazing) (s_center unit_ball) /\
  (forall t, 0 <= t < 1000 * l_eps L -> ~ on_sphere unit_ball (pointR grazing t)) /\
  exists k w', forall fuel, (k <= fuel)%nat ->
  ray_color (F:=XR L) (world_hit (F:=XR L) (scene_of [(of_sphere (F:=XR L) (finsphere unit_ball), (j, Lambertian (F:=XR L) (paint (V3 1 1 1))))])) (scatter (F:=XR L) fuel) (emitted (F:=XR L))
    depth w (finray grazing) (fin3 (V3 1 1 1)) = Ok (fin3 (V3 0 0 0), w').
Proof.
  intros L j depth w M E G. pose proof (l_min_pos L) as P.
  assert (Off : sphere_off_threshold (l_min L) unit_ball grazing).
  { unfold sphere_off_threshold. cbn [r_dir r_orig grazing]. split; [intros H; injection H; lra|].
    unfold normsqR, dotR, subR; cbn [vx vy vz s_center unit_ball]. split; right; [rewrite Rabs_pos_eq; lra|rewrite Rabs_left; lra]. }
  assert (T2 : forall t, on_sphere unit_ball (pointR grazing t) -> t = 2).
  { intros t H. apply on_unit in H. cbn in H. nra. }
  split; [exact Off|]. split; [apply far_away; cbn; lra|]. split; [intros t Ht H; apply T2 in H; lra|].
  destruct (furnace_caught (L:=L) unit_ball (paint (V3 1 1 1)) j (V3 1 1 1)) with (depth := depth) (w := w) (r := grazing) as (k & w' & K & _); auto.
  - cbn; lra.
  - apply paint_good. unfold nonneg3; cbn; lra.
  - cbn; lra.
  - exists 2. split; [lra|]. apply sq_on_sphere; [cbn; lra|]. unfold normsqR, dotR, subR, pointR, lineR, addR, scaleR; cbn. lra.
  - intros t _ H. apply T2 in H. subst t. unfold dotR, subR, pointR, lineR, addR, scaleR; cbn. lra.
  - exists k, w'. exact K.
Qed.
Lemma furnace_state : good_state demo_state /\ good_texture (paint (V3 (1 / 2) (1 / 2) (1 / 2))).
Proof. split; [exact demo_state_good|]. apply paint_good. exact (proj1 (proj2 (proj2 (proj2 paints)))). Qed.
