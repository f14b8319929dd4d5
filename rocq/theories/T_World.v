(** Theorems about whole scenes: every object, material and the renderer together. *)
From Coq Require Import Reals ZArith List Bool.
From Verif Require Import Spec_Random Num XR Spec Spec_Scene Spec_Light Spec_Shapes Spec_Image Spec_World Spec_Fog M_Vec M_Rng M_Hittable M_Materials M_Shapes M_Image M_World M_Fog
  P_World P_Furnace P_Glass E_World E_Fog.
Import ListNotations.
Local Open Scope R_scope.

(** ** C88: a scene of closed-form objects and sound materials is rendered, whatever is drawn *)
Theorem C88_rendered : forall (L : limits) tol (items : list (hittable (F:=XR L) * material_ptr (F:=XR L))) bg from at_ up vfov aspect width height spp order (s : state (F:=XR L)),
  0 <= tol <= 1 / 8 -> l_min L < 1 / 4 -> (forall o m, In (o, m) items -> solid tol o /\ sound tol (snd m)) -> nonneg3 bg ->
  from <> at_ -> crossR up (subR from at_) <> zeroR -> 0 < vfov < 180 -> (2 <= width)%Z -> (2 <= height)%Z -> (1 <= spp)%nat ->
  schedule width height order -> good_state s ->
  exists k img, (forall fuel, (k <= fuel)%nat ->
    render_scene (F:=XR L) (world_hit (F:=XR L) (scene_of items)) (scatter (F:=XR L) fuel) (emitted (F:=XR L)) width height (fin3 bg)
      (make_camera (F:=XR L) (fin3 from) (fin3 at_) (fin3 up) (Fin vfov) (Fin aspect)) spp order s = Ok img) /\
    length img = Z.to_nat (4 * width * height) /\ Forall byte img /\
    forall i j d, (0 <= i < width)%Z -> (0 <= j < height)%Z -> nth (offset width height i j 3) img d = 255%Z.
Proof. exact @whole_scene. Qed.
Print Assumptions C88_rendered.

Example C88_case : l_min double_limits < 1 / 4 /\ (forall o m, In (o, m) demo -> solid (1 / 100) o /\ sound (1 / 100) (snd m)) /\ good_state demo_state.
Proof. exact world_case. Qed.

(** ** C89: one matte sphere under an even sky *)
Theorem C89_outside : forall (L : limits) (s : sphere R) tex j bg, 0 < s_radius s -> good_texture tex -> l_min L < 1 -> l_min L < 2 * s_radius s ->
  forall depth (w : state (F:=XR L)) r, good_state w -> sphere_off_threshold (l_min L) s r -> s_radius s < distR (r_orig r) (s_center s) ->
  (forall t, 0 <= t < 1000 * l_eps L -> ~ on_sphere s (pointR r t)) ->
  (forall t, on_sphere s (pointR r t) -> dotR (r_dir r) (subR (pointR r t) (s_center s)) <> 0) ->
  exists k c w', (forall fuel, (k <= fuel)%nat ->
    ray_color (F:=XR L) (world_hit (F:=XR L) (scene_of [(of_sphere (F:=XR L) (finsphere s), (j, Lambertian (F:=XR L) tex))])) (scatter (F:=XR L) fuel) (emitted (F:=XR L))
      (S (S depth)) w (finray r) (fin3 bg) = Ok (fin3 c, w')) /\ good_state w' /\
    ((forall t, 0 <= t -> ~ on_sphere s (pointR r t)) /\ c = bg \/
     exists t rec a, 0 <= t /\ on_sphere s (pointR r t) /\ (forall t', 0 <= t' -> on_sphere s (pointR r t') -> t <= t') /\ describes_sphere s r t rec /\
       tex rec = fin3 a /\ c = hadamardR bg a).
Proof. exact @furnace_outside. Qed.
Print Assumptions C89_outside.

Theorem C89_inside : forall (L : limits) (s : sphere R) tex j bg, 0 < s_radius s -> good_texture tex -> l_min L < 1 -> l_min L < 2 * s_radius s -> 2000 * l_eps L <= s_radius s ->
  forall depth (w : state (F:=XR L)) r, good_state w -> sphere_off_threshold (l_min L) s r -> distR (r_orig r) (s_center s) < s_radius s ->
  (forall t, 0 <= t < 1000 * l_eps L -> ~ on_sphere s (pointR r t)) ->
  exists k w', (forall fuel, (k <= fuel)%nat ->
    ray_color (F:=XR L) (world_hit (F:=XR L) (scene_of [(of_sphere (F:=XR L) (finsphere s), (j, Lambertian (F:=XR L) tex))])) (scatter (F:=XR L) fuel) (emitted (F:=XR L))
      depth w (finray r) (fin3 bg) = Ok (fin3 (V3 0 0 0), w')) /\ good_state w'.
Proof. exact @furnace_inside. Qed.
Print Assumptions C89_inside.

(** A ray that grazes the sphere gets the inward normal, and its light never comes out. *)
Theorem C89_tangent_refuted : forall (L : limits) j depth (w : state (F:=XR L)), l_min L < 1 -> 2000 * l_eps L <= 1 -> good_state w ->
  sphere_off_threshold (l_min L) unit_ball grazing /\ s_radius unit_ball < distR (r_orig grazing) (s_center unit_ball) /\
  (forall t, 0 <= t < 1000 * l_eps L -> ~ on_sphere unit_ball (pointR grazing t)) /\
  exists k w', forall fuel, (k <= fuel)%nat ->
  ray_color (F:=XR L) (world_hit (F:=XR L) (scene_of [(of_sphere (F:=XR L) (finsphere unit_ball), (j, Lambertian (F:=XR L) (paint (V3 1 1 1))))])) (scatter (F:=XR L) fuel) (emitted (F:=XR L))
    depth w (finray grazing) (fin3 (V3 1 1 1)) = Ok (fin3 (V3 0 0 0), w').
Proof. exact furnace_tangent. Qed.
Print Assumptions C89_tangent_refuted.

Example C89_case : 0 < s_radius unit_ball /\ l_min double_limits < 1 /\ l_min double_limits < 2 * s_radius unit_ball /\ sphere_off_threshold (l_min double_limits) unit_ball towards /\
  s_radius unit_ball < distR (r_orig towards) (s_center unit_ball) /\ (forall t, 0 <= t < 1000 * l_eps double_limits -> ~ on_sphere unit_ball (pointR towards t)) /\
  (forall t, on_sphere unit_ball (pointR towards t) -> dotR (r_dir towards) (subR (pointR towards t) (s_center unit_ball)) <> 0) /\ on_sphere unit_ball (pointR towards 2).
Proof. exact furnace_case. Qed.
Example C89_state : good_state demo_state /\ good_texture (paint (V3 (1 / 2) (1 / 2) (1 / 2))).
Proof. exact furnace_state. Qed.

(** ** C105: a scene with constant_medium objects is rendered, whatever is drawn *)
Theorem C105_rendered : forall (L : limits) tol (things : list (thing (F:=XR L) * material_ptr (F:=XR L))) bg from at_ up vfov aspect width height spp order (s : state (F:=XR L)),
  0 <= tol <= 1 / 8 -> l_min L < 1 / 4 -> (forall t m, In (t, m) things -> well_placed tol t (snd m)) -> nonneg3 bg ->
  from <> at_ -> crossR up (subR from at_) <> zeroR -> 0 < vfov < 180 -> (2 <= width)%Z -> (2 <= height)%Z -> (1 <= spp)%nat -> schedule width height order -> fair_state s ->
  exists k img, (forall fuel, (k <= fuel)%nat ->
    render_scene (F:=XR L) (fog_hit (F:=XR L) things) (scatter (F:=XR L) fuel) (emitted (F:=XR L)) width height (fin3 bg)
      (make_camera (F:=XR L) (fin3 from) (fin3 at_) (fin3 up) (Fin vfov) (Fin aspect)) spp order s = Ok img) /\
    length img = Z.to_nat (4 * width * height) /\ Forall byte img /\
    forall i j d, (0 <= i < width)%Z -> (0 <= j < height)%Z -> nth (offset width height i j 3) img d = 255%Z.
Proof. exact @foggy_scene. Qed.
Print Assumptions C105_rendered.
Example C105_case : l_min double_limits < 1 / 4 /\ (forall t m, In (t, m) misty -> well_placed (1 / 100) t (snd m)) /\ fair_state demo_state.
Proof. exact fog_case. Qed.
