(** Concrete cases meeting the hypotheses of the theorems in T_Scene.v. *)
From Coq Require Import Reals Lra List Bool Permutation.
From Verif Require Import Num XR Spec M_Vec M_Hittable M_Shapes Spec_Scene Spec_Shapes
  P_Box P_List P_BVH P_Sphere P_Torus P_Scenes.
Import ListNotations.
Local Open Scope R_scope.

(** a ray through the unit cube, in a half-infinite window *)
Lemma ex_interior : let b := Box (V3 0 0 0) (V3 1 1 1) in let r := Ray (V3 (-1) (1/2) (1/2)) (V3 1 0 0) in
  after (Fin 0) (3 / 2) /\ before (3 / 2) PInf /\ in_open_box b (pointR r (3 / 2)).
Proof. unfold in_open_box, pointR, lineR, addR, scaleR; cbn. repeat split; lra. Qed.

(** a scene of two spheres; the second is nearer *)
Definition far_sphere : sphere R := Sphere (V3 0 0 0) 2.
Definition two_spheres : list (sphere R * bool) := [(far_sphere, true); (front_sphere, false)].
Lemma far_on : forall t, on_sphere far_sphere (pointR toward_ray t) <-> t = 8 \/ t = 12.
Proof.
  intros t. rewrite on_sphere_iff by (cbn; lra). unfold far_sphere, toward_ray, pointR, lineR, normsqR, dotR, subR, addR, scaleR; cbn [s_center s_radius r_orig r_dir vx vy vz].
  split; [intros E; assert (Z : (t - 8) * (t - 12) = 0) by nra; apply Rmult_integral in Z; lra|intros [-> | ->]; lra].
Qed.
Lemma ex_two : forall m, 0 < m < 1 -> forall s k, In (s, k) two_spheres ->
  0 < s_radius s /\ sphere_off_threshold m s toward_ray /\
  (forall t, on_sphere s (pointR toward_ray t) -> Fin 0 <> Fin t /\ PInf <> Fin t).
Proof.
  intros m Hm s k [E|[E|[]]]; injection E as <- <-.
  - split; [cbn; lra|]. split.
    + unfold sphere_off_threshold, far_sphere, toward_ray, off_threshold, zeroR, normsqR, dotR, subR; cbn [s_center r_orig r_dir vx vy vz].
      split; [intros E; injection E; lra|]. split; right; [rewrite Rabs_right by lra; lra|rewrite Rabs_left by lra; lra].
    + intros t Ht; apply far_on in Ht. split; [|discriminate]. intros E; injection E; lra.
  - split; [cbn; lra|]. split; [apply front_off; auto|].
    intros t Ht; apply front_on in Ht. split; [|discriminate]. intros E; injection E; lra.
Qed.
Lemma ex_scene : forall (L : limits), l_min L < 1 -> forall o m,
  In (o, m) (map (fun '(s, m) => (of_sphere (F:=XR L) (finsphere s), m)) two_spheres) ->
  hit_contract toward_ray o (fun t => on_sphere (inscribed o) (pointR toward_ray t)) (describes_sphere (inscribed o) toward_ray) /\
  quiet toward_ray o /\ bounding_box (F:=XR L) o = Some (finbox (sphere_aabb (inscribed o))) /\
  boxed toward_ray (fun t => on_sphere (inscribed o) (pointR toward_ray t)) (sphere_aabb (inscribed o)).
Proof.
  intros L Hm o m Hi. apply in_map_iff in Hi. destruct Hi as [[s k] [E Hi]]. injection E as <- <-.
  destruct (ex_two _ (conj (l_min_pos L) Hm) s k Hi) as [P [Off _]]. rewrite inscribed_sphere.
  destruct (sphere_contract (L:=L) s P toward_ray Off) as [C Q].
  split; [exact C|]. split; [exact Q|]. split; [reflexivity|]. apply sphere_boxed_ray; auto.
Qed.
