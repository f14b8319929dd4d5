(** What a reported hit of a closed-form shape tells: normals (C27), fundamental forms
    (C31) and curvature (C32). *)
From Coq Require Import Reals Lra ZArith List Bool.
From Verif Require Import Num XR Spec M_Vec M_Hittable M_Shapes Spec_Scene Spec_Shapes
  P_Vec P_Matrix P_Sphere P_Ellipsoid P_Flat P_Cylinder P_Torus P_Curvature P_Normals.
Import ListNotations.
Local Open Scope R_scope.

Section L.
Context {L : limits}.
Variables (r : ray R) (lo hi : xr) (rec rec' : hit_record xr).
Hypotheses (Hlo : lo <> NaN) (Hhi : hi <> NaN).

Lemma sphere_hit_facts : forall s, 0 < s_radius s -> sphere_off_threshold (l_min L) s r ->
  sphere_hit (F:=XR L) (finsphere s) (finray r) lo hi rec = Ok (true, rec') ->
  exists t, on_sphere s (pointR r t) /\ describes_sphere s r t rec'.
Proof.
  intros s Hs Off E. destruct (sphere_contract (L:=L) s Hs r Off) as [C _].
  exact (contract_true L r _ _ _ lo hi rec rec' C Hlo Hhi E).
Qed.
Lemma ellipsoid_hit_facts : forall s, positive3 (el_scales s) -> ellipsoid_off_threshold (l_min L) s r ->
  ellipsoid_hit (F:=XR L) (finellipsoid s) (finray r) lo hi rec = Ok (true, rec') ->
  exists t, on_ellipsoid s (pointR r t) /\ describes_ellipsoid s r t rec'.
Proof.
  intros s Hs Off E. destruct (ellipsoid_contract (L:=L) s Hs r Off) as [C _].
  exact (contract_true L r _ _ _ lo hi rec rec' C Hlo Hhi E).
Qed.
Lemma torus_hit_facts : forall o, 0 < o_r o -> o_r o < o_R o -> r_dir r <> zeroR ->
  torus_off_threshold (l_min L) o r -> (forall t, at_least lo t -> 0 < t) ->
  torus_hit (F:=XR L) (fintorus o) (finray r) lo hi rec = Ok (true, rec') ->
  exists t, on_torus o (pointR r t) /\ describes_torus o r t rec'.
Proof.
  intros o H1 H2 Hd Off W E.
  destruct (torus_exact (L:=L) o H1 H2 r lo hi rec Hd Off W) as [b [rec1 [E1 [H _]]]].
  rewrite E in E1. injection E1 as <- <-. destruct (H eq_refl) as [t [_ [On [_ D]]]]. eauto.
Qed.
Lemma cylinder_hit_facts : forall c, 0 < c_radius c -> c_zmin c < c_zmax c -> cylinder_off_threshold (l_min L) r ->
  (forall t, on_wall c r t -> at_least lo t) ->
  cylinder_hit (F:=XR L) (fincylinder c) (finray r) lo hi rec = Ok (true, rec') ->
  exists t, on_cylinder c (pointR r t) /\ describes_cylinder c r t rec'.
Proof.
  intros c H1 H2 Off W E.
  destruct (cylinder_exact (L:=L) c H1 H2 r lo hi rec Off Hlo Hhi W) as [b [rec1 [E1 H]]].
  cbn [hit of_cylinder] in E1. rewrite E in E1. injection E1 as <- <-. destruct H as [t [_ [On [_ [_ D]]]]]. eauto.
Qed.
Lemma disk_hit_facts : forall radius c n k, 0 < radius -> normR n = 1 -> l_min L < 1 ->
  make_disk (F:=XR L) (Fin radius) (fin3 c) (fin3 n) = Ok k ->
  disk_hit (F:=XR L) k (finray r) lo hi rec = Ok (true, rec') ->
  exists e1 e2 t, frame e1 e2 n /\ on_disk c n radius (pointR r t) /\ describes_disk c e1 e2 n radius r t rec' /\
    normal_to (disk_sigma c e1 e2 radius) r rec'.
Proof.
  intros radius c n k Hr N Hm Mk E. destruct (make_disk_ok (L:=L) radius c n N Hm) as [e1 [e2 [Fr E1]]].
  rewrite Mk in E1. injection E1 as ->. exists e1, e2.
  destruct (disk_contract (L:=L) radius c e1 e2 n r Hr Fr) as [C _].
  destruct (contract_true L r _ _ _ lo hi rec rec' C Hlo Hhi E) as [t [[_ On] D]].
  exists t. repeat (split; [assumption|]). eapply disk_normal; eauto.
Qed.

(** C27 *)
Lemma sphere_hit_normal : forall s, 0 < s_radius s -> sphere_off_threshold (l_min L) s r ->
  sphere_hit (F:=XR L) (finsphere s) (finray r) lo hi rec = Ok (true, rec') ->
  normal_to (sphere_sigma s) r rec' /\
  exists t, h_t rec' = Fin t /\ facing_normal r (subR (pointR r t) (s_center s)) rec'.
Proof.
  intros s Hs Off E. destruct (sphere_hit_facts s Hs Off E) as [t [On D]].
  split; [eapply sphere_normal; eauto|]. exists t. destruct D as [[? _] [? _]]; auto.
Qed.
Lemma ellipsoid_hit_normal : forall s, positive3 (el_scales s) -> ellipsoid_off_threshold (l_min L) s r ->
  ellipsoid_hit (F:=XR L) (finellipsoid s) (finray r) lo hi rec = Ok (true, rec') ->
  normal_to (ellipsoid_sigma s) r rec' /\
  exists t, h_t rec' = Fin t /\ facing_normal r (ellipsoid_gradR s (pointR r t)) rec'.
Proof.
  intros s Hs Off E. destruct (ellipsoid_hit_facts s Hs Off E) as [t [On D]].
  split; [eapply ellipsoid_normal; eauto|]. exists t. destruct D as [[? _] [? _]]; auto.
Qed.
Lemma torus_hit_normal : forall o, 0 < o_r o -> o_r o < o_R o -> r_dir r <> zeroR ->
  torus_off_threshold (l_min L) o r -> (forall t, at_least lo t -> 0 < t) ->
  torus_hit (F:=XR L) (fintorus o) (finray r) lo hi rec = Ok (true, rec') ->
  normal_to (torus_sigma o) r rec' /\
  exists t, h_t rec' = Fin t /\ facing_normal r (torus_outward o (pointR r t)) rec'.
Proof.
  intros o H1 H2 Hd Off W E. destruct (torus_hit_facts o H1 H2 Hd Off W E) as [t [On D]].
  split; [eapply torus_normal_to; eauto|]. exists t. destruct D as [[? _] [? _]]; auto.
Qed.
Lemma disk_hit_normal : forall radius c n k, 0 < radius -> normR n = 1 -> l_min L < 1 ->
  make_disk (F:=XR L) (Fin radius) (fin3 c) (fin3 n) = Ok k ->
  disk_hit (F:=XR L) k (finray r) lo hi rec = Ok (true, rec') ->
  (exists e1 e2, frame e1 e2 n /\ normal_to (disk_sigma c e1 e2 radius) r rec') /\ facing_normal r n rec'.
Proof.
  intros radius c n k Hr N Hm Mk E. destruct (disk_hit_facts radius c n k Hr N Hm Mk E) as [e1 [e2 [t [Fr [On [D Nt]]]]]].
  split; [eauto|]. apply D.
Qed.
Lemma rect_hit_normal : forall q, q_a0 q < q_a1 q -> q_b0 q < q_b1 q -> r_dir r <> zeroR ->
  (~ (vz (r_dir r) = 0 /\ vz (r_orig r) = q_k q) -> xy_hit (F:=XR L) (finrect q) (finray r) lo hi rec = Ok (true, rec') ->
     normal_to (xy_sigma q) r rec' /\ facing_normal r (V3 0 0 1) rec') /\
  (~ (vy (r_dir r) = 0 /\ vy (r_orig r) = q_k q) -> xz_hit (F:=XR L) (finrect q) (finray r) lo hi rec = Ok (true, rec') ->
     normal_to (xz_sigma q) r rec' /\ facing_normal r (V3 0 1 0) rec') /\
  (~ (vx (r_dir r) = 0 /\ vx (r_orig r) = q_k q) -> yz_hit (F:=XR L) (finrect q) (finray r) lo hi rec = Ok (true, rec') ->
     normal_to (yz_sigma q) r rec' /\ facing_normal r (V3 1 0 0) rec').
Proof.
  intros q Ha Hb Hd. split; [|split]; intros N E.
  - destruct (xy_contract (L:=L) q Ha Hb r Hd N) as [C _].
    destruct (contract_true L r _ _ _ lo hi rec rec' C Hlo Hhi E) as [t [_ D]].
    split; [apply (rect_normal q r t rec'); auto|apply D].
  - destruct (xz_contract (L:=L) q Ha Hb r Hd N) as [C _].
    destruct (contract_true L r _ _ _ lo hi rec rec' C Hlo Hhi E) as [t [_ D]].
    split; [apply (rect_normal q r t rec'); auto|apply D].
  - destruct (yz_contract (L:=L) q Ha Hb r Hd N) as [C _].
    destruct (contract_true L r _ _ _ lo hi rec rec' C Hlo Hhi E) as [t [_ D]].
    split; [apply (rect_normal q r t rec'); auto|apply D].
Qed.

(** C31 *)
Lemma sphere_hit_forms : forall s, 0 < s_radius s -> sphere_off_threshold (l_min L) s r ->
  sphere_hit (F:=XR L) (finsphere s) (finray r) lo hi rec = Ok (true, rec') ->
  has_first_form (sphere_sigma s) rec' /\ exists n, has_second_form (sphere_sigma s) n rec'.
Proof. intros s Hs Off E. destruct (sphere_hit_facts s Hs Off E) as [t [On [_ [_ [_ [_ [? ?]]]]]]]. eauto. Qed.
Lemma ellipsoid_hit_forms : forall s, positive3 (el_scales s) -> ellipsoid_off_threshold (l_min L) s r ->
  ellipsoid_hit (F:=XR L) (finellipsoid s) (finray r) lo hi rec = Ok (true, rec') ->
  has_first_form (ellipsoid_sigma s) rec' /\ exists n, has_second_form (ellipsoid_sigma s) n rec'.
Proof. intros s Hs Off E. destruct (ellipsoid_hit_facts s Hs Off E) as [t [On [_ [_ [_ [_ [? ?]]]]]]]. eauto. Qed.
Lemma torus_hit_forms : forall o, 0 < o_r o -> o_r o < o_R o -> r_dir r <> zeroR ->
  torus_off_threshold (l_min L) o r -> (forall t, at_least lo t -> 0 < t) ->
  torus_hit (F:=XR L) (fintorus o) (finray r) lo hi rec = Ok (true, rec') ->
  has_first_form (torus_sigma o) rec' /\ exists n, has_second_form (torus_sigma o) n rec'.
Proof. intros o H1 H2 Hd Off W E. destruct (torus_hit_facts o H1 H2 Hd Off W E) as [t [On [_ [_ [_ [_ [? ?]]]]]]]. eauto. Qed.
Lemma cylinder_hit_forms : forall c, 0 < c_radius c -> c_zmin c < c_zmax c -> cylinder_off_threshold (l_min L) r ->
  (forall t, on_wall c r t -> at_least lo t) ->
  cylinder_hit (F:=XR L) (fincylinder c) (finray r) lo hi rec = Ok (true, rec') ->
  has_first_form (cylinder_sigma c) rec' /\ exists n, has_second_form (cylinder_sigma c) n rec'.
Proof. intros c H1 H2 Off W E. destruct (cylinder_hit_facts c H1 H2 Off W E) as [t [On [_ [_ [_ [_ [? ?]]]]]]]. eauto. Qed.
Lemma disk_hit_form : forall radius c n k, 0 < radius -> normR n = 1 -> l_min L < 1 ->
  make_disk (F:=XR L) (Fin radius) (fin3 c) (fin3 n) = Ok k ->
  disk_hit (F:=XR L) k (finray r) lo hi rec = Ok (true, rec') ->
  (exists e1 e2, frame e1 e2 n /\ has_first_form (disk_sigma c e1 e2 radius) rec') /\
  h_e rec' = NaN /\ h_f rec' = NaN.
Proof.
  intros radius c n k Hr N Hm Mk E. destruct (disk_hit_facts radius c n k Hr N Hm Mk E) as [e1 [e2 [t [Fr [On [D Nt]]]]]].
  split; [exists e1, e2; split; [auto|apply D]|]. apply (disk_second_form_nan k (finray r) lo hi rec rec' E).
Qed.

(** C32 *)
Lemma sphere_hit_curvature : forall s, 0 < s_radius s -> sphere_off_threshold (l_min L) s r ->
  sphere_hit (F:=XR L) (finsphere s) (finray r) lo hi rec = Ok (true, rec') ->
  exists t, h_t rec' = Fin t /\ (~ on_z_axis (s_center s) (pointR r t) ->
    exists u v n, pointR r t = sphere_sigma s u v /\
      curvatures (sphere_sigma s) n u v (/ s_radius s ^ 2) (/ s_radius s) /\
      gaussian_curvature (F:=XR L) rec' = Fin (/ s_radius s ^ 2) /\ mean_curvature (F:=XR L) rec' = Fin (/ s_radius s)).
Proof.
  intros s Hs Off E. destruct (sphere_hit_facts s Hs Off E) as [t [On D]]. exists t. split; [apply D|].
  intros N. exact (sphere_reports s r t rec' Hs D N).
Qed.
Lemma cylinder_hit_curvature : forall c, 0 < c_radius c -> c_zmin c < c_zmax c -> cylinder_off_threshold (l_min L) r ->
  (forall t, on_wall c r t -> at_least lo t) ->
  cylinder_hit (F:=XR L) (fincylinder c) (finray r) lo hi rec = Ok (true, rec') ->
  exists t u v n, h_t rec' = Fin t /\ pointR r t = cylinder_sigma c u v /\
    curvatures (cylinder_sigma c) n u v 0 (/ (2 * c_radius c)) /\
    gaussian_curvature (F:=XR L) rec' = Fin 0 /\ mean_curvature (F:=XR L) rec' = Fin (/ (2 * c_radius c)).
Proof.
  intros c H1 H2 Off W E. destruct (cylinder_hit_facts c H1 H2 Off W E) as [t [On D]].
  destruct (cylinder_reports (L:=L) c r t rec' H1 H2 D) as [u [v [n [Ep [C [R1 R2]]]]]].
  exists t, u, v, n. split; [apply D|]. auto.
Qed.
Lemma torus_hit_curvature : forall o, 0 < o_r o -> o_r o < o_R o -> r_dir r <> zeroR ->
  torus_off_threshold (l_min L) o r -> (forall t, at_least lo t -> 0 < t) ->
  torus_hit (F:=XR L) (fintorus o) (finray r) lo hi rec = Ok (true, rec') ->
  exists t u v n K H, h_t rec' = Fin t /\ pointR r t = torus_sigma o u v /\ K = torus_K o (pointR r t) /\
    curvatures (torus_sigma o) n u v K H /\
    gaussian_curvature (F:=XR L) rec' = Fin K /\ mean_curvature (F:=XR L) rec' = Fin H /\
    torus_curvature (F:=XR L) (fintorus o) (fin3 (pointR r t)) = Fin K.
Proof.
  intros o H1 H2 Hd Off W E. destruct (torus_hit_facts o H1 H2 Hd Off W E) as [t [On D]].
  destruct (torus_reports (L:=L) o r t rec' H1 H2 D) as [u [v [n [H [Ep [C [R1 R2]]]]]]].
  exists t, u, v, n, (torus_K o (pointR r t)), H. split; [apply D|].
  repeat (split; [auto|]). apply torus_curvature_fin; auto.
Qed.
Lemma ellipsoid_hit_curvature : forall s, positive3 (el_scales s) -> ellipsoid_off_threshold (l_min L) s r ->
  ellipsoid_hit (F:=XR L) (finellipsoid s) (finray r) lo hi rec = Ok (true, rec') ->
  exists t, h_t rec' = Fin t /\
    ellipsoid_curvature (F:=XR L) (finellipsoid s) (fin3 (pointR r t)) = Fin (ellipsoid_K s (pointR r t)) /\
    (~ on_z_axis (el_center s) (pointR r t) ->
     exists u v n H, pointR r t = ellipsoid_sigma s u v /\
       curvatures (ellipsoid_sigma s) n u v (ellipsoid_K s (pointR r t)) H /\
       gaussian_curvature (F:=XR L) rec' = Fin (ellipsoid_K s (pointR r t)) /\ mean_curvature (F:=XR L) rec' = Fin H).
Proof.
  intros s Hs Off E. destruct (ellipsoid_hit_facts s Hs Off E) as [t [On D]]. exists t. split; [apply D|].
  split; [apply ellipsoid_curvature_fin; auto|].
  intros N. exact (ellipsoid_reports s r t rec' Hs D N).
Qed.
End L.
