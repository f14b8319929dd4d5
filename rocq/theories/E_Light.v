(** Concrete cases meeting the hypotheses of the theorems in T_Light.v. *)
From Coq Require Import Reals Lra Lia List Bool.
From Verif Require Import Num XR Spec Spec_Scene Spec_Shapes Spec_Light M_Vec M_Hittable M_Shapes M_Materials
  P_Vec P_Sphere P_Torus P_Scenes P_Light P_Medium P_Path E_Scene.
Import ListNotations.
Local Open Scope R_scope.

(** fog in a ball of radius 2, entered at t = 8 and left at t = 12 *)
Lemma fog_case : forall (L : limits), l_min L < 1 -> 100 * l_eps L < 4 ->
  hit_contract toward_ray (of_sphere (F:=XR L) (finsphere far_sphere)) (fun t => on_sphere far_sphere (pointR toward_ray t)) (describes_sphere far_sphere toward_ray) /\
  first_meeting (fun t => on_sphere far_sphere (pointR toward_ray t)) 8 /\
  next_meeting (fun t => on_sphere far_sphere (pointR toward_ray t)) (100 * l_eps L) 8 12.
Proof.
  intros L Hm He. destruct (ex_two _ (conj (l_min_pos L) Hm) far_sphere true (or_introl eq_refl)) as [P [Off _]].
  split; [apply sphere_contract; auto|]. split; [|split; [|split]].
  - split; [apply far_on; auto|]. intros t H. apply far_on in H. lra.
  - apply far_on; auto.
  - lra.
  - intros t H. apply far_on in H. pose proof (l_eps_pos L). lra.
Qed.

(* glass and a ray at 45 degrees: refracted going in, for draws above the reflectance;
   totally reflected coming out *)
Lemma glass_case : let n := V3 0 0 1 in let d := V3 1 0 (-1) in
  normR n = 1 /\ d <> zeroR /\ dotR d n < 0 /\
  normsqR (tangentialR n (unitR d)) = 1 / 2 /\ ratioR true (3 / 2) * normR (tangentialR n (unitR d)) < 1 /\
  1 < ratioR false (3 / 2) * normR (tangentialR n (unitR d)).
Proof.
  cbn zeta. assert (Nd : normR (V3 1 0 (-1)) = sqrt 2). { unfold normR, normsqR, dotR; cbn [vx vy vz]. f_equal. ring. }
  assert (S2 : sqrt 2 * sqrt 2 = 2) by (apply sqrt_sqrt; lra). assert (P2 : 0 < sqrt 2) by (apply sqrt_lt_R0; lra).
  assert (Q : normsqR (tangentialR (V3 0 0 1) (unitR (V3 1 0 (-1)))) = 1 / 2).
  { unfold unitR. rewrite Nd. unfold tangentialR, normsqR, dotR, subR, scaleR; cbn [vx vy vz].
    transitivity (/ (sqrt 2 * sqrt 2)); [field; lra|rewrite S2; lra]. }
  assert (NS : normR (tangentialR (V3 0 0 1) (unitR (V3 1 0 (-1)))) = sqrt (1 / 2)) by (unfold normR; rewrite Q; reflexivity).
  assert (S3 : sqrt (1 / 2) * sqrt (1 / 2) = 1 / 2) by (apply sqrt_sqrt; lra). assert (P3 : 0 < sqrt (1 / 2)) by (apply sqrt_lt_R0; lra).
  split. { unfold normR, normsqR, dotR; cbn [vx vy vz]. replace (0 * 0 + 0 * 0 + 1 * 1) with 1 by ring. apply sqrt_1. }
  split. { intros E. injection E. lra. }
  split. { unfold dotR; cbn. lra. }
  split; [exact Q|]. rewrite NS. unfold ratioR. split; nra.
Qed.

(** the general bound is attained: a white emitter that scatters everything *)
Lemma bright : forall (L : limits) (rec : hit_record xr) (r : ray xr) depth,
  ray_color (F:=XR L) (M:=unit) (W:=nat) (fun w _ _ _ => Ok (Some tt, rec, S w)) (fun _ w _ _ => Ok (Some (fin3 (V3 1 1 1), r), w))
    (fun _ _ => fin3 (V3 1 1 1)) depth O r (fin3 (V3 1 1 1)) = Ok (fin3 (V3 (INR depth) (INR depth) (INR depth)), depth).
Proof.
  intros L rec r depth. assert (G : forall w,
    ray_color (F:=XR L) (M:=unit) (W:=nat) (fun w _ _ _ => Ok (Some tt, rec, S w)) (fun _ w _ _ => Ok (Some (fin3 (V3 1 1 1), r), w))
      (fun _ _ => fin3 (V3 1 1 1)) depth w r (fin3 (V3 1 1 1)) = Ok (fin3 (V3 (INR depth) (INR depth) (INR depth)), (w + depth)%nat)).
  { induction depth as [|depth IH]; intros w; cbn [ray_color]; [rewrite Nat.add_0_r; reflexivity|].
    cbn [obind]. rewrite IH. cbn [obind]. rewrite hadamard_fin, vadd_fin. rewrite S_INR.
    replace (S w + depth)%nat with (w + S depth)%nat by lia. f_equal. f_equal. f_equal. unfold addR, hadamardR; cbn [vx vy vz]. f_equal; ring. }
  exact (G O).
Qed.

(** a lamp on the ceiling of a grey room: hitting material [true] (the lamp) ends the path *)
Definition room_scatter (out : ray xr) : bool -> nat -> ray xr -> hit_record xr -> outcome (option (vec3 xr * ray xr) * nat) :=
  fun lamp w _ _ => Ok (if lamp then None else Some (fin3 (V3 (1 / 2) (1 / 2) (1 / 2)), out), w).
Definition room_emitted : bool -> hit_record xr -> vec3 xr := fun lamp _ => if lamp then fin3 (V3 4 4 4) else fin3 zeroR.
Lemma room_case : forall out,
  (forall m rec, exists e, room_emitted m rec = fin3 e /\ within_cube 4 e) /\
  (forall m w r rec att out' w', room_scatter out m w r rec = Ok (Some (att, out'), w') ->
     room_emitted m rec = fin3 zeroR /\ exists a, att = fin3 a /\ within_cube 1 a).
Proof.
  intros out. split.
  - intros [] rec; eexists; (split; [reflexivity|]); unfold within_cube, zeroR; cbn; lra.
  - intros [] w r rec att out' w' H; [discriminate|]. injection H as <- <- <-. split; [reflexivity|]. eexists. split; [reflexivity|].
    unfold within_cube; cbn; lra.
Qed.
(* one bounce off a wall, then the lamp: half the lamp's light *)
Lemma room_colour : forall (L : limits) (rec : hit_record xr) (r out : ray xr) bg,
  ray_color (F:=XR L) (M:=bool) (W:=nat) (fun w _ _ _ => Ok (Some (Nat.odd w), rec, S w)) (room_scatter out) room_emitted 8 O r bg
    = Ok (fin3 (V3 2 2 2), 2%nat).
Proof.
  intros L rec r out bg. cbn [ray_color]. cbn [obind Nat.odd Nat.even negb room_scatter room_emitted].
  rewrite hadamard_fin, vadd_fin. f_equal. f_equal. f_equal. unfold addR, hadamardR, zeroR; cbn [vx vy vz]. f_equal; lra.
Qed.

Lemma checker_case : sin (10 * (PI / 20)) * sin (10 * (PI / 20)) * sin (10 * (PI / 20)) <> 0.
Proof. replace (10 * (PI / 20)) with (PI / 2) by lra. rewrite sin_PI2. lra. Qed.
