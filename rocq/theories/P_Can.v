(** The picture of cylinder.cpp. *)
From Coq Require Import Reals ZArith Znumtheory Lra Lia List Bool Wf_nat.
From Verif Require Import Spec_Random Num XR Spec Spec_Scene Spec_Light Spec_Shapes Spec_Image Spec_World Spec_Shades M_Vec M_Roots M_Rng M_Hittable M_Materials M_Shapes M_Image M_World M_Programs
  P_Vec P_Rng P_Quadratic P_Flat P_Cylinder P_List P_Camera P_Light P_Lambert P_Path P_World P_Furnace P_Fractal P_Marbles P_Shows P_Shades.
Import ListNotations.
Local Open Scope R_scope.

(** *** The tangent of 20 degrees *)
Notation tan20 := (tan (40 * PI / 360)).

Lemma tan20_cubic : 0 < tan20 < 1 /\ 3 * tan20 - tan20 * tan20 * tan20 = sqrt 3 * (1 - 3 * (tan20 * tan20)).
Proof.
  pose proof PI_RGT_0 as P0. replace (40 * PI / 360) with (PI / 9) by field.
  assert (S3 : sin (PI / 3) = 3 * sin (PI / 9) - 4 * (sin (PI / 9) * sin (PI / 9) * sin (PI / 9))).
  { replace (PI / 3) with (2 * (PI / 9) + PI / 9) by field. rewrite sin_plus, sin_2a, cos_2a. pose proof (sin2_cos2 (PI / 9)) as Q. unfold Rsqr in Q.
    replace (cos (PI / 9) * cos (PI / 9)) with (1 - sin (PI / 9) * sin (PI / 9)) by lra.
    replace (2 * sin (PI / 9) * cos (PI / 9) * cos (PI / 9)) with (2 * sin (PI / 9) * (cos (PI / 9) * cos (PI / 9))) by ring.
    replace (cos (PI / 9) * cos (PI / 9)) with (1 - sin (PI / 9) * sin (PI / 9)) by lra. ring. }
  assert (C3 : cos (PI / 3) = 4 * (cos (PI / 9) * cos (PI / 9) * cos (PI / 9)) - 3 * cos (PI / 9)).
  { replace (PI / 3) with (2 * (PI / 9) + PI / 9) by field. rewrite cos_plus, sin_2a, cos_2a. pose proof (sin2_cos2 (PI / 9)) as Q. unfold Rsqr in Q.
    replace (2 * sin (PI / 9) * cos (PI / 9) * sin (PI / 9)) with (2 * (sin (PI / 9) * sin (PI / 9)) * cos (PI / 9)) by ring.
    replace (sin (PI / 9) * sin (PI / 9)) with (1 - cos (PI / 9) * cos (PI / 9)) by lra. ring. }
  rewrite sin_PI3 in S3. rewrite cos_PI3 in C3.
  assert (Hs : 0 < sin (PI / 9)) by (apply sin_gt_0; lra). assert (Hc : 0 < cos (PI / 9)) by (apply cos_gt_0; lra).
  assert (Lt : sin (PI / 9) < cos (PI / 9)).
  { rewrite <- (sin_shift (PI / 9)). apply sin_increasing_1; lra. }
  pose proof (sin2_cos2 (PI / 9)) as Q. unfold Rsqr in Q. unfold tan. set (s := sin (PI / 9)) in *. set (c := cos (PI / 9)) in *.
  assert (T : s = s / c * c) by (field; lra). set (x := s / c) in *. clearbody x s c.
  split.
  { split; [|]; nra. }
  subst s. pose proof (sqrt_lt_R0 3 ltac:(lra)) as R3.
  assert (Q3 : (3 * x - x * x * x) * (c * c * c) = sqrt 3 / 2).
  { rewrite S3. replace (3 * (x * c)) with (3 * (x * c) * (x * c * (x * c) + c * c)) by (rewrite Q; ring). ring. }
  assert (Q4 : (1 - 3 * (x * x)) * (c * c * c) = 1 / 2).
  { rewrite C3. replace (3 * c) with (3 * c * (x * c * (x * c) + c * c)) by (rewrite Q; ring). ring. }
  assert (0 < c * c * c) by (apply Rmult_lt_0_compat; [apply Rmult_lt_0_compat|]; assumption).
  apply Rmult_eq_reg_r with (c * c * c); [|lra]. rewrite Q3, Rmult_assoc, Q4. field.
Qed.
Lemma sqrt3_bounds : 17320508 / 10000000 < sqrt 3 < 17320509 / 10000000.
Proof.
  split.
  - rewrite <- (sqrt_square (17320508 / 10000000)) by lra. apply sqrt_lt_1_alt. lra.
  - rewrite <- (sqrt_square (17320509 / 10000000)) by lra. apply sqrt_lt_1_alt. lra.
Qed.
Lemma tan20_below : tan20 < 363975 / 1000000.
Proof.
  destruct tan20_cubic as [B E]. pose proof sqrt3_bounds as S3. set (x := tan20) in *. set (q := sqrt 3) in *. clearbody x q.
  apply Rnot_le_lt. intros H.
  (* x^3 - 3 q x^2 - 3 x + q decreases on the unit interval *)
  set (b := 363975 / 1000000) in *.
  assert (F : x * x * x - 3 * q * (x * x) - 3 * x + q = 0) by lra.
  assert (D : x * x * x - 3 * q * (x * x) - 3 * x + q - (b * b * b - 3 * q * (b * b) - 3 * b + q) = (x - b) * (x * x + x * b + b * b - 3 * q * (x + b) - 3)) by ring.
  assert (N : b * b * b - 3 * q * (b * b) - 3 * b + q < 0).
  { replace (b * b * b - 3 * q * (b * b) - 3 * b + q) with (b * b * b - 3 * b + q * (1 - 3 * (b * b))) by ring. unfold b in *. lra. }
  assert (P : 0 <= (x - b) * - (x * x + x * b + b * b - 3 * q * (x + b) - 3)).
  { apply Rmult_le_pos; [lra|]. unfold b in *. nra. }
  lra.
Qed.

Lemma tan20_above : 3639 / 10000 < tan20.
Proof.
  destruct tan20_cubic as [B E]. pose proof sqrt3_bounds as S3. set (x := tan20) in *. set (q := sqrt 3) in *. clearbody x q.
  apply Rnot_le_lt. intros H. set (b := 3639 / 10000) in *.
  assert (F : x * x * x - 3 * q * (x * x) - 3 * x + q = 0) by lra.
  assert (D : x * x * x - 3 * q * (x * x) - 3 * x + q - (b * b * b - 3 * q * (b * b) - 3 * b + q) = (b - x) * - (x * x + x * b + b * b - 3 * q * (x + b) - 3)) by ring.
  assert (N : 0 < b * b * b - 3 * q * (b * b) - 3 * b + q).
  { replace (b * b * b - 3 * q * (b * b) - 3 * b + q) with (b * b * b - 3 * b + q * (1 - 3 * (b * b))) by ring. unfold b in *. lra. }
  assert (P : 0 <= (b - x) * - (x * x + x * b + b * b - 3 * q * (x + b) - 3)).
  { apply Rmult_le_pos; [lra|]. unfold b in *. nra. }
  lra.
Qed.

Lemma no_ratio : forall n p q, Z.abs_nat q = n -> q <> 0%Z -> (p * p * p - 33 * p * p * q + 27 * p * q * q - 3 * q * q * q = 0)%Z -> False.
Proof.
  intros n. induction n as [n IH] using lt_wf_ind. intros p q En Hq E.
  assert (P3 : forall z, (3 | z * z * z)%Z -> (3 | z)%Z).
  { intros z D. apply (prime_mult 3 prime_3) in D. destruct D as [D|D]; [apply (prime_mult 3 prime_3) in D; destruct D; assumption|assumption]. }
  destruct (P3 p) as [p' Ep]. { exists (11 * p * p * q - 9 * p * q * q + q * q * q)%Z. lia. }
  subst p. destruct (P3 q) as [q' Eq]. { exists (3 * p' * p' * p' - 33 * p' * p' * q + 9 * p' * q * q)%Z. lia. }
  subst q. apply (IH (Z.abs_nat q')) with p' q'; [lia|reflexivity|lia|]. lia.
Qed.
Lemma tan20_irrational : forall p q, q <> 0%Z -> tan20 * tan20 * IZR q <> IZR p.
Proof.
  intros p q Hq E. destruct tan20_cubic as [B C]. pose proof (sqrt_sqrt 3 ltac:(lra)) as S3. set (x := tan20) in *. set (r := sqrt 3) in *. clearbody x r.
  assert (Y : (x * x) * (x * x) * (x * x) - 33 * (x * x) * (x * x) + 27 * (x * x) - 3 = 0).
  { assert (Sq : (3 * x - x * x * x) * (3 * x - x * x * x) = (r * r) * ((1 - 3 * (x * x)) * (1 - 3 * (x * x)))) by (rewrite C; ring). rewrite S3 in Sq. lra. }
  set (y := x * x) in *. clearbody y.
  assert (Z0 : IZR p * IZR p * IZR p - 33 * IZR p * IZR p * IZR q + 27 * IZR p * IZR q * IZR q - 3 * IZR q * IZR q * IZR q = 0).
  { rewrite <- E. replace (y * IZR q * (y * IZR q) * (y * IZR q) - 33 * (y * IZR q) * (y * IZR q) * IZR q + 27 * (y * IZR q) * IZR q * IZR q - 3 * IZR q * IZR q * IZR q)
      with ((y * y * y - 33 * y * y + 27 * y - 3) * (IZR q * IZR q * IZR q)) by ring. rewrite Y. ring. }
  apply (no_ratio (Z.abs_nat q) p q eq_refl Hq). apply eq_IZR. repeat (rewrite minus_IZR || rewrite plus_IZR || rewrite mult_IZR). exact Z0.
Qed.
(* no ray of the camera that the generator can produce has this slope *)
Lemma no_tangent : forall j x, tick x -> let b := tan20 * (2 * ((IZR j + x) / IZR (750 - 1)) - 1) in b * b <> 9 / 191.
Proof.
  intros j x (n & Hn & ->) b E. unfold b in E. clear b. set (m := (2 * (j * 2 ^ 32 + n) - 749 * 2 ^ 32)%Z).
  assert (Em : 2 * ((IZR j + IZR n / IZR (2 ^ 32)) / IZR (750 - 1)) - 1 = IZR m / IZR (749 * 2 ^ 32)).
  { change (750 - 1)%Z with 749%Z. unfold m. repeat (rewrite minus_IZR || rewrite plus_IZR || rewrite mult_IZR). set (e := IZR (2 ^ 32)). assert (0 < e) by (apply IZR_lt; reflexivity). clearbody e. field. lra. }
  rewrite Em in E. set (e := (749 * 2 ^ 32)%Z) in *. assert (He : 0 < IZR e) by (apply IZR_lt; reflexivity).
  assert (Q : tan20 * tan20 * IZR (191 * m * m) = IZR (9 * e * e)).
  { rewrite !mult_IZR. apply Rmult_eq_reg_r with (/ (191 * IZR e * IZR e)); [|apply Rinv_neq_0_compat; nra].
    replace (tan20 * tan20 * (191 * IZR m * IZR m) * / (191 * IZR e * IZR e)) with (tan20 * (IZR m / IZR e) * (tan20 * (IZR m / IZR e))) by (field; lra). rewrite E. field. lra. }
  destruct (Z.eq_dec m 0) as [M0|M0].
  - rewrite M0 in Q. replace (191 * 0 * 0)%Z with 0%Z in Q by ring. rewrite Rmult_0_r in Q. rewrite !mult_IZR in Q. nra.
  - apply (tan20_irrational (9 * e * e) (191 * m * m)); [nia|exact Q].
Qed.

(** *** The scene *)
Section Can.
Context {L : limits}.
Notation X := (XR L).
Hypothesis M : l_min L < 1 / 1000.
Hypothesis Eps : l_eps L < 1 / 1000.
Definition can_lamp : rect R := Rect (-10) 10 (-10) 10 20.
Definition can : cylinder R := Cylinder 3 (-10) 10.
Definition can_light : material_ptr (F:=X) := (0%nat, light (F:=X) (V3 (nofZ (NumOps:=X) 3) (nofZ (NumOps:=X) 3) (nofZ (NumOps:=X) 3))).
Definition can_paint : material_ptr (F:=X) := (1%nat, matte (F:=X) (V3 (nofZ (NumOps:=X) 0) (nofZ (NumOps:=X) 0) (nofZ (NumOps:=X) 1))).
Definition can_items : list (hittable (F:=X) * material_ptr (F:=X)) := [(of_yz (F:=X) (finrect can_lamp), can_light); (of_cylinder (F:=X) (fincylinder can), can_paint)].
Definition can_camera : camera (F:=X) := make_camera (F:=X) (fin3 (V3 10 10 0)) (fin3 (V3 0 0 0)) (fin3 (V3 0 1 0)) (Fin 40) (Fin (8 / 5)).
Notation wh := (world_hit (F:=X) (scene_of can_items)).
Notation color fuel depth w r := (ray_color (F:=X) wh (scatter (F:=X) fuel) (emitted (F:=X)) depth w r (fin3 (V3 0 0 0))).

(* the direction through (s, t), for the half diagonal k0 of the unit square *)
Definition can_dir (k0 s t : R) : vec3 R :=
  let A := 8 / 5 * tan20 * (2 * s - 1) in let B := tan20 * (2 * t - 1) in V3 (- k0 * (1 + B)) (k0 * (B - 1)) (- A).
Lemma can_rays : exists k0, 0 < k0 /\ 2 * (k0 * k0) = 1 /\ forall s t, get_ray (F:=X) can_camera (Fin s) (Fin t) = finray (Ray (V3 10 10 0) (can_dir k0 s t)).
Proof.
  destruct (camera_frame (L:=L) (V3 10 10 0) (V3 0 0 0) (V3 0 1 0) 40 (8 / 5)) as (u & v & w & Nu & Nv & Nw & Uv & Uw & Vw & Cr & (k & Hk & Ew) & Uup & Vup & E).
  { intros Q. injection Q. intros. lra. } { unfold crossR, subR, zeroR; cbn [vx vy vz]. intros Q. injection Q. intros. lra. } { lra. }
  pose proof (unit_normsq u Nu) as Nu2. pose proof (unit_normsq w Nw) as Nw2. pose proof (unit_normsq v Nv) as Nv2.
  destruct u as [ux uy uz], v as [v1 v2 v3], w as [w1 w2 w3]. unfold normsqR, dotR, crossR, scaleR, subR in *; cbn [vx vy vz] in *.
  injection Ew as W1 W2 W3. injection Cr as C1 C2 C3.
  set (k0 := k * 10). assert (K0 : 0 < k0) by (unfold k0; lra).
  assert (w1 = k0) by (unfold k0; lra). assert (w2 = k0) by (unfold k0; lra). assert (w3 = 0) by lra. clear W1 W2 W3. subst w1 w2 w3. clearbody k0.
  assert (uy = 0) by lra. subst uy. assert (ux = 0) by nra. subst ux.
  assert (U1 : uz = 1 \/ uz = -1). { assert (Q : (uz - 1) * (uz + 1) = 0) by lra. apply Rmult_integral in Q. destruct Q; [left|right]; lra. }
  assert (uz = -1) by (destruct U1; [subst uz; lra|assumption]). subst uz. assert (v3 = 0) by lra. assert (v2 = k0) by lra. assert (v1 = - k0) by lra. subst v1 v2 v3.
  exists k0. split; [exact K0|]. split; [lra|]. intros s t. unfold can_camera. rewrite E. unfold finray, can_dir; cbn [r_orig r_dir]. f_equal. f_equal. apply V3_ext; unfold subR, addR, scaleR; cbn [vx vy vz]; ring.
Qed.

(** one meeting with the two objects *)
Lemma two_hits : forall (w : state (F:=X)) (r : ray R) b1 t1 rec1 b2 t2 rec2, fst (st_junk w 0%nat) = t1 ->
  hit (of_yz (F:=X) (finrect can_lamp)) (finray r) (lo0 (L:=L)) (ninf (NumOps:=X)) t1 = Ok (b1, rec1) ->
  (b1 = true -> h_t rec1 = Fin t2) ->
  hit (of_cylinder (F:=X) (fincylinder can)) (finray r) (lo0 (L:=L)) (if b1 then Fin t2 else ninf (NumOps:=X)) rec1 = Ok (b2, rec2) -> (b1 = true -> b2 = false) ->
  (b2 = true -> exists t, h_t rec2 = Fin t) ->
  exists rec, wh w (finray r) (lo0 (L:=L)) (ninf (NumOps:=X)) = Ok (if b1 then Some can_light else if b2 then Some can_paint else None, rec, drop_junk w) /\ (b1 = true -> rec = rec1) /\ (b2 = true -> rec = rec2).
Proof.
  intros w r b1 t1 rec1 b2 t2 rec2 Ej E1 T1 E2 N T2. unfold world_hit. destruct (st_junk w 0%nat) as [temp0 rec0]. cbn [fst] in Ej. subst t1.
  unfold list_hit. rewrite scene_objects, scene_materials. cbn [can_items map fst snd list_loop]. change (@num X) with xr in *. rewrite E1. cbn [obind].
  destruct b1.
  - rewrite (T1 eq_refl). cbn [nltb XR xltb ninf]. rewrite (N eq_refl) in *. change (@num X) with xr in *. rewrite E2. cbn [obind nth_error]. exists rec1. split; [reflexivity|]. split; [reflexivity|discriminate].
  - change (@num X) with xr in *. rewrite E2. cbn [obind]. destruct b2.
    + destruct (T2 eq_refl) as [t T]. rewrite T. cbn [nltb XR xltb ninf obind nth_error]. exists rec2. split; [reflexivity|]. split; [discriminate|reflexivity].
    + cbn [obind]. exists rec0. split; [reflexivity|]. split; discriminate.
Qed.

(* leaving the can: no second meeting with it *)
Lemma can_left : forall p d (hi : xr) (rec : hit_record xr), on_cylinder can p -> 3 <= vx d * vx p + vy d * vy p -> hi <> NaN ->
  hit (of_cylinder (F:=X) (fincylinder can)) (finray (Ray p d)) (lo0 (L:=L)) hi rec = Ok (false, rec).
Proof.
  intros p d hi rec [Pw Pz] D Hh. cbn [can c_radius] in Pw. cbn [hit of_cylinder]. unfold cylinder_hit.
  change (r_orig (finray (Ray p d))) with (fin3 p). change (r_dir (finray (Ray p d))) with (fin3 d).
  change (c_radius (fincylinder can)) with (Fin 3). unfold fin3 at 1 2 3 4 5 6 7 8 9 10 11 12, map3; cbn [vx vy vz]. xred.
  assert (A : 1 <= vx d * vx d + vy d * vy d).
  { pose proof (Rle_0_sqr (vx d * vy p - vy d * vx p)) as Q. unfold Rsqr in Q. nra. }
  destruct (quadratic_roots_set L (vx d * vx d + vy d * vy d) (2 * (vx p * vx d + vy p * vy d)) (vx p * vx p + vy p * vy p - 3 * 3)) as [l [E [_ [Sh Z]]]].
  { right. rewrite Rabs_pos_eq; lra. } { right. rewrite Rabs_pos_eq; lra. } { lra. }
  match type of E with ?q = _ => match goal with |- context [match ?q' with _ => _ end] => change q' with q end end.
  rewrite E.
  assert (Neg : forall t, In t l -> t <= 0).
  { intros t Ht. apply Z in Ht. unfold quadR in Ht. replace (vx p * vx p + vy p * vy p - 3 * 3) with 0 in Ht by lra. apply Rnot_lt_le. intros T. nra. }
  clear Z E. pose proof (l_eps_pos L) as E0.
  assert (Out : forall t, t <= 0 -> xltb (Fin t) (lo0 (L:=L)) || xltb hi (Fin t) = true).
  { intros t Ht. unfold lo0. cbn. rewrite Rltb_true by lra. reflexivity. }
  destruct Sh as [->|[t0 [t1 ->]]]; cbn [map]; [reflexivity|]. xred. rewrite (Out t0) by (apply Neg; left; reflexivity). rewrite (Out t1) by (apply Neg; right; left; reflexivity). reflexivity.
Qed.

Lemma lo0_fin : lo0 (L:=L) = Fin (1000 * l_eps L).
Proof. reflexivity. Qed.
(* the second half of a path *)
Lemma can_second : forall depth (w : state (F:=X)) p d, good_state w -> on_cylinder can p -> 3 <= vx d * vx p + vy d * vy p ->
  exists c w', (forall fuel, color fuel (S depth) w (finray (Ray p d)) = Ok (fin3 c, w')) /\ good_state w' /\ (c = V3 0 0 0 \/ c = V3 3 3 3).
Proof.
  intros depth w p d G On D.
  assert (Px : vx p <= 3). { destruct On as [Pw _]. cbn [can c_radius] in Pw. nra. }
  destruct (yz_contract (L:=L) can_lamp ltac:(cbn; lra) ltac:(cbn; lra) (Ray p d)) as [C Q].
  { cbn [r_dir]. intros Z. rewrite Z in D. unfold zeroR in D; cbn [vx vy] in D. lra. } { cbn [r_dir r_orig can_lamp q_k]. lra. }
  destruct (C (lo0 (L:=L)) (ninf (NumOps:=X)) (fst (st_junk w 0%nat))) as (b & rec1 & E1 & H1); [discriminate|discriminate|].
  set (t2 := match h_t rec1 with Fin t => t | _ => 0 end).
  assert (T1 : b = true -> h_t rec1 = Fin t2). { intros ->. destruct H1 as (t & Et & _). unfold t2. rewrite Et. reflexivity. }
  destruct (two_hits w (Ray p d) b _ rec1 false t2 rec1 eq_refl E1 T1) as (rec & E & _).
  { apply can_left; auto. destruct b; discriminate. } { reflexivity. } { discriminate. }
  exists (if b then V3 3 3 3 else V3 0 0 0), (drop_junk w). split; [|split; [apply good_drop; exact G|destruct b; auto]].
  intros fuel. cbn [ray_color]. change (nmul (NumOps:=X) (nofZ (NumOps:=X) 1000) (neps (NumOps:=X))) with (lo0 (L:=L)). change (@num X) with xr in *. rewrite E. cbn [obind]. destruct b; reflexivity.
Qed.

(** the first half of a path *)
Section Primary.
Variables (i j : Z) (x y k0 : R).
Hypotheses (Hi : (0 <= i < 1200)%Z) (Hj : (0 <= j < 750)%Z) (Tx : tick x) (Ty : tick y) (K0 : 0 < k0) (K2 : 2 * (k0 * k0) = 1).
Definition can_a : R := 8 / 5 * tan20 * (2 * ((IZR i + x) / IZR (1200 - 1)) - 1).
Definition can_b : R := tan20 * (2 * ((IZR j + y) / IZR (750 - 1)) - 1).
Definition can_ray : ray R := Ray (V3 10 10 0) (can_dir k0 ((IZR i + x) / IZR (1200 - 1)) ((IZR j + y) / IZR (750 - 1))).
Lemma tick_bounds : forall z, tick z -> 0 <= z < 1.
Proof.
  intros z (n & Hn & ->). assert (E : 0 < IZR (2 ^ 32)) by (apply IZR_lt; reflexivity). destruct Hn as [N1 N2]. apply IZR_le in N1. apply IZR_lt in N2.
  split; [apply Rmult_le_pos; [lra|apply Rlt_le, Rinv_0_lt_compat; lra]|]. apply Rmult_lt_reg_r with (IZR (2 ^ 32)); [lra|]. replace (IZR n / IZR (2 ^ 32) * IZR (2 ^ 32)) with (IZR n) by (field; lra). lra.
Qed.
Lemma k0_bounds : 707106 / 1000000 < k0 < 707107 / 1000000.
Proof. split; nra. Qed.
Lemma can_a_bound : Rabs can_a <= 58334 / 100000.
Proof.
  destruct (tick_bounds x Tx) as [X0 X1]. pose proof tan20_below. destruct tan20_cubic as [[T0 _] _]. unfold can_a. change (1200 - 1)%Z with 1199%Z.
  assert (0 <= IZR i <= 1199) by (split; apply IZR_le; lia).
  set (m := 2 * ((IZR i + x) / 1199) - 1). assert (Mb : - (1201 / 1199) <= m <= 1201 / 1199) by (unfold m; lra). clearbody m.
  rewrite Rabs_mult, (Rabs_pos_eq (8 / 5 * tan20)) by lra. assert (Rabs m <= 1201 / 1199) by (apply Rabs_le; exact Mb). pose proof (Rabs_pos m). 
  apply Rle_trans with (8 / 5 * tan20 * (1201 / 1199)); [apply Rmult_le_compat_l; lra|]. lra.
Qed.
Lemma can_b_bound : - (1 / 2) < can_b < 1 / 2.
Proof.
  destruct (tick_bounds y Ty) as [X0 X1]. pose proof tan20_below. destruct tan20_cubic as [[T0 _] _]. unfold can_b. change (750 - 1)%Z with 749%Z.
  assert (0 <= IZR j <= 749) by (split; apply IZR_le; lia).
  set (m := 2 * ((IZR j + y) / 749) - 1). assert (Mb : - (751 / 749) <= m <= 751 / 749) by (unfold m; lra). clearbody m. split; nra.
Qed.
Lemma can_point : forall t, pointR can_ray t = V3 (10 - k0 * (1 + can_b) * t) (10 + k0 * (can_b - 1) * t) (- can_a * t).
Proof. intros t. unfold pointR, lineR, can_ray, can_dir; cbn [r_orig r_dir]. fold can_a can_b. apply V3_ext; unfold addR, scaleR; cbn [vx vy vz]; ring. Qed.
Lemma can_wall : forall t, on_wall can can_ray t <-> (1 + can_b * can_b) * (t * t) - 40 * k0 * t + 191 = 0.
Proof.
  intros t. unfold on_wall. rewrite can_point. cbn [vx vy can c_radius].
  assert (E : (10 - k0 * (1 + can_b) * t) ^ 2 + (10 + k0 * (can_b - 1) * t) ^ 2 = 200 - 40 * k0 * t + 2 * (k0 * k0) * ((1 + can_b * can_b) * (t * t))) by ring.
  rewrite E, K2. split; intros; lra.
Qed.
Lemma can_wall_range : forall t, on_wall can can_ray t -> 11 <= t <= 171422 / 10000.
Proof.
  intros t W. apply can_wall in W. pose proof k0_bounds.
  assert (Q : (t - 20 * k0) * (t - 20 * k0) <= 9).
  { pose proof (Rle_0_sqr (can_b * t)) as Z. unfold Rsqr in Z. replace ((t - 20 * k0) * (t - 20 * k0)) with (t * t - 40 * k0 * t + 200 * (2 * (k0 * k0))) by ring. rewrite K2. nra. }
  pose proof (abs_by_sq (t - 20 * k0) 3 ltac:(lra) ltac:(lra)). lra.
Qed.
Lemma can_wall_on : forall t, on_wall can can_ray t -> on_cylinder can (pointR can_ray t).
Proof.
  intros t W. split; [exact W|]. apply can_wall_range in W. rewrite can_point. cbn [vz can c_zmin c_zmax]. pose proof can_a_bound as A. apply abs_le in A. nra.
Qed.
Lemma can_off : cylinder_off_threshold (l_min L) can_ray.
Proof.
  unfold cylinder_off_threshold, can_ray, can_dir; cbn [r_orig r_dir vx vy vz]. fold can_b. pose proof can_b_bound. pose proof k0_bounds. split; [|split].
  - right. replace (- k0 * (1 + can_b) * (- k0 * (1 + can_b)) + k0 * (can_b - 1) * (k0 * (can_b - 1))) with (2 * (k0 * k0) * (1 + can_b * can_b)) by ring. rewrite K2. rewrite Rabs_pos_eq; nra.
  - right. replace (2 * (10 * (- k0 * (1 + can_b)) + 10 * (k0 * (can_b - 1)))) with (- (40 * k0)) by ring. rewrite Rabs_Ropp, Rabs_pos_eq; lra.
  - left. nra.
Qed.
Lemma can_first : forall (w : state (F:=X)),
  (exists rec, wh w (finray can_ray) (lo0 (L:=L)) (ninf (NumOps:=X)) = Ok (None, rec, drop_junk w)) \/
  (exists rec t n, wh w (finray can_ray) (lo0 (L:=L)) (ninf (NumOps:=X)) = Ok (Some can_paint, rec, drop_junk w) /\ on_cylinder can (pointR can_ray t) /\
    h_p rec = fin3 (pointR can_ray t) /\ h_normal rec = fin3 n /\ normR n = 1 /\ n = scaleR (1 / 3) (V3 (vx (pointR can_ray t)) (vy (pointR can_ray t)) 0) /\ can_b * can_b < 9 / 191).
Proof.
  intros w. pose proof can_b_bound as Bb. pose proof k0_bounds as Kb. pose proof (l_eps_pos L) as E0.
  assert (Dx : vx (r_dir can_ray) < 0). { unfold can_ray, can_dir; cbn [r_dir vx]. fold can_b. nra. }
  destruct (yz_contract (L:=L) can_lamp ltac:(cbn; lra) ltac:(cbn; lra) can_ray) as [C Q].
  { intros Z. rewrite Z in Dx. cbn in Dx. lra. } { cbn [r_orig can_ray vx can_lamp q_k]. lra. }
  destruct (C (lo0 (L:=L)) (ninf (NumOps:=X)) (fst (st_junk w 0%nat))) as (b & rec1 & E1 & H1); [discriminate|discriminate|].
  assert (b = false).
  { destruct b; [|reflexivity]. destruct H1 as (t & _ & On & W & _). destruct On as [On _]. apply (proj1 (in_lo0 (L:=L) t)) in W. rewrite can_point in On. cbn [vx can_lamp q_k] in On. exfalso. assert (0 <= k0 * (1 + can_b)) by nra. assert (0 <= k0 * (1 + can_b) * t) by (apply Rmult_le_pos; lra). lra. }
  subst b.
  destruct (cylinder_exact (L:=L) can ltac:(cbn; lra) ltac:(cbn; lra) can_ray (lo0 (L:=L)) (ninf (NumOps:=X)) rec1 can_off) as (b2 & rec2 & E2 & H2).
  { discriminate. } { discriminate. } { intros t W. apply can_wall_range in W. rewrite lo0_fin. cbn [at_least]. lra. }
  destruct (two_hits w can_ray false _ rec1 b2 0 rec2 eq_refl E1) as (rec & E & _ & R2).
  { discriminate. } { exact E2. } { discriminate. } { intros ->. destruct H2 as (t & Et & _). exists t. exact Et. }
  destruct b2; [right|left; exists rec; exact E]. specialize (R2 eq_refl). subst rec. destruct H2 as (t & Et & On & W & First & D).
  destruct D as ([_ Hp] & (n & Hn & N1 & _ & Fr & Bk) & _). exists rec2, t, n. split; [exact E|]. split; [exact On|]. split; [exact Hp|]. split; [exact Hn|]. split; [exact N1|].
  assert (Wt : (1 + can_b * can_b) * (t * t) - 40 * k0 * t + 191 = 0) by (apply can_wall; exact (proj1 On)).
  assert (Tr : 11 <= t <= 171422 / 10000) by (apply can_wall_range; exact (proj1 On)).
  set (a := 1 + can_b * can_b) in *. assert (A1 : 1 <= a) by (unfold a; nra).
  (* the other root *)
  assert (O : t <= 40 * k0 / a - t).
  { assert (Wo : on_wall can can_ray (40 * k0 / a - t)).
    { apply can_wall. fold a. replace (a * ((40 * k0 / a - t) * (40 * k0 / a - t)) - 40 * k0 * (40 * k0 / a - t) + 191) with (a * (t * t) - 40 * k0 * t + 191) by (field; lra). exact Wt. }
    apply First; [apply can_wall_on; exact Wo|]. apply can_wall_range in Wo. apply (proj2 (in_lo0 (L:=L) _)). lra. }
  assert (At : a * t <= 20 * k0). { assert (Q2 : a * (40 * k0 / a) = 40 * k0) by (field; lra). nra. }
  assert (Nt : can_b * can_b <> 9 / 191) by exact (no_tangent j y Ty).
  assert (At' : a * t < 20 * k0).
  { destruct (Rle_lt_or_eq_dec _ _ At) as [Z|Z]; [exact Z|exfalso]. apply Nt.
    assert (T1 : 20 * k0 * t = 191) by nra. assert (a * 191 = 200) by nra. unfold a in *. lra. }
  assert (Neg : dotR (r_dir can_ray) (V3 (vx (pointR can_ray t)) (vy (pointR can_ray t)) 0) < 0).
  { rewrite can_point. unfold can_ray, can_dir, dotR; cbn [r_dir vx vy vz]. fold can_b.
    replace (- k0 * (1 + can_b) * (10 - k0 * (1 + can_b) * t) + k0 * (can_b - 1) * (10 + k0 * (can_b - 1) * t) + - (8 / 5 * tan20 * (2 * ((IZR i + x) / IZR (1200 - 1)) - 1)) * 0)
      with (2 * (k0 * k0) * ((1 + can_b * can_b) * t) - 20 * k0) by ring. rewrite K2. fold a. lra. }
  destruct (h_front rec2) eqn:Hf; [|destruct (Bk Hf); lra]. destruct (Fr Hf) as (_ & k & Hk & En).
  assert (k = 1 / 3).
  { pose proof (unit_normsq n N1) as N2. rewrite En in N2. pose proof (proj1 On) as Pw. cbn [can c_radius] in Pw. unfold normsqR, dotR, scaleR in N2; cbn [vx vy vz] in N2.
    assert (K9 : 9 * (k * k) = 1) by nra. assert (Z : (3 * k - 1) * (3 * k + 1) = 0) by lra. apply Rmult_integral in Z. lra. }
  subst k. split; [exact En|].
  (* real roots *)
  assert (Ds : 0 < (20 * k0 - a * t) * (20 * k0 - a * t)) by nra.
  replace ((20 * k0 - a * t) * (20 * k0 - a * t)) with (200 * (2 * (k0 * k0)) + a * (a * (t * t) - 40 * k0 * t + 191) - 191 * a) in Ds by ring. rewrite Wt, K2 in Ds. unfold a in Ds. lra.
Qed.
Lemma can_sample : forall depth (w : state (F:=X)), good_state w -> exists k c w',
  (forall fuel, (k <= fuel)%nat -> color fuel (S (S depth)) w (finray can_ray) = Ok (fin3 c, w')) /\ good_state w' /\ (c = V3 0 0 0 \/ c = V3 0 0 3 /\ can_b * can_b < 9 / 191).
Proof.
  intros depth w G. destruct (can_first w) as [(rec & E)|(rec & t & n & E & On & Ep & En & N1 & Nv & Bd)].
  - exists 0%nat, (V3 0 0 0), (drop_junk w). split; [|split; [apply good_drop; exact G|left; reflexivity]]. intros fuel _. remember (S depth) as dd. cbn [ray_color].
    change (nmul (NumOps:=X) (nofZ (NumOps:=X) 1000) (neps (NumOps:=X))) with (lo0 (L:=L)). change (@num X) with xr in *. rewrite E. reflexivity.
  - destruct (skin_scatters (L:=L) (solid_color (F:=X) (fin3 (V3 0 0 1))) 1%nat (solid_good (L:=L) (V3 0 0 1) ltac:(unfold nonneg3; cbn; lra)) (drop_junk w) (finray can_ray) rec _ n (proj2 (proj2 (good_drop w G))) Ep En N1)
      as (k1 & a & d & w1 & Es & Ea & _ & D1 & _ & G1).
    assert (a = V3 0 0 1). { apply fin3_inj. rewrite <- Ea. reflexivity. } subst a.
    destruct (can_second depth w1 (pointR can_ray t) d G1 On) as (c & w2 & Ec & G2 & Hc).
    { rewrite Nv in D1. unfold dotR, scaleR in D1; cbn [vx vy vz] in D1. lra. }
    exists k1, (hadamardR c (V3 0 0 1)), w2. split; [|split; [exact G2|]].
    + intros fuel Hf. remember (S depth) as dd. cbn [ray_color].
      change (nmul (NumOps:=X) (nofZ (NumOps:=X) 1000) (neps (NumOps:=X))) with (lo0 (L:=L)). change (@num X) with xr in *. rewrite E. cbn [obind].
      change can_paint with (skin (L:=L) (solid_color (F:=X) (fin3 (V3 0 0 1))) 1%nat). rewrite (Es fuel Hf). cbn [obind]. subst dd. rewrite (Ec fuel). cbn [obind].
      rewrite hadamard_fin. change (emitted (F:=X) (skin (L:=L) (solid_color (F:=X) (fin3 (V3 0 0 1))) 1%nat) rec) with (fin3 (V3 0 0 0)). rewrite vadd_fin. unfold addR, hadamardR; cbn [vx vy vz]. do 3 f_equal. apply V3_ext; ring.
    + destruct Hc as [ -> | -> ]; [left|right; split; [|exact Bd]]; unfold hadamardR; cbn [vx vy vz]; apply V3_ext; ring.
Qed.
End Primary.

(** *** The picture *)
Definition can_blue : list Z := [0; 110; 156; 191; 220; 246; 255]%Z.
Definition can_shade (i j : Z) (c : vec3 R) : Prop := c = V3 0 0 0 \/ c = V3 0 0 3 /\ (151 <= j <= 597)%Z.
Lemma can_rows : forall j y, (0 <= j < 750)%Z -> tick y -> can_b j y * can_b j y < 9 / 191 -> (151 <= j <= 597)%Z.
Proof.
  intros j y Hj Ty B. destruct (tick_bounds y Ty) as [Y0 Y1]. pose proof tan20_above as T. unfold can_b in B. change (750 - 1)%Z with 749%Z in B.
  set (m := 2 * ((IZR j + y) / 749) - 1) in *.
  assert (Mb : - (5967 / 10000) < m < 5967 / 10000).
  { assert (m * m < 5967 / 10000 * (5967 / 10000)); [|split; nra]. apply Rnot_le_lt. intros Q.
    assert (3639 / 10000 * (3639 / 10000) <= tan20 * tan20) by (apply Rmult_le_compat; lra).
    assert (3639 / 10000 * (3639 / 10000) * (5967 / 10000 * (5967 / 10000)) <= tan20 * tan20 * (m * m)) by (apply Rmult_le_compat; lra).
    replace (tan20 * m * (tan20 * m)) with (tan20 * tan20 * (m * m)) in B by ring. lra. }
  unfold m in Mb. split.
  - apply le_IZR. destruct (Z_le_gt_dec 151 j) as [Z|Z]; [apply IZR_le; exact Z|exfalso]. assert (IZR j <= 150) by (apply IZR_le; lia). lra.
  - apply le_IZR. destruct (Z_le_gt_dec j 597) as [Z|Z]; [apply IZR_le; exact Z|exfalso]. assert (598 <= IZR j) by (apply IZR_le; lia). lra.
Qed.
Lemma can_total : forall i j n c, total (can_shade i j) n c -> exists m, (m <= n)%nat /\ c = V3 0 0 (3 * INR m) /\ (m = 0%nat \/ (151 <= j <= 597)%Z).
Proof.
  intros i j n c T. induction T as [|n c d T IH Hd].
  - exists 0%nat. split; [lia|]. split; [apply V3_ext; cbn; lra|left; reflexivity].
  - destruct IH as (m & Hm & -> & Hr). destruct Hd as [ -> |[ -> Hj]].
    + exists m. split; [lia|]. split; [unfold addR; cbn [vx vy vz]; apply V3_ext; ring|exact Hr].
    + exists (S m). split; [lia|]. split; [unfold addR; cbn [vx vy vz]; rewrite S_INR; apply V3_ext; ring|right; exact Hj].
Qed.
Lemma shade_val : forall a z, 0 <= a -> (0 <= z <= 255)%Z -> IZR z * IZR z <= 65025 * Rmin a 1 -> 65025 * Rmin a 1 < IZR (z + 1) * IZR (z + 1) -> shade a = z.
Proof.
  intros a z Ha Hz H1 H2. unfold shade. apply Flocq.Core.Raux.Zfloor_imp. pose proof (sqrt_pos (Rmin a 1)) as S0.
  assert (M0 : 0 <= Rmin a 1) by (apply Rmin_glb; lra). pose proof (sqrt_sqrt _ M0) as S2. set (q := sqrt (Rmin a 1)) in *.
  assert (0 <= IZR z) by (apply IZR_le; lia). assert (0 <= IZR (z + 1)) by (apply IZR_le; lia).
  split; [apply Rnot_lt_le; intros Q|apply Rnot_le_lt; intros Q]; rewrite <- S2 in *; nra.
Qed.
Lemma shade_0 : shade 0 = 0%Z.
Proof. apply shade_val; [lra|lia| |]; rewrite Rmin_left by lra; cbn; lra. Qed.
Lemma can_bytes : forall m, (m <= 16)%nat -> In (shade (3 * INR m / 16)) can_blue.
Proof.
  intros m Hm. assert (C : (m = 0 \/ m = 1 \/ m = 2 \/ m = 3 \/ m = 4 \/ m = 5 \/ 6 <= m)%nat) by lia.
  destruct C as [ -> |[ -> |[ -> |[ -> |[ -> |[ -> |C]]]]]].
  - replace (3 * INR 0 / 16) with 0 by (cbn; lra). rewrite shade_0. unfold can_blue; cbn; tauto.
  - rewrite (shade_val _ 110); [unfold can_blue; cbn; tauto|cbn; lra|lia| |]; rewrite Rmin_left by (cbn; lra); cbn; lra.
  - rewrite (shade_val _ 156); [unfold can_blue; cbn; tauto|cbn; lra|lia| |]; rewrite Rmin_left by (cbn; lra); cbn; lra.
  - rewrite (shade_val _ 191); [unfold can_blue; cbn; tauto|cbn; lra|lia| |]; rewrite Rmin_left by (cbn; lra); cbn; lra.
  - rewrite (shade_val _ 220); [unfold can_blue; cbn; tauto|cbn; lra|lia| |]; rewrite Rmin_left by (cbn; lra); cbn; lra.
  - rewrite (shade_val _ 246); [unfold can_blue; cbn; tauto|cbn; lra|lia| |]; rewrite Rmin_left by (cbn; lra); cbn; lra.
  - apply (le_INR 6) in C. change (INR 6) with (2 + 1 + 1 + 1 + 1) in C. rewrite (shade_val _ 255); [unfold can_blue; cbn; tauto|lra|lia| |]; rewrite Rmin_right by lra; cbn; lra.
Qed.
Lemma can_picture : forall order s, schedule 1200 750 order -> good_state s -> exists k img,
  (forall fuel, (k <= fuel)%nat -> run (F:=X) (cylinder_program (F:=X)) fuel order s = Ok img) /\ length img = Z.to_nat (4 * 1200 * 750) /\
  forall i j, (0 <= i < 1200)%Z -> (0 <= j < 750)%Z -> exists b, In b can_blue /\ ((j < 151)%Z \/ (597 < j)%Z -> b = 0%Z) /\
    forall k d, (0 <= k < 4)%Z -> nth (offset 1200 750 i j k) img d = nth (Z.to_nat k) [0; 0; b; 255]%Z d.
Proof.
  intros order s So G. destruct can_rays as (k0 & K0 & K2 & Er).
  destruct (scene_shades (L:=L) (world_hit (F:=X) (scene_of can_items)) (scatter (F:=X)) (emitted (F:=X)) (V3 0 0 0) can_camera 1200 750 good_state can_shade ltac:(lia) ltac:(lia)) with (spp := 16%nat) (order := order) (w := s)
    as (k & img & R & Ln & P); [|lia|exact So|exact G|].
  { intros i j x y w Hi Hj Tx Ty Gw. destruct (can_sample i j x y k0 Hi Hj Tx Ty K0 K2 6 w Gw) as (k & c & w' & E & G' & Hc).
    exists k, c, w'. split; [intros fuel Hf; change (@num X) with xr in *; rewrite Er; apply (E fuel Hf)|]. split; [|split; [|exact G']].
    - destruct Hc as [ -> |[ -> B]]; [left; reflexivity|right; split; [reflexivity|exact (can_rows j y Hj Ty B)]].
    - destruct Hc as [ -> |[ -> _]]; unfold nonneg3; cbn; lra. }
  exists k, img. split; [|split; [exact Ln|]].
  - intros fuel Hf. unfold run. assert (Eh : p_height (cylinder_program (F:=X)) = Ok 750%Z).
    { cbn [cylinder_program p_height]. rewrite dec16. cbn [nofZ ndiv XR]. rewrite xdiv_fin by lra. replace (1200 / (8 / 5)) with (IZR 750) by lra. apply to_int64_IZR. lia. }
    rewrite Eh. cbn [obind]. unfold p_camera. cbn [cylinder_program p_from p_at p_up p_vfov p_aspect p_width p_spp p_background]. rewrite dec16. exact (R fuel Hf).
  - intros i j Hi Hj. destruct (P i j Hi Hj) as (c & T & N). destruct (can_total i j 16 c T) as (m & Hm & -> & Hr).
    exists (shade (3 * INR m / 16)). split; [apply can_bytes; exact Hm|]. split.
    + intros Hj'. destruct Hr as [ -> |Hr]; [|lia]. replace (3 * INR 0 / 16) with 0 by (cbn; lra). apply shade_0.
    + intros k' d Hk. rewrite N by exact Hk. cbn [vx vy vz map app]. replace (0 / INR 16) with 0 by (unfold Rdiv; ring). rewrite shade_0.
      replace (INR 16) with 16 by (cbn; lra). reflexivity.
Qed.

Lemma can_program_camera : p_camera (F:=X) (cylinder_program (F:=X)) = can_camera.
Proof. unfold p_camera. cbn [cylinder_program p_from p_at p_up p_vfov p_aspect]. rewrite dec16. reflexivity. Qed.
End Can.

Lemma can_ends : forall (L : limits) i j x y, (0 <= i < 1200)%Z -> (0 <= j < 750)%Z -> tick x -> tick y ->
  exists r, get_ray (F:=XR L) (p_camera (F:=XR L) (cylinder_program (F:=XR L))) (Fin ((IZR i + x) / IZR (1200 - 1))) (Fin ((IZR j + y) / IZR (750 - 1))) = finray r /\
  forall t, on_wall (Cylinder 3 (-10) 10) r t -> 11 <= t /\ -10 < vz (pointR r t) < 10.
Proof.
  intros L i j x y Hi Hj Tx Ty. destruct (can_rays (L:=L)) as (k0 & K0 & K2 & Er). exists (can_ray i j x y k0). split; [rewrite can_program_camera; apply Er|].
  intros t W. change (Cylinder 3 (-10) 10) with can in W. pose proof (can_wall_range i j x y k0 K0 K2 t W) as Wr. rewrite can_point. cbn [vz]. pose proof (can_a_bound i x Hi Tx) as A. apply abs_le in A.
  split; [lra|]. nra.
Qed.
Lemma can_seen : forall L : limits, exists r t, get_ray (F:=XR L) (p_camera (F:=XR L) (cylinder_program (F:=XR L))) (Fin ((IZR 600 + 0) / IZR (1200 - 1))) (Fin ((IZR 374 + 1 / 2) / IZR (750 - 1))) = finray r /\
  on_cylinder (Cylinder 3 (-10) 10) (pointR r t).
Proof.
  intros L. destruct (can_rays (L:=L)) as (k0 & K0 & K2 & Er). exists (can_ray 600 374 0 (1 / 2) k0), (20 * k0 - 3). split; [rewrite can_program_camera; apply Er|].
  assert (T0 : tick 0) by (exists 0%Z; split; [lia|lra]).
  apply (can_wall_on 600 374 0 (1 / 2) k0 ltac:(lia) T0 K0 K2).
  apply (can_wall 600 374 0 (1 / 2) k0 K2). assert (B0 : can_b 374 (1 / 2) = 0) by (unfold can_b; change (750 - 1)%Z with 749%Z; lra). rewrite B0. nra.
Qed.
