(** Concrete cases for rays that leave a sphere: doubles far from trouble, and the corner sphere of
    render_spheres.cpp in single precision. *)
From Coq Require Import Reals Lra ZArith Lia List Bool.
From Flocq Require Import Core BinarySingleNaN.
From Verif Require Import Num XR FL M_Vec M_Rng M_Roots M_Hittable M_Shapes M_Materials M_World M_Programs Spec Spec_Scene Spec_Shapes Spec_Light Spec_World Spec_Accuracy
  P_FL P_Round P_Accuracy P_Sphere P_Furnace E_Accuracy E_Nearest E_World.
Import ListNotations.

(** in any arithmetic: a hit, a matte scattering, and a second hit, as booleans *)
Section Rehit.
Context {F : NumOps}.
Local Open Scope num_scope.
Definition lowest : num := nofZ 1000 * neps.
Definition rehits (fuel : nat) (s : sphere num) (r : ray num) (g : pcg) (rec : hit_record num) : bool :=
  match sphere_hit s r lowest ninf rec with
  | Ok (true, rec1) =>
    match lambertian_scatter fuel (solid_color (V3 (#1) (#1) (#1))) g rec1 with
    | Ok (Some (_, out), _) => match sphere_hit s out lowest ninf rec1 with Ok (true, rec2) => h_front rec1 | _ => false end
    | _ => false
    end
  | _ => false
  end.
End Rehit.
Lemma rehits_stated : forall {F : NumOps} fuel (s : sphere num) r g rec, rehits fuel s r g rec = true ->
  exists rec1 out g' rec2, sphere_hit s r lowest ninf rec = Ok (true, rec1) /\ h_front rec1 = true /\
    lambertian_scatter fuel (solid_color (V3 (nofZ 1) (nofZ 1) (nofZ 1))) g rec1 = Ok (Some (V3 (nofZ 1) (nofZ 1) (nofZ 1), out), g') /\ sphere_hit s out lowest ninf rec1 = Ok (true, rec2).
Proof.
  intros F fuel s r g rec H. unfold rehits in H. destruct (sphere_hit s r lowest ninf rec) as [[[|] rec1]| |] eqn:E1; try discriminate.
  destruct (lambertian_scatter fuel (solid_color (V3 (nofZ 1) (nofZ 1) (nofZ 1))) g rec1) as [[[[a out]|] g']| |] eqn:E2; try discriminate. destruct (sphere_hit s out lowest ninf rec1) as [[[|] rec2]| |] eqn:E3; try discriminate.
  exists rec1, out, g', rec2. split; [reflexivity|]. split; [exact H|]. split; [|exact E3]. rewrite E2. unfold lambertian_scatter in E2. destruct (random_in_hemisphere fuel (h_normal rec1) g) as [[v g1]| |]; cbn [obind] in E2; try discriminate. injection E2 as <- _ _. reflexivity.
Qed.
Definition blank32 : hit_record binary32 := let n := B754_nan in HR (V3 n n n) (V3 n n n) n n n n true n n n n n n n.
(** the sphere at the corner (-11, -11) and a ray from the camera *)
Definition corner32 : sphere binary32 := Sphere (V3 (d32 (-11) 0) (d32 13421773 (-26)) (d32 (-11) 0)) (d32 13421773 (-26)).
Definition glance32 : ray binary32 := Ray (V3 (d32 13 0) (d32 2 0) (d32 3 0)) (V3 (d32 (-24) 0) (d32 (-2) 0) (d32 (-14) 0)).
Lemma corner_rehits : forall lm, rehits (F:=F32 lm) 100 corner32 glance32 pcg_seed blank32 = true.
Proof. intros lm. vm_compute. reflexivity. Qed.
Lemma corner_acne : forall lm, exists rec1 out g' rec2, sphere_hit (F:=F32 lm) corner32 glance32 (lowest (F:=F32 lm)) (ninf (NumOps:=F32 lm)) blank32 = Ok (true, rec1) /\ h_front rec1 = true /\
  (exists white, lambertian_scatter (F:=F32 lm) 100 (solid_color (F:=F32 lm) white) pcg_seed rec1 = Ok (Some (white, out), g')) /\
  sphere_hit (F:=F32 lm) corner32 out (lowest (F:=F32 lm)) (ninf (NumOps:=F32 lm)) rec1 = Ok (true, rec2).
Proof. intros lm. destruct (rehits_stated (F:=F32 lm) 100 corner32 glance32 pcg_seed blank32 (corner_rehits lm)) as (rec1 & out & g' & rec2 & A & B & C & D). exists rec1, out, g', rec2. split; [exact A|]. split; [exact B|]. split; [eexists; exact C|exact D]. Qed.

(** it is a sphere of render_spheres.cpp for some draws *)
Definition corner_draws (n : nat) : binary32 := if Nat.ltb n 3 then d32 0 0 else d32 1 (-1).
Lemma cell_first : forall {F : NumOps} a b (d : nat -> num), let center := V3 (nadd (nofZ a) (nmul (dec 9 10) (d 1%nat))) (dec 2 10) (nadd (nofZ b) (nmul (dec 9 10) (d 2%nat))) in
  nltb (dec 9 10) (norm (vsub center (V3 (nofZ 4) (dec 2 10) (nofZ 0)))) && nltb (d 0%nat) (dec 5 10) = true ->
  exists c rest, cell a b d = ([(of_sphere (Sphere center (dec 2 10)), matte c)], rest).
Proof. intros F a b d center H. apply andb_true_iff in H. destruct H as [H1 H2]. unfold cell. cbv zeta. fold center. rewrite H1, H2. eexists. eexists. reflexivity. Qed.
Lemma grid_first : forall {F : NumOps} (d : nat -> num) x xs rest, cell (-11) (-11) d = (x :: xs, rest) -> In x (random_scene d).
Proof.
  intros F d x xs rest E. unfold random_scene. right. apply in_or_app. left. assert (G : exists l, M_Programs.grid = (-11, -11)%Z :: l) by (eexists; reflexivity). destruct G as [l ->]. cbn [place]. rewrite E. left. reflexivity.
Qed.
Lemma corner_in_scene : forall lm, exists c, In (of_sphere (F:=F32 lm) corner32, matte (F:=F32 lm) c) (random_scene (F:=F32 lm) corner_draws).
Proof.
  intros lm. destruct (cell_first (F:=F32 lm) (-11) (-11) corner_draws ltac:(vm_compute; reflexivity)) as (c & rest & E). exists c.
  match type of E with _ = ([(of_sphere ?s, _)], _) => assert (Es : s = corner32) end.
  { unfold corner32. f_equal; [f_equal|]; apply B2SF_inj; vm_compute; reflexivity. }
  rewrite Es in E. exact (grid_first (F:=F32 lm) _ _ _ _ E).
Qed.

(** a world of that sphere alone, grey, under a white sky *)
Definition fresh32 (lm : libm binary32) : state (F:=F32 lm) :=
  let x : binary32 := B754_nan in State (F:=F32 lm) (fun _ => pcg_seed) (fun _ => x) (fun _ => V3 x x x) (fun _ => (blank32, blank32)).
Definition white32 : vec3 binary32 := V3 (d32 1 0) (d32 1 0) (d32 1 0).
Definition grey32 : vec3 binary32 := V3 (d32 1 (-1)) (d32 1 (-1)) (d32 1 (-1)).
Local Notation seen_color lm depth := (ray_color (F:=F32 lm) (world_hit (F:=F32 lm) (add (F:=F32 lm) (empty_list (F:=F32 lm)) (of_sphere (F:=F32 lm) corner32) (0%nat, matte (F:=F32 lm) grey32)))
  (scatter (F:=F32 lm) 100) (emitted (F:=F32 lm)) depth (fresh32 lm) glance32 white32).
Lemma lone_dark : forall lm, match seen_color lm 128 with Ok (V3 x y z, _) => Beqb x (B754_zero false) && Beqb y (B754_zero false) && Beqb z (B754_zero false) | _ => false end = true.
Proof. intros lm. vm_compute. reflexivity. Qed.
Local Open Scope R_scope.
Lemma zero_of : forall x : binary32, Beqb x (B754_zero false) = true -> fval x = Fin 0.
Proof.
  intros x H. rewrite Beqb_fval in H. change (fval (B754_zero false : binary32)) with (Fin 0) in H. destruct (fval x) as [a| | |]; try discriminate. cbn [xeqb] in H. apply Reqb_iff in H. rewrite H. reflexivity.
Qed.
Lemma lone_stated : forall lm, exists c w, seen_color lm 128 = Ok (c, w) /\ map3 fval c = fin3 (V3 0 0 0).
Proof.
  intros lm. pose proof (lone_dark lm) as H. destruct (seen_color lm 128) as [[[x y z] w]| |]; try discriminate. apply andb_true_iff in H. destruct H as [H H3]. apply andb_true_iff in H. destruct H as [H1 H2].
  exists (V3 x y z), w. split; [reflexivity|]. unfold fin3, map3; cbn [vx vy vz]. change (@num (F32 lm)) with binary32 in *. rewrite (zero_of x H1), (zero_of y H2), (zero_of z H3). reflexivity.
Qed.
Lemma d32_val : forall m e, (Z.abs m <= 2 ^ 24)%Z -> (-149 <= e <= 100)%Z -> fval (d32 m e) = Fin (IZR m * bpow radix2 e).
Proof.
  intros m e M E. apply val_fval. unfold d32. pose proof (binary_normalize_correct 24 128 Hprec24 Hmax128 mode_NE m e false) as C. unfold F2R in C. cbn [Fnum Fexp] in C.
  assert (A : Rabs (IZR m * bpow radix2 e) <= bpow radix2 (128 - 1)).
  { rewrite Rabs_mult, (Rabs_pos_eq (bpow radix2 e)) by apply bpow_ge_0. apply Rle_trans with (bpow radix2 24 * bpow radix2 e); [|rewrite <- bpow_plus; apply bpow_le; lia].
    apply Rmult_le_compat_r; [apply bpow_ge_0|]. rewrite <- abs_IZR. rewrite <- (IZR_Zpower radix2) by lia. apply IZR_le. exact M. }
  rewrite (no_overflow 24 128 Hprec24 Hmax128) in C; [|apply valid_rnd_round_mode|exact A]. destruct C as (C1 & C2 & _). split; [exact C2|]. rewrite C1. cbn [round_mode]. apply rnd_id.
  apply format_F2R; [exact Hprec24|exact M|unfold SpecFloat.emin; lia].
Qed.
(** the same in exact arithmetic *)
Definition rho32 : R := 13421773 / 67108864.
Definition cornerR : sphere R := Sphere (V3 (-11) rho32 (-11)) rho32.
Definition glanceR : ray R := Ray (V3 13 2 3) (V3 (-24) (-2) (-14)).
Lemma corner_values : map3 fval (s_center corner32) = fin3 (s_center cornerR) /\ fval (s_radius corner32) = Fin (s_radius cornerR) /\ map3 fval (r_orig glance32) = fin3 (r_orig glanceR) /\ map3 fval (r_dir glance32) = fin3 (r_dir glanceR) /\
  map3 fval white32 = fin3 (V3 1 1 1) /\ map3 fval grey32 = fin3 (V3 (/ 2) (/ 2) (/ 2)).
Proof.
  assert (I : forall m, (Z.abs m <= 2 ^ 24)%Z -> fval (d32 m 0) = Fin (IZR m)) by (intros m M; rewrite d32_val by lia; f_equal; cbn [bpow]; ring).
  assert (R1 : fval (d32 13421773 (-26)) = Fin rho32) by (rewrite d32_val by lia; f_equal; cbn [bpow]; change (Z.pow_pos radix2 26) with 67108864%Z; unfold rho32; reflexivity).
  assert (H1 : fval (d32 1 (-1)) = Fin (/ 2)) by (rewrite d32_val by lia; f_equal; cbn [bpow]; change (Z.pow_pos radix2 1) with 2%Z; lra).
  unfold corner32, glance32, cornerR, glanceR, white32, grey32, fin3, map3; cbn [s_center s_radius r_orig r_dir vx vy vz]. rewrite !R1, !H1, !I by lia. auto 10.
Qed.
Lemma glance_roots : forall t, on_sphere cornerR (pointR glanceR t) <-> 776 * ((t - 1) * (t - (1 - rho32 / 194))) = 0.
Proof.
  assert (Rp : 0 < s_radius cornerR) by (cbn; unfold rho32; lra).
  intros t. rewrite (on_sphere_iff cornerR Rp). unfold cornerR, glanceR, pointR, lineR, normsqR, dotR, subR, addR, scaleR; cbn [s_center s_radius r_orig r_dir vx vy vz]. split; intros H; lra.
Qed.
Lemma corner_grey : forall (L : limits) j depth (w : state (F:=XR L)), l_min L < 1 / 10 -> 2000 * l_eps L <= 1 -> good_state w ->
  exists k w', forall fuel, (k <= fuel)%nat ->
  ray_color (F:=XR L) (world_hit (F:=XR L) (scene_of [(of_sphere (F:=XR L) (finsphere cornerR), (j, Lambertian (F:=XR L) (paint (V3 (/ 2) (/ 2) (/ 2)))))])) (scatter (F:=XR L) fuel) (emitted (F:=XR L))
    (S (S depth)) w (finray glanceR) (fin3 (V3 1 1 1)) = Ok (fin3 (V3 (/ 2) (/ 2) (/ 2)), w').
Proof.
  intros L j depth w M E G. pose proof (l_eps_pos L) as e0. pose proof (l_min_pos L) as m0. assert (Rp : 0 < s_radius cornerR) by (cbn; unfold rho32; lra).
  assert (Tx : good_texture (paint (V3 (/ 2) (/ 2) (/ 2)))) by (apply paint_good; repeat split; cbn; lra).
  assert (Two : forall t, on_sphere cornerR (pointR glanceR t) -> t = 1 \/ t = 1 - rho32 / 194).
  { intros t H. apply glance_roots in H. apply Rmult_integral in H. destruct H as [H|H]; [lra|]. apply Rmult_integral in H. destruct H; lra. }
  assert (Off : sphere_off_threshold (l_min L) cornerR glanceR).
  { unfold sphere_off_threshold, cornerR, glanceR, normsqR, dotR, subR; cbn [s_center r_orig r_dir vx vy vz]. split; [intros H; injection H; lra|]. split; right; [rewrite Rabs_pos_eq; lra|rewrite Rabs_left; unfold rho32; lra]. }
  destruct (furnace_outside (L:=L) cornerR (paint (V3 (/ 2) (/ 2) (/ 2))) j (V3 1 1 1) Rp Tx ltac:(lra) ltac:(cbn [s_radius cornerR]; unfold rho32; lra) depth w glanceR G Off) as (k & c & w' & Ec & _ & H).
  - unfold distR, normR. apply Rlt_le_trans with (sqrt 1); [rewrite sqrt_1; cbn; unfold rho32; lra|]. apply sqrt_le_1_alt. unfold cornerR, glanceR, normsqR, dotR, subR; cbn [s_center s_radius r_orig r_dir vx vy vz]. unfold rho32. lra.
  - intros t Ht On. destruct (Two t On) as [-> | ->]; unfold rho32 in *; lra.
  - intros t On. destruct (Two t On) as [-> | ->]; unfold cornerR, glanceR, pointR, lineR, dotR, subR, addR, scaleR, rho32; cbn [s_center s_radius r_orig r_dir vx vy vz]; lra.
  - assert (Ecol : c = V3 (/ 2) (/ 2) (/ 2)).
    { destruct H as [[No _]|(t & rec & a & _ & _ & _ & _ & Ea & ->)].
      + exfalso. apply (No 1); [lra|]. apply glance_roots. ring.
      + unfold paint, fin3, map3 in Ea; cbn [vx vy vz] in Ea. destruct a as [a1 a2 a3]. cbn [vx vy vz] in Ea. injection Ea as <- <- <-. unfold hadamardR; cbn [vx vy vz]. f_equal; ring. }
    rewrite Ecol in Ec. exists k, w'. intros fuel Hf. exact (Ec fuel Hf).
Qed.
Lemma corner_front : forall (L : limits) (rec : hit_record xr), l_min L < 1 / 10 -> 2000 * l_eps L <= 1 -> sphere_off_threshold (l_min L) cornerR glanceR /\
  exists rec', sphere_hit (F:=XR L) (finsphere cornerR) (finray glanceR) (Fin (1000 * l_eps L)) PInf rec = Ok (true, rec') /\ h_front rec' = true.
Proof.
  intros L rec M E. pose proof (l_eps_pos L) as e0. assert (Rp : 0 < s_radius cornerR) by (cbn; unfold rho32; lra). pose proof (l_min_pos L) as m0.
  assert (Off : sphere_off_threshold (l_min L) cornerR glanceR).
  { unfold sphere_off_threshold, cornerR, glanceR, normsqR, dotR, subR; cbn [s_center r_orig r_dir vx vy vz]. split; [intros H; injection H; lra|]. split; right; [rewrite Rabs_pos_eq; lra|rewrite Rabs_left; unfold rho32; lra]. }
  split; [exact Off|]. destruct (sphere_contract (L:=L) cornerR Rp glanceR Off) as [C _]. destruct (C (Fin (1000 * l_eps L)) PInf rec) as (b & rec' & Eh & H); [discriminate|discriminate|]. destruct b.
  - exists rec'. split; [exact Eh|]. destruct H as (t & _ & On & _ & Fst & Ds).
    assert (Tt : t <= 1 - rho32 / 194). { apply Fst; [apply glance_roots; ring|]. unfold in_window, rho32. cbn. lra. }
    destruct Ds as (_ & (n & _ & _ & _ & F1 & F2) & _). destruct (h_front rec') eqn:Hfr; [reflexivity|exfalso]. destruct (F2 Hfr) as [D _].
    unfold cornerR, glanceR, pointR, lineR, dotR, subR, addR, scaleR, rho32 in D, Tt; cbn [s_center s_radius r_orig r_dir vx vy vz] in D. lra.
  - exfalso. apply (H 1); [apply glance_roots; ring|]. unfold in_window. cbn. lra.
Qed.

(** the unit sphere in double, seen from three units away, and a scattered ray *)
Lemma point_hit : forall {F : NumOps} (s : sphere num) r lo hi t rec, root_of s r lo hi = Some t -> exists rec', sphere_hit s r lo hi rec = Ok (true, rec') /\ h_p rec' = ray_at r t.
Proof. intros F s r lo hi t rec E. unfold sphere_hit. unfold root_of in E. cbv zeta in E |- *. rewrite E. eexists. split; reflexivity. Qed.
Lemma point_val : forall (p : vec3 binary64) x y z (a b c : R), fval x = Fin a -> fval y = Fin b -> fval z = Fin c -> Beqb (vx p) x && Beqb (vy p) y && Beqb (vz p) z = true -> map3 fval p = fin3 (V3 a b c).
Proof.
  intros p x y z a b c Hx Hy Hz T. apply andb_true_iff in T. destruct T as [T T3]. apply andb_true_iff in T. destruct T as [T1 T2]. rewrite Beqb_fval in T1, T2, T3. rewrite Hx in T1. rewrite Hy in T2. rewrite Hz in T3.
  assert (J : forall x y, xeqb x (Fin y) = true -> x = Fin y) by (intros [x0| | |] y0 H0; cbn in H0; try discriminate; apply Reqb_iff in H0; rewrite H0; reflexivity).
  unfold fin3, map3; cbn [vx vy vz]. rewrite (J _ _ T1), (J _ _ T2), (J _ _ T3). reflexivity.
Qed.
Lemma bounce_case : forall lm, (24 <= 53)%Z /\ (4 * 172 + 6 * 53 + 16 <= 1024)%Z /\
  (let c := V3 0 0 0 in let o := V3 0 0 (-3) in let d := V3 0 0 1 in let r := 1 in let u := bpow radix2 (-53) in
   (map3 fval (s_center ball64) = fin3 c /\ fval (s_radius ball64) = Fin r /\ map3 fval (r_orig look64) = fin3 o /\ map3 fval (r_dir look64) = fin3 d) /\
   Rabs r <= distR o c /\
   (exists rec', sphere_hit (F:=F64 lm) ball64 look64 (d64 1000 (-52)) (B754_infinity false) blank64 = Ok (true, rec') /\ map3 fval (h_p rec') = fin3 (V3 0 0 (-1))) /\
   let p := V3 0 0 (-1) in let d' := V3 0 1 (-2) in let W := distR o c in let err := u * (131 * (W * W) + 3 * W * normR c) + 9 * (u * u) * normsqR c in
   fval (d64 1000 (-52)) = Fin (2000 * u) /\ moderate3 172 p /\ moderate3 172 d' /\
   let rise := dotR (subR p c) d' - 13 * u * distR p c * normR d' in 0 <= rise /\ err + 8 * u * (distR p c * distR p c + r * r) < 2 * (2000 * u) * rise).
Proof.
  intros lm. destruct sphere_case as (A1 & A2 & A3). cbv zeta in A3 |- *. destruct A3 as (Vs & (_ & M1 & _) & _). split; [exact A1|]. split; [exact A2|]. split; [exact Vs|].
  assert (Wo : distR (V3 0 0 (-3)) (V3 0 0 0) = 3) by (unfold distR, normR, normsqR, dotR, subR; cbn [vx vy vz]; replace ((0 - 0) * (0 - 0) + (0 - 0) * (0 - 0) + (-3 - 0) * (-3 - 0)) with (3 * 3) by ring; apply sqrt_square; lra).
  assert (Wp : distR (V3 0 0 (-1)) (V3 0 0 0) = 1) by (unfold distR, normR, normsqR, dotR, subR; cbn [vx vy vz]; replace ((0 - 0) * (0 - 0) + (0 - 0) * (0 - 0) + (-1 - 0) * (-1 - 0)) with (1 * 1) by ring; apply sqrt_square; lra).
  assert (Nc : normsqR (V3 0 0 0) = 0) by (unfold normsqR, dotR; cbn; ring). assert (Nd : normR (V3 0 1 (-2)) <= 3).
  { unfold normR. apply Rle_trans with (sqrt (3 * 3)); [apply sqrt_le_1_alt; unfold normsqR, dotR; cbn; lra|rewrite sqrt_square; lra]. }
  assert (Nd0 : 0 <= normR (V3 0 1 (-2))) by apply sqrt_pos.
  assert (U : 0 < bpow radix2 (-53) <= 1 / 1000000) by (split; [apply bpow_gt_0|cbn; lra]).
  split; [rewrite Wo, Rabs_R1; lra|]. split.
  { assert (T : match root_of (F:=F64 lm) ball64 look64 (d64 1000 (-52)) (B754_infinity false) with Some t => let p := ray_at (F:=F64 lm) look64 t in Beqb (vx p) (d64 0 0) && Beqb (vy p) (d64 0 0) && Beqb (vz p) (d64 (-1) 0) | None => false end = true) by (vm_compute; reflexivity).
    destruct (root_of (F:=F64 lm) ball64 look64 (d64 1000 (-52)) (B754_infinity false)) as [t|] eqn:R0; [|discriminate]. destruct (point_hit (F:=F64 lm) _ _ _ _ t blank64 R0) as (rec' & Eh & Ep). exists rec'. split; [exact Eh|].
    cbv zeta in T. rewrite <- Ep in T. exact (point_val _ _ _ _ _ _ _ (d64_small 0 ltac:(lia)) (d64_small 0 ltac:(lia)) (d64_small (-1) ltac:(lia)) T). }
  split. { rewrite d64_val by lia. f_equal. change (-52)%Z with (-53 + 1)%Z. rewrite bpow_plus. change (bpow radix2 1) with 2. ring. }
  assert (Mm : moderate 172 (-1)) by (right; rewrite Rabs_left by lra; destruct M1 as [M1|M1]; [lra|]; rewrite Rabs_R1 in M1; lra).
  assert (M2 : moderate 172 (-2)) by (replace (-2) with (-2 * bpow radix2 0) by (cbn; ring); apply (moderate_pow 172 (-2)); lia).
  split; [split; [left; reflexivity|split; [left; reflexivity|exact Mm]]|]. split; [split; [left; reflexivity|split; [exact M1|exact M2]]|].
  rewrite Wo, Wp, Nc. unfold dotR, subR; cbn [vx vy vz]. set (u := bpow radix2 (-53)) in *. set (n := normR (V3 0 1 (-2))) in *.
  assert (Nz : normR (V3 0 0 0) = 0) by (unfold normR; rewrite Nc; apply sqrt_0). rewrite Nz. assert (un : 0 <= u * n <= 1 / 100000) by (split; [apply Rmult_le_pos; lra|]; nra).
  assert (u * (u * n) <= u * (1 / 100000)) by (apply Rmult_le_compat_l; lra). split; lra.
Qed.
Lemma corner_refuted : forall lm,
  (exists c, In (of_sphere (F:=F32 lm) corner32, matte (F:=F32 lm) c) (random_scene (F:=F32 lm) corner_draws)) /\
  r_orig glance32 = p_from (render_spheres (F:=F32 lm) corner_draws) /\
  exists rec1 out g' rec2, sphere_hit (F:=F32 lm) corner32 glance32 (lowest (F:=F32 lm)) (ninf (NumOps:=F32 lm)) blank32 = Ok (true, rec1) /\ h_front rec1 = true /\
  (exists white, lambertian_scatter (F:=F32 lm) 100 (solid_color (F:=F32 lm) white) pcg_seed rec1 = Ok (Some (white, out), g')) /\
  sphere_hit (F:=F32 lm) corner32 out (lowest (F:=F32 lm)) (ninf (NumOps:=F32 lm)) rec1 = Ok (true, rec2).
Proof. intros lm. split; [exact (corner_in_scene lm)|]. split; [reflexivity|exact (corner_acne lm)]. Qed.
Lemma dark_refuted :
  (map3 fval (s_center corner32) = fin3 (s_center cornerR) /\ fval (s_radius corner32) = Fin (s_radius cornerR) /\ map3 fval (r_orig glance32) = fin3 (r_orig glanceR) /\ map3 fval (r_dir glance32) = fin3 (r_dir glanceR) /\
   map3 fval white32 = fin3 (V3 1 1 1) /\ map3 fval grey32 = fin3 (V3 (/ 2) (/ 2) (/ 2))) /\
  (forall lm, exists w, (forall j, st_pcg w j = pcg_seed) /\ exists c w',
    ray_color (F:=F32 lm) (world_hit (F:=F32 lm) (add (F:=F32 lm) (empty_list (F:=F32 lm)) (of_sphere (F:=F32 lm) corner32) (0%nat, matte (F:=F32 lm) grey32))) (scatter (F:=F32 lm) 100) (emitted (F:=F32 lm))
      128 w glance32 white32 = Ok (c, w') /\ map3 fval c = fin3 (V3 0 0 0)) /\
  (forall (L : limits) j depth (w : state (F:=XR L)), l_min L < 1 / 10 -> 2000 * l_eps L <= 1 -> good_state w ->
   exists k w', forall fuel, (k <= fuel)%nat ->
   ray_color (F:=XR L) (world_hit (F:=XR L) (scene_of [(of_sphere (F:=XR L) (finsphere cornerR), (j, Lambertian (F:=XR L) (paint (V3 (/ 2) (/ 2) (/ 2)))))])) (scatter (F:=XR L) fuel) (emitted (F:=XR L))
     (S (S depth)) w (finray glanceR) (fin3 (V3 1 1 1)) = Ok (fin3 (V3 (/ 2) (/ 2) (/ 2)), w')).
Proof.
  split; [exact corner_values|]. split; [|exact corner_grey]. intros lm. exists (fresh32 lm). split; [reflexivity|]. destruct (lone_stated lm) as (c & w & E & H). exists c, w.  split; [exact E|exact H].
Qed.
