(** newton_fractal.cpp: the scalar and the colour of what complex_newton returns. *)
From Coq Require Import Reals Lra Psatz ZArith Lia List Bool.
From Coquelicot Require Import Complex.
From Flocq Require Import Core.
From Verif Require Import Num XR M_Vec M_Tables M_Image M_Fractal Spec_Image Spec_Fractal P_Angle P_Maps P_Image P_Fractal P_Basin P_Disks.
Import ListNotations.
Local Open Scope R_scope.

Ltac Cconst t := match t with RtoC (IZR ?z) => match isZcst z with true => constr:(z) | _ => constr:(NotConstant) end | _ => constr:(NotConstant) end.
Add Field C_field_Z : C_field_theory (morphism C_morph, constants [Cconst]).

(** *** angles *)
Lemma whole_turns : forall x y, cos x = cos y -> sin x = sin y -> exists m : Z, x = y + IZR m * (2 * PI).
Proof.
  intros x y A B. assert (H : sin ((x - y) / 2) = 0).
  { pose proof (cos_2a_sin ((x - y) / 2)) as T. replace (2 * ((x - y) / 2)) with (x - y) in T by field. rewrite cos_minus, A, B in T.
    pose proof (sin2_cos2 y) as Q. unfold Rsqr in Q. nra. }
  apply sin_eq_0_0 in H as (m & H). exists m. lra.
Qed.
Lemma small_angle : forall w c, - PI < w <= PI -> 0 < cos w -> Rabs (sin w) <= c -> c <= 9 / 20 -> Rabs w <= 2 * c.
Proof.
  assert (P : forall w c, 0 <= w <= PI -> 0 < cos w -> sin w <= c -> c <= 9 / 20 -> w <= 2 * c).
  { intros w c W C S B. destruct (Rle_lt_or_eq_dec 0 w) as [W0|<-]; [lra| |rewrite sin_0 in S; lra]. pose proof PI_RGT_0 as PP.
    assert (W2 : w < PI / 2). { destruct (Rlt_le_dec w (PI / 2)) as [|G]; [assumption|]. pose proof (cos_le_0 w G ltac:(lra)). lra. }
    assert (W3 : w <= PI / 6). { destruct (Rle_lt_dec w (PI / 6)) as [|G]; [assumption|]. pose proof (sin_increasing_1 (PI / 6) w) as T. rewrite sin_PI6 in T. lra. }
    destruct (MVT_cor2 sin cos 0 w W0) as (u & E & U). { intros. apply derivable_pt_lim_sin. }
    rewrite sin_0, !Rminus_0_r in E. assert (1 / 2 <= cos u) by (rewrite <- cos_PI3; apply cos_decr_1; lra). nra. }
  intros w c W C S B. unfold Rabs at 1. unfold Rabs in S. destruct (Rcase_abs w) as [N|N].
  - apply P; [lra|rewrite cos_neg; exact C| |exact B]. rewrite sin_neg. destruct (Rcase_abs (sin w)); lra.
  - apply P; auto; [lra|]. destruct (Rcase_abs (sin w)); lra.
Qed.
Lemma quarter : forall x, cos (x + PI / 2) = - sin x /\ sin (x + PI / 2) = cos x.
Proof. intros x. rewrite cos_plus, sin_plus, cos_PI2, sin_PI2. lra. Qed.
Lemma corner_angle : 2 * cos (PI / 4) = sqrt 2 /\ 2 * sin (PI / 4) = sqrt 2.
Proof.
  rewrite cos_PI4, sin_PI4. assert (S : sqrt 2 * sqrt 2 = 2) by (apply sqrt_sqrt; lra). assert (0 < sqrt 2) by (apply sqrt_lt_R0; lra).
  split; apply Rmult_eq_reg_r with (sqrt 2); try lra; rewrite S; field; lra.
Qed.
Lemma eighth_turn : forall k r, eighth (k + 2) r = ((- snd (eighth k r))%R, fst (eighth k r)).
Proof.
  intros k r. unfold eighth. cbn [fst snd]. rewrite plus_IZR. replace (2 * PI * ((IZR k + 2) / 8)) with (2 * PI * (IZR k / 8) + PI / 2) by field.
  destruct (quarter (2 * PI * (IZR k / 8))) as [-> ->]. f_equal. ring.
Qed.
Lemma roots_eighth : forall p : C, In p roots -> exists k r, 1 <= r /\ p = eighth k r.
Proof.
  assert (E0 : eighth 0 1 = (1, 0)) by (unfold eighth; replace (2 * PI * (0 / 8)) with 0 by field; rewrite cos_0, sin_0; f_equal; ring).
  assert (E1 : eighth 1 2 = (sqrt 2, sqrt 2)) by (unfold eighth; replace (2 * PI * (1 / 8)) with (PI / 4) by field; destruct corner_angle as [-> ->]; reflexivity).
  pose proof (eighth_turn 0 1) as E2. rewrite E0 in E2. pose proof (eighth_turn (0 + 2) 1) as E4. rewrite E2 in E4. pose proof (eighth_turn (0 + 2 + 2) 1) as E6. rewrite E4 in E6.
  pose proof (eighth_turn 1 2) as E3. rewrite E1 in E3. pose proof (eighth_turn (1 + 2) 2) as E5. rewrite E3 in E5. pose proof (eighth_turn (1 + 2 + 2) 2) as E7. rewrite E5 in E7.
  cbn [fst snd] in *. intros p I. unfold roots in I. cbn [In] in I.
  destruct I as [<-|[<-|[<-|[<-|[<-|[<-|[<-|[<-|[]]]]]]]]].
  - exists (0 + 2 + 2)%Z, 1. split; [lra|]. rewrite E4. f_equal; lra.
  - exists 0%Z, 1. split; [lra|]. rewrite E0. reflexivity.
  - exists (0 + 2)%Z, 1. split; [lra|]. rewrite E2. f_equal; lra.
  - exists (0 + 2 + 2 + 2)%Z, 1. split; [lra|]. rewrite E6. f_equal; lra.
  - exists 1%Z, 2. split; [lra|]. rewrite E1. reflexivity.
  - exists (1 + 2 + 2 + 2)%Z, 2. split; [lra|]. rewrite E7. f_equal; lra.
  - exists (1 + 2 + 2)%Z, 2. split; [lra|]. rewrite E5. f_equal; lra.
  - exists (1 + 2)%Z, 2. split; [lra|]. rewrite E3. f_equal; lra.
Qed.
Lemma eighth_period : forall k m r, eighth (k + 8 * m) r = eighth k r.
Proof.
  intros k m r. unfold eighth. rewrite plus_IZR, mult_IZR. replace (2 * PI * ((IZR k + 8 * IZR m) / 8)) with (2 * PI * (IZR k / 8) + IZR m * (2 * PI)) by field.
  assert (C1 : cos (IZR m * (2 * PI)) = 1).
  { replace (IZR m * (2 * PI)) with (2 * (IZR m * PI)) by ring. rewrite cos_2a_sin. rewrite sin_eq_0_1 by (exists m; reflexivity). ring. }
  assert (S1 : sin (IZR m * (2 * PI)) = 0) by (apply sin_eq_0_1; exists (2 * m)%Z; rewrite mult_IZR; ring).
  rewrite cos_plus, sin_plus, C1, S1. f_equal; ring.
Qed.

Section Hue.
Context {L : limits}.
Notation X := (XR L).
Notation eps := (l_eps L).

(* the part of a vector along and across a direction *)
Lemma along_across : forall c s x y, c * c + s * s = 1 -> Rabs (c * x + s * y) <= Cmod (x, y) /\ Rabs (c * y - s * x) <= Cmod (x, y).
Proof.
  intros c s x y H. unfold Cmod. cbn [fst snd].
  split; rewrite <- sqrt_Rsqr_abs; apply sqrt_le_1_alt; unfold Rsqr.
  - pose proof (Rle_0_sqr (c * y - s * x)) as Q. unfold Rsqr in Q. replace (x ^ 2 + y ^ 2) with ((c * c + s * s) * (x * x + y * y)) by (rewrite H; ring). lra.
  - pose proof (Rle_0_sqr (c * x + s * y)) as Q. unfold Rsqr in Q. replace (x ^ 2 + y ^ 2) with ((c * c + s * s) * (x * x + y * y)) by (rewrite H; ring). lra.
Qed.
Lemma near_eighth : forall a b k r c, 1 <= r -> c <= 3 / 10 -> Cmod ((a, b) - eighth k r)%C <= c * Cmod (a, b) ->
  exists s j, root_scalar (F:=X) (cfin a b) = Fin s /\ (0 <= j <= 8)%Z /\ eighth k r = eighth j r /\ Rabs (s - IZR j / 8) <= c / 3.
Proof.
  intros a b k r c Hr Hc H. destruct (root_angle (L:=L) a b) as (s & E & S & A & B). pose proof PI_RGT_0 as PP. pose proof PI_4 as P4. pose proof PI2_3_2 as P3.
  set (u := 2 * PI * (IZR k / 8)). set (C1 := cos u). set (S1 := sin u).
  assert (U : C1 * C1 + S1 * S1 = 1) by (unfold C1, S1; pose proof (sin2_cos2 u) as Q; unfold Rsqr in Q; lra).
  assert (Hm : sqrt (a * a + b * b) = Cmod (a, b)) by (unfold Cmod; cbn [fst snd]; f_equal; ring). rewrite Hm in A, B. set (M := Cmod (a, b)) in *.
  assert (M0 : 0 <= M) by apply Cmod_ge_0.
  assert (D : Cmod (a - r * C1, b - r * S1) <= c * M).
  { replace (a - r * C1, b - r * S1) with ((a, b) - eighth k r)%C; [exact H|]. unfold eighth, Cminus, Cplus, Copp. cbn [fst snd]. fold u C1 S1. f_equal; ring. }
  destruct (along_across C1 S1 (a - r * C1) (b - r * S1) U) as [Al Ac]. pose proof (Rle_trans _ _ _ Al D) as Al2. pose proof (Rle_trans _ _ _ Ac D) as Ac2.
  assert (Al' : Rabs (C1 * a + S1 * b - r) <= c * M). { replace (C1 * a + S1 * b - r) with (C1 * (a - r * C1) + S1 * (b - r * S1)) by (transitivity (C1 * a + S1 * b - r * (C1 * C1 + S1 * S1)); [ring|rewrite U; ring]). exact Al2. }
  assert (Ac' : Rabs (C1 * b - S1 * a) <= c * M). { replace (C1 * b - S1 * a) with (C1 * (b - r * S1) - S1 * (a - r * C1)) by ring. exact Ac2. }
  set (t := 2 * PI * s) in *. set (x := C1 * a + S1 * b) in *. set (y := C1 * b - S1 * a) in *.
  assert (XY : x * x + y * y = M * M). { unfold x, y. replace (M * M) with ((C1 * C1 + S1 * S1) * (a * a + b * b)); [ring|]. rewrite U, A, B. pose proof (sin2_cos2 t) as Q. unfold Rsqr in Q. nra. }
  assert (Mp : 0 < M).
  { destruct (Rle_lt_or_eq_dec _ _ M0) as [|Z]; [assumption|]. exfalso. rewrite <- Z, !Rmult_0_r in *. assert (x = 0) by nra. unfold Rabs in Al'. destruct (Rcase_abs (x - r)); lra. }
  assert (xp : 0 < x).
  { destruct (Rlt_le_dec 0 x) as [|N]; [assumption|]. exfalso.
    assert (cM : c * M <= 3 / 10 * M) by (apply Rmult_le_compat_r; lra).
    assert (Yb : - (3 / 10 * M) <= y <= 3 / 10 * M) by (unfold Rabs in Ac'; destruct (Rcase_abs y); lra).
    assert (Xb : - (3 / 10 * M) <= x) by (unfold Rabs in Al'; destruct (Rcase_abs (x - r)); lra).
    assert (x * x <= 3 / 10 * M * (3 / 10 * M)) by nra. assert (y * y <= 3 / 10 * M * (3 / 10 * M)) by nra. nra. }
  destruct (Ratan2_polar y x ltac:(nra)) as (W1 & W2 & W3). rewrite XY, sqrt_square in W1, W2 by lra. set (w := Ratan2 y x) in *.
  assert (Ww : Rabs w <= 2 * c).
  { apply small_angle; [exact W3| | |lra].
    - apply Rmult_lt_reg_l with M; [exact Mp|]. rewrite W1. lra.
    - apply Rmult_le_reg_l with M; [exact Mp|]. rewrite <- (Rabs_pos_eq M) at 1 by lra. rewrite <- Rabs_mult, W2. lra. }
  destruct (whole_turns t (u + w)) as (m & Em).
  { apply Rmult_eq_reg_l with M; [|lra]. rewrite <- A, cos_plus. fold C1 S1. transitivity (C1 * (M * cos w) - S1 * (M * sin w)); [|ring]. rewrite W1, W2. unfold x, y. transitivity ((C1 * C1 + S1 * S1) * a); [rewrite U; ring|ring]. }
  { apply Rmult_eq_reg_l with M; [|lra]. rewrite <- B, sin_plus. fold C1 S1. transitivity (S1 * (M * cos w) + C1 * (M * sin w)); [|ring]. rewrite W1, W2. unfold x, y. transitivity ((C1 * C1 + S1 * S1) * b); [rewrite U; ring|ring]. }
  exists s, (k + 8 * m)%Z. split; [exact E|].
  assert (Es : s - IZR (k + 8 * m) / 8 = w / (2 * PI)).
  { rewrite plus_IZR, mult_IZR. apply Rmult_eq_reg_l with (2 * PI); [|lra]. replace (2 * PI * (w / (2 * PI))) with w by (field; lra). unfold t, u in Em. lra. }
  assert (Bs : Rabs (s - IZR (k + 8 * m) / 8) <= c / 3).
  { rewrite Es. unfold Rdiv. rewrite Rabs_mult, (Rabs_pos_eq (/ (2 * PI))) by (apply Rlt_le, Rinv_0_lt_compat; lra).
    apply Rmult_le_reg_r with (2 * PI); [lra|]. rewrite Rmult_assoc, Rinv_l by lra. pose proof (Rabs_pos w). nra. }
  split; [|split; [symmetry; apply eighth_period|exact Bs]].
  set (j := (k + 8 * m)%Z) in *.
  assert (-1 < IZR j < 9) as [J1 J2] by (unfold Rabs in Bs; destruct (Rcase_abs (s - IZR j / 8)); lra).
  apply lt_IZR in J1, J2. lia.
Qed.
Lemma returned_scalar : forall k n x y v, k * eps <= 1 / 30 -> complex_newton (F:=X) (Fin k) n (g (F:=X)) (cfin x y) = Ok v ->
  exists a b s j r, v = cfin a b /\ root_scalar (F:=X) v = Fin s /\ (0 <= j <= 8)%Z /\ In (eighth j r) roots /\
  Cmod ((a, b) - eighth j r)%C <= 9 * k * eps * Cmod (a, b) /\ Rabs (s - IZR j / 8) <= 3 * (k * eps).
Proof.
  intros k n x y v K E. destruct (returned_near k n (x, y) v E) as ([a b] & p & -> & I & D). destruct (roots_eighth p I) as (i & r & R & ->).
  assert (K2 : 9 * k * eps <= 3 / 10) by lra. destruct (near_eighth a b i r _ R K2 D) as (s & j & Es & J & Ej & B).
  exists a, b, s, j, r. rewrite <- Ej. repeat (split; [first [reflexivity|assumption]|]). lra.
Qed.

(** *** the colours next to the two ends of the map *)
Lemma byte_of : forall (n : Z) v, (0 <= n)%Z -> IZR n * IZR n <= 65025 * v -> 65025 * v < (IZR n + 1) * (IZR n + 1) -> v <= 1 -> Zfloor (255 * sqrt (Rmin v 1)) = n.
Proof.
  intros n v N A B V. apply IZR_le in N. rewrite Rmin_left by exact V. assert (V0 : 0 <= v) by nra. pose proof (sqrt_pos v) as S0. pose proof (sqrt_sqrt v V0) as SS.
  apply Zfloor_imp. rewrite plus_IZR. split.
  - destruct (Rle_lt_dec (IZR n) (255 * sqrt v)) as [|H]; [assumption|]. nra.
  - destruct (Rlt_le_dec (255 * sqrt v) (IZR n + 1)) as [|H]; [assumption|]. nra.
Qed.
Definition shown (a b : R) : outcome (list Z) :=
  obind (smooth_cool_warm (F:=X) (root_scalar (F:=X) (cfin a b))) (fun c => to_8bit_rgba (F:=X) (vec_list (F:=X) c)).
Lemma tables_ok : table_ok smooth_cool_warm_r = true /\ table_ok smooth_cool_warm_g = true /\ table_ok smooth_cool_warm_b = true.
Proof. vm_compute. auto. Qed.
Lemma cold : forall a b s, root_scalar (F:=X) (cfin a b) = Fin s -> 0 <= s <= 1 / 250000 -> shown a b = Ok [122; 139; 221; 255]%Z.
Proof.
  intros a b s E S. unfold shown. rewrite E. unfold smooth_cool_warm. destruct tables_ok as (R & G & B). rewrite color_map_exact by assumption. rewrite unitR_id by lra. cbn [obind].
  assert (N : forall t, table_ok t = true -> entry t 0 - 45 * s <= chan t s <= entry t 0 + 45 * s).
  { intros t T. pose proof (chan_lipschitz t T s 0 ltac:(lra) ltac:(lra)) as H. pose proof (chan_node t 0 ltac:(lia)) as E0. replace (INR 0 / 255) with 0 in E0 by (cbn; field). rewrite E0, Rminus_0_r, (Rabs_pos_eq s) in H by lra. apply Rabs_le_inv in H. lra. }
  pose proof (N _ R) as NR. pose proof (N _ G) as NG. pose proof (N _ B) as NB. pose proof (chan_unit _ R s ltac:(lra)). pose proof (chan_unit _ G s ltac:(lra)). pose proof (chan_unit _ B s ltac:(lra)).
  rewrite rgba_exact by (cbn [vx vy vz]; lra). cbn [vx vy vz map app].
  unfold entry in NR, NG, NB. cbn [nth fst snd smooth_cool_warm_r smooth_cool_warm_g smooth_cool_warm_b] in NR, NG, NB.
  rewrite (byte_of 122), (byte_of 139), (byte_of 221); try lia; try lra; try reflexivity.
Qed.
Lemma warm : forall a b s, root_scalar (F:=X) (cfin a b) = Fin s -> 1 - 1 / 250000 <= s < 1 -> shown a b = Ok [214; 32; 98; 255]%Z.
Proof.
  intros a b s E S. unfold shown. rewrite E. unfold smooth_cool_warm. destruct tables_ok as (R & G & B). rewrite color_map_exact by assumption. rewrite unitR_id by lra. cbn [obind].
  assert (N : forall t, table_ok t = true -> entry t 255 - 45 * (1 - s) <= chan t s <= entry t 255 + 45 * (1 - s)).
  { intros t T. pose proof (chan_lipschitz t T s 1 ltac:(lra) ltac:(lra)) as H. pose proof (chan_node t 255 ltac:(lia)) as E0. replace (INR 255 / 255) with 1 in E0 by (rewrite INR_IZR_INZ; cbn; field). rewrite E0, (Rabs_left (s - 1)) in H by lra. apply Rabs_le_inv in H. lra. }
  pose proof (N _ R) as NR. pose proof (N _ G) as NG. pose proof (N _ B) as NB. pose proof (chan_unit _ R s ltac:(lra)). pose proof (chan_unit _ G s ltac:(lra)). pose proof (chan_unit _ B s ltac:(lra)).
  rewrite rgba_exact by (cbn [vx vy vz]; lra). cbn [vx vy vz map app].
  unfold entry in NR, NG, NB. cbn [nth fst snd smooth_cool_warm_r smooth_cool_warm_g smooth_cool_warm_b] in NR, NG, NB.
  rewrite (byte_of 214), (byte_of 32), (byte_of 98); try lia; try lra; try reflexivity.
Qed.

(** *** one step from 1 + d + di *)
Lemma skew_step : forall e : C, Cmod e <= 1 / 1000 -> exists q : C, N (1 * (1 + e))%C = (1 * (1 + e * e * q))%C /\ 1 <= fst q.
Proof.
  intros e He. assert (Hw : z4 1%C = 1%C) by exact z4_one. set (W := z4 (1 + e)%C).
  assert (w0 : (1 : C) <> 0%C) by (intros Z; apply (f_equal fst) in Z; cbn in Z; lra).
  destruct (one_plus e (1 / 1000) He ltac:(lra)) as [e0 _].
  set (D := (4 * W * (2 * W + 15))%C). set (Q := (350 + e * (487 + e * (479 + e * (364 + e * (188 + e * (55 + e * (7 + e * 0)))))))%C). set (P := (118 + e * Q)%C).
  assert (HW : Cmod (W - 1)%C <= 41 / 10000) by (eapply Rle_trans; [apply (W_near (1 / 1000)); exact He|lra]).
  assert (HQ : Cmod Q <= 351).
  { eapply Rle_trans; [unfold Q; repeat (eapply horner; [lia|exact He|]); rewrite Cmod_0; apply Rle_refl|lra]. }
  assert (HeQ : Cmod (e * Q)%C <= 36 / 100) by (rewrite Cmod_mult; pose proof (Cmod_ge_0 e); pose proof (Cmod_ge_0 Q); nra).
  set (d := ((W - 1) * (76 + (W - 1) * 8))%C). assert (Ed : D = (68 + d)%C) by (unfold D, d; ring).
  assert (Hd : Cmod d <= 32 / 100).
  { unfold d. rewrite Cmod_mult. pose proof (horner (41 / 10000) 8 76 (W - 1)%C 8%C ltac:(lia) HW ltac:(rewrite (Cmod_int 8) by lia; lra)) as T. pose proof (Cmod_ge_0 (W - 1)%C). pose proof (Cmod_ge_0 (76 + (W - 1) * 8)%C). nra. }
  assert (HD : 67 <= Cmod D) by (pose proof (Cmod_minus 68 d) as T; rewrite (Cmod_int 68) in T by lia; rewrite Ed; lra).
  assert (D0 : D <> 0%C) by (intros Z; rewrite Z, Cmod_0 in HD; lra).
  destruct (N_quotient 1 e ((W - 1) * (W + 16))%C D w0 e0 D0) as [G0 E].
  { unfold D, G'. rewrite z4_mult, Hw. fold W. transitivity (4 * z4 (1 * (1 + e)) * (2 * (1 * W) + 15))%C; [unfold z4; ring|]. rewrite z4_mult, Hw. fold W. ring. }
  { unfold G. rewrite z4_mult, Hw. fold W. ring. }
  exists (P / D)%C. split.
  - rewrite E. assert (I : ((1 + e) * (D - ((W - 1) * (W + 16))) = D + e * e * P)%C) by (unfold P, Q, D, W, z4; ring).
    rewrite (quotient_form 1 e _ D P D0 I). f_equal. f_equal. unfold Cdiv. ring.
  - assert (F : (P / D = RtoC (118 / 68) + (68 * (e * Q) - 118 * d) / (68 * D))%C).
    { assert (RtoC (118 / 68) = 118 / 68)%C as -> by (rewrite RtoC_div by lra; reflexivity). unfold P. replace d with (D - 68)%C by (rewrite Ed; ring). clearbody D Q. field. first [exact D0|repeat split; first [exact D0|idtac]]; intros Z; apply (f_equal fst) in Z; cbn in Z; lra. }
    rewrite F. set (z := ((68 * (e * Q) - 118 * d) / (68 * D))%C).
    assert (Hz : Cmod z <= 1 / 10).
    { unfold z. assert (D1 : (68 * D)%C <> 0%C) by (apply Cmult_neq_0; [intros Z; apply (f_equal fst) in Z; cbn in Z; lra|exact D0]).
      rewrite Cmod_div by exact D1. rewrite (Cmod_mult 68 D), (Cmod_int 68) by lia.
      assert (Cmod (68 * (e * Q) - 118 * d)%C <= 68 * (36 / 100) + 118 * (32 / 100)).
      { pose proof (Cmod_triangle (68 * (e * Q))%C (- (118 * d))%C) as T. rewrite Cmod_opp, (Cmod_mult 68), (Cmod_mult 118), (Cmod_int 68), (Cmod_int 118) in T by lia. unfold Cminus. lra. }
      apply Rmult_le_reg_r with (68 * Cmod D); [lra|]. unfold Rdiv at 1. rewrite Rmult_assoc, Rinv_l by lra. lra. }
    clearbody z. pose proof (Rmax_Cmod z) as M. pose proof (Rmax_l (Rabs (fst z)) (Rabs (snd z))) as M2. cbn [fst Cplus RtoC]. assert (M3 : Rabs (fst z) <= 1 / 10) by lra. apply Rabs_le_inv in M3. lra.
Qed.
Lemma just_above : forall a b d, 0 < b -> Rabs (a - 1) <= d -> b <= d -> d <= 1 / 1000000 -> exists s, root_scalar (F:=X) (cfin a b) = Fin s /\ 0 <= s <= 1 / 250000.
Proof.
  intros a b d B0 A B D. destruct (root_angle (L:=L) a b) as (s & E & S & Ea & Eb). exists s. split; [exact E|]. split; [lra|].
  set (M := sqrt (a * a + b * b)) in *. set (w := 2 * PI * s) in *. pose proof PI_RGT_0 as PP. pose proof PI2_3_2 as P3.
  assert (A2 : 1 - d <= a) by (unfold Rabs in A; destruct (Rcase_abs (a - 1)); lra).
  assert (Mb : a <= M). { apply Rsqr_incr_0_var; [|apply sqrt_pos]. unfold M, Rsqr. rewrite sqrt_sqrt by nra. nra. }
  assert (sp : 0 < sin w) by (apply Rmult_lt_reg_l with M; lra). assert (cp : 0 < cos w) by (apply Rmult_lt_reg_l with M; lra).
  assert (w < PI). { destruct (Rlt_le_dec w PI) as [|H]; [assumption|]. pose proof (sin_le_0 w H ltac:(unfold w; nra)). lra. }
  assert (W : Rabs w <= 2 * (2 * d)).
  { apply small_angle; [unfold w in *; nra|exact cp| |lra]. rewrite Rabs_pos_eq by lra. apply Rmult_le_reg_l with M; [lra|]. rewrite <- Eb. nra. }
  rewrite Rabs_pos_eq in W by (unfold w; nra). unfold w in W. nra.
Qed.
Lemma just_below : forall a b d, b < 0 -> Rabs (a - 1) <= d -> - b <= d -> d <= 1 / 1000000 -> exists s, root_scalar (F:=X) (cfin a b) = Fin s /\ 1 - 1 / 250000 <= s < 1.
Proof.
  intros a b d B0 A B D. destruct (root_angle (L:=L) a b) as (s & E & S & Ea & Eb). exists s. split; [exact E|]. split; [|lra].
  set (M := sqrt (a * a + b * b)) in *. pose proof PI_RGT_0 as PP. pose proof PI2_3_2 as P3.
  assert (A2 : 1 - d <= a) by (unfold Rabs in A; destruct (Rcase_abs (a - 1)); lra).
  assert (Mb : a <= M). { apply Rsqr_incr_0_var; [|apply sqrt_pos]. unfold M, Rsqr. rewrite sqrt_sqrt by nra. nra. }
  replace (2 * PI * s) with (- (2 * PI * (1 - s)) + 2 * PI) in Ea, Eb by ring. rewrite cos_plus, cos_2PI, sin_2PI, cos_neg, sin_neg in Ea. rewrite sin_plus, cos_2PI, sin_2PI, cos_neg, sin_neg in Eb.
  set (w := 2 * PI * (1 - s)) in *.
  assert (sp : 0 < sin w) by (apply Rmult_lt_reg_l with M; lra). assert (cp : 0 < cos w) by (apply Rmult_lt_reg_l with M; lra).
  assert (w < PI). { destruct (Rlt_le_dec w PI) as [|H]; [assumption|]. pose proof (sin_le_0 w H ltac:(unfold w; nra)). lra. }
  assert (W : Rabs w <= 2 * (2 * d)).
  { apply small_angle; [unfold w in *; nra|exact cp| |lra]. rewrite Rabs_pos_eq by lra. apply Rmult_le_reg_l with M; [lra|]. nra. }
  rewrite Rabs_pos_eq in W by (unfold w; nra). unfold w in W. nra.
Qed.
Lemma two_colours : forall k r, 0 < k -> 0 < r -> exists x y a b,
  Cmod (x - 1, y) <= r /\ Cmod (a - 1, b) <= r /\
  complex_newton (F:=X) (Fin k) 1 (g (F:=X)) (cfin x y) = Ok (cfin a b) /\ shown a b = Ok [122; 139; 221; 255]%Z /\
  complex_newton (F:=X) (Fin k) 1 (g (F:=X)) (cfin x (- y)) = Ok (cfin a (- b)) /\ shown a (- b) = Ok [214; 32; 98; 255]%Z.
Proof.
  intros k r K R. pose proof (l_eps_pos L) as E0. assert (KE : 0 < k * eps) by (apply Rmult_lt_0_compat; assumption).
  assert (exists d, 0 < d /\ d <= r / 2 /\ d <= 1 / 1000000 /\ d <= 19 / 60 * (k * eps)) as (d & D0 & D1 & D2 & D3).
  { exists (Rmin (r / 2) (Rmin (1 / 1000000) (19 / 60 * (k * eps)))). pose proof (Rmin_l (r / 2) (Rmin (1 / 1000000) (19 / 60 * (k * eps)))). pose proof (Rmin_r (r / 2) (Rmin (1 / 1000000) (19 / 60 * (k * eps)))).
    pose proof (Rmin_l (1 / 1000000) (19 / 60 * (k * eps))). pose proof (Rmin_r (1 / 1000000) (19 / 60 * (k * eps))). split; [repeat apply Rmin_glb_lt; lra|]. repeat split; lra. }
  set (e := (d, d) : C). assert (He : Cmod e <= 2 * d).
  { unfold e, Cmod. cbn [fst snd]. rewrite <- (sqrt_Rsqr (2 * d)) by lra. apply sqrt_le_1_alt. unfold Rsqr. nra. }
  destruct (skew_step e ltac:(lra)) as (q & Eq & Q1).
  assert (Hh : held 1%C (1 / 10)) by (intros f Hf; apply disk_axis; [exact z4_one|exact Hf]).
  destruct (held_ends (L:=L) 1%C (1 / 10) k ltac:(rewrite Cmod_1; lra) ltac:(lra) Hh K 0 e ltac:(lra) ltac:(cbn [pow]; lra)) as (e' & C1 & M1 & _).
  destruct (Hh e ltac:(lra)) as (G0 & _). assert (Ee : e' = (e * e * q)%C).
  { rewrite next_C in C1 by exact G0. rewrite Eq in C1. destruct (Rleb _ _); [|discriminate C1]. injection C1 as I1 I2. cbn [fst snd] in I1, I2.
    assert (T : (1 * (1 + e * e * q))%C = (1 * (1 + e'))%C) by (apply C_eq; [exact I1|exact I2]).
    transitivity (1 * (1 + e') - 1)%C; [ring|]. rewrite <- T. ring. }
  clear Eq. assert (Im : 0 < snd e') by (rewrite Ee; unfold e; cbn [fst snd Cmult]; nra).
  assert (Mx : Rabs (fst e') <= d /\ snd e' <= d).
  { pose proof (Rmax_Cmod e') as M. pose proof (Rmax_l (Rabs (fst e')) (Rabs (snd e'))). pose proof (Rmax_r (Rabs (fst e')) (Rabs (snd e'))). rewrite (Rabs_pos_eq (snd e')) in * by lra. lra. }
  destruct e' as [f h]. cbn [fst snd] in *. exists (1 + d), d, (1 + f), h.
  assert (Ex : complex_newton (F:=X) (Fin k) 1 (g (F:=X)) (cfin (1 + d) d) = Ok (cfin (1 + f) h)).
  { replace (cfin (1 + d) d) with (cf (1 * (1 + e))%C) by (unfold cf, e; cbn [fst snd Cmult Cplus RtoC]; f_equal; ring). rewrite C1. unfold cf. cbn [fst snd Cmult Cplus RtoC]. f_equal. f_equal; ring. }
  replace (1 + d - 1) with d by ring. replace (1 + f - 1) with f by ring. split; [fold e; lra|]. split; [lra|]. split; [exact Ex|].
  destruct (just_above (1 + f) h d Im) as (s & Es & S); [replace (1 + f - 1) with f by ring; apply Mx|apply Mx|exact D2|]. split; [exact (cold _ _ s Es S)|].
  destruct (just_below (1 + f) (- h) d ltac:(lra)) as (t & Et & T); [replace (1 + f - 1) with f by ring; apply Mx|lra|exact D2|]. split; [|exact (warm _ _ t Et T)].
  rewrite newton_conj, Ex. reflexivity.
Qed.
End Hue.
