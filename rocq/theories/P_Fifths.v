(** newton_fractal.cpp in exact arithmetic: complex_halley on fifth_roots_halley ends near the
    roots; what it returns is near a root or very large, and it does return large numbers. *)
From Coq Require Import Reals Lra Psatz ZArith Lia List Bool.
From Coquelicot Require Import Complex.
From Verif Require Import Num XR M_Image M_Fractal Spec_Image Spec_Fractal P_Image P_Fractal P_Basin P_Halley P_Disks.
Import ListNotations.
Local Open Scope R_scope.

(** ring and field as in P_Disks.v *)
Ltac Cconst t := match t with
  | RtoC (IZR ?z) => match isZcst z with true => z | _ => constr:(InitialRing.NotConstant) end
  | _ => constr:(InitialRing.NotConstant) end.
Add Field C_field_Z' : C_field_theory (morphism C_morph, constants [Cconst]).

Section Fifths.
Context {L : limits}.
Notation X := (XR L).
Notation eps := (l_eps L).

Lemma cf_mul : forall a b, c_mul (F:=X) (cf a) (cf b) = cf (a * b)%C.
Proof. intros [a1 a2] [b1 b2]. reflexivity. Qed.
Lemma cf_sub : forall a b, c_sub (F:=X) (cf a) (cf b) = cf (a - b)%C.
Proof. intros [a1 a2] [b1 b2]. reflexivity. Qed.
Lemma cf_scale : forall n a, c_scale (F:=X) (nofZ n) (cf a) = cf (RtoC (IZR n) * a)%C.
Proof. intros n [a1 a2]. unfold c_scale, cf, cfin. cbn. f_equal; f_equal; ring. Qed.
Lemma cf_div : forall a b : C, b <> 0%C -> c_div (F:=X) (cf a) (cf b) = cf (a / b)%C.
Proof.
  intros [a1 a2] [b1 b2] H. assert (D : b1 * b1 + b2 * b2 <> 0).
  { intros Z. apply H. assert (b1 = 0 /\ b2 = 0) as [-> ->] by (pose proof (Rle_0_sqr b1); pose proof (Rle_0_sqr b2); unfold Rsqr in *; split; nra). reflexivity. }
  unfold c_div, cf, cfin. cbn [re im fst snd]. xred. rewrite !xdiv_fin by exact D. f_equal; f_equal; cbn; field; intros E; apply D; rewrite <- E; ring.
Qed.
Lemma cf_div_0 : forall a : C, c_div (F:=X) (cf a) (cf (RtoC 0)) = Cpx NaN NaN.
Proof.
  intros [a1 a2]. unfold c_div, cf, cfin. cbn [re im fst snd RtoC]. xred.
  repeat match goal with |- context [xdiv (Fin ?a) (Fin ?b)] => replace a with 0 by ring; replace b with 0 by ring; rewrite xdiv_zero_zero end. reflexivity.
Qed.
Lemma cf_abs : forall a, c_abs (F:=X) (cf a) = Fin (Cmod a).
Proof.
  intros a. unfold c_abs, cf, cfin. cbn [re im]. xred. rewrite xsqrt_fin; [rewrite <- Cmod_size; reflexivity|].
  pose proof (Rle_0_sqr (fst a)). pose proof (Rle_0_sqr (snd a)). unfold Rsqr in *. lra.
Qed.

Variable cpow : cpx xr -> Z -> cpx xr.
Hypothesis Hpow : powers cpow.
Definition z5 (z : C) : C := (z4 z * z)%C.
Definition F (z : C) : C := (z5 z - 1)%C.
Definition F' (z : C) : C := (5 * z4 z)%C.
Definition Den (z : C) : C := (10 * (z * z * z) * (3 * z5 z + 2))%C.
Definition H (z : C) : C := (z - 2 * F z * F' z / Den z)%C.
Notation iterate := (complex_halley (F:=X)).
Notation fifths := (fifth_roots_halley (F:=X) cpow).

Lemma fifths_C : forall z, fifths (cf z) = (cf (F z), cf (F' z), cf (20 * (z * z * z))%C).
Proof.
  intros [x y]. unfold cf at 1. cbn [fst snd]. rewrite (halley_fin cpow Hpow).
  assert (A : (f1 x y, f2 x y) = F (x, y)) by (apply C_eq; cbn; unfold f1, f2; ring).
  assert (B : (5 * re4 x y, 5 * im4 x y) = F' (x, y)) by (apply C_eq; cbn; unfold re4, im4; ring).
  assert (D : (20 * re3 x y, 20 * im3 x y) = (20 * ((x, y) * (x, y) * (x, y)))%C) by (apply C_eq; cbn; unfold re3, im3; ring).
  rewrite <- A, <- B, <- D. reflexivity.
Qed.
Lemma den_eq : forall z : C, (2 * F' z * F' z - F z * (20 * (z * z * z)) = Den z)%C.
Proof. intros z. unfold Den, F, F', z5, z4. ring. Qed.
Lemma halley_C : forall z n, Den z <> 0%C -> iterate (S n) fifths (cf z) =
  if Rleb (Cmod (F z)) (eps * Cmod (H z * F' z)%C / 2) then Ok (cf (H z)) else iterate n fifths (cf (H z)).
Proof.
  intros z n D. cbn [complex_halley]. rewrite fifths_C. rewrite !cf_scale, !cf_mul, !cf_sub. rewrite den_eq. rewrite cf_div by exact D. rewrite cf_sub.
  replace (2 * F z * F' z / Den z)%C with (2 * F z * F' z / Den z)%C by reflexivity. fold (H z). rewrite cf_mul, !cf_abs.
  change (nleb (NumOps:=X) (Fin (Cmod (F z))) (ndiv (NumOps:=X) (nmul (NumOps:=X) (neps (NumOps:=X)) (Fin (Cmod (H z * F' z)%C))) (nofZ 2)))
    with (xleb (Fin (Cmod (F z))) (xdiv (Fin (eps * Cmod (H z * F' z)%C)) (Fin 2))). rewrite xdiv_fin by lra. reflexivity.
Qed.
Lemma halley_flat : forall z n, (forall m, cpow (Cpx NaN NaN) m = Cpx NaN NaN) -> Den z = 0%C -> iterate n fifths (cf z) = OutOfFuel.
Proof.
  intros z [|n] HN D; [reflexivity|]. cbn [complex_halley]. rewrite fifths_C. rewrite !cf_scale, !cf_mul, !cf_sub. rewrite den_eq, D, cf_div_0.
  assert (Z : c_sub (F:=X) (cf z) (Cpx NaN NaN) = Cpx NaN NaN) by reflexivity. rewrite Z. unfold c_abs at 2. unfold c_mul. cbn [re im]. xred. unfold xsqrt. cbn [xmul xdiv].
  replace (xleb _ _) with false by (destruct (c_abs _); reflexivity). apply (halley_nan (L:=L) cpow). exact HN.
Qed.

Lemma num_neq : forall n : Z, n <> 0%Z -> RtoC (IZR n) <> RtoC 0.
Proof. intros n Hn Z. apply (f_equal fst) in Z. cbn in Z. apply Hn. apply eq_IZR. exact Z. Qed.
(** *** the roots *)
Definition fifth (k : Z) : C := (cos (2 * PI * IZR k / 5), sin (2 * PI * IZR k / 5)).
Lemma fifth_z5 : forall k, (0 <= k < 5)%Z -> z5 (fifth k) = 1%C.
Proof.
  intros k K. assert (Q : fst (fifth_roots (F:=X) cpow (cf (fifth k))) = cfin 0 0) by (apply (fifth_zeros cpow Hpow); exists k; auto).
  unfold cf in Q. rewrite (fifth_fin cpow Hpow) in Q. cbn [fst] in Q. unfold cfin in Q. injection Q as Q1 Q2. unfold f1, f2 in *. apply C_eq; cbn; lra.
Qed.
Lemma fifth_0 : fifth 0 = 1%C.
Proof. unfold fifth. apply C_eq; cbn; replace (2 * PI * 0 / 5) with 0 by field; [apply cos_0|apply sin_0]. Qed.
Lemma golden : 4 * cos (2 * PI / 5) * cos (2 * PI / 5) + 2 * cos (2 * PI / 5) - 1 = 0.
Proof.
  set (c := cos (2 * PI / 5)). pose proof PI_RGT_0 as P. destruct (cos_5 (2 * PI / 5)) as [C5 _]. replace (5 * (2 * PI / 5)) with (2 * PI) in C5 by field. rewrite cos_2PI in C5. fold c in C5.
  pose proof (sin2_cos2 (2 * PI / 5)) as S. unfold Rsqr in S. fold c in S. set (s := sin (2 * PI / 5)) in *.
  assert (S2 : s ^ 2 = 1 - c ^ 2) by (cbn; lra). assert (S4 : s ^ 4 = (1 - c ^ 2) * (1 - c ^ 2)) by (rewrite <- S2; ring). rewrite S2, S4 in C5.
  assert (E : (c - 1) * ((4 * c * c + 2 * c - 1) * (4 * c * c + 2 * c - 1)) = 0) by (transitivity (c ^ 5 - 10 * c ^ 3 * (1 - c ^ 2) + 5 * c * ((1 - c ^ 2) * (1 - c ^ 2)) - 1); [ring|lra]).
  apply Rmult_integral in E as [E|E].
  - exfalso. assert (c < 1); [|lra]. unfold c. rewrite <- cos_0. apply cos_decreasing_1; lra.
  - apply Rmult_integral in E as [E|E]; exact E.
Qed.
(* the other four, in two pairs of conjugates *)
Lemma pairs : exists c s c' s', fifth 1 = (c, s) /\ fifth 4 = (c, (- s)%R) /\ fifth 2 = (c', s') /\ fifth 3 = (c', (- s')%R) /\ 2 * c + 2 * c' = -1 /\ 4 * c * c' = -1.
Proof.
  pose proof golden as Gd. exists (cos (2 * PI / 5)), (sin (2 * PI / 5)), (cos (2 * (2 * PI / 5))), (sin (2 * (2 * PI / 5))).
  assert (T : forall x y, x + y = 2 * PI -> cos x = cos y /\ sin x = - sin y).
  { intros x y E. replace x with (- y + 2 * INR 1 * PI) by (cbn; lra). rewrite cos_period, sin_period, cos_neg, sin_neg. auto. }
  split; [unfold fifth; f_equal; f_equal; field|]. split; [destruct (T (2 * PI * 4 / 5) (2 * PI / 5)) as [A B]; [field|]; unfold fifth; rewrite A, B; reflexivity|].
  split; [unfold fifth; f_equal; f_equal; field|]. split; [destruct (T (2 * PI * 3 / 5) (2 * (2 * PI / 5))) as [A B]; [field|]; unfold fifth; rewrite A, B; reflexivity|].
  rewrite cos_2a_cos. set (c := cos (2 * PI / 5)) in *. split; [lra|]. transitivity (2 * c * (4 * c * c + 2 * c - 1) - (4 * c * c + 2 * c - 1) - 1); [ring|]. rewrite Gd. ring.
Qed.
Lemma conj_prod : forall (z : C) c s, c * c + s * s = 1 -> ((z - (c, s)) * (z - (c, (- s)%R)) = z * z - RtoC (2 * c) * z + 1)%C.
Proof. intros [x y] c s E. apply C_eq; cbn; nra. Qed.
Lemma conj_sum : forall (z : C) c s, ((z - (c, s)) + (z - (c, (- s)%R)) = 2 * z - RtoC (2 * c))%C.
Proof. intros [x y] c s. apply C_eq; cbn; ring. Qed.
Lemma five_sum : forall z : C, (forall k, (0 <= k < 5)%Z -> (z - fifth k <> 0)%C) ->
  (F z <> 0 /\ F' z / F z = / (z - fifth 0) + / (z - fifth 1) + / (z - fifth 4) + (/ (z - fifth 2) + / (z - fifth 3)))%C.
Proof.
  intros z Nz. pose proof (Nz 0%Z ltac:(lia)) as N0. pose proof (Nz 1%Z ltac:(lia)) as N1. pose proof (Nz 2%Z ltac:(lia)) as N2. pose proof (Nz 3%Z ltac:(lia)) as N3. pose proof (Nz 4%Z ltac:(lia)) as N4.
  destruct pairs as (c & s & c' & s' & E1 & E4 & E2 & E3 & Su & Pr). rewrite E1, E2, E3, E4, fifth_0 in *.
  assert (U : c * c + s * s = 1) by (pose proof (sin2_cos2 (2 * PI * 1 / 5)) as Q; unfold Rsqr in Q; unfold fifth in E1; injection E1 as <- <-; lra).
  assert (U' : c' * c' + s' * s' = 1) by (pose proof (sin2_cos2 (2 * PI * 2 / 5)) as Q; unfold Rsqr in Q; unfold fifth in E2; injection E2 as <- <-; lra).
  pose proof (conj_prod z c s U) as P. pose proof (conj_prod z c' s' U') as P'. pose proof (conj_sum z c s) as S. pose proof (conj_sum z c' s') as S'.
  set (a := RtoC (2 * c)) in *. set (b := RtoC (2 * c')) in *.
  assert (Eb : (b = -1 - a)%C) by (unfold a, b; apply C_eq; cbn; lra). assert (Ea : (a * a = 1 - a)%C) by (unfold a; apply C_eq; cbn; nra). rewrite Eb in *. clearbody a. clear Eb b.
  set (p := (z - (c, s))%C) in *. set (q := (z - (c, (- s)%R))%C) in *. set (p' := (z - (c', s'))%C) in *. set (q' := (z - (c', (- s')%R))%C) in *. clearbody p q p' q'.
  assert (Fz : (F z = (z - 1) * (p * q) * (p' * q'))%C).
  { rewrite P, P'. unfold F, z5, z4. transitivity ((z - 1) * (z * z * z * z + z * z * z + 3 * z * z + z + 1 - (a * a + a + 1) * (z * z)))%C; [rewrite Ea; ring|ring]. }
  assert (Fd : (F' z = p * q * (p' * q') + (z - 1) * ((p + q) * (p' * q') + (p' + q') * (p * q)))%C).
  { rewrite P, P', S, S'. unfold F', z4. 
    transitivity (5 * (z * z * (z * z)) + (a * a + a - 1) * (- (3 * z * z) + 2 * z))%C; [rewrite Ea; ring|ring]. }
  assert (F0 : F z <> 0%C) by (rewrite Fz; repeat apply Cmult_neq_0; assumption). split; [exact F0|].
  rewrite Fz, Fd. field. auto.
Qed.
Lemma fifth_unit : forall k, Cmod (fifth k) = 1.
Proof.
  intros k. rewrite <- Cmod_size. unfold size, fifth. cbn [fst snd]. pose proof (sin2_cos2 (2 * PI * IZR k / 5)) as Q. unfold Rsqr in Q.
  replace (cos (2 * PI * IZR k / 5) * cos (2 * PI * IZR k / 5) + sin (2 * PI * IZR k / 5) * sin (2 * PI * IZR k / 5)) with 1 by lra. apply sqrt_1.
Qed.
Lemma inv_bound5 : forall (t : R) (a : C), 0 < t -> 5 * t < Cmod a -> Cmod (/ a)%C < / (5 * t).
Proof.
  intros t a T K. assert (a <> 0%C) by (intros Z; rewrite Z, Cmod_0 in K; lra). rewrite Cmod_inv by assumption. apply Rinv_lt_contravar; [|exact K]. apply Rmult_lt_0_compat; lra.
Qed.
Lemma near_fifth : forall z : C, F' z <> 0%C -> exists k, (0 <= k < 5)%Z /\ Cmod (z - fifth k)%C <= 5 * Cmod (F z / F' z)%C.
Proof.
  intros z D. set (t := Cmod (F z / F' z)%C). assert (T0 : 0 <= t) by apply Cmod_ge_0.
  assert (R : forall k, (0 <= k < 5)%Z -> (exists k, (0 <= k < 5)%Z /\ Cmod (z - fifth k)%C <= 5 * t) \/ 5 * t < Cmod (z - fifth k)%C).
  { intros k K. destruct (Rle_lt_dec (Cmod (z - fifth k)%C) (5 * t)) as [Q|Q]; [left; exists k; auto|right; exact Q]. }
  destruct (R 0%Z ltac:(lia)) as [A|A0]; [exact A|]. destruct (R 1%Z ltac:(lia)) as [A|A1]; [exact A|]. destruct (R 2%Z ltac:(lia)) as [A|A2]; [exact A|].
  destruct (R 3%Z ltac:(lia)) as [A|A3]; [exact A|]. destruct (R 4%Z ltac:(lia)) as [A|A4]; [exact A|]. exfalso. clear R.
  destruct (five_sum z) as [F0 S].
  { intros k K Z. assert (E : (k = 0 \/ k = 1 \/ k = 2 \/ k = 3 \/ k = 4)%Z) by lia. destruct E as [ -> |[ -> |[ -> |[ -> | -> ]]]]; rewrite Z, Cmod_0 in *; lra. }
  assert (T : 0 < t). { unfold t. rewrite Cmod_div by exact D. apply Rdiv_lt_0_compat; apply Cmod_gt_0; assumption. }
  assert (I : Cmod (F' z / F z)%C = / t).
  { unfold t. rewrite !Cmod_div by assumption. field. split; apply Rgt_not_eq, Cmod_gt_0; assumption. }
  rewrite S in I. apply inv_bound5 in A0, A1, A2, A3, A4; try exact T.
  assert (J : / t = / (5 * t) + / (5 * t) + / (5 * t) + (/ (5 * t) + / (5 * t))) by (field; lra).
  match type of I with Cmod (?a + ?b + ?c + (?d + ?e))%C = _ => pose proof (Cmod_triangle (a + b + c)%C (d + e)%C); pose proof (Cmod_triangle (a + b)%C c); pose proof (Cmod_triangle a b); pose proof (Cmod_triangle d e) end. lra.
Qed.

(** *** what is returned *)
Lemma H_form : forall z : C, (Den z <> 0 -> z <> 0 /\ F' z <> 0 /\ z - 2 * (F z / F' z) <> 0 /\ H z = z - F z / F' z * (z / (z - 2 * (F z / F' z))))%C.
Proof.
  intros z D. assert (z0 : z <> 0%C) by (intros Z; apply D; rewrite Z; unfold Den; ring).
  assert (F0 : F' z <> 0%C) by (unfold F', z4; repeat apply Cmult_neq_0; auto; exact (num_neq 5 ltac:(lia))).
  assert (E : (Den z = 2 * F' z * F' z / z * (z - 2 * (F z / F' z)))%C) by (rewrite <- den_eq; unfold F', z4; field; split; [exact z0|exact (num_neq 5 ltac:(lia))]).
  assert (Q : (z - 2 * (F z / F' z) <> 0)%C) by (intros Z; apply D; rewrite E, Z; ring).
  split; [exact z0|]. split; [exact F0|]. split; [exact Q|]. unfold H. rewrite E.
  set (u := (F z / F' z)%C) in *. assert (EF : F z = (u * F' z)%C) by (unfold u; field; exact F0). rewrite EF. clearbody u. field.
  repeat split; first [exact Q|exact F0|exact z0|exact (num_neq 2 ltac:(lia))].
Qed.
Lemma halley_returned : forall n (z : C) v, (forall m, cpow (Cpx NaN NaN) m = Cpx NaN NaN) -> eps <= 1 / 10 -> iterate n fifths (cf z) = Ok v ->
  exists a : C, v = cf a /\ (1 <= 20 * eps * Cmod a \/ exists k, (0 <= k < 5)%Z /\ Cmod (a - fifth k)%C <= 4 * eps * Cmod a).
Proof.
  intros n z v HN E1 E. revert z E. pose proof (l_eps_pos L) as E0. induction n as [|n IH]; intros z E; [discriminate|].
  destruct (Ceq_dec (Den z) 0%C) as [Z|D]; [rewrite halley_flat in E by assumption; discriminate|].
  rewrite halley_C in E by exact D. destruct (Rleb_spec (Cmod (F z)) (eps * Cmod (H z * F' z)%C / 2)) as [T|T]; [|exact (IH _ E)]. injection E as <-.
  exists (H z). split; [reflexivity|]. destruct (Rle_lt_dec 1 (20 * eps * Cmod (H z))) as [B|B]; [left; exact B|right].
  destruct (H_form z D) as (z0 & F0 & Q & HE). destruct (near_fifth z F0) as (k & K & Nk). exists k. split; [exact K|].
  set (u := (F z / F' z)%C) in *. set (a := H z) in *.
  assert (FP : 0 < Cmod (F' z)) by (apply Cmod_gt_0; exact F0).
  assert (U : Cmod u <= eps / 2 * Cmod a).
  { unfold u. rewrite Cmod_div by exact F0. rewrite Cmod_mult in T. apply Rmult_le_reg_r with (Cmod (F' z)); [exact FP|]. replace (Cmod (F z) / Cmod (F' z) * Cmod (F' z)) with (Cmod (F z)) by (field; lra). lra. }
  assert (U4 : Cmod u <= 1 / 40) by lra.
  assert (Z1 : 7 / 8 <= Cmod z).
  { pose proof (Cmod_minus (fifth k) (z - fifth k)%C) as Y. rewrite fifth_unit in Y. replace (fifth k + (z - fifth k))%C with z in Y by ring. lra. }
  assert (Zu : Cmod z - 2 * Cmod u <= Cmod (z - 2 * u)%C).
  { pose proof (Cmod_minus z (- (2 * u))%C) as Y. rewrite Cmod_opp, Cmod_mult, (Cmod_int 2) in Y by lia. exact Y. }
  assert (St : Cmod (u * (z / (z - 2 * u)))%C <= 35 / 33 * Cmod u).
  { rewrite Cmod_mult, Cmod_div by exact Q. assert (YP : 0 < Cmod (z - 2 * u)%C) by lra. pose proof (Cmod_ge_0 u).
    apply Rle_trans with (Cmod u * (35 / 33)); [|lra]. apply Rmult_le_compat_l; [assumption|]. apply Rmult_le_reg_r with (Cmod (z - 2 * u)%C); [exact YP|]. 
    replace (Cmod z / Cmod (z - 2 * u)%C * Cmod (z - 2 * u)%C) with (Cmod z) by (field; lra). lra. }
  rewrite HE. replace (z - u * (z / (z - 2 * u)) - fifth k)%C with (z - fifth k + - (u * (z / (z - 2 * u))))%C by ring.
  pose proof (Cmod_triangle (z - fifth k)%C (- (u * (z / (z - 2 * u))))%C) as Y. rewrite Cmod_opp in Y. rewrite <- HE. fold a. pose proof (Rmult_le_pos _ _ (Rlt_le _ _ E0) (Cmod_ge_0 a)). lra.
Qed.

(** *** disks around the roots *)
Lemma z5_mult : forall a b : C, z5 (a * b)%C = (z5 a * z5 b)%C.
Proof. intros a b. unfold z5, z4. ring. Qed.
Lemma V_near : forall e : C, Cmod e <= 1 / 6 -> 3 * Cmod e <= Cmod (z5 (1 + e) - 1)%C <= 7 * Cmod e.
Proof.
  intros e He. assert (E : (z5 (1 + e) - 1 = e * (5 + e * (10 + e * (10 + e * (5 + e * 1)))))%C) by (unfold z5, z4; ring). pose proof (Cmod_ge_0 e) as E0.
  assert (Hi : Cmod (10 + e * (10 + e * (5 + e * 1)))%C <= 10 + 1 / 6 * (10 + 1 / 6 * (5 + 1 / 6 * 1))).
  { repeat (apply horner; [lia|exact He|]). rewrite Cmod_1. lra. }
  set (q := (10 + e * (10 + e * (5 + e * 1)))%C) in *. rewrite E. rewrite Cmod_mult. pose proof (Cmod_ge_0 q) as Q0.
  assert (M : Cmod (e * q)%C <= 1 / 6 * (10 + 1 / 6 * (10 + 1 / 6 * (5 + 1 / 6 * 1)))) by (rewrite Cmod_mult; apply Rmult_le_compat; assumption).
  pose proof (Cmod_minus (RtoC 5) (e * q)%C) as A. pose proof (Cmod_triangle (RtoC 5) (e * q)%C) as B. rewrite (Cmod_int 5) in A, B by lia. clearbody q. split; nra.
Qed.
Lemma disk_fifth : forall w e : C, z5 w = 1%C -> Cmod e <= 1 / 6 -> Den (w * (1 + e))%C <> 0%C /\ exists e', H (w * (1 + e))%C = (w * (1 + e'))%C /\ Cmod e' <= Cmod e / 2.
Proof.
  intros w e Hw He. set (V := z5 (1 + e)%C). pose proof (V_near e He) as HV. fold V in HV.
  assert (w0 : w <> 0%C) by (intros Z; rewrite Z in Hw; unfold z5, z4 in Hw; apply (f_equal fst) in Hw; cbn in Hw; lra).
  destruct (one_plus e (1 / 6) He ltac:(lra)) as [e0 _].
  set (D := (3 * V + 2)%C). set (P := (0 + e * (10 + e * (15 + e * (9 + e * 2))))%C).
  assert (HP : Cmod P <= 2128 / 1000).
  { eapply Rle_trans; [unfold P; repeat (eapply horner; [lia|exact He|]); rewrite (Cmod_int 2) by lia; apply Rle_refl|lra]. }
  assert (HD : 15 / 10 <= Cmod D).
  { assert (W : Cmod (V - 1)%C <= 11615 / 10000).
    { replace (V - 1)%C with (0 + e * (5 + e * (10 + e * (10 + e * (5 + e * 1)))))%C by (unfold V, z5, z4; ring).
      eapply Rle_trans; [repeat (eapply horner; [lia|exact He|]); rewrite Cmod_1; apply Rle_refl|lra]. }
    pose proof (Cmod_minus (RtoC 5) (3 * (V - 1))%C) as T. rewrite Cmod_mult, (Cmod_int 3), (Cmod_int 5) in T by lia. replace (5 + 3 * (V - 1))%C with D in T by (unfold D; ring). lra. }
  destruct (shrink e P D (1 / 6) (2128 / 1000) (15 / 10) He HP HD ltac:(lra) ltac:(lra)) as [D0 Sh].
  set (z := (w * (1 + e))%C). assert (z0 : z <> 0%C) by (apply Cmult_neq_0; assumption).
  assert (Zz : z5 z = V) by (unfold z; rewrite z5_mult, Hw; fold V; ring).
  assert (ED : Den z = (10 * (z * z * z) * D)%C) by (unfold Den, D; rewrite Zz; reflexivity).
  assert (Dz : Den z <> 0%C) by (rewrite ED; repeat apply Cmult_neq_0; auto; intros Z; apply (f_equal fst) in Z; cbn in Z; lra).
  split; [exact Dz|]. exists (e * e * P / D)%C. split; [|exact Sh]. unfold H. rewrite ED. unfold F, F'. rewrite Zz.
  transitivity (z * (1 - (V - 1) / D))%C; [unfold z4; field; repeat split; first [exact D0|exact z0|exact (num_neq 10 ltac:(lia))]|]. unfold z. apply quotient_form; [exact D0|]. unfold D, P, V, z5, z4. ring.
Qed.
Lemma fifth_ends : forall w, z5 w = 1%C -> Cmod w = 1 -> forall n e, Cmod e <= 1 / 6 -> Cmod e <= 3 / 20 * eps * 2 ^ n ->
  exists e', iterate (S n) fifths (cf (w * (1 + e))%C) = Ok (cf (w * (1 + e'))%C) /\ Cmod e' <= Cmod e / 2 /\ Cmod e' <= eps * Cmod (w * (1 + e'))%C.
Proof.
  intros w Hw W1. pose proof (l_eps_pos L) as E0.
  induction n as [|n IH]; intros e He Hn; destruct (disk_fifth w e Hw He) as (D & e' & E & Sh); rewrite halley_C by exact D; rewrite E; pose proof (Cmod_ge_0 e) as P0; pose proof (Cmod_ge_0 e') as P1;
    assert (FE : Cmod (F (w * (1 + e)))%C = Cmod (z5 (1 + e) - 1)%C) by (unfold F; rewrite z5_mult, Hw; f_equal; ring);
    assert (FD : Cmod (F' (w * (1 + e)))%C = 5 * Cmod (1 + e)%C ^ 4) by (unfold F'; rewrite Cmod_mult, z4_mod, (Cmod_int 5), Cmod_mult, W1 by lia; ring);
    destruct (V_near e He) as [V1 V2]; destruct (one_plus e (1 / 6) He ltac:(lra)) as [_ O1]; destruct (one_plus e' (1 / 12) ltac:(lra) ltac:(lra)) as [_ O2];
    assert (O3 : Cmod (1 + e)%C <= 7 / 6) by (pose proof (Cmod_triangle 1 e) as T; rewrite Cmod_1 in T; lra);
    assert (Am : Cmod (w * (1 + e'))%C = Cmod (1 + e')%C) by (rewrite Cmod_mult, W1; ring);
    assert (B1 : (5 / 6) ^ 4 <= Cmod (1 + e)%C ^ 4) by (apply pow_incr; lra); assert (B2 : Cmod (1 + e)%C ^ 4 <= (7 / 6) ^ 4) by (apply pow_incr; lra).
  - rewrite Rleb_true.
    + exists e'. split; [reflexivity|]. split; [exact Sh|]. rewrite Am. cbn [pow] in Hn. nra.
    + rewrite FE, Cmod_mult, FD, Am. cbn [pow] in *. rewrite Rmult_1_r in Hn. set (m := Cmod (1 + e)%C * _) in *. clearbody m.
      assert (11 / 12 * (5 * (5 / 6 * (5 / 6 * (5 / 6 * (5 / 6 * 1))))) <= Cmod (1 + e')%C * (5 * m)) by (apply Rmult_le_compat; lra). nra.
  - destruct (Rleb_spec (Cmod (F (w * (1 + e)))%C) (eps * Cmod (w * (1 + e') * F' (w * (1 + e)))%C / 2)) as [T|T].
    + exists e'. split; [reflexivity|]. split; [exact Sh|]. rewrite Am. rewrite FE, Cmod_mult, FD, Am in T. cbn [pow] in *. set (m := Cmod (1 + e)%C * _) in *. clearbody m. set (q := Cmod (1 + e')%C) in *. clearbody q.
      assert (q * (5 * m) <= q * (5 * (7 / 6 * (7 / 6 * (7 / 6 * (7 / 6 * 1)))))) by (apply Rmult_le_compat_l; lra). assert (eps * (q * (5 * m)) <= eps * (q * (5 * (7 / 6 * (7 / 6 * (7 / 6 * (7 / 6 * 1))))))) by (apply Rmult_le_compat_l; lra). assert (0 < eps * q) by (apply Rmult_lt_0_compat; lra). lra.
    + destruct (IH e') as (f & F1 & F2 & F3); [lra|cbn [pow] in Hn; lra|]. exists f. split; [exact F1|]. split; [lra|exact F3].
Qed.
Lemma fifth_disks : forall k (z : C), (0 <= k < 5)%Z -> Cmod (z - fifth k)%C <= 1 / 6 ->
  exists n a, iterate n fifths (cf z) = Ok (cf a) /\ Cmod (a - fifth k)%C <= Cmod (z - fifth k)%C / 2 /\ Cmod (a - fifth k)%C <= eps * Cmod a.
Proof.
  intros k z K Hz. set (w := fifth k) in *. pose proof (fifth_z5 k K) as Hw. pose proof (fifth_unit k) as W1. fold w in Hw, W1. pose proof (l_eps_pos L) as E0.
  assert (w0 : w <> 0%C) by (intros Z; rewrite Z, Cmod_0 in W1; lra).
  set (e := ((z - w) / w)%C). assert (Ez : z = (w * (1 + e))%C) by (unfold e; field; exact w0).
  assert (Ce : Cmod (z - w)%C = Cmod e) by (unfold e; rewrite Cmod_div, W1 by exact w0; field).
  destruct (big_power (Cmod e) (3 / 20 * eps)) as (n & Hn); [lra|].
  destruct (fifth_ends w Hw W1 n e) as (e' & E & Sh & T); [lra|exact Hn|]. exists (S n), (w * (1 + e'))%C. rewrite Ez at 1. split; [exact E|].
  assert (A : Cmod (w * (1 + e') - w)%C = Cmod e') by (replace (w * (1 + e') - w)%C with (w * e')%C by ring; rewrite Cmod_mult, W1; ring). rewrite A, Ce. split; assumption.
Qed.

(** *** a large number is returned *)
Lemma halley_large : eps <= 1 / 100 -> exists x a, -1 < x < 0 /\ iterate 1 fifths (cfin x 0) = Ok (cfin a 0) /\ 3 / eps <= Rabs a.
Proof.
  intros E1. pose proof (l_eps_pos L) as E0. set (h := eps / 10). assert (h0 : 0 < h) by (unfold h; lra).
  set (r := exp (ln (2 / 3 - h) / 5)). assert (r0 : 0 < r) by apply exp_pos.
  assert (R5 : r ^ 5 = 2 / 3 - h).
  { unfold r. rewrite <- exp_ln with (x := 2 / 3 - h) at 2 by (unfold h; lra). cbn [pow]. rewrite Rmult_1_r, <- !exp_plus. f_equal. field. }
  assert (r1 : r < 1). { apply Rnot_le_lt. intros Q. assert (1 ^ 5 <= r ^ 5) by (apply pow_incr; lra). unfold h in *. lra. }
  assert (rl : 65 / 100 <= r).
  { apply Rle_trans with (r ^ 5); [rewrite R5; unfold h; lra|]. assert (r ^ 4 <= 1) by (rewrite <- (pow1 4); apply pow_incr; lra). replace (r ^ 5) with (r * r ^ 4) by ring. nra. }
  set (b := 1 + (5 / 3 - h) / (3 * h)). assert (Hb : 55 / 10 <= eps * b).
  { unfold b. replace (eps * (1 + (5 / 3 - h) / (3 * h))) with (eps + 10 * (5 / 3 - h) / 3) by (unfold h; field; lra). unfold h. lra. }
  exists (- r), (- r * b). split; [lra|].
  set (z := RtoC (- r)). change (cfin (- r) 0) with (cf z).
  assert (Z5 : z5 z = RtoC (h - 2 / 3)) by (apply C_eq; cbn; [transitivity (- r ^ 5); [ring|rewrite R5; ring]|ring]).
  assert (Dn : Den z = RtoC (- (30 * r ^ 3 * h))) by (unfold Den; rewrite Z5; apply C_eq; cbn; field).
  assert (R3 : 0 < r ^ 3) by (apply pow_lt; exact r0). assert (R3h : 0 < r ^ 3 * h) by (apply Rmult_lt_0_compat; assumption).
  assert (D0 : Den z <> 0%C) by (rewrite Dn; intros Q; apply (f_equal fst) in Q; cbn [fst RtoC] in Q; lra).
  assert (Fz : F z = RtoC (h - 5 / 3)) by (unfold F; rewrite Z5; apply C_eq; cbn; lra).
  assert (Fd : F' z = RtoC (5 * r ^ 4)) by (apply C_eq; cbn; ring).
  assert (Hz : H z = RtoC (- r * b)).
  { unfold H. rewrite Fz, Fd, Dn. rewrite <- !RtoC_mult. rewrite <- RtoC_div by lra. unfold z. rewrite <- RtoC_minus. f_equal. unfold b. field. split; [lra|]. apply Rgt_not_eq. exact r0. }
  split.
  - rewrite halley_C by exact D0. rewrite Hz, Fz, Fd, Cmod_mult, !Cmod_R. rewrite Rleb_true; [reflexivity|].
    rewrite (Rabs_left (h - 5 / 3)) by (unfold h; lra). assert (b0 : 0 < b) by nra. rewrite (Rabs_left (- r * b)) by nra. rewrite (Rabs_pos_eq (5 * r ^ 4)) by (assert (0 < r ^ 4) by (apply pow_lt; exact r0); lra).
    replace (eps * (- (- r * b) * (5 * r ^ 4)) / 2) with (5 / 2 * (eps * b) * r ^ 5) by field. rewrite R5. unfold h in *. nra.
  - assert (b0 : 0 < b) by nra. rewrite Rabs_left by nra. apply Rmult_le_reg_r with eps; [exact E0|]. replace (3 / eps * eps) with 3 by (field; lra). nra.
Qed.
End Fifths.
