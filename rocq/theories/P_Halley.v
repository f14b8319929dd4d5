(** newton_fractal.cpp in exact arithmetic: derivatives, zeros, and Halley's iteration. *)
From Coq Require Import Reals Lra Psatz ZArith Lia List Bool.
From Coquelicot Require Import Coquelicot.
From Verif Require Import Num XR M_Image M_Fractal Spec_Image P_Image P_Fractal P_Basin.
Import ListNotations.
Local Open Scope R_scope.

Section Halley.
Context {L : limits}.
Notation X := (XR L).
Notation eps := (l_eps L).

(** *** derivatives *)
Ltac partials := repeat split; apply is_derive_Reals; unfold w1, w2, d1, d2, re4, im4, re3, im3; (auto_derive; [exact I|ring]).
Lemma g_derivative : forall x y, exists u v a b, (forall s t, fst (g (F:=X) (cfin s t)) = cfin (u s t) (v s t)) /\ snd (g (F:=X) (cfin x y)) = cfin a b /\ holomorphic u v x y a b.
Proof.
  intros x y. exists w1, w2, (d1 x y), (d2 x y). split; [intros s t; rewrite g_fin; reflexivity|]. split; [rewrite g_fin; reflexivity|]. partials.
Qed.
Variable cpow : cpx xr -> Z -> cpx xr.
Hypothesis Hpow : powers cpow.
Lemma pow3 : forall x y, cpow (cfin x y) 3 = cfin (re3 x y) (im3 x y).
Proof. intros x y. change 3%Z with (Z.of_nat 3). rewrite Hpow. unfold powC, cfin. cbn [fst snd]. unfold re3, im3. f_equal; f_equal; ring. Qed.
Lemma pow4 : forall x y, cpow (cfin x y) 4 = cfin (re4 x y) (im4 x y).
Proof. intros x y. change 4%Z with (Z.of_nat 4). rewrite Hpow. unfold powC, cfin. cbn [fst snd]. unfold re4, im4. f_equal; f_equal; ring. Qed.
Definition f1 x y := x ^ 5 - 10 * x ^ 3 * y ^ 2 + 5 * x * y ^ 4 - 1.
Definition f2 x y := 5 * x ^ 4 * y - 10 * x ^ 2 * y ^ 3 + y ^ 5.
Lemma fifth_fin : forall x y, fifth_roots (F:=X) cpow (cfin x y) = (cfin (f1 x y) (f2 x y), cfin (5 * re4 x y) (5 * im4 x y)).
Proof. intros x y. unfold fifth_roots. rewrite pow4. unfold c_mul, c_scale, c_sub_real, cfin. cbn [re im]. xred. unfold f1, f2, re4, im4. f_equal; f_equal; f_equal; ring. Qed.
Lemma halley_fin : forall x y, fifth_roots_halley (F:=X) cpow (cfin x y) = (cfin (f1 x y) (f2 x y), cfin (5 * re4 x y) (5 * im4 x y), cfin (20 * re3 x y) (20 * im3 x y)).
Proof.
  intros x y. unfold fifth_roots_halley. rewrite pow3. unfold c_mul, c_scale, c_sub_real, cfin. cbn [re im]. xred. unfold f1, f2, re4, im4, re3, im3.
  match goal with |- (Cpx (Fin ?a) (Fin ?b), Cpx (Fin ?c) (Fin ?d), Cpx (Fin ?e) (Fin ?f)) = (Cpx (Fin ?a1) (Fin ?b1), Cpx (Fin ?c1) (Fin ?d1), Cpx (Fin ?e1) (Fin ?g1)) =>
    replace a with a1 by ring; replace b with b1 by ring; replace c with c1 by ring; replace d with d1 by ring; replace e with e1 by ring; replace f with g1 by ring end. reflexivity.
Qed.
Lemma fifth_derivative : forall x y, exists u v a b, (forall s t, fst (fifth_roots (F:=X) cpow (cfin s t)) = cfin (u s t) (v s t)) /\ snd (fifth_roots (F:=X) cpow (cfin x y)) = cfin a b /\ holomorphic u v x y a b.
Proof.
  intros x y. exists f1, f2, (5 * re4 x y), (5 * im4 x y). split; [intros s t; rewrite fifth_fin; reflexivity|]. split; [rewrite fifth_fin; reflexivity|]. unfold f1, f2. partials.
Qed.
Lemma halley_derivatives : forall x y, exists u v p q a b, (forall s t, fst (fifth_roots_halley (F:=X) cpow (cfin s t)) = (cfin (u s t) (v s t), cfin (p s t) (q s t))) /\
  snd (fifth_roots_halley (F:=X) cpow (cfin x y)) = cfin a b /\ holomorphic u v x y (p x y) (q x y) /\ holomorphic p q x y a b.
Proof.
  intros x y. exists f1, f2, (fun x y => 5 * re4 x y), (fun x y => 5 * im4 x y), (20 * re3 x y), (20 * im3 x y).
  split; [intros s t; rewrite halley_fin; reflexivity|]. split; [rewrite halley_fin; reflexivity|]. split; unfold f1, f2; partials.
Qed.

(** *** zeros *)
Lemma sum_sq : forall a b, a * a + b * b = 0 -> a = 0 /\ b = 0.
Proof. intros a b H. pose proof (Rle_0_sqr a). pose proof (Rle_0_sqr b). unfold Rsqr in *. split; apply Rsqr_0_uniq; unfold Rsqr; lra. Qed.
Lemma real4 : forall x y, im4 x y = 0 -> x = 0 \/ y = 0 \/ y = x \/ y = - x.
Proof.
  intros x y H. unfold im4 in H. assert (E : x * (y * ((y - x) * (y + x))) = 0) by lra.
  apply Rmult_integral in E as [E|E]; auto. apply Rmult_integral in E as [E|E]; auto. apply Rmult_integral in E as [E|E]; right; right; [left|right]; lra.
Qed.
Lemma fourth_1 : forall x, x ^ 4 = 1 -> x = 1 \/ x = -1.
Proof.
  intros x H. assert (E : (x - 1) * ((x + 1) * (x * x + 1)) = 0) by (ring_simplify; lra). apply Rmult_integral in E as [E|E]; [left; lra|].
  apply Rmult_integral in E as [E|E]; [right; lra|]. pose proof (Rle_0_sqr x). unfold Rsqr in *. lra.
Qed.
Lemma fourth_4 : forall x, x ^ 4 = 4 -> x = sqrt 2 \/ x = - sqrt 2.
Proof.
  intros x H. pose proof sqrt2_sq as S2. assert (E : (x - sqrt 2) * ((x + sqrt 2) * (x * x + 2)) = 0) by (transitivity (x ^ 4 - (sqrt 2 * sqrt 2) * x * x + 2 * x * x - 2 * (sqrt 2 * sqrt 2)); [ring|rewrite S2; lra]).
  apply Rmult_integral in E as [E|E]; [left; lra|]. apply Rmult_integral in E as [E|E]; [right; lra|]. pose proof (Rle_0_sqr x). unfold Rsqr in *. lra.
Qed.
Lemma g_zeros : forall x y, fst (g (F:=X) (cfin x y)) = cfin 0 0 <-> In (x, y) roots.
Proof.
  intros x y. split.
  - intros E. rewrite g_fin in E. cbn [fst] in E. unfold cfin in E. injection E as E1 E2.
    (* (z4 - 1)(z4 + 16) = 0 *)
    set (r := re4 x y) in *. set (m := im4 x y) in *. unfold w1 in E1. unfold w2 in E2. fold r m in E1, E2.
    assert (P : ((r - 1) * (r - 1) + m * m) * ((r + 16) * (r + 16) + m * m) = 0).
    { transitivity ((r * (r + 15) - m * m - 16) * (r * (r + 15) - m * m - 16) + (r * m + m * (r + 15)) * (r * m + m * (r + 15))); [ring|rewrite E1, E2; ring]. }
    assert (C : (r = 1 \/ r = -16) /\ m = 0).
    { apply Rmult_integral in P as [P|P]; apply sum_sq in P as [P Q]; split; auto; [left|right]; lra. }
    destruct C as (C & M). subst r m. apply real4 in M. destruct M as [->|[->|[->| ->]]]; unfold re4 in C.
    + destruct C as [C|C]; [|exfalso; pose proof (Rle_0_sqr (y * y)); unfold Rsqr in *; lra].
      destruct (fourth_1 y) as [->| ->]; [lra| |]; cbn [roots In]; auto 10.
    + destruct C as [C|C]; [|exfalso; pose proof (Rle_0_sqr (x * x)); unfold Rsqr in *; lra].
      destruct (fourth_1 x) as [->| ->]; [lra| |]; cbn [roots In]; auto 10.
    + destruct C as [C|C]; [exfalso; pose proof (Rle_0_sqr (x * x)); unfold Rsqr in *; lra|].
      destruct (fourth_4 x) as [->| ->]; [lra| |]; cbn [roots In]; auto 10.
    + destruct C as [C|C]; [exfalso; pose proof (Rle_0_sqr (x * x)); unfold Rsqr in *; lra|].
      destruct (fourth_4 x) as [->| ->]; [lra| |]; rewrite ?Ropp_involutive; cbn [roots In]; auto 10.
  - intros H. destruct (roots_vanish (L:=L) x y H) as (dw & E & _). rewrite E. reflexivity.
Qed.
Lemma cos_5 : forall t, cos (5 * t) = cos t ^ 5 - 10 * cos t ^ 3 * sin t ^ 2 + 5 * cos t * sin t ^ 4 /\ sin (5 * t) = 5 * cos t ^ 4 * sin t - 10 * cos t ^ 2 * sin t ^ 3 + sin t ^ 5.
Proof.
  intros t. replace (5 * t) with (t + t + (t + t) + t) by ring. rewrite !cos_plus, !sin_plus, ?cos_plus, ?sin_plus. split; ring.
Qed.
Lemma fifth_zeros : forall x y, fst (fifth_roots (F:=X) cpow (cfin x y)) = cfin 0 0 <-> exists k, (0 <= k < 5)%Z /\ x = cos (2 * PI * IZR k / 5) /\ y = sin (2 * PI * IZR k / 5).
Proof.
  intros x y. rewrite fifth_fin. cbn [fst]. split.
  - intros E. unfold cfin in E. injection E as E1 E2. unfold f1, f2 in *.
    destruct (root_angle (L:=L) x y) as (s & _ & Sr & Ex & Ey). set (r := sqrt (x * x + y * y)) in *.
    assert (R0 : 0 <= r) by apply sqrt_pos. destruct (cos_5 (2 * PI * s)) as (C5 & S5).
    assert (A : r ^ 5 * cos (5 * (2 * PI * s)) = 1) by (rewrite C5; rewrite Ex, Ey in E1; nra).
    assert (B : r ^ 5 * sin (5 * (2 * PI * s)) = 0) by (rewrite S5; rewrite Ex, Ey in E2; nra).
    set (th := 5 * (2 * PI * s)) in *. pose proof (sin2_cos2 th) as SC. unfold Rsqr in SC.
    assert (R10 : r ^ 5 * r ^ 5 = 1).
    { transitivity (r ^ 5 * r ^ 5 * (sin th * sin th + cos th * cos th)); [rewrite SC; ring|].
      transitivity ((r ^ 5 * sin th) * (r ^ 5 * sin th) + (r ^ 5 * cos th) * (r ^ 5 * cos th)); [ring|rewrite A, B; ring]. }
    assert (R5 : r ^ 5 = 1) by (assert (0 <= r ^ 5) by (apply pow_le; exact R0); nra).
    assert (R1 : r = 1).
    { assert (Q : (r - 1) * (r ^ 4 + r ^ 3 + r ^ 2 + r + 1) = 0) by (ring_simplify; lra). apply Rmult_integral in Q as [Q|Q]; [lra|].
      pose proof (pow_le r 4 R0). pose proof (pow_le r 3 R0). pose proof (pow_le r 2 R0). lra. }
    rewrite R5, Rmult_1_l in A, B. rewrite R1, Rmult_1_l in Ex, Ey.
    (* cos = 1, sin = 0: a multiple of the full turn *)
    apply sin_eq_0_0 in B as (n & Hn). pose proof PI_RGT_0 as Pi.
    assert (Par : exists k, n = (2 * k)%Z).
    { destruct (Z.Even_or_Odd n) as [(k & ->)|(k & ->)]; [eauto|]. exfalso. rewrite Hn in A. rewrite plus_IZR, mult_IZR in A.
      replace ((2 * IZR k + 1) * PI) with (PI + 2 * IZR k * PI) in A by ring.
      assert (Q : cos (PI + 2 * IZR k * PI) = -1).
      { destruct (Z.le_gt_cases 0 k) as [K|K].
        - rewrite <- (Z2Nat.id k K), <- INR_IZR_INZ, cos_period. apply cos_PI.
        - assert (K' : (0 <= - k)%Z) by lia. rewrite <- (cos_period (PI + 2 * IZR k * PI) (Z.to_nat (- k))). rewrite INR_IZR_INZ, Z2Nat.id by lia. rewrite opp_IZR.
          replace (PI + 2 * IZR k * PI + 2 * - IZR k * PI) with PI by ring. apply cos_PI. }
      lra. }
    destruct Par as (k & ->). rewrite mult_IZR in Hn. unfold th in Hn. assert (Sk : 5 * s = IZR k) by (apply Rmult_eq_reg_r with (2 * PI); lra).
    exists k. split; [split; [apply le_IZR; lra|apply lt_IZR; lra]|]. replace (2 * PI * IZR k / 5) with (2 * PI * s) by (rewrite <- Sk; field). auto.
  - intros (k & K & -> & ->). set (t := 2 * PI * IZR k / 5). destruct (cos_5 t) as (C5 & S5).
    assert (Q : cos (5 * t) = 1 /\ sin (5 * t) = 0).
    { replace (5 * t) with (0 + 2 * INR (Z.to_nat k) * PI) by (rewrite INR_IZR_INZ, Z2Nat.id by lia; unfold t; field). rewrite cos_period, sin_period, cos_0, sin_0. auto. }
    destruct Q as (Q1 & Q2). unfold cfin, f1, f2. f_equal; f_equal; lra.
Qed.

(** *** Halley's iteration *)
Definition next (x : R) : R := x * (2 * x ^ 5 + 3) / (3 * x ^ 5 + 2).
Section Ray.
Variables c s : R.
Hypothesis one : c * c + s * s = 1.
Hypothesis five1 : f1 c s = 0.
Hypothesis five2 : f2 c s = 0.
Lemma unit_4 : re4 c s = c /\ im4 c s = - s.
Proof.
  (* z4 z = 1 and |z| = 1 *)
  assert (A : re4 c s * c - im4 c s * s = 1) by (unfold f1 in five1; unfold re4, im4; lra).
  assert (B : re4 c s * s + im4 c s * c = 0) by (unfold f2 in five2; unfold re4, im4; lra).
  split.
  - transitivity ((re4 c s * c - im4 c s * s) * c + (re4 c s * s + im4 c s * c) * s); [transitivity (re4 c s * (c * c + s * s)); [rewrite one; ring|ring]|rewrite A, B; ring].
  - transitivity ((re4 c s * s + im4 c s * c) * c - (re4 c s * c - im4 c s * s) * s); [transitivity (im4 c s * (c * c + s * s)); [rewrite one; ring|ring]|rewrite A, B; ring].
Qed.
Lemma unit_3 : re3 c s = c * c - s * s /\ im3 c s = - (2 * c * s).
Proof.
  destruct unit_4 as (A & B). assert (P : re3 c s * c - im3 c s * s = c) by (transitivity (re4 c s); [unfold re4, re3, im3; ring|exact A]).
  assert (Q : re3 c s * s + im3 c s * c = - s) by (transitivity (im4 c s); [unfold im4, re3, im3; ring|exact B]).
  split.
  - transitivity ((re3 c s * c - im3 c s * s) * c + (re3 c s * s + im3 c s * c) * s); [transitivity (re3 c s * (c * c + s * s)); [rewrite one; ring|ring]|rewrite P, Q; ring].
  - transitivity ((re3 c s * s + im3 c s * c) * c - (re3 c s * c - im3 c s * s) * s); [transitivity (im3 c s * (c * c + s * s)); [rewrite one; ring|ring]|rewrite P, Q; ring].
Qed.
Lemma ray_value : forall x, fifth_roots_halley (F:=X) cpow (cfin (c * x) (s * x)) =
  (cfin (x ^ 5 - 1) 0, cfin (5 * x ^ 4 * c) (- (5 * x ^ 4 * s)), cfin (20 * x ^ 3 * (c * c - s * s)) (- (20 * x ^ 3 * (2 * c * s)))).
Proof.
  intros x. rewrite halley_fin. destruct unit_4 as (A & B), unit_3 as (P & Q).
  assert (E1 : f1 (c * x) (s * x) = x ^ 5 - 1) by (transitivity (x ^ 5 * (f1 c s + 1) - 1); [unfold f1; ring|rewrite five1; ring]).
  assert (E2 : f2 (c * x) (s * x) = 0) by (transitivity (x ^ 5 * f2 c s); [unfold f2; ring|rewrite five2; ring]).
  assert (E3 : 5 * re4 (c * x) (s * x) = 5 * x ^ 4 * c) by (transitivity (5 * x ^ 4 * re4 c s); [unfold re4; ring|rewrite A; ring]).
  assert (E4 : 5 * im4 (c * x) (s * x) = - (5 * x ^ 4 * s)) by (transitivity (5 * x ^ 4 * im4 c s); [unfold im4; ring|rewrite B; ring]).
  assert (E5 : 20 * re3 (c * x) (s * x) = 20 * x ^ 3 * (c * c - s * s)) by (transitivity (20 * x ^ 3 * re3 c s); [unfold re3; ring|rewrite P; ring]).
  assert (E6 : 20 * im3 (c * x) (s * x) = - (20 * x ^ 3 * (2 * c * s))) by (transitivity (20 * x ^ 3 * im3 c s); [unfold im3; ring|rewrite Q; ring]).
  rewrite E1, E2, E3, E4, E5, E6. reflexivity.
Qed.
Lemma next_pos : forall x, 0 < x -> 0 < next x.
Proof. intros x H. unfold next. pose proof (pow_lt x 5 H). apply Rdiv_lt_0_compat; [apply Rmult_lt_0_compat; lra|lra]. Qed.
Lemma halley_next : forall x n, 0 < x -> complex_halley (F:=X) (S n) (fifth_roots_halley (F:=X) cpow) (cfin (c * x) (s * x)) =
  if Rleb (Rabs (x ^ 5 - 1)) (eps * (next x * (5 * x ^ 4)) / 2) then Ok (cfin (c * next x) (s * next x))
  else complex_halley (F:=X) n (fifth_roots_halley (F:=X) cpow) (cfin (c * next x) (s * next x)).
Proof.
  intros x n H. cbn [complex_halley]. rewrite ray_value. pose proof (next_pos x H) as NP. pose proof (pow_lt x 5 H) as P5. pose proof (pow_lt x 3 H) as P3. pose proof (pow_lt x 4 H) as P4.
  assert (A : c_sub (F:=X) (cfin (c * x) (s * x)) (c_div (F:=X) (c_mul (F:=X) (c_scale (F:=X) (nofZ 2) (cfin (x ^ 5 - 1) 0)) (cfin (5 * x ^ 4 * c) (- (5 * x ^ 4 * s))))
    (c_sub (F:=X) (c_mul (F:=X) (c_scale (F:=X) (nofZ 2) (cfin (5 * x ^ 4 * c) (- (5 * x ^ 4 * s)))) (cfin (5 * x ^ 4 * c) (- (5 * x ^ 4 * s)))) (c_mul (F:=X) (cfin (x ^ 5 - 1) 0) (cfin (20 * x ^ 3 * (c * c - s * s)) (- (20 * x ^ 3 * (2 * c * s))))))) =
    cfin (c * next x) (s * next x)).
  { set (D := 10 * x ^ 3 * (3 * x ^ 5 + 2)). assert (DP : 0 < D) by (unfold D; apply Rmult_lt_0_compat; lra).
    unfold c_sub, c_div, c_mul, c_scale, cfin. cbn [re im]. xred.
    match goal with |- context [xdiv (Fin ?a) (Fin (?b * ?b + ?e * ?e))] => replace b with (D * (c * c - s * s)) by (unfold D; ring); replace e with (- (D * (2 * c * s))) by (unfold D; ring) end.
    replace (D * (c * c - s * s) * (D * (c * c - s * s)) + - (D * (2 * c * s)) * - (D * (2 * c * s))) with (D * D) by (transitivity (D * D * ((c * c + s * s) * (c * c + s * s))); [rewrite one; ring|ring]).
    rewrite !xdiv_fin by (apply Rgt_not_eq; nra). cbn [xsub].
    set (K := 10 * (x ^ 5 - 1) * x ^ 4).
    assert (N : next x = x - K / D) by (unfold next, K, D; field; repeat split; lra).
    rewrite N. f_equal; f_equal.
    - transitivity (c * x - K * c * D * ((c * c + s * s)) / (D * D)); [f_equal; f_equal; unfold K; ring|rewrite one; field; lra].
    - transitivity (s * x - K * s * D * ((c * c + s * s)) / (D * D)); [f_equal; f_equal; unfold K; ring|rewrite one; field; lra]. }
  rewrite A. set (st := next x) in *.
  assert (B : nleb (NumOps:=X) (c_abs (F:=X) (cfin (x ^ 5 - 1) 0)) (ndiv (NumOps:=X) (nmul (NumOps:=X) (neps (NumOps:=X)) (c_abs (F:=X) (c_mul (F:=X) (cfin (c * st) (s * st)) (cfin (5 * x ^ 4 * c) (- (5 * x ^ 4 * s)))))) (nofZ 2)) =
    Rleb (Rabs (x ^ 5 - 1)) (eps * (st * (5 * x ^ 4)) / 2)).
  { unfold c_abs, c_mul, cfin. cbn [re im]. xred.
    replace (c * st * (5 * x ^ 4 * c) - s * st * - (5 * x ^ 4 * s)) with (st * (5 * x ^ 4)) by (transitivity ((c * c + s * s) * (st * (5 * x ^ 4))); [rewrite one; ring|ring]).
    replace (c * st * - (5 * x ^ 4 * s) + s * st * (5 * x ^ 4 * c)) with 0 by ring.
    replace (st * (5 * x ^ 4) * (st * (5 * x ^ 4)) + 0 * 0) with ((st * (5 * x ^ 4)) * (st * (5 * x ^ 4))) by ring.
    replace ((x ^ 5 - 1) * (x ^ 5 - 1) + 0 * 0) with ((x ^ 5 - 1) * (x ^ 5 - 1)) by ring. rewrite !xsqrt_fin by apply Rle_0_sqr. cbn [xmul]. rewrite !sq_abs.
    rewrite xdiv_fin by lra. cbn [xleb]. rewrite (Rabs_pos_eq (st * (5 * x ^ 4))) by (apply Rmult_le_pos; lra). reflexivity. }
  rewrite B. reflexivity.
Qed.
(* the error *)
Lemma next_error : forall x, 0 < x -> next x - 1 = (x - 1) * (1 - (x ^ 5 + x ^ 4 + x ^ 3 + x ^ 2 + x) / (3 * x ^ 5 + 2)).
Proof. intros x H. unfold next. pose proof (pow_lt x 5 H). field. lra. Qed.
Lemma next_above : forall x, 1 <= x -> 1 <= next x /\ next x - 1 <= 2 / 3 * (x - 1).
Proof.
  intros x H. assert (H0 : 0 < x) by lra. pose proof (next_error x H0) as E. pose proof (pow_lt x 5 H0) as P5.
  set (s5 := x ^ 5 + x ^ 4 + x ^ 3 + x ^ 2 + x) in *. set (Q := 3 * x ^ 5 + 2) in *.
  assert (A : 0 <= 1 - s5 / Q).
  { assert (s5 / Q <= 1); [|lra]. apply Rmult_le_reg_r with Q; [unfold Q; lra|]. unfold Rdiv. rewrite Rmult_assoc, Rinv_l by (unfold Q; lra).
    assert (I : Q - s5 = (x - 1) * (x - 1) * (2 * x ^ 3 + 3 * x ^ 2 + 3 * x + 2)) by (unfold Q, s5; ring).
    assert (0 <= (x - 1) * (x - 1) * (2 * x ^ 3 + 3 * x ^ 2 + 3 * x + 2)).
    { apply Rmult_le_pos; [apply Rle_0_sqr|]. pose proof (pow_lt x 3 H0). pose proof (pow_lt x 2 H0). lra. }
    lra. }
  assert (B : 1 - s5 / Q <= 2 / 3).
  { assert (1 / 3 <= s5 / Q); [|lra]. apply Rmult_le_reg_r with Q; [unfold Q; lra|]. unfold Rdiv. rewrite (Rmult_assoc s5), Rinv_l by (unfold Q; lra).
    assert (1 <= x ^ 4) by (apply pow_R1_Rle; exact H). assert (1 <= x ^ 3) by (apply pow_R1_Rle; exact H). assert (1 <= x ^ 2) by (apply pow_R1_Rle; exact H). unfold Q, s5. lra. }
  split; [assert (0 <= (x - 1) * (1 - s5 / Q)) by (apply Rmult_le_pos; lra); lra|]. rewrite E, Rmult_comm. apply Rmult_le_compat_r; lra.
Qed.
Lemma next_below : forall x, 0 < x <= 1 -> x <= next x <= 1 /\ 1 - next x <= (1 - x / 5) * (1 - x).
Proof.
  intros x [H0 H1]. pose proof (next_error x H0) as E. pose proof (pow_lt x 5 H0) as P5.
  assert (Q1 : x ^ 5 <= 1) by (replace 1 with (1 ^ 5) by ring; apply pow_incr; lra).
  pose proof (pow_lt x 4 H0). pose proof (pow_lt x 3 H0). pose proof (pow_lt x 2 H0).
  set (s5 := x ^ 5 + x ^ 4 + x ^ 3 + x ^ 2 + x) in *. set (Q := 3 * x ^ 5 + 2) in *.
  assert (A : 0 <= 1 - s5 / Q).
  { assert (s5 / Q <= 1); [|lra]. apply Rmult_le_reg_r with Q; [unfold Q; lra|]. unfold Rdiv. rewrite Rmult_assoc, Rinv_l by (unfold Q; lra).
    assert (I : Q - s5 = (x - 1) * (x - 1) * (2 * x ^ 3 + 3 * x ^ 2 + 3 * x + 2)) by (unfold Q, s5; ring).
    assert (0 <= (x - 1) * (x - 1) * (2 * x ^ 3 + 3 * x ^ 2 + 3 * x + 2)) by (apply Rmult_le_pos; [apply Rle_0_sqr|lra]).
    lra. }
  assert (B : x / 5 <= s5 / Q).
  { apply Rmult_le_reg_r with Q; [unfold Q; lra|]. unfold Rdiv. rewrite (Rmult_assoc s5), Rinv_l by (unfold Q; lra).
    assert (x * / 5 * Q <= x * / 5 * 5) by (apply Rmult_le_compat_l; unfold Q; lra). unfold s5. lra. }
  assert (C : 0 <= (1 - x) * (1 - s5 / Q)) by (apply Rmult_le_pos; lra).
  assert (D : (1 - x) * (1 - s5 / Q) <= (1 - x) * (1 - x / 5)) by (apply Rmult_le_compat_l; lra).
  assert (G : (1 - x) * (1 - x / 5) <= (1 - x) * 1) by (apply Rmult_le_compat_l; lra).
  split; [split|]; lra.
Qed.
Definition rate (m : R) : R := Rmax (2 / 3) (1 - m / 5).
Lemma next_contracts : forall m x, 0 < m <= 1 -> m <= x -> m <= next x /\ Rabs (next x - 1) <= rate m * Rabs (x - 1).
Proof.
  intros m x M H. pose proof (Rmax_l (2 / 3) (1 - m / 5)). pose proof (Rmax_r (2 / 3) (1 - m / 5)). fold (rate m) in *.
  destruct (Rle_or_lt 1 x) as [G|G].
  - destruct (next_above x G) as (A & B). split; [lra|]. rewrite !Rabs_pos_eq by lra. apply Rle_trans with (1 := B). apply Rmult_le_compat_r; lra.
  - destruct (next_below x ltac:(lra)) as (A & B). split; [lra|]. rewrite (Rabs_minus_sym (next x)), (Rabs_minus_sym x), !Rabs_pos_eq by lra.
    apply Rle_trans with (1 := B). apply Rmult_le_compat_r; lra.
Qed.
Lemma stops : forall m x, 0 < m <= 1 -> m <= x -> Rabs (x - 1) <= eps * m ^ 5 / 2 -> Rabs (x ^ 5 - 1) <= eps * (next x * (5 * x ^ 4)) / 2.
Proof.
  intros m x M H S. pose proof (l_eps_pos L) as Ep. assert (M5 : m ^ 5 <= 1) by (replace 1 with (1 ^ 5) by ring; apply pow_incr; lra). assert (Mp : 0 < m ^ 5) by (apply pow_lt; lra).
  replace (x ^ 5 - 1) with ((x - 1) * (x ^ 4 + x ^ 3 + x ^ 2 + x + 1)) by ring. assert (X0 : 0 < x) by lra.
  pose proof (pow_lt x 4 X0) as P4. pose proof (pow_lt x 3 X0). pose proof (pow_lt x 2 X0).
  rewrite Rabs_mult, (Rabs_pos_eq (x ^ 4 + x ^ 3 + x ^ 2 + x + 1)) by lra. pose proof (Rabs_pos (x - 1)) as A0.
  destruct (Rle_or_lt 1 x) as [G|G].
  - destruct (next_above x G) as (A & _).
    assert (x ^ 3 <= x ^ 4) by (apply Rle_pow; [lra|lia]). assert (x ^ 2 <= x ^ 4) by (apply Rle_pow; [lra|lia]). assert (x ^ 1 <= x ^ 4) by (apply Rle_pow; [lra|lia]). assert (x ^ 0 <= x ^ 4) by (apply Rle_pow; [lra|lia]).
    cbn [pow] in *. rewrite Rmult_1_r in *.
    apply Rle_trans with (eps * m ^ 5 / 2 * (5 * x ^ 4)); [apply Rmult_le_compat; cbn [pow]; lra|].
    assert (eps * m ^ 5 <= eps * next x) by (apply Rmult_le_compat_l; lra).
    assert (eps * m ^ 5 * (5 * x ^ 4) <= eps * next x * (5 * x ^ 4)) by (apply Rmult_le_compat_r; cbn [pow]; lra). cbn [pow] in *. lra.
  - destruct (next_below x ltac:(lra)) as (A & _). assert (I : forall n, x ^ n <= 1) by (intros n; replace 1 with (1 ^ n) by apply pow1; apply pow_incr; lra).
    pose proof (I 4%nat). pose proof (I 3%nat). pose proof (I 2%nat).
    apply Rle_trans with (eps * m ^ 5 / 2 * 5); [apply Rmult_le_compat; lra|].
    assert (m ^ 4 <= x ^ 4) by (apply pow_incr; lra). assert (0 < m ^ 4) by (apply pow_lt; lra).
    assert (m * m ^ 4 <= next x * x ^ 4) by (apply Rmult_le_compat; lra). replace (m ^ 5) with (m * m ^ 4) by ring.
    assert (eps * (m * m ^ 4) <= eps * (next x * x ^ 4)) by (apply Rmult_le_compat_l; lra). lra.
Qed.
Lemma stopped : forall x, 0 < x -> Rabs (x ^ 5 - 1) <= eps * (next x * (5 * x ^ 4)) / 2 -> Rabs (next x - 1) <= 5 / 2 * eps * next x.
Proof.
  intros x H0 S. replace (x ^ 5 - 1) with ((x - 1) * (x ^ 4 + x ^ 3 + x ^ 2 + x + 1)) in S by ring. pose proof (l_eps_pos L) as Ep.
  pose proof (pow_lt x 4 H0) as P4. pose proof (pow_lt x 3 H0). pose proof (pow_lt x 2 H0). pose proof (next_pos x H0) as NP.
  rewrite Rabs_mult, (Rabs_pos_eq (x ^ 4 + x ^ 3 + x ^ 2 + x + 1)) in S by lra. pose proof (Rabs_pos (x - 1)) as A0.
  assert (EN : 0 < eps * next x) by (apply Rmult_lt_0_compat; lra).
  destruct (Rle_or_lt 1 x) as [G|G].
  - destruct (next_above x G) as (A & B). rewrite (Rabs_pos_eq (x - 1)) in * by lra. rewrite Rabs_pos_eq by lra.
    assert ((x - 1) * x ^ 4 <= 5 / 2 * (eps * next x) * x ^ 4).
    { assert ((x - 1) * x ^ 4 <= (x - 1) * (x ^ 4 + x ^ 3 + x ^ 2 + x + 1)) by (apply Rmult_le_compat_l; lra). lra. }
    apply Rmult_le_reg_r in H2; [lra|exact P4].
  - destruct (next_below x ltac:(lra)) as (A & B). rewrite (Rabs_minus_sym x), (Rabs_pos_eq (1 - x)) in * by lra. rewrite Rabs_minus_sym, Rabs_pos_eq by lra.
    assert (I4 : x ^ 4 <= 1) by (replace 1 with (1 ^ 4) by ring; apply pow_incr; lra).
    assert ((1 - x) * 1 <= (1 - x) * (x ^ 4 + x ^ 3 + x ^ 2 + x + 1)) by (apply Rmult_le_compat_l; lra).
    assert (eps * next x * x ^ 4 <= eps * next x * 1) by (apply Rmult_le_compat_l; lra). lra.
Qed.
Lemma halley_runs : forall m n x, 0 < m <= 1 -> m <= x -> rate m ^ n * Rabs (x - 1) <= eps * m ^ 5 / 2 ->
  exists r, complex_halley (F:=X) (S n) (fifth_roots_halley (F:=X) cpow) (cfin (c * x) (s * x)) = Ok (cfin (c * r) (s * r)) /\ 0 < r /\ Rabs (r - 1) <= 5 / 2 * eps * r.
Proof.
  intros m n. induction n as [|n IH]; intros x M H S; rewrite halley_next by lra.
  - cbn [pow] in S. rewrite Rmult_1_l in S. apply (stops m x M H) in S. rewrite (proj2 (Rleb_iff _ _)) by exact S. exists (next x).
    split; [reflexivity|]. split; [apply next_pos; lra|]. apply stopped; [lra|exact S].
  - destruct (Rleb (Rabs (x ^ 5 - 1)) (eps * (next x * (5 * x ^ 4)) / 2)) eqn:Q.
    + apply Rleb_iff in Q. exists (next x). split; [reflexivity|]. split; [apply next_pos; lra|]. apply stopped; [lra|exact Q].
    + destruct (next_contracts m x M H) as (A & B). apply IH; auto. apply Rle_trans with (2 := S). cbn [pow].
      assert (0 <= rate m ^ n) by (apply pow_le; unfold rate; apply Rle_trans with (2 / 3); [lra|apply Rmax_l]).
      apply Rle_trans with (rate m ^ n * (rate m * Rabs (x - 1))); [apply Rmult_le_compat_l; assumption|]. apply Req_le. ring.
Qed.
Lemma halley_ray : forall x, 0 < x ->
  exists fuel r, complex_halley (F:=X) fuel (fifth_roots_halley (F:=X) cpow) (cfin (c * x) (s * x)) = Ok (cfin (c * r) (s * r)) /\ 0 < r /\ Rabs (r - 1) <= 5 / 2 * eps * r.
Proof.
  intros x H. set (m := Rmin 1 x). assert (M : 0 < m <= 1) by (unfold m; split; [apply Rmin_glb_lt; lra|apply Rmin_l]). assert (Hm : m <= x) by apply Rmin_r.
  assert (Rt : 0 <= rate m < 1) by (unfold rate; split; [apply Rle_trans with (2 / 3); [lra|apply Rmax_l]|apply Rmax_lub_lt; lra]).
  pose proof (l_eps_pos L) as Ep. assert (Mp : 0 < m ^ 5) by (apply pow_lt; lra). assert (T : 0 < eps * m ^ 5 / 2) by (assert (0 < eps * m ^ 5) by (apply Rmult_lt_0_compat; lra); lra).
  assert (D : 0 < Rabs (x - 1) + 1) by (pose proof (Rabs_pos (x - 1)); lra).
  destruct (pow_lt_1_zero (rate m) ltac:(rewrite Rabs_pos_eq by lra; lra) (eps * m ^ 5 / 2 / (Rabs (x - 1) + 1)) ltac:(apply Rdiv_lt_0_compat; lra)) as (n & Hn).
  specialize (Hn n (le_n n)). rewrite Rabs_pos_eq in Hn by (apply pow_le; lra).
  destruct (halley_runs m n x M Hm) as (r & E & Q); [|exists (Datatypes.S n), r; auto].
  assert (P0 : 0 <= rate m ^ n) by (apply pow_le; lra).
  apply Rle_trans with (rate m ^ n * (Rabs (x - 1) + 1)); [apply Rmult_le_compat_l; lra|].
  apply Rlt_le. apply Rmult_lt_compat_r with (r := Rabs (x - 1) + 1) in Hn; [|exact D]. unfold Rdiv in Hn at 1. rewrite Rmult_assoc, Rinv_l in Hn by lra. lra.
Qed.
End Ray.
(* the five rays through the roots *)
Lemma halley_rays : forall k x, (0 <= k < 5)%Z -> 0 < x -> exists fuel r,
  complex_halley (F:=X) fuel (fifth_roots_halley (F:=X) cpow) (cfin (cos (2 * PI * IZR k / 5) * x) (sin (2 * PI * IZR k / 5) * x)) =
  Ok (cfin (cos (2 * PI * IZR k / 5) * r) (sin (2 * PI * IZR k / 5) * r)) /\ 0 < r /\ Rabs (r - 1) <= 5 / 2 * eps * r.
Proof.
  intros k x K H. set (t := 2 * PI * IZR k / 5).
  assert (Z : fst (fifth_roots (F:=X) cpow (cfin (cos t) (sin t))) = cfin 0 0) by (apply fifth_zeros; exists k; auto).
  rewrite fifth_fin in Z. cbn [fst] in Z. unfold cfin in Z. injection Z as Z1 Z2. apply halley_ray; auto.
  pose proof (sin2_cos2 t) as SC. unfold Rsqr in SC. lra.
Qed.
(* at the origin the quotient is 0/0 *)
Lemma halley_nan : forall fuel, (forall z, cpow (Cpx NaN NaN) z = Cpx NaN NaN) -> complex_halley (F:=X) fuel (fifth_roots_halley (F:=X) cpow) (Cpx NaN NaN) = OutOfFuel.
Proof.
  intros fuel N. induction fuel as [|fuel IH]; [reflexivity|]. cbn [complex_halley]. unfold fifth_roots_halley. rewrite N. unfold c_mul, c_sub_real, c_scale, c_sub, c_div, c_abs. cbn [re im]. xred.
  unfold xsqrt. cbn [xmul xdiv]. exact IH.
Qed.
Lemma halley_origin : forall fuel, (forall z, cpow (Cpx NaN NaN) z = Cpx NaN NaN) -> complex_halley (F:=X) fuel (fifth_roots_halley (F:=X) cpow) (cfin 0 0) = OutOfFuel.
Proof.
  intros [|fuel] N; [reflexivity|]. cbn [complex_halley]. rewrite halley_fin.
  assert (E1 : f1 0 0 = -1) by (unfold f1; ring). assert (E2 : f2 0 0 = 0) by (unfold f2; ring).
  assert (E3 : 5 * re4 0 0 = 0) by (unfold re4; ring). assert (E4 : 5 * im4 0 0 = 0) by (unfold im4; ring).
  assert (E5 : 20 * re3 0 0 = 0) by (unfold re3; ring). assert (E6 : 20 * im3 0 0 = 0) by (unfold im3; ring). rewrite E1, E2, E3, E4, E5, E6.
  assert (Z : c_sub (F:=X) (cfin 0 0) (c_div (F:=X) (c_mul (F:=X) (c_scale (F:=X) (nofZ 2) (cfin (-1) 0)) (cfin 0 0))
    (c_sub (F:=X) (c_mul (F:=X) (c_scale (F:=X) (nofZ 2) (cfin 0 0)) (cfin 0 0)) (c_mul (F:=X) (cfin (-1) 0) (cfin 0 0)))) = Cpx NaN NaN).
  { unfold c_sub, c_div, c_mul, c_scale, cfin. cbn [re im]. xred.
    repeat match goal with |- context [xdiv (Fin ?a) (Fin ?b)] => replace a with 0 by ring; replace b with 0 by ring; rewrite xdiv_zero_zero end. reflexivity. }
  rewrite Z. unfold c_abs at 2. unfold c_mul, cfin. cbn [re im]. xred. unfold xsqrt. cbn [xmul]. unfold xdiv.
  replace (xleb _ _) with false by (destruct (c_abs _); reflexivity). apply halley_nan. exact N.
Qed.
End Halley.
