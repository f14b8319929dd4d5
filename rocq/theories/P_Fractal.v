(** newton_fractal.cpp in exact arithmetic. *)
From Coq Require Import Reals Lra Psatz ZArith Lia List Bool.
From Flocq Require Import Core BinarySingleNaN.
From Verif Require Import Num XR FL M_Image M_Fractal Spec_Image P_Render.
Import ListNotations.
Local Open Scope R_scope.

Section Fractal.
Context {L : limits}.
Notation X := (XR L).
Notation eps := (l_eps L).

(** *** complex_newton along a half line through the origin *)
Section HalfLine.
Variables (c s root : R) (f f' : R -> R).
Hypothesis cs : c * c + s * s = 1.
Hypothesis root_pos : 0 < root.
Hypothesis Hg : forall x, g (F:=X) (cfin (c * x) (s * x)) = (cfin (f x) 0, cfin (c * f' x) (- s * f' x)).
Hypothesis f'_pos : forall x, root <= x -> 0 < f' x.
(* convexity, and the degree *)
Hypothesis tangent : forall x, 0 < x -> f x <= f' x * (x - root).
Hypothesis below : forall x, root <= x -> f' x * (x - root) <= 8 * f x.
Definition newt (x : R) : R := x - f x / f' x.

Lemma step_ge : forall x, 0 < x -> 0 < f' x -> root <= newt x.
Proof.
  intros x H P. unfold newt. pose proof (tangent x H) as T.
  assert (f x / f' x <= x - root) by (apply Rmult_le_reg_r with (f' x); auto; unfold Rdiv; rewrite Rmult_assoc, Rinv_l by lra; lra). lra.
Qed.
Lemma step_contracts : forall x, root <= x -> newt x - root <= 7 / 8 * (x - root).
Proof.
  intros x H. unfold newt. pose proof (f'_pos x H) as P. pose proof (below x H) as T.
  assert ((x - root) / 8 <= f x / f' x) by (apply Rmult_le_reg_r with (f' x); auto; unfold Rdiv; rewrite !Rmult_assoc, Rinv_l by lra; lra). lra.
Qed.
Lemma sq_abs : forall a, sqrt (a * a) = Rabs a.
Proof. intros a. apply sqrt_Rsqr_abs. Qed.
Lemma newton_step : forall x k n, 0 < x -> 0 < f' x -> complex_newton (F:=X) (Fin k) (S n) (g (F:=X)) (cfin (c * x) (s * x)) =
  if Rleb (Rabs (f x)) (k * eps * (newt x * f' x)) then Ok (cfin (c * newt x) (s * newt x))
  else complex_newton (F:=X) (Fin k) n (g (F:=X)) (cfin (c * newt x) (s * newt x)).
Proof.
  intros x k n H P. cbn [complex_newton]. rewrite Hg. pose proof (step_ge x H P) as G.
  assert (A : c_sub (F:=X) (cfin (c * x) (s * x)) (c_div (F:=X) (cfin (f x) 0) (cfin (c * f' x) (- s * f' x))) = cfin (c * newt x) (s * newt x)).
  { unfold c_sub, c_div, cfin. cbn [re im]. xred.
    assert (D : c * f' x * (c * f' x) + - s * f' x * (- s * f' x) = f' x * f' x) by (transitivity ((c * c + s * s) * (f' x * f' x)); [ring|rewrite cs; ring]). rewrite D.
    rewrite !xdiv_fin by nra. cbn [xsub]. unfold newt. f_equal; f_equal; field; lra. }
  rewrite A. set (st := newt x) in *.
  assert (B : nleb (NumOps:=X) (c_abs (F:=X) (cfin (f x) 0)) (nmul (NumOps:=X) (nmul (NumOps:=X) (Fin k) (neps (NumOps:=X))) (c_abs (F:=X) (c_mul (F:=X) (cfin (c * st) (s * st)) (cfin (c * f' x) (- s * f' x))))) =
    Rleb (Rabs (f x)) (k * eps * (st * f' x))).
  { unfold c_abs, c_mul, cfin. cbn [re im]. xred.
    replace (c * st * (c * f' x) - s * st * (- s * f' x)) with (st * f' x) by (transitivity ((c * c + s * s) * (st * f' x)); [rewrite cs; ring|ring]).
    replace (c * st * (- s * f' x) + s * st * (c * f' x)) with 0 by ring. replace (st * f' x * (st * f' x) + 0 * 0) with ((st * f' x) * (st * f' x)) by ring.
    replace (f x * f x + 0 * 0) with (f x * f x) by ring. rewrite !xsqrt_fin by apply Rle_0_sqr. cbn [xmul xleb]. rewrite !sq_abs.
    rewrite (Rabs_pos_eq (st * f' x)) by (apply Rmult_le_pos; lra). reflexivity. }
  rewrite B. reflexivity.
Qed.
(* what stopping says about the result *)
Lemma stop_close : forall x k, 0 < x -> 0 < f' x -> 0 < k -> Rabs (f x) <= k * eps * (newt x * f' x) -> root <= newt x /\ newt x - root <= 7 * k * eps * newt x.
Proof.
  intros x k H P K S. pose proof (step_ge x H P) as G. split; [exact G|]. pose proof (l_eps_pos L) as E.
  assert (Q : Rabs (f x / f' x) <= k * eps * newt x).
  { unfold Rdiv. rewrite Rabs_mult, (Rabs_pos_eq (/ f' x)) by (apply Rlt_le, Rinv_0_lt_compat; exact P). apply Rmult_le_reg_r with (f' x); auto. rewrite Rmult_assoc, Rinv_l by lra. lra. }
  apply Rabs_le_inv in Q. assert (KE : 0 < k * eps) by (apply Rmult_lt_0_compat; assumption). assert (0 < k * eps * newt x) by (apply Rmult_lt_0_compat; lra).
  destruct (Rle_lt_dec root x) as [X1|X1].
  - pose proof (step_contracts x X1). unfold newt in *. set (d := f x / f' x) in *. lra.
  - unfold newt in *. set (d := f x / f' x) in *. lra.
Qed.
Lemma newton_from_above : forall k n x, 0 < k -> root <= x -> (7 / 8) ^ n * (x - root) <= k * eps * root ->
  exists r, complex_newton (F:=X) (Fin k) (S n) (g (F:=X)) (cfin (c * x) (s * x)) = Ok (cfin (c * r) (s * r)) /\ root <= r /\ r - root <= 7 * k * eps * r.
Proof.
  intros k n. induction n as [|n IH]; intros x K H St.
  - rewrite newton_step by (try apply f'_pos; lra).
    assert (Sp : Rabs (f x) <= k * eps * (newt x * f' x)).
    { pose proof (f'_pos x H) as P. pose proof (tangent x ltac:(lra)) as T. pose proof (below x H) as T2. pose proof (step_ge x ltac:(lra) P) as G.
      assert (0 <= f' x * (x - root)) by (apply Rmult_le_pos; lra). rewrite Rabs_pos_eq by lra. cbn [pow] in St. rewrite Rmult_1_l in St. pose proof (l_eps_pos L).
      assert (0 < k * eps) by (apply Rmult_lt_0_compat; assumption). apply Rle_trans with (f' x * (k * eps * root)); [eapply Rle_trans; [exact T|]; apply Rmult_le_compat_l; lra|].
      apply Rle_trans with (k * eps * (root * f' x)); [lra|]. apply Rmult_le_compat_l; [lra|]. apply Rmult_le_compat_r; lra. }
    rewrite (proj2 (Rleb_iff _ _) Sp). exists (newt x). split; [reflexivity|]. apply stop_close with (x := x); auto. lra.
  - rewrite newton_step by (try apply f'_pos; lra). destruct (Rleb_spec (Rabs (f x)) (k * eps * (newt x * f' x))) as [Sp|Sp].
    + exists (newt x). split; [reflexivity|]. apply stop_close with (x := x); auto. lra.
    + apply IH; auto; [apply step_ge; [lra|apply f'_pos; lra]|]. eapply Rle_trans; [|exact St]. pose proof (step_contracts x H).
      cbn [pow]. assert (0 <= (7 / 8) ^ n) by (apply pow_le; lra). apply Rle_trans with ((7 / 8) ^ n * (7 / 8 * (x - root))); [apply Rmult_le_compat_l; assumption|]. apply Req_le. ring.
Qed.
Lemma newton_half_line : forall k x, 0 < k -> 0 < x -> 0 < f' x ->
  exists fuel r, complex_newton (F:=X) (Fin k) fuel (g (F:=X)) (cfin (c * x) (s * x)) = Ok (cfin (c * r) (s * r)) /\ root <= r /\ r - root <= 7 * k * eps * r.
Proof.
  intros k x K H P. pose proof (step_ge x H P) as G. pose proof (l_eps_pos L) as E.
  assert (KE : 0 < k * eps) by (apply Rmult_lt_0_compat; assumption). assert (KR : 0 < k * eps * root) by (apply Rmult_lt_0_compat; assumption).
  destruct (pow_lt_1_zero (7 / 8)) with (y := k * eps * root / newt x) as (N & HN).
  { rewrite Rabs_pos_eq; lra. } { apply Rmult_lt_0_compat; [exact KR|apply Rinv_0_lt_compat; lra]. }
  specialize (HN N (le_n _)). rewrite Rabs_pos_eq in HN by (apply pow_le; lra).
  assert (Hs : (7 / 8) ^ N * (newt x - root) <= k * eps * root).
  { apply Rle_trans with ((7 / 8) ^ N * newt x).
    - apply Rmult_le_compat_l; [apply pow_le; lra|lra].
    - apply Rmult_lt_compat_r with (r := newt x) in HN; [|lra]. unfold Rdiv in HN at 2. rewrite Rmult_assoc, Rinv_l in HN by lra. lra. }
  destruct (newton_from_above k N (newt x) K G Hs) as (r & Er & Hr).
  exists (S (S N)). rewrite newton_step by auto. destruct (Rleb_spec (Rabs (f x)) (k * eps * (newt x * f' x))) as [St|St].
  - exists (newt x). split; [reflexivity|]. apply stop_close with (x := x); auto.
  - exists r. split; auto.
Qed.
End HalfLine.

(* the axes: g(x) = x^8 + 15x^4 - 16 *)
Definition p8 (x : R) : R := x ^ 8 + 15 * x ^ 4 - 16.
Definition p8' (x : R) : R := 8 * x ^ 7 + 60 * x ^ 3.
Lemma p8'_pos : forall x, 0 < x -> 0 < p8' x.
Proof. intros x H. unfold p8'. assert (0 < x ^ 7) by (apply pow_lt; lra). assert (0 < x ^ 3) by (apply pow_lt; lra). lra. Qed.
Lemma p8_tangent : forall x, 0 < x -> p8 x <= p8' x * (x - 1).
Proof.
  intros x H. unfold p8, p8'.
  assert (E : (8 * x ^ 7 + 60 * x ^ 3) * (x - 1) - (x ^ 8 + 15 * x ^ 4 - 16) =
    (x - 1) * (x - 1) * (7 * x ^ 6 + 6 * x ^ 5 + 5 * x ^ 4 + 4 * x ^ 3 + 48 * x ^ 2 + 32 * x + 16)) by ring.
  assert (0 < x ^ 6 /\ 0 < x ^ 5 /\ 0 < x ^ 4 /\ 0 < x ^ 3 /\ 0 < x ^ 2) by (repeat split; apply pow_lt; lra).
  assert (0 <= (x - 1) * (x - 1)) by apply Rle_0_sqr.
  assert (0 <= (x - 1) * (x - 1) * (7 * x ^ 6 + 6 * x ^ 5 + 5 * x ^ 4 + 4 * x ^ 3 + 48 * x ^ 2 + 32 * x + 16)) by (apply Rmult_le_pos; lra). lra.
Qed.
Lemma p8_below : forall x, 1 <= x -> p8' x * (x - 1) <= 8 * p8 x.
Proof.
  intros x H. unfold p8, p8'.
  assert (1 <= x ^ 7 /\ 1 <= x ^ 4 /\ 1 <= x ^ 3) by (repeat split; apply pow_R1_Rle; lra).
  assert (E : 8 * (x ^ 8 + 15 * x ^ 4 - 16) - (8 * x ^ 7 + 60 * x ^ 3) * (x - 1) = 8 * x ^ 7 + 60 * x ^ 4 + 60 * x ^ 3 - 128) by ring. lra.
Qed.
Lemma g_axis : forall c s x, unit4 c s -> g (F:=X) (cfin (c * x) (s * x)) = (cfin (p8 x) 0, cfin (c * p8' x) (- s * p8' x)).
Proof.
  intros c s x U. unfold g, c_mul, c_sub_real, c_add_real, c_scale, cfin. cbn [re im]. xred.
  f_equal; f_equal; f_equal; unfold p8, p8'; destruct U; ring.
Qed.
Lemma newton_axes : forall c s k x, unit4 c s -> 0 < k -> 0 < x ->
  exists fuel r, complex_newton (F:=X) (Fin k) fuel (g (F:=X)) (cfin (c * x) (s * x)) = Ok (cfin (c * r) (s * r)) /\ 1 <= r /\ r - 1 <= 7 * k * eps * r.
Proof.
  intros c s k x U K H. apply (newton_half_line c s 1 p8 p8'); auto; try lra.
  - destruct U; ring.
  - intros y. apply g_axis. exact U.
  - intros y Hy. apply p8'_pos. lra.
  - exact p8_tangent.
  - exact p8_below.
  - apply p8'_pos. exact H.
Qed.

(* the diagonals: g(x e^(i pi/4)) = x^8 - 15x^4 - 16 *)
Definition q8 (x : R) : R := x ^ 8 - 15 * x ^ 4 - 16.
Definition q8' (x : R) : R := 8 * x ^ 7 - 60 * x ^ 3.
Lemma q8'_pos : forall x, 0 < x -> 15 / 2 < x ^ 4 -> 0 < q8' x.
Proof.
  intros x H Q. unfold q8'. assert (0 < x ^ 3) by (apply pow_lt; lra). replace (8 * x ^ 7 - 60 * x ^ 3) with (8 * x ^ 3 * (x ^ 4 - 15 / 2)) by field.
  apply Rmult_lt_0_compat; lra.
Qed.
Lemma q8_tangent : forall x, 0 < x -> q8 x <= q8' x * (x - 2).
Proof.
  intros x H. unfold q8, q8'.
  assert (E : (8 * x ^ 7 - 60 * x ^ 3) * (x - 2) - (x ^ 8 - 15 * x ^ 4 - 16) =
    (x - 2) * (x - 2) * (7 * x ^ 6 + 12 * x ^ 5 + 20 * x ^ 4 + 32 * x ^ 3 + 3 * x ^ 2 + 4 * x + 4)) by ring.
  assert (0 < x ^ 6 /\ 0 < x ^ 5 /\ 0 < x ^ 4 /\ 0 < x ^ 3 /\ 0 < x ^ 2) by (repeat split; apply pow_lt; lra).
  assert (0 <= (x - 2) * (x - 2)) by apply Rle_0_sqr.
  assert (0 <= (x - 2) * (x - 2) * (7 * x ^ 6 + 12 * x ^ 5 + 20 * x ^ 4 + 32 * x ^ 3 + 3 * x ^ 2 + 4 * x + 4)) by (apply Rmult_le_pos; lra). lra.
Qed.
Lemma q8_below : forall x, 2 <= x -> q8' x * (x - 2) <= 8 * q8 x.
Proof.
  intros x H. unfold q8, q8'.
  assert (E : 8 * (x ^ 8 - 15 * x ^ 4 - 16) - (8 * x ^ 7 - 60 * x ^ 3) * (x - 2) =
    (x - 2) * (16 * x ^ 6 + 32 * x ^ 5 + 64 * x ^ 4 + 68 * x ^ 3 + 16 * x ^ 2 + 32 * x + 64)) by ring.
  assert (0 < x ^ 6 /\ 0 < x ^ 5 /\ 0 < x ^ 4 /\ 0 < x ^ 3 /\ 0 < x ^ 2) by (repeat split; apply pow_lt; lra).
  assert (0 <= (x - 2) * (16 * x ^ 6 + 32 * x ^ 5 + 64 * x ^ 4 + 68 * x ^ 3 + 16 * x ^ 2 + 32 * x + 64)) by (apply Rmult_le_pos; lra). lra.
Qed.
Lemma g_diagonal : forall c s x, c * c = / 2 -> s * s = / 2 -> g (F:=X) (cfin (c * x) (s * x)) = (cfin (q8 x) 0, cfin (c * q8' x) (- s * q8' x)).
Proof.
  intros c s x C S. unfold g, c_mul, c_sub_real, c_add_real, c_scale, cfin. cbn [re im]. xred.
  assert (A : c * x * (c * x) - s * x * (s * x) = 0) by (transitivity ((c * c - s * s) * (x * x)); [ring|rewrite C, S; ring]).
  assert (B : c * x * (s * x) + s * x * (c * x) = 2 * (c * s) * x ^ 2) by ring.
  rewrite A, B. assert (CS : (c * s) * (c * s) = / 4) by (transitivity ((c * c) * (s * s)); [ring|rewrite C, S; field]).
  assert (D : 0 * 0 - 2 * (c * s) * x ^ 2 * (2 * (c * s) * x ^ 2) = - x ^ 4) by (transitivity (- (4 * ((c * s) * (c * s)) * x ^ 4)); [ring|rewrite CS; field]).
  rewrite D. replace (0 * (2 * (c * s) * x ^ 2) + 2 * (c * s) * x ^ 2 * 0) with 0 by ring.
  assert (E1 : c * x * 0 - s * x * (2 * (c * s) * x ^ 2) = - (c * x ^ 3)) by (transitivity (- (2 * (s * s) * c * x ^ 3)); [ring|rewrite S; field]).
  assert (E2 : c * x * (2 * (c * s) * x ^ 2) + s * x * 0 = s * x ^ 3) by (transitivity (2 * (c * c) * s * x ^ 3); [ring|rewrite C; field]).
  rewrite E1, E2. f_equal; f_equal; f_equal; unfold q8, q8'; ring.
Qed.
Lemma newton_diagonals : forall c s k x, c * c = / 2 -> s * s = / 2 -> 0 < k -> 0 < x -> 15 / 2 < x ^ 4 ->
  exists fuel r, complex_newton (F:=X) (Fin k) fuel (g (F:=X)) (cfin (c * x) (s * x)) = Ok (cfin (c * r) (s * r)) /\ 2 <= r /\ r - 2 <= 7 * k * eps * r.
Proof.
  intros c s k x C S K H Q. apply (newton_half_line c s 2 q8 q8'); auto; try lra.
  - intros y. apply g_diagonal; assumption.
  - intros y Hy. apply q8'_pos; [lra|]. assert (2 ^ 4 <= y ^ 4) by (apply pow_incr; lra). lra.
  - exact q8_tangent.
  - exact q8_below.
  - apply q8'_pos; assumption.
Qed.
Lemma sqrt2_sq : sqrt 2 * sqrt 2 = 2.
Proof. apply sqrt_sqrt. lra. Qed.
Lemma roots_vanish : forall a b, In (a, b) roots -> exists dw, g (F:=X) (cfin a b) = (cfin 0 0, dw) /\ dw <> cfin 0 0.
Proof.
  intros a b H. pose proof sqrt2_sq as Q.
  assert (Ax : forall c s, unit4 c s -> exists dw, g (F:=X) (cfin c s) = (cfin 0 0, dw) /\ dw <> cfin 0 0).
  { intros c s U. pose proof (g_axis c s 1 U) as E. rewrite !Rmult_1_r in E. rewrite E. eexists. split; [replace (p8 1) with 0 by (unfold p8; ring); reflexivity|].
    unfold p8', cfin. intros D. injection D. destruct U; lra. }
  assert (Dg : forall c s, c * c = / 2 -> s * s = / 2 -> exists dw, g (F:=X) (cfin (c * 2) (s * 2)) = (cfin 0 0, dw) /\ dw <> cfin 0 0).
  { intros c s C S. rewrite (g_diagonal c s 2 C S). eexists. split; [replace (q8 2) with 0 by (unfold q8; ring); reflexivity|].
    unfold q8', cfin. intros D. injection D. intros D1 D2. assert (c = 0) by lra. subst c. lra. }
  assert (h1 : sqrt 2 / 2 * (sqrt 2 / 2) = / 2) by lra. assert (h2 : - (sqrt 2 / 2) * - (sqrt 2 / 2) = / 2) by lra.
  cbn [roots In] in H. repeat destruct H as [H|H]; try contradiction; injection H as <- <-.
  - apply Ax. constructor. - apply Ax. constructor. - apply Ax. constructor. - apply Ax. constructor.
  - destruct (Dg (sqrt 2 / 2) (sqrt 2 / 2) h1 h1) as (dw & E & D). exists dw. replace (sqrt 2 / 2 * 2) with (sqrt 2) in E by field. auto.
  - destruct (Dg (sqrt 2 / 2) (- (sqrt 2 / 2)) h1 h2) as (dw & E & D). exists dw. replace (sqrt 2 / 2 * 2) with (sqrt 2) in E by field. replace (- (sqrt 2 / 2) * 2) with (- sqrt 2) in E by field. auto.
  - destruct (Dg (- (sqrt 2 / 2)) (- (sqrt 2 / 2)) h2 h2) as (dw & E & D). exists dw. replace (- (sqrt 2 / 2) * 2) with (- sqrt 2) in E by field. auto.
  - destruct (Dg (- (sqrt 2 / 2)) (sqrt 2 / 2) h2 h1) as (dw & E & D). exists dw. replace (sqrt 2 / 2 * 2) with (sqrt 2) in E by field. replace (- (sqrt 2 / 2) * 2) with (- sqrt 2) in E by field. auto.
Qed.
(* at the origin the quotient is 0/0 *)
Lemma newton_nan : forall k fuel, complex_newton (F:=X) k fuel (g (F:=X)) (Cpx NaN NaN) = OutOfFuel.
Proof. intros k fuel. induction fuel as [|fuel IH]; [reflexivity|]. cbn [complex_newton]. unfold g, c_mul, c_sub_real, c_add_real, c_scale, c_sub, c_div, c_abs. cbn [re im]. xred. unfold xsqrt. cbn [xmul]. exact IH. Qed.
Lemma newton_origin : forall k fuel, complex_newton (F:=X) (Fin k) fuel (g (F:=X)) (cfin 0 0) = OutOfFuel.
Proof.
  intros k [|fuel]; [reflexivity|]. cbn [complex_newton].
  assert (E : g (F:=X) (cfin 0 0) = (cfin (-16) 0, cfin 0 0)).
  { unfold g, c_mul, c_sub_real, c_add_real, c_scale, cfin. cbn [re im]. xred. f_equal; f_equal; f_equal; ring. }
  rewrite E.
  assert (Z : c_sub (F:=X) (cfin 0 0) (c_div (F:=X) (cfin (-16) 0) (cfin 0 0)) = Cpx NaN NaN).
  { unfold c_sub, c_div, cfin. cbn [re im]. xred. replace (-16 * 0 + 0 * 0) with 0 by ring. replace (0 * 0 + 0 * 0) with 0 by ring. replace (0 * 0 - -16 * 0) with 0 by ring.
    rewrite xdiv_zero_zero. reflexivity. }
  rewrite Z. unfold c_abs, c_mul, cfin. cbn [re im]. xred. unfold xsqrt at 2. cbn [xmul].
  replace (xleb _ NaN) with false by (destruct (xsqrt _); reflexivity). apply newton_nan.
Qed.

(** *** plane_pixel_map *)
Lemma Rround_IZR : forall z, Rround (IZR z) = IZR z.
Proof.
  intros z. unfold Rround. destruct (Rlt_dec (IZR z) 0).
  - f_equal. apply Zceil_imp. rewrite minus_IZR. lra.
  - f_equal. apply Zfloor_imp. rewrite plus_IZR. lra.
Qed.
Lemma to_int64_IZR : forall z, (- 2 ^ 63 <= z < 2 ^ 63)%Z -> to_int64 (F:=X) (Fin (IZR z)) = Ok z.
Proof.
  intros z H. unfold to_int64, to_range. cbn [ntrunc XR xtrunc]. rewrite Ztrunc_IZR.
  rewrite (proj2 (Z.leb_le (- 2 ^ 63) z)), (proj2 (Z.leb_le z (2 ^ 63 - 1))) by lia. reflexivity.
Qed.
Notation pmap w h x y := (@Map X w h (Fin x) (Fin y)).
Lemma abs_pos : forall x, x <> 0 -> 0 < Rabs x.
Proof. exact Rabs_pos_lt. Qed.
Lemma to_complex_exact : forall w h x y i j, (2 <= w)%Z -> (2 <= h)%Z ->
  to_complex (F:=X) (pmap w h x y) i j = cfin (x + 2 * Rabs x * IZR i / (IZR w - 1)) (y + 2 * Rabs y * IZR j / (IZR h - 1)).
Proof.
  intros w h x y i j Wd Ht. unfold to_complex. cbn [pm_xmin pm_ymin pm_width pm_height]. xred. apply IZR_le in Wd, Ht. rewrite !minus_IZR, !xdiv_fin by lra. reflexivity.
Qed.
Lemma to_pixel_exact : forall w h x y a b, x <> 0 -> y <> 0 ->
  to_pixel (F:=X) (pmap w h x y) (cfin a b) =
  obind (to_int64 (F:=X) (Fin (Rround ((IZR w - 1) * (a - x) / (2 * Rabs x))))) (fun i => obind (to_int64 (F:=X) (Fin (Rround ((IZR h - 1) * (b - y) / (2 * Rabs y))))) (fun j => Ok (i, j))).
Proof.
  intros w h x y a b Hx Hy. unfold to_pixel. cbn [pm_xmin pm_ymin pm_width pm_height re im cfin]. xred. apply abs_pos in Hx, Hy. rewrite !minus_IZR, !xdiv_fin by lra. reflexivity.
Qed.
Lemma pixel_roundtrip : forall w h x y i j, (2 <= w < 2 ^ 63)%Z -> (2 <= h < 2 ^ 63)%Z -> x <> 0 -> y <> 0 -> (0 <= i < w)%Z -> (0 <= j < h)%Z ->
  to_pixel (F:=X) (pmap w h x y) (to_complex (F:=X) (pmap w h x y) i j) = Ok (i, j).
Proof.
  intros w h x y i j Wd Ht Hx Hy I J. rewrite to_complex_exact by lia. rewrite to_pixel_exact by assumption.
  pose proof (abs_pos x Hx) as Ax. pose proof (abs_pos y Hy) as Ay.
  assert (W1 : 2 <= IZR w) by (apply IZR_le; lia). assert (H1 : 2 <= IZR h) by (apply IZR_le; lia).
  replace ((IZR w - 1) * (x + 2 * Rabs x * IZR i / (IZR w - 1) - x) / (2 * Rabs x)) with (IZR i) by (field; lra).
  replace ((IZR h - 1) * (y + 2 * Rabs y * IZR j / (IZR h - 1) - y) / (2 * Rabs y)) with (IZR j) by (field; lra).
  rewrite !Rround_IZR, !to_int64_IZR by lia. reflexivity.
Qed.
(* the corners of the image are the corners of the window *)
Lemma pixel_corners : forall w h x y, (2 <= w)%Z -> (2 <= h)%Z -> x < 0 -> y < 0 ->
  to_complex (F:=X) (pmap w h x y) 0 0 = cfin x y /\ to_complex (F:=X) (pmap w h x y) (w - 1) (h - 1) = cfin (- x) (- y).
Proof.
  intros w h x y Wd Ht Hx Hy. rewrite !to_complex_exact by assumption. rewrite !Rabs_left by assumption. apply IZR_le in Wd, Ht. rewrite !minus_IZR.
  split; f_equal; f_equal; field; lra.
Qed.
Lemma Rround_near : forall a, exists z, Rround a = IZR z /\ Rabs (IZR z - a) <= / 2.
Proof.
  intros a. unfold Rround. destruct (Rlt_dec a 0).
  - exists (Zceil (a - 1 / 2)). split; [reflexivity|]. pose proof (Zceil_ub (a - 1 / 2)). pose proof (Zceil_lb (a - 1 / 2)).
    apply Rabs_le. split; lra.
  - exists (Zfloor (a + 1 / 2)). split; [reflexivity|]. pose proof (Zfloor_lb (a + 1 / 2)). pose proof (Zfloor_ub (a + 1 / 2)). apply Rabs_le. lra.
Qed.

(* the disks around the roots, for the window [-2,2] x [-2,2] *)
Lemma sqrt2_bounds : 1.41 <= sqrt 2 <= 1.4143.
Proof.
  split.
  - rewrite <- (sqrt_square 1.41) by lra. apply sqrt_le_1_alt. lra.
  - rewrite <- (sqrt_square 1.4143) by lra. apply sqrt_le_1_alt. lra.
Qed.
Lemma disk_axis : forall n c z, (46 <= n)%Z -> Rabs c <= sqrt 2 -> Rabs (IZR z - (IZR n - 1) * (c - -2) / (2 * Rabs (-2))) <= / 2 -> (7 <= z <= n - 7)%Z.
Proof.
  intros n c z N C Z0. apply Rabs_le_inv in C, Z0. rewrite Rabs_left in Z0 by lra. replace (2 * - (-2)) with 4 in Z0 by lra. pose proof sqrt2_bounds. apply IZR_le in N.
  assert (A : (IZR n - 1) * (2 - sqrt 2) <= (IZR n - 1) * (c - -2)) by (apply Rmult_le_compat_l; lra).
  assert (B : (IZR n - 1) * (c - -2) <= (IZR n - 1) * (2 + sqrt 2)) by (apply Rmult_le_compat_l; lra).
  assert (D : 45 * 0.5857 <= (IZR n - 1) * (2 - sqrt 2)) by (apply Rmult_le_compat; lra).
  assert (E : (IZR n - 1) * (2 + sqrt 2) = 4 * (IZR n - 1) - (IZR n - 1) * (2 - sqrt 2)) by ring.
  split.
  - assert (6 < z)%Z; [|lia]. apply lt_IZR. lra.
  - assert (z < n - 6)%Z; [|lia]. apply lt_IZR. rewrite minus_IZR. lra.
Qed.
Lemma disk_in : forall r ic jc i j, In (i, j) (disk_pixels r ic jc) ->
  (ic - r <= i < ic + r)%Z /\ (jc - r <= j < jc + r)%Z /\ ((i - ic) * (i - ic) + (j - jc) * (j - jc) <= r * r)%Z.
Proof.
  intros r ic jc i j H. unfold disk_pixels in H. apply filter_In in H. destruct H as (H & D). apply in_flat_map in H. destruct H as (a & A & H).
  apply in_map_iff in H. destruct H as (b & E & B). inversion E; subst. apply in_upto in A, B. apply negb_true_iff, Z.ltb_ge in D. lia.
Qed.
Lemma disk_all : forall r ic jc i j, (ic - r <= i < ic + r)%Z -> (jc - r <= j < jc + r)%Z -> ((i - ic) * (i - ic) + (j - jc) * (j - jc) <= r * r)%Z -> In (i, j) (disk_pixels r ic jc).
Proof.
  intros r ic jc i j I J D. unfold disk_pixels. apply filter_In. split; [|apply negb_true_iff, Z.ltb_ge; lia].
  apply in_flat_map. exists (i - ic + r)%Z. split; [apply in_upto; lia|]. apply in_map_iff. exists (j - jc + r)%Z. split; [f_equal; lia|apply in_upto; lia].
Qed.
Lemma root_pixel : forall w h a b, (46 <= w < 2 ^ 63)%Z -> (46 <= h < 2 ^ 63)%Z -> Rabs a <= sqrt 2 -> Rabs b <= sqrt 2 ->
  exists ic jc, to_pixel (F:=X) (pmap w h (-2) (-2)) (cfin a b) = Ok (ic, jc) /\ (7 <= ic <= w - 7)%Z /\ (7 <= jc <= h - 7)%Z.
Proof.
  intros w h a b Wd Ht A B. rewrite to_pixel_exact by lra.
  destruct (Rround_near ((IZR w - 1) * (a - -2) / (2 * Rabs (-2)))) as (ic & Ei & Hi). destruct (Rround_near ((IZR h - 1) * (b - -2) / (2 * Rabs (-2)))) as (jc & Ej & Hj).
  rewrite Ei, Ej. apply disk_axis in Hi; [|lia|exact A]. apply disk_axis in Hj; [|lia|exact B]. rewrite !to_int64_IZR by lia. exists ic, jc. cbn [obind]. auto.
Qed.
Lemma disk_inside : forall w h a b, (46 <= w < 2 ^ 63)%Z -> (46 <= h < 2 ^ 63)%Z -> Rabs a <= sqrt 2 -> Rabs b <= sqrt 2 ->
  exists ic jc, to_pixel (F:=X) (pmap w h (-2) (-2)) (cfin a b) = Ok (ic, jc) /\
  forall i j, In (i, j) (disk_pixels 7 ic jc) -> (0 <= i < w)%Z /\ (0 <= j < h)%Z.
Proof.
  intros w h a b Wd Ht A B. destruct (root_pixel w h a b Wd Ht A B) as (ic & jc & E & I & J). exists ic, jc. split; [exact E|].
  intros i j D. apply disk_in in D. lia.
Qed.
Lemma root_size : forall a b, In (a, b) roots -> Rabs a <= sqrt 2 /\ Rabs b <= sqrt 2.
Proof.
  intros a b H. pose proof sqrt2_bounds. cbn [roots In] in H. repeat destruct H as [H|H]; try contradiction; injection H as <- <-; split; apply Rabs_le; lra.
Qed.
Lemma disks_inside : forall w h a b, (46 <= w < 2 ^ 63)%Z -> (46 <= h < 2 ^ 63)%Z -> In (a, b) roots ->
  exists ic jc, to_pixel (F:=X) (pmap w h (-2) (-2)) (cfin a b) = Ok (ic, jc) /\
  forall i j, In (i, j) (disk_pixels 7 ic jc) -> (0 <= i < w)%Z /\ (0 <= j < h)%Z.
Proof. intros w h a b Wd Ht H. apply root_size in H. destruct H. apply disk_inside; assumption. Qed.
(* at 45 x 45 the disk around -sqrt 2 (1 + i) starts at column -1 *)
Lemma disk_outside : exists ic jc, to_pixel (F:=X) (pmap 45 45 (-2) (-2)) (cfin (- sqrt 2) (- sqrt 2)) = Ok (ic, jc) /\ In ((-1)%Z, jc) (disk_pixels 7 ic jc).
Proof.
  exists 6%Z, 6%Z. rewrite to_pixel_exact by lra. rewrite Rabs_left by lra. replace (2 * - (-2)) with 4 by lra. pose proof sqrt2_bounds.
  assert (E : Rround ((45 - 1) * (- sqrt 2 - -2) / 4) = IZR 6).
  { unfold Rround. destruct (Rlt_dec _ _); [lra|]. f_equal. apply Zfloor_imp. change (IZR (6 + 1)) with 7. lra. }
  rewrite E, to_int64_IZR by lia. split; [reflexivity|]. apply disk_all; lia.
Qed.
(* one column: the plane coordinate is not a number *)
Lemma one_column : forall h x y j, re (to_complex (F:=X) (pmap 1 h x y) 0 j) = NaN.
Proof.
  intros h x y j. unfold to_complex. cbn [pm_xmin pm_ymin pm_width pm_height re]. xred. replace (2 * Rabs x * 0) with 0 by ring. change (IZR (1 - 1)) with 0.
  rewrite xdiv_zero_zero. reflexivity.
Qed.
(* nearest pixel: any point of the window is within half a pixel of the centre of its pixel *)
Lemma pixel_near : forall w h x y a b, (2 <= w < 2 ^ 63)%Z -> (2 <= h < 2 ^ 63)%Z -> x < 0 -> y < 0 -> x <= a <= - x -> y <= b <= - y ->
  exists i j a' b', to_pixel (F:=X) (pmap w h x y) (cfin a b) = Ok (i, j) /\ (0 <= i < w)%Z /\ (0 <= j < h)%Z /\
  to_complex (F:=X) (pmap w h x y) i j = cfin a' b' /\ Rabs (a' - a) <= - x / (IZR w - 1) /\ Rabs (b' - b) <= - y / (IZR h - 1).
Proof.
  assert (K : forall n x a, (2 <= n < 2 ^ 63)%Z -> x < 0 -> x <= a <= - x -> exists i, Rround ((IZR n - 1) * (a - x) / (2 * Rabs x)) = IZR i /\ (0 <= i < n)%Z /\
     Rabs (x + 2 * Rabs x * IZR i / (IZR n - 1) - a) <= - x / (IZR n - 1)).
  { intros n x a N Hx A. rewrite Rabs_left by lra. set (q := (IZR n - 1) * (a - x) / (2 * - x)). destruct (Rround_near q) as (i & E & H). exists i.
    assert (N1 : 2 <= IZR n) by (apply IZR_le; lia). split; [exact E|].
    assert (Ea : a = x + 2 * - x * q / (IZR n - 1)) by (unfold q; field; lra).
    assert (Q0 : 0 <= q) by (unfold q; apply Rmult_le_pos; [apply Rmult_le_pos; lra|apply Rlt_le, Rinv_0_lt_compat; lra]).
    assert (Q1 : q <= IZR n - 1).
    { unfold q. apply Rmult_le_reg_r with (2 * - x); [lra|]. unfold Rdiv. rewrite Rmult_assoc, Rinv_l by lra. rewrite Rmult_1_r. apply Rmult_le_compat_l; lra. }
    split.
    - apply Rabs_le_inv in H. split.
      + assert (-1 < i)%Z; [|lia]. apply lt_IZR. lra.
      + assert (i < n)%Z; [|lia]. apply lt_IZR. lra.
    - rewrite Ea. replace (x + 2 * - x * IZR i / (IZR n - 1) - (x + 2 * - x * q / (IZR n - 1))) with ((2 * - x / (IZR n - 1)) * (IZR i - q)) by (field; lra).
      assert (P : 0 < 2 * - x / (IZR n - 1)) by (apply Rmult_lt_0_compat; [lra|apply Rinv_0_lt_compat; lra]).
      rewrite Rabs_mult, (Rabs_pos_eq (2 * - x / _)) by lra. apply Rle_trans with (2 * - x / (IZR n - 1) * / 2); [apply Rmult_le_compat_l; lra|].
      apply Req_le. field. lra. }
  intros w h x y a b Wd Ht Hx Hy A B. destruct (K w x a Wd Hx A) as (i & Ei & I & Ni). destruct (K h y b Ht Hy B) as (j & Ej & J & Nj).
  exists i, j. eexists. eexists. rewrite to_pixel_exact by lra. rewrite Ei, Ej, !to_int64_IZR by lia. rewrite to_complex_exact by lia. cbn [obind]. repeat split; eauto; lia.
Qed.
End Fractal.

(** *** every format: NaN is never left *)
Section Float.
Variables prec emax : Z.
Context (Hp : Prec_gt_0 prec) (Hm : Prec_lt_emax prec emax).
Variable lm : libm (binary_float prec emax).
Notation float := (binary_float prec emax).
Notation N := (FL prec emax Hp Hm lm).
Notation nan := (B754_nan : float).
Lemma nan_mul : forall x : float, nmul (NumOps:=N) x nan = nan.
Proof. intros [| | |]; reflexivity. Qed.
Lemma nan_le : forall x : float, nleb (NumOps:=N) x nan = false.
Proof. intros [[]|[]| |[]]; reflexivity. Qed.
Lemma newton_nan_float : forall (k : float) fuel, complex_newton (F:=N) k fuel (g (F:=N)) (Cpx nan nan) = OutOfFuel.
Proof.
  intros k fuel. induction fuel as [|fuel IH]; [reflexivity|]. cbn [complex_newton].
  assert (E : g (F:=N) (Cpx nan nan) = (Cpx nan nan, Cpx nan nan)).
  { unfold g, c_mul, c_sub_real, c_add_real, c_scale. cbn [re im]. rewrite !nan_mul. reflexivity. }
  rewrite E. change (c_sub (F:=N) (Cpx nan nan) (c_div (F:=N) (Cpx nan nan) (Cpx nan nan))) with (Cpx nan nan : cpx float).
  change (c_abs (F:=N) (c_mul (F:=N) (Cpx nan nan) (Cpx nan nan))) with nan. rewrite nan_mul, nan_le. exact IH.
Qed.
End Float.
(* long double, the type of the program *)
Lemma newton_origin_float : forall lm (k : binary80) fuel, complex_newton (F:=F80 lm) k fuel (g (F:=F80 lm)) (Cpx (B754_zero false) (B754_zero false)) = OutOfFuel.
Proof.
  intros lm k [|fuel]; [reflexivity|]. cbn [complex_newton].
  set (z := Cpx (B754_zero false) (B754_zero false) : cpx binary80).
  destruct (g (F:=F80 lm) z) as [y dy] eqn:E.
  assert (Z : c_sub (F:=F80 lm) z (c_div (F:=F80 lm) y dy) = Cpx (B754_nan : binary80) (B754_nan : binary80)).
  { transitivity (let '(y, dy) := g (F:=F80 lm) z in c_sub (F:=F80 lm) z (c_div (F:=F80 lm) y dy)); [rewrite E; reflexivity|]. vm_compute. reflexivity. }
  rewrite Z. change (c_abs (F:=F80 lm) (c_mul (F:=F80 lm) (Cpx (B754_nan : binary80) (B754_nan : binary80)) dy)) with (B754_nan : binary80).
  unfold F80. rewrite nan_mul, nan_le. apply newton_nan_float.
Qed.
