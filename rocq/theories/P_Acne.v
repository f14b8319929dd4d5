(** A ray that leaves a sphere and sphere::hit in floating point: sharper bounds than those of
    P_SphereHit.v, in terms of the distance from the origin to the centre. *)
From Coq Require Import Reals Lra Psatz ZArith Lia List Bool.
From Flocq Require Import Core BinarySingleNaN Relative.
From Verif Require Import Num XR FL Spec Spec_Accuracy M_Vec M_Roots M_Hittable M_Shapes P_FL P_Round P_Accuracy P_Floats P_SphereFloat P_SphereHit.
Import ListNotations.
Local Open Scope R_scope.

(** *** the real estimates *)
Section Estimates.
Variable u : R.
Hypothesis U : 0 < u <= 1 / 10000000.
Variables W r D b c a' b' c' : R.
Hypothesis W0 : 0 <= W.
Hypothesis D0 : 0 < D.
Hypothesis Hb : Rabs b <= 2 * W * D.
Hypothesis Ha' : Rabs (a' - D * D) <= 4 * u * (D * D).
Hypothesis Hb' : Rabs (b' - b) <= 25 / 2 * u * W * D.
Hypothesis Hc : c = W * W - r * r.
Hypothesis Hc' : Rabs (c' - c) <= u * (72 / 10 * (W * W) + 21 / 10 * (r * r)).

(** a root reported beyond lo > 0 *)
Lemma leaving_root : forall lo t y, 0 < lo -> 0 <= b - 26 * u * W * D -> 8 * u * (W * W + r * r) - c < lo * (b - 26 * u * W * D) -> a' * (t * t) + b' * t + c' = 0 -> Rabs (y - t) <= 6 * u * Rabs t -> lo <= y -> False.
Proof.
  intros lo t y L P H E N Ly. apply Rabs_le_inv in Ha', Hb', Hc', Hb.
  assert (WD : 0 <= W * D) by (apply Rmult_le_pos; lra). assert (uWD : 0 <= u * (W * D)) by (apply Rmult_le_pos; lra).
  assert (DD : 0 < D * D) by (apply Rmult_lt_0_compat; lra). assert (uD : u * (D * D) <= 1 / 10000000 * (D * D)) by (apply Rmult_le_compat_r; lra).
  assert (A0 : 0 < a') by lra.
  assert (T0 : 0 < t).
  { destruct (Rlt_le_dec 0 t) as [|C]; [assumption|exfalso]. rewrite (Rabs_left1 t) in N by exact C. apply Rabs_le_inv in N. assert (6 * u * - t <= 1 / 1000 * - t) by (apply Rmult_le_compat_r; lra). lra. }
  rewrite (Rabs_pos_eq t) in N by lra. apply Rabs_le_inv in N.
  assert (Q0 : 0 <= u * (W * W + r * r)) by (apply Rmult_le_pos; nra).
  assert (C0 : - c' <= 8 * u * (W * W + r * r) - c).
  { assert (u * (72 / 10 * (W * W) + 21 / 10 * (r * r)) <= u * (8 * (W * W + r * r))) by (apply Rmult_le_compat_l; nra). lra. }
  assert (B1 : b - 25 / 2 * (u * (W * D)) <= b') by lra. assert (B2 : 0 <= b - 25 / 2 * (u * (W * D))) by lra.
  assert (T1 : lo * (1 - 6 * u) <= t). { assert (y * (1 - 6 * u) <= t * (1 + 6 * u) * (1 - 6 * u)) by (apply Rmult_le_compat_r; lra). assert (lo * (1 - 6 * u) <= y * (1 - 6 * u)) by (apply Rmult_le_compat_r; lra). assert (0 <= t * (u * u)) by (apply Rmult_le_pos; nra). lra. }
  assert (Bt : (b - 25 / 2 * (u * (W * D))) * (lo * (1 - 6 * u)) <= b' * t) by (apply Rmult_le_compat; [exact B2|apply Rmult_le_pos; lra|exact B1|exact T1]).
  assert (ub : u * b <= u * (2 * W * D)) by (apply Rmult_le_compat_l; lra). assert (uu : 0 <= u * (u * (W * D))) by (apply Rmult_le_pos; lra).
  assert (lo * (b - 26 * u * W * D) <= lo * ((b - 25 / 2 * (u * (W * D))) * (1 - 6 * u))) by (apply Rmult_le_compat_l; lra).
  assert (0 <= a' * (t * t)) by (apply Rmult_le_pos; nra). lra.
Qed.

(** seen from outside *)
Hypothesis rW : Rabs r <= W.
Hypothesis Wp : 0 < W.
Lemma root_near : forall t, a' * (t * t) + b' * t + c' = 0 -> Rabs t * D <= 2001 / 1000 * W.
Proof.
  intros t E. destruct (Rle_lt_dec (Rabs t * D) (2001 / 1000 * W)) as [|X]; [assumption|exfalso]. set (x := Rabs t * D) in *.
  assert (X2 : D * D * (t * t) = x * x) by (unfold x; replace (t * t) with (Rabs t * Rabs t) by (rewrite <- Rabs_mult; apply Rabs_pos_eq; nra); ring).
  assert (WW : 0 < W * W) by nra. assert (rr : r * r <= W * W) by (replace (r * r) with (Rabs r * Rabs r) by (rewrite <- Rabs_mult, Rabs_pos_eq; nra); apply Rmult_le_compat; auto using Rabs_pos).
  assert (r2 : 0 <= r * r) by nra. assert (uW : 0 <= u * (W * W)) by (apply Rmult_le_pos; lra). assert (uW' : u * (W * W) <= 1 / 10000000 * (W * W)) by (apply Rmult_le_compat_r; lra).
  apply Rabs_le_inv in Ha', Hc'. assert (x0 : 0 < x) by lra. assert (T2 : 0 <= t * t) by nra.
  assert (A : 99999 / 100000 * (x * x) <= a' * (t * t)).
  { rewrite <- X2, <- Rmult_assoc. apply Rmult_le_compat_r; [exact T2|]. assert (u * (D * D) <= 1 / 10000000 * (D * D)) by (apply Rmult_le_compat_r; nra). lra. }
  assert (B : Rabs (b' * t) <= 20001 / 10000 * W * x).
  { rewrite Rabs_mult. unfold x. replace (20001 / 10000 * W * (Rabs t * D)) with (20001 / 10000 * W * D * Rabs t) by ring. apply Rmult_le_compat_r; [apply Rabs_pos|]. replace b' with (b + (b' - b)) by ring. eapply Rle_trans; [apply Rabs_triang|].
    assert (WD : 0 <= W * D) by (apply Rmult_le_pos; lra). assert (u * (W * D) <= 1 / 10000000 * (W * D)) by (apply Rmult_le_compat_r; lra). lra. }
  apply Rabs_le_inv in B. assert (C1 : - c' <= 1 / 100000 * (W * W)).
  { assert (u * (72 / 10 * (W * W) + 21 / 10 * (r * r)) <= u * (10 * (W * W))) by (apply Rmult_le_compat_l; lra). lra. }
  assert (F : 99999 / 100000 * (x * x) <= 20001 / 10000 * W * x + 1 / 100000 * (W * W)) by lra.
  assert (2001 / 1000 * W * x <= x * x) by (apply Rmult_le_compat_r; lra). assert (W * (2001 / 1000 * W) <= W * x) by (apply Rmult_le_compat_l; lra). lra.
Qed.
Lemma residual_near : forall t y, a' * (t * t) + b' * t + c' = 0 -> Rabs (y - t) <= 6 * u * Rabs t -> Rabs (D * D * (y * y) + b * y + c) <= 124 * u * (W * W) /\ Rabs y * D <= 201 / 100 * W.
Proof.
  intros t y E H. pose proof (root_near t E) as X. set (e := y - t) in *. assert (Ey : y = t + e) by (unfold e; ring).
  pose proof (Rabs_pos t) as T0. assert (WW : 0 < W * W) by nra. assert (uWW : 0 < u * (W * W)) by (apply Rmult_lt_0_compat; lra). assert (uuWW : u * (u * (W * W)) <= 1 / 10000000 * (u * (W * W))) by (apply Rmult_le_compat_r; lra).
  assert (rr : r * r <= W * W) by (replace (r * r) with (Rabs r * Rabs r) by (rewrite <- Rabs_mult, Rabs_pos_eq; nra); apply Rmult_le_compat; auto using Rabs_pos).
  set (x := Rabs t * D) in *. assert (x0 : 0 <= x) by (unfold x; apply Rmult_le_pos; lra). assert (xW : x * W <= 2001 / 1000 * W * W) by (apply Rmult_le_compat_r; lra). assert (xx : x * x <= 40041 / 10000 * (W * W)) by (assert (x * x <= 2001 / 1000 * W * (2001 / 1000 * W)) by (apply Rmult_le_compat; lra); lra).
  set (z := Rabs e * D). assert (Z : z <= 6 * u * x) by (unfold z, x; rewrite <- Rmult_assoc; apply Rmult_le_compat_r; lra). assert (z0 : 0 <= z) by (unfold z; pose proof (Rabs_pos e); apply Rmult_le_pos; lra).
  assert (uxx : u * (x * x) <= u * (40041 / 10000 * (W * W))) by (apply Rmult_le_compat_l; lra). assert (uxW : u * (x * W) <= u * (2001 / 1000 * W * W)) by (apply Rmult_le_compat_l; lra).
  assert (xx0 : 0 <= x * x) by nra. assert (uxx0 : 0 <= u * (x * x)) by (apply Rmult_le_pos; lra).
  split.
  - replace (D * D * (y * y) + b * y + c) with (D * D * (2 * t * e + e * e) + (D * D - a') * (t * t) + b * e + (b - b') * t + (c - c')).
    2:{ rewrite Ey. assert (Q : a' * (t * t) = - (b' * t) - c') by lra. replace ((D * D - a') * (t * t)) with (D * D * (t * t) - a' * (t * t)) by ring. rewrite Q. ring. }
    assert (I1 : Rabs (D * D * (2 * t * e + e * e)) <= 4806 / 100 * u * (W * W)).
    { replace (D * D * (2 * t * e + e * e)) with (2 * (t * D) * (e * D) + (e * D) * (e * D)) by ring. eapply Rle_trans; [apply Rabs_triang|]. rewrite !Rabs_mult, (Rabs_pos_eq 2), (Rabs_pos_eq D) by lra. fold x z. assert (x * z <= x * (6 * u * x)) by (apply Rmult_le_compat_l; lra). assert (z * z <= (6 * u * x) * (6 * u * x)) by (apply Rmult_le_compat; lra).
      assert (u * (u * (x * x)) <= 1 / 10000000 * (u * (x * x))) by (apply Rmult_le_compat_r; lra). lra. }
    assert (I2 : Rabs ((D * D - a') * (t * t)) <= 1602 / 100 * u * (W * W)).
    { rewrite Rabs_mult, (Rabs_minus_sym (D * D) a'). rewrite (Rabs_mult t t). apply Rle_trans with (4 * u * (D * D) * (Rabs t * Rabs t)); [apply Rmult_le_compat_r; [apply Rmult_le_pos; lra|exact Ha']|]. replace (4 * u * (D * D) * (Rabs t * Rabs t)) with (4 * (u * (x * x))) by (unfold x; ring). lra. }
    assert (I3 : Rabs (b * e) <= 2402 / 100 * u * (W * W)).
    { rewrite Rabs_mult. apply Rle_trans with (2 * W * D * Rabs e); [apply Rmult_le_compat_r; [apply Rabs_pos|exact Hb]|]. replace (2 * W * D * Rabs e) with (2 * (W * z)) by (unfold z; ring). assert (W * z <= W * (6 * u * x)) by (apply Rmult_le_compat_l; lra). lra. }
    assert (I4 : Rabs ((b - b') * t) <= 2502 / 100 * u * (W * W)).
    { rewrite Rabs_mult, (Rabs_minus_sym b b'). apply Rle_trans with (25 / 2 * u * W * D * Rabs t); [apply Rmult_le_compat_r; [exact T0|exact Hb']|]. replace (25 / 2 * u * W * D * Rabs t) with (25 / 2 * (u * (x * W))) by (unfold x; ring). lra. }
    assert (I5 : Rabs (c - c') <= 93 / 10 * u * (W * W)). { rewrite Rabs_minus_sym. eapply Rle_trans; [exact Hc'|]. assert (u * (72 / 10 * (W * W) + 21 / 10 * (r * r)) <= u * (93 / 10 * (W * W))) by (apply Rmult_le_compat_l; lra). lra. }
    eapply Rle_trans; [apply Rabs_triang|].
    pose proof (Rabs_triang (D * D * (2 * t * e + e * e) + (D * D - a') * (t * t) + b * e) ((b - b') * t)). pose proof (Rabs_triang (D * D * (2 * t * e + e * e) + (D * D - a') * (t * t)) (b * e)). pose proof (Rabs_triang (D * D * (2 * t * e + e * e)) ((D * D - a') * (t * t))). lra.
  - assert (Y : Rabs y <= Rabs t + Rabs e) by (rewrite Ey; apply Rabs_triang). assert (Rabs y * D <= x + z) by (unfold x, z; rewrite <- Rmult_plus_distr_r; apply Rmult_le_compat_r; lra). assert (u * x <= 1 / 10000000 * x) by (apply Rmult_le_compat_r; lra). lra.
Qed.
End Estimates.

(** |w + e|^2 when e is a relative error of v and q *)
Lemma shifted : forall u m W Y Q (w v q e : vec3 R), 0 < u -> 0 <= m -> 0 <= W -> normR w <= W -> normR v <= Y -> normR q <= Q ->
  (Rabs (vx e) <= u * (101 / 100 * Rabs (vx v) + 101 / 100 * Rabs (vx q) + m) /\ Rabs (vy e) <= u * (101 / 100 * Rabs (vy v) + 101 / 100 * Rabs (vy q) + m) /\ Rabs (vz e) <= u * (101 / 100 * Rabs (vz v) + 101 / 100 * Rabs (vz q) + m)) ->
  Rabs (normsqR (addR w e) - normsqR w) <= u * (202 / 100 * W * (Y + Q) + 6 * W * m) + 4 * (u * u) * (Y * Y + Q * Q + 3 * (m * m)).
Proof.
  intros u m W Y Q w v q e u0 m0 W0 HW HY HQ (E1 & E2 & E3).
  assert (w0 : 0 <= normR w) by apply sqrt_pos. assert (v0 : 0 <= normR v) by apply sqrt_pos. assert (q0 : 0 <= normR q) by apply sqrt_pos.
  assert (A1 : absdot w v <= W * Y) by (eapply Rle_trans; [apply absdot_norms|apply Rmult_le_compat; assumption]).
  assert (A2 : absdot w q <= W * Q) by (eapply Rle_trans; [apply absdot_norms|apply Rmult_le_compat; assumption]).
  assert (Nv : normsqR v <= Y * Y) by (replace (normsqR v) with (normR v * normR v) by (unfold normR; apply sqrt_sqrt; unfold normsqR, dotR; nra); apply Rmult_le_compat; assumption).
  assert (Nq : normsqR q <= Q * Q) by (replace (normsqR q) with (normR q * normR q) by (unfold normR; apply sqrt_sqrt; unfold normsqR, dotR; nra); apply Rmult_le_compat; assumption).
  pose proof (component_le w) as (c1 & c2 & c3).
  destruct w as [w1 w2 w3], v as [v1 v2 v3], q as [q1 q2 q3], e as [e1 e2 e3]. unfold absdot in A1, A2. unfold normsqR, dotR, addR in *. cbn [vx vy vz] in *. rewrite !Rabs_mult in A1, A2.
  assert (J : forall w v q e, Rabs w <= W -> Rabs e <= u * (101 / 100 * Rabs v + 101 / 100 * Rabs q + m) ->
    Rabs (2 * w * e + e * e) <= u * (202 / 100 * (Rabs w * Rabs v + Rabs w * Rabs q) + 2 * W * m) + 4 * (u * u) * (v * v + q * q + m * m)).
  { clear - u0 m0. intros w v q e Hw He. pose proof (Rabs_pos w) as wp. pose proof (Rabs_pos v) as vp. pose proof (Rabs_pos q) as qp. pose proof (Rabs_pos e) as ep.
    eapply Rle_trans; [apply Rabs_triang|]. rewrite !Rabs_mult, (Rabs_pos_eq 2) by lra.
    assert (Q : forall x, x * x = Rabs x * Rabs x) by (intros; rewrite <- Rabs_mult, Rabs_pos_eq; nra). rewrite (Q v), (Q q).
    set (a := Rabs w) in *. set (b := Rabs v) in *. set (c := Rabs q) in *. set (f := Rabs e) in *. clearbody a b c f.
    assert (F1 : a * f <= a * (u * (101 / 100 * b + 101 / 100 * c + m))) by (apply Rmult_le_compat_l; assumption).
    assert (F2 : f * f <= u * (101 / 100 * b + 101 / 100 * c + m) * (u * (101 / 100 * b + 101 / 100 * c + m))) by (apply Rmult_le_compat; assumption).
    assert (F3 : u * m * a <= u * m * W) by (apply Rmult_le_compat_l; [apply Rmult_le_pos; lra|exact Hw]).
    assert (F4 : (101 / 100 * b + 101 / 100 * c + m) * (101 / 100 * b + 101 / 100 * c + m) <= 4 * (b * b + c * c + m * m)).
    { pose proof (Rle_0_sqr (b - c)) as P1. pose proof (Rle_0_sqr (b - m)) as P2. pose proof (Rle_0_sqr (c - m)) as P3. unfold Rsqr in *. assert (0 <= b * b) by nra. assert (0 <= c * c) by nra. assert (0 <= m * m) by nra. lra. }
    assert (F5 : u * u * ((101 / 100 * b + 101 / 100 * c + m) * (101 / 100 * b + 101 / 100 * c + m)) <= u * u * (4 * (b * b + c * c + m * m))) by (apply Rmult_le_compat_l; [nra|exact F4]).
    lra. }
  pose proof (J w1 v1 q1 e1 ltac:(lra) E1) as J1. pose proof (J w2 v2 q2 e2 ltac:(lra) E2) as J2. pose proof (J w3 v3 q3 e3 ltac:(lra) E3) as J3.
  replace ((w1 + e1) * (w1 + e1) + (w2 + e2) * (w2 + e2) + (w3 + e3) * (w3 + e3) - (w1 * w1 + w2 * w2 + w3 * w3)) with ((2 * w1 * e1 + e1 * e1) + (2 * w2 * e2 + e2 * e2) + (2 * w3 * e3 + e3 * e3)) by ring.
  eapply Rle_trans; [apply Rabs_triang|]. pose proof (Rabs_triang (2 * w1 * e1 + e1 * e1) (2 * w2 * e2 + e2 * e2)) as T.
  assert (S1 : u * (Rabs w1 * Rabs v1 + Rabs w2 * Rabs v2 + Rabs w3 * Rabs v3) <= u * (W * Y)) by (apply Rmult_le_compat_l; lra).
  assert (S2 : u * (Rabs w1 * Rabs q1 + Rabs w2 * Rabs q2 + Rabs w3 * Rabs q3) <= u * (W * Q)) by (apply Rmult_le_compat_l; lra).
  assert (uu : 0 <= u * u) by (apply Rmult_le_pos; lra).
  assert (S3 : u * u * (v1 * v1 + v2 * v2 + v3 * v3) <= u * u * (Y * Y)) by (apply Rmult_le_compat_l; lra).
  assert (S4 : u * u * (q1 * q1 + q2 * q2 + q3 * q3) <= u * u * (Q * Q)) by (apply Rmult_le_compat_l; lra).
  lra.
Qed.

Section Leave.
Variables prec emax : Z.
Context (Hp : Prec_gt_0 prec) (Hm : Prec_lt_emax prec emax).
Variable lm : libm (binary_float prec emax).
Notation float := (binary_float prec emax).
Notation N := (FL prec emax Hp Hm lm).
Notation rnd := (round radix2 (SpecFloat.fexp prec emax) ZnearestE).
Notation val := (val prec emax).
Notation vals := (vals prec emax).
Notation b2 := (bpow radix2).
Notation u := (bpow radix2 (- prec)).
Variable k : Z.
Hypothesis P24 : (24 <= prec)%Z.
Hypothesis K0 : (0 <= k)%Z.
Hypothesis K : (4 * k + 6 * prec + 16 <= emax)%Z.
Notation inside lo hi t := (xleb (fval lo) (Fin t) && xleb (Fin t) (fval hi) = true).

Section OneRay.
Variables (fo fc fd : vec3 float) (fr : float) (o c d : vec3 R) (r : R).
Hypothesis Vo : vals fo o.
Hypothesis Vc : vals fc c.
Hypothesis Vd : vals fd d.
Hypothesis Vr : val fr r.
Hypothesis Mo : moderate3 k o.
Hypothesis Mc : moderate3 k c.
Hypothesis Md : moderate3 k d.
Hypothesis Mr : moderate k r.
Hypothesis Zd : d <> V3 0 0 0.
Notation W := (normR (subR o c)).
Notation D := (normR d).
Lemma W_sq : forall v, normR v * normR v = normsqR v.
Proof. intros v. unfold normR. apply sqrt_sqrt. unfold normsqR, dotR. nra. Qed.
Lemma b_size : Rabs (2 * dotR (subR o c) d) <= 2 * W * D.
Proof.
  rewrite Rabs_mult, (Rabs_pos_eq 2) by lra. rewrite Rmult_assoc. apply Rmult_le_compat_l; [lra|]. eapply Rle_trans; [|apply absdot_norms].
  unfold dotR, absdot. eapply Rle_trans; [apply Rabs_triang|]. pose proof (Rabs_triang (vx (subR o c) * vx d) (vy (subR o c) * vy d)). lra.
Qed.
(** the reported parameter is near a root of the computed quadratic *)
Lemma reported : forall lo hi f,
  first_quadratic_root_in_range (F:=N) (squared_norm (F:=N) fd) (nmul (NumOps:=N) (nofZ (NumOps:=N) 2) (dot (F:=N) (vsub (F:=N) fo fc) fd)) (nsub (NumOps:=N) (squared_norm (F:=N) (vsub (F:=N) fo fc)) (nmul (NumOps:=N) fr fr)) lo hi = Some f ->
  exists A B C t y, val f y /\ inside lo hi y /\ A * (t * t) + B * t + C = 0 /\ Rabs (y - t) <= 6 * u * Rabs t /\
    Rabs (A - D * D) <= 4 * u * (D * D) /\ Rabs (B - 2 * dotR (subR o c) d) <= 25 / 2 * u * W * D /\ Rabs (C - (normsqR (subR o c) - r * r)) <= u * (72 / 10 * (W * W) + 21 / 10 * (r * r)).
Proof.
  intros lo hi f H. destruct (coefficients_sharp prec emax Hp Hm lm k P24 K0 K fo fc fd fr o c d r Vo Vc Vd Vr Mo Mc Md Mr Zd) as (A & B & C & VA & VB & VC & MA & MB & MC & A0 & E). cbv zeta in E.
  apply val_fval in VA, VB, VC. pose proof (PP8 prec P24) as P8. pose proof (KK0 prec k P24 K0) as k0. pose proof (KK2 prec emax k K) as k2.
  destruct (first_stated prec emax Hp Hm lm _ P8 k0 k2 _ _ _ lo hi A B C VA VB VC MA MB MC A0) as [F1 F2].
  destruct (Rlt_le_dec (B * B - 4 * A * C) 0) as [X|X]; [rewrite (F1 X) in H; discriminate|].
  destruct (quadratic_stated prec emax Hp Hm lm _ P8 k0 k2 _ _ _ A B C VA VB VC MA MB MC A0) as [_ Q]. destruct (Q X) as (_ & _ & _ & _ & t0 & t1 & _ & _ & _ & T & _). clear Q.
  specialize (F2 t0 t1 T). rewrite H in F2. destruct F2 as (y & V & I & Hn). destruct (root_of _ _ _ _ _ T) as [R0 R1]. apply val_fval in V.
  destruct Hn as [Hn|[Hn _]]; [exists A, B, C, t0, y|exists A, B, C, t1, y]; auto 10.
Qed.
Lemma leaving_miss : forall lo hi l rec, fval lo = Fin l -> 0 < l -> 13 * u * W * D <= dotR (subR o c) d ->
  8 * u * (W * W + r * r) + (r * r - W * W) < 2 * l * (dotR (subR o c) d - 13 * u * W * D) -> sphere_hit (F:=N) (Sphere fc fr) (Ray fo fd) lo hi rec = Ok (false, rec).
Proof.
  intros lo hi l rec El L P H. unfold sphere_hit. cbn [s_center s_radius r_orig r_dir].
  match goal with |- context [match ?e with _ => _ end] => destruct e as [f|] eqn:F end; [exfalso|reflexivity].
  destruct (reported lo hi f F) as (A & B & C & t & y & V & I & R0 & N & EA & EB & EC). rewrite <- W_sq in EC.
  apply andb_true_iff in I. destruct I as [I _]. rewrite El in I. cbn [xleb] in I. apply Rleb_iff in I.
  refine (leaving_root u (u_tiny prec k P24) W r D (2 * dotR (subR o c) d) (W * W - r * r) A B C (sqrt_pos _) (D_pos k d Md Zd) b_size EA EB EC l t y L _ _ R0 N I); lra.
Qed.

(** the point of a hit seen from outside *)
Hypothesis rW : Rabs r <= W.
Hypothesis Zr : r <> 0.
Lemma point_sharp : forall (go gy gd : float) a y b, val go a -> val gy y -> val gd b -> Rabs a <= b2 k -> Rabs (y * b) <= 11 * b2 k ->
  exists p, val (nadd (NumOps:=N) go (nmul (NumOps:=N) gy gd)) p /\ Rabs (p - (a + y * b)) <= u * (101 / 100 * Rabs (y * b) + 101 / 100 * Rabs (a + y * b) + b2 (- k) / 40).
Proof.
  intros go gy gd a y b O Y B Bo By. pose proof (u_tiny prec k P24) as U. pose proof (bpow_gt_0 radix2 k) as k0. pose proof (bpow_gt_0 radix2 (- k)) as k1.
  assert (k2 : b2 (- k) <= b2 k) by (apply bpow_le; lia).
  assert (Big : forall x, x <= 16 * b2 k -> x <= b2 (emax - 1)) by (intros x Hx; apply (big_enough prec emax k 4 k); [lia|lia|exact Hx]).
  assert (M : val (nmul (NumOps:=N) gy gd) (rnd (y * b))) by (apply mult_val; auto; apply Big; lra).
  pose proof (rnd_near prec emax k P24 K0 K (y * b)) as E1. set (z := rnd (y * b)) in *.
  assert (u1 : u * (Rabs (y * b) + b2 (- k) / 100) <= 1 / 10000000 * (Rabs (y * b) + b2 (- k) / 100)) by (apply Rmult_le_compat_r; [pose proof (Rabs_pos (y * b)); lra|lra]).
  assert (T : Rabs (a + z) <= Rabs (a + y * b) + Rabs (z - y * b)) by (replace (a + z) with ((a + y * b) + (z - y * b)) by ring; apply Rabs_triang).
  pose proof (Rabs_triang a (y * b)) as T2.
  exists (rnd (a + z)). split; [apply plus_val; auto; apply Big; lra|].
  pose proof (rnd_near prec emax k P24 K0 K (a + z)) as E2. replace (rnd (a + z) - (a + y * b)) with ((rnd (a + z) - (a + z)) + (z - y * b)) by ring. eapply Rle_trans; [apply Rabs_triang|].
  assert (E3 : u * (Rabs (a + z) + b2 (- k) / 100) <= u * (Rabs (a + y * b) + 1 / 10000000 * (Rabs (y * b) + b2 (- k) / 100) + b2 (- k) / 100)) by (apply Rmult_le_compat_l; lra).
  assert (0 <= u * Rabs (y * b)) by (apply Rmult_le_pos; [lra|apply Rabs_pos]). assert (0 <= u * Rabs (a + y * b)) by (apply Rmult_le_pos; [lra|apply Rabs_pos]). assert (0 <= u * b2 (- k)) by (apply Rmult_le_pos; lra). lra.
Qed.
Lemma hit_near : forall lo hi rec rec', sphere_hit (F:=N) (Sphere fc fr) (Ray fo fd) lo hi rec = Ok (true, rec') ->
  exists p, vals (h_p rec') p /\ Rabs (normsqR (subR p c) - r * r) <= u * (131 * (W * W) + 3 * W * normR c) + 9 * (u * u) * normsqR c.
Proof.
  intros lo hi rec rec' H. unfold sphere_hit in H. cbn [s_center s_radius r_orig r_dir] in H.
  match type of H with match ?e with _ => _ end = _ => destruct e as [f|] eqn:F end; [|discriminate].
  destruct (reported lo hi f F) as (A & B & C & t & y & V & I & R0 & N0 & EA & EB & EC). rewrite <- W_sq in EC. pose proof (u_tiny prec k P24) as U.
  assert (rl : b2 (- k) <= Rabs r) by (destruct Mr as [E|[E _]]; [contradiction|exact E]). pose proof (bpow_gt_0 radix2 (- k)) as k1. assert (Wp : 0 < W) by lra.
  destruct (residual_near u U W r D (2 * dotR (subR o c) d) (W * W - r * r) A B C (Rlt_le _ _ Wp) (D_pos k d Md Zd) b_size EA EB eq_refl EC rW Wp t y R0 N0) as [G Y].
  assert (Gq : D * D * (y * y) + 2 * dotR (subR o c) d * y + (W * W - r * r) = normsqR (subR (lineR o d y) c) - r * r) by (rewrite !W_sq; unfold lineR, normsqR, dotR, subR, addR, scaleR; cbn [vx vy vz]; ring).
  rewrite Gq in G. clear Gq. set (q := lineR o d y) in *.
  assert (WW : 0 < W * W) by (apply Rmult_lt_0_compat; lra). assert (uWW : u * (W * W) <= 1 / 10000000 * (W * W)) by (apply Rmult_le_compat_r; lra).
  assert (rr : r * r <= W * W) by (replace (r * r) with (Rabs r * Rabs r) by (rewrite <- Rabs_mult, Rabs_pos_eq; nra); apply Rmult_le_compat; auto using Rabs_pos).
  assert (Nw : normR (subR q c) <= 1001 / 1000 * W).
  { destruct (Rle_lt_dec (normR (subR q c)) (1001 / 1000 * W)) as [|X]; [assumption|exfalso]. apply Rabs_le_inv in G. rewrite <- W_sq in G. assert (1001 / 1000 * W * (1001 / 1000 * W) < normR (subR q c) * normR (subR q c)) by (apply Rmult_le_0_lt_compat; lra). lra. }
  assert (Nc : 0 <= normR c) by apply sqrt_pos.
  assert (Nq : normR q <= 1001 / 1000 * W + normR c).
  { assert (Q2 : normsqR q <= (normR (subR q c) + normR c) * (normR (subR q c) + normR c)).
    { replace (normsqR q) with (normsqR (subR q c) + 2 * dotR (subR q c) c + normsqR c) by (unfold normsqR, dotR, subR; cbn [vx vy vz]; ring).
      assert (dotR (subR q c) c <= normR (subR q c) * normR c). { eapply Rle_trans; [|apply absdot_norms]. unfold dotR, absdot. pose proof (Rle_abs (vx (subR q c) * vx c)). pose proof (Rle_abs (vy (subR q c) * vy c)). pose proof (Rle_abs (vz (subR q c) * vz c)). lra. }
      rewrite <- !W_sq. lra. }
    pose proof (sqrt_pos (normsqR (subR q c)) : 0 <= normR (subR q c)) as n0. destruct (Rle_lt_dec (normR q) (normR (subR q c) + normR c)) as [|X]; [lra|exfalso]. rewrite <- W_sq in Q2.
    assert ((normR (subR q c) + normR c) * (normR (subR q c) + normR c) < normR q * normR q) by (apply Rmult_le_0_lt_compat; lra). lra. }
  assert (Ny : normR (scaleR y d) <= 201 / 100 * W).
  { assert (E : normR (scaleR y d) = Rabs y * D). { apply Rsqr_inj; [apply sqrt_pos|apply Rmult_le_pos; [apply Rabs_pos|apply sqrt_pos]|]. unfold Rsqr. rewrite W_sq. replace (Rabs y * D * (Rabs y * D)) with (Rabs y * Rabs y * (D * D)) by ring. rewrite W_sq. rewrite <- Rabs_mult, Rabs_pos_eq by nra. unfold normsqR, dotR, scaleR; cbn [vx vy vz]. ring. } rewrite E. exact Y. }
  pose proof (component_le (scaleR y d)) as (y1 & y2 & y3). cbn [scaleR vx vy vz] in y1, y2, y3.
  assert (Wk : W <= 4 * b2 k).
  { destruct (Rle_lt_dec W (4 * b2 k)) as [|X]; [assumption|exfalso]. pose proof (bpow_gt_0 radix2 k) as k0. assert (X2 : 4 * b2 k * (4 * b2 k) < W * W) by (apply Rmult_le_0_lt_compat; lra). rewrite W_sq in X2.
    assert (Bo : forall x z, moderate k x -> moderate k z -> (x - z) * (x - z) <= 4 * (b2 k * b2 k)). { intros x z X0 Z0. pose proof (moderate_bound k x X0) as B1. pose proof (moderate_bound k z Z0) as B3. apply Rabs_le_inv in B1, B3. clear - B1 B3. nra. }
    destruct Mo as (m1 & m2 & m3), Mc as (l1 & l2 & l3). pose proof (Bo _ _ m1 l1). pose proof (Bo _ _ m2 l2). pose proof (Bo _ _ m3 l3). unfold normsqR, dotR, subR in X2. cbn [vx vy vz] in X2. assert (0 < b2 k * b2 k) by (apply Rmult_lt_0_compat; lra). lra. }
  destruct Vo as (O1 & O2 & O3), Vd as (D1 & D2 & D3). destruct Mo as (m1 & m2 & m3). pose proof (bpow_gt_0 radix2 k) as k0.
  destruct (point_sharp _ _ _ _ _ _ O1 V D1 (moderate_bound k _ m1) ltac:(lra)) as (p1 & P1 & E1).
  destruct (point_sharp _ _ _ _ _ _ O2 V D2 (moderate_bound k _ m2) ltac:(lra)) as (p2 & P2 & E2).
  destruct (point_sharp _ _ _ _ _ _ O3 V D3 (moderate_bound k _ m3) ltac:(lra)) as (p3 & P3 & E3).
  cbv zeta in H. match type of H with match ?e with _ => _ end = _ => destruct e as [us vs] end. injection H as <-.
  exists (V3 p1 p2 p3). split; [split; [exact P1|split; [exact P2|exact P3]]|].
  pose proof (shifted u (b2 (- k) / 40) (1001 / 1000 * W) (201 / 100 * W) (1001 / 1000 * W + normR c) (subR q c) (scaleR y d) q (subR (V3 p1 p2 p3) q) ltac:(lra) ltac:(lra) ltac:(lra) Nw Ny Nq (conj E1 (conj E2 E3))) as Sh.
  replace (addR (subR q c) (subR (V3 p1 p2 p3) q)) with (subR (V3 p1 p2 p3) c) in Sh by (unfold addR, subR; cbn [vx vy vz]; f_equal; ring).
  replace (normsqR (subR (V3 p1 p2 p3) c) - r * r) with ((normsqR (subR (V3 p1 p2 p3) c) - normsqR (subR q c)) + (normsqR (subR q c) - r * r)) by ring. eapply Rle_trans; [apply Rabs_triang|].
  rewrite <- (W_sq c). set (Z := normR c) in *. set (m := b2 (- k) / 40) in *. assert (m0 : 0 < m <= W / 40) by (unfold m; lra).
  assert (uW0 : 0 < u * (W * W)) by (apply Rmult_lt_0_compat; lra). assert (uuW : u * (u * (W * W)) <= 1 / 10000000 * (u * (W * W))) by (apply Rmult_le_compat_r; lra).
  assert (WZ : 0 <= u * (W * Z)) by (apply Rmult_le_pos; [lra|apply Rmult_le_pos; lra]). assert (uWZ : u * (u * (W * Z)) <= 1 / 10000000 * (u * (W * Z))) by (apply Rmult_le_compat_r; lra).
  assert (Wm : u * (W * m) <= u * (W * (W / 40))) by (apply Rmult_le_compat_l; [lra|]; apply Rmult_le_compat_l; lra).
  assert (mm : m * m <= W / 40 * (W / 40)) by (apply Rmult_le_compat; lra). assert (uumm : u * u * (m * m) <= u * u * (W / 40 * (W / 40))) by (apply Rmult_le_compat_l; [apply Rmult_le_pos; lra|exact mm]).
  assert (ZZ : 0 <= u * u * (Z * Z)) by (apply Rmult_le_pos; apply Rmult_le_pos; lra).
  lra.
Qed.
End OneRay.
End Leave.

(** *** as stated in T_Leave.v *)
Section Stated.
Variables prec emax : Z.
Context (Hp : Prec_gt_0 prec) (Hm : Prec_lt_emax prec emax).
Variable lm : libm (binary_float prec emax).
Notation float := (binary_float prec emax).
Notation N := (FL prec emax Hp Hm lm).
Notation u := (bpow radix2 (- prec)).
Variable k : Z.
Lemma leave_stated : (24 <= prec)%Z -> (0 <= k)%Z -> (4 * k + 6 * prec + 16 <= emax)%Z ->
  forall (fs : sphere float) (fray : ray float) (c o d : vec3 R) (r : R),
  map3 fval (s_center fs) = fin3 c -> fval (s_radius fs) = Fin r -> map3 fval (r_orig fray) = fin3 o -> map3 fval (r_dir fray) = fin3 d ->
  moderate3 k c -> moderate k r -> moderate3 k o -> moderate3 k d -> d <> V3 0 0 0 ->
  forall lo hi l rec, fval lo = Fin l -> 0 < l ->
  let W := distR o c in let rise := dotR (subR o c) d - 13 * u * W * normR d in
  0 <= rise -> 8 * u * (W * W + r * r) + (r * r - W * W) < 2 * l * rise ->
  sphere_hit (F:=N) fs fray lo hi rec = Ok (false, rec).
Proof.
  intros P24 K0 K [fc fr] [fo fd] c o d r Vc Vr Vo Vd Mc Mr Mo Md Zd lo hi l rec El L0. cbn [s_center s_radius r_orig r_dir] in *. apply vals_fval in Vc, Vo, Vd. apply val_fval in Vr. cbv zeta. unfold distR. intros R0 H.
  apply (leaving_miss prec emax Hp Hm lm k P24 K0 K fo fc fd fr o c d r Vo Vc Vd Vr Mo Mc Md Mr Zd lo hi l rec El L0); lra.
Qed.
Lemma bounce_stated : (24 <= prec)%Z -> (0 <= k)%Z -> (4 * k + 6 * prec + 16 <= emax)%Z ->
  forall (fs : sphere float) (fray : ray float) (c o d : vec3 R) (r : R),
  map3 fval (s_center fs) = fin3 c -> fval (s_radius fs) = Fin r -> map3 fval (r_orig fray) = fin3 o -> map3 fval (r_dir fray) = fin3 d ->
  moderate3 k c -> moderate k r -> moderate3 k o -> moderate3 k d -> r <> 0 -> d <> V3 0 0 0 -> Rabs r <= distR o c ->
  forall lo hi rec rec', sphere_hit (F:=N) fs fray lo hi rec = Ok (true, rec') ->
  let W := distR o c in let err := u * (131 * (W * W) + 3 * W * normR c) + 9 * (u * u) * normsqR c in
  exists p, map3 fval (h_p rec') = fin3 p /\ Rabs (normsqR (subR p c) - r * r) <= err /\
    forall (fd' : vec3 float) (d' : vec3 R) lo' hi' l rec2, map3 fval fd' = fin3 d' -> moderate3 k p -> moderate3 k d' -> d' <> V3 0 0 0 -> fval lo' = Fin l -> 0 < l ->
    let rise := dotR (subR p c) d' - 13 * u * distR p c * normR d' in
    0 <= rise -> err + 8 * u * (distR p c * distR p c + r * r) < 2 * l * rise ->
    sphere_hit (F:=N) fs (Ray (h_p rec') fd') lo' hi' rec2 = Ok (false, rec2).
Proof.
  intros P24 K0 K fs fray c o d r Vc Vr Vo Vd Mc Mr Mo Md Zr Zd Out lo hi rec rec' H. cbv zeta.
  assert (X : exists p, map3 fval (h_p rec') = fin3 p /\ Rabs (normsqR (subR p c) - r * r) <= u * (131 * (distR o c * distR o c) + 3 * distR o c * normR c) + 9 * (u * u) * normsqR c).
  { destruct fs as [fc fr], fray as [fo fd]. cbn [s_center s_radius r_orig r_dir] in *. apply vals_fval in Vc, Vo, Vd. apply val_fval in Vr.
    destruct (hit_near prec emax Hp Hm lm k P24 K0 K fo fc fd fr o c d r Vo Vc Vd Vr Mo Mc Md Mr Zd Out Zr lo hi rec rec' H) as (p & Vp & E). exists p. split; [apply vals_fval; exact Vp|exact E]. }
  destruct X as (p & Vp & E). exists p. split; [exact Vp|]. split; [exact E|]. intros fd' d' lo' hi' l rec2 Vd' Mp Md' Zd' El L0 R0 H2.
  assert (Q : distR p c * distR p c = normsqR (subR p c)) by (unfold distR, normR; apply sqrt_sqrt; unfold normsqR, dotR; nra).
  apply (leave_stated P24 K0 K fs (Ray (h_p rec') fd') c p d' r Vc Vr Vp Vd' Mc Mr Mp Md' Zd' lo' hi' l rec2 El L0 R0). rewrite Q in H2 |- *. apply Rabs_le_inv in E. lra.
Qed.
End Stated.
