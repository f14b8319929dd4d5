(** newton in space keeps to its box. *)
From Coq Require Import Reals Lra ZArith List Bool.
From Verif Require Import Num XR FL Spec M_Vec M_Matrix M_Rng M_Iter Spec_Iter Spec_Solver
  P_Torus P_Rng P_Bisect P_Matrix P_NewtonND P_Bounded.
Import ListNotations.
Local Open Scope R_scope.

Section Space.
Context {L : limits}.
Notation X := (XR L).
Variable f : list xr -> list xr * list (list xr).
Variable V : R -> R -> R -> vec3 R.
Variable J : R -> R -> R -> mat3 R.
Variables e0 e1 e2 : xr * xr.
Variables s0 s1 s2 : R.
Hypothesis Hf : forall x y z, f [Fin x; Fin y; Fin z] = (map Fin (coords (V x y z)), map (map Fin) (matrix_rows (J x y z))).
Hypothesis P0 : real_end e0.
Hypothesis P1 : real_end e1.
Hypothesis P2 : real_end e2.
Hypothesis HJ : forall x y z, between e0 s0 x -> between e1 s1 y -> between e2 s2 z -> detR (J x y z) <> 0 /\ pivots_ok (J x y z).

Notation ends := [e0; e1; e2].
Definition in3 (x y z : R) : Prop := between e0 s0 x /\ between e1 s1 y /\ between e2 s2 z.
Definition inside3 (s : nstate (F:=X)) : Prop := exists x y z g, ns_guess s = [Fin x; Fin y; Fin z] /\ in3 x y z /\
  f (ns_guess s) = (ns_v s, ns_J s) /\ ns_g s = Fin g.

Lemma restart3 : forall rng p g', random_point (F:=X) ends rng = (p, g') -> exists x y z, p = [Fin x; Fin y; Fin z] /\ in3 x y z.
Proof.
  intros rng p g' E. destruct P0 as (l0 & h0 & E0 & H0), P1 as (l1 & h1 & E1 & H1), P2 as (l2 & h2 & E2 & H2).
  destruct (random_point_finite L [(l0, h0); (l1, h1); (l2, h2)] rng) as (x & Ex & W); [constructor; [exact H0|constructor; [exact H1|constructor; [exact H2|constructor]]]|].
  cbn [map fst snd] in Ex. rewrite <- E0, <- E1, <- E2 in Ex. change (@num X) with xr in *. rewrite E in Ex. cbn [fst] in Ex. subst p.
  inversion W as [|? x0 ? y [A0 B0] W1]; subst. inversion W1 as [|? x1 ? z [A1 B1] W2]; subst. inversion W2 as [|? x2 ? w [A2 B2] W3]; subst. inversion W3; subst.
  exists x0, x1, x2. split; [reflexivity|]. unfold in3.
  rewrite E0, E1, E2; cbn in *. repeat split; left; cbn; assumption.
Qed.
Lemma sqnorm3 : forall v : vec3 R, lsqnorm (F:=X) (map Fin (coords v)) = Fin (vx v * vx v + vy v * vy v + vz v * vz v).
Proof. intros [a b c]. cbn. f_equal. ring. Qed.
Lemma in3_convex : forall x y z a b c m, in3 x y z -> in3 (x + a) (y + b) (z + c) -> 0 <= m <= 1 -> in3 (x + m * a) (y + m * b) (z + m * c).
Proof.
  intros x y z a b c m (A & B & C) (A' & B' & C') M.
  replace (x + m * a) with (x + m * ((x + a) - x)) by ring. replace (y + m * b) with (y + m * ((y + b) - y)) by ring. replace (z + m * c) with (z + m * ((z + c) - z)) by ring.
  repeat split; apply between_convex; assumption.
Qed.

Lemma accept_inside : forall (s : nstate (F:=X)) x y z g a b c m, ns_guess s = [Fin x; Fin y; Fin z] -> ns_g s = Fin g ->
  (ns_v s, ns_J s) = (map Fin (coords (V x y z)), map (map Fin) (matrix_rows (J x y z))) ->
  in3 x y z -> in3 (x + a) (y + b) (z + c) ->
  mvR (J x y z) (V3 a b c) = V3 (- m * vx (V x y z)) (- m * vy (V x y z)) (- m * vz (V x y z)) -> 0 <= m ->
  inside3 (newton_accept (F:=X) f ends s [Fin a; Fin b; Fin c] [Fin (x + a); Fin (y + b); Fin (z + c)]).
Proof.
  intros s x y z g a b c m Eg Egg Evj I N Sv M. unfold newton_accept.
  apply pair_equal_spec in Evj. destruct Evj as [Ev EJ]. rewrite Eg, Egg, Ev, EJ. change (@num X) with xr in *. rewrite (Hf (x + a)), sqnorm3, half.
  set (g1 := (_ + _ + _) / 2). cbn [nltb XR xltb].
  destruct (Rltb_spec g g1) as [G|G].
  2:{ exists (x + a), (y + b), (z + c), g1. cbn [ns_guess ns_v ns_J ns_g]. repeat split; auto; apply N. }
  set (gp := ldot (F:=X) (lmulmv (F:=X) _ _) _).
  set (Q := vx (V x y z) * vx (V x y z) + vy (V x y z) * vy (V x y z) + vz (V x y z) * vz (V x y z)).
  assert (Egp : gp = Fin (- m * Q)).
  { unfold gp, Q. destruct (V x y z) as [v0 v1 v2]. destruct (J x y z) as [a00 a01 a02 a10 a11 a12 a20 a21 a22]. unfold mvR in Sv. cbn in Sv. injection Sv as Q0 Q1 Q2.
    unfold lmulmv, ldot, matrix_rows, coords. cbn. f_equal.
    replace (0 + a00 * a + a01 * b + a02 * c) with (- m * v0) by lra. replace (0 + a10 * a + a11 * b + a12 * c) with (- m * v1) by lra. replace (0 + a20 * a + a21 * b + a22 * c) with (- m * v2) by lra. ring. }
  rewrite Egp. assert (HQ : 0 <= Q) by (unfold Q; nra). assert (HmQ : 0 <= m * Q) by (apply Rmult_le_pos; assumption). clearbody Q.
  set (lam := ndiv (NumOps:=X) (nneg (NumOps:=X) (Fin (- m * Q))) _).
  assert (El : exists l, lam = Fin l /\ 0 <= l <= 1).
  { unfold lam. change (nofZ (NumOps:=X) 2) with (Fin 2). xred. rewrite xdiv_fin by lra. eexists. split; [reflexivity|].
    assert (D : 0 < 2 * (g1 - g - - m * Q)) by lra. split.
    - apply Rmult_le_pos; [lra|apply Rlt_le, Rinv_0_lt_compat; exact D].
    - apply Rmult_le_reg_r with (2 * (g1 - g - - m * Q)); [exact D|]. unfold Rdiv. rewrite Rmult_assoc, Rinv_l by lra. lra. }
  destruct El as (l & -> & Hl).
  assert (Eng : ladd (F:=X) [Fin x; Fin y; Fin z] (lscale (F:=X) (Fin l) [Fin a; Fin b; Fin c]) = [Fin (x + l * a); Fin (y + l * b); Fin (z + l * c)]) by reflexivity.
  change (@num X) with xr in *. rewrite Eng, Hf, sqnorm3, half. cbn [nltb XR xltb].
  match goal with |- context [Rltb g ?t] => destruct (Rltb_spec g t) as [G2|G2] end.
  - destruct (random_point (F:=X) ends (ns_rng s)) as [pt g'] eqn:Er. change (@num X) with xr in *. destruct (restart3 _ _ _ Er) as (y0 & y1 & y2 & -> & C).
    destruct (f [Fin y0; Fin y1; Fin y2]) as [v3 J3] eqn:F3. rewrite sqnorm3, half. exists y0, y1, y2. eexists. cbn [ns_guess ns_v ns_J ns_g]. repeat split; auto; apply C.
  - exists (x + l * a), (y + l * b), (z + l * c). eexists. cbn [ns_guess ns_v ns_J ns_g]. split; [reflexivity|]. split; [apply in3_convex; assumption|].
    split; [apply Hf|reflexivity].
Qed.

Lemma body_inside : forall s, inside3 s -> exists a, newton_nd_body (F:=X) f ends s = Ok a /\
  match a with Return (x, _, _) => all_nan x | Go s' => inside3 s' end.
Proof.
  intros s (x & y & z & g & Eg & I & Ef & Egg). rewrite Eg in Ef. change (@num X) with xr in *. rewrite Hf in Ef. pose proof I as (I0 & I1 & I2).
  destruct (HJ x y z I0 I1 I2) as [Dt Pv].
  destruct (solve3_ok L (J x y z) (V3 (- vx (V x y z)) (- vy (V x y z)) (- vz (V x y z))) Dt Pv) as ([a b c] & Es & Sv).
  assert (Ls : lsolve (F:=X) (ns_J s) (lneg (F:=X) (ns_v s)) = Ok [Fin a; Fin b; Fin c]).
  { pose proof (f_equal fst Ef) as E1. pose proof (f_equal snd Ef) as E2. cbn [fst snd] in E1, E2. rewrite <- E1, <- E2. unfold lsolve, lneg, matrix_rows, coords.
    destruct (V x y z) as [v0 v1 v2], (J x y z) as [a00 a01 a02 a10 a11 a12 a20 a21 a22]. cbn [map m00 m01 m02 m10 m11 m12 m20 m21 m22 vx vy vz] in *.
    cbn [nneg XR xneg]. unfold finm3, mapm3, fin3, map3 in Es. cbn [map m00 m01 m02 m10 m11 m12 m20 m21 m22 vx vy vz] in Es. change (@num X) with xr in *. rewrite Es. reflexivity. }
  unfold newton_nd_body. rewrite Ls. cbn [obind]. rewrite Eg.
  assert (Eng : ladd (F:=X) [Fin x; Fin y; Fin z] [Fin a; Fin b; Fin c] = [Fin (x + a); Fin (y + b); Fin (z + c)]) by reflexivity.
  change (@num X) with xr in *. rewrite Eng.
  assert (Rs : exists a', (let '(guess, rng) := random_point (F:=X) ends (ns_rng s) in
      let left := S (ns_left s) in
      if Nat.ltb 6 left then Ok (Return (lnans (F:=X) (length guess), rng, ns_calls s))
      else let '(v, J) := f guess in
        Ok (Go (NS (F:=X) guess v J (ndiv (NumOps:=X) (lsqnorm (F:=X) v) (nofZ (NumOps:=X) 2)) (ns_expected s) left rng (guess :: ns_calls s)))) = Ok a' /\
      match a' with Return (x, _, _) => all_nan x | Go s' => inside3 s' end).
  { destruct (random_point (F:=X) ends (ns_rng s)) as [pt g'] eqn:Er. change (@num X) with xr in *. cbv zeta.
    destruct (Nat.ltb 6 (S (ns_left s))); [eexists; split; [reflexivity|]; apply lnans_nan|].
    destruct (restart3 _ _ _ Er) as (y0 & y1 & y2 & -> & C). rewrite Hf, sqnorm3, half. eexists. split; [reflexivity|].
    exists y0, y1, y2. eexists. cbn [ns_guess ns_v ns_J ns_g]. split; [reflexivity|]. split; [exact C|]. split; [apply Hf|reflexivity]. }
  destruct (contains_vec (F:=X) ends [Fin (x + a); Fin (y + b); Fin (z + c)]) eqn:C.
  - eexists. split; [reflexivity|]. change [Fin (x + a); Fin (y + b); Fin (z + c)] with (map Fin [x + a; y + b; z + c]) in C.
    apply (contains_vec_within L ends [x + a; y + b; z + c]) in C; [|repeat constructor; apply real_proper; assumption|reflexivity].
    inversion C as [|? ? ? ? [A0 A0'] W1]; subst. inversion W1 as [|? ? ? ? [A1 A1'] W2]; subst. inversion W2 as [|? ? ? ? [A2 A2'] W3]; subst.
    apply accept_inside with (g := g) (m := 1); auto; try lra.
    + repeat split; left; assumption.
    + rewrite Sv. f_equal; ring.
  - assert (El : lambda_max (F:=X) ends [Fin (x + a); Fin (y + b); Fin (z + c)] [Fin x; Fin y; Fin z] [Fin a; Fin b; Fin c] (nofZ (NumOps:=X) 1) =
      shrink (L := L) e2 (Fin (z + c)) (Fin z) (Fin c) (shrink (L := L) e1 (Fin (y + b)) (Fin y) (Fin b) (shrink (L := L) e0 (Fin (x + a)) (Fin x) (Fin a) (Fin 1)))).
    { destruct e0 as [l0 h0], e1 as [l1 h1], e2 as [l2 h2]. reflexivity. }
    change (@num X) with xr in *. rewrite El. change (nofZ (NumOps:=X) 1) with (Fin 1). change (nofZ (NumOps:=X) 10) with (Fin 10).
    replace (ndiv (NumOps:=X) (Fin 1) (Fin 10)) with (Fin (1 / 10)) by (cbn [ndiv XR]; rewrite xdiv_fin by lra; reflexivity).
    destruct (shrink_fin (L := L) e0 s0 x a 1 (real_proper e0 P0) I0 ltac:(lra)) as [E0|(k0 & E0 & M0 & K0)]; rewrite E0.
    { rewrite (shrink_minf e1 s1 y b (real_proper e1 P1) I1), (shrink_minf e2 s2 z c (real_proper e2 P2) I2). cbn [nleb XR xleb]. exact Rs. }
    destruct (shrink_fin (L := L) e1 s1 y b k0 (real_proper e1 P1) I1 M0) as [E1|(k1 & E1 & M1 & K1)]; rewrite E1.
    { rewrite (shrink_minf e2 s2 z c (real_proper e2 P2) I2). cbn [nleb XR xleb]. exact Rs. }
    destruct (shrink_fin (L := L) e2 s2 z c k1 (real_proper e2 P2) I2 ltac:(lra)) as [E2|(k2 & E2 & M2 & K2)]; rewrite E2.
    { cbn [nleb XR xleb]. exact Rs. }
    cbn [nleb XR xleb]. destruct (Rleb_spec k2 (1 / 10)) as [T|T]; [exact Rs|].
    eexists. split; [reflexivity|]. cbv beta iota.
    change (inside3 (newton_accept (F:=X) f ends s [Fin (a * k2); Fin (b * k2); Fin (c * k2)] [Fin (x + a * k2); Fin (y + b * k2); Fin (z + c * k2)])).
    assert (Cv : forall e s w d k, 0 < k2 <= k -> between e s w -> between e s (w + k * d) -> between e s (w + d * k2)).
    { clear. intros e s w d k K A B. replace (w + d * k2) with (w + k2 / k * ((w + k * d) - w)) by (field; lra). apply between_convex; [exact A|exact B|].
      split; [apply Rmult_le_pos; [lra|apply Rlt_le, Rinv_0_lt_compat; lra]|]. apply Rmult_le_reg_r with k; [lra|]. unfold Rdiv. rewrite Rmult_assoc, Rinv_l by lra. lra. }
    apply accept_inside with (g := g) (m := k2); auto; try lra.
    + split; [apply (Cv e0 s0 x a k0); [lra|exact I0|apply K0; lra]|]. split; [apply (Cv e1 s1 y b k1); [lra|exact I1|apply K1; lra]|]. rewrite (Rmult_comm c). apply K2. lra.
    + unfold mvR in *. cbn [vx vy vz] in *. injection Sv as Q0 Q1 Q2. f_equal.
      * rewrite <- (Ropp_involutive (vx (V x y z))), <- Q0. ring.
      * rewrite <- (Ropp_involutive (vy (V x y z))), <- Q1. ring.
      * rewrite <- (Ropp_involutive (vz (V x y z))), <- Q2. ring.
Qed.

Definition answer3 (r : list xr) : Prop := all_nan r \/ exists x y z, r = [Fin x; Fin y; Fin z] /\ in3 x y z.
Lemma finish_inside : forall s, inside3 s -> exists r g c, newton_nd_finish (F:=X) s = (r, g, c) /\ answer3 r.
Proof.
  intros s (x & y & z & g & E & I & _). unfold newton_nd_finish. match goal with |- context [if ?c then _ else _] => destruct c end; do 3 eexists; (split; [reflexivity|]).
  - right. exists x, y, z. auto.
  - left. apply lnans_nan.
Qed.
Lemma loop_inside : forall n s, inside3 s -> exists r g c, newton_nd_loop (F:=X) f ends n s = Ok (r, g, c) /\ answer3 r.
Proof.
  induction n as [|n IH]; intros s I; cbn [newton_nd_loop]; destruct (body_inside s I) as (a & B & K); change (@num X) with xr in *; rewrite B; cbn [obind];
    (destruct a as [[[x g'] c']|s']; [do 3 eexists; split; [reflexivity|left; exact K]|]);
    destruct (finish_inside s' K) as (r & g & c & E & A).
  - rewrite E. match goal with |- context [if ?c then _ else _] => destruct c end; exists r, g, c; auto.
  - match goal with |- context [if ?c then _ else _] => destruct c end; [apply IH; exact K|]. rewrite E. exists r, g, c. auto.
Qed.
Lemma newton_space : forall rng n, exists r g c,
  newton_nd (F:=X) f (Bounds (F:=X) ends rng) [Fin s0; Fin s1; Fin s2] n = Ok (r, g, c) /\ answer3 r.
Proof.
  intros rng n. unfold newton_nd. cbn [b_ends b_rng]. change (@num X) with xr in *. rewrite Hf, sqnorm3, half. apply loop_inside.
  exists s0, s1, s2. eexists. cbn [ns_guess ns_v ns_J ns_g]. split; [reflexivity|]. split; [unfold in3, between; repeat split; right; lra|]. split; [apply Hf|reflexivity].
Qed.
End Space.

Lemma newton_box3 : forall (L : limits) (f : system (F:=XR L)) V J lo0 hi0 lo1 hi1 lo2 hi2 rng s0 s1 s2 n,
  (forall x y z, f [Fin x; Fin y; Fin z] = (map Fin (coords (V x y z)), map (map Fin) (matrix_rows (J x y z)))) ->
  lo0 <= hi0 -> lo1 <= hi1 -> lo2 <= hi2 ->
  (forall x y z, Rmin lo0 s0 <= x <= Rmax hi0 s0 -> Rmin lo1 s1 <= y <= Rmax hi1 s1 -> Rmin lo2 s2 <= z <= Rmax hi2 s2 ->
     detR (J x y z) <> 0 /\ pivots_ok (J x y z)) ->
  exists r g c, newton_nd (F:=XR L) f (Bounds (F:=XR L) [(Fin lo0, Fin hi0); (Fin lo1, Fin hi1); (Fin lo2, Fin hi2)] rng) [Fin s0; Fin s1; Fin s2] n = Ok (r, g, c) /\
  (all_nan r \/ exists x y z, r = [Fin x; Fin y; Fin z] /\
     Rmin lo0 s0 <= x <= Rmax hi0 s0 /\ Rmin lo1 s1 <= y <= Rmax hi1 s1 /\ Rmin lo2 s2 <= z <= Rmax hi2 s2).
Proof.
  intros L f V J lo0 hi0 lo1 hi1 lo2 hi2 rng s0 s1 s2 n Hf H0 H1 H2 HJ.
  assert (B : forall lo hi s x, between (Fin lo, Fin hi) s x -> Rmin lo s <= x <= Rmax hi s).
  { intros lo hi s x [A B]. cbn in *. split; [destruct A; eapply Rle_trans; [apply Rmin_l|eassumption|apply Rmin_r|eassumption]|].
    destruct B as [B|B]; (eapply Rle_trans; [exact B|]); [apply Rmax_l|apply Rmax_r]. }
  destruct (newton_space (L := L) f V J (Fin lo0, Fin hi0) (Fin lo1, Fin hi1) (Fin lo2, Fin hi2) s0 s1 s2 Hf) with (rng := rng) (n := n) as (r & g & c & E & A).
  - exists lo0, hi0; auto.
  - exists lo1, hi1; auto.
  - exists lo2, hi2; auto.
  - intros x y z I0 I1 I2. apply HJ; apply B; assumption.
  - exists r, g, c. split; [exact E|]. destruct A as [A|(x & y & z & Er & I0 & I1 & I2)]; [left; exact A|right]. exists x, y, z. auto.
Qed.

(** the hypotheses, of the linear system with matrix_rows (1 2 3), (4 5 6), (7 8 10) *)
Definition line_V (x y z : R) : vec3 R := V3 (x + 2 * y + 3 * z - 1) (4 * x + 5 * y + 6 * z) (7 * x + 8 * y + 10 * z - 1).
Definition line_f (w : list xr) : list xr * list (list xr) :=
  match w with
  | [Fin x; Fin y; Fin z] => (map Fin (coords (line_V x y z)), map (map Fin) [[1; 2; 3]; [4; 5; 6]; [7; 8; 10]])
  | _ => ([], [])
  end.
Lemma newton_box3_case : (forall x y z, line_f [Fin x; Fin y; Fin z] = (map Fin (coords (line_V x y z)), map (map Fin) (matrix_rows (M3 1 2 3 4 5 6 7 8 10)))) /\
  detR (M3 1 2 3 4 5 6 7 8 10) <> 0 /\ pivots_ok (M3 1 2 3 4 5 6 7 8 10).
Proof. split; [reflexivity|]. split; [unfold detR; cbn; lra|]. left. cbn. lra. Qed.
