(** Where sphere::hit reports hits, in floating point: the proofs that follow the code after the
    coefficients of P_SphereFloat.v. *)
From Coq Require Import Reals Lra Psatz ZArith Lia List Bool.
From Flocq Require Import Core BinarySingleNaN Relative.
From Verif Require Import Num XR FL Spec Spec_Accuracy M_Vec M_Roots M_Hittable M_Shapes P_FL P_Round P_Accuracy P_Floats P_SphereFloat.
Import ListNotations.
Local Open Scope R_scope.

(** the discriminant of the perturbed quadratic stays positive *)
Lemma disc_kept : forall u, 0 < u <= 1 / 10000000 -> forall S D b c a' b' c', 0 < S -> 0 < D -> Rabs b <= 8 * S * D -> Rabs c <= 13 * (S * S) ->
  Rabs (a' - D * D) <= 4 * u * (D * D) -> Rabs (b' - b) <= 50 * u * S * D -> Rabs (c' - c) <= 100 * u * (S * S) ->
  1600 * u * (S * S) * (D * D) <= b * b - 4 * (D * D) * c -> 0 <= b' * b' - 4 * a' * c'.
Proof.
  intros u U S D b c a' b' c' S0 D0 Hb Hc Ha' Hb' Hc' H. set (W := S * S * (D * D)). assert (W0 : 0 < W) by (unfold W; assert (0 < S * S) by nra; assert (0 < D * D) by nra; nra).
  assert (uW : u * W <= 1 / 10000000 * W) by (apply Rmult_le_compat_r; lra). assert (uW0 : 0 < u * W) by (apply Rmult_lt_0_compat; lra).
  assert (I1 : Rabs (b * (b' - b)) <= 400 * (u * W)).
  { rewrite Rabs_mult. replace (400 * (u * W)) with (8 * S * D * (50 * u * S * D)) by (unfold W; ring). apply Rmult_le_compat; auto using Rabs_pos. }
  assert (I2 : Rabs (D * D * (c' - c)) <= 100 * (u * W)).
  { rewrite Rabs_mult, (Rabs_pos_eq (D * D)) by nra. replace (100 * (u * W)) with (D * D * (100 * u * (S * S))) by (unfold W; ring). apply Rmult_le_compat_l; [nra|exact Hc']. }
  assert (I3 : Rabs ((a' - D * D) * c) <= 52 * (u * W)).
  { rewrite Rabs_mult. replace (52 * (u * W)) with (4 * u * (D * D) * (13 * (S * S))) by (unfold W; ring). apply Rmult_le_compat; auto using Rabs_pos. }
  assert (I4 : Rabs ((a' - D * D) * (c' - c)) <= 1 / 10 * (u * W)).
  { rewrite Rabs_mult. apply Rle_trans with (4 * u * (D * D) * (100 * u * (S * S))); [apply Rmult_le_compat; auto using Rabs_pos|]. replace (4 * u * (D * D) * (100 * u * (S * S))) with (400 * u * (u * W)) by (unfold W; ring). assert (400 * u * (u * W) <= 1 / 10 * (u * W)) by (apply Rmult_le_compat_r; lra). lra. }
  assert (I5 : 0 <= (b' - b) * (b' - b)) by apply Rle_0_sqr.
  apply Rabs_le_inv in I1, I2, I3, I4. replace (1600 * u * (S * S) * (D * D)) with (1600 * (u * W)) in H by (unfold W; ring).
  replace (b' * b' - 4 * a' * c') with (b * b - 4 * (D * D) * c + 2 * (b * (b' - b)) + (b' - b) * (b' - b) - 4 * (D * D * (c' - c)) - 4 * ((a' - D * D) * c) - 4 * ((a' - D * D) * (c' - c))) by ring. lra.
Qed.

Section Hit.
Variables prec emax : Z.
Context (Hp : Prec_gt_0 prec) (Hm : Prec_lt_emax prec emax).
Variable lm : libm (binary_float prec emax).
Notation float := (binary_float prec emax).
Notation N := (FL prec emax Hp Hm lm).
Notation rnd := (round radix2 (SpecFloat.fexp prec emax) ZnearestE).
Notation val := (val prec emax).
Notation vals := (vals prec emax).
Notation b2 := (bpow radix2).
Notation u := (bpow radix2 (- prec)).
Variable k : Z.
Hypothesis P24 : (24 <= prec)%Z.
Hypothesis K0 : (0 <= k)%Z.
Hypothesis K : (4 * k + 6 * prec + 16 <= emax)%Z.
Lemma PP8 : (8 <= prec)%Z. Proof. lia. Qed.
Lemma KK2 : (2 * (2 * k + 2 * prec) + 2 * prec + 8 <= emax)%Z. Proof. lia. Qed.
Lemma KK0 : (0 <= 2 * k + 2 * prec)%Z. Proof. lia. Qed.

(** the rounding error of anything, the subnormal range included *)
Lemma rnd_near : forall x, Rabs (rnd x - x) <= u * (Rabs x + b2 (- k) / 100).
Proof.
  intros x. assert (P0 : (0 < prec)%Z) by lia.
  destruct (error_N_FLT radix2 (3 - emax - prec) prec P0 (fun z => negb (Z.even z)) x) as (e & t & He & Ht & _ & E).
  change (round radix2 (SpecFloat.fexp prec emax) ZnearestE x) with (round radix2 (FLT_exp (3 - emax - prec) prec) ZnearestE x). unfold ZnearestE in *. rewrite E.
  replace (x * (1 + e) + t - x) with (e * x + t) by ring. eapply Rle_trans; [apply Rabs_triang|]. rewrite Rabs_mult.
  assert (He' : Rabs e <= u) by (eapply Rle_trans; [exact He|]; rewrite bpow_plus; cbn; lra).
  assert (Ht' : Rabs t <= u * (b2 (- k) / 100)).
  { eapply Rle_trans; [exact Ht|]. apply Rle_trans with (b2 (- prec + - k + -7)); [apply Rle_trans with (b2 (3 - emax - prec)); [pose proof (bpow_gt_0 radix2 (3 - emax - prec)); lra|apply bpow_le; lia]|].
    rewrite !bpow_plus. pose proof (bpow_gt_0 radix2 (- prec)). pose proof (bpow_gt_0 radix2 (- k)). assert (0 < u * b2 (- k)) by (apply Rmult_lt_0_compat; assumption). cbn. lra. }
  assert (Rabs e * Rabs x <= u * Rabs x) by (apply Rmult_le_compat_r; [apply Rabs_pos|exact He']). lra.
Qed.
Lemma rnd_scaled : forall x q S, b2 (- k) <= S -> Rabs x <= q * S -> Rabs (rnd x - x) <= (q + 1 / 100) * u * S.
Proof.
  intros x q S HS H. pose proof (rnd_near x) as E. pose proof (u_tiny prec k P24) as U. assert (u * (Rabs x + b2 (- k) / 100) <= u * (q * S + S / 100)) by (apply Rmult_le_compat_l; lra). lra.
Qed.

Lemma point_component : forall (fo fy fd : float) o y d, val fo o -> val fy y -> val fd d -> Rabs o <= b2 k -> Rabs (y * d) <= 11 * b2 k ->
  exists p, val (nadd (NumOps:=N) fo (nmul (NumOps:=N) fy fd)) p /\
    forall S, b2 (- k) <= S -> Rabs o <= S -> Rabs (y * d) <= 101 / 10 * S -> Rabs (p - (o + y * d)) <= 22 * u * S.
Proof.
  intros fo fy fd o y d O Y D Bo By. pose proof (u_tiny prec k P24) as U. pose proof (bpow_gt_0 radix2 k) as k0. pose proof (bpow_gt_0 radix2 (- k)) as k1.
  assert (k2 : b2 (- k) <= b2 k) by (apply bpow_le; lia).
  assert (Big : forall x, x <= 16 * b2 k -> x <= b2 (emax - 1)) by (intros x Hx; apply (big_enough prec emax k 4 k); [lia|lia|exact Hx]).
  assert (M : val (nmul (NumOps:=N) fy fd) (rnd (y * d))) by (apply mult_val; auto; apply Big; lra).
  pose proof (rnd_scaled (y * d) 11 (b2 k) k2 By) as E1. assert (u1 : u * b2 k <= 1 / 10000000 * b2 k) by (apply Rmult_le_compat_r; lra).
  assert (T : Rabs (o + rnd (y * d)) <= 13 * b2 k).
  { replace (o + rnd (y * d)) with (o + y * d + (rnd (y * d) - y * d)) by ring. eapply Rle_trans; [apply Rabs_triang|]. pose proof (Rabs_triang o (y * d)). lra. }
  exists (rnd (o + rnd (y * d))). split; [apply plus_val; auto; apply Big; lra|].
  intros S HS So Sy. assert (u2 : u * S <= 1 / 10000000 * S) by (apply Rmult_le_compat_r; lra). assert (u3 : 0 < u * S) by (apply Rmult_lt_0_compat; lra).
  pose proof (rnd_scaled (y * d) (101 / 10) S HS Sy) as F1.
  assert (Q : Rabs (o + rnd (y * d)) <= 112 / 10 * S).
  { replace (o + rnd (y * d)) with (o + y * d + (rnd (y * d) - y * d)) by ring. eapply Rle_trans; [apply Rabs_triang|]. pose proof (Rabs_triang o (y * d)). lra. }
  pose proof (rnd_scaled _ _ S HS Q) as F2. replace (rnd (o + rnd (y * d)) - (o + y * d)) with ((rnd (o + rnd (y * d)) - (o + rnd (y * d))) + (rnd (y * d) - y * d)) by ring.
  eapply Rle_trans; [apply Rabs_triang|]. lra.
Qed.

(** a component of the outward normal *)
Lemma normal_component : forall (fp fc fr : float) p c r, val fp p -> val fc c -> val fr r -> b2 (- k) <= Rabs r -> Rabs (p - c) <= 2 * b2 k ->
  exists n, val (ndiv (NumOps:=N) (nsub (NumOps:=N) fp fc) fr) n /\
    forall S, Rabs r <= S -> Rabs (p - c) <= 101 / 100 * S -> Rabs (n - (p - c) / r) <= 3 * u * (S / Rabs r).
Proof.
  intros fp fc fr p c r Vp Vc Vr Br Bp. pose proof (u_tiny prec k P24) as U. pose proof (bpow_gt_0 radix2 k) as k0. pose proof (bpow_gt_0 radix2 (- k)) as k1.
  assert (k2 : b2 (- k) <= b2 k) by (apply bpow_le; lia). assert (r0 : 0 < Rabs r) by lra. assert (rn : r <> 0) by (intros ->; rewrite Rabs_R0 in r0; lra).
  assert (i0 : 0 < / Rabs r) by (apply Rinv_0_lt_compat; exact r0).
  assert (Big : forall x, x <= 16 * b2 (2 * k) -> x <= b2 (emax - 1)) by (intros x Hx; apply (big_enough prec emax k 4 (2 * k)); [lia|lia|exact Hx]).
  assert (kk : b2 k <= b2 (2 * k)) by (apply bpow_le; lia).
  assert (M : val (nsub (NumOps:=N) fp fc) (rnd (p - c))) by (apply minus_val; auto; apply Big; lra).
  pose proof (rnd_scaled (p - c) 2 (b2 k) k2 Bp) as E1. assert (u1 : u * b2 k <= 1 / 10000000 * b2 k) by (apply Rmult_le_compat_r; lra).
  assert (T : Rabs (rnd (p - c)) <= 3 * b2 k).
  { replace (rnd (p - c)) with (p - c + (rnd (p - c) - (p - c))) by ring. eapply Rle_trans; [apply Rabs_triang|]. lra. }
  exists (rnd (rnd (p - c) / r)). split.
  - apply div_val; auto. apply Big. unfold Rdiv. rewrite Rabs_mult, Rabs_inv.
    apply Rle_trans with (3 * b2 k * b2 k); [|replace (2 * k)%Z with (k + k)%Z by ring; rewrite bpow_plus; nra].
    apply Rmult_le_compat; [apply Rabs_pos|lra|exact T|]. rewrite <- (Rinv_involutive (b2 k)) by lra. apply Rinv_le_contravar; [apply Rinv_0_lt_compat; exact k0|]. rewrite <- bpow_opp. exact Br.
  - intros S HS Sp. assert (HS' : b2 (- k) <= S) by lra. pose proof (rnd_scaled (p - c) (101 / 100) S HS' Sp) as F1.
    assert (u2 : u * S <= 1 / 10000000 * S) by (apply Rmult_le_compat_r; lra). assert (u3 : 0 < u * S) by (apply Rmult_lt_0_compat; lra).
    set (z := rnd (p - c)) in *. assert (Z : Rabs z <= 102 / 100 * S) by (replace z with (p - c + (z - (p - c))) by ring; eapply Rle_trans; [apply Rabs_triang|]; lra).
    set (X := S / Rabs r). assert (X1 : 1 <= X) by (unfold X; apply Rmult_le_reg_r with (Rabs r); [exact r0|]; unfold Rdiv; rewrite Rmult_assoc, Rinv_l, Rmult_1_r, Rmult_1_l by lra; exact HS).
    assert (k3 : b2 (- k) <= X) by (apply Rle_trans with 1; [change 1 with (b2 0); apply bpow_le; lia|exact X1]).
    assert (Zr : Rabs (z / r) <= 102 / 100 * X).
    { replace (z / r) with (z * / r) by reflexivity. rewrite Rabs_mult, Rabs_inv. replace (102 / 100 * X) with (102 / 100 * S * / Rabs r) by (unfold X; field; lra). apply Rmult_le_compat_r; lra. }
    pose proof (rnd_scaled _ _ X k3 Zr) as F2. assert (F3 : Rabs (z / r - (p - c) / r) <= (101 / 100 + 1 / 100) * u * X).
    { replace (z / r - (p - c) / r) with ((z - (p - c)) * / r) by (field; exact rn). rewrite Rabs_mult, Rabs_inv. replace ((101 / 100 + 1 / 100) * u * X) with ((101 / 100 + 1 / 100) * u * S * / Rabs r) by (unfold X; field; lra). apply Rmult_le_compat_r; lra. }
    replace (rnd (z / r) - (p - c) / r) with ((rnd (z / r) - z / r) + (z / r - (p - c) / r)) by ring. eapply Rle_trans; [apply Rabs_triang|]. assert (0 < u * X) by (apply Rmult_lt_0_compat; lra). lra.
Qed.

(** *** putting it together *)
Variables (fo fc fd : vec3 float) (fr : float) (o c d : vec3 R) (r : R).
Hypothesis Vo : vals fo o.
Hypothesis Vc : vals fc c.
Hypothesis Vd : vals fd d.
Hypothesis Vr : val fr r.
Hypothesis Mo : moderate3 k o.
Hypothesis Mc : moderate3 k c.
Hypothesis Md : moderate3 k d.
Hypothesis Mr : moderate k r.
Hypothesis Zd : d <> V3 0 0 0.
Hypothesis Zr : r <> 0.
Definition bounds (S : R) : Prop := within3 S o /\ within3 S c /\ Rabs r <= S.
Definition gap (q : vec3 R) : R := normsqR (subR q c) - r * r.

Lemma r_low : b2 (- k) <= Rabs r.
Proof. destruct Mr as [H|[H _]]; [contradiction|exact H]. Qed.
Lemma bounds_low : forall S, bounds S -> b2 (- k) <= S.
Proof. intros S (_ & _ & H). pose proof r_low. lra. Qed.
Lemma bounds_k : bounds (b2 k).
Proof.
  destruct Mo as (? & ? & ?), Mc as (? & ? & ?). split; [|split]; [| |apply moderate_bound; exact Mr]; (split; [|split]); apply moderate_bound; assumption.
Qed.
Lemma D_pos : 0 < normR d.
Proof. pose proof (normR_bounds k d Md Zd). pose proof (bpow_gt_0 radix2 (- k)). lra. Qed.
Lemma D_sq : normR d * normR d = normsqR d.
Proof. unfold normR. apply sqrt_sqrt. unfold normsqR, dotR. nra. Qed.
Lemma gap_line : forall y, gap (lineR o d y) = normR d * normR d * (y * y) + 2 * dotR (subR o c) d * y + (normsqR (subR o c) - r * r).
Proof.
  intros y. rewrite D_sq. unfold gap, lineR, normsqR, dotR, subR, addR, scaleR. cbn [vx vy vz]. ring.
Qed.
Lemma component_of_gap : forall S q, bounds S -> Rabs (gap q) <= 3000 * u * (S * S) -> within3 (101 / 100 * S) (subR q c).
Proof.
  intros S q B H. pose proof (bounds_low S B) as L. pose proof (bpow_gt_0 radix2 (- k)) as k1. assert (S0 : 0 < S) by lra. destruct B as (_ & _ & Hr). pose proof (u_tiny prec k P24) as U.
  assert (SS : 0 < S * S) by (apply Rmult_lt_0_compat; lra). assert (uS : u * (S * S) <= 1 / 10000000 * (S * S)) by (apply Rmult_le_compat_r; lra).
  assert (rr : r * r <= S * S) by (replace (r * r) with (Rabs r * Rabs r) by (rewrite <- Rabs_mult, Rabs_pos_eq; nra); apply Rmult_le_compat; auto using Rabs_pos).
  apply Rabs_le_inv in H. unfold gap in H. destruct (subR q c) as [x y z]. unfold normsqR, dotR in H. cbn [vx vy vz] in H.
  assert (J : forall a, a * a <= 1001 / 1000 * (S * S) -> Rabs a <= 101 / 100 * S).
  { intros a Ha. destruct (Rle_lt_dec (Rabs a) (101 / 100 * S)) as [|C]; [assumption|exfalso]. assert (101 / 100 * S * (101 / 100 * S) < Rabs a * Rabs a) by (apply Rmult_le_0_lt_compat; lra). replace (Rabs a * Rabs a) with (a * a) in * by (rewrite <- Rabs_mult, Rabs_pos_eq; nra). lra. }
  pose proof (Rle_0_sqr x) as X. pose proof (Rle_0_sqr y) as Y. pose proof (Rle_0_sqr z) as W. unfold Rsqr in *. split; [|split]; cbn [vx vy vz]; apply J; lra.
Qed.

(** a parameter near a root of the computed quadratic *)
Lemma near_root : exists A B C,
  val (squared_norm (F:=N) fd) A /\ val (nmul (NumOps:=N) (nofZ (NumOps:=N) 2) (dot (F:=N) (vsub (F:=N) fo fc) fd)) B /\
  val (nsub (NumOps:=N) (squared_norm (F:=N) (vsub (F:=N) fo fc)) (nmul (NumOps:=N) fr fr)) C /\
  moderate (2 * k + 2 * prec) A /\ moderate (2 * k + 2 * prec) B /\ moderate (2 * k + 2 * prec) C /\ A <> 0 /\
  (forall S t y, bounds S -> A * (t * t) + B * t + C = 0 -> Rabs (y - t) <= 6 * u * Rabs t ->
     Rabs (gap (lineR o d y)) <= 2700 * u * (S * S) /\ Rabs y * normR d <= 101 / 10 * S) /\
  (forall S, bounds S -> dotR (subR o c) d * dotR (subR o c) d - normsqR d * (normsqR (subR o c) - r * r) >= 400 * u * (S * S) * normsqR d -> 0 <= B * B - 4 * A * C).
Proof.
  destruct (coefficients prec emax Hp Hm lm k P24 K0 K fo fc fd fr o c d r Vo Vc Vd Vr Mo Mc Md Mr Zd) as (A & B & C & VA & VB & VC & MA & MB & MC & A0 & E). cbv zeta in E.
  exists A, B, C. do 7 (split; [assumption|]). split.
  - intros S t y HB R0 HN. pose proof (bounds_low S HB) as L. pose proof (bpow_gt_0 radix2 (- k)) as k1. assert (S0 : 0 < S) by lra.
    destruct HB as (H1 & H2 & H3). destruct (E S S0 H1 H2 H3) as (E1 & E2 & E3 & E4 & E5). rewrite gap_line.
    exact (residual u (u_tiny prec k P24) S (normR d) _ _ A B C S0 D_pos E1 E2 E3 E4 E5 t y R0 HN).
  - intros S HB HD. pose proof (bounds_low S HB) as L. pose proof (bpow_gt_0 radix2 (- k)) as k1. assert (S0 : 0 < S) by lra.
    destruct HB as (H1 & H2 & H3). destruct (E S S0 H1 H2 H3) as (E1 & E2 & E3 & E4 & E5). rewrite <- D_sq in HD. pose proof D_pos as D0. pose proof (u_tiny prec k P24) as U.
    exact (disc_kept u U S (normR d) (2 * dotR (subR o c) d) (normsqR (subR o c) - r * r) A B C S0 D0 E1 E2 E3 E4 E5 ltac:(lra)).
Qed.

Notation inside lo hi t := (xleb (fval lo) (Fin t) && xleb (Fin t) (fval hi) = true).
Notation fs := (Sphere fc fr).
Notation fray := (Ray fo fd).
Lemma root_of : forall A B C t0 t1, two_roots A B C t0 t1 -> A * (t0 * t0) + B * t0 + C = 0 /\ A * (t1 * t1) + B * t1 + C = 0.
Proof. intros A B C t0 t1 [_ H]. split; rewrite H; ring. Qed.

(** the reported parameter *)
Lemma first_near : forall lo hi f,
  first_quadratic_root_in_range (F:=N) (squared_norm (F:=N) fd) (nmul (NumOps:=N) (nofZ (NumOps:=N) 2) (dot (F:=N) (vsub (F:=N) fo fc) fd)) (nsub (NumOps:=N) (squared_norm (F:=N) (vsub (F:=N) fo fc)) (nmul (NumOps:=N) fr fr)) lo hi = Some f ->
  exists y, val f y /\ inside lo hi y /\ forall S, bounds S -> Rabs (gap (lineR o d y)) <= 2700 * u * (S * S) /\ Rabs y * normR d <= 101 / 10 * S.
Proof.
  intros lo hi f H. destruct near_root as (A & B & C & VA & VB & VC & MA & MB & MC & A0 & E & _). apply val_fval in VA, VB, VC.
  destruct (first_stated prec emax Hp Hm lm _ PP8 KK0 KK2 _ _ _ lo hi A B C VA VB VC MA MB MC A0) as [F1 F2].
  destruct (Rlt_le_dec (B * B - 4 * A * C) 0) as [D|D]; [rewrite (F1 D) in H; discriminate|].
  destruct (quadratic_stated prec emax Hp Hm lm _ PP8 KK0 KK2 _ _ _ A B C VA VB VC MA MB MC A0) as [_ Q]. destruct (Q D) as (_ & _ & _ & _ & t0 & t1 & _ & _ & _ & T & _). clear Q.
  specialize (F2 t0 t1 T). rewrite H in F2. destruct F2 as (y & V & I & Hn). exists y. split; [apply val_fval; exact V|]. split; [exact I|]. intros S HS. destruct (root_of _ _ _ _ _ T) as [R0 R1].
  destruct Hn as [Hn|[Hn _]]; [exact (E S t0 y HS R0 Hn)|exact (E S t1 y HS R1 Hn)].
Qed.

(** the point of the hit *)
Lemma point_near : forall (f : float) y, val f y -> (forall S, bounds S -> Rabs (gap (lineR o d y)) <= 2700 * u * (S * S) /\ Rabs y * normR d <= 101 / 10 * S) ->
  exists p, vals (ray_at (F:=N) fray f) p /\ forall S, bounds S -> within3 (22 * u * S) (subR p (lineR o d y)) /\ Rabs (gap p) <= 2900 * u * (S * S).
Proof.
  intros f y V H. pose proof (u_tiny prec k P24) as U. pose proof (component_le d) as (d1 & d2 & d3).
  assert (Yd : forall z, Rabs z <= normR d -> forall S, bounds S -> Rabs (y * z) <= 101 / 10 * S).
  { intros z Hz S HS. destruct (H S HS) as [_ H2]. rewrite Rabs_mult. eapply Rle_trans; [|exact H2]. apply Rmult_le_compat_l; [apply Rabs_pos|exact Hz]. }
  assert (Yk : forall z, Rabs z <= normR d -> Rabs (y * z) <= 11 * b2 k).
  { intros z Hz. pose proof (Yd z Hz _ bounds_k). pose proof (bpow_gt_0 radix2 k). lra. }
  destruct bounds_k as ((o1 & o2 & o3) & _). destruct Vo as (O1 & O2 & O3), Vd as (D1 & D2 & D3).
  destruct (point_component _ _ _ _ _ _ O1 V D1 o1 (Yk _ d1)) as (p1 & P1 & E1).
  destruct (point_component _ _ _ _ _ _ O2 V D2 o2 (Yk _ d2)) as (p2 & P2 & E2).
  destruct (point_component _ _ _ _ _ _ O3 V D3 o3 (Yk _ d3)) as (p3 & P3 & E3).
  exists (V3 p1 p2 p3). split; [split; [exact P1|split; [exact P2|exact P3]]|].
  intros S HS. pose proof (bounds_low S HS) as L. pose proof HS as ((q1 & q2 & q3) & _).
  pose proof (E1 S L q1 (Yd _ d1 S HS)) as X1. pose proof (E2 S L q2 (Yd _ d2 S HS)) as X2. pose proof (E3 S L q3 (Yd _ d3 S HS)) as X3.
  assert (W : within3 (22 * u * S) (subR (V3 p1 p2 p3) (lineR o d y))) by (split; [exact X1|split; [exact X2|exact X3]]).
  split; [exact W|]. destruct (H S HS) as [G _]. pose proof (bpow_gt_0 radix2 (- k)) as k1.
  assert (SS : 0 < S * S) by (apply Rmult_lt_0_compat; lra). assert (uS : 0 < u * (S * S)) by (apply Rmult_lt_0_compat; lra).
  assert (G' : Rabs (gap (lineR o d y)) <= 3000 * u * (S * S)) by lra.
  pose proof (component_of_gap S _ HS G') as (w1 & w2 & w3). destruct W as (W1 & W2 & W3).
  assert (S0 : 0 <= S) by lra. assert (q0 : 0 <= 101 / 100) by lra. assert (h0 : 0 <= 22 * u) by lra.
  pose proof (normsq_perturbed S (101 / 100) (22 * u) (subR (lineR o d y) c) (subR (V3 p1 p2 p3) (lineR o d y)) S0 q0 h0 w1 w2 w3 W1 W2 W3) as Q.
  replace (addR (subR (lineR o d y) c) (subR (V3 p1 p2 p3) (lineR o d y))) with (subR (V3 p1 p2 p3) c) in Q by (unfold addR, subR, lineR, addR, scaleR; cbn [vx vy vz]; f_equal; ring).
  replace (gap (V3 p1 p2 p3)) with (gap (lineR o d y) + (normsqR (subR (V3 p1 p2 p3) c) - normsqR (subR (lineR o d y) c))) by (unfold gap; ring).
  eapply Rle_trans; [apply Rabs_triang|]. assert (uu : u * (u * (S * S)) <= 1 / 10000000 * (u * (S * S))) by (apply Rmult_le_compat_r; lra). lra.
Qed.

(** the normal *)
Lemma normal_near : forall fp p, vals fp p -> (forall S, bounds S -> Rabs (gap p) <= 2900 * u * (S * S)) ->
  exists n, vals (vdiv (F:=N) (vsub (F:=N) fp fc) fr) n /\ forall S, bounds S ->
    within3 (3 * u * (S / Rabs r)) (subR n (scaleR (/ r) (subR p c))) /\ Rabs (normsqR n - 1) <= 3000 * u * (S / Rabs r * (S / Rabs r)).
Proof.
  intros fp p V H. pose proof (u_tiny prec k P24) as U. pose proof r_low as rl. pose proof (bpow_gt_0 radix2 (- k)) as k1. pose proof (bpow_gt_0 radix2 k) as k0.
  assert (W : forall S, bounds S -> within3 (101 / 100 * S) (subR p c)).
  { intros S HS. pose proof (bounds_low S HS). apply component_of_gap; [exact HS|]. pose proof (H S HS). assert (0 < u * (S * S)) by (apply Rmult_lt_0_compat; [lra|apply Rmult_lt_0_compat; lra]). lra. }
  destruct (W _ bounds_k) as (w1 & w2 & w3). cbn [subR vx vy vz] in w1, w2, w3. destruct V as (P1 & P2 & P3). destruct Vc as (C1 & C2 & C3).
  destruct (normal_component _ _ _ _ _ _ P1 C1 Vr rl) as (n1 & N1 & E1); [lra|].
  destruct (normal_component _ _ _ _ _ _ P2 C2 Vr rl) as (n2 & N2 & E2); [lra|].
  destruct (normal_component _ _ _ _ _ _ P3 C3 Vr rl) as (n3 & N3 & E3); [lra|].
  exists (V3 n1 n2 n3). split; [split; [exact N1|split; [exact N2|exact N3]]|].
  intros S HS. destruct (W S HS) as (v1 & v2 & v3). cbn [subR vx vy vz] in v1, v2, v3. pose proof HS as (_ & _ & HSr).
  pose proof (E1 S HSr v1) as X1. pose proof (E2 S HSr v2) as X2. pose proof (E3 S HSr v3) as X3.
  set (X := S / Rabs r) in *. assert (r0 : 0 < Rabs r) by lra. assert (i0 : 0 < / Rabs r) by (apply Rinv_0_lt_compat; exact r0). assert (X0 : 0 < X) by (unfold X; apply Rmult_lt_0_compat; lra).
  set (q := scaleR (/ r) (subR p c)).
  assert (Wn : within3 (3 * u * X) (subR (V3 n1 n2 n3) q)).
  { unfold q. split; [|split]; cbn [subR scaleR vx vy vz]; rewrite (Rmult_comm (/ r)); assumption. }
  split; [exact Wn|]. destruct Wn as (m1 & m2 & m3).
  assert (J : forall z, Rabs z <= 101 / 100 * S -> Rabs (/ r * z) <= 101 / 100 * X).
  { intros z Hz. rewrite Rabs_mult, Rabs_inv. replace (101 / 100 * X) with (/ Rabs r * (101 / 100 * S)) by (unfold X; field; lra). apply Rmult_le_compat_l; lra. }
  assert (X0' : 0 <= X) by lra. assert (q0 : 0 <= 101 / 100) by lra. assert (h0 : 0 <= 3 * u) by lra.
  pose proof (normsq_perturbed X (101 / 100) (3 * u) q (subR (V3 n1 n2 n3) q) X0' q0 h0 (J _ v1) (J _ v2) (J _ v3) m1 m2 m3) as Q.
  replace (addR q (subR (V3 n1 n2 n3) q)) with (V3 n1 n2 n3) in Q by (unfold addR, subR; cbn [vx vy vz]; f_equal; ring).
  assert (Nq : normsqR q - 1 = gap p * (/ r * / r)) by (unfold q, gap, normsqR, dotR, scaleR; cbn [vx vy vz]; field; exact Zr).
  assert (Gq : Rabs (normsqR q - 1) <= 2900 * u * (X * X)).
  { rewrite Nq, Rabs_mult. rewrite (Rabs_mult (/ r)), Rabs_inv. replace (2900 * u * (X * X)) with (2900 * u * (S * S) * (/ Rabs r * / Rabs r)) by (unfold X; field; lra). apply Rmult_le_compat_r; [apply Rmult_le_pos; lra|exact (H S HS)]. }
  replace (normsqR (V3 n1 n2 n3) - 1) with ((normsqR q - 1) + (normsqR (V3 n1 n2 n3) - normsqR q)) by ring. eapply Rle_trans; [apply Rabs_triang|].
  assert (XX : 0 < X * X) by (apply Rmult_lt_0_compat; exact X0). assert (uX : 0 < u * (X * X)) by (apply Rmult_lt_0_compat; lra). assert (uu : u * (u * (X * X)) <= 1 / 10000000 * (u * (X * X))) by (apply Rmult_le_compat_r; lra). lra.
Qed.
Lemma neg_vals : forall f v, vals f v -> vals (vneg (F:=N) f) (negR v).
Proof. intros f v (A & B & C). split; [|split]; apply opp_val; assumption. Qed.

Lemma sphere_near : forall lo hi rec rec', sphere_hit (F:=N) fs fray lo hi rec = Ok (true, rec') ->
  exists t p n, val (h_t rec') t /\ inside lo hi t /\ vals (h_p rec') p /\ vals (h_normal rec') n /\ forall S, bounds S ->
    Rabs (gap (lineR o d t)) <= 2700 * u * (S * S) /\ within3 (22 * u * S) (subR p (lineR o d t)) /\ Rabs (gap p) <= 2900 * u * (S * S) /\
    (let m := scaleR (/ r) (subR p c) in within3 (3 * u * (S / Rabs r)) (subR n m) \/ within3 (3 * u * (S / Rabs r)) (subR n (negR m))) /\
    Rabs (normsqR n - 1) <= 3000 * u * (S / Rabs r * (S / Rabs r)).
Proof.
  intros lo hi rec rec' H. unfold sphere_hit in H. cbn [s_center s_radius r_orig r_dir] in H.
  match type of H with match ?e with _ => _ end = _ => destruct e as [f|] eqn:F end; [|discriminate].
  destruct (first_near lo hi f F) as (y & V & I & HY). destruct (point_near f y V HY) as (p & Vp & HP).
  destruct (normal_near _ p Vp) as (n & Vn & HN); [intros S HS; apply (HP S HS)|].
  cbv zeta in H. match type of H with match ?e with _ => _ end = _ => destruct e as [us vs] end. injection H as <-.
  exists y, p. 
  assert (Nf : forall w, vals w n \/ vals w (negR n) -> exists m, vals w m /\ (m = n \/ m = negR n)) by (intros w [Hw|Hw]; eauto).
  set (rr := set_p (ray_at (F:=N) fray (h_t (set_t f rec))) (set_t f rec)).
  destruct (Nf (h_normal (set_face_normal (F:=N) fray (vdiv (F:=N) (vsub (F:=N) (h_p rr) fc) fr) rr))) as (m & Vm & Em).
  { unfold set_face_normal. cbv zeta. cbn [set_normal h_normal]. destruct (nltb _ _); [left; exact Vn|right; apply neg_vals; exact Vn]. }
  exists m. split; [exact V|]. split; [exact I|]. split; [exact Vp|]. split; [exact Vm|]. intros S HS. destruct (HY S HS) as [Y1 _]. destruct (HP S HS) as [Q1 Q2]. destruct (HN S HS) as [R1 R2].
  split; [exact Y1|]. split; [exact Q1|]. split; [exact Q2|]. destruct Em as [-> | ->].
  - split; [left; exact R1|exact R2].
  - split.
    + right. destruct R1 as (a & b & e). cbn [subR scaleR negR vx vy vz] in *. split; [|split]; cbn [subR scaleR negR vx vy vz].
      * rewrite <- Rabs_Ropp. replace (- (- vx n - - (/ r * (vx p - vx c)))) with (vx n - / r * (vx p - vx c)) by ring. exact a.
      * rewrite <- Rabs_Ropp. replace (- (- vy n - - (/ r * (vy p - vy c)))) with (vy n - / r * (vy p - vy c)) by ring. exact b.
      * rewrite <- Rabs_Ropp. replace (- (- vz n - - (/ r * (vz p - vz c)))) with (vz n - / r * (vz p - vz c)) by ring. exact e.
    + replace (normsqR (negR n)) with (normsqR n) by (unfold normsqR, dotR, negR; cbn [vx vy vz]; ring). exact R2.
Qed.

(** hits that cannot be lost *)
Lemma sphere_found : forall lo hi rec S, bounds S ->
  dotR (subR o c) d * dotR (subR o c) d - normsqR d * (normsqR (subR o c) - r * r) >= 400 * u * (S * S) * normsqR d ->
  (forall t, Rabs (gap (lineR o d t)) <= 2700 * u * (S * S) -> inside lo hi t) ->
  exists rec', sphere_hit (F:=N) fs fray lo hi rec = Ok (true, rec').
Proof.
  intros lo hi rec S HS HD HI. unfold sphere_hit. cbn [s_center s_radius r_orig r_dir].
  destruct near_root as (A & B & C & VA & VB & VC & MA & MB & MC & A0 & E & E'). pose proof (E' S HS HD) as D. apply val_fval in VA, VB, VC.
  match goal with |- context [match ?e with _ => _ end] => destruct e as [f|] eqn:F end.
  - cbv zeta. match goal with |- context [match ?e with _ => _ end] => destruct e as [us vs] end. eauto.
  - exfalso. destruct (first_stated prec emax Hp Hm lm _ PP8 KK0 KK2 _ _ _ lo hi A B C VA VB VC MA MB MC A0) as [_ F2].
    destruct (quadratic_stated prec emax Hp Hm lm _ PP8 KK0 KK2 _ _ _ A B C VA VB VC MA MB MC A0) as [_ Q]. destruct (Q D) as (_ & _ & _ & _ & t0 & t1 & _ & _ & _ & T & _). clear Q.
    specialize (F2 t0 t1 T). rewrite F in F2. destruct F2 as (y0 & y1 & n0 & _ & i0 & _). destruct (root_of _ _ _ _ _ T) as [R0 _]. apply i0, HI. exact (proj1 (E S t0 y0 HS R0 n0)).
Qed.
End Hit.

(** *** as stated in T_Accuracy.v *)
Lemma vals_fval : forall prec emax (f : vec3 (binary_float prec emax)) v, vals prec emax f v <-> map3 fval f = fin3 v.
Proof.
  intros prec emax [f1 f2 f3] [v1 v2 v3]. unfold vals, map3, fin3. cbn [vx vy vz map3]. rewrite !val_fval. split.
  - intros (-> & -> & ->). reflexivity.
  - intros E. injection E as -> -> ->. auto.
Qed.
Section Stated.
Variables prec emax : Z.
Context (Hp : Prec_gt_0 prec) (Hm : Prec_lt_emax prec emax).
Variable lm : libm (binary_float prec emax).
Notation float := (binary_float prec emax).
Notation N := (FL prec emax Hp Hm lm).
Notation u := (bpow radix2 (- prec)).
Variable k : Z.

Lemma dot_stated : (8 <= prec)%Z -> (0 <= k)%Z -> (2 * k + 2 * prec + 8 <= emax)%Z ->
  forall (fv fw : vec3 float) (v w : vec3 R), map3 fval fv = fin3 v -> map3 fval fw = fin3 w -> moderate3 k v -> moderate3 k w ->
  exists s, fval (dot (F:=N) fv fw) = Fin s /\ Rabs (s - dotR v w) <= 4 * u * (Rabs (vx v * vx w) + Rabs (vy v * vy w) + Rabs (vz v * vz w)).
Proof.
  intros P8 K0 K fv fw v w A B Mv Mw. apply vals_fval in A, B. destruct (dot_accurate prec emax Hp Hm lm P8 k K fv fw v w A B Mv Mw) as (s & V & E & _). exists s. split; [apply val_fval; exact V|exact E].
Qed.
Lemma squared_norm_stated : (8 <= prec)%Z -> (0 <= k)%Z -> (2 * k + 2 * prec + 8 <= emax)%Z ->
  forall (fv : vec3 float) (v : vec3 R), map3 fval fv = fin3 v -> moderate3 k v ->
  exists s, fval (squared_norm (F:=N) fv) = Fin s /\ Rabs (s - normsqR v) <= 4 * u * normsqR v.
Proof.
  intros P8 K0 K fv v A Mv. apply vals_fval in A. destruct (dot_accurate prec emax Hp Hm lm P8 k K fv fv v v A A Mv Mv) as (s & V & E & _). exists s. rewrite absdot_self in E. split; [apply val_fval; exact V|exact E].
Qed.
Lemma norm_stated : (8 <= prec)%Z -> (0 <= k)%Z -> (2 * k + 2 * prec + 8 <= emax)%Z ->
  forall (fv : vec3 float) (v : vec3 R), map3 fval fv = fin3 v -> moderate3 k v -> v <> V3 0 0 0 ->
  exists s, fval (norm (F:=N) fv) = Fin s /\ Rabs (s - normR v) <= 4 * u * normR v.
Proof.
  intros P8 K0 K fv v A Mv Zv. apply vals_fval in A. destruct (norm_accurate prec emax Hp Hm lm P8 k K0 K fv v A Mv Zv) as (t & g & V & E & G). exists t. split; [apply val_fval; exact V|].
  rewrite E. replace (normR v * (1 + g) - normR v) with (g * normR v) by ring. pose proof (normR_bounds k v Mv Zv) as [B _]. pose proof (bpow_gt_0 radix2 (- k)). rewrite Rabs_mult, (Rabs_pos_eq (normR v)) by lra. apply Rmult_le_compat_r; [lra|]. pose proof (bpow_gt_0 radix2 (- prec)). lra.
Qed.
Lemma normalize_stated : (8 <= prec)%Z -> (0 <= k)%Z -> (2 * k + 2 * prec + 8 <= emax)%Z ->
  forall (fv : vec3 float) (v : vec3 R), map3 fval fv = fin3 v -> moderate3 k v -> v <> V3 0 0 0 ->
  exists y, map3 fval (normalize (F:=N) fv) = fin3 y /\
    (Rabs (vx y - vx v / normR v) <= 5 * u * Rabs (vx v / normR v) /\ Rabs (vy y - vy v / normR v) <= 5 * u * Rabs (vy v / normR v) /\ Rabs (vz y - vz v / normR v) <= 5 * u * Rabs (vz v / normR v)) /\
    Rabs (normR y - 1) <= 5 * u.
Proof.
  intros P8 K0 K fv v A Mv Zv. apply vals_fval in A. destruct (normalize_accurate prec emax Hp Hm lm P8 k K0 K fv v A Mv Zv) as (y & V & E). exists y. split; [apply vals_fval; exact V|exact E].
Qed.

Lemma sphere_stated : (24 <= prec)%Z -> (0 <= k)%Z -> (4 * k + 6 * prec + 16 <= emax)%Z ->
  forall (fs : sphere float) (fray : ray float) (c o d : vec3 R) (r : R),
  map3 fval (s_center fs) = fin3 c -> fval (s_radius fs) = Fin r -> map3 fval (r_orig fray) = fin3 o -> map3 fval (r_dir fray) = fin3 d ->
  moderate3 k c -> moderate k r -> moderate3 k o -> moderate3 k d -> r <> 0 -> d <> V3 0 0 0 ->
  forall lo hi rec rec', sphere_hit (F:=N) fs fray lo hi rec = Ok (true, rec') ->
  exists t p n, fval (h_t rec') = Fin t /\ map3 fval (h_p rec') = fin3 p /\ map3 fval (h_normal rec') = fin3 n /\
    xleb (fval lo) (Fin t) && xleb (Fin t) (fval hi) = true /\
    forall S, within3 S o -> within3 S c -> Rabs r <= S ->
      Rabs (normsqR (subR (lineR o d t) c) - r * r) <= 2700 * u * (S * S) /\
      within3 (22 * u * S) (subR p (lineR o d t)) /\
      Rabs (normsqR (subR p c) - r * r) <= 2900 * u * (S * S) /\
      (let m := scaleR (/ r) (subR p c) in within3 (3 * u * (S / Rabs r)) (subR n m) \/ within3 (3 * u * (S / Rabs r)) (subR n (negR m))) /\
      Rabs (normsqR n - 1) <= 3000 * u * (S / Rabs r * (S / Rabs r)).
Proof.
  intros P24 K0 K [fc fr] [fo fd] c o d r Vc Vr Vo Vd Mc Mr Mo Md Zr Zd lo hi rec rec' H. cbn [s_center s_radius r_orig r_dir] in *. apply vals_fval in Vc, Vo, Vd. apply val_fval in Vr.
  destruct (sphere_near prec emax Hp Hm lm k P24 K0 K fo fc fd fr o c d r Vo Vc Vd Vr Mo Mc Md Mr Zd Zr lo hi rec rec' H) as (t & p & n & Vt & I & Vp & Vn & E).
  exists t, p, n. split; [apply val_fval; exact Vt|]. split; [apply vals_fval; exact Vp|]. split; [apply vals_fval; exact Vn|]. split; [exact I|]. intros S So Sc Sr. apply E. split; [exact So|split; [exact Sc|exact Sr]].
Qed.
Lemma found_stated : (24 <= prec)%Z -> (0 <= k)%Z -> (4 * k + 6 * prec + 16 <= emax)%Z ->
  forall (fs : sphere float) (fray : ray float) (c o d : vec3 R) (r : R),
  map3 fval (s_center fs) = fin3 c -> fval (s_radius fs) = Fin r -> map3 fval (r_orig fray) = fin3 o -> map3 fval (r_dir fray) = fin3 d ->
  moderate3 k c -> moderate k r -> moderate3 k o -> moderate3 k d -> r <> 0 -> d <> V3 0 0 0 ->
  forall lo hi rec S, within3 S o -> within3 S c -> Rabs r <= S ->
  400 * u * (S * S) * normsqR d <= dotR (subR o c) d * dotR (subR o c) d - normsqR d * (normsqR (subR o c) - r * r) ->
  (forall t, Rabs (normsqR (subR (lineR o d t) c) - r * r) <= 2700 * u * (S * S) -> xleb (fval lo) (Fin t) && xleb (Fin t) (fval hi) = true) ->
  exists rec', sphere_hit (F:=N) fs fray lo hi rec = Ok (true, rec').
Proof.
  intros P24 K0 K [fc fr] [fo fd] c o d r Vc Vr Vo Vd Mc Mr Mo Md Zr Zd lo hi rec S So Sc Sr HD HI. cbn [s_center s_radius r_orig r_dir] in *. apply vals_fval in Vc, Vo, Vd. apply val_fval in Vr.
  apply (sphere_found prec emax Hp Hm lm k P24 K0 K fo fc fd fr o c d r Vo Vc Vd Vr Mo Mc Md Mr Zd Zr lo hi rec S); [split; [exact So|split; [exact Sc|exact Sr]]|apply Rle_ge; exact HD|exact HI].
Qed.
End Stated.
