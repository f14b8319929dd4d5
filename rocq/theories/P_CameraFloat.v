(** The rays of the camera in floating point. *)
From Coq Require Import Reals Lra ZArith Lia List Bool.
From Flocq Require Import Core Relative BinarySingleNaN.
From Verif Require Import Num XR FL Spec Spec_Accuracy Spec_Bend M_Vec M_Rng M_Hittable M_Image P_FL P_Round P_Accuracy P_Floats P_SphereFloat P_SphereHit P_Sampler P_FlatLeave P_Bend.
Import ListNotations.
Local Open Scope R_scope.

Section Cam.
Variables prec emax : Z.
Context (Hp : Prec_gt_0 prec) (Hm : Prec_lt_emax prec emax).
Variable lm : libm (binary_float prec emax).
Hypothesis P24 : (24 <= prec)%Z.
Hypothesis E64 : (64 <= emax)%Z.
Notation float := (binary_float prec emax).
Notation N := (FL prec emax Hp Hm lm).
Notation rnd := (round radix2 (SpecFloat.fexp prec emax) ZnearestE).
Notation val := (val prec emax).
Notation vals := (vals prec emax).
Notation b2 := (bpow radix2).
Notation u := (bpow radix2 (- prec)).

(** *** the place of a sample *)
Section Place.
Variables (width i : Z) (r : float) (x : R).
Hypothesis W : (2 <= width <= 2 ^ 24)%Z.
Hypothesis I : (0 <= i < width)%Z.
Hypothesis Vr : val r x.
Hypothesis Hx : 0 <= x <= 1.
Lemma sizes_of : 0 <= IZR i /\ IZR i <= IZR (width - 1) /\ 1 <= IZR (width - 1) /\ IZR (width - 1) <= b2 24.
Proof.
  split; [apply (IZR_le 0); lia|]. split; [apply IZR_le; lia|]. split; [apply (IZR_le 1); lia|]. change (b2 24) with (IZR (2 ^ 24)). apply IZR_le. lia.
Qed.
Lemma big30 : 4 * b2 24 <= b2 (emax - 1).
Proof. change 4 with (b2 2). rewrite <- bpow_plus. apply bpow_le. lia. Qed.
Lemma quotient : 0 <= (IZR i + x) / IZR (width - 1) <= 2.
Proof.
  destruct sizes_of as (A & B & C & _). split; [apply Rmult_le_pos; [lra|left; apply Rinv_0_lt_compat; lra]|]. apply Rmult_le_reg_r with (IZR (width - 1)); [lra|]. unfold Rdiv. rewrite Rmult_assoc, Rinv_l by lra. lra.
Qed.
Lemma sum_size : 0 <= rnd (IZR i + x) <= 2 * IZR (width - 1).
Proof.
  destruct sizes_of as (A & B & C & D). split.
  - rewrite <- (rnd_id prec emax 0) by apply generic_format_0. apply rnd_le; [exact Hp|lra].
  - apply Rle_trans with (rnd (IZR width)); [apply rnd_le; [exact Hp|rewrite minus_IZR in B; lra]|].
    rewrite rnd_id by (apply (format_Z prec emax Hp P24 E64); lia). replace (2 * IZR (width - 1)) with (IZR (2 * (width - 1))) by (rewrite mult_IZR; reflexivity). apply IZR_le. lia.
Qed.
Lemma place_val : val (pixel_u (F:=N) width i r) (rnd (rnd (IZR i + x) / IZR (width - 1))) /\ Rabs (rnd (rnd (IZR i + x) / IZR (width - 1)) - (IZR i + x) / IZR (width - 1)) <= 43 / 10 * u.
Proof.
  destruct sizes_of as (A & B & C & D). pose proof big30 as G. pose proof sum_size as Z0. pose proof quotient as Q.
  assert (Vi : val (nofZ (NumOps:=N) i) (IZR i)) by (apply (ofZ_small prec emax Hp Hm lm P24 E64); lia).
  assert (Vw : val (nofZ (NumOps:=N) (width - 1)) (IZR (width - 1))) by (apply (ofZ_small prec emax Hp Hm lm P24 E64); lia).
  assert (Vs : val (nadd (NumOps:=N) (nofZ (NumOps:=N) i) r) (rnd (IZR i + x))) by (apply (plus_val prec emax Hp Hm lm); auto; rewrite Rabs_pos_eq by lra; lra).
  destruct (plus_rel prec emax Hp P24 (IZR i) x (val_format prec emax _ _ Vi) (val_format prec emax _ _ Vr)) as (e & He & Ee).
  set (s := rnd (IZR i + x)) in *. set (w := IZR (width - 1)) in *. set (t := IZR i + x) in *.
  assert (I0 : 0 < / w) by (apply Rinv_0_lt_compat; lra).
  assert (Qs : 0 <= s / w <= 2) by (split; [apply Rmult_le_pos; lra|]; apply Rmult_le_reg_r with w; [lra|]; unfold Rdiv; rewrite Rmult_assoc, Rinv_l by lra; lra).
  pose proof (u24 prec P24) as U. split.
  - apply (div_val prec emax Hp Hm lm); [exact Vs|exact Vw|lra|]. rewrite Rabs_pos_eq by lra. pose proof (b64 emax E64). lra.
  - pose proof (rnd_abs prec emax Hp P24 E64 (s / w)) as R1. rewrite (Rabs_pos_eq (s / w)) in R1 by lra.
    replace (rnd (s / w) - t / w) with ((rnd (s / w) - s / w) + e * (t / w)) by (rewrite Ee; unfold Rdiv; ring).
    eapply Rle_trans; [apply Rabs_triang|]. rewrite (Rabs_mult e), (Rabs_pos_eq (t / w)) by lra. pose proof (Rabs_pos e).
    assert (Rabs e * (t / w) <= u * 2) by (apply Rmult_le_compat; lra). assert (u * (s / w + / 1000) <= u * (21 / 10)) by (apply Rmult_le_compat_l; lra). lra.
Qed.
End Place.
Lemma places_ordered : forall width i i' r r' x x', (2 <= width <= 2 ^ 24)%Z -> (0 <= i < i')%Z -> (i' < width)%Z -> val r x -> 0 <= x <= 1 -> val r' x' -> 0 <= x' <= 1 ->
  rnd (rnd (IZR i + x) / IZR (width - 1)) <= rnd (rnd (IZR i' + x') / IZR (width - 1)).
Proof.
  intros width i i' r r' x x' W I I' V X V' X'. apply rnd_le; [exact Hp|]. assert (1 <= IZR (width - 1)) by (apply (IZR_le 1); lia).
  apply Rmult_le_compat_r; [left; apply Rinv_0_lt_compat; lra|]. apply rnd_le; [exact Hp|]. assert (IZR (i + 1) <= IZR i') by (apply IZR_le; lia). rewrite plus_IZR in *. lra.
Qed.
Lemma columns : forall width i i' g g', (2 <= width <= 2 ^ 24)%Z -> (0 <= i < i')%Z -> (i' < width)%Z ->
  exists s s', fval (pixel_u (F:=N) width i (fst (pcg_real_01 (F:=N) g))) = Fin s /\ fval (pixel_u (F:=N) width i' (fst (pcg_real_01 (F:=N) g'))) = Fin s' /\ 0 <= s <= s' /\
    IZR i / IZR (width - 1) - 5 * u <= s <= IZR (i + 1) / IZR (width - 1) + 5 * u.
Proof.
  intros width i i' g g' W I I'. destruct (draw_close prec emax Hp Hm lm P24 E64 g) as (x & Vx & Hx & _). destruct (draw_close prec emax Hp Hm lm P24 E64 g') as (x' & Vx' & Hx' & _).
  destruct (place_val width i _ x W ltac:(lia) Vx Hx) as (V1 & E1). destruct (place_val width i' _ x' W ltac:(lia) Vx' Hx') as (V2 & _). pose proof (places_ordered width i i' _ _ x x' W I I' Vx Hx Vx' Hx') as L.
  do 2 eexists. split; [apply val_fval; exact V1|]. split; [apply val_fval; exact V2|]. pose proof (u24 prec P24) as U. split.
  - split; [|exact L]. rewrite <- (rnd_id prec emax 0) at 1 by apply generic_format_0. apply rnd_le; [exact Hp|]. pose proof (sum_size width i x W ltac:(lia) Hx). destruct (sizes_of width i W ltac:(lia)) as (_ & _ & C & _). apply Rmult_le_pos; [lra|left; apply Rinv_0_lt_compat; lra].
  - destruct (sizes_of width i W ltac:(lia)) as (_ & _ & C & _). assert (I0 : 0 < / IZR (width - 1)) by (apply Rinv_0_lt_compat; lra). rewrite plus_IZR. apply Rabs_le_inv in E1. unfold Rdiv in *. split; nra.
Qed.

(** *** the direction *)
Variable k : Z.
Hypothesis K0 : (0 <= k)%Z.
Hypothesis K : (4 * k + 6 * prec + 16 <= emax)%Z.
Variable B : R.
Hypothesis HB : b2 (- k) <= B <= b2 k.
Lemma op_size : forall z c, c <= 8 -> Rabs z <= c * B -> Rabs z <= b2 (emax - 1) /\ Rabs (rnd z - z) <= (c + 1 / 100) * (u * B).
Proof.
  intros z c C8 Hz. pose proof (bpow_gt_0 radix2 (- k)). assert (8 * b2 k <= b2 (emax - 1)) by (change 8 with (b2 3); rewrite <- bpow_plus; apply bpow_le; lia).
  split; [nra|]. rewrite <- Rmult_assoc. apply (rnd_scaled prec emax k P24 K0 K); [lra|exact Hz].
Qed.
Lemma scaled_comp : forall (fs fh : float) s s0 h, val fs s -> val fh h -> 0 <= s0 <= 2 -> Rabs (s - s0) <= 43 / 10 * u -> Rabs h <= B ->
  exists p, val (nmul (NumOps:=N) fs fh) p /\ Rabs (p - s0 * h) <= 64 / 10 * (u * B) /\ Rabs (s0 * h) <= 2 * B.
Proof.
  intros fs fh s s0 h Vs Vh S0 Es Bh. pose proof (u24 prec P24) as U. pose proof (bpow_gt_0 radix2 (- k)) as B0. pose proof (near_abs _ _ _ Es) as Ns. rewrite (Rabs_pos_eq s0) in Ns by lra.
  assert (Ss : Rabs s <= 201 / 100) by lra. pose proof (Rabs_pos s) as Q1. pose proof (Rabs_pos h) as Q2.
  assert (Sh : Rabs (s * h) <= 201 / 100 * B) by (rewrite Rabs_mult; apply Rmult_le_compat; assumption).
  destruct (op_size _ (201 / 100) ltac:(lra) Sh) as (L & E). exists (rnd (s * h)). split; [apply (mult_val prec emax Hp Hm lm); assumption|]. split.
  - replace (rnd (s * h) - s0 * h) with ((rnd (s * h) - s * h) + (s - s0) * h) by ring. eapply Rle_trans; [apply Rabs_triang|]. rewrite (Rabs_mult (s - s0)).
    assert (Rabs (s - s0) * Rabs h <= 43 / 10 * u * B) by (apply Rmult_le_compat; try apply Rabs_pos; assumption). assert (0 < u * B) by (apply Rmult_lt_0_compat; lra). lra.
  - rewrite Rabs_mult, (Rabs_pos_eq s0) by lra. apply Rmult_le_compat; lra.
Qed.
Lemma ray_comp : forall (fl fs fh ft fv fo : float) l s s0 h t t0 v o, val fl l -> val fs s -> val fh h -> val ft t -> val fv v -> val fo o -> 0 <= s0 <= 2 -> 0 <= t0 <= 2 ->
  Rabs (s - s0) <= 43 / 10 * u -> Rabs (t - t0) <= 43 / 10 * u -> Rabs l <= B -> Rabs h <= B -> Rabs v <= B -> Rabs o <= B ->
  exists z, val (nsub (NumOps:=N) (nadd (NumOps:=N) (nadd (NumOps:=N) fl (nmul (NumOps:=N) fs fh)) (nmul (NumOps:=N) ft fv)) fo) z /\ Rabs (z - (l + s0 * h + t0 * v - o)) <= 28 * u * B.
Proof.
  intros fl fs fh ft fv fo l s s0 h t t0 v o Vl Vs Vh Vt Vv Vo S0 T0 Es Et Bl Bh Bv Bo. pose proof (u24 prec P24) as U. pose proof (bpow_gt_0 radix2 (- k)) as B0.
  assert (uB : 0 < u * B <= / 1000000 * B) by (split; [apply Rmult_lt_0_compat; lra|apply Rmult_le_compat_r; lra]).
  destruct (scaled_comp _ _ _ _ _ Vs Vh S0 Es Bh) as (p & Vp & Ep & Bp). destruct (scaled_comp _ _ _ _ _ Vt Vv T0 Et Bv) as (q & Vq & Eq & Bq).
  set (x := s0 * h) in *. set (y := t0 * v) in *. clearbody x y. pose proof (near_abs _ _ _ Ep) as Np. pose proof (near_abs _ _ _ Eq) as Nq.
  pose proof (Rabs_triang l p) as T1. destruct (op_size (l + p) (301 / 100) ltac:(lra) ltac:(lra)) as (L1 & E1). pose proof (plus_val prec emax Hp Hm lm _ _ _ _ Vl Vp L1) as V1. set (a := rnd (l + p)) in *. pose proof (near_abs _ _ _ E1) as N1.
  pose proof (Rabs_triang a q) as T2. destruct (op_size (a + q) (503 / 100) ltac:(lra) ltac:(lra)) as (L2 & E2). pose proof (plus_val prec emax Hp Hm lm _ _ _ _ V1 Vq L2) as V2. set (b := rnd (a + q)) in *. pose proof (near_abs _ _ _ E2) as N2.
  pose proof (Rabs_triang b (- o)) as T3. rewrite Rabs_Ropp in T3. change (b + - o) with (b - o) in T3. destruct (op_size (b - o) (605 / 100) ltac:(lra) ltac:(lra)) as (L3 & E3). pose proof (minus_val prec emax Hp Hm lm _ _ _ _ V2 Vo L3) as V3.
  eexists. split; [exact V3|]. set (z := rnd (b - o)) in *. replace (z - (l + x + y - o)) with ((z - (b - o)) + ((b - (a + q)) + (a - (l + p))) + ((p - x) + (q - y) + 0)) by ring.
  pose proof (Rabs_triang ((z - (b - o)) + ((b - (a + q)) + (a - (l + p)))) ((p - x) + (q - y) + 0)). pose proof (Rabs_triang (z - (b - o)) ((b - (a + q)) + (a - (l + p)))). pose proof (Rabs_triang (b - (a + q)) (a - (l + p))).
  pose proof (proj2 (tri3 (p - x) (q - y) 0)) as T4. rewrite Rabs_R0 in T4. lra.
Qed.
Lemma camera_rays : forall (cam : camera (F:=N)) o l h v, map3 fval (cam_origin cam) = fin3 o -> map3 fval (cam_lower_left cam) = fin3 l -> map3 fval (cam_horizontal cam) = fin3 h -> map3 fval (cam_vertical cam) = fin3 v ->
  within3 B o -> within3 B l -> within3 B h -> within3 B v -> forall width height i j g g', (2 <= width <= 2 ^ 24)%Z -> (2 <= height <= 2 ^ 24)%Z -> (0 <= i < width)%Z -> (0 <= j < height)%Z ->
  let r := fst (pcg_real_01 (F:=N) g) in let r' := fst (pcg_real_01 (F:=N) g') in
  exists x y out z, fval r = Fin x /\ 0 <= x <= 1 /\ fval r' = Fin y /\ 0 <= y <= 1 /\
    get_ray (F:=N) cam (pixel_u (F:=N) width i r) (pixel_v (F:=N) height j r') = Ray (cam_origin cam) out /\ map3 fval out = fin3 z /\
    near3 (28 * u * B) z (subR (addR (addR l (scaleR ((IZR i + x) / IZR (width - 1)) h)) (scaleR ((IZR j + y) / IZR (height - 1)) v)) o).
Proof.
  intros cam o l h v Vo Vl Vh Vv Bo Bl Bh Bv width height i j g g' W H I J r r'.
  destruct (draw_close prec emax Hp Hm lm P24 E64 g) as (x & Vx & Hx & _). destruct (draw_close prec emax Hp Hm lm P24 E64 g') as (y & Vy & Hy & _).
  destruct (place_val width i _ x W I Vx Hx) as (Vs & Es). destruct (place_val height j _ y H J Vy Hy) as (Vt & Et). change (pixel_u (F:=N) height j) with (pixel_v (F:=N) height j) in Vt.
  pose proof (quotient width i x W I Hx) as Qs. pose proof (quotient height j y H J Hy) as Qt. fold r in Vs, Vx. fold r' in Vt, Vy.
  apply vals_fval in Vo, Vl, Vh, Vv. destruct Vo as (o1 & o2 & o3), Vl as (l1 & l2 & l3), Vh as (h1 & h2 & h3), Vv as (v1 & v2 & v3), Bo as (a1 & a2 & a3), Bl as (b1 & b2' & b3), Bh as (c1 & c2 & c3), Bv as (d1 & d2 & d3).
  destruct (ray_comp _ _ _ _ _ _ _ _ _ _ _ _ _ _ l1 Vs h1 Vt v1 o1 Qs Qt Es Et b1 c1 d1 a1) as (z1 & V1 & E1).
  destruct (ray_comp _ _ _ _ _ _ _ _ _ _ _ _ _ _ l2 Vs h2 Vt v2 o2 Qs Qt Es Et b2' c2 d2 a2) as (z2 & V2 & E2).
  destruct (ray_comp _ _ _ _ _ _ _ _ _ _ _ _ _ _ l3 Vs h3 Vt v3 o3 Qs Qt Es Et b3 c3 d3 a3) as (z3 & V3' & E3).
  exists x, y. eexists. exists (V3 z1 z2 z3). split; [apply val_fval; exact Vx|]. split; [exact Hx|]. split; [apply val_fval; exact Vy|]. split; [exact Hy|]. split; [reflexivity|].
  split; [apply vals_fval; unfold P_Floats.vals; cbn [vsub vadd vscale vx vy vz]; auto|]. unfold near3; cbn [subR addR scaleR vx vy vz]. auto.
Qed.
End Cam.
