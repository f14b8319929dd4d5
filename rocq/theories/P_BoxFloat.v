(** The slab test of aabb::hit in floating point. *)
From Coq Require Import Reals Lra Psatz ZArith Lia List Bool.
From Flocq Require Import Core BinarySingleNaN.
From Verif Require Import Num XR FL Spec Spec_Scene Spec_Accuracy M_Vec M_Hittable P_FL P_Round P_Accuracy P_Floats P_SphereHit.
Import ListNotations.
Local Open Scope R_scope.

(** three roundings *)
Lemma three_close : forall u x d1 d2 d3, 0 < u <= 1 / 256 -> Rabs d1 <= u -> Rabs d2 <= u -> Rabs d3 <= u ->
  Rabs (x * (1 + d1) * (1 + d2) * (1 + d3) - x) <= 4 * u * Rabs x.
Proof.
  intros u x d1 d2 d3 U D1 D2 D3.
  replace (x * (1 + d1) * (1 + d2) * (1 + d3) - x) with ((d1 + d2 + d3 + d1 * d2 + d1 * d3 + d2 * d3 + d1 * d2 * d3) * x) by ring.
  rewrite Rabs_mult. apply Rmult_le_compat_r; [apply Rabs_pos|].
  assert (P : forall a b A B, Rabs a <= A -> Rabs b <= B -> Rabs (a * b) <= A * B) by (intros; rewrite Rabs_mult; apply Rmult_le_compat; auto using Rabs_pos).
  pose proof (P _ _ _ _ D1 D2) as Q1. pose proof (P _ _ _ _ D1 D3) as Q2. pose proof (P _ _ _ _ D2 D3) as Q3. pose proof (P _ _ _ _ Q1 D3) as Q4.
  apply Rabs_le_inv in D1, D2, D3, Q1, Q2, Q3, Q4. assert (u * u <= u / 256) by nra. assert (u * u * u <= u / 256) by nra. apply Rabs_le. lra.
Qed.
(** ends of intervals moved by a relative error *)
Lemma moved_below : forall c T s t, 0 <= c < 1 -> Rabs (s - T) <= c * Rabs T -> T <= t -> s <= t + c * Rabs t.
Proof. intros c T s t C H L. apply Rabs_le_inv in H. unfold Rabs in *. destruct (Rcase_abs T), (Rcase_abs t); nra. Qed.
Lemma moved_above : forall c T s t, 0 <= c < 1 -> Rabs (s - T) <= c * Rabs T -> t <= T -> t - c * Rabs t <= s.
Proof. intros c T s t C H L. apply Rabs_le_inv in H. unfold Rabs in *. destruct (Rcase_abs T), (Rcase_abs t); nra. Qed.

Section BoxFloat.
Variables prec emax : Z.
Context (Hp : Prec_gt_0 prec) (Hm : Prec_lt_emax prec emax).
Variable lm : libm (binary_float prec emax).
Notation float := (binary_float prec emax).
Notation N := (FL prec emax Hp Hm lm).
Notation rnd := (round radix2 (SpecFloat.fexp prec emax) ZnearestE).
Notation val := (val prec emax).
Notation b2 := (bpow radix2).
Notation u := (bpow radix2 (- prec)).
Variable k : Z.
Hypothesis P8 : (8 <= prec)%Z.
Hypothesis K0 : (0 <= k)%Z.
Hypothesis K : (2 * k + 2 * prec + 8 <= emax)%Z.

Lemma unit_val : val (nofZ (NumOps:=N) 1) 1.
Proof.
  pose proof (ofZ_val prec emax Hp Hm lm 1) as H. rewrite rnd_id in H.
  - apply H. rewrite Rabs_R1. change 1 with (b2 0). apply bpow_le. unfold Prec_gt_0 in Hp. unfold Prec_lt_emax in Hm. lia.
  - change 1 with (b2 0). apply format_big; auto. unfold SpecFloat.emin. unfold Prec_gt_0 in Hp. unfold Prec_lt_emax in Hm. lia.
Qed.

Lemma corner_diff : forall (fm fo : float) m o, val fm m -> val fo o -> moderate k m -> moderate k o ->
  exists x d, val (nsub (NumOps:=N) fm fo) x /\ Rabs d <= u /\ x = (m - o) * (1 + d) /\ grid (- k + 1 - prec) x /\ Rabs (m - o) <= 2 * b2 k.
Proof.
  intros fm fo m o V W M O.
  assert (B : Rabs (m - o) <= 2 * b2 k).
  { pose proof (moderate_bound k m M) as H1. pose proof (moderate_bound k o O) as H2. apply Rabs_le_inv in H1, H2. apply Rabs_le. lra. }
  assert (B2 : 2 * b2 k <= b2 (emax - 1)). { change 2 with (b2 1). rewrite <- bpow_plus. apply bpow_le. unfold Prec_gt_0 in Hp. lia. }
  destruct (diff_val prec emax Hp Hm lm P8 fm fo m o (- k + 1 - prec) (2 * b2 k) V W) as (x & d & H1 & H2 & H3 & H4); auto.
  - eapply moderate_grid; eauto using val_format.
  - eapply moderate_grid; eauto using val_format.
  - unfold Prec_gt_0 in Hp. lia.
  - exists x, d. auto.
Qed.

Lemma inverse : forall (fd : float) d, val fd d -> moderate k d -> d <> 0 ->
  exists e, Rabs e <= u /\ val (ndiv (NumOps:=N) (nofZ (NumOps:=N) 1) fd) (1 / d * (1 + e)) /\ grid (- k - prec) (1 / d * (1 + e)) /\ Rabs (1 / d * (1 + e)) <= 2 * b2 k.
Proof.
  intros fd d V [M|M] D; [contradiction|]. pose proof (kk k) as (E1 & E2 & E3 & T1 & T2). pose proof (u_small prec P8) as U.
  assert (I1 : b2 (- k) <= 1) by (change 1 with (b2 0); apply bpow_le; lia). assert (I2 : 1 <= b2 k) by (change 1 with (b2 0); apply bpow_le; lia).
  destruct (div_rel prec emax Hp Hm lm k K P8 (nofZ (NumOps:=N) 1) fd 1 d unit_val V D) as (e & H1 & H2); [right; rewrite Rabs_R1; lra|rewrite Rabs_R1; lra|lra|].
  exists e. split; [exact H1|]. split; [exact H2|].
  assert (Q : b2 (- k) <= Rabs (1 / d) <= b2 k).
  { unfold Rdiv. rewrite Rmult_1_l, Rabs_inv. replace (b2 k) with (/ b2 (- k)) by (symmetry; apply Rmult_eq_reg_l with (b2 (- k)); [rewrite Rinv_r; lra|lra]).
    replace (b2 (- k)) with (/ b2 k) at 1 by (symmetry; apply Rmult_eq_reg_l with (b2 k); [rewrite Rinv_r; lra|lra]). split; apply Rinv_le; lra. }
  assert (A : Rabs (1 / d * (1 + e)) = Rabs (1 / d) * (1 + e)). { rewrite Rabs_mult. f_equal. apply Rabs_pos_eq. apply Rabs_le_inv in H1. lra. }
  apply Rabs_le_inv in H1. split.
  - replace (- k - prec)%Z with (- k - 1 + 1 - prec)%Z by lia. eapply format_grid; [exact (val_format _ _ _ _ H2)|]. rewrite A.
    replace (- k - 1)%Z with (- k + -1)%Z by lia. rewrite bpow_plus. change (b2 (-1)) with (/ 2). nra.
  - rewrite A. nra.
Qed.

(** one end of a slab *)
Lemma slab_end : forall (fm fo fd : float) m o d, val fm m -> val fo o -> val fd d -> moderate k m -> moderate k o -> moderate k d -> d <> 0 ->
  exists s, val (nmul (NumOps:=N) (nsub (NumOps:=N) fm fo) (ndiv (NumOps:=N) (nofZ (NumOps:=N) 1) fd)) s /\ Rabs (s - (m - o) / d) <= 4 * u * Rabs ((m - o) / d).
Proof.
  intros fm fo fd m o d Vm Vo Vd Mm Mo Md D. pose proof (kk k) as (E1 & _ & _ & T1 & _). pose proof (u_small prec P8) as U.
  destruct (corner_diff fm fo m o Vm Vo Mm Mo) as (x & d1 & X & D1 & EX & GX & BX).
  destruct (inverse fd d Vd Md D) as (e & De & I & GI & BI).
  destruct (product_val prec emax Hp Hm lm P8 _ _ _ _ _ _ (64 * b2 (2 * k)) X I GX GI) as (p & d3 & Pv & D3 & EP & _).
  - lia.
  - assert (Rabs x <= 4 * b2 k). { rewrite EX, Rabs_mult. assert (Rabs (1 + d1) <= 2). { apply Rabs_le_inv in D1. apply Rabs_le. lra. } pose proof (Rabs_pos (m - o)). pose proof (Rabs_pos (1 + d1)). nra. }
    rewrite Rabs_mult, E1. pose proof (Rabs_pos x). pose proof (Rabs_pos (1 / d * (1 + e))).
    apply Rle_trans with (4 * b2 k * (2 * b2 k)); [apply Rmult_le_compat; auto|nra].
  - pose proof (small_sum prec emax k K P8 (64 * b2 (2 * k)) 64) as Sm. rewrite Rabs_pos_eq in Sm by (pose proof (bpow_ge_0 radix2 (2 * k)); lra). apply Sm; [lra|lia].
  - exists p. split; [exact Pv|]. rewrite EP, EX.
    replace ((m - o) * (1 + d1) * (1 / d * (1 + e)) * (1 + d3)) with ((m - o) / d * (1 + d1) * (1 + e) * (1 + d3)) by (field; exact D).
    apply three_close; assumption.
Qed.

(** what one iteration does when the direction has a component along the axis *)
Definition cut (f0 f1 lo hi : float) : option (float * float) :=
  let lo' := if Bltb lo f0 then f0 else lo in
  let hi' := if Bltb f1 hi then f1 else hi in
  if Bleb hi' lo' then None else Some (lo', hi').
Lemma slab_slanted : forall (fn fx fo fd : float) mn mx o d, val fn mn -> val fx mx -> val fo o -> val fd d -> moderate k mn -> moderate k mx -> moderate k o -> moderate k d -> d <> 0 ->
  exists (f0 f1 : float) s0 s1 T0 T1, (forall lo hi, slab (F:=N) fn fx fo fd (lo, hi) = cut f0 f1 lo hi) /\ val f0 s0 /\ val f1 s1 /\
    Rabs (s0 - T0) <= 4 * u * Rabs T0 /\ Rabs (s1 - T1) <= 4 * u * Rabs T1 /\
    ((0 < d /\ T0 = (mn - o) / d /\ T1 = (mx - o) / d) \/ (d < 0 /\ T0 = (mx - o) / d /\ T1 = (mn - o) / d)).
Proof.
  intros fn fx fo fd mn mx o d Vn Vx Vo Vd Mn Mx Mo Md D.
  destruct (slab_end fn fo fd mn o d Vn Vo Vd Mn Mo Md D) as (s0 & V0 & C0). destruct (slab_end fx fo fd mx o d Vx Vo Vd Mx Mo Md D) as (s1 & V1 & C1).
  destruct (inverse fd d Vd Md D) as (e & De & I & _ & _). pose proof (u_small prec P8) as U.
  pose proof (ltb_val prec emax Hp Hm lm _ _ _ _ I (zero_val prec emax Hp Hm lm)) as LT.
  assert (E : Rltb (1 / d * (1 + e)) 0 = Rltb d 0).
  { apply Rabs_le_inv in De. destruct (Rltb_spec d 0) as [Q|Q].
    - apply Rltb_true. assert (1 / d < 0). { unfold Rdiv. rewrite Rmult_1_l. apply Rinv_lt_0_compat. exact Q. } nra.
    - apply Rltb_false. assert (0 < 1 / d). { unfold Rdiv. rewrite Rmult_1_l. apply Rinv_0_lt_compat. lra. } nra. }
  rewrite E in LT. destruct (Rltb_spec d 0) as [Q|Q].
  - eexists _, _, s1, s0, _, _. split; [|split; [exact V1|split; [exact V0|split; [exact C1|split; [exact C0|right; auto]]]]].
    intros lo hi. unfold slab. rewrite LT. reflexivity.
  - eexists _, _, s0, s1, _, _. split; [|split; [exact V0|split; [exact V1|split; [exact C0|split; [exact C1|left; split; [lra|auto]]]]]].
    intros lo hi. unfold slab. rewrite LT. reflexivity.
Qed.

(** ... and when it has none: 1/d is an infinity *)
Lemma mult_inf : forall (x : float) a s, val x a -> fval (nmul (NumOps:=N) x (B754_infinity s)) = if Req_EM_T a 0 then NaN else if Rltb a 0 then (if s then PInf else MInf) else (if s then MInf else PInf).
Proof.
  intros x a s [F E]. destruct x as [sx|sx| |sx m e Hx]; try discriminate; cbn [B2R] in E.
  - destruct (Req_EM_T a 0) as [_|Hn]; [reflexivity|]. exfalso. apply Hn. symmetry. exact E.
  - destruct (sign_val prec emax (B754_finite sx m e Hx) a) as [[A B]|[A B]].
    + split; [reflexivity|exact E].
    + intros ->. destruct sx; [apply (Rlt_irrefl 0); rewrite <- E at 1; apply F2R_lt_0; reflexivity|apply (Rlt_irrefl 0); rewrite <- E at 2; apply F2R_gt_0; reflexivity].
    + cbn [Bsign] in A. subst sx. destruct (Req_EM_T a 0); [lra|]. rewrite Rltb_true by exact B. destruct s; reflexivity.
    + cbn [Bsign] in A. subst sx. destruct (Req_EM_T a 0); [lra|]. rewrite Rltb_false by lra. destruct s; reflexivity.
Qed.
Lemma over_zero : forall (fd : float), val fd 0 -> exists s, ndiv (NumOps:=N) (nofZ (NumOps:=N) 1) fd = B754_infinity s.
Proof.
  intros fd [F E]. pose proof unit_val as [F1 E1]. destruct fd as [s|s| |s m e Hx]; try discriminate.
  - destruct (nofZ (NumOps:=N) 1) as [s1|s1| |s1 m1 e1 H1]; try discriminate; [cbn in E1; lra|]. exists (xorb s1 s). reflexivity.
  - exfalso. cbn [B2R] in E. destruct s; [apply (Rlt_irrefl 0); rewrite <- E at 1; apply F2R_lt_0; reflexivity|apply (Rlt_irrefl 0); rewrite <- E at 2; apply F2R_gt_0; reflexivity].
Qed.
Lemma slab_flat : forall (fn fx fo fd : float) mn mx o, val fn mn -> val fx mx -> val fo o -> val fd 0 -> moderate k mn -> moderate k mx -> moderate k o ->
  forall lo hi, fval lo <> NaN -> fval hi <> NaN ->
  slab (F:=N) fn fx fo fd (lo, hi) = if Rleb mn o && Rleb o mx then (if Bleb hi lo then None else Some (lo, hi)) else None.
Proof.
  intros fn fx fo fd mn mx o Vn Vx Vo Vd Mn Mx Mo lo hi L H. pose proof (u_small prec P8) as U.
  destruct (corner_diff fn fo mn o Vn Vo Mn Mo) as (x & d1 & X & D1 & EX & _ & _). destruct (corner_diff fx fo mx o Vx Vo Mx Mo) as (y & d2 & Y & D2 & EY & _ & _).
  destruct (over_zero fd Vd) as (s & E). unfold slab. rewrite E.
  pose proof (mult_inf _ _ s X) as PX. pose proof (mult_inf _ _ s Y) as PY.
  assert (Z0 : nltb (NumOps:=N) (B754_infinity s) (nofZ (NumOps:=N) 0) = s).
  { cbn [nltb FL]. rewrite Bltb_fval. rewrite (proj1 (val_fval _ _ _ _) (zero_val prec emax Hp Hm lm)). destruct s; reflexivity. }
  rewrite Z0. cbn [nltb nleb FL] in *. set (A := nmul (NumOps:=N) (nsub (NumOps:=N) fn fo) (B754_infinity s)) in *. set (B := nmul (NumOps:=N) (nsub (NumOps:=N) fx fo) (B754_infinity s)) in *. clearbody A B.
  assert (SX : x = 0 /\ mn = o \/ x < 0 /\ mn < o \/ 0 < x /\ o < mn).
  { apply Rabs_le_inv in D1. destruct (Rtotal_order mn o) as [Q|[Q|Q]]; [right; left|left|right; right]; (split; [|exact Q]); rewrite EX; [nra|rewrite Q; ring|nra]. }
  assert (SY : y = 0 /\ mx = o \/ y < 0 /\ mx < o \/ 0 < y /\ o < mx).
  { apply Rabs_le_inv in D2. destruct (Rtotal_order mx o) as [Q|[Q|Q]]; [right; left|left|right; right]; (split; [|exact Q]); rewrite EY; [nra|rewrite Q; ring|nra]. }
  clear EX EY.
  assert (RX : fval A = NaN /\ mn = o \/ fval A = (if s then PInf else MInf) /\ mn < o \/ fval A = (if s then MInf else PInf) /\ o < mn).
  { rewrite PX. destruct SX as [[-> Q]|[[Q1 Q]|[Q1 Q]]]; [left|right; left|right; right]; (split; [|exact Q]).
    - destruct (Req_EM_T 0 0); [reflexivity|lra].
    - destruct (Req_EM_T x 0); [lra|]. rewrite Rltb_true by exact Q1. reflexivity.
    - destruct (Req_EM_T x 0); [lra|]. rewrite Rltb_false by lra. reflexivity. }
  assert (RY : fval B = NaN /\ mx = o \/ fval B = (if s then PInf else MInf) /\ mx < o \/ fval B = (if s then MInf else PInf) /\ o < mx).
  { rewrite PY. destruct SY as [[-> Q]|[[Q1 Q]|[Q1 Q]]]; [left|right; left|right; right]; (split; [|exact Q]).
    - destruct (Req_EM_T 0 0); [reflexivity|lra].
    - destruct (Req_EM_T y 0); [lra|]. rewrite Rltb_true by exact Q1. reflexivity.
    - destruct (Req_EM_T y 0); [lra|]. rewrite Rltb_false by lra. reflexivity. }
  clear - L H RX RY.
  destruct RX as [[RA QA]|[[RA QA]|[RA QA]]], RY as [[RB QB]|[[RB QB]|[RB QB]]]; destruct s;
  (destruct (Rleb_spec mn o); [|try lra]); try (destruct (Rleb_spec o mx); [|try lra]); cbn [andb]; try lra;
  destruct (fval lo) as [l| | |] eqn:EL; try congruence; destruct (fval hi) as [h| | |] eqn:EH; try congruence;
  rewrite ?Bltb_fval, ?Bleb_fval, ?RA, ?RB, ?EL, ?EH; cbn [xltb]; cbn iota; rewrite ?Bleb_fval, ?RA, ?RB, ?EL, ?EH; reflexivity.
Qed.

(** ends of windows *)
Lemma cut_keeps : forall (f0 f1 lo hi : float) s0 s1 a c, val f0 s0 -> val f1 s1 -> s0 <= a -> c <= s1 -> a < c -> at_least (fval lo) a -> at_most (fval hi) c ->
  exists lo' hi', cut f0 f1 lo hi = Some (lo', hi') /\ at_least (fval lo') a /\ at_most (fval hi') c.
Proof.
  intros f0 f1 lo hi s0 s1 a c V0 V1 H0 H1 AC L H. apply val_fval in V0, V1. unfold cut.
  set (lo' := if Bltb lo f0 then f0 else lo). set (hi' := if Bltb f1 hi then f1 else hi).
  assert (L' : at_least (fval lo') a) by (unfold lo'; destruct (Bltb lo f0); [rewrite V0; exact H0|exact L]).
  assert (H' : at_most (fval hi') c) by (unfold hi'; destruct (Bltb f1 hi); [rewrite V1; exact H1|exact H]).
  exists lo', hi'. split; [|auto]. rewrite Bleb_fval. destruct (fval lo') as [x| | |] eqn:EL, (fval hi') as [y| | |] eqn:EH; cbn [at_least at_most] in *; try contradiction; try reflexivity.
  cbn [xleb]. rewrite Rleb_false by lra. reflexivity.
Qed.
Definition narrower (lo' hi' lo hi : float) : Prop := forall t, at_least (fval lo') t -> at_most (fval hi') t -> at_least (fval lo) t /\ at_most (fval hi) t.
Definition window (lo hi : float) : Prop := fval lo <> NaN /\ fval hi <> NaN.
Lemma cut_narrows : forall (f0 f1 lo hi lo' hi' : float) s0 s1, val f0 s0 -> val f1 s1 -> window lo hi -> cut f0 f1 lo hi = Some (lo', hi') ->
  window lo' hi' /\ Bltb lo' hi' = true /\ narrower lo' hi' lo hi /\ forall t, at_least (fval lo') t -> at_most (fval hi') t -> s0 <= t <= s1.
Proof.
  intros f0 f1 lo hi lo' hi' s0 s1 V0 V1 [L H]. apply val_fval in V0, V1. unfold cut, window, narrower.
  destruct (Bltb lo f0) eqn:E0; destruct (Bltb f1 hi) eqn:E1; match goal with |- (if ?b then _ else _) = _ -> _ => destruct b eqn:E2 end; try discriminate; intros Q; injection Q as <- <-;
  rewrite Bltb_fval in E0, E1; rewrite Bleb_fval in E2; rewrite Bltb_fval; rewrite ?V0, ?V1 in *;
  destruct (fval lo) as [a| | |] eqn:EL, (fval hi) as [b| | |] eqn:EH; cbn [xltb xleb xeqb at_least at_most] in *; cbn [orb] in *; try congruence;
  repeat match goal with H : Rleb ?x ?y = false |- _ => destruct (Rleb_spec x y); [discriminate|clear H] | H : Rltb ?x ?y = true |- _ => destruct (Rltb_spec x y); [clear H|discriminate] | H : Rltb ?x ?y = false |- _ => destruct (Rltb_spec x y); [discriminate|clear H] end;
  (split; [split; congruence|split; [try reflexivity; try (apply Rltb_true; lra)|split; intros t A B; repeat split; try tauto; try lra]]).
Qed.

Definition axis (fn fx fo fd : float) (mn mx o d : R) : Prop := (val fn mn /\ val fx mx /\ val fo o /\ val fd d) /\ (moderate k mn /\ moderate k mx /\ moderate k o /\ moderate k d).
Lemma step_keeps : forall fn fx fo fd mn mx o d, axis fn fx fo fd mn mx o d -> forall t t' lo hi, mn <= o + t * d <= mx -> mn <= o + t' * d <= mx ->
  t + 4 * u * Rabs t < t' - 4 * u * Rabs t' -> at_least (fval lo) (t + 4 * u * Rabs t) -> at_most (fval hi) (t' - 4 * u * Rabs t') ->
  exists lo' hi', slab (F:=N) fn fx fo fd (lo, hi) = Some (lo', hi') /\ at_least (fval lo') (t + 4 * u * Rabs t) /\ at_most (fval hi') (t' - 4 * u * Rabs t').
Proof.
  intros fn fx fo fd mn mx o d [(V1 & V2 & V3' & V4) (M1 & M2 & M3 & M4)] t t' lo hi I I' TT L H. pose proof (u_small prec P8) as U.
  destruct (Req_dec d 0) as [->|D].
  - exists lo, hi. split; [|auto]. rewrite (slab_flat fn fx fo fd mn mx o) by (auto; intros Q; rewrite Q in *; contradiction).
    rewrite !Rleb_true by lra. cbn [andb]. rewrite Bleb_fval. destruct (fval lo) as [x| | |], (fval hi) as [y| | |]; cbn [at_least at_most] in *; try contradiction; try reflexivity.
    cbn [xleb]. rewrite Rleb_false by lra. reflexivity.
  - destruct (slab_slanted fn fx fo fd mn mx o d) as (f0 & f1 & s0 & s1 & T0 & T1 & E & W0 & W1 & C0 & C1 & T); auto. rewrite E.
    assert (Q : forall x m, m = o + x * d -> (m - o) / d = x) by (intros x m ->; field; exact D).
    assert (T0 <= t /\ t' <= T1) as [B0 B1].
    { destruct T as [(P & -> & ->)|(P & -> & ->)]; split.
      - rewrite <- (Q t _ eq_refl). unfold Rdiv. apply Rmult_le_compat_r; [left; apply Rinv_0_lt_compat; lra|lra].
      - rewrite <- (Q t' _ eq_refl). unfold Rdiv. apply Rmult_le_compat_r; [left; apply Rinv_0_lt_compat; lra|lra].
      - rewrite <- (Q t _ eq_refl). unfold Rdiv. assert (/ d < 0) by (apply Rinv_lt_0_compat; lra). nra.
      - rewrite <- (Q t' _ eq_refl). unfold Rdiv. assert (/ d < 0) by (apply Rinv_lt_0_compat; lra). nra. }
    apply (cut_keeps f0 f1 lo hi s0 s1 _ _ W0 W1); auto.
    + apply (moved_below (4 * u) T0); auto. lra.
    + apply (moved_above (4 * u) T1); auto. lra.
Qed.
Lemma step_narrows : forall fn fx fo fd mn mx o d, axis fn fx fo fd mn mx o d -> forall lo hi lo' hi', window lo hi -> slab (F:=N) fn fx fo fd (lo, hi) = Some (lo', hi') ->
  window lo' hi' /\ Bltb lo' hi' = true /\ narrower lo' hi' lo hi /\
  forall t, at_least (fval lo') t -> at_most (fval hi') t -> mn - 4 * u * Rabs (mn - o) <= o + t * d <= mx + 4 * u * Rabs (mx - o).
Proof.
  intros fn fx fo fd mn mx o d [(V1 & V2 & V3' & V4) (M1 & M2 & M3 & M4)] lo hi lo' hi' [L H] E. pose proof (u_small prec P8) as U.
  destruct (Req_dec d 0) as [->|D].
  - rewrite (slab_flat fn fx fo fd mn mx o) in E by auto. destruct (Rleb_spec mn o) as [Q1|Q1]; [|discriminate]. destruct (Rleb_spec o mx) as [Q2|Q2]; [|discriminate]. cbn [andb] in E.
    destruct (Bleb hi lo) eqn:E1; [discriminate|]. injection E as <- <-. split; [split; auto|]. split.
    + rewrite Bleb_fval in E1. rewrite Bltb_fval. destruct (fval lo) as [x| | |], (fval hi) as [y| | |]; try congruence; try discriminate; try reflexivity.
      cbn [xleb xltb] in *. destruct (Rleb_spec y x); [discriminate|]. apply Rltb_true. lra.
    + split; [intros t A B; auto|]. intros t _ _. pose proof (Rabs_pos (mn - o)). pose proof (Rabs_pos (mx - o)). nra.
  - destruct (slab_slanted fn fx fo fd mn mx o d) as (f0 & f1 & s0 & s1 & T0 & T1 & Es & W0 & W1 & C0 & C1 & T); auto. rewrite Es in E.
    destruct (cut_narrows _ _ _ _ _ _ s0 s1 W0 W1 (conj L H) E) as (R1 & R2 & R3 & R4). split; [exact R1|]. split; [exact R2|]. split; [exact R3|].
    intros t A B. specialize (R4 t A B).
    assert (F : forall m, (m - o) / d * d = m - o) by (intros; field; exact D).
    assert (G : forall m, Rabs ((m - o) / d) * Rabs d = Rabs (m - o)) by (intros; rewrite <- Rabs_mult, F; reflexivity).
    apply Rabs_le_inv in C0, C1. pose proof (F mn) as Fn. pose proof (F mx) as Fx. pose proof (G mn) as Gn. pose proof (G mx) as Gx.
    destruct T as [(P & -> & ->)|(P & -> & ->)].
    + rewrite (Rabs_pos_eq d) in Gn, Gx by lra. rewrite <- Gn, <- Gx. set (a := (mn - o) / d) in *. set (b := (mx - o) / d) in *. set (x := Rabs a) in *. set (y := Rabs b) in *. clearbody a b x y. clear - R4 C0 C1 Fn Fx P.
      assert (a - 4 * u * x <= t <= b + 4 * u * y) as [Z1 Z2] by lra. apply (Rmult_le_compat_r d) in Z1, Z2; lra.
    + rewrite (Rabs_left d) in Gn, Gx by lra. rewrite <- Gn, <- Gx. set (a := (mn - o) / d) in *. set (b := (mx - o) / d) in *. set (x := Rabs a) in *. set (y := Rabs b) in *. clearbody a b x y. clear - R4 C0 C1 Fn Fx P.
      assert (b - 4 * u * y <= t <= a + 4 * u * x) as [Z1 Z2] by lra. apply (Rmult_le_compat_r (- d)) in Z1, Z2; lra.
Qed.

Definition corners (fb : aabb float) (fr : ray float) (b : aabb R) (r : ray R) : Prop :=
  (map3 fval (b_min fb) = fin3 (b_min b) /\ map3 fval (b_max fb) = fin3 (b_max b) /\ map3 fval (r_orig fr) = fin3 (r_orig r) /\ map3 fval (r_dir fr) = fin3 (r_dir r)) /\
  (moderate3 k (b_min b) /\ moderate3 k (b_max b) /\ moderate3 k (r_orig r) /\ moderate3 k (r_dir r)).
Lemma axes : forall fb fr b r, corners fb fr b r ->
  axis (vx (b_min fb)) (vx (b_max fb)) (vx (r_orig fr)) (vx (r_dir fr)) (vx (b_min b)) (vx (b_max b)) (vx (r_orig r)) (vx (r_dir r)) /\
  axis (vy (b_min fb)) (vy (b_max fb)) (vy (r_orig fr)) (vy (r_dir fr)) (vy (b_min b)) (vy (b_max b)) (vy (r_orig r)) (vy (r_dir r)) /\
  axis (vz (b_min fb)) (vz (b_max fb)) (vz (r_orig fr)) (vz (r_dir fr)) (vz (b_min b)) (vz (b_max b)) (vz (r_orig r)) (vz (r_dir r)).
Proof.
  intros fb fr b r [(A & B & C & D) (Ma & Mb & Mc & Md)]. apply vals_fval in A, B, C, D. unfold vals, moderate3, axis in *. tauto.
Qed.
Lemma not_culled_float : forall fb fr b r, corners fb fr b r -> forall lo hi t t', in_window (fval lo) (fval hi) t -> in_window (fval lo) (fval hi) t' ->
  in_box b (pointR r t) -> in_box b (pointR r t') -> t + 4 * u * Rabs t < t' - 4 * u * Rabs t' -> aabb_hit (F:=N) fb fr lo hi = true.
Proof.
  intros fb fr b r HC lo hi t t' [L _] [_ H] I I' TT. destruct (axes _ _ _ _ HC) as (A1 & A2 & A3). pose proof (u_small prec P8) as U.
  destruct I as (I1 & I2 & I3), I' as (J1 & J2 & J3). unfold pointR, lineR, addR, scaleR, map3 in *. cbn [vx vy vz] in *.
  assert (0 <= 4 * u * Rabs t) by (pose proof (Rabs_pos t); nra). assert (0 <= 4 * u * Rabs t') by (pose proof (Rabs_pos t'); nra).
  assert (L0 : at_least (fval lo) (t + 4 * u * Rabs t)) by (destruct (fval lo); cbn [at_least] in *; auto; lra).
  assert (Hh : at_most (fval hi) (t' - 4 * u * Rabs t')) by (destruct (fval hi); cbn [at_most] in *; auto; lra).
  unfold aabb_hit.
  destruct (step_keeps _ _ _ _ _ _ _ _ A1 t t' lo hi I1 J1 TT L0 Hh) as (lo1 & hi1 & E1 & L1 & Hh1).
  match goal with |- match ?e with _ => _ end = _ => replace e with (Some (lo1, hi1)) by (symmetry; exact E1) end.
  destruct (step_keeps _ _ _ _ _ _ _ _ A2 t t' lo1 hi1 I2 J2 TT L1 Hh1) as (lo2 & hi2 & E2 & L2 & Hh2).
  match goal with |- match ?e with _ => _ end = _ => replace e with (Some (lo2, hi2)) by (symmetry; exact E2) end.
  destruct (step_keeps _ _ _ _ _ _ _ _ A3 t t' lo2 hi2 I3 J3 TT L2 Hh2) as (lo3 & hi3 & E3 & _).
  match goal with |- match ?e with _ => _ end = _ => replace e with (Some (lo3, hi3)) by (symmetry; exact E3) end. reflexivity.
Qed.
Lemma between : forall x y : xr, xltb x y = true -> exists t, at_least x t /\ at_most y t.
Proof.
  intros [a| | |] [b| | |] H; cbn [xltb at_least at_most] in *; try discriminate.
  - destruct (Rltb_spec a b); [|discriminate]. exists a. lra.
  - exists a. lra.
  - exists b. lra.
  - exists 0. auto.
Qed.
Lemma accepted_near : forall fb fr b r, corners fb fr b r -> forall lo hi, fval lo <> NaN -> fval hi <> NaN -> aabb_hit (F:=N) fb fr lo hi = true ->
  exists t, in_window (fval lo) (fval hi) t /\
    (vx (b_min b) - 4 * u * Rabs (vx (b_min b) - vx (r_orig r)) <= vx (pointR r t) <= vx (b_max b) + 4 * u * Rabs (vx (b_max b) - vx (r_orig r))) /\
    (vy (b_min b) - 4 * u * Rabs (vy (b_min b) - vy (r_orig r)) <= vy (pointR r t) <= vy (b_max b) + 4 * u * Rabs (vy (b_max b) - vy (r_orig r))) /\
    (vz (b_min b) - 4 * u * Rabs (vz (b_min b) - vz (r_orig r)) <= vz (pointR r t) <= vz (b_max b) + 4 * u * Rabs (vz (b_max b) - vz (r_orig r))).
Proof.
  intros fb fr b r HC lo hi L H E. destruct (axes _ _ _ _ HC) as (A1 & A2 & A3). unfold aabb_hit in E.
  match type of E with match ?e with _ => _ end = _ => destruct e as [[lo1 hi1]|] eqn:E1 end; [|discriminate].
  match type of E with match ?e with _ => _ end = _ => destruct e as [[lo2 hi2]|] eqn:E2 end; [|discriminate].
  match type of E with match ?e with _ => _ end = _ => destruct e as [[lo3 hi3]|] eqn:E3 end; [|discriminate].
  destruct (step_narrows _ _ _ _ _ _ _ _ A1 _ _ _ _ (conj L H) E1) as (W1 & _ & N1 & B1).
  destruct (step_narrows _ _ _ _ _ _ _ _ A2 _ _ _ _ W1 E2) as (W2 & _ & N2 & B2).
  destruct (step_narrows _ _ _ _ _ _ _ _ A3 _ _ _ _ W2 E3) as (W3 & O3 & N3 & B3).
  rewrite Bltb_fval in O3. destruct (between _ _ O3) as (t & T1 & T2). exists t.
  destruct (N3 t T1 T2) as (T3 & T4). destruct (N2 t T3 T4) as (T5 & T6). destruct (N1 t T5 T6) as (T7 & T8).
  unfold pointR, lineR, addR, scaleR, map3. cbn [vx vy vz]. split; [split; assumption|]. auto.
Qed.
End BoxFloat.

Section Stated.
Variables prec emax : Z.
Context (Hp : Prec_gt_0 prec) (Hm : Prec_lt_emax prec emax).
Variable lm : libm (binary_float prec emax).
Notation float := (binary_float prec emax).
Variable k : Z.
Lemma not_culled_stated : (8 <= prec)%Z -> (0 <= k)%Z -> (2 * k + 2 * prec + 8 <= emax)%Z ->
  forall (fb : aabb float) (fr : ray float) (b : aabb R) (r : ray R),
  map3 fval (b_min fb) = fin3 (b_min b) -> map3 fval (b_max fb) = fin3 (b_max b) -> map3 fval (r_orig fr) = fin3 (r_orig r) -> map3 fval (r_dir fr) = fin3 (r_dir r) ->
  moderate3 k (b_min b) -> moderate3 k (b_max b) -> moderate3 k (r_orig r) -> moderate3 k (r_dir r) ->
  forall lo hi t t', in_window (fval lo) (fval hi) t -> in_window (fval lo) (fval hi) t' -> in_box b (pointR r t) -> in_box b (pointR r t') ->
  let u := bpow radix2 (- prec) in
  t + 4 * u * Rabs t < t' - 4 * u * Rabs t' -> aabb_hit (F:=FL prec emax Hp Hm lm) fb fr lo hi = true.
Proof. intros P8 K0 K fb fr b r A B C D E F G H lo hi t t' W W' I I' u0 T. eapply not_culled_float with (k := k) (b := b) (r := r) (t := t) (t' := t'); unfold corners; auto 10. Qed.
Lemma accepted_stated : (8 <= prec)%Z -> (0 <= k)%Z -> (2 * k + 2 * prec + 8 <= emax)%Z ->
  forall (fb : aabb float) (fr : ray float) (b : aabb R) (r : ray R),
  map3 fval (b_min fb) = fin3 (b_min b) -> map3 fval (b_max fb) = fin3 (b_max b) -> map3 fval (r_orig fr) = fin3 (r_orig r) -> map3 fval (r_dir fr) = fin3 (r_dir r) ->
  moderate3 k (b_min b) -> moderate3 k (b_max b) -> moderate3 k (r_orig r) -> moderate3 k (r_dir r) ->
  forall lo hi, fval lo <> NaN -> fval hi <> NaN -> aabb_hit (F:=FL prec emax Hp Hm lm) fb fr lo hi = true ->
  let u := bpow radix2 (- prec) in
  exists t, in_window (fval lo) (fval hi) t /\
    (vx (b_min b) - 4 * u * Rabs (vx (b_min b) - vx (r_orig r)) <= vx (pointR r t) <= vx (b_max b) + 4 * u * Rabs (vx (b_max b) - vx (r_orig r))) /\
    (vy (b_min b) - 4 * u * Rabs (vy (b_min b) - vy (r_orig r)) <= vy (pointR r t) <= vy (b_max b) + 4 * u * Rabs (vy (b_max b) - vy (r_orig r))) /\
    (vz (b_min b) - 4 * u * Rabs (vz (b_min b) - vz (r_orig r)) <= vz (pointR r t) <= vz (b_max b) + 4 * u * Rabs (vz (b_max b) - vz (r_orig r))).
Proof. intros P8 K0 K fb fr b r A B C D E F G H lo hi L L' T u0. eapply accepted_near with (k := k) (b := b) (r := r); unfold corners; eauto 10. Qed.
End Stated.
