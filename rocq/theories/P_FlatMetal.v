(** Metal rectangles in floating point: the mirrored direction is exact. *)
From Coq Require Import Reals Lra ZArith Lia List Bool.
From Flocq Require Import Core Mult_error BinarySingleNaN.
From Verif Require Import Num XR FL Spec M_Vec M_Hittable M_Shapes M_Materials P_FL P_Round P_FlatLeave.
Import ListNotations.
Local Open Scope R_scope.

Section Metal.
Variables prec emax : Z.
Context (Hp : Prec_gt_0 prec) (Hm : Prec_lt_emax prec emax).
Variable lm : libm (binary_float prec emax).
Hypothesis P24 : (24 <= prec)%Z.
Hypothesis E64 : (64 <= emax)%Z.
Notation float := (binary_float prec emax).
Notation N := (FL prec emax Hp Hm lm).
Notation rnd := (round radix2 (SpecFloat.fexp prec emax) ZnearestE).
Notation format := (generic_format radix2 (SpecFloat.fexp prec emax)).
Notation val := (val prec emax).
Notation b2 := (bpow radix2).

Lemma abs_unit : forall a s, s = 1 \/ s = -1 -> Rabs (a * s) = Rabs a.
Proof. intros a s [->| ->]; [rewrite Rmult_1_r; reflexivity|]. replace (a * -1) with (- a) by ring. apply Rabs_Ropp. Qed.
Lemma format_unit : forall a s, s = 1 \/ s = -1 -> format a -> format (a * s).
Proof. intros a s [->| ->] F; [rewrite Rmult_1_r; exact F|]. replace (a * -1) with (- a) by ring. apply generic_format_opp. exact F. Qed.
Lemma times_unit : forall x y a s, val x a -> val y s -> s = 1 \/ s = -1 -> Rabs a <= b2 (emax - 1) -> val (nmul (NumOps:=N) x y) (a * s).
Proof.
  intros x y a s A B H Sz. pose proof (mult_val prec emax Hp Hm lm _ _ _ _ A B) as M. rewrite rnd_id in M by (apply format_unit; [exact H|exact (val_format prec emax _ _ A)]).
  apply M. rewrite abs_unit by exact H. exact Sz.
Qed.
Lemma zero_plus : forall x y b, val x 0 -> val y b -> Rabs b <= b2 (emax - 1) -> val (nadd (NumOps:=N) x y) b.
Proof.
  intros x y b A B Sz. pose proof (plus_val prec emax Hp Hm lm _ _ _ _ A B) as M. rewrite Rplus_0_l, rnd_id in M by exact (val_format prec emax _ _ B). apply M. exact Sz.
Qed.
Lemma plus_zero : forall x y b, val x b -> val y 0 -> Rabs b <= b2 (emax - 1) -> val (nadd (NumOps:=N) x y) b.
Proof.
  intros x y b A B Sz. pose proof (plus_val prec emax Hp Hm lm _ _ _ _ A B) as M. rewrite Rplus_0_r, rnd_id in M by exact (val_format prec emax _ _ A). apply M. exact Sz.
Qed.
Lemma minus_zero : forall x y b, val x b -> val y 0 -> Rabs b <= b2 (emax - 1) -> val (nsub (NumOps:=N) x y) b.
Proof.
  intros x y b A B Sz. pose proof (minus_val prec emax Hp Hm lm _ _ _ _ A B) as M. rewrite Rminus_0_r, rnd_id in M by exact (val_format prec emax _ _ A). apply M. exact Sz.
Qed.
Lemma b2_half : 2 * b2 (emax - 2) = b2 (emax - 1).
Proof. change 2 with (b2 1). rewrite <- bpow_plus. f_equal. lia. Qed.
Lemma b2_0 : Rabs 0 <= b2 (emax - 1).
Proof. rewrite Rabs_R0. apply bpow_ge_0. Qed.
Lemma two_is : val (nofZ (NumOps:=N) 2) 2.
Proof. exact (P_Sampler.ofZ_small prec emax Hp Hm lm P24 E64 2 ltac:(lia)). Qed.
Lemma twice : forall x a, val x a -> Rabs a <= b2 (emax - 2) -> val (nmul (NumOps:=N) (nofZ (NumOps:=N) 2) x) (2 * a).
Proof.
  intros x a A Sz. pose proof (mult_val prec emax Hp Hm lm _ _ _ _ two_is A) as M. rewrite rnd_id in M.
  - apply M. rewrite Rabs_mult, (Rabs_pos_eq 2) by lra. rewrite <- b2_half. lra.
  - pose proof (mult_bpow_pos_exact_FLT radix2 (SpecFloat.emin prec emax) prec a 1 (val_format prec emax _ _ A) ltac:(lia)) as G. change (b2 1) with 2 in G. rewrite Rmult_comm. exact G.
Qed.
(* c minus twice c *)
Lemma flipped : forall x y c s, s = 1 \/ s = -1 -> val x c -> val y (2 * (c * s) * s) -> Rabs c <= b2 (emax - 2) -> val (nsub (NumOps:=N) x y) (- c).
Proof.
  intros x y c s H A B Sz. pose proof (minus_val prec emax Hp Hm lm _ _ _ _ A B) as M. replace (c - 2 * (c * s) * s) with (- c) in M by (destruct H as [->| ->]; ring).
  rewrite rnd_id in M by (apply generic_format_opp; exact (val_format prec emax _ _ A)). apply M. rewrite Rabs_Ropp. pose proof b2_half. pose proof (bpow_ge_0 radix2 (emax - 2)). lra.
Qed.

Definition vals3 (f : vec3 float) (v : vec3 R) : Prop := val (vx f) (vx v) /\ val (vy f) (vy v) /\ val (vz f) (vz v).
Lemma vals3_fval : forall f v, map3 fval f = fin3 v -> vals3 f v.
Proof.
  intros [a b c] [x y z] H. unfold fin3, map3 in H; cbn [vx vy vz] in H. unfold vals3; cbn [vx vy vz].
  assert (G : fval a = Fin x /\ fval b = Fin y /\ fval c = Fin z) by (injection H; auto). destruct G as (A & B & C). split; [|split]; apply val_fval; assumption.
Qed.
Lemma fval_vals3 : forall f v, vals3 f v -> map3 fval f = fin3 v.
Proof.
  intros [a b c] [x y z] (A & B & C); cbn [vx vy vz] in *. unfold fin3, map3; cbn [vx vy vz]. apply val_fval in A, B, C. rewrite A, B, C. reflexivity.
Qed.
Definition small3 (e : Z) (v : vec3 R) : Prop := Rabs (vx v) <= b2 e /\ Rabs (vy v) <= b2 e /\ Rabs (vz v) <= b2 e.

Ltac dots := repeat first [apply b2_0 | assumption | (rewrite abs_unit by assumption; assumption)
  | (apply times_unit; assumption) | (eapply mul0; eassumption) | exact (zero_is prec emax Hp Hm lm P24 E64)].
Lemma dot_z : forall n s v w, vals3 n (V3 0 0 s) -> s = 1 \/ s = -1 -> vals3 v w -> small3 (emax - 1) w -> val (dot (F:=N) v n) (vz w * s).
Proof.
  intros n s v w (A & B & C) H (Va & Vb & Vc) (Ra & Rb & Rc); cbn [vx vy vz] in *. unfold dot.
  apply zero_plus; [apply plus_zero; [apply plus_zero|..]|..]; dots.
Qed.
Lemma dot_y : forall n s v w, vals3 n (V3 0 s 0) -> s = 1 \/ s = -1 -> vals3 v w -> small3 (emax - 1) w -> val (dot (F:=N) v n) (vy w * s).
Proof.
  intros n s v w (A & B & C) H (Va & Vb & Vc) (Ra & Rb & Rc); cbn [vx vy vz] in *. unfold dot.
  apply plus_zero; [apply zero_plus; [apply plus_zero|..]|..]; dots.
Qed.
Lemma dot_x : forall n s v w, vals3 n (V3 s 0 0) -> s = 1 \/ s = -1 -> vals3 v w -> small3 (emax - 1) w -> val (dot (F:=N) v n) (vx w * s).
Proof.
  intros n s v w (A & B & C) H (Va & Vb & Vc) (Ra & Rb & Rc); cbn [vx vy vz] in *. unfold dot.
  apply plus_zero; [apply plus_zero; [apply zero_plus|..]|..]; dots.
Qed.
Lemma small_up : forall w, small3 (emax - 2) w -> small3 (emax - 1) w.
Proof. intros w (A & B & C). pose proof (bpow_le radix2 (emax - 2) (emax - 1) ltac:(lia)). repeat split; lra. Qed.
Lemma across_scaled : forall x y c s, s = 1 \/ s = -1 -> val x (c * s) -> val y s -> Rabs c <= b2 (emax - 2) -> val (nmul (NumOps:=N) (nmul (NumOps:=N) (nofZ (NumOps:=N) 2) x) y) (2 * (c * s) * s).
Proof.
  intros x y c s H A B Sz. assert (S2 : Rabs (c * s) <= b2 (emax - 2)) by (rewrite abs_unit by exact H; exact Sz). apply times_unit; [apply twice; assumption|exact B|exact H|].
  rewrite Rabs_mult, (Rabs_pos_eq 2) by lra. rewrite <- b2_half. lra.
Qed.
Lemma reflect_z : forall n s v w, vals3 n (V3 0 0 s) -> s = 1 \/ s = -1 -> vals3 v w -> small3 (emax - 2) w -> vals3 (reflect (F:=N) v n) (V3 (vx w) (vy w) (- vz w)).
Proof.
  intros n s v w Vn H Vv Sw. pose proof (dot_z n s v w Vn H Vv (small_up _ Sw)) as D. pose proof (small_up _ Sw) as (Ua & Ub & Uc). destruct Vn as (A & B & C), Vv as (Va & Vb & Vc), Sw as (Ra & Rb & Rc); cbn [vx vy vz] in *.
  unfold reflect, vsub, vscale, vals3; cbn [vx vy vz].
  split; [apply minus_zero; [exact Va|eapply mul0; [apply twice; [exact D|rewrite abs_unit by exact H; exact Rc]|exact A]|exact Ua]|].
  split; [apply minus_zero; [exact Vb|eapply mul0; [apply twice; [exact D|rewrite abs_unit by exact H; exact Rc]|exact B]|exact Ub]|].
  eapply flipped; [exact H|exact Vc|apply across_scaled; assumption|exact Rc].
Qed.
Lemma reflect_y : forall n s v w, vals3 n (V3 0 s 0) -> s = 1 \/ s = -1 -> vals3 v w -> small3 (emax - 2) w -> vals3 (reflect (F:=N) v n) (V3 (vx w) (- vy w) (vz w)).
Proof.
  intros n s v w Vn H Vv Sw. pose proof (dot_y n s v w Vn H Vv (small_up _ Sw)) as D. pose proof (small_up _ Sw) as (Ua & Ub & Uc). destruct Vn as (A & B & C), Vv as (Va & Vb & Vc), Sw as (Ra & Rb & Rc); cbn [vx vy vz] in *.
  unfold reflect, vsub, vscale, vals3; cbn [vx vy vz].
  split; [apply minus_zero; [exact Va|eapply mul0; [apply twice; [exact D|rewrite abs_unit by exact H; exact Rb]|exact A]|exact Ua]|].
  split; [|apply minus_zero; [exact Vc|eapply mul0; [apply twice; [exact D|rewrite abs_unit by exact H; exact Rb]|exact C]|exact Uc]].
  eapply flipped; [exact H|exact Vb|apply across_scaled; assumption|exact Rb].
Qed.
Lemma reflect_x : forall n s v w, vals3 n (V3 s 0 0) -> s = 1 \/ s = -1 -> vals3 v w -> small3 (emax - 2) w -> vals3 (reflect (F:=N) v n) (V3 (- vx w) (vy w) (vz w)).
Proof.
  intros n s v w Vn H Vv Sw. pose proof (dot_x n s v w Vn H Vv (small_up _ Sw)) as D. pose proof (small_up _ Sw) as (Ua & Ub & Uc). destruct Vn as (A & B & C), Vv as (Va & Vb & Vc), Sw as (Ra & Rb & Rc); cbn [vx vy vz] in *.
  unfold reflect, vsub, vscale, vals3; cbn [vx vy vz].
  split; [eapply flipped; [exact H|exact Va|apply across_scaled; assumption|exact Ra]|].
  split; [apply minus_zero; [exact Vb|eapply mul0; [apply twice; [exact D|rewrite abs_unit by exact H; exact Ra]|exact B]|exact Ub]|].
  apply minus_zero; [exact Vc|eapply mul0; [apply twice; [exact D|rewrite abs_unit by exact H; exact Ra]|exact C]|exact Uc].
Qed.

(** a component over the norm keeps its sign *)
Lemma root_pos : forall m : float, 0 <= B2R (nsqrt (NumOps:=N) m).
Proof.
  intros m. cbn [nsqrt FL]. destruct (Bsqrt_correct prec emax Hp Hm mode_NE m) as (E & _). rewrite E. apply round_ge_generic; [apply FLT_exp_valid; exact Hp|apply valid_rnd_round_mode|apply generic_format_0|apply sqrt_pos].
Qed.
Lemma over_sign : forall z m a c, val z a -> val (ndiv (NumOps:=N) z (nsqrt (NumOps:=N) m)) c -> c <> 0 -> 0 < a * c.
Proof.
  intros z m a c Vz Vc Hc. pose proof (root_pos m) as Pn. set (n := nsqrt (NumOps:=N) m) in *. clearbody n. cbn [ndiv FL] in Vc. change (@num N) with float in *.
  destruct Vz as [Fz <-]. destruct Vc as [Fc Ec].
  assert (Hn : B2R n <> 0 /\ True).
  { split; [|exact I]. destruct n as [sn|sn| |sn mn en pn].
    - destruct z; cbn in Fz, Fc; discriminate.
    - destruct z; cbn in Fz; try discriminate; cbn in Ec; subst c; lra.
    - destruct z; cbn in Fz, Fc; discriminate.
    - intros Q. cbn [B2R] in Q. apply eq_0_F2R in Q. cbn in Q. destruct sn; discriminate. }
  destruct Hn as [Hn _]. pose proof (Bdiv_correct prec emax Hp Hm mode_NE z n Hn) as C.
  destruct (Rlt_bool _ _).
  - destruct C as (C & _). rewrite <- Ec. rewrite C. cbn [round_mode]. assert (Zc : round radix2 (SpecFloat.fexp prec emax) ZnearestE (B2R z / B2R n) <> 0) by (cbn [round_mode] in C; rewrite <- C, Ec; exact Hc).
    assert (Q : 0 < / B2R n) by (apply Rinv_0_lt_compat; lra).
    destruct (Rtotal_order (B2R z) 0) as [L|[E|G]].
    + assert (L2 : rnd (B2R z / B2R n) <= 0) by (apply round_le_generic; [apply FLT_exp_valid; exact Hp|apply valid_rnd_N|apply generic_format_0|unfold Rdiv; nra]). nra.
    + exfalso. apply Zc. rewrite E. unfold Rdiv. rewrite Rmult_0_l. apply round_0. apply valid_rnd_N.
    + assert (L2 : 0 <= rnd (B2R z / B2R n)) by (apply round_ge_generic; [apply FLT_exp_valid; exact Hp|apply valid_rnd_N|apply generic_format_0|unfold Rdiv; nra]). nra.
  - exfalso. assert (X : is_finite_SF (B2SF (Bdiv mode_NE z n)) = true) by (rewrite is_finite_SF_B2SF; exact Fc). rewrite C in X. unfold binary_overflow in X. cbn in X. discriminate.
Qed.

Lemma rect_normal : forall n q o1 o2 o3 d1 d2 d3 r lo hi rec rec', rect_hit (F:=N) n q o1 o2 o3 d1 d2 d3 r lo hi rec = Ok (true, rec') ->
  h_normal rec' = if nltb (NumOps:=N) (dot (F:=N) (r_dir r) n) (nofZ (NumOps:=N) 0) then n else vneg (F:=N) n.
Proof.
  intros n q o1 o2 o3 d1 d2 d3 r lo hi rec rec' H. unfold rect_hit in H. change (@num N) with float in *.
  match type of H with (if ?c then _ else _) = _ => destruct c; [discriminate|] end.
  match type of H with (if ?c then _ else _) = _ => destruct c; [discriminate|] end.
  assert (E : forall (a b : hit_record float), Ok (true, a) = Ok (true, b) -> a = b) by (intros a b Q; injection Q; auto).
  apply E in H. subst rec'. reflexivity.
Qed.

Definition mirrors : list ((rect float -> ray float -> float -> float -> hit_record float -> outcome (bool * hit_record float)) * (vec3 R -> vec3 R)) :=
  [(xy_hit (F:=N), fun v => V3 (vx v) (vy v) (- vz v)); (xz_hit (F:=N), fun v => V3 (vx v) (- vy v) (vz v)); (yz_hit (F:=N), fun v => V3 (- vx v) (vy v) (vz v))].
Lemma flat_mirror : forall hit flip, In (hit, flip) mirrors -> forall q r lo hi rec rec' tex d y,
  hit q r lo hi rec = Ok (true, rec') -> map3 fval (r_dir r) = fin3 d -> small3 (emax - 1) d -> map3 fval (normalize (F:=N) (r_dir r)) = fin3 y -> small3 (emax - 2) y ->
  exists ok out, metal_scatter (F:=N) tex r rec' = (ok, (tex rec', Ray (h_p rec') out)) /\ map3 fval out = fin3 (flip y) /\ (flip y <> y -> ok = true).
Proof.
  intros hit flip I q r lo hi rec rec' tex d y H Vd Sd Vy Sy. apply vals3_fval in Vd, Vy.
  pose proof (zero_is prec emax Hp Hm lm P24 E64) as Z0. pose proof (neg_is prec emax Hp Hm lm _ _ Z0) as Z1. rewrite Ropp_0 in Z1.
  pose proof (one_is prec emax Hp Hm lm P24 E64) as O0. pose proof (neg_is prec emax Hp Hm lm _ _ O0) as O1. replace (- (1)) with (-1) in O1 by lra.
  assert (Sf : small3 (emax - 1) (flip y)).
  { apply small_up in Sy. destruct Sy as (A & B & C). destruct I as [E|[E|[E|[]]]]; apply pair_equal_spec in E; destruct E as [_ <-]; unfold small3; cbn [vx vy vz]; rewrite ?Rabs_Ropp; auto. }
  unfold metal_scatter. eexists; eexists; split; [reflexivity|].
  destruct I as [E|[E|[E|[]]]]; apply pair_equal_spec in E; destruct E as [<- <-].
  - set (n0 := V3 (nofZ (NumOps:=N) 0) (nofZ (NumOps:=N) 0) (nofZ (NumOps:=N) 1) : vec3 float).
    assert (Q : h_normal rec' = if nltb (NumOps:=N) (dot (F:=N) (r_dir r) n0) (nofZ (NumOps:=N) 0) then n0 else vneg (F:=N) n0) by exact (rect_normal _ _ _ _ _ _ _ _ _ _ _ _ _ H).
    assert (Vn : vals3 n0 (V3 0 0 1)) by (split; [|split]; assumption).
    pose proof (ltb_val prec emax Hp Hm lm _ _ _ _ (dot_z n0 1 _ d Vn (or_introl eq_refl) Vd Sd) Z0) as Tl. rewrite Tl in Q.
    assert (Hn : exists s, (s = 1 \/ s = -1) /\ vals3 (h_normal rec') (V3 0 0 s) /\ (vz d * s <= 0)).
    { rewrite Q. destruct (Rltb_spec (vz d * 1) 0); [exists 1|exists (-1)]; (split; [auto|split; [split; [|split]; assumption|lra]]). }
    destruct Hn as (s & Hs & Vs & Sg). pose proof (reflect_z _ s _ y Vs Hs Vy Sy) as Rf.
    split; [apply fval_vals3; exact Rf|]. intros Ne.
    assert (Yc : vz y <> 0) by (intros Yc; apply Ne; rewrite Yc, Ropp_0; destruct y; cbn in *; subst; reflexivity).
    pose proof (over_sign _ _ _ _ (proj2 (proj2 Vd)) (proj2 (proj2 Vy)) Yc) as Si.
    pose proof (dot_z _ s _ _ Vs Hs Rf Sf) as D. cbn [vz] in D. refine (eq_trans (ltb_val prec emax Hp Hm lm _ _ _ _ Z0 D) _). apply Rltb_true. destruct Hs as [-> | ->]; nra.
  - set (n0 := V3 (nofZ (NumOps:=N) 0) (nofZ (NumOps:=N) 1) (nofZ (NumOps:=N) 0) : vec3 float).
    assert (Q : h_normal rec' = if nltb (NumOps:=N) (dot (F:=N) (r_dir r) n0) (nofZ (NumOps:=N) 0) then n0 else vneg (F:=N) n0) by exact (rect_normal _ _ _ _ _ _ _ _ _ _ _ _ _ H).
    assert (Vn : vals3 n0 (V3 0 1 0)) by (split; [|split]; assumption).
    pose proof (ltb_val prec emax Hp Hm lm _ _ _ _ (dot_y n0 1 _ d Vn (or_introl eq_refl) Vd Sd) Z0) as Tl. rewrite Tl in Q.
    assert (Hn : exists s, (s = 1 \/ s = -1) /\ vals3 (h_normal rec') (V3 0 s 0) /\ (vy d * s <= 0)).
    { rewrite Q. destruct (Rltb_spec (vy d * 1) 0); [exists 1|exists (-1)]; (split; [auto|split; [split; [|split]; assumption|lra]]). }
    destruct Hn as (s & Hs & Vs & Sg). pose proof (reflect_y _ s _ y Vs Hs Vy Sy) as Rf.
    split; [apply fval_vals3; exact Rf|]. intros Ne.
    assert (Yc : vy y <> 0) by (intros Yc; apply Ne; rewrite Yc, Ropp_0; destruct y; cbn in *; subst; reflexivity).
    pose proof (over_sign _ _ _ _ (proj1 (proj2 Vd)) (proj1 (proj2 Vy)) Yc) as Si.
    pose proof (dot_y _ s _ _ Vs Hs Rf Sf) as D. cbn [vy] in D. refine (eq_trans (ltb_val prec emax Hp Hm lm _ _ _ _ Z0 D) _). apply Rltb_true. destruct Hs as [-> | ->]; nra.
  - set (n0 := V3 (nofZ (NumOps:=N) 1) (nofZ (NumOps:=N) 0) (nofZ (NumOps:=N) 0) : vec3 float).
    assert (Q : h_normal rec' = if nltb (NumOps:=N) (dot (F:=N) (r_dir r) n0) (nofZ (NumOps:=N) 0) then n0 else vneg (F:=N) n0) by exact (rect_normal _ _ _ _ _ _ _ _ _ _ _ _ _ H).
    assert (Vn : vals3 n0 (V3 1 0 0)) by (split; [|split]; assumption).
    pose proof (ltb_val prec emax Hp Hm lm _ _ _ _ (dot_x n0 1 _ d Vn (or_introl eq_refl) Vd Sd) Z0) as Tl. rewrite Tl in Q.
    assert (Hn : exists s, (s = 1 \/ s = -1) /\ vals3 (h_normal rec') (V3 s 0 0) /\ (vx d * s <= 0)).
    { rewrite Q. destruct (Rltb_spec (vx d * 1) 0); [exists 1|exists (-1)]; (split; [auto|split; [split; [|split]; assumption|lra]]). }
    destruct Hn as (s & Hs & Vs & Sg). pose proof (reflect_x _ s _ y Vs Hs Vy Sy) as Rf.
    split; [apply fval_vals3; exact Rf|]. intros Ne.
    assert (Yc : vx y <> 0) by (intros Yc; apply Ne; rewrite Yc, Ropp_0; destruct y; cbn in *; subst; reflexivity).
    pose proof (over_sign _ _ _ _ (proj1 Vd) (proj1 Vy) Yc) as Si.
    pose proof (dot_x _ s _ _ Vs Hs Rf Sf) as D. cbn [vx] in D. refine (eq_trans (ltb_val prec emax Hp Hm lm _ _ _ _ Z0 D) _). apply Rltb_true. destruct Hs as [-> | ->]; nra.
Qed.
End Metal.
