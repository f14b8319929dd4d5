(** The scalar of the curvature plots (C84). *)
From Coq Require Import Reals Lra Psatz List.
From Verif Require Import Num XR Spec Spec_Shapes Spec_Scene Spec_Surfaces M_Vec M_Hittable M_Shapes M_Surfaces M_Curvature
  P_Vec P_Angle P_Curvature P_Ellipsoid P_Torus P_Hits P_Helicoid P_Enneper.
Import ListNotations.
Local Open Scope R_scope.

Section L.
Context {L : limits}.

Lemma linear_value : forall k0 k1 K (rec : hit_record xr), k0 < k1 -> k0 <= K <= k1 -> gaussian_curvature (F:=XR L) rec = Fin K ->
  exists x, linear_scalar (F:=XR L) (Fin k0, Fin k1) rec = Fin x /\ 0 <= x <= 1 /\ K = k0 + x * (k1 - k0).
Proof.
  intros k0 k1 K rec H B E. unfold linear_scalar; cbn [fst snd]. rewrite E. xred. rewrite xdiv_fin by lra.
  exists ((K - k0) / (k1 - k0)). split; auto. assert (Q : (K - k0) / (k1 - k0) * (k1 - k0) = K - k0) by (field; lra).
  split; [|lra]. split; apply Rmult_le_reg_r with (k1 - k0); lra.
Qed.
Lemma log_value : forall k0 k1 K (rec : hit_record xr), k0 < k1 < 0 -> k0 <= K <= k1 -> gaussian_curvature (F:=XR L) rec = Fin K ->
  exists x, log_scalar (F:=XR L) (Fin k0, Fin k1) rec = Fin x /\ 0 <= x <= 1 /\ ln (- K) = ln (- k1) + x * (ln (- k0) - ln (- k1)).
Proof.
  intros k0 k1 K rec H B E. unfold log_scalar; cbn [fst snd]. rewrite E. xred. unfold xlog.
  destruct (Rlt_dec 0 (- k1)); [|lra]. destruct (Rlt_dec 0 (- k0)); [|lra]. destruct (Rlt_dec 0 (- K)); [|lra].
  assert (A : ln (- k1) < ln (- k0)) by (apply ln_increasing; lra).
  assert (LE : forall x y, 0 < x -> x <= y -> ln x <= ln y) by (intros x y X [Y|Y]; [left; apply ln_increasing; auto|right; congruence]).
  pose proof (LE (- k1) (- K) ltac:(lra) ltac:(lra)). pose proof (LE (- K) (- k0) ltac:(lra) ltac:(lra)).
  xred. rewrite xdiv_fin by lra. exists ((ln (- K) - ln (- k1)) / (ln (- k0) - ln (- k1))). split; auto.
  assert (Q : (ln (- K) - ln (- k1)) / (ln (- k0) - ln (- k1)) * (ln (- k0) - ln (- k1)) = ln (- K) - ln (- k1)) by (field; lra).
  split; [|lra]. split; apply Rmult_le_reg_r with (ln (- k0) - ln (- k1)); lra.
Qed.
End L.

Section Torus_.
Variables (L : limits) (r : ray R) (lo hi : xr) (rec rec' : hit_record xr).
Lemma torus_coloured : forall o, 0 < o_r o -> o_r o < o_R o -> r_dir r <> zeroR -> torus_off_threshold (l_min L) o r ->
  (forall t, at_least lo t -> 0 < t) ->
  torus_hit (F:=XR L) (fintorus o) (finray r) lo hi rec = Ok (true, rec') ->
  exists t x k0 k1, h_t rec' = Fin t /\
    linear_scalar (F:=XR L) (torus_curvature_bounds (F:=XR L) (fintorus o)) rec' = Fin x /\ 0 <= x <= 1 /\
    torus_K o (pointR r t) = k0 + x * (k1 - k0) /\
    (exists p, on_torus o p /\ torus_K o p = k0) /\ (exists p, on_torus o p /\ torus_K o p = k1) /\
    forall p, on_torus o p -> k0 <= torus_K o p <= k1.
Proof.
  intros o Hr HR Hd Ho Hlo H.
  destruct (torus_hit_curvature (L:=L) r lo hi rec rec' o Hr HR Hd Ho Hlo H) as (t & u & v & n & K & Hm & Et & Ep & EK & _ & G & _).
  destruct (torus_bounds_spec (L:=L) o Hr HR) as (k0 & k1 & EB & B & A0 & A1).
  assert (On : on_torus o (pointR r t)) by (rewrite Ep; apply torus_sigma_on; auto).
  assert (k0 < k1).
  { unfold torus_curvature_bounds in EB. cbn [fintorus o_R o_r] in EB. revert EB. xred. rewrite !xdiv_fin by nra. intros EB. injection EB as <- <-.
    assert (0 < 1 / (o_r o * (o_R o - o_r o))) by (apply Rdiv_lt_0_compat; nra).
    assert (0 < 1 / (o_r o * (o_R o + o_r o))) by (apply Rdiv_lt_0_compat; nra).
    replace (-1 / (o_r o * (o_R o - o_r o))) with (- (1 / (o_r o * (o_R o - o_r o)))) by (field; lra). lra. }
  subst K. destruct (linear_value (L:=L) k0 k1 _ rec' ltac:(auto) (B _ On) G) as (x & Ex & Hx & Q).
  exists t, x, k0, k1. rewrite EB. auto 10.
Qed.
End Torus_.

Section Ellipsoid_.
Variables (L : limits) (r : ray R) (lo hi : xr) (rec rec' : hit_record xr).
Hypothesis Hlo : lo <> NaN.
Hypothesis Hhi : hi <> NaN.
Variable s : ellipsoid R.
Hypothesis Hs : positive3 (el_scales s).
Let a := vx (el_scales s).
Let b := vy (el_scales s).
Let c := vz (el_scales s).

Lemma tips : (exists p, on_ellipsoid s p /\ ellipsoid_K s p = a ^ 2 / (b ^ 2 * c ^ 2)) /\
  (exists p, on_ellipsoid s p /\ ellipsoid_K s p = b ^ 2 / (a ^ 2 * c ^ 2)) /\
  (exists p, on_ellipsoid s p /\ ellipsoid_K s p = c ^ 2 / (a ^ 2 * b ^ 2)).
Proof.
  destruct Hs as (Ha & Hb & Hc). fold a in Ha. fold b in Hb. fold c in Hc.
  assert (X : forall c' q, c' + q - c' = q) by (intros; ring).
  split; [|split]; [exists (addR (el_center s) (V3 a 0 0))|exists (addR (el_center s) (V3 0 b 0))|exists (addR (el_center s) (V3 0 0 c))];
    unfold on_ellipsoid, ellipsoid_K, addR; cbn [vx vy vz]; cbv zeta; fold a b c; rewrite !X; split; field; lra.
Qed.
Lemma pow4_inj : forall x y, 0 < x -> 0 < y -> x ^ 4 = y ^ 4 -> x = y.
Proof.
  intros x y Hx Hy E. assert (Q : (x - y) * ((x + y) * (x ^ 2 + y ^ 2)) = 0) by (transitivity (x ^ 4 - y ^ 4); [ring|lra]).
  apply Rmult_integral in Q. destruct Q as [Q|Q]; [lra|]. exfalso.
  assert (0 < x ^ 2) by (apply pow_lt; auto). assert (0 < y ^ 2) by (apply pow_lt; auto). nra.
Qed.
Lemma bounds_apart : ~ (a = b /\ b = c) -> forall k0 k1, (forall p, on_ellipsoid s p -> k0 <= ellipsoid_K s p <= k1) -> k0 < k1.
Proof.
  intros N k0 k1 B. destruct tips as ((p & P1 & P2) & (q & Q1 & Q2) & (w & W1 & W2)).
  pose proof (B p P1). pose proof (B q Q1). pose proof (B w W1).
  destruct (Rlt_le_dec k0 k1) as [K|K]; auto. exfalso. apply N. clear N.
  destruct Hs as (Ha & Hb & Hc). fold a in Ha. fold b in Hb. fold c in Hc.
  assert (E1 : a ^ 2 / (b ^ 2 * c ^ 2) = b ^ 2 / (a ^ 2 * c ^ 2)) by lra.
  assert (E2 : b ^ 2 / (a ^ 2 * c ^ 2) = c ^ 2 / (a ^ 2 * b ^ 2)) by lra.
  split; apply pow4_inj; auto.
  - transitivity (a ^ 2 / (b ^ 2 * c ^ 2) * (a ^ 2 * b ^ 2 * c ^ 2)); [field; lra|]. rewrite E1. field; lra.
  - transitivity (b ^ 2 / (a ^ 2 * c ^ 2) * (a ^ 2 * b ^ 2 * c ^ 2)); [field; lra|]. rewrite E2. field; lra.
Qed.
Lemma ellipsoid_coloured : ~ (a = b /\ b = c) -> ellipsoid_off_threshold (l_min L) s r ->
  ellipsoid_hit (F:=XR L) (finellipsoid s) (finray r) lo hi rec = Ok (true, rec') ->
  exists t, h_t rec' = Fin t /\ (~ on_z_axis (el_center s) (pointR r t) -> exists x k0 k1,
    linear_scalar (F:=XR L) (ellipsoid_curvature_bounds (F:=XR L) (finellipsoid s)) rec' = Fin x /\ 0 <= x <= 1 /\
    ellipsoid_K s (pointR r t) = k0 + x * (k1 - k0) /\
    (exists p, on_ellipsoid s p /\ ellipsoid_K s p = k0) /\ (exists p, on_ellipsoid s p /\ ellipsoid_K s p = k1) /\
    forall p, on_ellipsoid s p -> k0 <= ellipsoid_K s p <= k1).
Proof.
  intros N Off H.
  destruct (ellipsoid_hit_curvature (L:=L) r lo hi rec rec' Hlo Hhi s Hs Off H) as (t & Et & _ & Z).
  exists t. split; auto. intros NZ. destruct (Z NZ) as (u & v & n & Hm & Ep & _ & G & _).
  destruct (ellipsoid_bounds_spec (L:=L) s Hs) as (k0 & k1 & EB & B & A0 & A1).
  assert (On : on_ellipsoid s (pointR r t)) by (rewrite Ep; apply ellipsoid_sigma_on; auto).
  destruct (linear_value (L:=L) k0 k1 _ rec' (bounds_apart N k0 k1 B) (B _ On) G) as (x & Ex & Hx & Q).
  exists x, k0, k1. rewrite EB. auto 10.
Qed.
(* all axes equal: 0/0 *)
Lemma round_uncoloured : a = b -> b = c -> forall K, gaussian_curvature (F:=XR L) rec' = Fin K -> 
  (exists p, on_ellipsoid s p /\ ellipsoid_K s p = K) ->
  linear_scalar (F:=XR L) (ellipsoid_curvature_bounds (F:=XR L) (finellipsoid s)) rec' = NaN.
Proof.
  intros E1 E2 K G (p & On & EK).
  destruct (ellipsoid_bounds_spec (L:=L) s Hs) as (k0 & k1 & EB & B & (p0 & O0 & A0) & (p1 & O1 & A1)).
  destruct Hs as (Ha & Hb & Hc). fold a in Ha. fold b in Hb. fold c in Hc.
  assert (V : forall p, on_ellipsoid s p -> ellipsoid_K s p = / a ^ 2).
  { intros [x y z]. unfold on_ellipsoid, ellipsoid_K; cbn [vx vy vz]; cbv zeta. fold a b c. rewrite <- E2, <- E1.
    set (X := x - vx (el_center s)). set (Y := y - vy (el_center s)). set (Z := z - vz (el_center s)). intros O.
    assert (Q : X ^ 2 / a ^ 4 + Y ^ 2 / a ^ 4 + Z ^ 2 / a ^ 4 = / a ^ 2).
    { transitivity (((X / a) ^ 2 + (Y / a) ^ 2 + (Z / a) ^ 2) * / a ^ 2); [field; lra|]. rewrite O. ring. }
    rewrite Q. field. lra. }
  rewrite (V p On) in EK. rewrite (V p0 O0) in A0. rewrite (V p1 O1) in A1. subst K k0 k1.
  rewrite EB. unfold linear_scalar; cbn [fst snd]. rewrite G. xred.
  replace (/ a ^ 2 - / a ^ 2) with 0 by ring. apply xdiv_zero_zero.
Qed.
End Ellipsoid_.
Lemma round_hit_uncoloured : forall (L : limits) (r : ray R) (lo hi : xr) (rec rec' : hit_record xr), lo <> NaN -> hi <> NaN ->
  forall s, positive3 (el_scales s) -> vx (el_scales s) = vy (el_scales s) -> vy (el_scales s) = vz (el_scales s) ->
  ellipsoid_off_threshold (l_min L) s r ->
  ellipsoid_hit (F:=XR L) (finellipsoid s) (finray r) lo hi rec = Ok (true, rec') ->
  exists t, h_t rec' = Fin t /\ (~ on_z_axis (el_center s) (pointR r t) ->
    linear_scalar (F:=XR L) (ellipsoid_curvature_bounds (F:=XR L) (finellipsoid s)) rec' = NaN).
Proof.
  intros L r lo hi rec rec' Hlo Hhi s Hs E1 E2 Off H.
  destruct (ellipsoid_hit_curvature (L:=L) r lo hi rec rec' Hlo Hhi s Hs Off H) as (t & Et & _ & Z).
  exists t. split; auto. intros NZ. destruct (Z NZ) as (u & v & n & Hm & Ep & _ & G & _).
  eapply round_uncoloured; eauto. exists (pointR r t). split; auto. rewrite Ep; apply ellipsoid_sigma_on; auto.
Qed.

Lemma helicoid_coloured : forall (L : limits) (s : helicoid R) (r : ray R) (lo hi : xr) (rec rec' : hit_record xr),
  helicoid_ok s -> direction_ok (l_min L) (r_dir r) ->
  helicoid_hit (F:=XR L) (finhelicoid s) (finray r) lo hi rec = Ok (true, rec') ->
  exists u v x, h_u rec' = Fin u /\ h_v rec' = Fin v /\ 0 <= v <= 1 /\
    log_scalar (F:=XR L) (helicoid_curvature_bounds (F:=XR L) (finhelicoid s)) rec' = Fin x /\ 0 <= x <= 1 /\
    ln (- helicoid_K s v) = ln (- helicoid_K s 1) + x * (ln (- helicoid_K s 0) - ln (- helicoid_K s 1)) /\
    (v = 0 -> x = 1) /\ (v = 1 -> x = 0).
Proof.
  intros L s r lo hi rec rec' Hok Hd H.
  destruct (helicoid_hit_record (L:=L) s r lo hi rec rec' Hok Hd H) as (u & v & Eu & Ev & _ & _ & _ & _ & _ & G & _).
  destruct (helicoid_on_surface (L:=L) s r lo hi rec rec' Hok Hd H) as ((t & u' & v' & _ & Eu' & Ev' & _ & Hv & _) & _).
  assert (v' = v) by congruence. subst v'. clear Eu' u' t.
  destruct (helicoid_bounds_wrong L s Hok) as (k0 & k1 & EB & B & E0 & E1 & _).
  pose proof four_pi2 as P4. pose proof (helicoid_K_neg s Hok) as N.
  set (p := 4 * PI ^ 2) in *. assert (0 < / p) by (apply Rinv_0_lt_compat; lra).
  assert (N' : forall v, helicoid_K s v / p < 0) by (intros w; specialize (N w); unfold Rdiv; nra).
  assert (LNp : forall v, ln (- (helicoid_K s v / p)) = ln (- helicoid_K s v) - ln p).
  { intros w. specialize (N w). unfold Rdiv. replace (- (helicoid_K s w * / p)) with (- helicoid_K s w * / p) by ring.
    rewrite ln_mult, ln_Rinv by lra. ring. }
  assert (K01 : helicoid_K s 0 < helicoid_K s 1).
  { destruct Hok as [Hr Hs]. pose proof PI_pos. unfold helicoid_K. rewrite Rmult_0_r, Rmult_1_r, pow_i, Rplus_0_r by auto.
    set (l := he_speed s) in *. set (q := (2 * PI * he_radius s) ^ 2). assert (0 < l ^ 2) by (apply pow_lt; auto).
    assert (0 < q) by (apply pow_lt; positive). assert (0 < (2 * PI * l) ^ 2) by (apply pow_lt; positive).
    assert (/ (l ^ 2 + q) ^ 2 < / (l ^ 2) ^ 2) by (apply Rinv_lt_contravar; [apply Rmult_lt_0_compat; apply pow_lt; lra|nra]).
    unfold Rdiv. nra. }
  assert (k0 < k1) by (rewrite <- E0, <- E1; unfold Rdiv; nra).
  destruct (log_value (L:=L) k0 k1 _ rec' ltac:(split; [auto|rewrite <- E1; auto]) (B v Hv) G) as (x & Ex & Hx & Q).
  exists u, v, x. rewrite EB. rewrite <- E0, <- E1, !LNp in Q.
  assert (Q' : ln (- helicoid_K s v) = ln (- helicoid_K s 1) + x * (ln (- helicoid_K s 0) - ln (- helicoid_K s 1))) by lra.
  assert (ln (- helicoid_K s 1) < ln (- helicoid_K s 0)) by (apply ln_increasing; [specialize (N 1); lra|lra]).
  repeat match goal with |- _ /\ _ => split end; auto; try lra; intros ->; nra.
Qed.
Lemma enneper_coloured : forall (L : limits) (rec : hit_record xr) (u v : R), -2 <= u <= 2 -> -2 <= v <= 2 ->
  gaussian_curvature (F:=XR L) rec = Fin (enneper_K u v) ->
  exists x, log_scalar (F:=XR L) (enneper_curvature_bounds (F:=XR L)) rec = Fin x /\ 0 <= x <= 1 /\
    ln (- enneper_K u v) = ln (- enneper_K 2 2) + x * (ln (- enneper_K 0 0) - ln (- enneper_K 2 2)).
Proof.
  intros L rec u v Hu Hv G. destruct (enneper_bounds_right L) as (_ & k0 & k1 & EB & B & E0 & E1).
  assert (k0 < k1 < 0) by (rewrite <- E0, <- E1; unfold enneper_K; lra).
  destruct (log_value (L:=L) k0 k1 _ rec ltac:(auto) (B u v Hu Hv) G) as (x & Ex & Hx & Q).
  exists x. rewrite EB, E0, E1. auto.
Qed.
