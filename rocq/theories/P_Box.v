(** Proofs about aabb.hpp (C35-C37). *)
From Coq Require Import Reals Lra List Bool.
From Verif Require Import Num XR M_Vec M_Hittable Spec Spec_Scene.
Import ListNotations.
Local Open Scope R_scope.

(** (a,c) is a part of the window *)
Definition part (lo hi : xr) (a c : R) : Prop := at_least lo a /\ at_most hi c.

Lemma part_nonempty : forall lo hi, lo <> NaN -> hi <> NaN ->
  (xleb hi lo = false <-> exists a c, a < c /\ part lo hi a c).
Proof.
  unfold part; intros [lo| | |] [hi| | |] Hl Hh; try congruence; cbn;
    (split; [intros H; try discriminate|intros [a [c [? [? ?]]]]; cbn in *; try contradiction; try reflexivity]).
  - exists lo, hi; cbn; destruct (Rleb_spec hi lo); [discriminate|lra].
  - apply Rleb_false; lra.
  - exists lo, (lo + 1); cbn; repeat split; lra.
  - exists (hi - 1), hi; cbn; repeat split; lra.
  - exists 0, 1; cbn; repeat split; lra.
Qed.

Definition slab_closed (mn mx o d t : R) : Prop := mn <= o + t * d <= mx.

Lemma xscale_pos : forall r s, 0 < r -> xscale_inf r s = if s then PInf else MInf.
Proof. intros; unfold xscale_inf; destruct (Rlt_dec 0 r); [reflexivity|lra]. Qed.
Lemma xscale_neg : forall r s, r < 0 -> xscale_inf r s = if s then MInf else PInf.
Proof. intros; unfold xscale_inf; destruct (Rlt_dec 0 r); [lra|]; destruct (Rlt_dec r 0); [reflexivity|lra]. Qed.
Lemma xscale_zero : forall r s, r = 0 -> xscale_inf r s = NaN.
Proof. intros; unfold xscale_inf; destruct (Rlt_dec 0 r); [lra|]; destruct (Rlt_dec r 0); [lra|reflexivity]. Qed.

(** the raised lower / lowered upper end *)
Lemma raise_spec : forall (lo : xr) (t0 a : R), lo <> NaN ->
  (at_least (if xltb lo (Fin t0) then Fin t0 else lo) a <-> at_least lo a /\ t0 <= a) /\
  (if xltb lo (Fin t0) then Fin t0 else lo) <> NaN.
Proof.
  intros [lo| | |] t0 a H; try congruence; cbn; try (rcase; cbn); split; try congruence; try lra.
Qed.
Lemma lower_spec : forall (hi : xr) (t1 c : R), hi <> NaN ->
  (at_most (if xltb (Fin t1) hi then Fin t1 else hi) c <-> at_most hi c /\ c <= t1) /\
  (if xltb (Fin t1) hi then Fin t1 else hi) <> NaN.
Proof.
  intros [hi| | |] t1 c H; try congruence; cbn; try (rcase; cbn); split; try congruence; try lra.
Qed.

(** an open interval inside a closed one *)
Lemma open_in_closed : forall a c m M, a < c ->
  ((forall s, a < s < c -> m <= s <= M) <-> m <= a /\ c <= M).
Proof.
  intros a c m M H; split; [|intros; lra].
  intros Hs; split.
  - destruct (Rle_or_lt m a); auto. set (s := (a + Rmin c m) / 2).
    assert (a < Rmin c m) by (apply Rmin_glb_lt; lra). pose proof (Rmin_l c m). pose proof (Rmin_r c m).
    specialize (Hs s ltac:(unfold s; lra)). unfold s in Hs; lra.
  - destruct (Rle_or_lt c M); auto. set (s := (c + Rmax a M) / 2).
    assert (Rmax a M < c) by (apply Rmax_lub_lt; lra). pose proof (Rmax_l a M). pose proof (Rmax_r a M).
    specialize (Hs s ltac:(unfold s; lra)). unfold s in Hs; lra.
Qed.

Section L.
Context {L : limits}.

Lemma slab_spec : forall (mn mx o d : R) (lo hi : xr), lo <> NaN -> hi <> NaN ->
  match slab (F:=XR L) (Fin mn) (Fin mx) (Fin o) (Fin d) (lo, hi) with
  | None => forall a c, a < c -> part lo hi a c -> ~ (forall s, a < s < c -> slab_closed mn mx o d s)
  | Some (lo', hi') => lo' <> NaN /\ hi' <> NaN /\ xleb hi' lo' = false /\
      forall a c, a < c -> (part lo' hi' a c <-> part lo hi a c /\ forall s, a < s < c -> slab_closed mn mx o d s)
  end.
Proof.
  intros mn mx o d lo hi Hl Hh. unfold slab. xred.
  assert (Fine : forall lo' hi', lo' <> NaN -> hi' <> NaN ->
    (forall a c, a < c -> (part lo' hi' a c <-> part lo hi a c /\ forall s, a < s < c -> slab_closed mn mx o d s)) ->
    match (if xleb hi' lo' then None else Some (lo', hi')) with
    | None => forall a c, a < c -> part lo hi a c -> ~ (forall s, a < s < c -> slab_closed mn mx o d s)
    | Some (lo', hi') => lo' <> NaN /\ hi' <> NaN /\ xleb hi' lo' = false /\
      forall a c, a < c -> (part lo' hi' a c <-> part lo hi a c /\ forall s, a < s < c -> slab_closed mn mx o d s)
    end).
  { intros lo' hi' N1 N2 Hiff. pose proof (part_nonempty lo' hi' N1 N2) as PN.
    destruct (xleb hi' lo') eqn:E.
    - intros a c Hac P S. assert (false = true); [|discriminate].
      symmetry; apply PN. exists a, c; split; auto. apply Hiff; auto.
    - auto. }
  destruct (Req_dec d 0) as [->|Nd].
  - unfold xdiv. destruct (Req_EM_T 0 0) as [_|C]; [|congruence].
    rewrite (xscale_pos 1) by lra. xred. change (xltb PInf (Fin 0)) with false. cbv iota beta.
    assert (S0 : forall a c, a < c -> ((forall s, a < s < c -> slab_closed mn mx o 0 s) <-> mn <= o <= mx)).
    { intros a c H; unfold slab_closed; split; intros K; [specialize (K ((a + c) / 2) ltac:(lra)); lra|intros; lra]. }
    destruct (Rtotal_order (mn - o) 0) as [H0|[H0|H0]];
      [rewrite (xscale_neg (mn - o)) by lra|rewrite (xscale_zero (mn - o)) by lra|rewrite (xscale_pos (mn - o)) by lra];
    (destruct (Rtotal_order (mx - o) 0) as [H1|[H1|H1]];
      [rewrite (xscale_neg (mx - o)) by lra|rewrite (xscale_zero (mx - o)) by lra|rewrite (xscale_pos (mx - o)) by lra]);
    apply Fine;
    try (destruct lo as [lo| | |], hi as [hi| | |]; cbn; congruence);
    intros a c Hac; rewrite (S0 a c Hac); unfold part;
    destruct lo as [lo| | |], hi as [hi| | |]; try congruence; cbn; split; intros; lra.
  - rewrite xdiv_fin by auto. xred.
    assert (E0 : forall x, x * (1 / d) = x / d) by (intros; field; auto).
    rewrite !E0. clear E0.
    destruct (Rltb_spec (1 / d) 0) as [Hd|Hd]; cbv iota beta.
    + assert (d < 0). { destruct (Rle_or_lt 0 d); auto. assert (0 < d) by lra. assert (0 < 1 / d) by (apply Rdiv_lt_0_compat; lra). lra. }
      apply Fine; [apply (raise_spec lo _ 0 Hl)|apply (lower_spec hi _ 0 Hh)|].
      intros a c Hac. unfold part.
      rewrite (proj1 (raise_spec lo ((mx - o) / d) a Hl)), (proj1 (lower_spec hi ((mn - o) / d) c Hh)).
      assert (Eq : (forall s, a < s < c -> slab_closed mn mx o d s) <-> ((mx - o) / d <= a /\ c <= (mn - o) / d)).
      { rewrite <- open_in_closed by auto. unfold slab_closed. split; intros K s Hs; specialize (K s Hs).
        - split; apply Rmult_le_reg_l with (- d); try lra.
          + replace (- d * ((mx - o) / d)) with (o - mx) by (field; auto). lra.
          + replace (- d * ((mn - o) / d)) with (o - mn) by (field; auto). lra.
        - destruct K as [K1 K2]. apply Rmult_le_compat_l with (r := - d) in K1; try lra.
          apply Rmult_le_compat_l with (r := - d) in K2; try lra.
          replace (- d * ((mx - o) / d)) with (o - mx) in K1 by (field; auto).
          replace (- d * ((mn - o) / d)) with (o - mn) in K2 by (field; auto). lra. }
      rewrite Eq. tauto.
    + assert (0 < d). { destruct (Rle_or_lt d 0); auto. assert (d < 0) by lra. assert (0 < 1 / (- d)) by (apply Rdiv_lt_0_compat; lra). replace (1 / - d) with (- (1 / d)) in * by (field; auto). lra. }
      apply Fine; [apply (raise_spec lo _ 0 Hl)|apply (lower_spec hi _ 0 Hh)|].
      intros a c Hac. unfold part.
      rewrite (proj1 (raise_spec lo ((mn - o) / d) a Hl)), (proj1 (lower_spec hi ((mx - o) / d) c Hh)).
      assert (Eq : (forall s, a < s < c -> slab_closed mn mx o d s) <-> ((mn - o) / d <= a /\ c <= (mx - o) / d)).
      { rewrite <- open_in_closed by auto. unfold slab_closed. split; intros K s Hs; specialize (K s Hs).
        - split; apply Rmult_le_reg_l with d; try lra.
          + replace (d * ((mn - o) / d)) with (mn - o) by (field; auto). lra.
          + replace (d * ((mx - o) / d)) with (mx - o) by (field; auto). lra.
        - destruct K as [K1 K2]. apply Rmult_le_compat_l with (r := d) in K1; try lra.
          apply Rmult_le_compat_l with (r := d) in K2; try lra.
          replace (d * ((mn - o) / d)) with (mn - o) in K1 by (field; auto).
          replace (d * ((mx - o) / d)) with (mx - o) in K2 by (field; auto). lra. }
      rewrite Eq. tauto.
Qed.

(** C35 *)
Lemma aabb_hit_iff : forall (b : aabb R) (r : ray R) (lo hi : xr), lo <> NaN -> hi <> NaN ->
  (aabb_hit (F:=XR L) (finbox b) (finray r) lo hi = true <->
   exists a c, a < c /\ at_least lo a /\ at_most hi c /\
     forall s, a < s < c -> in_box b (pointR r s)).
Proof.
  intros [[n1 n2 n3] [x1 x2 x3]] [[o1 o2 o3] [d1 d2 d3]] lo hi Hl Hh.
  unfold aabb_hit, finbox, finray, fin3, map3; cbn [b_min b_max r_orig r_dir vx vy vz].
  assert (B : forall s, in_box (Box (V3 n1 n2 n3) (V3 x1 x2 x3)) (pointR (Ray (V3 o1 o2 o3) (V3 d1 d2 d3)) s) <->
    slab_closed n1 x1 o1 d1 s /\ slab_closed n2 x2 o2 d2 s /\ slab_closed n3 x3 o3 d3 s).
  { intros s; unfold in_box, pointR, lineR, addR, scaleR, slab_closed; cbn. tauto. }
  cbn [num XR].
  pose proof (slab_spec n1 x1 o1 d1 lo hi Hl Hh) as S1. change (@num (XR L)) with xr in *.
  destruct (slab (F:=XR L) (Fin n1) (Fin x1) (Fin o1) (Fin d1) (lo, hi)) as [[l1 h1]|].
  2:{ split; [discriminate|]. intros [a [c [Hac [P1 [P2 K]]]]]; exfalso.
      apply (S1 a c Hac); [split; auto|]. intros s Hs; pose proof (proj1 (B s) (K s Hs)); tauto. }
  destruct S1 as [N1 [M1 [_ S1]]].
  pose proof (slab_spec n2 x2 o2 d2 l1 h1 N1 M1) as S2. change (@num (XR L)) with xr in *.
  destruct (slab (F:=XR L) (Fin n2) (Fin x2) (Fin o2) (Fin d2) (l1, h1)) as [[l2 h2]|].
  2:{ split; [discriminate|]. intros [a [c [Hac [P1 [P2 K]]]]]; exfalso.
      apply (S2 a c Hac); [apply S1; auto; split; [split; auto|]|]; intros s Hs; pose proof (proj1 (B s) (K s Hs)); tauto. }
  destruct S2 as [N2 [M2 [_ S2]]].
  pose proof (slab_spec n3 x3 o3 d3 l2 h2 N2 M2) as S3. change (@num (XR L)) with xr in *.
  destruct (slab (F:=XR L) (Fin n3) (Fin x3) (Fin o3) (Fin d3) (l2, h2)) as [[l3 h3]|].
  2:{ split; [discriminate|]. intros [a [c [Hac [P1 [P2 K]]]]]; exfalso.
      apply (S3 a c Hac); [apply S2; auto; split; [apply S1; auto; split; [split; auto|]|]|]; intros s Hs; pose proof (proj1 (B s) (K s Hs)); tauto. }
  destruct S3 as [N3 [M3 [E3 S3]]].
  split; auto. intros _.
  apply part_nonempty in E3; auto. destruct E3 as [a [c [Hac P]]].
  apply S3 in P; auto; destruct P as [P K3]. apply S2 in P; auto; destruct P as [P K2].
  apply S1 in P; auto; destruct P as [[P1 P2] K1].
  exists a, c; split; [|split; [|split]]; auto. intros s Hs; apply B; auto.
Qed.

(** in particular: an interior point strictly inside the window is enough *)
Lemma aabb_hit_interior : forall (b : aabb R) (r : ray R) (lo hi : xr) (t : R),
  after lo t -> before t hi -> in_open_box b (pointR r t) ->
  aabb_hit (F:=XR L) (finbox b) (finray r) lo hi = true.
Proof.
  intros b r lo hi t Ha Hb Hi.
  assert (Hl : lo <> NaN) by (destruct lo; cbn in *; congruence || contradiction).
  assert (Hh : hi <> NaN) by (destruct hi; cbn in *; congruence || contradiction).
  apply aabb_hit_iff; auto.
  (* a small interval around t stays in each slab *)
  assert (A : forall m M o d, m < o + t * d < M -> exists e, 0 < e /\ forall s, t - e < s < t + e -> m <= o + s * d <= M).
  { intros m M o d H.
    set (g := Rmin (o + t * d - m) (M - (o + t * d))).
    assert (0 < g) by (apply Rmin_glb_lt; lra).
    assert (g <= o + t * d - m) by apply Rmin_l. assert (g <= M - (o + t * d)) by apply Rmin_r.
    pose proof (Rabs_pos d).
    exists (g / (Rabs d + 1)). split; [apply Rdiv_lt_0_compat; lra|].
    intros s Hs. assert (Rabs (s - t) <= g / (Rabs d + 1)) by (apply Rabs_le; lra).
    assert (Rabs ((s - t) * d) <= g).
    { rewrite Rabs_mult. apply Rle_trans with (g / (Rabs d + 1) * (Rabs d + 1)).
      - apply Rmult_le_compat; try apply Rabs_pos; lra.
      - right; field; lra. }
    assert (- g <= (s - t) * d <= g) by (pose proof (Rle_abs ((s - t) * d)); pose proof (Rle_abs (- ((s - t) * d))) as Q; rewrite Rabs_Ropp in Q; lra).
    replace (o + s * d) with (o + t * d + (s - t) * d) by ring. lra. }
  destruct b as [[n1 n2 n3] [x1 x2 x3]], r as [[o1 o2 o3] [d1 d2 d3]].
  unfold in_open_box, in_box, pointR, lineR, addR, scaleR in *; cbn in *.
  destruct Hi as [H1 [H2 H3]].
  destruct (A n1 x1 o1 d1 H1) as [e1 [P1 K1]], (A n2 x2 o2 d2 H2) as [e2 [P2 K2]], (A n3 x3 o3 d3 H3) as [e3 [P3 K3]].
  assert (exists a, a < t /\ at_least lo a) as [a0 [Pa Qa]]
    by (destruct lo as [lo| | |]; cbn in *; try contradiction; [exists lo; split; lra|exists (t - 1); split; auto; lra]).
  assert (exists c, t < c /\ at_most hi c) as [c0 [Pc Qc]]
    by (destruct hi as [hi| | |]; cbn in *; try contradiction; [exists hi; split; lra|exists (t + 1); split; auto; lra]).
  set (e := Rmin e1 (Rmin e2 e3)).
  assert (0 < e) by (repeat apply Rmin_glb_lt; auto).
  assert (e <= e1) by apply Rmin_l.
  assert (e <= e2) by (unfold e; eapply Rle_trans; [apply Rmin_r|apply Rmin_l]).
  assert (e <= e3) by (unfold e; eapply Rle_trans; [apply Rmin_r|apply Rmin_r]).
  exists (Rmax a0 (t - e)), (Rmin c0 (t + e)).
  pose proof (Rmax_l a0 (t - e)); pose proof (Rmax_r a0 (t - e)).
  pose proof (Rmin_l c0 (t + e)); pose proof (Rmin_r c0 (t + e)).
  assert (Rmax a0 (t - e) < t) by (apply Rmax_lub_lt; lra).
  assert (t < Rmin c0 (t + e)) by (apply Rmin_glb_lt; lra).
  split; [lra|]. split; [destruct lo; cbn in *; auto; lra|]. split; [destruct hi; cbn in *; auto; lra|].
  intros s Hs. repeat split; try (apply K1; lra); try (apply K2; lra); try (apply K3; lra).
Qed.

(** C36: the unit square in the plane z = 0, pierced by the ray from (1/2,1/2,-1) upwards *)
Lemma aabb_flat_culled :
  let b := Box (V3 0 0 0) (V3 1 1 0) in
  let r := Ray (V3 (1/2) (1/2) (-1)) (V3 0 0 1) in
  in_box b (pointR r 1) /\ in_window (Fin 0) PInf 1 /\
  aabb_hit (F:=XR L) (finbox b) (finray r) (Fin 0) PInf = false.
Proof.
  cbv zeta. split; [unfold in_box, pointR, lineR, addR, scaleR; cbn; lra|].
  split; [split; [unfold at_least; lra|exact I]|].
  apply not_true_is_false; intros H. apply aabb_hit_iff in H; try congruence.
  destruct H as [a [c [Hac [_ [_ K]]]]].
  unfold in_box, pointR, lineR, addR, scaleR in K; cbn in K.
  pose proof (K ((2 * a + c) / 3) ltac:(lra)). pose proof (K ((a + 2 * c) / 3) ltac:(lra)). lra.
Qed.

(** also a solid box is culled by a ray that only touches an edge *)
Lemma aabb_edge_culled :
  let b := Box (V3 0 0 0) (V3 1 1 1) in
  let r := Ray (V3 (-1) 1 (1/2)) (V3 1 (-1) 0) in
  in_box b (pointR r 1) /\ in_window (Fin 0) PInf 1 /\
  aabb_hit (F:=XR L) (finbox b) (finray r) (Fin 0) PInf = false.
Proof.
  cbv zeta. split; [unfold in_box, pointR, lineR, addR, scaleR; cbn; lra|].
  split; [split; [unfold at_least; lra|exact I]|].
  apply not_true_is_false; intros H. apply aabb_hit_iff in H; try congruence.
  destruct H as [a [c [Hac [_ [_ K]]]]].
  unfold in_box, pointR, lineR, addR, scaleR in K; cbn in K.
  pose proof (K ((2 * a + c) / 3) ltac:(lra)). pose proof (K ((a + 2 * c) / 3) ltac:(lra)). lra.
Qed.
End L.

(** two points of the box on the ray in the window suffice *)
Lemma aabb_hit_two : forall (L : limits) (b : aabb R) (r : ray R) (lo hi : xr) (t t' : R),
  in_window lo hi t -> in_window lo hi t' -> t <> t' ->
  in_box b (pointR r t) -> in_box b (pointR r t') ->
  aabb_hit (F:=XR L) (finbox b) (finray r) lo hi = true.
Proof.
  intros L b r lo hi.
  assert (W : forall t t', t < t' -> in_window lo hi t -> in_window lo hi t' ->
    in_box b (pointR r t) -> in_box b (pointR r t') -> aabb_hit (F:=XR L) (finbox b) (finray r) lo hi = true).
  { intros t t' Lt [W1 W2] [W3 W4] B1 B2.
    apply aabb_hit_iff.
    - destruct lo; cbn in *; congruence || contradiction.
    - destruct hi; cbn in *; congruence || contradiction.
    - exists t, t'. split; [exact Lt|]. split; [exact W1|]. split; [exact W4|]. intros s Hs.
      unfold in_box, pointR, lineR, addR, scaleR in *; cbn [vx vy vz] in *.
             destruct B1 as [? [? ?]], B2 as [? [? ?]]; repeat split;
        match goal with |- ?m <= ?o + s * ?d => enough (0 <= (o + s * d - m) * (t' - t)) by nra;
            replace ((o + s * d - m) * (t' - t)) with ((t' - s) * (o + t * d - m) + (s - t) * (o + t' * d - m)) by ring
                        | |- ?o + s * ?d <= ?m => enough (0 <= (m - (o + s * d)) * (t' - t)) by nra;
            replace ((m - (o + s * d)) * (t' - t)) with ((t' - s) * (m - (o + t * d)) + (s - t) * (m - (o + t' * d))) by ring end;
        apply Rplus_le_le_0_compat; apply Rmult_le_pos; lra. }
  intros t t' W1 W2 Ne B1 B2. destruct (Rtotal_order t t') as [H|[H|H]]; [|contradiction|]; eapply W; eauto.
Qed.
