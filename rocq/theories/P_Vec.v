(** Proofs about M_Vec.v over exact arithmetic. *)
From Coq Require Import Reals Lra ZArith List Bool Psatz.
From Verif Require Import Num XR M_Vec Spec.
Local Open Scope R_scope.

Lemma V3_ext : forall (a b c a' b' c' : R), a = a' -> b = b' -> c = c' -> V3 a b c = V3 a' b' c'.
Proof. intros; subst; reflexivity. Qed.
Lemma V3x_ext : forall (a b c a' b' c' : xr), a = a' -> b = b' -> c = c' -> V3 a b c = V3 a' b' c'.
Proof. intros; subst; reflexivity. Qed.

Lemma fin3_inj : forall u v, fin3 u = fin3 v -> u = v.
Proof. intros [a b c] [a' b' c'] H; injection H; intros; subst; reflexivity. Qed.

Section L.
Variable L : limits.

Lemma dop_fin : forall a b c d : R,
  difference_of_products (F:=XR L) (Fin a) (Fin b) (Fin c) (Fin d) = Fin (a * b - c * d).
Proof. intros; unfold difference_of_products; xred; f_equal; ring. Qed.

Lemma vneg_fin : forall u, vneg (F:=XR L) (fin3 u) = fin3 (negR u).
Proof. reflexivity. Qed.
Lemma vadd_fin : forall u v, vadd (F:=XR L) (fin3 u) (fin3 v) = fin3 (addR u v).
Proof. reflexivity. Qed.
Lemma vsub_fin : forall u v, vsub (F:=XR L) (fin3 u) (fin3 v) = fin3 (subR u v).
Proof. reflexivity. Qed.
Lemma vscale_fin : forall k v, vscale (F:=XR L) (Fin k) (fin3 v) = fin3 (scaleR k v).
Proof. reflexivity. Qed.
Lemma dot_fin : forall u v, dot (F:=XR L) (fin3 u) (fin3 v) = Fin (dotR u v).
Proof. intros; unfold dot, dotR, fin3, map3; xred; cbn [vx vy vz]; xred; f_equal; ring. Qed.
Lemma squared_norm_fin : forall u, squared_norm (F:=XR L) (fin3 u) = Fin (normsqR u).
Proof.
  intros; unfold squared_norm, normsqR, dotR, fin3, map3; xred; cbn [vx vy vz]; xred; f_equal; ring.
Qed.

Lemma normsqR_nonneg : forall u, 0 <= normsqR u.
Proof. intros; unfold normsqR, dotR; nra. Qed.
Lemma normsqR_zero : forall u, normsqR u = 0 -> u = zeroR.
Proof.
  intros [a b c]; unfold normsqR, dotR, zeroR; simpl; intros.
  assert (a = 0) by nra; assert (b = 0) by nra; assert (c = 0) by nra; subst; reflexivity.
Qed.
Lemma normsqR_pos : forall u, u <> zeroR -> 0 < normsqR u.
Proof.
  intros u H; destruct (normsqR_nonneg u) as [?|E]; auto.
  exfalso; apply H; apply normsqR_zero; auto.
Qed.
Lemma normR_pos : forall u, u <> zeroR -> 0 < normR u.
Proof. intros; apply sqrt_lt_R0, normsqR_pos; auto. Qed.
Lemma normR_nonneg : forall u, 0 <= normR u.
Proof. intros; apply sqrt_pos. Qed.
Lemma normR_sq : forall u, normR u * normR u = normsqR u.
Proof. intros; apply sqrt_sqrt, normsqR_nonneg. Qed.
Lemma normR_unit : forall u, normsqR u = 1 -> normR u = 1.
Proof. intros u H; unfold normR; rewrite H; apply sqrt_1. Qed.
Lemma unit_normsq : forall u, normR u = 1 -> normsqR u = 1.
Proof. intros u H; rewrite <- normR_sq, H; ring. Qed.

Lemma norm_fin : forall u, norm (F:=XR L) (fin3 u) = Fin (normR u).
Proof.
  intros; unfold norm; rewrite squared_norm_fin.
  change (nsqrt (NumOps:=XR L)) with xsqrt; rewrite xsqrt_fin; [reflexivity|apply normsqR_nonneg].
Qed.

Lemma vdiv_fin : forall u t, t <> 0 -> vdiv (F:=XR L) (fin3 u) (Fin t) = fin3 (scaleR (/ t) u).
Proof.
  intros u t H; unfold vdiv, fin3, map3, scaleR; cbn [vx vy vz];
  change (ndiv (NumOps:=XR L)) with xdiv; rewrite !xdiv_fin by auto.
  apply V3x_ext; f_equal; field; auto.
Qed.

Lemma normalize_fin : forall u, u <> zeroR ->
  normalize (F:=XR L) (fin3 u) = fin3 (scaleR (/ normR u) u).
Proof.
  intros u H; unfold normalize; rewrite norm_fin.
  apply vdiv_fin; pose proof (normR_pos u H); lra.
Qed.

Lemma normsqR_scale : forall k u, normsqR (scaleR k u) = k * k * normsqR u.
Proof. intros; unfold normsqR, dotR, scaleR; simpl; ring. Qed.

Lemma normR_normalized : forall u, u <> zeroR -> normR (scaleR (/ normR u) u) = 1.
Proof.
  intros u H; apply normR_unit; rewrite normsqR_scale, <- normR_sq.
  field; pose proof (normR_pos u H); lra.
Qed.

Lemma reflect_fin : forall v n,
  reflect (F:=XR L) (fin3 v) (fin3 n) = fin3 (subR v (scaleR (2 * dotR v n) n)).
Proof.
  intros; unfold reflect; rewrite dot_fin.
  change (nmul (NumOps:=XR L)) with xmul. change (nofZ (NumOps:=XR L)) with (fun z => Fin (IZR z)).
  reflexivity.
Qed.

Lemma cross_fin : forall u v, cross (F:=XR L) (fin3 u) (fin3 v) = fin3 (crossR u v).
Proof.
  intros; unfold cross, fin3, map3; cbn [vx vy vz]; rewrite !dop_fin; reflexivity.
Qed.

Lemma ray_at_fin : forall o d t,
  ray_at (F:=XR L) (Ray (fin3 o) (fin3 d)) (Fin t) = fin3 (lineR o d t).
Proof. reflexivity. Qed.

(** *** C01 *)
Lemma normalize_correct : forall v : vec3 R, v <> V3 0 0 0 ->
  exists w, normalize (F:=XR L) (fin3 v) = fin3 w /\ normR w = 1 /\
            exists k, 0 < k /\ w = scaleR k v.
Proof.
  intros v H; exists (scaleR (/ normR v) v); split; [apply normalize_fin; exact H|split].
  - apply normR_normalized; exact H.
  - exists (/ normR v); split; auto; apply Rinv_0_lt_compat, normR_pos; exact H.
Qed.

Lemma reflect_correct : forall v n : vec3 R, normR n = 1 ->
  exists w, reflect (F:=XR L) (fin3 v) (fin3 n) = fin3 w /\
    normR w = normR v /\
    dotR w n = - dotR v n /\
    subR w (scaleR (dotR w n) n) = subR v (scaleR (dotR v n) n) /\
    reflect (F:=XR L) (fin3 w) (fin3 n) = fin3 v.
Proof.
  intros v n Hn; apply unit_normsq in Hn.
  exists (subR v (scaleR (2 * dotR v n) n)); split; [apply reflect_fin|].
  set (w := subR v (scaleR (2 * dotR v n) n)).
  assert (D : dotR w n = - dotR v n).
  { unfold w; transitivity (dotR v n - 2 * dotR v n * normsqR n).
    - unfold normsqR, dotR, subR, scaleR; simpl; ring.
    - rewrite Hn; ring. }
  repeat split; auto.
  - unfold normR; f_equal.
    transitivity (normsqR v - 4 * dotR v n * dotR v n + 4 * dotR v n * dotR v n * normsqR n).
    + unfold w, normsqR, dotR, subR, scaleR; simpl; ring.
    + rewrite Hn; ring.
  - rewrite D; unfold w, subR, scaleR; simpl; apply V3_ext; ring.
  - rewrite reflect_fin, D; f_equal; unfold w, subR, scaleR; destruct v; simpl; apply V3_ext; ring.
Qed.

Lemma cross_correct : forall u v : vec3 R,
  exists w, cross (F:=XR L) (fin3 u) (fin3 v) = fin3 w /\
    dotR w u = 0 /\ dotR w v = 0 /\
    normsqR w = normsqR u * normsqR v - dotR u v * dotR u v /\
    detR (M3 (vx u) (vx v) (vx w) (vy u) (vy v) (vy w) (vz u) (vz v) (vz w)) = normsqR w.
Proof.
  intros; exists (crossR u v); split; [apply cross_fin|].
  repeat split; unfold detR, normsqR, crossR, dotR; simpl; ring.
Qed.
End L.
