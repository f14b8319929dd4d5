(** Metal, dielectric, media and light paths in exact arithmetic. *)
From Coq Require Import Reals ZArith Lra Lia List Bool.
From Verif Require Import Num XR Spec Spec_Scene Spec_Light M_Vec M_Rng M_Hittable M_Materials P_Vec.
Import ListNotations.
Local Open Scope R_scope.

Section Exact.
Context {L : limits}.

Lemma unitR_dot : forall d n, dotR (unitR d) n = dotR d n / normR d.
Proof. intros d n. unfold unitR, dotR, scaleR; cbn [vx vy vz]. unfold Rdiv. ring. Qed.
Lemma unitR_unit : forall d, d <> zeroR -> dotR (unitR d) (unitR d) = 1.
Proof. intros d H. apply (unit_normsq (unitR d)). apply normR_normalized. exact H. Qed.

(** ** Metal *)
Lemma metal_correct : forall tex (r : ray R) (rec : hit_record xr) n, r_dir r <> zeroR -> h_normal rec = fin3 n -> normR n = 1 ->
  exists b out, metal_scatter (F:=XR L) tex (finray r) rec = (b, (tex rec, Ray (h_p rec) (fin3 out))) /\
    out = mirrorR n (unitR (r_dir r)) /\ normR out = 1 /\
    (b = true <-> dotR (r_dir r) n < 0).
Proof.
  intros tex r rec n D En Hn. unfold metal_scatter. cbn [r_dir finray]. rewrite normalize_fin by exact D. change (@num (XR L)) with xr in *. rewrite En.
  fold (unitR (r_dir r)). set (v := unitR (r_dir r)).
  destruct (reflect_correct L v n Hn) as (w & E & W1 & W2 & _ & _).
  assert (Ew : w = mirrorR n v). { rewrite reflect_fin in E. apply fin3_inj in E. symmetry. exact E. }
  rewrite E. rewrite dot_fin. eexists _, w. split; [reflexivity|]. split; [exact Ew|]. split.
  - rewrite W1. apply normR_normalized. exact D.
  - cbn [nltb XR nofZ xltb]. rewrite W2. unfold v. rewrite unitR_dot.
    pose proof (normR_pos _ D) as P. set (k := normR (r_dir r)) in *. set (x := dotR (r_dir r) n).
    assert (Q : 0 < / k) by (apply Rinv_0_lt_compat; exact P). unfold Rdiv.
    destruct (Rltb_spec 0 (- (x * / k))); split; intros; auto; try discriminate; nra.
Qed.

(** ** Dielectric *)
Lemma schlick_fin : forall c eta, eta <> -1 -> reflectance (F:=XR L) (Fin c) (Fin eta) = Fin (schlickR c eta).
Proof.
  intros c eta H. unfold reflectance, npow5. cbn [nsub nadd ndiv nmul nofZ XR xsub xadd]. rewrite xdiv_fin by lra. cbn [xmul xsub xadd].
  f_equal. unfold schlickR. field. lra.
Qed.

(* the tangential part and the normal part of a vector *)
Lemma tangential_dot : forall n v, dotR n n = 1 -> dotR (tangentialR n v) n = 0.
Proof.
  intros n v H. unfold tangentialR. transitivity (dotR v n - dotR v n * dotR n n); [unfold dotR, subR, scaleR; cbn [vx vy vz]; ring|rewrite H; ring].
Qed.
Lemma tangential_normsq : forall n v, dotR n n = 1 -> normsqR (tangentialR n v) = normsqR v - dotR v n * dotR v n.
Proof.
  intros n v H. unfold tangentialR, normsqR. transitivity (dotR v v - 2 * (dotR v n * dotR v n) + dotR v n * dotR v n * dotR n n);
    [unfold dotR, subR, scaleR; cbn [vx vy vz]; ring|rewrite H; ring].
Qed.

Definition refractedR (n v : vec3 R) (eta : R) : vec3 R :=
  addR (scaleR eta (tangentialR n v)) (scaleR (- sqrt (1 - normsqR (scaleR eta (tangentialR n v)))) n).

Lemma refract_fin : forall v n eta, dotR n n = 1 -> dotR v v = 1 -> dotR v n <= 0 -> 0 <= eta ->
  eta * eta * normsqR (tangentialR n v) <= 1 ->
  refract (F:=XR L) (fin3 v) (fin3 n) (Fin eta) = fin3 (refractedR n v eta).
Proof.
  intros v n eta Hn Hv Hd He Hs. unfold refract, refractedR. rewrite vneg_fin, dot_fin. unfold std_min. cbn [nltb XR nofZ xltb].
  assert (C : dotR (negR v) n = - dotR v n) by (unfold dotR, negR; cbn [vx vy vz]; ring).
  assert (CS : dotR v n * dotR v n <= 1).
  { pose proof (tangential_normsq n v Hn) as T. pose proof (normsqR_nonneg (tangentialR n v)). unfold normsqR in T at 2. lra. }
  rewrite Rltb_false by (rewrite C; nra).
  rewrite vscale_fin, vadd_fin, vscale_fin, squared_norm_fin. cbn [nsub nabs nsqrt nneg XR nofZ xsub xabs].
  assert (T : addR v (scaleR (dotR (negR v) n) n) = tangentialR n v).
  { rewrite C. unfold addR, tangentialR, subR, scaleR; cbn [vx vy vz]. apply V3_ext; ring. }
  rewrite T. rewrite normsqR_scale.
  rewrite (Rabs_pos_eq (1 - _)) by lra. rewrite xsqrt_fin by lra. cbn [xneg]. rewrite vscale_fin, vadd_fin. reflexivity.
Qed.

Lemma refracted_props : forall n v eta, dotR n n = 1 -> 0 <= eta -> eta * eta * normsqR (tangentialR n v) <= 1 ->
  normR (refractedR n v eta) = 1 /\ tangentialR n (refractedR n v eta) = scaleR eta (tangentialR n v) /\
  dotR (refractedR n v eta) n = - sqrt (1 - eta * eta * normsqR (tangentialR n v)).
Proof.
  intros n v eta Hn He Hs. unfold refractedR. rewrite normsqR_scale. set (T := tangentialR n v) in *. set (k := sqrt (1 - eta * eta * normsqR T)).
  assert (TD : dotR T n = 0) by (apply tangential_dot; exact Hn).
  assert (K : k * k = 1 - eta * eta * normsqR T) by (apply sqrt_sqrt; lra).
  set (o := addR (scaleR eta T) (scaleR (- k) n)).
  assert (D : dotR o n = - k).
  { transitivity (eta * dotR T n - k * dotR n n); [unfold o, dotR, addR, scaleR; cbn [vx vy vz]; ring|rewrite TD, Hn; ring]. }
  assert (N : normsqR o = 1).
  { transitivity (eta * eta * normsqR T - 2 * eta * k * dotR T n + k * k * dotR n n); [unfold o, normsqR, dotR, addR, scaleR; cbn [vx vy vz]; ring|].
    rewrite TD, Hn, K. ring. }
  split; [apply normR_unit; exact N|]. split; [|exact D].
  unfold tangentialR at 1. rewrite D. unfold o, subR, addR, scaleR; cbn [vx vy vz]. apply V3_ext; ring.
Qed.

Lemma dielectric_correct : forall ir u (r : ray R) (rec : hit_record xr) n, 0 < ir -> r_dir r <> zeroR ->
  h_normal rec = fin3 n -> normR n = 1 -> dotR (r_dir r) n <= 0 ->
  exists out, dielectric_scatter (F:=XR L) (Fin ir) (Fin u) (finray r) rec = (V3 (Fin 1) (Fin 1) (Fin 1), Ray (h_p rec) (fin3 out)) /\
    let v := unitR (r_dir r) in let eta := ratioR (h_front rec) ir in
    let sin_in := normR (tangentialR n v) in
    normR out = 1 /\
    (1 < eta * sin_in \/ u < schlickR (- dotR v n) eta -> out = mirrorR n v) /\
    (eta * sin_in <= 1 -> schlickR (- dotR v n) eta <= u ->
       tangentialR n out = scaleR eta (tangentialR n v) /\ normR (tangentialR n out) = eta * sin_in /\
       dotR out n = - sqrt (1 - (eta * sin_in) ^ 2)).
Proof.
  intros ir u r rec n Hir D En Hn1 Hd. pose proof (unit_normsq n Hn1) as Hn. unfold normsqR in Hn.
  set (v := unitR (r_dir r)). set (eta := ratioR (h_front rec) ir).
  assert (Heta : 0 < eta). { unfold eta, ratioR. destruct (h_front rec); [|exact Hir]. unfold Rdiv. rewrite Rmult_1_l. apply Rinv_0_lt_compat. exact Hir. }
  assert (Hv : dotR v v = 1) by (apply unitR_unit; exact D).
  assert (Hdv : dotR v n <= 0).
  { unfold v. rewrite unitR_dot. pose proof (normR_pos _ D) as P. apply Rinv_0_lt_compat in P. unfold Rdiv. nra. }
  pose proof (tangential_normsq n v Hn) as TN. unfold normsqR in TN at 2. rewrite Hv in TN.
  pose proof (normsqR_nonneg (tangentialR n v)) as T0.
  assert (SI : normR (tangentialR n v) = sqrt (1 - dotR v n * dotR v n)) by (unfold normR; rewrite TN; reflexivity).
  set (s := normR (tangentialR n v)) in *.
  assert (S0 : 0 <= s) by apply normR_nonneg. assert (SS : s * s = normsqR (tangentialR n v)) by apply normR_sq.
  assert (Eq : dielectric_scatter (F:=XR L) (Fin ir) (Fin u) (finray r) rec =
    (V3 (Fin 1) (Fin 1) (Fin 1), Ray (h_p rec) (if Rltb 1 (eta * s) || Rltb u (schlickR (- dotR v n) eta) then fin3 (mirrorR n v)
       else refract (F:=XR L) (fin3 v) (fin3 n) (Fin eta)))).
  { unfold dielectric_scatter. cbn [r_dir finray]. rewrite normalize_fin by exact D. fold (unitR (r_dir r)). fold v.
    change (@num (XR L)) with xr in *. rewrite En.
    assert (R : (if h_front rec then ndiv (NumOps:=XR L) (nofZ (NumOps:=XR L) 1) (Fin ir) else Fin ir) = Fin eta).
    { unfold eta, ratioR. destruct (h_front rec); [|reflexivity]. cbn [ndiv nofZ XR]. apply xdiv_fin. lra. }
    rewrite vneg_fin, dot_fin.
    match goal with |- context [if h_front rec then ?a else ?b] => change (if h_front rec then a else b) with (if h_front rec then ndiv (NumOps:=XR L) (nofZ (NumOps:=XR L) 1) (Fin ir) else Fin ir) end.
    change (@num (XR L)) with xr in *. rewrite R.
    assert (C : dotR (negR v) n = - dotR v n) by (unfold dotR, negR; cbn [vx vy vz]; ring).
    rewrite C.
    assert (M : c_fmin (F:=XR L) (Fin (- dotR v n)) (nofZ (NumOps:=XR L) 1) = Fin (- dotR v n)).
    { unfold c_fmin. cbn [nisnan nltb XR nofZ xisnan xltb]. rewrite Rltb_false by nra. reflexivity. }
    rewrite M. rewrite schlick_fin by lra. rewrite reflect_fin. fold (mirrorR n v).
    cbn [nsub nmul nsqrt nltb nofZ XR xmul xsub]. rewrite xsqrt_fin by nra. cbn [xmul xltb].
    replace (1 - - dotR v n * - dotR v n) with (1 - dotR v n * dotR v n) by ring. rewrite <- SI.
    destruct (Rltb 1 (eta * s) || Rltb u (schlickR (- dotR v n) eta)); reflexivity. }
  assert (MP : normR (mirrorR n v) = 1).
  { destruct (reflect_correct L v n Hn1) as (w & E & W1 & _). rewrite reflect_fin in E. apply fin3_inj in E. unfold mirrorR. rewrite E, W1.
    apply normR_unit. exact Hv. }
  destruct (Rltb_spec 1 (eta * s)) as [H1|H1]; cbn [orb] in Eq.
  - exists (mirrorR n v). split; [exact Eq|]. cbv zeta. fold v eta s. repeat split; auto; lra.
  - destruct (Rltb_spec u (schlickR (- dotR v n) eta)) as [H2|H2].
    + exists (mirrorR n v). split; [exact Eq|]. cbv zeta. fold v eta s. repeat split; auto; lra.
    + assert (Hs : eta * eta * normsqR (tangentialR n v) <= 1) by (rewrite <- SS; assert (0 <= eta * s) by nra; nra).
      exists (refractedR n v eta). rewrite refract_fin in Eq by (auto; lra). split; [exact Eq|]. cbv zeta. fold v eta s.
      destruct (refracted_props n v eta Hn ltac:(lra) Hs) as (A & B & C).
      split; [exact A|]. split; [intros [K|K]; lra|]. intros _ _. split; [exact B|]. split.
      * rewrite B. unfold normR at 1. rewrite normsqR_scale, <- SS. replace (eta * eta * (s * s)) with ((eta * s) * (eta * s)) by ring.
        apply sqrt_square. nra.
      * rewrite C, <- SS. f_equal. f_equal. ring.
Qed.

(** ** Schlick *)
Lemma schlick_probability : forall c eta, 0 <= c <= 1 -> 0 <= eta ->
  exists p, reflectance (F:=XR L) (Fin c) (Fin eta) = Fin p /\ 0 <= p <= 1.
Proof.
  intros c eta Hc He. exists (schlickR c eta). split; [apply schlick_fin; lra|]. unfold schlickR.
  assert (A : 0 <= ((1 - eta) / (1 + eta)) ^ 2 <= 1).
  { assert (Q : -1 <= (1 - eta) / (1 + eta) <= 1).
    { split; [apply Rmult_le_reg_r with (1 + eta)|apply Rmult_le_reg_r with (1 + eta)]; try lra; unfold Rdiv; rewrite Rmult_assoc, Rinv_l by lra; lra. }
    set (q := (1 - eta) / (1 + eta)) in *. split; [nra|]. cbn. nra. }
  assert (B : 0 <= (1 - c) ^ 5 <= 1).
  { split; [apply pow_le; lra|]. rewrite <- (pow1 5). apply pow_incr. lra. }
  set (a := ((1 - eta) / (1 + eta)) ^ 2) in *. set (b := (1 - c) ^ 5) in *. nra.
Qed.
Lemma schlick_grazing : forall eta, 0 <= eta -> reflectance (F:=XR L) (Fin 0) (Fin eta) = Fin 1.
Proof. intros eta H. rewrite schlick_fin by lra. f_equal. unfold schlickR. ring_simplify (1 - 0). rewrite pow1. ring. Qed.
Lemma schlick_normal : forall eta, 0 <= eta -> reflectance (F:=XR L) (Fin 1) (Fin eta) = Fin (((1 - eta) / (1 + eta)) ^ 2).
Proof. intros eta H. rewrite schlick_fin by lra. f_equal. unfold schlickR. replace (1 - 1) with 0 by ring. rewrite pow_i by lia. ring. Qed.
Lemma schlick_decreasing : forall c c' eta p p', 0 <= c -> c < c' -> c' <= 1 -> 0 < eta ->
  reflectance (F:=XR L) (Fin c) (Fin eta) = Fin p -> reflectance (F:=XR L) (Fin c') (Fin eta) = Fin p' -> p' < p.
Proof.
  intros c c' eta p p' H0 H1 H2 He Hp Hp'. rewrite schlick_fin in Hp, Hp' by lra. injection Hp as <-. injection Hp' as <-. unfold schlickR.
  assert (A : ((1 - eta) / (1 + eta)) ^ 2 < 1).
  { assert (Q : -1 < (1 - eta) / (1 + eta) < 1).
    { split; [apply Rmult_lt_reg_r with (1 + eta)|apply Rmult_lt_reg_r with (1 + eta)]; try lra; unfold Rdiv; rewrite Rmult_assoc, Rinv_l by lra; lra. }
    set (q := (1 - eta) / (1 + eta)) in *. cbn. nra. }
  assert (B : (1 - c') ^ 5 < (1 - c) ^ 5).
  { assert (M : forall n x y, 0 <= x -> x < y -> x ^ (S n) < y ^ (S n)).
    { induction n as [|n IH]; intros x y X Y; [cbn; lra|]. specialize (IH x y X Y). change (x * x ^ S n < y * y ^ S n).
      assert (0 <= x ^ S n) by (apply pow_le; lra). nra. }
    apply M; lra. }
  nra.
Qed.
End Exact.
