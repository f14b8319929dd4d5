(** Interval arithmetic in exact arithmetic, and the operations that only compare. *)
From Coq Require Import Reals ZArith Lra Lia List Bool.
From Verif Require Import Num XR Spec M_Interval Spec_Interval.
Import ListNotations.
Local Open Scope R_scope.

(** ** products *)
Definition bounds4 (l : list xr) : xr * xr :=
  fold_left (fun '(a, b) v => (if xltb v a then v else a, if xltb b v then v else b)) l (PInf, MInf).
Definition step4 : xr * xr -> xr -> xr * xr := fun '(a, b) v => (if xltb v a then v else a, if xltb b v then v else b).

Lemma step_low : forall a b v t, at_least a t -> at_least (fst (step4 (a, b) v)) t.
Proof.
  intros a b v t H. cbn [step4 fst]. destruct (xltb v a) eqn:E; [|exact H].
  destruct v as [x| | |], a as [y| | |]; cbn in *; try discriminate; try contradiction; auto. apply Rltb_iff in E. lra.
Qed.
Lemma step_low_new : forall a b v t, a <> NaN -> at_least v t -> at_least (fst (step4 (a, b) v)) t.
Proof.
  intros a b v t N H. cbn [step4 fst]. destruct (xltb v a) eqn:E; [exact H|].
  destruct v as [x| | |], a as [y| | |]; cbn in *; try discriminate; try contradiction; try congruence; auto.
  destruct (Rltb_spec x y); [discriminate|lra].
Qed.
Lemma step_high : forall a b v t, at_most b t -> at_most (snd (step4 (a, b) v)) t.
Proof.
  intros a b v t H. cbn [step4 snd]. destruct (xltb b v) eqn:E; [|exact H].
  destruct v as [x| | |], b as [y| | |]; cbn in *; try discriminate; try contradiction; auto. apply Rltb_iff in E. lra.
Qed.
Lemma step_high_new : forall a b v t, b <> NaN -> at_most v t -> at_most (snd (step4 (a, b) v)) t.
Proof.
  intros a b v t N H. cbn [step4 snd]. destruct (xltb b v) eqn:E; [exact H|].
  destruct v as [x| | |], b as [y| | |]; cbn in *; try discriminate; try contradiction; try congruence; auto.
  destruct (Rltb_spec y x); [discriminate|lra].
Qed.
Lemma step_num : forall a b v, a <> NaN -> b <> NaN -> fst (step4 (a, b) v) <> NaN /\ snd (step4 (a, b) v) <> NaN.
Proof.
  intros a b v A B. cbn [step4 fst snd]. split.
  - destruct (xltb v a) eqn:E; [|exact A]. destruct v; cbn in E; discriminate.
  - destruct (xltb b v) eqn:E; [|exact B]. destruct v, b; cbn in E; discriminate.
Qed.
Lemma fold_low : forall l a b t, at_least a t -> at_least (fst (fold_left step4 l (a, b))) t.
Proof.
  induction l as [|v l IH]; intros a b t H; [exact H|]. cbn [fold_left].
  pose proof (step_low a b v t H) as S. destruct (step4 (a, b) v) as [a' b']. apply IH. exact S.
Qed.
Lemma fold_high : forall l a b t, at_most b t -> at_most (snd (fold_left step4 l (a, b))) t.
Proof.
  induction l as [|v l IH]; intros a b t H; [exact H|]. cbn [fold_left].
  pose proof (step_high a b v t H) as S. destruct (step4 (a, b) v) as [a' b']. apply IH. exact S.
Qed.
Lemma fold_in : forall l a b, a <> NaN -> b <> NaN -> forall v t, In v l ->
  (at_least v t -> at_least (fst (fold_left step4 l (a, b))) t) /\
  (at_most v t -> at_most (snd (fold_left step4 l (a, b))) t).
Proof.
  induction l as [|w l IH]; intros a b A B v t HI; [destruct HI|]. destruct HI as [->|H]; cbn [fold_left].
  - split; intros H.
    + pose proof (step_low_new a b v t A H) as S. destruct (step4 (a, b) v) as [a' b']. apply fold_low. exact S.
    + pose proof (step_high_new a b v t B H) as S. destruct (step4 (a, b) v) as [a' b']. apply fold_high. exact S.
  - pose proof (step_num a b w A B) as [A' B']. destruct (step4 (a, b) w) as [a' b']. apply IH; auto.
Qed.
Lemma i_mul_eq : forall m (X Y : interval xr), i_mul (F:=RX) m X Y =
  let r := fold_left step4 [xmul (i_lo X) (i_lo Y); xmul (i_lo X) (i_hi Y); xmul (i_hi X) (i_lo Y); xmul (i_hi X) (i_hi Y)] (PInf, MInf) in
  Itv (fst r) (snd r).
Proof.
  intros m X Y. unfold i_mul. cbn [rmul rltb rinf rneg RX xneg rnum]. fold step4.
  change (fun '(a, b) v => (if xltb v a then v else a, if xltb b v then v else b)) with step4.
  cbv zeta. destruct (fold_left step4 _ (PInf, MInf)) as [a b]. reflexivity.
Qed.

Lemma scale_pos : forall a p, 0 < a -> xscale_inf a p = if p then PInf else MInf.
Proof. intros a p H. unfold xscale_inf. destruct (Rlt_dec 0 a); [destruct p; reflexivity|lra]. Qed.
Lemma scale_neg : forall a p, a < 0 -> xscale_inf a p = if p then MInf else PInf.
Proof. intros a p H. unfold xscale_inf. destruct (Rlt_dec 0 a); [lra|]. destruct (Rlt_dec a 0); [destruct p; reflexivity|lra]. Qed.
Lemma scale_zero : forall p, xscale_inf 0 p = NaN.
Proof. intros p. unfold xscale_inf. destruct (Rlt_dec 0 0); [lra|]. destruct p; reflexivity. Qed.



Definition low4 (X Y : interval xr) (t : R) : Prop :=
  at_least (xmul (i_lo X) (i_lo Y)) t \/ at_least (xmul (i_lo X) (i_hi Y)) t \/
  at_least (xmul (i_hi X) (i_lo Y)) t \/ at_least (xmul (i_hi X) (i_hi Y)) t.
Definition high4 (X Y : interval xr) (t : R) : Prop :=
  at_most (xmul (i_lo X) (i_lo Y)) t \/ at_most (xmul (i_lo X) (i_hi Y)) t \/
  at_most (xmul (i_hi X) (i_lo Y)) t \/ at_most (xmul (i_hi X) (i_hi Y)) t.
Definition negI (X : interval xr) : interval xr := Itv (xneg (i_hi X)) (xneg (i_lo X)).

Lemma xmul_comm : forall x y, xmul x y = xmul y x.
Proof. intros [a| | |] [b| | |]; cbn [xmul]; try reflexivity. f_equal. ring. Qed.
Lemma scale_opp : forall a p, xscale_inf (- a) p = xscale_inf a (negb p).
Proof.
  intros a p. destruct (Rtotal_order a 0) as [H|[->|H]].
  - rewrite scale_pos, scale_neg by lra. destruct p; reflexivity.
  - rewrite Ropp_0, !scale_zero. reflexivity.
  - rewrite scale_neg, scale_pos by lra. destruct p; reflexivity.
Qed.
Lemma scale_neg_out : forall a p, xneg (xscale_inf a p) = xscale_inf a (negb p).
Proof.
  intros a p. destruct (Rtotal_order a 0) as [H|[->|H]].
  - rewrite !scale_neg by lra. destruct p; reflexivity.
  - rewrite !scale_zero. reflexivity.
  - rewrite !scale_pos by lra. destruct p; reflexivity.
Qed.
Lemma xmul_neg_l : forall x y, xmul (xneg x) y = xneg (xmul x y).
Proof.
  intros [a| | |] [b| | |]; cbn [xmul xneg]; try reflexivity; rewrite ?scale_opp, ?scale_neg_out; try reflexivity.
  f_equal. ring.
Qed.
Lemma xneg_neg : forall x, xneg (xneg x) = x.
Proof. intros [a| | |]; cbn; try reflexivity. f_equal. ring. Qed.
Lemma xmul_neg_r : forall x y, xmul x (xneg y) = xneg (xmul x y).
Proof. intros x y. rewrite xmul_comm, xmul_neg_l, xmul_comm. reflexivity. Qed.
Lemma at_least_neg : forall v t, at_least (xneg v) t <-> at_most v (- t).
Proof. intros [a| | |] t; cbn; try tauto. split; lra. Qed.
Lemma inI_neg : forall X x, inI X x -> inI (negI X) (- x).
Proof.
  intros [[a| | |] [b| | |]] x [H1 H2]; unfold inI, negI, in_window in *; cbn in *; try contradiction; split; auto; lra.
Qed.
Lemma zero_line_neg : forall X Y, zero_line (negI X) (negI Y) -> zero_line X Y.
Proof.
  intros [xa xb] [ya yb] [H1 H2]. unfold zero_line, negI, finI, lineI in *. cbn [i_lo i_hi] in *.
  injection H1 as A B. injection H2 as C D.
  destruct xa as [a| | |]; try discriminate; destruct xb as [b| | |]; try discriminate;
  destruct ya; try discriminate; destruct yb; try discriminate. cbn in A, B. injection A as A. injection B as B.
  split; [f_equal; f_equal; lra|reflexivity].
Qed.

Lemma low_pos : forall X Y x y, inI X x -> inI Y y -> ~ zero_line X Y -> 0 < y -> low4 X Y (x * y).
Proof.
  intros [xa xb] [ya yb] x y [X1 X2] [Y1 Y2] Z P. unfold low4, zero_line, finI, lineI in *. cbn [i_lo i_hi] in *.
  destruct xa as [a| | |]; try contradiction.
  - cbn [at_least] in X1. assert (A : a * y <= x * y) by (apply Rmult_le_compat_r; lra).
    destruct (Rtotal_order a 0) as [Ha|[->|Ha]].
    + right; left. destruct yb as [d| | |]; try contradiction; cbn [xmul at_least at_most] in *.
      * assert (a * d <= a * y) by (apply Rmult_le_compat_neg_l; lra). lra.
      * rewrite scale_neg by lra. exact I.
    + destruct ya as [c| | |]; try contradiction.
      * left. cbn [xmul at_least]. lra.
      * destruct yb as [d| | |]; try contradiction.
        -- right; left. cbn [xmul at_least]. lra.
        -- right; right; left. destruct xb as [b| | |]; try contradiction; cbn [xmul at_most at_least] in *; [|exact I].
           destruct (Rle_lt_or_eq_dec 0 b ltac:(lra)) as [Hb|<-]; [rewrite scale_pos by lra; exact I|]. exfalso. apply Z. auto.
    + left. destruct ya as [c| | |]; try contradiction; cbn [xmul at_least] in *.
      * assert (a * c <= a * y) by (apply Rmult_le_compat_l; lra). lra.
      * rewrite scale_pos by lra. exact I.
  - right; left. destruct yb as [d| | |]; try contradiction; cbn [xmul at_least at_most] in *; [|exact I].
    rewrite scale_pos by lra. exact I.
Qed.

Lemma low_neg : forall X Y x y, inI X x -> inI Y y -> ~ zero_line X Y -> y < 0 -> low4 X Y (x * y).
Proof.
  intros X Y x y HX HY Z N. assert (L : low4 (negI X) (negI Y) (- x * - y)).
  { apply low_pos; try apply inI_neg; auto; [|lra]. intros H. apply Z. apply zero_line_neg. exact H. }
  unfold low4, negI in *. cbn [i_lo i_hi] in L. rewrite !xmul_neg_l, !xmul_neg_r, !xneg_neg in L.
  replace (- x * - y) with (x * y) in L by ring. tauto.
Qed.
Lemma low_comm : forall X Y t, low4 X Y t -> low4 Y X t.
Proof. intros X Y t H. unfold low4 in *. rewrite !(xmul_comm (i_lo Y)), !(xmul_comm (i_hi Y)). tauto. Qed.
Lemma low_zero : forall X Y, inI X 0 -> inI Y 0 -> ~ zero_line X Y -> ~ zero_line Y X -> low4 X Y 0.
Proof.
  intros [xa xb] [ya yb] [X1 X2] [Y1 Y2] Z1 Z2. unfold low4, zero_line, finI, lineI in *. cbn [i_lo i_hi] in *.
  destruct xa as [a| | |]; try contradiction.
  - cbn [at_least] in X1. destruct X1 as [Ha| ->].
    + right; left. destruct yb as [d| | |]; try contradiction; cbn [xmul at_least at_most] in *.
      * assert (0 <= - a * d) by (apply Rmult_le_pos; lra). lra.
      * rewrite scale_neg by lra. exact I.
    + destruct ya as [c| | |]; try contradiction; [left; cbn [xmul at_least]; lra|].
      destruct yb as [d| | |]; try contradiction; [right; left; cbn [xmul at_least]; lra|].
      right; right; left. destruct xb as [b| | |]; try contradiction; cbn [xmul at_most at_least] in *; [|exact I].
      destruct X2 as [Hb|<-]; [rewrite scale_pos by lra; exact I|]. exfalso. apply Z1. auto.
  - destruct yb as [d| | |]; try contradiction; [|right; left; cbn [xmul at_least]; exact I].
    cbn [at_most] in Y2. destruct Y2 as [Hd|<-]; [right; left; cbn [xmul]; rewrite scale_pos by lra; exact I|].
    destruct xb as [b| | |]; try contradiction; [right; right; right; cbn [xmul at_least]; lra|].
    right; right; left. destruct ya as [c| | |]; try contradiction; cbn [xmul at_least] in *; [|exact I].
    destruct Y1 as [Hc| ->]; [rewrite scale_neg by lra; exact I|]. exfalso. apply Z2. auto.
Qed.

Lemma products_low : forall X Y x y, inI X x -> inI Y y -> ~ zero_line X Y -> ~ zero_line Y X -> low4 X Y (x * y).
Proof.
  intros X Y x y HX HY Z1 Z2. destruct (Rtotal_order y 0) as [H|[->|H]]; [apply low_neg; auto| |apply low_pos; auto].
  destruct (Rtotal_order x 0) as [H|[->|H]].
  - rewrite Rmult_comm. apply low_comm. apply low_neg; auto.
  - rewrite Rmult_0_l. apply low_zero; auto.
  - rewrite Rmult_comm. apply low_comm. apply low_pos; auto.
Qed.
Lemma negI_neg : forall X, negI (negI X) = X.
Proof. intros [a b]. unfold negI; cbn [i_lo i_hi]. rewrite !xneg_neg. reflexivity. Qed.
Lemma products_high : forall X Y x y, inI X x -> inI Y y -> ~ zero_line X Y -> ~ zero_line Y X -> high4 X Y (x * y).
Proof.
  intros X Y x y HX HY Z1 Z2. assert (L : low4 (negI X) Y (- x * y)).
  { apply products_low; [apply inI_neg; auto|auto| |].
    - intros [A B]. apply Z1. split; [|exact B]. rewrite <- (negI_neg X), A. unfold negI, finI; cbn. f_equal; f_equal; lra.
    - intros [A B]. apply Z2. split; [exact A|]. rewrite <- (negI_neg X), B. reflexivity. }
  unfold low4, high4, negI in *. cbn [i_lo i_hi] in L. rewrite !xmul_neg_l, !at_least_neg in L.
  replace (- (- x * y)) with (x * y) in L by ring. tauto.
Qed.

Lemma mul_contains : forall m X Y x y, inI X x -> inI Y y -> ~ zero_line X Y -> ~ zero_line Y X ->
  inI (i_mul (F:=RX) m X Y) (x * y).
Proof.
  intros m X Y x y HX HY Z1 Z2. rewrite i_mul_eq. cbv zeta.
  pose proof (products_low X Y x y HX HY Z1 Z2) as Lo. pose proof (products_high X Y x y HX HY Z1 Z2) as Hi.
  unfold low4, high4 in *.
  set (l := [xmul (i_lo X) (i_lo Y); xmul (i_lo X) (i_hi Y); xmul (i_hi X) (i_lo Y); xmul (i_hi X) (i_hi Y)]).
  split; cbn [i_lo i_hi].
  - destruct Lo as [H|[H|[H|H]]]; refine (proj1 (fold_in l PInf MInf _ _ _ _ _) H); try discriminate; unfold l; cbn; auto.
  - destruct Hi as [H|[H|[H|H]]]; refine (proj2 (fold_in l PInf MInf _ _ _ _ _) H); try discriminate; unfold l; cbn; auto.
Qed.
(* ... and fails in the excluded case *)
Lemma mul_zero_line : forall m X Y x, zero_line X Y \/ zero_line Y X -> ~ inI (i_mul (F:=RX) m X Y) x.
Proof.
  intros m X Y x [[-> ->]|[-> ->]]; rewrite i_mul_eq; unfold finI, lineI; cbn [i_lo i_hi xmul]; rewrite !scale_zero; cbn; intros [[] _].
Qed.

(* the ends are attained *)
Lemma mul_tight : forall m a b c d, a <= b -> c <= d -> exists l h, i_mul (F:=RX) m (finI a b) (finI c d) = finI l h /\
  (exists x y, a <= x <= b /\ c <= y <= d /\ l = x * y) /\ (exists x y, a <= x <= b /\ c <= y <= d /\ h = x * y).
Proof.
  intros m a b c d Hab Hcd. rewrite i_mul_eq. unfold finI. cbn [i_lo i_hi xmul fold_left step4 xltb fst snd].
  repeat (match goal with |- context [Rltb ?u ?v] => destruct (Rltb_spec u v) end; cbn [xltb fst snd]); eexists _, _; (split; [reflexivity|]);
    (split; [first [exists a, c; repeat split; lra|exists a, d; repeat split; lra|exists b, c; repeat split; lra|exists b, d; repeat split; lra]
            |first [exists a, c; repeat split; lra|exists a, d; repeat split; lra|exists b, c; repeat split; lra|exists b, d; repeat split; lra]]).
Qed.

(** ** division *)
Lemma inv_mem_pos : forall Y y, inI Y y -> 0 < y -> inI (Itv (xdiv (Fin 1) (i_hi Y)) (if xleb (i_lo Y) (Fin 0) then PInf else xdiv (Fin 1) (i_lo Y))) (/ y).
Proof.
  intros [[c| | |] [d| | |]] y [H1 H2] P; cbn [i_lo i_hi at_least at_most] in *; try contradiction; split; cbn [i_lo i_hi].
  - rewrite xdiv_fin by lra. cbn. unfold Rdiv. rewrite Rmult_1_l. apply Rinv_le_contravar; lra.
  - cbn [xleb]. destruct (Rleb_spec c 0); [exact I|]. rewrite xdiv_fin by lra. cbn. unfold Rdiv. rewrite Rmult_1_l. apply Rinv_le_contravar; lra.
  - cbn. apply Rlt_le, Rinv_0_lt_compat; exact P.
  - cbn [xleb]. destruct (Rleb_spec c 0); [exact I|]. rewrite xdiv_fin by lra. cbn. unfold Rdiv. rewrite Rmult_1_l. apply Rinv_le_contravar; lra.
  - rewrite xdiv_fin by lra. cbn. unfold Rdiv. rewrite Rmult_1_l. apply Rinv_le_contravar; lra.
  - exact I.
  - cbn. apply Rlt_le, Rinv_0_lt_compat; exact P.
  - exact I.
Qed.
Lemma Rinv_le_neg : forall a b, a <= b -> b < 0 -> / b <= / a.
Proof.
  intros a b H N. assert (/ - a <= / - b) by (apply Rinv_le_contravar; lra). rewrite !Rinv_opp in H0. lra.
Qed.
Lemma inv_mem_neg : forall c d y, inI (Itv c (Fin d)) y -> d < 0 -> inI (Itv (xdiv (Fin 1) (Fin d)) (xdiv (Fin 1) c)) (/ y).
Proof.
  intros [c| | |] d y [H1 H2] N; cbn [i_lo i_hi at_least at_most] in *; try contradiction; split; cbn [i_lo i_hi]; rewrite ?xdiv_fin by lra; cbn.
  - unfold Rdiv. rewrite Rmult_1_l. apply Rinv_le_neg; lra.
  - unfold Rdiv. rewrite Rmult_1_l. apply Rinv_le_neg; lra.
  - unfold Rdiv. rewrite Rmult_1_l. apply Rinv_le_neg; lra.
  - apply Rlt_le, Rinv_lt_0_compat; lra.
Qed.
Lemma i_div_eq : forall m (X Y : interval xr), i_div (F:=RX) m X Y =
  if xleb (i_lo Y) (Fin 0) && xltb (Fin 0) (i_hi Y) then i_mul (F:=RX) m X (Itv (xdiv (Fin 1) (i_hi Y)) PInf)
  else i_mul (F:=RX) m X (Itv (xdiv (Fin 1) (i_hi Y)) (xdiv (Fin 1) (i_lo Y))).
Proof. reflexivity. Qed.
Lemma not_zero_line : forall X a b t, inI (Itv a b) t -> t <> 0 -> a <> MInf \/ b <> PInf -> ~ zero_line X (Itv a b) /\ ~ zero_line (Itv a b) X.
Proof.
  intros X a b t [H1 H2] N D. unfold zero_line, lineI, finI. split; intros [A B].
  - injection B as -> ->. destruct D; congruence.
  - injection A as -> ->. cbn in *. lra.
Qed.
Lemma div_contains : forall m X Y x y, inI X x -> inI Y y -> 0 < y \/ (exists d, i_hi Y = Fin d /\ d < 0) ->
  inI (i_div (F:=RX) m X Y) (x / y).
Proof.
  intros m X Y x y HX HY D. rewrite i_div_eq.
  assert (K : forall a b, inI (Itv a b) (/ y) -> y <> 0 -> a <> MInf \/ b <> PInf -> inI (i_mul (F:=RX) m X (Itv a b)) (x / y)).
  { intros a b H N E. destruct (not_zero_line X a b (/ y) H (Rinv_neq_0_compat _ N) E) as [Z1 Z2]. apply mul_contains; auto. }
  destruct D as [P|(d & Ed & Nd)].
  - pose proof (inv_mem_pos Y y HY P) as M.
    assert (Hi : xltb (Fin 0) (i_hi Y) = true).
    { destruct HY as [_ H]. destruct (i_hi Y) as [d| | |]; cbn in *; try contradiction; auto. apply Rltb_true. lra. }
    assert (NM : xdiv (Fin 1) (i_hi Y) <> MInf).
    { destruct M as [M _]. cbn [i_lo] in M. destruct HY as [_ H]. destruct (i_hi Y) as [d| | |]; cbn [at_most] in H; try contradiction; [|cbn; discriminate].
      rewrite xdiv_fin by lra. discriminate. }
    rewrite Hi, andb_true_r. destruct (xleb (i_lo Y) (Fin 0)); apply K; auto; lra.
  - destruct Y as [c e]. cbn [i_hi] in Ed. subst e. pose proof (inv_mem_neg c d y HY Nd) as M. cbn [i_lo i_hi].
    replace (xltb (Fin 0) (Fin d)) with false by (cbn; symmetry; apply Rltb_false; lra). rewrite andb_false_r.
    destruct HY as [_ H]. cbn in H. apply K; auto; [lra|]. left. rewrite xdiv_fin by lra. discriminate.
Qed.

(** ** powers *)
Lemma xpow_fin : forall a n, xpow (Fin a) n = Fin (a ^ n).
Proof. intros a n. induction n as [|n IH]; [reflexivity|]. cbn [xpow pow]. rewrite IH. reflexivity. Qed.
Lemma xpow_pinf : forall n, xpow PInf (S n) = PInf.
Proof. induction n as [|n IH]; [cbn [xpow xmul]; apply scale_pos; lra|]. cbn [xpow] in *. rewrite IH. reflexivity. Qed.
Lemma xpow_minf : forall n, xpow MInf (S n) = if Nat.even n then MInf else PInf.
Proof.
  induction n as [|n IH]; [cbn [xpow xmul]; rewrite scale_pos by lra; reflexivity|].
  change (xpow MInf (S (S n))) with (xmul MInf (xpow MInf (S n))). rewrite IH. rewrite Nat.even_succ, <- Nat.negb_even. destruct (Nat.even n); reflexivity.
Qed.
Lemma xpowZ_nat : forall x n, xpowZ x (Z.of_nat n) = xpow x n.
Proof. intros x n. unfold xpowZ. destruct (Z.ltb_spec (Z.of_nat n) 0); [lia|]. rewrite Nat2Z.id. reflexivity. Qed.
Lemma even_of_nat : forall n, Z.even (Z.of_nat n) = Nat.even n.
Proof.
  intros n. destruct (Nat.even n) eqn:E; [apply Nat.even_spec in E as [k ->]|].
  - apply Z.even_spec. exists (Z.of_nat k). lia.
  - destruct (Z.even (Z.of_nat n)) eqn:E2; [|reflexivity]. apply Z.even_spec in E2 as [k Hk].
    assert (Nat.even n = true) by (apply Nat.even_spec; exists (Z.to_nat k); lia). congruence.
Qed.
Lemma pow_opp : forall x n, (- x) ^ n = if Nat.even n then x ^ n else - x ^ n.
Proof.
  intros x. induction n as [|n IH]; [reflexivity|]. rewrite Nat.even_succ, <- Nat.negb_even. cbn [pow]. rewrite IH. destruct (Nat.even n); cbn [negb]; ring.
Qed.
Lemma pow_odd_incr : forall x y n, Nat.even n = false -> x <= y -> x ^ n <= y ^ n.
Proof.
  intros x y n E H. destruct (Rle_dec 0 x).
  - apply pow_incr. lra.
  - destruct (Rle_dec 0 y).
    + assert (0 <= (- x) ^ n) by (apply pow_le; lra). rewrite pow_opp, E in H0. assert (0 <= y ^ n) by (apply pow_le; lra). lra.
    + assert (A : (- y) ^ n <= (- x) ^ n) by (apply pow_incr; lra). rewrite !pow_opp, E in A. lra.
Qed.
(* the sign of an end *)
Definition below_zero (a : xr) : bool := xltb a (Fin 0).
Lemma pow_contains : forall m X x n, inI X x ->
  Nat.even n = false \/ xleb (Fin 0) (i_lo X) = true \/ xleb (i_hi X) (Fin 0) = true \/ at_most (i_hi X) (- x) ->
  inI (i_pow (F:=RX) m X (Z.of_nat n)) (x ^ n).
Proof.
  intros m [a b] x n [H1 H2] D. unfold i_pow. cbn [rleb rofZ rpow RX rnum]. rewrite even_of_nat. change (i_lo (Itv a b)) with a in *. change (i_hi (Itv a b)) with b in *.
  unfold inI. rewrite !xpowZ_nat. destruct n as [|n].
  { cbn [xpow pow Nat.even]. destruct (xleb (Fin 0) a), (xleb b (Fin 0)); split; cbn; lra. }
  assert (PP : forall v, 0 <= v -> forall k, 0 <= v ^ k) by (intros; apply pow_le; auto).
  destruct (Nat.even (S n)) eqn:E.
  - assert (En : Nat.even n = false) by (rewrite Nat.even_succ, <- Nat.negb_even in E; destruct (Nat.even n); auto; discriminate).
    assert (EV : forall v, (- v) ^ (S n) = v ^ (S n)) by (intros v; rewrite pow_opp, E; reflexivity).
    assert (NN : forall v, 0 <= v ^ (S n)) by (intros v; destruct (Rle_dec 0 v); [apply PP; lra|rewrite <- EV; apply PP; lra]).
    destruct (xleb (Fin 0) a) eqn:A.
    + destruct a as [a| | |]; try contradiction; [|cbn in A; discriminate]. cbn in A. apply Rleb_iff in A. cbn in H1.
      split; cbn [i_lo i_hi].
      * rewrite xpow_fin. apply pow_incr. lra.
      * destruct b as [b| | |]; try contradiction; [rewrite xpow_fin; apply pow_incr; cbn in H2; lra|rewrite xpow_pinf; exact I].
    + destruct (xleb b (Fin 0)) eqn:B.
      * destruct b as [b| | |]; try contradiction; [|cbn in B; discriminate]. cbn in B. apply Rleb_iff in B. cbn in H2.
        split; cbn [i_lo i_hi].
        -- rewrite xpow_fin. cbn. change (b ^ S n <= x ^ S n). rewrite <- (EV b), <- (EV x). apply pow_incr. lra.
        -- destruct a as [a| | |]; try contradiction; [rewrite xpow_fin; change (x ^ S n <= a ^ S n); rewrite <- (EV a), <- (EV x); apply pow_incr; cbn in H1; lra|].
           rewrite xpow_minf, En. exact I.
      * destruct D as [D|[D|[D|D]]]; try discriminate. split; cbn [i_lo i_hi]; [apply NN|].
        destruct b as [b| | |]; try contradiction; [|rewrite xpow_pinf; exact I]. rewrite xpow_fin. cbn in D, H2. change (x ^ S n <= b ^ S n).
        destruct (Rle_dec 0 x); [apply pow_incr; lra|rewrite <- (EV x); apply pow_incr; lra].
  - assert (En : Nat.even n = true) by (rewrite Nat.even_succ, <- Nat.negb_even in E; destruct (Nat.even n); auto; discriminate).
    split; cbn [i_lo i_hi].
    + destruct a as [a| | |]; try contradiction; [rewrite xpow_fin; apply pow_odd_incr; auto|rewrite xpow_minf, En; exact I].
    + destruct b as [b| | |]; try contradiction; [rewrite xpow_fin; apply pow_odd_incr; auto|rewrite xpow_pinf; exact I].
Qed.
(* the upper end is attained, so nothing could be cut off; odd powers and one-signed intervals *)
Lemma pow_tight : forall m a b n, a <= b -> Nat.even n = false \/ 0 <= a \/ b <= 0 -> exists l h,
  i_pow (F:=RX) m (finI a b) (Z.of_nat n) = finI l h /\ (l = a ^ n \/ l = b ^ n) /\ (h = a ^ n \/ h = b ^ n).
Proof.
  intros m a b n Hab D. unfold i_pow, finI. cbn [rleb rofZ rpow RX rnum i_lo i_hi xleb]. rewrite even_of_nat, !xpowZ_nat, !xpow_fin.
  destruct (Nat.even n); [|do 2 eexists; split; [reflexivity|auto]].
  destruct (Rleb_spec 0 a) as [H|H]; [do 2 eexists; split; [reflexivity|auto]|].
  destruct (Rleb_spec b 0) as [H'|H']; [do 2 eexists; split; [reflexivity|auto]|]. destruct D as [D|[D|D]]; [discriminate|lra|lra].
Qed.

(** ** comparisons only *)
Lemma least_max : forall a b t, a <> NaN -> b <> NaN -> at_least (if xltb a b then b else a) t <-> at_least a t /\ at_least b t.
Proof.
  intros [a| | |] [b| | |] t A B; try congruence; cbn [xltb at_least]; try tauto.
  destruct (Rltb_spec a b); cbn; split; intros; lra.
Qed.
Lemma most_min : forall a b t, a <> NaN -> b <> NaN -> at_most (if xltb b a then b else a) t <-> at_most a t /\ at_most b t.
Proof.
  intros [a| | |] [b| | |] t A B; try congruence; cbn [xltb at_most]; try tauto.
  destruct (Rltb_spec b a); cbn; split; intros; lra.
Qed.
Lemma least_min : forall a b t, a <> NaN -> b <> NaN -> at_least (if xltb b a then b else a) t <-> at_least a t \/ at_least b t.
Proof.
  intros [a| | |] [b| | |] t A B; try congruence; cbn [xltb at_least]; try tauto.
  destruct (Rltb_spec b a); cbn; split; intros; lra.
Qed.
Lemma intersection_exact : forall X Y, num_ends X -> num_ends Y -> forall x, inI (i_intersection (F:=RX) X Y) x <-> inI X x /\ inI Y x.
Proof.
  intros [a b] [c d] [A B] [C D] x. unfold i_intersection, r_min, r_max, i_default. cbn [i_lo i_hi] in *. cbn [rltb RX rnan rnum].
  destruct (xltb b c || xltb d a) eqn:E.
  - unfold inI, in_window; cbn [i_lo i_hi]. split; [intros [[] _]|]. intros [[H1 H2] [H3 H4]]. apply orb_true_iff in E. exfalso.
    destruct E as [E|E].
    + destruct b as [b| | |], c as [c| | |]; cbn in *; try contradiction; try discriminate. apply Rltb_iff in E. lra.
    + destruct d as [d| | |], a as [a| | |]; cbn in *; try contradiction; try discriminate. apply Rltb_iff in E. lra.
  - unfold inI, in_window; cbn [i_lo i_hi]. rewrite least_max, most_min by auto. tauto.
Qed.
Lemma hull_members : forall X Y, num_ends X -> num_ends Y -> forall x,
  inI (i_hull (F:=RX) X Y) x <-> (at_least (i_lo X) x \/ at_least (i_lo Y) x) /\ at_most (i_hi X) x /\ at_most (i_hi Y) x.
Proof.
  intros [a b] [c d] [A B] [C D] x. unfold i_hull, r_min, inI, in_window. cbn [i_lo i_hi] in *. cbn [rltb RX rnum]. rewrite least_min, most_min by auto. tauto.
Qed.
(* when the upper ends agree it is the least interval containing both *)
Lemma hull_same_top : forall X Y, num_ends X -> num_ends Y -> i_hi X = i_hi Y ->
  (forall x, inI X x \/ inI Y x -> inI (i_hull (F:=RX) X Y) x) /\
  (forall Z, num_ends Z -> (exists x, inI X x) -> (exists y, inI Y y) -> (forall x, inI X x \/ inI Y x -> inI Z x) -> forall x, inI (i_hull (F:=RX) X Y) x -> inI Z x).
Proof.
  intros X Y HX HY E. split.
  - intros x H. apply hull_members; auto. unfold inI, in_window in H. rewrite E in *. tauto.
  - intros Z HZ (p & Hp) (q & Hq) S x H. apply hull_members in H; auto. destruct H as ([H|H] & H1 & H2); apply S; unfold inI, in_window; tauto.
Qed.
Lemma ge_sound : forall X Y, i_ge (F:=RX) X Y = true -> forall x y, inI X x -> inI Y y -> y <= x.
Proof.
  intros [a b] [c d] H x y [X1 X2] [Y1 Y2]. unfold i_ge, i_empty in H. cbn [i_lo i_hi] in *. cbn [rltb rleb RX rnum] in H.
  destruct (xltb b a); cbn [negb] in H; [discriminate|]. destruct (xleb d a) eqn:E; [|destruct (xltb b c); discriminate].
  destruct a as [a| | |]; try contradiction; destruct d as [d| | |]; try contradiction; cbn in *; try discriminate. apply Rleb_iff in E. lra.
Qed.
Lemma ge_complete : forall a b c d, a <= b -> c <= d -> (forall x y, inI (finI a b) x -> inI (finI c d) y -> y <= x) -> i_ge (F:=RX) (finI a b) (finI c d) = true.
Proof.
  intros a b c d H1 H2 H. unfold i_ge, i_empty, finI. cbn [i_lo i_hi rltb rleb RX rnum xltb xleb].
  rewrite Rltb_false by lra. cbn [negb]. assert (Q : d <= a) by (apply H; unfold inI, in_window; cbn; lra).
  destruct (Rleb_spec d a); [reflexivity|lra].
Qed.
Lemma abs_contains : forall X x, inI X x -> inI (i_abs (F:=RX) X) (Rabs x).
Proof.
  intros [a b] x [H1 H2]. unfold i_abs, r_min, r_max, inI, in_window. cbn [i_lo i_hi rltb rabs rofZ RX rnum] in *.
  pose proof (Rabs_pos x). pose proof (Rle_abs x). pose proof (Rle_abs (- x)) as Q. rewrite Rabs_Ropp in Q.
  destruct a as [a| | |]; try contradiction; destruct b as [b| | |]; try contradiction; cbn [xabs xltb at_least at_most andb] in *.
  - split.
    + destruct (Rltb_spec a 0), (Rltb_spec 0 b); cbn [andb]; [cbn; lra| | |];
        destruct (Rltb_spec (Rabs b) (Rabs a)); cbn; unfold Rabs in *; repeat destruct Rcase_abs; lra.
    + destruct (Rltb_spec (Rabs a) (Rabs b)); cbn; unfold Rabs in *; repeat destruct Rcase_abs; lra.
  - split; [|exact I]. destruct (Rltb_spec a 0); cbn; unfold Rabs in *; repeat destruct Rcase_abs; lra.
  - split; [|exact I]. destruct (Rltb_spec 0 b); cbn; unfold Rabs in *; repeat destruct Rcase_abs; lra.
  - split; [cbn; lra|exact I].
Qed.
Lemma abs_tight : forall a b, a <= b -> exists l h, i_abs (F:=RX) (finI a b) = finI l h /\
  (exists x, a <= x <= b /\ l = Rabs x) /\ (exists x, a <= x <= b /\ h = Rabs x).
Proof.
  intros a b H. unfold i_abs, r_min, r_max, finI. cbn [i_lo i_hi rltb rabs rofZ RX rnum xabs xltb].
  assert (Up : exists h, (if Rltb (Rabs a) (Rabs b) then Fin (Rabs b) else Fin (Rabs a)) = Fin h /\ exists x, a <= x <= b /\ h = Rabs x).
  { destruct (Rltb_spec (Rabs a) (Rabs b)); eexists; (split; [reflexivity|]); [exists b|exists a]; split; auto; lra. }
  destruct Up as (h & -> & Hh).
  destruct (Rltb_spec a 0), (Rltb_spec 0 b); cbn [andb].
  - exists 0, h. split; [reflexivity|]. split; [|exact Hh]. exists 0. rewrite Rabs_R0. split; [lra|reflexivity].
  - destruct (Rltb_spec (Rabs b) (Rabs a)); eexists _, h; (split; [reflexivity|]); (split; [|exact Hh]); [exists b|exists a]; split; auto; lra.
  - destruct (Rltb_spec (Rabs b) (Rabs a)); eexists _, h; (split; [reflexivity|]); (split; [|exact Hh]); [exists b|exists a]; split; auto; lra.
  - destruct (Rltb_spec (Rabs b) (Rabs a)); eexists _, h; (split; [reflexivity|]); (split; [|exact Hh]); [exists b|exists a]; split; auto; lra.
Qed.

(** ** monotone functions *)
Lemma exp_contains : forall m X x, inI X x -> exists Y, i_exp (F:=RX) m X = (Y, m) /\ inI Y (exp x).
Proof.
  intros m [a b] x [H1 H2]. eexists. split; [reflexivity|]. cbn [rexp RX i_lo i_hi] in *. unfold inI, in_window. cbn [i_lo i_hi].
  assert (M : forall u v, u <= v -> exp u <= exp v) by (intros u v [U|U]; [left; apply exp_increasing; auto|right; subst; auto]).
  destruct a as [a| | |]; try contradiction; destruct b as [b| | |]; try contradiction; cbn in *; repeat split; auto; left; apply exp_pos.
Qed.
Lemma log_contains : forall m X x, inI X x -> xleb (Fin 0) (i_lo X) = true -> 0 < x -> exists Y, i_log (F:=RX) m X = (Y, m) /\ inI Y (ln x).
Proof.
  intros m [a b] x [H1 H2] P X0. eexists. split; [reflexivity|]. cbn [rlog RX i_lo i_hi] in *. unfold inI, in_window. cbn [i_lo i_hi].
  assert (M : forall u v, 0 < u -> u <= v -> ln u <= ln v) by (intros u v U [V|V]; [left; apply ln_increasing; auto|right; subst; auto]).
  destruct a as [a| | |]; try contradiction; [|discriminate]. cbn in P. apply Rleb_iff in P. cbn [at_least] in H1.
  split.
  - unfold xlog. destruct (Rlt_dec 0 a); [cbn; apply M; auto|]. destruct (Rlt_dec a 0); [lra|exact I].
  - destruct b as [b| | |]; try contradiction; cbn [at_most] in H2; [|exact I]. unfold xlog. destruct (Rlt_dec 0 b); [cbn; apply M; auto|lra].
Qed.

(** ** distance *)
Lemma distance_fin : forall m a b c d, i_distance (F:=RX) m (finI a b) (finI c d) = Fin (Rmax (Rabs (a - c)) (Rabs (b - d))).
Proof.
  intros m a b c d. unfold i_distance, r_max, finI. cbn [i_lo i_hi rltb rabs rsub RX rnum xsub xabs xltb].
  destruct (Rltb_spec (Rabs (a - c)) (Rabs (b - d))); [rewrite Rmax_right by lra|rewrite Rmax_left by lra]; reflexivity.
Qed.
Lemma distance_metric : forall m, exists dist : R * R -> R * R -> R,
  (forall X Y, i_distance (F:=RX) m (finI (fst X) (snd X)) (finI (fst Y) (snd Y)) = Fin (dist X Y)) /\
  (forall X Y, 0 <= dist X Y) /\ (forall X Y, dist X Y = 0 <-> X = Y) /\ (forall X Y, dist X Y = dist Y X) /\
  (forall X Y Z, dist X Z <= dist X Y + dist Y Z).
Proof.
  intros m. exists (fun X Y => Rmax (Rabs (fst X - fst Y)) (Rabs (snd X - snd Y))).
  split; [intros; apply distance_fin|]. split; [|split; [|split]].
  - intros X Y. eapply Rle_trans; [apply Rabs_pos|apply Rmax_l].
  - intros [a b] [c d]; cbn [fst snd]. split.
    + intros H. pose proof (Rmax_l (Rabs (a - c)) (Rabs (b - d))). pose proof (Rmax_r (Rabs (a - c)) (Rabs (b - d))). rewrite H in *.
      pose proof (Rabs_pos (a - c)). pose proof (Rabs_pos (b - d)).
      assert (a - c = 0) by (destruct (Req_dec (a - c) 0); auto; pose proof (Rabs_pos_lt _ H4); lra).
      assert (b - d = 0) by (destruct (Req_dec (b - d) 0); auto; pose proof (Rabs_pos_lt _ H5); lra). f_equal; lra.
    + intros E. injection E as -> ->. rewrite !Rminus_diag_eq, Rabs_R0 by reflexivity. apply Rmax_left. lra.
  - intros X Y. rewrite (Rabs_minus_sym (fst X)), (Rabs_minus_sym (snd X)). reflexivity.
  - intros [a b] [c d] [e f]; cbn [fst snd].
    pose proof (Rmax_l (Rabs (a - c)) (Rabs (b - d))). pose proof (Rmax_r (Rabs (a - c)) (Rabs (b - d))).
    pose proof (Rmax_l (Rabs (c - e)) (Rabs (d - f))). pose proof (Rmax_r (Rabs (c - e)) (Rabs (d - f))).
    pose proof (Rabs_triang (a - c) (c - e)) as T1. pose proof (Rabs_triang (b - d) (d - f)) as T2.
    replace (a - c + (c - e)) with (a - e) in T1 by ring. replace (b - d + (d - f)) with (b - f) in T2 by ring.
    apply Rmax_lub; lra.
Qed.
