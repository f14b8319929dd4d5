(** cubic_roots over exact arithmetic. *)
From Coq Require Import Reals Lra ZArith List Bool Psatz Permutation.
From Verif Require Import Num XR M_Roots Spec P_Vec P_Matrix P_FL P_Quadratic P_Sort.
Import ListNotations.
Local Open Scope R_scope.

(** *** Real algebra of the depressed cubic t^3 - 3 Q t + 2 R *)
Lemma Rcbrt_cube : forall x, Rcbrt x ^ 3 = x.
Proof.
  assert (P : forall x, 0 < x -> Rpower x (1 / 3) ^ 3 = x).
  { intros x Hx. rewrite <- Rpower_pow by apply exp_pos.
    rewrite Rpower_mult. replace (1 / 3 * INR 3) with 1 by (simpl; field). apply Rpower_1; auto. }
  intros x; unfold Rcbrt. destruct (Rlt_dec 0 x); auto.
  destruct (Rlt_dec x 0).
  - replace ((- Rpower (- x) (1 / 3)) ^ 3) with (- (Rpower (- x) (1 / 3) ^ 3)) by ring.
    rewrite P by lra; ring.
  - replace x with 0 by lra; ring.
Qed.
Lemma Rcbrt_pos : forall x, 0 < x -> 0 < Rcbrt x.
Proof. intros x H; unfold Rcbrt; destruct (Rlt_dec 0 x); [apply exp_pos|lra]. Qed.
Lemma Rcbrt_0 : Rcbrt 0 = 0.
Proof. unfold Rcbrt; destruct (Rlt_dec 0 0); [lra|]; reflexivity. Qed.

Lemma cos_triple : forall x, cos (3 * x) = 4 * cos x ^ 3 - 3 * cos x.
Proof.
  intros x; replace (3 * x) with (2 * x + x) by ring.
  rewrite cos_plus, cos_2a, sin_2a.
  pose proof (sin2_cos2 x) as H; unfold Rsqr in H.
  replace (sin x * sin x) with (1 - cos x * cos x) by lra.
  replace (2 * sin x * cos x * sin x) with (2 * (sin x * sin x) * cos x) by ring.
  replace (sin x * sin x) with (1 - cos x * cos x) by lra. ring.
Qed.

Definition dep (Q K t : R) : R := t ^ 3 - 3 * Q * t + 2 * K.

(** Three real roots. *)
Lemma depressed_trig : forall Q K : R, K * K < Q * Q * Q ->
  let s := sqrt Q in
  let th := acos (K / (Q * s)) in
  0 < Q /\ Rabs (K / (Q * s)) <= 1 /\
  forall t, dep Q K t =
    (t - -2 * s * cos (th / 3)) * (t - -2 * s * cos ((th + 2 * PI) / 3)) *
    (t - -2 * s * cos ((th - 2 * PI) / 3)).
Proof.
  intros Q K H s th.
  assert (HQ : 0 < Q).
  { destruct (Rle_or_lt Q 0); auto. pose proof (Rle_0_sqr K); unfold Rsqr in *.
    assert (Q * Q * Q <= 0) by nra. lra. }
  assert (Hs : 0 < s) by (apply sqrt_lt_R0; auto).
  assert (Hss : s * s = Q) by (apply sqrt_sqrt; lra).
  assert (HQs : 0 < Q * s) by nra.
  assert (B : Rabs (K / (Q * s)) <= 1).
  { assert (E : (K / (Q * s)) * (K / (Q * s)) <= 1).
    { replace (K / (Q * s) * (K / (Q * s))) with (K * K / (Q * Q * (s * s))) by (field; lra).
      rewrite Hss. apply Rmult_le_reg_r with (Q * Q * Q); [nra|].
      unfold Rdiv; rewrite Rmult_assoc, Rinv_l by nra. lra. }
    destruct (Rcase_abs (K / (Q * s))); [rewrite Rabs_left by auto|rewrite Rabs_right by auto]; nra. }
  split; [auto|split; [auto|]].
  assert (C : cos th = K / (Q * s)).
  { unfold th; apply cos_acos. unfold Rabs in B; destruct (Rcase_abs _); lra. }
  set (phi := th / 3).
  assert (C3 : 4 * cos phi ^ 3 - 3 * cos phi = K / (Q * s)).
  { rewrite <- cos_triple, <- C; f_equal; unfold phi; field. }
  replace ((th + 2 * PI) / 3) with (phi + 2 * (PI / 3)) by (unfold phi; field).
  replace ((th - 2 * PI) / 3) with (phi - 2 * (PI / 3)) by (unfold phi; field).
  rewrite cos_plus, cos_minus, cos_2PI3, sin_2PI3.
  pose proof (sin2_cos2 phi) as S; unfold Rsqr in S.
  assert (H3 : sqrt 3 * sqrt 3 = 3) by (apply sqrt_sqrt; lra).
  set (c := cos phi) in *; set (g := sin phi) in *; set (r3 := sqrt 3) in *.
  clearbody c g r3. clear th C phi B.
  intros t.
  replace ((t - -2 * s * c) * (t - -2 * s * (c * (-1 / 2) - g * (r3 / 2)))
     * (t - -2 * s * (c * (-1 / 2) + g * (r3 / 2))))
    with (t ^ 3 + (s * s) * (c * c - (r3 * r3) * (g * g)) * t - 2 * c * c * (s * s) * t
          - 2 * c * c * (s * s) * t
          + 2 * (s * s) * s * c * (c * c - (r3 * r3) * (g * g))) by field.
  rewrite H3, Hss. replace (g * g) with (1 - c * c) by lra.
  unfold dep.
  replace (t ^ 3 + Q * (c * c - 3 * (1 - c * c)) * t - 2 * c * c * Q * t - 2 * c * c * Q * t
     + 2 * Q * s * c * (c * c - 3 * (1 - c * c)))
   with (t ^ 3 - 3 * Q * t + 2 * (Q * s) * (4 * c ^ 3 - 3 * c)) by ring.
  rewrite C3; field; lra.
Qed.

(** One real root (Cardano); [sg] is the sign of K. *)
Lemma depressed_cardano : forall Q K : R, Q * Q * Q <= K * K -> K <> 0 ->
  let A := (if Rlt_dec 0 K then -1 else 1) * Rcbrt (Rabs K + sqrt (K * K - Q * Q * Q)) in
  A <> 0 /\ Rabs A ^ 3 = Rabs K + sqrt (K * K - Q * Q * Q) /\
  (forall t, dep Q K t = (t - (A + Q / A)) * ((t + (A + Q / A) / 2) ^ 2 + 3 / 4 * (A - Q / A) ^ 2)) /\
  (Q * Q * Q < K * K -> A <> Q / A) /\ (Q * Q * Q = K * K -> A = Q / A).
Proof.
  intros Q K H NR A.
  set (m := Rabs K) in *. set (w := sqrt (K * K - Q * Q * Q)) in *.
  assert (Hw : 0 <= w) by apply sqrt_pos.
  assert (Hww : w * w = K * K - Q * Q * Q) by (apply sqrt_sqrt; lra).
  assert (Hm : 0 < m) by (apply Rabs_pos_lt; auto).
  assert (Hmm : m * m = K * K) by (unfold m; rewrite <- Rabs_mult; apply Rabs_right; nra).
  set (sg := if Rlt_dec 0 K then -1 else 1) in *.
  assert (Hsg : sg * m = - K).
  { unfold sg, m; destruct (Rlt_dec 0 K); [rewrite Rabs_right by lra|rewrite Rabs_left by lra]; ring. }
  assert (Hsg2 : sg * sg = 1) by (unfold sg; destruct (Rlt_dec 0 K); ring).
  set (k := Rcbrt (m + w)) in *.
  assert (Hk : 0 < k) by (apply Rcbrt_pos; lra).
  assert (Hk3 : k ^ 3 = m + w) by apply Rcbrt_cube.
  assert (NA : A <> 0).
  { unfold A; apply Rmult_integral_contrapositive; split; [|lra]. intros E; rewrite E in Hsg2; lra. }
  assert (A3 : A ^ 3 = sg * (m + w)).
  { unfold A; replace ((sg * k) ^ 3) with (sg * (sg * sg) * k ^ 3) by ring. rewrite Hsg2, Hk3; ring. }
  assert (B3 : (Q / A) ^ 3 = sg * (m - w)).
  { replace ((Q / A) ^ 3) with (Q * Q * Q / A ^ 3) by (field; auto).
    assert (NA3 : A ^ 3 <> 0) by (apply pow_nonzero; auto).
    rewrite A3 in *. apply Rmult_eq_reg_r with (sg * (m + w)); auto.
    replace (Q * Q * Q / (sg * (m + w)) * (sg * (m + w))) with (Q * Q * Q)
      by (set (z := sg * (m + w)) in *; field; auto).
    replace (sg * (m - w) * (sg * (m + w))) with ((sg * sg) * (m * m - w * w)) by ring.
    rewrite Hsg2, Hmm, Hww; ring. }
  split; [auto|]. split.
  { unfold A. rewrite Rabs_mult, (Rabs_right k) by lra.
    replace (Rabs sg) with 1; [rewrite Rmult_1_l; auto|].
    unfold sg; destruct (Rlt_dec 0 K); [rewrite Rabs_left by lra; lra|rewrite Rabs_right by lra; lra]. }
  split.
  - intros t; unfold dep.
    set (B := Q / A) in *.
    assert (HAB : A * B = Q) by (unfold B; field; auto).
    assert (HS : A ^ 3 + B ^ 3 = - 2 * K).
    { rewrite A3, B3. replace (sg * (m + w) + sg * (m - w)) with (2 * (sg * m)) by ring. rewrite Hsg; ring. }
    rewrite <- HAB.
    transitivity (t ^ 3 - 3 * (A * B) * t - (A ^ 3 + B ^ 3)); [rewrite HS; ring|field].
  - split.
    + intros Hlt E. assert (A ^ 3 = (Q / A) ^ 3) by (rewrite <- E; auto).
      rewrite A3, B3 in H0.
      assert (Z : sg * (sg * (2 * w)) = 0) by (replace (sg * (2 * w)) with (sg * (m + w) - sg * (m - w)) by ring; rewrite H0; ring).
      assert (w = 0). { replace (sg * (sg * (2 * w))) with ((sg * sg) * (2 * w)) in Z by ring. rewrite Hsg2 in Z; lra. }
      rewrite H1 in Hww; lra.
    + intros Heq. assert (w = 0) by (unfold w; rewrite Heq, Rminus_diag_eq, sqrt_0; auto).
      assert (A ^ 3 = (Q / A) ^ 3) by (rewrite A3, B3, H0; ring).
      set (B := Q / A) in *.
      assert (Z : (A - B) * (A * A + A * B + B * B) = 0).
      { replace ((A - B) * (A * A + A * B + B * B)) with (A ^ 3 - B ^ 3) by ring. rewrite H1; ring. }
      apply Rmult_integral in Z; destruct Z; [lra|]. exfalso; apply NA. nra.
Qed.

(** *** Back to the general cubic *)
Definition cQ (a b c : R) : R := (b / a * (b / a) - 3 * (c / a)) / 9.

Lemma cubic_depress : forall a b c d x, a <> 0 ->
  cubicR a b c d x = a * dep (cQ a b c) (cubic_inflection a b c d) (x + b / a / 3).
Proof. intros; unfold cubicR, dep, cQ, cubic_inflection; field; auto. Qed.

Lemma cubic_disc_QK : forall a b c d, a <> 0 ->
  cubic_discriminant a b c d =
  108 * a ^ 4 * (cQ a b c * cQ a b c * cQ a b c - cubic_inflection a b c d * cubic_inflection a b c d).
Proof. intros; unfold cubic_discriminant, cQ, cubic_inflection; field; auto. Qed.

Lemma increasing_last : forall l z, increasing (l ++ [z]) -> forall y, In y (l ++ [z]) -> y <= z.
Proof.
  induction l as [|x l IH]; simpl; intros z H y Hy.
  - destruct Hy as [->|[]]; lra.
  - destruct H as [H1 H2]; destruct Hy as [<-|Hy]; auto.
    apply H1; apply in_or_app; right; left; auto.
Qed.

Section L.
Variable L : limits.
Notation croots := (cubic_roots (F:=XR L)).

Lemma sgn_fin : forall x, sgn (F:=XR L) (Fin x) =
  if Rlt_dec 0 x then 1%Z else if Rlt_dec x 0 then (-1)%Z else 0%Z.
Proof.
  intros x; unfold sgn; xred; unfold Rltb.
  destruct (Rlt_dec 0 x), (Rlt_dec x 0); try reflexivity; lra.
Qed.

(** The part of [cubic_roots] below its two degenerate cases. *)
Lemma cubic_general : forall a b c d, l_min L < Rabs a -> l_min L < Rabs d ->
  croots (Fin a) (Fin b) (Fin c) (Fin d) =
  let p := b / a in let Q := cQ a b c in let K := cubic_inflection a b c d in
  if Rltb (K * K) (Q * Q * Q) then
    Ok (map Fin (sortR
      [-2 * sqrt Q * cos (acos (K / (Q * sqrt Q)) / 3) - p / 3;
       -2 * sqrt Q * cos ((acos (K / (Q * sqrt Q)) + 2 * PI) / 3) - p / 3;
       -2 * sqrt Q * cos ((acos (K / (Q * sqrt Q)) - 2 * PI) / 3) - p / 3]))
  else
    let A := IZR (- sgn (F:=XR L) (Fin K)) * Rcbrt (Rabs K + sqrt (K * K - Q * Q * Q)) in
    if Rleb (Rabs A) (l_min L) then Ok [Fin (A - p / 3)] else Ok [Fin (A + Q / A - p / 3)].
Proof.
  intros a b c d Ha Hd.
  pose proof (abs_gt_min_neq0 L a Ha) as Na.
  cbv zeta; set (Q := cQ a b c); set (K := cubic_inflection a b c d). unfold cubic_roots; xred.
  rewrite !Rleb_false by auto. rewrite !(xdiv_fin _ a) by auto; xred.
  rewrite !(xdiv_fin _ 9), !(xdiv_fin _ 54), !(xdiv_fin _ 3) by lra; xred.
  replace ((2 * (b / a) * (b / a) * (b / a) - 9 * (b / a) * (c / a) + 27 * (d / a)) / 54) with K
    by (unfold K, cubic_inflection; field; auto).
  change ((b / a * (b / a) - 3 * (c / a)) / 9) with Q.
  destruct (Rltb_spec (K * K) (Q * Q * Q)) as [Lt|Ge].
  - destruct (depressed_trig Q K Lt) as [HQ [HB _]].
    assert (Hs : 0 < sqrt Q) by (apply sqrt_lt_R0; auto).
    rewrite xsqrt_fin by lra; xred. rewrite (xdiv_fin K) by (apply Rgt_not_eq; nra).
    unfold xunit. destruct (Rle_dec _ 1); [|contradiction]. xred.
    rewrite !(xdiv_fin _ 3) by lra; xred.
    rewrite <- std_sort_fin with (L := L). reflexivity.
  - rewrite xsqrt_fin by lra; xred.
    set (A := IZR (- sgn (F:=XR L) (Fin K)) * Rcbrt (Rabs K + sqrt (K * K - Q * Q * Q))).
    destruct (Rleb_spec (Rabs A) (l_min L)); auto.
    rewrite xdiv_fin by (apply (abs_gt_min_neq0 L); auto). reflexivity.
Qed.

Lemma cubic_roots_main : forall a b c d, cubic_off_threshold (l_min L) a b c d ->
  exists l, croots (Fin a) (Fin b) (Fin c) (Fin d) = Ok (map Fin l) /\
    increasing l /\
    (forall x, In x l -> cubicR a b c d x = 0) /\
    (~ cubic_double_root a b c d -> forall x, cubicR a b c d x = 0 -> In x l) /\
    (a <> 0 -> d <> 0 -> d / a < 0 -> exists l0 z, l = l0 ++ [z] /\ 0 < z) /\
    (a <> 0 -> l <> []).
Proof.
  intros a b c d [Ha [H0 [Hd [Hb HK]]]].
  destruct (off_cases L a Ha) as [[-> Ea]|[Na Ea]].
  - (* quadratic *)
    destruct (H0 eq_refl) as [Hb' [Hc' Hn]].
    destruct (quadratic_roots_set L b c d Hb' Hc' Hn) as [l [E [Inc [_ HR]]]].
    exists l. split.
    { unfold cubic_roots; xred; rewrite Ea, E; reflexivity. }
    split; [auto|]. split; [|split; [|split; [|]; intros X; contradiction]].
    + intros x Hx; apply HR in Hx; unfold cubicR, quadR in *; lra.
    + intros _ x Hx; apply HR; unfold cubicR, quadR in *; lra.
  - specialize (Hd Na); specialize (Hb Na); specialize (HK Na).
    assert (Ha' : l_min L < Rabs a).
    { destruct Ha as [?|?]; [contradiction|auto]. }
    destruct (off_cases L d Hd) as [[-> Ed]|[Nd Ed]].
    + (* zero is a root *)
      assert (Hn : ~ (a = 0 /\ b = 0 /\ c = 0)) by tauto.
      destruct (quadratic_roots_set L a b c Ha (Hb eq_refl) Hn) as [l [E [Inc [_ HR]]]].
      destruct (std_sort_correct L (l ++ [0])) as [l' [E' [P [Inc' HI]]]].
      exists l'. split.
      { unfold cubic_roots; xred; rewrite Ea, Ed, E. rewrite <- E', map_app. reflexivity. }
      assert (RR : forall x, In x l' <-> cubicR a b c 0 x = 0).
      { intros x; rewrite HI, in_app_iff, HR.
        replace (cubicR a b c 0 x) with (x * quadR a b c x) by (unfold cubicR, quadR; ring).
        split; [intros [Q|[<-|[]]]; [rewrite Q|]; ring|].
        intros Z; apply Rmult_integral in Z; destruct Z as [->|Z]; [right; left; auto|left; auto]. }
      split; [auto|]. split; [|split; [|split]].
      * intros x; apply RR.
      * intros _ x; apply RR.
      * intros _ C; contradiction.
      * intros _ C; subst. destruct (RR 0) as [_ Q]. destruct Q. unfold cubicR; ring.
    + assert (Hd' : l_min L < Rabs d).
      { destruct Hd as [?|?]; [contradiction|auto]. }
      specialize (HK Nd).
      rewrite (cubic_general a b c d Ha' Hd'); cbv zeta.
      pose proof (cubic_disc_QK a b c d Na) as Disc.
      pose proof (fun x => cubic_depress a b c d x Na) as Dep.
      set (Q := cQ a b c) in *; set (K := cubic_inflection a b c d) in *.
      assert (D0 : a * dep Q K (b / a / 3) = d).
      { specialize (Dep 0); rewrite Rplus_0_l in Dep; rewrite <- Dep; unfold cubicR; ring. }
      destruct (Rltb_spec (K * K) (Q * Q * Q)) as [Lt|Ge].
      * destruct (depressed_trig Q K Lt) as [HQ [_ HF]]; cbv zeta in HF.
        set (t1 := -2 * sqrt Q * cos (acos (K / (Q * sqrt Q)) / 3)) in *.
        set (t2 := -2 * sqrt Q * cos ((acos (K / (Q * sqrt Q)) + 2 * PI) / 3)) in *.
        set (t3 := -2 * sqrt Q * cos ((acos (K / (Q * sqrt Q)) - 2 * PI) / 3)) in *.
        eexists; split; [reflexivity|]. split; [apply sortR_increasing|].
        assert (RR : forall x, In x (sortR [t1 - b / a / 3; t2 - b / a / 3; t3 - b / a / 3]) <-> cubicR a b c d x = 0).
        { intros x; rewrite sortR_In, Dep, HF; simpl; split.
          - intros [<-|[<-|[<-|[]]]]; ring.
          - intros Z; apply Rmult_integral in Z; destruct Z as [Z|Z]; [contradiction|].
            apply Rmult_integral in Z; destruct Z as [Z|Z]; [|right; right; left; lra].
            apply Rmult_integral in Z; destruct Z as [Z|Z]; [left; lra|right; left; lra]. }
        split; [intros x; apply RR|]. split; [intros _ x; apply RR|].
        assert (NE : sortR [t1 - b / a / 3; t2 - b / a / 3; t3 - b / a / 3] <> []).
        { intros C; pose proof (sortR_perm [t1 - b / a / 3; t2 - b / a / 3; t3 - b / a / 3]) as P.
          rewrite C in P; apply Permutation_sym, Permutation_nil in P; discriminate. }
        split; [|auto].
        intros _ _ Hneg.
        destruct (exists_last NE) as [l0 [z E]]. exists l0, z; split; auto.
        pose proof (sortR_increasing [t1 - b / a / 3; t2 - b / a / 3; t3 - b / a / 3]) as Inc.
        rewrite E in Inc.
        assert (Hle : forall y, In y [t1 - b / a / 3; t2 - b / a / 3; t3 - b / a / 3] -> y <= z).
        { intros y Hy; apply (increasing_last l0 z Inc); rewrite <- E; apply sortR_In; auto. }
        pose proof (Hle _ (or_introl eq_refl)) as L1.
        pose proof (Hle _ (or_intror (or_introl eq_refl))) as L2.
        pose proof (Hle _ (or_intror (or_intror (or_introl eq_refl)))) as L3.
        rewrite HF in D0.
        assert (P : (t1 - b / a / 3) * (t2 - b / a / 3) * (t3 - b / a / 3) = - (d / a)).
        { rewrite <- D0; field; auto. }
        set (x1 := t1 - b / a / 3) in *; set (x2 := t2 - b / a / 3) in *; set (x3 := t3 - b / a / 3) in *.
        destruct (Rle_or_lt z 0); auto. exfalso.
        assert (0 <= (- x1) * (- x2)) by (apply Rmult_le_pos; lra). assert (0 <= (- x1) * (- x2) * (- x3)) by (apply Rmult_le_pos; lra). lra.
      * rewrite sgn_fin.
        destruct (Req_EM_T K 0) as [K0|NK].
        -- (* K = 0, Q <= 0: the root is -p/3 *)
           rewrite K0 in *.
           destruct (Rlt_dec 0 0) as [C|_]; [lra|]. cbn [Z.opp].
           rewrite Rmult_0_l, Rabs_R0, Rleb_true by (pose proof (l_min_pos L); lra).
           assert (HQ : Q <= 0).
           { destruct (Rle_or_lt Q 0); auto. exfalso. assert (0 < Q * Q * Q) by (apply Rmult_lt_0_compat; nra). lra. }
           assert (HF : forall x, cubicR a b c d x = a * ((x + b / a / 3) * ((x + b / a / 3) ^ 2 - 3 * Q))).
           { intros x; rewrite Dep; unfold dep; ring. }
           exists [0 - b / a / 3]. split; [reflexivity|]. split; [simpl; split; [intros y []|exact I]|].
           split; [|split; [|split]].
           ++ intros x [<-|[]]. rewrite HF; ring.
           ++ intros _ x Hx. rewrite HF in Hx. apply Rmult_integral in Hx; destruct Hx as [|Hx]; [contradiction|].
              apply Rmult_integral in Hx; destruct Hx as [Hx|Hx]; [left; lra|].
              left. assert (x + b / a / 3 = 0) by nra. lra.
           ++ intros _ _ Hneg. exists [], (0 - b / a / 3); split; auto.
              assert (E : b / a / 3 * ((b / a / 3) ^ 2 - 3 * Q) = d / a).
              { specialize (HF 0). rewrite Rplus_0_l in HF.
                replace (cubicR a b c d 0) with d in HF by (unfold cubicR; ring).
                rewrite HF; field; auto. }
              set (y := b / a / 3) in *. destruct (Rle_or_lt 0 y) as [Hy|Hy]; [|lra].
              exfalso. assert (0 <= y * (y ^ 2 - 3 * Q)) by (apply Rmult_le_pos; nra). lra.
           ++ intros _ C; discriminate.
        -- destruct (depressed_cardano Q K Ge NK) as [NA [A3 [HF [Hlt Heq]]]]; cbv zeta in *.
           assert (Hthr : l_min L ^ 3 < Rabs K).
           { destruct HK as [?|?]; [contradiction|auto]. }
           set (A := (if Rlt_dec 0 K then -1 else 1) * Rcbrt (Rabs K + sqrt (K * K - Q * Q * Q))) in *.
           assert (EA : IZR (- (if Rlt_dec 0 K then 1%Z else if Rlt_dec K 0 then (-1)%Z else 0%Z))
              * Rcbrt (Rabs K + sqrt (K * K - Q * Q * Q)) = A).
           { unfold A; destruct (Rlt_dec 0 K); [reflexivity|]. destruct (Rlt_dec K 0); [reflexivity|lra]. }
           rewrite EA.
           rewrite Rleb_false.
           2:{ destruct (Rle_or_lt (Rabs A) (l_min L)) as [C|C]; auto. exfalso.
               pose proof (sqrt_pos (K * K - Q * Q * Q)). pose proof (Rabs_pos A).
               assert (Rabs A ^ 3 <= l_min L ^ 3) by (apply pow_incr; lra). lra. }
           set (x0 := A + Q / A - b / a / 3).
           exists [x0]. split; [reflexivity|]. split; [simpl; split; [intros y []|exact I]|].
           split; [|split; [|split]].
           ++ intros x [<-|[]]. rewrite Dep, HF; unfold x0; ring.
           ++ intros ND x Hx. left.
              rewrite Dep, HF in Hx. apply Rmult_integral in Hx; destruct Hx as [|Hx]; [contradiction|].
              apply Rmult_integral in Hx; destruct Hx as [Hx|Hx]; [unfold x0; lra|].
              exfalso.
              assert (NAB : A <> Q / A).
              { destruct (Rlt_or_le (Q * Q * Q) (K * K)) as [Hl|Hl]; [auto|].
                exfalso; apply ND. repeat split; auto.
                - rewrite Disc. replace (Q * Q * Q) with (K * K) by lra. ring.
                - intros E. assert (Q = 0). { unfold Q, cQ. replace (b / a * (b / a)) with (b ^ 2 / a ^ 2) by (field; auto). rewrite E. field; auto. }
                  rewrite H in Ge, Hl. apply NK. apply Rsqr_0_uniq; unfold Rsqr; lra. }
              assert (0 < (A - Q / A) ^ 2). { assert (A - Q / A <> 0) by lra. assert (0 < Rsqr (A - Q / A)) by (apply Rlt_0_sqr; auto). unfold Rsqr in *; lra. }
              pose proof (pow2_ge_0 (x + b / a / 3 + (A + Q / A) / 2)). lra.
           ++ intros _ _ Hneg. exists [], x0; split; auto.
              rewrite HF in D0.
              set (W := (b / a / 3 + (A + Q / A) / 2) ^ 2 + 3 / 4 * (A - Q / A) ^ 2) in *.
              assert (HW : 0 <= W) by (unfold W; pose proof (pow2_ge_0 (b / a / 3 + (A + Q / A) / 2)); pose proof (pow2_ge_0 (A - Q / A)); lra).
              assert (E : x0 * W = - (d / a)) by (rewrite <- D0; unfold x0; field; auto).
              destruct (Rle_or_lt x0 0); auto. exfalso. pose proof (Rmult_le_pos (- x0) W ltac:(lra) HW); lra.
           ++ intros _ C; discriminate.
Qed.

(** The missing case: a root of multiplicity two is never returned. *)
Lemma cubic_double_missed : forall a b c d, cubic_off_threshold (l_min L) a b c d ->
  cubic_double_root a b c d ->
  exists l x, croots (Fin a) (Fin b) (Fin c) (Fin d) = Ok (map Fin l) /\
    cubicR a b c d x = 0 /\ ~ In x l.
Proof.
  intros a b c d [Ha [_ [Hd [_ HK]]]] [Na [Nd [D Ne]]].
  specialize (Hd Na); specialize (HK Na Nd).
  destruct Ha as [?|Ha]; [contradiction|]. destruct Hd as [?|Hd]; [contradiction|].
  rewrite (cubic_general a b c d Ha Hd); cbv zeta.
  rewrite (cubic_disc_QK a b c d Na) in D.
  pose proof (fun x => cubic_depress a b c d x Na) as Dep.
  set (Q := cQ a b c) in *; set (K := cubic_inflection a b c d) in *.
  assert (E : Q * Q * Q = K * K).
  { apply Rmult_integral in D; destruct D as [D|D]; [|lra].
    exfalso. assert (a ^ 4 <> 0) by (apply pow_nonzero; auto). apply H. lra. }
  assert (NK : K <> 0).
  { intros K0; apply Ne. assert (Q = 0). { destruct (Req_EM_T Q 0); auto. exfalso.
      assert (Z : Q * Q * Q = 0) by (rewrite E, K0; ring).
      apply Rmult_integral in Z; destruct Z as [Z|Z]; [|contradiction].
      apply Rmult_integral in Z; destruct Z; contradiction. }
    unfold Q, cQ in H. replace (b ^ 2) with (3 * a * c + 9 * a ^ 2 * ((b / a * (b / a) - 3 * (c / a)) / 9)) by (field; auto).
    rewrite H; ring. }
  rewrite Rltb_false by lra. rewrite sgn_fin.
  destruct (depressed_cardano Q K (or_intror E) NK) as [NA [A3 [HF [_ Heq]]]]; cbv zeta in *.
  assert (Hthr : l_min L ^ 3 < Rabs K).
  { destruct HK as [?|?]; [contradiction|auto]. }
  set (A := (if Rlt_dec 0 K then -1 else 1) * Rcbrt (Rabs K + sqrt (K * K - Q * Q * Q))) in *.
  assert (EA : IZR (- (if Rlt_dec 0 K then 1%Z else if Rlt_dec K 0 then (-1)%Z else 0%Z))
              * Rcbrt (Rabs K + sqrt (K * K - Q * Q * Q)) = A).
  { unfold A; destruct (Rlt_dec 0 K); [reflexivity|]. destruct (Rlt_dec K 0); [reflexivity|lra]. }
  rewrite EA, Rleb_false.
  2:{ destruct (Rle_or_lt (Rabs A) (l_min L)) as [C|C]; auto. exfalso.
      pose proof (sqrt_pos (K * K - Q * Q * Q)). pose proof (Rabs_pos A).
      assert (Rabs A ^ 3 <= l_min L ^ 3) by (apply pow_incr; lra). lra. }
  specialize (Heq E).
  exists [A + Q / A - b / a / 3], (- A - b / a / 3); split; [reflexivity|]. split.
  - rewrite Dep, HF, <- Heq. field; auto.
  - intros [C|[]]. apply NA. rewrite <- Heq in C. lra.
Qed.

Lemma cubic_complete_iff : forall a b c d, cubic_off_threshold (l_min L) a b c d ->
  ((exists l, croots (Fin a) (Fin b) (Fin c) (Fin d) = Ok (map Fin l) /\ increasing l /\
      forall x, In x l <-> cubicR a b c d x = 0)
   <-> ~ cubic_double_root a b c d).
Proof.
  intros a b c d H; split.
  - intros [l [E [_ HR]]] D. destruct (cubic_double_missed a b c d H D) as [l' [x [E' [Z N]]]].
    rewrite E in E'. injection E' as E'.
    assert (l = l').
    { revert l' E' N. clear. induction l as [|y l IH]; destruct l' as [|y' l']; simpl; intros E N; try discriminate; auto.
      injection E as -> E. f_equal. apply IH; auto. }
    subst. apply N, HR, Z.
  - intros N. destruct (cubic_roots_main a b c d H) as [l [E [I [S [C _]]]]].
    exists l; split; [auto|]. split; [auto|]. intros x; split; auto.
Qed.
End L.
