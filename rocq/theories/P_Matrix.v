(** Proofs about M_Matrix.v over exact arithmetic. *)
From Coq Require Import Reals Lra ZArith List Bool Psatz.
From Verif Require Import Num XR M_Vec M_Matrix Spec P_Vec.
Local Open Scope R_scope.

Lemma M3_ext : forall (a b c d e f g h i a' b' c' d' e' f' g' h' i' : R),
  a = a' -> b = b' -> c = c' -> d = d' -> e = e' -> f = f' -> g = g' -> h = h' -> i = i' ->
  M3 a b c d e f g h i = M3 a' b' c' d' e' f' g' h' i'.
Proof. intros; subst; reflexivity. Qed.
Lemma M3x_ext : forall (a b c d e f g h i a' b' c' d' e' f' g' h' i' : xr),
  a = a' -> b = b' -> c = c' -> d = d' -> e = e' -> f = f' -> g = g' -> h = h' -> i = i' ->
  M3 a b c d e f g h i = M3 a' b' c' d' e' f' g' h' i'.
Proof. intros; subst; reflexivity. Qed.
Lemma M2_ext : forall (a b c d a' b' c' d' : R),
  a = a' -> b = b' -> c = c' -> d = d' -> M2 a b c d = M2 a' b' c' d'.
Proof. intros; subst; reflexivity. Qed.
Lemma M2x_ext : forall (a b c d a' b' c' d' : xr),
  a = a' -> b = b' -> c = c' -> d = d' -> M2 a b c d = M2 a' b' c' d'.
Proof. intros; subst; reflexivity. Qed.
Lemma V2_ext : forall (a b a' b' : R), a = a' -> b = b' -> V2 a b = V2 a' b'.
Proof. intros; subst; reflexivity. Qed.

Section L.
Variable L : limits.

Lemma determinant3_fin : forall m, determinant3 (F:=XR L) (finm3 m) = Fin (detR m).
Proof. reflexivity. Qed.
Lemma determinant2_fin : forall m, determinant2 (F:=XR L) (finm2 m) = Fin (det2R m).
Proof. intros; unfold determinant2, finm2, mapm2; cbn [a00 a01 a10 a11]; apply dop_fin. Qed.
Lemma mulmm3_fin : forall a b, mulmm3 (F:=XR L) (finm3 a) (finm3 b) = finm3 (mmR a b).
Proof.
  intros; unfold mulmm3, finm3, mapm3; cbn [m00 m01 m02 m10 m11 m12 m20 m21 m22]; xred.
  apply M3x_ext; unfold mmR; simpl; f_equal; ring.
Qed.
Lemma mulmm2_fin : forall a b, mulmm2 (F:=XR L) (finm2 a) (finm2 b) = finm2 (mm2R a b).
Proof.
  intros; unfold mulmm2, finm2, mapm2; cbn [a00 a01 a10 a11]; xred.
  apply M2x_ext; unfold mm2R; simpl; f_equal; ring.
Qed.
Lemma mulmv3_fin : forall a v, mulmv3 (F:=XR L) (finm3 a) (fin3 v) = fin3 (mvR a v).
Proof.
  intros; unfold mulmv3, finm3, mapm3, fin3, map3;
    cbn [m00 m01 m02 m10 m11 m12 m20 m21 m22 vx vy vz]; xred.
  apply V3x_ext; unfold mvR; simpl; f_equal; ring.
Qed.

(** *** C02 *)
Definition inv3R (m : mat3 R) : mat3 R :=
  let k := 1 / detR m in
  M3 ((m11 m * m22 m - m12 m * m21 m) * k) ((m02 m * m21 m - m01 m * m22 m) * k)
     ((m01 m * m12 m - m02 m * m11 m) * k) ((m12 m * m20 m - m10 m * m22 m) * k)
     ((m00 m * m22 m - m02 m * m20 m) * k) ((m02 m * m10 m - m00 m * m12 m) * k)
     ((m10 m * m21 m - m11 m * m20 m) * k) ((m01 m * m20 m - m00 m * m21 m) * k)
     ((m00 m * m11 m - m01 m * m10 m) * k).
Definition inv2R (m : mat2 R) : mat2 R :=
  let k := 1 / det2R m in M2 (a11 m * k) (- a01 m * k) (- a10 m * k) (a00 m * k).

Lemma inv3R_right : forall m, detR m <> 0 -> mmR m (inv3R m) = id3R.
Proof.
  intros m H; unfold mmR, inv3R, id3R; cbn [m00 m01 m02 m10 m11 m12 m20 m21 m22].
  unfold detR in *; apply M3_ext; field; exact H.
Qed.
Lemma inv3R_left : forall m, detR m <> 0 -> mmR (inv3R m) m = id3R.
Proof.
  intros m H; unfold mmR, inv3R, id3R; cbn [m00 m01 m02 m10 m11 m12 m20 m21 m22].
  unfold detR in *; apply M3_ext; field; exact H.
Qed.
Lemma inv2R_right : forall m, det2R m <> 0 -> mm2R m (inv2R m) = id2R.
Proof.
  intros m H; unfold mm2R, inv2R, id2R; cbn [a00 a01 a10 a11].
  unfold det2R in *; apply M2_ext; field; exact H.
Qed.
Lemma inv2R_left : forall m, det2R m <> 0 -> mm2R (inv2R m) m = id2R.
Proof.
  intros m H; unfold mm2R, inv2R, id2R; cbn [a00 a01 a10 a11].
  unfold det2R in *; apply M2_ext; field; exact H.
Qed.

Lemma abs_gt_min_neq0 : forall x, l_min L < Rabs x -> x <> 0.
Proof. intros x H E; rewrite E, Rabs_R0 in H; pose proof (l_min_pos L); lra. Qed.

Lemma inverse3_correct : forall (m : mat3 R) (out : mat3 xr),
  (l_min L < Rabs (detR m) ->
     exists w, inverse3 (F:=XR L) (finm3 m) out = (true, finm3 w) /\
               mmR m w = id3R /\ mmR w m = id3R) /\
  (Rabs (detR m) <= l_min L -> inverse3 (F:=XR L) (finm3 m) out = (false, out)).
Proof.
  intros m out; split; intros H.
  - exists (inv3R m); split; [|split; [apply inv3R_right|apply inv3R_left]; apply abs_gt_min_neq0; auto].
    unfold inverse3; rewrite determinant3_fin; xred; rewrite Rleb_false by auto.
    rewrite !xdiv_fin by (apply abs_gt_min_neq0; auto). reflexivity.
  - unfold inverse3; rewrite determinant3_fin; xred; rewrite Rleb_true by auto; reflexivity.
Qed.

Lemma inverse2_correct : forall (m : mat2 R) (out : mat2 xr),
  (l_min L < Rabs (det2R m) ->
     exists w, inverse2 (F:=XR L) (finm2 m) out = (true, finm2 w) /\
               mm2R m w = id2R /\ mm2R w m = id2R) /\
  (Rabs (det2R m) <= l_min L -> inverse2 (F:=XR L) (finm2 m) out = (false, out)).
Proof.
  intros m out; split; intros H.
  - exists (inv2R m); split; [|split; [apply inv2R_right|apply inv2R_left]; apply abs_gt_min_neq0; auto].
    unfold inverse2; rewrite determinant2_fin; xred; rewrite Rleb_false by auto.
    rewrite !xdiv_fin by (apply abs_gt_min_neq0; auto). reflexivity.
  - unfold inverse2; rewrite determinant2_fin; xred; rewrite Rleb_true by auto; reflexivity.
Qed.

(** The by-value overload returns garbage on failure. *)
Lemma inverse3_value_undefined : forall m : mat3 R,
  Rabs (detR m) <= l_min L -> inverse3_value (F:=XR L) (finm3 m) = Undef.
Proof.
  intros m H; unfold inverse3_value.
  destruct (inverse3_correct m (finm3 m)) as [_ E]; rewrite (E H); reflexivity.
Qed.

(** *** C03 *)
Lemma solve2_correct : forall (m : mat2 R) (b : vec2 R),
  det2R m <> 0 -> off_threshold (l_eps L * l_eps L) (a10 m) ->
  exists x, solve2 (F:=XR L) (finm2 m) (fin2 b) = fin2 x /\ mv2R m x = b /\
            forall x', mv2R m x' = b -> x' = x.
Proof.
  intros [a b' c d] [b0 b1]; unfold det2R, off_threshold; cbn [a00 a01 a10 a11 wx wy]; intros Hd Ht.
  assert (U : exists x, solve2 (F:=XR L) (finm2 (M2 a b' c d)) (fin2 (V2 b0 b1)) = fin2 x
                        /\ mv2R (M2 a b' c d) x = V2 b0 b1).
  { unfold solve2, finm2, mapm2, fin2, map2v; cbn [a00 a01 a10 a11 wx wy]; xred.
    destruct Ht as [->|Ht].
    - rewrite Rabs_R0, Rleb_true by (pose proof (l_eps_pos L); nra).
      assert (d <> 0) by (intros ->; apply Hd; ring).
      assert (a <> 0) by (intros ->; apply Hd; ring).
      rewrite xdiv_fin by auto; xred; rewrite xdiv_fin by auto.
      exists (V2 ((b0 - b' * (b1 / d)) / a) (b1 / d)); split; [reflexivity|].
      unfold mv2R; cbn [a00 a01 a10 a11 wx wy]; apply V2_ext; field; auto.
    - rewrite Rleb_false by auto.
      assert (Hc : c <> 0).
      { intros E; rewrite E, Rabs_R0 in Ht; pose proof (l_eps_pos L); nra. }
      rewrite xdiv_fin by auto; xred.
      assert (HD : b' - d * (a * (1 / c)) <> 0).
      { intros E; apply Hd.
        replace (a * d - b' * c) with (- c * (b' - d * (a * (1 / c)))) by (field; auto).
        rewrite E; ring. }
      rewrite xdiv_fin by auto; xred.
      eexists (V2 _ _); split; [reflexivity|].
      unfold mv2R; cbn [a00 a01 a10 a11 wx wy].
      assert (HD' : b' * c - d * a <> 0).
      { intros E; apply Hd; lra. }
      apply V2_ext; field; auto. }
  destruct U as [x [E1 E2]]; exists x; split; [auto|split; [auto|]].
  intros [x0' x1'] E'; destruct x as [x0 x1].
  unfold mv2R in E2, E'; cbn [a00 a01 a10 a11 wx wy] in *; injection E2 as P1 P2; injection E' as Q1 Q2.
  assert (Z0 : (a * d - b' * c) * (x0' - x0) = 0).
  { replace ((a * d - b' * c) * (x0' - x0)) with
      (d * (a * x0' + b' * x1' - (a * x0 + b' * x1)) - b' * (c * x0' + d * x1' - (c * x0 + d * x1))) by ring.
    rewrite Q1, Q2, P1, P2; ring. }
  assert (Z1 : (a * d - b' * c) * (x1' - x1) = 0).
  { replace ((a * d - b' * c) * (x1' - x1)) with
      (a * (c * x0' + d * x1' - (c * x0 + d * x1)) - c * (a * x0' + b' * x1' - (a * x0 + b' * x1))) by ring.
    rewrite Q1, Q2, P1, P2; ring. }
  apply Rmult_integral in Z0; apply Rmult_integral in Z1.
  apply V2_ext; destruct Z0, Z1; try contradiction; lra.
Qed.

(** Below the eps^2 threshold the lower-left entry is ignored: the answer is wrong. *)
Lemma solve2_small_pivot_wrong :
  exists (m : mat2 R) (b : vec2 R), det2R m = 1 /\
    forall x, solve2 (F:=XR L) (finm2 m) (fin2 b) = fin2 x -> mv2R m x <> b.
Proof.
  set (e := l_eps L * l_eps L). pose proof (l_eps_pos L) as He.
  assert (Hpos : 0 < e) by (unfold e; nra).
  exists (M2 1 0 e 1), (V2 1 0); split; [unfold det2R; simpl; ring|].
  intros x; unfold solve2, finm2, mapm2, fin2, map2v; cbn [a00 a01 a10 a11 wx wy]; xred; fold e.
  rewrite (Rabs_right e) by lra. rewrite Rleb_true by lra.
  rewrite xdiv_fin by lra; xred; rewrite xdiv_fin by lra.
  intros E; injection E as E0 E1. unfold mv2R; cbn [a00 a01 a10 a11].
  destruct x as [x0 x1]; cbn [wx wy] in *; subst.
  intros C; injection C as C1 C2.
  replace ((1 - 0 * (0 / 1)) / 1) with 1 in C2 by field.
  replace (e * 1 + 1 * (0 / 1)) with e in C2 by field. lra.
Qed.

(** *** C04 *)
Local Ltac mcbn := cbn [m00 m01 m02 m10 m11 m12 m20 m21 m22 vx vy vz] in *.

Lemma solve3_ok : forall (m : mat3 R) (b : vec3 R), detR m <> 0 -> pivots_ok m ->
  exists x, solve3 (F:=XR L) (finm3 m) (fin3 b) = Ok (fin3 x) /\ mvR m x = b.
Proof.
  intros [p00 p01 p02 p10 p11 p12 p20 p21 p22] [b0 b1 b2].
  unfold detR, pivots_ok; mcbn; intros Hd Hp.
  unfold solve3, finm3, mapm3, fin3, map3; mcbn; xred.
  destruct Hp as [[H0 [H3 [H6 H21]]]|[-> [H1 [H3 [H6 H11]]]]].
  - rewrite !Reqb_false by auto; cbn [negb].
    rewrite !xdiv_fin by auto; xred; cbn [read obind]; xred.
    assert (N21 : p01 / p00 - p21 / p20 <> 0).
    { intros E; apply H21.
      replace (p00 * p21) with (p01 * p20 - p00 * p20 * (p01 / p00 - p21 / p20)) by (field; auto).
      rewrite E; ring. }
    assert (N21' : p01 * p20 - p00 * p21 <> 0) by (intros E; apply H21; lra).
    destruct (Reqb_spec (p01 / p00 - p11 / p10) 0) as [E11|N11]; cbn [negb].
    + assert (E11' : p01 * p10 = p00 * p11).
      { replace (p01 * p10) with (p00 * p11 + p00 * p10 * (p01 / p00 - p11 / p10)) by (field; auto).
        rewrite E11; ring. }
      assert (N12 : p02 / p00 - p12 / p10 <> 0).
      { intros E; apply Hd.
        assert (X : p02 * p10 = p00 * p12).
        { replace (p02 * p10) with (p00 * p12 + p00 * p10 * (p02 / p00 - p12 / p10)) by (field; auto).
          rewrite E; ring. }
        replace (p00 * (p11 * p22 - p12 * p21) - p01 * (p10 * p22 - p12 * p20)
                 + p02 * (p10 * p21 - p11 * p20))
          with ((p00 * p11 - p01 * p10) * p22 + p21 * (p02 * p10 - p00 * p12)
                + p20 * (p01 * p12 - p02 * p11)) by ring.
        assert (Y : p00 * (p01 * p12 - p02 * p11) = 0).
        { replace (p00 * (p01 * p12 - p02 * p11)) with (p01 * (p00 * p12) - p02 * (p00 * p11)) by ring.
          rewrite <- X, <- E11'; ring. }
        apply Rmult_integral in Y; destruct Y as [Y|Y]; [contradiction|].
        rewrite Y, E11', X; ring. }
      rewrite xdiv_fin by auto; xred; rewrite xdiv_fin by auto; xred.
      eexists (V3 _ _ _); split; [reflexivity|].
      assert (N12' : p02 * p10 - p00 * p12 <> 0).
      { intros E; apply N12. replace (p02 / p00 - p12 / p10) with ((p02 * p10 - p00 * p12) / (p00 * p10)) by (field; auto).
        rewrite E; unfold Rdiv; ring. }
      unfold mvR; mcbn; apply V3_ext.
      * field; repeat split; auto; intros EE; first [apply N12'; lra | apply N21'; lra].
      * replace p11 with (p01 * p10 / p00) by (rewrite E11'; field; auto).
        field; repeat split; auto; intros EE; first [apply N12'; lra | apply N21'; lra].
      * field; repeat split; auto; intros EE; first [apply N12'; lra | apply N21'; lra].
    + rewrite !xdiv_fin by auto; xred.
      match goal with |- context [xdiv (Fin ?x) (Fin ?y)] => assert (N22 : y <> 0) end.
      { intros E.
        assert (E' : (p02 / p00 - p12 / p10) * (p01 / p00 - p21 / p20)
                     - (p02 / p00 - p22 / p20) * (p01 / p00 - p11 / p10) = 0).
        { set (u := p01 / p00 - p11 / p10) in *; set (v := p01 / p00 - p21 / p20) in *.
          set (x := p02 / p00 - p12 / p10) in *; set (y := p02 / p00 - p22 / p20) in *.
          replace (x * v - y * u) with (u * v * (x / u - y / v)) by (field; auto).
          rewrite E; ring. }
        apply Hd.
        transitivity (- (p00 * p10 * p20) * ((p02 / p00 - p12 / p10) * (p01 / p00 - p21 / p20)
                     - (p02 / p00 - p22 / p20) * (p01 / p00 - p11 / p10))).
        - field; auto.
        - rewrite E'; ring. }
      rewrite xdiv_fin by auto; xred.
      (* name the intermediate quantities *)
      set (u := p01 / p00 - p11 / p10) in *; set (v := p01 / p00 - p21 / p20) in *.
      set (x := p02 / p00 - p12 / p10) in *; set (y := p02 / p00 - p22 / p20) in *.
      set (y0 := b0 / p00) in *.
      set (Y1 := y0 - b1 / p10) in *; set (Y2 := y0 - b2 / p20) in *.
      set (v2 := (Y1 / u - Y2 / v) / (x / u - y / v)).
      set (v1 := Y1 / u - x / u * v2).
      exists (V3 (y0 - p01 / p00 * v1 - p02 / p00 * v2) v1 v2); split; [reflexivity|].
      unfold mvR; mcbn.
      assert (R1 : u * v1 + x * v2 = Y1) by (unfold v1; field; auto).
      assert (R2 : v * v1 + y * v2 = Y2).
      { assert (W : (x / u - y / v) * v2 = Y1 / u - Y2 / v) by (unfold v2; match goal with |- ?D * (_ / ?D) = _ => set (D0 := D) in *; field; auto end).
        replace (v * v1 + y * v2) with (v * (Y1 / u) - v * ((x / u - y / v) * v2)) by (unfold v1; field; auto).
        rewrite W; field; auto. }
      apply V3_ext.
      * unfold y0; field; auto.
      * replace (p10 * (y0 - p01 / p00 * v1 - p02 / p00 * v2) + p11 * v1 + p12 * v2)
          with (p10 * y0 - p10 * (u * v1 + x * v2)) by (unfold u, x; field; auto).
        rewrite R1; unfold Y1; field; auto.
      * replace (p20 * (y0 - p01 / p00 * v1 - p02 / p00 * v2) + p21 * v1 + p22 * v2)
          with (p20 * y0 - p20 * (v * v1 + y * v2)) by (unfold v, y; field; auto).
        rewrite R2; unfold Y2; field; auto.
  - rewrite Reqb_true by auto; cbn [negb].
    rewrite !Reqb_false by auto; cbn [negb].
    rewrite !xdiv_fin by auto; xred; cbn [read obind]; xred.
    assert (N11 : p21 / p20 - p11 / p10 <> 0).
    { intros E; apply H11.
      replace (p10 * p21) with (p11 * p20 + p10 * p20 * (p21 / p20 - p11 / p10)) by (field; auto).
      rewrite E; ring. }
    rewrite Reqb_false by auto; rewrite !xdiv_fin by auto; xred.
    assert (N02 : (p22 / p20 - p12 / p10) / (p21 / p20 - p11 / p10) - p02 / p01 <> 0).
    { intros E.
      assert (E' : (p22 / p20 - p12 / p10) * p01 - (p21 / p20 - p11 / p10) * p02 = 0).
      { set (u := p21 / p20 - p11 / p10) in *; set (x := p22 / p20 - p12 / p10) in *.
        replace (x * p01 - u * p02) with (u * p01 * (x / u - p02 / p01)) by (field; auto).
        rewrite E; ring. }
      apply Hd.
      transitivity (- (p10 * p20) * ((p22 / p20 - p12 / p10) * p01 - (p21 / p20 - p11 / p10) * p02)).
      - field; auto.
      - rewrite E'; ring. }
    rewrite xdiv_fin by auto; xred.
    set (u := p21 / p20 - p11 / p10) in *; set (x := p22 / p20 - p12 / p10) in *.
    set (y2 := b2 / p20). set (Y1 := y2 - b1 / p10).
    set (v2 := (Y1 / u - b0 / p01) / (x / u - p02 / p01)).
    set (v1 := Y1 / u - x / u * v2).
    exists (V3 (y2 - p21 / p20 * v1 - p22 / p20 * v2) v1 v2); split; [reflexivity|].
    unfold mvR; mcbn.
    assert (R1 : u * v1 + x * v2 = Y1) by (unfold v1; field; auto).
    apply V3_ext.
    + assert (W : (x / u - p02 / p01) * v2 = Y1 / u - b0 / p01) by (unfold v2; match goal with |- ?D * (_ / ?D) = _ => set (D0 := D) in *; field; auto end).
      replace (0 * (y2 - p21 / p20 * v1 - p22 / p20 * v2) + p01 * v1 + p02 * v2)
        with (p01 * (Y1 / u) - p01 * ((x / u - p02 / p01) * v2)) by (unfold v1; field; auto).
      rewrite W; field; auto.
    + replace (p10 * (y2 - p21 / p20 * v1 - p22 / p20 * v2) + p11 * v1 + p12 * v2)
        with (p10 * y2 - p10 * (u * v1 + x * v2)) by (unfold u, x; field; auto).
      rewrite R1; unfold Y1; field; auto.
    + unfold y2; field; auto.
Qed.

Lemma xadd_nan_r : forall x, xadd x NaN = NaN.
Proof. destruct x; reflexivity. Qed.
Lemma xsub_nan_r : forall x, xsub x NaN = NaN.
Proof. destruct x; reflexivity. Qed.
Lemma xmul_nan_r : forall x, xmul x NaN = NaN.
Proof. destruct x; reflexivity. Qed.
Lemma xdiv_nan_r : forall x, xdiv x NaN = NaN.
Proof. destruct x; reflexivity. Qed.
Lemma xdiv_nan_l : forall x, xdiv NaN x = NaN.
Proof. destruct x; reflexivity. Qed.

(** Outside [pivots_ok] some right-hand side is mishandled. *)
Lemma solve3_bad : forall (m : mat3 R), detR m <> 0 -> ~ pivots_ok m ->
  exists b, forall x, solve3 (F:=XR L) (finm3 m) (fin3 b) = Ok (fin3 x) -> mvR m x <> b.
Proof.
  intros [p00 p01 p02 p10 p11 p12 p20 p21 p22]; unfold detR, pivots_ok; mcbn; intros Hd Hp.
  destruct (Req_EM_T p00 0) as [->|H0].
  - destruct (Req_EM_T p20 0) as [->|H6].
    { exists (V3 0 0 0); intros x; unfold solve3, finm3, mapm3, fin3, map3; mcbn; xred.
      rewrite !Reqb_true by auto; discriminate. }
    destruct (Req_EM_T p10 0) as [->|H3].
    { exists (V3 0 0 0); intros x; unfold solve3, finm3, mapm3, fin3, map3; mcbn; xred.
      rewrite !(Reqb_true 0 0) by auto; rewrite Reqb_false by auto; discriminate. }
    destruct (Req_EM_T p01 0) as [->|H1].
    { exists (V3 0 0 0); intros x; unfold solve3, finm3, mapm3, fin3, map3; mcbn; xred.
      rewrite !(Reqb_true 0 0) by auto; rewrite !Reqb_false by auto; cbn [negb].
      rewrite xdiv_zero_zero.
      cbn [read obind].
      match goal with |- context [if ?c then (?a, ?b) else (?d, ?e)] => destruct c end;
        rewrite xsub_nan_r, xdiv_nan_l, !xmul_nan_r, !xsub_nan_r.
      all: intros E; discriminate E. }
    assert (E11 : p10 * p21 = p11 * p20).
    { destruct (Req_EM_T (p10 * p21) (p11 * p20)); auto; exfalso; apply Hp; right; auto. }
    exists (V3 p01 p11 p21); intros x; unfold solve3, finm3, mapm3, fin3, map3; mcbn; xred.
    rewrite !(Reqb_true 0 0) by auto; rewrite !Reqb_false by auto; cbn [negb].
    rewrite !xdiv_fin by auto; xred; cbn [read obind]; xred.
    assert (Z : p21 / p20 - p11 / p10 = 0).
    { replace (p21 / p20 - p11 / p10) with ((p10 * p21 - p11 * p20) / (p10 * p20)) by (field; auto).
      rewrite E11; field; auto. }
    rewrite Z, Reqb_true by auto; xred.
    replace (0 - p01 / p01) with (-1) by (field; auto).
    destruct (Req_EM_T (p22 / p20 - p12 / p10 - p02 / p01) 0) as [Zd|Nd].
    { unfold xdiv; destruct (Req_EM_T (p22 / p20 - p12 / p10 - p02 / p01) 0); [|contradiction].
      unfold xscale_inf; destruct (Rlt_dec 0 (-1)); [lra|destruct (Rlt_dec (-1) 0); [|lra]].
      intros E C; destruct x as [x0 x1 x2]; injection E as _ _ E2; discriminate E2. }
    rewrite xdiv_fin by auto; xred.
    intros E C; destruct x as [x0 x1 x2]; injection E as _ E1 E2; mcbn.
    unfold mvR in C; mcbn; injection C as C0 C1 C2.
    (* the true solution is (0,1,0), but x2 <> 0 *)
    assert (N2 : x2 <> 0).
    { rewrite <- E2; intros Q.
      set (D := p22 / p20 - p12 / p10 - p02 / p01) in *.
      assert (X : -1 = -1 / D * D) by (field; auto).
      rewrite Q in X; lra. }
    apply N2.
    assert (P2 : (0 * (p11 * p22 - p12 * p21) - p01 * (p10 * p22 - p12 * p20)
       + p02 * (p10 * p21 - p11 * p20)) * x2 = 0).
    { replace ((0 * (p11 * p22 - p12 * p21) - p01 * (p10 * p22 - p12 * p20)
       + p02 * (p10 * p21 - p11 * p20)) * x2) with
       ( (p10 * p21 - p11 * p20) * (0 * x0 + p01 * x1 + p02 * x2)
         + p01 * p20 * (p10 * x0 + p11 * x1 + p12 * x2)
         - p01 * p10 * (p20 * x0 + p21 * x1 + p22 * x2)) by ring.
      rewrite C0, C1, C2. 
      replace ((p10 * p21 - p11 * p20) * p01 + p01 * p20 * p11 - p01 * p10 * p21) with 0 by ring; reflexivity. }
    apply Rmult_integral in P2; destruct P2; [contradiction|auto].
  - destruct (Req_EM_T p10 0) as [->|H3].
    { exists (V3 0 0 0); intros x; unfold solve3, finm3, mapm3, fin3, map3; mcbn; xred.
      rewrite !(Reqb_true 0 0) by auto; rewrite (Reqb_false p00) by auto; cbn [negb].
      destruct (Reqb_spec p20 0); discriminate. }
    destruct (Req_EM_T p20 0) as [->|H6].
    { exists (V3 0 0 0); intros x; unfold solve3, finm3, mapm3, fin3, map3; mcbn; xred.
      rewrite !(Reqb_true 0 0) by auto; rewrite !Reqb_false by auto; cbn [negb].
      rewrite !xdiv_fin by auto; xred; cbn [read obind]; xred.
      destruct (Reqb_spec (p01 / p00 - p11 / p10) 0); discriminate. }
    assert (E21 : p00 * p21 = p01 * p20).
    { destruct (Req_EM_T (p00 * p21) (p01 * p20)); auto; exfalso; apply Hp; left; auto. }
    assert (Z : p01 / p00 - p21 / p20 = 0).
    { replace (p01 / p00 - p21 / p20) with ((p01 * p20 - p00 * p21) / (p00 * p20)) by (field; auto).
      rewrite E21; field; auto. }
    exists (V3 0 0 0); intros x; unfold solve3, finm3, mapm3, fin3, map3; mcbn; xred.
    rewrite !(Reqb_false p00), !(Reqb_false p10), !(Reqb_false p20) by auto; cbn [negb].
    rewrite !xdiv_fin by auto; xred; cbn [read obind]; xred.
    rewrite Z.
    assert (Q0 : 0 / p00 - 0 / p20 = 0) by (field; auto).
    assert (Q1 : 0 / p00 - 0 / p10 = 0) by (field; auto).
    destruct (Reqb_spec (p01 / p00 - p11 / p10) 0) as [E|N]; cbn [negb].
    + (* then both rows are parallel in two columns and the determinant vanishes *)
      exfalso; apply Hd.
      assert (E11' : p01 * p10 = p00 * p11).
      { replace (p01 * p10) with (p00 * p11 + p00 * p10 * (p01 / p00 - p11 / p10)) by (field; auto).
        rewrite E; ring. }
      assert (X : p00 * (p10 * p21 - p11 * p20) = 0).
      { replace (p00 * (p10 * p21 - p11 * p20)) with (p10 * (p00 * p21) - p20 * (p00 * p11)) by ring.
        rewrite E21, <- E11'; ring. }
      apply Rmult_integral in X; destruct X as [X|X]; [contradiction|].
      replace (p00 * (p11 * p22 - p12 * p21) - p01 * (p10 * p22 - p12 * p20)
               + p02 * (p10 * p21 - p11 * p20))
        with ((p00 * p11 - p01 * p10) * p22 - p12 * (p00 * p21 - p01 * p20)
              + p02 * (p10 * p21 - p11 * p20)) by ring.
      rewrite X, E21, E11'; ring.
    + rewrite Q0, Q1, xdiv_zero_zero, !xsub_nan_r, xdiv_nan_l, !xmul_nan_r, !xsub_nan_r.
      intros E; discriminate E.
Qed.

Lemma pivots_ok_dec : forall m, {pivots_ok m} + {~ pivots_ok m}.
Proof.
  intros m; unfold pivots_ok.
  destruct (Req_EM_T (m00 m) 0), (Req_EM_T (m01 m) 0), (Req_EM_T (m10 m) 0), (Req_EM_T (m20 m) 0),
    (Req_EM_T (m00 m * m21 m) (m01 m * m20 m)), (Req_EM_T (m10 m * m21 m) (m11 m * m20 m)); tauto.
Qed.

Lemma solve3_domain : forall (m : mat3 R), detR m <> 0 ->
  ((forall b, exists x, solve3 (F:=XR L) (finm3 m) (fin3 b) = Ok (fin3 x) /\ mvR m x = b)
   <-> pivots_ok m).
Proof.
  intros m Hd; split.
  - intros H; destruct (pivots_ok_dec m) as [|N]; auto; exfalso.
    destruct (solve3_bad m Hd N) as [b Hb]; destruct (H b) as [x [E1 E2]]; exact (Hb x E1 E2).
  - intros H b; apply solve3_ok; auto.
Qed.

Lemma solve3_identity : forall b, solve3 (F:=XR L) (finm3 id3R) (fin3 b) = Undef.
Proof.
  intros; unfold solve3, finm3, mapm3, fin3, map3, id3R; mcbn; xred.
  rewrite (Reqb_false 1 0) by lra; rewrite !Reqb_true by auto; reflexivity.
Qed.
End L.
