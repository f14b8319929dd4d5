(** Disks and axis-aligned rectangles (C21, C22, C27, C28, C31, C34). *)
From Coq Require Import Reals Lra ZArith List Bool Nsatz.
From Coquelicot Require Import Coquelicot.
From Verif Require Import Num XR Spec M_Vec M_Matrix M_Roots M_Hittable M_Shapes Spec_Scene Spec_Shapes
  P_Vec P_Matrix P_Angle P_Deriv P_Sphere.
Import ListNotations.
Local Open Scope R_scope.

Lemma frame_expand : forall e1 e2 n w, frame e1 e2 n ->
  w = addR (scaleR (dotR e1 w) e1) (addR (scaleR (dotR e2 w) e2) (scaleR (dotR n w) n)).
Proof.
  intros [a b c] [d e f] n [x y z] [H1 [H2 [_ [H3 <-]]]].
  apply unit_normsq in H1. apply unit_normsq in H2.
  unfold normsqR, dotR, crossR, addR, scaleR in *; cbn [vx vy vz] in *.
  assert (Q : forall a b c d e f, a * a + b * b + c * c = 1 -> d * d + e * e + f * f = 1 -> a * d + b * e + c * f = 0 ->
    a * a + d * d + (b * f - c * e) * (b * f - c * e) = 1 /\
    a * b + d * e + (b * f - c * e) * (c * d - a * f) = 0 /\
    a * c + d * f + (b * f - c * e) * (a * e - b * d) = 0).
  { clear. intros a b c d e f H1 H2 H3.
    assert (E1 : b * b + c * c = 1 - a * a) by lra. assert (E2 : e * e + f * f = 1 - d * d) by lra.
    assert (E3 : b * e + c * f = - (a * d)) by lra.
    split; [|split].
    - replace ((b * f - c * e) * (b * f - c * e)) with ((b * b + c * c) * (e * e + f * f) - (b * e + c * f) * (b * e + c * f)) by ring.
      rewrite E1, E2, E3. ring.
    - replace ((b * f - c * e) * (c * d - a * f)) with
        ((b * e + c * f) * (b * d) + a * e * (b * e + c * f) - (b * b + c * c) * d * e - a * b * (e * e + f * f)) by ring.
      rewrite E1, E2, E3. ring.
    - replace ((b * f - c * e) * (a * e - b * d)) with
        ((b * e + c * f) * (c * d) + a * f * (b * e + c * f) - (b * b + c * c) * d * f - a * c * (e * e + f * f)) by ring.
      rewrite E1, E2, E3. ring. }
  destruct (Q a b c d e f H1 H2 H3) as [X1 [X2 X3]].
  destruct (Q b c a e f d) as [Y1 [Y2 Y3]]; try lra.
  destruct (Q c a b f d e) as [Z1 [Z2 Z3]]; try lra.
  assert (K : forall p q r P Q R', P = 1 -> Q = 0 -> R' = 0 -> p = p * P + q * Q + r * R') by (intros; subst; ring).
  apply V3_ext.
  - etransitivity; [apply (K x y z _ _ _ X1 X2 X3)|ring].
  - etransitivity; [apply (K y z x _ _ _ Y1 Y2 Y3)|ring].
  - etransitivity; [apply (K z x y _ _ _ Z1 Z2 Z3)|ring].
Qed.

Lemma parseval : forall e1 e2 n w, frame e1 e2 n ->
  normsqR w = dotR e1 w * dotR e1 w + dotR e2 w * dotR e2 w + dotR n w * dotR n w.
Proof.
  intros e1 e2 n w H. unfold normsqR. rewrite (frame_expand e1 e2 n w H) at 2.
  unfold dotR, addR, scaleR; cbn [vx vy vz]. ring.
Qed.

Lemma frame_orth : forall e1 e2 n, frame e1 e2 n ->
  dotR e1 n = 0 /\ dotR e2 n = 0 /\ dotR e1 e1 = 1 /\ dotR e2 e2 = 1 /\ dotR e1 e2 = 0 /\ dotR n n = 1.
Proof.
  intros e1 e2 n [H1 [H2 [H3 [H4 H5]]]]. apply unit_normsq in H1, H2, H3. unfold normsqR in *.
  repeat split; auto; rewrite <- H5; unfold dotR, crossR; cbn [vx vy vz]; ring.
Qed.

Section L.
Context {L : limits}.

Lemma window_test : forall (lo hi : xr) t, lo <> NaN -> hi <> NaN ->
  (xltb (Fin t) lo || xltb hi (Fin t) = true /\ ~ in_window lo hi t) \/
  (xltb (Fin t) lo || xltb hi (Fin t) = false /\ in_window lo hi t).
Proof.
  intros lo hi t Hl Hh. unfold in_window.
  destruct lo as [a| | |], hi as [b| | |]; try congruence; cbn [xltb orb at_least at_most]; auto;
    try rcase; try rcase; cbn [orb]; auto; try (left; split; [reflexivity|]; lra); try (right; split; auto; fail); try (left; split; [reflexivity|]; tauto).
Qed.

Definition rows (e1 e2 n : vec3 R) : mat3 R :=
  M3 (vx e1) (vy e1) (vz e1) (vx e2) (vy e2) (vz e2) (vx n) (vy n) (vz n).
Definition cols (e1 e2 n : vec3 R) : mat3 R :=
  M3 (vx e1) (vx e2) (vx n) (vy e1) (vy e2) (vy n) (vz e1) (vz e2) (vz n).

Lemma mvR_rows : forall e1 e2 n w, mvR (rows e1 e2 n) w = V3 (dotR e1 w) (dotR e2 w) (dotR n w).
Proof. reflexivity. Qed.

Lemma make_disk_ok : forall radius c n, normR n = 1 -> l_min L < 1 ->
  exists e1 e2, frame e1 e2 n /\
    make_disk (F:=XR L) (Fin radius) (fin3 c) (fin3 n) =
      Ok (Disk (Fin radius) (fin3 c) (fin3 n) (finm3 (cols e1 e2 n)) (finm3 (rows e1 e2 n))).
Proof.
  intros radius c [nx ny nz] Hn Hm. pose proof (unit_normsq _ Hn) as Hq. unfold normsqR, dotR in Hq; cbn [vx vy vz] in Hq.
  unfold make_disk. change (vz (fin3 (V3 nx ny nz))) with (Fin nz).
  change (vx (fin3 (V3 nx ny nz))) with (Fin nx). change (vy (fin3 (V3 nx ny nz))) with (Fin ny).
  xred. destruct (Reqb_spec nz (-1)) as [E|E].
  - assert (nx = 0) by (subst; nra). assert (ny = 0) by (subst; nra). subst.
    exists (V3 (-1) 0 0), (V3 0 1 0). split; [|reflexivity].
    split; [|split; [|split; [|split]]]; auto; try (apply normR_unit); unfold normsqR, dotR, crossR; cbn [vx vy vz]; try ring.
    apply V3_ext; ring.
  - assert (P : 0 < 1 + nz) by nra.
    rewrite xdiv_fin by lra. xred. set (t := 1 / (1 + nz)).
    assert (Ht : t * (1 + nz) = 1) by (unfold t; field; lra).
    assert (Ht2 : t * (nx * nx + ny * ny) = 1 - nz).
    { replace (nx * nx + ny * ny) with ((1 + nz) * (1 - nz)) by lra. rewrite <- Rmult_assoc, Ht. ring. }
    set (e1 := V3 (nz + ny * ny * t) (- nx * ny * t) (- nx)). set (e2 := V3 (- nx * ny * t) (nz + t * nx * nx) (- ny)).
    assert (A1 : nz + ny * ny * t = 1 - nx * nx * t) by lra.
    assert (A2 : nz + t * nx * nx = 1 - ny * ny * t) by lra.
    assert (Fr : frame e1 e2 (V3 nx ny nz)).
    { unfold e1, e2. rewrite A1, A2.
      split; [|split; [|split; [|split]]]; auto; try (apply normR_unit); unfold normsqR, dotR, crossR; cbn [vx vy vz].
      - transitivity (1 + nx * nx * (t * (t * (nx * nx + ny * ny)) - 2 * t + 1)); [ring|]. rewrite Ht2.
        replace (t * (1 - nz)) with (2 * t - t * (1 + nz)) by ring. rewrite Ht. ring.
      - transitivity (1 + ny * ny * (t * (t * (nx * nx + ny * ny)) - 2 * t + 1)); [ring|]. rewrite Ht2.
        replace (t * (1 - nz)) with (2 * t - t * (1 + nz)) by ring. rewrite Ht. ring.
      - transitivity (nx * ny * (t * (t * (nx * nx + ny * ny)) - 2 * t + 1)); [ring|]. rewrite Ht2.
        replace (t * (1 - nz)) with (2 * t - t * (1 + nz)) by ring. rewrite Ht. ring.
      - apply V3_ext; try ring.
        transitivity (1 - t * (nx * nx + ny * ny)); [ring|]. rewrite Ht2. ring. }
    exists e1, e2. split; [exact Fr|].
    set (w := M3 _ _ _ _ _ _ _ _ _).
    assert (Ew : w = finm3 (cols e1 e2 (V3 nx ny nz))) by reflexivity. rewrite Ew.
    assert (D : detR (cols e1 e2 (V3 nx ny nz)) = 1).
    { pose proof (frame_orth _ _ _ Fr) as [_ [_ [_ [_ [_ O]]]]]. destruct Fr as [_ [_ [_ [_ C]]]].
      rewrite <- O. rewrite <- C at 2. unfold detR, cols, dotR, crossR; cbn [vx vy vz m00 m01 m02 m10 m11 m12 m20 m21 m22]. ring. }
    unfold inverse3_value.
    destruct (inverse3_correct L (cols e1 e2 (V3 nx ny nz)) (finm3 (cols e1 e2 (V3 nx ny nz)))) as [I _].
    destruct I as [v [Ev [Hv _]]]; [rewrite D, Rabs_R1; auto|]. rewrite Ev. cbn [omap].
    enough (G : v = rows e1 e2 (V3 nx ny nz)) by (rewrite G; reflexivity).
    assert (I : mmR (rows e1 e2 (V3 nx ny nz)) (cols e1 e2 (V3 nx ny nz)) = id3R).
    { pose proof (frame_orth _ _ _ Fr) as [O1 [O2 [O3 [O4 [O5 O6]]]]].
      transitivity (M3 (dotR e1 e1) (dotR e1 e2) (dotR e1 (V3 nx ny nz)) (dotR e1 e2) (dotR e2 e2) (dotR e2 (V3 nx ny nz))
        (dotR e1 (V3 nx ny nz)) (dotR e2 (V3 nx ny nz)) (dotR (V3 nx ny nz) (V3 nx ny nz))).
      - unfold mmR, rows, cols, dotR; cbn [vx vy vz m00 m01 m02 m10 m11 m12 m20 m21 m22]. apply M3_ext; ring.
      - rewrite O1, O2, O3, O4, O5, O6. reflexivity. }
    transitivity (mmR (mmR (rows e1 e2 (V3 nx ny nz)) (cols e1 e2 (V3 nx ny nz))) v).
    + rewrite I. destruct v as [v0 v1 v2 v3 v4 v5 v6 v7 v8]. unfold mmR, id3R; cbn [m00 m01 m02 m10 m11 m12 m20 m21 m22]. apply M3_ext; ring.
    + transitivity (mmR (rows e1 e2 (V3 nx ny nz)) (mmR (cols e1 e2 (V3 nx ny nz)) v)).
      * unfold mmR; cbn [m00 m01 m02 m10 m11 m12 m20 m21 m22]. apply M3_ext; ring.
      * rewrite Hv. unfold mmR, id3R; cbn [m00 m01 m02 m10 m11 m12 m20 m21 m22]. unfold rows. apply M3_ext; cbn; ring.
Qed.

(** C28 *)
Lemma disk_at_spec : forall radius c e1 e2 n u v,
  disk_at (F:=XR L) (Disk (Fin radius) (fin3 c) (fin3 n) (finm3 (cols e1 e2 n)) (finm3 (rows e1 e2 n))) (Fin u) (Fin v) =
  fin3 (disk_sigma c e1 e2 radius u v).
Proof.
  intros. unfold disk_at; cbn [dk_world dk_radius dk_center]. xred.
  change (V3 ?a ?b ?c) with (fin3 (V3 (radius * v * cos (2 * PI * u)) (radius * v * sin (2 * PI * u)) 0)).
  rewrite mulmv3_fin, vadd_fin. f_equal.
  unfold disk_sigma, mvR, cols, addR, scaleR; cbn [vx vy vz m00 m01 m02 m10 m11 m12 m20 m21 m22].
  apply V3_ext; ring.
Qed.

Lemma disk_first_form : forall c e1 e2 n radius u v, frame e1 e2 n ->
  first_form (disk_sigma c e1 e2 radius) u v (4 * PI * PI * radius * radius * v * v) 0 (radius * radius).
Proof.
  intros c e1 e2 n radius u v Fr. pose proof (frame_orth _ _ _ Fr) as [_ [_ [O1 [O2 [O3 _]]]]].
  exists (fun u v => addR (scaleR (radius * v * (- (2 * PI) * sin (2 * PI * u))) e1) (scaleR (radius * v * (2 * PI * cos (2 * PI * u))) e2)),
    (fun u v => addR (scaleR (radius * cos (2 * PI * u)) e1) (scaleR (radius * sin (2 * PI * u)) e2)).
  split.
  - intros u0 v0. unfold disk_sigma, addR, scaleR. solve_deriv3.
  - pose proof (sc2 (2 * PI * u)) as S.
    assert (X : forall a b c d, dotR (addR (scaleR a e1) (scaleR b e2)) (addR (scaleR c e1) (scaleR d e2)) =
      a * c * dotR e1 e1 + (a * d + b * c) * dotR e1 e2 + b * d * dotR e2 e2)
      by (intros; unfold dotR, addR, scaleR; cbn [vx vy vz]; ring).
    rewrite !X, O1, O2, O3. set (su := sin (2 * PI * u)) in *. set (cu := cos (2 * PI * u)) in *.
    repeat split.
    + transitivity (4 * PI * PI * radius * radius * v * v * (su * su + cu * cu)); [rewrite S; ring|ring].
    + ring.
    + transitivity (radius * radius * (su * su + cu * cu)); [rewrite S; ring|ring].
Qed.

(** C21 *)
Lemma disk_contract : forall (radius : R) c e1 e2 n r, 0 < radius -> frame e1 e2 n ->
  let k := Disk (Fin radius) (fin3 c) (fin3 n) (finm3 (cols e1 e2 n)) (finm3 (rows e1 e2 n)) in
  hit_contract (L:=L) r (of_disk (F:=XR L) k)
    (fun t => dotR n (r_dir r) <> 0 /\ on_disk c n radius (pointR r t))
    (describes_disk c e1 e2 n radius r) /\
  quiet (L:=L) r (of_disk (F:=XR L) k).
Proof.
  intros radius c e1 e2 n r Hr Fr k.
  assert (K : forall (lo hi : xr) (rec : hit_record xr), lo <> NaN -> hi <> NaN ->
    (disk_hit (F:=XR L) k (finray r) lo hi rec = Ok (false, rec) /\
       forall t, dotR n (r_dir r) <> 0 /\ on_disk c n radius (pointR r t) -> ~ in_window lo hi t) \/
    (exists t rec', disk_hit (F:=XR L) k (finray r) lo hi rec = Ok (true, rec') /\
       h_t rec' = Fin t /\ (dotR n (r_dir r) <> 0 /\ on_disk c n radius (pointR r t)) /\ in_window lo hi t /\
       (forall t', dotR n (r_dir r) <> 0 /\ on_disk c n radius (pointR r t') -> in_window lo hi t' -> t <= t') /\
       describes_disk c e1 e2 n radius r t rec')).
  { intros lo hi rec Hlo Hhi. unfold disk_hit, k; cbn [dk_local dk_center dk_radius dk_normal].
    change (r_orig (finray r)) with (fin3 (r_orig r)). change (r_dir (finray r)) with (fin3 (r_dir r)).
    rewrite vsub_fin, !mulmv3_fin, !mvR_rows.
    change (vx (fin3 (V3 ?a ?b ?c))) with (Fin a). change (vy (fin3 (V3 ?a ?b ?c))) with (Fin b).
    change (vz (fin3 (V3 ?a ?b ?c))) with (Fin c).
    set (o := subR (r_orig r) c). set (d := r_dir r).
    assert (U : forall t, on_disk c n radius (pointR r t) <->
      dotR n o + t * dotR n d = 0 /\
      (dotR e1 o + t * dotR e1 d) * (dotR e1 o + t * dotR e1 d) + (dotR e2 o + t * dotR e2 d) * (dotR e2 o + t * dotR e2 d) <= radius * radius).
    { intros t. unfold on_disk, distR.
      assert (Ew : subR (pointR r t) c = addR o (scaleR t d)).
      { unfold pointR, lineR, o, d, subR, addR, scaleR; cbn [vx vy vz]. apply V3_ext; ring. }
      rewrite Ew, dotR_comm.
      assert (X : forall e, dotR e (addR o (scaleR t d)) = dotR e o + t * dotR e d) by (intros; unfold dotR, addR, scaleR; cbn [vx vy vz]; ring).
      assert (N : normR (addR o (scaleR t d)) <= radius <-> normsqR (addR o (scaleR t d)) <= radius * radius).
      { pose proof (normR_nonneg (addR o (scaleR t d))). rewrite <- normR_sq. split; nra. }
      rewrite N, (parseval e1 e2 n _ Fr), !X. split; intros [A B]; split; auto; rewrite A in *; nra. }
    xred. destruct (Reqb_spec (dotR n d) 0) as [E|E].
    - left. split; auto. intros t [N _]. congruence.
    - rewrite xdiv_fin by auto. xred. set (t := - dotR n o / dotR n d).
      assert (Z : forall t', dotR n o + t' * dotR n d = 0 <-> t' = t).
      { intros t'. unfold t. split; [intros H|intros ->]; [|field; auto].
        apply Rmult_eq_reg_r with (dotR n d); auto. field_simplify; auto. lra. }
      destruct (window_test lo hi t Hlo Hhi) as [[Ew W]|[Ew W]]; xred; rewrite Ew.
      + left. split; auto. intros t' [_ On]. apply U in On. destruct On as [On _]. apply Z in On. congruence.
      + destruct (Rltb_spec (radius * radius) ((dotR e1 o + t * dotR e1 d) * (dotR e1 o + t * dotR e1 d) + (dotR e2 o + t * dotR e2 d) * (dotR e2 o + t * dotR e2 d))) as [B|B].
        * left. split; auto. intros t' [_ On]. apply U in On. destruct On as [On B']. apply Z in On. subst t'. lra.
        * right. set (x := dotR e1 o + t * dotR e1 d) in *. set (y := dotR e2 o + t * dotR e2 d) in *.
          assert (Q : 0 <= x * x + y * y) by nra.
          rewrite xsqrt_fin by auto. rewrite xdiv_fin by lra.
          change (ray_at (F:=XR L) (finray r) (h_t (set_t (Fin t) rec))) with (fin3 (pointR r t)).
          set (v := sqrt (x * x + y * y) / radius).
          cbn [h_v set_v].
          assert (V : 0 <= v <= 1).
          { unfold v. pose proof (sqrt_pos (x * x + y * y)). split; [apply Rmult_le_pos; [auto|left; apply Rinv_0_lt_compat; auto]|].
            apply Rmult_le_reg_r with radius; auto. replace (sqrt (x * x + y * y) / radius * radius) with (sqrt (x * x + y * y)) by (field; lra).
            rewrite Rmult_1_l, <- (sqrt_square radius) by lra. apply sqrt_le_1_alt; auto. }
          assert (Rv : radius * v = sqrt (x * x + y * y)) by (unfold v; field; lra).
          assert (On : on_disk c n radius (pointR r t)) by (apply U; split; [apply Z; auto|auto]).
          assert (Uu : exists u, (if xeqb (Fin v) (Fin 0) then Fin 0 else azimuth (F:=XR L) (Fin y) (Fin x)) = Fin u /\ 0 <= u <= 1 /\
             radius * v * cos (2 * PI * u) = x /\ radius * v * sin (2 * PI * u) = y).
          { rewrite Rv. cbn [xeqb]. destruct (Reqb_spec v 0) as [E0|E0].
            - exists 0. split; auto. rewrite <- Rv, E0. split; [lra|].
              assert (sqrt (x * x + y * y) = 0) by (rewrite <- Rv, E0; ring).
              apply sqrt_eq_0 in H; auto. split; nra.
            - destruct (azimuth_spec (L:=L) y x) as [u [Eu [Hu [Cu Su]]]]. exists u. split; auto. split; [lra|auto]. }
          destruct Uu as [u [Eu [Hu [Cu Su]]]].
          set (us := if xeqb _ _ then _ else _). change us with (if xeqb (Fin v) (Fin 0) then Fin 0 else azimuth (F:=XR L) (Fin y) (Fin x)).
          rewrite Eu.
          assert (Es : disk_sigma c e1 e2 radius u v = pointR r t).
          { unfold disk_sigma. rewrite Cu, Su.
            assert (Ew' : pointR r t = addR c (addR o (scaleR t d))).
            { unfold pointR, lineR, o, d, subR, addR, scaleR; cbn [vx vy vz]. apply V3_ext; ring. }
            rewrite Ew'. rewrite (frame_expand e1 e2 n (addR o (scaleR t d)) Fr).
            assert (X : forall e, dotR e (addR o (scaleR t d)) = dotR e o + t * dotR e d) by (intros; unfold dotR, addR, scaleR; cbn [vx vy vz]; ring).
            rewrite !X. fold x y. rewrite (proj2 (Z t) eq_refl).
            unfold addR, scaleR; cbn [vx vy vz]. apply V3_ext; ring. }
          exists t. eexists. split; [reflexivity|]. split; [reflexivity|]. split; [split; auto|]. split; [auto|].
          split; [intros t' [_ On']; apply U in On'; destruct On' as [On' _]; apply Z in On'; intros; lra|].
          unfold describes_disk. split; [split; reflexivity|].
          split; [|split].
          -- assert (Nn : normR n = 1) by apply Fr.
             assert (N1 : scaleR 1 n = n) by (destruct n; unfold scaleR; cbn; apply V3_ext; ring).
             set (recn := set_u _ _).
             destruct (face_normal_spec (L:=L) r n 1 recn) as [_ FN]; [lra|rewrite N1; auto|].
             rewrite N1 in FN. apply FN; reflexivity.
          -- exists u, v. cbn. repeat split; auto; try tauto. rewrite Es. reflexivity.
          -- exists u, v. do 3 eexists. cbn. repeat (split; [reflexivity|]).
             eapply disk_first_form; eauto. }
  split.
  - intros lo hi rec Hlo Hhi. destruct (K lo hi rec Hlo Hhi) as [[E N]|[t [rec' [E [Et [On [W [F D]]]]]]]].
    + exists false, rec. split; auto.
    + exists true, rec'. split; auto. exists t. auto 6.
  - intros lo hi rec rec' E. cbn [hit of_disk] in E.
    unfold disk_hit in E. change (@num (XR L)) with xr in *.
    repeat match type of E with context [if ?c then _ else _] => destruct c end; congruence.
Qed.

(** C31, C32: the second fundamental form reported for a disk is NaN. *)
Lemma disk_second_form_nan : forall (k : disk xr) (r : ray xr) lo hi rec rec',
  disk_hit (F:=XR L) k r lo hi rec = Ok (true, rec') -> h_e rec' = NaN /\ h_f rec' = NaN.
Proof.
  intros k r lo hi rec rec' E. unfold disk_hit in E. change (@num (XR L)) with xr in *.
  repeat match type of E with context [if ?c then Ok (false, _) else _] => destruct c; [discriminate|] end.
  injection E as <-. split; reflexivity.
Qed.

(** C34: the box of a disk away from the z axis misses it. *)
Lemma disk_box_wrong : forall (radius : R), 0 < radius -> exists c n p k B,
  normR n = 1 /\ make_disk (F:=XR L) (Fin radius) (fin3 c) (fin3 n) = Ok k /\
  on_disk c n radius p /\ disk_box (F:=XR L) k = Some (finbox B) /\ ~ in_box B p.
Proof.
  intros radius Hr. exists (V3 (2 * radius) 0 0), (V3 0 0 (-1)), (V3 (2 * radius) 0 0). do 2 eexists.
  split; [apply normR_unit; unfold normsqR, dotR; cbn; ring|].
  split.
  { unfold make_disk, fin3, map3; cbn [vx vy vz]. xred. rewrite Reqb_true by reflexivity. reflexivity. }
  split.
  { unfold on_disk, distR, normR, normsqR, dotR, subR; cbn [vx vy vz]. split; [ring|].
    replace (_ + _) with 0 by ring. rewrite sqrt_0. lra. }
  split.
  { unfold disk_box; cbn [dk_radius dk_center]. instantiate (1 := Box (V3 (- radius) (- radius) 0) (V3 radius radius 0)). reflexivity. }
  unfold in_box; cbn [b_min b_max vx vy vz]. lra.
Qed.

(** *** Rectangles *)
Section Rect.
Variable q : rect R.
Hypothesis Ha : q_a0 q < q_a1 q.
Hypothesis Hb : q_b0 q < q_b1 q.

Lemma rect_hit_spec : forall (n : vec3 R) o1 o2 o3 d1 d2 d3 (r : ray R) (lo hi : xr) (rec : hit_record xr),
  normR n = 1 -> lo <> NaN -> hi <> NaN -> ~ (d3 = 0 /\ o3 = q_k q) -> ~ (d1 = 0 /\ d2 = 0 /\ d3 = 0) ->
  let on t := o3 + t * d3 = q_k q /\ q_a0 q <= o1 + t * d1 <= q_a1 q /\ q_b0 q <= o2 + t * d2 <= q_b1 q in
  let run := rect_hit (F:=XR L) (fin3 n) (finrect q) (Fin o1) (Fin o2) (Fin o3) (Fin d1) (Fin d2) (Fin d3) (finray r) lo hi rec in
  (run = Ok (false, rec) /\ forall t, on t -> ~ in_window lo hi t) \/
  (exists t rec' u v, run = Ok (true, rec') /\ on t /\ in_window lo hi t /\ (forall t', on t' -> t' = t) /\
     at_point r t rec' /\ facing_normal r n rec' /\ h_u rec' = Fin u /\ h_v rec' = Fin v /\
     0 <= u <= 1 /\ 0 <= v <= 1 /\ q_a0 q + u * (q_a1 q - q_a0 q) = o1 + t * d1 /\
     q_b0 q + v * (q_b1 q - q_b0 q) = o2 + t * d2).
Proof.
  intros n o1 o2 o3 d1 d2 d3 r lo hi rec Hn Hlo Hhi Hp Hd on run.
  unfold run, rect_hit, finrect; cbn [q_a0 q_a1 q_b0 q_b1 q_k]. xred.
  destruct (Req_dec d3 0) as [E|E].
  - (* parallel to the rectangle and outside its plane *)
    left. split; [|intros t [H _]; exfalso; apply Hp; split; auto; rewrite E in H; lra].
    assert (Sc : forall x, x <> 0 -> xscale_inf x true <> NaN /\ xscale_inf x false <> NaN /\
       (forall y, xscale_inf x true <> Fin y) /\ (forall y, xscale_inf x false <> Fin y)).
    { intros x Hx. unfold xscale_inf. destruct (Rlt_dec 0 x), (Rlt_dec x 0); repeat split; try discriminate; lra. }
    assert (T : exists s, xdiv (Fin (q_k q - o3)) (Fin d3) = (if s : bool then PInf else MInf)).
    { unfold xdiv. destruct (Req_EM_T d3 0); [|contradiction]. unfold xscale_inf.
      destruct (Rlt_dec 0 (q_k q - o3)); [exists true; auto|]. destruct (Rlt_dec (q_k q - o3) 0); [exists false; auto|].
      exfalso. apply Hp. split; auto; lra. }
    destruct T as [s ->].
    assert (X : forall o d x0 x1 (s : bool), d <> 0 ->
      xltb (xadd (Fin o) (xmul (if s then PInf else MInf) (Fin d))) (Fin x0) ||
      xltb (Fin x1) (xadd (Fin o) (xmul (if s then PInf else MInf) (Fin d))) = true).
    { intros o d x0 x1 s0 Hd0. destruct s0; cbn [xmul]; unfold xscale_inf;
        destruct (Rlt_dec 0 d); try (destruct (Rlt_dec d 0); [|lra]); reflexivity. }
    match goal with |- context [if ?c then _ else _] => destruct c; [reflexivity|] end.
    destruct (Req_dec d1 0) as [E1|E1].
    + assert (E2 : d2 <> 0) by (intros E2; apply Hd; auto).
      specialize (X o2 d2 (q_b0 q) (q_b1 q) s E2).
      rewrite <- orb_assoc. rewrite X. rewrite orb_true_r. reflexivity.
    + specialize (X o1 d1 (q_a0 q) (q_a1 q) s E1). rewrite X. reflexivity.
  - rewrite xdiv_fin by auto. set (t := (q_k q - o3) / d3).
    assert (Z : forall t', o3 + t' * d3 = q_k q <-> t' = t).
    { intros t'. unfold t. split; [intros H|intros ->]; [|field; auto].
      apply Rmult_eq_reg_r with d3; auto. field_simplify; auto. lra. }
    destruct (window_test lo hi t Hlo Hhi) as [[Ew W]|[Ew W]]; rewrite Ew.
    + left. split; auto. intros t' [On _]. apply Z in On. congruence.
    + xred.
      destruct (Rltb_spec (o1 + t * d1) (q_a0 q)) as [B1|B1]; cbn [orb];
        [left; split; auto; intros t' [On On']; apply Z in On; subst t'; lra|].
      destruct (Rltb_spec (q_a1 q) (o1 + t * d1)) as [B2|B2]; cbn [orb];
        [left; split; auto; intros t' [On On']; apply Z in On; subst t'; lra|].
      destruct (Rltb_spec (o2 + t * d2) (q_b0 q)) as [B3|B3]; cbn [orb];
        [left; split; auto; intros t' [On On']; apply Z in On; subst t'; lra|].
      destruct (Rltb_spec (q_b1 q) (o2 + t * d2)) as [B4|B4]; cbn [orb];
        [left; split; auto; intros t' [On On']; apply Z in On; subst t'; lra|].
      right. rewrite !xdiv_fin by lra.
      assert (Unit : forall a0 a1 a, a0 < a1 -> a0 <= a <= a1 -> 0 <= (a - a0) / (a1 - a0) <= 1 /\
        a0 + (a - a0) / (a1 - a0) * (a1 - a0) = a).
      { intros a0 a1 a H1 H2. split; [|field; lra]. split; [apply Rmult_le_pos; [lra|left; apply Rinv_0_lt_compat; lra]|].
        apply Rmult_le_reg_r with (a1 - a0); [lra|]. replace ((a - a0) / (a1 - a0) * (a1 - a0)) with (a - a0) by (field; lra). lra. }
      destruct (Unit _ _ (o1 + t * d1) Ha) as [U1 U2]; [lra|]. destruct (Unit _ _ (o2 + t * d2) Hb) as [V1 V2]; [lra|].
      exists t. eexists. exists ((o1 + t * d1 - q_a0 q) / (q_a1 q - q_a0 q)), ((o2 + t * d2 - q_b0 q) / (q_b1 q - q_b0 q)).
      split; [reflexivity|]. split; [split; [apply Z; auto|lra]|]. split; [exact W|].
      split; [intros t' [On _]; apply Z; auto|].
      split; [split; reflexivity|].
      split; [|repeat split; auto; tauto].
      assert (N1 : scaleR 1 n = n) by (destruct n; unfold scaleR; cbn; apply V3_ext; ring).
      match goal with |- context [set_face_normal _ _ ?rr] => destruct (face_normal_spec (L:=L) r n 1 rr) as [_ FN] end;
        [lra|rewrite N1; auto|].
      rewrite N1 in FN. apply FN; reflexivity.
Qed.

Lemma rect_quiet : forall n o1 o2 o3 d1 d2 d3 (r : ray xr) (lo hi : xr) (rec rec' : hit_record xr),
  rect_hit (F:=XR L) n (finrect q) o1 o2 o3 d1 d2 d3 r lo hi rec = Ok (false, rec') -> rec' = rec.
Proof.
  intros n o1 o2 o3 d1 d2 d3 r lo hi rec rec' E. unfold rect_hit in E. change (@num (XR L)) with xr in *.
  repeat match type of E with context [if ?c then _ else _] => destruct c end; congruence.
Qed.

Lemma unit_axis : normR (V3 0 0 1) = 1 /\ normR (V3 0 1 0) = 1 /\ normR (V3 1 0 0) = 1.
Proof. repeat split; apply normR_unit; unfold normsqR, dotR; cbn; ring. Qed.

Lemma rect_contract_gen : forall (n : vec3 R) sigma (on : vec3 R -> Prop) (o : hittable (F:=XR L)) r c1 c2 c3 f,
  normR n = 1 -> r_dir r <> zeroR ->
  (forall v, f (c1 v) (c2 v) (c3 v) = v) -> (forall a b c, c1 (f a b c) = a /\ c2 (f a b c) = b /\ c3 (f a b c) = c) ->
  (forall t, c1 (pointR r t) = c1 (r_orig r) + t * c1 (r_dir r)) ->
  (forall t, c2 (pointR r t) = c2 (r_orig r) + t * c2 (r_dir r)) ->
  (forall t, c3 (pointR r t) = c3 (r_orig r) + t * c3 (r_dir r)) ->
  f 0 0 0 = zeroR ->
  (forall p, on p <-> c3 p = q_k q /\ q_a0 q <= c1 p <= q_a1 q /\ q_b0 q <= c2 p <= q_b1 q) ->
  (forall u v, sigma u v = f (q_a0 q + u * (q_a1 q - q_a0 q)) (q_b0 q + v * (q_b1 q - q_b0 q)) (q_k q)) ->
  ~ (c3 (r_dir r) = 0 /\ c3 (r_orig r) = q_k q) ->
  (forall (lo hi : xr) (rec : hit_record xr), hit o (finray r) lo hi rec =
    rect_hit (F:=XR L) (fin3 n) (finrect q) (Fin (c1 (r_orig r))) (Fin (c2 (r_orig r))) (Fin (c3 (r_orig r)))
      (Fin (c1 (r_dir r))) (Fin (c2 (r_dir r))) (Fin (c3 (r_dir r))) (finray r) lo hi rec) ->
  hit_contract (L:=L) r o (fun t => on (pointR r t)) (describes_rect n sigma r) /\ quiet (L:=L) r o.
Proof.
  intros n sigma on o r c1 c2 c3 f Hn Hd Ef Ec P1 P2 P3 Z0 On Es Hp Eo. split.
  - intros lo hi rec Hlo Hhi. unfold hit_exact. rewrite Eo.
    assert (Hd' : ~ (c1 (r_dir r) = 0 /\ c2 (r_dir r) = 0 /\ c3 (r_dir r) = 0)).
    { intros [E1 [E2 E3]]. apply Hd. rewrite <- (Ef (r_dir r)), E1, E2, E3. exact Z0. }
    destruct (rect_hit_spec n (c1 (r_orig r)) (c2 (r_orig r)) (c3 (r_orig r)) (c1 (r_dir r)) (c2 (r_dir r)) (c3 (r_dir r))
      r lo hi rec Hn Hlo Hhi Hp Hd') as [[E N]|[t [rec' [u [v [E [O [W [U [A [FN [Eu [Ev [Hu [Hv [Xu Xv]]]]]]]]]]]]]]]].
    + exists false, rec. split; auto. intros t Ht. apply N. apply On in Ht. rewrite P1, P2, P3 in Ht. auto.
    + exists true, rec'. split; auto. exists t. split; [apply A|].
      split; [apply On; rewrite P1, P2, P3; auto|]. split; [auto|].
      split; [intros t' Ht' _; right; symmetry; apply U; apply On in Ht'; rewrite P1, P2, P3 in Ht'; auto|].
      split; [auto|]. split; [auto|]. exists u, v. repeat (split; [assumption|]).
      rewrite (proj2 A). f_equal. rewrite Es, Xu, Xv, <- (proj1 O), <- P1, <- P2, <- P3. symmetry. apply Ef.
  - intros lo hi rec rec' E. rewrite Eo in E. exact (rect_quiet _ _ _ _ _ _ _ _ _ _ _ _ E).
Qed.

(** C22, rays not lying in the plane of the rectangle *)
Lemma xy_contract : forall r, r_dir r <> zeroR -> ~ (vz (r_dir r) = 0 /\ vz (r_orig r) = q_k q) ->
  hit_contract (L:=L) r (of_xy (F:=XR L) (finrect q)) (fun t => on_xy q (pointR r t)) (describes_rect (V3 0 0 1) (xy_sigma q) r) /\
  quiet (L:=L) r (of_xy (F:=XR L) (finrect q)).
Proof.
  intros r Hd Hp. apply rect_contract_gen with (c1 := vx) (c2 := vy) (c3 := vz) (f := fun a b c => V3 a b c); auto; try apply unit_axis;
    try reflexivity; try tauto; try (intros [? ? ?]; reflexivity).
Qed.
Lemma xz_contract : forall r, r_dir r <> zeroR -> ~ (vy (r_dir r) = 0 /\ vy (r_orig r) = q_k q) ->
  hit_contract (L:=L) r (of_xz (F:=XR L) (finrect q)) (fun t => on_xz q (pointR r t)) (describes_rect (V3 0 1 0) (xz_sigma q) r) /\
  quiet (L:=L) r (of_xz (F:=XR L) (finrect q)).
Proof.
  intros r Hd Hp. apply rect_contract_gen with (c1 := vx) (c2 := vz) (c3 := vy) (f := fun a b c => V3 a c b); auto; try apply unit_axis;
    try reflexivity; try tauto; try (intros [? ? ?]; reflexivity).
Qed.
Lemma yz_contract : forall r, r_dir r <> zeroR -> ~ (vx (r_dir r) = 0 /\ vx (r_orig r) = q_k q) ->
  hit_contract (L:=L) r (of_yz (F:=XR L) (finrect q)) (fun t => on_yz q (pointR r t)) (describes_rect (V3 1 0 0) (yz_sigma q) r) /\
  quiet (L:=L) r (of_yz (F:=XR L) (finrect q)).
Proof.
  intros r Hd Hp. apply rect_contract_gen with (c1 := vy) (c2 := vz) (c3 := vx) (f := fun a b c => V3 c a b); auto; try apply unit_axis;
    try reflexivity; try tauto; try (intros [? ? ?]; reflexivity).
Qed.

(** C34 *)
Lemma rect_boxed :
  (exists B, xy_box (F:=XR L) (finrect q) = Some (finbox B) /\ forall p, on_xy q p -> in_box B p) /\
  (exists B, xz_box (F:=XR L) (finrect q) = Some (finbox B) /\ forall p, on_xz q p -> in_box B p) /\
  (exists B, yz_box (F:=XR L) (finrect q) = Some (finbox B) /\ forall p, on_yz q p -> in_box B p).
Proof.
  assert (P : exists e, rect_pad (F:=XR L) = Fin e /\ 0 <= e).
  { exists (sqrt (l_eps L) / 100). unfold rect_pad. xred. pose proof (l_eps_pos L). pose proof (sqrt_pos (l_eps L)).
    rewrite xsqrt_fin, xdiv_fin by lra. split; [reflexivity|lra]. }
  destruct P as [e [E He]]. unfold xy_box, xz_box, yz_box. rewrite E. unfold finrect; cbn [q_a0 q_a1 q_b0 q_b1 q_k].
  split; [|split].
  - exists (Box (V3 (q_a0 q) (q_b0 q) (q_k q - e)) (V3 (q_a1 q) (q_b1 q) (q_k q + e))). split; [reflexivity|].
    intros p H. unfold on_xy, in_box in *; cbn [b_min b_max vx vy vz]. lra.
  - exists (Box (V3 (q_a0 q) (q_k q - e) (q_b0 q)) (V3 (q_a1 q) (q_k q + e) (q_b1 q))). split; [reflexivity|].
    intros p H. unfold on_xz, in_box in *; cbn [b_min b_max vx vy vz]. lra.
  - exists (Box (V3 (q_k q - e) (q_a0 q) (q_b0 q)) (V3 (q_k q + e) (q_a1 q) (q_b1 q))). split; [reflexivity|].
    intros p H. unfold on_yz, in_box in *; cbn [b_min b_max vx vy vz]. lra.
Qed.
End Rect.

(** C22: a ray inside the plane of the rectangle is reported as a hit at t = NaN,
    wherever the rectangle is. *)
Lemma rect_nan : forall (q : rect R) (r : ray R) (lo hi : xr) (rec : hit_record xr),
  vz (r_dir r) = 0 -> vz (r_orig r) = q_k q ->
  exists rec', xy_hit (F:=XR L) (finrect q) (finray r) lo hi rec = Ok (true, rec') /\ h_t rec' = NaN.
Proof.
  intros q r lo hi rec Hd Ho. unfold xy_hit, rect_hit, finrect; cbn [q_a0 q_a1 q_b0 q_b1 q_k].
  change (vz (r_orig (finray r))) with (Fin (vz (r_orig r))). change (vz (r_dir (finray r))) with (Fin (vz (r_dir r))).
  rewrite Hd, Ho. xred. replace (q_k q - q_k q) with 0 by ring. rewrite xdiv_zero_zero.
  change (vx (r_orig (finray r))) with (Fin (vx (r_orig r))). change (vy (r_orig (finray r))) with (Fin (vy (r_orig r))).
  assert (E : xltb hi NaN = false) by (destruct hi; reflexivity).
  xred. rewrite E. cbn [orb]. eexists; split; [reflexivity|]. reflexivity.
Qed.
End L.
