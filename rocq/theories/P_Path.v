(** ray_color, isotropic scattering and the checker texture in exact arithmetic. *)
From Coq Require Import Reals ZArith Lra Lia List Bool.
From Verif Require Import Num XR Spec Spec_Scene Spec_Light M_Vec M_Rng M_Hittable M_Materials P_Vec P_Medium.
Import ListNotations.
Local Open Scope R_scope.

Section Beer.
Context {L : limits}.
Notation gap := (100 * l_eps L).

(* the fraction of draws that pass through is exp(-density * length) *)
Lemma medium_beer : forall (r : ray R) (o : hittable (F:=XR L)) meets describes d u rec1 rec2 lo hi rec t1 t2,
  hit_contract r o meets describes -> r_dir r <> zeroR -> 0 < d -> 0 < u < 1 -> lo <> NaN -> lo <> PInf -> hi <> NaN -> hi <> MInf ->
  first_meeting meets t1 -> next_meeting meets gap t1 t2 ->
  exists b rec', medium_hit (F:=XR L) (hit o) (neg_inv_density (F:=XR L) (Fin d)) (Fin u) rec1 rec2 (finray r) lo hi rec = Ok (b, rec') /\
    (b = true <-> exp (- (d * ((endR hi t2 - startR lo t1) * normR (r_dir r)))) <= u).
Proof.
  intros r o meets describes d u rec1 rec2 lo hi rec t1 t2 HC D Hd Hu Hlo Hlo' Hhi Hhi' F N.
  destruct (medium_correct r o meets describes d u rec1 rec2 lo hi rec HC D Hd Hu Hlo Hhi) as (b & rec' & E & C).
  exists b, rec'. split; [exact E|]. pose proof (normR_pos _ D) as P. set (len := normR (r_dir r)) in *.
  set (s := startR lo t1) in *. set (e := endR hi t2) in *.
  assert (He : forall t, t <= e <-> at_most hi t /\ t <= t2).
  { intros t. unfold e, endR. destruct hi as [h| | |]; try congruence; cbn [at_most]; [|tauto].
    split; [intros H; pose proof (Rmin_l h t2); pose proof (Rmin_r h t2); lra|intros [A B]; apply Rmin_glb; lra]. }
  assert (Hs : forall t, s <= t -> at_least lo t).
  { intros t H. unfold s, startR in H. destruct lo as [a| | |]; try congruence; cbn [at_least]; auto.
    pose proof (Rmax_r 0 (Rmax a t1)). pose proof (Rmax_l a t1). lra. }
  assert (Q : exp (- (d * ((e - s) * len))) <= u <-> - ln u / d <= (e - s) * len).
  { rewrite <- (exp_ln u) at 1 by lra. split.
    - intros [H|H]; [apply exp_lt_inv in H|apply exp_inv in H];
        apply Rmult_le_reg_r with d; try exact Hd; unfold Rdiv; rewrite Rmult_assoc, Rinv_l by lra; lra.
    - intros H. apply (Rmult_le_compat_r d) in H; [|lra]. unfold Rdiv in H. rewrite Rmult_assoc, Rinv_l in H by lra.
      destruct (Rle_lt_or_eq_dec (- (d * ((e - s) * len))) (ln u)) as [X|X]; [lra|left; apply exp_increasing; exact X|right; rewrite X; reflexivity]. }
  rewrite Q. assert (Hln : ln u < 0) by (rewrite <- ln_1; apply ln_increasing; lra).
  assert (HP : 0 < - ln u / d) by (apply Rmult_lt_0_compat; [lra|apply Rinv_0_lt_compat; exact Hd]).
  assert (HPl : 0 < (- ln u / d) / len) by (apply Rmult_lt_0_compat; [exact HP|apply Rinv_0_lt_compat; exact P]).
  destruct b; split; auto; try discriminate.
  - intros _. destruct C as (s1 & s2 & t & A1 & A2 & A3 & A4 & A5 & [A6 A7] & _).
    assert (s1 = t1) by (apply Rle_antisym; [apply A1; apply F|apply F; apply A1]). subst s1.
    assert (s2 = t2) by (apply Rle_antisym; [apply A2; apply N|apply N; apply A2]). subst s2.
    fold s in A3, A4. assert (t <= e) by (apply He; auto). rewrite <- A3. apply Rmult_le_compat_r; lra.
  - intros H. exfalso. destruct C as [_ C].
    assert (Te : s + (- ln u / d) / len <= e).
    { apply Rmult_le_reg_r with len; [exact P|]. replace ((s + (- ln u / d) / len) * len) with (s * len + - ln u / d) by (field; lra). lra. }
    apply (C t1 t2 (s + (- ln u / d) / len) F N).
    + fold s. field. split; lra.
    + apply He in Te. split; [split|]; try apply Te. apply Hs. lra.
Qed.
End Beer.

Section Paths.
Context {L : limits}.
Context {M W : Type}.
Notation WH := (W -> ray xr -> xr -> xr -> outcome (option M * hit_record xr * W)).
Notation SC := (M -> W -> ray xr -> hit_record xr -> outcome (option (vec3 xr * ray xr) * W)).
Notation EM := (M -> hit_record xr -> vec3 xr).

Lemma hadamard_fin : forall c a, V3 (nmul (NumOps:=XR L) (vx (fin3 c)) (vx (fin3 a))) (nmul (NumOps:=XR L) (vy (fin3 c)) (vy (fin3 a))) (nmul (NumOps:=XR L) (vz (fin3 c)) (vz (fin3 a))) = fin3 (hadamardR c a).
Proof. reflexivity. Qed.

Lemma colour_bounded : forall (wh : WH) (sc : SC) (em : EM) B (bg : vec3 R),
  (forall m rec, exists e, em m rec = fin3 e /\ within_cube B e) ->
  (forall m w r rec att out w', sc m w r rec = Ok (Some (att, out), w') -> exists a, att = fin3 a /\ within_cube 1 a) ->
  within_cube B bg ->
  forall depth w r c w', ray_color (F:=XR L) wh sc em depth w r (fin3 bg) = Ok (c, w') ->
  exists c', c = fin3 c' /\ within_cube (INR depth * B) c'.
Proof.
  intros wh sc em B bg HE HA HB. assert (B0 : 0 <= B) by (destruct HB as ((A & C) & _); lra).
  induction depth as [|depth IH]; intros w r c w' H; cbn [ray_color] in H.
  - injection H as <- <-. exists zeroR. split; [reflexivity|]. unfold within_cube, zeroR; cbn. lra.
  - assert (MB : B <= INR (S depth) * B). { rewrite S_INR. pose proof (pos_INR depth). nra. }
    destruct (wh w r _ _) as [[[mat rec] w1]| |]; cbn [obind] in H; try discriminate.
    destruct mat as [m|].
    + destruct (sc m w1 r rec) as [[s w2]| |] eqn:ES; cbn [obind] in H; try discriminate.
      destruct (HE m rec) as (e & Ee & Be). change (@num (XR L)) with xr in *.
      destruct s as [[att out]|].
      * destruct (ray_color (F:=XR L) wh sc em depth w2 out (fin3 bg)) as [[c1 w3]| |] eqn:EC; cbn [obind] in H; try discriminate.
        destruct (IH _ _ _ _ EC) as (c' & -> & Bc). destruct (HA _ _ _ _ _ _ _ ES) as (a & -> & Ba).
        rewrite Ee in H. rewrite hadamard_fin, vadd_fin in H. injection H as <- <-.
        eexists. split; [reflexivity|]. rewrite S_INR. unfold within_cube, addR, hadamardR in *; cbn [vx vy vz] in *.
        set (N := INR depth * B) in *. replace ((INR depth + 1) * B) with (N + B) by (unfold N; ring).
        destruct Be as (E1 & E2 & E3), Bc as (C1 & C2 & C3), Ba as (A1 & A2 & A3).
        repeat split; nra.
      * injection H as <- <-. exists e. split; [exact Ee|]. unfold within_cube in *. lra.
    + injection H as <- <-. exists bg. split; [reflexivity|]. unfold within_cube in *. lra.
Qed.

Lemma colour_bounded_dark : forall (wh : WH) (sc : SC) (em : EM) B (bg : vec3 R),
  (forall m rec, exists e, em m rec = fin3 e /\ within_cube B e) ->
  (forall m w r rec att out w', sc m w r rec = Ok (Some (att, out), w') ->
     em m rec = fin3 zeroR /\ exists a, att = fin3 a /\ within_cube 1 a) ->
  within_cube B bg ->
  forall depth w r c w', ray_color (F:=XR L) wh sc em depth w r (fin3 bg) = Ok (c, w') ->
  exists c', c = fin3 c' /\ within_cube B c'.
Proof.
  intros wh sc em B bg HE HA HB. assert (B0 : 0 <= B) by (destruct HB as ((A & C) & _); lra).
  induction depth as [|depth IH]; intros w r c w' H; cbn [ray_color] in H.
  - injection H as <- <-. exists zeroR. split; [reflexivity|]. unfold within_cube, zeroR; cbn. lra.
  - destruct (wh w r _ _) as [[[mat rec] w1]| |]; cbn [obind] in H; try discriminate.
    destruct mat as [m|].
    + destruct (sc m w1 r rec) as [[s w2]| |] eqn:ES; cbn [obind] in H; try discriminate.
      change (@num (XR L)) with xr in *. destruct s as [[att out]|].
      * destruct (ray_color (F:=XR L) wh sc em depth w2 out (fin3 bg)) as [[c1 w3]| |] eqn:EC; cbn [obind] in H; try discriminate.
        destruct (IH _ _ _ _ EC) as (c' & -> & Bc). destruct (HA _ _ _ _ _ _ _ ES) as (Ee & a & -> & Ba).
        rewrite Ee in H. rewrite hadamard_fin, vadd_fin in H. injection H as <- <-.
        eexists. split; [reflexivity|]. unfold within_cube, addR, hadamardR, zeroR in *; cbn [vx vy vz] in *.
        destruct Bc as (C1 & C2 & C3), Ba as (A1 & A2 & A3). repeat split; nra.
      * injection H as <- <-. apply HE.
    + injection H as <- <-. exists bg. split; [reflexivity|exact HB].
Qed.

(* between one and [depth] intersection tests, counted by any counter kept in the state *)
Lemma colour_calls : forall (wh : WH) (sc : SC) (em : EM) (count : W -> nat),
  (forall w r lo hi h w', wh w r lo hi = Ok (h, w') -> count w' = S (count w)) ->
  (forall m w r rec s w', sc m w r rec = Ok (s, w') -> count w' = count w) ->
  forall depth w r bg c w', ray_color (F:=XR L) wh sc em depth w r bg = Ok (c, w') ->
  (count w <= count w' <= count w + depth)%nat /\ (depth <> O -> count w < count w')%nat.
Proof.
  intros wh sc em count HW HS. induction depth as [|depth IH]; intros w r bg c w' H; cbn [ray_color] in H.
  - injection H as <- <-. split; [lia|congruence].
  - destruct (wh w r _ _) as [[[mat rec] w1]| |] eqn:EW; cbn [obind] in H; try discriminate.
    apply HW in EW. destruct mat as [m|]; [|injection H as <- <-; lia].
    destruct (sc m w1 r rec) as [[s w2]| |] eqn:ES; cbn [obind] in H; try discriminate. apply HS in ES.
    destruct s as [[att out]|]; [|injection H as <- <-; lia].
    destruct (ray_color (F:=XR L) wh sc em depth w2 out bg) as [[c1 w3]| |] eqn:EC; cbn [obind] in H; try discriminate.
    injection H as <- <-. apply IH in EC. lia.
Qed.

Lemma colour_total : forall (wh : WH) (sc : SC) (em : EM),
  (forall w r lo hi, exists h, wh w r lo hi = Ok h) ->
  (forall m w r rec, exists s, sc m w r rec = Ok s) ->
  forall depth w r bg, exists c, ray_color (F:=XR L) wh sc em depth w r bg = Ok c.
Proof.
  intros wh sc em HW HS. induction depth as [|depth IH]; intros w r bg; cbn [ray_color]; [eauto|].
  destruct (HW w r (nmul (NumOps:=XR L) (nofZ (NumOps:=XR L) 1000) (neps (NumOps:=XR L))) (ninf (NumOps:=XR L))) as ([[mat rec] w1] & E). change (@num (XR L)) with xr in *. rewrite E. cbn [obind].
  destruct mat as [m|]; [|eauto]. destruct (HS m w1 r rec) as ([s w2] & E2). change (@num (XR L)) with xr in *. rewrite E2. cbn [obind].
  destruct s as [[att out]|]; [|eauto]. destruct (IH w2 out bg) as ([c w3] & E3). rewrite E3. cbn [obind]. eauto.
Qed.

(* light adds up *)
Lemma superposition : forall (wh : WH) (sc : SC) (em1 em2 em : EM) (b1 b2 : vec3 R),
  (forall m rec, exists e1 e2, em1 m rec = fin3 e1 /\ em2 m rec = fin3 e2 /\ em m rec = fin3 (addR e1 e2)) ->
  (forall m w r rec att out w', sc m w r rec = Ok (Some (att, out), w') -> exists a, att = fin3 a) ->
  forall depth w r c w', ray_color (F:=XR L) wh sc em depth w r (fin3 (addR b1 b2)) = Ok (c, w') ->
  exists c1 c2, c = fin3 (addR c1 c2) /\
    ray_color (F:=XR L) wh sc em1 depth w r (fin3 b1) = Ok (fin3 c1, w') /\
    ray_color (F:=XR L) wh sc em2 depth w r (fin3 b2) = Ok (fin3 c2, w').
Proof.
  intros wh sc em1 em2 em b1 b2 HE HA. induction depth as [|depth IH]; intros w r c w' H; cbn [ray_color] in *.
  - injection H as <- <-. exists zeroR, zeroR. split; [|split; reflexivity]. unfold zeroR, addR, fin3; cbn. rewrite Rplus_0_r. reflexivity.
  - destruct (wh w r _ _) as [[[mat rec] w1]| |]; cbn [obind] in *; try discriminate.
    destruct mat as [m|].
    + destruct (sc m w1 r rec) as [[s w2]| |] eqn:ES; cbn [obind] in *; try discriminate.
      destruct (HE m rec) as (e1 & e2 & E1 & E2 & E). change (@num (XR L)) with xr in *.
      destruct s as [[att out]|].
      * destruct (ray_color (F:=XR L) wh sc em depth w2 out (fin3 (addR b1 b2))) as [[c0 w3]| |] eqn:EC; cbn [obind] in H; try discriminate.
        destruct (IH _ _ _ _ EC) as (c1 & c2 & -> & R1 & R2). destruct (HA _ _ _ _ _ _ _ ES) as (a & ->).
        rewrite R1, R2. cbn [obind]. rewrite E1, E2. rewrite E in H. rewrite !hadamard_fin, !vadd_fin. rewrite hadamard_fin, vadd_fin in H.
        injection H as <- <-. eexists _, _. split; [|split; reflexivity]. f_equal.
        unfold addR, hadamardR; cbn [vx vy vz]. f_equal; ring.
      * injection H as <- <-. exists e1, e2. rewrite E1, E2. auto.
    + injection H as <- <-. exists b1, b2. auto.
Qed.

(* brightness grows with the permitted depth *)
Lemma depth_monotone : forall (wh : WH) (sc : SC) (em : EM) (bg : vec3 R),
  (forall m rec, exists e, em m rec = fin3 e /\ nonneg3 e) ->
  (forall m w r rec att out w', sc m w r rec = Ok (Some (att, out), w') -> exists a, att = fin3 a /\ nonneg3 a) ->
  nonneg3 bg ->
  forall k n w r c1 c2 w1 w2, (k <= n)%nat ->
  ray_color (F:=XR L) wh sc em k w r (fin3 bg) = Ok (c1, w1) ->
  ray_color (F:=XR L) wh sc em n w r (fin3 bg) = Ok (c2, w2) ->
  exists a b, c1 = fin3 a /\ c2 = fin3 b /\ nonneg3 a /\ nonneg3 (subR b a).
Proof.
  intros wh sc em bg HE HA HB.
  induction k as [|k IH]; intros n w r c1 c2 w1 w2 Hkn H1 H2.
  - cbn [ray_color] in H1. injection H1 as <- <-. exists zeroR.
    assert (G : forall d w r c w', ray_color (F:=XR L) wh sc em d w r (fin3 bg) = Ok (c, w') -> exists b, c = fin3 b /\ nonneg3 b).
    { clear - HE HA HB. induction d as [|d IH]; intros w r c w' H; cbn [ray_color] in H.
      - injection H as <- <-. exists zeroR. split; [reflexivity|]. unfold nonneg3, zeroR; cbn. lra.
      - destruct (wh w r _ _) as [[[mat rec] w1]| |]; cbn [obind] in H; try discriminate.
        destruct mat as [m|]; [|injection H as <- <-; eauto].
        destruct (sc m w1 r rec) as [[s w2]| |] eqn:ES; cbn [obind] in H; try discriminate.
        destruct (HE m rec) as (e & Ee & Be). change (@num (XR L)) with xr in *.
        destruct s as [[att out]|]; [|injection H as <- <-; rewrite Ee; eauto].
        destruct (ray_color (F:=XR L) wh sc em d w2 out (fin3 bg)) as [[c1 w3]| |] eqn:EC; cbn [obind] in H; try discriminate.
        destruct (IH _ _ _ _ EC) as (c' & -> & Bc). destruct (HA _ _ _ _ _ _ _ ES) as (a & -> & Ba).
        rewrite Ee in H. rewrite hadamard_fin, vadd_fin in H. injection H as <- <-.
        eexists. split; [reflexivity|]. unfold nonneg3, addR, hadamardR in *; cbn [vx vy vz] in *. repeat split; nra. }
    destruct (G _ _ _ _ _ H2) as (b & -> & Bb). exists b. repeat split; unfold nonneg3, subR, zeroR in *; cbn [vx vy vz] in *; lra.
  - destruct n as [|n]; [lia|]. cbn [ray_color] in H1, H2.
    destruct (wh w r _ _) as [[[mat rec] w0]| |]; cbn [obind] in *; try discriminate.
    destruct mat as [m|]; [|injection H1 as <- <-; injection H2 as <- <-; exists bg, bg; repeat split; try apply HB; unfold nonneg3, subR; cbn; lra].
    destruct (sc m w0 r rec) as [[s w3]| |] eqn:ES; cbn [obind] in *; try discriminate.
    destruct (HE m rec) as (e & Ee & Be). change (@num (XR L)) with xr in *.
    destruct s as [[att out]|]; [|injection H1 as <- <-; injection H2 as <- <-; rewrite Ee; exists e, e; repeat split; try apply Be; unfold nonneg3, subR; cbn; lra].
    destruct (ray_color (F:=XR L) wh sc em k w3 out (fin3 bg)) as [[d1 v1]| |] eqn:E1; cbn [obind] in H1; try discriminate.
    destruct (ray_color (F:=XR L) wh sc em n w3 out (fin3 bg)) as [[d2 v2]| |] eqn:E2; cbn [obind] in H2; try discriminate.
    destruct (IH n _ _ _ _ _ _ ltac:(lia) E1 E2) as (x & y & -> & -> & Bx & By).
    destruct (HA _ _ _ _ _ _ _ ES) as (a & -> & Ba). rewrite Ee in H1, H2. rewrite hadamard_fin, vadd_fin in H1, H2.
    injection H1 as <- <-. injection H2 as <- <-. eexists _, _. split; [reflexivity|]. split; [reflexivity|].
    unfold nonneg3, subR, addR, hadamardR in *; cbn [vx vy vz] in *. repeat split; nra.
Qed.
End Paths.

Section Isotropic.
Context {L : limits}.
Lemma isotropic_unit : forall tex (g : vec3 R) (rec : hit_record xr), g <> zeroR ->
  exists out, isotropic_scatter (F:=XR L) tex (fin3 g) rec = (tex rec, Ray (h_p rec) (fin3 out)) /\ normR out = 1 /\
    exists k, 0 < k /\ scaleR k out = g.
Proof.
  intros tex g rec H. pose proof (normR_pos _ H) as P. unfold isotropic_scatter. rewrite norm_fin.
  rewrite vdiv_fin by lra.
  exists (scaleR (/ normR g) g). split; [reflexivity|split; [apply normR_normalized; exact H|]].
  - exists (normR g). split; [exact P|]. destruct g as [a b c]. unfold scaleR; cbn [vx vy vz]. f_equal; field; lra.
Qed.
Lemma isotropic_zero : forall tex (rec : hit_record xr),
  isotropic_scatter (F:=XR L) tex (fin3 zeroR) rec = (tex rec, Ray (h_p rec) (V3 NaN NaN NaN)).
Proof.
  intros tex rec. unfold isotropic_scatter. rewrite norm_fin. assert (N : normR zeroR = 0). { unfold normR, normsqR, dotR, zeroR; cbn. replace (0 * 0 + 0 * 0 + 0 * 0) with 0 by ring. apply sqrt_0. }
  assert (E : vdiv (F:=XR L) (fin3 zeroR) (Fin 0) = V3 NaN NaN NaN).
  { unfold vdiv. change (vx (fin3 zeroR)) with (Fin 0). change (vy (fin3 zeroR)) with (Fin 0). change (vz (fin3 zeroR)) with (Fin 0).
    change (ndiv (NumOps:=XR L) (Fin 0) (Fin 0)) with (xdiv (Fin 0) (Fin 0)). rewrite xdiv_zero_zero. reflexivity. }
  rewrite N, E. reflexivity.
Qed.

(** the checker *)
Lemma checker_value : forall even odd (rec : hit_record xr) p, h_p rec = fin3 p ->
  checker_texture (F:=XR L) even odd rec = if Rltb (sin (10 * vx p) * sin (10 * vy p) * sin (10 * vz p)) 0 then odd rec else even rec.
Proof. intros even odd rec p H. unfold checker_texture. change (@num (XR L)) with xr in *. rewrite H. reflexivity. Qed.
Lemma checker_swap : forall p q (rec1 rec2 : hit_record xr) (a b : vec3 xr), h_p rec1 = fin3 p -> h_p rec2 = fin3 q ->
  sin (10 * vx p) * sin (10 * vy p) * sin (10 * vz p) <> 0 ->
  q = addR p (V3 (PI / 10) 0 0) \/ q = addR p (V3 0 (PI / 10) 0) \/ q = addR p (V3 0 0 (PI / 10)) ->
  (checker_texture (F:=XR L) (fun _ => a) (fun _ => b) rec1, checker_texture (F:=XR L) (fun _ => a) (fun _ => b) rec2) = (a, b) \/
  (checker_texture (F:=XR L) (fun _ => a) (fun _ => b) rec1, checker_texture (F:=XR L) (fun _ => a) (fun _ => b) rec2) = (b, a).
Proof.
  intros p q rec1 rec2 a b H1 H2 NZ H. rewrite (checker_value _ _ rec1 p H1), (checker_value _ _ rec2 q H2).
  assert (S : forall x, sin (10 * (x + PI / 10)) = - sin (10 * x)).
  { intros x. replace (10 * (x + PI / 10)) with (10 * x + PI) by field. apply neg_sin. }
  assert (E : sin (10 * vx q) * sin (10 * vy q) * sin (10 * vz q) = - (sin (10 * vx p) * sin (10 * vy p) * sin (10 * vz p))).
  { destruct H as [-> | [-> | -> ]]; unfold addR; cbn [vx vy vz]; rewrite ?Rplus_0_r, S; ring. }
  rewrite E. set (s := sin (10 * vx p) * sin (10 * vy p) * sin (10 * vz p)) in *.
  destruct (Rltb_spec s 0), (Rltb_spec (- s) 0); auto; lra.
Qed.
Lemma checker_origin : forall p (rec : hit_record xr) (a b : vec3 xr), h_p rec = fin3 p ->
  0 < vx p < PI / 10 -> 0 < vy p < PI / 10 -> 0 < vz p < PI / 10 ->
  checker_texture (F:=XR L) (fun _ => a) (fun _ => b) rec = a.
Proof.
  intros p rec a b H Hx Hy Hz. rewrite (checker_value _ _ rec p H).
  assert (S : forall x, 0 < x < PI / 10 -> 0 < sin (10 * x)) by (intros x Hx'; apply sin_gt_0; lra).
  rewrite Rltb_false; [reflexivity|]. apply Rlt_le. apply Rmult_lt_0_compat; [apply Rmult_lt_0_compat|]; auto.
Qed.
End Isotropic.
