(** Rays scattered off an axis-parallel rectangle, in floating point. *)
From Coq Require Import Reals Lra ZArith Lia List Bool.
From Flocq Require Import Core Relative Plus_error BinarySingleNaN.
From Verif Require Import Spec_Random Num XR FL Spec M_Vec M_Rng M_Hittable M_Shapes M_Materials P_FL P_Round P_Accuracy P_Sampler.
Import ListNotations.
Local Open Scope R_scope.

Section Flat.
Variables prec emax : Z.
Context (Hp : Prec_gt_0 prec) (Hm : Prec_lt_emax prec emax).
Variable lm : libm (binary_float prec emax).
Hypothesis P24 : (24 <= prec)%Z.
Hypothesis E64 : (64 <= emax)%Z.
Notation float := (binary_float prec emax).
Notation N := (FL prec emax Hp Hm lm).
Notation fe := (SpecFloat.fexp prec emax).
Notation rnd := (round radix2 (SpecFloat.fexp prec emax) ZnearestE).
Notation format := (generic_format radix2 (SpecFloat.fexp prec emax)).
Notation val := (val prec emax).
Notation b2 := (bpow radix2).
Notation u := (bpow radix2 (- prec)).
Notation eta := (/ 2 * bpow radix2 (SpecFloat.emin prec emax)).

Lemma u_tiny : 0 < u <= / 16777216.
Proof. split; [apply bpow_gt_0|]. apply Rle_trans with (b2 (-24)); [apply bpow_le; lia|]. cbn. lra. Qed.
Lemma eta_tiny : 0 < eta <= u / 1000.
Proof.
  pose proof (bpow_gt_0 radix2 (SpecFloat.emin prec emax)) as B. split; [lra|].
  assert (E : b2 (SpecFloat.emin prec emax) <= b2 (- prec + - 20)) by (apply bpow_le; unfold SpecFloat.emin; lia).
  rewrite bpow_plus in E. assert (b2 (-20) = / 1048576) by (cbn; lra). pose proof u_tiny. nra.
Qed.
Lemma u_le_big : forall e, (-60 <= e)%Z -> b2 (2 - emax) <= b2 e.
Proof. intros e H. apply bpow_le. lia. Qed.
Lemma plus_rel : forall x y, format x -> format y -> exists e, Rabs e <= u /\ rnd (x + y) = (x + y) * (1 + e).
Proof.
  intros x y Fx Fy. destruct (FLT_plus_error_N_ex radix2 (SpecFloat.emin prec emax) prec (fun z => negb (Z.even z)) x y Fx Fy) as (e & B & E).
  exists e. split; [|exact E]. eapply Rle_trans; [exact B|]. unfold u_ro. rewrite u_eq. pose proof u_tiny.
  apply Rmult_le_reg_r with (1 + u); [lra|]. unfold Rdiv. rewrite Rmult_assoc, Rinv_l by lra. nra.
Qed.
Lemma any_rel : forall x, exists e h, Rabs e <= u /\ Rabs h <= eta /\ rnd x = x * (1 + e) + h.
Proof.
  intros x. destruct (error_N_FLT radix2 (SpecFloat.emin prec emax) prec Hp (fun z => negb (Z.even z)) x) as (e & h & A & B & _ & E).
  exists e, h. rewrite u_eq in A. split; [exact A|]. split; [exact B|exact E].
Qed.
Lemma div_back : forall (x y : float) a b t, val x a -> val y b -> val (ndiv (NumOps:=N) x y) t -> b <> 0 /\ t = rnd (a / b).
Proof.
  intros x y a b t [Fx <-] [Fy <-] [Ft <-]. change (ndiv (NumOps:=N) x y) with (Bdiv mode_NE x y) in *.
  assert (Y : B2R y <> 0).
  { intros E. destruct y as [sy| | |sy m e He]; try discriminate; [destruct x; discriminate|]. cbn in E. apply eq_0_F2R in E. destruct sy; discriminate. }
  split; [exact Y|]. pose proof (Bdiv_correct prec emax Hp Hm mode_NE x y Y) as C. cbn [round_mode] in C.
  destruct (Rlt_bool _ _); [exact (proj1 C)|]. exfalso. destruct (Bdiv mode_NE x y); cbn in C; try discriminate; cbn in Ft; discriminate.
Qed.
Lemma u0 : forall e, Rabs e <= u -> - u <= e <= u.
Proof. intros e H. apply Rabs_le_inv. exact H. Qed.

(** the point of a hit is near the plane *)
Lemma across : forall (fk fo fd ft : float) K a b T, val fk K -> val fo a -> val fd b ->
  ft = ndiv (NumOps:=N) (nsub (NumOps:=N) fk fo) fd -> val ft T -> 2000 * u <= T ->
  Rabs K + 4 * Rabs (K - a) <= b2 (emax - 4) ->
  exists p, val (nadd (NumOps:=N) fo (nmul (NumOps:=N) ft fd)) p /\ Rabs (p - K) <= u * (Rabs K + 4 * Rabs (K - a) + 1).
Proof.
  intros fk fo fd ft K a b T Vk Vo Vd -> Vt Tl Sz. pose proof u_tiny as U. pose proof eta_tiny as Et.
  set (B := b2 (emax - 4)) in *. assert (B1 : 1000 <= B) by (apply Rle_trans with (b2 10); [cbn; lra|apply bpow_le; lia]).
  assert (EB : b2 (emax - 1) = 8 * B) by (unfold B; replace (emax - 1)%Z with (3 + (emax - 4))%Z by lia; rewrite bpow_plus; cbn; lra).
  set (D := K - a) in *. pose proof (Rabs_pos K) as K0. pose proof (Rabs_pos D) as D0.
  assert (VD : val (nsub (NumOps:=N) fk fo) (rnd D)) by (apply (minus_val prec emax Hp Hm lm); auto; fold D; lra).
  assert (ED : exists e, Rabs e <= u /\ rnd D = D * (1 + e)).
  { unfold D, Rminus. apply plus_rel; [exact (val_format prec emax _ _ Vk)|]. apply generic_format_opp. exact (val_format prec emax _ _ Vo). }
  destruct ED as (e1 & H1 & E1). apply u0 in H1.
  destruct (div_back _ _ _ _ _ VD Vd Vt) as (Bn & ET). set (x := rnd D / b) in *.
  assert (Ex : exists e, Rabs e <= u /\ rnd x = x * (1 + e)).
  { apply (rel prec emax Hp). right. destruct (Rle_dec (b2 (2 - emax)) (Rabs x)) as [H|H]; [exact H|exfalso].
    assert (x <= b2 (2 - emax)) by (pose proof (Rle_abs x); lra).
    assert (T <= b2 (2 - emax)). { rewrite ET, <- (rnd_id prec emax (b2 (2 - emax))) by (apply format_big; [exact Hp|unfold SpecFloat.emin; pose proof Hm; unfold Prec_lt_emax in *; lia]). apply rnd_le; assumption. }
    assert (b2 (2 - emax) <= b2 (1 + - prec)) by (apply bpow_le; unfold Prec_lt_emax in Hm; lia). rewrite bpow_plus in *. change (b2 1) with 2 in *. lra. }
  destruct Ex as (e2 & H2 & E2). apply u0 in H2.
  assert (ETb : T * b = D * ((1 + e1) * (1 + e2))) by (rewrite ET, E2; unfold x; rewrite E1; field; exact Bn).
  assert (Q : forall e e', - u <= e <= u -> - u <= e' <= u -> Rabs ((1 + e) * (1 + e') - 1) <= 2001 / 1000 * u).
  { intros e e' A C. apply Rabs_le. nra. }
  pose proof (Q e1 e2 H1 H2) as Q12. set (w := (1 + e1) * (1 + e2)) in *. clearbody w. apply Rabs_le_inv in Q12.
  assert (BTb : Rabs (T * b) <= 2 * Rabs D) by (rewrite ETb, Rabs_mult; apply Rle_trans with (Rabs D * 2); [apply Rmult_le_compat_l; [lra|]; apply Rabs_le; lra|lra]).
  assert (Vq : val (nmul (NumOps:=N) (ndiv (NumOps:=N) (nsub (NumOps:=N) fk fo) fd) fd) (rnd (T * b))) by (apply (mult_val prec emax Hp Hm lm); auto; lra).
  destruct (any_rel (T * b)) as (e3 & h3 & H3 & Hh & E3). apply u0 in H3. set (q := rnd (T * b)) in *.
  assert (Eq : q = D * (w * (1 + e3)) + h3) by (rewrite E3, ETb; ring).
  assert (Ea : a + q = K + (D * (w * (1 + e3) - 1) + h3)) by (rewrite Eq; unfold D; ring).
  assert (W3 : Rabs (w * (1 + e3) - 1) <= 301 / 100 * u) by (apply Rabs_le; nra).
  set (z := D * (w * (1 + e3) - 1) + h3) in *.
  assert (Bz : Rabs z <= 301 / 100 * u * Rabs D + eta).
  { unfold z. eapply Rle_trans; [apply Rabs_triang|]. apply Rplus_le_compat; [|exact Hh]. rewrite Rabs_mult, (Rmult_comm (301 / 100 * u)). apply Rmult_le_compat_l; [lra|exact W3]. }
  clearbody z.
  assert (UD : u * Rabs D <= Rabs D / 1000) by nra.
  assert (Bs : Rabs (a + q) <= Rabs K + Rabs D + 1) by (rewrite Ea; eapply Rle_trans; [apply Rabs_triang|]; nra).
  assert (Vp : val (nadd (NumOps:=N) fo (nmul (NumOps:=N) (ndiv (NumOps:=N) (nsub (NumOps:=N) fk fo) fd) fd)) (rnd (a + q))) by (apply (plus_val prec emax Hp Hm lm); auto; lra).
  exists (rnd (a + q)). split; [exact Vp|].
  destruct (plus_rel a q (val_format prec emax _ _ Vo) (val_format prec emax _ _ Vq)) as (e4 & H4 & E4). rewrite E4, Ea.
  replace ((K + z) * (1 + e4) - K) with (z + (K + z) * e4) by ring. eapply Rle_trans; [apply Rabs_triang|]. rewrite Rabs_mult.
  pose proof (Rabs_triang K z) as Tr.
  assert (M : Rabs (K + z) * Rabs e4 <= (Rabs K + Rabs z) * u) by (apply Rmult_le_compat; [apply Rabs_pos|apply Rabs_pos|exact Tr|exact H4]).
  assert (Uz : u * Rabs z <= Rabs z / 1000) by (pose proof (Rabs_pos z); nra).
  assert (0 <= u * Rabs D) by nra. lra.
Qed.

(** a second ray from that point *)
Lemma below : forall (fk fp fd lo : float) K p b l S, val fk K -> val fp p -> val fd b -> val lo l ->
  Rabs (p - K) <= u * (S + 1) -> 0 <= S -> S + 1 <= 1990 * Rabs b -> S <= b2 (emax - 4) -> 2000 * u <= l ->
  nltb (NumOps:=N) (ndiv (NumOps:=N) (nsub (NumOps:=N) fk fp) fd) lo = true.
Proof.
  intros fk fp fd lo K p b l S Vk Vp Vd Vl H S0 Hb Sz Hl. pose proof u_tiny as U. pose proof eta_tiny as Et.
  set (B := b2 (emax - 4)) in *. assert (B1 : 1000000 <= B) by (apply Rle_trans with (b2 20); [cbn; lra|apply bpow_le; lia]).
  assert (EB : b2 (emax - 1) = 8 * B) by (unfold B; replace (emax - 1)%Z with (3 + (emax - 4))%Z by lia; rewrite bpow_plus; cbn; lra).
  assert (Bn : b <> 0) by (intros ->; rewrite Rabs_R0 in Hb; lra). pose proof (Rabs_pos_lt b Bn) as Bp.
  rewrite Rabs_minus_sym in H. set (D := K - p) in *.
  assert (BD : Rabs D <= B) by (eapply Rle_trans; [exact H|]; nra).
  assert (VD : val (nsub (NumOps:=N) fk fp) (rnd D)) by (apply (minus_val prec emax Hp Hm lm); auto; fold D; lra).
  assert (ED : exists e, Rabs e <= u /\ rnd D = D * (1 + e)).
  { unfold D, Rminus. apply plus_rel; [exact (val_format prec emax _ _ Vk)|]. apply generic_format_opp. exact (val_format prec emax _ _ Vp). }
  destruct ED as (e1 & H1 & E1). apply u0 in H1. pose proof (Rabs_pos D) as D0.
  assert (BR : Rabs (rnd D) <= 1991 * u * Rabs b).
  { rewrite E1, Rabs_mult. apply Rle_trans with (Rabs D * (1 + u)); [apply Rmult_le_compat_l; [lra|]; apply Rabs_le; lra|].
    apply Rle_trans with (u * (1990 * Rabs b) * (1 + u)); [apply Rmult_le_compat_r; [lra|]; eapply Rle_trans; [exact H|]; apply Rmult_le_compat_l; lra|].
    assert (0 < u * Rabs b) by (apply Rmult_lt_0_compat; lra). nra. }
  set (x := rnd D / b).
  assert (Bx : Rabs x <= 1991 * u).
  { unfold x, Rdiv. rewrite Rabs_mult, Rabs_inv. apply Rmult_le_reg_r with (Rabs b); [exact Bp|]. rewrite Rmult_assoc, Rinv_l by lra. lra. }
  assert (Vx : val (ndiv (NumOps:=N) (nsub (NumOps:=N) fk fp) fd) (rnd x)) by (apply (div_val prec emax Hp Hm lm); auto; fold x; lra).
  rewrite (ltb_val prec emax Hp Hm lm _ _ _ _ Vx Vl). apply Rltb_true.
  destruct (any_rel x) as (e & h & He & Hh & ->). apply u0 in He. apply Rabs_le_inv in Hh. apply Rabs_le_inv in Bx. nra.
Qed.

(** *** rect_hit *)
Lemma rect_true : forall n q o1 o2 o3 d1 d2 d3 r lo hi rec rec', rect_hit (F:=N) n q o1 o2 o3 d1 d2 d3 r lo hi rec = Ok (true, rec') ->
  let t := ndiv (NumOps:=N) (nsub (NumOps:=N) (q_k q) o3) d3 in
  nltb (NumOps:=N) t lo = false /\ h_t rec' = t /\ h_p rec' = ray_at (F:=N) r t /\ (h_normal rec' = n \/ h_normal rec' = vneg (F:=N) n).
Proof.
  intros n q o1 o2 o3 d1 d2 d3 r lo hi rec rec' H t. unfold rect_hit in H. fold t in H. change (@num N) with float in *.
  destruct (nltb (NumOps:=N) t lo); [discriminate|]. cbn [orb] in H.
  match type of H with (if ?c then _ else _) = _ => destruct c; [discriminate|] end.
  match type of H with (if ?c then _ else _) = _ => destruct c; [discriminate|] end.
  assert (E : forall (a b : hit_record float), Ok (true, a) = Ok (true, b) -> a = b) by (intros a b Q; injection Q; auto).
  apply E in H. subst rec'. split; [reflexivity|]. split; [reflexivity|]. split; [reflexivity|].
  cbn [h_normal set_p set_face_normal set_normal]. match goal with |- context [if ?c then _ else _] => destruct c end; auto.
Qed.
Lemma rect_early : forall n q o1 o2 o3 d1 d2 d3 r lo hi rec, nltb (NumOps:=N) (ndiv (NumOps:=N) (nsub (NumOps:=N) (q_k q) o3) d3) lo = true ->
  rect_hit (F:=N) n q o1 o2 o3 d1 d2 d3 r lo hi rec = Ok (false, rec).
Proof. intros n q o1 o2 o3 d1 d2 d3 r lo hi rec H. unfold rect_hit. change (@num N) with float in *. rewrite H. reflexivity. Qed.

Definition flats : list ((rect float -> ray float -> float -> float -> hit_record float -> outcome (bool * hit_record float)) * (vec3 float -> float)) :=
  [(xy_hit (F:=N), @vz float); (xz_hit (F:=N), @vy float); (yz_hit (F:=N), @vx float)].

Lemma flat_true : forall hit coord, In (hit, coord) flats -> forall q r lo hi rec rec', hit q r lo hi rec = Ok (true, rec') ->
  let t := ndiv (NumOps:=N) (nsub (NumOps:=N) (q_k q) (coord (r_orig r))) (coord (r_dir r)) in
  nltb (NumOps:=N) t lo = false /\ h_t rec' = t /\ h_p rec' = ray_at (F:=N) r t.
Proof.
  intros hit coord I q r lo hi rec rec' H. assert (A : forall P Q R' S : Prop, P /\ Q /\ R' /\ S -> P /\ Q /\ R') by tauto.
  destruct I as [E|[E|[E|[]]]]; apply pair_equal_spec in E; destruct E as [<- <-]; eapply A; exact (rect_true _ _ _ _ _ _ _ _ _ _ _ _ _ H).
Qed.
Lemma flat_early : forall hit coord, In (hit, coord) flats -> forall q r lo hi rec,
  nltb (NumOps:=N) (ndiv (NumOps:=N) (nsub (NumOps:=N) (q_k q) (coord (r_orig r))) (coord (r_dir r))) lo = true -> hit q r lo hi rec = Ok (false, rec).
Proof.
  intros hit coord I q r lo hi rec H.
  destruct I as [E|[E|[E|[]]]]; apply pair_equal_spec in E; destruct E as [<- <-]; apply rect_early; exact H.
Qed.
Lemma flat_point : forall hit coord, In (hit, coord) flats -> forall r t, coord (ray_at (F:=N) r t) = nadd (NumOps:=N) (coord (r_orig r)) (nmul (NumOps:=N) t (coord (r_dir r))).
Proof. intros hit coord [E|[E|[E|[]]]] r t; apply pair_equal_spec in E; destruct E as [_ <-]; reflexivity. Qed.

Lemma flat_plane : forall hit coord, In (hit, coord) flats -> forall q r lo hi rec rec' K a b l T,
  fval (q_k q) = Fin K -> fval (coord (r_orig r)) = Fin a -> fval (coord (r_dir r)) = Fin b -> fval lo = Fin l -> 2000 * u <= l ->
  Rabs K + 4 * Rabs (K - a) <= b2 (emax - 4) ->
  hit q r lo hi rec = Ok (true, rec') -> fval (h_t rec') = Fin T ->
  exists p, fval (coord (h_p rec')) = Fin p /\ Rabs (p - K) <= u * (Rabs K + 4 * Rabs (K - a) + 1).
Proof.
  intros hit coord I q r lo hi rec rec' K a b l T Vk Vo Vd Vl Hl Sz H Vt. destruct (flat_true hit coord I q r lo hi rec rec' H) as (Lt & Et & Ep).
  apply val_fval in Vk, Vo, Vd, Vl, Vt. rewrite Et in Vt. rewrite Ep, (flat_point hit coord I).
  rewrite (ltb_val prec emax Hp Hm lm _ _ _ _ Vt Vl) in Lt.
  assert (TL : 2000 * u <= T) by (destruct (Rltb_spec T l); [discriminate|lra]).
  destruct (across _ _ _ _ _ _ _ _ Vk Vo Vd eq_refl Vt TL Sz) as (p & Vp & B). exists p. split; [apply val_fval; exact Vp|exact B].
Qed.
Lemma flat_leaves : forall hit coord, In (hit, coord) flats -> forall q r lo hi rec rec' K a b l T,
  fval (q_k q) = Fin K -> fval (coord (r_orig r)) = Fin a -> fval (coord (r_dir r)) = Fin b -> fval lo = Fin l -> 2000 * u <= l ->
  Rabs K + 4 * Rabs (K - a) <= b2 (emax - 4) ->
  hit q r lo hi rec = Ok (true, rec') -> fval (h_t rec') = Fin T ->
  forall fd b' lo' hi' l' rec2, fval (coord fd) = Fin b' -> fval lo' = Fin l' -> 2000 * u <= l' ->
  Rabs K + 4 * Rabs (K - a) + 1 <= 1990 * Rabs b' -> hit q (Ray (h_p rec') fd) lo' hi' rec2 = Ok (false, rec2).
Proof.
  intros hit coord I q r lo hi rec rec' K a b l T Vk Vo Vd Vl Hl Sz H Vt fd b' lo' hi' l' rec2 Vb Vl' Hl' Hb.
  destruct (flat_plane hit coord I q r lo hi rec rec' K a b l T Vk Vo Vd Vl Hl Sz H Vt) as (p & Vp & B).
  apply (flat_early hit coord I). cbn [r_orig r_dir]. apply val_fval in Vk, Vp, Vb, Vl'.
  eapply below with (S := Rabs K + 4 * Rabs (K - a)); eauto. pose proof (Rabs_pos K). pose proof (Rabs_pos (K - a)). lra.
Qed.

(** *** the matte material *)
Lemma b2_1 : 1 <= b2 (emax - 1).
Proof. change 1 with (b2 0) at 1. apply bpow_le. lia. Qed.
Lemma mul0 : forall x y a, val x a -> val y 0 -> val (nmul (NumOps:=N) x y) 0.
Proof.
  intros x y a A B. pose proof (mult_val prec emax Hp Hm lm _ _ _ _ A B) as M. rewrite Rmult_0_r, Rabs_R0, round_0 in M by apply valid_rnd_N. apply M. apply bpow_ge_0.
Qed.
Lemma mul1 : forall x y a s, val x a -> val y s -> s = 1 \/ s = -1 -> Rabs a <= 1 -> val (nmul (NumOps:=N) x y) (a * s).
Proof.
  intros x y a s A B H Sz. pose proof (mult_val prec emax Hp Hm lm _ _ _ _ A B) as M. rewrite rnd_id in M.
  - apply M. rewrite Rabs_mult. replace (Rabs s) with 1; [pose proof b2_1; lra|]. destruct H as [->| ->]; [rewrite Rabs_R1; reflexivity|]. rewrite Rabs_left by lra. lra.
  - pose proof (val_format prec emax _ _ A) as F. destruct H as [->| ->]; [rewrite Rmult_1_r; exact F|]. replace (a * -1) with (- a) by ring. apply generic_format_opp. exact F.
Qed.
Lemma add0l : forall x y b, val x 0 -> val y b -> Rabs b <= 1 -> val (nadd (NumOps:=N) x y) b.
Proof.
  intros x y b A B Sz. pose proof (plus_val prec emax Hp Hm lm _ _ _ _ A B) as M. rewrite Rplus_0_l, rnd_id in M by exact (val_format prec emax _ _ B). apply M. pose proof b2_1. lra.
Qed.
Lemma add0r : forall x y b, val x b -> val y 0 -> Rabs b <= 1 -> val (nadd (NumOps:=N) x y) b.
Proof.
  intros x y b A B Sz. pose proof (plus_val prec emax Hp Hm lm _ _ _ _ A B) as M. rewrite Rplus_0_r, rnd_id in M by exact (val_format prec emax _ _ A). apply M. pose proof b2_1. lra.
Qed.
Definition unit_along (coord : vec3 float -> float) (n : vec3 float) : Prop := exists s, (s = 1 \/ s = -1) /\ val (coord n) s /\
  (forall v a b c, val (vx v) a -> val (vy v) b -> val (vz v) c -> -1 <= a <= 1 -> -1 <= b <= 1 -> -1 <= c <= 1 ->
   exists w, val (coord v) w /\ -1 <= w <= 1 /\ val (dot (F:=N) v n) (w * s)).
Lemma zero_is : val (nofZ (NumOps:=N) 0) 0.
Proof. exact (ofZ_small prec emax Hp Hm lm P24 E64 0 ltac:(lia)). Qed.
Lemma one_is : val (nofZ (NumOps:=N) 1) 1.
Proof. exact (ofZ_small prec emax Hp Hm lm P24 E64 1 ltac:(lia)). Qed.
Lemma neg_is : forall x a, val x a -> val (nneg (NumOps:=N) x) (- a).
Proof. exact (opp_val prec emax Hp Hm lm). Qed.
Lemma unit_z : forall n, val (vx n) 0 -> val (vy n) 0 -> (exists s, (s = 1 \/ s = -1) /\ val (vz n) s) -> unit_along (@vz float) n.
Proof.
  intros n A B (s & H & C). exists s. split; [exact H|]. split; [exact C|]. intros v a b c Va Vb Vc Ra Rb Rc. exists c. split; [exact Vc|]. split; [exact Rc|].
  unfold dot. assert (Bc : Rabs (c * s) <= 1) by (destruct H as [->| ->]; apply Rabs_le; lra).
  apply add0l; [|apply mul1; auto; apply Rabs_le; lra|exact Bc]. apply add0r; [|eapply mul0; eassumption|rewrite Rabs_R0; lra]. apply add0r; [exact zero_is|eapply mul0; eassumption|rewrite Rabs_R0; lra].
Qed.
Lemma unit_y : forall n, val (vx n) 0 -> val (vz n) 0 -> (exists s, (s = 1 \/ s = -1) /\ val (vy n) s) -> unit_along (@vy float) n.
Proof.
  intros n A B (s & H & C). exists s. split; [exact H|]. split; [exact C|]. intros v a b c Va Vb Vc Ra Rb Rc. exists b. split; [exact Vb|]. split; [exact Rb|].
  unfold dot. assert (Bc : Rabs (b * s) <= 1) by (destruct H as [->| ->]; apply Rabs_le; lra).
  apply add0r; [|eapply mul0; eassumption|exact Bc]. apply add0l; [|apply mul1; auto; apply Rabs_le; lra|exact Bc]. apply add0r; [exact zero_is|eapply mul0; eassumption|rewrite Rabs_R0; lra].
Qed.
Lemma unit_x : forall n, val (vy n) 0 -> val (vz n) 0 -> (exists s, (s = 1 \/ s = -1) /\ val (vx n) s) -> unit_along (@vx float) n.
Proof.
  intros n A B (s & H & C). exists s. split; [exact H|]. split; [exact C|]. intros v a b c Va Vb Vc Ra Rb Rc. exists a. split; [exact Va|]. split; [exact Ra|].
  unfold dot. assert (Bc : Rabs (a * s) <= 1) by (destruct H as [->| ->]; apply Rabs_le; lra).
  apply add0r; [|eapply mul0; eassumption|exact Bc]. apply add0r; [|eapply mul0; eassumption|exact Bc]. apply add0l; [exact zero_is|apply mul1; auto; apply Rabs_le; lra|exact Bc].
Qed.
Lemma flat_normal : forall hit coord, In (hit, coord) flats -> forall q r lo hi rec rec', hit q r lo hi rec = Ok (true, rec') -> unit_along coord (h_normal rec').
Proof.
  intros hit coord I q r lo hi rec rec' H. pose proof zero_is as Z0. pose proof (neg_is _ _ Z0) as Z1. rewrite Ropp_0 in Z1. pose proof one_is as O0. pose proof (neg_is _ _ O0) as O1.
  replace (- (1)) with (-1) in O1 by lra.
  destruct I as [E|[E|[E|[]]]]; apply pair_equal_spec in E; destruct E as [<- <-]; destruct (rect_true _ _ _ _ _ _ _ _ _ _ _ _ _ H) as (_ & _ & _ & [Q | Q]); change (@num N) with float in *; rewrite Q; clear Q.
  - apply unit_z; [exact Z0|exact Z0|exists 1; auto].
  - apply unit_z; [exact Z1|exact Z1|exists (-1); auto].
  - apply unit_y; [exact Z0|exact Z0|exists 1; auto].
  - apply unit_y; [exact Z1|exact Z1|exists (-1); auto].
  - apply unit_x; [exact Z0|exact Z0|exists 1; auto].
  - apply unit_x; [exact Z1|exact Z1|exists (-1); auto].
Qed.
Lemma format_1 : forall s, s = 1 \/ s = -1 -> format s.
Proof. intros s [->| ->]; [exact (format_Z prec emax Hp P24 E64 1 ltac:(lia))|exact (format_Z prec emax Hp P24 E64 (-1) ltac:(lia))]. Qed.
(* the direction has component at least 1 across the rectangle *)
Lemma flat_matte : forall hit coord, In (hit, coord) flats -> forall q r lo hi rec rec', hit q r lo hi rec = Ok (true, rec') ->
  forall tex g, word64 (pc_state g) -> exists k out g' b',
  (forall fuel, (k <= fuel)%nat -> lambertian_scatter (F:=N) fuel tex g rec' = Ok (Some (tex rec', out), g')) /\
  r_orig out = h_p rec' /\ fval (coord (r_dir out)) = Fin b' /\ 1 <= Rabs b'.
Proof.
  intros hit coord I q r lo hi rec rec' H tex g W. destruct (flat_normal hit coord I q r lo hi rec rec' H) as (s & Hs & Vs & Dt).
  destruct (sampler_any prec emax Hp Hm lm P24 E64 g W) as (m & v & Rn & _ & (c0 & V0 & B0 & _) & (c1 & V1 & B1 & _) & (c2 & V2 & B2 & _)).
  destruct (Dt v c0 c1 c2 V0 V1 V2 B0 B1 B2) as (w & Vw & Bw & Vd).
  set (n := h_normal rec') in *.
  set (v' := if nltb (NumOps:=N) (nofZ (NumOps:=N) 0) (dot (F:=N) v n) then v else vneg (F:=N) v).
  set (d := vadd (F:=N) n v').
  assert (CA : coord d = nadd (NumOps:=N) (coord n) (coord v')) by (unfold d; destruct I as [E|[E|[E|[]]]]; apply pair_equal_spec in E; destruct E as [_ <-]; reflexivity).
  assert (CN : coord (vneg (F:=N) v) = nneg (NumOps:=N) (coord v)) by (destruct I as [E|[E|[E|[]]]]; apply pair_equal_spec in E; destruct E as [_ <-]; reflexivity).
  assert (Cv : exists w', val (coord v') w' /\ -1 <= w' <= 1 /\ 0 <= w' * s).
  { unfold v'. rewrite (ltb_val prec emax Hp Hm lm _ _ _ _ zero_is Vd). destruct (Rltb_spec 0 (w * s)) as [K|K].
    - exists w. split; [exact Vw|]. lra.
    - exists (- w). split; [rewrite CN; apply neg_is; exact Vw|]. lra. }
  destruct Cv as (w' & Vw' & Bw' & Sw').
  assert (Vd2 : val (coord d) (rnd (s + w'))).
  { rewrite CA. apply (plus_val prec emax Hp Hm lm); auto. apply Rle_trans with 2; [apply Rabs_le; destruct Hs; lra|]. change 2 with (b2 1). apply bpow_le. lia. }
  assert (Big : 1 <= Rabs (rnd (s + w'))).
  { pose proof (format_1 s Hs) as F. destruct Hs as [->| ->].
    - apply Rle_trans with (rnd (1 + w')); [|apply Rle_abs]. rewrite <- (rnd_id prec emax 1 F) at 1. apply rnd_le; [exact Hp|lra].
    - rewrite <- Rabs_Ropp. apply Rle_trans with (- rnd (-1 + w')); [|apply Rle_abs]. pose proof (rnd_le prec emax Hp (-1 + w') (-1) ltac:(lra)) as Le. rewrite (rnd_id prec emax (-1) F) in Le. lra. }
  set (d' := if nltb (NumOps:=N) (squared_norm (F:=N) d) (nsqrt (NumOps:=N) (neps (NumOps:=N))) then n else d).
  assert (Cd : exists b', val (coord d') b' /\ 1 <= Rabs b').
  { unfold d'. match goal with |- context [if ?c then _ else _] => destruct c end.
    - exists s. split; [exact Vs|]. destruct Hs as [->| ->]; [rewrite Rabs_R1; lra|]. rewrite Rabs_left by lra. lra.
    - exists (rnd (s + w')). auto. }
  destruct Cd as (b' & Vb & Hb). exists (Datatypes.S m), (Ray (h_p rec') d'), (Nat.iter (Datatypes.S m) P_Lambert.next3 g), b'.
  split; [|split; [reflexivity|]; split; [apply val_fval; exact Vb|exact Hb]].
  intros fuel Hk. unfold lambertian_scatter, random_in_hemisphere. change (@num N) with float in *. rewrite (Rn fuel Hk). reflexivity.
Qed.
Lemma flat_matte_leaves : forall hit coord, In (hit, coord) flats -> forall q r lo hi rec rec' K a b l T tex g,
  fval (q_k q) = Fin K -> fval (coord (r_orig r)) = Fin a -> fval (coord (r_dir r)) = Fin b -> fval lo = Fin l -> 2000 * u <= l ->
  Rabs K + 4 * Rabs (K - a) <= 1989 -> hit q r lo hi rec = Ok (true, rec') -> fval (h_t rec') = Fin T -> word64 (pc_state g) ->
  exists k out g', (forall fuel, (k <= fuel)%nat -> lambertian_scatter (F:=N) fuel tex g rec' = Ok (Some (tex rec', out), g')) /\
  forall lo' hi' l' rec2, fval lo' = Fin l' -> 2000 * u <= l' -> hit q out lo' hi' rec2 = Ok (false, rec2).
Proof.
  intros hit coord I q r lo hi rec rec' K a b l T tex g Vk Vo Vd Vl Hl Sz H Vt W.
  destruct (flat_matte hit coord I q r lo hi rec rec' H tex g W) as (k & [o d] & g' & b' & Run & Eo & Vb & Hb). exists k, (Ray o d), g'. split; [exact Run|].
  intros lo' hi' l' rec2 Vl' Hl'. cbn [r_orig r_dir] in *. subst o.
  eapply (flat_leaves hit coord I q r lo hi rec rec' K a b l T); eauto; [|lra].
  apply Rle_trans with (b2 11); [cbn; lra|]. apply bpow_le. lia.
Qed.
End Flat.
