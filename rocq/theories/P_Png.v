(** Quantisation to bytes, colour maps, cost map and progress bar with rounding. *)
From Coq Require Import Reals Lra ZArith Lia List Bool Ascii.
From Flocq Require Import Core BinarySingleNaN Plus_error.
From Verif Require Import Num XR FL P_FL P_Round M_Tables M_Image.
Import ListNotations.
Local Open Scope R_scope.

Section Png.
Variables prec emax : Z.
Context (Hp : Prec_gt_0 prec) (Hm : Prec_lt_emax prec emax).
Variable lm : libm (binary_float prec emax).
Notation float := (binary_float prec emax).
Notation fe := (SpecFloat.fexp prec emax).
Notation N := (FL prec emax Hp Hm lm).
Notation rnd := (round radix2 (SpecFloat.fexp prec emax) ZnearestE).
Notation format := (generic_format radix2 (SpecFloat.fexp prec emax)).
Notation val := (val prec emax).
Hypothesis P8 : (8 <= prec)%Z.

Lemma bp8 : 256 <= bpow radix2 (emax - 1).
Proof.
  change 256 with (bpow radix2 8). apply bpow_le. unfold Prec_lt_emax in Hm. lia.
Qed.
Lemma format_small : forall z, (Z.abs z <= 256)%Z -> format (IZR z).
Proof.
  intros z H. replace (IZR z) with (IZR z * bpow radix2 0) by (cbn; ring). apply format_F2R; auto.
  - assert (2 ^ 8 <= 2 ^ prec)%Z by (apply Z.pow_le_mono_r; lia). change (2 ^ 8)%Z with 256%Z in *. lia.
  - unfold SpecFloat.emin. unfold Prec_lt_emax in Hm. lia.
Qed.
Lemma small_val : forall z, (Z.abs z <= 256)%Z -> val (nofZ (NumOps:=N) z) (IZR z).
Proof.
  intros z H. rewrite <- (rnd_id prec emax (IZR z)) at 1 by (apply format_small; exact H).
  apply ofZ_val. rewrite <- abs_IZR. eapply Rle_trans; [|apply bp8]. apply IZR_le. exact H.
Qed.
Lemma zero_val : val (nofZ (NumOps:=N) 0) 0.
Proof. exact (small_val 0 ltac:(lia)). Qed.
Lemma one_val : val (nofZ (NumOps:=N) 1) 1.
Proof. exact (small_val 1 ltac:(lia)). Qed.

Lemma rnd_le_gen : forall x b, format b -> x <= b -> rnd x <= b.
Proof. intros x b F H. apply round_le_generic; auto; [apply fexp_correct; exact Hp|apply valid_rnd_N]. Qed.
Lemma rnd_ge_gen : forall x b, format b -> b <= x -> b <= rnd x.
Proof. intros x b F H. apply round_ge_generic; auto; [apply fexp_correct; exact Hp|apply valid_rnd_N]. Qed.
Lemma rnd_unit : forall x, 0 <= x <= 1 -> 0 <= rnd x <= 1.
Proof.
  intros x H. split; [apply rnd_ge_gen; [apply generic_format_0|lra]|apply rnd_le_gen; [apply (format_small 1); lia|lra]].
Qed.

Lemma sqrt_val : forall (x : float) a, val x a -> 0 <= a -> val (nsqrt (NumOps:=N) x) (rnd (sqrt a)).
Proof.
  intros x a [F <-] H. pose proof (Bsqrt_correct prec emax Hp Hm mode_NE x) as (C1 & C2 & _). split; [|exact C1].
  cbn [nsqrt FL]. rewrite C2. destruct x as [s|s| |s m e b]; try discriminate; auto. destruct s; auto. exfalso. cbn [B2R] in H.
  assert (F2R (Float radix2 (SpecFloat.cond_Zopp true (Z.pos m)) e) < 0) by (apply F2R_lt_0; reflexivity). lra.
Qed.
Lemma trunc_val : forall (x : float) a, val x a -> ntrunc (NumOps:=N) x = Some (Ztrunc a).
Proof.
  intros x a [F <-]. cbn [ntrunc FL]. rewrite F. f_equal. apply eq_IZR. rewrite Btrunc_correct by exact Hm.
  unfold round, F2R, scaled_mantissa, cexp, FIX_exp. cbn. rewrite !Rmult_1_r. reflexivity.
Qed.
Lemma floor_val : forall (x : float) a, val x a -> val (nfloor (NumOps:=N) x) (IZR (Zfloor a)).
Proof.
  intros x a [F <-]. pose proof (Bnearbyint_correct prec emax Hm mode_DN x) as (C1 & C2 & _). cbn [nfloor FL]. split.
  - rewrite C2. exact F.
  - rewrite C1. unfold round, F2R, scaled_mantissa, cexp, FIX_exp. cbn. rewrite !Rmult_1_r. reflexivity.
Qed.

(** clamping to the unit interval *)
Definition clamp01 (x : xr) : R :=
  match x with Fin a => Rmax 0 (Rmin 1 a) | PInf => 1 | _ => 0 end.
Lemma clamp_val : forall x : float, fval x <> NaN ->
  val (std_clamp (F:=N) x (nofZ (NumOps:=N) 0) (nofZ (NumOps:=N) 1)) (clamp01 (fval x)).
Proof.
  intros x H. unfold std_clamp. pose proof zero_val as Z0. pose proof one_val as Z1.
  pose proof (proj1 (val_fval _ _ _ _) Z0) as V0. pose proof (proj1 (val_fval _ _ _ _) Z1) as V1.
  cbn [nltb FL]. rewrite !Bltb_fval. change (@nofZ N) with (nofZ (NumOps:=N)) in *. rewrite V0, V1.
  destruct (fval x) as [a| | |] eqn:E; try congruence; cbn [xltb clamp01]; auto.
  unfold Rmax, Rmin. destruct (Rltb_spec a 0).
  - replace (if Rle_dec 0 (if Rle_dec 1 a then 1 else a) then if Rle_dec 1 a then 1 else a else 0) with 0; auto.
    destruct (Rle_dec 1 a); destruct (Rle_dec 0 _); lra.
  - destruct (Rltb_spec 1 a).
    + replace (if Rle_dec 0 (if Rle_dec 1 a then 1 else a) then if Rle_dec 1 a then 1 else a else 0) with 1; auto.
      destruct (Rle_dec 1 a); destruct (Rle_dec 0 _); lra.
    + replace (if Rle_dec 0 (if Rle_dec 1 a then 1 else a) then if Rle_dec 1 a then 1 else a else 0) with a; [apply val_fval; exact E|].
      destruct (Rle_dec 1 a); destruct (Rle_dec 0 _); lra.
Qed.
Lemma clamp01_range : forall x, 0 <= clamp01 x <= 1.
Proof.
  intros [a| | |]; cbn; try lra. unfold Rmax, Rmin. destruct (Rle_dec 1 a); destruct (Rle_dec 0 _); lra.
Qed.
Lemma clamp01_mono : forall x y, xleb x y = true -> clamp01 x <= clamp01 y.
Proof.
  intros [a| | |] [b| | |] H; cbn in H |- *; try discriminate; try lra;
    try (unfold Rmax, Rmin; destruct (Rle_dec 1 a); destruct (Rle_dec 0 _); lra);
    try (unfold Rmax, Rmin; destruct (Rle_dec 1 b); destruct (Rle_dec 0 _); lra).
  destruct (Rleb_spec a b); [|discriminate]. unfold Rmax, Rmin.
  destruct (Rle_dec 1 a), (Rle_dec 1 b); repeat (destruct (Rle_dec 0 _)); lra.
Qed.

Lemma clamp_nan : forall x : float, fval x = NaN -> std_clamp (F:=N) x (nofZ (NumOps:=N) 0) (nofZ (NumOps:=N) 1) = B754_nan.
Proof.
  intros x H. assert (E : x = B754_nan) by (destruct x as [?|[]| |]; try discriminate; reflexivity). subst x. unfold std_clamp. cbn [nltb FL]. rewrite !Bltb_fval. cbn [fval].
  assert (X : forall y, xltb y NaN = false) by (destruct y; reflexivity). cbn [xltb]. rewrite X. reflexivity.
Qed.

(** *** to_8bit_rgba *)
(* the rounded square root of a non-negative number *)
Definition rsqrt (x : xr) : xr := match x with Fin a => Fin (rnd (sqrt a)) | y => y end.
Lemma fval_rsqrt : forall x : float, xleb (Fin 0) (fval x) = true -> fval (nsqrt (NumOps:=N) x) = rsqrt (fval x).
Proof.
  intros x H. destruct (fval x) as [a| | |] eqn:E; try discriminate.
  - cbn in H. destruct (Rleb_spec 0 a); [|discriminate]. cbn [rsqrt]. apply val_fval. apply sqrt_val; auto. apply val_fval. exact E.
  - destruct x as [s|[]| |]; try discriminate. reflexivity.
Qed.
Lemma mult_255 : forall (x : float) c, val x c -> 0 <= c <= 1 -> val (nmul (NumOps:=N) (nofZ (NumOps:=N) 255) x) (rnd (255 * c)).
Proof.
  intros x c V C. apply mult_val; auto; [exact (small_val 255 ltac:(lia))|]. rewrite Rabs_pos_eq by lra. pose proof bp8. lra.
Qed.
Lemma rnd_255 : forall c, 0 <= c <= 1 -> 0 <= rnd (255 * c) <= 255.
Proof.
  intros c C. split; [apply rnd_ge_gen; [apply generic_format_0|lra]|apply rnd_le_gen; [apply (format_small 255); lia|lra]].
Qed.
Lemma trunc_255 : forall c, 0 <= c <= 255 -> (0 <= Ztrunc c <= 255)%Z.
Proof.
  intros c [A B]. split.
  - rewrite <- (Ztrunc_IZR 0). apply Ztrunc_le. exact A.
  - rewrite <- (Ztrunc_IZR 255). apply Ztrunc_le. exact B.
Qed.

Definition the_byte (x : xr) : Z := Ztrunc (rnd (255 * clamp01 (rsqrt x))).
Lemma to_byte_eq : forall x : float, xleb (Fin 0) (fval x) = true -> to_byte (F:=N) x = Ok (the_byte (fval x)).
Proof.
  intros x H. unfold to_byte. pose proof (fval_rsqrt x H) as E.
  assert (Q : fval (nsqrt (NumOps:=N) x) <> NaN) by (rewrite E; destruct (fval x); cbn; discriminate).
  pose proof (clamp_val _ Q) as V. rewrite E in V. pose proof (clamp01_range (rsqrt (fval x))) as R.
  pose proof (mult_255 _ _ V R) as M. unfold to_uint8, to_range. rewrite (trunc_val _ _ M).
  pose proof (trunc_255 _ (rnd_255 _ R)) as T. unfold the_byte.
  rewrite (proj2 (Z.leb_le _ _) (proj1 T)), (proj2 (Z.leb_le _ _) (proj2 T)). reflexivity.
Qed.
Lemma the_byte_range : forall x, (0 <= the_byte x <= 255)%Z.
Proof. intros x. apply trunc_255, rnd_255, clamp01_range. Qed.
Lemma rsqrt_mono : forall x y, xleb (Fin 0) x = true -> xleb x y = true -> xleb (rsqrt x) (rsqrt y) = true.
Proof.
  intros [a| | |] [b| | |] H K; cbn in H, K |- *; try discriminate; auto.
  destruct (Rleb_spec 0 a); [|discriminate]. destruct (Rleb_spec a b); [|discriminate].
  apply Rleb_iff. apply rnd_le; auto. apply sqrt_le_1_alt. lra.
Qed.
Lemma the_byte_mono : forall x y, xleb (Fin 0) x = true -> xleb x y = true -> (the_byte x <= the_byte y)%Z.
Proof.
  intros x y H K. unfold the_byte. apply Ztrunc_le. apply rnd_le; auto. pose proof (clamp01_mono _ _ (rsqrt_mono _ _ H K)). lra.
Qed.
Lemma the_byte_0 : the_byte (Fin 0) = 0%Z.
Proof.
  unfold the_byte, rsqrt, clamp01. rewrite sqrt_0, (rnd_id prec emax 0) by apply generic_format_0.
  replace (255 * Rmax 0 (Rmin 1 0)) with 0; [rewrite (rnd_id prec emax 0) by apply generic_format_0; apply (Ztrunc_IZR 0)|].
  unfold Rmax, Rmin. destruct (Rle_dec 1 0); destruct (Rle_dec 0 _); lra.
Qed.
Lemma the_byte_1 : forall x, xleb (Fin 1) x = true -> the_byte x = 255%Z.
Proof.
  intros x H. unfold the_byte. replace (clamp01 (rsqrt x)) with 1.
  - rewrite Rmult_1_r, (rnd_id prec emax 255) by (apply (format_small 255); lia). apply (Ztrunc_IZR 255).
  - destruct x as [a| | |]; try discriminate; auto. cbn in H |- *. destruct (Rleb_spec 1 a); [|discriminate].
    assert (1 <= rnd (sqrt a)).
    { apply rnd_ge_gen; [apply (format_small 1); lia|]. rewrite <- sqrt_1. apply sqrt_le_1_alt. lra. }
    unfold Rmax, Rmin. destruct (Rle_dec 1 (rnd (sqrt a))); destruct (Rle_dec 0 _); lra.
Qed.
(* the byte is within one unit, up to rounding, of 255 times the square root *)
Lemma the_byte_close : forall a, 0 <= a <= 1 ->
  IZR (the_byte (Fin a)) <= 255 * sqrt a + bpow radix2 (8 - prec) /\ 255 * sqrt a - bpow radix2 (8 - prec) < IZR (the_byte (Fin a)) + 1.
Proof.
  intros a A. unfold the_byte. cbn [rsqrt clamp01].
  assert (S : 0 <= sqrt a <= 1) by (split; [apply sqrt_pos|rewrite <- sqrt_1; apply sqrt_le_1_alt; lra]).
  assert (S2 : 0 <= rnd (sqrt a) <= 1).
  { apply rnd_unit. exact S. }
  replace (Rmax 0 (Rmin 1 (rnd (sqrt a)))) with (rnd (sqrt a)) by (unfold Rmax, Rmin; destruct (Rle_dec 1 _); destruct (Rle_dec 0 _); lra).
  pose proof (rnd_error prec emax Hp (sqrt a) 0) as E1. pose proof (rnd_error prec emax Hp (255 * rnd (sqrt a)) 8) as E2.
  unfold SpecFloat.emin, Prec_lt_emax in *.
  assert (R1 : Rabs (rnd (sqrt a) - sqrt a) <= bpow radix2 (0 - prec - 1)) by (apply E1; [lia|cbn; rewrite Rabs_pos_eq; lra]).
  assert (R2 : Rabs (rnd (255 * rnd (sqrt a)) - 255 * rnd (sqrt a)) <= bpow radix2 (8 - prec - 1)).
  { apply E2; [lia|]. change (bpow radix2 8) with 256. rewrite Rabs_pos_eq; lra. }
  replace (8 - prec - 1)%Z with (7 + (- prec))%Z in R2 by ring. replace (0 - prec - 1)%Z with (-1 + (- prec))%Z in R1 by ring.
  replace (8 - prec)%Z with (8 + (- prec))%Z by ring. rewrite bpow_plus in *. change (bpow radix2 7) with 128 in *. change (bpow radix2 8) with 256 in *.
  change (bpow radix2 (-1)) with (/ 2) in *. pose proof (bpow_gt_0 radix2 (- prec)).
  apply Rabs_le_inv in R1, R2. set (q := rnd (255 * rnd (sqrt a))) in *.
  assert (Q : 0 <= q) by (apply rnd_255; exact S2).
  rewrite Ztrunc_floor by exact Q. pose proof (Zfloor_lb q). pose proof (Zfloor_ub q). lra.
Qed.

Lemma to_byte_bad : forall x : float, xleb (Fin 0) (fval x) = false -> to_byte (F:=N) x = Undef.
Proof.
  intros x H.
  assert (E : nsqrt (NumOps:=N) x = B754_nan).
  { cbn [nsqrt FL]. destruct x as [s|[]| |[] m e b]; try reflexivity.
    - cbn in H. rewrite (proj2 (Rleb_iff 0 0)) in H by lra. discriminate.
    - cbn in H. discriminate.
    - cbn [fval] in H. assert (0 < B2R (B754_finite false m e b)) by (apply F2R_gt_0; cbn; lia).
      cbn [B2R xleb] in *. rewrite (proj2 (Rleb_iff _ _)) in H by lra. discriminate. }
  unfold to_byte. rewrite E. unfold std_clamp. cbn [nltb FL]. rewrite !Bltb_fval. cbn [fval].
  assert (X : forall y, xltb y NaN = false) by (destruct y; reflexivity). cbn [xltb]. rewrite X.
  unfold to_uint8, to_range. cbn [nmul FL ntrunc]. destruct (nofZ (NumOps:=N) 255) as [?|?| |? ? ? ?]; reflexivity.
Qed.

(** *** color_maps.hpp *)
Lemma at_ok : forall t i, length t = 256%nat -> (0 <= i <= 255)%Z -> exists mk, In mk t /\ at_ (F:=N) t i = Ok (lit (F:=N) mk).
Proof.
  intros t i T I. unfold at_. rewrite (proj2 (Z.ltb_ge _ _)) by lia. destruct (nth_error t (Z.to_nat i)) as [mk|] eqn:E.
  - exists mk. split; auto. eapply nth_error_In. exact E.
  - apply nth_error_None in E. lia.
Qed.
Lemma back_ok : forall t, length t = 256%nat -> exists mk, In mk t /\ back (F:=N) t = Ok (lit (F:=N) mk).
Proof. intros t T. unfold back. rewrite T. apply at_ok; auto. cbn. lia. Qed.

(* 255 times a number below one stays below 255 *)
Lemma below_255 : forall c, format c -> 0 <= c < 1 -> rnd (255 * c) < 255.
Proof.
  intros c F C. unfold Prec_lt_emax in Hm.
  assert (E : c <= 1 - bpow radix2 (- prec)).
  { assert (F1 : format 1) by (apply (format_small 1); lia).
    pose proof (pred_ge_gt radix2 fe c 1 F F1 (proj2 C)) as G. eapply Rle_trans; [exact G|].
    change 1 with (bpow radix2 0) at 1. rewrite pred_bpow. cbn [bpow]. unfold SpecFloat.fexp, SpecFloat.emin. rewrite Z.max_l by lia. apply Rle_refl. }
  set (u := 255 - bpow radix2 (8 - prec)). pose proof (bpow_gt_0 radix2 (- prec)) as G0.
  assert (G : bpow radix2 (8 - prec) = 256 * bpow radix2 (- prec)) by exact (bpow_plus radix2 8 (- prec)).
  assert (G1 : bpow radix2 (8 - prec) <= 1) by (change 1 with (bpow radix2 0); apply bpow_le; lia).
  apply Rle_lt_trans with u; [|unfold u; lra].
  apply (rnd_le_mid prec emax Hp) with (d := bpow radix2 (8 - prec)).
  - replace u with (IZR (255 * 2 ^ (prec - 8) - 1) * bpow radix2 (8 - prec)).
    + apply format_F2R; auto.
      * assert (2 ^ prec = 2 ^ 8 * 2 ^ (prec - 8))%Z by (rewrite <- Z.pow_add_r by lia; f_equal; lia).
        assert (0 < 2 ^ (prec - 8))%Z by (apply Z.pow_pos_nonneg; lia). change (2 ^ 8)%Z with 256%Z in *. lia.
      * unfold SpecFloat.emin. lia.
    + rewrite minus_IZR, mult_IZR, (IZR_Zpower radix2) by lia. unfold u. rewrite Rmult_minus_distr_r, Rmult_assoc, <- bpow_plus.
      replace (prec - 8 + (8 - prec))%Z with 0%Z by ring. cbn. ring.
  - unfold u. lra.
  - replace (8 - prec)%Z with (7 + 1 - prec)%Z by ring. apply ulp_lower; auto. unfold u. change (bpow radix2 7) with 128. lra.
  - unfold u. rewrite G. lra.
Qed.

Lemma wrap32_id : forall z, (0 <= z < 2 ^ 31)%Z -> wrap32 z = z.
Proof. intros z Z. unfold wrap32. rewrite Z.mod_small; lia. Qed.

(* the two branches of the maps, for a scalar that is a number *)
Lemma color_map_cases : forall tr tg tb (x : float), fval x <> NaN ->
  (clamp01 (fval x) = 1 /\ color_map (F:=N) tr tg tb x = vec3M (F:=N) (back tr) (back tg) (back tb)) \/
  (exists i (t : float) b, clamp01 (fval x) < 1 /\ (0 <= i <= 254)%Z /\ val t b /\ 0 <= b <= 1 /\
     i = Zfloor (rnd (255 * clamp01 (fval x))) /\ b = rnd (rnd (255 * clamp01 (fval x)) - IZR i) /\
     color_map (F:=N) tr tg tb x = vec3M (F:=N) (lerp (F:=N) t tr i) (lerp (F:=N) t tg i) (lerp (F:=N) t tb i)).
Proof.
  intros tr tg tb x H. pose proof (clamp_val x H) as V. pose proof (clamp01_range (fval x)) as R.
  set (c := clamp01 (fval x)) in *. unfold color_map. set (s := std_clamp (F:=N) x (nofZ (NumOps:=N) 0) (nofZ (NumOps:=N) 1)) in *.
  assert (Q : neqb (NumOps:=N) s (nofZ (NumOps:=N) 1) = Reqb c 1).
  { cbn [neqb FL]. rewrite Beqb_fval. rewrite (proj1 (val_fval _ _ _ _) V), (proj1 (val_fval _ _ _ _) one_val). reflexivity. }
  rewrite Q. destruct (Reqb_spec c 1) as [C1|C1]; [left; auto|right].
  assert (C : 0 <= c < 1) by lra. pose proof (mult_255 s c V R) as M. set (q := nmul (NumOps:=N) (nofZ (NumOps:=N) 255) s) in *.
  pose proof (floor_val q _ M) as Fl. pose proof (rnd_255 c R) as R2.
  pose proof (below_255 c (val_format _ _ _ _ V) C) as R3. set (a := rnd (255 * c)) in *.
  set (i := Zfloor a) in *. pose proof (Zfloor_lb a) as L1. pose proof (Zfloor_ub a) as L2. fold i in L1, L2.
  assert (I : (0 <= i <= 254)%Z).
  { split; [apply Zfloor_lub; cbn; lra|]. assert (IZR i < IZR 255) by (cbn; lra). apply lt_IZR in H0. lia. }
  assert (T : val (nsub (NumOps:=N) q (nfloor (NumOps:=N) q)) (rnd (a - IZR i))).
  { apply minus_val; auto. pose proof bp8. rewrite Rabs_pos_eq; lra. }
  exists i, (nsub (NumOps:=N) q (nfloor (NumOps:=N) q)), (rnd (a - IZR i)).
  repeat split; try (apply rnd_unit; lra); try lia; try lra; try apply T.
  assert (J : to_int64 (F:=N) (nfloor (NumOps:=N) q) = Ok i).
  { unfold to_int64, to_range. rewrite (trunc_val _ _ Fl), Ztrunc_IZR.
    rewrite (proj2 (Z.leb_le (- 2 ^ 63) i)), (proj2 (Z.leb_le i (2 ^ 63 - 1))) by lia. reflexivity. }
  rewrite J. cbn [obind]. rewrite wrap32_id by lia. reflexivity.
Qed.

Definition sized (t : list (Z * Z)) : Prop := length t = 256%nat.
Lemma color_map_ok : forall tr tg tb (x : float), sized tr -> sized tg -> sized tb -> fval x <> NaN -> exists c, color_map (F:=N) tr tg tb x = Ok c.
Proof.
  intros tr tg tb x Tr Tg Tb H. destruct (color_map_cases tr tg tb x H) as [[_ ->]|(i & t & b & _ & I & _ & _ & _ & _ & ->)].
  - destruct (back_ok tr Tr) as (? & _ & ->), (back_ok tg Tg) as (? & _ & ->), (back_ok tb Tb) as (? & _ & ->). eexists. reflexivity.
  - unfold lerp.
    destruct (at_ok tr i Tr ltac:(lia)) as (? & _ & ->), (at_ok tg i Tg ltac:(lia)) as (? & _ & ->), (at_ok tb i Tb ltac:(lia)) as (? & _ & ->).
    destruct (at_ok tr (i + 1) Tr ltac:(lia)) as (? & _ & ->), (at_ok tg (i + 1) Tg ltac:(lia)) as (? & _ & ->), (at_ok tb (i + 1) Tb ltac:(lia)) as (? & _ & ->).
    eexists. reflexivity.
Qed.
Lemma color_map_nan : forall tr tg tb (x : float), fval x = NaN -> color_map (F:=N) tr tg tb x = Undef.
Proof.
  intros tr tg tb x H. unfold color_map. rewrite (clamp_nan x H).
  assert (Q : neqb (NumOps:=N) B754_nan (nofZ (NumOps:=N) 1) = false) by (cbn [neqb FL]; rewrite Beqb_fval; reflexivity).
  rewrite Q. unfold to_int64, to_range. cbn [nmul nfloor FL ntrunc].
  destruct (nofZ (NumOps:=N) 255) as [?|?| |? ? ? ?]; reflexivity.
Qed.

(** the components are in the unit interval, for formats in which the literals do not overflow *)
Hypothesis E128 : (128 <= emax)%Z.
Definition unit_entry (mk : Z * Z) : bool := ((0 <=? fst mk) && (fst mk <=? 2 ^ snd mk) && (0 <=? snd mk) && (snd mk <=? 100))%Z.
Lemma lit_val : forall mk, unit_entry mk = true -> exists v, val (lit (F:=N) mk) v /\ 0 <= v <= 1.
Proof.
  intros [m k] H. unfold unit_entry in H. cbn [fst snd] in H. apply andb_prop in H as [H H4]. apply andb_prop in H as [H H3]. apply andb_prop in H as [H1 H2].
  apply Z.leb_le in H1, H2, H3, H4. unfold lit. cbn [fst snd].
  assert (B : IZR (2 ^ k) = bpow radix2 k) by (apply (IZR_Zpower radix2); lia).
  assert (Bl : bpow radix2 k <= bpow radix2 (emax - 1)) by (apply bpow_le; lia).
  assert (Fk : format (bpow radix2 k)) by (apply format_big; auto; unfold SpecFloat.emin, Prec_lt_emax in *; lia).
  assert (M0 : 0 <= IZR m) by (apply IZR_le; lia). assert (M1 : IZR m <= bpow radix2 k) by (rewrite <- B; apply IZR_le; lia).
  pose proof (bpow_gt_0 radix2 k) as G.
  assert (V1 : val (nofZ (NumOps:=N) m) (rnd (IZR m))) by (apply ofZ_val; rewrite Rabs_pos_eq; lra).
  assert (V2 : val (nofZ (NumOps:=N) (2 ^ k)) (bpow radix2 k)).
  { rewrite <- (rnd_id prec emax (bpow radix2 k)) by exact Fk. rewrite <- B. apply ofZ_val. rewrite B, Rabs_pos_eq; lra. }
  assert (R1 : 0 <= rnd (IZR m) <= bpow radix2 k) by (split; [apply rnd_ge_gen; [apply generic_format_0|lra]|apply rnd_le_gen; auto]).
  assert (R2 : 0 <= rnd (IZR m) / bpow radix2 k <= 1).
  { split; [apply Rmult_le_pos; [lra|apply Rlt_le, Rinv_0_lt_compat; exact G]|]. apply Rmult_le_reg_r with (bpow radix2 k); auto. unfold Rdiv. rewrite Rmult_assoc, Rinv_l by lra. lra. }
  exists (rnd (rnd (IZR m) / bpow radix2 k)). split; [|apply rnd_unit; exact R2].
  apply div_val; auto; [lra|]. rewrite Rabs_pos_eq by lra. pose proof bp8. lra.
Qed.
(* the convex combination does not leave the unit interval: the error of 1 - t is rounded away *)
Lemma lerp_unit : forall (t a b : float) r u v, val t r -> val a u -> val b v -> 0 <= r <= 1 -> 0 <= u <= 1 -> 0 <= v <= 1 ->
  exists w, val (nadd (NumOps:=N) (nmul (NumOps:=N) (nsub (NumOps:=N) (nofZ (NumOps:=N) 1) t) a) (nmul (NumOps:=N) t b)) w /\ 0 <= w <= 1.
Proof.
  intros t a b r u v T A B R U V. pose proof bp8 as B8. unfold Prec_lt_emax in Hm.
  assert (S1 : val (nsub (NumOps:=N) (nofZ (NumOps:=N) 1) t) (rnd (1 - r))).
  { apply minus_val; auto; [apply one_val|]. rewrite Rabs_pos_eq; lra. }
  assert (D : 0 <= rnd (1 - r) <= 1) by (apply rnd_unit; lra).
  assert (S2 : val (nmul (NumOps:=N) (nsub (NumOps:=N) (nofZ (NumOps:=N) 1) t) a) (rnd (rnd (1 - r) * u))).
  { apply mult_val; auto. rewrite Rabs_pos_eq; nra. }
  assert (S3 : val (nmul (NumOps:=N) t b) (rnd (r * v))) by (apply mult_val; auto; rewrite Rabs_pos_eq; nra).
  assert (D2 : 0 <= rnd (rnd (1 - r) * u) <= rnd (1 - r)).
  { split; [apply rnd_ge_gen; [apply generic_format_0|nra]|apply rnd_le_gen; [apply (val_format _ _ _ _ S1)|nra]]. }
  assert (D3 : 0 <= rnd (r * v) <= r).
  { split; [apply rnd_ge_gen; [apply generic_format_0|nra]|apply rnd_le_gen; [apply (val_format _ _ _ _ T)|nra]]. }
  exists (rnd (rnd (rnd (1 - r) * u) + rnd (r * v))). split.
  - apply plus_val; auto. rewrite Rabs_pos_eq; lra.
  - split; [apply rnd_ge_gen; [apply generic_format_0|lra]|].
    assert (E : Rabs (rnd (1 - r) - (1 - r)) <= bpow radix2 (0 - prec - 1)).
    { apply rnd_error; auto; [unfold SpecFloat.emin; lia|]. cbn. rewrite Rabs_pos_eq; lra. }
    apply Rabs_le_inv in E. apply (rnd_le_mid prec emax Hp) with (d := bpow radix2 (0 + 1 - prec)); [apply (format_small 1); lia|lra|apply ulp_lower; auto; cbn; lra|].
    replace (0 - prec - 1)%Z with (-1 + (- prec))%Z in E by ring. replace (0 + 1 - prec)%Z with (1 + (- prec))%Z by ring. rewrite bpow_plus in *.
    change (bpow radix2 (-1)) with (/ 2) in *. change (bpow radix2 1) with 2. pose proof (bpow_gt_0 radix2 (- prec)). lra.
Qed.

Definition unit_table (t : list (Z * Z)) : bool := Nat.eqb (length t) 256 && forallb unit_entry t.
Lemma unit_table_sized : forall t, unit_table t = true -> sized t.
Proof. intros t H. apply andb_prop in H as [H _]. apply Nat.eqb_eq. exact H. Qed.
Lemma unit_table_in : forall t mk, unit_table t = true -> In mk t -> unit_entry mk = true.
Proof. intros t mk H I. apply andb_prop in H as [_ H]. rewrite forallb_forall in H. auto. Qed.

Definition unit_num (x : float) : Prop := exists r, val x r /\ 0 <= r <= 1.
Lemma back_unit : forall t, unit_table t = true -> exists c, back (F:=N) t = Ok c /\ unit_num c.
Proof.
  intros t T. destruct (back_ok t (unit_table_sized t T)) as (mk & I & ->). eexists. split; [reflexivity|]. apply lit_val. eapply unit_table_in; eauto.
Qed.
Lemma lerp_ok_unit : forall t i (x : float) r, unit_table t = true -> (0 <= i <= 254)%Z -> val x r -> 0 <= r <= 1 -> exists c, lerp (F:=N) x t i = Ok c /\ unit_num c.
Proof.
  intros t i x r T I X R. unfold lerp. destruct (at_ok t i (unit_table_sized t T) ltac:(lia)) as (mk & I1 & ->).
  destruct (at_ok t (i + 1) (unit_table_sized t T) ltac:(lia)) as (mk2 & I2 & ->). cbn [obind]. eexists. split; [reflexivity|].
  destruct (lit_val mk (unit_table_in _ _ T I1)) as (u & U & U1). destruct (lit_val mk2 (unit_table_in _ _ T I2)) as (v & V & V1).
  exact (lerp_unit _ _ _ _ _ _ X U V R U1 V1).
Qed.
Lemma color_map_unit : forall tr tg tb (x : float), unit_table tr = true -> unit_table tg = true -> unit_table tb = true -> fval x <> NaN ->
  exists c, color_map (F:=N) tr tg tb x = Ok c /\ unit_num (vx c) /\ unit_num (vy c) /\ unit_num (vz c).
Proof.
  intros tr tg tb x Tr Tg Tb H. destruct (color_map_cases tr tg tb x H) as [[_ ->]|(i & t & b & _ & I & V & B & _ & _ & ->)].
  - destruct (back_unit tr Tr) as (? & -> & ?), (back_unit tg Tg) as (? & -> & ?), (back_unit tb Tb) as (? & -> & ?). eexists. split; [reflexivity|cbn]. auto.
  - destruct (lerp_ok_unit tr i t b Tr I V B) as (? & -> & ?), (lerp_ok_unit tg i t b Tg I V B) as (? & -> & ?), (lerp_ok_unit tb i t b Tb I V B) as (? & -> & ?).
    eexists. split; [reflexivity|cbn]. auto.
Qed.
Lemma unit_num_nonneg : forall x, unit_num x -> xleb (Fin 0) (fval x) = true.
Proof. intros x (r & V & R). rewrite (proj1 (val_fval _ _ _ _) V). cbn. apply Rleb_iff. lra. Qed.
Lemma rgba_ok : forall c : vec3 float, xleb (Fin 0) (fval (vx c)) = true -> xleb (Fin 0) (fval (vy c)) = true -> xleb (Fin 0) (fval (vz c)) = true ->
  to_8bit_rgba (F:=N) (vec_list (F:=N) c) = Ok [the_byte (fval (vx c)); the_byte (fval (vy c)); the_byte (fval (vz c)); 255%Z].
Proof.
  intros c X Y Z. unfold to_8bit_rgba, vec_list. cbn [mapM]. change (@num N) with float in *. rewrite !to_byte_eq by assumption. reflexivity.
Qed.
End Png.
