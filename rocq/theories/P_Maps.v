(** Quantisation, colour maps and progress bar in exact arithmetic. *)
From Coq Require Import Reals Lra Psatz ZArith Lia List Bool Ascii.
From Flocq Require Import Core.
From Verif Require Import Num XR M_Tables M_Image Spec_Image P_Cost.
Import ListNotations.
Local Open Scope R_scope.

Section Maps.
Context {L : limits}.
Notation X := (XR L).

Lemma unitR_range : forall x, 0 <= unitR x <= 1.
Proof. intros x. unfold unitR, Rmax, Rmin. destruct (Rle_dec 1 x); destruct (Rle_dec 0 _); lra. Qed.
Lemma unitR_id : forall x, 0 <= x <= 1 -> unitR x = x.
Proof. intros x H. unfold unitR, Rmax, Rmin. destruct (Rle_dec 1 x); destruct (Rle_dec 0 _); lra. Qed.
Lemma unitR_lipschitz : forall x y, Rabs (unitR x - unitR y) <= Rabs (x - y).
Proof.
  intros x y. unfold unitR, Rmax, Rmin. destruct (Rle_dec 1 x), (Rle_dec 1 y); repeat destruct (Rle_dec 0 _); unfold Rabs; repeat destruct (Rcase_abs _); lra.
Qed.
Lemma clamp_fin : forall a, std_clamp (F:=X) (Fin a) (Fin 0) (Fin 1) = Fin (unitR a).
Proof.
  intros a. unfold std_clamp. cbn [nltb XR xltb]. unfold unitR, Rmax, Rmin.
  destruct (Rltb_spec a 0), (Rltb_spec 1 a); destruct (Rle_dec 1 a); destruct (Rle_dec 0 _); try lra; f_equal; lra.
Qed.

(** *** to_8bit_rgba *)
Lemma to_byte_exact : forall a, 0 <= a -> to_byte (F:=X) (Fin a) = Ok (Zfloor (255 * sqrt (Rmin a 1))).
Proof.
  intros a A. unfold to_byte. cbn [nsqrt XR nofZ nmul]. rewrite xsqrt_fin by exact A. rewrite clamp_fin. cbn [xmul].
  assert (S : 0 <= sqrt a) by apply sqrt_pos.
  assert (E : unitR (sqrt a) = sqrt (Rmin a 1)).
  { unfold Rmin. destruct (Rle_dec a 1).
    - apply unitR_id. split; [exact S|]. rewrite <- sqrt_1. apply sqrt_le_1_alt. lra.
    - rewrite sqrt_1. assert (1 <= sqrt a) by (rewrite <- sqrt_1; apply sqrt_le_1_alt; lra).
      unfold unitR, Rmax, Rmin. destruct (Rle_dec 1 (sqrt a)); destruct (Rle_dec 0 _); lra. }
  rewrite E. pose proof (unitR_range (sqrt a)) as U. rewrite E in U. set (u := sqrt (Rmin a 1)) in *.
  unfold to_uint8, to_range. cbn [ntrunc XR xtrunc]. rewrite Ztrunc_floor by lra.
  assert (B : (0 <= Zfloor (255 * u) <= 255)%Z).
  { split; [apply Zfloor_lub; cbn; lra|]. apply le_IZR. eapply Rle_trans; [apply Zfloor_lb|]. lra. }
  rewrite (proj2 (Z.leb_le _ _) (proj1 B)), (proj2 (Z.leb_le _ _) (proj2 B)). reflexivity.
Qed.
Lemma rgba_exact : forall c : vec3 R, 0 <= vx c -> 0 <= vy c -> 0 <= vz c ->
  to_8bit_rgba (F:=X) (vec_list (F:=X) (fin3 c)) = Ok (map (fun a => Zfloor (255 * sqrt (Rmin a 1))) [vx c; vy c; vz c] ++ [255%Z]).
Proof.
  intros c A B C. unfold to_8bit_rgba, vec_list, fin3, map3. cbn [mapM vx vy vz]. change (@num X) with xr. rewrite !to_byte_exact by assumption. reflexivity.
Qed.
(* four channels *)
Lemma rgba_exact4 : forall a b c d, 0 <= a -> 0 <= b -> 0 <= c -> 0 <= d ->
  to_8bit_rgba (F:=X) [Fin a; Fin b; Fin c; Fin d] = Ok (map (fun a => Zfloor (255 * sqrt (Rmin a 1))) [a; b; c; d]).
Proof.
  intros a b c d A B C D. unfold to_8bit_rgba. cbn [mapM]. change (@num X) with xr. rewrite !to_byte_exact by assumption. reflexivity.
Qed.

(** *** color maps *)
Lemma lit_fin : forall mk, lit (F:=X) mk = Fin (IZR (fst mk) / IZR (2 ^ snd mk)) \/ (2 ^ snd mk = 0)%Z.
Proof.
  intros [m k]. cbn [fst snd]. destruct (Z.eq_dec (2 ^ k) 0) as [E|E]; [right; exact E|left].
  unfold lit. cbn [fst snd ndiv nofZ XR]. apply xdiv_fin. apply IZR_neq. exact E.
Qed.
(* what is checked of a table: size, range, steps *)
Definition entry_ok (mk : Z * Z) : bool := ((0 <=? fst mk) && (fst mk <=? 2 ^ snd mk) && (0 <=? snd mk))%Z.
Definition step_ok (a b : Z * Z) : bool := (17 * Z.abs (fst a * 2 ^ snd b - fst b * 2 ^ snd a) <=? 3 * (2 ^ snd a * 2 ^ snd b))%Z.
Fixpoint steps_ok (l : list (Z * Z)) : bool :=
  match l with a :: ((b :: _) as l') => step_ok a b && steps_ok l' | _ => true end.
Definition table_ok (t : list (Z * Z)) : bool := Nat.eqb (length t) 256 && forallb entry_ok t && steps_ok t.

Lemma steps_nth : forall l k d, steps_ok l = true -> (S k < length l)%nat -> step_ok (nth k l d) (nth (S k) l d) = true.
Proof.
  induction l as [|a l IH]; intros k d H K; cbn [length] in K; [lia|]. destruct l as [|b l]; cbn [length] in K; [lia|].
  cbn [steps_ok] in H. apply andb_prop in H as [H1 H2]. destruct k as [|k]; [exact H1|]. change (nth (S k) (a :: b :: l) d) with (nth k (b :: l) d).
  change (nth (S (S k)) (a :: b :: l) d) with (nth (S k) (b :: l) d). apply IH; auto. cbn [length]. lia.
Qed.
Section Table.
Variable t : list (Z * Z).
Hypothesis T : table_ok t = true.
Lemma t_len : length t = 256%nat.
Proof. pose proof T as H. apply andb_prop in H as [H _]. apply andb_prop in H as [H _]. apply Nat.eqb_eq. exact H. Qed.
Lemma t_entry : forall k, (k < 256)%nat -> let mk := nth k t (0%Z, 0%Z) in (0 <= fst mk <= 2 ^ snd mk)%Z /\ (0 < 2 ^ snd mk)%Z.
Proof.
  intros k K. cbv zeta. pose proof T as H. apply andb_prop in H as [H _]. apply andb_prop in H as [_ H]. rewrite forallb_forall in H.
  assert (I : In (nth k t (0%Z, 0%Z)) t) by (apply nth_In; rewrite t_len; exact K). apply H in I. unfold entry_ok in I.
  apply andb_prop in I as [I I3]. apply andb_prop in I as [I1 I2]. apply Z.leb_le in I1, I2, I3. split; [lia|]. apply Z.pow_pos_nonneg; lia.
Qed.
Lemma at_entry : forall k, (k < 256)%nat -> at_ (F:=X) t (Z.of_nat k) = Ok (Fin (entry t k)).
Proof.
  intros k K. unfold at_. rewrite (proj2 (Z.ltb_ge _ _)) by lia. rewrite Nat2Z.id.
  rewrite (nth_error_nth' t (0%Z, 0%Z)) by (rewrite t_len; exact K). pose proof (t_entry k K) as [_ P]. cbv zeta in P.
  unfold entry. destruct (lit_fin (nth k t (0%Z, 0%Z))) as [->|E]; [reflexivity|lia].
Qed.
Lemma back_entry : back (F:=X) t = Ok (Fin (entry t 255)).
Proof. unfold back. rewrite t_len. change (Z.of_nat 256 - 1)%Z with (Z.of_nat 255). apply at_entry. lia. Qed.
Lemma entry_unit : forall k, (k < 256)%nat -> 0 <= entry t k <= 1.
Proof.
  intros k K. destruct (t_entry k K) as [A B]. cbv zeta in A, B. unfold entry. cbv zeta. set (mk := nth k t (0%Z, 0%Z)) in *. clearbody mk.
  assert (0 < IZR (2 ^ snd mk)) by (apply IZR_lt; exact B). assert (0 <= IZR (fst mk) <= IZR (2 ^ snd mk)) by (split; apply IZR_le; lia).
  split; [apply Rmult_le_pos; [lra|apply Rlt_le, Rinv_0_lt_compat; lra]|].
  apply Rmult_le_reg_r with (IZR (2 ^ snd mk)); auto. unfold Rdiv. rewrite Rmult_assoc, Rinv_l by lra. lra.
Qed.
Lemma entry_step : forall k, (k < 255)%nat -> Rabs (entry t (S k) - entry t k) <= 3 / 17.
Proof.
  intros k K. destruct (t_entry k ltac:(lia)) as [_ A], (t_entry (S k) ltac:(lia)) as [_ B]. cbv zeta in A, B.
  assert (St : step_ok (nth k t (0%Z, 0%Z)) (nth (S k) t (0%Z, 0%Z)) = true).
  { apply steps_nth; [pose proof T as H; apply andb_prop in H as [_ H]; exact H|rewrite t_len; lia]. }
  unfold entry. cbv zeta. destruct (nth k t (0%Z, 0%Z)) as [m e], (nth (S k) t (0%Z, 0%Z)) as [m' e']. cbn [fst snd] in *.
  apply Z.leb_le in St. cbn [fst snd] in St. set (p := (2 ^ e)%Z) in *. set (q := (2 ^ e')%Z) in *. apply IZR_lt in A, B. apply IZR_le in St.
  rewrite !mult_IZR, abs_IZR, minus_IZR, !mult_IZR in St.
  replace (IZR m' / IZR q - IZR m / IZR p) with (- (IZR m * IZR q - IZR m' * IZR p) / (IZR p * IZR q)) by (field; lra).
  assert (P : 0 < IZR p * IZR q) by (apply Rmult_lt_0_compat; lra). unfold Rdiv at 1. rewrite Rabs_mult, Rabs_Ropp, (Rabs_pos_eq (/ _)) by (apply Rlt_le, Rinv_0_lt_compat; exact P).
  apply Rmult_le_reg_r with (IZR p * IZR q); auto. rewrite Rmult_assoc, Rinv_l by lra. lra.
Qed.
(* the interpolation on one piece *)
Lemma lerp_entry : forall k s, (k < 255)%nat -> lerp (F:=X) (Fin s) t (Z.of_nat k) = Ok (Fin ((1 - s) * entry t k + s * entry t (S k))).
Proof.
  intros k s K. unfold lerp. replace (Z.of_nat k + 1)%Z with (Z.of_nat (S k)) by lia. rewrite !at_entry by lia. reflexivity.
Qed.
(* the piecewise linear function through the points (k/255, entry k) *)
Definition piece (k : nat) (c : R) : R := (1 - (255 * c - INR k)) * entry t k + (255 * c - INR k) * entry t (S k).
Definition chan (c : R) : R := if Req_EM_T c 1 then entry t 255 else piece (Z.to_nat (Zfloor (255 * c))) c.
Lemma chan_piece : forall k c, (k < 255)%nat -> INR k <= 255 * c <= INR k + 1 -> chan c = piece k c.
Proof.
  intros k c K [C1 C2]. unfold chan. assert (K2 : INR k <= 254) by (change 254 with (IZR 254); rewrite INR_IZR_INZ; apply IZR_le; lia).
  destruct (Req_EM_T c 1) as [->|C].
  - assert (E : INR k = INR 254). { assert (INR 254 = 254) by (rewrite INR_IZR_INZ; reflexivity). lra. }
    apply INR_eq in E. subst k. unfold piece. assert (INR 254 = 254) by (rewrite INR_IZR_INZ; reflexivity). rewrite H.
    replace (255 * 1 - 254) with 1 by ring. ring.
  - destruct (Rle_lt_or_eq_dec _ _ C2) as [C3|C3].
    + assert (E : Zfloor (255 * c) = Z.of_nat k).
      { apply Zfloor_imp. rewrite plus_IZR, <- INR_IZR_INZ. lra. }
      rewrite E, Nat2Z.id. reflexivity.
    + assert (K3 : (S k < 255)%nat).
      { assert (INR (S k) <> INR 255). { rewrite S_INR. intros E. assert (INR 255 = 255) by (rewrite INR_IZR_INZ; reflexivity). lra. }
        assert (S k <> 255)%nat by congruence. lia. }
      assert (E : Zfloor (255 * c) = Z.of_nat (S k)).
      { rewrite C3, <- S_INR, INR_IZR_INZ. apply Zfloor_IZR. }
      rewrite E, Nat2Z.id. unfold piece. rewrite S_INR. rewrite C3. ring.
Qed.
Lemma piece_of : forall c, 0 <= c <= 1 -> exists k, (k < 255)%nat /\ INR k <= 255 * c <= INR k + 1.
Proof.
  intros c C. destruct (Req_dec c 1) as [->|N].
  - exists 254%nat. split; [lia|]. assert (INR 254 = 254) by (rewrite INR_IZR_INZ; reflexivity). lra.
  - pose proof (Zfloor_lb (255 * c)). pose proof (Zfloor_ub (255 * c)).
    assert (0 <= Zfloor (255 * c))%Z by (apply Zfloor_lub; cbn; lra).
    assert (Zfloor (255 * c) < 255)%Z by (apply lt_IZR; lra).
    exists (Z.to_nat (Zfloor (255 * c))). split; [lia|]. rewrite INR_IZR_INZ, Z2Nat.id by lia. lra.
Qed.
Lemma chan_unit : forall c, 0 <= c <= 1 -> 0 <= chan c <= 1.
Proof.
  intros c C. destruct (piece_of c C) as (k & K & B). rewrite (chan_piece k c K B). unfold piece.
  pose proof (entry_unit k ltac:(lia)). pose proof (entry_unit (S k) ltac:(lia)). set (s := 255 * c - INR k). assert (0 <= s <= 1) by (unfold s; lra).
  clearbody s. split; nra.
Qed.
Lemma piece_lipschitz : forall k x y, (k < 255)%nat -> Rabs (piece k x - piece k y) <= 45 * Rabs (x - y).
Proof.
  intros k x y K. unfold piece. replace (_ - _) with (255 * (entry t (S k) - entry t k) * (x - y)) by ring.
  rewrite !Rabs_mult, (Rabs_pos_eq 255) by lra. pose proof (entry_step k K). pose proof (Rabs_pos (x - y)). nra.
Qed.
Lemma chan_lipschitz_up : forall n j x y, (j < 255)%nat -> (j - n = 0)%nat -> 0 <= x <= y -> INR j <= 255 * y <= INR j + 1 -> Rabs (chan x - chan y) <= 45 * Rabs (x - y).
Proof.
  induction n as [|n IH]; intros j x y J N XY Y.
  - assert (j = 0)%nat by lia. subst j. cbn [INR] in Y. rewrite (chan_piece 0 x), (chan_piece 0 y) by (cbn [INR]; auto; lra). apply piece_lipschitz. lia.
  - destruct (Rle_lt_dec (INR j) (255 * x)) as [H|H].
    + rewrite (chan_piece j x), (chan_piece j y) by (auto; lra). apply piece_lipschitz. exact J.
    + destruct j as [|j]; [cbn [INR] in H; lra|]. rewrite S_INR in *. set (m := (INR j + 1) / 255).
      assert (M : 255 * m = INR j + 1) by (unfold m; field).
      assert (A1 : Rabs (chan x - chan m) <= 45 * Rabs (x - m)) by (apply (IH j); try lia; lra).
      assert (A2 : Rabs (chan m - chan y) <= 45 * Rabs (m - y)).
      { rewrite (chan_piece (S j) m), (chan_piece (S j) y) by (rewrite ?S_INR; auto; lra). apply piece_lipschitz. exact J. }
      replace (chan x - chan y) with ((chan x - chan m) + (chan m - chan y)) by ring. eapply Rle_trans; [apply Rabs_triang|].
      rewrite (Rabs_minus_sym x m), (Rabs_minus_sym m y), (Rabs_minus_sym x y) in *.
      rewrite (Rabs_pos_eq (m - x)) in A1 by lra. rewrite (Rabs_pos_eq (y - m)) in A2 by lra. rewrite (Rabs_pos_eq (y - x)) by lra. lra.
Qed.
Lemma chan_lipschitz : forall x y, 0 <= x <= 1 -> 0 <= y <= 1 -> Rabs (chan x - chan y) <= 45 * Rabs (x - y).
Proof.
  intros x y X Y. destruct (Rle_lt_dec x y).
  - destruct (piece_of y Y) as (k & K & B). apply (chan_lipschitz_up k k); auto; lia || lra.
  - rewrite (Rabs_minus_sym (chan x)), (Rabs_minus_sym x). destruct (piece_of x X) as (k & K & B). apply (chan_lipschitz_up k k); auto; lia || lra.
Qed.
Lemma chan_node : forall k, (k <= 255)%nat -> chan (INR k / 255) = entry t k.
Proof.
  intros k K. destruct (Nat.eq_dec k 255) as [->|H].
  - unfold chan. assert (INR 255 = 255) by (rewrite INR_IZR_INZ; reflexivity). rewrite H. destruct (Req_EM_T (255 / 255) 1); [reflexivity|lra].
  - assert (E : 255 * (INR k / 255) = INR k) by field. rewrite (chan_piece k) by (try lia; lra). unfold piece. rewrite E. ring.
Qed.
End Table.

(* the model computes these functions of the clamped scalar *)
Lemma color_map_exact : forall tr tg tb s, table_ok tr = true -> table_ok tg = true -> table_ok tb = true ->
  color_map (F:=X) tr tg tb (Fin s) = Ok (fin3 (V3 (chan tr (unitR s)) (chan tg (unitR s)) (chan tb (unitR s)))).
Proof.
  intros tr tg tb s R G B. unfold color_map. cbn [nofZ XR]. rewrite clamp_fin. pose proof (unitR_range s) as U. set (c := unitR s) in *.
  cbn [neqb XR xeqb]. destruct (Reqb_spec c 1) as [E|E].
  - rewrite !back_entry by assumption. unfold chan. destruct (Req_EM_T c 1); [|contradiction]. reflexivity.
  - cbn [nmul nfloor nsub XR xmul xfloor xsub]. pose proof (Zfloor_lb (255 * c)). pose proof (Zfloor_ub (255 * c)).
    assert (A1 : (0 <= Zfloor (255 * c))%Z) by (apply Zfloor_lub; cbn; lra).
    assert (A2 : (Zfloor (255 * c) < 255)%Z) by (apply lt_IZR; lra).
    assert (J : to_int64 (F:=X) (Fin (IZR (Zfloor (255 * c)))) = Ok (Zfloor (255 * c))).
    { unfold to_int64, to_range. cbn [ntrunc XR xtrunc]. rewrite Ztrunc_IZR.
      rewrite (proj2 (Z.leb_le (- 2 ^ 63) _)), (proj2 (Z.leb_le _ (2 ^ 63 - 1))) by lia. reflexivity. }
    rewrite J. cbn [obind]. unfold wrap32. rewrite Z.mod_small by lia. replace (Zfloor (255 * c) + 2 ^ 31 - 2 ^ 31)%Z with (Zfloor (255 * c)) by ring.
    set (k := Z.to_nat (Zfloor (255 * c))). assert (K : Zfloor (255 * c) = Z.of_nat k) by (unfold k; lia). rewrite K.
    change (IZR (Z.of_nat k)) with (IZR (Z.of_nat k)). rewrite !lerp_entry by (auto; lia).
    unfold chan. destruct (Req_EM_T c 1); [contradiction|]. fold k. unfold piece. rewrite !INR_IZR_INZ. reflexivity.
Qed.
Lemma maps_ok : forallb (fun m => table_ok (fst (fst m)) && table_ok (snd (fst m)) && table_ok (snd m)) maps = true.
Proof. vm_compute. reflexivity. Qed.
Lemma in_maps_ok : forall tr tg tb, In (tr, tg, tb) maps -> table_ok tr = true /\ table_ok tg = true /\ table_ok tb = true.
Proof.
  intros tr tg tb I. pose proof maps_ok as H. rewrite forallb_forall in H. apply H in I. cbn [fst snd] in I. apply andb_prop in I as [I C]. apply andb_prop in I as [A B]. auto.
Qed.

Lemma map_range : forall tr tg tb s, In (tr, tg, tb) maps -> exists c, color_map (F:=X) tr tg tb (Fin s) = Ok (fin3 c) /\ 0 <= vx c <= 1 /\ 0 <= vy c <= 1 /\ 0 <= vz c <= 1.
Proof.
  intros tr tg tb s I. apply in_maps_ok in I as (R & G & B). rewrite color_map_exact by assumption. eexists. split; [reflexivity|]. cbn [vx vy vz].
  split; [|split]; apply chan_unit; auto; apply unitR_range.
Qed.
Lemma map_nodes : forall tr tg tb k, In (tr, tg, tb) maps -> (k <= 255)%nat -> color_map (F:=X) tr tg tb (Fin (INR k / 255)) = Ok (fin3 (V3 (entry tr k) (entry tg k) (entry tb k))).
Proof.
  intros tr tg tb k I K. apply in_maps_ok in I as (R & G & B). rewrite color_map_exact by assumption.
  assert (K2 : INR k <= 255) by (rewrite INR_IZR_INZ; apply IZR_le; lia). pose proof (pos_INR k).
  rewrite unitR_id by lra. rewrite !chan_node by assumption. reflexivity.
Qed.
(* linear between neighbouring entries *)
Lemma map_linear : forall tr tg tb k w, In (tr, tg, tb) maps -> (k < 255)%nat -> 0 <= w <= 1 ->
  let mix t := (1 - w) * entry t k + w * entry t (S k) in
  color_map (F:=X) tr tg tb (Fin ((INR k + w) / 255)) = Ok (fin3 (V3 (mix tr) (mix tg) (mix tb))).
Proof.
  intros tr tg tb k w I K W mix. apply in_maps_ok in I as (R & G & B). rewrite color_map_exact by assumption.
  assert (K2 : INR k <= 254) by (change 254 with (IZR 254); rewrite INR_IZR_INZ; apply IZR_le; lia). pose proof (pos_INR k).
  rewrite unitR_id by lra. assert (E : 255 * ((INR k + w) / 255) = INR k + w) by field.
  rewrite (chan_piece tr k), (chan_piece tg k), (chan_piece tb k) by (auto; lra). unfold piece. rewrite E. replace (INR k + w - INR k) with w by ring. reflexivity.
Qed.
Lemma map_outside : forall tr tg tb s, In (tr, tg, tb) maps ->
  (s <= 0 -> color_map (F:=X) tr tg tb (Fin s) = Ok (fin3 (V3 (entry tr 0) (entry tg 0) (entry tb 0)))) /\
  (1 <= s -> color_map (F:=X) tr tg tb (Fin s) = Ok (fin3 (V3 (entry tr 255) (entry tg 255) (entry tb 255)))).
Proof.
  intros tr tg tb s I. split; intros S.
  - pose proof (map_nodes tr tg tb 0 I ltac:(lia)) as N. rewrite <- N. apply in_maps_ok in I as (R & G & B). rewrite !color_map_exact by assumption.
    replace (unitR (INR 0 / 255)) with (unitR s); [reflexivity|]. cbn [INR]. unfold unitR, Rmax, Rmin. destruct (Rle_dec 1 s), (Rle_dec 1 (0 / 255)); repeat destruct (Rle_dec 0 _); lra.
  - pose proof (map_nodes tr tg tb 255 I ltac:(lia)) as N. rewrite <- N. apply in_maps_ok in I as (R & G & B). rewrite !color_map_exact by assumption.
    replace (unitR (INR 255 / 255)) with (unitR s); [reflexivity|]. assert (INR 255 = 255) by (rewrite INR_IZR_INZ; reflexivity). rewrite H.
    unfold unitR, Rmax, Rmin. destruct (Rle_dec 1 s), (Rle_dec 1 (255 / 255)); repeat destruct (Rle_dec 0 _); lra.
Qed.
Lemma map_lipschitz : forall tr tg tb s s' c c', In (tr, tg, tb) maps ->
  color_map (F:=X) tr tg tb (Fin s) = Ok (fin3 c) -> color_map (F:=X) tr tg tb (Fin s') = Ok (fin3 c') ->
  Rabs (vx c - vx c') <= 45 * Rabs (s - s') /\ Rabs (vy c - vy c') <= 45 * Rabs (s - s') /\ Rabs (vz c - vz c') <= 45 * Rabs (s - s').
Proof.
  intros tr tg tb s s' [c1 c2 c3] [d1 d2 d3] I E E'. apply in_maps_ok in I as (R & G & B). rewrite color_map_exact in E, E' by assumption.
  injection E as <- <- <-. injection E' as <- <- <-. cbn [vx vy vz].
  assert (H : forall t, table_ok t = true -> Rabs (chan t (unitR s) - chan t (unitR s')) <= 45 * Rabs (s - s')).
  { intros t T. eapply Rle_trans; [apply chan_lipschitz; auto; apply unitR_range|]. pose proof (unitR_lipschitz s s'). lra. }
  auto.
Qed.
Lemma gray_exact : forall s, grayscale (F:=X) (Fin s) = fin3 (V3 (unitR s) (unitR s) (unitR s)).
Proof. intros s. unfold grayscale. cbn [nofZ XR]. rewrite clamp_fin. reflexivity. Qed.

(** *** progress bar *)
Lemma progress_exact : forall p, 0 <= p <= 1 -> exists k, IZR (Z.of_nat k) <= 100 * p < IZR (Z.of_nat k) + 1 /\ (k <= 100)%nat /\
  display_progress (F:=X) (Fin p) = Ok (bar k, Z.of_nat k).
Proof.
  intros p P. pose proof (Zfloor_lb (100 * p)) as A. pose proof (Zfloor_ub (100 * p)) as B.
  assert (Z0 : (0 <= Zfloor (100 * p))%Z) by (apply Zfloor_lub; cbn; lra). assert (Z1 : (Zfloor (100 * p) <= 100)%Z) by (apply le_IZR; lra).
  exists (Z.to_nat (Zfloor (100 * p))). rewrite Z2Nat.id by exact Z0. split; [lra|]. split; [lia|].
  unfold display_progress, to_int, to_range. cbn [nmul nofZ XR xmul ntrunc xtrunc]. rewrite (Rmult_comm p 100). rewrite Ztrunc_floor by lra.
  rewrite (proj2 (Z.leb_le (- 2 ^ 31) _)), (proj2 (Z.leb_le _ (2 ^ 31 - 1))) by lia. cbn [andb obind].
  rewrite <- (Z2Nat.id (Zfloor (100 * p))) at 1 by exact Z0. rewrite cells_bar by lia. reflexivity.
Qed.
Lemma bar_length : forall k, (k <= 100)%nat -> length (bar k) = 100%nat.
Proof.
  intros k K. unfold bar. rewrite app_length, repeat_length. destruct (Nat.eqb_spec k 100); cbn [length]; [lia|]. rewrite repeat_length. lia.
Qed.
End Maps.
