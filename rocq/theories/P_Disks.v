(** newton_fractal.cpp in exact arithmetic: the iteration of complex_newton on g ends if and only
    if Newton's map leads near a root, and what is returned is near a root. *)
From Coq Require Import Reals Lra Psatz ZArith Lia List Bool.
From Coq Require Import setoid_ring.Ring_theory setoid_ring.Field_theory.
From Coquelicot Require Import Complex.
From Verif Require Import Num XR M_Image M_Fractal Spec_Image Spec_Fractal P_Image P_Fractal P_Basin.
Import ListNotations.
Local Open Scope R_scope.

(** *** complex numbers; [ring] and [field] with integer constants *)
Lemma C_morph : ring_morph (RtoC 0) (RtoC 1) Cplus Cmult Cminus Copp (@eq C) 0%Z 1%Z Z.add Z.mul Z.sub Z.opp Z.eqb (fun z => RtoC (IZR z)).
Proof.
  constructor; try reflexivity.
  - intros x y. rewrite plus_IZR. apply RtoC_plus.
  - intros x y. rewrite minus_IZR. apply RtoC_minus.
  - intros x y. rewrite mult_IZR. apply RtoC_mult.
  - intros x. rewrite opp_IZR. apply RtoC_opp.
  - intros x y H. apply Z.eqb_eq in H. rewrite H. reflexivity.
Qed.
Ltac Cconst t := match t with
  | RtoC (IZR ?z) => match isZcst z with true => z | _ => constr:(InitialRing.NotConstant) end
  | _ => constr:(InitialRing.NotConstant) end.
Add Field C_field_Z : C_field_theory (morphism C_morph, constants [Cconst]).

Definition cf (z : C) : cpx xr := cfin (fst z) (snd z).
Lemma Cmod_size : forall z : C, size (fst z) (snd z) = Cmod z.
Proof. intros z. unfold size, Cmod. f_equal. ring. Qed.
Lemma C_eq : forall a b : C, fst a = fst b -> snd a = snd b -> a = b.
Proof. intros [a b] [c d] H1 H2. cbn in *. subst. reflexivity. Qed.
Lemma Cmod_minus : forall a b : C, Cmod a - Cmod b <= Cmod (a + b)%C.
Proof.
  intros a b. pose proof (Cmod_triangle (a + b)%C (- b)%C) as H. replace (a + b + - b)%C with a in H by ring. rewrite Cmod_opp in H. lra.
Qed.
Lemma Cmod_int : forall z : Z, (0 <= z)%Z -> Cmod (RtoC (IZR z)) = IZR z.
Proof. intros z H. rewrite Cmod_R. apply Rabs_pos_eq. apply IZR_le. exact H. Qed.

Definition z4 (z : C) : C := (z * z * (z * z))%C.
Definition G (z : C) : C := (z4 z * (z4 z + 15) - 16)%C.
Definition G' (z : C) : C := (4 * (z * (z * z)) * (2 * z4 z + 15))%C.
Definition N (z : C) : C := (z - G z / G' z)%C.
Lemma N_map : forall z, newton_map z = N z.
Proof.
  intros z. unfold newton_map, N, G, G', z4. cbn [cpower].
  match goal with |- (_ - ?a / ?b = _ - ?c / ?d)%C => replace a with c by ring; replace b with d by ring end. reflexivity.
Qed.

Section Disks.
Context {L : limits}.
Notation X := (XR L).
Notation eps := (l_eps L).

Lemma G_parts : forall z : C, G z = (w1 (fst z) (snd z), w2 (fst z) (snd z)) /\ G' z = (d1 (fst z) (snd z), d2 (fst z) (snd z)).
Proof.
  intros [x y]. cbn [fst snd]. unfold G, G', z4, w1, w2, d1, d2, re4, im4, re3, im3. split; apply C_eq; cbn; ring.
Qed.
Lemma G'_zero : forall z : C, G' z <> 0%C -> d1 (fst z) (snd z) <> 0 \/ d2 (fst z) (snd z) <> 0.
Proof.
  intros z H. destruct (flat_or (fst z) (snd z)) as [[A B]|D]; [|exact D]. exfalso. apply H. rewrite (proj2 (G_parts z)), A, B. reflexivity.
Qed.
Lemma N_parts : forall z : C, G' z <> 0%C -> N z = (n1 (fst z) (snd z), n2 (fst z) (snd z)).
Proof.
  intros z H. destruct (G_parts z) as [A B]. unfold N, n1, n2. rewrite A, B.
  assert (D : d1 (fst z) (snd z) * d1 (fst z) (snd z) + d2 (fst z) (snd z) * d2 (fst z) (snd z) <> 0).
  { intros Z. apply G'_zero in H. pose proof (Rle_0_sqr (d1 (fst z) (snd z))). pose proof (Rle_0_sqr (d2 (fst z) (snd z))). unfold Rsqr in *. destruct H as [H|H]; apply H; nra. }
  set (d := d1 _ _) in *. set (e := d2 _ _) in *. set (w := w1 _ _). set (v := w2 _ _). clearbody d e w v.
  apply C_eq; cbn [fst snd Cminus Cplus Copp Cdiv Cmult Cinv]; field; intros E; apply D; rewrite <- E; ring.
Qed.
Lemma next_C : forall z k n, G' z <> 0%C -> complex_newton (F:=X) (Fin k) (S n) (g (F:=X)) (cf z) =
  if Rleb (Cmod (G z)) (k * eps * Cmod (N z * G' z)%C) then Ok (cf (N z)) else complex_newton (F:=X) (Fin k) n (g (F:=X)) (cf (N z)).
Proof.
  intros z k n H. unfold cf at 1. rewrite newton_next by exact (G'_zero z H). pose proof (N_parts z H) as E. destruct (G_parts z) as [A B].
  unfold cf. rewrite <- !Cmod_size. rewrite E, A, B. cbn [fst snd Cmult]. reflexivity.
Qed.
Lemma flat_C : forall z k n, G' z = 0%C -> complex_newton (F:=X) (Fin k) n (g (F:=X)) (cf z) = OutOfFuel.
Proof.
  intros z k n H. rewrite (proj2 (G_parts z)) in H. injection H as A B. apply newton_flat; assumption.
Qed.

(** *** a root is not farther than eight steps *)
Lemma quad : forall z w : C, (z - w <> 0 -> z + w <> 0 -> z - Ci * w <> 0 -> z + Ci * w <> 0 ->
  4 * (z * (z * z)) / (z4 z - z4 w) = / (z - w) + / (z + w) + / (z - Ci * w) + / (z + Ci * w))%C.
Proof.
  intros z w A B P Q. assert (I : (Ci * w * (Ci * w) = - (w * w))%C) by (destruct w; apply C_eq; cbn; ring).
  set (v := (Ci * w)%C) in *. clearbody v.
  assert (E : (z4 z - z4 w = (z - w) * (z + w) * ((z - v) * (z + v)))%C).
  { replace ((z - v) * (z + v))%C with (z * z - v * v)%C by ring. rewrite I. unfold z4. ring. }
  rewrite E. assert (E2 : (4 * (z * (z * z)) = 2 * z * ((z - w) * (z + w) + (z - v) * (z + v)))%C).
  { replace ((z - v) * (z + v))%C with (z * z - v * v)%C by ring. rewrite I. ring. }
  rewrite E2. field. auto.
Qed.
Lemma quad_prod : forall z w : C, (z4 z - z4 w = (z - w) * (z + w) * ((z - Ci * w) * (z + Ci * w)))%C.
Proof.
  intros z w. assert (I : (Ci * w * (Ci * w) = - (w * w))%C) by (destruct w; apply C_eq; cbn; ring).
  replace ((z - Ci * w) * (z + Ci * w))%C with (z * z - Ci * w * (Ci * w))%C by ring. rewrite I. unfold z4. ring.
Qed.
Definition corner : C := (sqrt 2, sqrt 2).
Lemma z4_corner : z4 corner = RtoC (-16).
Proof. pose proof sqrt2_sq as Q. unfold z4, corner. apply C_eq; cbn; [|ring]. replace (sqrt 2 * sqrt 2 - sqrt 2 * sqrt 2) with 0 by ring. rewrite Q. ring. Qed.
Lemma z4_one : z4 (RtoC 1) = RtoC 1.
Proof. unfold z4. ring. Qed.
Lemma roots_in : forall z : C, In z roots <-> exists w, (w = RtoC 1 \/ w = corner) /\ (z = w \/ z = - w \/ z = Ci * w \/ z = - (Ci * w))%C.
Proof.
  assert (E : In (RtoC 1) roots /\ In (- RtoC 1)%C roots /\ In (Ci * RtoC 1)%C roots /\ In (- (Ci * RtoC 1))%C roots /\
              In corner roots /\ In (- corner)%C roots /\ In (Ci * corner)%C roots /\ In (- (Ci * corner))%C roots).
  { assert (F : forall a b : C, a = b -> In b roots -> In a roots) by (intros a b -> H; exact H). unfold corner.
    repeat split.
    - apply F with (1, 0); [reflexivity|]. unfold roots. auto with datatypes.
    - apply F with (-1, 0); [apply C_eq; cbn; lra|]. unfold roots. auto with datatypes.
    - apply F with (0, 1); [apply C_eq; cbn; lra|]. unfold roots. auto with datatypes.
    - apply F with (0, -1); [apply C_eq; cbn; lra|]. unfold roots. auto with datatypes.
    - unfold roots. do 4 right. left. reflexivity.
    - unfold roots. do 6 right. left. reflexivity.
    - apply F with (- sqrt 2, sqrt 2); [apply C_eq; cbn; lra|]. unfold roots. do 7 right. left. reflexivity.
    - apply F with (sqrt 2, - sqrt 2); [apply C_eq; cbn; lra|]. unfold roots. do 5 right. left. reflexivity. }
  destruct E as (E1 & E2 & E3 & E4 & E5 & E6 & E7 & E8). intros z. split.
  - intros H. cbn [roots In] in H. repeat destruct H as [H|H]; try contradiction; subst z.
    + exists (RtoC 1). split; [auto|]. right; left. apply C_eq; cbn; lra.
    + exists (RtoC 1). split; [auto|]. left. reflexivity.
    + exists (RtoC 1). split; [auto|]. right; right; left. apply C_eq; cbn; lra.
    + exists (RtoC 1). split; [auto|]. right; right; right. apply C_eq; cbn; lra.
    + exists corner. split; [auto|]. left. reflexivity.
    + exists corner. split; [auto|]. right; right; right. apply C_eq; cbn; lra.
    + exists corner. split; [auto|]. right; left. apply C_eq; cbn; lra.
    + exists corner. split; [auto|]. right; right; left. apply C_eq; cbn; lra.
  - intros (w & [ -> | -> ] & [ -> |[ -> |[ -> | -> ]]]); assumption.
Qed.
Lemma inv_bound : forall (t : R) (a : C), 0 < t -> 8 * t < Cmod a -> Cmod (/ a)%C < / (8 * t).
Proof.
  intros t a T H. assert (a <> 0%C) by (intros Z; rewrite Z, Cmod_0 in H; lra). rewrite Cmod_inv by assumption. apply Rinv_lt_contravar; [|exact H]. apply Rmult_lt_0_compat; lra.
Qed.
Lemma near_root : forall z : C, G' z <> 0%C -> exists p : C, In p roots /\ Cmod (z - p)%C <= 8 * Cmod (G z / G' z)%C.
Proof.
  intros z D. set (t := Cmod (G z / G' z)%C). assert (T0 : 0 <= t) by apply Cmod_ge_0.
  assert (R : forall p q : C, In p roots -> (z + q = z - p)%C -> (exists p : C, In p roots /\ Cmod (z - p)%C <= 8 * t) \/ 8 * t < Cmod (z + q)%C /\ (z + q)%C <> 0%C).
  { intros p q H E. rewrite E. destruct (Rle_lt_dec (Cmod (z - p)%C) (8 * t)) as [Q|Q]; [left; exists p; auto|]. right. split; [exact Q|]. intros Z. rewrite Z, Cmod_0 in Q. lra. }
  assert (RI : forall w q : C, w = RtoC 1 \/ w = corner -> (q = w \/ q = - w \/ q = Ci * w \/ q = - (Ci * w))%C -> In q roots) by (intros w q A B; apply roots_in; eauto).
  assert (Q : forall w, w = RtoC 1 \/ w = corner -> (exists p : C, In p roots /\ Cmod (z - p)%C <= 8 * t) \/
    (8 * t < Cmod (z - w)%C /\ (z - w)%C <> 0%C) /\ (8 * t < Cmod (z + w)%C /\ (z + w)%C <> 0%C) /\ (8 * t < Cmod (z - Ci * w)%C /\ (z - Ci * w)%C <> 0%C) /\ (8 * t < Cmod (z + Ci * w)%C /\ (z + Ci * w)%C <> 0%C)).
  { intros w W. destruct (R w (- w)%C) as [A|A]; [apply (RI w w W); auto|ring|left; exact A|]. destruct (R (- w)%C w) as [B|B]; [apply (RI w _ W); auto|ring|left; exact B|].
    destruct (R (Ci * w)%C (- (Ci * w))%C) as [P|P]; [apply (RI w _ W); auto|ring|left; exact P|]. destruct (R (- (Ci * w))%C (Ci * w)%C) as [S|S]; [apply (RI w _ W); auto|ring|left; exact S|].
    right. auto. }
  destruct (Q (RtoC 1) (or_introl eq_refl)) as [A|((A1 & A1') & (A2 & A2') & (A3 & A3') & (A4 & A4'))]; [exact A|].
  destruct (Q corner (or_intror eq_refl)) as [B|((B1 & B1') & (B2 & B2') & (B3 & B3') & (B4 & B4'))]; [exact B|]. clear Q R RI. exfalso.
  assert (Na : (z4 z - 1 <> 0)%C).
  { rewrite <- z4_one, quad_prod. repeat apply Cmult_neq_0; assumption. }
  assert (Nb : (z4 z - RtoC (-16) <> 0)%C).
  { rewrite <- z4_corner, quad_prod. repeat apply Cmult_neq_0; assumption. }
  assert (GE : G z = ((z4 z - 1) * (z4 z - RtoC (-16)))%C) by (unfold G; ring).
  assert (G0 : G z <> 0%C) by (rewrite GE; apply Cmult_neq_0; assumption).
  assert (T : 0 < t). { unfold t. apply Cmod_gt_0. unfold Cdiv. apply Cmult_neq_0; [exact G0|]. intros Z. assert (Y : (G' z * / G' z)%C = 0%C) by (rewrite Z; ring). rewrite Cinv_r in Y by exact D. injection Y. lra. }
  assert (S : (G' z / G z = 4 * (z * (z * z)) / (z4 z - z4 1) + 4 * (z * (z * z)) / (z4 z - z4 corner))%C).
  { rewrite GE, z4_one, z4_corner. unfold G'. field. auto. }
  rewrite (quad z 1), (quad z corner) in S by assumption.
  assert (I : Cmod (G' z / G z)%C = / t).
  { unfold t. rewrite <- Cmod_inv. - f_equal. field. auto. - intros Z. unfold t in T. rewrite Z, Cmod_0 in T. lra. }
  rewrite S in I.
  assert (J : / t = / (8 * t) + / (8 * t) + / (8 * t) + / (8 * t) + (/ (8 * t) + / (8 * t) + / (8 * t) + / (8 * t))) by (field; lra).
  apply inv_bound in A1, A2, A3, A4, B1, B2, B3, B4; try exact T.
  assert (K : forall a b c d : C, Cmod (a + b + c + d)%C <= Cmod a + Cmod b + Cmod c + Cmod d).
  { intros a b c d. pose proof (Cmod_triangle (a + b + c)%C d). pose proof (Cmod_triangle (a + b)%C c). pose proof (Cmod_triangle a b). lra. }
  match type of I with Cmod (?a + ?b)%C = _ => pose proof (Cmod_triangle a b) end.
  pose proof (K (/ (z - 1)) (/ (z + 1)) (/ (z - Ci * 1)) (/ (z + Ci * 1)))%C. pose proof (K (/ (z - corner)) (/ (z + corner)) (/ (z - Ci * corner)) (/ (z + Ci * corner)))%C. lra.
Qed.

(** *** what is returned *)
Lemma step_small : forall z k, G' z <> 0%C -> Cmod (G z) <= k * eps * Cmod (N z * G' z)%C -> Cmod (G z / G' z)%C <= k * eps * Cmod (N z).
Proof.
  intros z k D H. rewrite Cmod_mult in H. rewrite Cmod_div by exact D. assert (P : 0 < Cmod (G' z)) by (apply Cmod_gt_0; exact D).
  apply Rmult_le_reg_r with (Cmod (G' z)); [exact P|]. replace (Cmod (G z) / Cmod (G' z) * Cmod (G' z)) with (Cmod (G z)) by (field; lra). lra.
Qed.
Lemma returned_near : forall k n (z : C) v, complex_newton (F:=X) (Fin k) n (g (F:=X)) (cf z) = Ok v -> exists a p : C, v = cf a /\ In p roots /\ Cmod (a - p)%C <= 9 * k * eps * Cmod a.
Proof.
  intros k n. induction n as [|n IH]; intros z v E; [discriminate|].
  destruct (Ceq_dec (G' z) 0%C) as [Z|D]; [rewrite flat_C in E by exact Z; discriminate|].
  rewrite next_C in E by exact D. destruct (Rleb_spec (Cmod (G z)) (k * eps * Cmod (N z * G' z)%C)) as [H|H]; [|exact (IH _ _ E)]. injection E as <-.
  destruct (near_root z D) as (p & Hp & Np). exists (N z), p. split; [reflexivity|]. split; [exact Hp|]. apply step_small in H; [|exact D].
  replace (N z - p)%C with (z - p + - (G z / G' z))%C by (unfold N; ring). pose proof (Cmod_triangle (z - p) (- (G z / G' z)))%C as T. rewrite Cmod_opp in T. lra.
Qed.

(** *** near a root each step halves the error *)
Lemma horner : forall (r M : R) (c : Z) (e q : C), (0 <= c)%Z -> Cmod e <= r -> Cmod q <= M -> Cmod (RtoC (IZR c) + e * q)%C <= IZR c + r * M.
Proof.
  intros r M c e q Hc He Hq. pose proof (Cmod_triangle (RtoC (IZR c)) (e * q)%C) as T. rewrite Cmod_mult, Cmod_int in T by exact Hc.
  pose proof (Cmod_ge_0 e). pose proof (Cmod_ge_0 q). assert (Cmod e * Cmod q <= r * M) by (apply Rmult_le_compat; assumption). lra.
Qed.
Lemma W_near : forall r (e : C), Cmod e <= r -> Cmod (z4 (1 + e) - 1)%C <= r * (4 + r * (6 + r * (4 + r))).
Proof.
  intros r e H. replace (z4 (1 + e) - 1)%C with (0 + e * (4 + e * (6 + e * (4 + e * 1))))%C by (unfold z4; ring).
  apply Rle_trans with (0 + r * (4 + r * (6 + r * (4 + r * 1)))); [|lra].
  repeat (apply horner; [lia|exact H|]). rewrite Cmod_1. lra.
Qed.
(* the quotient of the error by the error before *)
Lemma shrink : forall (e P D : C) (r A B : R), Cmod e <= r -> Cmod P <= A -> B <= Cmod D -> 0 < B -> r * A <= B / 2 -> D <> 0%C /\ Cmod (e * e * P / D)%C <= Cmod e / 2.
Proof.
  intros e P D r A B He HP HD HB H. assert (D0 : D <> 0%C) by (intros Z; rewrite Z, Cmod_0 in HD; lra). split; [exact D0|].
  rewrite Cmod_div, !Cmod_mult by exact D0. pose proof (Cmod_ge_0 e) as E0. pose proof (Cmod_ge_0 P) as P0.
  apply Rmult_le_reg_r with (Cmod D); [lra|]. replace (Cmod e * Cmod e * Cmod P / Cmod D * Cmod D) with (Cmod e * (Cmod e * Cmod P)) by (field; lra).
  replace (Cmod e / 2 * Cmod D) with (Cmod e * (Cmod D / 2)) by field. apply Rmult_le_compat_l; [exact E0|].
  apply Rle_trans with (r * A); [apply Rmult_le_compat; assumption|lra].
Qed.
Lemma z4_mult : forall a b : C, z4 (a * b)%C = (z4 a * z4 b)%C.
Proof. intros a b. unfold z4. ring. Qed.
Lemma z4_mod : forall a : C, Cmod (z4 a) = Cmod a ^ 4.
Proof. intros a. unfold z4. rewrite !Cmod_mult. ring. Qed.
Lemma N_quotient : forall w W h D : C, (w <> 0 -> 1 + W <> 0 -> D <> 0 -> G' (w * (1 + W)) * (w * (1 + W)) = D -> G (w * (1 + W)) = h ->
  G' (w * (1 + W)) <> 0 /\ N (w * (1 + W)) = w * (1 + W) * (1 - h / D))%C.
Proof.
  intros w W h D w0 W0 D0 E1 E2. set (z := (w * (1 + W))%C) in *. assert (z0 : z <> 0%C) by (apply Cmult_neq_0; assumption).
  assert (G0 : G' z <> 0%C) by (intros Z; apply D0; rewrite <- E1, Z; ring). split; [exact G0|]. unfold N. rewrite <- E1, E2. field. auto.
Qed.
Lemma one_plus : forall (e : C) r, Cmod e <= r -> r < 1 -> (1 + e <> 0)%C /\ 1 - r <= Cmod (1 + e)%C.
Proof.
  intros e r H R. assert (T : 1 - r <= Cmod (1 + e)%C) by (pose proof (Cmod_minus 1 e) as T; rewrite Cmod_1 in T; lra). split; [|exact T]. intros Z. rewrite Z, Cmod_0 in T. lra.
Qed.
Lemma quotient_form : forall w e h D P : C, (D <> 0 -> (1 + e) * (D - h) = D + e * e * P -> w * (1 + e) * (1 - h / D) = w * (1 + e * e * P / D))%C.
Proof.
  intros w e h D P D0 I. transitivity (w * ((1 + e) * (D - h)) / D)%C; [field; exact D0|]. rewrite I. field. exact D0.
Qed.
Lemma disk_axis : forall w e : C, z4 w = 1%C -> Cmod e <= 1 / 10 -> G' (w * (1 + e))%C <> 0%C /\ exists e', N (w * (1 + e))%C = (w * (1 + e'))%C /\ Cmod e' <= Cmod e / 2.
Proof.
  intros w e Hw He. set (W := z4 (1 + e)%C).
  assert (w0 : w <> 0%C) by (intros Z; rewrite Z in Hw; unfold z4 in Hw; apply (f_equal fst) in Hw; cbn in Hw; lra).
  destruct (one_plus e (1 / 10) He ltac:(lra)) as [e0 _].
  set (D := (4 * W * (2 * W + 15))%C). set (P := (118 + e * (350 + e * (487 + e * (479 + e * (364 + e * (188 + e * (55 + e * (7 + e * 0))))))))%C).
  assert (HW : Cmod (W - 1)%C <= 4641 / 10000) by (eapply Rle_trans; [apply (W_near (1 / 10)); exact He|lra]).
  assert (HP : Cmod P <= 1585 / 10).
  { eapply Rle_trans; [unfold P; repeat (eapply horner; [lia|exact He|]); rewrite Cmod_0; apply Rle_refl|lra]. }
  assert (HD : 344 / 10 <= Cmod D).
  { unfold D. rewrite !Cmod_mult, (Cmod_int 4) by lia. assert (A : 5359 / 10000 <= Cmod W).
    { pose proof (Cmod_minus 1 (W - 1)%C) as T. rewrite Cmod_1 in T. replace (1 + (W - 1))%C with W in T by ring. lra. }
    assert (B : 160718 / 10000 <= Cmod (2 * W + 15)%C).
    { pose proof (Cmod_minus (RtoC 17) (2 * (W - 1))%C) as T. rewrite Cmod_mult, (Cmod_int 2), (Cmod_int 17) in T by lia. replace (17 + 2 * (W - 1))%C with (2 * W + 15)%C in T by ring. lra. }
    nra. }
  destruct (shrink e P D (1 / 10) (1585 / 10) (344 / 10) He HP HD ltac:(lra) ltac:(lra)) as [D0 S].
  destruct (N_quotient w e ((W - 1) * (W + 16))%C D w0 e0 D0) as [G0 E].
  { unfold D, G'. rewrite z4_mult, Hw. fold W. transitivity (4 * z4 (w * (1 + e)) * (2 * (1 * W) + 15))%C; [unfold z4; ring|]. rewrite z4_mult, Hw. fold W. ring. }
  { unfold G. rewrite z4_mult, Hw. fold W. ring. }
  split; [exact G0|]. exists (e * e * P / D)%C. split; [|exact S]. rewrite E.
  assert (I : ((1 + e) * (D - ((W - 1) * (W + 16))) = D + e * e * P)%C) by (unfold P, D, W, z4; ring). exact (quotient_form w e _ D P D0 I).
Qed.
Lemma disk_corner : forall w e : C, z4 w = RtoC (-16) -> Cmod e <= 1 / 25 -> G' (w * (1 + e))%C <> 0%C /\ exists e', N (w * (1 + e))%C = (w * (1 + e'))%C /\ Cmod e' <= Cmod e / 2.
Proof.
  intros w e Hw He. set (W := z4 (1 + e)%C).
  assert (w0 : w <> 0%C) by (intros Z; rewrite Z in Hw; unfold z4 in Hw; apply (f_equal fst) in Hw; cbn in Hw; lra).
  destruct (one_plus e (1 / 25) He ltac:(lra)) as [e0 _].
  set (D := (64 * W * (32 * W - 15))%C). set (P := (16 * (358 + e * (2030 + e * (4987 + e * (6899 + e * (5824 + e * (3008 + e * (880 + e * (112 + e * 0)))))))))%C).
  assert (HW : Cmod (W - 1)%C <= 17 / 100) by (eapply Rle_trans; [apply (W_near (1 / 25)); exact He|lra]).
  assert (HP : Cmod P <= 16 * 448).
  { unfold P. rewrite Cmod_mult, (Cmod_int 16) by lia. apply Rmult_le_compat_l; [lra|]. eapply Rle_trans; [repeat (eapply horner; [lia|exact He|]); rewrite Cmod_0; apply Rle_refl|lra]. }
  assert (HD : 16 * (383 / 10) <= Cmod D).
  { unfold D. rewrite !Cmod_mult, (Cmod_int 64) by lia. assert (A : 83 / 100 <= Cmod W).
    { pose proof (Cmod_minus 1 (W - 1)%C) as T. rewrite Cmod_1 in T. replace (1 + (W - 1))%C with W in T by ring. lra. }
    assert (B : 1156 / 100 <= Cmod (32 * W - 15)%C).
    { pose proof (Cmod_minus (RtoC 17) (32 * (W - 1))%C) as T. rewrite Cmod_mult, (Cmod_int 32), (Cmod_int 17) in T by lia. replace (17 + 32 * (W - 1))%C with (32 * W - 15)%C in T by ring. lra. }
    nra. }
  destruct (shrink e P D (1 / 25) (16 * 448) (16 * (383 / 10)) He HP HD ltac:(lra) ltac:(lra)) as [D0 S].
  destruct (N_quotient w e (16 * (16 * W + 1) * (W - 1))%C D w0 e0 D0) as [G0 E].
  { unfold D, G'. rewrite z4_mult, Hw. fold W. transitivity (4 * z4 (w * (1 + e)) * (2 * (RtoC (-16) * W) + 15))%C; [unfold z4; ring|]. rewrite z4_mult, Hw. fold W. ring. }
  { unfold G. rewrite z4_mult, Hw. fold W. ring. }
  split; [exact G0|]. exists (e * e * P / D)%C. split; [|exact S]. rewrite E.
  assert (I : ((1 + e) * (D - (16 * (16 * W + 1) * (W - 1))) = D + e * e * P)%C) by (unfold P, D, W, z4; ring). exact (quotient_form w e _ D P D0 I).
Qed.

(** *** the disks around the roots *)
Definition held (w : C) (r : R) : Prop := forall e, Cmod e <= r -> G' (w * (1 + e))%C <> 0%C /\ exists e', N (w * (1 + e))%C = (w * (1 + e'))%C /\ Cmod e' <= Cmod e / 2.
Lemma held_step : forall (w e e' : C), N (w * (1 + e))%C = (w * (1 + e'))%C -> (G (w * (1 + e)) / G' (w * (1 + e)) = w * (e - e'))%C.
Proof.
  intros w e e' H. unfold N in H. transitivity (w * (1 + e) - (w * (1 + e) - G (w * (1 + e)) / G' (w * (1 + e))))%C; [ring|]. rewrite H. ring.
Qed.
Lemma held_ends : forall w r k, 0 < Cmod w -> 0 < r <= 1 / 10 -> held w r -> 0 < k ->
  forall n e, Cmod e <= r -> Cmod e <= 19 / 30 * (k * eps) * 2 ^ n ->
  exists e', complex_newton (F:=X) (Fin k) (S n) (g (F:=X)) (cf (w * (1 + e))%C) = Ok (cf (w * (1 + e'))%C) /\ Cmod e' <= Cmod e / 2 /\ Cmod w * Cmod e' <= k * eps * Cmod (w * (1 + e'))%C.
Proof.
  intros w r k W0 Hr Hh K. pose proof (l_eps_pos L) as E0. assert (KE : 0 < k * eps) by (apply Rmult_lt_0_compat; assumption).
  induction n as [|n IH]; intros e He Hn; destruct (Hh e He) as (D & e' & E & S); rewrite next_C by exact D; rewrite E; pose proof (held_step w e e' E) as St; pose proof (Cmod_ge_0 e) as P0;
    set (z := (w * (1 + e))%C) in *; assert (DP : 0 < Cmod (G' z)) by (apply Cmod_gt_0; exact D);
    assert (GS : Cmod (G z) = Cmod w * Cmod (e - e')%C * Cmod (G' z)) by (rewrite <- Cmod_mult, <- St, Cmod_div by exact D; field; lra);
    assert (Lo : Cmod e / 2 <= Cmod (e - e')%C) by (pose proof (Cmod_minus e (- e')%C) as T; rewrite Cmod_opp in T; unfold Cminus; lra);
    assert (Hi : Cmod (e - e')%C <= 3 / 2 * Cmod e) by (pose proof (Cmod_triangle e (- e')%C) as T; rewrite Cmod_opp in T; unfold Cminus; lra);
    assert (Ab : Cmod w * (19 / 20) <= Cmod (w * (1 + e'))%C) by (rewrite Cmod_mult; apply Rmult_le_compat_l; [lra|]; destruct (one_plus e' (1 / 20)) as [_ O]; [lra|lra|lra]).
  - rewrite Rleb_true.
    + exists e'. split; [reflexivity|]. split; [exact S|]. cbn [pow] in Hn. rewrite Rmult_1_r in Hn.
      apply Rle_trans with (k * eps * (Cmod w * (19 / 20))); [|apply Rmult_le_compat_l; lra]. nra.
    + rewrite GS, Cmod_mult. cbn [pow] in Hn. rewrite Rmult_1_r in Hn. rewrite <- Rmult_assoc. apply Rmult_le_compat_r; [lra|].
      apply Rle_trans with (k * eps * (Cmod w * (19 / 20))); [|apply Rmult_le_compat_l; lra]. nra.
  - destruct (Rleb_spec (Cmod (G z)) (k * eps * Cmod (w * (1 + e') * G' z)%C)) as [T|T].
    + exists e'. split; [reflexivity|]. split; [exact S|]. rewrite GS, Cmod_mult, <- Rmult_assoc in T. apply Rmult_le_reg_r in T; [|exact DP].
      apply Rle_trans with (Cmod w * Cmod (e - e')%C); [apply Rmult_le_compat_l; lra|exact T].
    + destruct (IH e') as (f & F1 & F2 & F3); [lra|cbn [pow] in Hn; lra|]. exists f. split; [exact F1|]. split; [lra|exact F3].
Qed.
Lemma big_power : forall a b, 0 < b -> exists n, a <= b * 2 ^ n.
Proof.
  intros a b Hb. destruct (Pow_x_infinity 2 ltac:(rewrite Rabs_pos_eq; lra) (a / b)) as [n Hn]. exists n. specialize (Hn n (Nat.le_refl n)).
  rewrite Rabs_pos_eq in Hn by (apply pow_le; lra). apply Rmult_le_reg_r with (/ b); [apply Rinv_0_lt_compat; exact Hb|]. replace (b * 2 ^ n * / b) with (2 ^ n) by (field; lra). unfold Rdiv in Hn. lra.
Qed.
Lemma held_disk : forall w r k z, 0 < Cmod w -> 0 < r <= 1 / 10 -> held w r -> 0 < k -> Cmod (z - w)%C <= r * Cmod w ->
  exists n a, complex_newton (F:=X) (Fin k) n (g (F:=X)) (cf z) = Ok (cf a) /\ Cmod (a - w)%C <= Cmod (z - w)%C / 2 /\ Cmod (a - w)%C <= k * eps * Cmod a.
Proof.
  intros w r k z W0 Hr Hh K Hz. assert (w0 : w <> 0%C) by (intros Z; rewrite Z, Cmod_0 in W0; lra). pose proof (l_eps_pos L) as E0.
  set (e := ((z - w) / w)%C). assert (Ez : z = (w * (1 + e))%C) by (unfold e; field; exact w0).
  assert (Ce : Cmod (z - w)%C = Cmod w * Cmod e) by (rewrite <- Cmod_mult; f_equal; unfold e; field; exact w0).
  assert (He : Cmod e <= r) by (rewrite Ce in Hz; nra).
  destruct (big_power (Cmod e) (19 / 30 * (k * eps))) as (n & Hn); [nra|].
  destruct (held_ends w r k W0 Hr Hh K n e He Hn) as (e' & E & Sh & T). exists (S n), (w * (1 + e'))%C. rewrite Ez at 1. split; [exact E|].
  assert (A : Cmod (w * (1 + e') - w)%C = Cmod w * Cmod e') by (rewrite <- Cmod_mult; f_equal; ring). rewrite A, Ce. split; [nra|exact T].
Qed.
Lemma root_held : forall p : C, In p roots -> exists r, 0 < r <= 1 / 10 /\ 0 < Cmod p <= 2 /\ held p r /\ 2 / 25 <= r * Cmod p.
Proof.
  assert (F : forall p : C, z4 p = 1%C -> exists r, 0 < r <= 1 / 10 /\ 0 < Cmod p <= 2 /\ held p r /\ 2 / 25 <= r * Cmod p).
  { intros p H. assert (M : Cmod p = 1).
    { pose proof (z4_mod p) as Q. rewrite H, Cmod_1 in Q. pose proof (Cmod_ge_0 p). assert (Cmod p * Cmod p = 1) by nra. nra. }
    exists (1 / 10). rewrite M. repeat split; try lra; apply disk_axis; assumption. }
  assert (F2 : forall p : C, z4 p = RtoC (-16) -> exists r, 0 < r <= 1 / 10 /\ 0 < Cmod p <= 2 /\ held p r /\ 2 / 25 <= r * Cmod p).
  { intros p H. assert (M : Cmod p = 2).
    { pose proof (z4_mod p) as Q. rewrite H in Q. replace (RtoC (-16)) with (- RtoC 16)%C in Q by ring. rewrite Cmod_opp, (Cmod_int 16) in Q by lia. pose proof (Cmod_ge_0 p). assert (Cmod p * Cmod p = 4) by nra. nra. }
    exists (1 / 25). rewrite M. repeat split; try lra; apply disk_corner; assumption. }
  intros p H. apply roots_in in H. destruct H as (w & [ -> | -> ] & [ -> |[ -> |[ -> | -> ]]]).
  - apply F. apply z4_one.
  - apply F. unfold z4. ring.
  - apply F. unfold z4. apply C_eq; cbn; ring.
  - apply F. unfold z4. apply C_eq; cbn; ring.
  - apply F2. apply z4_corner.
  - apply F2. rewrite <- z4_corner. unfold z4. ring.
  - apply F2. rewrite <- z4_corner. unfold z4. apply C_eq; cbn; ring.
  - apply F2. rewrite <- z4_corner. unfold z4. apply C_eq; cbn; ring.
Qed.
Lemma disks : forall (p z : C) k, In p roots -> 0 < k -> Cmod (z - p)%C <= 2 / 25 ->
  exists n a, complex_newton (F:=X) (Fin k) n (g (F:=X)) (cf z) = Ok (cf a) /\ Cmod (a - p)%C <= Cmod (z - p)%C / 2 /\ Cmod (a - p)%C <= k * eps * Cmod a.
Proof.
  intros p z k Hp K Hz. destruct (root_held p Hp) as (r & R & P & Hh & Q). apply held_disk with r; auto; lra.
Qed.

(** *** the iteration ends exactly if Newton's map leads to a root *)
Lemma stuck : forall z : C, G' z = 0%C -> N z = z.
Proof.
  intros z H. unfold N. rewrite H. replace (Cdiv (G z) (RtoC 0)) with (RtoC 0); [ring|]. unfold Cdiv. replace (Cinv (RtoC 0)) with (RtoC 0); [ring|]. apply C_eq; cbn; unfold Rdiv; ring.
Qed.
Lemma iter_in : forall (f : C -> C) m z, Nat.iter (S m) f z = Nat.iter m f (f z).
Proof. intros f m z. induction m as [|m IH]; [reflexivity|]. change (Nat.iter (S (S m)) f z) with (f (Nat.iter (S m) f z)). rewrite IH. reflexivity. Qed.
Lemma basin : forall k (z : C), 0 < k -> k * eps <= 1 / 250 ->
  (exists n v, complex_newton (F:=X) (Fin k) n (g (F:=X)) (cf z) = Ok v) <-> (exists m p, In p roots /\ Cmod (Nat.iter m newton_map z - p)%C <= 2 / 25).
Proof.
  intros k z K KE. split.
  - intros (n & v & E). revert z E. induction n as [|n IH]; intros z E; [discriminate|].
    destruct (Ceq_dec (G' z) 0%C) as [Z|D]; [rewrite flat_C in E by exact Z; discriminate|].
    pose proof E as E1. apply returned_near in E1. rewrite next_C in E by exact D. destruct (Rleb _ _).
    + injection E as <-. destruct E1 as (a & p & Ea & Hp & Q). assert (a = N z) by (unfold cf, cfin in Ea; injection Ea as A1 A2; apply C_eq; auto). subst a. exists 1%nat, p. split; [exact Hp|].
      cbn [Nat.iter nat_rect]. rewrite N_map. destruct (root_held p Hp) as (_ & _ & P & _ & _).
      pose proof (Cmod_triangle (N z - p) p)%C as T. replace (N z - p + p)%C with (N z) in T by ring. pose proof (Cmod_ge_0 (N z)). nra.
    + destruct (IH _ E) as (m & p & Hp & Q). exists (S m), p. rewrite iter_in, N_map. auto.
  - intros (m & p & Hp & Q). revert z Q. induction m as [|m IH]; intros z Q.
    + destruct (disks p z k Hp K Q) as (n & a & E & _). eauto.
    + rewrite iter_in, N_map in Q. destruct (Ceq_dec (G' z) 0%C) as [Z|D]; [rewrite stuck in Q by exact Z; exact (IH _ Q)|].
      destruct (IH _ Q) as (n & v & E). exists (S n). rewrite next_C by exact D. destruct (Rleb _ _); eauto.
Qed.
End Disks.
