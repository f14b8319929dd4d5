(** Concrete pictures: hypotheses met. *)
From Coq Require Import Reals Lra Psatz ZArith Lia List Bool.
From Coquelicot Require Import Complex.
From Flocq Require Import Core BinarySingleNaN.
From Verif Require Import Num XR FL M_Image M_Fractal Spec_Image P_FL P_Round P_Render P_Fractal P_Picture P_Basin P_Halley P_Disks P_Fifths E_Interval.
Import ListNotations.
Local Open Scope R_scope.

(* two pixels, the right one three times as slow *)
Definition two_times (i j : Z) : binary64 := if (i =? 0)%Z then d64 1 0 else d64 3 0.
Lemma two_times_case : forall lm, timed 2 1 two_times /\ uneven 2 1 two_times /\
  cost_picture (F:=F64 lm) 2 1 two_times (raster 2 1) (new_image 2 1) = Ok [13; 3; 30; 255; 249; 255; 204; 255]%Z.
Proof.
  intros lm. split; [|split].
  - intros i j _ _. unfold two_times. destruct (i =? 0)%Z; [exists 1; rewrite d_1|exists 3; rewrite d_3]; split; auto; lra.
  - exists 0%Z, 0%Z, 1%Z, 0%Z. repeat split; try lia. unfold two_times. cbn [Z.eqb]. rewrite d_1, d_3. intros H. injection H. lra.
  - vm_compute. reflexivity.
Qed.

(* a picture of 46 x 46 pixels: with a wide enough tolerance every pixel is left after one step *)
Section Case46.
Context {L : limits}.
Notation X := (XR L).
Notation eps := (l_eps L).
Definition odd46 (p q : Z) (x y : R) : Prop := x = 2 * (2 * IZR p - 45) / 45 /\ y = 2 * (2 * IZR q - 45) / 45.
Lemma odd_diag : forall p q x y, odd46 p q x y -> im4 x y = 0 -> exists n, re4 x y = - (64 * IZR n ^ 4) / 45 ^ 4 /\ Z.Odd n.
Proof.
  intros p q x y (Ex & Ey) M. apply real4 in M.
  assert (Nz : forall n, 2 * (2 * IZR n - 45) / 45 <> 0).
  { intros n E. assert (E2 : IZR (2 * n - 45) = 0) by (rewrite minus_IZR, mult_IZR; lra). apply eq_IZR in E2. lia. }
  exists (2 * p - 45)%Z. split; [|exists (p - 23)%Z; lia]. rewrite minus_IZR, mult_IZR.
  destruct M as [M|[M|[M|M]]]; [exfalso; subst x; exact (Nz p M)|exfalso; subst y; exact (Nz q M)| |]; rewrite M, Ex; unfold re4; field.
Qed.
Lemma zpow4 : forall n, IZR (n ^ 4) = IZR n ^ 4.
Proof. intros n. rewrite (pow_IZR n 4). reflexivity. Qed.
Lemma zpow8 : forall n, IZR (n ^ 8) = IZR n ^ 8.
Proof. intros n. rewrite (pow_IZR n 8). reflexivity. Qed.
Lemma sloped : forall p q x y, odd46 p q x y -> d1 x y <> 0 \/ d2 x y <> 0.
Proof.
  intros p q x y O. destruct (flat_or x y) as [(A & B)|D]; [|exact D]. exfalso.
  assert (N : 16 * ((x * x + y * y) * (x * x + y * y) * (x * x + y * y)) * ((2 * re4 x y + 15) * (2 * re4 x y + 15) + (2 * im4 x y) * (2 * im4 x y)) = 0).
  { transitivity (d1 x y * d1 x y + d2 x y * d2 x y); [|rewrite A, B; ring].
    assert (E : (x * x + y * y) * (x * x + y * y) * (x * x + y * y) = re3 x y * re3 x y + im3 x y * im3 x y) by (unfold re3, im3; ring). rewrite E. unfold d1, d2. ring. }
  assert (Z0 : 0 < x * x + y * y).
  { destruct O as (-> & _). pose proof (Rle_0_sqr y). unfold Rsqr in *.
    assert (P : 0 < 2 * (2 * IZR p - 45) / 45 * (2 * (2 * IZR p - 45) / 45)); [|lra]. apply Rsqr_pos_lt. intros E. assert (E2 : IZR (2 * p - 45) = 0) by (rewrite minus_IZR, mult_IZR; lra). apply eq_IZR in E2. lia. }
  apply Rmult_integral in N as [N|N]; [assert (0 < (x * x + y * y) * (x * x + y * y) * (x * x + y * y)) by (repeat apply Rmult_lt_0_compat; exact Z0); lra|].
  apply sum_sq in N as [N1 N2]. destruct (odd_diag p q x y O ltac:(lra)) as (n & E & On).
  assert (Q : IZR (128 * n ^ 4) = IZR (15 * 45 ^ 4)) by (rewrite mult_IZR, (zpow4 n); rewrite E in N1; set (u := IZR n ^ 4) in *; replace (45 ^ 4) with 4100625 in N1 by ring; change (15 * 45 ^ 4)%Z with 61509375%Z; lra).
  apply eq_IZR in Q. assert (T : (15 * 45 ^ 4)%Z = (2 * 30754687 + 1)%Z) by reflexivity. lia.
Qed.
Lemma moved : forall p q x y, odd46 p q x y -> n1 x y <> 0 \/ n2 x y <> 0.
Proof.
  intros p q x y O. pose proof (sloped p q x y O) as D.
  assert (P : d1 x y * d1 x y + d2 x y * d2 x y <> 0) by (intros E; apply sum_sq in E; destruct E, D; contradiction).
  destruct (Req_dec (n1 x y) 0) as [A|A]; [|left; exact A]. destruct (Req_dec (n2 x y) 0) as [B|B]; [exfalso|right; exact B].
  assert (E1 : x * d1 x y - y * d2 x y = w1 x y).
  { assert (E : n1 x y * d1 x y - n2 x y * d2 x y = x * d1 x y - y * d2 x y - w1 x y) by (unfold n1, n2; field; exact P). rewrite A, B in E. lra. }
  assert (E2 : x * d2 x y + y * d1 x y = w2 x y).
  { assert (E : n1 x y * d2 x y + n2 x y * d1 x y = x * d2 x y + y * d1 x y - w2 x y) by (unfold n1, n2; field; exact P). rewrite A, B in E. lra. }
  set (r := re4 x y) in *. set (m := im4 x y) in *.
  assert (F1 : 7 * (r * r - m * m) + 45 * r + 16 = 0).
  { transitivity (x * d1 x y - y * d2 x y - w1 x y); [|lra]. unfold r, m, d1, d2, w1, re4, im4, re3, im3. ring. }
  assert (F2 : m * (14 * r + 45) = 0).
  { transitivity (x * d2 x y + y * d1 x y - w2 x y); [|lra]. unfold r, m, d1, d2, w2, re4, im4, re3, im3. ring. }
  apply Rmult_integral in F2 as [F2|F2].
  - destruct (odd_diag p q x y O F2) as (n & E & On). fold r in E. rewrite F2 in F1.
    assert (Q : IZR (7 * 256 * n ^ 8 - 180 * 45 ^ 4 * n ^ 4 + 45 ^ 8) = IZR 0).
    { rewrite plus_IZR, minus_IZR, !mult_IZR, (zpow8 n), (zpow4 n). rewrite E in F1.
      replace (IZR n ^ 8) with (IZR n ^ 4 * IZR n ^ 4) by ring. set (u := IZR n ^ 4) in *. replace (45 ^ 4) with 4100625 in F1 by ring. change (45 ^ 4)%Z with 4100625%Z. change (45 ^ 8)%Z with 16815125390625%Z.
      apply Rmult_eq_reg_l with (16 / (4100625 * 4100625)); lra. }
    apply eq_IZR in Q. assert (T : (45 ^ 8)%Z = (2 * 8407562695312 + 1)%Z) by reflexivity. lia.
  - assert (r = - (45 / 14)) by lra. pose proof (Rle_0_sqr m). unfold Rsqr in *. subst r. rewrite H in F1. lra.
Qed.
Lemma one_step : forall l, (forall x y, In (x, y) l -> (d1 x y <> 0 \/ d2 x y <> 0) /\ (n1 x y <> 0 \/ n2 x y <> 0)) ->
  exists k, 0 < k /\ forall k' x y, k <= k' -> In (x, y) l -> complex_newton (F:=X) (Fin k') 1 (g (F:=X)) (cfin x y) = Ok (cfin (n1 x y) (n2 x y)).
Proof.
  induction l as [|[x y] l IH]; intros H; [exists 1; split; [lra|intros k' x y _ []]|].
  destruct IH as (k & K & A); [intros a b I; apply H; right; exact I|]. destruct (H x y (or_introl eq_refl)) as (D & N). pose proof (l_eps_pos L) as Ep.
  set (sz := size (n1 x y * d1 x y - n2 x y * d2 x y) (n1 x y * d2 x y + n2 x y * d1 x y)).
  assert (Sq : forall a b, a <> 0 \/ b <> 0 -> 0 < a * a + b * b).
  { intros a b Q. pose proof (Rle_0_sqr a). pose proof (Rle_0_sqr b). unfold Rsqr in *. destruct Q as [Q|Q]; [assert (0 < a * a) by (apply Rsqr_pos_lt; exact Q)|assert (0 < b * b) by (apply Rsqr_pos_lt; exact Q)]; lra. }
  assert (Z : 0 < sz).
  { unfold sz, size. apply sqrt_lt_R0. replace (_ + _) with ((n1 x y * n1 x y + n2 x y * n2 x y) * (d1 x y * d1 x y + d2 x y * d2 x y)) by ring. apply Rmult_lt_0_compat; apply Sq; assumption. }
  exists (k + size (w1 x y) (w2 x y) / (eps * sz)). assert (W0 : 0 <= size (w1 x y) (w2 x y)) by apply sqrt_pos.
  assert (ES : 0 < eps * sz) by (apply Rmult_lt_0_compat; assumption). assert (Q0 : 0 <= size (w1 x y) (w2 x y) / (eps * sz)) by (apply Rmult_le_pos; [exact W0|apply Rlt_le, Rinv_0_lt_compat; exact ES]).
  split; [lra|]. intros k' a b Hk [I|I]; [injection I as <- <-|apply A; [lra|exact I]].
  rewrite newton_next by exact D. fold sz. rewrite (proj2 (Rleb_iff _ _)); [reflexivity|].
  replace (size (w1 x y) (w2 x y)) with (size (w1 x y) (w2 x y) / (eps * sz) * (eps * sz)) by (field; split; lra). rewrite Rmult_assoc. apply Rmult_le_compat_r; lra.
Qed.
Lemma ends_46 : exists k, 0 < k /\ forall i j, (0 <= i < 46)%Z -> (0 <= j < 46)%Z ->
  complex_newton (F:=X) (Fin k) 1 (g (F:=X)) (to_complex (F:=X) (@Map X 46 46 (Fin (-2)) (Fin (-2))) i j) <> OutOfFuel.
Proof.
  set (pt := fun ij : Z * Z => (2 * (2 * IZR (fst ij) - 45) / 45, 2 * (2 * IZR (snd ij) - 45) / 45)).
  destruct (one_step (map pt (raster 46 46))) as (k & K & A).
  - intros x y I. apply in_map_iff in I as ([p q] & E & _). unfold pt in E. cbn [fst snd] in E. injection E as <- <-.
    split; [apply (sloped p q)|apply (moved p q)]; split; reflexivity.
  - exists k. split; [exact K|]. intros i j I J. rewrite to_complex_exact by lia. rewrite Rabs_left by lra.
    replace (-2 + 2 * - -2 * IZR i / (46 - 1)) with (2 * (2 * IZR i - 45) / 45) by field. replace (-2 + 2 * - -2 * IZR j / (46 - 1)) with (2 * (2 * IZR j - 45) / 45) by field.
    rewrite A; [discriminate|lra|]. apply in_map_iff. exists (i, j). split; [reflexivity|]. apply raster_schedule. auto.
Qed.
End Case46.

(* a function that computes powers *)
Definition cpow_case (z : cpx xr) (n : Z) : cpx xr :=
  match z with Cpx (Fin x) (Fin y) => let p := powC (Z.to_nat n) x y in cfin (fst p) (snd p) | _ => Cpx NaN NaN end.
Lemma powers_case : powers cpow_case /\ forall n, cpow_case (Cpx NaN NaN) n = Cpx NaN NaN.
Proof. split; [|reflexivity]. intros n x y. unfold cpow_case, cfin. rewrite Nat2Z.id. reflexivity. Qed.

(* a number within the disks around 1 of both iterations *)
Lemma corner_near : Cmod (Cminus (21 / 20, 1 / 20) (1, 0)) <= 2 / 25.
Proof.
  unfold Cmod, Cminus, Cplus, Copp. cbn [fst snd]. rewrite <- (sqrt_Rsqr (2 / 25)) by lra. apply sqrt_le_1_alt. unfold Rsqr. lra.
Qed.
Lemma one_root : In (1, 0) roots.
Proof. unfold roots. cbn [In]. auto. Qed.
Lemma double_eps : 1000 * l_eps double_limits <= 1 / 250.
Proof. cbn. lra. Qed.
Lemma disk_case : In (1, 0) roots /\ Cmod (Cminus (21 / 20, 1 / 20) (1, 0)) <= 2 / 25 /\ 0 < 1000 /\ 1000 * l_eps double_limits <= 1 / 250.
Proof. split; [exact one_root|]. split; [exact corner_near|]. split; [lra|exact double_eps]. Qed.
Lemma near_case : forall L : limits, exists fuel v, complex_newton (F:=XR L) (Fin 1) fuel (g (F:=XR L)) (cfin (21 / 20) (1 / 20)) = Ok v.
Proof.
  intros L. destruct (disks (L:=L) (1, 0) (21 / 20, 1 / 20) 1 one_root Rlt_0_1 corner_near) as (n & a & E & _). exists n, (cf a). exact E.
Qed.
Lemma hue_case : 1000 * l_eps double_limits <= 1 / 30 /\ forall L : limits, exists fuel v, complex_newton (F:=XR L) (Fin 1) fuel (g (F:=XR L)) (cfin (21 / 20) (1 / 20)) = Ok v.
Proof. split; [pose proof double_eps; lra|exact near_case]. Qed.
Lemma halley_case : l_eps double_limits <= 1 / 100 /\ powers cpow_case /\ (forall n, cpow_case (Cpx NaN NaN) n = Cpx NaN NaN) /\
  forall L : limits, exists fuel v, complex_halley (F:=XR L) fuel (fifth_roots_halley (F:=XR L) cpow_case) (cfin (21 / 20) (1 / 20)) = Ok v.
Proof.
  split; [pose proof double_eps; lra|]. destruct powers_case as [P Q]. split; [exact P|]. split; [exact Q|].
  intros L. destruct (fifth_disks (L:=L) cpow_case P 0 (21 / 20, 1 / 20)) as (n & a & E & _); [lia| |exists n, (cf a); exact E].
  rewrite fifth_0. eapply Rle_trans; [exact corner_near|lra].
Qed.
