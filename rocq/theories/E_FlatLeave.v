(** Concrete rectangles in double precision: one near the origin, and one that hides itself. *)
From Coq Require Import Reals Lra ZArith Lia List Bool.
From Flocq Require Import Core BinarySingleNaN.
From Verif Require Import Num XR FL Spec M_Vec M_Rng M_Hittable M_Shapes M_Materials P_FL P_Round E_Accuracy E_Nearest E_Acne.
Import ListNotations.

Section Flat.
Context {F : NumOps}.
Local Open Scope num_scope.
Definition rehits_flat (fuel : nat) (q : rect num) (r : ray num) (g : pcg) (rec : hit_record num) : bool :=
  match xy_hit q r lowest ninf rec with
  | Ok (true, rec1) =>
    match lambertian_scatter fuel (solid_color (V3 (#1) (#1) (#1))) g rec1 with
    | Ok (Some (_, out), _) => match xy_hit q out lowest ninf rec1 with Ok (true, rec2) => true | _ => false end
    | _ => false
    end
  | _ => false
  end.
End Flat.
Lemma rehits_flat_stated : forall {F : NumOps} fuel (q : rect num) r g rec, rehits_flat fuel q r g rec = true ->
  exists rec1 out g' rec2, xy_hit q r lowest ninf rec = Ok (true, rec1) /\
    (exists white, lambertian_scatter fuel (solid_color white) g rec1 = Ok (Some (white, out), g')) /\ xy_hit q out lowest ninf rec1 = Ok (true, rec2).
Proof.
  intros F fuel s r g rec H. unfold rehits_flat in H. destruct (xy_hit s r lowest ninf rec) as [[[|] rec1]| |] eqn:E1; try discriminate.
  destruct (lambertian_scatter fuel (solid_color (V3 (nofZ 1) (nofZ 1) (nofZ 1))) g rec1) as [[[[a out]|] g']| |] eqn:E2; try discriminate. destruct (xy_hit s out lowest ninf rec1) as [[[|] rec2]| |] eqn:E3; try discriminate.
  exists rec1, out, g', rec2. split; [reflexivity|]. split; [|exact E3]. exists (V3 (nofZ 1) (nofZ 1) (nofZ 1)). rewrite E2. unfold lambertian_scatter in E2. destruct (random_in_hemisphere fuel (h_normal rec1) g) as [[v g1]| |]; cbn [obind] in E2; try discriminate. injection E2 as <- _ _. reflexivity.
Qed.

(** the square at height k, and a ray up from (0, 0, -2) with direction (0, 0, 11/8) *)
Definition square64 (k : Z) : rect binary64 := Rect (d64 (-10) 0) (d64 10 0) (d64 (-10) 0) (d64 10 0) (d64 k 0).
Definition rising64 : ray binary64 := Ray (V3 (d64 0 0) (d64 0 0) (d64 (-2) 0)) (V3 (d64 0 0) (d64 0 0) (d64 11 (-3))).
Lemma high_rehits : forall lm, rehits_flat (F:=F64 lm) 100 (square64 3000) rising64 pcg_seed blank64 = true.
Proof. intros lm. vm_compute. reflexivity. Qed.
Local Open Scope R_scope.
Lemma high_square : forall lm, fval (q_k (square64 3000)) = Fin 3000 /\ exists rec1 out g' rec2,
  xy_hit (F:=F64 lm) (square64 3000) rising64 (lowest (F:=F64 lm)) (ninf (NumOps:=F64 lm)) blank64 = Ok (true, rec1) /\
  (exists white, lambertian_scatter (F:=F64 lm) 100 (solid_color (F:=F64 lm) white) pcg_seed rec1 = Ok (Some (white, out), g')) /\
  xy_hit (F:=F64 lm) (square64 3000) out (lowest (F:=F64 lm)) (ninf (NumOps:=F64 lm)) rec1 = Ok (true, rec2).
Proof.
  intros lm. split; [|exact (rehits_flat_stated (F:=F64 lm) 100 (square64 3000) rising64 pcg_seed blank64 (high_rehits lm))].
  unfold square64; cbn [q_k]. rewrite (d64_val 3000 0) by lia. f_equal. cbn. lra.
Qed.
(** the same square at height 5 is well inside the bound, and is hit *)
Lemma low_hit : forall lm, match xy_hit (F:=F64 lm) (square64 5) rising64 (d64 1000 (-52)) (B754_infinity false) blank64 with Ok (true, rec1) => is_finite (h_t rec1) | _ => false end = true.
Proof. intros lm. vm_compute. reflexivity. Qed.
Lemma low_square : forall lm, fval (q_k (square64 5)) = Fin 5 /\ fval (vz (r_orig rising64)) = Fin (-2) /\ fval (vz (r_dir rising64)) = Fin (11 / 8) /\
  lowest (F:=F64 lm) = d64 1000 (-52) /\ fval (d64 1000 (-52)) = Fin (2000 * bpow radix2 (-53)) /\ Rabs 5 + 4 * Rabs (5 - -2) <= 1989 /\
  exists rec1 T, xy_hit (F:=F64 lm) (square64 5) rising64 (d64 1000 (-52)) (B754_infinity false) blank64 = Ok (true, rec1) /\ fval (h_t rec1) = Fin T.
Proof.
  intros lm. unfold square64 at 1, rising64 at 1 2; cbn [q_k r_orig r_dir vz].
  split; [rewrite d64_val by lia; f_equal; cbn; ring|]. split; [rewrite d64_val by lia; f_equal; cbn; ring|]. split; [rewrite d64_val by lia; f_equal; cbn; lra|].
  split; [apply B2SF_inj; vm_compute; reflexivity|]. split; [rewrite d64_val by lia; f_equal; replace (-52)%Z with (1 + -53)%Z by lia; rewrite bpow_plus; change (bpow radix2 1) with 2; ring|].
  split; [rewrite !Rabs_pos_eq by lra; lra|].
  pose proof (low_hit lm) as B. destruct (xy_hit (F:=F64 lm) (square64 5) rising64 (d64 1000 (-52)) (B754_infinity false) blank64) as [[[|] rec1]| |]; try discriminate.
  exists rec1, (B2R (h_t rec1)). split; [reflexivity|]. apply val_fval. split; [exact B|reflexivity].
Qed.
(** its mirrored direction *)
Lemma up_normal : forall lm, map3 fval (r_dir rising64) = fin3 (V3 0 0 (11 / 8)) /\ map3 fval (normalize (F:=F64 lm) (r_dir rising64)) = fin3 (V3 0 0 1).
Proof.
  intros lm. assert (E : normalize (F:=F64 lm) (r_dir rising64) = V3 (d64 0 0) (d64 0 0) (d64 1 0)).
  { unfold normalize. cbv zeta. assert (G : forall (a b c a' b' c' : binary64), B2SF a = B2SF a' -> B2SF b = B2SF b' -> B2SF c = B2SF c' -> V3 a b c = V3 a' b' c') by (intros; f_equal; apply B2SF_inj; assumption).
    apply G; vm_compute; reflexivity. }
  rewrite E. unfold rising64, fin3, map3; cbn [r_dir vx vy vz]. rewrite (d64_val 0 0), (d64_val 11 (-3)), (d64_val 1 0) by lia.
  replace (IZR 0 * bpow radix2 0) with 0 by (cbn; ring). replace (IZR 1 * bpow radix2 0) with 1 by (cbn; ring). replace (IZR 11 * bpow radix2 (-3)) with (11 / 8) by (cbn; lra). split; reflexivity.
Qed.
