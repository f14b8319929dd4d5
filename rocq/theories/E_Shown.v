(** Cases for rendering in floating point, and the sizes of the pictures. *)
From Coq Require Import String Reals Lra ZArith Lia List Bool.
From Flocq Require Import Core BinarySingleNaN.
From Verif Require Import Spec_Random Num XR FL Spec Spec_Image Spec_Nearest Spec_Shown M_Vec M_Rng M_Hittable M_Materials M_Shapes M_Image M_World M_Programs M_Fog
  P_FL P_Round P_Shown P_ShownPrograms P_Render E_Random E_Accuracy E_Nearest E_Acne.
Import ListNotations.
Local Open Scope R_scope.

Lemma height32 : forall lm, height_of (F:=F32 lm) 1800 (dec (F:=F32 lm) 16 10) = Ok 1125%Z.
Proof. intros lm. vm_compute. reflexivity. Qed.
Lemma height64 : forall lm, height_of (F:=F64 lm) 1200 (dec (F:=F64 lm) 16 10) = Ok 750%Z.
Proof. intros lm. vm_compute. reflexivity. Qed.
Lemma height64_can : forall lm, to_int64 (F:=F64 lm) (ndiv (NumOps:=F64 lm) (nofZ (NumOps:=F64 lm) 1200) (dec (F:=F64 lm) 16 10)) = Ok 750%Z.
Proof. intros lm. vm_compute. reflexivity. Qed.
Lemma height64_square : forall lm, to_int64 (F:=F64 lm) (ndiv (NumOps:=F64 lm) (nofZ (NumOps:=F64 lm) 800) (nofZ (NumOps:=F64 lm) 1)) = Ok 800%Z.
Proof. intros lm. vm_compute. reflexivity. Qed.

Section Single.
Variable lm : libm binary32.
Notation N := (F32 lm).
Lemma spheres32 : forall d order s, (forall n, at_most 24 128 1 (d n)) -> schedule 1800 1125 order -> word_state 24 128 Hprec24 Hmax128 lm s ->
  exists k img, (forall fuel, (k <= fuel)%nat -> run (F:=N) (render_spheres (F:=N) d) fuel order s = Ok img) /\
    List.length img = Z.to_nat (4 * 1800 * 1125) /\ Forall byte img /\ forall i j z, (0 <= i < 1800)%Z -> (0 <= j < 1125)%Z -> nth (offset 1800 1125 i j 3) img z = 255%Z.
Proof. intros d order s U So W. apply (spheres_float 24 128 Hprec24 Hmax128 lm); try assumption; try lia. apply height32. Qed.
Lemma lights32 : forall order s, schedule 1800 1125 order -> word_state 24 128 Hprec24 Hmax128 lm s ->
  exists k img, (forall fuel, (k <= fuel)%nat -> run (F:=N) (with_lights (F:=N)) fuel order s = Ok img) /\
    List.length img = Z.to_nat (4 * 1800 * 1125) /\ Forall byte img /\ forall i j z, (0 <= i < 1800)%Z -> (0 <= j < 1125)%Z -> nth (offset 1800 1125 i j 3) img z = 255%Z.
Proof. intros order s So W. apply (lights_float 24 128 Hprec24 Hmax128 lm); try assumption; try lia. apply height32. Qed.
End Single.

Section Double.
Variable lm : libm binary64.
Notation N := (F64 lm).
Lemma can64 : forall order s, schedule 1200 750 order -> word_state 53 1024 Hprec53 Hmax1024 lm s ->
  exists k img, (forall fuel, (k <= fuel)%nat -> run (F:=N) (cylinder_program (F:=N)) fuel order s = Ok img) /\
    List.length img = Z.to_nat (4 * 1200 * 750) /\ Forall byte img /\ forall i j z, (0 <= i < 1200)%Z -> (0 <= j < 750)%Z -> nth (offset 1200 750 i j 3) img z = 255%Z.
Proof. intros order s So W. apply (can_float 53 1024 Hprec53 Hmax1024 lm); try assumption; try lia. apply height64_can. Qed.
Lemma frame64 : forall tex i p order s, (forall rec, at_most3 53 1024 1 (tex rec)) -> frame_program (F:=N) tex i = Ok p -> schedule 1200 750 order -> word_state 53 1024 Hprec53 Hmax1024 lm s ->
  exists k img, (forall fuel, (k <= fuel)%nat -> run (F:=N) p fuel order s = Ok img) /\
    List.length img = Z.to_nat (4 * 1200 * 750) /\ Forall byte img /\ forall i j z, (0 <= i < 1200)%Z -> (0 <= j < 750)%Z -> nth (offset 1200 750 i j 3) img z = 255%Z.
Proof. intros tex i p order s T E So W. apply (frame_float 53 1024 Hprec53 Hmax1024 lm) with tex i; try assumption; try lia. apply height64. Qed.
Lemma disk_made : forall tex, exists p, disk_program (F:=N) tex = Ok p.
Proof.
  intros tex. unfold disk_program. cbv zeta.
  assert (A : match make_disk (F:=N) (nofZ (NumOps:=N) 1) (V3 (nofZ (NumOps:=N) 0) (nofZ (NumOps:=N) 0) (nofZ (NumOps:=N) 0))
      (V3 (ndiv (NumOps:=N) (nofZ (NumOps:=N) 1) (nsqrt (NumOps:=N) (nofZ (NumOps:=N) 2))) (nofZ (NumOps:=N) 0) (nneg (NumOps:=N) (ndiv (NumOps:=N) (nofZ (NumOps:=N) 1) (nsqrt (NumOps:=N) (nofZ (NumOps:=N) 2))))) with Ok _ => true | _ => false end = true)
    by (vm_compute; reflexivity).
  assert (B : let '(o, d) := backlight (F:=N) (make_camera (F:=N) (V3 (nofZ (NumOps:=N) 0) (nofZ (NumOps:=N) (-4)) (nofZ (NumOps:=N) 2)) (V3 (nofZ (NumOps:=N) 0) (nofZ (NumOps:=N) 0) (nofZ (NumOps:=N) 0)) (V3 (nofZ (NumOps:=N) 0) (nofZ (NumOps:=N) 0) (nofZ (NumOps:=N) 1)) (nofZ (NumOps:=N) 40) (nofZ (NumOps:=N) 1)) in
      match make_disk (F:=N) (nofZ (NumOps:=N) 10) o d with Ok _ => true | _ => false end = true) by (vm_compute; reflexivity).
  destruct (backlight _) as [o d]. destruct (make_disk (nofZ 1) _ _) as [k1| |]; try discriminate. destruct (make_disk (nofZ 10) o d) as [k2| |]; try discriminate.
  cbn [obind omap]. eexists. reflexivity.
Qed.
Lemma disk64 : forall tex, (forall rec, at_most3 53 1024 1 (tex rec)) -> exists p, disk_program (F:=N) tex = Ok p /\
  forall order s, schedule 800 800 order -> word_state 53 1024 Hprec53 Hmax1024 lm s ->
  exists k img, (forall fuel, (k <= fuel)%nat -> run (F:=N) p fuel order s = Ok img) /\
    List.length img = Z.to_nat (4 * 800 * 800) /\ Forall byte img /\ forall i j z, (0 <= i < 800)%Z -> (0 <= j < 800)%Z -> nth (offset 800 800 i j 3) img z = 255%Z.
Proof.
  intros tex T. destruct (disk_made tex) as (p & E). exists p. split; [exact E|]. intros order s So W.
  apply (disk_float 53 1024 Hprec53 Hmax1024 lm) with tex; try assumption; try lia. apply height64_square.
Qed.
Lemma glass_height64 : glass_height (F:=N) = Ok 1800%Z.
Proof. vm_compute. reflexivity. Qed.
Lemma glass64 : forall order s, schedule 2880 1800 order -> word_state 53 1024 Hprec53 Hmax1024 lm s ->
  exists k img, (forall fuel, (k <= fuel)%nat -> glass_run (F:=N) fuel order s = Ok img) /\
    List.length img = Z.to_nat (4 * 2880 * 1800) /\ Forall byte img /\ forall i j z, (0 <= i < 2880)%Z -> (0 <= j < 1800)%Z -> nth (offset 2880 1800 i j 3) img z = 255%Z.
Proof. intros order s So W. apply (glass_float 53 1024 Hprec53 Hmax1024 lm); try assumption; try lia. apply glass_height64. Qed.
End Double.

(** *** cases *)
Lemma half32 : at_most 24 128 1 (d32 1 (-1)).
Proof. exists (1 * bpow radix2 (-1)). split; [apply d32_val; lia|]. change (bpow radix2 (-1)) with (/ 2). lra. Qed.
Lemma fresh_words : forall lm, word_state 24 128 Hprec24 Hmax128 lm (fresh32 lm).
Proof. intros lm k. apply seed_word. Qed.
Lemma single_case : forall lm, (forall n : nat, at_most 24 128 1 ((fun _ => d32 1 (-1)) n)) /\ schedule 1800 1125 (raster 1800 1125) /\ word_state 24 128 Hprec24 Hmax128 lm (fresh32 lm).
Proof. intros lm. split; [intros n; exact half32|]. split; [apply raster_schedule|apply fresh_words]. Qed.
(** a libm for which the lamp of a frame can be made: it thinks that all cosines are 1 and all sines 0 *)
Definition flat_libm : libm binary64 :=
  let one : binary64 := d64 1 0 in let zero : binary64 := d64 0 0 in
  {| lm_pi := one; lm_sin := fun _ => zero; lm_cos := fun _ => one; lm_tan := fun _ => one; lm_asin := fun _ => one; lm_acos := fun _ => one; lm_atan2 := fun _ _ => one;
     lm_exp := fun _ => one; lm_log := fun _ => one; lm_cbrt := fun _ => one; lm_round := fun x => x |}.
Lemma frame_case : forall tex, exists p, frame_program (F:=F64 flat_libm) tex 0 = Ok p.
Proof.
  intros tex. unfold frame_program. assert (A : match frame_lamp (F:=F64 flat_libm) 0 with Ok _ => true | _ => false end = true) by (vm_compute; reflexivity).
  destruct (frame_lamp 0) as [k| |]; try discriminate. cbn [omap obind]. eexists. reflexivity.
Qed.
Lemma white64 : forall (lm : libm binary64) rec, at_most3 53 1024 1 (solid_color (F:=F64 lm) (V3 (d64 1 0) (d64 1 0) (d64 1 0)) rec).
Proof.
  intros lm rec. assert (U : at_most 53 1024 1 (d64 1 0)).
  { exists (1 * bpow radix2 0). split; [apply d64_val; lia|]. change (bpow radix2 0) with 1. lra. }
  repeat split; exact U.
Qed.
