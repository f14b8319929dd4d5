(** Concrete images, colours and fractals: hypotheses met, and counterexamples. *)
From Coq Require Import Reals Lra ZArith Lia List Bool Ascii.
From Flocq Require Import Core BinarySingleNaN.
From Verif Require Import Num XR FL Spec M_Vec M_Rng M_Hittable M_Materials M_Tables M_Image M_Fractal Spec_Image P_Vec P_FL P_Camera P_Png P_Cost P_Maps P_Render P_Viewport P_Fractal P_Image E_Interval.
Import ListNotations.
Local Open Scope R_scope.

(* the camera of render.cpp-like scenes: from (13,2,3) to the origin *)
Lemma camera_case : V3 13 2 3 <> V3 0 0 0 /\ crossR (V3 0 1 0) (subR (V3 13 2 3) (V3 0 0 0)) <> zeroR /\ 0 < 20 < 180.
Proof. split; [intros H; injection H; lra|]. split; [|lra]. unfold crossR, subR, zeroR. cbn [vx vy vz]. intros H. injection H. lra. Qed.
(* two schedules of the bytes of a 2 x 1 image *)
Definition bytes_up : list (Z * Z * Z) := map (fun c => (0, 0, c)%Z) [0; 1; 2; 3]%Z ++ map (fun c => (1, 0, c)%Z) [0; 1; 2; 3]%Z.
Lemma store_schedule_rev : forall w h o, store_schedule w h o -> store_schedule w h (rev o).
Proof. intros w h o (N & S). split; [apply NoDup_rev; exact N|]. intros i j c. rewrite <- in_rev. apply S. Qed.
Lemma frame_case : store_schedule 2 1 bytes_up /\ store_schedule 2 1 (rev bytes_up) /\
  stores (pixel_stores 2 1 (fun i j c => 10 * i + c)%Z bytes_up) (new_image 2 1) = Ok [0; 1; 2; 3; 10; 11; 12; 13]%Z.
Proof.
  assert (S : store_schedule 2 1 bytes_up).
  { split.
    - unfold bytes_up. cbn [map app]. repeat (constructor; [cbn; intuition congruence|]). constructor.
    - intros i j c. unfold bytes_up. rewrite in_app_iff, !in_map_iff. split.
      + intros [(k & E & K)|(k & E & K)]; injection E as <- <- <-; cbn [In] in K; lia.
      + intros (I & J & C). assert (J0 : j = 0%Z) by lia. subst j. assert (K : In c [0; 1; 2; 3]%Z) by (cbn [In]; lia).
        assert (I0 : i = 0%Z \/ i = 1%Z) by lia. destruct I0 as [-> | ->]; [left|right]; exists c; auto. }
  split; [exact S|]. split; [apply store_schedule_rev; exact S|]. vm_compute. reflexivity.
Qed.
(* colours with components 1/4, 4 and +infinity *)
Lemma quantise_case : forall lm, nonneg (d64 1 (-2)) /\ nonneg (d64 4 0) /\ nonneg (B754_infinity false : binary64) /\
  to_8bit_rgba (F:=F64 lm) (vec_list (F:=F64 lm) (V3 (d64 1 (-2)) (d64 4 0) (B754_infinity false))) = Ok [127; 255; 255; 255]%Z.
Proof.
  intros lm. assert (A : fval (d64 1 (-2)) = Fin (/ 4)) by (fv; f_equal; lra). assert (B : fval (d64 4 0) = Fin 4) by (fv; f_equal; lra).
  split; [unfold nonneg; rewrite A; apply Rleb_iff; lra|]. split; [unfold nonneg; rewrite B; apply Rleb_iff; lra|]. split; [reflexivity|]. vm_compute. reflexivity.
Qed.
Lemma maps_case : In (viridis_r, viridis_g, viridis_b) maps.
Proof. cbn. auto. Qed.
(* the largest double below 1: 255s rounds to 255(1 - 2^-53) < 255 *)
Lemma below_one_case : forall lm, exists c, color_map (F:=F64 lm) viridis_r viridis_g viridis_b (d64 9007199254740991 (-53)) = Ok c.
Proof.
  intros lm. assert (V : fval (d64 9007199254740991 (-53)) <> NaN) by (fv; discriminate).
  destruct (map_defined 53 1024 Hprec53 Hmax1024 lm ltac:(lia) ltac:(lia) _ _ _ _ maps_case V) as (c & _ & _ & _ & E & _). exists c. exact E.
Qed.
Lemma times_case : all_times [d64 1 0; d64 3 0] /\ varied [d64 1 0; d64 3 0].
Proof.
  split.
  - intros t [<-|[<-|[]]]; [exists 1; rewrite d_1|exists 3; rewrite d_3]; split; auto; lra.
  - exists (d64 1 0), (d64 3 0). cbn [In]. rewrite d_1, d_3. split; [auto|]. split; [auto|]. intros H. injection H. lra.
Qed.
Lemma cost_equal_case : forall lm, fval (cost_scalar (F:=F64 lm) [d64 1 0; d64 1 0] (d64 1 0)) = NaN /\ cost_pixel (F:=F64 lm) [d64 1 0; d64 1 0] (d64 1 0) = Undef.
Proof.
  intros lm. apply (cost_equal 53 1024 Hprec53 Hmax1024 lm ltac:(lia) _ _ 1); [lra|cbn; auto|]. intros t [<-|[<-|[]]]; exact d_1.
Qed.
(* 0.3 is below 3/10, but its product with 100 rounds to 30 *)
Lemma progress_case : forall lm, exists (p : binary64) r k, fval p = Fin r /\ 0 <= r <= 1 /\
  display_progress (F:=F64 lm) p = Ok (bar k, Z.of_nat k) /\ 100 * r < INR k.
Proof.
  intros lm. exists (d64 5404319552844595 (-54)), (5404319552844595 / 18014398509481984), 30%nat.
  split; [fv; f_equal; lra|]. split; [lra|]. split; [vm_compute; reflexivity|]. replace (INR 30) with 30 by (cbn; lra). lra.
Qed.
Lemma roots_case : In (sqrt 2, - sqrt 2) roots.
Proof. cbn. auto 10. Qed.
Lemma two_schedules : schedule 2 2 rows_up /\ schedule 3 5 (raster 3 5).
Proof. split; [apply rows_schedule; auto|apply raster_schedule]. Qed.
