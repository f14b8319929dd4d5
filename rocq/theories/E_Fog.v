(** Cases for the theorems about scenes with a medium. *)
From Coq Require Import Reals ZArith Lra Lia List Bool.
From Verif Require Import Spec_Random Num XR Spec Spec_Scene Spec_Light Spec_Shapes Spec_Image Spec_World Spec_Shades Spec_Fog M_Vec M_Rng M_Hittable M_Materials M_Shapes M_Image M_World M_Programs M_Fog
  P_World P_Furnace P_Fog P_Glass P_Render E_Algebra E_World E_Programs.
Import ListNotations.
Local Open Scope R_scope.
Notation D := double_limits.

(** a ball of fog with a glass ball in it, over a matte floor *)
Definition misty : list (thing (F:=XR D) * material_ptr (F:=XR D)) :=
  [(Fog (F:=XR D) (of_sphere (F:=XR D) (finsphere (Sphere (V3 0 1 0) 2))) (Fin (1 / 10)), (0%nat, Isotropic (F:=XR D) (paint (V3 1 1 1))));
   (Plain (F:=XR D) (of_sphere (F:=XR D) (finsphere (Sphere (V3 0 1 0) 1))), (1%nat, Dielectric (F:=XR D) (Fin (3 / 2)) (paint (V3 0 0 0))));
   (Plain (F:=XR D) (of_xz (F:=XR D) (finrect (Rect (-10) 10 (-10) 10 0))), (2%nat, Lambertian (F:=XR D) (paint (V3 (1 / 2) (1 / 2) (1 / 2)))))].
Lemma demo_state_fair : fair_state demo_state.
Proof. split; [exact demo_state_good|]. intros n u E. cbn in E. injection E as <-. lra. Qed.
Lemma misty_placed : forall t m, In (t, m) misty -> well_placed (1 / 100) t (snd m).
Proof.
  pose proof double_min_small as S. pose proof (l_min_pos D) as P. pose proof paints as (P1 & _ & _ & P4 & P5).
  intros t m H. destruct H as [H|[H|[H|[]]]]; injection H as <- <-; cbn [snd].
  - apply Placed_fog; [apply Closed_sphere; cbn; lra|lra|apply paint_good; assumption].
  - apply Placed_plain; [apply Solid_sphere; cbn; lra|apply Sound_dielectric; [lra|lra|lra|apply paint_good; assumption]].
  - apply Placed_plain; [apply Solid_xz; cbn; lra|apply Sound_lambertian, paint_good; assumption].
Qed.
Lemma fog_case : l_min D < 1 / 4 /\ (forall t m, In (t, m) misty -> well_placed (1 / 100) t (snd m)) /\ fair_state demo_state.
Proof. pose proof double_min_small. split; [lra|]. split; [exact misty_placed|exact demo_state_fair]. Qed.
Lemma glass_case : l_min D < 1 / 1000000 /\ schedule 2880 1800 (raster 2880 1800) /\ fair_state demo_state.
Proof. split; [cbn [l_min D double_limits]; pose proof double_min_small; cbn [l_min D double_limits] in *; lra|]. split; [apply raster_schedule|exact demo_state_fair]. Qed.
