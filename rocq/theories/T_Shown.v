(** Property C121: in floating point, scenes of simple objects are rendered completely: no NaN, no
    overflow and no undefined conversion, whatever the camera is and whatever is drawn. *)
From Coq Require Import Reals ZArith List Bool.
From Flocq Require Import Core BinarySingleNaN.
From Verif Require Import Num XR FL Spec Spec_Image Spec_Nearest Spec_Shown M_Vec M_Rng M_Hittable M_Materials M_Shapes M_Image M_World M_Programs M_Fog P_FL P_Shown P_ShownPrograms E_Nearest E_Acne E_Shown.
Import ListNotations.
Local Open Scope R_scope.

(** ** C121: objects that always answer *)
Theorem C121_objects : forall (prec emax : Z) (Hp : Prec_gt_0 prec) (Hm : Prec_lt_emax prec emax) (lm : libm (binary_float prec emax)),
  (forall o, simple_object (F:=FL prec emax Hp Hm lm) o -> answers prec emax Hp Hm lm o) /\
  (forall c, answers prec emax Hp Hm lm (of_cylinder (F:=FL prec emax Hp Hm lm) c)).
Proof. exact objects_answer. Qed.
Print Assumptions C121_objects.
(** ** C121: the colour of a ray.  It does not overflow: each bounce adds at most the brightest light. *)
Theorem C121_ray_color : forall (prec emax : Z) (Hp : Prec_gt_0 prec) (Hm : Prec_lt_emax prec emax) (lm : libm (binary_float prec emax)),
  (24 <= prec)%Z -> (128 <= emax)%Z -> forall e, (3 - emax - prec <= e)%Z -> (e + prec < emax)%Z ->
  forall (items : list (hittable (F:=FL prec emax Hp Hm lm) * material_ptr (F:=FL prec emax Hp Hm lm))) background,
  (forall o m, In (o, m) items -> answers prec emax Hp Hm lm o /\ moderate_material prec emax Hp Hm lm (bpow radix2 e) (snd m)) -> at_most3 prec emax (bpow radix2 e) background ->
  forall depth s r, (Z.of_nat depth <= 2 ^ prec)%Z -> word_state prec emax Hp Hm lm s -> exists k c s',
  (forall fuel, (k <= fuel)%nat ->
    ray_color (F:=FL prec emax Hp Hm lm) (world_hit (F:=FL prec emax Hp Hm lm) (scene_with (F:=FL prec emax Hp Hm lm) items)) (scatter (F:=FL prec emax Hp Hm lm) fuel) (emitted (F:=FL prec emax Hp Hm lm))
      depth s r background = Ok (c, s')) /\
  at_most3 prec emax (IZR (Z.of_nat depth) * bpow radix2 e) c /\ word_state prec emax Hp Hm lm s'.
Proof. exact list_colour. Qed.
Print Assumptions C121_ray_color.
(** ** C121: the picture *)
Theorem C121_scene : forall (prec emax : Z) (Hp : Prec_gt_0 prec) (Hm : Prec_lt_emax prec emax) (lm : libm (binary_float prec emax)),
  (24 <= prec)%Z -> (128 <= emax)%Z -> forall e, (3 - emax - prec <= e)%Z -> (e + prec < emax)%Z ->
  forall (items : list (hittable (F:=FL prec emax Hp Hm lm) * material_ptr (F:=FL prec emax Hp Hm lm))) background,
  (forall o m, In (o, m) items -> answers prec emax Hp Hm lm o /\ moderate_material prec emax Hp Hm lm (bpow radix2 e) (snd m)) -> at_most3 prec emax (bpow radix2 e) background ->
  forall cam width height, (0 < width)%Z -> (0 < height)%Z -> forall spp, (1 <= spp)%nat -> (8 * Z.of_nat spp <= 2 ^ prec)%Z ->
  forall order s, schedule width height order -> word_state prec emax Hp Hm lm s -> exists k img,
  (forall fuel, (k <= fuel)%nat ->
    render_scene (F:=FL prec emax Hp Hm lm) (world_hit (F:=FL prec emax Hp Hm lm) (scene_with (F:=FL prec emax Hp Hm lm) items)) (scatter (F:=FL prec emax Hp Hm lm) fuel) (emitted (F:=FL prec emax Hp Hm lm))
      width height background cam spp order s = Ok img) /\
  length img = Z.to_nat (4 * width * height) /\ Forall byte img /\
  forall i j d, (0 <= i < width)%Z -> (0 <= j < height)%Z -> nth (offset width height i j 3) img d = 255%Z.
Proof. exact scene_shown. Qed.
Print Assumptions C121_scene.
(* the same with media among the objects *)
Theorem C121_fog_scene : forall (prec emax : Z) (Hp : Prec_gt_0 prec) (Hm : Prec_lt_emax prec emax) (lm : libm (binary_float prec emax)),
  (24 <= prec)%Z -> (128 <= emax)%Z -> forall e, (3 - emax - prec <= e)%Z -> (e + prec < emax)%Z ->
  forall (things : list (thing (F:=FL prec emax Hp Hm lm) * material_ptr (F:=FL prec emax Hp Hm lm))) background,
  (forall t m, In (t, m) things -> thing_answers prec emax Hp Hm lm t /\ moderate_material prec emax Hp Hm lm (bpow radix2 e) (snd m)) -> at_most3 prec emax (bpow radix2 e) background ->
  forall cam width height, (0 < width)%Z -> (0 < height)%Z -> forall spp, (1 <= spp)%nat -> (8 * Z.of_nat spp <= 2 ^ prec)%Z ->
  forall order s, schedule width height order -> word_state prec emax Hp Hm lm s -> exists k img,
  (forall fuel, (k <= fuel)%nat ->
    render_scene (F:=FL prec emax Hp Hm lm) (fog_hit (F:=FL prec emax Hp Hm lm) things) (scatter (F:=FL prec emax Hp Hm lm) fuel) (emitted (F:=FL prec emax Hp Hm lm))
      width height background cam spp order s = Ok img) /\
  length img = Z.to_nat (4 * width * height) /\ Forall byte img /\
  forall i j d, (0 <= i < width)%Z -> (0 <= j < height)%Z -> nth (offset width height i j 3) img d = 255%Z.
Proof. exact fog_shown. Qed.
Print Assumptions C121_fog_scene.

(** ** C121: the programs, each in its own arithmetic *)
Theorem C121_render_spheres : forall (lm : libm binary32) d order s, (forall n, at_most 24 128 1 (d n)) -> schedule 1800 1125 order -> word_state 24 128 Hprec24 Hmax128 lm s ->
  exists k img, (forall fuel, (k <= fuel)%nat -> run (F:=F32 lm) (render_spheres (F:=F32 lm) d) fuel order s = Ok img) /\
    length img = Z.to_nat (4 * 1800 * 1125) /\ Forall byte img /\ forall i j z, (0 <= i < 1800)%Z -> (0 <= j < 1125)%Z -> nth (offset 1800 1125 i j 3) img z = 255%Z.
Proof. exact spheres32. Qed.
Print Assumptions C121_render_spheres.
Theorem C121_with_lights : forall (lm : libm binary32) order s, schedule 1800 1125 order -> word_state 24 128 Hprec24 Hmax128 lm s ->
  exists k img, (forall fuel, (k <= fuel)%nat -> run (F:=F32 lm) (with_lights (F:=F32 lm)) fuel order s = Ok img) /\
    length img = Z.to_nat (4 * 1800 * 1125) /\ Forall byte img /\ forall i j z, (0 <= i < 1800)%Z -> (0 <= j < 1125)%Z -> nth (offset 1800 1125 i j 3) img z = 255%Z.
Proof. exact lights32. Qed.
Print Assumptions C121_with_lights.
Theorem C121_cylinder : forall (lm : libm binary64) order s, schedule 1200 750 order -> word_state 53 1024 Hprec53 Hmax1024 lm s ->
  exists k img, (forall fuel, (k <= fuel)%nat -> run (F:=F64 lm) (cylinder_program (F:=F64 lm)) fuel order s = Ok img) /\
    length img = Z.to_nat (4 * 1200 * 750) /\ Forall byte img /\ forall i j z, (0 <= i < 1200)%Z -> (0 <= j < 750)%Z -> nth (offset 1200 750 i j 3) img z = 255%Z.
Proof. exact can64. Qed.
Print Assumptions C121_cylinder.
(* the lambda textures of disk.cpp and ellipsoid_curvature.cpp are any function into [0,1]^3 *)
Theorem C121_disk : forall (lm : libm binary64) tex, (forall rec, at_most3 53 1024 1 (tex rec)) -> exists p, disk_program (F:=F64 lm) tex = Ok p /\
  forall order s, schedule 800 800 order -> word_state 53 1024 Hprec53 Hmax1024 lm s ->
  exists k img, (forall fuel, (k <= fuel)%nat -> run (F:=F64 lm) p fuel order s = Ok img) /\
    length img = Z.to_nat (4 * 800 * 800) /\ Forall byte img /\ forall i j z, (0 <= i < 800)%Z -> (0 <= j < 800)%Z -> nth (offset 800 800 i j 3) img z = 255%Z.
Proof. exact disk64. Qed.
Print Assumptions C121_disk.
(* the sine and the cosine of libm place the lamp: if it can be made, the picture is *)
Theorem C121_ellipsoid_curvature : forall (lm : libm binary64) tex i p order s, (forall rec, at_most3 53 1024 1 (tex rec)) -> frame_program (F:=F64 lm) tex i = Ok p ->
  schedule 1200 750 order -> word_state 53 1024 Hprec53 Hmax1024 lm s ->
  exists k img, (forall fuel, (k <= fuel)%nat -> run (F:=F64 lm) p fuel order s = Ok img) /\
    length img = Z.to_nat (4 * 1200 * 750) /\ Forall byte img /\ forall i j z, (0 <= i < 1200)%Z -> (0 <= j < 750)%Z -> nth (offset 1200 750 i j 3) img z = 255%Z.
Proof. exact frame64. Qed.
Print Assumptions C121_ellipsoid_curvature.
Theorem C121_ellipsoid : forall (lm : libm binary64) order s, schedule 2880 1800 order -> word_state 53 1024 Hprec53 Hmax1024 lm s ->
  exists k img, (forall fuel, (k <= fuel)%nat -> glass_run (F:=F64 lm) fuel order s = Ok img) /\
    length img = Z.to_nat (4 * 2880 * 1800) /\ Forall byte img /\ forall i j z, (0 <= i < 2880)%Z -> (0 <= j < 1800)%Z -> nth (offset 2880 1800 i j 3) img z = 255%Z.
Proof. exact glass64. Qed.
Print Assumptions C121_ellipsoid.

Example C121_case : forall lm, (forall n : nat, at_most 24 128 1 ((fun _ => d32 1 (-1)) n)) /\ schedule 1800 1125 (raster 1800 1125) /\ word_state 24 128 Hprec24 Hmax128 lm (fresh32 lm).
Proof. exact single_case. Qed.
Example C121_texture_case : forall (lm : libm binary64) rec, at_most3 53 1024 1 (solid_color (F:=F64 lm) (V3 (d64 1 0) (d64 1 0) (d64 1 0)) rec).
Proof. exact white64. Qed.
Example C121_frame_case : forall tex, exists p, frame_program (F:=F64 flat_libm) tex 0 = Ok p.
Proof. exact frame_case. Qed.
