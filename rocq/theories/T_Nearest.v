(** Properties C116, C117 and C120: nearest hits in floating point, in every binary format, and the order of bvh. *)
From Coq Require Import Reals ZArith List Bool Permutation.
From Flocq Require Import Core BinarySingleNaN.
From Verif Require Import Num XR FL Spec Spec_Scene Spec_Accuracy Spec_Nearest Spec_Hierarchy Spec_Order M_Vec M_Hittable M_Shapes P_FL P_Nearest P_Hierarchy P_Order E_Nearest.
Import ListNotations.
Local Open Scope R_scope.

(** ** C116 *)
(* The parameters of objects and ray may be infinite or NaN. *)
Theorem C116_nearest : forall (prec emax : Z) (Hp : Prec_gt_0 prec) (Hm : Prec_lt_emax prec emax) (lm : libm (binary_float prec emax)),
  let N := FL prec emax Hp Hm lm in
  forall (M : Type) (items : list (hittable (F:=N) * M)) temp0 (r : ray (binary_float prec emax)) (lo hi : binary_float prec emax) rec, (forall o m, In (o, m) items -> simple_object (F:=N) o) ->
  exists res rec', list_hit (F:=N) temp0 (scene_with (F:=N) items) r lo hi rec = Ok (res, rec') /\
  match res with
  | Some m => exists front o back, items = front ++ (o, m) :: back /\ (exists temp, hit o r lo hi temp = Ok (true, rec')) /\
      Bltb (h_t rec') hi = true /\ (is_nan lo = false -> Bleb lo (h_t rec') = true) /\
      (forall o' m' t', In (o', m') items -> seen (F:=N) r lo hi o' t' -> Bleb (h_t rec') t' = true) /\
      (forall o' m' t', In (o', m') front -> seen (F:=N) r lo hi o' t' -> Bltb (h_t rec') t' = true)
  | None => rec' = rec /\ forall o m t, In (o, m) items -> ~ seen (F:=N) r lo hi o t
  end.
Proof. exact nearest_float. Qed.
Print Assumptions C116_nearest.
Theorem C116_order : forall (prec emax : Z) (Hp : Prec_gt_0 prec) (Hm : Prec_lt_emax prec emax) (lm : libm (binary_float prec emax)),
  let N := FL prec emax Hp Hm lm in
  forall (M : Type) (items items' : list (hittable (F:=N) * M)) temp0 temp0' (r : ray (binary_float prec emax)) (lo hi : binary_float prec emax) rec0 rec0',
  Permutation items items' -> (forall o m, In (o, m) items -> simple_object (F:=N) o) ->
  exists res rec res' rec', list_hit (F:=N) temp0 (scene_with (F:=N) items) r lo hi rec0 = Ok (res, rec) /\ list_hit (F:=N) temp0' (scene_with (F:=N) items') r lo hi rec0' = Ok (res', rec') /\
  (res = None <-> res' = None) /\ (res <> None -> Beqb (h_t rec) (h_t rec') = true).
Proof. exact nearest_order. Qed.
Print Assumptions C116_order.
(* Two spheres one behind the other, the farther one added first. *)
Example C116_case : forall lm, (forall o m, In (o, m) (two64 lm) -> simple_object (F:=F64 lm) o) /\
  exists t t', seen (F:=F64 lm) up64 (d64 1 (-10)) (B754_infinity false) (of_sphere (F:=F64 lm) near64) t /\ seen (F:=F64 lm) up64 (d64 1 (-10)) (B754_infinity false) (of_sphere (F:=F64 lm) far64) t' /\
    Bltb t (d64 6 0) = true /\ Bltb (d64 6 0) t' = true.
Proof. exact two64_case. Qed.

(** ** C117 *)
(* [sort] is any permutation and [axis] any choice of axes: nothing depends on the order. *)
Theorem C117_hierarchy : forall (prec emax : Z) (Hp : Prec_gt_0 prec) (Hm : Prec_lt_emax prec emax) (lm : libm (binary_float prec emax)) (k : Z) (fr : ray (binary_float prec emax)) (r : ray R),
  let N := FL prec emax Hp Hm lm in
  (8 <= prec)%Z -> (0 <= k)%Z -> (2 * k + 2 * prec + 8 <= emax)%Z ->
  map3 fval (r_orig fr) = fin3 (r_orig r) -> map3 fval (r_dir fr) = fin3 (r_dir r) -> moderate3 k (r_orig r) -> moderate3 k (r_dir r) ->
  forall axis sort fuel (objs : list (hittable (F:=N))), (forall a l, Permutation l (sort a l)) -> objs <> [] -> (length objs <= fuel)%nat ->
  (forall o, In o objs -> round_object (F:=N) o) -> (forall o, In o objs -> exists b fb, bounding_box o = Some fb /\ box_value prec emax k fb b) ->
  exists tree, bvh_of_list (F:=N) axis sort fuel objs = Ok tree /\ forall lo hi rec, exists found rec', bvh_hit (F:=N) tree fr lo hi rec = Ok (found, rec') /\
  (found = false -> rec' = rec) /\
  (found = true -> (exists o, In o objs /\ exists temp, hit o fr lo hi temp = Ok (true, rec')) /\ Bleb lo (h_t rec') = true /\ Bleb (h_t rec') hi = true) /\
  forall o b t, In o objs -> (exists fb, bounding_box o = Some fb /\ box_value prec emax k fb b) -> reports (F:=N) fr lo hi o t -> passes prec r (fval lo) (fval t) b ->
    found = true /\ Bleb (h_t rec') t = true.
Proof. exact hierarchy_float. Qed.
Print Assumptions C117_hierarchy.
Example C117_case : forall lm, (2 * 450 + 2 * 53 + 8 <= 1024)%Z /\ (forall o, In o (map fst (two64 lm)) -> round_object (F:=F64 lm) o /\ exists fb b, bounding_box o = Some fb /\ box_value 53 1024 450 fb b) /\
  (let r := Ray (V3 (/ 2) 0 0) (V3 0 0 1) in (map3 fval (r_orig up64) = fin3 (r_orig r) /\ map3 fval (r_dir up64) = fin3 (r_dir r) /\ moderate3 450 (r_orig r) /\ moderate3 450 (r_dir r)) /\
   exists fb b t, bounding_box (of_sphere (F:=F64 lm) near64) = Some fb /\ box_value 53 1024 450 fb b /\ reports (F:=F64 lm) up64 (d64 1 (-10)) (B754_infinity false) (of_sphere (F:=F64 lm) near64) t /\ passes 53 r (fval (d64 1 (-10))) (fval t) b).
Proof. exact tree64_case. Qed.

(** ** C120 *)
(* box_x_compare, box_y_compare and box_z_compare are axis 0, 1 and 2. *)
Theorem C120_exact : forall (L : limits) axis,
  strict_weak (fun o : hittable (F:=XR L) => exists b, bounding_box o = Some b /\ on_axis (F:=XR L) axis (b_min b) <> NaN) (fun a b => box_compare axis a b = Ok true) /\
  forall (a b : hittable (F:=XR L)) ba bb, bounding_box a = Some ba -> bounding_box b = Some bb -> exists less, box_compare axis a b = Ok less.
Proof. exact compare_exact. Qed.
Print Assumptions C120_exact.
Theorem C120_float : forall (prec emax : Z) (Hp : Prec_gt_0 prec) (Hm : Prec_lt_emax prec emax) (lm : libm (binary_float prec emax)) axis,
  let N := FL prec emax Hp Hm lm in
  strict_weak (fun o : hittable (F:=N) => exists b, bounding_box o = Some b /\ is_nan (on_axis (F:=N) axis (b_min b) : binary_float prec emax) = false) (fun a b => box_compare axis a b = Ok true) /\
  forall (a b : hittable (F:=N)) ba bb, bounding_box a = Some ba -> bounding_box b = Some bb -> exists less, box_compare axis a b = Ok less.
Proof. exact compare_float. Qed.
Print Assumptions C120_float.
(* The hypothesis holds for objects with finite parameters, also when their boxes overflow. *)
Theorem C120_finite : forall (prec emax : Z) (Hp : Prec_gt_0 prec) (Hm : Prec_lt_emax prec emax) (lm : libm (binary_float prec emax)) axis,
  let N := FL prec emax Hp Hm lm in
  (forall s, finite3 (s_center s) -> is_finite (s_radius s) = true -> exists b, bounding_box (of_sphere (F:=N) s) = Some b /\ is_nan (on_axis (F:=N) axis (b_min b) : binary_float prec emax) = false) /\
  (forall s, finite3 (el_center s) -> finite3 (el_scales s) -> exists b, bounding_box (of_ellipsoid (F:=N) s) = Some b /\ is_nan (on_axis (F:=N) axis (b_min b) : binary_float prec emax) = false) /\
  (forall s, finite3 (o_center s) -> is_finite (o_R s) = true -> is_finite (o_r s) = true -> exists b, bounding_box (of_torus (F:=N) s) = Some b /\ is_nan (on_axis (F:=N) axis (b_min b) : binary_float prec emax) = false) /\
  (forall s, finite3 (dk_center s) -> is_finite (dk_radius s) = true -> exists b, bounding_box (of_disk (F:=N) s) = Some b /\ is_nan (on_axis (F:=N) axis (b_min b) : binary_float prec emax) = false).
Proof. exact boxes_ordered. Qed.
Print Assumptions C120_finite.
(* A sphere of infinite radius at infinity, between two ordinary ones. *)
Theorem C120_nan_refuted : forall lm, exists a b c : hittable (F:=F64 lm), (exists ba bb bc, bounding_box a = Some ba /\ bounding_box b = Some bb /\ bounding_box c = Some bc) /\
  box_compare 0 a b <> Ok true /\ box_compare 0 b a <> Ok true /\ box_compare 0 b c <> Ok true /\ box_compare 0 c b <> Ok true /\ box_compare 0 a c = Ok true.
Proof. exact compare_nan. Qed.
Print Assumptions C120_nan_refuted.
