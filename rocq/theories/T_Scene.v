(** Properties C35-C42: boxes, scenes, hierarchies. *)
From Coq Require Import Reals ZArith List Bool Permutation.
From Flocq Require Import BinarySingleNaN Core.
From Verif Require Import Num XR FL M_Vec M_Hittable M_Shapes Spec Spec_Scene Spec_Shapes
  P_Box P_Surround P_List P_BVH P_Sphere P_Torus P_Scenes E_Scene.
Import ListNotations.
Local Open Scope R_scope.

(** ** C35 *)
Theorem C35_slab_exact : forall (L : limits) (b : aabb R) (r : ray R) (lo hi : xr), lo <> NaN -> hi <> NaN ->
  (aabb_hit (F:=XR L) (finbox b) (finray r) lo hi = true <->
   exists a c, a < c /\ at_least lo a /\ at_most hi c /\ forall s, a < s < c -> in_box b (pointR r s)).
Proof. exact @aabb_hit_iff. Qed.
Print Assumptions C35_slab_exact.
Theorem C35_interior_accepted : forall (L : limits) (b : aabb R) (r : ray R) (lo hi : xr) (t : R),
  after lo t -> before t hi -> in_open_box b (pointR r t) ->
  aabb_hit (F:=XR L) (finbox b) (finray r) lo hi = true.
Proof. exact @aabb_hit_interior. Qed.
Print Assumptions C35_interior_accepted.
Example C35_case : let b := Box (V3 0 0 0) (V3 1 1 1) in let r := Ray (V3 (-1) (1/2) (1/2)) (V3 1 0 0) in
  after (Fin 0) (3 / 2) /\ before (3 / 2) PInf /\ in_open_box b (pointR r (3 / 2)).
Proof. exact ex_interior. Qed.

(** ** C36 *)
(* Full statement: in_box b (pointR r t) -> in_window lo hi t -> aabb_hit b r lo hi = true.
   False for flat boxes and for rays touching an edge; what holds is the case in which the
   ray stays in the box for some time of the window after or before t. *)
Theorem C36_flat_box_refuted : forall (L : limits),
  let b := Box (V3 0 0 0) (V3 1 1 0) in
  let r := Ray (V3 (1/2) (1/2) (-1)) (V3 0 0 1) in
  in_box b (pointR r 1) /\ in_window (Fin 0) PInf 1 /\
  aabb_hit (F:=XR L) (finbox b) (finray r) (Fin 0) PInf = false.
Proof. exact @aabb_flat_culled. Qed.
Print Assumptions C36_flat_box_refuted.
Theorem C36_edge_refuted : forall (L : limits),
  let b := Box (V3 0 0 0) (V3 1 1 1) in
  let r := Ray (V3 (-1) 1 (1/2)) (V3 1 (-1) 0) in
  in_box b (pointR r 1) /\ in_window (Fin 0) PInf 1 /\
  aabb_hit (F:=XR L) (finbox b) (finray r) (Fin 0) PInf = false.
Proof. exact @aabb_edge_culled. Qed.
Print Assumptions C36_edge_refuted.
Theorem C36_not_culled_partial : forall (L : limits) (b : aabb R) (r : ray R) (lo hi : xr) (t t' : R),
  in_window lo hi t -> in_window lo hi t' -> t <> t' ->
  in_box b (pointR r t) -> in_box b (pointR r t') ->
  aabb_hit (F:=XR L) (finbox b) (finray r) lo hi = true.
Proof. exact aabb_hit_two. Qed.
Print Assumptions C36_not_culled_partial.

(** ** C37 *)
Theorem C37_least_exact : forall L (a b : aabb xr), no_nan_box (F:=XR L) a -> no_nan_box (F:=XR L) b ->
  box_le (F:=XR L) a (surrounding_box (F:=XR L) a b) /\
  box_le (F:=XR L) b (surrounding_box (F:=XR L) a b) /\
  forall c, box_le (F:=XR L) a c -> box_le (F:=XR L) b c -> box_le (F:=XR L) (surrounding_box (F:=XR L) a b) c.
Proof. exact surrounding_box_xr. Qed.
Print Assumptions C37_least_exact.
Theorem C37_least_float : forall prec emax Hp Hm lm (a b : aabb (binary_float prec emax)),
  let F := FL prec emax Hp Hm lm in
  no_nan_box (F:=F) a -> no_nan_box (F:=F) b ->
  box_le (F:=F) a (surrounding_box (F:=F) a b) /\ box_le (F:=F) b (surrounding_box (F:=F) a b) /\
  forall c, box_le (F:=F) a c -> box_le (F:=F) b c -> box_le (F:=F) (surrounding_box (F:=F) a b) c.
Proof. exact surrounding_box_fl. Qed.
Print Assumptions C37_least_float.
(* as point sets *)
Theorem C37_least_points : forall L (a b : aabb R), exists s,
  surrounding_box (F:=XR L) (finbox a) (finbox b) = finbox s /\
  box_within a s /\ box_within b s /\
  (forall c, (exists p, in_box a p) -> (exists p, in_box b p) ->
     box_within a c -> box_within b c -> box_within s c).
Proof. exact surrounding_box_real. Qed.
Print Assumptions C37_least_points.

(** ** C38 *)
Theorem C38_nearest : forall (L : limits) (M : Type) (r : ray R)
  (meets : hittable (F:=XR L) -> R -> Prop) (describes : hittable (F:=XR L) -> R -> hit_record xr -> Prop)
  (items : list (hittable (F:=XR L) * M)) temp0 (lo hi : xr) rec, lo <> NaN -> hi <> NaN ->
  (forall o m, In (o, m) items -> hit_contract r o (meets o) (describes o)) ->
  exists res rec', list_hit (F:=XR L) temp0 (scene_of items) (finray r) lo hi rec = Ok (res, rec') /\
  match res with
  | Some m =>
      exists front o back t, items = front ++ (o, m) :: back /\
        h_t rec' = Fin t /\ meets o t /\ at_least lo t /\ before t hi /\ describes o t rec' /\
        (forall o' m' t', In (o', m') items -> meets o' t' -> at_least lo t' -> t <= t') /\
        (forall o' m' t', In (o', m') front -> meets o' t' -> at_least lo t' -> t < t')
  | None => rec' = rec /\
      forall o m t, In (o, m) items -> meets o t -> at_least lo t -> ~ before t hi
  end.
Proof. exact @list_hit_nearest. Qed.
Print Assumptions C38_nearest.
Example C38_case : forall (L : limits), l_min L < 1 -> forall o m,
  In (o, m) (map (fun '(s, m) => (of_sphere (F:=XR L) (finsphere s), m)) two_spheres) ->
  hit_contract toward_ray o (fun t => on_sphere (inscribed o) (pointR toward_ray t)) (describes_sphere (inscribed o) toward_ray) /\
  quiet toward_ray o /\ bounding_box (F:=XR L) o = Some (finbox (sphere_aabb (inscribed o))) /\
  boxed toward_ray (fun t => on_sphere (inscribed o) (pointR toward_ray t)) (sphere_aabb (inscribed o)).
Proof. exact ex_scene. Qed.

(** ** C39 *)
Theorem C39_order_irrelevant : forall (L : limits) (M : Type) (r : ray R)
  (meets : hittable (F:=XR L) -> R -> Prop) (describes : hittable (F:=XR L) -> R -> hit_record xr -> Prop)
  (items items' : list (hittable (F:=XR L) * M)) temp0 temp0' (lo hi : xr) rec0 rec0', lo <> NaN -> hi <> NaN ->
  Permutation items items' ->
  (forall o m, In (o, m) items -> hit_contract r o (meets o) (describes o)) ->
  exists res rec res' rec',
    list_hit (F:=XR L) temp0 (scene_of items) (finray r) lo hi rec0 = Ok (res, rec) /\
    list_hit (F:=XR L) temp0' (scene_of items') (finray r) lo hi rec0' = Ok (res', rec') /\
    (res = None <-> res' = None) /\
    (res <> None -> h_t rec = h_t rec') /\
    ((forall o m o' m' t, In (o, m) items -> In (o', m') items -> h_t rec = Fin t ->
        meets o t -> meets o' t -> m = m') -> res = res').
Proof. exact @list_hit_order. Qed.
Print Assumptions C39_order_irrelevant.

(** ** C40 *)
(* Full statement: the record returned for a scene is the one the hit object alone
   produces.  False, because all objects write into one shared record; what holds is the
   case of objects which write every field. *)
Theorem C40_own_record_partial : forall (L : limits) (M : Type) (r : ray R)
  (meets : hittable (F:=XR L) -> R -> Prop) (written : hittable (F:=XR L) -> R -> hit_record xr)
  (items : list (hittable (F:=XR L) * M)) temp0 (lo hi : xr) rec0 m rec, lo <> NaN -> hi <> NaN ->
  (forall o m, In (o, m) items -> hit_contract r o (meets o) (fun t h => h = written o t)) ->
  list_hit (F:=XR L) temp0 (scene_of items) (finray r) lo hi rec0 = Ok (Some m, rec) ->
  exists o, In (o, m) items /\
    forall temp0' rec0', list_hit (F:=XR L) temp0' (scene_of [(o, m)]) (finray r) lo hi rec0' = Ok (Some m, rec).
Proof. exact list_hit_own_record. Qed.
Print Assumptions C40_own_record_partial.
(* [temp0] is the default-initialised record, whose gradient magnitude is NaN *)
Theorem C40_leak_refuted : forall (L : limits) (temp0 rec0 : hit_record xr), l_min L < 1 -> h_grad temp0 = NaN ->
  let sph := of_sphere (F:=XR L) (finsphere origin_sphere) in let scr := of_xy (F:=XR L) (finrect screen) in
  exists rec rec',
    list_hit (F:=XR L) temp0 (scene_of [(scr, true)]) (finray axis_ray) (Fin 0) PInf rec0 = Ok (Some true, rec) /\
    list_hit (F:=XR L) temp0 (scene_of [(sph, false); (scr, true)]) (finray axis_ray) (Fin 0) PInf rec0 = Ok (Some true, rec') /\
    h_grad rec = NaN /\ h_grad rec' = Fin 2.
Proof. exact list_leaks. Qed.
Print Assumptions C40_leak_refuted.

(** ** C41 *)
(* Full statement: for all objects obeying the hit contract, with boxes, bvh_node::hit
   finds the list's hit and the nearest object's record.  False: an object which writes
   into the record although it is missed (torus) destroys the record of the object hit.
   What holds: objects that leave the record alone when missed, whose meeting points are
   not exactly at the ends of the window and not grazing their box from outside. *)
Theorem C41_same_as_list_partial : forall (L : limits) (M : Type) (r : ray R) (box : hittable (F:=XR L) -> aabb R)
  (meets : hittable (F:=XR L) -> R -> Prop) describes axis sort fuel
  (items : list (hittable (F:=XR L) * M)) (lo hi : xr) temp0 rec0 rec1,
  (forall a l, Permutation l (sort a l)) -> items <> [] -> (length items <= fuel)%nat ->
  lo <> NaN -> hi <> NaN ->
  (forall o m, In (o, m) items -> hit_contract r o (meets o) (describes o) /\ quiet r o /\
     bounding_box (F:=XR L) o = Some (finbox (box o)) /\ boxed r (meets o) (box o)) ->
  (forall o m t, In (o, m) items -> meets o t -> lo <> Fin t /\ hi <> Fin t) ->
  exists tree b rec res rec',
    bvh_of_list (F:=XR L) axis sort fuel (map fst items) = Ok tree /\
    bvh_hit (F:=XR L) tree (finray r) lo hi rec0 = Ok (b, rec) /\
    list_hit (F:=XR L) temp0 (scene_of items) (finray r) lo hi rec1 = Ok (res, rec') /\
    (b = true <-> res <> None) /\
    (b = true -> h_t rec = h_t rec' /\
       exists o m t, In (o, m) items /\ h_t rec = Fin t /\ meets o t /\ describes o t rec).
Proof. exact bvh_same_as_list. Qed.
Print Assumptions C41_same_as_list_partial.
(* the same for scenes of spheres, without assumptions about the objects *)
Theorem C41_spheres_partial : forall (L : limits) (M : Type) (r : ray R) axis sort fuel
  (items : list (sphere R * M)) (lo hi : xr) temp0 rec0 rec1,
  let objs := map (fun '(s, m) => (of_sphere (F:=XR L) (finsphere s), m)) items in
  (forall a l, Permutation l (sort a l)) -> items <> [] -> (length items <= fuel)%nat ->
  lo <> NaN -> hi <> NaN ->
  (forall s m, In (s, m) items -> 0 < s_radius s /\ sphere_off_threshold (l_min L) s r) ->
  (forall s m t, In (s, m) items -> on_sphere s (pointR r t) -> lo <> Fin t /\ hi <> Fin t) ->
  exists tree b rec res rec',
    bvh_of_list (F:=XR L) axis sort fuel (map fst objs) = Ok tree /\
    bvh_hit (F:=XR L) tree (finray r) lo hi rec0 = Ok (b, rec) /\
    list_hit (F:=XR L) temp0 (scene_of objs) (finray r) lo hi rec1 = Ok (res, rec') /\
    (b = true <-> res <> None) /\
    (b = true -> h_t rec = h_t rec' /\
       exists s m t, In (s, m) items /\ h_t rec = Fin t /\ on_sphere s (pointR r t) /\ describes_sphere s r t rec).
Proof. exact bvh_spheres. Qed.
Print Assumptions C41_spheres_partial.
Example C41_spheres_case : forall m, 0 < m < 1 -> forall s k, In (s, k) two_spheres ->
  0 < s_radius s /\ sphere_off_threshold m s toward_ray /\
  (forall t, on_sphere s (pointR toward_ray t) -> Fin 0 <> Fin t /\ PInf <> Fin t).
Proof. exact ex_two. Qed.
(* a sphere in front of a torus: a hit is reported, at time NaN *)
Theorem C41_overwritten_refuted : forall (L : limits) axis sort (rec : hit_record xr), l_min L < 1 -> axis [] = 0%nat ->
  let objs := [of_sphere (F:=XR L) (finsphere front_sphere); of_torus (F:=XR L) (fintorus small_torus)] in
  exists tree rec', bvh_of_list (F:=XR L) axis sort 2 objs = Ok tree /\
    bvh_hit (F:=XR L) tree (finray toward_ray) (Fin 0) PInf rec = Ok (true, rec') /\ h_t rec' = NaN.
Proof. exact bvh_overwritten. Qed.
Print Assumptions C41_overwritten_refuted.

(** ** C42 *)
(* Full statement: every list.  False for the empty list, on which construction recurses
   for ever. *)
Theorem C42_build_partial : forall (L : limits) (box : hittable (F:=XR L) -> aabb R) axis sort,
  (forall a l, Permutation l (sort a l)) -> forall objs fuel, objs <> [] -> (length objs <= fuel)%nat ->
  (forall o, In o objs -> bounding_box (F:=XR L) o = Some (finbox (box o))) ->
  exists t, bvh_of_list (F:=XR L) axis sort fuel objs = Ok t /\
    (forall o, In o (leaves t) <-> In o objs) /\ covering box t.
Proof. exact @bvh_build_ok. Qed.
Print Assumptions C42_build_partial.
Theorem C42_empty_refuted : forall (L : limits) axis sort fuel, bvh_of_list (F:=XR L) axis sort fuel [] = OutOfFuel.
Proof. exact @bvh_build_empty. Qed.
Print Assumptions C42_empty_refuted.
