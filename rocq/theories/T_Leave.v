(** Properties C118 and C123: a ray scattered off the outside of a sphere, or off a rectangle, does not hit it again. *)
From Coq Require Import Reals ZArith List Bool.
From Flocq Require Import Core BinarySingleNaN.
From Verif Require Import Num XR FL Spec Spec_Scene Spec_Random Spec_Shapes Spec_Light Spec_World Spec_Accuracy M_Vec M_Rng M_Hittable M_Shapes M_Materials M_World M_Programs P_FL P_Leave P_Acne P_FlatLeave P_FlatMetal E_World E_Acne E_FlatLeave.
Import ListNotations.
Local Open Scope R_scope.

(** ** C118, exact arithmetic *)
Theorem C118_leaving : forall (L : limits) (s : sphere R) (p d : vec3 R) lo hi (rec : hit_record xr),
  on_sphere s p -> 0 <= dotR (subR p (s_center s)) d -> xltb (Fin 0) lo = true ->
  sphere_hit (F:=XR L) (finsphere s) (finray (Ray p d)) lo hi rec = Ok (false, rec).
Proof. exact @leave_miss. Qed.
Print Assumptions C118_leaving.
Theorem C118_matte : forall (L : limits) (s : sphere R), 0 < s_radius s -> forall tex g (r : ray R) lo hi (rec rec' : hit_record xr),
  word64 (pc_state g) -> sphere_off_threshold (l_min L) s r -> lo <> NaN -> hi <> NaN ->
  sphere_hit (F:=XR L) (finsphere s) (finray r) lo hi rec = Ok (true, rec') -> h_front rec' = true ->
  exists k out g', (forall fuel, (k <= fuel)%nat -> lambertian_scatter (F:=XR L) fuel tex g rec' = Ok (Some (tex rec', out), g')) /\
    forall lo' hi' (rec2 : hit_record xr), xltb (Fin 0) lo' = true -> sphere_hit (F:=XR L) (finsphere s) out lo' hi' rec2 = Ok (false, rec2).
Proof. exact @matte_leaves. Qed.
Print Assumptions C118_matte.
Theorem C118_metal : forall (L : limits) (s : sphere R), 0 < s_radius s -> forall tex (r : ray R) lo hi (rec rec' : hit_record xr),
  sphere_off_threshold (l_min L) s r -> lo <> NaN -> hi <> NaN ->
  sphere_hit (F:=XR L) (finsphere s) (finray r) lo hi rec = Ok (true, rec') -> h_front rec' = true ->
  exists out, metal_scatter (F:=XR L) tex (finray r) rec' = (true, (tex rec', out)) /\
    forall lo' hi' (rec2 : hit_record xr), xltb (Fin 0) lo' = true -> sphere_hit (F:=XR L) (finsphere s) out lo' hi' rec2 = Ok (false, rec2).
Proof. exact @metal_leaves. Qed.
Print Assumptions C118_metal.
(* The corner sphere of render_spheres.cpp, seen by a ray from the camera, meets the hypotheses. *)
Example C118_case : forall (L : limits) (rec : hit_record xr), l_min L < 1 / 10 -> 2000 * l_eps L <= 1 -> sphere_off_threshold (l_min L) cornerR glanceR /\
  exists rec', sphere_hit (F:=XR L) (finsphere cornerR) (finray glanceR) (Fin (1000 * l_eps L)) PInf rec = Ok (true, rec') /\ h_front rec' = true.
Proof. exact corner_front. Qed.

(** ** C118, floating point *)
(* 2^-prec is the unit of roundoff.  [rise] is how fast the ray leaves, less roundoff. *)
Theorem C118_float_leaving : forall (prec emax : Z) (Hp : Prec_gt_0 prec) (Hm : Prec_lt_emax prec emax) (lm : libm (binary_float prec emax)) (k : Z),
  (24 <= prec)%Z -> (0 <= k)%Z -> (4 * k + 6 * prec + 16 <= emax)%Z ->
  forall (fs : sphere (binary_float prec emax)) (fray : ray (binary_float prec emax)) (c o d : vec3 R) (r : R),
  map3 fval (s_center fs) = fin3 c -> fval (s_radius fs) = Fin r -> map3 fval (r_orig fray) = fin3 o -> map3 fval (r_dir fray) = fin3 d ->
  moderate3 k c -> moderate k r -> moderate3 k o -> moderate3 k d -> d <> V3 0 0 0 ->
  forall lo hi l rec, fval lo = Fin l -> 0 < l ->
  let u := bpow radix2 (- prec) in let W := distR o c in let rise := dotR (subR o c) d - 13 * u * W * normR d in
  0 <= rise -> 8 * u * (W * W + r * r) + (r * r - W * W) < 2 * l * rise ->
  sphere_hit (F:=FL prec emax Hp Hm lm) fs fray lo hi rec = Ok (false, rec).
Proof. exact leave_stated. Qed.
Print Assumptions C118_float_leaving.
Theorem C118_float_bounce : forall (prec emax : Z) (Hp : Prec_gt_0 prec) (Hm : Prec_lt_emax prec emax) (lm : libm (binary_float prec emax)) (k : Z),
  (24 <= prec)%Z -> (0 <= k)%Z -> (4 * k + 6 * prec + 16 <= emax)%Z ->
  forall (fs : sphere (binary_float prec emax)) (fray : ray (binary_float prec emax)) (c o d : vec3 R) (r : R),
  map3 fval (s_center fs) = fin3 c -> fval (s_radius fs) = Fin r -> map3 fval (r_orig fray) = fin3 o -> map3 fval (r_dir fray) = fin3 d ->
  moderate3 k c -> moderate k r -> moderate3 k o -> moderate3 k d -> r <> 0 -> d <> V3 0 0 0 -> Rabs r <= distR o c ->
  forall lo hi rec rec', sphere_hit (F:=FL prec emax Hp Hm lm) fs fray lo hi rec = Ok (true, rec') ->
  let u := bpow radix2 (- prec) in let W := distR o c in let err := u * (131 * (W * W) + 3 * W * normR c) + 9 * (u * u) * normsqR c in
  exists p, map3 fval (h_p rec') = fin3 p /\ Rabs (normsqR (subR p c) - r * r) <= err /\
    forall (fd' : vec3 (binary_float prec emax)) (d' : vec3 R) lo' hi' l rec2, map3 fval fd' = fin3 d' -> moderate3 k p -> moderate3 k d' -> d' <> V3 0 0 0 -> fval lo' = Fin l -> 0 < l ->
    let rise := dotR (subR p c) d' - 13 * u * distR p c * normR d' in
    0 <= rise -> err + 8 * u * (distR p c * distR p c + r * r) < 2 * l * rise ->
    sphere_hit (F:=FL prec emax Hp Hm lm) fs (Ray (h_p rec') fd') lo' hi' rec2 = Ok (false, rec2).
Proof. exact bounce_stated. Qed.
Print Assumptions C118_float_bounce.
(* Doubles: the unit sphere seen from three units away, and a ray leaving obliquely, with the window of ray_color. *)
Example C118_float_case : forall lm, (24 <= 53)%Z /\ (4 * 172 + 6 * 53 + 16 <= 1024)%Z /\
  (let c := V3 0 0 0 in let o := V3 0 0 (-3) in let d := V3 0 0 1 in let r := 1 in let u := bpow radix2 (-53) in
   (map3 fval (s_center E_Accuracy.ball64) = fin3 c /\ fval (s_radius E_Accuracy.ball64) = Fin r /\ map3 fval (r_orig E_Accuracy.look64) = fin3 o /\ map3 fval (r_dir E_Accuracy.look64) = fin3 d) /\
   Rabs r <= distR o c /\
   (exists rec', sphere_hit (F:=F64 lm) E_Accuracy.ball64 E_Accuracy.look64 (d64 1000 (-52)) (B754_infinity false) E_Nearest.blank64 = Ok (true, rec') /\ map3 fval (h_p rec') = fin3 (V3 0 0 (-1))) /\
   let p := V3 0 0 (-1) in let d' := V3 0 1 (-2) in let W := distR o c in let err := u * (131 * (W * W) + 3 * W * normR c) + 9 * (u * u) * normsqR c in
   fval (d64 1000 (-52)) = Fin (2000 * u) /\ moderate3 172 p /\ moderate3 172 d' /\
   let rise := dotR (subR p c) d' - 13 * u * distR p c * normR d' in 0 <= rise /\ err + 8 * u * (distR p c * distR p c + r * r) < 2 * (2000 * u) * rise).
Proof. exact bounce_case. Qed.

(** ** C118 fails in single precision *)
(* In render_spheres.cpp, whose Real is float (line 84), the small sphere in the corner: a ray from the camera hits it from outside,
   is scattered by a matte material with the generator as seeded, and hits the same sphere again in ray_color's window. *)
Theorem C118_acne_refuted : forall lm,
  (exists c, In (of_sphere (F:=F32 lm) corner32, matte (F:=F32 lm) c) (random_scene (F:=F32 lm) corner_draws)) /\
  r_orig glance32 = p_from (render_spheres (F:=F32 lm) corner_draws) /\
  exists rec1 out g' rec2, sphere_hit (F:=F32 lm) corner32 glance32 (lowest (F:=F32 lm)) (ninf (NumOps:=F32 lm)) blank32 = Ok (true, rec1) /\ h_front rec1 = true /\
  (exists white, lambertian_scatter (F:=F32 lm) 100 (solid_color (F:=F32 lm) white) pcg_seed rec1 = Ok (Some (white, out), g')) /\
  sphere_hit (F:=F32 lm) corner32 out (lowest (F:=F32 lm)) (ninf (NumOps:=F32 lm)) rec1 = Ok (true, rec2).
Proof. exact corner_refuted. Qed.
Print Assumptions C118_acne_refuted.
(* The consequence for the picture: with that sphere alone, grey 1/2 under a white sky, the ray returns black in single
   precision, and 1/2 in exact arithmetic. *)
Theorem C118_dark_refuted :
  (map3 fval (s_center corner32) = fin3 (s_center cornerR) /\ fval (s_radius corner32) = Fin (s_radius cornerR) /\ map3 fval (r_orig glance32) = fin3 (r_orig glanceR) /\ map3 fval (r_dir glance32) = fin3 (r_dir glanceR) /\
   map3 fval white32 = fin3 (V3 1 1 1) /\ map3 fval grey32 = fin3 (V3 (/ 2) (/ 2) (/ 2))) /\
  (forall lm, exists w, (forall j, st_pcg w j = pcg_seed) /\ exists c w',
    ray_color (F:=F32 lm) (world_hit (F:=F32 lm) (add (F:=F32 lm) (empty_list (F:=F32 lm)) (of_sphere (F:=F32 lm) corner32) (0%nat, matte (F:=F32 lm) grey32))) (scatter (F:=F32 lm) 100) (emitted (F:=F32 lm))
      128 w glance32 white32 = Ok (c, w') /\ map3 fval c = fin3 (V3 0 0 0)) /\
  (forall (L : limits) j depth (w : state (F:=XR L)), l_min L < 1 / 10 -> 2000 * l_eps L <= 1 -> good_state w ->
   exists k w', forall fuel, (k <= fuel)%nat ->
   ray_color (F:=XR L) (world_hit (F:=XR L) (scene_of [(of_sphere (F:=XR L) (finsphere cornerR), (j, Lambertian (F:=XR L) (paint (V3 (/ 2) (/ 2) (/ 2)))))])) (scatter (F:=XR L) fuel) (emitted (F:=XR L))
     (S (S depth)) w (finray glanceR) (fin3 (V3 1 1 1)) = Ok (fin3 (V3 (/ 2) (/ 2) (/ 2)), w')).
Proof. exact dark_refuted. Qed.
Print Assumptions C118_dark_refuted.

(** ** C123, axis-parallel rectangles in floating point *)
(* 2^-prec is the unit of roundoff and 1000 epsilon, the lower end of ray_color's window, is 2000 of them. *)
Theorem C123_plane : forall (prec emax : Z) (Hp : Prec_gt_0 prec) (Hm : Prec_lt_emax prec emax) (lm : libm (binary_float prec emax)), (24 <= prec)%Z -> (64 <= emax)%Z ->
  let N := FL prec emax Hp Hm lm in let u := bpow radix2 (- prec) in
  forall hit coord, In (hit, coord) [(xy_hit (F:=N), @vz (binary_float prec emax)); (xz_hit (F:=N), @vy (binary_float prec emax)); (yz_hit (F:=N), @vx (binary_float prec emax))] ->
  forall q r lo hi rec rec' K a b l T,
  fval (q_k q) = Fin K -> fval (coord (r_orig r)) = Fin a -> fval (coord (r_dir r)) = Fin b -> fval lo = Fin l -> 2000 * u <= l ->
  Rabs K + 4 * Rabs (K - a) <= bpow radix2 (emax - 4) -> hit q r lo hi rec = Ok (true, rec') -> fval (h_t rec') = Fin T ->
  exists p, fval (coord (h_p rec')) = Fin p /\ Rabs (p - K) <= u * (Rabs K + 4 * Rabs (K - a) + 1).
Proof. exact flat_plane. Qed.
Print Assumptions C123_plane.
Theorem C123_leaving : forall (prec emax : Z) (Hp : Prec_gt_0 prec) (Hm : Prec_lt_emax prec emax) (lm : libm (binary_float prec emax)), (24 <= prec)%Z -> (64 <= emax)%Z ->
  let N := FL prec emax Hp Hm lm in let u := bpow radix2 (- prec) in
  forall hit coord, In (hit, coord) [(xy_hit (F:=N), @vz (binary_float prec emax)); (xz_hit (F:=N), @vy (binary_float prec emax)); (yz_hit (F:=N), @vx (binary_float prec emax))] ->
  forall q r lo hi rec rec' K a b l T,
  fval (q_k q) = Fin K -> fval (coord (r_orig r)) = Fin a -> fval (coord (r_dir r)) = Fin b -> fval lo = Fin l -> 2000 * u <= l ->
  Rabs K + 4 * Rabs (K - a) <= bpow radix2 (emax - 4) -> hit q r lo hi rec = Ok (true, rec') -> fval (h_t rec') = Fin T ->
  forall fd b' lo' hi' l' rec2, fval (coord fd) = Fin b' -> fval lo' = Fin l' -> 2000 * u <= l' ->
  Rabs K + 4 * Rabs (K - a) + 1 <= 1990 * Rabs b' -> hit q (Ray (h_p rec') fd) lo' hi' rec2 = Ok (false, rec2).
Proof. exact flat_leaves. Qed.
Print Assumptions C123_leaving.
Theorem C123_matte : forall (prec emax : Z) (Hp : Prec_gt_0 prec) (Hm : Prec_lt_emax prec emax) (lm : libm (binary_float prec emax)), (24 <= prec)%Z -> (64 <= emax)%Z ->
  let N := FL prec emax Hp Hm lm in let u := bpow radix2 (- prec) in
  forall hit coord, In (hit, coord) [(xy_hit (F:=N), @vz (binary_float prec emax)); (xz_hit (F:=N), @vy (binary_float prec emax)); (yz_hit (F:=N), @vx (binary_float prec emax))] ->
  forall q r lo hi rec rec' K a b l T tex g,
  fval (q_k q) = Fin K -> fval (coord (r_orig r)) = Fin a -> fval (coord (r_dir r)) = Fin b -> fval lo = Fin l -> 2000 * u <= l ->
  Rabs K + 4 * Rabs (K - a) <= 1989 -> hit q r lo hi rec = Ok (true, rec') -> fval (h_t rec') = Fin T -> word64 (pc_state g) ->
  exists k out g', (forall fuel, (k <= fuel)%nat -> lambertian_scatter (F:=N) fuel tex g rec' = Ok (Some (tex rec', out), g')) /\
  forall lo' hi' l' rec2, fval lo' = Fin l' -> 2000 * u <= l' -> hit q out lo' hi' rec2 = Ok (false, rec2).
Proof. exact flat_matte_leaves. Qed.
Print Assumptions C123_matte.
(* Doubles: a square at height 5 seen from height -2, with the lower window end of ray_color. *)
Example C123_case : forall lm, fval (q_k (square64 5)) = Fin 5 /\ fval (vz (r_orig rising64)) = Fin (-2) /\ fval (vz (r_dir rising64)) = Fin (11 / 8) /\
  lowest (F:=F64 lm) = d64 1000 (-52) /\ fval (d64 1000 (-52)) = Fin (2000 * bpow radix2 (-53)) /\ Rabs 5 + 4 * Rabs (5 - -2) <= 1989 /\
  exists rec1 T, xy_hit (F:=F64 lm) (square64 5) rising64 (d64 1000 (-52)) (B754_infinity false) E_Nearest.blank64 = Ok (true, rec1) /\ fval (h_t rec1) = Fin T.
Proof. exact low_square. Qed.
(* Further out it fails: the same square at height 3000, matte, hides itself in double precision. *)
Theorem C123_far_refuted : forall lm, fval (q_k (square64 3000)) = Fin 3000 /\ exists rec1 out g' rec2,
  xy_hit (F:=F64 lm) (square64 3000) rising64 (lowest (F:=F64 lm)) (ninf (NumOps:=F64 lm)) E_Nearest.blank64 = Ok (true, rec1) /\
  (exists white, lambertian_scatter (F:=F64 lm) 100 (solid_color (F:=F64 lm) white) pcg_seed rec1 = Ok (Some (white, out), g')) /\
  xy_hit (F:=F64 lm) (square64 3000) out (lowest (F:=F64 lm)) (ninf (NumOps:=F64 lm)) rec1 = Ok (true, rec2).
Proof. exact high_square. Qed.
Print Assumptions C123_far_refuted.
(* Metal: the mirrored direction is the normalised one with one sign changed, without rounding, and the ray is not absorbed. *)
Theorem C123_metal : forall (prec emax : Z) (Hp : Prec_gt_0 prec) (Hm : Prec_lt_emax prec emax) (lm : libm (binary_float prec emax)), (24 <= prec)%Z -> (64 <= emax)%Z ->
  let N := FL prec emax Hp Hm lm in
  forall hit flip, In (hit, flip) [(xy_hit (F:=N), fun v => V3 (vx v) (vy v) (- vz v)); (xz_hit (F:=N), fun v => V3 (vx v) (- vy v) (vz v)); (yz_hit (F:=N), fun v => V3 (- vx v) (vy v) (vz v))] ->
  forall q r lo hi rec rec' tex (d y : vec3 R), hit q r lo hi rec = Ok (true, rec') ->
  map3 fval (r_dir r) = fin3 d -> Rabs (vx d) <= bpow radix2 (emax - 1) /\ Rabs (vy d) <= bpow radix2 (emax - 1) /\ Rabs (vz d) <= bpow radix2 (emax - 1) ->
  map3 fval (normalize (F:=N) (r_dir r)) = fin3 y -> Rabs (vx y) <= bpow radix2 (emax - 2) /\ Rabs (vy y) <= bpow radix2 (emax - 2) /\ Rabs (vz y) <= bpow radix2 (emax - 2) ->
  exists ok out, metal_scatter (F:=N) tex r rec' = (ok, (tex rec', Ray (h_p rec') out)) /\ map3 fval out = fin3 (flip y) /\ (flip y <> y -> ok = true).
Proof. exact flat_mirror. Qed.
Print Assumptions C123_metal.
Example C123_metal_case : forall lm, map3 fval (r_dir rising64) = fin3 (V3 0 0 (11 / 8)) /\ map3 fval (normalize (F:=F64 lm) (r_dir rising64)) = fin3 (V3 0 0 1).
Proof. exact up_normal. Qed.
