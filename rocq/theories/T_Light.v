(** Theorems about media, materials and light paths (C43, C57-C60, C73-C76). *)
From Coq Require Import Reals List Bool.
From Verif Require Import Num XR Spec Spec_Scene Spec_Shapes Spec_Light M_Vec M_Hittable M_Shapes M_Materials
  P_Torus P_Light P_Medium P_Path E_Scene E_Light.
Import ListNotations.
Local Open Scope R_scope.

(** ** C43 *)
(* The ray enters at t1 and leaves at t2.  The free path -ln(u)/density is measured from the
   latest of 0, the start of the window and t1; the medium is hit exactly when its end is in
   the window and not after t2. *)
Theorem C43_medium : forall (L : limits) (r : ray R) (o : hittable (F:=XR L)) meets describes d u rec1 rec2 lo hi rec,
  hit_contract r o meets describes -> r_dir r <> zeroR -> 0 < d -> 0 < u < 1 -> lo <> NaN -> hi <> NaN ->
  exists b rec', medium_hit (F:=XR L) (hit o) (neg_inv_density (F:=XR L) (Fin d)) (Fin u) rec1 rec2 (finray r) lo hi rec = Ok (b, rec') /\
    if b : bool then exists t1 t2 t, first_meeting meets t1 /\ next_meeting meets (100 * l_eps L) t1 t2 /\
      (t - startR lo t1) * normR (r_dir r) = - ln u / d /\ startR lo t1 < t /\ t <= t2 /\ in_window lo hi t /\
      h_t rec' = Fin t /\ h_p rec' = fin3 (pointR r t)
    else rec' = rec /\ forall t1 t2 t, first_meeting meets t1 -> next_meeting meets (100 * l_eps L) t1 t2 ->
      (t - startR lo t1) * normR (r_dir r) = - ln u / d -> ~ (in_window lo hi t /\ t <= t2).
Proof. exact @medium_correct. Qed.
Print Assumptions C43_medium.
(* uniform_real_distribution can return 0; the free path is then infinite *)
Theorem C43_zero_draw : forall (L : limits) (r : ray R) (o : hittable (F:=XR L)) meets describes d rec1 rec2 lo hi rec,
  hit_contract r o meets describes -> 0 < d -> lo <> NaN -> hi <> NaN ->
  medium_hit (F:=XR L) (hit o) (neg_inv_density (F:=XR L) (Fin d)) (Fin 0) rec1 rec2 (finray r) lo hi rec = Ok (false, rec).
Proof. exact @medium_zero. Qed.
Print Assumptions C43_zero_draw.
(* Beer's law: the ray passes for exactly the draws below exp(-density * length inside) *)
Theorem C43_beer : forall (L : limits) (r : ray R) (o : hittable (F:=XR L)) meets describes d u rec1 rec2 lo hi rec t1 t2,
  hit_contract r o meets describes -> r_dir r <> zeroR -> 0 < d -> 0 < u < 1 -> lo <> NaN -> lo <> PInf -> hi <> NaN -> hi <> MInf ->
  first_meeting meets t1 -> next_meeting meets (100 * l_eps L) t1 t2 ->
  exists b rec', medium_hit (F:=XR L) (hit o) (neg_inv_density (F:=XR L) (Fin d)) (Fin u) rec1 rec2 (finray r) lo hi rec = Ok (b, rec') /\
    (b = true <-> exp (- (d * ((endR hi t2 - startR lo t1) * normR (r_dir r)))) <= u).
Proof. exact @medium_beer. Qed.
Print Assumptions C43_beer.
Example C43_case : forall (L : limits), l_min L < 1 -> 100 * l_eps L < 4 ->
  hit_contract toward_ray (of_sphere (F:=XR L) (finsphere far_sphere)) (fun t => on_sphere far_sphere (pointR toward_ray t)) (describes_sphere far_sphere toward_ray) /\
  first_meeting (fun t => on_sphere far_sphere (pointR toward_ray t)) 8 /\
  next_meeting (fun t => on_sphere far_sphere (pointR toward_ray t)) (100 * l_eps L) 8 12.
Proof. exact fog_case. Qed.

(** ** C57 *)
Theorem C57_metal : forall (L : limits) tex (r : ray R) (rec : hit_record xr) n, r_dir r <> zeroR -> h_normal rec = fin3 n -> normR n = 1 ->
  exists b out, metal_scatter (F:=XR L) tex (finray r) rec = (b, (tex rec, Ray (h_p rec) (fin3 out))) /\
    out = mirrorR n (unitR (r_dir r)) /\ normR out = 1 /\ (b = true <-> dotR (r_dir r) n < 0).
Proof. exact @metal_correct. Qed.
Print Assumptions C57_metal.

(** ** C58 *)
Theorem C58_dielectric : forall (L : limits) ir u (r : ray R) (rec : hit_record xr) n, 0 < ir -> r_dir r <> zeroR ->
  h_normal rec = fin3 n -> normR n = 1 -> dotR (r_dir r) n <= 0 ->
  exists out, dielectric_scatter (F:=XR L) (Fin ir) (Fin u) (finray r) rec = (V3 (Fin 1) (Fin 1) (Fin 1), Ray (h_p rec) (fin3 out)) /\
    let v := unitR (r_dir r) in let eta := ratioR (h_front rec) ir in
    let sin_in := normR (tangentialR n v) in
    normR out = 1 /\
    (1 < eta * sin_in \/ u < schlickR (- dotR v n) eta -> out = mirrorR n v) /\
    (eta * sin_in <= 1 -> schlickR (- dotR v n) eta <= u ->
       tangentialR n out = scaleR eta (tangentialR n v) /\ normR (tangentialR n out) = eta * sin_in /\
       dotR out n = - sqrt (1 - (eta * sin_in) ^ 2)).
Proof. exact @dielectric_correct. Qed.
Print Assumptions C58_dielectric.
Example C58_case : let n := V3 0 0 1 in let d := V3 1 0 (-1) in
  normR n = 1 /\ d <> zeroR /\ dotR d n < 0 /\
  normsqR (tangentialR n (unitR d)) = 1 / 2 /\ ratioR true (3 / 2) * normR (tangentialR n (unitR d)) < 1 /\
  1 < ratioR false (3 / 2) * normR (tangentialR n (unitR d)).
Proof. exact glass_case. Qed.

(** ** C59 *)
Theorem C59_probability : forall (L : limits) c eta, 0 <= c <= 1 -> 0 <= eta ->
  exists p, reflectance (F:=XR L) (Fin c) (Fin eta) = Fin p /\ 0 <= p <= 1.
Proof. exact @schlick_probability. Qed.
Print Assumptions C59_probability.
Theorem C59_grazing : forall (L : limits) eta, 0 <= eta -> reflectance (F:=XR L) (Fin 0) (Fin eta) = Fin 1.
Proof. exact @schlick_grazing. Qed.
Print Assumptions C59_grazing.
(* at normal incidence it is Fresnel's value *)
Theorem C59_normal : forall (L : limits) eta, 0 <= eta -> reflectance (F:=XR L) (Fin 1) (Fin eta) = Fin (((1 - eta) / (1 + eta)) ^ 2).
Proof. exact @schlick_normal. Qed.
Print Assumptions C59_normal.
Theorem C59_decreasing : forall (L : limits) c c' eta p p', 0 <= c -> c < c' -> c' <= 1 -> 0 < eta ->
  reflectance (F:=XR L) (Fin c) (Fin eta) = Fin p -> reflectance (F:=XR L) (Fin c') (Fin eta) = Fin p' -> p' < p.
Proof. exact @schlick_decreasing. Qed.
Print Assumptions C59_decreasing.

(** ** C60 *)
(* [wh] is the scene, [sc] scatter, [em] emitted, w everything they may read and change. *)
Theorem C60_bounded : forall (L : limits) M W wh sc em B (bg : vec3 R),
  (forall m rec, exists e, em m rec = fin3 e /\ within_cube B e) ->
  (forall m w r rec att out w', sc m w r rec = Ok (Some (att, out), w') -> exists a, att = fin3 a /\ within_cube 1 a) ->
  within_cube B bg ->
  forall depth w r c w', @ray_color (XR L) M W wh sc em depth w r (fin3 bg) = Ok (c, w') ->
  exists c', c = fin3 c' /\ within_cube (INR depth * B) c'.
Proof. exact @colour_bounded. Qed.
Print Assumptions C60_bounded.
Theorem C60_bounded_dark : forall (L : limits) M W wh sc em B (bg : vec3 R),
  (forall m rec, exists e, em m rec = fin3 e /\ within_cube B e) ->
  (forall m w r rec att out w', sc m w r rec = Ok (Some (att, out), w') ->
     em m rec = fin3 zeroR /\ exists a, att = fin3 a /\ within_cube 1 a) ->
  within_cube B bg ->
  forall depth w r c w', @ray_color (XR L) M W wh sc em depth w r (fin3 bg) = Ok (c, w') ->
  exists c', c = fin3 c' /\ within_cube B c'.
Proof. exact @colour_bounded_dark. Qed.
Print Assumptions C60_bounded_dark.
(* at most [depth] intersection tests, by any counter of them *)
Theorem C60_calls : forall (L : limits) M W wh sc em (count : W -> nat),
  (forall w r lo hi h w', wh w r lo hi = Ok (h, w') -> count w' = S (count w)) ->
  (forall m w r rec s w', sc m w r rec = Ok (s, w') -> count w' = count w) ->
  forall depth w r bg c w', @ray_color (XR L) M W wh sc em depth w r bg = Ok (c, w') ->
  (count w <= count w' <= count w + depth)%nat /\ (depth <> O -> count w < count w')%nat.
Proof. exact @colour_calls. Qed.
Print Assumptions C60_calls.
Theorem C60_total : forall (L : limits) M W wh sc em,
  (forall w r lo hi, exists h, wh w r lo hi = Ok h) ->
  (forall m w r rec, exists s, sc m w r rec = Ok s) ->
  forall depth w r bg, exists c, @ray_color (XR L) M W wh sc em depth w r bg = Ok c.
Proof. exact @colour_total. Qed.
Print Assumptions C60_total.
(* a grey room with a lamp *)
Example C60_case : forall out,
  (forall m rec, exists e, room_emitted m rec = fin3 e /\ within_cube 4 e) /\
  (forall m w r rec att out' w', room_scatter out m w r rec = Ok (Some (att, out'), w') ->
     room_emitted m rec = fin3 zeroR /\ exists a, att = fin3 a /\ within_cube 1 a).
Proof. exact room_case. Qed.
Example C60_room : forall (L : limits) (rec : hit_record xr) (r out : ray xr) bg,
  ray_color (F:=XR L) (M:=bool) (W:=nat) (fun w _ _ _ => Ok (Some (Nat.odd w), rec, S w)) (room_scatter out) room_emitted 8 O r bg
    = Ok (fin3 (V3 2 2 2), 2%nat).
Proof. exact room_colour. Qed.
(* the bound depth * M and the bound on the tests are attained *)
Theorem C60_sharp : forall (L : limits) (rec : hit_record xr) (r : ray xr) depth,
  ray_color (F:=XR L) (M:=unit) (W:=nat) (fun w _ _ _ => Ok (Some tt, rec, S w)) (fun _ w _ _ => Ok (Some (fin3 (V3 1 1 1), r), w))
    (fun _ _ => fin3 (V3 1 1 1)) depth O r (fin3 (V3 1 1 1)) = Ok (fin3 (V3 (INR depth) (INR depth) (INR depth)), depth).
Proof. exact bright. Qed.
Print Assumptions C60_sharp.

(** ** C73 *)
Theorem C73_superposition : forall (L : limits) M W wh sc em1 em2 em (b1 b2 : vec3 R),
  (forall m rec, exists e1 e2, em1 m rec = fin3 e1 /\ em2 m rec = fin3 e2 /\ em m rec = fin3 (addR e1 e2)) ->
  (forall m w r rec att out w', sc m w r rec = Ok (Some (att, out), w') -> exists a, att = fin3 a) ->
  forall depth w r c w', @ray_color (XR L) M W wh sc em depth w r (fin3 (addR b1 b2)) = Ok (c, w') ->
  exists c1 c2, c = fin3 (addR c1 c2) /\
    @ray_color (XR L) M W wh sc em1 depth w r (fin3 b1) = Ok (fin3 c1, w') /\
    @ray_color (XR L) M W wh sc em2 depth w r (fin3 b2) = Ok (fin3 c2, w').
Proof. exact @superposition. Qed.
Print Assumptions C73_superposition.

(** ** C74 *)
Theorem C74_depth : forall (L : limits) M W wh sc em (bg : vec3 R),
  (forall m rec, exists e, em m rec = fin3 e /\ nonneg3 e) ->
  (forall m w r rec att out w', sc m w r rec = Ok (Some (att, out), w') -> exists a, att = fin3 a /\ nonneg3 a) ->
  nonneg3 bg ->
  forall k n w r c1 c2 w1 w2, (k <= n)%nat ->
  @ray_color (XR L) M W wh sc em k w r (fin3 bg) = Ok (c1, w1) ->
  @ray_color (XR L) M W wh sc em n w r (fin3 bg) = Ok (c2, w2) ->
  exists a b, c1 = fin3 a /\ c2 = fin3 b /\ nonneg3 a /\ nonneg3 (subR b a).
Proof. exact @depth_monotone. Qed.
Print Assumptions C74_depth.

(** ** C75 *)
Theorem C75_isotropic : forall (L : limits) tex (g : vec3 R) (rec : hit_record xr), g <> zeroR ->
  exists out, isotropic_scatter (F:=XR L) tex (fin3 g) rec = (tex rec, Ray (h_p rec) (fin3 out)) /\ normR out = 1 /\
    exists k, 0 < k /\ scaleR k out = g.
Proof. exact @isotropic_unit. Qed.
Print Assumptions C75_isotropic.
Theorem C75_zero_draw : forall (L : limits) tex (rec : hit_record xr),
  isotropic_scatter (F:=XR L) tex (fin3 zeroR) rec = (tex rec, Ray (h_p rec) (V3 NaN NaN NaN)).
Proof. exact @isotropic_zero. Qed.
Print Assumptions C75_zero_draw.

(** ** C76 *)
Theorem C76_checker : forall (L : limits) p q (rec1 rec2 : hit_record xr) (a b : vec3 xr), h_p rec1 = fin3 p -> h_p rec2 = fin3 q ->
  sin (10 * vx p) * sin (10 * vy p) * sin (10 * vz p) <> 0 ->
  q = addR p (V3 (PI / 10) 0 0) \/ q = addR p (V3 0 (PI / 10) 0) \/ q = addR p (V3 0 0 (PI / 10)) ->
  (checker_texture (F:=XR L) (fun _ => a) (fun _ => b) rec1, checker_texture (F:=XR L) (fun _ => a) (fun _ => b) rec2) = (a, b) \/
  (checker_texture (F:=XR L) (fun _ => a) (fun _ => b) rec1, checker_texture (F:=XR L) (fun _ => a) (fun _ => b) rec2) = (b, a).
Proof. exact @checker_swap. Qed.
Print Assumptions C76_checker.
(* the cell at the origin takes the first texture *)
Theorem C76_origin : forall (L : limits) p (rec : hit_record xr) (a b : vec3 xr), h_p rec = fin3 p ->
  0 < vx p < PI / 10 -> 0 < vy p < PI / 10 -> 0 < vz p < PI / 10 ->
  checker_texture (F:=XR L) (fun _ => a) (fun _ => b) rec = a.
Proof. exact @checker_origin. Qed.
Print Assumptions C76_origin.
Example C76_case : sin (10 * (PI / 20)) * sin (10 * (PI / 20)) * sin (10 * (PI / 20)) <> 0.
Proof. exact checker_case. Qed.
