(** Theorems about the surfaces found by iteration, helicoid.hpp and enneper.hpp
    (C25-C27, C29-C32, C34, C71, C87, C96, C97, C119, C122). *)
From Coq Require Import Reals Lra ZArith List Bool.
From Flocq Require Import IEEE754.BinarySingleNaN Core.FLX.
From Verif Require Import Num XR FL Spec M_Vec M_Hittable M_Surfaces Spec_Scene Spec_Shapes Spec_Surfaces
  Spec_Matrix P_Helicoid P_Enneper P_Condition P_Shallow P_Found P_Missed P_Systems P_Pick E_Surfaces E_Shallow E_Found.
Import ListNotations.
Local Open Scope R_scope.

(** ** C25 *)
(* Full statement: also t_min <= t <= t_max for every ray.  False for vertical rays
   (C25_window_refuted); proved for horizontal ones and for shallow ones that are inside the
   solid cylinder somewhere in the window (C25_window_shallow_partial); open for the steeper
   ones, whose t comes out of newton. *)
Theorem C25_helicoid_partial : forall (L : limits) (s : helicoid R) (r : ray R) (lo hi : xr) (rec rec' : hit_record xr),
  helicoid_ok s -> direction_ok (l_min L) (r_dir r) ->
  helicoid_hit (F:=XR L) (finhelicoid s) (finray r) lo hi rec = Ok (true, rec') ->
  meets_helicoid (l_eps L) s r rec' /\
  (Rabs (vz (r_dir r)) <= l_min L -> exists t, h_t rec' = Fin t /\ in_window lo hi t).
Proof. exact @helicoid_on_surface. Qed.
Print Assumptions C25_helicoid_partial.
Example C25_level_case : forall (L : limits) (rec : hit_record xr), l_min L < / 2 -> exists rec',
  helicoid_hit (F:=XR L) (finhelicoid unit_helicoid) (finray level_ray) (Fin 0) PInf rec = Ok (true, rec') /\ h_t rec' = Fin 1.
Proof. exact @level_hit. Qed.
(* Shallow: the (1,0) entry of newton's Jacobian, d_y + k d_z r v cos(kz), exceeds eps^2.  The second alternative is a window with nothing to find. *)
Theorem C25_window_shallow_partial : forall (L : limits) (s : helicoid R) (r : ray R) (lo hi : xr) (rec rec' : hit_record xr),
  helicoid_ok s -> l_eps L <= / 1000 -> let o := r_orig r in let d := r_dir r in
  l_min L < vx d ^ 2 + vy d ^ 2 -> off_threshold (l_min L) (2 * (vx o * vx d + vy o * vy d)) ->
  2 * PI * he_radius s * Rabs (vz d) / he_speed s + l_eps L * l_eps L < Rabs (vy d) ->
  helicoid_hit (F:=XR L) (finhelicoid s) (finray r) lo hi rec = Ok (true, rec') ->
  exists t, h_t rec' = Fin t /\
    (in_window lo hi t \/ forall t', in_window lo hi t' -> he_radius s ^ 2 < vx (pointR r t') ^ 2 + vy (pointR r t') ^ 2).
Proof. exact @helicoid_shallow. Qed.
Print Assumptions C25_window_shallow_partial.
Example C25_slant_case : forall (L : limits) (rec : hit_record xr), l_eps L <= / 1000 -> l_min L < / 2 ->
  helicoid_ok tall_helicoid /\ l_min L < vx (r_dir slant_ray) ^ 2 + vy (r_dir slant_ray) ^ 2 /\
  off_threshold (l_min L) (2 * (vx (r_orig slant_ray) * vx (r_dir slant_ray) + vy (r_orig slant_ray) * vy (r_dir slant_ray))) /\
  2 * PI * he_radius tall_helicoid * Rabs (vz (r_dir slant_ray)) / he_speed tall_helicoid + l_eps L * l_eps L < Rabs (vy (r_dir slant_ray)) /\
  exists rec', helicoid_hit (F:=XR L) (finhelicoid tall_helicoid) (finray slant_ray) (Fin 0) PInf rec = Ok (true, rec') /\ h_t rec' = Fin 0.
Proof. exact @slant_hit. Qed.
(* the window [0,1] gives t = 3/2 *)
Theorem C25_window_refuted : forall (L : limits) (rec : hit_record xr), l_min L < / 2 ->
  exists (s : helicoid R) (r : ray R) rec', helicoid_ok s /\
    helicoid_hit (F:=XR L) (finhelicoid s) (finray r) (Fin 0) (Fin 1) rec = Ok (true, rec') /\ h_t rec' = Fin (3 / 2).
Proof. exact @helicoid_out_of_window. Qed.
Print Assumptions C25_window_refuted.

(** ** C71 *)
(* A ray along the axis inverts a singular matrix and reads the inverse anyway. *)
Theorem C71_helicoid_refuted : forall (L : limits) (rec : hit_record xr) (lo hi : xr), l_min L < 1 ->
  exists (s : helicoid R) (r : ray R), helicoid_ok s /\ r_dir r <> zeroR /\
    helicoid_hit (F:=XR L) (finhelicoid s) (finray r) lo hi rec = Undef.
Proof. exact @helicoid_undefined. Qed.
Print Assumptions C71_helicoid_refuted.
(* These are all: the answer is undefined just when the solver returns numbers (t,u,v) where
   the ray is tangent to the surface, up to the smallest normal number. *)
Theorem C71_undefined_partial : forall (L : limits) (s : helicoid R) (r : ray R) (lo hi : xr) (rec : hit_record xr),
  helicoid_ok s -> direction_ok (l_min L) (r_dir r) ->
  (forall rec', helicoid_hit (F:=XR L) (finhelicoid s) (finray r) lo hi rec <> Ok rec') <->
  exists lo' hi' t u v su sv, partials (helicoid_sigma s) su sv /\
    helicoid_window (F:=XR L) (finhelicoid s) (finray r) lo hi = Some (lo', hi') /\
    helicoid_tuv (F:=XR L) (finhelicoid s) (fin3 (r_orig r)) (fin3 (r_dir r)) lo' hi' = Ok (Fin t, Fin u, Fin v) /\
    Rabs (dotR (crossR (su u v) (sv u v)) (r_dir r)) <= l_min L.
Proof. exact @hit_defined. Qed.
Print Assumptions C71_undefined_partial.

(** ** C26 *)
(* The third run of newton always starts at u = v = 0, where the 3x3 solver reads a cell it
   has not written: every ray that meets the clipping sphere is undefined, in exact
   arithmetic and in both floating-point formats. *)
Theorem C26_initialised_refuted :
  (forall (L : limits) s r lo hi rec, enneper_hit (F:=XR L) s r lo hi rec =
     match enneper_window (F:=XR L) s r lo hi with None => Ok (false, rec) | Some _ => Undef end) /\
  (forall lm s r lo hi rec, enneper_hit (F:=F64 lm) s r lo hi rec =
     match enneper_window (F:=F64 lm) s r lo hi with None => Ok (false, rec) | Some _ => Undef end) /\
  (forall lm s r lo hi rec, enneper_hit (F:=F32 lm) s r lo hi rec =
     match enneper_window (F:=F32 lm) s r lo hi with None => Ok (false, rec) | Some _ => Undef end).
Proof. exact enneper_always_undefined. Qed.
Print Assumptions C26_initialised_refuted.
Example C26_undefined_case : forall (L : limits) (rec : hit_record xr), l_min L < 1 ->
  enneper_hit (F:=XR L) (finenneper small_enneper) (finray climbing_ray) (Fin 0) PInf rec = Undef.
Proof. exact @climbing_undef. Qed.
(* The rest of hit, for any solver answering with three numbers or three NaNs. *)
Theorem C26_enneper_partial : forall (L : limits) uvt (s : enneper R) (r : ray R) (lo hi : xr) (rec rec' : hit_record xr),
  (forall o d a b w, uvt o d a b = Ok w -> (exists u v t, w = [Fin u; Fin v; Fin t]) \/ w = [NaN; NaN; NaN]) ->
  0 <= en_radius s -> r_dir r <> zeroR ->
  off_threshold (l_min L) (normsqR (r_dir r)) -> off_threshold (l_min L) (2 * dotR (r_orig r) (r_dir r)) ->
  lo <> NaN -> hi <> NaN ->
  enneper_hit_with (F:=XR L) uvt (finenneper s) (finray r) lo hi rec = Ok (true, rec') ->
  exists t u v, at_point r t rec' /\ h_u rec' = Fin u /\ h_v rec' = Fin v /\ in_window lo hi t /\
    normR (subR (pointR r t) (enneper_sigma u v)) <= 1 / 100000 /\ normR (pointR r t) <= en_radius s.
Proof. exact @enneper_meets. Qed.
Print Assumptions C26_enneper_partial.
Example C26_case : forall (L : limits) (rec : hit_record xr), l_min L < 1 -> exists rec',
  enneper_hit_with (F:=XR L) centre_solver (finenneper small_enneper) (finray climbing_ray) (Fin 0) PInf rec = Ok (true, rec').
Proof. exact @climbing_hit. Qed.
Example C26_case_ok : forall m, 0 < m < 1 -> 0 <= en_radius small_enneper /\ r_dir climbing_ray <> zeroR /\
  off_threshold m (normsqR (r_dir climbing_ray)) /\ off_threshold m (2 * dotR (r_orig climbing_ray) (r_dir climbing_ray)).
Proof. exact climbing_ok. Qed.

(** ** C27 *)
Theorem C27_helicoid : forall (L : limits) (s : helicoid R) (r : ray R) (lo hi : xr) (rec rec' : hit_record xr),
  helicoid_ok s -> direction_ok (l_min L) (r_dir r) ->
  helicoid_hit (F:=XR L) (finhelicoid s) (finray r) lo hi rec = Ok (true, rec') ->
  normal_to (helicoid_sigma s) r rec' /\
  exists u v, h_u rec' = Fin u /\ h_v rec' = Fin v /\ facing_normal r (helicoid_up s u v) rec'.
Proof. exact @helicoid_hit_normal. Qed.
Print Assumptions C27_helicoid.
(* for any solver, as in C26_enneper_partial *)
Theorem C27_enneper_partial : forall (L : limits) uvt (s : enneper R) (r : ray R) (lo hi : xr) (rec rec' : hit_record xr),
  (forall o d a b w, uvt o d a b = Ok w -> (exists u v t, w = [Fin u; Fin v; Fin t]) \/ w = [NaN; NaN; NaN]) ->
  0 <= en_radius s -> r_dir r <> zeroR ->
  off_threshold (l_min L) (normsqR (r_dir r)) -> off_threshold (l_min L) (2 * dotR (r_orig r) (r_dir r)) ->
  lo <> NaN -> hi <> NaN ->
  enneper_hit_with (F:=XR L) uvt (finenneper s) (finray r) lo hi rec = Ok (true, rec') ->
  normal_to enneper_sigma r rec' /\
  exists u v, h_u rec' = Fin u /\ h_v rec' = Fin v /\ facing_normal r (enneper_up u v) rec'.
Proof. exact @enneper_hit_normal. Qed.
Print Assumptions C27_enneper_partial.

(** ** C29 *)
Theorem C29_helicoid : forall (L : limits) (s : helicoid R) (u v : R),
  helicoid_at (F:=XR L) (finhelicoid s) (Fin u) (Fin v) = fin3 (helicoid_sigma s u v) /\
  exists su sv, partials (helicoid_sigma s) su sv /\
    let J := helicoid_J (F:=XR L) (finhelicoid s) (Fin u) (Fin v) in
    V3 (m00 J) (m10 J) (m20 J) = fin3 (su u v) /\ V3 (m01 J) (m11 J) (m21 J) = fin3 (sv u v).
Proof. exact @helicoid_jacobian. Qed.
Print Assumptions C29_helicoid.
Theorem C29_enneper : forall (L : limits) (u v : R),
  enneper_at (F:=XR L) (Fin u) (Fin v) = fin3 (enneper_sigma u v) /\
  exists su sv, partials enneper_sigma su sv /\
    let J := enneper_J (F:=XR L) (Fin u) (Fin v) in
    V3 (m00 J) (m10 J) (m20 J) = fin3 (su u v) /\ V3 (m01 J) (m11 J) (m21 J) = fin3 (sv u v).
Proof. exact @enneper_jacobian. Qed.
Print Assumptions C29_enneper.

(** ** C30 *)
Theorem C30_enneper : forall (L : limits) (u v : R), exists su sv suu suv svu svv,
  partials enneper_sigma su sv /\ partials su suu suv /\ partials sv svu svv /\
  let H := enneper_H (F:=XR L) (Fin u) (Fin v) in
  map3 a00 H = fin3 (suu u v) /\ map3 a01 H = fin3 (suv u v) /\ map3 a10 H = fin3 (svu u v) /\ map3 a11 H = fin3 (svv u v) /\
  map3 a01 H = map3 a10 H.
Proof. exact @enneper_H_spec. Qed.
Print Assumptions C30_enneper.
(* Full statement: all four entries.  The mixed one lacks the factor radius. *)
Theorem C30_helicoid_partial : forall (L : limits) (s : helicoid R) (u v : R), exists su sv suu suv svu svv,
  partials (helicoid_sigma s) su sv /\ partials su suu suv /\ partials sv svu svv /\
  let H := helicoid_H (F:=XR L) (finhelicoid s) (Fin u) (Fin v) in
  map3 a00 H = fin3 (suu u v) /\ map3 a11 H = fin3 (svv u v) /\
  map3 a01 H = map3 a10 H /\ suv u v = svu u v /\
  exists m, map3 a01 H = fin3 m /\ suv u v = scaleR (he_radius s) m /\ m <> zeroR.
Proof. exact @helicoid_H_spec. Qed.
Print Assumptions C30_helicoid_partial.
Theorem C30_helicoid_refuted : forall (L : limits) (s : helicoid R) (u v : R), he_radius s <> 1 ->
  forall su sv suu suv, partials (helicoid_sigma s) su sv -> partials su suu suv ->
  map3 a01 (helicoid_H (F:=XR L) (finhelicoid s) (Fin u) (Fin v)) <> fin3 (suv u v).
Proof. exact @helicoid_H_wrong. Qed.
Print Assumptions C30_helicoid_refuted.
Example C30_case : helicoid_ok wide_helicoid /\ he_radius wide_helicoid <> 1.
Proof. exact wide_ok. Qed.

(** ** C31 *)
(* Full statement: the stored G is the true one.  It is 4 PI^2 times too large; the other
   five coefficients are right. *)
Theorem C31_helicoid_partial : forall (L : limits) (s : helicoid R) (r : ray R) (lo hi : xr) (rec rec' : hit_record xr),
  helicoid_ok s -> direction_ok (l_min L) (r_dir r) ->
  helicoid_hit (F:=XR L) (finhelicoid s) (finray r) lo hi rec = Ok (true, rec') ->
  exists u v n E F G e f g, h_u rec' = Fin u /\ h_v rec' = Fin v /\
    first_form (helicoid_sigma s) u v E F G /\ second_form (helicoid_sigma s) n u v e f g /\
    h_E rec' = Fin E /\ h_F rec' = Fin F /\ h_G rec' = Fin (4 * PI ^ 2 * G) /\ G <> 4 * PI ^ 2 * G /\
    h_e rec' = Fin e /\ h_f rec' = Fin f /\ h_g rec' = Fin g.
Proof. exact @helicoid_hit_forms. Qed.
Print Assumptions C31_helicoid_partial.
Theorem C31_helicoid_refuted : forall (L : limits) (rec : hit_record xr) (lo hi : xr), l_min L < / 2 ->
  exists (s : helicoid R) (r : ray R) rec', helicoid_ok s /\
    helicoid_hit (F:=XR L) (finhelicoid s) (finray r) lo hi rec = Ok (true, rec') /\ ~ has_first_form (helicoid_sigma s) rec'.
Proof. exact @helicoid_wrong_form. Qed.
Print Assumptions C31_helicoid_refuted.
Example C31_helicoid_case : forall (L : limits) (rec : hit_record xr) (lo hi : xr), l_min L < / 2 -> exists rec',
  helicoid_hit (F:=XR L) (finhelicoid unit_helicoid) (finray rising_ray) lo hi rec = Ok (true, rec') /\ h_t rec' = Fin (3 / 2).
Proof. exact @rising_hit. Qed.
Theorem C31_enneper_partial : forall (L : limits) uvt (s : enneper R) (r : ray R) (lo hi : xr) (rec rec' : hit_record xr),
  (forall o d a b w, uvt o d a b = Ok w -> (exists u v t, w = [Fin u; Fin v; Fin t]) \/ w = [NaN; NaN; NaN]) ->
  0 <= en_radius s -> r_dir r <> zeroR ->
  off_threshold (l_min L) (normsqR (r_dir r)) -> off_threshold (l_min L) (2 * dotR (r_orig r) (r_dir r)) ->
  lo <> NaN -> hi <> NaN ->
  enneper_hit_with (F:=XR L) uvt (finenneper s) (finray r) lo hi rec = Ok (true, rec') ->
  has_first_form enneper_sigma rec' /\ exists n, has_second_form enneper_sigma n rec'.
Proof. exact @enneper_hit_forms. Qed.
Print Assumptions C31_enneper_partial.

(** ** C32 *)
(* Full statement: gaussian_curvature() is the curvature K.  It is K/(4 PI^2), because of G;
   gaussian_curvature_bounds() fits that value and not K. *)
Theorem C32_helicoid_partial : forall (L : limits) (s : helicoid R) (r : ray R) (lo hi : xr) (rec rec' : hit_record xr),
  helicoid_ok s -> direction_ok (l_min L) (r_dir r) ->
  helicoid_hit (F:=XR L) (finhelicoid s) (finray r) lo hi rec = Ok (true, rec') ->
  exists u v n K, h_u rec' = Fin u /\ h_v rec' = Fin v /\ curvatures (helicoid_sigma s) n u v K 0 /\ K < 0 /\
    gaussian_curvature (F:=XR L) rec' = Fin (K / (4 * PI ^ 2)) /\ mean_curvature (F:=XR L) rec' = Fin 0.
Proof. exact @helicoid_hit_curvature. Qed.
Print Assumptions C32_helicoid_partial.
Theorem C32_helicoid_refuted : forall (L : limits) (rec : hit_record xr) (lo hi : xr), l_min L < / 2 ->
  exists (s : helicoid R) (r : ray R) rec' u v n K, helicoid_ok s /\
    helicoid_hit (F:=XR L) (finhelicoid s) (finray r) lo hi rec = Ok (true, rec') /\
    h_u rec' = Fin u /\ h_v rec' = Fin v /\ curvatures (helicoid_sigma s) n u v K 0 /\
    gaussian_curvature (F:=XR L) rec' <> Fin K.
Proof. exact @helicoid_wrong_curvature. Qed.
Print Assumptions C32_helicoid_refuted.
Theorem C32_helicoid_bounds_refuted : forall (L : limits) (s : helicoid R), helicoid_ok s ->
  exists k0 k1, helicoid_curvature_bounds (F:=XR L) (finhelicoid s) = (Fin k0, Fin k1) /\
    (forall v, 0 <= v <= 1 -> k0 <= helicoid_K s v / (4 * PI ^ 2) <= k1) /\
    helicoid_K s 0 / (4 * PI ^ 2) = k0 /\ helicoid_K s 1 / (4 * PI ^ 2) = k1 /\
    helicoid_K s 0 < k0 /\ exists n, curvatures (helicoid_sigma s) n 0 0 (helicoid_K s 0) 0.
Proof. exact @helicoid_bounds_wrong. Qed.
Print Assumptions C32_helicoid_bounds_refuted.
Theorem C32_enneper_partial : forall (L : limits) uvt (s : enneper R) (r : ray R) (lo hi : xr) (rec rec' : hit_record xr),
  (forall o d a b w, uvt o d a b = Ok w -> (exists u v t, w = [Fin u; Fin v; Fin t]) \/ w = [NaN; NaN; NaN]) ->
  0 <= en_radius s -> r_dir r <> zeroR ->
  off_threshold (l_min L) (normsqR (r_dir r)) -> off_threshold (l_min L) (2 * dotR (r_orig r) (r_dir r)) ->
  lo <> NaN -> hi <> NaN ->
  enneper_hit_with (F:=XR L) uvt (finenneper s) (finray r) lo hi rec = Ok (true, rec') ->
  exists u v n K, h_u rec' = Fin u /\ h_v rec' = Fin v /\ curvatures enneper_sigma n u v K 0 /\
    gaussian_curvature (F:=XR L) rec' = Fin K /\ mean_curvature (F:=XR L) rec' = Fin 0.
Proof. exact @enneper_hit_curvature. Qed.
Print Assumptions C32_enneper_partial.
Theorem C32_enneper_bounds : forall (L : limits),
  (forall u v, exists n, curvatures enneper_sigma n u v (enneper_K u v) 0) /\
  exists k0 k1, enneper_curvature_bounds (F:=XR L) = (Fin k0, Fin k1) /\
  (forall u v, -2 <= u <= 2 -> -2 <= v <= 2 -> k0 <= enneper_K u v <= k1) /\
  enneper_K 0 0 = k0 /\ enneper_K 2 2 = k1.
Proof. exact @enneper_bounds_right. Qed.
Print Assumptions C32_enneper_bounds.

(** ** C34 *)
Theorem C34_helicoid : forall (L : limits) (s : helicoid R), helicoid_ok s ->
  exists B, helicoid_box (F:=XR L) (finhelicoid s) = Some (finbox B) /\ forall p, on_helicoid s p -> in_box B p.
Proof. exact @helicoid_box_spec. Qed.
Print Assumptions C34_helicoid.
Theorem C34_enneper : forall (L : limits) (s : enneper R),
  exists B, enneper_box (F:=XR L) (finenneper s) = Some (finbox B) /\ forall p, on_enneper s p -> in_box B p.
Proof. exact @enneper_box_spec. Qed.
Print Assumptions C34_enneper.

(** ** C87 *)
(* the largest entry of the inverse of the Jacobian of sigma(u,v) - o - t d, divided by the
   largest of u, v and t; the length of sigma_u x sigma_v *)
Theorem C87_helicoid : forall (L : limits) (s : helicoid R) (r : ray R) (lo hi : xr) (rec rec' : hit_record xr),
  helicoid_ok s -> direction_ok (l_min L) (r_dir r) ->
  helicoid_hit (F:=XR L) (finhelicoid s) (finray r) lo hi rec = Ok (true, rec') ->
  exists t u v su sv M big, h_t rec' = Fin t /\ h_u rec' = Fin u /\ h_v rec' = Fin v /\ partials (helicoid_sigma s) su sv /\
    mmR (columns (su u v) (sv u v) (negR (r_dir r))) M = id3R /\ mmR M (columns (su u v) (sv u v) (negR (r_dir r))) = id3R /\
    greatest big (map Rabs (entries M)) /\ (0 < Rmax (Rmax u v) t -> h_cond rec' = Fin (big / Rmax (Rmax u v) t)) /\
    h_grad rec' = Fin (normR (crossR (su u v) (sv u v))).
Proof. exact @condition_number. Qed.
Print Assumptions C87_helicoid.
Example C87_helicoid_case : forall (L : limits) (rec : hit_record xr) (lo hi : xr), l_min L < / 2 -> exists rec',
  helicoid_hit (F:=XR L) (finhelicoid unit_helicoid) (finray rising_ray) lo hi rec = Ok (true, rec') /\ h_t rec' = Fin (3 / 2).
Proof. exact @rising_hit. Qed.
(* for any solver, as in C26_enneper_partial *)
Theorem C87_enneper_partial : forall (L : limits) uvt (s : enneper R) (r : ray R) (lo hi : xr) (rec rec' : hit_record xr),
  (forall o d a b w, uvt o d a b = Ok w -> (exists u v t, w = [Fin u; Fin v; Fin t]) \/ w = [NaN; NaN; NaN]) ->
  enneper_hit_with (F:=XR L) uvt (finenneper s) (finray r) lo hi rec = Ok (true, rec') ->
  exists u v su sv, partials enneper_sigma su sv /\ h_u rec' = Fin u /\ h_v rec' = Fin v /\
    h_grad rec' = Fin (normR (crossR (su u v) (sv u v))).
Proof. exact @enneper_gradient. Qed.
Print Assumptions C87_enneper_partial.

(** ** C96 *)
(* Full statement: if o + t d is a point of the helicoid with t_min <= t <= t_max, hit
   returns true.  False for slanted rays (C96_slanted_refuted).  Proved for vertical rays,
   except within min of the axis, and for horizontal rays, except along a ruling or with the
   crossing on the y axis. *)
Theorem C96_upright_partial : forall (L : limits) (s : helicoid R) (o : vec3 R) (dz : R), helicoid_ok s -> l_min L < Rabs dz ->
  forall (lo hi : xr) (rec : hit_record xr), let rho := sqrt (vx o * vx o + vy o * vy o) in let r := Ray o (V3 0 0 dz) in
  l_min L * he_radius s <= rho <= he_radius s -> l_min L < 2 * PI * he_radius s * rho * Rabs dz ->
  exists rec' t u, helicoid_hit (F:=XR L) (finhelicoid s) (finray r) lo hi rec = Ok (true, rec') /\ at_point r t rec' /\ h_u rec' = Fin u /\
    h_v rec' = Fin (rho / he_radius s) /\ 0 <= u < 1 /\ pointR r t = helicoid_sigma s u (rho / he_radius s).
Proof. exact @upright_found. Qed.
Print Assumptions C96_upright_partial.
Example C96_upright_case : forall (L : limits), l_min L < / 2 -> let o := V3 (1 / 2) 0 (-2) in
  helicoid_ok unit_helicoid /\ l_min L < Rabs 1 /\ l_min L * he_radius unit_helicoid <= sqrt (vx o * vx o + vy o * vy o) <= he_radius unit_helicoid /\
  l_min L < 2 * PI * he_radius unit_helicoid * sqrt (vx o * vx o + vy o * vy o) * Rabs 1.
Proof. exact @upright_case. Qed.
Theorem C96_upright_outside : forall (L : limits) (s : helicoid R) (o : vec3 R) (dz : R), helicoid_ok s -> l_min L < Rabs dz ->
  forall (lo hi : xr) (rec : hit_record xr), he_radius s < sqrt (vx o * vx o + vy o * vy o) ->
  (exists rec', helicoid_hit (F:=XR L) (finhelicoid s) (finray (Ray o (V3 0 0 dz))) lo hi rec = Ok (false, rec')) /\
  forall t, ~ on_helicoid s (pointR (Ray o (V3 0 0 dz)) t).
Proof. exact @upright_missed. Qed.
Print Assumptions C96_upright_outside.
Example C96_upright_outside_case : he_radius unit_helicoid < sqrt (vx (V3 2 0 0) * vx (V3 2 0 0) + vy (V3 2 0 0) * vy (V3 2 0 0)).
Proof. exact outside_case. Qed.
Theorem C96_level_partial : forall (L : limits) (s : helicoid R) (o : vec3 R) (dx dy : R), helicoid_ok s ->
  l_min L < dx ^ 2 + dy ^ 2 -> off_threshold (l_min L) (2 * (vx o * dx + vy o * dy)) ->
  let r := Ray o (V3 dx dy 0) in forall t u v, let c := cos (2 * PI * u) in let z := sin (2 * PI * u) in
  0 <= u <= 1 -> 0 <= v <= 1 -> pointR r t = helicoid_sigma s u v ->
  c <> 0 -> off_threshold (l_min L) (z / c) -> l_min L < Rabs (dy * c - dx * z) ->
  forall (lo hi : xr) (rec : hit_record xr), in_window lo hi t -> l_min L < he_radius s * he_speed s * Rabs (dy * c - dx * z) ->
  exists rec', helicoid_hit (F:=XR L) (finhelicoid s) (finray r) lo hi rec = Ok (true, rec') /\ at_point r t rec' /\ h_u rec' = Fin u /\ h_v rec' = Fin v.
Proof. exact @level_found. Qed.
Print Assumptions C96_level_partial.
Example C96_level_case : forall (L : limits), l_min L < / 2 -> let o := V3 (- (1 / 2)) (-1) 0 in let r := Ray o (V3 0 1 0) in
  let c := cos (2 * PI * (1 / 2)) in let z := sin (2 * PI * (1 / 2)) in
  helicoid_ok unit_helicoid /\ l_min L < 0 ^ 2 + 1 ^ 2 /\ off_threshold (l_min L) (2 * (vx o * 0 + vy o * 1)) /\
  pointR r 1 = helicoid_sigma unit_helicoid (1 / 2) (1 / 2) /\ c <> 0 /\ off_threshold (l_min L) (z / c) /\ l_min L < Rabs (1 * c - 0 * z) /\
  in_window (Fin 0) PInf 1 /\ l_min L < he_radius unit_helicoid * he_speed unit_helicoid * Rabs (1 * c - 0 * z).
Proof. exact @level_case. Qed.
(* A crossing in front of the camera that hit does not report. *)
Theorem C96_slanted_refuted : forall (L : limits), l_eps L <= / 1000000 -> l_min L < / 10 ->
  exists (s : helicoid R) (r : ray R) t u v, helicoid_ok s /\ direction_ok (l_min L) (r_dir r) /\ 0 <= t /\ 0 <= u <= 1 /\ 0 <= v <= 1 /\
  pointR r t = helicoid_sigma s u v /\
  forall (rec rec' : hit_record xr), helicoid_hit (F:=XR L) (finhelicoid s) (finray r) (Fin 0) PInf rec <> Ok (true, rec').
Proof. exact @slanted_missed. Qed.
Print Assumptions C96_slanted_refuted.

(** ** C97 *)
(* ubounds: for rays that do not start inside the solid cylinder, exactly the u in [0,1] whose
   height the ray reaches. *)
Theorem C97_u : forall (L : limits) (s : helicoid R) (o d : vec3 R), helicoid_ok s -> forall a b, a <= b -> ~ inside_solid s o ->
  (helicoid_ubounds (F:=XR L) (finhelicoid s) (fin3 o) (fin3 d) (Fin a) (Fin b) = (NaN, NaN) /\
     forall t x, a <= t <= b -> vz (pointR (Ray o d) t) = he_speed s * (x - 1 / 2) -> ~ 0 <= x <= 1) \/
  exists p q, helicoid_ubounds (F:=XR L) (finhelicoid s) (fin3 o) (fin3 d) (Fin a) (Fin b) = (Fin p, Fin q) /\
    forall x, p <= x <= q <-> 0 <= x <= 1 /\ exists t, a <= t <= b /\ vz (pointR (Ray o d) t) = he_speed s * (x - 1 / 2).
Proof. exact @ubounds_exact. Qed.
Print Assumptions C97_u.
(* vbounds contains the v of every point of the ray in the window only if the two ends of the
   window are equally far from the axis: the upper bound is the smaller of the two end values
   where the larger is wanted. *)
Theorem C97_v_partial : forall (L : limits) (s : helicoid R) (o d : vec3 R), helicoid_ok s -> l_min L < vx d ^ 2 + vy d ^ 2 ->
  forall a b, a <= b -> ~ inside_solid s o ->
  (forall t, a <= t <= b -> axis_ratio s (pointR (Ray o d) t) <= 1 ->
     exists p q, helicoid_vbounds (F:=XR L) (finhelicoid s) (fin3 o) (fin3 d) (Fin a) (Fin b) = (Fin p, Fin q) /\ p <= axis_ratio s (pointR (Ray o d) t) <= q)
  <-> Rmin 1 (axis_ratio s (pointR (Ray o d) a)) = Rmin 1 (axis_ratio s (pointR (Ray o d) b)).
Proof. exact @vbounds_spec. Qed.
Print Assumptions C97_v_partial.
Example C97_v_ratio : forall s u v, helicoid_ok s -> 0 <= v -> axis_ratio s (helicoid_sigma s u v) = v.
Proof. exact axis_sigma. Qed.
Example C97_outside_case : ~ inside_solid unit_helicoid (V3 2 0 0).
Proof. exact outside_solid_case. Qed.
(* in the window that hit passes to vbounds, a point of the helicoid on the ray whose v is not
   in the bounds *)
Theorem C97_v_refuted : forall (L : limits), l_min L < / 10 ->
  exists (s : helicoid R) (r : ray R) a b t u v p q, helicoid_ok s /\
  helicoid_window (F:=XR L) (finhelicoid s) (finray r) (Fin 0) PInf = Some (Fin a, Fin b) /\ a <= t <= b /\ 0 <= u <= 1 /\ 0 <= v <= 1 /\
  pointR r t = helicoid_sigma s u v /\
  helicoid_vbounds (F:=XR L) (finhelicoid s) (fin3 (r_orig r)) (fin3 (r_dir r)) (Fin a) (Fin b) = (Fin p, Fin q) /\ q < v.
Proof. exact @vbounds_missed. Qed.
Print Assumptions C97_v_refuted.

(** ** C119 *)
Theorem C119_enneper : forall (L : limits) (o d : vec3 R) (u v t : R),
  let G u v t := subR (enneper_sigma u v) (pointR (Ray o d) t) in
  exists Gu Gv Gt : vec3 R, deriv3 (fun x => G x v t) u Gu /\ deriv3 (fun x => G u x t) v Gv /\ deriv3 (fun x => G u v x) t Gt /\
  enneper_system (F:=XR L) (fin3 o) (fin3 d) [Fin u; Fin v; Fin t] =
    (map Fin [vx (G u v t); vy (G u v t); vz (G u v t)],
     map (map Fin) [[vx Gu; vx Gv; vx Gt]; [vy Gu; vy Gv; vy Gt]; [vz Gu; vz Gv; vz Gt]]).
Proof. exact enneper_equations. Qed.
Print Assumptions C119_enneper.
(* The unknowns are t and v; u is the one at which the helicoid has the ray's height, so the third equation holds. *)
Theorem C119_helicoid : forall (L : limits) (s : helicoid R) (o d : vec3 R) (t v : R), helicoid_ok s ->
  let U t := (vz o + t * vz d) / he_speed s + 1 / 2 in
  let G t v := subR (pointR (Ray o d) t) (helicoid_sigma s (U t) v) in
  vz (G t v) = 0 /\
  exists Gt Gv : vec3 R, deriv3 (fun x => G x v) t Gt /\ deriv3 (fun x => G t x) v Gv /\
  helicoid_system (F:=XR L) (finhelicoid s) (fin3 o) (fin3 d) [Fin t; Fin v] =
    (map Fin [vx (G t v); vy (G t v)], map (map Fin) [[vx Gt; vx Gv]; [vy Gt; vy Gv]]).
Proof. exact helicoid_equations. Qed.
Print Assumptions C119_helicoid.
Example C119_case : helicoid_ok (Helicoid 1 3).
Proof. split; cbn; lra. Qed.

(** ** C122: the choice among the twelve solutions *)
Theorem C122_exact : forall (L : limits) (first : list xr) sols, let w := enneper_pick (F:=XR L) (first :: sols) first (Fin (l_max L)) in
  In w (first :: sols) /\
  (forall s, In s (first :: sols) -> xltb (nth 2 s NaN) (Fin (l_max L)) = true -> xleb (nth 2 w NaN) (nth 2 s NaN) = true) /\
  ((forall s, In s (first :: sols) -> xltb (nth 2 s NaN) (Fin (l_max L)) = false) -> w = first).
Proof. exact enneper_nearest. Qed.
Print Assumptions C122_exact.
Theorem C122_float : forall prec emax (Hp : Prec_gt_0 prec) (Hm : Prec_lt_emax prec emax) lm (first : list (binary_float prec emax)) sols,
  let N := FL prec emax Hp Hm lm in let w := enneper_pick (F:=N) (first :: sols) first (nmax (NumOps:=N)) in
  let t s := nth 2 s (nnan (NumOps:=N)) in
  In w (first :: sols) /\
  (forall s, In s (first :: sols) -> nltb (NumOps:=N) (t s) (nmax (NumOps:=N)) = true -> nleb (NumOps:=N) (t w) (t s) = true) /\
  ((forall s, In s (first :: sols) -> nltb (NumOps:=N) (t s) (nmax (NumOps:=N)) = false) -> w = first).
Proof. exact enneper_nearest_float. Qed.
Print Assumptions C122_float.
Example C122_case : forall L : limits, 1 < l_max L ->
  enneper_pick (F:=XR L) [[NaN; NaN; NaN]; [Fin 0; Fin 0; Fin 1]; [Fin 0; Fin 0; Fin (1 / 2)]] [NaN; NaN; NaN] (Fin (l_max L)) = [Fin 0; Fin 0; Fin (1 / 2)].
Proof. exact pick_case. Qed.
