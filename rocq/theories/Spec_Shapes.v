(** The surfaces, as point sets and as parametrisations, in ordinary real geometry. *)
From Coq Require Import Reals.
From Verif Require Import Num XR Spec M_Vec M_Hittable M_Shapes Spec_Scene.
Local Open Scope R_scope.

(** *** Point sets (the records only carry the parameters of a shape) *)
Definition on_sphere (s : sphere R) (p : vec3 R) : Prop := distR p (s_center s) = s_radius s.
Definition on_ellipsoid (s : ellipsoid R) (p : vec3 R) : Prop :=
  ((vx p - vx (el_center s)) / vx (el_scales s)) ^ 2 +
  ((vy p - vy (el_center s)) / vy (el_scales s)) ^ 2 +
  ((vz p - vz (el_center s)) / vz (el_scales s)) ^ 2 = 1.
(** the flat disk with the given centre, radius and unit normal *)
Definition on_disk (c n : vec3 R) (radius : R) (p : vec3 R) : Prop :=
  dotR (subR p c) n = 0 /\ distR p c <= radius.
Definition on_xy (q : rect R) (p : vec3 R) : Prop :=
  vz p = q_k q /\ q_a0 q <= vx p <= q_a1 q /\ q_b0 q <= vy p <= q_b1 q.
Definition on_xz (q : rect R) (p : vec3 R) : Prop :=
  vy p = q_k q /\ q_a0 q <= vx p <= q_a1 q /\ q_b0 q <= vz p <= q_b1 q.
Definition on_yz (q : rect R) (p : vec3 R) : Prop :=
  vx p = q_k q /\ q_a0 q <= vy p <= q_a1 q /\ q_b0 q <= vz p <= q_b1 q.
Definition on_cylinder (c : cylinder R) (p : vec3 R) : Prop :=
  vx p ^ 2 + vy p ^ 2 = c_radius c ^ 2 /\ c_zmin c <= vz p <= c_zmax c.
(** distance r from the circle of radius R around the centre, in the plane z = const *)
Definition on_torus (o : torus R) (p : vec3 R) : Prop :=
  let x := vx p - vx (o_center o) in let y := vy p - vy (o_center o) in
  let z := vz p - vz (o_center o) in
  (sqrt (x ^ 2 + y ^ 2) - o_R o) ^ 2 + z ^ 2 = o_r o ^ 2.

(** *** The shapes with these real parameters, as the model represents them *)
Definition finsphere (s : sphere R) : sphere xr := Sphere (fin3 (s_center s)) (Fin (s_radius s)).
Definition finellipsoid (s : ellipsoid R) : ellipsoid xr := Ellipsoid (fin3 (el_center s)) (fin3 (el_scales s)).
Definition finrect (q : rect R) : rect xr :=
  Rect (Fin (q_a0 q)) (Fin (q_a1 q)) (Fin (q_b0 q)) (Fin (q_b1 q)) (Fin (q_k q)).
Definition fincylinder (c : cylinder R) : cylinder xr :=
  Cylinder (Fin (c_radius c)) (Fin (c_zmin c)) (Fin (c_zmax c)).
Definition fintorus (o : torus R) : torus xr := Torus (fin3 (o_center o)) (Fin (o_R o)) (Fin (o_r o)).

(** *** Parametrisations *)
Definition sphere_sigma (s : sphere R) (u v : R) : vec3 R :=
  addR (s_center s) (scaleR (s_radius s)
    (V3 (cos (2 * PI * u) * sin (PI * v)) (sin (2 * PI * u) * sin (PI * v)) (cos (PI * v)))).
Definition ellipsoid_sigma (s : ellipsoid R) (u v : R) : vec3 R :=
  addR (el_center s)
    (V3 (vx (el_scales s) * (cos (2 * PI * u) * sin (PI * v)))
        (vy (el_scales s) * (sin (2 * PI * u) * sin (PI * v)))
        (vz (el_scales s) * cos (PI * v))).
Definition cylinder_sigma (c : cylinder R) (u v : R) : vec3 R :=
  V3 (c_radius c * cos (2 * PI * u)) (c_radius c * sin (2 * PI * u))
     (c_zmin c + v * (c_zmax c - c_zmin c)).
Definition torus_sigma (o : torus R) (u v : R) : vec3 R :=
  addR (o_center o)
    (V3 ((o_R o + o_r o * cos (2 * PI * v)) * cos (2 * PI * u))
        ((o_R o + o_r o * cos (2 * PI * v)) * sin (2 * PI * u))
        (o_r o * sin (2 * PI * v))).

(** *** Records *)
(** The record holds the ray point at t. *)
Definition at_point (r : ray R) (t : R) (rec : hit_record xr) : Prop :=
  h_t rec = Fin t /\ h_p rec = fin3 (pointR r t).
(** The stored normal is the unit vector along the given outward direction, turned
    towards the ray; front_face tells whether it had to be kept. *)
Definition facing_normal (r : ray R) (outward : vec3 R) (rec : hit_record xr) : Prop :=
  exists n, h_normal rec = fin3 n /\ normR n = 1 /\ dotR n (r_dir r) <= 0 /\
    (h_front rec = true -> dotR (r_dir r) outward < 0 /\ exists k, 0 < k /\ n = scaleR k outward) /\
    (h_front rec = false -> 0 <= dotR (r_dir r) outward /\ exists k, k < 0 /\ n = scaleR k outward).
(** The stored parameters are those of the stored point. *)
Definition parameters (sigma : R -> R -> vec3 R) (rec : hit_record xr) : Prop :=
  exists u v, h_u rec = Fin u /\ h_v rec = Fin v /\ 0 <= u <= 1 /\ 0 <= v <= 1 /\
    h_p rec = fin3 (sigma u v).

(** The coefficients of the quadratic |o + t d - c|^2 = r^2 are 0 or above [m]. *)
Definition sphere_off_threshold (m : R) (s : sphere R) (r : ray R) : Prop :=
  r_dir r <> zeroR /\ off_threshold m (normsqR (r_dir r)) /\
  off_threshold m (2 * dotR (subR (r_orig r) (s_center s)) (r_dir r)).
Definition unscaled (s : ellipsoid R) (v : vec3 R) : vec3 R :=
  V3 (vx v / vx (el_scales s)) (vy v / vy (el_scales s)) (vz v / vz (el_scales s)).
Definition ellipsoid_off_threshold (m : R) (s : ellipsoid R) (r : ray R) : Prop :=
  r_dir r <> zeroR /\ off_threshold m (normsqR (unscaled s (r_dir r))) /\
  off_threshold m (2 * dotR (unscaled s (subR (r_orig r) (el_center s))) (unscaled s (r_dir r))).

(** *** Differential geometry of a parametrised surface *)
Definition deriv3 (f : R -> vec3 R) (t : R) (d : vec3 R) : Prop :=
  derivable_pt_lim (fun s => vx (f s)) t (vx d) /\
  derivable_pt_lim (fun s => vy (f s)) t (vy d) /\
  derivable_pt_lim (fun s => vz (f s)) t (vz d).
(** [su], [sv] are the first partial derivatives of [sigma], everywhere *)
Definition partials (sigma su sv : R -> R -> vec3 R) : Prop :=
  forall u v, deriv3 (fun s => sigma s v) u (su u v) /\ deriv3 (fun s => sigma u s) v (sv u v).
(** coefficients of the first fundamental form of [sigma] at (u,v) *)
Definition first_form (sigma : R -> R -> vec3 R) (u v E F G : R) : Prop :=
  exists su sv, partials sigma su sv /\
    E = dotR (su u v) (su u v) /\ F = dotR (su u v) (sv u v) /\ G = dotR (sv u v) (sv u v).
(** coefficients of the second fundamental form with respect to the unit normal [n] *)
Definition second_form (sigma : R -> R -> vec3 R) (n : vec3 R) (u v e f g : R) : Prop :=
  exists su sv suu suv svu svv, partials sigma su sv /\ partials su suu suv /\ partials sv svu svv /\
    normR n = 1 /\ dotR n (su u v) = 0 /\ dotR n (sv u v) = 0 /\
    e = dotR (suu u v) n /\ f = dotR (suv u v) n /\ g = dotR (svv u v) n.
(** The record holds the fundamental forms of [sigma] at the stored parameters. *)
Definition has_first_form (sigma : R -> R -> vec3 R) (rec : hit_record xr) : Prop :=
  exists u v E F G, h_u rec = Fin u /\ h_v rec = Fin v /\ h_E rec = Fin E /\ h_F rec = Fin F /\ h_G rec = Fin G /\
    first_form sigma u v E F G.
Definition has_second_form (sigma : R -> R -> vec3 R) (n : vec3 R) (rec : hit_record xr) : Prop :=
  exists u v e f g, h_u rec = Fin u /\ h_v rec = Fin v /\ h_e rec = Fin e /\ h_f rec = Fin f /\ h_g rec = Fin g /\
    second_form sigma n u v e f g.
(** the gradient of the function whose zero set is the ellipsoid *)
Definition ellipsoid_gradR (s : ellipsoid R) (p : vec3 R) : vec3 R :=
  V3 (2 * (vx p - vx (el_center s)) / vx (el_scales s) ^ 2)
     (2 * (vy p - vy (el_center s)) / vy (el_scales s) ^ 2)
     (2 * (vz p - vz (el_center s)) / vz (el_scales s) ^ 2).
Definition positive3 (v : vec3 R) : Prop := 0 < vx v /\ 0 < vy v /\ 0 < vz v.

(** *** Flat shapes *)
(** a right-handed orthonormal frame whose third vector is [n] *)
Definition frame (e1 e2 n : vec3 R) : Prop :=
  normR e1 = 1 /\ normR e2 = 1 /\ normR n = 1 /\ dotR e1 e2 = 0 /\ crossR e1 e2 = n.
Definition disk_sigma (c e1 e2 : vec3 R) (radius u v : R) : vec3 R :=
  addR c (addR (scaleR (radius * v * cos (2 * PI * u)) e1) (scaleR (radius * v * sin (2 * PI * u)) e2)).
Definition xy_sigma (q : rect R) (u v : R) : vec3 R :=
  V3 (q_a0 q + u * (q_a1 q - q_a0 q)) (q_b0 q + v * (q_b1 q - q_b0 q)) (q_k q).
Definition xz_sigma (q : rect R) (u v : R) : vec3 R :=
  V3 (q_a0 q + u * (q_a1 q - q_a0 q)) (q_k q) (q_b0 q + v * (q_b1 q - q_b0 q)).
Definition yz_sigma (q : rect R) (u v : R) : vec3 R :=
  V3 (q_k q) (q_a0 q + u * (q_a1 q - q_a0 q)) (q_b0 q + v * (q_b1 q - q_b0 q)).

(** *** What the record must contain at a meeting parameter t *)
Definition describes_sphere (s : sphere R) (r : ray R) (t : R) (rec : hit_record xr) : Prop :=
  at_point r t rec /\ facing_normal r (subR (pointR r t) (s_center s)) rec /\
  parameters (sphere_sigma s) rec /\ h_grad rec = Fin (2 * s_radius s) /\
  has_first_form (sphere_sigma s) rec /\
  has_second_form (sphere_sigma s) (scaleR (/ s_radius s) (subR (s_center s) (pointR r t))) rec.

(** the inward unit normal of the ellipsoid *)
Definition ell_inward (s : ellipsoid R) (p : vec3 R) : vec3 R :=
  scaleR (- / normR (ellipsoid_gradR s p)) (ellipsoid_gradR s p).
Definition describes_ellipsoid (s : ellipsoid R) (r : ray R) (t : R) (rec : hit_record xr) : Prop :=
  at_point r t rec /\ facing_normal r (ellipsoid_gradR s (pointR r t)) rec /\
  parameters (ellipsoid_sigma s) rec /\ h_grad rec = Fin (normR (ellipsoid_gradR s (pointR r t))) /\
  has_first_form (ellipsoid_sigma s) rec /\
  has_second_form (ellipsoid_sigma s) (ell_inward s (pointR r t)) rec.

Definition describes_disk (c e1 e2 n : vec3 R) (radius : R) (r : ray R) (t : R) (rec : hit_record xr) : Prop :=
  at_point r t rec /\ facing_normal r n rec /\ parameters (disk_sigma c e1 e2 radius) rec /\
  has_first_form (disk_sigma c e1 e2 radius) rec.

Definition describes_rect (n : vec3 R) (sigma : R -> R -> vec3 R) (r : ray R) (t : R) (rec : hit_record xr) : Prop :=
  at_point r t rec /\ facing_normal r n rec /\ parameters sigma rec.

Definition describes_cylinder (c : cylinder R) (r : ray R) (t : R) (rec : hit_record xr) : Prop :=
  let p := pointR r t in
  at_point r t rec /\ facing_normal r (V3 (vx p) (vy p) 0) rec /\ parameters (cylinder_sigma c) rec /\
  h_grad rec = Fin (2 * c_radius c) /\ has_first_form (cylinder_sigma c) rec /\
  has_second_form (cylinder_sigma c) (scaleR (/ c_radius c) (V3 (- vx p) (- vy p) 0)) rec.
(** the ray crosses the infinite cylinder at t *)
Definition on_wall (c : cylinder R) (r : ray R) (t : R) : Prop :=
  vx (pointR r t) ^ 2 + vy (pointR r t) ^ 2 = c_radius c ^ 2.
Definition cylinder_off_threshold (m : R) (r : ray R) : Prop :=
  let o := r_orig r in let d := r_dir r in
  off_threshold m (vx d * vx d + vy d * vy d) /\ off_threshold m (2 * (vx o * vx d + vy o * vy d)) /\
  (vx d <> 0 \/ vy d <> 0).

(** from the nearest point of the core circle to p *)
Definition torus_outward (o : torus R) (p : vec3 R) : vec3 R :=
  let x := vx p - vx (o_center o) in let y := vy p - vy (o_center o) in
  let z := vz p - vz (o_center o) in let s := sqrt (x ^ 2 + y ^ 2) in
  V3 (x - o_R o * (x / s)) (y - o_R o * (y / s)) z.
(** distance from the axis *)
Definition axis_distance (o : torus R) (p : vec3 R) : R :=
  sqrt ((vx p - vx (o_center o)) ^ 2 + (vy p - vy (o_center o)) ^ 2).
Definition describes_torus (o : torus R) (r : ray R) (t : R) (rec : hit_record xr) : Prop :=
  let p := pointR r t in
  at_point r t rec /\ facing_normal r (torus_outward o p) rec /\ parameters (torus_sigma o) rec /\
  h_grad rec = Fin (8 * o_R o * o_r o * axis_distance o p) /\ has_first_form (torus_sigma o) rec /\
  has_second_form (torus_sigma o) (scaleR (/ o_r o) (torus_outward o p)) rec.
(** the coefficients of t^4, t^3, t^2, t and 1 in the implicit equation of the torus
    (|p|^2 + R^2 - r^2)^2 = 4 R^2 (x^2 + y^2), p = o + t d *)
Definition torus_quartic (o : torus R) (r : ray R) : R * R * R * R * R :=
  let c := subR (r_orig r) (o_center o) in let d := r_dir r in
  let k := normsqR c - (o_r o ^ 2 + o_R o ^ 2) in
  (normsqR d ^ 2, 4 * normsqR d * dotR c d,
   2 * normsqR d * k + 4 * dotR c d ^ 2 + 4 * o_R o ^ 2 * vz d ^ 2,
   4 * k * dotR c d + 8 * o_R o ^ 2 * vz c * vz d,
   k ^ 2 - 4 * o_R o ^ 2 * (o_r o ^ 2 - vz c ^ 2)).
Definition torus_off_threshold (m : R) (o : torus R) (r : ray R) : Prop :=
  let '(c4, c3, c2, c1, c0) := torus_quartic o r in quartic_off_threshold m c4 c3 c2 c1 c0.
(** the rays whose quartic is one of those which [quartic_roots] cannot solve *)
Definition torus_degenerate (o : torus R) (r : ray R) : Prop :=
  let '(c4, c3, c2, c1, c0) := torus_quartic o r in quartic_degenerate c4 c3 c2 c1 c0.

(** *** Curvature *)
(** [K], [H] are the Gaussian and mean curvature of [sigma] at (u,v), H with respect to [n] *)
Definition curvatures (sigma : R -> R -> vec3 R) (n : vec3 R) (u v K H : R) : Prop :=
  exists E F G e f g, first_form sigma u v E F G /\ second_form sigma n u v e f g /\ E * G - F * F <> 0 /\
    K = (e * g - f * f) / (E * G - F * F) /\ H = (e * G - 2 * f * F + g * E) / (2 * (E * G - F * F)).
(** The record reports these curvatures. *)
Definition reports {L : limits} (rec : hit_record xr) (K H : R) : Prop :=
  gaussian_curvature (F:=XR L) rec = Fin K /\ mean_curvature (F:=XR L) rec = Fin H.
(** a point of the z axis through [c] *)
Definition on_z_axis (c p : vec3 R) : Prop := vx p = vx c /\ vy p = vy c.
(** Gaussian curvature of a torus, an ellipsoid at a point p *)
Definition torus_K (o : torus R) (p : vec3 R) : R :=
  (axis_distance o p - o_R o) / (o_r o ^ 2 * axis_distance o p).
Definition ellipsoid_K (s : ellipsoid R) (p : vec3 R) : R :=
  let a := vx (el_scales s) in let b := vy (el_scales s) in let c := vz (el_scales s) in
  / (a ^ 2 * b ^ 2 * c ^ 2 *
     ((vx p - vx (el_center s)) ^ 2 / a ^ 4 + (vy p - vy (el_center s)) ^ 2 / b ^ 4 + (vz p - vz (el_center s)) ^ 2 / c ^ 4) ^ 2).

(** The stored normal is a unit vector orthogonal to the tangent plane of [sigma] at the
    stored parameters, and does not point along the ray. *)
Definition normal_to (sigma : R -> R -> vec3 R) (r : ray R) (rec : hit_record xr) : Prop :=
  exists u v n su sv, h_u rec = Fin u /\ h_v rec = Fin v /\ h_normal rec = fin3 n /\
    partials sigma su sv /\ dotR n (su u v) = 0 /\ dotR n (sv u v) = 0 /\
    normR n = 1 /\ dotR n (r_dir r) <= 0.
