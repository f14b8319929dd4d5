(** Model of the closed-form shapes: sphere.hpp, ellipsoid.hpp, disk.hpp, aarect.hpp,
    cylinder.hpp and torus.hpp.  The diagnostics printed to std::cerr are not modelled. *)
From Coq Require Import ZArith List Bool.
From Verif Require Import Num M_Vec M_Matrix M_Roots M_Hittable.
Import ListNotations.

(** The parameters of each shape. *)
Record sphere (T : Type) : Type := Sphere { s_center : vec3 T; s_radius : T }.
Arguments Sphere {T} _ _.
Arguments s_center {T} _.
Arguments s_radius {T} _.
Record ellipsoid (T : Type) : Type := Ellipsoid { el_center : vec3 T; el_scales : vec3 T }.
Arguments Ellipsoid {T} _ _.
Arguments el_center {T} _.
Arguments el_scales {T} _.
Record disk (T : Type) : Type := Disk {
  dk_radius : T; dk_center : vec3 T; dk_normal : vec3 T; dk_world : mat3 T; dk_local : mat3 T }.
Arguments Disk {T} _ _ _ _ _.
Arguments dk_radius {T} _.
Arguments dk_center {T} _.
Arguments dk_normal {T} _.
Arguments dk_world {T} _.
Arguments dk_local {T} _.
(* xy_rect: a = x, b = y; xz_rect: a = x, b = z; yz_rect: a = y, b = z *)
Record rect (T : Type) : Type := Rect { q_a0 : T; q_a1 : T; q_b0 : T; q_b1 : T; q_k : T }.
Arguments Rect {T} _ _ _ _ _.
Arguments q_a0 {T} _.
Arguments q_a1 {T} _.
Arguments q_b0 {T} _.
Arguments q_b1 {T} _.
Arguments q_k {T} _.
Record cylinder (T : Type) : Type := Cylinder { c_radius : T; c_zmin : T; c_zmax : T }.
Arguments Cylinder {T} _ _ _.
Arguments c_radius {T} _.
Arguments c_zmin {T} _.
Arguments c_zmax {T} _.
Record torus (T : Type) : Type := Torus { o_center : vec3 T; o_R : T; o_r : T }.
Arguments Torus {T} _ _ _.
Arguments o_center {T} _.
Arguments o_R {T} _.
Arguments o_r {T} _.

Section Shapes.
Context {F : NumOps}.
Local Open Scope num_scope.
Notation record := (hit_record num).

(* u = atan2(y,x)/(2*M_PI); if (u < 0) u += 1 *)
Definition azimuth (y x : num) : num :=
  let u := natan2 y x / (#2 * npi) in if u <? #0 then u + #1 else u.
(* v = acos(z)/M_PI; if (v < 0) v += 1 *)
Definition colatitude (z : num) : num :=
  let v := nacos z / npi in if v <? #0 then v + #1 else v.

(** *** sphere.hpp *)

(* sphere.hpp:25-39 get_uv *)
Definition sphere_uv (s : sphere num) (p : vec3 num) : num * num :=
  let x := (vx p - vx (s_center s)) / s_radius s in
  let y := (vy p - vy (s_center s)) / s_radius s in
  let z := (vz p - vz (s_center s)) / s_radius s in
  let v := colatitude z in
  let u := azimuth y x in (u, v).
(* sphere.hpp:41-43 *)
Definition sphere_area (s : sphere num) : num := #4 * npi * s_radius s * s_radius s.
(* sphere.hpp:45-47 *)
Definition sphere_volume (s : sphere num) : num := #4 * npi * s_radius s * s_radius s * s_radius s / #3.
(* sphere.hpp:50-56 operator()(u,v) *)
Definition sphere_at (s : sphere num) (u v : num) : vec3 num :=
  V3 (vx (s_center s) + s_radius s * ncos (#2 * npi * u) * nsin (npi * v))
     (vy (s_center s) + s_radius s * nsin (#2 * npi * u) * nsin (npi * v))
     (vz (s_center s) + s_radius s * ncos (npi * v)).
(* sphere.hpp:63-77 and 85-99: the matrix J filled in by operator()(u,v,J) *)
Definition sphere_J (s : sphere num) (u v : num) : mat3 num :=
  M3 (#(-2) * npi * s_radius s * nsin (#2 * npi * u) * nsin (npi * v))
     (npi * s_radius s * ncos (#2 * npi * u) * ncos (npi * v))
     nnan
     (#2 * npi * s_radius s * ncos (#2 * npi * u) * nsin (npi * v))
     (npi * s_radius s * nsin (#2 * npi * u) * ncos (npi * v))
     nnan
     (#0)
     (- npi * s_radius s * nsin (npi * v))
     nnan.
(* sphere.hpp:101-120: H(i,j,k) as one 2x2 matrix (j,k) per component i *)
Definition sphere_H (s : sphere num) (u v : num) : vec3 (mat2 num) :=
  let h001 := #(-2) * npi * npi * s_radius s * nsin (#2 * npi * u) * ncos (npi * v) in
  let h101 := #2 * npi * npi * s_radius s * ncos (#2 * npi * u) * ncos (npi * v) in
  V3 (M2 (#(-4) * npi * npi * s_radius s * ncos (#2 * npi * u) * nsin (npi * v)) h001
         h001 (- npi * npi * s_radius s * ncos (#2 * npi * u) * nsin (npi * v)))
     (M2 (#(-4) * npi * npi * s_radius s * nsin (#2 * npi * u) * nsin (npi * v)) h101
         h101 (- npi * npi * s_radius s * nsin (#2 * npi * u) * nsin (npi * v)))
     (M2 (#0) (#0) (#0) (- npi * npi * s_radius s * ncos (npi * v))).
(* sphere.hpp:126-139 set_fundamental_forms *)
Definition sphere_forms (s : sphere num) (rec : record) : record :=
  let dsigmadu := #2 * npi * s_radius s * nsin (npi * h_v rec) in
  let E := dsigmadu * dsigmadu in
  set_second (E / s_radius s) (#0) (npi * npi * s_radius s)
    (set_first E (#0) (npi * npi * s_radius s * s_radius s) rec).
(* sphere.hpp:146-163 hit *)
Definition sphere_hit (s : sphere num) (r : ray num) (t_min t_max : num) (rec : record)
  : outcome (bool * record) :=
  let oc := vsub (r_orig r) (s_center s) in
  let a := squared_norm (r_dir r) in
  let b := #2 * dot oc (r_dir r) in
  let c := squared_norm oc - s_radius s * s_radius s in
  match first_quadratic_root_in_range a b c t_min t_max with
  | None => Ok (false, rec)
  | Some root =>
    let rec := set_t root rec in
    let rec := set_p (ray_at r (h_t rec)) rec in
    let outward := vdiv (vsub (h_p rec) (s_center s)) (s_radius s) in
    let rec := set_face_normal r outward rec in
    let '(u, v) := sphere_uv s (h_p rec) in
    let rec := set_v v (set_u u rec) in
    let rec := set_grad (#2 * s_radius s) rec in
    Ok (true, sphere_forms s rec)
  end.
(* sphere.hpp:166-171 bounding_box *)
Definition sphere_box (s : sphere num) : option (aabb num) :=
  let w := V3 (s_radius s) (s_radius s) (s_radius s) in
  Some (Box (vsub (s_center s) w) (vadd (s_center s) w)).
Definition of_sphere (s : sphere num) : hittable := Hittable (sphere_hit s) (sphere_box s).

(** *** ellipsoid.hpp *)

(* ellipsoid.hpp:33-47 get_uv *)
Definition ellipsoid_uv (s : ellipsoid num) (p : vec3 num) : num * num :=
  let x := (vx p - vx (el_center s)) / vx (el_scales s) in
  let y := (vy p - vy (el_center s)) / vy (el_scales s) in
  let z := (vz p - vz (el_center s)) / vz (el_scales s) in
  let v := colatitude z in
  let u := azimuth y x in (u, v).
(* ellipsoid.hpp:50-56 operator() *)
Definition ellipsoid_at (s : ellipsoid num) (u v : num) : vec3 num :=
  V3 (vx (el_center s) + vx (el_scales s) * ncos (#2 * npi * u) * nsin (npi * v))
     (vy (el_center s) + vy (el_scales s) * nsin (#2 * npi * u) * nsin (npi * v))
     (vz (el_center s) + vz (el_scales s) * ncos (npi * v)).
(* ellipsoid.hpp:58-68 gaussian_curvature(p) *)
Definition ellipsoid_curvature (s : ellipsoid num) (p : vec3 num) : num :=
  let asq := vx (el_scales s) * vx (el_scales s) in
  let bsq := vy (el_scales s) * vy (el_scales s) in
  let csq := vz (el_scales s) * vz (el_scales s) in
  let ysq := (vy p - vy (el_center s)) * (vy p - vy (el_center s)) in
  let zsq := (vz p - vz (el_center s)) * (vz p - vz (el_center s)) in
  let numerator := asq * bsq * bsq * bsq * csq * csq * csq in
  let sqrt_denom := csq * csq * bsq * bsq + csq * csq * (asq - bsq) * ysq
                    + bsq * bsq * (asq - csq) * zsq in
  numerator / (sqrt_denom * sqrt_denom).
(* ellipsoid.hpp:70-78 gaussian_curvature_bounds *)
Definition ellipsoid_curvature_bounds (s : ellipsoid num) : num * num :=
  let asq := vx (el_scales s) * vx (el_scales s) in
  let bsq := vy (el_scales s) * vy (el_scales s) in
  let csq := vz (el_scales s) * vz (el_scales s) in
  (std_min3 (csq / (asq * bsq)) (asq / (csq * bsq)) (bsq / (asq * csq)),
   std_max3 (csq / (asq * bsq)) (asq / (csq * bsq)) (bsq / (asq * csq))).
(* ellipsoid.hpp:85-107 set_fundamental_forms *)
Definition ellipsoid_forms (s : ellipsoid num) (rec : record) : record :=
  let a := vx (el_scales s) in
  let b := vy (el_scales s) in
  let c := vz (el_scales s) in
  let spv := nsin (npi * h_v rec) in
  let cpv := ncos (npi * h_v rec) in
  let stpu := nsin (#2 * npi * h_u rec) in
  let ctpu := ncos (#2 * npi * h_u rec) in
  let E := #4 * npi * npi * spv * spv * (a * a * stpu * stpu + b * b * ctpu * ctpu) in
  let F_ := #2 * npi * npi * ctpu * stpu * cpv * spv * (b * b - a * a) in
  let G := npi * npi * (a * a * cpv * cpv * ctpu * ctpu + b * b * stpu * stpu * cpv * cpv
                        + c * c * spv * spv) in
  let denom := nsqrt (a * a * b * b * cpv * cpv
                      + c * c * (b * b * ctpu * ctpu + a * a * stpu * stpu) * spv * spv) in
  set_second (#4 * npi * npi * a * b * c * spv * spv / denom) (#0) (npi * npi * a * b * c / denom)
    (set_first E F_ G rec).
(* ellipsoid.hpp:114-143 hit *)
Definition ellipsoid_hit (s : ellipsoid num) (r : ray num) (t_min t_max : num) (rec : record)
  : outcome (bool * record) :=
  let sc := el_scales s in
  let oc := vsub (r_orig r) (el_center s) in
  let oc := V3 (vx oc / vx sc) (vy oc / vy sc) (vz oc / vz sc) in
  let d := r_dir r in
  let sd := V3 (vx d / vx sc) (vy d / vy sc) (vz d / vz sc) in
  let a := squared_norm sd in
  let b := #2 * dot oc sd in
  let c := squared_norm oc - #1 in
  match first_quadratic_root_in_range a b c t_min t_max with
  | None => Ok (false, rec)
  | Some root =>
    let rec := set_t root rec in
    let rec := set_p (ray_at r (h_t rec)) rec in
    let n := vsub (h_p rec) (el_center s) in
    let n := V3 (vx n * (#2 / (vx sc * vx sc))) (vy n * (#2 / (vy sc * vy sc)))
                (vz n * (#2 / (vz sc * vz sc))) in
    let rec := set_grad (norm n) rec in
    let n := vdiv n (h_grad rec) in
    let '(u, v) := ellipsoid_uv s (h_p rec) in
    let rec := set_v v (set_u u rec) in
    let rec := ellipsoid_forms s rec in
    Ok (true, set_face_normal r n rec)
  end.
(* ellipsoid.hpp:146-149 bounding_box *)
Definition ellipsoid_box (s : ellipsoid num) : option (aabb num) :=
  Some (Box (vsub (el_center s) (el_scales s)) (vadd (el_center s) (el_scales s))).
Definition of_ellipsoid (s : ellipsoid num) : hittable := Hittable (ellipsoid_hit s) (ellipsoid_box s).

(** *** disk.hpp *)

(* disk.hpp:15-71 constructor; if the rotation matrix is not inverted, to_local_ is
   uninitialised *)
Definition make_disk (radius : num) (center normal : vec3 num) : outcome (disk num) :=
  let nz := vz normal in
  if nz =? #(-1) then
    let m := M3 (#(-1)) (#0) (#0) (#0) (#1) (#0) (#0) (#0) (#(-1)) in
    Ok (Disk radius center normal m m)
  else
    let nx := vx normal in
    let ny := vy normal in
    let t := #1 / (#1 + nz) in
    let w01 := - nx * ny * t in
    let w := M3 (nz + ny * ny * t) w01 nx
                w01 (nz + t * nx * nx) ny
                (- nx) (- ny) nz in
    omap (Disk radius center normal w) (inverse3_value w).
(* disk.hpp:81-87 operator() *)
Definition disk_at (k : disk num) (u v : num) : vec3 num :=
  vadd (mulmv3 (dk_world k)
         (V3 (dk_radius k * v * ncos (#2 * npi * u)) (dk_radius k * v * nsin (#2 * npi * u)) (#0)))
       (dk_center k).
(* disk.hpp:98-140 hit *)
Definition disk_hit (k : disk num) (r : ray num) (t_min t_max : num) (rec : record)
  : outcome (bool * record) :=
  let o := mulmv3 (dk_local k) (vsub (r_orig r) (dk_center k)) in
  let d := mulmv3 (dk_local k) (r_dir r) in
  if vz d =? #0 then Ok (false, rec)
  else
    let t := - vz o / vz d in
    if (t <? t_min) || (t >? t_max) then Ok (false, rec)
    else
      let x := vx o + t * vx d in
      let y := vy o + t * vy d in
      let ssq := x * x + y * y in
      if ssq >? dk_radius k * dk_radius k then Ok (false, rec)
      else
        let rec := set_t t rec in
        let rec := set_p (ray_at r (h_t rec)) rec in
        let rec := set_v (nsqrt ssq / dk_radius k) rec in
        let rec := set_u (if h_v rec =? #0 then #0 else azimuth y x) rec in
        let rec := set_face_normal r (dk_normal k) rec in
        let rec := set_first (#4 * npi * npi * dk_radius k * dk_radius k * h_v rec * h_v rec) (#0)
                             (dk_radius k * dk_radius k) rec in
        Ok (true, set_second nnan nnan (#0) rec).
(* disk.hpp:143-148 bounding_box *)
Definition disk_box (k : disk num) : option (aabb num) :=
  let R := dk_radius k in let z := vz (dk_center k) in
  Some (Box (V3 (- R) (- R) z) (V3 R R z)).
Definition of_disk (k : disk num) : hittable := Hittable (disk_hit k) (disk_box k).

(** *** aarect.hpp *)

(* the body shared by aarect.hpp:99-115, 118-133 and 136-151: o1,d1 and o2,d2 are the
   coordinates within the rectangle, o3,d3 the one across it *)
Definition rect_hit (n : vec3 num) (q : rect num) (o1 o2 o3 d1 d2 d3 : num)
  (r : ray num) (t_min t_max : num) (rec : record) : outcome (bool * record) :=
  let t := (q_k q - o3) / d3 in
  if (t <? t_min) || (t >? t_max) then Ok (false, rec)
  else
    let a := o1 + t * d1 in
    let b := o2 + t * d2 in
    if (a <? q_a0 q) || (a >? q_a1 q) || (b <? q_b0 q) || (b >? q_b1 q) then Ok (false, rec)
    else
      let rec := set_u ((a - q_a0 q) / (q_a1 q - q_a0 q)) rec in
      let rec := set_v ((b - q_b0 q) / (q_b1 q - q_b0 q)) rec in
      let rec := set_t t rec in
      let rec := set_face_normal r n rec in
      Ok (true, set_p (ray_at r t) rec).
(* aarect.hpp:99-115 *)
Definition xy_hit (q : rect num) (r : ray num) : num -> num -> record -> outcome (bool * record) :=
  let o := r_orig r in let d := r_dir r in
  rect_hit (V3 (#0) (#0) (#1)) q (vx o) (vy o) (vz o) (vx d) (vy d) (vz d) r.
(* aarect.hpp:118-133 *)
Definition xz_hit (q : rect num) (r : ray num) : num -> num -> record -> outcome (bool * record) :=
  let o := r_orig r in let d := r_dir r in
  rect_hit (V3 (#0) (#1) (#0)) q (vx o) (vz o) (vy o) (vx d) (vz d) (vy d) r.
(* aarect.hpp:136-151 *)
Definition yz_hit (q : rect num) (r : ray num) : num -> num -> record -> outcome (bool * record) :=
  let o := r_orig r in let d := r_dir r in
  rect_hit (V3 (#1) (#0) (#0)) q (vy o) (vz o) (vx o) (vy d) (vz d) (vx d) r.
(* rt_eps of aarect.hpp:24, 52 and 80 *)
Definition rect_pad : num := nsqrt neps / #100.
(* aarect.hpp:20-28 *)
Definition xy_box (q : rect num) : option (aabb num) :=
  Some (Box (V3 (q_a0 q) (q_b0 q) (q_k q - rect_pad)) (V3 (q_a1 q) (q_b1 q) (q_k q + rect_pad))).
(* aarect.hpp:50-57 *)
Definition xz_box (q : rect num) : option (aabb num) :=
  Some (Box (V3 (q_a0 q) (q_k q - rect_pad) (q_b0 q)) (V3 (q_a1 q) (q_k q + rect_pad) (q_b1 q))).
(* aarect.hpp:78-85 *)
Definition yz_box (q : rect num) : option (aabb num) :=
  Some (Box (V3 (q_k q - rect_pad) (q_a0 q) (q_b0 q)) (V3 (q_k q + rect_pad) (q_a1 q) (q_b1 q))).
Definition of_xy (q : rect num) : hittable := Hittable (xy_hit q) (xy_box q).
Definition of_xz (q : rect num) : hittable := Hittable (xz_hit q) (xz_box q).
Definition of_yz (q : rect num) : hittable := Hittable (yz_hit q) (yz_box q).

(** *** cylinder.hpp *)

(* cylinder.hpp:26-28 *)
Definition cylinder_residual (c : cylinder num) (p : vec3 num) : num :=
  vx p * vx p + vy p * vy p - c_radius c * c_radius c.
(* cylinder.hpp:30-32 *)
Definition cylinder_expected (c : cylinder num) : num := #20 * neps * c_radius c * c_radius c.
(* cylinder.hpp:35-44 get_uv *)
Definition cylinder_uv (c : cylinder num) (p : vec3 num) : num * num :=
  let v := (vz p - c_zmin c) / (c_zmax c - c_zmin c) in
  let v := std_clamp v (#0) (#1) in
  (azimuth (vy p) (vx p), v).
(* cylinder.hpp:47-53 operator() *)
Definition cylinder_at (c : cylinder num) (u v : num) : vec3 num :=
  V3 (c_radius c * ncos (#2 * npi * u)) (c_radius c * nsin (#2 * npi * u))
     (c_zmin c + v * (c_zmax c - c_zmin c)).
(* cylinder.hpp:57-65 set_fundamental_forms *)
Definition cylinder_forms (c : cylinder num) (rec : record) : record :=
  let h := c_zmax c - c_zmin c in
  set_second (#4 * npi * npi * c_radius c) (#0) (#0)
    (set_first (#4 * npi * npi * c_radius c * c_radius c) (#0) (h * h) rec).
(* cylinder.hpp:107-126: the end of hit, after rec.t and rec.p *)
Definition cylinder_finish (c : cylinder num) (r : ray num) (rec : record) : outcome (bool * record) :=
  let gradient := V3 (#2 * vx (h_p rec)) (#2 * vy (h_p rec)) (#0) in
  let rec := set_grad (norm gradient) rec in
  let outward := vdiv gradient (h_grad rec) in
  let rec := set_face_normal r outward rec in
  let '(u, v) := cylinder_uv c (h_p rec) in
  let rec := set_v v (set_u u rec) in
  let rec := cylinder_forms c rec in
  let residual := cylinder_residual c (h_p rec) in
  Ok (negb (nabs residual >? cylinder_expected c), rec).
(* cylinder.hpp:73-127 hit; quadratic_roots returns zero or two roots *)
Definition cylinder_hit (c : cylinder num) (r : ray num) (t_min t_max : num) (rec : record)
  : outcome (bool * record) :=
  let o := r_orig r in
  let dir := r_dir r in
  let qa := vx dir * vx dir + vy dir * vy dir in
  let qb := #2 * (vx o * vx dir + vy o * vy dir) in
  let qc := vx o * vx o + vy o * vy o - c_radius c * c_radius c in
  match quadratic_roots qa qb qc with
  | [] => Ok (false, rec)
  | [root0; root1] =>
    let t := root0 in
    if (t <? t_min) || (t >? t_max) then
      let t := root1 in
      if (t <? t_min) || (t >? t_max) then Ok (false, rec)
      else cylinder_finish c r rec
    else
      let rec := set_t root0 rec in
      let rec := set_p (ray_at r (h_t rec)) rec in
      let z := vz (h_p rec) in
      if (z >? c_zmax c) || (z <? c_zmin c) then
        let rec := set_t root1 rec in
        if (h_t rec <? t_min) || (h_t rec >? t_max) then Ok (false, rec)
        else
          let rec := set_p (ray_at r (h_t rec)) rec in
          let z := vz (h_p rec) in
          if (z >? c_zmax c) || (z <? c_zmin c) then Ok (false, rec)
          else cylinder_finish c r rec
      else cylinder_finish c r rec
  | _ => Undef
  end.
(* cylinder.hpp:130-135 bounding_box *)
Definition cylinder_box (c : cylinder num) : option (aabb num) :=
  Some (Box (V3 (- c_radius c) (- c_radius c) (c_zmin c)) (V3 (c_radius c) (c_radius c) (c_zmax c))).
Definition of_cylinder (c : cylinder num) : hittable := Hittable (cylinder_hit c) (cylinder_box c).

(** *** torus.hpp *)

(* torus.hpp:31-33 *)
Definition torus_area (o : torus num) : num := #4 * npi * npi * o_R o * o_r o.
(* torus.hpp:35-37 *)
Definition torus_volume (o : torus num) : num := #2 * npi * npi * o_R o * o_r o * o_r o.
(* the gradient of torus.hpp:40-44 and 254-258 *)
Definition torus_gradient (o : torus num) (p : vec3 num) : vec3 num :=
  let x := vx p - vx (o_center o) in
  let y := vy p - vy (o_center o) in
  let z := vz p - vz (o_center o) in
  let s := x * x + y * y + z * z - o_r o * o_r o in
  V3 (#4 * x * (s - o_R o * o_R o)) (#4 * y * (s - o_R o * o_R o)) (#4 * z * (s + o_R o * o_R o)).
(* torus.hpp:39-47 normal(p) *)
Definition torus_normal (o : torus num) (p : vec3 num) : vec3 num := normalize (torus_gradient o p).
(* torus.hpp:49-74 gaussian_curvature(p) *)
Definition torus_curvature (o : torus num) (p : vec3 num) : num :=
  let zr := (vz p - vz (o_center o)) / o_r o in
  let arg := #1 - zr * zr in
  let arg := std_clamp arg (#0) (#1) in
  let cosv := nsqrt arg in
  let x := vx p - vx (o_center o) in
  let y := vy p - vy (o_center o) in
  let cosv := if x * x + y * y <? o_R o * o_R o + o_r o * o_r o * cosv * cosv then - cosv else cosv in
  let denom := o_r o * (o_R o + o_r o * cosv) in
  cosv / denom.
(* torus.hpp:76-78 gaussian_curvature_bounds *)
Definition torus_curvature_bounds (o : torus num) : num * num :=
  (#(-1) / (o_r o * (o_R o - o_r o)), #1 / (o_r o * (o_R o + o_r o))).
(* torus.hpp:83-90 residual *)
Definition torus_residual (o : torus num) (p : vec3 num) : num :=
  let x := vx p - vx (o_center o) in
  let y := vy p - vy (o_center o) in
  let z := vz p - vz (o_center o) in
  let tmp := x * x + y * y + z * z + o_R o * o_R o - o_r o * o_r o in
  tmp * tmp - #4 * o_R o * o_R o * (x * x + y * y).
(* torus.hpp:94-108 expected_residual *)
Definition torus_expected (o : torus num) (p : vec3 num) : num :=
  let x := vx p - vx (o_center o) in
  let y := vy p - vy (o_center o) in
  let z := vz p - vz (o_center o) in
  let length_sq := x * x + y * y + z * z in
  let dfdx := #4 * x * (length_sq - o_R o * o_R o - o_r o * o_r o) in
  let dfdy := #4 * y * (length_sq - o_R o * o_R o - o_r o * o_r o) in
  let dfdz := #4 * z * (length_sq + o_R o * o_R o - o_r o * o_r o) in
  let residual := nabs (x * dfdx) + nabs (y * dfdy) + nabs (z * dfdz) in
  residual * (#20 * neps).
(* torus.hpp:113-139 get_uv *)
Definition torus_uv (o : torus num) (p : vec3 num) : num * num :=
  let x := vx p - vx (o_center o) in
  let y := vy p - vy (o_center o) in
  let z := vz p - vz (o_center o) in
  let u := azimuth y x in
  let v := nasin (z / o_r o) in
  let v := if x * x + y * y <? o_R o * o_R o then npi - v else v in
  let v := if v <? #0 then v + #2 * npi else v in
  (u, v / (#2 * npi)).
(* torus.hpp:144-150 operator() *)
Definition torus_at (o : torus num) (u v : num) : vec3 num :=
  V3 (vx (o_center o) + (o_R o + o_r o * ncos (#2 * npi * v)) * ncos (#2 * npi * u))
     (vy (o_center o) + (o_R o + o_r o * ncos (#2 * npi * v)) * nsin (#2 * npi * u))
     (vz (o_center o) + o_r o * nsin (#2 * npi * v)).
(* torus.hpp:155-178 refine_hit_point *)
Definition torus_refine (o : torus num) (p direction : vec3 num) : vec3 num :=
  let x := vx p - vx (o_center o) in
  let y := vy p - vy (o_center o) in
  let z := vz p - vz (o_center o) in
  let length_sq := x * x + y * y + z * z in
  let tmp := length_sq + o_R o * o_R o - o_r o * o_r o in
  let fp := tmp * tmp - #4 * o_R o * o_R o * (x * x + y * y) in
  let nablaf := V3 (#4 * x * (length_sq - o_R o * o_R o - o_r o * o_r o))
                   (#4 * y * (length_sq - o_R o * o_R o - o_r o * o_r o))
                   (#4 * z * (length_sq + o_R o * o_R o - o_r o * o_r o)) in
  let nablafdd := dot nablaf direction in
  let p :=
    if negb (nablafdd =? #0) then
      let dt := - fp / nablafdd in
      V3 (vx p + dt * vx direction) (vy p + dt * vy direction) (vz p + dt * vz direction)
    else p in
  let w := o_R o + o_r o in
  V3 (std_clamp (vx p) (vx (o_center o) - w) (vx (o_center o) + w))
     (std_clamp (vy p) (vy (o_center o) - w) (vy (o_center o) + w))
     (std_clamp (vz p) (vz (o_center o) - o_r o) (vz (o_center o) + o_r o)).
(* torus.hpp:184-194 set_fundamental_forms *)
Definition torus_forms (o : torus num) (rec : record) : record :=
  let tmp := o_R o + o_r o * ncos (#2 * npi * h_v rec) in
  set_second (#(-4) * npi * npi * tmp * ncos (#2 * npi * h_v rec)) (#0) (#(-4) * npi * npi * o_r o)
    (set_first (#4 * npi * npi * tmp * tmp) (#0) (#4 * npi * npi * o_r o * o_r o) rec).
(* torus.hpp:236-243: the first root of the list in the window, NaN if there is none *)
Fixpoint torus_pick (t_min t_max : num) (roots : list num) : num :=
  match roots with
  | [] => nnan
  | root :: rest => if (root >=? t_min) && (root <=? t_max) then root else torus_pick t_min t_max rest
  end.
(* torus.hpp:203-219: the coefficients c[4], c[3], c[2], c[1], c[0] *)
Definition torus_coeffs (o : torus num) (r : ray num) : num * num * num * num * num :=
  let oc := vsub (r_orig r) (o_center o) in
  let nsq := vx oc * vx oc + vy oc * vy oc + vz oc * vz oc in
  let tmp := nsq - (o_r o * o_r o + o_R o * o_R o) in
  let d := r_dir r in
  let dsq := vx d * vx d + vy d * vy d + vz d * vz d in
  let ocd := dot oc d in
  let c0 := tmp * tmp - #4 * o_R o * o_R o * (o_r o * o_r o - vz oc * vz oc) in
  let c1 := #4 * tmp * ocd + #8 * o_R o * o_R o * vz oc * vz d in
  let c2 := #2 * dsq * tmp + #4 * ocd * ocd + #4 * o_R o * o_R o * vz d * vz d in
  let c3 := #4 * dsq * ocd in
  let c4 := dsq * dsq in
  (c4, c3, c2, c1, c0).
(* torus.hpp:245-284, the part of hit after a root is stored in rec.t *)
Definition torus_finish (o : torus num) (r : ray num) (rec : record) : outcome (bool * record) :=
  let rec := set_p (ray_at r (h_t rec)) rec in
  let rec := set_p (torus_refine o (h_p rec) (r_dir r)) rec in
  let n := torus_gradient o (h_p rec) in
  let rec := set_grad (norm n) rec in
  let outward := vdiv n (h_grad rec) in
  let rec := set_face_normal r outward rec in
  let '(u, v) := torus_uv o (h_p rec) in
  let rec := set_v v (set_u u rec) in
  let rec := torus_forms o rec in
  let res := torus_residual o (h_p rec) in
  let expected := torus_expected o (h_p rec) in
  Ok (negb (nabs res >? expected), rec).
(* torus.hpp:201-284 hit *)
Definition torus_hit (o : torus num) (r : ray num) (t_min t_max : num) (rec : record)
  : outcome (bool * record) :=
  let '(c4, c3, c2, c1, c0) := torus_coeffs o r in
  if negb ((c3 <? #0) || (c2 <? #0) || (c1 <? #0) || (c0 <? #0)) then Ok (false, rec)
  else
    obind (quartic_roots c4 c3 c2 c1 c0) (fun roots =>
    let rec := set_t (torus_pick t_min t_max roots) rec in
    if nisnan (h_t rec) then Ok (false, rec)
    else
      torus_finish o r rec).
(* torus.hpp:287-291 bounding_box *)
Definition torus_box (o : torus num) : option (aabb num) :=
  let shift := V3 (o_R o + o_r o) (o_R o + o_r o) (o_r o) in
  Some (Box (vsub (o_center o) shift) (vadd (o_center o) shift)).
Definition of_torus (o : torus num) : hittable := Hittable (torus_hit o) (torus_box o).
End Shapes.
