(** Model of the materials and textures (lambertian.hpp, metal.hpp, dielectric.hpp,
    isotropic.hpp, diffuse_light.hpp, texture.hpp, checker_texture.hpp),
    include/drt/ray_color.hpp and include/drt/constant_medium.hpp.

    Draws from std::mt19937_64 through a standard distribution are inputs. *)
From Coq Require Import ZArith List Bool.
From Verif Require Import Num M_Vec M_Rng M_Hittable.
Import ListNotations.

Section Materials.
Context {F : NumOps}.
Local Open Scope num_scope.

(* texture.hpp:11-14 a texture is its value function; texture.hpp:37-51 lambda_texture
   is any such function *)
Definition texture : Type := hit_record num -> vec3 num.
(* texture.hpp:17-34 solid_color *)
Definition solid_color (c : vec3 num) : texture := fun _ => c.
(* checker_texture.hpp:20-27 value *)
Definition checker_texture (even odd : texture) : texture := fun hr =>
  let p := h_p hr in
  let sines := nsin (#10 * vx p) * nsin (#10 * vy p) * nsin (#10 * vz p) in
  if sines <? #0 then odd hr else even hr.

(** scatter returns [None] for false, and otherwise the attenuation and the scattered ray. *)
Definition scattering : Type := option (vec3 num * ray num).

(** *** lambertian.hpp *)
(* lambertian.hpp:38-42 one pass of the loop of random_unit_vector *)
Definition random_cube (g : pcg) : vec3 num * pcg :=
  let '(a, g) := pcg_real_01 g in
  let '(b, g) := pcg_real_01 g in
  let '(c, g) := pcg_real_01 g in
  (V3 (#2 * a - #1) (#2 * b - #1) (#2 * c - #1), g).

(* lambertian.hpp:36-44 random_unit_vector; the loop has no bound, hence fuel *)
Fixpoint random_unit_vector (fuel : nat) (g : pcg) : outcome (vec3 num * pcg) :=
  match fuel with
  | O => OutOfFuel
  | S fuel =>
      let '(v, g') := random_cube g in
      if squared_norm v >? #1 then random_unit_vector fuel g' else Ok (v, g')
  end.

(* lambertian.hpp:46-52 random_in_hemisphere *)
Definition random_in_hemisphere (fuel : nat) (normal : vec3 num) (g : pcg) : outcome (vec3 num * pcg) :=
  obind (random_unit_vector fuel g) (fun vg =>
    let '(v, g') := vg in
    Ok (if dot v normal >? #0 then v else vneg v, g')).

(* lambertian.hpp:23-34 scatter *)
Definition lambertian_scatter (fuel : nat) (albedo : texture) (g : pcg) (rec : hit_record num)
  : outcome (scattering * pcg) :=
  obind (random_in_hemisphere fuel (h_normal rec) g) (fun vg =>
    let '(v, g') := vg in
    let d := vadd (h_normal rec) v in
    let d := if squared_norm d <? nsqrt neps then h_normal rec else d in
    Ok (Some (albedo rec, Ray (h_p rec) d), g')).

(** *** metal.hpp *)
(* metal.hpp:18-27 scatter; the attenuation and the ray are written before the result is
   known, the caller (ray_color.hpp:22-24) drops them when it is false *)
Definition metal_scatter (albedo : texture) (r_in : ray num) (rec : hit_record num) : bool * (vec3 num * ray num) :=
  let d := reflect (normalize (r_dir r_in)) (h_normal rec) in
  (dot d (h_normal rec) >? #0, (albedo rec, Ray (h_p rec) d)).

(** *** dielectric.hpp *)
(* dielectric.hpp:12-20 refract *)
Definition refract (uv n : vec3 num) (ratio : num) : vec3 num :=
  let cos_theta := std_min (dot (vneg uv) n) (#1) in
  let perp := vscale ratio (vadd uv (vscale cos_theta n)) in
  let parallel := vscale (- nsqrt (nabs (#1 - squared_norm perp))) n in
  vadd perp parallel.

(* pow(x, 5): glibc's pow with an integral exponent, taken as the repeated product *)
Definition npow5 (x : num) : num := x * x * x * x * x.

(* dielectric.hpp:67-74 reflectance *)
Definition reflectance (cosine ref_idx : num) : num :=
  let r0 := (#1 - ref_idx) / (#1 + ref_idx) in
  let r0 := r0 * r0 in
  r0 + (#1 - r0) * npow5 (#1 - cosine).

(* dielectric.hpp:33-56 scatter; [draw] is dis_(gen_).  The draw is only made when refraction
   is possible, which matters to the generator and not to this call. *)
Definition dielectric_scatter (ir : num) (draw : num) (r_in : ray num) (rec : hit_record num) : vec3 num * ray num :=
  let ratio := if h_front rec then #1 / ir else ir in
  let unit_direction := normalize (r_dir r_in) in
  let cos_theta := c_fmin (dot (vneg unit_direction) (h_normal rec)) (#1) in
  let sin_theta := nsqrt (#1 - cos_theta * cos_theta) in
  let cannot_refract := ratio * sin_theta >? #1 in
  let direction :=
    if cannot_refract || (reflectance cos_theta ratio >? draw)
    then reflect unit_direction (h_normal rec)
    else refract unit_direction (h_normal rec) ratio in
  (V3 (#1) (#1) (#1), Ray (h_p rec) direction).

(** *** isotropic.hpp *)
(* isotropic.hpp:36-44 random_in_unit_sphere and 20-27 scatter; [g] holds the three draws
   from the normal distribution *)
Definition isotropic_scatter (albedo : texture) (g : vec3 num) (rec : hit_record num) : vec3 num * ray num :=
  (albedo rec, Ray (h_p rec) (vdiv g (norm g))).

End Materials.

(** *** ray_color.hpp *)
Section RayColor.
Context {F : NumOps}.
Local Open Scope num_scope.
(** Materials, and everything mutable in the scene (generators, the uninitialised records). *)
Context {M W : Type}.
(* hittable_list::hit, with the material found *)
Variable world_hit : W -> ray num -> num -> num -> outcome (option M * hit_record num * W).
(* material::scatter, material::emitted *)
Variable scatter : M -> W -> ray num -> hit_record num -> outcome (scattering * W).
Variable emitted : M -> hit_record num -> vec3 num.

(* ray_color.hpp:9-33; [depth] is the positive part of the int argument *)
Fixpoint ray_color (depth : nat) (w : W) (r : ray num) (background : vec3 num) : outcome (vec3 num * W) :=
  match depth with
  | O => Ok (V3 (#0) (#0) (#0), w)
  | S depth =>
      obind (world_hit w r (#1000 * neps) ninf) (fun h =>
        let '(mat, rec, w1) := h in
        match mat with
        | None => Ok (background, w1)
        | Some m =>
            let em := emitted m rec in
            obind (scatter m w1 r rec) (fun s =>
              let '(sc, w2) := s in
              match sc with
              | None => Ok (em, w2)
              | Some (att, scattered) =>
                  obind (ray_color depth w2 scattered background) (fun c =>
                    let '(c, w3) := c in
                    let c := V3 (vx c * vx att) (vy c * vy att) (vz c * vz att) in
                    Ok (vadd em c, w3))
              end)
        end)
  end.
End RayColor.

(** *** constant_medium.hpp *)
Section Medium.
Context {F : NumOps}.
Local Open Scope num_scope.

(* constant_medium.hpp:15-19 the density enters as -1/d *)
Definition neg_inv_density (d : num) : num := #(-1) / d.

(* constant_medium.hpp:41-75 hit; [draw] is dis_(gen_); [rec1_0], [rec2_0] are the records
   as constructed *)
Definition medium_hit (boundary : ray num -> num -> num -> hit_record num -> outcome (bool * hit_record num))
  (nid draw : num) (rec1_0 rec2_0 : hit_record num)
  (r : ray num) (t_min t_max : num) (rec : hit_record num) : outcome (bool * hit_record num) :=
  obind (boundary r (- ninf) ninf rec1_0) (fun b1 =>
  let '(h1, rec1) := b1 in
  if negb h1 then Ok (false, rec) else
  obind (boundary r (h_t rec1 + #100 * neps) ninf rec2_0) (fun b2 =>
  let '(h2, rec2) := b2 in
  if negb h2 then Ok (false, rec) else
  let t1 := if h_t rec1 <? t_min then t_min else h_t rec1 in
  let t2 := if h_t rec2 >? t_max then t_max else h_t rec2 in
  if t1 >=? t2 then Ok (false, rec) else
  let t1 := if t1 <? #0 then #0 else t1 in
  let ray_length := norm (r_dir r) in
  let distance_inside := (t2 - t1) * ray_length in
  let hit_distance := nid * nlog draw in
  if hit_distance >? distance_inside then Ok (false, rec) else
  let rec := set_t (t1 + hit_distance / ray_length) rec in
  let rec := set_p (ray_at r (h_t rec)) rec in
  let rec := set_normal (V3 (#1) (#0) (#0)) rec in
  let rec := set_front true rec in
  Ok (true, rec))).
End Medium.
