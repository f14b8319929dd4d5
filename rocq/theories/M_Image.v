(** Model of include/drt/camera.hpp, png.hpp (to_8bit_rgba), color_maps.hpp, render_scene.hpp
    and progress_bar.hpp. *)
From Coq Require Import ZArith List Bool String Ascii.
From Verif Require Import Num M_Vec M_Rng M_Hittable M_Materials M_Tables.
Import ListNotations.

Section Camera.
Context {F : NumOps}.
Local Open Scope num_scope.

(** *** camera.hpp *)
(* camera.hpp:43-48 *)
Record camera : Type := Camera {
  cam_origin : vec3 num; cam_lower_left : vec3 num; cam_horizontal : vec3 num;
  cam_vertical : vec3 num; cam_lookat : vec3 num }.

(* camera.hpp:11-30 the constructor; the double literals are taken in Real *)
Definition make_camera (lookfrom lookat view_up : vec3 num) (vfov aspect_ratio : num) : camera :=
  let theta := vfov * npi / #180 in
  let h := ntan (theta / #2) in
  let viewport_height := #2 * h in
  let viewport_width := aspect_ratio * viewport_height in
  let w := normalize (vsub lookfrom lookat) in
  let u := normalize (cross view_up w) in
  let v := cross w u in
  let horizontal := vscale viewport_width u in
  let vertical := vscale viewport_height v in
  Camera lookfrom
    (vsub (vsub (vsub lookfrom (vdiv horizontal (#2))) (vdiv vertical (#2))) w)
    horizontal vertical lookat.

(* camera.hpp:32-34 get_ray *)
Definition get_ray (c : camera) (u v : num) : ray num :=
  Ray (cam_origin c)
    (vsub (vadd (vadd (cam_lower_left c) (vscale u (cam_horizontal c))) (vscale v (cam_vertical c)))
          (cam_origin c)).

(* camera.hpp:36-41 backlight *)
Definition backlight (c : camera) : vec3 num * vec3 num :=
  let o := vsub (vscale (#2) (cam_origin c)) (cam_lookat c) in
  let d := vsub (cam_lookat c) (cam_origin c) in
  (o, normalize d).
End Camera.

(** Conversions of a floating-point number to an integer type: the number is truncated, and a
    result that does not fit, or a number that is not finite, is undefined behaviour. *)
Section Convert.
Context {F : NumOps}.
Definition to_range (lo hi : Z) (x : num) : outcome Z :=
  match ntrunc x with
  | Some z => if (lo <=? z)%Z && (z <=? hi)%Z then Ok z else Undef
  | None => Undef
  end.
Definition to_uint8 : num -> outcome Z := to_range 0 255.
Definition to_int : num -> outcome Z := to_range (- 2 ^ 31) (2 ^ 31 - 1).
Definition to_int64 : num -> outcome Z := to_range (- 2 ^ 63) (2 ^ 63 - 1).
(* conversion of an int64_t to int: modulo 2^32 *)
Definition wrap32 (z : Z) : Z := ((z + 2 ^ 31) mod 2 ^ 32 - 2 ^ 31)%Z.

Fixpoint mapM {A B} (f : A -> outcome B) (l : list A) : outcome (list B) :=
  match l with
  | [] => Ok []
  | a :: l => obind (f a) (fun b => obind (mapM f l) (fun bs => Ok (b :: bs)))
  end.
End Convert.

Section Png.
Context {F : NumOps}.
Local Open Scope num_scope.

(** *** png.hpp *)
(* png.hpp:17-22 one channel *)
Definition to_byte (x : num) : outcome Z :=
  let u := nsqrt x in
  to_uint8 (#255 * std_clamp u (#0) (#1)).
(* png.hpp:11-29 to_8bit_rgba of a vector of dimension 3 or 4 *)
Definition to_8bit_rgba (v : list num) : outcome (list Z) :=
  obind (mapM to_byte v) (fun pixel => Ok (if Nat.eqb (List.length v) 3 then pixel ++ [255%Z] else pixel)).
Definition vec_list (v : vec3 num) : list num := [vx v; vy v; vz v].

(** *** color_maps.hpp *)
(* a double literal of the source *)
Definition lit (mk : Z * Z) : num := nofZ (fst mk) / nofZ (2 ^ snd mk).
(* std::array::operator[] and back(); an index outside the array is undefined behaviour *)
Definition at_ (t : list (Z * Z)) (i : Z) : outcome num :=
  if (i <? 0)%Z then Undef
  else match nth_error t (Z.to_nat i) with Some v => Ok (lit v) | None => Undef end.
Definition back (t : list (Z * Z)) : outcome num := at_ t (Z.of_nat (List.length t) - 1).

(* color_maps.hpp:10-15 grayscale *)
Definition grayscale (scalar : num) : vec3 num :=
  let scalar := std_clamp scalar (#0) (#1) in V3 scalar scalar scalar.

(* one component of the interpolation, color_maps.hpp:40 *)
Definition lerp (t : num) (tab : list (Z * Z)) (i : Z) : outcome num :=
  obind (at_ tab i) (fun a => obind (at_ tab (i + 1)%Z) (fun b => Ok ((#1 - t) * a + t * b))).
Definition vec3M (x y z : outcome num) : outcome (vec3 num) :=
  obind x (fun x => obind y (fun y => obind z (fun z => Ok (V3 x y z)))).

(* the body shared by the tabulated maps: color_maps.hpp:29-43, and the same text with other
   tables at 55-69, 81-95, 107-121, 133-147, 159-173 and 185-199 *)
Definition color_map (tr tg tb : list (Z * Z)) (scalar : num) : outcome (vec3 num) :=
  let scalar := std_clamp scalar (#0) (#1) in
  if scalar =? #1 then vec3M (back tr) (back tg) (back tb)
  else
    let s := #255 * scalar in
    let ii := nfloor s in
    let t := s - ii in
    obind (to_int64 ii) (fun z =>
      let i := wrap32 z in
      vec3M (lerp t tr i) (lerp t tg i) (lerp t tb i)).
Definition plasma := color_map plasma_r plasma_g plasma_b.
Definition viridis := color_map viridis_r viridis_g viridis_b.
Definition inferno := color_map inferno_r inferno_g inferno_b.
Definition blackbody := color_map blackbody_r blackbody_g blackbody_b.
Definition kindlmann := color_map kindlmann_r kindlmann_g kindlmann_b.
Definition extended_kindlmann := color_map extended_kindlmann_r extended_kindlmann_g extended_kindlmann_b.
Definition smooth_cool_warm := color_map smooth_cool_warm_r smooth_cool_warm_g smooth_cool_warm_b.

(** *** progress_bar.hpp *)
(* progress_bar.hpp:12-21 the cells between the brackets; the control sequences and the
   percentage are not part of the result, the conversion of the percentage is *)
Fixpoint cells (n i : nat) (pos : Z) : list ascii :=
  match n with
  | O => []
  | S n => (if (Z.of_nat i <? pos)%Z then "="%char
            else if (Z.of_nat i =? pos)%Z then ">"%char else " "%char) :: cells n (S i) pos
  end.
(* progress_bar.hpp:8-24 display_progress: the cells and the number printed as percentage *)
Definition display_progress (progress : num) : outcome (list ascii * Z) :=
  obind (to_int (#100 * progress)) (fun pos =>
  obind (to_int (progress * #100)) (fun percent => Ok (cells 100 0 pos, percent))).

(** *** render_scene.hpp, the cost map *)
(* render_scene.hpp:63-72, the loop over the times *)
Definition cost_range (cost : list num) : num * num :=
  fold_left (fun '(min_time, max_time) t =>
    let max_time := if t >? max_time then t else max_time in
    let min_time := if t <? min_time then t else min_time in
    (min_time, max_time)) cost (nmax, #0).
(* render_scene.hpp:73-75 *)
Definition cost_min (cost : list num) : num :=
  let min_time := fst (cost_range cost) in if min_time <? #0 then #0 else min_time.
Definition cost_max (cost : list num) : num := snd (cost_range cost).
(* render_scene.hpp:81 the scalar of the pixel whose time is c *)
Definition cost_scalar (cost : list num) (c : num) : num :=
  (c - cost_min cost) / (cost_max cost - cost_min cost).
(* render_scene.hpp:81-83 *)
Definition cost_pixel (cost : list num) (c : num) : outcome (list Z) :=
  obind (inferno (cost_scalar cost c)) (fun color => to_8bit_rgba (vec_list color)).
End Png.

(** *** render_scene.hpp *)
(** std::vector<uint8_t>, with stores checked *)
Definition image : Type := list Z.
Definition new_image (width height : Z) : image := repeat 0%Z (Z.to_nat (4 * width * height)).
Fixpoint replace (n : nat) (v : Z) (l : list Z) : outcome (list Z) :=
  match n, l with
  | _, [] => Undef
  | O, _ :: l => Ok (v :: l)
  | S n, a :: l => omap (cons a) (replace n v l)
  end.
Definition store (img : image) (idx v : Z) : outcome image :=
  if (idx <? 0)%Z then Undef else replace (Z.to_nat idx) v img.
(* render_scene.hpp:47 *)
Definition pixel_index (width height i j : Z) : Z := (4 * width * (height - 1 - j) + 4 * i)%Z.
(* render_scene.hpp:48-51 *)
Definition write_pixel (width height i j : Z) (c : list Z) (img : image) : outcome image :=
  let idx := pixel_index width height i j in
  match c with
  | [c0; c1; c2; c3] =>
      obind (store img (idx + 0) c0) (fun img =>
      obind (store img (idx + 1) c1) (fun img =>
      obind (store img (idx + 2) c2) (fun img => store img (idx + 3) c3)))
  | _ => Undef
  end.

Section Render.
Context {F : NumOps}.
Local Open Scope num_scope.
(** as in [ray_color]: materials, the mutable parts of the scene, and the scene *)
Context {M W : Type}.
Variable world_hit : W -> ray num -> num -> num -> outcome (option M * hit_record num * W).
Variable scatter : M -> W -> ray num -> hit_record num -> outcome (scattering * W).
Variable emitted : M -> hit_record num -> vec3 num.
Variables (width height : Z) (background : vec3 num) (cam : camera).

(* render_scene.hpp:41-42 *)
Definition pixel_u (i : Z) (r : num) : num := (nofZ i + r) / nofZ (width - 1).
Definition pixel_v (j : Z) (r : num) : num := (nofZ j + r) / nofZ (height - 1).
(* render_scene.hpp:41-44 one sample; max_depth is 8 (render_scene.hpp:27) *)
Definition sample (i j : Z) (g : pcg) (w : W) : outcome (vec3 num * pcg * W) :=
  let '(r1, g) := pcg_real_01 g in
  let u := pixel_u i r1 in
  let '(r2, g) := pcg_real_01 g in
  let v := pixel_v j r2 in
  obind (ray_color world_hit scatter emitted 8 w (get_ray cam u v) background) (fun '(c, w) => Ok (c, g, w)).
Fixpoint samples (n : nat) (i j : Z) (color : vec3 num) (g : pcg) (w : W) : outcome (vec3 num * pcg * W) :=
  match n with
  | O => Ok (color, g, w)
  | S n => obind (sample i j g w) (fun '(c, g, w) => samples n i j (vadd color c) g w)
  end.
(* render_scene.hpp:39-46 the four bytes of a pixel *)
Definition pixel (spp : nat) (i j : Z) (g : pcg) (w : W) : outcome (list Z * pcg * W) :=
  obind (samples spp i j (V3 (#0) (#0) (#0)) g w) (fun '(color, g, w) =>
  obind (to_8bit_rgba (vec_list (vdiv color (nofZ (Z.of_nat spp))))) (fun c => Ok (c, g, w))).
(* render_scene.hpp:30-58 the loops; the pixels are visited in the order of the schedule, which
   for one thread is [raster] and with OpenMP interleaves the rows; the generator is shared *)
Fixpoint render (spp : nat) (order : list (Z * Z)) (img : image) (g : pcg) (w : W) : outcome (image * pcg * W) :=
  match order with
  | [] => Ok (img, g, w)
  | (i, j) :: order =>
      obind (pixel spp i j g w) (fun '(c, g, w) =>
      obind (write_pixel width height i j c img) (fun img => render spp order img g w))
  end.
Definition upto (n : Z) : list Z := map Z.of_nat (seq 0 (Z.to_nat n)).
Definition raster : list (Z * Z) := flat_map (fun j => map (fun i => (i, j)) (upto width)) (upto height).
(* render_scene.hpp:20-60 up to the first write_png, for a schedule *)
Definition render_scene (spp : nat) (order : list (Z * Z)) (w : W) : outcome image :=
  omap (fun r => fst (fst r)) (render spp order (new_image width height) pcg_seed w).
End Render.

(** *** render_scene.hpp, the picture of the times *)
Section CostPicture.
Context {F : NumOps}.
Local Open Scope num_scope.
Variables (width height : Z).
(** the measured time of each pixel *)
Variable time : Z -> Z -> num.

(** std::vector<double>, with accesses checked *)
Fixpoint set_time (n : nat) (t : num) (l : list num) : outcome (list num) :=
  match n, l with
  | _, [] => Undef
  | O, _ :: l => Ok (t :: l)
  | S n, a :: l => omap (cons a) (set_time n t l)
  end.
Definition get_time (cost : list num) (idx : Z) : outcome num :=
  if (idx <? 0)%Z then Undef else match nth_error cost (Z.to_nat idx) with Some t => Ok t | None => Undef end.
(* render_scene.hpp:55, 79 *)
Definition cost_index (i j : Z) : Z := (width * (height - 1 - j) + i)%Z.
(* render_scene.hpp:52-56, the times written in the order of the schedule *)
Fixpoint record_times (order : list (Z * Z)) (cost : list num) : outcome (list num) :=
  match order with
  | [] => Ok cost
  | (i, j) :: order =>
      obind (if (cost_index i j <? 0)%Z then Undef else set_time (Z.to_nat (cost_index i j)) (time i j) cost) (record_times order)
  end.
(* render_scene.hpp:79-88 one pixel of the picture of the times *)
Definition cost_write (cost : list num) (i j : Z) (img : image) : outcome image :=
  let idx := cost_index i j in
  obind (get_time cost idx) (fun t =>
  obind (cost_pixel cost t) (fun c =>
  let idx := (idx * 4)%Z in
  match c with
  | [c0; c1; c2; c3] =>
      obind (store img (idx + 0) c0) (fun img =>
      obind (store img (idx + 1) c1) (fun img =>
      obind (store img (idx + 2) c2) (fun img => store img (idx + 3) c3)))
  | _ => Undef
  end)).
(* render_scene.hpp:77-90 *)
Fixpoint cost_loop (cost : list num) (order : list (Z * Z)) (img : image) : outcome image :=
  match order with
  | [] => Ok img
  | (i, j) :: order => obind (cost_write cost i j img) (cost_loop cost order)
  end.
(* render_scene.hpp:29, 55 and 62-90: the picture of the times drawn over the picture [img] of
   the scene, whose pixels were visited in the order of the schedule *)
Definition cost_picture (order : list (Z * Z)) (img : image) : outcome image :=
  obind (record_times order (repeat (#0) (Z.to_nat (width * height)))) (fun cost =>
  cost_loop cost (raster width height) img).
End CostPicture.
(* render_scene.hpp:91-92 the name of its file; size() - 4 wraps round for a name of less than four
   characters, and substr takes the whole name *)
Definition cost_filename (filename : string) : string :=
  let n := Z.of_nat (String.length filename) in
  let count := Z.to_nat (Z.min n (Z.modulo (n - 4) (2 ^ 64))) in
  (String.substring 0 count filename ++ "_cost.png")%string.
