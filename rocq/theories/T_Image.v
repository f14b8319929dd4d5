(** Camera, image, colour maps and the Newton fractal. *)
From Coq Require Import Reals ZArith List Bool Ascii.
From Coquelicot Require Import Complex.
From Flocq Require Import Core BinarySingleNaN.
From Verif Require Import Num XR FL Spec M_Vec M_Rng M_Hittable M_Materials M_Tables M_Image M_Fractal Spec_Image Spec_Fractal P_FL P_Camera P_Maps P_Render P_Viewport P_Fractal P_Disks P_Image E_Image E_Picture.
Import ListNotations.
Local Open Scope R_scope.

(** ** C61 *)
(* u to the right, v upwards, w backwards: every ray is an affine function of (s, t) *)
Theorem C61_frame : forall (L : limits) (from at_ up : vec3 R) (vfov aspect : R), from <> at_ -> crossR up (subR from at_) <> zeroR -> 0 < vfov < 180 ->
  exists u v w : vec3 R,
  normR u = 1 /\ normR v = 1 /\ normR w = 1 /\ dotR u v = 0 /\ dotR u w = 0 /\ dotR v w = 0 /\ crossR u v = w /\
  (exists k, 0 < k /\ w = scaleR k (subR from at_)) /\ dotR u up = 0 /\ 0 < dotR v up /\
  forall s t, get_ray (F:=XR L) (make_camera (F:=XR L) (fin3 from) (fin3 at_) (fin3 up) (Fin vfov) (Fin aspect)) (Fin s) (Fin t) =
    Ray (fin3 from) (fin3 (subR (addR (scaleR (aspect * tan (vfov * PI / 360) * (2 * s - 1)) u) (scaleR (tan (vfov * PI / 360) * (2 * t - 1)) v)) w)).
Proof. exact @camera_frame. Qed.
Print Assumptions C61_frame.
Theorem C61_centre : forall (L : limits) (from at_ up : vec3 R) (vfov aspect : R), from <> at_ -> crossR up (subR from at_) <> zeroR -> 0 < vfov < 180 ->
  exists d k, get_ray (F:=XR L) (make_camera (F:=XR L) (fin3 from) (fin3 at_) (fin3 up) (Fin vfov) (Fin aspect)) (Fin (1 / 2)) (Fin (1 / 2)) = Ray (fin3 from) (fin3 d) /\
  0 < k /\ addR from (scaleR k d) = at_.
Proof. exact @camera_centre. Qed.
Print Assumptions C61_centre.
(* the angle between the rays through the middle of the lower and of the upper edge is vfov *)
Theorem C61_field_of_view : forall (L : limits) (from at_ up : vec3 R) (vfov aspect : R), from <> at_ -> crossR up (subR from at_) <> zeroR -> 0 < vfov < 180 ->
  let cam := make_camera (F:=XR L) (fin3 from) (fin3 at_) (fin3 up) (Fin vfov) (Fin aspect) in
  exists a b, get_ray (F:=XR L) cam (Fin (1 / 2)) (Fin 0) = Ray (fin3 from) (fin3 a) /\
  get_ray (F:=XR L) cam (Fin (1 / 2)) (Fin 1) = Ray (fin3 from) (fin3 b) /\ dotR a b = cos (vfov * PI / 180) * (normR a * normR b).
Proof. exact @camera_fov. Qed.
Print Assumptions C61_field_of_view.
(* backlight is as far behind the camera as the target is in front, and shines at the camera *)
Theorem C61_backlight : forall (L : limits) (from at_ up : vec3 R) (vfov aspect : R), from <> at_ -> crossR up (subR from at_) <> zeroR -> 0 < vfov < 180 ->
  exists o d, backlight (F:=XR L) (make_camera (F:=XR L) (fin3 from) (fin3 at_) (fin3 up) (Fin vfov) (Fin aspect)) = (fin3 o, fin3 d) /\
  subR o from = subR from at_ /\ normR d = 1 /\ exists k, 0 < k /\ addR o (scaleR k d) = from.
Proof. exact @backlight_correct. Qed.
Print Assumptions C61_backlight.
Example C61_case : V3 13 2 3 <> V3 0 0 0 /\ crossR (V3 0 1 0) (subR (V3 13 2 3) (V3 0 0 0)) <> zeroR /\ 0 < 20 < 180.
Proof. exact camera_case. Qed.

(** ** C62 *)
(* every interleaving of the byte stores: all in bounds, and each byte has the value of its pixel *)
Theorem C62_written : forall width height, (0 <= width)%Z -> forall col order, store_schedule width height order ->
  exists img, stores (pixel_stores width height col order) (new_image width height) = Ok img /\ length img = Z.to_nat (4 * width * height) /\
  forall i j c d, (0 <= i < width)%Z -> (0 <= j < height)%Z -> (0 <= c < 4)%Z -> nth (offset width height i j c) img d = col i j c.
Proof. exact frame_written. Qed.
Print Assumptions C62_written.
Theorem C62_every_byte : forall width height, (0 <= height)%Z -> forall n, (n < Z.to_nat (4 * width * height))%nat ->
  exists i j c, ((0 <= i < width)%Z /\ (0 <= j < height)%Z /\ (0 <= c < 4)%Z) /\ n = offset width height i j c.
Proof. exact offset_onto. Qed.
Print Assumptions C62_every_byte.
Theorem C62_order : forall width height, (0 <= width)%Z -> (0 <= height)%Z -> forall col o1 o2, store_schedule width height o1 -> store_schedule width height o2 ->
  stores (pixel_stores width height col o1) (new_image width height) = stores (pixel_stores width height col o2) (new_image width height).
Proof. exact frame_unique. Qed.
Print Assumptions C62_order.
(* the loops of render_scene, the pixels visited in any order *)
Theorem C62_scene : forall (F : NumOps) (M W : Type) world_hit scatter emitted width height background cam, (0 <= width)%Z ->
  forall spp order (w : W) img, schedule width height order ->
  render_scene (M:=M) world_hit scatter emitted width height background cam spp order w = Ok img ->
  length img = Z.to_nat (4 * width * height) /\
  forall i j, (0 <= i < width)%Z -> (0 <= j < height)%Z ->
    exists g0 w0 c g1 w1, pixel world_hit scatter emitted width height background cam spp i j g0 w0 = Ok (c, g1, w1) /\
    forall k d, (0 <= k < 4)%Z -> nth (offset width height i j k) img d = nth (Z.to_nat k) c d.
Proof. exact @scene_frame. Qed.
Print Assumptions C62_scene.
Theorem C62_scene_total : forall (F : NumOps) (M W : Type) world_hit scatter emitted width height background cam, (0 <= width)%Z ->
  forall spp order (w : W), schedule width height order ->
  (forall i j g w, (0 <= i < width)%Z -> (0 <= j < height)%Z -> exists r, pixel (M:=M) world_hit scatter emitted width height background cam spp i j g w = Ok r) ->
  exists img, render_scene world_hit scatter emitted width height background cam spp order w = Ok img.
Proof. exact @scene_total. Qed.
Print Assumptions C62_scene_total.
(* pixels whose colours are determined: one image, whatever the order *)
Theorem C62_scene_order : forall (F : NumOps) (M W : Type) world_hit scatter emitted width height background cam, (0 <= width)%Z -> (0 <= height)%Z ->
  forall spp o1 o2 (w : W) (col : Z -> Z -> list Z), schedule width height o1 -> schedule width height o2 ->
  (forall i j g w, (0 <= i < width)%Z -> (0 <= j < height)%Z ->
     exists g' w', pixel (M:=M) world_hit scatter emitted width height background cam spp i j g w = Ok (col i j, g', w')) ->
  render_scene world_hit scatter emitted width height background cam spp o1 w = render_scene world_hit scatter emitted width height background cam spp o2 w.
Proof. exact @scene_unique. Qed.
Print Assumptions C62_scene_order.
Example C62_case : store_schedule 2 1 bytes_up /\ store_schedule 2 1 (rev bytes_up) /\
  stores (pixel_stores 2 1 (fun i j c => 10 * i + c)%Z bytes_up) (new_image 2 1) = Ok [0; 1; 2; 3; 10; 11; 12; 13]%Z.
Proof. exact frame_case. Qed.
Example C62_determined : forall (L : limits) (M W : Type) world_hit scatter emitted width height (bg : vec3 R) cam,
  (forall w r a b, exists rec w', world_hit w r a b = Ok (None, rec, w')) -> 0 <= vx bg -> 0 <= vy bg -> 0 <= vz bg ->
  forall spp i j g (w : W), (1 <= spp)%nat -> exists g' w', pixel (F:=XR L) (M:=M) world_hit scatter emitted width height (fin3 bg) cam spp i j g w =
  Ok (map (fun a => Zfloor (255 * sqrt (Rmin a 1))) [vx bg; vy bg; vz bg] ++ [255%Z], g', w').
Proof. exact @empty_pixel. Qed.
Example C62_raster : forall width height, schedule width height (raster width height).
Proof. exact raster_schedule. Qed.

(** ** C63 *)
(* a lamp at the left edge of a 2 x 2 image, one sample per pixel, the shared generator seeded as
   in the program: the two orders of the rows give different images *)
Theorem C63_schedule_refuted : forall rec0, schedule 2 2 rows_up /\ schedule 2 2 rows_down /\
  let scene o := render_scene (F:=XR double_limits) (lamp_hit rec0) lamp_scatter lamp_emitted 2 2 (fin3 (V3 0 0 0)) lamp_camera 1 o tt in
  exists a b, scene rows_up = Ok a /\ scene rows_down = Ok b /\ a <> b.
Proof. exact schedule_case. Qed.
Print Assumptions C63_schedule_refuted.
(* what is left: all orders consume the same draws.  Missing: the image, refuted above *)
Theorem C63_draws_partial : forall (F : NumOps) (M W : Type) world_hit scatter emitted width height background cam
  spp o1 o2 img g (w : W) i1 g1 w1 i2 g2 w2, schedule width height o1 -> schedule width height o2 ->
  render (M:=M) world_hit scatter emitted width height background cam spp o1 img g w = Ok (i1, g1, w1) ->
  render world_hit scatter emitted width height background cam spp o2 img g w = Ok (i2, g2, w2) -> g1 = g2.
Proof. exact @scene_draws. Qed.
Print Assumptions C63_draws_partial.

(** ** C64 *)
(* one function of the value of the channel gives every byte *)
Theorem C64_bytes : forall prec emax (Hp : Prec_gt_0 prec) (Hm : Prec_lt_emax prec emax) (lm : libm (binary_float prec emax)), (8 <= prec)%Z ->
  exists f : xr -> Z,
  (forall c : vec3 (binary_float prec emax), nonneg (vx c) -> nonneg (vy c) -> nonneg (vz c) ->
     to_8bit_rgba (F:=FL prec emax Hp Hm lm) (vec_list (F:=FL prec emax Hp Hm lm) c) = Ok [f (fval (vx c)); f (fval (vy c)); f (fval (vz c)); 255%Z]) /\
  (forall a b c d : binary_float prec emax, nonneg a -> nonneg b -> nonneg c -> nonneg d ->
     to_8bit_rgba (F:=FL prec emax Hp Hm lm) [a; b; c; d] = Ok [f (fval a); f (fval b); f (fval c); f (fval d)]) /\
  (forall x, byte (f x)) /\ (forall x y, xleb (Fin 0) x = true -> xleb x y = true -> (f x <= f y)%Z) /\
  f (Fin 0) = 0%Z /\ (forall x, xleb (Fin 1) x = true -> f x = 255%Z) /\
  (forall a, 0 <= a <= 1 -> IZR (f (Fin a)) <= 255 * sqrt a + bpow radix2 (8 - prec) /\ 255 * sqrt a - bpow radix2 (8 - prec) < IZR (f (Fin a)) + 1).
Proof. exact quantise. Qed.
Print Assumptions C64_bytes.
(* a negative or NaN channel is converted out of range *)
Theorem C64_negative : forall prec emax (Hp : Prec_gt_0 prec) (Hm : Prec_lt_emax prec emax) (lm : libm (binary_float prec emax)), (8 <= prec)%Z ->
  forall c : vec3 (binary_float prec emax), ~ nonneg (vx c) \/ ~ nonneg (vy c) \/ ~ nonneg (vz c) ->
  to_8bit_rgba (F:=FL prec emax Hp Hm lm) (vec_list (F:=FL prec emax Hp Hm lm) c) = Undef.
Proof. exact quantise_bad. Qed.
Print Assumptions C64_negative.
(* exactly, the byte is the integer part of 255 times the square root *)
Theorem C64_exact : forall (L : limits) (c : vec3 R), 0 <= vx c -> 0 <= vy c -> 0 <= vz c ->
  to_8bit_rgba (F:=XR L) (vec_list (F:=XR L) (fin3 c)) = Ok (map (fun a => Zfloor (255 * sqrt (Rmin a 1))) [vx c; vy c; vz c] ++ [255%Z]).
Proof. exact @rgba_exact. Qed.
Print Assumptions C64_exact.
Theorem C64_exact_alpha : forall (L : limits) a b c d, 0 <= a -> 0 <= b -> 0 <= c -> 0 <= d ->
  to_8bit_rgba (F:=XR L) [Fin a; Fin b; Fin c; Fin d] = Ok (map (fun a => Zfloor (255 * sqrt (Rmin a 1))) [a; b; c; d]).
Proof. exact @rgba_exact4. Qed.
Print Assumptions C64_exact_alpha.
Example C64_case : forall lm, nonneg (d64 1 (-2)) /\ nonneg (d64 4 0) /\ nonneg (B754_infinity false : binary64) /\
  to_8bit_rgba (F:=F64 lm) (vec_list (F:=F64 lm) (V3 (d64 1 (-2)) (d64 4 0) (B754_infinity false))) = Ok [127; 255; 255; 255]%Z.
Proof. exact quantise_case. Qed.

(** ** C65 *)
Theorem C65_in_bounds : forall prec emax (Hp : Prec_gt_0 prec) (Hm : Prec_lt_emax prec emax) (lm : libm (binary_float prec emax)), (8 <= prec)%Z -> (128 <= emax)%Z ->
  forall tr tg tb (x : binary_float prec emax), In (tr, tg, tb) maps -> fval x <> NaN ->
  exists c r g b, color_map (F:=FL prec emax Hp Hm lm) tr tg tb x = Ok c /\
  fval (vx c) = Fin r /\ fval (vy c) = Fin g /\ fval (vz c) = Fin b /\ 0 <= r <= 1 /\ 0 <= g <= 1 /\ 0 <= b <= 1.
Proof. exact map_defined. Qed.
Print Assumptions C65_in_bounds.
(* NaN is not clamped: the conversion to an index is undefined *)
Theorem C65_nan : forall prec emax (Hp : Prec_gt_0 prec) (Hm : Prec_lt_emax prec emax) (lm : libm (binary_float prec emax)),
  forall tr tg tb (x : binary_float prec emax), fval x = NaN -> color_map (F:=FL prec emax Hp Hm lm) tr tg tb x = Undef.
Proof. exact map_nan. Qed.
Print Assumptions C65_nan.
Theorem C65_shown : forall prec emax (Hp : Prec_gt_0 prec) (Hm : Prec_lt_emax prec emax) (lm : libm (binary_float prec emax)), (8 <= prec)%Z -> (128 <= emax)%Z ->
  forall tr tg tb (x : binary_float prec emax), In (tr, tg, tb) maps -> fval x <> NaN ->
  exists r g b, byte r /\ byte g /\ byte b /\
  obind (color_map (F:=FL prec emax Hp Hm lm) tr tg tb x) (fun c => to_8bit_rgba (F:=FL prec emax Hp Hm lm) (vec_list (F:=FL prec emax Hp Hm lm) c)) = Ok [r; g; b; 255%Z].
Proof. exact map_shown. Qed.
Print Assumptions C65_shown.
Example C65_case : In (viridis_r, viridis_g, viridis_b) maps /\ forall lm, exists c, color_map (F:=F64 lm) viridis_r viridis_g viridis_b (d64 9007199254740991 (-53)) = Ok c.
Proof. exact (conj maps_case below_one_case). Qed.

(** ** C66 *)
Theorem C66_range : forall (L : limits) tr tg tb s, In (tr, tg, tb) maps ->
  exists c, color_map (F:=XR L) tr tg tb (Fin s) = Ok (fin3 c) /\ 0 <= vx c <= 1 /\ 0 <= vy c <= 1 /\ 0 <= vz c <= 1.
Proof. exact @map_range. Qed.
Print Assumptions C66_range.
Theorem C66_nodes : forall (L : limits) tr tg tb k, In (tr, tg, tb) maps -> (k <= 255)%nat ->
  color_map (F:=XR L) tr tg tb (Fin (INR k / 255)) = Ok (fin3 (V3 (entry tr k) (entry tg k) (entry tb k))).
Proof. exact @map_nodes. Qed.
Print Assumptions C66_nodes.
Theorem C66_linear : forall (L : limits) tr tg tb k w, In (tr, tg, tb) maps -> (k < 255)%nat -> 0 <= w <= 1 ->
  let mix t := (1 - w) * entry t k + w * entry t (S k) in
  color_map (F:=XR L) tr tg tb (Fin ((INR k + w) / 255)) = Ok (fin3 (V3 (mix tr) (mix tg) (mix tb))).
Proof. exact @map_linear. Qed.
Print Assumptions C66_linear.
Theorem C66_outside : forall (L : limits) tr tg tb s, In (tr, tg, tb) maps ->
  (s <= 0 -> color_map (F:=XR L) tr tg tb (Fin s) = Ok (fin3 (V3 (entry tr 0) (entry tg 0) (entry tb 0)))) /\
  (1 <= s -> color_map (F:=XR L) tr tg tb (Fin s) = Ok (fin3 (V3 (entry tr 255) (entry tg 255) (entry tb 255)))).
Proof. exact @map_outside. Qed.
Print Assumptions C66_outside.
(* continuity, with a constant for all maps *)
Theorem C66_lipschitz : forall (L : limits) tr tg tb s s' c c', In (tr, tg, tb) maps ->
  color_map (F:=XR L) tr tg tb (Fin s) = Ok (fin3 c) -> color_map (F:=XR L) tr tg tb (Fin s') = Ok (fin3 c') ->
  Rabs (vx c - vx c') <= 45 * Rabs (s - s') /\ Rabs (vy c - vy c') <= 45 * Rabs (s - s') /\ Rabs (vz c - vz c') <= 45 * Rabs (s - s').
Proof. exact @map_lipschitz. Qed.
Print Assumptions C66_lipschitz.
Theorem C66_grayscale : forall (L : limits) s, grayscale (F:=XR L) (Fin s) = fin3 (V3 (unitR s) (unitR s) (unitR s)).
Proof. exact @gray_exact. Qed.
Print Assumptions C66_grayscale.
Example C66_case : In (viridis_r, viridis_g, viridis_b) maps.
Proof. exact maps_case. Qed.

(** ** C67 *)
(* times not all equal; missing is the image all of whose pixels took the same time, refuted below *)
Theorem C67_unit_partial : forall prec emax (Hp : Prec_gt_0 prec) (Hm : Prec_lt_emax prec emax) (lm : libm (binary_float prec emax)), (8 <= prec)%Z ->
  forall (l : list (binary_float prec emax)) c, all_times l -> varied l -> In c l -> exists s, fval (cost_scalar (F:=FL prec emax Hp Hm lm) l c) = Fin s /\ 0 <= s <= 1.
Proof. exact cost_unit. Qed.
Print Assumptions C67_unit_partial.
Theorem C67_monotone_partial : forall prec emax (Hp : Prec_gt_0 prec) (Hm : Prec_lt_emax prec emax) (lm : libm (binary_float prec emax)), (8 <= prec)%Z ->
  forall (l : list (binary_float prec emax)) c d, all_times l -> varied l -> In c l -> In d l -> xleb (fval c) (fval d) = true ->
  xleb (fval (cost_scalar (F:=FL prec emax Hp Hm lm) l c)) (fval (cost_scalar (F:=FL prec emax Hp Hm lm) l d)) = true.
Proof. exact cost_monotone. Qed.
Print Assumptions C67_monotone_partial.
Theorem C67_ends_partial : forall prec emax (Hp : Prec_gt_0 prec) (Hm : Prec_lt_emax prec emax) (lm : libm (binary_float prec emax)), (8 <= prec)%Z ->
  forall (l : list (binary_float prec emax)) c, all_times l -> varied l -> In c l ->
  ((forall t, In t l -> xleb (fval c) (fval t) = true) -> fval (cost_scalar (F:=FL prec emax Hp Hm lm) l c) = Fin 0) /\
  ((forall t, In t l -> xleb (fval t) (fval c) = true) -> fval (cost_scalar (F:=FL prec emax Hp Hm lm) l c) = Fin 1).
Proof. exact cost_ends. Qed.
Print Assumptions C67_ends_partial.
Theorem C67_shown_partial : forall prec emax (Hp : Prec_gt_0 prec) (Hm : Prec_lt_emax prec emax) (lm : libm (binary_float prec emax)), (8 <= prec)%Z -> (128 <= emax)%Z ->
  forall (l : list (binary_float prec emax)) c, all_times l -> varied l -> In c l ->
  exists r g b, byte r /\ byte g /\ byte b /\ cost_pixel (F:=FL prec emax Hp Hm lm) l c = Ok [r; g; b; 255%Z].
Proof. exact cost_shown. Qed.
Print Assumptions C67_shown_partial.
(* equal times, as for an image of one pixel: 0/0, and the index computed from it is undefined *)
Theorem C67_equal_refuted : forall prec emax (Hp : Prec_gt_0 prec) (Hm : Prec_lt_emax prec emax) (lm : libm (binary_float prec emax)), (8 <= prec)%Z ->
  forall (l : list (binary_float prec emax)) c r, 0 <= r -> In c l -> (forall t, In t l -> fval t = Fin r) ->
  fval (cost_scalar (F:=FL prec emax Hp Hm lm) l c) = NaN /\ cost_pixel (F:=FL prec emax Hp Hm lm) l c = Undef.
Proof. exact cost_equal. Qed.
Print Assumptions C67_equal_refuted.
Example C67_case : all_times [d64 1 0; d64 3 0] /\ varied [d64 1 0; d64 3 0].
Proof. exact times_case. Qed.
Example C67_equal_case : forall lm, fval (cost_scalar (F:=F64 lm) [d64 1 0; d64 1 0] (d64 1 0)) = NaN /\ cost_pixel (F:=F64 lm) [d64 1 0; d64 1 0] (d64 1 0) = Undef.
Proof. exact cost_equal_case. Qed.

(** ** C68 *)
Theorem C68_exact : forall (L : limits) p, 0 <= p <= 1 -> exists k, IZR (Z.of_nat k) <= 100 * p < IZR (Z.of_nat k) + 1 /\ (k <= 100)%nat /\
  display_progress (F:=XR L) (Fin p) = Ok (bar k, Z.of_nat k).
Proof. exact @progress_exact. Qed.
Print Assumptions C68_exact.
Theorem C68_width : forall k, (k <= 100)%nat -> length (bar k) = 100%nat.
Proof. exact bar_length. Qed.
Print Assumptions C68_width.
(* with rounding: 100 cells, and the filled ones are floor(100p) up to the rounding of 100p;
   missing is floor(100p) itself, refuted below *)
Theorem C68_rounded_partial : forall prec emax (Hp : Prec_gt_0 prec) (Hm : Prec_lt_emax prec emax) (lm : libm (binary_float prec emax)), (8 <= prec)%Z ->
  forall (p : binary_float prec emax) r, fval p = Fin r -> 0 <= r <= 1 -> exists k, (k <= 100)%nat /\
  display_progress (F:=FL prec emax Hp Hm lm) p = Ok (bar k, Z.of_nat k) /\ length (bar k) = 100%nat /\
  INR k <= 100 * r + bpow radix2 (6 - prec) /\ 100 * r - bpow radix2 (6 - prec) < INR k + 1.
Proof. exact progress_cells. Qed.
Print Assumptions C68_rounded_partial.
Theorem C68_floor_refuted : forall lm, exists (p : binary64) r k, fval p = Fin r /\ 0 <= r <= 1 /\
  display_progress (F:=F64 lm) p = Ok (bar k, Z.of_nat k) /\ 100 * r < INR k.
Proof. exact progress_case. Qed.
Print Assumptions C68_floor_refuted.

(** ** C69 *)
Theorem C69_round_trip : forall (L : limits) w h x y i j, (2 <= w < 2 ^ 63)%Z -> (2 <= h < 2 ^ 63)%Z -> x <> 0 -> y <> 0 -> (0 <= i < w)%Z -> (0 <= j < h)%Z ->
  let m := @Map (XR L) w h (Fin x) (Fin y) in to_pixel (F:=XR L) m (to_complex (F:=XR L) m i j) = Ok (i, j).
Proof. exact @pixel_roundtrip. Qed.
Print Assumptions C69_round_trip.
(* the other way round: at most half a pixel off *)
Theorem C69_nearest : forall (L : limits) w h x y a b, (2 <= w < 2 ^ 63)%Z -> (2 <= h < 2 ^ 63)%Z -> x < 0 -> y < 0 -> x <= a <= - x -> y <= b <= - y ->
  let m := @Map (XR L) w h (Fin x) (Fin y) in
  exists i j a' b', to_pixel (F:=XR L) m (cfin a b) = Ok (i, j) /\ (0 <= i < w)%Z /\ (0 <= j < h)%Z /\
  to_complex (F:=XR L) m i j = cfin a' b' /\ Rabs (a' - a) <= - x / (IZR w - 1) /\ Rabs (b' - b) <= - y / (IZR h - 1).
Proof. exact @pixel_near. Qed.
Print Assumptions C69_nearest.
Theorem C69_corners : forall (L : limits) w h x y, (2 <= w)%Z -> (2 <= h)%Z -> x < 0 -> y < 0 ->
  let m := @Map (XR L) w h (Fin x) (Fin y) in
  to_complex (F:=XR L) m 0 0 = cfin x y /\ to_complex (F:=XR L) m (w - 1) (h - 1) = cfin (- x) (- y).
Proof. exact @pixel_corners. Qed.
Print Assumptions C69_corners.
(* the disks around the eight roots; missing are images narrower than 46, refuted below *)
Theorem C69_disks_partial : forall (L : limits) w h a b, (46 <= w < 2 ^ 63)%Z -> (46 <= h < 2 ^ 63)%Z -> In (a, b) roots ->
  exists ic jc, to_pixel (F:=XR L) (@Map (XR L) w h (Fin (-2)) (Fin (-2))) (cfin a b) = Ok (ic, jc) /\
  forall i j, In (i, j) (disk_pixels 7 ic jc) -> (0 <= i < w)%Z /\ (0 <= j < h)%Z.
Proof. exact @disks_inside. Qed.
Print Assumptions C69_disks_partial.
Theorem C69_roots : forall (L : limits) a b, In (a, b) roots -> exists dw, g (F:=XR L) (cfin a b) = (cfin 0 0, dw) /\ dw <> cfin 0 0.
Proof. exact @roots_vanish. Qed.
Print Assumptions C69_roots.
Theorem C69_small_refuted : forall L : limits, exists ic jc,
  to_pixel (F:=XR L) (@Map (XR L) 45 45 (Fin (-2)) (Fin (-2))) (cfin (- sqrt 2) (- sqrt 2)) = Ok (ic, jc) /\ In ((-1)%Z, jc) (disk_pixels 7 ic jc).
Proof. exact @disk_outside. Qed.
Print Assumptions C69_small_refuted.
Example C69_case : In (sqrt 2, - sqrt 2) roots.
Proof. exact roots_case. Qed.

(** ** C70 *)
(* the origin, for every constant in the stopping test: in exact arithmetic and in long double *)
Theorem C70_origin_refuted : forall (L : limits) k fuel, complex_newton (F:=XR L) (Fin k) fuel (g (F:=XR L)) (cfin 0 0) = OutOfFuel.
Proof. exact @newton_origin. Qed.
Print Assumptions C70_origin_refuted.
Theorem C70_origin_float_refuted : forall lm (k : binary80) fuel,
  complex_newton (F:=F80 lm) k fuel (g (F:=F80 lm)) (Cpx (B754_zero false) (B754_zero false)) = OutOfFuel.
Proof. exact newton_origin_float. Qed.
Print Assumptions C70_origin_float_refuted.
(* the loop ends exactly where Newton's map leads near a root.  Missing: that it does so from
   almost every starting value; from those of the Julia set it does not *)
Theorem C70_basin_partial : forall (L : limits) k x y, 0 < k -> k * l_eps L <= 1 / 250 ->
  (exists fuel v, complex_newton (F:=XR L) (Fin k) fuel (g (F:=XR L)) (cfin x y) = Ok v) <->
  (exists m p, In p roots /\ Cmod (Nat.iter m newton_map (x, y) - p)%C <= 2 / 25).
Proof. exact (fun L k x y => @basin L k (x, y)). Qed.
Print Assumptions C70_basin_partial.
(* all starting values within 2/25 of a root: the loop ends at that root *)
Theorem C70_disks_partial : forall (L : limits) p x y k, In p roots -> 0 < k -> Cmod ((x, y) - p)%C <= 2 / 25 ->
  exists fuel a, complex_newton (F:=XR L) (Fin k) fuel (g (F:=XR L)) (cfin x y) = Ok (cfin (fst a) (snd a)) /\
  Cmod (a - p)%C <= Cmod ((x, y) - p)%C / 2 /\ Cmod (a - p)%C <= k * l_eps L * Cmod a.
Proof. exact (fun L p x y => @disks L p (x, y)). Qed.
Print Assumptions C70_disks_partial.
(* the axes without the origin, and the outer parts of the diagonals: the loop ends at the root on
   that half line *)
Theorem C70_axes_partial : forall (L : limits) c s k x, unit4 c s -> 0 < k -> 0 < x ->
  exists fuel r, complex_newton (F:=XR L) (Fin k) fuel (g (F:=XR L)) (cfin (c * x) (s * x)) = Ok (cfin (c * r) (s * r)) /\ 1 <= r /\ r - 1 <= 7 * k * l_eps L * r.
Proof. exact @newton_axes. Qed.
Print Assumptions C70_axes_partial.
Theorem C70_diagonals_partial : forall (L : limits) c s k x, c * c = / 2 -> s * s = / 2 -> 0 < k -> 0 < x -> 15 / 2 < x ^ 4 ->
  exists fuel r, complex_newton (F:=XR L) (Fin k) fuel (g (F:=XR L)) (cfin (c * x) (s * x)) = Ok (cfin (c * r) (s * r)) /\ 2 <= r /\ r - 2 <= 7 * k * l_eps L * r.
Proof. exact @newton_diagonals. Qed.
Print Assumptions C70_diagonals_partial.
Example C70_case : unit4 0 (-1).
Proof. exact U4. Qed.
Example C70_case_disk : In (1, 0) roots /\ Cmod (Cminus (21 / 20, 1 / 20) (1, 0)) <= 2 / 25 /\ 0 < 1000 /\ 1000 * l_eps double_limits <= 1 / 250.
Proof. exact disk_case. Qed.

(** ** C79 *)
Theorem C79_cell : forall (L : limits) width height i j g, (2 <= width)%Z -> (2 <= height)%Z -> exists u v,
  pixel_u (F:=XR L) width i (fst (pcg_real_01 (F:=XR L) g)) = Fin u /\ pixel_v (F:=XR L) height j (fst (pcg_real_01 (F:=XR L) g)) = Fin v /\
  IZR i / (IZR width - 1) <= u < (IZR i + 1) / (IZR width - 1) /\ IZR j / (IZR height - 1) <= v < (IZR j + 1) / (IZR height - 1).
Proof. exact @viewport_cell. Qed.
Print Assumptions C79_cell.
(* all columns but the last; missing is the last, refuted below *)
Theorem C79_inside_partial : forall (L : limits) n i g, (2 <= n)%Z -> (0 <= i < n - 1)%Z -> exists u, pixel_u (F:=XR L) n i (fst (pcg_real_01 (F:=XR L) g)) = Fin u /\ 0 <= u < 1.
Proof. exact @viewport_inside. Qed.
Print Assumptions C79_inside_partial.
Theorem C79_last_column_refuted : forall (L : limits) n g, (2 <= n)%Z -> exists u, pixel_u (F:=XR L) n (n - 1) (fst (pcg_real_01 (F:=XR L) g)) = Fin u /\
  1 <= u /\ (fst (pcg_real_01 (F:=XR L) g) <> Fin 0 -> 1 < u).
Proof. exact @viewport_last. Qed.
Print Assumptions C79_last_column_refuted.
Theorem C79_one_column_refuted : forall (L : limits) g, ~ is_fin (pixel_u (F:=XR L) 1 0 (fst (pcg_real_01 (F:=XR L) g))).
Proof. exact @viewport_one. Qed.
Print Assumptions C79_one_column_refuted.

(** ** C80 *)
(* the scalar of a root is its angle as a fraction of the full turn *)
Theorem C80_angle : forall (L : limits) a b, exists s, root_scalar (F:=XR L) (cfin a b) = Fin s /\ 0 <= s < 1 /\
  a = sqrt (a * a + b * b) * cos (2 * PI * s) /\ b = sqrt (a * a + b * b) * sin (2 * PI * s).
Proof. exact @root_angle. Qed.
Print Assumptions C80_angle.
Theorem C80_colour : forall (L : limits) a b, exists c, obind (smooth_cool_warm (F:=XR L) (root_scalar (F:=XR L) (cfin a b))) (fun c => to_8bit_rgba (F:=XR L) (vec_list (F:=XR L) c)) = Ok c /\
  length c = 4%nat /\ forall z, In z c -> byte z.
Proof. exact @root_shown. Qed.
Print Assumptions C80_colour.

(** ** C81 *)
Theorem C81_background : forall (L : limits) (M W : Type) world_hit scatter emitted width height (bg : vec3 R) cam, (0 <= width)%Z ->
  (forall w r a b, exists rec w', world_hit w r a b = Ok (None, rec, w')) -> 0 <= vx bg -> 0 <= vy bg -> 0 <= vz bg ->
  forall spp order (w : W), (1 <= spp)%nat -> schedule width height order -> exists img,
  render_scene (F:=XR L) (M:=M) world_hit scatter emitted width height (fin3 bg) cam spp order w = Ok img /\ length img = Z.to_nat (4 * width * height) /\
  forall i j k d, (0 <= i < width)%Z -> (0 <= j < height)%Z -> (0 <= k < 4)%Z ->
    nth (offset width height i j k) img d = nth (Z.to_nat k) (map (fun a => Zfloor (255 * sqrt (Rmin a 1))) [vx bg; vy bg; vz bg] ++ [255%Z]) d.
Proof. exact @empty_scene. Qed.
Print Assumptions C81_background.
Example C81_case : schedule 2 2 rows_up /\ schedule 3 5 (raster 3 5).
Proof. exact two_schedules. Qed.
