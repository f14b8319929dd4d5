(** Model of the surfaces found by iteration: helicoid.hpp and enneper.hpp.  The counters
    (helicoid.hpp:16-20, enneper.hpp:16-20) and the diagnostics printed to std::cerr are
    not modelled.  The literals 0.5 and 0.00001 are written 1/2 and 1/100000. *)
From Coq Require Import ZArith List Bool.
From Verif Require Import Num M_Vec M_Matrix M_Roots M_Rng M_Hittable M_Iter.
Import ListNotations.

Record helicoid (T : Type) : Type := Helicoid { he_radius : T; he_speed : T }.
Arguments Helicoid {T} _ _.
Arguments he_radius {T} _.
Arguments he_speed {T} _.
Record enneper (T : Type) : Type := Enneper { en_radius : T }.
Arguments Enneper {T} _.
Arguments en_radius {T} _.

Section Surfaces.
Context {F : NumOps}.
Local Open Scope num_scope.
Local Notation "x <- e ;; f" := (obind e (fun x => f)) (at level 61, e at next level, right associativity).
Notation record := (hit_record num).

(* matrix.hpp:50-59 matrix::max_norm, storage order *)
Definition matrix_max_norm (m : mat3 num) : num :=
  lmaxnorm [m00 m; m01 m; m02 m; m10 m; m11 m; m12 m; m20 m; m21 m; m22 m].

(** *** helicoid.hpp *)

(* helicoid.hpp:51-57 operator()(u,v), also lines 60-63 and 101-104 *)
Definition helicoid_at (s : helicoid num) (u v : num) : vec3 num :=
  V3 (he_radius s * v * ncos (#2 * npi * u))
     (he_radius s * v * nsin (#2 * npi * u))
     (he_speed s * (u - #1 / #2)).
(* helicoid.hpp:65-75 and 111-122: the matrix J of operator()(u,v,J,H) and derivatives<p> *)
Definition helicoid_J (s : helicoid num) (u v : num) : mat3 num :=
  let w := helicoid_at s u v in
  M3 (#(-2) * npi * vy w) (he_radius s * ncos (#2 * npi * u)) nnan
     (#2 * npi * vx w) (he_radius s * nsin (#2 * npi * u)) nnan
     (he_speed s) (#0) nnan.
(* helicoid.hpp:77-93 and 126-143: H(i,j,k) as one 2x2 matrix (j,k) per component i *)
Definition helicoid_H (s : helicoid num) (u v : num) : vec3 (mat2 num) :=
  let w := helicoid_at s u v in
  let h001 := #(-2) * npi * nsin (#2 * npi * u) in
  let h101 := #2 * npi * ncos (#2 * npi * u) in
  V3 (M2 (#(-4) * npi * npi * vx w) h001 h001 (#0))
     (M2 (#(-4) * npi * npi * vy w) h101 h101 (#0))
     (M2 (#0) (#0) (#0) (#0)).
(* helicoid.hpp:155-160 gaussian_curvature_bounds *)
Definition helicoid_curvature_bounds (s : helicoid num) : num * num :=
  let kmin := #(-1) / (he_speed s * he_speed s) in
  let rt_denom := he_speed s * he_speed s + #4 * npi * npi * he_radius s * he_radius s in
  let kmax := (- he_speed s) * he_speed s / (rt_denom * rt_denom) in
  (kmin, kmax).

(* helicoid.hpp:165-183 ubounds; not called by the library *)
Definition helicoid_ubounds (s : helicoid num) (o d : vec3 num) (t_min t_max : num) : num * num :=
  if (vx o * vx o + vy o * vy o <? he_radius s * he_radius s)
     && (vz o <? he_speed s / #2) && (vz o >? (- he_speed s) / #2)
  then (#0, #1)
  else
    let umin := (vz o + t_min * vz d) / he_speed s + #1 / #2 in
    let umax := (vz o + t_max * vz d) / he_speed s + #1 / #2 in
    let '(umin, umax) := if umin >? umax then (umax, umin) else (umin, umax) in
    let umin := std_max (#0) umin in
    let umax := std_min (#1) umax in
    if (umin >? #1) || (umax <? #0) then (nnan, nnan) else (umin, umax).

(* helicoid.hpp:186-234 vbounds *)
Definition helicoid_vbounds (s : helicoid num) (o d : vec3 num) (tmin tmax : num) : num * num :=
  if (vx o * vx o + vy o * vy o <? he_radius s * he_radius s)
     && (vz o <? he_speed s / #2) && (vz o >? (- he_speed s) / #2)
  then (#0, #1)
  else
    let tc := - (vx o * vx d + vy o * vy d) / (vx d * vx d + vy d * vy d) in
    let v_at t :=
      let x := vx o + t * vx d in
      let y := vy o + t * vy d in
      nsqrt (x * x + y * y) / he_radius s in
    let outside :=
      if (tc <? tmin) || (tc >? tmax) then
        let vmin := v_at tmin in
        let vmax := v_at tmax in
        let '(vmin, vmax) := if vmin >? vmax then (vmax, vmin) else (vmin, vmax) in
        let vmin := if vmin <? #0 then #0 else vmin in
        let vmax := if vmax >? #1 then #1 else vmax in
        (vmin >? #1) || (vmax <? #0)
      else false in
    if outside then (nnan, nnan)
    else
      let vmax1 := v_at tmin in
      let vmax2 := v_at tmax in
      let vmin := v_at tc in
      if vmax1 <? vmax2 then (vmin, vmax1) else (vmin, vmax2).

(* helicoid.hpp:334-354 the system handed to newton, w = (t,v) *)
Definition helicoid_system (s : helicoid num) (o d : vec3 num) : system := fun w =>
  let t := nth 0 w nnan in
  let v := nth 1 w nnan in
  let k := #2 * npi / he_speed s in
  let x := vx o + t * vx d in
  let y := vy o + t * vy d in
  let z := vz o + t * vz d in
  let rckz := he_radius s * ncos (k * z) in
  let rskz := he_radius s * nsin (k * z) in
  let rvckz := v * rckz in
  let rvskz := v * rskz in
  ([x + rvckz; y + rvskz],
   [[vx d - k * vz d * rvskz; rckz];
    [vy d + k * vz d * rvckz; rskz]]).

(* helicoid.hpp:247-295: horizontal rays *)
Definition helicoid_horizontal (s : helicoid num) (o d : vec3 num) (t_min t_max : num) : num * num * num :=
  let u := vz o / he_speed s + #1 / #2 in
  if (u <? #0) || (u >? #1) then (nnan, nnan, nnan)
  else
    let theta := #2 * npi * vz o / he_speed s in
    let tant := ntan theta in
    let tv :=
      if nabs tant <=? nmin then
        if nabs (vy d) <=? nmin then
          if nabs (vy o) >? nmin then None
          else
            let t0 := (- vx o) / vx d in
            let t1 := - (vx o + #1) / vx d in
            if (t0 <? t1) && (t0 >=? t_min) then Some (t0, #0) else Some (t1, #1)
        else
          let t := (- vy o) / vy d in
          Some (t, (vx o + t * vx d) / (he_radius s * ncos (#2 * npi * u)))
      else
        let t := (vx o * tant - vy o) / (vy d - vx d * tant) in
        let x := vx o + t * vx d in
        let y := vy o + t * vy d in
        Some (t, nsqrt (x * x + y * y) / he_radius s) in
    match tv with
    | None => (nnan, nnan, nnan)
    | Some (t, v) =>
        if (t >=? t_min) && (t <=? t_max)
        then (t, std_clamp u (#0) (#1), std_clamp v (#0) (#1))
        else (nnan, nnan, nnan)
    end.

(* helicoid.hpp:298-330: vertical rays *)
Definition helicoid_vertical (s : helicoid num) (o d : vec3 num) : num * num * num :=
  let v := nsqrt (vx o * vx o + vy o * vy o) / he_radius s in
  if v >? #1 then (nnan, nnan, nnan)
  else
    let '(u, t) :=
      if v <? nmin then
        if vz d >? #0 then (#0, ((- he_speed s) / #2 - vz o) / vz d)
        else (#1, (he_speed s / #2 - vz o) / vz d)
      else
        let rv := he_radius s * v in
        let u := natan2 (vy o / rv) (vx o / rv) / (#2 * npi) in
        let u := if u <? #0 then u + #1 else u in
        (u, (he_speed s * (u - #1 / #2) - vz o) / vz d) in
    (t, std_clamp u (#0) (#1), std_clamp v (#0) (#1)).

(* helicoid.hpp:332-396: all other rays *)
Definition helicoid_general (s : helicoid num) (o d : vec3 num) (t_min t_max : num)
  : outcome (num * num * num) :=
  let '(vmin, vmax) := helicoid_vbounds s o d t_min t_max in
  let b := make_bounds [(t_min, t_max); (vmin, vmax)] in
  r <- newton_nd (helicoid_system s o d) b [t_min; vmax * (#1 - #1000 * neps)] 16 ;;
  let sol := fst (fst r) in
  let t := nth 0 sol nnan in
  let v := nth 1 sol nnan in
  let u := (vz o + t * vz d) / he_speed s + #1 / #2 in
  Ok (t, std_clamp u (#0) (#1), std_clamp v (#0) (#1)).

(* helicoid.hpp:236-397 compute_tuv *)
Definition helicoid_tuv (s : helicoid num) (o d : vec3 num) (t_min t_max : num)
  : outcome (num * num * num) :=
  if nabs (vz d) <=? nmin then Ok (helicoid_horizontal s o d t_min t_max)
  else if vx d * vx d + vy d * vy d <=? nmin then Ok (helicoid_vertical s o d)
  else helicoid_general s o d t_min t_max.

(* helicoid.hpp:408-434: the part of the window inside the solid cylinder; [None]: return false *)
Definition helicoid_window (s : helicoid num) (r : ray num) (t_min t_max : num) : option (num * num) :=
  let o := r_orig r in
  let dir := r_dir r in
  let a := vx dir * vx dir + vy dir * vy dir in
  if a >? nmin then
    let b := #2 * (vx o * vx dir + vy o * vy dir) in
    let c := vx o * vx o + vy o * vy o - he_radius s * he_radius s in
    match quadratic_roots a b c with
    | [r0; r1] =>
        if r1 <? t_min then None
        else
          let t_min := std_max t_min r0 in
          let t_max := std_min t_max r1 in
          let p1 := ray_at r t_max in
          let p2 := ray_at r t_min in
          let z_max := std_max (vz p1) (vz p2) in
          let z_min := std_min (vz p1) (vz p2) in
          if z_min >? he_speed s / #2 then None
          else if z_max <? (- he_speed s) / #2 then None
          else Some (t_min, t_max)
    | _ => None
    end
  else Some (t_min, t_max).

(* helicoid.hpp:443-460: the fields of the record computed from rec.u and rec.v.
   d2sigmadu2 (line 445) is not used. *)
Definition helicoid_forms (s : helicoid num) (r : ray num) (rec : record) : record :=
  let u := h_u rec in
  let v := h_v rec in
  let dsigmadu := V3 (#(-2) * npi * he_radius s * v * nsin (#2 * npi * u))
                     (#2 * npi * he_radius s * v * ncos (#2 * npi * u)) (he_speed s) in
  let dsigmadv := V3 (he_radius s * ncos (#2 * npi * u)) (he_radius s * nsin (#2 * npi * u)) (#0) in
  let d2sigmadudv := V3 (#(-2) * npi * he_radius s * nsin (#2 * npi * u))
                        (#2 * npi * he_radius s * ncos (#2 * npi * u)) (#0) in
  let gradient := cross dsigmadu dsigmadv in
  let rec := set_grad (norm gradient) rec in
  let outward_normal := vdiv gradient (h_grad rec) in
  let rec := set_second (#0) (dot d2sigmadudv outward_normal) (#0) rec in
  let rec := set_first (dot dsigmadu dsigmadu) (#0) (#4 * npi * npi * he_radius s * he_radius s) rec in
  set_face_normal r outward_normal rec.

(* helicoid.hpp:461-475 the condition number and the residual test *)
Definition helicoid_finish (s : helicoid num) (r : ray num) (rec : record) : outcome (bool * record) :=
  let dir := r_dir r in
  let u := h_u rec in
  let v := h_v rec in
  let t := h_t rec in
  let p := helicoid_at s u v in
  let J0 := helicoid_J s u v in
  let J := M3 (m00 J0) (m01 J0) (- vx dir) (m10 J0) (m11 J0) (- vy dir) (m20 J0) (m21 J0) (- vz dir) in
  let residual := max_norm (vsub (h_p rec) p) in
  let r0 := nabs (t * m02 J) + nabs (m00 J * u) + nabs (m01 J * v) in
  let r1 := nabs (t * m12 J) + nabs (m10 J * u) + nabs (m11 J * v) in
  let r2 := nabs (t * m22 J) + nabs (m20 J * u) + nabs (m21 J * v) in
  M <- inverse3_value J ;;
  let rec := set_cond (matrix_max_norm M / std_max3 u v t) rec in
  let expected := std_max3 r0 r1 r2 * neps in
  Ok (negb (residual >? #10 * expected), rec).

(* helicoid.hpp:403-492 hit *)
Definition helicoid_hit (s : helicoid num) (r : ray num) (t_min t_max : num) (rec : record)
  : outcome (bool * record) :=
  match helicoid_window s r t_min t_max with
  | None => Ok (false, rec)
  | Some (t_min, t_max) =>
      tuv <- helicoid_tuv s (r_orig r) (r_dir r) t_min t_max ;;
      let '(t, u, v) := tuv in
      let rec := set_v v (set_u u (set_t t rec)) in
      if nisnan (h_t rec) then Ok (false, rec)
      else
        let rec := set_p (ray_at r (h_t rec)) rec in
        helicoid_finish s r (helicoid_forms s r rec)
  end.

(* helicoid.hpp:494-500 bounding_box *)
Definition helicoid_box (s : helicoid num) : option (aabb num) :=
  Some (Box (V3 (- he_radius s) (- he_radius s) ((- he_speed s) / #2))
            (V3 (he_radius s) (he_radius s) (he_speed s / #2))).
Definition of_helicoid (s : helicoid num) : hittable := Hittable (helicoid_hit s) (helicoid_box s).

(** *** enneper.hpp *)

(* enneper.hpp:50-56 operator()(u,v) *)
Definition enneper_at (u v : num) : vec3 num :=
  V3 (u * (#1 - u * u / #3 + v * v)) (v * (#1 - v * v / #3 + u * u)) (u * u - v * v).
(* enneper.hpp:58-78 the matrix J of operator()(u,v,J) *)
Definition enneper_J (u v : num) : mat3 num :=
  let p := enneper_at u v in
  M3 (#1 - vz p) (#2 * u * v) nnan
     (#2 * u * v) (#1 + vz p) nnan
     (#2 * u) (#(-2) * v) nnan.
(* enneper.hpp:82-102 the tensor H of operator()(u,v,J,H) *)
Definition enneper_H (u v : num) : vec3 (mat2 num) :=
  V3 (M2 (#(-2) * u) (#2 * v) (#2 * v) (#2 * u))
     (M2 (#2 * v) (#2 * u) (#2 * u) (#(-2) * v))
     (M2 (#2) (#0) (#0) (#(-2))).
(* enneper.hpp:104-107 gaussian_curvature_bounds; std::pow(9,4) as repeated multiplication *)
Definition enneper_curvature_bounds : num * num := (#(-4), - #4 / (#9 * #9 * #9 * #9)).

(* enneper.hpp:116-125 the system handed to newton, w = (u,v,t) *)
Definition enneper_system (o d : vec3 num) : system := fun w =>
  let u := nth 0 w nnan in
  let v := nth 1 w nnan in
  let t := nth 2 w nnan in
  let p := enneper_at u v in
  let J := enneper_J u v in
  let g := vsub (vsub p o) (vscale t d) in
  ([vx g; vy g; vz g],
   [[m00 J; m01 J; - vx d]; [m10 J; m11 J; - vy d]; [m20 J; m21 J; - vz d]]).

(* enneper.hpp:139-141: [n] runs from random starting points, all with the same bounds *)
Fixpoint enneper_random_runs (n : nat) (o d : vec3 num) (bound : bounds) : outcome (list (list num)) :=
  match n with
  | O => Ok []
  | S n' =>
      let '(guess, bound) := bounds_random bound in
      r <- newton_nd (enneper_system o d) bound guess 16 ;;
      sols <- enneper_random_runs n' o d (Bounds (b_ends bound) (snd (fst r))) ;;
      Ok (fst (fst r) :: sols)
  end.

(* enneper.hpp:143-153 the solution with the least t; the first one if none is below max() *)
Fixpoint enneper_pick (sols : list (list num)) (best : list num) (tmin : num) : list num :=
  match sols with
  | [] => best
  | sol :: sols' =>
      if nth 2 sol nnan <? tmin then enneper_pick sols' sol (nth 2 sol nnan)
      else enneper_pick sols' best tmin
  end.

(* enneper.hpp:127-132, 133-135: a run from the centre of a box in u,v *)
Definition enneper_center_run (o d : vec3 num) (uv window : num * num) (rng : pcg)
  : outcome (list num * pcg) :=
  let bound := Bounds [uv; uv; window] rng in
  r <- newton_nd (enneper_system o d) bound (bounds_center (b_ends bound)) 16 ;;
  Ok (fst (fst r), snd (fst r)).

(* enneper.hpp:114-154 compute_uvt; one generator serves all twelve runs *)
Definition enneper_uvt (o d : vec3 num) (t_min t_max : num) : outcome (list num) :=
  s0 <- enneper_center_run o d (#(-2), #0) (t_min, t_max) pcg_seed ;;
  s1 <- enneper_center_run o d (#0, #2) (t_min, t_max) (snd s0) ;;
  s2 <- enneper_center_run o d (#(-1), #1) (t_min, t_max) (snd s1) ;;
  sols <- enneper_random_runs 9 o d (Bounds [(#(-2), #2); (#(-2), #2); (t_min, t_max)] (snd s2)) ;;
  let sols := fst s0 :: fst s1 :: fst s2 :: sols in
  Ok (enneper_pick sols (fst s0) nmax).

(* enneper.hpp:160-176: the part of the window inside the clipping sphere; [None]: return false *)
Definition enneper_window (s : enneper num) (r : ray num) (t_min t_max : num) : option (num * num) :=
  let oc := r_orig r in
  let a := squared_norm (r_dir r) in
  let b := #2 * dot oc (r_dir r) in
  let c := squared_norm oc - en_radius s * en_radius s in
  match quadratic_roots a b c with
  | [r0; r1] =>
      if r1 <? t_min then None
      else if r0 >? t_max then None
      else Some (std_max t_min r0, std_min t_max r1)
  | _ => None
  end.

(* enneper.hpp:204-220 *)
Definition enneper_forms (r : ray num) (u v : num) (rec : record) : record :=
  let dsigmadu := V3 (#1 - u * u + v * v) (#2 * u * v) (#2 * u) in
  let dsigmadv := V3 (#2 * u * v) (#1 - v * v + u * u) (#(-2) * v) in
  let gradient := cross dsigmadu dsigmadv in
  let rec := set_grad (norm gradient) rec in
  let outward_normal := vdiv gradient (h_grad rec) in
  let rec := set_face_normal r outward_normal rec in
  let rec := set_first (squared_norm dsigmadu) (#0) (squared_norm dsigmadv) rec in
  set_second (#2) (#0) (#(-2)) rec.

(* enneper.hpp:178-223: the rest of hit, for the answer [w] of compute_uvt *)
Definition enneper_finish (r : ray num) (t_min t_max : num) (w : list num) (rec : record) : bool * record :=
  let u := nth 0 w nnan in
  let v := nth 1 w nnan in
  let t := nth 2 w nnan in
  if nisnan u then (false, rec)
  else if (t <? t_min) || (t >? t_max) then (false, rec)
  else
    let rec := set_v v (set_u u (set_p (ray_at r t) (set_t t rec))) in
    let p := enneper_at u v in
    let residual := norm (vsub (h_p rec) p) in
    if residual >? #1 / #100000 then (false, rec)
    else (true, enneper_forms r u v rec).

(* enneper.hpp:157-224 hit, with the solver [uvt] as a parameter *)
Definition enneper_hit_with (uvt : vec3 num -> vec3 num -> num -> num -> outcome (list num))
  (s : enneper num) (r : ray num) (t_min t_max : num) (rec : record) : outcome (bool * record) :=
  match enneper_window s r t_min t_max with
  | None => Ok (false, rec)
  | Some (t_min, t_max) =>
      w <- uvt (r_orig r) (r_dir r) t_min t_max ;;
      Ok (enneper_finish r t_min t_max w rec)
  end.
(* enneper.hpp:157-224 hit *)
Definition enneper_hit : enneper num -> ray num -> num -> num -> record -> outcome (bool * record) :=
  enneper_hit_with enneper_uvt.

(* enneper.hpp:226-232 bounding_box *)
Definition enneper_box (s : enneper num) : option (aabb num) :=
  Some (Box (V3 (- en_radius s) (- en_radius s) (- en_radius s))
            (V3 (en_radius s) (en_radius s) (en_radius s))).
Definition of_enneper (s : enneper num) : hittable := Hittable (enneper_hit s) (enneper_box s).

End Surfaces.
