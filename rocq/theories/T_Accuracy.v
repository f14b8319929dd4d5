(** Properties C110 to C114 and C124 to C129: how accurate the floating-point code is, in every binary format.
    u is the unit roundoff, half of the machine epsilon; [moderate k] numbers are zero or between
    2^-k and 2^k in size, for any k with 2k + 2 prec + 8 <= emax (k = 455 for double, 36 for float). *)
From Coq Require Import Reals ZArith List Bool.
From Flocq Require Import Core BinarySingleNaN.
From Verif Require Import Num XR FL Spec Spec_Scene Spec_Light Spec_Accuracy Spec_Bend M_Vec M_Roots M_Rng M_Hittable M_Shapes M_Materials M_Image P_FL P_Accuracy P_SphereHit P_BoxFloat P_Directions P_Ball P_CameraFloat E_Accuracy E_Nearest E_Bend E_Ball E_CameraFloat P_View E_Shown E_View Spec_Egg P_Egg E_Egg P_EggNormal.
Import ListNotations.
Local Open Scope R_scope.

(** ** C110 *)
Theorem C110_difference : forall (prec emax : Z) (Hp : Prec_gt_0 prec) (Hm : Prec_lt_emax prec emax) (lm : libm (binary_float prec emax)) (k : Z),
  (8 <= prec)%Z -> (0 <= k)%Z -> (2 * k + 2 * prec + 8 <= emax)%Z ->
  forall (fa fb fc fd : binary_float prec emax) (a b c d : R), fval fa = Fin a -> fval fb = Fin b -> fval fc = Fin c -> fval fd = Fin d ->
  moderate k a -> moderate k b -> moderate k c -> moderate k d ->
  let u := bpow radix2 (- prec) in
  exists r, fval (difference_of_products (F:=FL prec emax Hp Hm lm) fa fb fc fd) = Fin r /\
    Rabs (r - (a * b - c * d)) <= 3 * u * (1 + u) * Rabs (a * b - c * d).
Proof. exact difference_stated. Qed.
Print Assumptions C110_difference.
Theorem C110_cross : forall (prec emax : Z) (Hp : Prec_gt_0 prec) (Hm : Prec_lt_emax prec emax) (lm : libm (binary_float prec emax)) (k : Z),
  (8 <= prec)%Z -> (0 <= k)%Z -> (2 * k + 2 * prec + 8 <= emax)%Z ->
  forall (fv fw : vec3 (binary_float prec emax)) (v w : vec3 R), map3 fval fv = fin3 v -> map3 fval fw = fin3 w ->
  (moderate k (vx v) /\ moderate k (vy v) /\ moderate k (vz v)) -> (moderate k (vx w) /\ moderate k (vy w) /\ moderate k (vz w)) ->
  let u := bpow radix2 (- prec) in
  exists x, map3 fval (cross (F:=FL prec emax Hp Hm lm) fv fw) = fin3 x /\
    Rabs (vx x - vx (crossR v w)) <= 3 * u * (1 + u) * Rabs (vx (crossR v w)) /\
    Rabs (vy x - vy (crossR v w)) <= 3 * u * (1 + u) * Rabs (vy (crossR v w)) /\
    Rabs (vz x - vz (crossR v w)) <= 3 * u * (1 + u) * Rabs (vz (crossR v w)).
Proof. exact cross_stated. Qed.
Print Assumptions C110_cross.
Theorem C110_discriminant : forall (prec emax : Z) (Hp : Prec_gt_0 prec) (Hm : Prec_lt_emax prec emax) (lm : libm (binary_float prec emax)) (k : Z),
  (8 <= prec)%Z -> (0 <= k)%Z -> (2 * k + 2 * prec + 8 <= emax)%Z ->
  forall (fa fb fc : binary_float prec emax) (a b c : R), fval fa = Fin a -> fval fb = Fin b -> fval fc = Fin c ->
  moderate k a -> moderate k b -> moderate k c ->
  let u := bpow radix2 (- prec) in
  exists r, fval (discriminant (F:=FL prec emax Hp Hm lm) fa fb fc) = Fin r /\
    Rabs (r - (b * b - 4 * a * c)) <= 3 * u * (1 + u) * Rabs (b * b - 4 * a * c).
Proof. exact discriminant_stated. Qed.
Print Assumptions C110_discriminant.

(** ** C111 *)
Theorem C111_roots : forall (prec emax : Z) (Hp : Prec_gt_0 prec) (Hm : Prec_lt_emax prec emax) (lm : libm (binary_float prec emax)) (k : Z),
  (8 <= prec)%Z -> (0 <= k)%Z -> (2 * k + 2 * prec + 8 <= emax)%Z ->
  forall (fa fb fc : binary_float prec emax) (a b c : R), fval fa = Fin a -> fval fb = Fin b -> fval fc = Fin c ->
  moderate k a -> moderate k b -> moderate k c -> a <> 0 ->
  let roots := quadratic_roots (F:=FL prec emax Hp Hm lm) fa fb fc in
  let u := bpow radix2 (- prec) in
  (b * b - 4 * a * c < 0 -> roots = []) /\
  (0 <= b * b - 4 * a * c -> exists f0 f1 y0 y1 t0 t1, roots = [f0; f1] /\ fval f0 = Fin y0 /\ fval f1 = Fin y1 /\
     two_roots a b c t0 t1 /\ Rabs (y0 - t0) <= 6 * u * Rabs t0 /\ Rabs (y1 - t1) <= 6 * u * Rabs t1).
Proof. exact quadratic_stated. Qed.
Print Assumptions C111_roots.
Theorem C111_first : forall (prec emax : Z) (Hp : Prec_gt_0 prec) (Hm : Prec_lt_emax prec emax) (lm : libm (binary_float prec emax)) (k : Z),
  (8 <= prec)%Z -> (0 <= k)%Z -> (2 * k + 2 * prec + 8 <= emax)%Z ->
  forall (fa fb fc lo hi : binary_float prec emax) (a b c : R), fval fa = Fin a -> fval fb = Fin b -> fval fc = Fin c ->
  moderate k a -> moderate k b -> moderate k c -> a <> 0 ->
  let inside y := xleb (fval lo) (Fin y) && xleb (Fin y) (fval hi) = true in
  let near y t := Rabs (y - t) <= 6 * bpow radix2 (- prec) * Rabs t in
  let first := first_quadratic_root_in_range (F:=FL prec emax Hp Hm lm) fa fb fc lo hi in
  (b * b - 4 * a * c < 0 -> first = None) /\
  (forall t0 t1, two_roots a b c t0 t1 ->
     match first with
     | Some f => exists y, fval f = Fin y /\ inside y /\ (near y t0 \/ near y t1 /\ exists y0, near y0 t0 /\ ~ inside y0)
     | None => exists y0 y1, near y0 t0 /\ near y1 t1 /\ ~ inside y0 /\ ~ inside y1
     end).
Proof. exact first_stated. Qed.
Print Assumptions C111_first.
(* x^2 - 2^60 x + 1 in double: the textbook formula loses the smaller root *)
Example C111_case : (8 <= 53)%Z /\ (2 * 450 + 2 * 53 + 8 <= 1024)%Z /\
  (fval (d64 1 0) = Fin 1 /\ fval (d64 (-1) 60) = Fin (- bpow radix2 60)) /\
  (moderate 450 1 /\ moderate 450 (- bpow radix2 60)) /\
  0 <= - bpow radix2 60 * - bpow radix2 60 - 4 * 1 * 1.
Proof. exact accuracy_case. Qed.
(* Without a bound on the sizes: x^2 + 2^600 x + 1 has two real roots, and -inf and -0 are returned. *)
Theorem C111_overflow_refuted : forall lm, exists (fa fb fc : binary64) (b : R) f0 f1,
  fval fa = Fin 1 /\ fval fb = Fin b /\ fval fc = Fin 1 /\ 4 <= b * b - 4 * 1 * 1 /\
  quadratic_roots (F:=F64 lm) fa fb fc = [f0; f1] /\ fval f0 = MInf /\ fval f1 = Fin 0.
Proof. exact overflow_case. Qed.
Print Assumptions C111_overflow_refuted.

(** ** C112 *)
Theorem C112_dot : forall (prec emax : Z) (Hp : Prec_gt_0 prec) (Hm : Prec_lt_emax prec emax) (lm : libm (binary_float prec emax)) (k : Z),
  (8 <= prec)%Z -> (0 <= k)%Z -> (2 * k + 2 * prec + 8 <= emax)%Z ->
  forall (fv fw : vec3 (binary_float prec emax)) (v w : vec3 R), map3 fval fv = fin3 v -> map3 fval fw = fin3 w -> moderate3 k v -> moderate3 k w ->
  let u := bpow radix2 (- prec) in
  exists s, fval (dot (F:=FL prec emax Hp Hm lm) fv fw) = Fin s /\
    Rabs (s - dotR v w) <= 4 * u * (Rabs (vx v * vx w) + Rabs (vy v * vy w) + Rabs (vz v * vz w)).
Proof. exact dot_stated. Qed.
Print Assumptions C112_dot.
Theorem C112_squared_norm : forall (prec emax : Z) (Hp : Prec_gt_0 prec) (Hm : Prec_lt_emax prec emax) (lm : libm (binary_float prec emax)) (k : Z),
  (8 <= prec)%Z -> (0 <= k)%Z -> (2 * k + 2 * prec + 8 <= emax)%Z ->
  forall (fv : vec3 (binary_float prec emax)) (v : vec3 R), map3 fval fv = fin3 v -> moderate3 k v ->
  let u := bpow radix2 (- prec) in
  exists s, fval (squared_norm (F:=FL prec emax Hp Hm lm) fv) = Fin s /\ Rabs (s - normsqR v) <= 4 * u * normsqR v.
Proof. exact squared_norm_stated. Qed.
Print Assumptions C112_squared_norm.
Theorem C112_norm : forall (prec emax : Z) (Hp : Prec_gt_0 prec) (Hm : Prec_lt_emax prec emax) (lm : libm (binary_float prec emax)) (k : Z),
  (8 <= prec)%Z -> (0 <= k)%Z -> (2 * k + 2 * prec + 8 <= emax)%Z ->
  forall (fv : vec3 (binary_float prec emax)) (v : vec3 R), map3 fval fv = fin3 v -> moderate3 k v -> v <> V3 0 0 0 ->
  let u := bpow radix2 (- prec) in
  exists s, fval (norm (F:=FL prec emax Hp Hm lm) fv) = Fin s /\ Rabs (s - normR v) <= 4 * u * normR v.
Proof. exact norm_stated. Qed.
Print Assumptions C112_norm.
Theorem C112_normalize : forall (prec emax : Z) (Hp : Prec_gt_0 prec) (Hm : Prec_lt_emax prec emax) (lm : libm (binary_float prec emax)) (k : Z),
  (8 <= prec)%Z -> (0 <= k)%Z -> (2 * k + 2 * prec + 8 <= emax)%Z ->
  forall (fv : vec3 (binary_float prec emax)) (v : vec3 R), map3 fval fv = fin3 v -> moderate3 k v -> v <> V3 0 0 0 ->
  let u := bpow radix2 (- prec) in
  exists y, map3 fval (normalize (F:=FL prec emax Hp Hm lm) fv) = fin3 y /\
    (Rabs (vx y - vx v / normR v) <= 5 * u * Rabs (vx v / normR v) /\ Rabs (vy y - vy v / normR v) <= 5 * u * Rabs (vy v / normR v) /\
     Rabs (vz y - vz v / normR v) <= 5 * u * Rabs (vz v / normR v)) /\
    Rabs (normR y - 1) <= 5 * u.
Proof. exact normalize_stated. Qed.
Print Assumptions C112_normalize.
(* a vector of doubles whose squares differ by a factor of about 2^200 *)
Example C112_case : (2 * 450 + 2 * 53 + 8 <= 1024)%Z /\ map3 fval (V3 (d64 3 0) (d64 (-5) (-100)) (d64 0 0)) = fin3 (V3 3 (-5 * bpow radix2 (-100)) 0) /\
  moderate3 450 (V3 3 (-5 * bpow radix2 (-100)) 0) /\ V3 3 (-5 * bpow radix2 (-100)) 0 <> V3 0 0 0.
Proof. exact lengths_case. Qed.

(** ** C113 *)
(* S is any bound on the coordinates of the ray's origin and of the centre, and on the radius. *)
Theorem C113_near : forall (prec emax : Z) (Hp : Prec_gt_0 prec) (Hm : Prec_lt_emax prec emax) (lm : libm (binary_float prec emax)) (k : Z),
  (24 <= prec)%Z -> (0 <= k)%Z -> (4 * k + 6 * prec + 16 <= emax)%Z ->
  forall (fs : sphere (binary_float prec emax)) (fray : ray (binary_float prec emax)) (c o d : vec3 R) (r : R),
  map3 fval (s_center fs) = fin3 c -> fval (s_radius fs) = Fin r -> map3 fval (r_orig fray) = fin3 o -> map3 fval (r_dir fray) = fin3 d ->
  moderate3 k c -> moderate k r -> moderate3 k o -> moderate3 k d -> r <> 0 -> d <> V3 0 0 0 ->
  forall lo hi rec rec', sphere_hit (F:=FL prec emax Hp Hm lm) fs fray lo hi rec = Ok (true, rec') ->
  let u := bpow radix2 (- prec) in
  exists t p n, fval (h_t rec') = Fin t /\ map3 fval (h_p rec') = fin3 p /\ map3 fval (h_normal rec') = fin3 n /\
    xleb (fval lo) (Fin t) && xleb (Fin t) (fval hi) = true /\
    forall S, within3 S o -> within3 S c -> Rabs r <= S ->
      Rabs (normsqR (subR (lineR o d t) c) - r * r) <= 2700 * u * (S * S) /\
      within3 (22 * u * S) (subR p (lineR o d t)) /\
      Rabs (normsqR (subR p c) - r * r) <= 2900 * u * (S * S) /\
      (let m := scaleR (/ r) (subR p c) in within3 (3 * u * (S / Rabs r)) (subR n m) \/ within3 (3 * u * (S / Rabs r)) (subR n (negR m))) /\
      Rabs (normsqR n - 1) <= 3000 * u * (S / Rabs r * (S / Rabs r)).
Proof. exact sphere_stated. Qed.
Print Assumptions C113_near.
(* A line that enters the sphere by a margin, with the window holding every parameter near the surface. *)
Theorem C113_found : forall (prec emax : Z) (Hp : Prec_gt_0 prec) (Hm : Prec_lt_emax prec emax) (lm : libm (binary_float prec emax)) (k : Z),
  (24 <= prec)%Z -> (0 <= k)%Z -> (4 * k + 6 * prec + 16 <= emax)%Z ->
  forall (fs : sphere (binary_float prec emax)) (fray : ray (binary_float prec emax)) (c o d : vec3 R) (r : R),
  map3 fval (s_center fs) = fin3 c -> fval (s_radius fs) = Fin r -> map3 fval (r_orig fray) = fin3 o -> map3 fval (r_dir fray) = fin3 d ->
  moderate3 k c -> moderate k r -> moderate3 k o -> moderate3 k d -> r <> 0 -> d <> V3 0 0 0 ->
  forall lo hi rec S, within3 S o -> within3 S c -> Rabs r <= S ->
  let u := bpow radix2 (- prec) in
  400 * u * (S * S) * normsqR d <= dotR (subR o c) d * dotR (subR o c) d - normsqR d * (normsqR (subR o c) - r * r) ->
  (forall t, Rabs (normsqR (subR (lineR o d t) c) - r * r) <= 2700 * u * (S * S) -> xleb (fval lo) (Fin t) && xleb (Fin t) (fval hi) = true) ->
  exists rec', sphere_hit (F:=FL prec emax Hp Hm lm) fs fray lo hi rec = Ok (true, rec').
Proof. exact found_stated. Qed.
Print Assumptions C113_found.
(* the unit sphere seen from three units away, in double *)
Example C113_case : (24 <= 53)%Z /\ (4 * 172 + 6 * 53 + 16 <= 1024)%Z /\
  (let c := V3 0 0 0 in let o := V3 0 0 (-3) in let d := V3 0 0 1 in let r := 1 in let S := 3 in let u := bpow radix2 (-53) in
   (map3 fval (s_center ball64) = fin3 c /\ fval (s_radius ball64) = Fin r /\ map3 fval (r_orig look64) = fin3 o /\ map3 fval (r_dir look64) = fin3 d) /\
   (moderate3 172 c /\ moderate 172 r /\ moderate3 172 o /\ moderate3 172 d /\ r <> 0 /\ d <> V3 0 0 0) /\
   (within3 S o /\ within3 S c /\ Rabs r <= S) /\
   400 * u * (S * S) * normsqR d <= dotR (subR o c) d * dotR (subR o c) d - normsqR d * (normsqR (subR o c) - r * r) /\
   forall t, Rabs (normsqR (subR (lineR o d t) c) - r * r) <= 2700 * u * (S * S) -> xleb (fval (d64 1 (-10))) (Fin t) && xleb (Fin t) (fval (B754_infinity false : binary64)) = true).
Proof. exact sphere_case. Qed.

(** ** C114 *)
(* Components of the direction may be zero, of either sign. *)
Theorem C114_not_culled : forall (prec emax : Z) (Hp : Prec_gt_0 prec) (Hm : Prec_lt_emax prec emax) (lm : libm (binary_float prec emax)) (k : Z),
  (8 <= prec)%Z -> (0 <= k)%Z -> (2 * k + 2 * prec + 8 <= emax)%Z ->
  forall (fb : aabb (binary_float prec emax)) (fr : ray (binary_float prec emax)) (b : aabb R) (r : ray R),
  map3 fval (b_min fb) = fin3 (b_min b) -> map3 fval (b_max fb) = fin3 (b_max b) -> map3 fval (r_orig fr) = fin3 (r_orig r) -> map3 fval (r_dir fr) = fin3 (r_dir r) ->
  moderate3 k (b_min b) -> moderate3 k (b_max b) -> moderate3 k (r_orig r) -> moderate3 k (r_dir r) ->
  forall lo hi t t', in_window (fval lo) (fval hi) t -> in_window (fval lo) (fval hi) t' -> in_box b (pointR r t) -> in_box b (pointR r t') ->
  let u := bpow radix2 (- prec) in
  t + 4 * u * Rabs t < t' - 4 * u * Rabs t' -> aabb_hit (F:=FL prec emax Hp Hm lm) fb fr lo hi = true.
Proof. exact not_culled_stated. Qed.
Print Assumptions C114_not_culled.
Theorem C114_accepted_near : forall (prec emax : Z) (Hp : Prec_gt_0 prec) (Hm : Prec_lt_emax prec emax) (lm : libm (binary_float prec emax)) (k : Z),
  (8 <= prec)%Z -> (0 <= k)%Z -> (2 * k + 2 * prec + 8 <= emax)%Z ->
  forall (fb : aabb (binary_float prec emax)) (fr : ray (binary_float prec emax)) (b : aabb R) (r : ray R),
  map3 fval (b_min fb) = fin3 (b_min b) -> map3 fval (b_max fb) = fin3 (b_max b) -> map3 fval (r_orig fr) = fin3 (r_orig r) -> map3 fval (r_dir fr) = fin3 (r_dir r) ->
  moderate3 k (b_min b) -> moderate3 k (b_max b) -> moderate3 k (r_orig r) -> moderate3 k (r_dir r) ->
  forall lo hi, fval lo <> NaN -> fval hi <> NaN -> aabb_hit (F:=FL prec emax Hp Hm lm) fb fr lo hi = true ->
  let u := bpow radix2 (- prec) in
  exists t, in_window (fval lo) (fval hi) t /\
    (vx (b_min b) - 4 * u * Rabs (vx (b_min b) - vx (r_orig r)) <= vx (pointR r t) <= vx (b_max b) + 4 * u * Rabs (vx (b_max b) - vx (r_orig r))) /\
    (vy (b_min b) - 4 * u * Rabs (vy (b_min b) - vy (r_orig r)) <= vy (pointR r t) <= vy (b_max b) + 4 * u * Rabs (vy (b_max b) - vy (r_orig r))) /\
    (vz (b_min b) - 4 * u * Rabs (vz (b_min b) - vz (r_orig r)) <= vz (pointR r t) <= vz (b_max b) + 4 * u * Rabs (vz (b_max b) - vz (r_orig r))).
Proof. exact accepted_stated. Qed.
Print Assumptions C114_accepted_near.
(* the unit cube, and a ray into it which is parallel to a pair of faces and descends along another *)
Example C114_case : (2 * 450 + 2 * 53 + 8 <= 1024)%Z /\
  (let b := Box (V3 0 0 0) (V3 1 1 1) in let r := Ray (V3 (-1) (/ 2) 1) (V3 2 0 (-1)) in let u := bpow radix2 (-53) in
   (map3 fval (b_min cube64) = fin3 (b_min b) /\ map3 fval (b_max cube64) = fin3 (b_max b) /\ map3 fval (r_orig slant64) = fin3 (r_orig r) /\ map3 fval (r_dir slant64) = fin3 (r_dir r)) /\
   (moderate3 450 (b_min b) /\ moderate3 450 (b_max b) /\ moderate3 450 (r_orig r) /\ moderate3 450 (r_dir r)) /\
   (in_window (fval (d64 1 (-10))) (fval (B754_infinity false : binary64)) (/ 2) /\ in_window (fval (d64 1 (-10))) (fval (B754_infinity false : binary64)) 1) /\
   in_box b (pointR r (/ 2)) /\ in_box b (pointR r 1) /\ / 2 + 4 * u * Rabs (/ 2) < 1 - 4 * u * Rabs 1).
Proof. exact cube_case. Qed.

(** ** C124 *)
(* n is the normal of the record, of squared length within dl of 1; all results are of vectors of length about 1. *)
Theorem C124_metal : forall (prec emax : Z) (Hp : Prec_gt_0 prec) (Hm : Prec_lt_emax prec emax) (lm : libm (binary_float prec emax)) (k : Z),
  (24 <= prec)%Z -> (64 <= emax)%Z -> (0 <= k)%Z -> (2 * k + 2 * prec + 8 <= emax)%Z ->
  let N := FL prec emax Hp Hm lm in let u := bpow radix2 (- prec) in
  forall tex (r : ray (binary_float prec emax)) (rec : hit_record (binary_float prec emax)) (d n : vec3 R), map3 fval (r_dir r) = fin3 d -> moderate3 k d -> d <> V3 0 0 0 ->
  map3 fval (h_normal rec) = fin3 n -> Rabs (normsqR n - 1) <= / 1000 ->
  exists ok out z, metal_scatter (F:=N) tex r rec = (ok, (tex rec, Ray (h_p rec) out)) /\ map3 fval out = fin3 z /\ near3 (34 * u) z (mirrorR n (unitR d)) /\
    (dotR (unitR d) n <= - (80 * u) -> ok = true) /\ (80 * u <= dotR (unitR d) n -> ok = false).
Proof. exact metal_directions. Qed.
Print Assumptions C124_metal.
(* Either the mirrored direction, or Snell's law: the part across the normal is the incoming one times the ratio of the indices,
   the rest points against the normal, and the length is 1.  The latter only if there is no total reflection. *)
Theorem C124_dielectric : forall (prec emax : Z) (Hp : Prec_gt_0 prec) (Hm : Prec_lt_emax prec emax) (lm : libm (binary_float prec emax)) (k : Z),
  (24 <= prec)%Z -> (64 <= emax)%Z -> (0 <= k)%Z -> (2 * k + 2 * prec + 8 <= emax)%Z ->
  let N := FL prec emax Hp Hm lm in let u := bpow radix2 (- prec) in
  forall (fir draw : binary_float prec emax) (r : ray (binary_float prec emax)) (rec : hit_record (binary_float prec emax)) (eta : R) (d n : vec3 R) (dl : R), fval fir = Fin eta -> 1 / 4 <= eta <= 4 ->
  map3 fval (r_dir r) = fin3 d -> moderate3 k d -> d <> V3 0 0 0 -> map3 fval (h_normal rec) = fin3 n -> Rabs (normsqR n - 1) <= dl -> dl <= / 1000 -> dotR d n <= 0 ->
  exists out z, dielectric_scatter (F:=N) fir draw r rec = (V3 (nofZ (NumOps:=N) 1) (nofZ (NumOps:=N) 1) (nofZ (NumOps:=N) 1), Ray (h_p rec) out) /\ map3 fval out = fin3 z /\
    (near3 (34 * u) z (mirrorR n (unitR d)) \/
     let y0 := unitR d in let t0 := scaleR (if h_front rec then / eta else eta) (subR y0 (scaleR (dotR y0 n) n)) in
     normsqR t0 <= 1 + 850 * u + 75 * dl /\ Rabs (normsqR z - 1) <= 1300 * u + 120 * dl /\ exists g, 0 <= g /\ near3 (110 * u + 5 * dl) z (subR t0 (scaleR g n))).
Proof. exact glass_directions. Qed.
Print Assumptions C124_dielectric.
(* Doubles: a ray falling on glass of index 3/2, refracted for a draw of 1/2 and mirrored for a draw of 0. *)
Example C124_case : forall lm, (24 <= 53)%Z /\ (64 <= 1024)%Z /\ (2 * 400 + 2 * 53 + 8 <= 1024)%Z /\ fval (d64 3 (-1)) = Fin (3 / 2) /\ 1 / 4 <= 3 / 2 <= 4 /\
  map3 fval (r_dir oblique64) = fin3 (V3 3 (-4) 0) /\ moderate3 400 (V3 3 (-4) 0) /\ V3 3 (-4) 0 <> V3 0 0 0 /\ map3 fval (h_normal facing64) = fin3 (V3 0 1 0) /\
  Rabs (normsqR (V3 0 1 0) - 1) <= 0 /\ dotR (V3 3 (-4) 0) (V3 0 1 0) <= 0 /\ dotR (unitR (V3 3 (-4) 0)) (V3 0 1 0) <= - (80 * bpow radix2 (-53)) /\
  let y draw := vy (r_dir (snd (dielectric_scatter (F:=F64 lm) (d64 3 (-1)) draw oblique64 facing64))) in
  Bltb (y (d64 1 (-1))) (d64 0 0) = true /\ Bltb (d64 0 0) (y (d64 0 0)) = true.
Proof. exact slant_case. Qed.

(** ** C125 *)
(* q is the outward unit vector at the recorded point p, inward for a negative radius.  S is a bound as in C113, e the error. *)
Theorem C125_metal : forall (prec emax : Z) (Hp : Prec_gt_0 prec) (Hm : Prec_lt_emax prec emax) (lm : libm (binary_float prec emax)) (k : Z),
  (24 <= prec)%Z -> (0 <= k)%Z -> (4 * k + 6 * prec + 16 <= emax)%Z ->
  forall (fs : sphere (binary_float prec emax)) (fray : ray (binary_float prec emax)) (c o d : vec3 R) (r : R),
  map3 fval (s_center fs) = fin3 c -> fval (s_radius fs) = Fin r -> map3 fval (r_orig fray) = fin3 o -> map3 fval (r_dir fray) = fin3 d ->
  moderate3 k c -> moderate k r -> moderate3 k o -> moderate3 k d -> r <> 0 -> d <> V3 0 0 0 ->
  forall S, within3 S o -> within3 S c -> Rabs r <= S ->
  let N := FL prec emax Hp Hm lm in let e := bpow radix2 (- prec) * (S / Rabs r * (S / Rabs r)) in e <= / 3000000 ->
  forall tex lo hi rec rec', sphere_hit (F:=N) fs fray lo hi rec = Ok (true, rec') ->
  exists p ok out z, map3 fval (h_p rec') = fin3 p /\ metal_scatter (F:=N) tex fray rec' = (ok, (tex rec', Ray (h_p rec') out)) /\ map3 fval out = fin3 z /\
    let q := unitR (scaleR (/ r) (subR p c)) in let y := unitR d in
    near3 (6000 * e) z (mirrorR q y) /\ (3100 * e <= Rabs (dotR y q) -> (h_front rec' = true <-> dotR y q < 0) /\ ok = true).
Proof. exact metal_ball. Qed.
Print Assumptions C125_metal.
(* Mirrored, or refracted: into the sphere with ratio 1/eta, out of it with ratio eta, and only if there is no total reflection. *)
Theorem C125_glass : forall (prec emax : Z) (Hp : Prec_gt_0 prec) (Hm : Prec_lt_emax prec emax) (lm : libm (binary_float prec emax)) (k : Z),
  (24 <= prec)%Z -> (0 <= k)%Z -> (4 * k + 6 * prec + 16 <= emax)%Z ->
  forall (fs : sphere (binary_float prec emax)) (fray : ray (binary_float prec emax)) (c o d : vec3 R) (r : R),
  map3 fval (s_center fs) = fin3 c -> fval (s_radius fs) = Fin r -> map3 fval (r_orig fray) = fin3 o -> map3 fval (r_dir fray) = fin3 d ->
  moderate3 k c -> moderate k r -> moderate3 k o -> moderate3 k d -> r <> 0 -> d <> V3 0 0 0 ->
  forall S, within3 S o -> within3 S c -> Rabs r <= S ->
  let N := FL prec emax Hp Hm lm in let e := bpow radix2 (- prec) * (S / Rabs r * (S / Rabs r)) in e <= / 3000000 ->
  forall (fir draw : binary_float prec emax) (eta : R), fval fir = Fin eta -> 1 / 4 <= eta <= 4 ->
  forall lo hi rec rec', sphere_hit (F:=N) fs fray lo hi rec = Ok (true, rec') ->
  exists p, map3 fval (h_p rec') = fin3 p /\ let q := unitR (scaleR (/ r) (subR p c)) in let y := unitR d in (3100 * e <= Rabs (dotR y q) ->
  exists out z, dielectric_scatter (F:=N) fir draw fray rec' = (V3 (nofZ (NumOps:=N) 1) (nofZ (NumOps:=N) 1) (nofZ (NumOps:=N) 1), Ray (h_p rec') out) /\ map3 fval out = fin3 z /\
    (near3 (6000 * e) z (mirrorR q y) \/
     exists ratio across, (dotR y q < 0 -> ratio = / eta /\ across = q) /\ (0 < dotR y q -> ratio = eta /\ across = negR q) /\
     let t := scaleR ratio (subR y (scaleR (dotR y q) q)) in
     normsqR t <= 1 + 290000 * e /\ Rabs (normsqR z - 1) <= 370000 * e /\ exists g, 0 <= g /\ near3 (27000 * e) z (subR t (scaleR g across)))).
Proof. exact glass_ball. Qed.
Print Assumptions C125_glass.
(* Doubles: a sphere of radius 5 and a ray that meets it at (3, 0, -4). *)
Example C125_case : forall lm, (24 <= 53)%Z /\ (4 * 172 + 6 * 53 + 16 <= 1024)%Z /\
  let c := V3 0 0 0 in let o := V3 3 0 (-20) in let d := V3 0 0 1 in let r := 5 in let S := 20 in let e := bpow radix2 (-53) * (S / Rabs r * (S / Rabs r)) in
  (map3 fval (s_center globe64) = fin3 c /\ fval (s_radius globe64) = Fin r /\ map3 fval (r_orig aside64) = fin3 o /\ map3 fval (r_dir aside64) = fin3 d) /\
  (moderate3 172 c /\ moderate 172 r /\ moderate3 172 o /\ moderate3 172 d /\ r <> 0 /\ d <> V3 0 0 0) /\ (within3 S o /\ within3 S c /\ Rabs r <= S) /\ e <= / 3000000 /\
  (fval (d64 3 (-1)) = Fin (3 / 2) /\ 1 / 4 <= 3 / 2 <= 4) /\
  exists rec' p, sphere_hit (F:=F64 lm) globe64 aside64 (d64 1000 (-52)) (B754_infinity false) blank64 = Ok (true, rec') /\ map3 fval (h_p rec') = fin3 p /\
    3100 * e <= Rabs (dotR (unitR d) (unitR (scaleR (/ r) (subR p c)))).
Proof. exact globe_case. Qed.

(** ** C126 *)
(* o, l, h and v are the fields of the camera, with coordinates of at most B; g and g' are any states of the generator. *)
Theorem C126_rays : forall (prec emax : Z) (Hp : Prec_gt_0 prec) (Hm : Prec_lt_emax prec emax) (lm : libm (binary_float prec emax)),
  (24 <= prec)%Z -> (64 <= emax)%Z -> forall k : Z, (0 <= k)%Z -> (4 * k + 6 * prec + 16 <= emax)%Z ->
  let N := FL prec emax Hp Hm lm in let u := bpow radix2 (- prec) in forall B : R, bpow radix2 (- k) <= B <= bpow radix2 k ->
  forall (cam : camera (F:=N)) (o l h v : vec3 R), map3 fval (cam_origin cam) = fin3 o -> map3 fval (cam_lower_left cam) = fin3 l -> map3 fval (cam_horizontal cam) = fin3 h -> map3 fval (cam_vertical cam) = fin3 v ->
  within3 B o -> within3 B l -> within3 B h -> within3 B v ->
  forall (width height i j : Z) g g', (2 <= width <= 2 ^ 24)%Z -> (2 <= height <= 2 ^ 24)%Z -> (0 <= i < width)%Z -> (0 <= j < height)%Z ->
  let r := fst (pcg_real_01 (F:=N) g) in let r' := fst (pcg_real_01 (F:=N) g') in
  exists x y out z, fval r = Fin x /\ 0 <= x <= 1 /\ fval r' = Fin y /\ 0 <= y <= 1 /\
    get_ray (F:=N) cam (pixel_u (F:=N) width i r) (pixel_v (F:=N) height j r') = Ray (cam_origin cam) out /\ map3 fval out = fin3 z /\
    near3 (28 * u * B) z (subR (addR (addR l (scaleR ((IZR i + x) / IZR (width - 1)) h)) (scaleR ((IZR j + y) / IZR (height - 1)) v)) o).
Proof. exact camera_rays. Qed.
Print Assumptions C126_rays.
(* A sample of a pixel further right never lies to the left, and each sample is in its pixel up to 5u. *)
Theorem C126_columns : forall (prec emax : Z) (Hp : Prec_gt_0 prec) (Hm : Prec_lt_emax prec emax) (lm : libm (binary_float prec emax)),
  (24 <= prec)%Z -> (64 <= emax)%Z -> let N := FL prec emax Hp Hm lm in let u := bpow radix2 (- prec) in
  forall (width i i' : Z) g g', (2 <= width <= 2 ^ 24)%Z -> (0 <= i < i')%Z -> (i' < width)%Z ->
  exists s s', fval (pixel_u (F:=N) width i (fst (pcg_real_01 (F:=N) g))) = Fin s /\ fval (pixel_u (F:=N) width i' (fst (pcg_real_01 (F:=N) g'))) = Fin s' /\ 0 <= s <= s' /\
    IZR i / IZR (width - 1) - 5 * u <= s <= IZR (i + 1) / IZR (width - 1) + 5 * u.
Proof. exact columns. Qed.
Print Assumptions C126_columns.
Example C126_case : forall lm, (24 <= 53)%Z /\ (64 <= 1024)%Z /\ (4 * 172 + 6 * 53 + 16 <= 1024)%Z /\ bpow radix2 (-172) <= 4 <= bpow radix2 172 /\
  (map3 fval (cam_origin (F:=F64 lm) (cam64 lm)) = fin3 (V3 0 0 3) /\ map3 fval (cam_lower_left (F:=F64 lm) (cam64 lm)) = fin3 (V3 (-2) (-1) 2) /\
   map3 fval (cam_horizontal (F:=F64 lm) (cam64 lm)) = fin3 (V3 4 0 0) /\ map3 fval (cam_vertical (F:=F64 lm) (cam64 lm)) = fin3 (V3 0 2 0)) /\
  within3 4 (V3 0 0 3) /\ within3 4 (V3 (-2) (-1) 2) /\ within3 4 (V3 4 0 0) /\ within3 4 (V3 0 2 0) /\ (2 <= 1200 <= 2 ^ 24)%Z /\ (2 <= 750 <= 2 ^ 24)%Z.
Proof. exact cam_case. Qed.

(** ** C127 *)
(* o, p and q are the arguments lookfrom, lookat and view_up, A is the aspect ratio and H the tangent that the library computes. The exact axes of the view are w0, a0 and v0. *)
Theorem C127_built : forall (prec emax : Z) (Hp : Prec_gt_0 prec) (Hm : Prec_lt_emax prec emax) (lm : libm (binary_float prec emax)),
  (24 <= prec)%Z -> (64 <= emax)%Z -> forall k : Z, (0 <= k)%Z -> (4 * k + 6 * prec + 16 <= emax)%Z ->
  let N := FL prec emax Hp Hm lm in let u := bpow radix2 (- prec) in forall B : R, 64 <= B -> 2 * B <= bpow radix2 k ->
  forall (fo fp fq : vec3 (binary_float prec emax)) (ff fr : binary_float prec emax) (o p q : vec3 R) (H A : R), map3 fval fo = fin3 o -> map3 fval fp = fin3 p -> map3 fval fq = fin3 q ->
  moderate3 k o -> moderate3 k p -> subR o p <> V3 0 0 0 -> normsqR q <= 4 ->
  let w0 := unitR (subR o p) in 1 / 10 <= normR (crossR q w0) -> let a0 := unitR (crossR q w0) in let v0 := crossR w0 a0 in
  fval (ntan (NumOps:=N) (ndiv (NumOps:=N) (ndiv (NumOps:=N) (nmul (NumOps:=N) ff (npi (NumOps:=N))) (nofZ (NumOps:=N) 180)) (nofZ (NumOps:=N) 2))) = Fin H -> 0 <= H <= 4 -> fval fr = Fin A -> 0 <= A <= 4 -> within3 B o ->
  let cam := make_camera (F:=N) fo fp fq ff fr in
  exists l h v, map3 fval (cam_lower_left cam) = fin3 l /\ map3 fval (cam_horizontal cam) = fin3 h /\ map3 fval (cam_vertical cam) = fin3 v /\
    near3 (60900 * u) h (scaleR (A * (2 * H)) a0) /\ near3 (31250 * u) v (scaleR (2 * H) v0) /\
    near3 (41 / 10 * (u * B) + 46200 * u) l (subR (subR (subR o (scaleR (/ 2) (scaleR (A * (2 * H)) a0))) (scaleR (/ 2) (scaleR (2 * H) v0))) w0) /\
    within3 32 (scaleR (A * (2 * H)) a0) /\ within3 8 (scaleR (2 * H) v0) /\ within3 1 w0.
Proof. exact built_view. Qed.
Print Assumptions C127_built.
(* The rays of the picture, from the arguments of the constructor. *)
Theorem C127_rays : forall (prec emax : Z) (Hp : Prec_gt_0 prec) (Hm : Prec_lt_emax prec emax) (lm : libm (binary_float prec emax)),
  (24 <= prec)%Z -> (64 <= emax)%Z -> forall k : Z, (0 <= k)%Z -> (4 * k + 6 * prec + 16 <= emax)%Z ->
  let N := FL prec emax Hp Hm lm in let u := bpow radix2 (- prec) in forall B : R, 64 <= B -> 2 * B <= bpow radix2 k ->
  forall (fo fp fq : vec3 (binary_float prec emax)) (ff fr : binary_float prec emax) (o p q : vec3 R) (H A : R), map3 fval fo = fin3 o -> map3 fval fp = fin3 p -> map3 fval fq = fin3 q ->
  moderate3 k o -> moderate3 k p -> subR o p <> V3 0 0 0 -> normsqR q <= 4 ->
  let w0 := unitR (subR o p) in 1 / 10 <= normR (crossR q w0) -> let a0 := unitR (crossR q w0) in let v0 := crossR w0 a0 in
  fval (ntan (NumOps:=N) (ndiv (NumOps:=N) (ndiv (NumOps:=N) (nmul (NumOps:=N) ff (npi (NumOps:=N))) (nofZ (NumOps:=N) 180)) (nofZ (NumOps:=N) 2))) = Fin H -> 0 <= H <= 4 -> fval fr = Fin A -> 0 <= A <= 4 -> within3 B o ->
  forall (width height i j : Z) g g', (2 <= width <= 2 ^ 24)%Z -> (2 <= height <= 2 ^ 24)%Z -> (0 <= i < width)%Z -> (0 <= j < height)%Z ->
  let r := fst (pcg_real_01 (F:=N) g) in let r' := fst (pcg_real_01 (F:=N) g') in
  exists x y out z, fval r = Fin x /\ 0 <= x <= 1 /\ fval r' = Fin y /\ 0 <= y <= 1 /\
    get_ray (F:=N) (make_camera (F:=N) fo fp fq ff fr) (pixel_u (F:=N) width i r) (pixel_v (F:=N) height j r') = Ray fo out /\ map3 fval out = fin3 z /\
    near3 (3700 * u * B) z (subR (addR (scaleR (2 * H * A * ((IZR i + x) / IZR (width - 1) - 1 / 2)) a0) (scaleR (2 * H * ((IZR j + y) / IZR (height - 1) - 1 / 2)) v0)) w0).
Proof. exact view_rays. Qed.
Print Assumptions C127_rays.
Example C127_case : (24 <= 53)%Z /\ (64 <= 1024)%Z /\ (4 * 172 + 6 * 53 + 16 <= 1024)%Z /\ 64 <= 64 /\ 2 * 64 <= bpow radix2 172 /\
  map3 fval (V3 (d64 3 0) (d64 4 0) (d64 0 0)) = fin3 (V3 3 4 0) /\ map3 fval (V3 (d64 0 0) (d64 0 0) (d64 0 0)) = fin3 (V3 0 0 0) /\ map3 fval (V3 (d64 0 0) (d64 0 0) (d64 1 0)) = fin3 (V3 0 0 1) /\
  moderate3 172 (V3 3 4 0) /\ moderate3 172 (V3 0 0 0) /\ subR (V3 3 4 0) (V3 0 0 0) <> V3 0 0 0 /\ normsqR (V3 0 0 1) <= 4 /\
  unitR (subR (V3 3 4 0) (V3 0 0 0)) = V3 (3 / 5) (4 / 5) 0 /\ 1 / 10 <= normR (crossR (V3 0 0 1) (unitR (subR (V3 3 4 0) (V3 0 0 0)))) /\
  fval (ntan (NumOps:=F64 flat_libm) (ndiv (NumOps:=F64 flat_libm) (ndiv (NumOps:=F64 flat_libm) (nmul (NumOps:=F64 flat_libm) (d64 90 0) (npi (NumOps:=F64 flat_libm))) (nofZ (NumOps:=F64 flat_libm) 180)) (nofZ (NumOps:=F64 flat_libm) 2))) = Fin 1 /\
  fval (d64 3 (-1)) = Fin (3 / 2) /\ within3 64 (V3 3 4 0).
Proof. exact view_case. Qed.

(** ** C128 *)
(* S is any bound, in semi-axes and at least 1, on the coordinates of the ray's origin and of the centre. *)
Theorem C128_near : forall (prec emax : Z) (Hp : Prec_gt_0 prec) (Hm : Prec_lt_emax prec emax) (lm : libm (binary_float prec emax)) (k : Z),
  (24 <= prec)%Z -> (0 <= k)%Z -> (12 * k + 10 * prec + 36 <= emax)%Z ->
  forall (e : ellipsoid (binary_float prec emax)) (fray : ray (binary_float prec emax)) (c s o d : vec3 R),
  map3 fval (el_center e) = fin3 c -> map3 fval (el_scales e) = fin3 s -> map3 fval (r_orig fray) = fin3 o -> map3 fval (r_dir fray) = fin3 d ->
  moderate3 k c -> moderate3 k s -> moderate3 k o -> moderate3 k d -> vx s <> 0 -> vy s <> 0 -> vz s <> 0 -> d <> V3 0 0 0 ->
  let u := bpow radix2 (- prec) in
  forall lo hi rec rec', ellipsoid_hit (F:=FL prec emax Hp Hm lm) e fray lo hi rec = Ok (true, rec') ->
  exists t p, fval (h_t rec') = Fin t /\ map3 fval (h_p rec') = fin3 p /\ xleb (fval lo) (Fin t) && xleb (Fin t) (fval hi) = true /\
    forall S, 1 <= S -> within_axes S s o -> within_axes S s c ->
      Rabs (normsqR (divR3 (subR (lineR o d t) c) s) - 1) <= 11200 * u * (S * S) /\
      within_axes (47 * u * S) s (subR p (lineR o d t)) /\
      Rabs (normsqR (divR3 (subR p c) s) - 1) <= 11500 * u * (S * S).
Proof. exact egg_stated. Qed.
Print Assumptions C128_near.
(* The bounding box of the ellipsoid contains the stored hits up to 5760 u S^2 semi-axes. *)
Theorem C128_box : forall (prec emax : Z) (Hp : Prec_gt_0 prec) (Hm : Prec_lt_emax prec emax) (lm : libm (binary_float prec emax)) (k : Z),
  (24 <= prec)%Z -> (0 <= k)%Z -> (12 * k + 10 * prec + 36 <= emax)%Z ->
  forall (e : ellipsoid (binary_float prec emax)) (fray : ray (binary_float prec emax)) (c s o d : vec3 R),
  map3 fval (el_center e) = fin3 c -> map3 fval (el_scales e) = fin3 s -> map3 fval (r_orig fray) = fin3 o -> map3 fval (r_dir fray) = fin3 d ->
  moderate3 k c -> moderate3 k s -> moderate3 k o -> moderate3 k d -> 0 < vx s -> 0 < vy s -> 0 < vz s -> d <> V3 0 0 0 ->
  let u := bpow radix2 (- prec) in
  exists B l h, ellipsoid_box (F:=FL prec emax Hp Hm lm) e = Some B /\ map3 fval (b_min B) = fin3 l /\ map3 fval (b_max B) = fin3 h /\
  (forall S, 1 <= S -> within_axes S s c -> within_axes (3 * u * S) s (subR l (subR c s)) /\ within_axes (3 * u * S) s (subR h (addR c s))) /\
  forall lo hi rec rec', ellipsoid_hit (F:=FL prec emax Hp Hm lm) e fray lo hi rec = Ok (true, rec') ->
  exists p, map3 fval (h_p rec') = fin3 p /\
    forall S, 1 <= S -> within_axes S s o -> within_axes S s c -> let x := 5760 * u * (S * S) in
      vx l - x * vx s <= vx p <= vx h + x * vx s /\ vy l - x * vy s <= vy p <= vy h + x * vy s /\ vz l - x * vz s <= vz p <= vz h + x * vz s.
Proof. exact egg_boxed. Qed.
Print Assumptions C128_box.
Example C128_case : (24 <= 53)%Z /\ (12 * 38 + 10 * 53 + 36 <= 1024)%Z /\
  map3 fval (el_center egg64) = fin3 (V3 1 0 0) /\ map3 fval (el_scales egg64) = fin3 (V3 2 1 1) /\ map3 fval (r_orig at_egg64) = fin3 (V3 5 0 0) /\ map3 fval (r_dir at_egg64) = fin3 (V3 (-1) 0 0) /\
  moderate3 38 (V3 1 0 0) /\ moderate3 38 (V3 2 1 1) /\ moderate3 38 (V3 5 0 0) /\ moderate3 38 (V3 (-1) 0 0) /\ V3 (-1) 0 0 <> V3 0 0 0 /\
  within_axes 3 (V3 2 1 1) (V3 5 0 0) /\ within_axes 3 (V3 2 1 1) (V3 1 0 0) /\
  forall lm rec, exists rec', ellipsoid_hit (F:=F64 lm) egg64 at_egg64 (d64 0 0) (d64 100 0) rec = Ok (true, rec').
Proof. exact egg_case. Qed.

(** ** C129 *)
(* The stored normal against the unit gradient of the sum of squares at the stored point. *)
Theorem C129_normal : forall (prec emax : Z) (Hp : Prec_gt_0 prec) (Hm : Prec_lt_emax prec emax) (lm : libm (binary_float prec emax)) (k : Z),
  (24 <= prec)%Z -> (0 <= k)%Z -> (12 * k + 10 * prec + 36 <= emax)%Z ->
  forall (e : ellipsoid (binary_float prec emax)) (fray : ray (binary_float prec emax)) (c s o d : vec3 R),
  map3 fval (el_center e) = fin3 c -> map3 fval (el_scales e) = fin3 s -> map3 fval (r_orig fray) = fin3 o -> map3 fval (r_dir fray) = fin3 d ->
  moderate3 k c -> moderate3 k s -> moderate3 k o -> moderate3 k d -> vx s <> 0 -> vy s <> 0 -> vz s <> 0 -> d <> V3 0 0 0 ->
  let u := bpow radix2 (- prec) in
  forall S, 1 <= S -> within_axes S s o -> within_axes S s c -> 11500 * u * (S * S) <= 1 / 4 ->
  forall lo hi rec rec', ellipsoid_hit (F:=FL prec emax Hp Hm lm) e fray lo hi rec = Ok (true, rec') ->
  exists p n, map3 fval (h_p rec') = fin3 p /\ map3 fval (h_normal rec') = fin3 n /\
    near3 (27 * u) (if h_front rec' then n else negR n) (unitR (scaleR 2 (divR3 (divR3 (subR p c) s) s))).
Proof. exact egg_normal_stated. Qed.
Print Assumptions C129_normal.
(* The ray of C128_case, with S = 3. *)
Example C129_case : 11500 * bpow radix2 (- (53)) * (3 * 3) <= 1 / 4 /\ within_axes 3 (V3 2 1 1) (V3 5 0 0) /\ within_axes 3 (V3 2 1 1) (V3 1 0 0) /\
  forall lm rec, exists rec', ellipsoid_hit (F:=F64 lm) egg64 at_egg64 (d64 0 0) (d64 100 0) rec = Ok (true, rec').
Proof. exact (conj egg_small (proj2 (proj2 (proj2 (proj2 (proj2 (proj2 (proj2 (proj2 (proj2 (proj2 (proj2 egg_case)))))))))))). Qed.
