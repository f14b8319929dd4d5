(** Model of include/drt/pcg.hpp and include/drt/bounds.hpp. *)
From Coq Require Import ZArith List Bool.
From Verif Require Import Num.
Import ListNotations.

(* pcg.hpp:9 pcg32_random_t; both fields are 64-bit unsigned, i.e. in [0,2^64) *)
Record pcg : Type := PCG { pc_state : Z; pc_inc : Z }.

Section Generator.
Local Open Scope Z_scope.

(* pcg.hpp:15 the multiplier *)
Definition pcg_mult : Z := 6364136223846793005.

(* pcg.hpp:13-15 state update, unsigned 64-bit arithmetic *)
Definition pcg_next (g : pcg) : pcg :=
  PCG ((pc_state g * pcg_mult + Z.lor (pc_inc g) 1) mod 2 ^ 64) (pc_inc g).

(* pcg.hpp:17-19 output function of the old state: xorshift, then a 32-bit rotation *)
Definition pcg_output (old : Z) : Z :=
  let xorshifted := Z.shiftr (Z.lxor (Z.shiftr old 18) old) 27 mod 2 ^ 32 in
  let rot := Z.shiftr old 59 mod 2 ^ 32 in
  Z.lor (Z.shiftr xorshifted rot) (Z.shiftl xorshifted (Z.land (- rot) 31) mod 2 ^ 32).

(* pcg.hpp:11-20 pcg32_random_r *)
Definition pcg32_random_r (g : pcg) : Z * pcg := (pcg_output (pc_state g), pcg_next g).

(* bounds.hpp:48-52 and lambertian.hpp:16-19: the fixed seed *)
Definition pcg_seed : pcg := PCG 1235123 234121.

End Generator.

Section Rng.
Context {F : NumOps}.
Local Open Scope num_scope.

(* pcg.hpp:25-28 pcg_real_01: ldexp of the 32-bit output by -32, converted to Real.
   ldexp is computed in double, where it is exact; the conversion to Real rounds to
   nearest, which is what rounding the integer and dividing by 2^32 does. *)
Definition pcg_real_01 (g : pcg) : num * pcg :=
  let '(r, g') := pcg32_random_r g in (nofZ r / nofZ (2 ^ 32), g').

(** A box: the pairs of bounds_ and the mutable generator pcg_ (bounds.hpp:138-140).
    The dimension is the length of [b_ends]. *)
Record bounds : Type := Bounds { b_ends : list (num * num); b_rng : pcg }.

(* bounds.hpp:13-52 the constructors for 1, 2 and 3 dimensions; the diagnostic
   output (2D) and the assertions (1D, 3D) on the order of the ends are not modelled *)
Definition make_bounds (ends : list (num * num)) : bounds := Bounds ends pcg_seed.

(* bounds.hpp:54-62 contains(vec) *)
Fixpoint contains_vec (ends : list (num * num)) (v : list num) : bool :=
  match ends, v with
  | (lo, hi) :: ends', x :: v' =>
      if (x <? lo) || (x >? hi) then false else contains_vec ends' v'
  | _, _ => true
  end.

(* bounds.hpp:64-74 contains(x,y) *)
Definition contains_xy (b0 b1 : num * num) (x y : num) : bool :=
  if (x <? fst b0) || (x >? snd b0) then false
  else if (y <? fst b1) || (x >? snd b1) then false
  else true.

(* bounds.hpp:76-89 contains(x,y,z) *)
Definition contains_xyz (b0 b1 b2 : num * num) (x y z : num) : bool :=
  if (x <? fst b0) || (x >? snd b0) then false
  else if (y <? fst b1) || (x >? snd b1) then false
  else if (z <? fst b2) || (z >? snd b2) then false
  else true.

(* bounds.hpp:99-105 center *)
Definition bounds_center (ends : list (num * num)) : list num :=
  map (fun b => (fst b + snd b) / #2) ends.

(* bounds.hpp:107-113 volume *)
Definition bounds_volume (ends : list (num * num)) : num :=
  fold_left (fun v b => v * (snd b - fst b)) ends (#1).

(* bounds.hpp:115-117 empty *)
Definition bounds_empty (ends : list (num * num)) : bool := bounds_volume ends <=? #0.

(* bounds.hpp:119-125 random: one draw per coordinate, in order *)
Fixpoint random_point (ends : list (num * num)) (g : pcg) : list num * pcg :=
  match ends with
  | [] => ([], g)
  | (lo, hi) :: ends' =>
      let '(u, g1) := pcg_real_01 g in
      let x := u * (hi - lo) + lo in
      let '(v, g2) := random_point ends' g1 in
      (x :: v, g2)
  end.

Definition bounds_random (b : bounds) : list num * bounds :=
  let '(v, g) := random_point (b_ends b) (b_rng b) in (v, Bounds (b_ends b) g).

End Rng.
