(** Model of the iterative solvers: roots.hpp (bisect), newton.hpp, halley.hpp and
    ko_method.hpp.

    The only loop without an iteration limit, the scan of bisect, takes fuel and
    answers [OutOfFuel] when it runs out.  Debug output is not modelled.  The
    n-dimensional solvers carry the list of points at which they have called f
    (latest first), since those calls are observable. *)
From Coq Require Import ZArith List Bool.
From Verif Require Import Num M_Vec M_Matrix M_Roots M_Rng.
Import ListNotations.

Section Iter.
Context {F : NumOps}.
Local Open Scope num_scope.
Local Notation "x <- e ;; f" := (obind e (fun x => f)) (at level 61, e at next level, right associativity).

(** ** bisect *)

(* roots.hpp:279-283 the scan for a sign change *)
Fixpoint bisect_scan (fuel : nat) (f : num -> num) (dt tmax f_min f_max tmin : num)
  : outcome (num * num) :=
  match fuel with
  | O => OutOfFuel
  | S fuel' =>
      if (f_min * f_max >? #0) && (tmin <? tmax) then
        let f_min := f_max in
        let tmin := tmin + dt in
        let f_max := f (tmin + dt) in
        bisect_scan fuel' f dt tmax f_min f_max tmin
      else Ok (f_min, tmin)
  end.

(* roots.hpp:291-314 the bisection loop, [count] further passes *)
Fixpoint bisect_loop (count : nat) (f : num -> num) (f_min tmin tmax : num) : num * num :=
  match count with
  | O => (tmin, tmax)
  | S count' =>
      let mid := (tmin + tmax) / #2 in
      let fmid := f mid in
      if (mid =? tmax) || (mid =? tmin) then (tmin, tmax)
      else if fmid =? #0 then (mid, mid)
      else if f_min * f_min <? #0 then bisect_loop count' f f_min tmin mid
      else bisect_loop count' f fmid mid tmax
  end.

(* roots.hpp:274-277 the scan step; [abs] is the floating-point one *)
Definition bisect_dt (tmin tmax : num) : num :=
  let dt := std_min ((tmax - tmin) / #8) (#1) in
  if dt <? #10 * neps * nabs tmin then #10 * neps * nabs tmin else dt.

(* roots.hpp:262-316 bisect; the message about swapped arguments is not modelled *)
Definition bisect (fuel : nat) (f : num -> num) (tmin tmax : num) : outcome (num * num) :=
  let f_min := f tmin in
  if f_min =? #0 then Ok (tmin, tmin)
  else
    let dt := bisect_dt tmin tmax in
    let f_max := f (tmin + dt) in
    p <- bisect_scan fuel f dt tmax f_min f_max tmin ;;
    let '(f_min, tmin) := p in
    if tmin >=? tmax then Ok (nnan, nnan)
    else Ok (bisect_loop 40 f f_min tmin (tmin + dt)).

(** ** Scalar newton *)

(* newton.hpp:19-25 bisect_backup *)
Definition newton_backup (fuel : nat) (f : num -> num * num) (tmin tmax : num) : outcome num :=
  p <- bisect fuel (fun x => fst (f x)) tmin tmax ;;
  Ok ((fst p + snd p) / #2).

(** Result of a loop body: leave the function, or go on with a new state. *)
Inductive step (A B : Type) : Type := Return (a : A) | Go (b : B).
Arguments Return {A B} a.
Arguments Go {A B} b.

(* newton.hpp:41-57 one pass of the loop body up to the new t *)
Definition newton_body (fuel : nat) (f : num -> num * num) (tmin tmax t y dydt : num)
  : outcome (step num num) :=
  if y =? #0 then Ok (Return t)
  else if dydt =? #0 then t <- newton_backup fuel f tmin tmax ;; Ok (Go t)
  else
    let t := t - y / dydt in
    if (t <? tmin) || (t >? tmax) then t <- newton_backup fuel f tmin tmax ;; Ok (Go t)
    else Ok (Go t).

(* newton.hpp:40-68 the do-while loop and the final check; [n] is the number of times
   `iterations++ < 32` can still be true, [k] counts the calls of f outside bisect *)
Fixpoint newton_loop (fuel : nat) (f : num -> num * num) (tmin tmax : num) (n : nat)
  (t y dydt : num) (k : nat) : outcome (num * nat) :=
  s <- newton_body fuel f tmin tmax t y dydt ;;
  match s with
  | Return t => Ok (t, k)
  | Go t =>
      let '(y, dydt) := f t in
      let finish :=
        let '(y, dydt) := f t in
        if nabs y >? neps * nabs (t * dydt) then
          t <- newton_backup fuel f tmin tmax ;; Ok (t, S (S k))
        else Ok (t, S (S k)) in
      if nabs y >? neps * nabs (t * dydt) then
        match n with
        | O => finish
        | S n' => newton_loop fuel f tmin tmax n' t y dydt (S k)
        end
      else finish
  end.

(* newton.hpp:28-68 newton: the result and the number of calls of f outside bisect *)
Definition newton (fuel : nat) (f : num -> num * num) (tmin tmax : num) : outcome (num * nat) :=
  let '(y, dydt) := f tmin in newton_loop fuel f tmin tmax 32 tmin y dydt 1.

(** ** Scalar halley *)

(* halley.hpp:19-26 bisect_backup *)
Definition halley_backup (fuel : nat) (f : num -> num * num * num) (tmin tmax : num) : outcome num :=
  p <- bisect fuel (fun x => fst (fst (f x))) tmin tmax ;;
  Ok ((fst p + snd p) / #2).

(* halley.hpp:44-70 one pass of the loop body up to the new t *)
Definition halley_body (fuel : nat) (f : num -> num * num * num) (tmin tmax t y dydt d2ydt2 : num)
  : outcome (step num num) :=
  if y =? #0 then Ok (Return t)
  else if dydt =? #0 then
    t <- (if d2ydt2 =? #0 then halley_backup fuel f tmin tmax else Ok t) ;;
    let hsq := #(-2) * y / d2ydt2 in
    t <- (if hsq <? #0 then halley_backup fuel f tmin tmax else Ok t) ;;
    let h := nsqrt hsq in
    let t := t - h in
    Ok (Go (if (t >? tmax) || (t <? tmin) then t + #2 * h else t))
  else
    let h := #(-2) * y * dydt / (#2 * dydt * dydt - y * d2ydt2) in
    let t := t + h in
    if (t <? tmin) || (t >? tmax) then t <- halley_backup fuel f tmin tmax ;; Ok (Go t)
    else Ok (Go t).

(* halley.hpp:43-81 the do-while loop and the final check *)
Fixpoint halley_loop (fuel : nat) (f : num -> num * num * num) (tmin tmax : num) (n : nat)
  (t y dydt d2ydt2 : num) (k : nat) : outcome (num * nat) :=
  s <- halley_body fuel f tmin tmax t y dydt d2ydt2 ;;
  match s with
  | Return t => Ok (t, k)
  | Go t =>
      let '(y, dydt, d2ydt2) := f t in
      let finish :=
        let '(y, dydt, d2ydt2) := f t in
        if nabs y >? neps * nabs (t * dydt) then
          t <- halley_backup fuel f tmin tmax ;; Ok (t, S (S k))
        else Ok (t, S (S k)) in
      if nabs y >? neps * nabs (t * dydt) then
        match n with
        | O => finish
        | S n' => halley_loop fuel f tmin tmax n' t y dydt d2ydt2 (S k)
        end
      else finish
  end.

(* halley.hpp:31-82 halley: the result and the number of calls of f outside bisect *)
Definition halley (fuel : nat) (f : num -> num * num * num) (tmin tmax : num) : outcome (num * nat) :=
  let '(y, dydt, d2ydt2) := f tmin in halley_loop fuel f tmin tmax 32 tmin y dydt d2ydt2 1.

(** ** Vectors of any dimension, as lists *)

(* vec.hpp:152-158 *)
Definition ladd (u v : list num) : list num := map (fun p => fst p + snd p) (combine u v).
(* vec.hpp:66-72 *)
Definition lneg (v : list num) : list num := map nneg v.
(* vec.hpp:82-87 operator*= *)
Definition lmulby (v : list num) (t : num) : list num := map (fun x => x * t) v.
(* vec.hpp:180-191 operator* *)
Definition lscale (t : num) (v : list num) : list num := map (fun x => t * x) v.
(* vec.hpp:107-113 *)
Definition lsqnorm (v : list num) : num := fold_left (fun s x => s + x * x) v (#0).
(* vec.hpp:143-149 *)
Definition ldot (u v : list num) : num := fold_left (fun s p => s + fst p * snd p) (combine u v) (#0).
(* vec.hpp:122-132 *)
Definition lmaxnorm (v : list num) : num :=
  match v with
  | [] => #0
  | x :: v' => fold_left (fun m x => if nabs x >? m then nabs x else m) v' (nabs x)
  end.
(* vec.hpp:20-25 *)
Definition lnans (n : nat) : list num := repeat nnan n.
(* matrix.hpp:125-134, the matrix as the list of its rows *)
Definition lmulmv (J : list (list num)) (v : list num) : list num := map (fun row => ldot row v) J.
(* matrix.hpp:151-279 solve; only 2x2 and 3x3 are implemented, any other size returns
   uninitialised storage (matrix.hpp:276-279) *)
Definition lsolve (J : list (list num)) (b : list num) : outcome (list num) :=
  match J, b with
  | [[p; q]; [r; s]], [x; y] =>
      let v := solve2 (M2 p q r s) (V2 x y) in Ok [wx v; wy v]
  | [[p0; p1; p2]; [q0; q1; q2]; [r0; r1; r2]], [x; y; z] =>
      v <- solve3 (M3 p0 p1 p2 q0 q1 q2 r0 r1 r2) (V3 x y z) ;;
      Ok [vx v; vy v; vz v]
  | _, _ => Undef
  end.
(* tensor.hpp:25-36 contraction, the tensor as nested lists T(i,j,k) *)
Definition lcontract (H : list (list (list num))) (x y : list num) : list num :=
  map (fun panel =>
         fold_left (fun s p => fold_left (fun s q => s + fst q * snd p * snd q) (combine (fst p) y) s)
           (combine panel x) (#0)) H.

(* newton.hpp:165-176, halley.hpp:142-153: eps * max_i sum_j |J(i,j) guess[j]| *)
Definition row_residual (row guess : list num) : num :=
  fold_left (fun s p => s + nabs (fst p * snd p)) (combine row guess) (#0) * neps.
Definition expected_residual (J : list (list num)) (guess : list num) : num :=
  fold_left (fun e row => let r := row_residual row guess in if r >? e then r else e) J (#0).

(** ** n-dimensional newton *)

Definition system : Type := list num -> list num * list (list num).

(** The local variables of newton.hpp:83-87 at the loop condition, the generator of
    the (const, but mutable) bounds, and the calls of f so far. *)
Record nstate : Type := NS {
  ns_guess : list num; ns_v : list num; ns_J : list (list num); ns_g : num;
  ns_expected : num; ns_left : nat; ns_rng : pcg; ns_calls : list (list num) }.

(* newton.hpp:98-106 the largest step staying in the box *)
Fixpoint lambda_max (ends : list (num * num)) (newguess guess dw : list num) (l : num) : num :=
  match ends, newguess, guess, dw with
  | (lo, hi) :: ends', n :: newguess', x :: guess', d :: dw' =>
      let l := if n <? lo then std_min ((lo - x) / d) l else l in
      let l := if n >? hi then std_min ((hi - x) / d) l else l in
      lambda_max ends' newguess' guess' dw' l
  | _, _, _, _ => l
  end.

(* newton.hpp:136-176 the rest of the body, once dw and newguess are known *)
Definition newton_accept (f : system) (ends : list (num * num)) (s : nstate)
  (dw newguess : list num) : nstate :=
  let '(v, J, g, guess) := (ns_v s, ns_J s, ns_g s, ns_guess s) in
  let '(vnew, Jnew) := f newguess in
  let gnew := lsqnorm vnew / #2 in
  let calls := newguess :: ns_calls s in
  let '(newguess, vnew, Jnew, gnew, rng, calls) :=
    if gnew >? g then
      let g1 := gnew in
      let g0 := g in
      let gprime0 := ldot (lmulmv J dw) v in
      let lambda := (- gprime0) / (#2 * (g1 - g0 - gprime0)) in
      let newguess := ladd guess (lscale lambda dw) in
      let '(vnew, Jnew) := f newguess in
      let gnew := lsqnorm vnew / #2 in
      let calls := newguess :: calls in
      if gnew >? g then
        let '(newguess, rng) := random_point ends (ns_rng s) in
        let '(vnew, Jnew) := f newguess in
        (newguess, vnew, Jnew, lsqnorm v / #2, rng, newguess :: calls)
      else (newguess, vnew, Jnew, gnew, ns_rng s, calls)
    else (newguess, vnew, Jnew, gnew, ns_rng s, calls) in
  NS newguess vnew Jnew gnew (expected_residual Jnew newguess) (ns_left s) rng calls.

(* newton.hpp:88-179 the loop body.  `continue` (line 125) goes to the loop condition
   with the expected residual of the previous pass.  0.1 is modelled as 1/10; the
   assertions of lines 115, 128 and 155 are not modelled. *)
Definition newton_nd_body (f : system) (ends : list (num * num)) (s : nstate)
  : outcome (step (list num * pcg * list (list num)) nstate) :=
  dw <- lsolve (ns_J s) (lneg (ns_v s)) ;;
  let newguess := ladd (ns_guess s) dw in
  if contains_vec ends newguess then Ok (Go (newton_accept f ends s dw newguess))
  else
    let l := lambda_max ends newguess (ns_guess s) dw (#1) in
    if l <=? #1 / #10 then
      let '(guess, rng) := random_point ends (ns_rng s) in
      let left := S (ns_left s) in
      if Nat.ltb 6 left then Ok (Return (lnans (length guess), rng, ns_calls s))
      else
        let '(v, J) := f guess in
        Ok (Go (NS guess v J (lsqnorm v / #2) (ns_expected s) left rng (guess :: ns_calls s)))
    else
      let dw := lmulby dw l in
      Ok (Go (newton_accept f ends s dw (ladd (ns_guess s) dw))).

(* newton.hpp:185-190 *)
Definition newton_nd_finish (s : nstate) : list num * pcg * list (list num) :=
  (if lmaxnorm (ns_v s) <=? ns_expected s then ns_guess s else lnans (length (ns_guess s)),
   ns_rng s, ns_calls s).

(* newton.hpp:88-180; [n] is the number of times `i++ < max_iterations` can still be true *)
Fixpoint newton_nd_loop (f : system) (ends : list (num * num)) (n : nat) (s : nstate)
  : outcome (list num * pcg * list (list num)) :=
  r <- newton_nd_body f ends s ;;
  match r with
  | Return a => Ok a
  | Go s =>
      if lmaxnorm (ns_v s) >? ns_expected s then
        match n with
        | O => Ok (newton_nd_finish s)
        | S n' => newton_nd_loop f ends n' s
        end
      else Ok (newton_nd_finish s)
  end.

(* newton.hpp:72-192: the result, the generator of [bound] afterwards, the calls of f *)
Definition newton_nd (f : system) (bound : bounds) (guess : list num) (max_iterations : Z)
  : outcome (list num * pcg * list (list num)) :=
  let '(v, J) := f guess in
  newton_nd_loop f (b_ends bound) (Z.to_nat (max_iterations - 1))
    (NS guess v J (lsqnorm v / #2) (#0) 0 (b_rng bound) [guess]).

(** ** n-dimensional halley *)

Definition system2 : Type := list num -> list num * list (list num) * list (list (list num)).

(** The local variables of halley.hpp:94-103; g (lines 95, 135-141) only serves
    debug output and is left out.  The bounds are a copy, with its own generator. *)
Record hstate : Type := HS {
  hs_guess : list num; hs_v : list num; hs_J : list (list num); hs_H : list (list (list num));
  hs_expected : num; hs_rand : nat; hs_rng : pcg; hs_calls : list (list num) }.

(* halley.hpp:113-120 *)
Fixpoint halley_update (guess a b : list num) : list num :=
  match guess, a, b with
  | x :: guess', ai :: a', bi :: b' =>
      let denom := ai + bi / #2 in
      (if denom =? #0 then x + ai else x + ai * ai / (ai + bi / #2)) :: halley_update guess' a' b'
  | _, _, _ => []
  end.

(* halley.hpp:105-153 the loop body *)
Definition halley_nd_body (f : system2) (ends : list (num * num)) (s : hstate)
  : outcome (step (list num * pcg * list (list num)) hstate) :=
  a <- lsolve (hs_J s) (lneg (hs_v s)) ;;
  let Haa := lcontract (hs_H s) a a in
  b <- lsolve (hs_J s) Haa ;;
  let newguess := halley_update (hs_guess s) a b in
  let go guess rand rng :=
    let '(v, J, H) := f guess in
    Ok (Go (HS guess v J H (expected_residual J guess) rand rng (guess :: hs_calls s))) in
  if contains_vec ends newguess then go newguess (hs_rand s) (hs_rng s)
  else if Nat.ltb (hs_rand s) 5 then
    let '(guess, rng) := random_point ends (hs_rng s) in go guess (S (hs_rand s)) rng
  else Ok (Return (lnans (length newguess), hs_rng s, hs_calls s)).

(* halley.hpp:161-166 *)
Definition halley_nd_finish (s : hstate) : list num * pcg * list (list num) :=
  (if lmaxnorm (hs_v s) <=? hs_expected s then hs_guess s else lnans (length (hs_guess s)),
   hs_rng s, hs_calls s).

(* halley.hpp:104-155 *)
Fixpoint halley_nd_loop (f : system2) (ends : list (num * num)) (n : nat) (s : hstate)
  : outcome (list num * pcg * list (list num)) :=
  r <- halley_nd_body f ends s ;;
  match r with
  | Return a => Ok a
  | Go s =>
      if lmaxnorm (hs_v s) >? hs_expected s then
        match n with
        | O => Ok (halley_nd_finish s)
        | S n' => halley_nd_loop f ends n' s
        end
      else Ok (halley_nd_finish s)
  end.

(* halley.hpp:86-167: the result, the generator of the local copy of [bound], the calls of f *)
Definition halley_nd (f : system2) (bound : bounds) (guess : list num) (max_iterations : Z)
  : outcome (list num * pcg * list (list num)) :=
  let '(v, J, H) := f guess in
  halley_nd_loop f (b_ends bound) (Z.to_nat (max_iterations - 1))
    (HS guess v J H (#0) 0 (b_rng bound) [guess]).

(** ** ko_method *)

(** A surface evaluated by h(u,v,J,H): the point, the columns of J, and for H the
    vectors (H(i,0,0))_i, (H(i,0,1))_i, (H(i,1,1))_i. *)
Definition surface : Type :=
  num -> num -> vec3 num * (vec3 num * vec3 num) * (vec3 num * vec3 num * vec3 num).

(* ko_method.hpp:105-112: sum of H(i,j,k)*surface_normal[i] starting at 0 is the dot product *)
Definition ko_form (Hjk n : vec3 num) : num := dot Hjk n.

Record kstate : Type := KS { ks_u : num; ks_v : num; ks_rand : nat; ks_rng : pcg }.

(* ko_method.hpp:158-167 and 181-190 restart at a random point, or give up *)
Definition ko_restart (ends : list (num * num)) (s : kstate) : step (vec3 num) kstate :=
  if Nat.ltb 20 (ks_rand s) then Return vnans
  else
    let '(w, rng) := random_point ends (ks_rng s) in
    Go (KS (nth 0 w nnan) (nth 1 w nnan) (S (ks_rand s)) rng).

(* ko_method.hpp:31-208 one iteration *)
Definition ko_body (h : surface) (r : ray num) (b0 b1 b2 : num * num) (s : kstate)
  : outcome (step (vec3 num) kstate) :=
  let ends := [b0; b1; b2] in
  let O := r_orig r in
  let D := r_dir r in
  let u0 := ks_u s in
  let v0 := ks_v s in
  let '(P, (sigma_u, sigma_v), (H00, H01, H11)) := h u0 v0 in
  let PmO := vsub P O in
  let plane_normal := cross PmO D in
  if squared_norm plane_normal <? #4 * neps * neps then
    let t := dot PmO D / dot D D in
    if (t <? fst b2) || (t >? snd b2) then Ok (Return vnans) else Ok (Return (V3 u0 v0 t))
  else
  let plane_normal := normalize plane_normal in
  let surface_normal := cross sigma_u sigma_v in
  if squared_norm surface_normal <? neps * neps then Ok (Return vnans)
  else
  let surface_normal := normalize surface_normal in
  let tangent := cross plane_normal surface_normal in
  if squared_norm tangent <? neps * neps then Ok (Return vnans)
  else
  let tangent := normalize tangent in
  let b := V2 (dot tangent sigma_u) (dot tangent sigma_v) in
  let M := M2 (dot sigma_u sigma_u) (dot sigma_u sigma_v) (dot sigma_u sigma_v) (dot sigma_v sigma_v) in
  M_inv <- inverse2_value M ;;
  let w := mulmv2 M_inv b in
  let uprime := wx w in
  let vprime := wy w in
  let e := ko_form H00 surface_normal in
  let f := ko_form H01 surface_normal in
  let g := ko_form H11 surface_normal in
  let kappa_b := e * uprime * uprime + #2 * f * uprime * vprime + g * vprime * vprime in
  if nabs kappa_b <? neps * neps then
    let t := dot PmO surface_normal / dot D surface_normal in
    let q := vadd O (vscale t D) in
    let qmP := vsub q P in
    let b := V2 (dot qmP sigma_u) (dot qmP sigma_v) in
    let w := mulmv2 M_inv b in
    Ok (Go (KS (u0 + wx w) (v0 + wy w) (ks_rand s) (ks_rng s)))
  else
  let costheta := dot surface_normal plane_normal in
  if costheta >=? #1 then Ok (Return vnans)
  else
  let s_ := kappa_b / (#1 - costheta * costheta) in
  let kappaN := vscale s_ (vadd (vscale (- costheta) plane_normal) surface_normal) in
  let kappa := norm kappaN in
  let n := vdiv kappaN kappa in
  let a := kappa / #2 in
  let tmp := dot D n in
  let dt := dot D tangent in
  let b_ := (- tmp) / dt in
  let OmP := vsub O P in
  let c := tmp * dot OmP tangent / dt - dot OmP n in
  match quadratic_roots a b_ c with
  | [] => Ok (ko_restart ends s)
  | [_] => Undef (* roots[1] out of range *)
  | r0 :: r1 :: _ =>
      let t0 := (r0 + dot PmO tangent) / dt in
      let t1 := (r1 + dot PmO tangent) / dt in
      let contains0 := contains_vec ends [u0 + r0 * uprime; v0 + r0 * vprime; t0] in
      let contains1 := contains_vec ends [u0 + r1 * uprime; v0 + r1 * vprime; t1] in
      if negb contains0 && negb contains1 then Ok (ko_restart ends s)
      else
        let s_root :=
          if negb contains0 then r1
          else if negb contains1 then r0
          else if t1 <? t0 then r1 else r0 in
        Ok (Go (KS (u0 + s_root * uprime) (v0 + s_root * vprime) (ks_rand s) (ks_rng s)))
  end.

(* ko_method.hpp:30-234; [n] further times `++i < 50` is true; [k] counts the iterations *)
Fixpoint ko_loop (h : surface) (r : ray num) (b0 b1 b2 : num * num) (n : nat) (s : kstate) (k : nat)
  : outcome (vec3 num * nat) :=
  x <- ko_body h r b0 b1 b2 s ;;
  match x with
  | Return a => Ok (a, S k)
  | Go s =>
      match n with
      | O => Ok (vnans, S k)
      | S n' => ko_loop h r b0 b1 b2 n' s (S k)
      end
  end.

(* ko_method.hpp:11-235: the result and the number of iterations *)
Definition ko_method (h : surface) (r : ray num) (b0 b1 b2 : num * num) (rng : pcg) (u0 v0 : num)
  : outcome (vec3 num * nat) :=
  let u0 := if nisnan u0 then (fst b0 + snd b0) / #2 else u0 in
  let v0 := if nisnan v0 then (fst b1 + snd b1) / #2 else v0 in
  ko_loop h r b0 b1 b2 49 (KS u0 v0 0 rng) 0.

End Iter.
Arguments Return {A B} a.
Arguments Go {A B} b.
