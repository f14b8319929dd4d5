(** Exact scalars: the reals extended with +inf, -inf and NaN.

    Finite arithmetic is exact (no rounding, no overflow, one unsigned zero);
    division by zero, square roots of negative numbers, infinities and NaN behave
    as in IEEE-754.  The machine constants epsilon and min are arbitrary positive
    reals (record [limits]), so theorems over [XR L] hold for every choice. *)
From Coq Require Import Reals ZArith Lra Lia List Bool.
From Flocq Require Import Core.Raux.
From Verif Require Import Num.
Local Open Scope R_scope.

Inductive xr : Type := Fin (r : R) | PInf | MInf | NaN.

Record limits : Type := {
  l_eps : R;
  l_min : R;
  l_max : R;
  l_eps_pos : 0 < l_eps;
  l_min_pos : 0 < l_min;
  l_max_pos : 0 < l_max
}.

(** [Rltb]/[Rleb]/[Reqb] of the reals, as booleans. *)
Definition Rltb (x y : R) : bool := if Rlt_dec x y then true else false.
Definition Rleb (x y : R) : bool := if Rle_dec x y then true else false.
Definition Reqb (x y : R) : bool := if Req_EM_T x y then true else false.

Definition xadd (x y : xr) : xr :=
  match x, y with
  | Fin a, Fin b => Fin (a + b)
  | NaN, _ => NaN
  | _, NaN => NaN
  | PInf, MInf => NaN
  | MInf, PInf => NaN
  | PInf, _ => PInf
  | _, PInf => PInf
  | MInf, _ => MInf
  | _, MInf => MInf
  end.

Definition xneg (x : xr) : xr :=
  match x with Fin a => Fin (- a) | PInf => MInf | MInf => PInf | NaN => NaN end.

Definition xsub (x y : xr) : xr :=
  match x, y with
  | Fin a, Fin b => Fin (a - b)
  | _, _ => xadd x (xneg y)
  end.

(* [r] times an infinity of sign [s] (true: positive) *)
Definition xscale_inf (r : R) (s : bool) : xr :=
  if Rlt_dec 0 r then (if s then PInf else MInf)
  else if Rlt_dec r 0 then (if s then MInf else PInf) else NaN.

Definition xmul (x y : xr) : xr :=
  match x, y with
  | Fin a, Fin b => Fin (a * b)
  | NaN, _ => NaN
  | _, NaN => NaN
  | Fin a, PInf => xscale_inf a true
  | Fin a, MInf => xscale_inf a false
  | PInf, Fin b => xscale_inf b true
  | MInf, Fin b => xscale_inf b false
  | PInf, PInf => PInf
  | PInf, MInf => MInf
  | MInf, PInf => MInf
  | MInf, MInf => PInf
  end.

(* a finite divisor equal to zero is +0 *)
Definition xdiv (x y : xr) : xr :=
  match x, y with
  | Fin a, Fin b => if Req_EM_T b 0 then xscale_inf a true else Fin (a / b)
  | NaN, _ => NaN
  | _, NaN => NaN
  | Fin _, _ => Fin 0
  | PInf, Fin b => if Rlt_dec b 0 then MInf else PInf
  | MInf, Fin b => if Rlt_dec b 0 then PInf else MInf
  | _, _ => NaN
  end.

Definition xabs (x : xr) : xr :=
  match x with Fin a => Fin (Rabs a) | PInf => PInf | MInf => PInf | NaN => NaN end.

Definition xsqrt (x : xr) : xr :=
  match x with
  | Fin a => if Rlt_dec a 0 then NaN else Fin (sqrt a)
  | PInf => PInf
  | MInf => NaN
  | NaN => NaN
  end.

Definition xfma (x y z : xr) : xr := xadd (xmul x y) z.

Definition xltb (x y : xr) : bool :=
  match x, y with
  | Fin a, Fin b => Rltb a b
  | NaN, _ => false
  | _, NaN => false
  | MInf, MInf => false
  | MInf, _ => true
  | _, MInf => false
  | PInf, _ => false
  | Fin _, PInf => true
  end.

Definition xeqb (x y : xr) : bool :=
  match x, y with
  | Fin a, Fin b => Reqb a b
  | PInf, PInf => true
  | MInf, MInf => true
  | _, _ => false
  end.

Definition xleb (x y : xr) : bool :=
  match x, y with
  | Fin a, Fin b => Rleb a b
  | _, _ => xltb x y || xeqb x y
  end.

Definition xnegative (y : xr) : bool :=
  match y with Fin b => Rltb b 0 | MInf => true | _ => false end.

Definition xcopysign (x y : xr) : xr :=
  if xnegative y then xneg (xabs x) else xabs x.

Definition xlift (f : R -> R) (x : xr) : xr :=
  match x with Fin a => Fin (f a) | _ => NaN end.

(* no value at the poles of tan *)
Definition xtan (x : xr) : xr :=
  match x with Fin a => if Req_EM_T (cos a) 0 then NaN else Fin (tan a) | _ => NaN end.

Definition xfloor (x : xr) : xr :=
  match x with Fin a => Fin (IZR (Zfloor a)) | _ => x end.

(* round half away from zero *)
Definition Rround (a : R) : R :=
  if Rlt_dec a 0 then IZR (Zceil (a - 1 / 2)) else IZR (Zfloor (a + 1 / 2)).
Definition xround (x : xr) : xr :=
  match x with Fin a => Fin (Rround a) | _ => x end.

Definition xtrunc (x : xr) : option Z :=
  match x with Fin a => Some (Ztrunc a) | _ => None end.

Definition xunit (f : R -> R) (x : xr) : xr :=
  match x with
  | Fin a => if Rle_dec (Rabs a) 1 then Fin (f a) else NaN
  | _ => NaN
  end.

(** The angle of the point (x,y), in (-PI, PI], with atan2(0,0) = 0. *)
Definition Ratan2 (y x : R) : R :=
  if Rlt_dec 0 x then atan (y / x)
  else if Rlt_dec x 0 then (if Rlt_dec y 0 then atan (y / x) - PI else atan (y / x) + PI)
  else if Rlt_dec 0 y then PI / 2
  else if Rlt_dec y 0 then - (PI / 2) else 0.

(* infinite arguments of atan2 are not modelled (NaN) *)
Definition xatan2 (y x : xr) : xr :=
  match y, x with Fin a, Fin b => Fin (Ratan2 a b) | _, _ => NaN end.

Definition xexp (x : xr) : xr :=
  match x with Fin a => Fin (exp a) | PInf => PInf | MInf => Fin 0 | NaN => NaN end.

Definition xlog (x : xr) : xr :=
  match x with
  | Fin a => if Rlt_dec 0 a then Fin (ln a) else if Rlt_dec a 0 then NaN else MInf
  | PInf => PInf
  | _ => NaN
  end.

(** Real cube root. *)
Definition Rcbrt (a : R) : R :=
  if Rlt_dec 0 a then Rpower a (1 / 3)
  else if Rlt_dec a 0 then - Rpower (- a) (1 / 3) else 0.
Definition xcbrt (x : xr) : xr :=
  match x with Fin a => Fin (Rcbrt a) | _ => x end.

Definition xisnan (x : xr) : bool := match x with NaN => true | _ => false end.

Definition XR (L : limits) : NumOps := {|
  num := xr;
  nadd := xadd; nsub := xsub; nmul := xmul; ndiv := xdiv;
  nneg := xneg; nabs := xabs; nsqrt := xsqrt; nfma := xfma;
  ncopysign := xcopysign; nfloor := xfloor;
  nltb := xltb; nleb := xleb; neqb := xeqb;
  nisnan := xisnan;
  nofZ := fun z => Fin (IZR z);
  ntrunc := xtrunc;
  nnan := NaN; ninf := PInf;
  neps := Fin (l_eps L); nmin := Fin (l_min L); nmax := Fin (l_max L);
  npi := Fin PI;
  nsin := xlift sin; ncos := xlift cos; ntan := xtan;
  nasin := xunit asin; nacos := xunit acos;
  natan2 := xatan2; nexp := xexp; nlog := xlog; ncbrt := xcbrt;
  nround := xround
|}.

(** The limits of IEEE double: used in examples only. *)
Definition double_limits : limits.
Proof.
  refine {| l_eps := / IZR (2 ^ 52); l_min := / IZR (2 ^ 1022);
            l_max := IZR ((2 ^ 53 - 1) * 2 ^ 971) |}.
  all: try apply Rinv_0_lt_compat; apply IZR_lt; reflexivity.
Defined.

(** ** Reduction on finite values *)

Lemma Rltb_true : forall x y, x < y -> Rltb x y = true.
Proof. intros; unfold Rltb; destruct (Rlt_dec x y); auto; contradiction. Qed.
Lemma Rltb_false : forall x y, y <= x -> Rltb x y = false.
Proof. intros; unfold Rltb; destruct (Rlt_dec x y); auto; lra. Qed.
Lemma Rleb_true : forall x y, x <= y -> Rleb x y = true.
Proof. intros; unfold Rleb; destruct (Rle_dec x y); auto; contradiction. Qed.
Lemma Rleb_false : forall x y, y < x -> Rleb x y = false.
Proof. intros; unfold Rleb; destruct (Rle_dec x y); auto; lra. Qed.
Lemma Reqb_true : forall x y, x = y -> Reqb x y = true.
Proof. intros; unfold Reqb; destruct (Req_EM_T x y); auto; contradiction. Qed.
Lemma Reqb_false : forall x y, x <> y -> Reqb x y = false.
Proof. intros; unfold Reqb; destruct (Req_EM_T x y); auto; contradiction. Qed.

Lemma Rltb_spec : forall x y, BoolSpec (x < y) (y <= x) (Rltb x y).
Proof. intros; unfold Rltb; destruct (Rlt_dec x y); constructor; lra. Qed.
Lemma Rleb_spec : forall x y, BoolSpec (x <= y) (y < x) (Rleb x y).
Proof. intros; unfold Rleb; destruct (Rle_dec x y); constructor; lra. Qed.
Lemma Reqb_spec : forall x y, BoolSpec (x = y) (x <> y) (Reqb x y).
Proof. intros; unfold Reqb; destruct (Req_EM_T x y); constructor; auto. Qed.

Lemma Rltb_iff : forall x y, Rltb x y = true <-> x < y.
Proof. intros; destruct (Rltb_spec x y); split; intros; try lra; auto; discriminate. Qed.
Lemma Rleb_iff : forall x y, Rleb x y = true <-> x <= y.
Proof. intros; destruct (Rleb_spec x y); split; intros; try lra; auto; discriminate. Qed.
Lemma Reqb_iff : forall x y, Reqb x y = true <-> x = y.
Proof. intros; destruct (Reqb_spec x y); split; intros; try lra; auto; discriminate. Qed.

Lemma xdiv_fin : forall a b, b <> 0 -> xdiv (Fin a) (Fin b) = Fin (a / b).
Proof. intros a b H; unfold xdiv; destruct (Req_EM_T b 0); [contradiction | reflexivity]. Qed.
Lemma xsqrt_fin : forall a, 0 <= a -> xsqrt (Fin a) = Fin (sqrt a).
Proof. intros a H; simpl; destruct (Rlt_dec a 0); [lra | reflexivity]. Qed.
Lemma xsqrt_nan : forall a, a < 0 -> xsqrt (Fin a) = NaN.
Proof. intros a H; simpl; destruct (Rlt_dec a 0); [reflexivity | lra]. Qed.
Lemma xdiv_zero_zero : xdiv (Fin 0) (Fin 0) = NaN.
Proof.
  simpl; destruct (Req_EM_T 0 0) as [_|C]; [|now contradiction C].
  unfold xscale_inf. destruct (Rlt_dec 0 0); [lra|]. reflexivity.
Qed.

Lemma fin_inj : forall a b, Fin a = Fin b -> a = b.
Proof. intros a b H; now injection H. Qed.

(** Embedding of real vectors and matrices. *)
Definition fin3 : vec3 R -> vec3 xr := map3 Fin.
Definition fin2 : vec2 R -> vec2 xr := map2v Fin.
Definition finm2 : mat2 R -> mat2 xr := mapm2 Fin.
Definition finm3 : mat3 R -> mat3 xr := mapm3 Fin.

Definition is_fin (x : xr) : Prop := exists r, x = Fin r.
Definition is_fin3 (v : vec3 xr) : Prop := is_fin (vx v) /\ is_fin (vy v) /\ is_fin (vz v).

(* reduce only when the arguments are constructors *)
Arguments xadd !x !y.
Arguments xsub !x !y.
Arguments xmul !x !y.
Arguments xneg !x.
Arguments xabs !x.
Arguments xltb !x !y.
Arguments xleb !x !y.
Arguments xeqb !x !y.
Arguments xlift f !x.
Arguments xatan2 !y !x.
Arguments xexp !x.
Arguments xcbrt !x.
Arguments xisnan !x.
Arguments xfloor !x.
Arguments xround !x.
Arguments xtrunc !x.
Arguments xdiv x y : simpl never.
Arguments xsqrt x : simpl never.

(** [xred]: unfold the [XR] operations and reduce them on finite values, leaving
    comparisons and guarded operations folded. *)
Ltac xred :=
  cbn [num nadd nsub nmul ndiv nneg nabs nsqrt nfma ncopysign nfloor nltb nleb neqb
       nisnan nofZ ntrunc nnan ninf neps nmin nmax npi nsin ncos ntan nasin nacos
       natan2 nexp nlog ncbrt nround XR
       xadd xsub xmul xneg xabs xfma xltb xleb xeqb xlift xatan2 xexp xcbrt xisnan
       xfloor xround xtrunc] in *.

(** Case analysis on every real comparison in the goal or a hypothesis. *)
Ltac rcase :=
  match goal with
  | |- context [Rltb ?x ?y] => destruct (Rltb_spec x y)
  | |- context [Rleb ?x ?y] => destruct (Rleb_spec x y)
  | |- context [Reqb ?x ?y] => destruct (Reqb_spec x y)
  | H : context [Rltb ?x ?y] |- _ => destruct (Rltb_spec x y)
  | H : context [Rleb ?x ?y] |- _ => destruct (Rleb_spec x y)
  | H : context [Reqb ?x ?y] |- _ => destruct (Reqb_spec x y)
  end.
