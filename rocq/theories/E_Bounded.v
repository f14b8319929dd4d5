(** Runs of newton that leave the box. *)
From Coq Require Import Reals Lra ZArith List Bool.
From Verif Require Import Num XR FL Spec M_Vec M_Matrix M_Rng M_Iter Spec_Iter Spec_Solver
  P_Torus P_Rng P_Bisect P_NewtonND P_Condition P_Bounded.
Import ListNotations.
Local Open Scope R_scope.

(** Maps of the plane as functions of machine numbers: NaN elsewhere. *)
Definition plane_V (v1 v2 : R -> R -> R) (l : list R) : list R := [v1 (nth 0 l 0) (nth 1 l 0); v2 (nth 0 l 0) (nth 1 l 0)].
Definition plane_J (p q r s : R -> R -> R) (l : list R) : list (list R) :=
  let x := nth 0 l 0 in let y := nth 1 l 0 in [[p x y; q x y]; [r x y; s x y]].
Definition plane_f (v1 v2 p q r s : R -> R -> R) (w : list xr) : list xr * list (list xr) :=
  match nth 0 w (Fin 0), nth 1 w (Fin 0) with
  | Fin x, Fin y => ([Fin (v1 x y); Fin (v2 x y)], [[Fin (p x y); Fin (q x y)]; [Fin (r x y); Fin (s x y)]])
  | _, _ => ([NaN; NaN], [[NaN; NaN]; [NaN; NaN]])
  end.
Section Maps.
Variables v1 v2 p q r s : R -> R -> R.
Lemma plane_f_computes : computes_system (plane_f v1 v2 p q r s) (plane_V v1 v2) (plane_J p q r s).
Proof. intros x. unfold plane_f. rewrite !(map_nth Fin x 0). reflexivity. Qed.
Lemma plane_f_plane : forall L : limits, plane_system (F:=XR L) (plane_f v1 v2 p q r s).
Proof. intros L w. change (@num (XR L)) with xr in *. unfold plane_f. destruct (nth 0 w (Fin 0)); [destruct (nth 1 w (Fin 0))|..]; do 6 eexists; reflexivity. Qed.
Lemma plane_f_nan : forall a b, a = NaN \/ b = NaN -> all_nan (fst (plane_f v1 v2 p q r s [a; b])).
Proof. intros a b [->| ->]; unfold plane_f; cbn [nth]; [|destruct a]; repeat constructor. Qed.
End Maps.

Section Runs.
Variable L : limits.
Notation X := (XR L).
Notation eps := (l_eps L).
Ltac rb := repeat match goal with
  | |- context [Rltb ?p ?q] => first [rewrite (Rltb_true p q) by lra | rewrite (Rltb_false p q) by lra]
  | |- context [Rleb ?p ?q] => first [rewrite (Rleb_true p q) by lra | rewrite (Rleb_false p q) by lra]
  end.

(* no residual is ever above the tolerance if it is zero *)
Lemma zero_residual : forall J x, exists E, expected_residual (F:=X) (map (map Fin) J) (map Fin x) = Fin E /\ 0 <= E.
Proof.
  intros J x. unfold expected_residual. change (nofZ (NumOps:=X) 0) with (Fin 0). assert (K : 0 <= 0) by lra. revert K. generalize 0 at 2 3 as e.
  induction J as [|row J IH]; intros e K; cbn [map fold_left]; [exists e; auto|].
  rewrite row_residual_fin. cbv zeta. cbn [nltb XR xltb]. destruct (Rltb_spec e (eps * weighted row x)); apply IH; lra.
Qed.
Lemma zero_norm : lmaxnorm (F:=X) [Fin 0; Fin 0] = Fin 0.
Proof. cbn. rewrite !Rabs_R0. rb. reflexivity. Qed.
(* a state whose residual is zero is the result *)
Lemma done : forall f ends n x0 x1 J g left rng calls s,
  newton_nd_body (F:=X) f ends s = Ok (Go (NS (F:=X) [Fin x0; Fin x1] [Fin 0; Fin 0] (map (map Fin) J) g (expected_residual (F:=X) (map (map Fin) J) [Fin x0; Fin x1]) left rng calls)) ->
  newton_nd_loop (F:=X) f ends n s = Ok ([Fin x0; Fin x1], rng, calls).
Proof.
  intros f ends n x0 x1 J g left rng calls s H. destruct (zero_residual J [x0; x1]) as (E & EE & HE). cbn [map] in EE.
  destruct n; cbn [newton_nd_loop]; rewrite H; cbn [obind ns_v ns_expected]; change (@num X) with xr in *; rewrite EE, zero_norm; cbn [nltb XR xltb]; rewrite Rltb_false by lra;
    unfold newton_nd_finish; cbn [ns_v ns_expected ns_guess ns_rng ns_calls]; change (@num X) with xr in *; rewrite zero_norm; cbn [nleb XR xleb]; rewrite Rleb_true by lra; reflexivity.
Qed.

Lemma sqhalf : forall u v, ndiv (NumOps:=X) (lsqnorm (F:=X) [Fin u; Fin v]) (nofZ (NumOps:=X) 2) = Fin ((u * u + v * v) / 2).
Proof. intros u v. cbn. rewrite xdiv_fin by lra. f_equal. field. Qed.
Lemma start_eq : forall f ends rng a b u v J n, f [Fin a; Fin b] = ([Fin u; Fin v], J) ->
  newton_nd (F:=X) f (Bounds (F:=X) ends rng) [Fin a; Fin b] n =
  newton_nd_loop (F:=X) f ends (Z.to_nat (n - 1)) (NS (F:=X) [Fin a; Fin b] [Fin u; Fin v] J (Fin ((u * u + v * v) / 2)) (Fin 0) 0 rng [[Fin a; Fin b]]).
Proof. intros f ends rng a b u v J n E. unfold newton_nd. change (@num X) with xr in *. rewrite E, sqhalf. reflexivity. Qed.
(* the full step is taken *)
Lemma accept_eq : forall f ends gs vs Js g ex left rng calls dw ng u v J, f ng = ([Fin u; Fin v], J) -> (u * u + v * v) / 2 <= g ->
  newton_accept (F:=X) f ends (NS (F:=X) gs vs Js (Fin g) ex left rng calls) dw ng =
  NS (F:=X) ng [Fin u; Fin v] J (Fin ((u * u + v * v) / 2)) (expected_residual (F:=X) J ng) left rng (ng :: calls).
Proof.
  intros f ends gs vs Js g ex left rng calls dw ng u v J E H. unfold newton_accept. cbn [ns_v ns_J ns_g ns_guess ns_rng ns_left ns_calls]. change (@num X) with xr in *.
  rewrite E, sqhalf. cbn [nltb XR xltb]. rewrite Rltb_false by lra. reflexivity.
Qed.
(* the step of the line search is taken *)
Lemma search_eq : forall f ends x0 x1 a b p q r t g ex left rng calls d0 d1 ng u v J l u' v' J', f ng = ([Fin u; Fin v], J) -> g < (u * u + v * v) / 2 ->
  let g' := (p * d0 + q * d1) * a + (r * d0 + t * d1) * b in
  (u * u + v * v) / 2 - g - g' <> 0 -> l = - g' / (2 * ((u * u + v * v) / 2 - g - g')) ->
  f [Fin (x0 + l * d0); Fin (x1 + l * d1)] = ([Fin u'; Fin v'], J') -> (u' * u' + v' * v') / 2 <= g ->
  newton_accept (F:=X) f ends (NS (F:=X) [Fin x0; Fin x1] [Fin a; Fin b] [[Fin p; Fin q]; [Fin r; Fin t]] (Fin g) ex left rng calls) [Fin d0; Fin d1] ng =
  NS (F:=X) [Fin (x0 + l * d0); Fin (x1 + l * d1)] [Fin u'; Fin v'] J' (Fin ((u' * u' + v' * v') / 2)) (expected_residual (F:=X) J' [Fin (x0 + l * d0); Fin (x1 + l * d1)]) left rng
    ([Fin (x0 + l * d0); Fin (x1 + l * d1)] :: ng :: calls).
Proof.
  intros f ends x0 x1 a b p q r t g ex left rng calls d0 d1 ng u v J l u' v' J' E H g' Z El E' H'.
  unfold newton_accept. cbn [ns_v ns_J ns_g ns_guess ns_rng ns_left ns_calls]. change (@num X) with xr in *.
  rewrite E, sqhalf. cbn [nltb XR xltb]. rewrite Rltb_true by lra.
  assert (G : ldot (F:=X) (lmulmv (F:=X) [[Fin p; Fin q]; [Fin r; Fin t]] [Fin d0; Fin d1]) [Fin a; Fin b] = Fin g') by (cbn; f_equal; unfold g'; ring).
  rewrite G. change (nofZ (NumOps:=X) 2) with (Fin 2). cbn [nneg nmul nsub ndiv XR xneg xmul xsub].
  rewrite (xdiv_fin (- g')) by (intros K; apply Z; lra). rewrite <- El.
  assert (N : ladd (F:=X) [Fin x0; Fin x1] (lscale (F:=X) (Fin l) [Fin d0; Fin d1]) = [Fin (x0 + l * d0); Fin (x1 + l * d1)]) by reflexivity.
  change (@num X) with xr in *. rewrite N, E'.
  pose proof (sqhalf u' v') as Sq. change (nofZ (NumOps:=X) 2) with (Fin 2) in Sq. cbn [ndiv XR] in Sq. rewrite Sq. cbn [xltb]. rewrite Rltb_false by lra. reflexivity.
Qed.

(** *** from outside *)
(** x + 5 = y + 5 = 0 in the unit square, from the solution itself *)
Definition far_f : list xr -> list xr * list (list xr) :=
  plane_f (fun x _ => x + 5) (fun _ y => y + 5) (fun _ _ => 1) (fun _ _ => 0) (fun _ _ => 0) (fun _ _ => 1).
Definition far_V := plane_V (fun x _ => x + 5) (fun _ y => y + 5).
Definition far_J := plane_J (fun _ _ => 1) (fun _ _ => 0) (fun _ _ => 0) (fun _ _ => 1).
Lemma far_jacobian : plane_jacobian far_V far_J.
Proof.
  intros x y. exists 1, 0, 0, 1. split; [reflexivity|]. cbn [nth far_V plane_V]. 
  assert (A : forall z, derivable_pt_lim (fun z => z + 5) z 1).
  { intros z. replace 1 with (1 + 0) by ring. apply derivable_pt_lim_plus; [apply derivable_pt_lim_id|apply derivable_pt_lim_const]. }
  repeat split; try apply A; apply derivable_pt_lim_const.
Qed.
Lemma solve_diag1 : forall a b, solve2 (F:=X) (M2 (Fin 1) (Fin 0) (Fin 0) (Fin 1)) (V2 (Fin a) (Fin b)) = V2 (Fin a) (Fin b).
Proof.
  intros a b. unfold solve2. cbn [a00 a01 a10 a11 wx wy]. pose proof (l_eps_pos L).
  cbn [nabs nleb neps XR nmul ndiv nsub xabs xmul xleb xsub]. rewrite Rabs_R0. rewrite Rleb_true by (apply Rmult_le_pos; lra).
  cbn [wx wy]. rewrite (xdiv_fin b 1) by lra. cbn [xmul xsub]. rewrite xdiv_fin by lra. f_equal; apply f_equal; field.
Qed.
Lemma far_run : forall rng n, exists g c,
  newton_nd (F:=X) far_f (Bounds (F:=X) [(Fin 0, Fin 1); (Fin 0, Fin 1)] rng) [Fin (-5); Fin (-5)] n = Ok ([Fin (-5); Fin (-5)], g, c).
Proof.
  intros rng n. do 2 eexists.
  assert (Ef : far_f [Fin (-5); Fin (-5)] = ([Fin 0; Fin 0], map (map Fin) [[1; 0]; [0; 1]])).
  { unfold far_f, plane_f. cbn [nth map]. replace (-5 + 5) with 0 by ring. reflexivity. }
  rewrite (start_eq far_f _ rng _ _ _ _ _ n Ef). apply done with (J := [[1; 0]; [0; 1]]) (g := Fin ((0 * 0 + 0 * 0) / 2)) (left := 0%nat).
  unfold newton_nd_body. cbn [ns_J ns_v ns_guess lneg map]. cbn [nneg XR xneg]. rewrite Ropp_0. unfold lsolve. rewrite solve_diag1. cbn [obind wx wy].
  change (ladd (F:=X) [Fin (-5); Fin (-5)] [Fin 0; Fin 0]) with [Fin (-5 + 0); Fin (-5 + 0)]. rewrite Rplus_0_r.
  assert (C : contains_vec (F:=X) [(Fin 0, Fin 1); (Fin 0, Fin 1)] [Fin (-5); Fin (-5)] = false) by (cbn; rb; reflexivity). rewrite C.
  assert (E : lambda_max (F:=X) [(Fin 0, Fin 1); (Fin 0, Fin 1)] [Fin (-5); Fin (-5)] [Fin (-5); Fin (-5)] [Fin 0; Fin 0] (nofZ (NumOps:=X) 1) = Fin 1).
  { cbn [lambda_max]. change (nofZ (NumOps:=X) 1) with (Fin 1). cbn [nltb XR xltb nsub xsub ndiv].
    assert (D : xdiv (Fin (0 - -5)) (Fin 0) = PInf).
    { unfold xdiv. destruct (Req_EM_T 0 0); [|lra]. unfold xscale_inf. destruct (Rlt_dec 0 (0 - -5)); [reflexivity|lra]. }
    rewrite D. rb. cbn. rb. reflexivity. }
  match goal with |- context [lambda_max ?a ?b ?c ?d ?e] => replace (lambda_max (F:=X) a b c d e) with (Fin 1) by (symmetry; exact E) end.
  change (nofZ (NumOps:=X) 1) with (Fin 1). change (nofZ (NumOps:=X) 10) with (Fin 10). cbn [ndiv XR nleb]. rewrite xdiv_fin by lra. cbn [xleb]. rb.
  do 2 apply f_equal.
  assert (N : ladd (F:=X) [Fin (-5); Fin (-5)] (lmulby (F:=X) [Fin 0; Fin 0] (Fin 1)) = [Fin (-5); Fin (-5)]) by (cbn; repeat f_equal; ring).
  match goal with |- context [ladd (F:=X) ?a ?b] => replace (ladd (F:=X) a b) with [Fin (-5); Fin (-5)] by (symmetry; exact N) end.
  apply accept_eq; [exact Ef|lra].
Qed.

(** *** from inside *)
(** A cubic map whose derivative at the origin has (1,0) entry eps^2, which solve ignores;
    with X = eps^2 x / 4:  V1 = 1 + X + a X^2 + b X^3,  V2 = -1 + 4 X + y + c X^2 + d X^3 *)
Definition ca := 1015 / 576. Definition cb := -137 / 576. Definition cc := 2793 / 576. Definition cd := -375 / 576.
Definition sc : R := eps * eps / 4.
Definition wild1 (x y : R) : R := 1 + sc * x + ca * (sc * x) ^ 2 + cb * (sc * x) ^ 3.
Definition wild2 (x y : R) : R := -1 + 4 * (sc * x) + y + cc * (sc * x) ^ 2 + cd * (sc * x) ^ 3.
Definition wildp (x y : R) : R := sc * (1 + 2 * ca * (sc * x) + 3 * cb * (sc * x) ^ 2).
Definition wildr (x y : R) : R := sc * (4 + 2 * cc * (sc * x) + 3 * cd * (sc * x) ^ 2).
Definition wild_f := plane_f wild1 wild2 wildp (fun _ _ => 0) wildr (fun _ _ => 1).
Definition wild_V := plane_V wild1 wild2.
Definition wild_J := plane_J wildp (fun _ _ => 0) wildr (fun _ _ => 1).
Lemma cubic_deriv : forall a b c d x, derivable_pt_lim (fun z => a + b * (sc * z) + c * (sc * z) ^ 2 + d * (sc * z) ^ 3) x (sc * (b + 2 * c * (sc * x) + 3 * d * (sc * x) ^ 2)).
Proof.
  intros a b c d x. replace (sc * (b + 2 * c * (sc * x) + 3 * d * (sc * x) ^ 2)) with ((0 + b * (sc * 1)) + c * (sc ^ 2 * (INR 2 * x ^ 1)) + d * (sc ^ 3 * (INR 3 * x ^ 2))) by (simpl; ring).
  apply derivable_pt_lim_ext with (fun z => a + b * (sc * z) + c * (sc ^ 2 * z ^ 2) + d * (sc ^ 3 * z ^ 3)); [intros z; ring|].
  apply (derivable_pt_lim_plus (fun z => a + b * (sc * z) + c * (sc ^ 2 * z ^ 2)) (fun z => d * (sc ^ 3 * z ^ 3))).
  - apply (derivable_pt_lim_plus (fun z => a + b * (sc * z)) (fun z => c * (sc ^ 2 * z ^ 2))).
    + apply (derivable_pt_lim_plus (fun _ => a) (fun z => b * (sc * z))); [apply derivable_pt_lim_const|].
      apply (derivable_pt_lim_scal (fun z => sc * z)). apply (derivable_pt_lim_scal id). apply derivable_pt_lim_id.
    + apply (derivable_pt_lim_scal (fun z => sc ^ 2 * z ^ 2)). apply (derivable_pt_lim_scal (fun z => z ^ 2)). apply derivable_pt_lim_pow.
  - apply (derivable_pt_lim_scal (fun z => sc ^ 3 * z ^ 3)). apply (derivable_pt_lim_scal (fun z => z ^ 3)). apply derivable_pt_lim_pow.
Qed.
Lemma wild_jacobian : plane_jacobian wild_V wild_J.
Proof.
  intros x y. exists (wildp x y), 0, (wildr x y), 1. split; [reflexivity|]. cbn [nth wild_V plane_V]. unfold wild_V, plane_V. cbn [nth]. repeat split.
  - unfold wild1, wildp. apply derivable_pt_lim_ext with (2 := cubic_deriv 1 1 ca cb x). intros z. ring.
  - unfold wild1. apply derivable_pt_lim_const.
  - unfold wild2, wildr. apply derivable_pt_lim_ext with (2 := cubic_deriv (-1 + y) 4 cc cd x). intros z. ring.
  - unfold wild2. apply derivable_pt_lim_ext with (fun z => (-1 + 4 * (sc * x) + cc * (sc * x) ^ 2 + cd * (sc * x) ^ 3) + z); [intros z; ring|].
    replace 1 with (0 + 1) by ring. apply derivable_pt_lim_plus; [apply derivable_pt_lim_const|apply derivable_pt_lim_id].
Qed.
Lemma sc_pos : 0 < sc.
Proof. unfold sc. pose proof (l_eps_pos L). nra. Qed.
(* the box [-2/sc, 2/sc] x [-2, 2]; the answer is (8/sc, -8) *)
Lemma wild_run : forall rng n, exists g c,
  newton_nd (F:=X) wild_f (Bounds (F:=X) [(Fin (- (2 / sc)), Fin (2 / sc)); (Fin (-2), Fin 2)] rng) [Fin 0; Fin 0] n = Ok ([Fin (8 / sc); Fin (-8)], g, c).
Proof.
  intros rng n. do 2 eexists. pose proof sc_pos as Sp.
  assert (V : forall x y u v, wild1 x y = u -> wild2 x y = v -> wild_f [Fin x; Fin y] = ([Fin u; Fin v], [[Fin (wildp x y); Fin 0]; [Fin (wildr x y); Fin 1]])).
  { intros x y u v <- <-. reflexivity. }
  assert (E0 : wild_f [Fin 0; Fin 0] = ([Fin 1; Fin (-1)], [[Fin sc; Fin 0]; [Fin (4 * sc); Fin 1]])).
  { rewrite (V 0 0 1 (-1)); [|unfold wild1; ring|unfold wild2; ring]. replace (wildp 0 0) with sc by (unfold wildp; ring). replace (wildr 0 0) with (4 * sc) by (unfold wildr; ring). reflexivity. }
  assert (I : sc * (1 / sc) = 1) by (field; lra).
  assert (E1 : exists J, wild_f [Fin (- 1 / sc); Fin 1] = ([Fin 2; Fin (3 / 2)], J)).
  { eexists. apply V; unfold wild1, wild2; replace (sc * (-1 / sc)) with (-1) by (field; lra); unfold ca, cb, cc, cd; lra. }
  assert (E2 : wild_f [Fin (8 / sc); Fin (-8)] = ([Fin 0; Fin 0], map (map Fin) [[wildp (8 / sc) (-8); 0]; [wildr (8 / sc) (-8); 1]])).
  { apply V; unfold wild1, wild2; replace (sc * (8 / sc)) with 8 by (field; lra); unfold ca, cb, cc, cd; lra. }
  destruct E1 as (J1 & E1).
  rewrite (start_eq wild_f _ rng _ _ _ _ _ n E0). eapply done.
  unfold newton_nd_body. cbn [ns_J ns_v ns_guess lneg map]. cbn [nneg XR xneg]. unfold lsolve.
  assert (Sv : solve2 (F:=X) (M2 (Fin sc) (Fin 0) (Fin (4 * sc)) (Fin 1)) (V2 (Fin (-1)) (Fin (Ropp (-1)))) = V2 (Fin (-1 / sc)) (Fin 1)).
  { unfold solve2. cbn [a00 a01 a10 a11 wx wy]. cbn [nabs nleb neps XR nmul ndiv nsub xabs xmul xleb xsub].
    rewrite Rabs_pos_eq by lra. rewrite Rleb_true by (unfold sc; lra). cbn [wx wy]. rewrite (xdiv_fin _ 1) by lra. cbn [xmul xsub]. rewrite xdiv_fin by lra.
    f_equal; f_equal; field; lra. }
  change (Ropp 1) with (-1). change (@num X) with xr in *. rewrite Sv. cbn [obind wx wy].
  assert (N : ladd (F:=X) [Fin 0; Fin 0] [Fin (-1 / sc); Fin 1] = [Fin (-1 / sc); Fin 1]) by (cbn; rewrite !Rplus_0_l; reflexivity).
  change (@num X) with xr in *. rewrite N.
  assert (B : 0 < 1 / sc) by (apply Rdiv_lt_0_compat; lra).
  assert (C : contains_vec (F:=X) [(Fin (- (2 / sc)), Fin (2 / sc)); (Fin (-2), Fin 2)] [Fin (-1 / sc); Fin 1] = true).
  { cbn. rb. reflexivity. }
  rewrite C. do 2 apply f_equal.
  etransitivity; [eapply (search_eq wild_f) with (l := -8); [exact E1|lra| | | |]|].
  - cbv zeta. replace (sc * (-1 / sc)) with (-1) by (field; lra). replace (4 * sc * (-1 / sc)) with (-4) by (field; lra). lra.
  - cbv zeta. replace (sc * (-1 / sc)) with (-1) by (field; lra). replace (4 * sc * (-1 / sc)) with (-4) by (field; lra). field.
  - replace (0 + -8 * (-1 / sc)) with (8 / sc) by (field; lra). replace (0 + -8 * 1) with (-8) by ring. exact E2.
  - lra.
  - replace (0 + -8 * (-1 / sc)) with (8 / sc) by (field; lra). replace (0 + -8 * 1) with (-8) by ring. reflexivity.
Qed.

(** *** a run that ends in the box *)
Definition near_f : list xr -> list xr * list (list xr) :=
  plane_f (fun x _ => x - 1 / 2) (fun _ y => y - 1 / 2) (fun _ _ => 1) (fun _ _ => 0) (fun _ _ => 0) (fun _ _ => 1).
Lemma near_run : forall rng n, exists g c,
  newton_nd (F:=X) near_f (Bounds (F:=X) [(Fin 0, Fin 1); (Fin 0, Fin 1)] rng) [Fin (1 / 4); Fin (3 / 4)] n = Ok ([Fin (1 / 2); Fin (1 / 2)], g, c).
Proof.
  intros rng n. do 2 eexists.
  assert (Ef : near_f [Fin (1 / 4); Fin (3 / 4)] = ([Fin (- (1 / 4)); Fin (1 / 4)], [[Fin 1; Fin 0]; [Fin 0; Fin 1]])).
  { unfold near_f, plane_f. cbn [nth map]. replace (1 / 4 - 1 / 2) with (- (1 / 4)) by lra. replace (3 / 4 - 1 / 2) with (1 / 4) by lra. reflexivity. }
  assert (Eh : near_f [Fin (1 / 2); Fin (1 / 2)] = ([Fin 0; Fin 0], map (map Fin) [[1; 0]; [0; 1]])).
  { unfold near_f, plane_f. cbn [nth map]. replace (1 / 2 - 1 / 2) with 0 by lra. reflexivity. }
  rewrite (start_eq near_f _ rng _ _ _ _ _ n Ef). eapply done.
  unfold newton_nd_body. cbn [ns_J ns_v ns_guess lneg map]. cbn [nneg XR xneg]. unfold lsolve. rewrite solve_diag1. cbn [obind wx wy].
  assert (N : ladd (F:=X) [Fin (1 / 4); Fin (3 / 4)] [Fin (- - (1 / 4)); Fin (- (1 / 4))] = [Fin (1 / 2); Fin (1 / 2)]).
  { cbn. replace (1 / 4 + - - (1 / 4)) with (1 / 2) by lra. replace (3 / 4 + - (1 / 4)) with (1 / 2) by lra. reflexivity. }
  change (@num X) with xr in *. rewrite N.
  assert (C : contains_vec (F:=X) [(Fin 0, Fin 1); (Fin 0, Fin 1)] [Fin (1 / 2); Fin (1 / 2)] = true) by (cbn; rb; reflexivity). rewrite C.
  do 2 apply f_equal. apply accept_eq; [exact Eh|lra].
Qed.
End Runs.

Section Plane.
Context {L : limits}.
Lemma newton_box : forall (f : system (F:=XR L)) V J lo0 hi0 lo1 hi1 rng s0 s1 n r g c,
  (forall x y, f [Fin x; Fin y] = (map Fin (V [x; y]), map (map Fin) (J [x; y]))) -> (forall w, exists x y p q r s, f w = ([x; y], [[p; q]; [r; s]])) ->
  (forall a b, a = NaN \/ b = NaN -> all_nan (fst (f [a; b]))) -> lo0 <= hi0 -> lo1 <= hi1 ->
  (forall x0 x1, Rmin lo0 s0 <= x0 <= Rmax hi0 s0 -> Rmin lo1 s1 <= x1 <= Rmax hi1 s1 ->
     forall p q r s, J [x0; x1] = [[p; q]; [r; s]] -> r = 0 \/ l_eps L * l_eps L < Rabs r) ->
  newton_nd (F:=XR L) f (Bounds (F:=XR L) [(Fin lo0, Fin hi0); (Fin lo1, Fin hi1)] rng) [Fin s0; Fin s1] n = Ok (r, g, c) ->
  all_nan r \/ exists x0 x1, r = [Fin x0; Fin x1] /\ Rmin lo0 s0 <= x0 <= Rmax hi0 s0 /\ Rmin lo1 s1 <= x1 <= Rmax hi1 s1.
Proof.
  intros f V J lo0 hi0 lo1 hi1 rng s0 s1 n r g c Hf Hp Hn H0 H1 HJ H.
  assert (B : forall lo hi s x, between (Fin lo, Fin hi) s x -> Rmin lo s <= x <= Rmax hi s).
  { intros lo hi s x [A B]. cbn in *. split; [destruct A; eapply Rle_trans; [apply Rmin_l|eassumption|apply Rmin_r|eassumption]|].
    destruct B as [B|B]; (eapply Rle_trans; [exact B|]); [apply Rmax_l|apply Rmax_r]. }
  destruct (newton_keeps f V J (Fin lo0, Fin hi0) (Fin lo1, Fin hi1) rng s0 s1 n r g c Hf Hp Hn) as [A|(x0 & x1 & E & B0 & B1)]; auto.
  - exists lo0, hi0; auto.
  - exists lo1, hi1; auto.
  - intros x0 x1 B0 B1. apply HJ; apply B; assumption.
  - right. exists x0, x1. auto.
Qed.
(* all the hypotheses of newton_box, in a run *)
Lemma newton_box_case : forall rng n, computes_system near_f (plane_V (fun x _ => x - 1 / 2) (fun _ y => y - 1 / 2)) far_J /\
  (forall w, exists x y p q r s, near_f w = ([x; y], [[p; q]; [r; s]])) /\ (forall a b, a = NaN \/ b = NaN -> all_nan (fst (near_f [a; b]))) /\
  (forall x0 x1 p q r s, far_J [x0; x1] = [[p; q]; [r; s]] -> r = 0) /\ exists g c,
  newton_nd (F:=XR L) near_f (Bounds (F:=XR L) [(Fin 0, Fin 1); (Fin 0, Fin 1)] rng) [Fin (1 / 4); Fin (3 / 4)] n = Ok ([Fin (1 / 2); Fin (1 / 2)], g, c).
Proof.
  intros rng n. split; [apply plane_f_computes|]. split; [exact (plane_f_plane _ _ _ _ _ _ L)|]. split; [apply plane_f_nan|].
  split; [|apply near_run]. intros x0 x1 p q r s E. injection E. auto.
Qed.
Lemma newton_far : forall rng n, exists f V J, computes_system f V J /\ plane_jacobian V J /\ (forall x, exists p s, J x = [[p; 0]; [0; s]]) /\
  exists x0 x1 g c, newton_nd (F:=XR L) f (Bounds (F:=XR L) [(Fin 0, Fin 1); (Fin 0, Fin 1)] rng) [Fin (-5); Fin (-5)] n = Ok ([Fin x0; Fin x1], g, c) /\
    ~ 0 <= x0 <= 1 /\ ~ 0 <= x1 <= 1.
Proof.
  intros rng n. exists far_f, far_V, far_J. split; [apply plane_f_computes|]. split; [apply far_jacobian|]. split; [intros x; exists 1, 1; reflexivity|].
  destruct (far_run L rng n) as (g & c & E). exists (-5), (-5), g, c. split; [exact E|]. lra.
Qed.
Lemma newton_wild : forall rng n, exists f V J B s0 s1, computes_system f V J /\ plane_jacobian V J /\ 0 <= B /\ - B <= s0 <= B /\ -2 <= s1 <= 2 /\
  exists x0 x1 g c, newton_nd (F:=XR L) f (Bounds (F:=XR L) [(Fin (- B), Fin B); (Fin (-2), Fin 2)] rng) [Fin s0; Fin s1] n = Ok ([Fin x0; Fin x1], g, c) /\
    ~ - B <= x0 <= B /\ ~ -2 <= x1 <= 2.
Proof.
  intros rng n. exists (wild_f L), (wild_V L), (wild_J L), (2 / sc L), 0, 0. split; [apply plane_f_computes|]. split; [apply wild_jacobian|].
  pose proof (sc_pos L). assert (0 < 1 / sc L) by (apply Rdiv_lt_0_compat; lra). repeat (split; [lra|]).
  destruct (wild_run L rng n) as (g & c & E). exists (8 / sc L), (-8), g, c. split; [exact E|]. lra.
Qed.
End Plane.
