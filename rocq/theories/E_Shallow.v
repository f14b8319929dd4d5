(** A shallow ray that meets the helicoid by way of newton. *)
From Coq Require Import Reals Lra ZArith List Bool.
From Verif Require Import Num XR FL Spec M_Vec M_Matrix M_Roots M_Rng M_Hittable M_Iter M_Surfaces Spec_Scene Spec_Shapes Spec_Surfaces Spec_Matrix Spec_Solver
  P_Vec P_Matrix P_Quadratic P_Sphere P_Bisect P_Helicoid P_Condition P_Bounded P_Shallow E_Surfaces E_Bounded.
Import ListNotations.
Local Open Scope R_scope.

Definition tall_helicoid : helicoid R := Helicoid 1 (2 * PI).
Definition slant_ray : ray R := Ray (V3 (- / 2) 0 0) (V3 0 1 (/ 2)).
Section E.
Context {L : limits}.
Notation X := (XR L).
Lemma slant_newton : forall h, 0 <= h -> l_eps L <= / 1000 -> l_min L < / 2 ->
  helicoid_tuv (F:=X) (finhelicoid tall_helicoid) (fin3 (r_orig slant_ray)) (fin3 (r_dir slant_ray)) (Fin 0) (Fin h) = Ok (Fin 0, Fin (/ 2), Fin (/ 2)).
Proof.
  intros h Hh He Hm. pose proof (l_min_pos L) as Lm. pose proof (l_eps_pos L) as Lp. pose proof PI2_1 as Pi.
  assert (Hok : helicoid_ok tall_helicoid) by (split; cbn; lra).
  unfold helicoid_tuv. cbn [fin3 map3 vx vy vz r_orig r_dir slant_ray nabs nleb nmul nadd nmin XR xabs xleb xmul xadd].
  rewrite Rabs_pos_eq by lra. rewrite !Rleb_false by lra. 
  change (V3 (Fin (- / 2)) (Fin 0) (Fin 0)) with (fin3 (r_orig slant_ray)). change (V3 (Fin 0) (Fin 1) (Fin (/ 2))) with (fin3 (r_dir slant_ray)).
  unfold helicoid_general.
  assert (Vb : helicoid_vbounds (F:=X) (finhelicoid tall_helicoid) (fin3 (r_orig slant_ray)) (fin3 (r_dir slant_ray)) (Fin 0) (Fin h) = (Fin 0, Fin 1)).
  { unfold helicoid_vbounds. cbn [finhelicoid tall_helicoid he_radius he_speed fin3 map3 vx vy vz r_orig r_dir slant_ray].
    cbn [nmul nadd nltb nneg ndiv nofZ XR xmul xadd xltb xneg]. rewrite !xdiv_fin by lra. cbn [xltb]. rewrite !Rltb_true by lra. reflexivity. }
  match goal with |- context [helicoid_vbounds ?a ?b ?c ?e ?g] => replace (helicoid_vbounds (F:=X) a b c e g) with (Fin 0, Fin 1) by (symmetry; exact Vb) end. unfold make_bounds.
  set (v0 := 1 * (1 - 1000 * l_eps L)). change (nmul (NumOps:=X) (Fin 1) (nsub (NumOps:=X) (nofZ (NumOps:=X) 1) (nmul (NumOps:=X) (nofZ (NumOps:=X) 1000) (neps (NumOps:=X))))) with (Fin v0).
  assert (Hv : 0 <= v0 <= 1) by (unfold v0; lra).
  set (f := helicoid_system (F:=X) (finhelicoid tall_helicoid) (fin3 (r_orig slant_ray)) (fin3 (r_dir slant_ray))).
  assert (Ef : forall v, f [Fin 0; Fin v] = ([Fin (- / 2 + v); Fin 0], [[Fin 0; Fin 1]; [Fin (1 + v / 2); Fin 0]])).
  { intros v. unfold f. rewrite (sys_fin tall_helicoid _ _ Hok). unfold sys_V, sys_J. cbn [nth map r_orig r_dir slant_ray vx vy vz tall_helicoid he_radius he_speed].
    replace (2 * PI / (2 * PI) * (0 + 0 * / 2)) with 0 by (field; lra). rewrite cos_0, sin_0. replace (2 * PI / (2 * PI)) with 1 by (field; lra).
    assert (Q : forall a a' b b' p p' q q' r r' t t' : R, a = a' -> b = b' -> p = p' -> q = q' -> r = r' -> t = t' ->
      ([Fin a; Fin b], [[Fin p; Fin q]; [Fin r; Fin t]]) = ([Fin a'; Fin b'], [[Fin p'; Fin q']; [Fin r'; Fin t']])) by (intros; subst; reflexivity).
    apply Q; lra. }
  assert (N : exists g c, newton_nd (F:=X) f (Bounds (F:=X) [(Fin 0, Fin h); (Fin 0, Fin 1)] pcg_seed) [Fin 0; Fin v0] 16 = Ok ([Fin 0; Fin (/ 2)], g, c)).
  { do 2 eexists. rewrite (start_eq L f _ pcg_seed _ _ _ _ _ 16 (Ef v0)). eapply (done L) with (J := [[0; 1]; [1 + / 2 / 2; 0]]).
    unfold newton_nd_body. cbn [ns_J ns_v ns_guess lneg map]. cbn [nneg XR xneg]. unfold lsolve.
    assert (Sv : solve2 (F:=X) (M2 (Fin 0) (Fin 1) (Fin (1 + v0 / 2)) (Fin 0)) (V2 (Fin (- (- / 2 + v0))) (Fin (- 0))) = V2 (Fin 0) (Fin (/ 2 - v0))).
    { unfold solve2. cbn [a00 a01 a10 a11 wx wy]. cbn [nabs nleb neps XR nmul ndiv nsub nofZ xabs xmul xleb xsub].
      rewrite Rabs_pos_eq by lra. rewrite Rleb_false by nra. rewrite (xdiv_fin 1) by lra. cbn [xmul xsub wx wy].
      rewrite (xdiv_fin _ (1 - 0 * (0 * (1 / (1 + v0 / 2))))) by lra. cbn [xmul xsub wx wy]. f_equal; f_equal; field; lra. }
    change (@num X) with xr in *. rewrite Sv. cbn [obind wx wy].
    assert (Nw : ladd (F:=X) [Fin 0; Fin v0] [Fin 0; Fin (/ 2 - v0)] = [Fin 0; Fin (/ 2)]) by (cbn; do 2 f_equal; [f_equal; lra|do 2 f_equal; lra]).
    change (@num X) with xr in *. rewrite Nw.
    assert (C : contains_vec (F:=X) [(Fin 0, Fin h); (Fin 0, Fin 1)] [Fin 0; Fin (/ 2)] = true) by (cbn; rewrite !Rltb_false by lra; reflexivity). rewrite C.
    do 2 apply f_equal. apply (accept_eq L f).
    - rewrite Ef. cbn [map]. replace (- / 2 + / 2) with 0 by lra. reflexivity.
    - pose proof (Rle_0_sqr (- / 2 + v0)) as Q. unfold Rsqr in Q. lra. }
  destruct N as (g & c & N). match goal with |- context [newton_nd ?a ?b ?i ?m] => replace (newton_nd (F:=X) a b i m) with (@Ok (list xr * pcg * list (list xr)) ([Fin 0; Fin (/ 2)], g, c)) by (symmetry; exact N) end. cbn [obind fst nth].
  cbn [fin3 map3 vx vy vz r_orig r_dir slant_ray finhelicoid tall_helicoid he_speed nmul nadd ndiv nofZ XR xmul xadd]. rewrite !xdiv_fin by lra. cbn [xadd].
  replace ((0 + 0 * / 2) / (2 * PI) + 1 / 2) with (/ 2) by (field; lra).
  assert (Cl : std_clamp (F:=X) (Fin (/ 2)) (Fin 0) (Fin 1) = Fin (/ 2)) by (unfold std_clamp; cbn [nltb XR xltb]; rewrite !Rltb_false by lra; reflexivity).
  change (@num X) with xr in *. rewrite Cl. reflexivity.
Qed.

Lemma slant_window : l_min L < / 2 -> exists h, 0 <= h /\
  helicoid_window (F:=X) (finhelicoid tall_helicoid) (finray slant_ray) (Fin 0) PInf = Some (Fin 0, Fin h).
Proof.
  intros Hm. pose proof (l_min_pos L) as Lm. pose proof PI2_1 as Pi.
  unfold helicoid_window, finray, slant_ray, tall_helicoid, finhelicoid, fin3, map3; cbn [r_orig r_dir vx vy vz he_radius he_speed]. xred.
  rewrite Rltb_true by lra.
  match goal with |- context [quadratic_roots (Fin ?a) (Fin ?b) (Fin ?c)] => set (a0 := a); set (b0 := b); set (c0 := c) end.
  assert (Ea : a0 = 1) by (unfold a0; ring). assert (Eb : b0 = 0) by (unfold b0; field). assert (Ec : c0 = - (3 / 4)) by (unfold c0; field).
  rewrite Ea, Eb, Ec. clear a0 b0 c0 Ea Eb Ec.
  destruct (quadratic_roots_correct L 1 0 (- (3 / 4))) as [[_ E]|(x0 & x1 & E & Le & F & _)].
  - right; rewrite Rabs_pos_eq; lra.
  - left; reflexivity.
  - lra.
  - exfalso. assert (S3 : sqrt 3 * sqrt 3 = 3) by (apply sqrt_sqrt; lra). apply (E (sqrt 3 / 2)). unfold quadR. nra.
  - change (@num X) with xr in *. rewrite E. specialize (F ltac:(lra) 0). unfold quadR in F.
    assert (Hx : x0 <= 0 <= x1) by nra. exists x1. split; [lra|].
    cbn [nltb XR xltb]. rewrite (Rltb_false x1 0) by lra.
    assert (E0 : std_max (F:=X) (Fin 0) (Fin x0) = Fin 0) by (unfold std_max; xred; rewrite Rltb_false by lra; reflexivity).
    assert (E1 : std_min (F:=X) PInf (Fin x1) = Fin x1) by reflexivity.
    change (@num X) with xr in *. rewrite E0, E1.
    unfold ray_at, vadd, vscale; cbn [r_orig r_dir vx vy vz]. xred. rewrite !xdiv_fin by lra. unfold std_max, std_min. xred.
    assert (P1 : 0 < x1) by nra.
    rewrite (Rltb_true (0 + 0 * / 2) (0 + x1 * / 2)), (Rltb_false (0 + x1 * / 2) (0 + 0 * / 2)) by lra. cbn [xltb]. rewrite !Rltb_false by lra. reflexivity.
Qed.
Lemma slant_hit : forall rec : hit_record xr, l_eps L <= / 1000 -> l_min L < / 2 ->
  helicoid_ok tall_helicoid /\ l_min L < vx (r_dir slant_ray) ^ 2 + vy (r_dir slant_ray) ^ 2 /\
  off_threshold (l_min L) (2 * (vx (r_orig slant_ray) * vx (r_dir slant_ray) + vy (r_orig slant_ray) * vy (r_dir slant_ray))) /\
  2 * PI * he_radius tall_helicoid * Rabs (vz (r_dir slant_ray)) / he_speed tall_helicoid + l_eps L * l_eps L < Rabs (vy (r_dir slant_ray)) /\
  exists rec', helicoid_hit (F:=X) (finhelicoid tall_helicoid) (finray slant_ray) (Fin 0) PInf rec = Ok (true, rec') /\ h_t rec' = Fin 0.
Proof.
  intros rec He Hm. pose proof (l_min_pos L) as Lm. pose proof (l_eps_pos L) as Lp. pose proof PI2_1 as Pi.
  assert (Hok : helicoid_ok tall_helicoid) by (split; cbn; lra). split; [exact Hok|].
  split; [cbn; lra|]. split; [left; cbn; ring|]. split.
  { cbn [slant_ray r_dir vz vy tall_helicoid he_radius he_speed]. rewrite !Rabs_pos_eq by lra. replace (2 * PI * 1 * / 2 / (2 * PI)) with (/ 2) by (field; lra). nra. }
  destruct (slant_window Hm) as (h & Hh & W). pose proof (slant_newton h Hh He Hm) as T.
  rewrite (hit_eq tall_helicoid slant_ray (Fin 0) PInf (Fin 0) (Fin h) 0 (/ 2) (/ 2) rec W T).
  assert (RA : ray_at (F:=X) (finray slant_ray) (Fin 0) = fin3 (pointR slant_ray 0)) by apply ray_at_fin. change (@num X) with xr in *. rewrite RA. set (rec1 := set_p _ _).
  destruct (helicoid_forms_fin (L:=L) tall_helicoid slant_ray (/ 2) (/ 2) rec1 Hok eq_refl eq_refl) as (F1 & F2 & F3 & F4 & _).
  assert (P2 : 2 * PI * / 2 = PI) by field.
  destruct (helicoid_finish_eq (L:=L) tall_helicoid slant_ray 0 (/ 2) (/ 2) _ F1 F3 F4) as [K _].
  - etransitivity; [exact F2|]. unfold rec1; cbn [set_p h_p]. f_equal. unfold pointR, lineR, addR, scaleR, helicoid_sigma, slant_ray, tall_helicoid; cbn [r_orig r_dir vx vy vz he_radius he_speed].
    rewrite P2, cos_PI, sin_PI. apply V3_ext; field.
  - destruct K as [c Ec].
    + unfold detR, helicoid_matrix, tall_helicoid, slant_ray; cbn [he_radius he_speed r_dir m00 m01 m02 m10 m11 m12 m20 m21 m22 vx vy vz].
      rewrite P2, cos_PI, sin_PI. match goal with |- _ < Rabs ?x => replace x with (5 / 2 * PI) by field end.
      rewrite Rabs_pos_eq; lra.
    + change (@num X) with xr in *. rewrite Ec. eexists; split; [reflexivity|]. exact F1.
Qed.
End E.
