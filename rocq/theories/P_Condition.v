(** The helicoid's condition number, the stored gradients, and when the inverse fails. *)
From Coq Require Import Reals Lra ZArith List Bool.
From Verif Require Import Num XR FL Spec M_Vec M_Matrix M_Roots M_Rng M_Hittable M_Iter M_Surfaces
  Spec_Scene Spec_Shapes Spec_Surfaces Spec_Iter Spec_Matrix
  P_Vec P_Matrix P_Sphere P_Angle P_Curvature P_Normals P_Bisect P_Helicoid P_Enneper E_Surfaces.
Import ListNotations.
Local Open Scope R_scope.

(** ** newton in the plane is always defined *)
Section Plane.
Context {F : NumOps}.
Local Open Scope num_scope.
Definition plane_system (f : system) : Prop := forall w, exists x y p q r s, f w = ([x; y], [[p; q]; [r; s]]).
Lemma accept_inv : forall f ends s dw ng, let s' := newton_accept f ends s dw ng in f (ns_guess s') = (ns_v s', ns_J s').
Proof.
  intros f ends s dw ng. cbv zeta. unfold newton_accept. destruct (f ng) as [v1 J1] eqn:E1.
  destruct (_ >? ns_g s); [|cbn; exact E1].
  match goal with |- context [ladd (ns_guess s) (lscale ?l dw)] => set (ng2 := ladd (ns_guess s) (lscale l dw)) end. cbv zeta.
  destruct (f ng2) as [v2 J2] eqn:E2.
  destruct (_ >? ns_g s); [|cbn; exact E2].
  destruct (random_point ends (ns_rng s)) as [p g']. destruct (f p) as [v3 J3] eqn:E3. cbn. exact E3.
Qed.
Lemma body_ok : forall f ends s, plane_system f -> f (ns_guess s) = (ns_v s, ns_J s) ->
  exists a, newton_nd_body f ends s = Ok a /\ match a with Return _ => True | Go s' => f (ns_guess s') = (ns_v s', ns_J s') end.
Proof.
  intros f ends s P H. unfold newton_nd_body.
  assert (Sv : exists dw, lsolve (ns_J s) (lneg (ns_v s)) = Ok dw).
  { destruct (P (ns_guess s)) as (x & y & p & q & r & t & E). rewrite E in H. injection H as <- <-. eexists. reflexivity. }
  destruct Sv as (dw & ->). cbn [obind]. destruct (contains_vec _ _); [eexists; split; [reflexivity|apply accept_inv]|].
  destruct (_ <=? _); [|eexists; split; [reflexivity|apply accept_inv]].
  destruct (random_point ends (ns_rng s)) as [p g']. destruct (Nat.ltb 6 (S (ns_left s))); [eexists; split; [reflexivity|exact Logic.I]|].
  destruct (f p) as [v J] eqn:E. eexists. split; [reflexivity|cbn; exact E].
Qed.
Lemma newton_plane_loop : forall f ends n s, plane_system f -> f (ns_guess s) = (ns_v s, ns_J s) -> exists r, newton_nd_loop f ends n s = Ok r.
Proof.
  intros f ends n s P. revert s. induction n as [|n IH]; intros s H; cbn [newton_nd_loop];
    destruct (body_ok f ends s P H) as (a & -> & K); cbn [obind]; (destruct a as [a|s']; [eexists; reflexivity|]).
  - destruct (lmaxnorm _ >? _); eexists; reflexivity.
  - destruct (lmaxnorm _ >? _); [apply IH; exact K|eexists; reflexivity].
Qed.
Lemma newton_plane : forall f b g n, plane_system f -> exists r, newton_nd f b g n = Ok r.
Proof. intros f b g n P. unfold newton_nd. destruct (f g) as [v J] eqn:E. apply newton_plane_loop; [exact P|exact E]. Qed.
Lemma helicoid_plane : forall s o d, plane_system (helicoid_system s o d).
Proof. intros s o d w. do 6 eexists. reflexivity. Qed.
Lemma tuv_defined : forall s o d lo hi, exists w, helicoid_tuv s o d lo hi = Ok w.
Proof.
  intros s o d lo hi. unfold helicoid_tuv. destruct (nabs (vz d) <=? nmin); [eexists; reflexivity|]. destruct (_ <=? nmin); [eexists; reflexivity|].
  unfold helicoid_general. destruct (helicoid_vbounds s o d lo hi) as [vmin vmax].
  match goal with |- context [newton_nd ?f ?b ?g ?n] => destruct (newton_plane f b g n (helicoid_plane s o d)) as (r & ->) end. eexists. reflexivity.
Qed.
End Plane.

Section Condition.
Context {L : limits}.
Notation eps := (l_eps L).

Lemma matrix_columns : forall s d u v, helicoid_matrix s d u v = columns (helicoid_su s u v) (helicoid_sv s u v) (negR d).
Proof.
  intros s d u v. unfold helicoid_matrix, columns, helicoid_su, helicoid_sv, negR; cbn [vx vy vz].
  f_equal; ring.
Qed.
Lemma matrix_det : forall s d u v, detR (helicoid_matrix s d u v) = - dotR (crossR (helicoid_su s u v) (helicoid_sv s u v)) d.
Proof.
  intros s d u v. rewrite matrix_columns. unfold columns, detR, dotR, crossR, negR; cbn [m00 m01 m02 m10 m11 m12 m20 m21 m22 vx vy vz]. ring.
Qed.


Lemma maxnorm_from : forall l a, exists m, fold_left (fun m x => if nltb (NumOps:=XR L) m (nabs (NumOps:=XR L) x) then nabs (NumOps:=XR L) x else m) (map Fin l) (Fin a) = Fin m /\
  greatest m (a :: map Rabs l).
Proof.
  induction l as [|x l IH]; intros a; cbn [map fold_left].
  - exists a. split; [reflexivity|]. split; [left; reflexivity|repeat constructor; lra].
  - xred. destruct (Rltb_spec a (Rabs x)) as [H|H]; [destruct (IH (Rabs x)) as (m & E & In_ & Al)|destruct (IH a) as (m & E & In_ & Al)].
    + exists m. split; [exact E|]. split; [right; exact In_|]. inversion Al; subst. constructor; [lra|exact Al].
    + exists m. split; [exact E|]. split; [destruct In_ as [->|In_]; [left; reflexivity|right; right; exact In_]|].
      inversion Al; subst. constructor; [assumption|]. constructor; [lra|assumption].
Qed.
Lemma matrix_norm_fin : forall m : mat3 R, exists b, matrix_max_norm (F:=XR L) (finm3 m) = Fin b /\ greatest b (map Rabs (entries m)).
Proof.
  intros [a b c d e f g h i]. unfold matrix_max_norm, finm3, entries; cbn [m00 m01 m02 m10 m11 m12 m20 m21 m22].
  destruct (maxnorm_from [b; c; d; e; f; g; h; i] (Rabs a)) as (m & E & G). exists m. split; [exact E|exact G].
Qed.

Lemma finish_cond : forall s (r : ray R) t u v (rec rec' : hit_record xr), h_t rec = Fin t -> h_u rec = Fin u -> h_v rec = Fin v ->
  (Rabs (detR (helicoid_matrix s (r_dir r) u v)) <= l_min L -> helicoid_finish (F:=XR L) (finhelicoid s) (finray r) rec = Undef) /\
  (l_min L < Rabs (detR (helicoid_matrix s (r_dir r) u v)) -> exists b M big, helicoid_finish (F:=XR L) (finhelicoid s) (finray r) rec = Ok (b, set_cond (xdiv (Fin big) (Fin (Rmax (Rmax u v) t))) rec) /\
    mmR (helicoid_matrix s (r_dir r) u v) M = id3R /\ mmR M (helicoid_matrix s (r_dir r) u v) = id3R /\ greatest big (map Rabs (entries M))).
Proof.
  intros s r t u v rec rec' Et Eu Ev. unfold helicoid_finish. change (@num (XR L)) with xr.
  rewrite Et, Eu, Ev. unfold helicoid_J. rewrite helicoid_at_fin.
  cbn [m00 m01 m02 m10 m11 m12 m20 m21 m22 finray r_dir finhelicoid he_radius he_speed].
  cbn [fin3 map3 helicoid_sigma vx vy vz]. xred.
  match goal with |- context [inverse3_value ?m] => change m with (finm3 (helicoid_matrix s (r_dir r) u v)) end. split; intros D.
  - rewrite (inverse3_value_undefined L) by exact D. reflexivity.
  - unfold inverse3_value. destruct (inverse3_correct L (helicoid_matrix s (r_dir r) u v) (finm3 (helicoid_matrix s (r_dir r) u v))) as [X _].
    destruct (X D) as (w & E & I1 & I2). change (@num (XR L)) with xr in *. rewrite E. cbn [obind].
    destruct (matrix_norm_fin w) as (big & Eb & G). change (@num (XR L)) with xr in *. rewrite Eb.
    destruct (std_max3_spec (L:=L) u v t) as (m & Em & H1 & H2 & H3 & H4). change (@num (XR L)) with xr in *. rewrite Em.
    assert (Mx : Rmax (Rmax u v) t = m) by (unfold Rmax; destruct (Rle_dec u v); destruct (Rle_dec _ t); lra). rewrite Mx.
    eexists. exists w, big. split; [reflexivity|]. split; [exact I1|]. split; [exact I2|exact G].
Qed.

Lemma hit_eq : forall s (r : ray R) (lo hi lo' hi' : xr) (t u v : R) (rec : hit_record xr),
  helicoid_window (F:=XR L) (finhelicoid s) (finray r) lo hi = Some (lo', hi') ->
  helicoid_tuv (F:=XR L) (finhelicoid s) (fin3 (r_orig r)) (fin3 (r_dir r)) lo' hi' = Ok (Fin t, Fin u, Fin v) ->
  helicoid_hit (F:=XR L) (finhelicoid s) (finray r) lo hi rec = helicoid_finish (F:=XR L) (finhelicoid s) (finray r)
    (helicoid_forms (F:=XR L) (finhelicoid s) (finray r) (set_p (ray_at (F:=XR L) (finray r) (Fin t)) (set_v (Fin v) (set_u (Fin u) (set_t (Fin t) rec))))).
Proof.
  intros s r lo hi lo' hi' t u v rec W T. unfold helicoid_hit. rewrite W.
  change (r_orig (finray r)) with (fin3 (r_orig r)). change (r_dir (finray r)) with (fin3 (r_dir r)). rewrite T. reflexivity.
Qed.

(** ** a hit is defined unless the ray touches the surface where it is found *)
Lemma hit_outcome : forall (s : helicoid R) (r : ray R) (lo hi : xr) (rec : hit_record xr), helicoid_ok s -> direction_ok (l_min L) (r_dir r) ->
  (exists rec', helicoid_hit (F:=XR L) (finhelicoid s) (finray r) lo hi rec = Ok (false, rec') ) \/
  exists lo' hi' t u v, helicoid_window (F:=XR L) (finhelicoid s) (finray r) lo hi = Some (lo', hi') /\
    helicoid_tuv (F:=XR L) (finhelicoid s) (fin3 (r_orig r)) (fin3 (r_dir r)) lo' hi' = Ok (Fin t, Fin u, Fin v) /\
    let tilt := Rabs (dotR (crossR (helicoid_su s u v) (helicoid_sv s u v)) (r_dir r)) in
    (tilt <= l_min L -> helicoid_hit (F:=XR L) (finhelicoid s) (finray r) lo hi rec = Undef) /\
    (l_min L < tilt -> exists b rec' M big, helicoid_hit (F:=XR L) (finhelicoid s) (finray r) lo hi rec = Ok (b, rec') /\
       h_t rec' = Fin t /\ h_u rec' = Fin u /\ h_v rec' = Fin v /\ h_cond rec' = xdiv (Fin big) (Fin (Rmax (Rmax u v) t)) /\
       mmR (columns (helicoid_su s u v) (helicoid_sv s u v) (negR (r_dir r))) M = id3R /\ mmR M (columns (helicoid_su s u v) (helicoid_sv s u v) (negR (r_dir r))) = id3R /\
       greatest big (map Rabs (entries M))).
Proof.
  intros s r lo hi rec Hok Hd.
  destruct (helicoid_window (F:=XR L) (finhelicoid s) (finray r) lo hi) as [[lo' hi']|] eqn:W; [|left; unfold helicoid_hit; rewrite W; eexists; reflexivity].
  destruct (tuv_defined (F:=XR L) (finhelicoid s) (fin3 (r_orig r)) (fin3 (r_dir r)) lo' hi') as ([[t u] v] & T).
  destruct r as [o d]. cbn [r_orig r_dir] in *.
  destruct (helicoid_tuv_spec s o d lo hi lo' hi' t u v Hok Hd W T) as [->|(t' & u' & v' & -> & -> & -> & _)].
  { left. unfold helicoid_hit. rewrite W. change (r_orig (finray (Ray o d))) with (fin3 o). change (r_dir (finray (Ray o d))) with (fin3 d). rewrite T. eexists. reflexivity. }
  right. exists lo', hi', t', u', v'. split; [reflexivity|]. split; [exact T|]. cbv zeta. rewrite (hit_eq s (Ray o d) lo hi lo' hi' t' u' v' rec W T).
  set (rec1 := set_p _ _).
  destruct (helicoid_forms_fin (L:=L) s (Ray o d) u' v' rec1 Hok eq_refl eq_refl) as (F1 & F2 & F3 & F4 & _).
  set (rec2 := helicoid_forms (F:=XR L) (finhelicoid s) (finray (Ray o d)) rec1) in *.
  destruct (finish_cond s (Ray o d) t' u' v' rec2 rec2 F1 F3 F4) as [C1 C2]. cbn [r_dir] in C1, C2. rewrite matrix_det, Rabs_Ropp in C1, C2. rewrite matrix_columns in C2.
  split; [exact C1|]. intros D. destruct (C2 D) as (b & M & big & K & I1 & I2 & G). exists b, (set_cond (xdiv (Fin big) (Fin (Rmax (Rmax u' v') t'))) rec2), M, big.
  split; [exact K|]. cbn [set_cond h_t h_u h_v h_cond]. change (@num (XR L)) with xr in *. rewrite F1, F3, F4. auto 10.
Qed.

Lemma condition_number : forall (s : helicoid R) (r : ray R) (lo hi : xr) (rec rec' : hit_record xr), helicoid_ok s -> direction_ok (l_min L) (r_dir r) ->
  helicoid_hit (F:=XR L) (finhelicoid s) (finray r) lo hi rec = Ok (true, rec') ->
  exists t u v su sv M big, h_t rec' = Fin t /\ h_u rec' = Fin u /\ h_v rec' = Fin v /\ partials (helicoid_sigma s) su sv /\
    mmR (columns (su u v) (sv u v) (negR (r_dir r))) M = id3R /\ mmR M (columns (su u v) (sv u v) (negR (r_dir r))) = id3R /\
    greatest big (map Rabs (entries M)) /\ (0 < Rmax (Rmax u v) t -> h_cond rec' = Fin (big / Rmax (Rmax u v) t)) /\
    h_grad rec' = Fin (normR (crossR (su u v) (sv u v))).
Proof.
  intros s r lo hi rec rec' Hok Hd H.
  destruct (hit_outcome s r lo hi rec Hok Hd) as [(r0 & K)|(lo' & hi' & t & u & v & _ & _ & K1 & K2)]; [rewrite H in K; discriminate|].
  destruct (Rle_lt_dec (Rabs (dotR (crossR (helicoid_su s u v) (helicoid_sv s u v)) (r_dir r))) (l_min L)) as [D|D]; [rewrite (K1 D) in H; discriminate|].
  destruct (K2 D) as (b & r0 & M & big & K & Et & Eu & Ev & Ec & I1 & I2 & G). rewrite H in K. injection K as <- <-.
  exists t, u, v, (helicoid_su s), (helicoid_sv s), M, big. do 3 (split; [assumption|]). split; [apply helicoid_partials|]. do 3 (split; [assumption|]). split.
  - intros P. change (@num (XR L)) with xr in *. rewrite Ec, xdiv_fin by lra. reflexivity.
  - destruct (helicoid_hit_record s r lo hi rec rec' Hok Hd H) as (u2 & v2 & E1 & E2 & _ & _ & Gr & _). change (@num (XR L)) with xr in *. rewrite Eu in E1. rewrite Ev in E2. injection E1 as <-. injection E2 as <-.
    change (@num (XR L)) with xr in *. rewrite Gr. f_equal. destruct Hok as [Hr Hs].
    replace (crossR (helicoid_su s u v) (helicoid_sv s u v)) with (scaleR (he_radius s) (helicoid_up s u v)).
    + rewrite normR_scale, Rabs_pos_eq by lra. reflexivity.
    + unfold crossR, scaleR, helicoid_su, helicoid_sv, helicoid_up; cbn [vx vy vz]. pose proof (sc2 (2 * PI * u)) as S2.
      apply V3_ext; try ring.
      replace (_ - _) with (- (2 * PI * he_radius s * v * he_radius s) * (sin (2 * PI * u) * sin (2 * PI * u) + cos (2 * PI * u) * cos (2 * PI * u))) by ring.
      rewrite S2; ring.
Qed.

Lemma hit_defined : forall (s : helicoid R) (r : ray R) (lo hi : xr) (rec : hit_record xr), helicoid_ok s -> direction_ok (l_min L) (r_dir r) ->
  (forall rec', helicoid_hit (F:=XR L) (finhelicoid s) (finray r) lo hi rec <> Ok rec') <->
  exists lo' hi' t u v su sv, partials (helicoid_sigma s) su sv /\ helicoid_window (F:=XR L) (finhelicoid s) (finray r) lo hi = Some (lo', hi') /\
    helicoid_tuv (F:=XR L) (finhelicoid s) (fin3 (r_orig r)) (fin3 (r_dir r)) lo' hi' = Ok (Fin t, Fin u, Fin v) /\
    Rabs (dotR (crossR (su u v) (sv u v)) (r_dir r)) <= l_min L.
Proof.
  intros s r lo hi rec Hok Hd.
  assert (Uq : forall su sv, partials (helicoid_sigma s) su sv -> forall u v, su u v = helicoid_su s u v /\ sv u v = helicoid_sv s u v).
  { intros su sv P u v. destruct (helicoid_partials s) as [Q _]. apply (partials_unique _ _ _ _ _ P Q). }
  destruct (hit_outcome s r lo hi rec Hok Hd) as [(r0 & K)|(lo' & hi' & t & u & v & W & T & K1 & K2)].
  - split; [intros H; exfalso; exact (H _ K)|]. intros (lo' & hi' & t & u & v & su & sv & P & W & T & D). exfalso.
    rewrite (hit_eq s r lo hi lo' hi' t u v rec W T) in K. revert K. set (rec1 := set_p _ _).
    destruct (Uq su sv P u v) as [E1 E2]. rewrite E1, E2 in D.
    destruct (helicoid_forms_fin (L:=L) s r u v rec1 Hok eq_refl eq_refl) as (F1 & _ & F3 & F4 & _).
    destruct (finish_cond s r t u v (helicoid_forms (F:=XR L) (finhelicoid s) (finray r) rec1) rec F1 F3 F4) as [C1 _]. rewrite matrix_det, Rabs_Ropp in C1.
    rewrite (C1 D). discriminate.
  - cbv zeta in K1, K2. split.
    + intros H. exists lo', hi', t, u, v, (helicoid_su s), (helicoid_sv s). split; [apply helicoid_partials|]. split; [exact W|]. split; [exact T|].
      apply Rnot_lt_le. intros D. destruct (K2 D) as (b & r0 & _ & _ & K & _). exact (H _ K).
    + intros (lo2 & hi2 & t2 & u2 & v2 & su & sv & P & W2 & T2 & D) rec'. rewrite W in W2. injection W2 as <- <-. rewrite T in T2. injection T2 as <- <- <-.
      destruct (Uq su sv P u v) as [E1 E2]. rewrite E1, E2 in D. rewrite (K1 D). discriminate.
Qed.

(** ** Enneper *)
Lemma enneper_gradient : forall uvt (s : enneper R) (r : ray R) (lo hi : xr) (rec rec' : hit_record xr),
  (forall o d a b w, uvt o d a b = Ok w -> (exists u v t, w = [Fin u; Fin v; Fin t]) \/ w = [NaN; NaN; NaN]) ->
  enneper_hit_with (F:=XR L) uvt (finenneper s) (finray r) lo hi rec = Ok (true, rec') ->
  exists u v su sv, partials enneper_sigma su sv /\ h_u rec' = Fin u /\ h_v rec' = Fin v /\ h_grad rec' = Fin (normR (crossR (su u v) (sv u v))).
Proof.
  intros uvt s r lo hi rec rec' Or H. unfold enneper_hit_with in H.
  destruct (enneper_window (F:=XR L) (finenneper s) (finray r) lo hi) as [[lo' hi']|] eqn:W; [|discriminate].
  match type of H with obind ?e _ = _ => destruct e as [w| |] eqn:U end; cbn [obind] in H; try discriminate.
  apply Ok_inj in H. destruct (Or _ _ _ _ _ U) as [(u & v & t & ->)| ->]; [|cbn in H; discriminate]. clear U.
  unfold enneper_finish in H. cbn [nth] in H. change (@num (XR L)) with xr in H. cbn [nisnan XR xisnan] in H.
  repeat match type of H with (if ?c then _ else _) = _ => destruct c; [discriminate|] end. injection H as <-.
  match goal with |- context [enneper_forms _ _ _ ?r1] => set (rec1 := r1) end.
  destruct (enneper_forms_fin (L:=L) r u v rec1) as (_ & _ & F3 & F4 & _ & Fg & _).
  exists u, v, enneper_su, enneper_sv. split; [apply enneper_partials|]. split; [exact F3|]. split; [exact F4|]. refine (eq_trans Fg _). f_equal.
  assert (C : crossR (enneper_su u v) (enneper_sv u v) = scaleR (ew u v) (enneper_up u v)).
  { unfold crossR, scaleR, enneper_su, enneper_sv, enneper_up; cbn [vx vy vz]. apply V3_ext; ring. }
  pose proof (ew_pos u v) as Pw. rewrite C, normR_scale, Rabs_pos_eq, enneper_up_norm by lra. ring.
Qed.
End Condition.
