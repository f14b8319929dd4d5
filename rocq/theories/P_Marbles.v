(** The random scene of render_spheres.cpp. *)
From Coq Require Import Reals Lra ZArith Lia List Bool.
From Verif Require Import Num XR Spec Spec_Scene Spec_Light Spec_Shapes Spec_World Spec_Programs M_Vec M_Rng M_Hittable M_Materials M_Shapes M_World M_Programs P_Vec.
Import ListNotations.
Local Open Scope R_scope.

Section Marbles.
Context {L : limits}.
Notation X := (XR L).

Lemma dec_eq : forall n d, (d <> 0)%Z -> dec (F:=X) n d = Fin (IZR n / IZR d).
Proof. intros n d H. unfold dec. cbn [nofZ ndiv XR]. apply xdiv_fin. apply not_0_IZR. exact H. Qed.
Lemma dec_red : forall n d r, (d <> 0)%Z -> IZR n / IZR d = r -> dec (F:=X) n d = Fin r.
Proof. intros n d r H <-. apply dec_eq. exact H. Qed.
Lemma half_eq : forall r, ndiv (NumOps:=X) (Fin r) (nofZ (NumOps:=X) 2) = Fin (r / 2).
Proof. intros r. cbn [nofZ ndiv XR]. apply xdiv_fin. lra. Qed.

Lemma unit_prod : forall a b, 0 <= a < 1 -> 0 <= b < 1 -> 0 <= a * b < 1.
Proof. intros. split; [apply Rmult_le_pos; lra|]. apply Rle_lt_trans with (1 * b); [apply Rmult_le_compat_r; lra|lra]. Qed.
Lemma dist_lt_sq : forall r p q, 0 <= r -> r < distR p q -> r * r < normsqR (subR p q).
Proof. intros r p q Hr H. unfold distR in H. rewrite <- normR_sq. apply Rmult_le_0_lt_compat; lra. Qed.
Lemma sq_dist_lt : forall r p q, 0 <= r -> r * r < normsqR (subR p q) -> r < distR p q.
Proof. intros r p q Hr H. unfold distR, normR. rewrite <- (sqrt_square r Hr). apply sqrt_lt_1_alt. split; [nra|exact H]. Qed.
Lemma sq_dist_le : forall r p q, 0 <= r -> r * r <= normsqR (subR p q) -> r <= distR p q.
Proof. intros r p q Hr H. unfold distR, normR. rewrite <- (sqrt_square r Hr). apply sqrt_le_1_alt. exact H. Qed.
Lemma dist_le_sq : forall r p q, 0 <= r -> distR p q <= r -> normsqR (subR p q) <= r * r.
Proof. intros r p q Hr H. unfold distR in H. rewrite <- normR_sq. pose proof (normR_nonneg (subR p q)). apply Rmult_le_compat; lra. Qed.

Lemma IZR_between : forall (a : Z) lo hi, lo < IZR a -> IZR a < hi -> forall m n, IZR m <= lo -> hi <= IZR n -> (m < a < n)%Z.
Proof. intros a lo hi H1 H2 m n Hm Hn. split; apply lt_IZR; lra. Qed.

Lemma cell_spec : forall a b d, unit_draws d -> exists x d', cell (F:=X) a b (fun n => Fin (d n)) = (map marble_item x, fun n => Fin (d' n)) /\ unit_draws d' /\
  ((x = [] /\ (a = 3 \/ a = 4)%Z /\ (b = -1 \/ b = 0)%Z) \/
   (exists c m, x = [(c, m)] /\ in_cell a b c /\ 9 / 10 < distR c (V3 4 (1 / 5) 0) /\ marble_material m /\ c = V3 (IZR a + 9 / 10 * d 1%nat) (1 / 5) (IZR b + 9 / 10 * d 2%nat))) /\
  exists k, forall n, d' n = d (3 + (k + n))%nat.
Proof.
  intros a b d U. unfold cell.
  rewrite (dec_red 9 10 (9 / 10)), (dec_red 2 10 (1 / 5)), (dec_red 5 10 (1 / 2)), (dec_red 75 100 (3 / 4)), (dec_red 15 10 (3 / 2)) by (try discriminate; lra).
  cbv zeta. unfold later. cbv beta. cbn [Nat.add].
  change (nadd (NumOps:=X) (nofZ (NumOps:=X) a) (nmul (NumOps:=X) (Fin (9 / 10)) (Fin (d 1%nat)))) with (Fin (IZR a + 9 / 10 * d 1%nat)).
  change (nadd (NumOps:=X) (nofZ (NumOps:=X) b) (nmul (NumOps:=X) (Fin (9 / 10)) (Fin (d 2%nat)))) with (Fin (IZR b + 9 / 10 * d 2%nat)).
  set (c := V3 (IZR a + 9 / 10 * d 1%nat) (1 / 5) (IZR b + 9 / 10 * d 2%nat)).
  change (V3 (Fin (IZR a + 9 / 10 * d 1%nat)) (Fin (1 / 5)) (Fin (IZR b + 9 / 10 * d 2%nat))) with (fin3 c).
  change (V3 (nofZ (NumOps:=X) 4) (Fin (1 / 5)) (nofZ (NumOps:=X) 0)) with (fin3 (V3 4 (1 / 5) 0)).
  change (vsub (F:=X) (fin3 c) (fin3 (V3 4 (1 / 5) 0))) with (fin3 (subR c (V3 4 (1 / 5) 0))).
  change (Sphere (fin3 c) (Fin (1 / 5))) with (finsphere (Sphere c (1 / 5))).
  rewrite norm_fin. fold (distR c (V3 4 (1 / 5) 0)).
  change (nltb (NumOps:=X) (Fin (9 / 10)) (Fin (distR c (V3 4 (1 / 5) 0)))) with (Rltb (9 / 10) (distR c (V3 4 (1 / 5) 0))).
  change (nltb (NumOps:=X) (Fin (d 0%nat)) (Fin (1 / 2))) with (Rltb (d 0%nat) (1 / 2)).
  change (nltb (NumOps:=X) (Fin (d 0%nat)) (Fin (3 / 4))) with (Rltb (d 0%nat) (3 / 4)).
  rewrite !half_eq.
  pose proof (U 1%nat) as U1. pose proof (U 2%nat) as U2. pose proof (U 3%nat) as U3. pose proof (U 4%nat) as U4. pose proof (U 5%nat) as U5. pose proof (U 6%nat) as U6. pose proof (U 7%nat) as U7. pose proof (U 8%nat) as U8.
  assert (Ic : in_cell a b c) by (unfold in_cell, c; cbn [vx vy vz]; lra).
  destruct (Rltb_spec (9 / 10) (distR c (V3 4 (1 / 5) 0))) as [H|H].
  - destruct (Rltb_spec (d 0%nat) (1 / 2)) as [H0|H0]; [|destruct (Rltb_spec (d 0%nat) (3 / 4)) as [H1|H1]].
    + exists [(c, Lambertian (F:=X) (solid_color (F:=X) (fin3 (V3 (d 3%nat * d 4%nat) (d 5%nat * d 6%nat) (d 7%nat * d 8%nat)))))], (fun n => d (3 + (6 + n))%nat).
      split; [reflexivity|]. split; [intros n; apply U|]. split; [|exists 6%nat; reflexivity]. right. eexists _, _. split; [reflexivity|]. split; [exact Ic|]. split; [exact H|]. split; [|reflexivity]. constructor. unfold unit_color; cbn [vx vy vz]. repeat split; apply unit_prod; assumption.
    + exists [(c, Metal (F:=X) (solid_color (F:=X) (fin3 (V3 (d 3%nat / 2 + 1 / 2) (d 4%nat / 2 + 1 / 2) (d 5%nat / 2 + 1 / 2)))))], (fun n => d (3 + (3 + n))%nat).
      split; [reflexivity|]. split; [intros n; apply U|]. split; [|exists 3%nat; reflexivity]. right. eexists _, _. split; [reflexivity|]. split; [exact Ic|]. split; [exact H|]. split; [|reflexivity]. constructor. unfold unit_color; cbn [vx vy vz]. lra.
    + exists [(c, Dielectric (F:=X) (Fin (3 / 2)) (solid_color (F:=X) (fin3 (V3 0 0 0))))], (fun n => d (3 + n)%nat).
      split; [reflexivity|]. split; [intros n; apply U|]. split; [|exists 0%nat; reflexivity]. right. eexists _, _. split; [reflexivity|]. split; [exact Ic|]. split; [exact H|]. split; [|reflexivity]. constructor.
  - exists [], (fun n => d (3 + n)%nat). split; [reflexivity|]. split; [intros n; apply U|]. split; [|exists 0%nat; reflexivity]. left. split; [reflexivity|].
    apply dist_le_sq in H; [|lra]. unfold normsqR, dotR, subR, c in H; cbn [vx vy vz] in H.
    set (p := IZR a + 9 / 10 * d 1%nat - 4) in *. set (q := IZR b + 9 / 10 * d 2%nat - 0) in *.
    assert (Hp : -1 < p < 1) by (pose proof (Rle_0_sqr q); unfold Rsqr in *; nra).
    assert (Hq : -1 < q < 1) by (pose proof (Rle_0_sqr p); unfold Rsqr in *; nra).
    unfold p, q in Hp, Hq. split.
    + assert (2 < a < 5)%Z; [split; apply lt_IZR; nra|lia].
    + assert (-2 < b < 1)%Z; [split; apply lt_IZR; nra|lia].
Qed.

Definition near (c : Z * Z) : bool := ((Z.eqb (fst c) 3 || Z.eqb (fst c) 4) && (Z.eqb (snd c) (-1) || Z.eqb (snd c) 0))%bool.
Lemma IZR_apart : forall a b : Z, a <> b -> IZR a + 1 <= IZR b \/ IZR b + 1 <= IZR a.
Proof.
  intros a b H. destruct (Z_lt_le_dec a b) as [K|K].
  - left. rewrite <- plus_IZR. apply IZR_le. lia.
  - right. rewrite <- plus_IZR. apply IZR_le. lia.
Qed.
Lemma apart : forall a b a' b' c c', (a, b) <> (a', b') -> in_cell a b c -> in_cell a' b' c' -> 1 / 10 < distR c c'.
Proof.
  intros a b a' b' c c' N (X1 & Y1 & Z1) (X2 & Y2 & Z2). apply sq_dist_lt; [lra|]. unfold normsqR, dotR, subR; cbn [vx vy vz].
  pose proof (Rle_0_sqr (vx c - vx c')) as Sx. pose proof (Rle_0_sqr (vy c - vy c')) as Sy. pose proof (Rle_0_sqr (vz c - vz c')) as Sz. unfold Rsqr in *.
  assert (D : a <> a' \/ b <> b') by (destruct (Z.eq_dec a a'); [right; congruence|left; assumption]).
  assert (Q : forall x, 1 / 10 < x \/ x < - (1 / 10) -> 1 / 10 * (1 / 10) < x * x) by (intros x [H|H]; nra).
  destruct D as [D|D]; apply IZR_apart in D.
  - assert (1 / 10 * (1 / 10) < (vx c - vx c') * (vx c - vx c')) by (apply Q; lra). lra.
  - assert (1 / 10 * (1 / 10) < (vz c - vz c') * (vz c - vz c')) by (apply Q; lra). lra.
Qed.
Definition in_own_cell (k : Z * Z) (x : vec3 R * material (F:=X)) : Prop := in_cell (fst k) (snd k) (fst x).
Lemma place_spec : forall cells d, unit_draws d -> exists (kept : list (Z * Z)) (small : list (vec3 R * material (F:=X))), place (F:=X) cells (fun n => Fin (d n)) = map marble_item small /\
  Forall2 in_own_cell kept small /\ incl kept cells /\ (NoDup cells -> NoDup kept) /\ (forall k, In k cells -> near k = false -> In k kept) /\
  Forall (fun x => 9 / 10 < distR (fst x) (V3 4 (1 / 5) 0) /\ marble_material (snd x)) small /\
  (length cells <= length small + length (filter near cells))%nat /\ (length small <= length cells)%nat.
Proof.
  induction cells as [|[a b] cells IH]; intros d U.
  - exists [], []. cbn. repeat split; try lia; try constructor; intros x []; contradiction.
  - cbn [place]. destruct (cell_spec a b d U) as (x & d' & E & U' & C & _). rewrite E.
    destruct (IH d' U') as (kept & small & Es & F2 & In1 & Nd & Al & Fa & L1 & L2). rewrite Es, <- map_app. cbn [filter].
    destruct C as [(-> & Ha & Hb)|(c & m & -> & Ic & Dc & Mm & _)].
    + assert (Nr : near (a, b) = true) by (unfold near; cbn [fst snd]; destruct Ha as [-> | ->], Hb as [-> | ->]; reflexivity).
      exists kept, small. rewrite Nr. cbn [length app]. split; [reflexivity|]. split; [exact F2|]. split; [intros y I; right; exact (In1 y I)|]. split; [intros N; inversion N; auto|].
      split; [|split; [exact Fa|lia]]. intros k [<-|I] Hk; [congruence|apply Al; assumption].
    + exists ((a, b) :: kept), ((c, m) :: small). split; [reflexivity|]. split; [constructor; [exact Ic|exact F2]|]. split; [intros y [<-|I]; [left; reflexivity|right; exact (In1 y I)]|].
      split; [|split; [|split]].
      * intros N. inversion N; subst. constructor; [|auto]. intros I. apply In1 in I. contradiction.
      * intros k [<-|I] Hk; [left; reflexivity|right; apply Al; assumption].
      * constructor; [split; assumption|exact Fa].
      * cbn [length]. destruct (near (a, b)); cbn [length]; lia.
Qed.
Lemma own_cells_apart : forall kept small, Forall2 in_own_cell kept small -> NoDup kept -> ForallOrdPairs (fun x y => 1 / 10 < distR (fst x) (fst y)) small.
Proof.
  intros kept small H. induction H as [|k x kept small Hk H IH]; intros N; constructor; inversion N; subst; [|auto].
  clear IH. revert H2. induction H as [|k' x' kept small Hk' H IH]; intros NI; constructor.
  - apply apart with (fst k) (snd k) (fst k') (snd k'); [|exact Hk|exact Hk']. rewrite <- !surjective_pairing. intros E. apply NI. left. auto.
  - apply IH; [inversion N; subst; constructor; [intros I; apply NI; right; exact I|inversion H3; assumption]|inversion H3; assumption|intros I; apply NI; right; exact I].
Qed.
End Marbles.

Fixpoint distinct (l : list (Z * Z)) : bool :=
  match l with [] => true | x :: l => (negb (existsb (fun y => Z.eqb (fst x) (fst y) && Z.eqb (snd x) (snd y)) l) && distinct l)%bool end.
Lemma distinct_nodup : forall l, distinct l = true -> NoDup l.
Proof.
  induction l as [|x l IH]; intros H; constructor; cbn [distinct] in H; apply andb_prop in H; destruct H as [H K]; [|apply IH; exact K].
  intros I. apply Bool.negb_true_iff in H. assert (T : existsb (fun y => (Z.eqb (fst x) (fst y) && Z.eqb (snd x) (snd y))%bool) l = true) by (apply existsb_exists; exists x; split; [exact I|rewrite !Z.eqb_refl; reflexivity]).
  rewrite H in T. discriminate.
Qed.
Lemma grid_nodup : NoDup grid.
Proof. apply distinct_nodup. vm_compute. reflexivity. Qed.
Lemma grid_length : length grid = 484%nat.
Proof. vm_compute. reflexivity. Qed.
Lemma grid_near : length (filter near grid) = 4%nat.
Proof. vm_compute. reflexivity. Qed.

Section Scene.
Context {L : limits}.
Notation X := (XR L).

Lemma checker_good : forall c1 c2 : vec3 R, nonneg3 c1 -> nonneg3 c2 -> good_texture (checker_texture (F:=X) (solid_color (F:=X) (fin3 c1)) (solid_color (F:=X) (fin3 c2))).
Proof.
  intros c1 c2 H1 H2 rec p E. unfold checker_texture, solid_color. destruct (nltb _ _); [exists c2|exists c1]; auto.
Qed.
Lemma solid_good : forall c : vec3 R, nonneg3 c -> good_texture (solid_color (F:=X) (fin3 c)).
Proof. intros c H rec p _. exists c. auto. Qed.

(** *** What is in the scene *)
Lemma in_sides : forall a, In a sides <-> (-11 <= a <= 10)%Z.
Proof.
  intros a. unfold sides. rewrite in_map_iff. split.
  - intros (n & <- & I). apply in_seq in I. lia.
  - intros H. exists (Z.to_nat (a + 11)). split; [lia|]. apply in_seq. lia.
Qed.
Lemma in_grid : forall a b, In (a, b) grid <-> (-11 <= a <= 10)%Z /\ (-11 <= b <= 10)%Z.
Proof.
  intros a b. unfold grid. rewrite in_flat_map, <- !in_sides. split.
  - intros (x & I & K). apply in_map_iff in K. destruct K as (y & K & J). injection K as <- <-. split; assumption.
  - intros [H K]. exists a. split; [exact H|]. apply in_map_iff. exists b. split; [reflexivity|exact K].
Qed.
Lemma scattered : forall d, unit_draws d -> exists (g : texture (F:=X)) (cells : list (Z * Z)) (small : list (vec3 R * material (F:=X))),
  random_scene (F:=X) (fun n => Fin (d n)) =
    (of_sphere (F:=X) (finsphere (Sphere (V3 0 (-1000) 0) 1000)), Lambertian (F:=X) g) :: map marble_item small ++
    [(of_sphere (F:=X) (finsphere (Sphere (V3 0 1 0) 1)), Dielectric (F:=X) (Fin (3 / 2)) (solid_color (F:=X) (fin3 (V3 0 0 0))));
     (of_sphere (F:=X) (finsphere (Sphere (V3 (-4) 1 0) 1)), Lambertian (F:=X) (solid_color (F:=X) (fin3 (V3 (2 / 5) (1 / 5) (1 / 10)))));
     (of_sphere (F:=X) (finsphere (Sphere (V3 4 1 0) 1)), Metal (F:=X) (solid_color (F:=X) (fin3 (V3 (7 / 10) (3 / 5) (1 / 2)))))] /\
  good_texture g /\
  (* one ball in every cell, except perhaps in four of them *)
  Forall2 (fun k x => in_cell (fst k) (snd k) (fst x)) cells small /\ NoDup cells /\ (forall a b, In (a, b) cells -> (-11 <= a <= 10)%Z /\ (-11 <= b <= 10)%Z) /\
  (forall a b, (-11 <= a <= 10)%Z -> (-11 <= b <= 10)%Z -> ~ ((3 <= a <= 4)%Z /\ (-1 <= b <= 0)%Z) -> In (a, b) cells) /\ (480 <= length small <= 484)%nat /\
  (* none meets the metal ball or the inside of the ground, and none has its centre near another *)
  Forall (fun x => marble_material (snd x) /\ 1000 + 1 / 5 <= distR (fst x) (V3 0 (-1000) 0) /\ 1 + 1 / 5 < distR (fst x) (V3 4 1 0)) small /\
  ForallOrdPairs (fun x y => 1 / 10 < distR (fst x) (fst y)) small.
Proof.
  intros d U. destruct (place_spec (L:=L) grid d U) as (cells & small & E & F2 & In1 & Nd & Al & Fa & L1 & L2). rewrite grid_length, grid_near in *. specialize (Nd grid_nodup).
  exists (checker_texture (F:=X) (solid_color (F:=X) (fin3 (V3 (1 / 5) (3 / 10) (1 / 10)))) (solid_color (F:=X) (fin3 (V3 (9 / 10) (9 / 10) (9 / 10))))), cells, small.
  split; [|split; [apply checker_good; unfold nonneg3; cbn; lra|split; [exact F2|split; [exact Nd|split; [|split; [|split; [lia|split; [|apply own_cells_apart with cells; assumption]]]]]]]].
  - unfold random_scene, matte, glass. rewrite E.
    rewrite (dec_red 2 10 (1 / 5)), (dec_red 3 10 (3 / 10)), (dec_red 1 10 (1 / 10)), (dec_red 9 10 (9 / 10)), (dec_red 15 10 (3 / 2)), (dec_red 4 10 (2 / 5)), (dec_red 7 10 (7 / 10)), (dec_red 6 10 (3 / 5)), (dec_red 5 10 (1 / 2)) by (try discriminate; lra).
    reflexivity.
  - intros a b I. apply in_grid. apply In1. exact I.
  - intros a b Ha Hb N. apply Al; [apply in_grid; auto|]. unfold near; cbn [fst snd].
    destruct (Z.eqb_spec a 3), (Z.eqb_spec a 4), (Z.eqb_spec b (-1)), (Z.eqb_spec b 0); cbn; try reflexivity; exfalso; apply N; lia.
  - assert (Y : Forall (fun x : vec3 R * material (F:=X) => vy (fst x) = 1 / 5) small).
    { clear - F2. induction F2 as [|k x cells small (_ & Y & _) F2 IH]; constructor; assumption. }
    rewrite Forall_forall in *. intros [c m] I. specialize (Y _ I). destruct (Fa _ I) as [D M]. cbn [fst snd] in *. split; [exact M|].
    apply dist_lt_sq in D; [|lra]. unfold normsqR, dotR, subR in D; cbn [vx vy vz] in D. split.
    + apply sq_dist_le; [lra|]. unfold normsqR, dotR, subR; cbn [vx vy vz]. rewrite Y. pose proof (Rle_0_sqr (vx c - 0)). pose proof (Rle_0_sqr (vz c - 0)). unfold Rsqr in *. lra.
    + apply sq_dist_lt; [lra|]. unfold normsqR, dotR, subR; cbn [vx vy vz]. rewrite Y in *. lra.
Qed.

(** *** Overlaps *)
Lemma place_zero : forall cells d a b, (forall n, d n = 0) -> In (a, b) cells -> near (a, b) = false ->
  exists m, In (marble_item (L:=L) (V3 (IZR a) (1 / 5) (IZR b), m)) (place (F:=X) cells (fun n => Fin (d n))).
Proof.
  induction cells as [|[a' b'] cells IH]; intros d a b Z I N; [destruct I|]. cbn [place].
  destruct (cell_spec (L:=L) a' b' d) as (x & d' & E & U' & C & k & K); [intros n; rewrite Z; lra|]. rewrite E. destruct I as [I|I].
  - injection I as -> ->. destruct C as [(_ & Ha & Hb)|(c & m & -> & _ & _ & _ & Ec)].
    + exfalso. unfold near in N; cbn [fst snd] in N. destruct Ha as [-> | ->], Hb as [-> | ->]; discriminate.
    + exists m. apply in_or_app. left. left. f_equal. rewrite Ec, !Z. f_equal. apply V3_ext; ring.
  - destruct (IH d' a b) as [m Im]; [intros n; rewrite K; apply Z|exact I|exact N|]. exists m. apply in_or_app. right. exact Im.
Qed.
Lemma glass_overlap : exists d m m', unit_draws d /\
  In (of_sphere (F:=X) (finsphere (Sphere (V3 0 (1 / 5) 0) (1 / 5))), m) (random_scene (F:=X) (fun n => Fin (d n))) /\
  In (of_sphere (F:=X) (finsphere (Sphere (V3 0 1 0) 1)), m') (random_scene (F:=X) (fun n => Fin (d n))) /\
  distR (V3 0 (1 / 5) 0) (V3 0 1 0) < 1 / 5 + 1.
Proof.
  assert (U : unit_draws (fun _ => 0)) by (intros n; lra).
  destruct (place_zero grid (fun _ => 0) 0 0) as [m I]; [reflexivity|apply in_grid; lia|reflexivity|].
  eexists (fun _ => 0), m, _. split; [exact U|]. split; [|split].
  - unfold random_scene. right. apply in_or_app. left. exact I.
  - unfold random_scene. right. apply in_or_app. right. left. reflexivity.
  - unfold distR, normR. replace (normsqR _) with (4 / 5 * (4 / 5)) by (unfold normsqR, dotR, subR; cbn; field). rewrite sqrt_square; lra.
Qed.
Lemma marbles_overlap : exists d c1 c2 m1 m2 rest, unit_draws d /\
  random_scene (F:=X) (fun n => Fin (d n)) = hd (of_sphere (F:=X) (finsphere (Sphere (V3 0 0 0) 0)), m1) (random_scene (F:=X) (fun n => Fin (d n))) ::
    (of_sphere (F:=X) (finsphere (Sphere c1 (1 / 5))), m1) :: (of_sphere (F:=X) (finsphere (Sphere c2 (1 / 5))), m2) :: rest /\
  distR c1 c2 < 1 / 5 + 1 / 5.
Proof.
  set (d := fun n : nat => if Nat.eqb n 2 then 8 / 9 else 0).
  assert (U : unit_draws d) by (intros n; unfold d; destruct (Nat.eqb n 2); lra).
  assert (G : exists g, grid = (-11, -11)%Z :: (-11, -10)%Z :: g) by (eexists; reflexivity). destruct G as [g G].
  destruct (cell_spec (L:=L) (-11) (-11) d U) as (x & d' & E & U' & [(_ & Ha & _)|(c & m & -> & _ & _ & _ & Ec)] & k & K); [exfalso; lia|].
  destruct (cell_spec (L:=L) (-11) (-10) d' U') as (x & d'' & E' & _ & [(_ & Ha & _)|(c' & m' & -> & _ & _ & _ & Ec')] & _); [exfalso; lia|].
  exists d, c, c', m, m'. eexists. split; [exact U|]. split.
  - unfold random_scene. rewrite G. cbn [place]. rewrite E, E'. cbn [map app hd marble_item fst snd]. reflexivity.
  - rewrite Ec, Ec', !K. cbn [Nat.add]. unfold d. replace (Nat.eqb (S (S (S (k + 1)))) 2) with false by reflexivity. cbn [Nat.eqb].
    unfold distR, normR. replace (normsqR _) with (1 / 5 * (1 / 5)) by (unfold normsqR, dotR, subR; cbn [vx vy vz]; field). rewrite sqrt_square; lra.
Qed.
End Scene.
