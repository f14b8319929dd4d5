(** C16, C17: the n-dimensional newton and halley. *)
From Coq Require Import Reals Lra Lia ZArith List Bool.
From Verif Require Import Num XR Spec_Iter M_Rng M_Iter P_Bisect P_Rng.
Import ListNotations.
Local Open Scope R_scope.

Lemma iter_plus : forall A (f : A -> A) n m x, Nat.iter (n + m) f x = Nat.iter n f (Nat.iter m f x).
Proof. induction n as [|n IH]; intros m x; [reflexivity|]. simpl in *. now rewrite IH. Qed.

Section Residual.
Variable L : limits.
Local Notation eps := (l_eps L).

Lemma maxnorm_fold : forall v m, exists M,
  fold_left (fun m x => if nltb (NumOps:=XR L) m (nabs (NumOps:=XR L) x) then nabs (NumOps:=XR L) x else m)
    (map Fin v) (Fin m) = Fin M /\ m <= M /\ forall x, In x v -> Rabs x <= M.
Proof.
  induction v as [|x v IH]; intros m; cbn [map fold_left].
  - exists m; repeat split; [lra|]. intros x [].
  - cbn [nltb nabs XR xabs xltb]. destruct (Rltb_spec m (Rabs x)) as [C|C].
    + destruct (IH (Rabs x)) as (M & E & H1 & H2). exists M; split; [exact E|]. split; [lra|].
      intros y [<-|Hy]; auto.
    + destruct (IH m) as (M & E & H1 & H2). exists M; split; [exact E|]. split; [lra|].
      intros y [<-|Hy]; [lra|auto].
Qed.

Lemma lmaxnorm_fin : forall v, exists M, lmaxnorm (F:=XR L) (map Fin v) = Fin M /\ forall x, In x v -> Rabs x <= M.
Proof.
  intros [|x v]; cbn [map lmaxnorm].
  - exists 0; split; [reflexivity|]. intros x [].
  - destruct (maxnorm_fold v (Rabs x)) as (M & E & H1 & H2). exists M; split; [exact E|].
    intros y [<-|Hy]; auto.
Qed.

Lemma weighted_fold : forall row x s,
  fold_left (fun s p => nadd (NumOps:=XR L) s (nabs (NumOps:=XR L) (nmul (NumOps:=XR L) (fst p) (snd p))))
    (combine (map Fin row) (map Fin x)) (Fin s) = Fin (s + weighted row x).
Proof.
  induction row as [|a row IH]; intros [|y x] s; cbn [map combine fold_left weighted]; try (f_equal; ring).
  cbn [nadd nabs nmul XR fst snd xmul xabs xadd]. rewrite IH. f_equal; ring.
Qed.

Lemma row_residual_fin : forall row x,
  row_residual (F:=XR L) (map Fin row) (map Fin x) = Fin (eps * weighted row x).
Proof.
  intros; unfold row_residual. cbn [nofZ XR].
  pose proof (weighted_fold row x 0) as W. cbn [XR] in W.
  change (fold_left _ _ _) with (fold_left (fun s p => nadd (NumOps:=XR L) s (nabs (NumOps:=XR L) (nmul (NumOps:=XR L) (fst p) (snd p))))
    (combine (map Fin row) (map Fin x)) (Fin 0)).
  rewrite W. cbn [nmul neps XR xmul]. f_equal; ring.
Qed.

Lemma expected_fold : forall J x e, exists E,
  fold_left (fun e row => let r := row_residual (F:=XR L) row (map Fin x) in
                          if nltb (NumOps:=XR L) e r then r else e) (map (map Fin) J) (Fin e) = Fin E /\
  E <= Rmax e (eps * max_weighted J x).
Proof.
  pose proof (l_eps_pos L) as P.
  induction J as [|row J IH]; intros x e; cbn [map fold_left].
  - exists e; split; [reflexivity|]. apply Rmax_l.
  - rewrite row_residual_fin. cbn zeta. cbn [nltb XR xltb].
    assert (M1 : weighted row x <= max_weighted (row :: J) x) by apply Rmax_l.
    assert (M2 : max_weighted J x <= max_weighted (row :: J) x) by apply Rmax_r.
    apply (Rmult_le_compat_l eps) in M1; [|lra]. apply (Rmult_le_compat_l eps) in M2; [|lra].
    destruct (Rltb_spec e (eps * weighted row x)) as [C|C].
    + destruct (IH x (eps * weighted row x)) as (E & E1 & E2). exists E; split; [exact E1|].
      apply Rle_trans with (1 := E2). apply Rle_trans with (2 := Rmax_r _ _). apply Rmax_lub; lra.
    + destruct (IH x e) as (E & E1 & E2). exists E; split; [exact E1|].
      apply Rle_trans with (1 := E2). apply Rmax_lub; [apply Rmax_l|].
      apply Rle_trans with (2 := Rmax_r _ _). lra.
Qed.

Lemma max_weighted_pos : forall J x, 0 <= max_weighted J x.
Proof.
  intros J x; induction J as [|row J IH]; simpl; [lra|]. apply Rle_trans with (2 := Rmax_r _ _); exact IH.
Qed.

Lemma expected_residual_fin : forall J x, exists E,
  expected_residual (F:=XR L) (map (map Fin) J) (map Fin x) = Fin E /\ E <= eps * max_weighted J x.
Proof.
  intros J x. destruct (expected_fold J x 0) as (E & E1 & E2). exists E; split; [exact E1|].
  rewrite Rmax_right in E2; [exact E2|]. pose proof (l_eps_pos L); pose proof (max_weighted_pos J x); nra.
Qed.

(** The acceptance test of both solvers. *)
Lemma test_small : forall v J x,
  nleb (NumOps:=XR L) (lmaxnorm (F:=XR L) (map Fin v)) (expected_residual (F:=XR L) (map (map Fin) J) (map Fin x)) = true ->
  small_residual eps v J x.
Proof.
  intros v J x H vi Hi.
  destruct (lmaxnorm_fin v) as (M & EM & HM). destruct (expected_residual_fin J x) as (E & EE & HE).
  change (@num (XR L)) with xr in *.
  rewrite EM, EE in H. cbn [nleb XR xleb] in H. apply Rleb_iff in H. specialize (HM vi Hi). lra.
Qed.
Lemma test_zero : forall v J x,
  nleb (NumOps:=XR L) (lmaxnorm (F:=XR L) (map Fin v)) (Fin 0) = true -> small_residual eps v J x.
Proof.
  intros v J x H vi Hi. destruct (lmaxnorm_fin v) as (M & EM & HM).
  change (@num (XR L)) with xr in *.
  rewrite EM in H. cbn [nleb XR xleb] in H. apply Rleb_iff in H. specialize (HM vi Hi).
  pose proof (l_eps_pos L); pose proof (max_weighted_pos J x); nra.
Qed.

Lemma lnans_nan : forall n, all_nan (lnans (F:=XR L) n).
Proof. induction n; constructor; auto. Qed.

(** *** newton *)
Section Newton.
Variable f : list xr -> list xr * list (list xr).
Variable ends : list (xr * xr).
Variable rng0 : pcg.

(** Some number of random points has been drawn. *)
Definition drawn (g : pcg) : Prop := exists k, g = Nat.iter (k * length ends) pcg_next rng0.
Definition random_restart (r : list xr) : Prop := exists g, drawn g /\ r = fst (random_point (F:=XR L) ends g).

Lemma drawn_next : forall g, drawn g -> drawn (snd (random_point (F:=XR L) ends g)).
Proof.
  intros g [k ->]. exists (S k). rewrite random_point_rng.
  cbn [Nat.mul]. symmetry. apply iter_plus.
Qed.

Record ninv (s : nstate (F:=XR L)) : Prop := {
  ni_f : f (ns_guess s) = (ns_v s, ns_J s);
  ni_rng : drawn (ns_rng s);
  ni_expected :
    ns_expected s = Fin 0 \/
    ns_expected s = expected_residual (F:=XR L) (ns_J s) (ns_guess s) \/
    random_restart (ns_guess s)
}.

Lemma newton_accept_inv : forall s dw newguess, ninv s ->
  ninv (newton_accept (F:=XR L) f ends s dw newguess).
Proof.
  intros s dw newguess [I1 I2 I3]. unfold newton_accept.
  destruct (f newguess) as [vnew Jnew] eqn:E1.
  match goal with |- context [if ?c then _ else _] => destruct c end.
  - match goal with |- context [f (ladd ?p ?q)] => set (ng := ladd p q); destruct (f ng) as [v2 J2] eqn:E2 end.
    match goal with |- context [if ?c then _ else _] => destruct c end.
    + pose proof (drawn_next (ns_rng s) I2) as D.
      assert (RR : random_restart (fst (random_point (F:=XR L) ends (ns_rng s)))) by (eexists; split; [exact I2|reflexivity]).
      match goal with |- context [@random_point ?F ?e ?g] => destruct (@random_point F e g) as [p g'] end.
      cbn [fst snd] in *. destruct (f p) as [v3 J3] eqn:E3. constructor; cbn; auto.
    + constructor; cbn; auto.
  - constructor; cbn; auto.
Qed.

Lemma newton_nd_body_inv : forall s r, ninv s ->
  newton_nd_body (F:=XR L) f ends s = Ok r ->
  match r with Return (x, g, c) => all_nan x | Go s' => ninv s' end.
Proof.
  intros s r I H. unfold newton_nd_body in H.
  match type of H with obind ?e _ = _ => destruct e as [dw| |] end; cbn [obind] in H; try discriminate.
  match type of H with (if ?c then _ else _) = _ => destruct c end.
  - apply Ok_inj in H; subst r. apply newton_accept_inv, I.
  - match type of H with (if ?c then _ else _) = _ => destruct c end.
    + destruct I as [I1 I2 I3]. pose proof (drawn_next (ns_rng s) I2) as D.
      assert (RR : random_restart (fst (random_point (F:=XR L) ends (ns_rng s)))) by (eexists; split; [exact I2|reflexivity]).
      match type of H with context [@random_point ?F ?e ?g] => destruct (@random_point F e g) as [p g'] end.
      cbn [fst snd] in *.
      match type of H with (if ?c then _ else _) = _ => destruct c end.
      * apply Ok_inj in H; subst r. apply lnans_nan.
      * destruct (f p) as [v J] eqn:E. apply Ok_inj in H; subst r. constructor; cbn; auto.
    + apply Ok_inj in H; subst r. apply newton_accept_inv, I.
Qed.

Lemma newton_finish_inv : forall s r g c, ninv s -> newton_nd_finish (F:=XR L) s = (r, g, c) ->
  all_nan r \/
  (f r = (ns_v s, ns_J s) /\ drawn g /\
   (nleb (NumOps:=XR L) (lmaxnorm (F:=XR L) (ns_v s)) (Fin 0) = true \/
    nleb (NumOps:=XR L) (lmaxnorm (F:=XR L) (ns_v s)) (expected_residual (F:=XR L) (ns_J s) r) = true \/
    random_restart r)).
Proof.
  intros s r g c [I1 I2 I3] H. unfold newton_nd_finish in H.
  match type of H with context [if ?c then _ else _] => destruct c eqn:T end; injection H as <- <- <-.
  - right. split; [exact I1|]. split; [exact I2|].
    destruct I3 as [E|[E|E]]; [rewrite E in T; auto|rewrite E in T; auto|auto].
  - left; apply lnans_nan.
Qed.

Lemma newton_nd_loop_inv : forall n s r g c, ninv s ->
  newton_nd_loop (F:=XR L) f ends n s = Ok (r, g, c) ->
  all_nan r \/
  (exists v J, f r = (v, J) /\
   (nleb (NumOps:=XR L) (lmaxnorm (F:=XR L) v) (Fin 0) = true \/
    nleb (NumOps:=XR L) (lmaxnorm (F:=XR L) v) (expected_residual (F:=XR L) J r) = true \/
    random_restart r)).
Proof.
  assert (FIN : forall s r g c, ninv s -> Ok (newton_nd_finish (F:=XR L) s) = Ok (r, g, c) ->
    all_nan r \/ (exists v J, f r = (v, J) /\
   (nleb (NumOps:=XR L) (lmaxnorm (F:=XR L) v) (Fin 0) = true \/
    nleb (NumOps:=XR L) (lmaxnorm (F:=XR L) v) (expected_residual (F:=XR L) J r) = true \/
    random_restart r))).
  { intros s r g c I H. apply Ok_inj in H. destruct (newton_finish_inv s r g c I H) as [?|(A & _ & B)]; [auto|].
    right; eauto. }
  induction n as [|n IH]; intros s r g c I H; cbn [newton_nd_loop] in H;
    (match type of H with obind ?e _ = _ => destruct e as [a| |] eqn:B end; cbn [obind] in H; try discriminate);
    pose proof (newton_nd_body_inv s a I B) as I'; destruct a as [[[x g'] c']|s'].
  - apply Ok_inj in H; injection H as <- <- <-; auto.
  - match type of H with (if ?c then _ else _) = _ => destruct c end; apply (FIN s' r g c I' H).
  - apply Ok_inj in H; injection H as <- <- <-; auto.
  - match type of H with (if ?c then _ else _) = _ => destruct c end.
    + apply (IH s' r g c I' H).
    + apply (FIN s' r g c I' H).
Qed.
End Newton.

Lemma newton_nd_spec : forall f V J bound guess n r g c, computes_system f V J ->
  newton_nd (F:=XR L) f bound guess n = Ok (map Fin r, g, c) -> r <> [] ->
  small_residual eps (V r) (J r) r \/
  exists k, map Fin r = fst (random_point (F:=XR L) (b_ends bound)
                          (Nat.iter (k * length (b_ends bound)) pcg_next (b_rng bound))).
Proof.
  intros f V J bound guess n r g c Hf H Hr. unfold newton_nd in H.
  destruct (f guess) as [v0 J0] eqn:E0.
  apply (newton_nd_loop_inv f (b_ends bound) (b_rng bound)) in H.
  - destruct H as [N|(v & Jr & E & H)].
    + exfalso. destruct r as [|x r]; [now apply Hr|]. inversion N; discriminate.
    + rewrite Hf in E. injection E as <- <-. destruct H as [H|[H|(g' & [k ->] & H)]].
      * left; eapply test_zero; exact H.
      * left; apply test_small; exact H.
      * right; exists k; exact H.
  - constructor; cbn; auto. exists 0%nat; reflexivity.
Qed.

(** Without bounds there are no random restarts at real points. *)
Lemma newton_nd_unbounded : forall f V J d rng guess n r g c, computes_system f V J ->
  newton_nd (F:=XR L) f (Bounds (F:=XR L) (repeat (MInf, PInf) d) rng) guess n = Ok (map Fin r, g, c) -> r <> [] ->
  small_residual eps (V r) (J r) r.
Proof.
  intros f V J d rng guess n r g c Hf H Hr.
  destruct (newton_nd_spec _ V J _ _ _ _ _ _ Hf H Hr) as [?|[k E]]; [assumption|exfalso].
  cbn [b_ends b_rng] in E.
  match type of E with _ = fst (random_point _ ?g) => generalize g E end. clear E. intros g' E.
  destruct d as [|d]; cbn [repeat random_point] in E; [destruct r; [now apply Hr|discriminate]|].
  rewrite pcg_real_01_draw in E.
  match type of E with context [@random_point ?F ?e ?g] => destruct (@random_point F e g) as [p g2] end.
  cbn [fst] in E. destruct r as [|x r]; [now apply Hr|]. cbn [map] in E. injection E as E _.
  cbn [nadd nmul nsub XR xsub xadd xneg xmul] in E. unfold xscale_inf in E.
  destruct (Rlt_dec 0 (draw g')); [discriminate|]. destruct (Rlt_dec (draw g') 0); discriminate.
Qed.

(** *** halley *)
Section Halley.
Variable f : list xr -> list xr * list (list xr) * list (list (list xr)).
Variable ends : list (xr * xr).
Variable rng0 : pcg.

Record hinv (s : hstate (F:=XR L)) : Prop := {
  hi_f : fst (f (hs_guess s)) = (hs_v s, hs_J s);
  hi_rng : (hs_rand s <= 5)%nat /\ hs_rng s = Nat.iter (hs_rand s * length ends) pcg_next rng0;
  hi_expected : hs_expected s = expected_residual (F:=XR L) (hs_J s) (hs_guess s);
  hi_in : contains_vec (F:=XR L) ends (hs_guess s) = true \/
          exists g, hs_guess s = fst (random_point (F:=XR L) ends g)
}.

Lemma halley_nd_body_inv : forall s r,
  (hs_rand s <= 5)%nat /\ hs_rng s = Nat.iter (hs_rand s * length ends) pcg_next rng0 ->
  halley_nd_body (F:=XR L) f ends s = Ok r ->
  match r with
  | Return (x, g, c) => all_nan x /\ (exists k, (k <= 5)%nat /\ g = Nat.iter (k * length ends) pcg_next rng0) /\
                        c = hs_calls s
  | Go s' => hinv s' /\ length (hs_calls s') = S (length (hs_calls s))
  end.
Proof.
  intros s r [I1 I2] H. unfold halley_nd_body in H.
  match type of H with obind ?e _ = _ => destruct e as [a| |] end; cbn [obind] in H; try discriminate.
  match type of H with obind ?e _ = _ => destruct e as [b| |] end; cbn [obind] in H; try discriminate.
  match type of H with context [@contains_vec ?F ?e ?x] => set (ng := x) in H; destruct (@contains_vec F e ng) eqn:C end.
  - destruct (f ng) as [[v J] HH] eqn:E. apply Ok_inj in H; subst r. split; [|reflexivity].
    constructor; cbn; auto. rewrite E; reflexivity.
  - destruct (Nat.ltb_spec (hs_rand s) 5) as [K|K].
    + pose proof (random_point_rng L ends (hs_rng s)) as D.
      destruct (random_point (F:=XR L) ends (hs_rng s)) as [p g'] eqn:R. cbn [snd] in D.
      destruct (f p) as [[v J] HH] eqn:E. apply Ok_inj in H; subst r. split; [|reflexivity].
      constructor; cbn.
      * rewrite E; reflexivity.
      * split; [lia|]. rewrite D, I2. symmetry; apply iter_plus.
      * reflexivity.
      * right; exists (hs_rng s). rewrite R; reflexivity.
    + apply Ok_inj in H; subst r. split; [apply lnans_nan|]. split; [|reflexivity].
      exists (hs_rand s); auto.
Qed.

Definition halley_ok (r : list xr) : Prop :=
  all_nan r \/
  (exists v J, fst (f r) = (v, J) /\
    nleb (NumOps:=XR L) (lmaxnorm (F:=XR L) v) (expected_residual (F:=XR L) J r) = true /\
    (contains_vec (F:=XR L) ends r = true \/ exists g, r = fst (random_point (F:=XR L) ends g))).

Lemma halley_finish_inv : forall s r g c, hinv s -> Ok (halley_nd_finish (F:=XR L) s) = Ok (r, g, c) ->
  halley_ok r /\ (exists k, (k <= 5)%nat /\ g = Nat.iter (k * length ends) pcg_next rng0) /\ c = hs_calls s.
Proof.
  intros s r g c [I1 [I2 I2'] I3 I4] H. apply Ok_inj in H. unfold halley_nd_finish in H.
  match type of H with context [if ?c then _ else _] => destruct c eqn:T end; injection H as <- <- <-.
  - split; [|split; [exists (hs_rand s); auto|reflexivity]].
    right. do 2 eexists; split; [exact I1|]. rewrite I3 in T. split; [exact T|exact I4].
  - split; [left; apply lnans_nan|split; [exists (hs_rand s); auto|reflexivity]].
Qed.

Lemma halley_nd_loop_inv : forall n s r g c,
  (hs_rand s <= 5)%nat /\ hs_rng s = Nat.iter (hs_rand s * length ends) pcg_next rng0 ->
  halley_nd_loop (F:=XR L) f ends n s = Ok (r, g, c) ->
  halley_ok r /\ (exists k, (k <= 5)%nat /\ g = Nat.iter (k * length ends) pcg_next rng0) /\
  (length c <= length (hs_calls s) + S n)%nat.
Proof.
  induction n as [|n IH]; intros s r g c I H; cbn [halley_nd_loop] in H;
    (match type of H with obind ?e _ = _ => destruct e as [a| |] eqn:B end; cbn [obind] in H; try discriminate);
    pose proof (halley_nd_body_inv s a I B) as I'; destruct a as [[[x g'] c']|s'].
  - apply Ok_inj in H; injection H as <- <- <-. destruct I' as (A1 & A2 & ->).
    split; [left; exact A1|]. split; [exact A2|lia].
  - destruct I' as [I' Hl].
    assert (K : halley_ok r /\ (exists k, (k <= 5)%nat /\ g = Nat.iter (k * length ends) pcg_next rng0) /\ c = hs_calls s').
    { match type of H with (if ?c then _ else _) = _ => destruct c end; apply (halley_finish_inv s' r g c I' H). }
    destruct K as (K1 & K2 & ->). split; [exact K1|]. split; [exact K2|lia].
  - apply Ok_inj in H; injection H as <- <- <-. destruct I' as (A1 & A2 & ->).
    split; [left; exact A1|]. split; [exact A2|lia].
  - destruct I' as [I' Hl].
    match type of H with (if ?c then _ else _) = _ => destruct c end.
    + destruct (IH s' r g c (hi_rng _ I') H) as (K1 & K2 & K3). split; [exact K1|]. split; [exact K2|lia].
    + destruct (halley_finish_inv s' r g c I' H) as (K1 & K2 & ->). split; [exact K1|]. split; [exact K2|lia].
Qed.
End Halley.

Lemma Forall2_length_eq : forall A B (P : A -> B -> Prop) l m, Forall2 P l m -> length l = length m.
Proof. induction 1; simpl; auto. Qed.

Lemma halley_nd_spec : forall f V J bound guess n r g c, computes_system2 f V J ->
  halley_nd (F:=XR L) f bound guess n = Ok (r, g, c) ->
  (exists k, (k <= 5)%nat /\ g = Nat.iter (k * length (b_ends bound)) pcg_next (b_rng bound)) /\
  (Z.of_nat (length c) <= 1 + Z.max 1 n)%Z /\
  (all_nan r \/
   forall x, r = map Fin x -> length x = length (b_ends bound) -> Forall proper_ends (b_ends bound) ->
     within (b_ends bound) x /\ small_residual eps (V x) (J x) x).
Proof.
  intros f V J bound guess n r g c Hf H. unfold halley_nd in H.
  destruct (f guess) as [[v0 J0] H0] eqn:E0.
  apply (halley_nd_loop_inv f (b_ends bound) (b_rng bound)) in H; [|cbn; split; [lia|reflexivity]].
  destruct H as (K1 & K2 & K3). split; [exact K2|]. split; [cbn [hs_calls length] in K3; lia|].
  destruct K1 as [N|(v & Jr & E & T & C)]; [left; exact N|right].
  intros x -> Hl P. rewrite Hf in E; injection E as <- <-.
  split; [|apply test_small; exact T].
  destruct C as [C|[g' C]].
  - apply contains_vec_within with (L := L); auto.
  - apply random_point_within with (L := L) (g := g'); auto.
Qed.

Lemma fold_max_nan : forall v,
  fold_left (fun m x => if nltb (NumOps:=XR L) m (nabs (NumOps:=XR L) x) then nabs (NumOps:=XR L) x else m) v NaN = NaN.
Proof. induction v as [|x v IH]; cbn; [reflexivity|]. exact IH. Qed.
Lemma lmaxnorm_nan : forall v, v <> [] -> all_nan v -> lmaxnorm (F:=XR L) v = NaN.
Proof.
  intros [|x v] Hv Ha; [contradiction|]. inversion Ha; subst. unfold lmaxnorm. cbn [nabs XR xabs]. apply fold_max_nan.
Qed.

Lemma map_Fin_dec : forall r : list xr, {x | r = map Fin x} + {forall x, r <> map Fin x}.
Proof.
  induction r as [|a r [[x ->]|IH]].
  - left; now exists [].
  - destruct a as [a| | |]; [left; now exists (a :: x)| | |]; right; intros [|b y]; discriminate.
  - right. intros [|b y] H; [discriminate|]. injection H as _ H. exact (IH y H).
Qed.

(** If f is NaN away from the real vectors, a result that is not all-NaN is real. *)
Lemma halley_nd_full : forall f V J (bound : bounds (F:=XR L)) guess n r g c, computes_system2 f V J ->
  (forall x, (forall y, x <> map Fin y) -> fst (fst (f x)) <> [] /\ all_nan (fst (fst (f x)))) ->
  Forall proper_ends (b_ends bound) ->
  halley_nd (F:=XR L) f bound guess n = Ok (r, g, c) ->
  (exists k, (k <= 5)%nat /\ g = Nat.iter (k * length (b_ends bound)) pcg_next (b_rng bound)) /\
  (Z.of_nat (length c) <= 1 + Z.max 1 n)%Z /\
  (all_nan r \/ exists x, r = map Fin x /\
     (length x = length (b_ends bound) -> within (b_ends bound) x) /\ small_residual eps (V x) (J x) x).
Proof.
  intros f V J bound guess n r g c Hf Hn P H. unfold halley_nd in H.
  destruct (f guess) as [[v0 J0] H0] eqn:E0.
  apply (halley_nd_loop_inv f (b_ends bound) (b_rng bound)) in H; [|cbn; split; [lia|reflexivity]].
  destruct H as (K1 & K2 & K3). split; [exact K2|]. split; [cbn [hs_calls length] in K3; lia|].
  destruct K1 as [N|(v & Jr & E & T & C)]; [left; exact N|right].
  destruct (map_Fin_dec r) as [[x ->]|Hr].
  - exists x. split; [reflexivity|]. rewrite Hf in E; injection E as <- <-.
    split; [|apply test_small; exact T]. intros Hl.
    destruct C as [C|[g' C]].
    + apply contains_vec_within with (L := L); auto.
    + apply random_point_within with (L := L) (g := g'); auto.
  - destruct (Hn r Hr) as [N1 N2]. rewrite E in N1, N2. cbn [fst] in N1, N2.
    rewrite lmaxnorm_nan in T by assumption. discriminate T.
Qed.
End Residual.
