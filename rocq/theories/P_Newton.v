(** C14, C15: scalar newton and halley. *)
From Coq Require Import Reals Lra Lia ZArith List Bool.
From Verif Require Import Num XR Spec_Iter M_Iter P_Bisect.
Import ListNotations.
Local Open Scope R_scope.

Local Ltac dif H := match type of H with (if ?c then _ else _) = _ => destruct c end.
Local Ltac dgif := match goal with |- context [if ?c then _ else _] => destruct c end.

Section Newton.
Variable L : limits.
Local Notation eps := (l_eps L).
Variables (f : xr -> xr * xr) (g d : R -> R).
Hypothesis Hf : computes2 f g d.
Variables (fuel : nat) (a : R) (hi : xr).
Hypothesis Hhi : right_end hi.

Lemma newton_value : computes (fun x => fst (f x)) g.
Proof. intros x; now rewrite Hf. Qed.

Lemma midpoint_xr : forall lo up : xr,
  ndiv (NumOps:=XR L) (nadd (NumOps:=XR L) lo up) (nofZ (NumOps:=XR L) 2) =
  match xadd lo up with Fin s => Fin (s / 2) | x => x end.
Proof.
  intros lo up; cbn [ndiv nadd nofZ XR]. destruct (xadd lo up); unfold xdiv.
  - destruct (Req_EM_T 2 0); [lra|reflexivity].
  - destruct (Rlt_dec 2 0); [lra|reflexivity].
  - destruct (Rlt_dec 2 0); [lra|reflexivity].
  - reflexivity.
Qed.

(** The bisection fallback yields NaN or a real number. *)
Lemma backup_cases : forall r, newton_backup (F:=XR L) fuel f (Fin a) hi = Ok r ->
  r = NaN \/ exists x lo up, r = Fin x /\ x = (lo + up) / 2 /\
    bisect (F:=XR L) fuel (fun x => fst (f x)) (Fin a) hi = Ok (Fin lo, Fin up).
Proof.
  intros r H. unfold newton_backup in H.
  match type of H with obind ?e _ = _ => destruct e as [[lo up]| |] eqn:B end; cbn [obind] in H; try discriminate.
  apply Ok_inj in H. cbn [fst snd] in H. rewrite midpoint_xr in H.
  pose proof (bisect_spec L _ _ newton_value _ _ _ _ _ Hhi B) as S.
  destruct S as [(_ & -> & ->)|[(_ & -> & -> & _)|(_ & k & S)]].
  - right. exists ((a + a) / 2), a, a; split; [symmetry; exact H|]. split; [reflexivity|exact B].
  - left; symmetry; exact H.
  - cbn zeta in S. destruct S as (_ & _ & _ & [(z & -> & -> & _)|[-> ->]]);
      right; do 3 eexists; (split; [symmetry; exact H|]); split; [reflexivity|exact B|reflexivity|exact B].
Qed.

Definition from_bisection (r : xr) : Prop := newton_backup (F:=XR L) fuel f (Fin a) hi = Ok r.
Definition good (t : xr) : Prop :=
  t = NaN \/ (exists x, t = Fin x /\ a <= x /\ upto x hi) \/ (exists x, t = Fin x /\ from_bisection t).

Lemma backup_good : forall r, newton_backup (F:=XR L) fuel f (Fin a) hi = Ok r -> good r.
Proof.
  intros r H. destruct (backup_cases r H) as [->|(x & lo & up & -> & _)].
  - left; reflexivity.
  - right; right; exists x; auto.
Qed.

Lemma not_above : forall x, xltb hi (Fin x) = false -> upto x hi.
Proof.
  intros x; destruct Hhi as [->|[b ->]]; simpl; [tauto|].
  destruct (Rltb_spec b x); [discriminate|auto].
Qed.

Lemma newton_body_good : forall t s, good t ->
  newton_body (F:=XR L) fuel f (Fin a) hi t (fst (f t)) (snd (f t)) = Ok s ->
  match s with
  | Return r => r = t /\ (t = NaN \/ exists x, t = Fin x /\ g x = 0)
  | Go t' => good t'
  end.
Proof.
  intros t s G H. unfold newton_body in H.
  assert (C : t = NaN \/ exists x, t = Fin x) by (destruct G as [->|[(x & -> & _)|(x & -> & _)]]; eauto).
  destruct C as [->|[x ->]].
  - destruct (f NaN) as [y dy]; cbn [fst snd] in H.
    dif H; [apply Ok_inj in H; subst s; auto|].
    dif H.
    + match type of H with obind ?e _ = _ => destruct e eqn:B end; cbn [obind] in H; try discriminate.
      apply Ok_inj in H; subst s. apply backup_good; exact B.
    + replace (nsub (NumOps:=XR L) NaN (ndiv (NumOps:=XR L) y dy)) with NaN in H by reflexivity.
      cbn [nltb XR xltb orb] in H.
      assert (E : xltb hi NaN = false) by (destruct hi; reflexivity). rewrite E in H.
      apply Ok_inj in H; subst s. left; reflexivity.
  - rewrite Hf in H; cbn [fst snd] in H. cbn [neqb nofZ XR xeqb] in H.
    destruct (Reqb_spec (g x) 0) as [Z|Z]; [apply Ok_inj in H; subst s; eauto|].
    destruct (Reqb_spec (d x) 0) as [D|D].
    + match type of H with obind ?e _ = _ => destruct e eqn:B end; cbn [obind] in H; try discriminate.
      apply Ok_inj in H; subst s. apply backup_good; exact B.
    + cbn [nsub ndiv XR] in H. rewrite xdiv_fin in H by assumption. cbn [xsub nltb XR xltb] in H.
      destruct (Rltb_spec (x - g x / d x) a) as [S|S]; cbn [orb] in H.
      * match type of H with obind ?e _ = _ => destruct e eqn:B end; cbn [obind] in H; try discriminate.
        apply Ok_inj in H; subst s. apply backup_good; exact B.
      * destruct (xltb hi (Fin (x - g x / d x))) eqn:U.
        -- match type of H with obind ?e _ = _ => destruct e eqn:B end; cbn [obind] in H; try discriminate.
           apply Ok_inj in H; subst s. apply backup_good; exact B.
        -- apply Ok_inj in H; subst s. right; left. eexists; split; [reflexivity|]. split; [exact S|].
           apply not_above; exact U.
Qed.

Definition newton_result (r : xr) : Prop :=
  r = NaN \/ (exists t, r = Fin t /\ a <= t /\ upto t hi /\ accepted eps g d t) \/ from_bisection r.

Lemma accepted_zero : forall x, g x = 0 -> accepted eps g d x.
Proof.
  intros x Z; unfold accepted. rewrite Z, Rabs_R0.
  pose proof (l_eps_pos L); pose proof (Rabs_pos (x * d x)); nra.
Qed.

Lemma newton_loop_good : forall n t k r k', good t ->
  newton_loop (F:=XR L) fuel f (Fin a) hi n t (fst (f t)) (snd (f t)) k = Ok (r, k') ->
  (k' <= k + n + 2)%nat /\ newton_result r.
Proof.
  assert (FIN : forall t k r k', good t ->
    (let '(y, dydt) := f t in
     if nltb (NumOps:=XR L) (nmul (NumOps:=XR L) (neps (NumOps:=XR L))
          (nabs (NumOps:=XR L) (nmul (NumOps:=XR L) t dydt))) (nabs (NumOps:=XR L) y)
     then obind (newton_backup (F:=XR L) fuel f (Fin a) hi) (fun t0 => Ok (t0, S (S k)))
     else Ok (t, S (S k))) = Ok (r, k') -> k' = S (S k) /\ newton_result r).
  { intros t k r k' G H. destruct (f t) as [y dy] eqn:E.
    match type of H with (if ?c then _ else _) = _ => destruct c eqn:T end.
    - match type of H with obind ?e _ = _ => destruct e eqn:B end; cbn [obind] in H; try discriminate.
      injection H as <- <-. split; [reflexivity|]. right; right; exact B.
    - injection H as <- <-. split; [reflexivity|].
      destruct G as [->|[(x & -> & Hx)|(x & -> & Hx)]]; [left; reflexivity| |right; right; exact Hx].
      right; left; exists x. rewrite Hf in E; injection E as <- <-.
      cbn [nltb nmul nabs neps XR xmul xabs xltb] in T.
      destruct (Rltb_spec (eps * Rabs (x * d x)) (Rabs (g x))) as [?|C]; [discriminate|].
      repeat split; tauto. }
  induction n as [|n IH]; intros t k r k' G H; cbn [newton_loop] in H;
    (match type of H with obind ?e _ = _ => destruct e as [s| |] eqn:B end;
       cbn [obind] in H; try discriminate);
    pose proof (newton_body_good t s G B) as Gs; destruct s as [r0|t'].
  - injection H as <- <-. destruct Gs as [-> Z]. split; [lia|].
    destruct Z as [->|(x & -> & Z)]; [left; reflexivity|].
    destruct G as [C|[(x' & E & Hx)|(x' & E & Hx)]]; [discriminate| |right; right; exact Hx].
    injection E as <-. right; left; exists x; repeat split; try tauto. apply accepted_zero; exact Z.
  - pose proof (FIN t' k r k' Gs) as F1. destruct (f t') as [y dy].
    assert (R : k' = S (S k) /\ newton_result r) by (dif H; apply F1, H).
    destruct R as [-> R]; split; [lia|exact R].
  - injection H as <- <-. destruct Gs as [-> Z]. split; [lia|].
    destruct Z as [->|(x & -> & Z)]; [left; reflexivity|].
    destruct G as [C|[(x' & E & Hx)|(x' & E & Hx)]]; [discriminate| |right; right; exact Hx].
    injection E as <-. right; left; exists x; repeat split; try tauto. apply accepted_zero; exact Z.
  - pose proof (FIN t' k r k' Gs) as F1. pose proof (IH t' (S k) r k' Gs) as F2.
    destruct (f t') as [y dy]. cbn [fst snd] in F2. dif H.
    + destruct (F2 H) as [A1 A2]; split; [lia|exact A2].
    + destruct (F1 H) as [-> A2]; split; [lia|exact A2].
Qed.

Lemma newton_spec : forall r k, upto a hi ->
  newton (F:=XR L) fuel f (Fin a) hi = Ok (r, k) -> (k <= 35)%nat /\ newton_result r.
Proof.
  intros r k Ha H. unfold newton in H.
  assert (G : good (Fin a)) by (right; left; exists a; repeat split; [lra|exact Ha]).
  pose proof (newton_loop_good 32 (Fin a) 1 r k G) as N.
  destruct (f (Fin a)) as [y dy]; cbn [fst snd] in N.
  destruct (N H) as [A1 A2]; split; [lia|exact A2].
Qed.

(** If bisection answers, so does newton. *)
Lemma newton_loop_total : forall m, newton_backup (F:=XR L) fuel f (Fin a) hi = Ok m ->
  forall n t y dy k, exists p, newton_loop (F:=XR L) fuel f (Fin a) hi n t y dy k = Ok p.
Proof.
  intros m B.
  assert (BD : forall t y dy, exists s, newton_body (F:=XR L) fuel f (Fin a) hi t y dy = Ok s).
  { intros; unfold newton_body. rewrite B; cbn [obind].
    dgif; [eauto|]. dgif; [eauto|]. dgif; eauto. }
  induction n as [|n IH]; intros t y dy k; cbn [newton_loop];
    destruct (BD t y dy) as [s ->]; cbn [obind]; destruct s as [r|t']; eauto;
    destruct (f t') as [y' dy']; rewrite B; cbn [obind]; dgif; eauto.
Qed.
Lemma newton_total : forall m, newton_backup (F:=XR L) fuel f (Fin a) hi = Ok m ->
  exists p, newton (F:=XR L) fuel f (Fin a) hi = Ok p.
Proof.
  intros m B; unfold newton. destruct (f (Fin a)). eapply newton_loop_total; exact B.
Qed.
End Newton.

(** C14 in full. *)
Lemma newton_main : forall (L : limits) f g d a b, computes2 f g d -> a <= b ->
  exists n, forall fuel, (n <= fuel)%nat ->
  exists r k, newton (F:=XR L) fuel f (Fin a) (Fin b) = Ok (r, k) /\ (k <= 35)%nat /\
    (r = NaN \/
     (exists t, r = Fin t /\ a <= t <= b /\ accepted (l_eps L) g d t) \/
     (exists lo up, bisect (F:=XR L) fuel (fun x => fst (f x)) (Fin a) (Fin b) = Ok (Fin lo, Fin up) /\
                    r = Fin ((lo + up) / 2))).
Proof.
  intros L f g d a b Hf Hab.
  destruct (bisect_terminates L _ _ (newton_value f g d Hf) a b) as [n Hn].
  exists n; intros fuel Hfuel. destruct (Hn fuel Hfuel) as [p Hp].
  assert (RE : right_end (Fin b)) by (right; eauto).
  pose proof (f_equal (fun o : outcome (xr * xr) => obind o (fun p => Ok (ndiv (NumOps:=XR L)
    (nadd (NumOps:=XR L) (fst p) (snd p)) (nofZ (NumOps:=XR L) 2)))) Hp) as Hb.
  destruct (newton_total L f fuel a (Fin b) _ Hb) as [[r k] E].
  exists r, k; split; [exact E|].
  destruct (newton_spec L f g d Hf fuel a (Fin b) RE r k Hab E) as [K R]; split; [exact K|].
  destruct R as [->|[(t & -> & H1 & H2 & H3)|R]]; [left; reflexivity| |].
  - right; left; exists t. repeat split; auto.
  - destruct (backup_cases L f g d Hf fuel a (Fin b) RE r R) as [->|(x & lo & up & -> & -> & B)];
      [left; reflexivity|]. right; right. exists lo, up; auto.
Qed.

Section Halley.
Variable L : limits.
Local Notation eps := (l_eps L).
Variables (f : xr -> xr * xr * xr) (g d d2 : R -> R).
Hypothesis Hf : computes3 f g d d2.
Variables (fuel : nat) (a b : R).

Lemma halley_value : computes (fun x => fst (fst (f x))) g.
Proof. intros x; now rewrite Hf. Qed.

Lemma halley_backup_cases : forall r, halley_backup (F:=XR L) fuel f (Fin a) (Fin b) = Ok r ->
  r = NaN \/ exists x lo up, r = Fin x /\ x = (lo + up) / 2 /\
    bisect (F:=XR L) fuel (fun x => fst (fst (f x))) (Fin a) (Fin b) = Ok (Fin lo, Fin up).
Proof.
  intros r H. unfold halley_backup in H.
  match type of H with obind ?e _ = _ => destruct e as [[lo up]| |] eqn:B end; cbn [obind] in H; try discriminate.
  apply Ok_inj in H. cbn [fst snd] in H. rewrite midpoint_xr in H.
  pose proof (bisect_spec L _ _ halley_value _ _ (Fin b) _ _ ltac:(right; eauto) B) as S.
  destruct S as [(_ & -> & ->)|[(_ & -> & -> & _)|(_ & k & S)]].
  - right. exists ((a + a) / 2), a, a; split; [symmetry; exact H|]. split; [reflexivity|exact B].
  - left; symmetry; exact H.
  - cbn zeta in S. destruct S as (_ & _ & _ & [(z & -> & -> & _)|[-> ->]]);
      right; do 3 eexists; (split; [symmetry; exact H|]); split; [reflexivity|exact B|reflexivity|exact B].
Qed.

Definition halley_from_bisection (r : xr) : Prop := halley_backup (F:=XR L) fuel f (Fin a) (Fin b) = Ok r.
Definition hgood (t : xr) : Prop :=
  t = NaN \/ (exists x, t = Fin x /\ a <= x <= b) \/ (exists x, t = Fin x /\ halley_from_bisection t).

Lemma halley_backup_good : forall r, halley_backup (F:=XR L) fuel f (Fin a) (Fin b) = Ok r -> hgood r.
Proof.
  intros r H. destruct (halley_backup_cases r H) as [->|(x & lo & up & -> & _)].
  - left; reflexivity.
  - right; right; exists x; auto.
Qed.

(** Without critical points, every iterate is in the window, or NaN, or comes from bisection. *)
Hypothesis no_critical : forall x, d x <> 0.

Lemma sqrt_xr_cases : forall x, xsqrt x = NaN \/ xsqrt x = PInf \/ exists r, xsqrt x = Fin r.
Proof.
  destruct x; unfold xsqrt; eauto. destruct (Rlt_dec r 0); eauto.
Qed.

Lemma halley_body_good : forall t s, hgood t ->
  halley_body (F:=XR L) fuel f (Fin a) (Fin b) t (fst (fst (f t))) (snd (fst (f t))) (snd (f t)) = Ok s ->
  (exists x, t = Fin x) ->
  match s with
  | Return r => r = t /\ (t = NaN \/ exists x, t = Fin x /\ g x = 0)
  | Go t' => hgood t'
  end.
Proof.
  intros t s G H [x ->]. unfold halley_body in H.
  rewrite Hf in H; cbn [fst snd] in H. cbn [neqb nofZ XR xeqb] in H.
  destruct (Reqb_spec (g x) 0) as [Z|Z]; [apply Ok_inj in H; subst s; eauto|].
  destruct (Reqb_spec (d x) 0) as [D|D]; [exfalso; exact (no_critical x D)|].
  cbn [nmul nsub nadd ndiv XR xmul xsub] in H.
  destruct (Req_dec (2 * d x * d x - g x * d2 x) 0) as [Q|Q].
  - assert (I : exists i, (i = PInf \/ i = MInf) /\
        xadd (Fin x) (xdiv (Fin (-2 * g x * d x)) (Fin (2 * d x * d x - g x * d2 x))) = i).
    { unfold xdiv. destruct (Req_EM_T _ 0); [|contradiction]. unfold xscale_inf.
      assert (-2 * g x * d x <> 0) by (intro E; apply Rmult_integral in E; destruct E as [E|E]; [|auto];
        apply Rmult_integral in E; destruct E; [lra|auto]).
      destruct (Rlt_dec 0 _); [eexists; split; [left; reflexivity|reflexivity]|].
      destruct (Rlt_dec _ 0); [eexists; split; [right; reflexivity|reflexivity]|]. lra. }
    destruct I as (i & [-> | ->] & E); rewrite E in H; cbn [nltb XR xltb orb] in H;
      (match type of H with obind ?e _ = _ => destruct e eqn:B end; cbn [obind] in H; try discriminate);
      apply Ok_inj in H; subst s; apply halley_backup_good; exact B.
  - rewrite xdiv_fin in H by assumption. cbn [xadd nltb XR xltb] in H.
    set (t' := x + -2 * g x * d x / (2 * d x * d x - g x * d2 x)) in H.
    destruct (Rltb_spec t' a) as [S|S]; [|destruct (Rltb_spec b t') as [S'|S']]; cbn [orb] in H.
    + match type of H with obind ?e _ = _ => destruct e eqn:B end; cbn [obind] in H; try discriminate.
      apply Ok_inj in H; subst s; apply halley_backup_good; exact B.
    + match type of H with obind ?e _ = _ => destruct e eqn:B end; cbn [obind] in H; try discriminate.
      apply Ok_inj in H; subst s; apply halley_backup_good; exact B.
    + apply Ok_inj in H; subst s. right; left; exists t'; auto.
Qed.

Hypothesis f_nan : f NaN = (NaN, NaN, NaN).

Definition halley_result (r : xr) : Prop :=
  r = NaN \/ (exists t, r = Fin t /\ a <= t <= b /\ accepted eps g d t) \/ halley_from_bisection r.

Lemma halley_finish : forall t k r k', hgood t ->
    (let '(y, dydt, d2ydt2) := f t in
     if nltb (NumOps:=XR L) (nmul (NumOps:=XR L) (neps (NumOps:=XR L))
          (nabs (NumOps:=XR L) (nmul (NumOps:=XR L) t dydt))) (nabs (NumOps:=XR L) y)
     then obind (halley_backup (F:=XR L) fuel f (Fin a) (Fin b)) (fun t0 => Ok (t0, S (S k)))
     else Ok (t, S (S k))) = Ok (r, k') -> k' = S (S k) /\ halley_result r.
Proof.
  intros t k r k' G H. destruct (f t) as [[y dy] ddy] eqn:E.
  match type of H with (if ?c then _ else _) = _ => destruct c eqn:T end.
  - match type of H with obind ?e _ = _ => destruct e eqn:B end; cbn [obind] in H; try discriminate.
    injection H as <- <-. split; [reflexivity|]. right; right; exact B.
  - injection H as <- <-. split; [reflexivity|].
    destruct G as [->|[(x & -> & Hx)|(x & -> & Hx)]]; [left; reflexivity| |right; right; exact Hx].
    right; left; exists x. rewrite Hf in E; injection E as <- <- <-.
    cbn [nltb nmul nabs neps XR xmul xabs xltb] in T.
    destruct (Rltb_spec (eps * Rabs (x * d x)) (Rabs (g x))) as [?|C]; [discriminate|].
    repeat split; tauto.
Qed.

Lemma halley_loop_good : forall n x k r k', hgood (Fin x) ->
  halley_loop (F:=XR L) fuel f (Fin a) (Fin b) n (Fin x) (Fin (g x)) (Fin (d x)) (Fin (d2 x)) k = Ok (r, k') ->
  (k' <= k + n + 2)%nat /\ halley_result r.
Proof.
  assert (Z0 : forall x, hgood (Fin x) -> g x = 0 -> halley_result (Fin x)).
  { intros x [C|[(x' & E & Hx)|(x' & E & Hx)]] Z; [discriminate| |right; right; exact Hx].
    injection E as <-. right; left; exists x; repeat split; try tauto.
    unfold accepted. rewrite Z, Rabs_R0. pose proof (l_eps_pos L); pose proof (Rabs_pos (x * d x)); nra. }
  induction n as [|n IH]; intros x k r k' G H; cbn [halley_loop] in H;
    (match type of H with obind ?e _ = _ => destruct e as [s| |] eqn:B end; cbn [obind] in H; try discriminate);
    pose proof (halley_body_good (Fin x) s G) as Gs; rewrite Hf in Gs; specialize (Gs B (ex_intro _ x eq_refl));
    destruct s as [r0|t'].
  - injection H as <- <-. destruct Gs as [-> [C|(x' & E & Z)]]; [discriminate|]. injection E as <-.
    split; [lia|]. apply Z0; assumption.
  - pose proof (halley_finish t' k r k' Gs) as F1. destruct (f t') as [[y dy] ddy].
    assert (R : k' = S (S k) /\ halley_result r) by (dif H; apply F1, H).
    destruct R as [-> R]; split; [lia|exact R].
  - injection H as <- <-. destruct Gs as [-> [C|(x' & E & Z)]]; [discriminate|]. injection E as <-.
    split; [lia|]. apply Z0; assumption.
  - pose proof (halley_finish t' k r k' Gs) as F1.
    destruct t' as [x'| | |].
    + pose proof (IH x' (S k) r k' Gs) as F2. rewrite Hf in H, F1.
      dif H.
      * destruct (F2 H) as [A1 A2]; split; [lia|exact A2].
      * destruct (F1 H) as [-> A2]; split; [lia|exact A2].
    + destruct Gs as [C|[(? & C & _)|(? & C & _)]]; discriminate.
    + destruct Gs as [C|[(? & C & _)|(? & C & _)]]; discriminate.
    + rewrite f_nan in H, F1. cbn [nltb nmul nabs neps XR xmul xabs xltb] in H, F1.
      destruct (F1 H) as [-> A2]; split; [lia|exact A2].
Qed.

Lemma halley_spec : forall r k, a <= b ->
  halley (F:=XR L) fuel f (Fin a) (Fin b) = Ok (r, k) -> (k <= 35)%nat /\ halley_result r.
Proof.
  intros r k Hab H. unfold halley in H. rewrite Hf in H.
  assert (G : hgood (Fin a)) by (right; left; exists a; split; [reflexivity|lra]).
  pose proof (halley_loop_good 32 a 1 r k G H) as [A1 A2]; split; [lia|exact A2].
Qed.

Lemma halley_total : forall m, halley_backup (F:=XR L) fuel f (Fin a) (Fin b) = Ok m ->
  exists p, halley (F:=XR L) fuel f (Fin a) (Fin b) = Ok p.
Proof.
  intros m B; unfold halley. destruct (f (Fin a)) as [[y dy] ddy].
  assert (BD : forall t y dy ddy, exists s, halley_body (F:=XR L) fuel f (Fin a) (Fin b) t y dy ddy = Ok s).
  { intros; unfold halley_body. rewrite B; cbn [obind].
    dgif; [eauto|]. dgif.
    - dgif; cbn [obind]; dgif; cbn [obind]; eauto.
    - dgif; eauto. }
  assert (HL : forall n t y dy ddy k, exists p, halley_loop (F:=XR L) fuel f (Fin a) (Fin b) n t y dy ddy k = Ok p).
  { induction n as [|n IH]; intros t y1 dy1 ddy1 k; cbn [halley_loop];
      destruct (BD t y1 dy1 ddy1) as [s ->]; cbn [obind]; destruct s as [r|t']; eauto;
      destruct (f t') as [[y' dy'] ddy']; rewrite B; cbn [obind]; dgif; eauto. }
  apply HL.
Qed.
End Halley.

Lemma halley_main : forall (L : limits) f g d d2 a b, computes3 f g d d2 -> f NaN = (NaN, NaN, NaN) ->
  (forall x, d x <> 0) -> a <= b ->
  exists n, forall fuel, (n <= fuel)%nat ->
  exists r k, halley (F:=XR L) fuel f (Fin a) (Fin b) = Ok (r, k) /\ (k <= 35)%nat /\
    (r = NaN \/
     (exists t, r = Fin t /\ a <= t <= b /\ accepted (l_eps L) g d t) \/
     (exists lo up, bisect (F:=XR L) fuel (fun x => fst (fst (f x))) (Fin a) (Fin b) = Ok (Fin lo, Fin up) /\
                    r = Fin ((lo + up) / 2))).
Proof.
  intros L f g d d2 a b Hf Hn Hd Hab.
  destruct (bisect_terminates L _ _ (halley_value f g d d2 Hf) a b) as [n Hfu].
  exists n; intros fuel Hfuel. destruct (Hfu fuel Hfuel) as [p Hp].
  pose proof (f_equal (fun o : outcome (xr * xr) => obind o (fun p => Ok (ndiv (NumOps:=XR L)
    (nadd (NumOps:=XR L) (fst p) (snd p)) (nofZ (NumOps:=XR L) 2)))) Hp) as Hb.
  destruct (halley_total L f fuel a b _ Hb) as [[r k] E].
  exists r, k; split; [exact E|].
  destruct (halley_spec L f g d d2 Hf fuel a b Hd Hn r k Hab E) as [K R]; split; [exact K|].
  destruct R as [->|[R|R]]; [left; reflexivity|right; left; exact R|].
  destruct (halley_backup_cases L f g d d2 Hf fuel a b r R) as [->|(x & lo & up & -> & -> & B)];
    [left; reflexivity|]. right; right. exists lo, up; auto.
Qed.

(** At a critical point without a real solution of the quadratic model, halley throws
    the bisection result away and answers NaN. *)
Lemma halley_critical_nan : forall (L : limits) f g d d2 a b, computes3 f g d d2 -> f NaN = (NaN, NaN, NaN) ->
  g a <> 0 -> d a = 0 -> d2 a = 0 \/ 0 < g a * d2 a ->
  exists n, forall fuel, (n <= fuel)%nat ->
  halley (F:=XR L) fuel f (Fin a) (Fin b) = Ok (NaN, 3%nat).
Proof.
  intros L f g d d2 a b Hf Hn Hg Hd Hd2.
  destruct (bisect_terminates L _ _ (halley_value f g d d2 Hf) a b) as [n Hfu].
  exists n; intros fuel Hfuel. destruct (Hfu fuel Hfuel) as [p Hp].
  pose proof (f_equal (fun o : outcome (xr * xr) => obind o (fun p => Ok (ndiv (NumOps:=XR L)
    (nadd (NumOps:=XR L) (fst p) (snd p)) (nofZ (NumOps:=XR L) 2)))) Hp) as Hb.
  change (halley_backup (F:=XR L) fuel f (Fin a) (Fin b) =
    Ok (ndiv (NumOps:=XR L) (nadd (NumOps:=XR L) (fst p) (snd p)) (nofZ (NumOps:=XR L) 2))) in Hb.
  pose proof (halley_backup_cases L f g d d2 Hf fuel a b _ Hb) as C.
  set (m := ndiv (NumOps:=XR L) (nadd (NumOps:=XR L) (fst p) (snd p)) (nofZ (NumOps:=XR L) 2)) in *.
  clearbody m.
  assert (C' : m = NaN \/ exists x, m = Fin x) by (destruct C as [->|(x & _ & _ & -> & _)]; eauto). clear C.
  unfold halley. rewrite Hf.
  assert (BD : halley_body (F:=XR L) fuel f (Fin a) (Fin b) (Fin a) (Fin (g a)) (Fin (d a)) (Fin (d2 a)) = Ok (Go NaN)).
  { unfold halley_body. rewrite Hb. cbn [neqb nofZ XR xeqb nmul xmul].
    rewrite (Reqb_false (g a) 0), (Reqb_true (d a) 0) by assumption.
    destruct Hd2 as [D|D].
    - rewrite D, (Reqb_true 0 0) by reflexivity. cbn [obind ndiv XR].
      assert (I : xdiv (Fin (-2 * g a)) (Fin 0) = PInf \/ xdiv (Fin (-2 * g a)) (Fin 0) = MInf).
      { unfold xdiv. destruct (Req_EM_T 0 0); [|contradiction]. unfold xscale_inf.
        destruct (Rlt_dec 0 _); [auto|]. destruct (Rlt_dec _ 0); [auto|]. exfalso; apply Hg; lra. }
      assert (T2 : xmul (Fin 2) PInf = PInf) by (simpl; unfold xscale_inf; destruct (Rlt_dec 0 2); [reflexivity|lra]).
      destruct I as [-> | ->]; cbn [nltb XR xltb obind nsqrt nsub].
      + change (xsqrt PInf) with PInf. rewrite T2. destruct C' as [-> | [x ->]]; reflexivity.
      + destruct C' as [-> | [x ->]]; reflexivity.
    - assert (d2 a <> 0) by (intros E; rewrite E in D; lra).
      rewrite (Reqb_false (d2 a) 0) by assumption. cbn [obind ndiv XR].
      rewrite xdiv_fin by assumption. cbn [nltb XR xltb].
      assert (N : -2 * g a / d2 a < 0).
      { assert (0 < g a / d2 a); [|unfold Rdiv in *; lra].
        replace (g a / d2 a) with (g a * d2 a * (/ d2 a * / d2 a)) by (field; assumption).
        apply Rmult_lt_0_compat; [assumption|].
        assert (/ d2 a <> 0) by (apply Rinv_neq_0_compat; assumption). nra. }
      rewrite Rltb_true by exact N. cbn [obind nsqrt XR]. rewrite xsqrt_nan by exact N.
      destruct C' as [-> | [x ->]]; reflexivity. }
  cbn [halley_loop]. rewrite BD. cbn [obind]. rewrite Hn. reflexivity.
Qed.

(** 1 + x^2 - x^4 on [0,8]. *)
Lemma halley_quartic : forall (L : limits) f,
  computes3 f (fun x => 1 + x ^ 2 - x ^ 4) (fun x => 2 * x - 4 * x ^ 3) (fun x => 2 - 12 * x ^ 2) ->
  f NaN = (NaN, NaN, NaN) ->
  exists n, forall fuel, (n <= fuel)%nat ->
  (exists lo up, bisect (F:=XR L) fuel (fun x => fst (fst (f x))) (Fin 0) (Fin 8) = Ok (Fin lo, Fin up)) /\
  halley (F:=XR L) fuel f (Fin 0) (Fin 8) = Ok (NaN, 3%nat).
Proof.
  intros L f Hf Hn.
  destruct (bisect_terminates L _ _ (halley_value _ _ _ _ Hf) 0 8) as [n1 H1].
  destruct (halley_critical_nan L f _ _ _ 0 8 Hf Hn) as [n2 H2]; [lra|lra|right; lra|].
  exists (max n1 n2); intros fuel Hfuel. split; [|apply H2; lia].
  destruct (H1 fuel ltac:(lia)) as [[lo up] E].
  assert (W : cell_width (l_eps L) 0 (Fin 8) = 1).
  { unfold cell_width. rewrite Rabs_R0, Rmult_0_r. rewrite Rmin_right, Rmax_left; lra. }
  pose proof (bisect_spec L _ _ (halley_value _ _ _ _ Hf) _ _ (Fin 8) _ _ ltac:(right; eauto) E) as S.
  rewrite W in S.
  destruct S as [(S & _)|[(_ & _ & _ & k & S & T)|(_ & k & S)]]; [lra| |].
  - exfalso. simpl in S.
    assert (K : (1 < k)%nat).
    { destruct (Nat.lt_ge_cases 1 k) as [|C]; [assumption|]. apply le_INR in C. simpl in C. lra. }
    destruct (T 1%nat K) as [_ T0]; simpl in T0; lra.
  - cbn zeta in S. destruct S as (_ & _ & _ & [(z & -> & -> & _)|[-> ->]]); do 2 eexists; exact E.
Qed.
