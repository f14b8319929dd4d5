(** The solution that enneper.hpp picks. *)
From Coq Require Import Reals Lra ZArith List Bool.
From Flocq Require Import IEEE754.BinarySingleNaN Core.FLX.
From Verif Require Import Num XR FL Spec M_Vec M_Matrix M_Rng M_Iter M_Surfaces P_Bisect P_FL P_Nearest.
Import ListNotations.
Local Open Scope R_scope.

Section Pick.
Context {F : NumOps}.
Hypothesis trans : forall a b c : num, nltb a b = true -> nltb b c = true -> nltb a c = true.
Hypothesis irrefl : forall a : num, nltb a a = false.
Notation t s := (nth 2 s nnan).
Lemma pick_spec : forall sols best tmin,
  let w := enneper_pick sols best tmin in
  (w = best /\ (forall s, In s sols -> nltb (t s) tmin = false)) \/
  (In w sols /\ nltb (t w) tmin = true /\ forall s, In s sols -> nltb (t s) (t w) = false).
Proof.
  induction sols as [|sol sols IH]; intros best tmin w; [left; split; [reflexivity|intros s []]|].
  subst w. cbn [enneper_pick]. destruct (nltb (t sol) tmin) eqn:E.
  - right. destruct (IH sol (t sol)) as [[-> N]|(I & Lt & N)].
    + split; [left; reflexivity|]. split; [exact E|]. intros s [<-|K]; [apply irrefl|exact (N s K)].
    + split; [right; exact I|]. split; [exact (trans _ _ _ Lt E)|]. intros s [<-|K]; [|exact (N s K)].
      match goal with |- nltb ?a ?b = false => destruct (nltb a b) eqn:Q end; [|reflexivity]. rewrite <- (irrefl (t sol)), <- (trans _ _ _ Q Lt). reflexivity.
  - destruct (IH best tmin) as [[-> N]|(I & Lt & N)].
    + left. split; [reflexivity|]. intros s [<-|K]; [exact E|exact (N s K)].
    + right. split; [right; exact I|]. split; [exact Lt|]. intros s [<-|K]; [|exact (N s K)].
      match goal with |- nltb ?a ?b = false => destruct (nltb a b) eqn:Q end; [|reflexivity]. rewrite <- E, (trans _ _ _ Q Lt). reflexivity.
Qed.
Lemma pick_nearest : forall first sols, let w := enneper_pick (first :: sols) first nmax in
  In w (first :: sols) /\ (forall s, In s (first :: sols) -> nltb (t s) nmax = true -> nltb (t w) nmax = true /\ nltb (t s) (t w) = false) /\
  ((forall s, In s (first :: sols) -> nltb (t s) nmax = false) -> w = first).
Proof.
  intros first sols w. pose proof (pick_spec (first :: sols) first nmax) as P. cbv zeta in P. subst w. destruct P as [[E N]|(I & Lt & N)].
  - split; [cbv zeta; rewrite E; left; reflexivity|]. split; [|intros _; exact E]. intros s K Q. rewrite (N s K) in Q. discriminate.
  - split; [exact I|]. split; [intros s K _; split; [exact Lt|exact (N s K)]|]. intros A. rewrite (A _ I) in Lt. discriminate.
Qed.
End Pick.

Lemma xltb_irrefl : forall a, xltb a a = false.
Proof. intros [a| | |]; try reflexivity. cbn. apply Rltb_false. lra. Qed.

Lemma xleb_of : forall a b c d, xltb a c = true -> xltb b d = true -> xltb a b = false -> xleb b a = true.
Proof.
  intros [a| | |] [b| | |] [c| | |] [d| | |]; cbn; intros A B H; try discriminate; try reflexivity;
    apply Rleb_true; destruct (Rltb_spec a b); try discriminate; lra.
Qed.

Lemma enneper_nearest : forall (L : limits) (first : list xr) sols, let w := enneper_pick (F:=XR L) (first :: sols) first (Fin (l_max L)) in
  In w (first :: sols) /\
  (forall s, In s (first :: sols) -> xltb (nth 2 s NaN) (Fin (l_max L)) = true -> xleb (nth 2 w NaN) (nth 2 s NaN) = true) /\
  ((forall s, In s (first :: sols) -> xltb (nth 2 s NaN) (Fin (l_max L)) = false) -> w = first).
Proof.
  intros L first sols w. destruct (pick_nearest (F:=XR L) xltb_trans xltb_irrefl first sols) as (I & N & A). split; [exact I|]. split; [|exact A].
  intros s K Q. destruct (N s K Q) as [B C]. exact (xleb_of _ _ _ _ Q B C).
Qed.
Lemma enneper_nearest_float : forall prec emax (Hp : Prec_gt_0 prec) (Hm : Prec_lt_emax prec emax) lm (first : list (binary_float prec emax)) sols,
  let N := FL prec emax Hp Hm lm in let w := enneper_pick (F:=N) (first :: sols) first (nmax (NumOps:=N)) in
  let t s := nth 2 s (nnan (NumOps:=N)) in
  In w (first :: sols) /\
  (forall s, In s (first :: sols) -> nltb (NumOps:=N) (t s) (nmax (NumOps:=N)) = true -> nleb (NumOps:=N) (t w) (t s) = true) /\
  ((forall s, In s (first :: sols) -> nltb (NumOps:=N) (t s) (nmax (NumOps:=N)) = false) -> w = first).
Proof.
  intros prec emax Hp Hm lm first sols N w t.
  assert (T : forall a b c : @num N, nltb a b = true -> nltb b c = true -> nltb a c = true).
  { intros a b c. change (@num N) with (binary_float prec emax) in *. change (Bltb a b = true -> Bltb b c = true -> Bltb a c = true). rewrite !Bltb_fval. apply xltb_trans. }
  assert (Ir : forall a : @num N, nltb a a = false).
  { intros a. change (Bltb a a = false). rewrite Bltb_fval. apply xltb_irrefl. }
  destruct (pick_nearest (F:=N) T Ir first sols) as (I & M & A). split; [exact I|]. split; [|exact A].
  intros s K Q. destruct (M s K Q) as [B C]. subst t. cbv beta in *.
  match type of B with nltb ?x _ = true => set (b := x) in * end. match type of Q with nltb ?x _ = true => set (a := x) in * end.
  change (Bleb b a = true). change (Bltb a (nmax (NumOps:=N)) = true) in Q. change (Bltb b (nmax (NumOps:=N)) = true) in B. change (Bltb a b = false) in C.
  rewrite Bltb_fval in *. rewrite Bleb_fval. exact (xleb_of _ _ _ _ Q B C).
Qed.
Lemma pick_case : forall L : limits, 1 < l_max L -> enneper_pick (F:=XR L) [[NaN; NaN; NaN]; [Fin 0; Fin 0; Fin 1]; [Fin 0; Fin 0; Fin (1 / 2)]] [NaN; NaN; NaN] (Fin (l_max L)) = [Fin 0; Fin 0; Fin (1 / 2)].
Proof. intros L H. cbn. rewrite Rltb_true by exact H. cbn. rewrite Rltb_true by lra. reflexivity. Qed.
