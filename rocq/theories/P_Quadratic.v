(** quadratic_roots and first_quadratic_root_in_range. *)
From Coq Require Import Reals Lra ZArith List Bool Psatz.
From Flocq Require Import Core BinarySingleNaN.
From Verif Require Import Num XR FL M_Roots Spec P_Vec P_Matrix P_FL.
Import ListNotations.
Local Open Scope R_scope.

Section L.
Variable L : limits.
Notation qroots := (quadratic_roots (F:=XR L)).

Lemma discriminant_fin : forall a b c,
  discriminant (F:=XR L) (Fin a) (Fin b) (Fin c) = Fin (b * b - 4 * a * c).
Proof. intros; unfold discriminant; xred; f_equal; ring. Qed.

Lemma off_cases : forall x, off_threshold (l_min L) x ->
  (x = 0 /\ Rleb (Rabs x) (l_min L) = true) \/ (x <> 0 /\ Rleb (Rabs x) (l_min L) = false).
Proof.
  intros x [->|H]; [left|right]; split; auto.
  - rewrite Rabs_R0; apply Rleb_true; pose proof (l_min_pos L); lra.
  - apply (abs_gt_min_neq0 L); auto.
  - apply Rleb_false; auto.
Qed.

Lemma quadratic_roots_correct : forall a b c : R,
  off_threshold (l_min L) a -> off_threshold (l_min L) b -> ~ (a = 0 /\ b = 0 /\ c = 0) ->
  (qroots (Fin a) (Fin b) (Fin c) = [] /\ (forall x, quadR a b c x <> 0)) \/
  (exists r0 r1, qroots (Fin a) (Fin b) (Fin c) = [Fin r0; Fin r1] /\ r0 <= r1 /\
     (a <> 0 -> forall x, quadR a b c x = a * (x - r0) * (x - r1)) /\
     (a = 0 -> r0 = r1 /\ forall x, quadR a b c x = b * (x - r0) /\ b <> 0)).
Proof.
  intros a b c Ha Hb Hn; unfold quadratic_roots; rewrite discriminant_fin; xred.
  destruct (off_cases a Ha) as [[-> ->]|[Na ->]].
  - (* linear *)
    destruct (Reqb_spec b 0) as [->|Nb]; cbn [andb].
    + destruct (Reqb_spec c 0) as [->|Nc]; cbn [negb]; [tauto|].
      left; split; auto; intros x; unfold quadR; lra.
    + right; exists (- c / b), (- c / b); rewrite xdiv_fin by auto; split; auto; split; [lra|].
      split; [lra|]; intros _; split; auto; intros x; split; auto; unfold quadR; field; auto.
  - destruct (off_cases b Hb) as [[-> ->]|[Nb ->]].
    + rewrite xdiv_fin by auto; xred.
      destruct (Rltb_spec (- c / a) 0) as [Lt|Ge].
      * left; split; auto; intros x; unfold quadR; intros E.
        assert (x ^ 2 = - c / a) by (field_simplify_eq; auto; lra). nra.
      * right; rewrite xsqrt_fin by auto; xred.
        exists (- sqrt (- c / a)), (sqrt (- c / a)); split; auto.
        pose proof (sqrt_pos (- c / a)); split; [lra|split; [|contradiction]].
        intros _ x; unfold quadR.
        replace (a * (x - - sqrt (- c / a)) * (x - sqrt (- c / a)))
          with (a * (x ^ 2 - sqrt (- c / a) * sqrt (- c / a))) by ring.
        rewrite sqrt_sqrt by auto; field; auto.
    + destruct (Rltb_spec (b * b - 4 * a * c) 0) as [Lt|Ge].
      * left; split; auto; intros x; unfold quadR; intros E.
        assert ((2 * a * x + b) ^ 2 = b * b - 4 * a * c).
        { replace ((2 * a * x + b) ^ 2) with (4 * a * (a * x ^ 2 + b * x + c) + (b * b - 4 * a * c)) by ring.
          rewrite E; ring. }
        pose proof (pow2_ge_0 (2 * a * x + b)); lra.
      * right; rewrite xsqrt_fin by auto; xred.
        set (D := b * b - 4 * a * c) in *. set (s := sqrt D).
        assert (Hs : 0 <= s) by apply sqrt_pos.
        assert (Hss : s * s = D) by (apply sqrt_sqrt; auto).
        set (sg := if Rltb b 0 then - s else s).
        assert (Hcs : xcopysign (Fin s) (Fin b) = Fin sg).
        { unfold xcopysign, xnegative, sg; xred; rewrite Rabs_right by lra; destruct (Rltb b 0); reflexivity. }
        rewrite Hcs; xred; rewrite (xdiv_fin _ 2) by lra.
        assert (Hgg : sg * sg = D) by (unfold sg; destruct (Rltb b 0); lra).
        set (q := - (b + sg) / 2).
        assert (Nq : q <> 0).
        { unfold q, sg; destruct (Rltb_spec b 0); intros E; lra. }
        rewrite !xdiv_fin by auto; xred.
        assert (F1 : forall x, quadR a b c x = a * (x - q / a) * (x - c / q)).
        { intros x; unfold quadR.
          assert (Qeq : q * q + b * q + a * c = 0).
          { unfold q; replace (- (b + sg) / 2 * (- (b + sg) / 2) + b * (- (b + sg) / 2) + a * c)
              with ((sg * sg - (b * b - 4 * a * c)) / 4) by field.
            rewrite Hgg; unfold D; field. }
          replace (a * (x - q / a) * (x - c / q)) with
            (a * x ^ 2 - (q * q + a * c) / q * x + c) by (field; auto).
          replace (q * q + a * c) with (- b * q) by lra. field; auto. }
        destruct (Rltb_spec (q / a) (c / q)).
        -- exists (q / a), (c / q); split; auto; split; [lra|split; [auto|contradiction]].
        -- exists (c / q), (q / a); split; auto; split; [lra|split; [|contradiction]].
           intros _ x; rewrite F1; ring.
Qed.

(** What the roots are, as a set. *)
Lemma quadratic_roots_set : forall a b c : R,
  off_threshold (l_min L) a -> off_threshold (l_min L) b -> ~ (a = 0 /\ b = 0 /\ c = 0) ->
  exists l, qroots (Fin a) (Fin b) (Fin c) = map Fin l /\ increasing l /\
            (l = [] \/ exists r0 r1, l = [r0; r1]) /\
            forall x, In x l <-> quadR a b c x = 0.
Proof.
  intros a b c Ha Hb Hn.
  destruct (quadratic_roots_correct a b c Ha Hb Hn) as [[E H]|[r0 [r1 [E [Le [H1 H2]]]]]].
  - exists []; split; [exact E|]; split; [exact I|]; split; [left; auto|].
    intros x; split; [intros []|intros Z; exfalso; exact (H x Z)].
  - exists [r0; r1]; split; [exact E|]; split; [|split; [right; eauto|]].
    + simpl; split; [intros y [<-|[]]; auto|split; [intros y []|exact I]].
    + intros x; destruct (Req_EM_T a 0) as [A0|A0].
      * destruct (H2 A0) as [<- H]; destruct (H x) as [Hx Nb]; rewrite Hx; simpl; split.
        -- intros [<-|[<-|[]]]; ring.
        -- intros Z; apply Rmult_integral in Z; destruct Z; [contradiction|left; lra].
      * rewrite (H1 A0); simpl; split.
        -- intros [<-|[<-|[]]]; ring.
        -- intros Z; apply Rmult_integral in Z; destruct Z as [Z|Z]; [|right; left; lra].
           apply Rmult_integral in Z; destruct Z; [contradiction|left; lra].
Qed.

(** The all-zero polynomial yields two NaNs: the branch meant for it is unreachable. *)
Lemma quadratic_roots_zero_poly : qroots (Fin 0) (Fin 0) (Fin 0) = [NaN; NaN].
Proof.
  unfold quadratic_roots; xred. rewrite Rabs_R0, Rleb_true by (pose proof (l_min_pos L); lra).
  rewrite Reqb_true by auto; cbn [andb negb]. rewrite Ropp_0, xdiv_zero_zero; reflexivity.
Qed.

Lemma window_bool : forall lo hi t,
  (nleb (NumOps:=XR L) lo (Fin t) && nleb (NumOps:=XR L) (Fin t) hi)%bool = true <-> in_window lo hi t.
Proof.
  intros lo hi t; unfold in_window, at_least, at_most; rewrite andb_true_iff.
  change (nleb (NumOps:=XR L)) with xleb.
  destruct lo as [lo| | |], hi as [hi| | |]; cbn; rewrite ?Rleb_iff;
    split; intros [A B]; split; auto; try discriminate; try contradiction.
Qed.

Lemma window_bool_false : forall lo hi t,
  (nleb (NumOps:=XR L) lo (Fin t) && nleb (NumOps:=XR L) (Fin t) hi)%bool = false <-> ~ in_window lo hi t.
Proof.
  intros; rewrite <- window_bool; destruct (_ && _)%bool; split; intros; auto; try discriminate.
  exfalso; auto.
Qed.

Lemma first_root_correct : forall (a b c : R) (lo hi : xr),
  off_threshold (l_min L) a -> off_threshold (l_min L) b -> ~ (a = 0 /\ b = 0 /\ c = 0) ->
  (first_quadratic_root_in_range (F:=XR L) (Fin a) (Fin b) (Fin c) lo hi = None /\
     forall x, in_window lo hi x -> quadR a b c x <> 0) \/
  (exists t, first_quadratic_root_in_range (F:=XR L) (Fin a) (Fin b) (Fin c) lo hi = Some (Fin t) /\
     quadR a b c t = 0 /\ in_window lo hi t /\
     forall x, in_window lo hi x -> quadR a b c x = 0 -> t <= x).
Proof.
  intros a b c lo hi Ha Hb Hn.
  destruct (quadratic_roots_set a b c Ha Hb Hn) as [l [E [Inc [Shape H]]]].
  unfold first_quadratic_root_in_range; rewrite E.
  destruct Shape as [->|[r0 [r1 ->]]]; cbn [map].
  - left; split; auto; intros x _ Z; apply H in Z; destruct Z.
  - destruct Inc as [Inc _]; specialize (Inc r1 (or_introl eq_refl)).
    match goal with |- context [if ?c then Some (Fin r0) else _] => destruct c eqn:E0 end.
    + right; exists r0; apply window_bool in E0; repeat split; auto; try apply E0.
      * apply H; left; auto.
      * intros x W Z; apply H in Z; destruct Z as [<-|[<-|[]]]; lra.
    + apply window_bool_false in E0.
      match goal with |- context [if ?c then Some (Fin r1) else _] => destruct c eqn:E1 end.
      * right; exists r1; apply window_bool in E1; repeat split; auto; try apply E1.
        -- apply H; right; left; auto.
        -- intros x W Z; apply H in Z; destruct Z as [<-|[<-|[]]]; [contradiction|lra].
      * apply window_bool_false in E1.
        left; split; auto; intros x W Z; apply H in Z; destruct Z as [<-|[<-|[]]]; contradiction.
Qed.
End L.

(** *** C07: floating-point shape *)
Section Float.
Variables prec emax : Z.
Variable Hprec : Prec_gt_0 prec.
Variable Hmax : Prec_lt_emax prec emax.
Variable lm : libm (binary_float prec emax).
Notation float := (binary_float prec emax).

Lemma Bsqrt_not_neg : forall x : float,
  Bltb (Bsqrt (prec_gt_0_:=Hprec) (prec_lt_emax_:=Hmax) mode_NE x)
       (Bopp (Bsqrt (prec_gt_0_:=Hprec) (prec_lt_emax_:=Hmax) mode_NE x)) = false.
Proof.
  intros x; set (y := Bsqrt mode_NE x).
  rewrite Bltb_fval, fval_opp.
  assert (H : match fval y with Fin r => 0 <= r | MInf => False | _ => True end).
  { destruct (Bsqrt_correct prec emax Hprec Hmax mode_NE x) as [E [Fi Sg]]; fold y in E, Fi, Sg.
    destruct y as [s|[|]| |s m e B] eqn:Y; try exact I; [simpl; lra| |].
    - (* negative infinity *)
      destruct x as [sx|[|]| |[|] mx ex Bx]; unfold y in Y; simpl in Y; try discriminate.
      all: specialize (Sg eq_refl); discriminate.
    - rewrite fval_finite by reflexivity; rewrite E; apply round_ge_generic; [apply (fexp_correct prec emax Hprec)|apply valid_rnd_round_mode|apply generic_format_0|apply sqrt_pos]. }
  destruct (fval y) as [r| | |]; try reflexivity; try contradiction.
  apply Rltb_false; lra.
Qed.

Lemma Bltb_asym : forall x y : float, Bltb x y = true -> Bltb y x = false.
Proof.
  intros x y. rewrite !Bltb_fval. generalize (fval x) (fval y).
  intros u v; destruct u, v; simpl; auto; try discriminate.
  intros H; apply Rltb_iff in H; apply Rltb_false; lra.
Qed.

Lemma quadratic_roots_shape : forall a b c : float,
  quadratic_roots (F:=FL prec emax Hprec Hmax lm) a b c = [] \/
  exists r0 r1, quadratic_roots (F:=FL prec emax Hprec Hmax lm) a b c = [r0; r1] /\
                Bltb r1 r0 = false.
Proof.
  intros a b c; unfold quadratic_roots.
  repeat match goal with
  | |- context [if ?b then _ else _] => destruct b eqn:?
  end; auto; right; do 2 eexists; (split; [reflexivity|]).
  all: try (rewrite Bltb_fval; apply xltb_irrefl).
  - apply Bsqrt_not_neg.
  - apply Bltb_asym; assumption.
  - assumption.
Qed.
End Float.
