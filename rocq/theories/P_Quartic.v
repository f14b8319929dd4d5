(** quartic_roots over exact arithmetic. *)
From Coq Require Import Reals Lra ZArith List Bool Psatz Permutation.
From Flocq Require Import Core BinarySingleNaN.
From Verif Require Import Num XR FL M_Roots Spec P_Vec P_Matrix P_FL P_Quadratic P_Sort P_Cubic.
Import ListNotations.
Local Open Scope R_scope.

Lemma map_Fin_inj : forall l l', map Fin l = map Fin l' -> l = l'.
Proof.
  induction l as [|x l IH]; destruct l' as [|y l']; simpl; intros H; try discriminate; auto.
  injection H as -> H; f_equal; auto.
Qed.

Definition depq (p q r y : R) : R := y ^ 4 + p * y ^ 2 + q * y + r.

Lemma quartic_depress : forall a b c d e x, a <> 0 ->
  quarticR a b c d e x =
  a * depq (qrt_p a b c) (qrt_q a b c d) (qrt_r a b c d e) (x + b / a / 4).
Proof. intros; unfold quarticR, depq, qrt_p, qrt_q, qrt_r; field; auto. Qed.

(** Factorisation into quadratics from a positive root of the resolvent. *)
Lemma depq_factor : forall p q r z y, 0 < z -> resolvent p q r z = 0 ->
  let s := sqrt z in let v := (p + s * s + q / s) / 2 in let u := v - q / s in
  depq p q r y = quadR 1 s u y * quadR 1 (- s) v y.
Proof.
  intros p q r z y Hz Hr s v u.
  assert (Hs : 0 < s) by (apply sqrt_lt_R0; auto).
  assert (Hss : s * s = z) by (apply sqrt_sqrt; lra).
  assert (Er : r = u * v).
  { unfold resolvent, cubicR in Hr.
    assert (E : 4 * z * (u * v) = 4 * z * r).
    { unfold u, v.
      replace (4 * z * (((p + s * s + q / s) / 2 - q / s) * ((p + s * s + q / s) / 2)))
        with (z * ((p + s * s) ^ 2 - q ^ 2 / (s * s))) by (field; lra).
      rewrite Hss. replace (z * ((p + z) ^ 2 - q ^ 2 / z)) with (z * (p + z) ^ 2 - q ^ 2) by (field; lra).
      lra. }
    apply Rmult_eq_reg_l with (4 * z); lra. }
  unfold depq, quadR. rewrite Er. unfold u, v. field. lra.
Qed.

Section L.
Variable L : limits.
Notation qrt := (quartic_roots (F:=XR L)).

Lemma halley_exact : forall a b c d e x, quarticR a b c d e x = 0 ->
  quartic_halley_step (F:=XR L) (Fin a) (Fin b) (Fin c) (Fin d) (Fin e) (Fin x) = Fin x.
Proof.
  intros a b c d e x H; unfold quartic_halley_step; xred.
  assert (E : (((a * x + b) * x + c) * x + d) * x + e = 0) by (unfold quarticR in H; lra).
  rewrite E.
  match goal with |- context [Rltb ?m (Rabs ?D)] => destruct (Rltb_spec m (Rabs D)) as [G|G]; auto end.
  rewrite xdiv_fin by (apply (abs_gt_min_neq0 L); auto). xred. f_equal.
  unfold Rdiv; rewrite Rmult_0_r, !Rmult_0_l; ring.
Qed.

(** the quantities computed by the code, on finite input *)
Lemma quartic_unfold : forall a b c d e, l_min L < Rabs a -> l_min L < Rabs e ->
  qrt (Fin a) (Fin b) (Fin c) (Fin d) (Fin e) =
  let p := qrt_p a b c in let q := qrt_q a b c d in let r := qrt_r a b c d e in
  if Rleb (Rabs r) (l_min L) then
    obind (cubic_roots (F:=XR L) (Fin 1) (Fin 0) (Fin p) (Fin q))
      (fun v => std_sort (F:=XR L) (map (fun y => xsub y (Fin (b / a / 4))) (v ++ [Fin 0])))
  else if Rleb (Rabs q) (l_min L) then
    std_sort (F:=XR L) (flat_map (fun r => if xleb (Fin 0) r
       then [xsub (xsqrt r) (Fin (b / a / 4)); xsub (xneg (xsqrt r)) (Fin (b / a / 4))] else [])
       (quadratic_roots (F:=XR L) (Fin 1) (Fin p) (Fin r)))
  else
    obind (cubic_roots (F:=XR L) (Fin 1) (Fin (2 * p)) (Fin (p * p - 4 * r)) (Fin (- q * q)))
     (fun z_roots => match rev z_roots with
      | [] => Undef
      | zb :: _ =>
          if xleb zb (Fin 0) then Ok []
          else
            let s := xsqrt zb in
            let v := xdiv (xadd (xadd (Fin p) (xmul s s)) (xdiv (Fin q) s)) (Fin 2) in
            let u := xsub v (xdiv (Fin q) s) in
            std_sort (F:=XR L) (map (quartic_halley_step (F:=XR L) (Fin a) (Fin b) (Fin c) (Fin d) (Fin e))
              (map (fun r => xsub r (Fin (b / a / 4)))
                (quadratic_roots (F:=XR L) (Fin 1) s u ++ quadratic_roots (F:=XR L) (Fin 1) (xneg s) v)))
      end).
Proof.
  intros a b c d e Ha He; cbv zeta.
  pose proof (abs_gt_min_neq0 L a Ha) as Na.
  unfold quartic_roots; xred. rewrite !Rleb_false by auto.
  rewrite !(xdiv_fin _ a) by auto; xred.
  rewrite !(xdiv_fin _ 8), !(xdiv_fin _ 2), !(xdiv_fin _ 4), !(xdiv_fin _ 16), !(xdiv_fin _ 256) by lra; xred.
  replace (c / a - 3 * (b / a * (b / a)) / 8) with (qrt_p a b c) by (unfold qrt_p; field; auto).
  replace (d / a - b / a * (c / a) / 2 + b / a * (b / a) * (b / a) / 8) with (qrt_q a b c d)
    by (unfold qrt_q; field; auto).
  replace (e / a - b / a * (d / a) / 4 + b / a * (b / a) * (c / a) / 16
           - 3 * (b / a * (b / a)) * (b / a * (b / a)) / 256) with (qrt_r a b c d e)
    by (unfold qrt_r; field; auto).
  reflexivity.
Qed.

Lemma off_0 : forall m, off_threshold m 0.
Proof. intros; left; auto. Qed.

Lemma quartic_main : forall a b c d e, quartic_off_threshold (l_min L) a b c d e ->
  exists l, qrt (Fin a) (Fin b) (Fin c) (Fin d) (Fin e) = Ok (map Fin l) /\
    (a = 0 \/ e <> 0 -> increasing l) /\
    (forall x, In x l -> quarticR a b c d e x = 0) /\
    (~ quartic_degenerate a b c d e -> forall x, quarticR a b c d e x = 0 -> In x l) /\
    (quartic_degenerate a b c d e -> exists x, quarticR a b c d e x = 0 /\ ~ In x l).
Proof.
  intros a b c d e H; unfold quartic_off_threshold in H; cbv zeta in H.
  destruct H as [Hm [Ha [H0 [He [He0 [Hr [Hr0 [Hq [Hq0 Hz]]]]]]]]].
  destruct (off_cases L a Ha) as [[-> Ea]|[Na Ea]].
  - specialize (H0 eq_refl).
    destruct (cubic_roots_main L b c d e H0) as [l [E [Inc [S [C _]]]]].
    assert (EQ : forall x, quarticR 0 b c d e x = cubicR b c d e x) by (intros; unfold quarticR, cubicR; ring).
    exists l; split; [unfold quartic_roots; xred; rewrite Ea; auto|].
    split; [auto|]. split; [intros x Hx; rewrite EQ; auto|]. split.
    + intros N x Hx; rewrite EQ in Hx; apply C; auto. intros D; apply N; left; auto.
    + intros [[_ D]|[[C0 _]|[C0 _]]]; [|contradiction|contradiction].
      destruct (cubic_double_missed L b c d e H0 D) as [l' [x [E' [Z N]]]].
      rewrite E in E'; injection E' as E'; apply map_Fin_inj in E'; subst l'.
      exists x; rewrite EQ; auto.
  - specialize (He Na); specialize (He0 Na); specialize (Hr Na); specialize (Hr0 Na);
      specialize (Hq Na); specialize (Hq0 Na); specialize (Hz Na).
    assert (Ha' : l_min L < Rabs a) by (destruct Ha; [contradiction|auto]).
    destruct (off_cases L e He) as [[-> Ee]|[Ne Ee]].
    + specialize (He0 eq_refl).
      destruct (cubic_roots_main L a b c d He0) as [l [E [Inc [S [C _]]]]].
      assert (EQ : forall x, quarticR a b c d 0 x = x * cubicR a b c d x) by (intros; unfold quarticR, cubicR; ring).
      exists (l ++ [0]); split.
      { unfold quartic_roots; xred; rewrite Ea, Ee, E. cbn [obind]. rewrite map_app; reflexivity. }
      split; [intros [|]; contradiction|]. split; [|split].
      * intros x Hx; apply in_app_or in Hx; rewrite EQ; destruct Hx as [Hx|[<-|[]]]; [rewrite S by auto|]; ring.
      * intros N x Hx; rewrite EQ in Hx; apply in_or_app; apply Rmult_integral in Hx.
        destruct Hx as [->|Hx]; [right; left; auto|left; apply C; auto].
        intros D; apply N; right; left; auto.
      * intros [[C0 _]|[[_ [_ D]]|[_ [C0 _]]]]; try contradiction.
        destruct (cubic_double_missed L a b c d He0 D) as [l' [x [E' [Z N]]]].
        rewrite E in E'; injection E' as E'; apply map_Fin_inj in E'; subst l'.
        exists x; split; [rewrite EQ, Z; ring|].
        intros Hx; apply in_app_or in Hx; destruct Hx as [Hx|[<-|[]]]; [auto|].
        destruct D as [_ [Nd _]]. apply Nd. unfold cubicR in Z. lra.
    + assert (He' : l_min L < Rabs e) by (destruct He; [contradiction|auto]).
      specialize (Hr Ne); specialize (Hr0 Ne); specialize (Hq Ne); specialize (Hq0 Ne); specialize (Hz Ne).
      rewrite (quartic_unfold a b c d e Ha' He'); cbv zeta.
      pose proof (fun x => quartic_depress a b c d e x Na) as Dep.
      assert (ND : qrt_r a b c d e <> 0 -> ~ quartic_degenerate a b c d e).
      { intros Nr [[C0 _]|[[_ [C0 _]]|[_ [_ [C0 _]]]]]; contradiction. }
      assert (Deg : quartic_degenerate a b c d e -> cubic_double_root 1 0 (qrt_p a b c) (qrt_q a b c d)).
      { intros [[C0 _]|[[_ [C0 _]]|[_ [_ [_ D]]]]]; auto; contradiction. }
      assert (Deg' : qrt_r a b c d e = 0 -> cubic_double_root 1 0 (qrt_p a b c) (qrt_q a b c d) -> quartic_degenerate a b c d e).
      { intros; right; right; auto. }
      set (p := qrt_p a b c) in *; set (q := qrt_q a b c d) in *; set (r := qrt_r a b c d e) in *.
      assert (H1 : off_threshold (l_min L) 1) by (right; rewrite Rabs_R1; auto).
      destruct (off_cases L r Hr) as [[r0 Er]|[Nr Er]].
      * rewrite Er. specialize (Hr0 r0).
        destruct (cubic_roots_main L 1 0 p q Hr0) as [l [E [Inc [S [C _]]]]].
        rewrite E; cbn [obind].
        assert (M : map (fun y => xsub y (Fin (b / a / 4))) (map Fin l ++ [Fin 0])
                    = map Fin (map (fun y => y - b / a / 4) (l ++ [0]))).
        { rewrite !map_app, !map_map. reflexivity. }
        cbn [num XR]; rewrite M.
        destruct (std_sort_correct L (map (fun y => y - b / a / 4) (l ++ [0]))) as [l' [E' [P [Inc' HI]]]].
        assert (EQ : forall x, quarticR a b c d e x = a * ((x + b / a / 4) * cubicR 1 0 p q (x + b / a / 4))).
        { intros x; rewrite Dep, r0; unfold depq, cubicR; ring. }
        assert (IN : forall x, In x l' <-> x + b / a / 4 = 0 \/ In (x + b / a / 4) l).
        { intros x; rewrite HI, in_map_iff; split.
          - intros [y [<- Hy]]. replace (y - b / a / 4 + b / a / 4) with y by ring.
            apply in_app_or in Hy; destruct Hy as [Hy|[<-|[]]]; auto.
          - intros Hy; exists (x + b / a / 4); split; [ring|]. apply in_or_app.
            destruct Hy as [Hy|Hy]; [right; left; auto|auto]. }
        exists l'; split; [auto|]. split; [auto|]. split; [|split].
        -- intros x Hx; apply IN in Hx; rewrite EQ; destruct Hx as [Hx|Hx]; [rewrite Hx|rewrite (S _ Hx)]; ring.
        -- intros N x Hx; apply IN. rewrite EQ in Hx. apply Rmult_integral in Hx; destruct Hx as [Hx|Hx]; [contradiction|].
           apply Rmult_integral in Hx; destruct Hx as [Hx|Hx]; [auto|right; apply C; auto].
        -- intros D; apply Deg in D.
           destruct (cubic_double_missed L 1 0 p q Hr0 D) as [l2 [x [E2 [Z N]]]].
           rewrite E in E2; injection E2 as E2; apply map_Fin_inj in E2; subst l2.
           exists (x - b / a / 4); rewrite EQ, IN. replace (x - b / a / 4 + b / a / 4) with x by ring.
           split; [rewrite Z; ring|]. intros [->|Hx]; auto.
           destruct D as [_ [Nd _]]. apply Nd. unfold cubicR in Z; lra.
      * rewrite Er. specialize (Hq Nr); specialize (Hq0 Nr); specialize (Hz Nr). specialize (ND Nr).
        destruct (off_cases L q Hq) as [[q0 Eq]|[Nq Eq]]; rewrite Eq.
        -- (* biquadratic *)
           assert (Hn : ~ (1 = 0 /\ p = 0 /\ r = 0)) by lra.
           destruct (quadratic_roots_set L 1 p r H1 (Hq0 q0) Hn) as [w [E [Inc [_ HR]]]].
           rewrite E.
           set (g := fun r : R => if Rleb 0 r then [sqrt r - b / a / 4; - sqrt r - b / a / 4] else []).
           assert (M : flat_map (fun r : xr => if xleb (Fin 0) r
              then [xsub (xsqrt r) (Fin (b / a / 4)); xsub (xneg (xsqrt r)) (Fin (b / a / 4))] else [])
              (map Fin w) = map Fin (flat_map g w)).
           { clear. induction w as [|y w IH]; auto. cbn [map flat_map]. rewrite IH, map_app. f_equal.
             unfold g; xred. destruct (Rleb_spec 0 y); auto. rewrite xsqrt_fin by auto. reflexivity. }
           cbn [num XR]; rewrite M.
           destruct (std_sort_correct L (flat_map g w)) as [l' [E' [P [Inc' HI]]]].
           assert (IN : forall x, In x l' <-> depq p q r (x + b / a / 4) = 0).
           { intros x; rewrite HI, in_flat_map.
             assert (DQ : forall y, depq p q r y = quadR 1 p r (y * y)) by (intros; rewrite q0; unfold depq, quadR; ring).
             rewrite DQ. set (y := x + b / a / 4). split.
             - intros [t [Ht Hx]]. apply HR in Ht. unfold g in Hx. destruct (Rleb_spec 0 t) as [T|T]; [|destruct Hx].
               pose proof (sqrt_sqrt t T) as SS.
               destruct Hx as [Hx|[Hx|[]]]; unfold y; rewrite <- Hx.
               + replace ((sqrt t - b / a / 4 + b / a / 4) * (sqrt t - b / a / 4 + b / a / 4)) with (sqrt t * sqrt t) by ring.
                 rewrite SS; auto.
               + replace ((- sqrt t - b / a / 4 + b / a / 4) * (- sqrt t - b / a / 4 + b / a / 4)) with (sqrt t * sqrt t) by ring.
                 rewrite SS; auto.
             - intros Hx. exists (y * y); split; [apply HR; auto|].
               unfold g. rewrite Rleb_true by nra.
               change (y * y) with (Rsqr y). rewrite sqrt_Rsqr_abs.
               destruct (Rle_or_lt 0 y).
               + left; rewrite Rabs_right by lra; unfold y; ring.
               + right; left; rewrite Rabs_left by lra; unfold y; ring. }
           exists l'; split; [auto|]. split; [auto|]. split; [|split].
           ++ intros x Hx; apply IN in Hx; rewrite Dep, Hx; ring.
           ++ intros _ x Hx; apply IN. rewrite Dep in Hx. apply Rmult_integral in Hx; destruct Hx; [contradiction|auto].
           ++ intros D; contradiction.
        -- (* general case *)
           destruct (Hz Nq) as [Hc Hpos].
           destruct (cubic_roots_main L 1 (2 * p) (p * p - 4 * r) (- q * q) Hc) as [lz [E [_ [S [_ [Hlast _]]]]]].
           assert (Nqq : - q * q <> 0).
           { intros C; assert (Z : q * q = 0) by lra; apply Rmult_integral in Z; destruct Z; contradiction. }
           destruct Hlast as [l0 [z [-> Hzp]]]; [lra|auto|assert (0 < q * q) by nra; lra|].
           rewrite E; cbn [obind]. rewrite map_app, rev_app_distr; cbn [map rev app].
           xred. rewrite (Rleb_false z 0) by auto. rewrite xsqrt_fin by lra.
           assert (Hres : resolvent p q r z = 0) by (apply S, in_or_app; right; left; auto).
           assert (Hms : l_min L < sqrt z) by (apply Hpos; auto).
           assert (Hs : 0 < sqrt z) by (apply sqrt_lt_R0; auto).
           xred. rewrite !xdiv_fin by lra; xred. rewrite !xdiv_fin by lra; xred.
           pose proof (fun y => depq_factor p q r z y Hzp Hres) as Fac; cbv zeta in Fac.
           set (s := sqrt z) in *. set (v := (p + s * s + q / s) / 2) in *. set (u := v - q / s) in *.
           assert (Os : off_threshold (l_min L) s) by (right; rewrite Rabs_right by lra; auto).
           assert (Os' : off_threshold (l_min L) (- s)) by (right; rewrite Rabs_Ropp, Rabs_right by lra; auto).
           assert (Hn1 : ~ (1 = 0 /\ s = 0 /\ u = 0)) by lra.
           assert (Hn2 : ~ (1 = 0 /\ - s = 0 /\ v = 0)) by lra.
           destruct (quadratic_roots_set L 1 s u H1 Os Hn1) as [w1 [E1 [_ [_ R1]]]].
           destruct (quadratic_roots_set L 1 (- s) v H1 Os' Hn2) as [w2 [E2 [_ [_ R2]]]].
           rewrite E1, E2.
           assert (RR : forall y, In y (w1 ++ w2) <-> depq p q r y = 0).
           { intros y; rewrite Fac, in_app_iff, R1, R2; split.
             - intros [-> | ->]; ring.
             - intros Z; apply Rmult_integral; auto. }
           assert (M1 : map (fun r => xsub r (Fin (b / a / 4))) (map Fin w1 ++ map Fin w2) =
                        map Fin (map (fun y => y - b / a / 4) (w1 ++ w2))).
           { rewrite <- map_app, !map_map. reflexivity. }
           rewrite M1.
           assert (RX : forall x, In x (map (fun y => y - b / a / 4) (w1 ++ w2)) <-> quarticR a b c d e x = 0).
           { intros x; rewrite Dep, in_map_iff; split.
             - intros [y [<- Hy]]. replace (y - b / a / 4 + b / a / 4) with y by ring.
               apply RR in Hy; rewrite Hy; ring.
             - intros Z; apply Rmult_integral in Z; destruct Z as [Z|Z]; [contradiction|].
               exists (x + b / a / 4); split; [ring|apply RR; auto]. }
           set (xs := map (fun y => y - b / a / 4) (w1 ++ w2)) in *.
           assert (M2 : map (quartic_halley_step (F:=XR L) (Fin a) (Fin b) (Fin c) (Fin d) (Fin e)) (map Fin xs) = map Fin xs).
           { rewrite map_map. apply map_ext_in. intros x Hx. apply halley_exact, RX; auto. }
           cbn [num XR] in M2 |- *; rewrite M2.
           destruct (std_sort_correct L xs) as [l' [E' [P [Inc' HI]]]].
           exists l'; split; [auto|]. split; [auto|]. split; [|split].
           ++ intros x Hx; apply RX, HI; auto.
           ++ intros _ x Hx; apply HI, RX; auto.
           ++ intros D; contradiction.
Qed.
End L.

Lemma quartic_complete_iff : forall L a b c d e, quartic_off_threshold (l_min L) a b c d e ->
  ((exists l, quartic_roots (F:=XR L) (Fin a) (Fin b) (Fin c) (Fin d) (Fin e) = Ok (map Fin l) /\
      forall x, In x l <-> quarticR a b c d e x = 0)
   <-> ~ quartic_degenerate a b c d e).
Proof.
  intros L a b c d e H. destruct (quartic_main L a b c d e H) as [l [E [_ [S [C D]]]]]. split.
  - intros [l' [E' R]] Deg. rewrite E in E'; injection E' as E'; apply map_Fin_inj in E'; subst l'.
    destruct (D Deg) as [x [Z N]]. apply N, R, Z.
  - intros N. exists l; split; auto. intros x; split; auto.
Qed.

Lemma quartic_double_missed : forall L a b c d e, quartic_off_threshold (l_min L) a b c d e ->
  quartic_degenerate a b c d e ->
  exists l x, quartic_roots (F:=XR L) (Fin a) (Fin b) (Fin c) (Fin d) (Fin e) = Ok (map Fin l) /\
    quarticR a b c d e x = 0 /\ ~ In x l.
Proof.
  intros L a b c d e H Deg. destruct (quartic_main L a b c d e H) as [l [E [_ [S [C D]]]]].
  destruct (D Deg) as [x [Z N]]. exists l, x; auto.
Qed.

Lemma quartic_sorted_exact : forall L a b c d e, quartic_off_threshold (l_min L) a b c d e ->
  a = 0 \/ e <> 0 ->
  exists l, quartic_roots (F:=XR L) (Fin a) (Fin b) (Fin c) (Fin d) (Fin e) = Ok (map Fin l) /\ increasing l.
Proof.
  intros L a b c d e H Hc. destruct (quartic_main L a b c d e H) as [l [E [I _]]]. eauto.
Qed.

(** With a zero constant term the appended root 0 is out of place. *)
Lemma quartic_unsorted : forall L, l_min L < 1 ->
  quartic_roots (F:=XR L) (Fin 1) (Fin (-1)) (Fin 0) (Fin 0) (Fin 0) = Ok (map Fin [0; 0; 1; 0]).
Proof.
  intros L Hm; pose proof (l_min_pos L) as Hp.
  unfold quartic_roots, cubic_roots, quadratic_roots; xred.
  rewrite !Rabs_R0, !Rabs_R1, !(Rleb_true 0), !(Rleb_false 1) by lra.
  rewrite Rabs_left by lra. rewrite Rleb_false by lra.
  rewrite discriminant_fin; xred. replace (-1 * -1 - 4 * 1 * 0) with 1 by ring. rewrite Rltb_false by lra.
  rewrite xsqrt_fin, sqrt_1 by lra. xred.
  unfold xcopysign, xnegative. rewrite Rltb_true by lra. xred. rewrite Rabs_R1.
  rewrite (xdiv_fin _ 2) by lra. replace (- (-1 + - (1)) / 2) with 1 by field.
  rewrite !xdiv_fin by lra. replace (1 / 1) with 1 by field. replace (0 / 1) with 0 by field. xred.
  rewrite Rltb_false by lra. cbn [app].
  pose proof (std_sort_fin L [0; 1; 0]) as E; cbn [map] in E; cbn [num XR] in *. rewrite E. cbn [obind].
  unfold sortR; cbn [fold_right insertR].
  rewrite (Rltb_false 1 0) by lra. cbn [insertR]. rewrite (Rltb_false 0 0) by lra. cbn [insertR].
  rewrite Rltb_true by lra. reflexivity.
Qed.

(** In IEEE arithmetic too the vector is ordered, for every input whose constant term
    is not treated as zero. *)
Section Float.
Variables prec emax : Z.
Variable Hprec : Prec_gt_0 prec.
Variable Hmax : Prec_lt_emax prec emax.
Variable lm : libm (binary_float prec emax).
Notation float := (binary_float prec emax).
Notation FLi := (FL prec emax Hprec Hmax lm).

Lemma ordered_non_decreasing : forall l, ordered prec emax l -> non_decreasing l.
Proof. induction l; simpl; intuition. Qed.

Lemma quadratic_non_decreasing : forall a b c : float, non_decreasing (quadratic_roots (F:=FLi) a b c).
Proof.
  intros a b c; destruct (quadratic_roots_shape prec emax Hprec Hmax lm a b c) as [E|[r0 [r1 [E H]]]];
    rewrite E; simpl; auto. split; [intros y [<-|[]]; auto|split; auto; intros y []].
Qed.
Lemma singleton_non_decreasing : forall x : float, non_decreasing [x].
Proof. simpl; split; auto; intros y []. Qed.

Lemma Ok_singleton : forall (x : float) l, Ok [x] = Ok l -> non_decreasing l.
Proof. intros x l E; injection E as <-; apply singleton_non_decreasing. Qed.

Lemma cubic_non_decreasing : forall (a b c d : float) l,
  cubic_roots (F:=FLi) a b c d = Ok l -> non_decreasing l.
Proof.
  intros a b c d l; unfold cubic_roots.
  match goal with |- (if ?c then _ else _) = _ -> _ => destruct c end; [intros E; injection E as <-; apply quadratic_non_decreasing|].
  match goal with |- (if ?c then _ else _) = _ -> _ => destruct c end; [intros E; apply ordered_non_decreasing; apply std_sort_ordered in E; auto|].
  cbv zeta.
  match goal with |- (if ?c then _ else _) = _ -> _ => destruct c end.
  - intros E; apply ordered_non_decreasing; apply std_sort_ordered in E; auto.
  - match goal with |- (if ?c then _ else _) = _ -> _ => destruct c end; exact (Ok_singleton _ _).
Qed.

Lemma quartic_non_decreasing : forall (a b c d e : float) l,
  Bleb (Babs a) (nmin (NumOps:=FLi)) = true \/ Bleb (Babs e) (nmin (NumOps:=FLi)) = false ->
  quartic_roots (F:=FLi) a b c d e = Ok l -> non_decreasing l.
Proof.
  intros a b c d e l H; unfold quartic_roots.
  change (nleb (NumOps:=FLi)) with (@Bleb prec emax). change (nabs (NumOps:=FLi)) with (@Babs prec emax).
  destruct (Bleb (Babs a) (nmin (NumOps:=FLi))) eqn:Ea; [apply cubic_non_decreasing|].
  destruct H as [H|H]; [discriminate|]. rewrite H. cbv zeta.
  match goal with |- (if ?c then _ else _) = _ -> _ => destruct c end.
  { match goal with |- obind ?x _ = _ -> _ => destruct x end; cbn [obind]; try discriminate.
    intros E; apply ordered_non_decreasing; apply std_sort_ordered in E; auto. }
  match goal with |- (if ?c then _ else _) = _ -> _ => destruct c end.
  { intros E; apply ordered_non_decreasing; apply std_sort_ordered in E; auto. }
  match goal with |- obind ?x _ = _ -> _ => destruct x as [zs| |] end; cbn [obind]; try discriminate.
  destruct (rev zs); [discriminate|].
  match goal with |- (if ?c then _ else _) = _ -> _ => destruct c end.
  - intros E; injection E as <-; exact I.
  - intros E; apply ordered_non_decreasing; apply std_sort_ordered in E; auto.
Qed.
End Float.

Lemma cubic_sound : forall L a b c d, cubic_off_threshold (l_min L) a b c d ->
  exists l, cubic_roots (F:=XR L) (Fin a) (Fin b) (Fin c) (Fin d) = Ok (map Fin l) /\
    increasing l /\ (forall x, In x l -> cubicR a b c d x = 0) /\ (a <> 0 -> l <> []).
Proof.
  intros L a b c d H. destruct (cubic_roots_main L a b c d H) as [l [E [I [S [_ [_ N]]]]]]. exists l; auto.
Qed.
Lemma quartic_sound : forall L a b c d e, quartic_off_threshold (l_min L) a b c d e ->
  exists l, quartic_roots (F:=XR L) (Fin a) (Fin b) (Fin c) (Fin d) (Fin e) = Ok (map Fin l) /\
    forall x, In x l -> quarticR a b c d e x = 0.
Proof.
  intros L a b c d e H. destruct (quartic_main L a b c d e H) as [l [E [_ [S _]]]]. exists l; auto.
Qed.
