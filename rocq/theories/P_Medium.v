(** constant_medium and ray_color in exact arithmetic. *)
From Coq Require Import Reals ZArith Lra Lia List Bool.
From Verif Require Import Num XR Spec Spec_Scene Spec_Light M_Vec M_Rng M_Hittable M_Materials P_Vec.
Import ListNotations.
Local Open Scope R_scope.

Section Medium.
Context {L : limits}.
Notation gap := (100 * l_eps L).

Lemma medium_correct : forall (r : ray R) (o : hittable (F:=XR L)) meets describes d u rec1 rec2 lo hi rec,
  hit_contract r o meets describes -> r_dir r <> zeroR -> 0 < d -> 0 < u < 1 -> lo <> NaN -> hi <> NaN ->
  exists b rec', medium_hit (F:=XR L) (hit o) (neg_inv_density (F:=XR L) (Fin d)) (Fin u) rec1 rec2 (finray r) lo hi rec = Ok (b, rec') /\
    if b : bool then exists t1 t2 t, first_meeting meets t1 /\ next_meeting meets gap t1 t2 /\
      (t - startR lo t1) * normR (r_dir r) = - ln u / d /\ startR lo t1 < t /\ t <= t2 /\ in_window lo hi t /\
      h_t rec' = Fin t /\ h_p rec' = fin3 (pointR r t)
    else rec' = rec /\ forall t1 t2 t, first_meeting meets t1 -> next_meeting meets gap t1 t2 ->
      (t - startR lo t1) * normR (r_dir r) = - ln u / d -> ~ (in_window lo hi t /\ t <= t2).
Proof.
  intros r o meets describes d u rec1 rec2 lo hi rec HC D Hd Hu Hlo Hhi. unfold medium_hit.
  cbn [nneg ninf XR xneg]. destruct (HC MInf PInf rec1 ltac:(discriminate) ltac:(discriminate)) as (b1 & r1 & E1 & C1).
  change (@num (XR L)) with xr in *. rewrite E1. cbn [obind]. destruct b1; cbn [negb].
  2:{ exists false, rec. split; [reflexivity|]. split; [reflexivity|]. intros t1 t2 t [M _] _ _ _. apply (C1 t1 M). split; exact I. }
  destruct C1 as (t1 & T1 & M1 & _ & F1 & _). rewrite T1. cbn [nadd nmul nofZ neps XR xmul xadd].
  assert (First : first_meeting meets t1) by (split; [exact M1|intros t' M'; apply F1; [exact M'|split; exact I]]).
  destruct (HC (Fin (t1 + gap)) PInf rec2 ltac:(discriminate) ltac:(discriminate)) as (b2 & r2 & E2 & C2).
  rewrite E2. cbn [obind]. destruct b2; cbn [negb].
  2:{ exists false, rec. split; [reflexivity|]. split; [reflexivity|]. intros s1 t2 t [M F] [M2 [G _]] _ _.
      assert (s1 = t1) by (apply Rle_antisym; [apply F; exact M1|apply F1; [exact M|split; exact I]]). subst s1. apply (C2 t2 M2). split; [exact G|exact I]. }
  destruct C2 as (t2 & T2 & M2 & [W2 _] & F2 & _). cbn [at_least] in W2. change (@num (XR L)) with xr in *. rewrite T2.
  assert (Next : next_meeting meets gap t1 t2) by (split; [exact M2|split; [exact W2|intros t' M' G; apply F2; [exact M'|split; [exact G|exact I]]]]).
  assert (Uniq : forall s1 s2, first_meeting meets s1 -> next_meeting meets gap s1 s2 -> s1 = t1 /\ s2 = t2).
  { intros s1 s2 [A1 A2] (B1 & B2 & B3). assert (s1 = t1) by (apply Rle_antisym; [apply A2; exact M1|apply First; exact A1]). subst s1. split; [reflexivity|].
    apply Rle_antisym; [apply B3; assumption|apply Next; assumption]. }
  set (P := - ln u / d). set (len := normR (r_dir r)).
  assert (Hlen : 0 < len) by (apply normR_pos; exact D).
  assert (HP : 0 < P). { unfold P. assert (ln u < 0) by (rewrite <- ln_1; apply ln_increasing; lra). apply Rmult_lt_0_compat; [lra|apply Rinv_0_lt_compat; exact Hd]. }
  assert (HD : xmul (neg_inv_density (F:=XR L) (Fin d)) (nlog (NumOps:=XR L) (Fin u)) = Fin P).
  { unfold neg_inv_density. cbn [ndiv nofZ nlog XR]. rewrite xdiv_fin by lra. unfold xlog. destruct (Rlt_dec 0 u); [|lra]. cbn [xmul]. f_equal. unfold P. field. lra. }
  change (@num (XR L)) with xr in *. rewrite HD. cbn [r_dir finray]. rewrite norm_fin. fold len. cbn [nltb nleb nofZ XR].
  (* start and end *)
  set (s0 := if xltb (Fin t1) lo then lo else Fin t1). set (e0 := if xltb hi (Fin t2) then hi else Fin t2).
  change (if xltb (Fin t1) lo then lo else Fin t1) with s0. change (if xltb hi (Fin t2) then hi else Fin t2) with e0.
  assert (S0 : (lo = PInf /\ s0 = PInf) \/ exists s, s0 = Fin s /\ startR lo t1 = Rmax 0 s /\ at_least lo s).
  { unfold s0, startR. destruct lo as [a| | |]; cbn [xltb at_least].
    - right. destruct (Rltb_spec t1 a).
      + exists a. rewrite (Rmax_left a t1) by lra. repeat split; lra.
      + exists t1. rewrite (Rmax_right a t1) by lra. repeat split; lra.
    - left. auto.
    - right. exists t1. auto.
    - congruence. }
  assert (E0 : (hi = MInf /\ e0 = MInf) \/ exists e, e0 = Fin e /\ forall t, t <= e <-> at_most hi t /\ t <= t2).
  { unfold e0. destruct hi as [a| | |]; cbn [xltb at_most].
    - right. destruct (Rltb_spec a t2); [exists a|exists t2]; split; auto; intros; lra.
    - right. exists t2. split; auto. intros; tauto.
    - left. auto.
    - congruence. }
  clearbody s0 e0.
  assert (Fail : (forall t, (t - startR lo t1) * len = P -> ~ (in_window lo hi t /\ t <= t2)) ->
    exists b rec', @Ok (bool * hit_record xr) (false, rec) = Ok (b, rec') /\
    if b : bool then exists t1 t2 t, first_meeting meets t1 /\ next_meeting meets gap t1 t2 /\
      (t - startR lo t1) * len = P /\ startR lo t1 < t /\ t <= t2 /\ in_window lo hi t /\
      h_t rec' = Fin t /\ h_p rec' = fin3 (pointR r t)
    else rec' = rec /\ forall t1 t2 t, first_meeting meets t1 -> next_meeting meets gap t1 t2 ->
      (t - startR lo t1) * len = P -> ~ (in_window lo hi t /\ t <= t2)).
  { intros H. exists false, rec. split; [reflexivity|]. split; [reflexivity|]. intros s1 s2 t A B. destruct (Uniq s1 s2 A B) as [-> ->]. apply H. }
  destruct E0 as [[-> ->]|(e & -> & He)].
  { assert (X : xleb MInf s0 = true) by (destruct S0 as [[_ ->]|(s & -> & _)]; reflexivity).
    rewrite X. apply Fail. intros t _ [[_ []] _]. }
  destruct S0 as [[-> ->]|(s & -> & Hs & Ls)].
  { cbn [xleb xltb xeqb orb]. apply Fail. intros t _ [[[] _] _]. }
  cbn [xleb]. rewrite Hs in *.
  assert (Key : forall t, (t - Rmax 0 s) * len = P <-> t = Rmax 0 s + P / len).
  { intros t. split; [intros H; rewrite <- H; field; lra|intros ->; field; lra]. }
  assert (HPl : 0 < P / len) by (apply Rmult_lt_0_compat; [exact HP|apply Rinv_0_lt_compat; exact Hlen]).
  destruct (Rleb_spec e s) as [K|K].
  { apply Fail. intros t Ht [[_ A] B]. apply Key in Ht. pose proof (Rmax_r 0 s). assert (t <= e) by (apply He; auto). lra. }
  assert (Z : (if xltb (Fin s) (Fin 0) then Fin 0 else Fin s) = Fin (Rmax 0 s)).
  { cbn [xltb]. destruct (Rltb_spec s 0); [rewrite Rmax_left|rewrite Rmax_right]; auto; lra. }
  change (if xltb (Fin s) (Fin 0) then Fin 0 else Fin s) with (if xltb (Fin s) (Fin 0) then Fin 0 else Fin s). cbn [xltb] in Z |- *. rewrite Z.
  set (m := Rmax 0 s) in *. cbn [nsub nmul nltb nadd ndiv XR xsub xmul xltb]. rewrite xdiv_fin by lra. cbn [xadd].
  destruct (Rltb_spec ((e - m) * len) P) as [Q|Q].
  { apply Fail. intros t Ht [[_ A] B]. assert (t <= e) by (apply He; auto). nra. }
  assert (Te : m + P / len <= e). { apply Rmult_le_reg_r with len; [exact Hlen|]. replace ((m + P / len) * len) with (m * len + P) by (field; lra). lra. }
  apply He in Te. destruct Te as [Te1 Te2].
  eexists true, _. split; [reflexivity|]. exists t1, t2, (m + P / len). rewrite Hs.
  split; [exact First|]. split; [exact Next|]. split; [apply Key; reflexivity|]. split; [lra|]. split; [exact Te2|].
  split; [|split; reflexivity]. split; [|exact Te1].
  pose proof (Rmax_r 0 s). fold m in H. destruct lo as [a| | |]; cbn [at_least] in *; auto; lra.
Qed.

(* a draw of 0 is an infinitely long free path *)
Lemma medium_zero : forall (r : ray R) (o : hittable (F:=XR L)) meets describes d rec1 rec2 lo hi rec,
  hit_contract r o meets describes -> 0 < d -> lo <> NaN -> hi <> NaN ->
  medium_hit (F:=XR L) (hit o) (neg_inv_density (F:=XR L) (Fin d)) (Fin 0) rec1 rec2 (finray r) lo hi rec = Ok (false, rec).
Proof.
  intros r o meets describes d rec1 rec2 lo hi rec HC Hd Hlo Hhi. unfold medium_hit.
  cbn [nneg ninf XR xneg]. destruct (HC MInf PInf rec1 ltac:(discriminate) ltac:(discriminate)) as (b1 & r1 & E1 & C1).
  change (@num (XR L)) with xr in *. rewrite E1. cbn [obind]. destruct b1; [|reflexivity]. cbn [negb].
  destruct C1 as (t1 & T1 & _). rewrite T1. cbn [nadd nmul nofZ neps XR xmul xadd].
  destruct (HC (Fin (t1 + gap)) PInf rec2 ltac:(discriminate) ltac:(discriminate)) as (b2 & r2 & E2 & C2).
  rewrite E2. cbn [obind]. destruct b2; [|reflexivity]. cbn [negb]. destruct C2 as (t2 & T2 & _). change (@num (XR L)) with xr in *. rewrite T2.
  assert (HD : xmul (neg_inv_density (F:=XR L) (Fin d)) (nlog (NumOps:=XR L) (Fin 0)) = PInf).
  { unfold neg_inv_density. cbn [ndiv nofZ nlog XR]. rewrite xdiv_fin by lra. unfold xlog. destruct (Rlt_dec 0 0); [lra|].
    cbn [xmul]. unfold xscale_inf. assert (-1 / d < 0). { assert (0 < / d) by (apply Rinv_0_lt_compat; exact Hd). unfold Rdiv. lra. }
    destruct (Rlt_dec 0 (-1 / d)); [lra|]. destruct (Rlt_dec (-1 / d) 0); [reflexivity|lra]. }
  change (@num (XR L)) with xr in *. rewrite HD. cbn [r_dir finray]. rewrite norm_fin. cbn [nltb nleb nofZ XR].
  destruct lo as [a| | |]; try congruence; destruct hi as [h| | |]; try congruence; cbn [xltb xleb xeqb orb];
    repeat match goal with |- context [Rltb ?a ?b] => destruct (Rltb_spec a b); cbn [xltb xleb xeqb orb] end;
    repeat match goal with |- context [Rleb ?a ?b] => destruct (Rleb_spec a b); cbn [xltb xleb xeqb orb] end;
    repeat match goal with |- context [Rltb ?a ?b] => destruct (Rltb_spec a b); cbn [xltb xleb xeqb orb] end; reflexivity.
Qed.
End Medium.
