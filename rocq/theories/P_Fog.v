(** Scenes with media in exact arithmetic. *)
From Coq Require Import Reals ZArith Lra Lia List Bool Psatz.
From Verif Require Import Spec_Random Num XR Spec Spec_Scene Spec_Light Spec_Shapes Spec_Image Spec_World Spec_Shades Spec_Fog M_Vec M_Roots M_Rng M_Hittable M_Materials M_Shapes M_Image M_World M_Fog
  P_Vec P_Rng P_Maps P_List P_Light P_Lambert P_Path P_World P_Furnace P_Shades.
Import ListNotations.
Local Open Scope R_scope.

(** the factor a material puts on the light it scatters *)
Definition tint {F : NumOps} (m : material_ptr (F:=F)) (rec : hit_record num) : vec3 num :=
  match snd m with
  | Lambertian a | Metal a | Isotropic a => a rec
  | Dielectric _ _ => V3 (nofZ 1) (nofZ 1) (nofZ 1)
  | DiffuseLight _ => V3 (nofZ 0) (nofZ 0) (nofZ 0)
  end.
Lemma scatter_tint : forall (F : NumOps) fuel (m : material_ptr (F:=F)) s r rec att out s', scatter fuel m s r rec = Ok (Some (att, out), s') -> att = tint m rec.
Proof.
  intros F fuel [j m] s r rec att out s' E. unfold scatter, tint in *; cbn [fst snd] in *. destruct m as [a|a|ir em|em|a].
  - unfold lambertian_scatter in E. destruct (random_in_hemisphere _ _ _) as [[d g]| |]; cbn [obind] in E; [|discriminate|discriminate].
    injection E as <- _ _. reflexivity.
  - unfold metal_scatter in E. match type of E with context [if ?b then _ else _] => destruct b end; [injection E as <- _ _; reflexivity|discriminate].
  - unfold dielectric_scatter in E. injection E as <- _ _. reflexivity.
  - discriminate.
  - unfold isotropic_scatter in E. injection E as <- _ _. reflexivity.
Qed.

Section Fog.
Context {L : limits}.
Notation X := (XR L).

(** *** One intersection test *)
Definition yields (Post : ray R -> hit_record xr -> Prop) (o : hittable (F:=X)) : Prop :=
  forall (r : ray R) (lo hi : xr) (rec : hit_record xr), long (r_dir r) -> lo <> NaN -> hi <> NaN ->
  exists b rec', hit o (finray r) lo hi rec = Ok (b, rec') /\ (b = true -> h_t rec' = NaN \/ (exists t, h_t rec' = Fin t) /\ Post r rec').
Definition placed (rec : hit_record xr) : Prop := exists p, h_p rec = fin3 p.

Lemma loop_yields : forall (P : nat -> ray R -> hit_record xr -> Prop) (r : ray R) (lo : xr), long (r_dir r) -> lo <> NaN -> forall objs i temp (closest : xr) rec idx,
  (forall n o, nth_error objs n = Some o -> yields (P (i + n)%nat) o) -> closest <> NaN -> (forall k, idx = Some k -> (k < i)%nat /\ P k r rec) ->
  exists idx' rec', list_loop (F:=X) (finray r) lo i objs temp closest rec idx = Ok (idx', rec') /\
    forall k, idx' = Some k -> (k < i + length objs)%nat /\ P k r rec'.
Proof.
  intros P r lo D Hlo. induction objs as [|o objs IH]; intros i temp closest rec idx F C I; cbn [list_loop length].
  - exists idx, rec. split; [reflexivity|]. intros k E. destruct (I k E). split; [lia|assumption].
  - pose proof (F 0%nat o eq_refl) as So. rewrite Nat.add_0_r in So.
    assert (Fs : forall n o, nth_error objs n = Some o -> yields (P (S i + n)%nat) o).
    { intros n o' N. replace (S i + n)%nat with (i + S n)%nat by lia. apply F. exact N. }
    destruct (So r lo closest temp D Hlo C) as (b & temp' & E & Q).
    change (@num X) with xr in *. rewrite E. cbn [obind].
    assert (I' : forall k, idx = Some k -> (k < S i)%nat /\ P k r rec) by (intros k Ek; destruct (I k Ek); split; [lia|assumption]).
    destruct b.
    + destruct (Q eq_refl) as [N|[[t Et] Pr]].
      * rewrite N. replace (nltb (NumOps:=X) NaN closest) with false by (destruct closest; reflexivity).
        destruct (IH (S i) temp' closest rec idx Fs C I') as (idx' & rec' & E' & K). exists idx', rec'. split; [exact E'|].
        intros k Ek. destruct (K k Ek). split; [lia|assumption].
      * destruct (nltb (NumOps:=X) (h_t temp') closest).
        -- destruct (IH (S i) temp' (h_t temp') temp' (Some i) Fs) as (idx' & rec' & E' & K).
           { rewrite Et. discriminate. }
           { intros k Ek. injection Ek as <-. split; [lia|exact Pr]. }
           exists idx', rec'. split; [exact E'|]. intros k Ek. destruct (K k Ek). split; [lia|assumption].
        -- destruct (IH (S i) temp' closest rec idx Fs C I') as (idx' & rec' & E' & K). exists idx', rec'. split; [exact E'|].
           intros k Ek. destruct (K k Ek). split; [lia|assumption].
    + destruct (IH (S i) temp' closest rec idx Fs C I') as (idx' & rec' & E' & K). exists idx', rec'. split; [exact E'|].
      intros k Ek. destruct (K k Ek). split; [lia|assumption].
Qed.

Lemma closed_finds : forall tol o, 0 <= tol -> l_min L < 1 / 4 -> closed_surface (L:=L) tol o -> finds (L:=L) tol o.
Proof. intros tol o T M [s Rp Tr|s B Sx Sy Sz B1 B2]; [apply sphere_finds; assumption|apply ellipsoid_finds with B; assumption]. Qed.

Lemma free_path : forall d u, 0 < d -> 0 <= u -> exists h, xmul (neg_inv_density (F:=X) (Fin d)) (nlog (NumOps:=X) (Fin u)) = h /\ (h = PInf \/ exists a, h = Fin a).
Proof.
  intros d u Hd Hu. eexists. split; [reflexivity|]. unfold neg_inv_density. cbn [ndiv nofZ nlog XR]. rewrite xdiv_fin by lra. unfold xlog.
  assert (Nd : -1 / d < 0). { assert (0 < / d) by (apply Rinv_0_lt_compat; exact Hd). unfold Rdiv. lra. }
  destruct (Rlt_dec 0 u) as [U|U].
  - right. cbn [xmul]. eexists. reflexivity.
  - assert (u = 0) by lra. subst u. left. destruct (Rlt_dec 0 0) as [Z|_]; [lra|]. cbn [xmul]. unfold xscale_inf.
    destruct (Rlt_dec 0 (-1 / d)); [lra|]. destruct (Rlt_dec (-1 / d) 0); [reflexivity|lra].
Qed.
Lemma medium_yields : forall tol o d u rec1 rec2 bb, finds (L:=L) tol o -> 0 < d -> 0 <= u ->
  yields (fun _ rec => placed rec) (Hittable (F:=X) (medium_hit (F:=X) (hit o) (neg_inv_density (F:=X) (Fin d)) (Fin u) rec1 rec2) bb).
Proof.
  intros tol o d u rec1 rec2 bb Fo Hd Hu r lo hi rec D Hlo Hhi. cbn [hit]. unfold medium_hit. cbn [nneg ninf XR xneg].
  destruct (Fo r MInf PInf rec1 D ltac:(discriminate) ltac:(discriminate)) as (b1 & r1 & E1 & C1).
  change (@num X) with xr in *. rewrite E1. cbn [obind]. destruct b1; cbn [negb]; [|exists false, rec; split; [reflexivity|discriminate]].
  destruct (C1 eq_refl) as [(t1 & T1) _]. rewrite T1. cbn [nadd nmul nofZ neps XR xmul xadd].
  destruct (Fo r (Fin (t1 + 100 * l_eps L)) PInf rec2 D ltac:(discriminate) ltac:(discriminate)) as (b2 & r2 & E2 & C2).
  rewrite E2. cbn [obind]. destruct b2; cbn [negb]; [|exists false, rec; split; [reflexivity|discriminate]].
  destruct (C2 eq_refl) as [(t2 & T2) _]. change (@num X) with xr in *. rewrite T2.
  destruct (free_path d u Hd Hu) as (h & Eh & Hh). change (@num X) with xr in *. rewrite Eh. cbn [r_dir finray]. rewrite norm_fin. cbn [nltb nleb nofZ XR].
  pose proof (normR_pos _ (long_nonzero _ D)) as Hlen. set (len := normR (r_dir r)) in *.
  set (s0 := if xltb (Fin t1) lo then lo else Fin t1). set (e0 := if xltb hi (Fin t2) then hi else Fin t2).
  change (if xltb (Fin t1) lo then lo else Fin t1) with s0. change (if xltb hi (Fin t2) then hi else Fin t2) with e0.
  assert (S0 : s0 = PInf \/ exists s, s0 = Fin s).
  { unfold s0. destruct lo as [a| | |]; cbn [xltb]; try congruence; [|left; reflexivity|right; eexists; reflexivity]. right. destruct (Rltb t1 a); eexists; reflexivity. }
  assert (Q0 : e0 = MInf \/ exists e, e0 = Fin e).
  { unfold e0. destruct hi as [a| | |]; cbn [xltb]; try congruence; [|right; eexists; reflexivity|left; reflexivity]. right. destruct (Rltb a t2); eexists; reflexivity. }
  clearbody s0 e0. 
  destruct Q0 as [ -> |(e & -> )].
  { exists false, rec. split; [|discriminate]. destruct S0 as [ -> |(s & -> )]; reflexivity. }
  destruct S0 as [ -> |(s & -> )]; [exists false, rec; split; [reflexivity|discriminate]|].
  cbn [xleb]. destruct (Rleb e s); [exists false, rec; split; [reflexivity|discriminate]|].
  assert (Z : exists m, (if xltb (Fin s) (Fin 0) then Fin 0 else Fin s) = Fin m) by (cbn [xltb]; destruct (Rltb s 0); eexists; reflexivity).
  destruct Z as [m Z]. cbn [xltb] in Z |- *. rewrite Z. cbn [nsub nmul nltb nadd ndiv XR xsub xmul xltb].
  destruct Hh as [ -> |(a & -> )]; cbn [xltb]; [exists false, rec; split; [reflexivity|discriminate]|].
  destruct (Rltb ((e - m) * len) a); [exists false, rec; split; [reflexivity|discriminate]|].
  rewrite xdiv_fin by lra. cbn [xadd]. eexists true, _. split; [reflexivity|]. intros _. right. split; [eexists; reflexivity|]. exists (pointR r (m + a / len)). reflexivity.
Qed.

(** *** All objects of a scene *)
Variables (tol : R) (things : list (thing (F:=X) * material_ptr (F:=X))).
Hypothesis T : 0 <= tol <= 1 / 8.
Hypothesis M : l_min L < 1 / 4.
Hypothesis G : forall t m, In (t, m) things -> well_placed tol t (snd m).

Lemma fair_good : forall s : state (F:=X), fair_state s -> good_state s.
Proof. intros s [H _]. exact H. Qed.
Lemma settle_length : forall l k (s : state (F:=X)), length (settle_all k s l) = length l.
Proof. induction l as [|[t m] l IH]; intros k s; cbn [settle_all length]; [reflexivity|rewrite IH; reflexivity]. Qed.
Lemma settle_nth : forall l k (s : state (F:=X)) n, nth_error (settle_all k s l) n =
  match nth_error l n with Some (t, m) => Some (settle (F:=X) (st_uniform s (k + n)%nat) (st_junk s (S (k + n))) t, m) | None => None end.
Proof.
  induction l as [|[t m] l IH]; intros k s n; cbn [settle_all]; destruct n as [|n]; cbn [nth_error]; try reflexivity.
  - rewrite Nat.add_0_r. reflexivity.
  - rewrite IH. replace (S k + n)%nat with (k + S n)%nat by lia. reflexivity.
Qed.
Lemma fair_skip : forall n (s : state (F:=X)), fair_state s -> fair_state (skip n s).
Proof. intros n s ((A & B & C) & D). split; [split; [exact A|split; [intros k; apply B|exact C]]|]. intros k u. apply D. Qed.

(* what a hit on the n-th object leaves in the record *)
Definition post (n : nat) (r : ray R) (rec : hit_record xr) : Prop :=
  match nth_error things n with
  | Some (Plain _, _) => proper tol r rec
  | Some (Fog _ _, _) => placed rec
  | None => False
  end.
Lemma fog_ok : forall (s : state (F:=X)) (r : ray R) (lo hi : xr), fair_state s -> long (r_dir r) -> lo <> NaN -> hi <> NaN ->
  exists m rec s', fog_hit (F:=X) things s (finray r) lo hi = Ok (m, rec, s') /\ fair_state s' /\
    match m with None => True | Some m => exists t, In (t, m) things /\ match t with Plain _ => proper tol r rec | Fog _ _ => placed rec end end.
Proof.
  intros s r lo hi Gs D Hlo Hhi. unfold fog_hit. destruct (st_junk s 0%nat) as [temp0 rec0]. unfold list_hit.
  fold (scene_of (settle_all 0 s things)). rewrite scene_objects, scene_materials.
  destruct (loop_yields post r lo D Hlo (map fst (settle_all 0 s things)) 0 temp0 hi rec0 None) as (idx & rec & E & K).
  { intros n o N. cbn [Nat.add]. rewrite nth_error_map, settle_nth in N. destruct (nth_error things n) as [[t m]|] eqn:Nt; [|discriminate]. cbn in N. injection N as <-.
    pose proof (G t m (nth_error_In _ _ Nt)) as W. destruct t as [o|b d].
    - intros r' lo' hi' rec' D' Hl' Hh'. inversion W as [? ? So Sm|]; subst. destruct (solid_sees tol o (proj1 T) M So r' lo' hi' rec' D' Hl' Hh') as (bb & rec2 & Eh & Hb).
      exists bb, rec2. split; [exact Eh|]. unfold post. rewrite Nt. exact Hb.
    - inversion W as [|? d' tex Cb Hd Gt E1 E2]; subst. cbn [settle]. pose proof Gs as ((_ & Bu & _) & Du). destruct (Bu n) as (u & Eu). change (@num X) with xr in *. rewrite Eu.
      intros r' lo' hi' rec' D' Hl' Hh'.
      destruct (medium_yields tol b d' u (fst (st_junk s (S n))) (snd (st_junk s (S n))) (bounding_box b) (closed_finds tol b (proj1 T) M Cb) Hd (proj1 (Du n u Eu)) r' lo' hi' rec' D' Hl' Hh') as (bb & rec2 & Eh & Hb).
      exists bb, rec2. split; [exact Eh|]. unfold post. rewrite Nt. exact Hb. }
  { exact Hhi. }
  { discriminate. }
  change (@num X) with xr in *. rewrite E. cbn [obind].
  destruct idx as [k|].
  - destruct (K k eq_refl) as [Kl Pr]. unfold post in Pr. destruct (nth_error things k) as [[t m]|] eqn:Nt; [|destruct Pr].
    rewrite nth_error_map, settle_nth, Nt. cbn [option_map snd obind]. exists (Some m), rec, (skip (length things) s). split; [reflexivity|]. split; [apply fair_skip; exact Gs|].
    exists t. split; [exact (nth_error_In _ _ Nt)|]. destruct t; exact Pr.
  - cbn [obind]. exists None, rec, (skip (length things) s). split; [reflexivity|]. split; [apply fair_skip; exact Gs|exact I].
Qed.

(** *** Paths *)
Lemma fair_drop : forall s : state (F:=X), fair_state s -> fair_state (drop_uniform s) /\ fair_state (drop_normal s).
Proof. intros s [A B]. destruct (good_drop s A) as (H1 & H2 & _). split; (split; [assumption|]); intros n u; apply B. Qed.
Lemma fog_scatters : forall (m : material_ptr (F:=X)) t s (r : ray R) (rec : hit_record xr), In (t, m) things -> fair_state s -> long (r_dir r) ->
  match t with Plain _ => proper tol r rec | Fog _ _ => placed rec end ->
  exists k sc s', (forall fuel, (k <= fuel)%nat -> scatter (F:=X) fuel m s (finray r) rec = Ok (sc, s')) /\ fair_state s' /\
    match sc with None => True | Some (att, out) => good_ray out end.
Proof.
  intros m t s r rec Hin Gs D P. pose proof (G t m Hin) as W. destruct t as [o|b d].
  - inversion W as [? ? So Sm|]; subst. destruct (scatter_ok tol m s r rec T Sm (fair_good s Gs) D P) as (k & sc & s' & E & Gs' & O).
    exists k, sc, s'. split; [exact E|]. split.
    + split; [exact Gs'|]. intros n u. assert (U : exists j, forall n, st_uniform s' n = st_uniform s (j + n)%nat).
      { specialize (E k (le_n k)). unfold scatter in E. destruct m as [i m]; cbn [fst snd] in E. destruct m.
        - destruct (lambertian_scatter _ _ _ _) as [[? ?]| |]; cbn [obind] in E; [|discriminate|discriminate]. injection E as _ <-. exists 0%nat. reflexivity.
        - destruct (metal_scatter _ _ _) as [? ?]. injection E as _ <-. exists 0%nat. reflexivity.
        - injection E as _ <-. exists 1%nat. reflexivity.
        - injection E as _ <-. exists 0%nat. reflexivity.
        - injection E as _ <-. exists 0%nat. reflexivity. }
      destruct U as [j U]. rewrite U. apply Gs.
    + destruct sc as [[att out]|]; [apply O|exact I].
  - inversion W as [|? ? tex Cb Hd Gt E1 E2]; subst. destruct m as [i m]; cbn [snd] in *; subst m. pose proof Gs as ((_ & _ & Gn) & _). destruct (Gn 0%nat) as (g & Eg & Hg).
    destruct (isotropic_unit (L:=L) tex g rec Hg) as (out & E & U & _). exists 0%nat. eexists _, _. split.
    { intros fuel _. unfold scatter; cbn [snd]. change (@num X) with xr in *. rewrite Eg, E. reflexivity. }
    split; [apply fair_drop; exact Gs|]. destruct P as (p & Ep). exists (Ray p out). split; [change (@num X) with xr in *; rewrite Ep; reflexivity|]. apply unit_long. exact U.
Qed.

Variables (K : vec3 R -> Prop) (bg : vec3 R).
Hypothesis Kbg : K bg.
Hypothesis Kblack : K (V3 0 0 0).
Hypothesis Kdye : forall t m rec p, In (t, m) things -> h_p rec = fin3 p -> exists e a, emitted (F:=X) m rec = fin3 e /\ tint (F:=X) m rec = fin3 a /\ K e /\ forall c, K c -> K (addR e (hadamardR c a)).

Lemma fog_colour : forall depth s (r : ray R), fair_state s -> long (r_dir r) ->
  exists k c s', (forall fuel, (k <= fuel)%nat ->
      ray_color (F:=X) (fog_hit (F:=X) things) (scatter (F:=X) fuel) (emitted (F:=X)) depth s (finray r) (fin3 bg) = Ok (fin3 c, s')) /\ K c /\ fair_state s'.
Proof.
  induction depth as [|depth IH]; intros s r Gs D; cbn [ray_color].
  - exists 0%nat, (V3 0 0 0), s. split; [reflexivity|]. split; assumption.
  - destruct (fog_ok s r (nmul (NumOps:=X) (nofZ (NumOps:=X) 1000) (neps (NumOps:=X))) (ninf (NumOps:=X)) Gs D) as (m & rec & s1 & E & G1 & P); [discriminate|discriminate|].
    change (@num X) with xr in *. destruct m as [m|].
    + destruct P as (t & Hin & Pr). destruct (fog_scatters m t s1 r rec Hin G1 D Pr) as (k1 & sc & s2 & Es & G2 & O).
      assert (Pl : placed rec) by (destruct t; [destruct Pr as (p & n & Ep & _); exists p; exact Ep|exact Pr]). destruct Pl as (p & Ep).
      destruct (Kdye t m rec p Hin Ep) as (e & a & Ee & Ea & Ke & Kc).
      destruct sc as [[att out]|].
      * destruct O as (r' & -> & Lr). assert (att = fin3 a) by (rewrite <- Ea; exact (scatter_tint X k1 m s1 _ rec _ _ _ (Es k1 (le_n k1)))). subst att.
        destruct (IH s2 r' G2 Lr) as (k2 & c & s3 & Ec & Nc & G3).
        exists (Nat.max k1 k2), (addR e (hadamardR c a)), s3. split; [|split; [|exact G3]].
        -- intros fuel Hf. change (@num X) with xr in *. rewrite E. cbn [obind]. rewrite (Es fuel) by lia. cbn [obind].
           rewrite (Ec fuel) by lia. cbn [obind]. rewrite hadamard_fin. change (@num X) with xr in *. rewrite Ee, vadd_fin. reflexivity.
        -- apply Kc. exact Nc.
      * exists k1, e, s2. split; [|split; assumption]. intros fuel Hf. change (@num X) with xr in *. rewrite E. cbn [obind]. rewrite (Es fuel) by lia. cbn [obind]. rewrite Ee. reflexivity.
    + exists 0%nat, bg, s1. split; [|split; assumption]. intros fuel _. rewrite E. reflexivity.
Qed.

Variables (cam : camera (F:=X)) (width height : Z).
Hypothesis cam_rays : forall s t, exists r, get_ray (F:=X) cam (Fin s) (Fin t) = finray r /\ long (r_dir r).
Hypothesis (W2 : (2 <= width)%Z) (H2 : (2 <= height)%Z).
Hypothesis Kpos : forall c, K c -> nonneg3 c.
Lemma fog_scene : forall spp order s, (1 <= spp)%nat -> schedule width height order -> fair_state s -> exists k img,
  (forall fuel, (k <= fuel)%nat -> render_scene (F:=X) (fog_hit (F:=X) things) (scatter (F:=X) fuel) (emitted (F:=X)) width height (fin3 bg) cam spp order s = Ok img) /\
  length img = Z.to_nat (4 * width * height) /\ forall i j, (0 <= i < width)%Z -> (0 <= j < height)%Z -> pixel_of width height img i j K spp.
Proof.
  intros spp order s Hs So Gs.
  apply (scene_shades (L:=L) (fog_hit (F:=X) things) (scatter (F:=X)) (emitted (F:=X)) bg cam width height fair_state (fun _ _ => K) W2 H2); auto.
  intros i j x y w Hi Hj Tx Ty Gw. destruct (cam_rays ((IZR i + x) / IZR (width - 1)) ((IZR j + y) / IZR (height - 1))) as (r & Er & D).
  destruct (fog_colour 8 w r Gw D) as (k & c & w' & E & Kc & Gw'). exists k, c, w'. split; [intros fuel Hf; change (@num X) with xr in *; rewrite Er; exact (E fuel Hf)|]. auto.
Qed.
End Fog.
