(** Examples for the theorems about random numbers. *)
From Coq Require Import Reals Lra ZArith Lia List Bool.
From Flocq Require Import Core BinarySingleNaN.
From Verif Require Import Spec_Random Num XR FL Spec Spec_Iter M_Vec M_Rng M_Hittable M_Materials P_Vec P_Rng P_Period P_Lambert P_Double P_Bounds.
Import ListNotations.
Local Open Scope R_scope.

Lemma full_period : forall g, word64 (pc_state g) ->
  (forall t, word64 t -> exists n, (Z.of_nat n < 2 ^ 64)%Z /\ pc_state (Nat.iter n (fun h => snd (pcg32_random_r h)) g) = t) /\
  (forall n m, (Z.of_nat n < 2 ^ 64)%Z -> (Z.of_nat m < 2 ^ 64)%Z ->
     Nat.iter n (fun h => snd (pcg32_random_r h)) g = Nat.iter m (fun h => snd (pcg32_random_r h)) g -> n = m) /\
  (exists n, (Z.of_nat n = 2 ^ 64)%Z /\ Nat.iter n (fun h => snd (pcg32_random_r h)) g = g).
Proof. exact pcg_full_period. Qed.

Lemma seed_word : word64 (pc_state pcg_seed).
Proof. unfold word64. cbn. lia. Qed.

(* the first outputs of the seeded generator *)
Lemma seed_outputs : map (fun n => fst (pcg32_random_r (Nat.iter n (fun h => snd (pcg32_random_r h)) pcg_seed))) [0; 1; 2; 3]%nat
  = [0; 2484769643; 220887133; 3193637852]%Z.
Proof. vm_compute. reflexivity. Qed.

(* a unit normal *)
Lemma normal_case : normR (V3 (3 / 5) 0 (4 / 5)) = 1.
Proof. unfold normR. transitivity (sqrt 1); [f_equal; unfold normsqR, dotR; cbn; lra|apply sqrt_1]. Qed.

Lemma double_range : forall lm g, exists r, denotes (fst (pcg_real_01 (F:=F64 lm) g)) r /\ 0 <= r < 1.
Proof. intros lm g. exists (draw g). exact (draw_double lm g). Qed.
Lemma double_draw : forall lm g, denotes (fst (pcg_real_01 (F:=F64 lm) g)) (IZR (fst (pcg32_random_r g)) / 2 ^ 32) /\
  0 <= IZR (fst (pcg32_random_r g)) / 2 ^ 32 < 1.
Proof.
  intros lm g. pose proof (draw_double lm g) as D. unfold draw in D. replace (2 ^ 32) with (IZR (2 ^ 32)) by (rewrite (pow_IZR 2 32); f_equal; reflexivity). exact D.
Qed.
Lemma float_range : forall lm g, exists r, denotes (fst (pcg_real_01 (F:=F32 lm) g)) r /\ 0 <= r <= 1.
Proof. exact draw_float. Qed.
Lemma float_one_val : forall lm g, word64 (pc_state g) ->
  exists n, denotes (fst (pcg_real_01 (F:=F32 lm) (Nat.iter n (fun h => snd (pcg32_random_r h)) g))) 1.
Proof.
  intros lm g W. destruct (float_one lm g W) as (n & E). exists n.
  change (denotes (fst (pcg_real_01 (F:=F32 lm) (Nat.iter n pcg_next g))) 1). change (@num (F32 lm)) with binary32 in *. rewrite E.
  split; [vm_compute; reflexivity|exact B2R_one32].
Qed.
Lemma random_then_contains : forall lm (ends : list (binary64 * binary64)) g, Forall real_ends ends -> Forall (finite_width (Hp:=Hprec53) (Hm:=Hmax1024)) ends ->
  contains_vec (F:=F64 lm) ends (fst (random_point (F:=F64 lm) ends g)) = true.
Proof.
  intros lm ends g R W. apply (random_inside_double lm ends g R) in W.
  induction W as [|[lo hi] x ends v [X I] W IH]; [reflexivity|]. inversion R as [|? ? (A & B & C) R2]; subst. cbn [fst snd] in *.
  cbn [contains_vec nltb F64 FL]. change (nltb (NumOps:=F64 lm)) with (@Bltb 53 1024). 
  rewrite !Bltb_correct by auto. rewrite !Rlt_bool_false by lra. cbn [orb]. apply IH. exact R2.
Qed.
Lemma nan_refuted : forall lm, exists ends v, contains_vec (F:=F64 lm) ends v = true /\ ends = [(d64 0 0, d64 1 0)] /\ v = [B754_nan].
Proof. intros lm. eexists _, _. split; [apply nan_contained|auto]. Qed.
