(** * from_pla as a program *)

From stdpp Require Import gmap list.
From Coq Require Import ZArith Lia Ascii.
From Verif Require Import Base Ops Tables NodeManager Tools Sift DiagramManager World.
From Verif Require Import Heap Inv InvLemmas Prim GC Make Build Apply Api Constr Expr VecSpec Vec Eval Fold.
From Verif Require Import OpSpec OpProof WorldSpec WorldProof Ctor History PropsBase Chain PropsBase2.
From Verif Require Import Pla PlaSpec PlaProof.

Local Open Scope nat_scope.

(** the cubes that contribute to function [fi] *)
Fixpoint selected (fi : nat) (cubes : list (list (option bool) * list (option bool))) : list (list (option bool)) :=
  match cubes with
  | [] => []
  | (cs, fs) :: r => match fs !! fi with Some (Some true) => cs :: selected fi r | _ => selected fi r end
  end.

Fixpoint lits_from (i : nat) (cs : list (option bool)) : list (nat * bool) :=
  match cs with
  | [] => []
  | Some b :: r => (i, b) :: lits_from (S i) r
  | None :: r => lits_from (S i) r
  end.

Definition has_literal (cs : list (option bool)) : Prop := exists b, Some b ∈ cs.

Lemma literals_from_spec b cs : forall i, 
  (forall j v, cs !! j = Some v -> cube_get b (Z.of_nat (i + j)) = Some (code v)) ->
  literals_from b (Z.of_nat i) (length cs) = Some (lits_from i cs).
Proof.
  induction cs as [|v cs IH]; intros i H; simpl; [done|].
  rewrite <- (Nat.add_0_r i) at 1. rewrite (H 0 v) by done.
  replace (Z.of_nat i + 1)%Z with (Z.of_nat (S i)) by lia. rewrite IH.
  - rewrite Nat2Z.id. by destruct v as [[]|].
  - intros j w Hw. rewrite <- (H (S j) w) by done. f_equal. lia.
Qed.
Lemma literals_spec b cs : cube_is b cs -> literals b = Some (lits_from 0 cs).
Proof.
  intros [E H]. unfold literals. rewrite E, Nat2Z.id. by apply (literals_from_spec b cs 0).
Qed.

Lemma lits_has cs : has_literal cs -> forall i, lits_from i cs <> [].
Proof.
  intros [b Hb]. induction cs as [|v cs IH]; [by apply elem_of_nil in Hb|]. intros i. simpl.
  destruct v as [b'|]; [done|]. apply elem_of_cons in Hb as [|Hb]; [done|]. by apply IH.
Qed.
Lemma lits_bound cs : forall i, Forall (fun p => fst p < i + length cs) (lits_from i cs).
Proof.
  induction cs as [|v cs IH]; intros i; simpl; [constructor|].
  assert (X : Forall (fun p => fst p < i + S (length cs)) (lits_from (S i) cs)).
  { eapply Forall_impl; [apply IH|]. intros p Hp. cbn beta in Hp. lia. }
  destruct v; [|done]. constructor; [simpl; lia|done].
Qed.

(** value of a literal *)
Definition litF (p : nat * bool) (rho : asg) : Z :=
  if snd p then Z.of_nat (rho (fst p)) else (1 - Z.of_nat (rho (fst p)))%Z.

Definition to_bit (b : bool) : Z := if b then 1%Z else 0%Z.

Local Arguments op_math : simpl never.

(** the product of all literals *)
Lemma product_value rho cs : (forall i, i < length cs -> rho i < 2) ->
  fold_left (op_math AND) (map (fun p => litF p rho) (lits_from 0 cs)) 1%Z = to_bit (covers_point cs rho).
Proof.
  intros Hr. unfold covers_point.
  assert (X : forall cs i a, (forall j, j < length cs -> rho (i + j) < 2) ->
    fold_left (op_math AND) (map (fun p => litF p rho) (lits_from i cs)) (to_bit a) =
    to_bit (a && forallb (fun p => match snd p with
                    | Some true => Nat.eqb (rho (fst p)) 1
                    | Some false => Nat.eqb (rho (fst p)) 0
                    | None => true
                    end) (imap (fun j x => (i + j, x)) cs))).
  { clear. induction cs as [|v cs IH]; intros i a Hr; simpl; [by rewrite andb_true_r|].
    assert (Hr' : forall j, j < length cs -> rho (S i + j) < 2) by (intros j Hj; specialize (Hr (S j)); simpl in Hr; rewrite Nat.add_succ_r in Hr; simpl; apply Hr; lia).
    assert (E : imap ((fun j x => (i + j, x)) ∘ S) cs = imap (fun j x => (S i + j, x)) cs).
    { apply imap_ext. intros j x _. simpl. f_equal. lia. }
    rewrite E. specialize (Hr 0 ltac:(simpl; lia)). rewrite Nat.add_0_r in *.
    destruct v as [b|]; simpl.
    - assert (E' : op_math AND (to_bit a) (litF (i, b) rho) = to_bit (a && (if b then rho i =? 1 else rho i =? 0))).
      { unfold litF. simpl. assert (rho i = 0 \/ rho i = 1) as [X|X] by lia; rewrite X; by destruct a, b. }
      rewrite E', IH by done. f_equal. rewrite <- andb_assoc. by f_equal.
    - by rewrite IH. }
  apply (X cs 0 true). done.
Qed.

Lemma sum_value rho fi cubes :
  fold_left (op_math OR) (map (fun cs => to_bit (covers_point cs rho)) (selected fi cubes)) 0%Z =
  sum_of_products cubes fi rho.
Proof.
  unfold sum_of_products.
  assert (X : forall cubes a, fold_left (op_math OR) (map (fun cs => to_bit (covers_point cs rho)) (selected fi cubes)) (to_bit a) =
    to_bit (a || existsb (fun p => match snd p !! fi with Some (Some true) => covers_point (fst p) rho | _ => false end) cubes)).
  { clear. induction cubes as [|[cs fs] cubes IH]; intros a; simpl; [by rewrite orb_false_r|].
    destruct (fs !! fi) as [[[]|]|]; simpl; [|by rewrite IH..].
    assert (op_math OR (to_bit a) (to_bit (covers_point cs rho)) = to_bit (a || covers_point cs rho)) as ->
      by by destruct a, (covers_point cs rho).
    rewrite IH. f_equal. by rewrite orb_assoc. }
  apply (X cubes false).
Qed.

Local Arguments op_math : simpl nomatch.

Section chain.
Context (c : cfg) (b p m : Z) (strict : bool).
Context (Hbdd : c_fixed c = Some 2%Z) (Hc : wf_cfg c).
Notation chain := (chain c (ops_with b p m) strict).

Lemma chain_app ks1 ks2 A B C : chain ks1 A B -> chain ks2 B C -> chain (ks1 ++ ks2) A C.
Proof. induction 1; intros; simpl; [done|]. econstructor; [done|auto]. Qed.
Lemma chain_one k A B : (forall s, spec c (ops_with b p m) strict s k A B) -> chain [k] A B.
Proof. intros H. econstructor; [exact H|constructor]. Qed.

(** [step D q A B]: everything but the objects is the same, objects below [q]
    and not in [D] are the same, and no object outside [D] is new *)
Record step (D : nat -> Prop) (q : nat) (A B : astate) : Prop := {
  sp_order : ab_order B = ab_order A;
  sp_canon : ab_canon B = ab_canon A;
  sp_cache : ab_cache B = ab_cache A;
  sp_clean : ab_clean B = ab_clean A;
  sp_same : forall x, x < q -> ~ D x -> ab B !! x = ab A !! x;
  sp_old : forall x, ~ D x -> ab B !! x = ab A !! x \/ ab B !! x = None
}.

Lemma step_refl D q A : step D q A A.
Proof. constructor; auto. Qed.
Lemma step_trans (D1 D2 D : nat -> Prop) q1 q2 q A B C : step D1 q1 A B -> step D2 q2 B C ->
  q <= q1 -> q <= q2 -> (forall x, D1 x -> D x) -> (forall x, D2 x -> D x) -> step D q A C.
Proof.
  intros [] [] L1 L2 H1 H2. constructor; try congruence.
  - intros x Hx Hd. rewrite sp_same1, sp_same0; auto; lia.
  - intros x Hd. destruct (sp_old1 x) as [->|]; auto.
Qed.

Definition bitf (F : asg -> Z) : Prop := forall rho, valid c rho -> bit (F rho).

Lemma bit_tval v : bit v -> tval c v.
Proof. intros H. left. rewrite Hbdd. change Nondet with 2147483646%Z. destruct H; subst; lia. Qed.
Lemma and_closed : op_closed c AND bit.
Proof.
  intros x y Hx Hy. assert (bit (op_math AND x y)) by (destruct Hx, Hy; subst; unfold bit; simpl; lia).
  split; [|done]. split; [destruct Hx, Hy; subst; by vm_compute|by apply bit_tval].
Qed.
Lemma or_closed : op_closed c OR bit.
Proof.
  intros x y Hx Hy. assert (bit (op_math OR x y)) by (destruct Hx, Hy; subst; unfold bit; simpl; lia).
  split; [|done]. split; [|by apply bit_tval].
  destruct Hx, Hy; subst; simpl; unfold ordinary; change Nondet with 2147483646%Z; lia.
Qed.
Lemma bdd_bit rho i : valid c rho -> i < nvars c -> rho i < 2.
Proof.
  intros Hv Hi. specialize (Hv i Hi). pose proof (wc_fixed c Hc 2%Z Hbdd i Hi). lia.
Qed.
Lemma litF_bit q : fst q < nvars c -> bitf (litF q).
Proof.
  intros Hq rho Hv. pose proof (bdd_bit rho (fst q) Hv Hq). unfold litF, bit.
  destruct (rho (fst q)) as [|[|]]; try lia; destruct (snd q); auto.
Qed.

(** folds *)
Lemma left_step o d xs Fs A : op_closed c o bit -> op_allowed b p m (plain_op c o) -> op_arith o = false ->
  ab_cache A = true -> xs <> [] -> funs A xs Fs -> Forall bitf Fs ->
  exists G, chain [CLeft d o xs] A (bindf d G A) /\
    forall rho, valid c rho -> G rho = match map (fun F => F rho) Fs with [] => 0%Z | v :: vs => fold_left (op_math o) vs v end.
Proof.
  intros HV Hop Har Hca Hne HF Hb. destruct HF as [|x F xs Fs Hx HF]; [done|].
  assert (Hall : forall rho, valid c rho -> Forall bit (map (fun G => G rho) (F :: Fs))).
  { intros rho Hv. rewrite Forall_map. eapply Forall_impl; [exact Hb|]. intros G HG. by apply HG. }
  eexists. split.
  - apply chain_one. intros s. apply S_left; [done|by apply op_allowed_known|by constructor|]. intros rho Hv.
    specialize (Hall rho Hv). inversion Hall; subst. eapply closed_fold_good; [exact HV|by rewrite Har|done|done].
  - intros rho Hv. simpl. specialize (Hall rho Hv). inversion Hall; subst. apply (fold_on bit); try done.
    + intros y z Hy Hz. apply op_applicable_fun. by apply HV.
    + intros y z Hy Hz. by apply HV.
Qed.

Lemma or_assoc u v w : bit u -> bit v -> bit w ->
  op_math OR (op_math OR u v) w = op_math OR u (op_math OR v w).
Proof. intros. simpl. lia. Qed.

Lemma tree_step d xs Fs A : ab_cache A = true -> xs <> [] -> NoDup xs -> funs A xs Fs -> Forall bitf Fs ->
  exists G, chain [CTree d OR xs] A (bindf d G (set_ab (del_list xs (ab A)) A)) /\
    forall rho, valid c rho -> G rho = match map (fun F => F rho) Fs with [] => 0%Z | v :: vs => fold_left (op_math OR) vs v end.
Proof.
  intros Hca Hne Hnd HF Hb. destruct HF as [|x F xs Fs Hx HF]; [done|].
  assert (Hall : forall rho, valid c rho -> Forall bit (map (fun G => G rho) (F :: Fs))).
  { intros rho Hv. rewrite Forall_map. eapply Forall_impl; [exact Hb|]. intros G HG. by apply HG. }
  assert (Ho : op_known c (ops_with b p m) OR) by by apply op_allowed_known.
  eexists. split.
  - apply chain_one. intros s. apply (S_tree _ _ _ s d OR (x :: xs) (F :: Fs)); [done|done|done|done|by constructor|].
    intros rho Hv. eapply closed_rounds_good; [apply or_closed|done|by apply Hall].
  - intros rho Hv. cbn beta. specialize (Hall rho Hv). rewrite (balanced_on bit _ (op_math OR)).
    + simpl map. inversion Hall; subst. rewrite (balanced_assoc_on bit (op_math OR)); try done; try apply or_assoc.
      intros y z Hy Hz. by apply or_closed.
    + intros y z Hy Hz. apply op_applicable_fun. by apply or_closed.
    + intros y z Hy Hz. by apply or_closed.
    + done.
Qed.

Lemma resets_step xs : forall A, exists B, chain (map CReset xs) A B /\
  ab_order B = ab_order A /\ ab_canon B = ab_canon A /\ ab_cache B = ab_cache A /\ ab_clean B = ab_clean A /\
  (forall x, x ∈ xs -> ab B !! x = None) /\ (forall x, x ∉ xs -> ab B !! x = ab A !! x).
Proof.
  induction xs as [|x xs IH]; intros A; simpl.
  - exists A. split_and!; try done; [constructor|]. intros x Hx. by apply elem_of_nil in Hx.
  - destruct (IH (set_ab (delete x (ab A)) A)) as (B&Ch&E1&E2&E3&E4&H1&H2). exists B. split_and!; try done.
    + econstructor; [intros s; apply S_reset|done].
    + intros y Hy. destruct (decide (y ∈ xs)) as [Hi|Hi]; [auto|]. rewrite H2 by done. simpl.
      apply elem_of_cons in Hy as [->|]; [|done]. apply lookup_delete.
    + intros y Hy. apply not_elem_of_cons in Hy as [? Hy]. rewrite H2 by done. simpl. by rewrite lookup_delete_ne.
Qed.

Lemma literals_step lits : Forall (fun q => fst q < nvars c) lits -> forall t A,
  exists B, chain (literal_calls t lits) A B /\
    ab_order B = ab_order A /\ ab_canon B = ab_canon A /\ ab_cache B = ab_cache A /\ ab_clean B = ab_clean A /\
    (forall x, x ∉ seq t (length lits) -> ab B !! x = ab A !! x) /\
    exists Fs, funs B (seq t (length lits)) Fs /\ Forall bitf Fs /\
      forall rho, map (fun F => F rho) Fs = map (fun q => litF q rho) lits.
Proof.
  induction 1 as [|[i pos] lits Hi H IH]; intros t A; simpl.
  - exists A. split_and!; try done; [constructor|]. exists []. split_and!; [constructor|constructor|done].
  - destruct (IH (S t) (bindf t (litF (i, pos)) A)) as (B&Ch&E1&E2&E3&E4&Hs&Fs&HF&Hb&HV). exists B. split_and!; try done.
    + econstructor; [|exact Ch]. intros s. destruct pos; [by apply S_var|]. apply S_varnot; [done|].
      pose proof (wc_fixed c Hc 2%Z Hbdd i Hi). lia.
    + intros x Hx. apply not_elem_of_cons in Hx as [Hx1 Hx2]. rewrite Hs by done. simpl. by rewrite lookup_insert_ne.
    + exists (litF (i, pos) :: Fs). split_and!.
      * constructor; [|done]. rewrite Hs; [apply lookup_insert|]. rewrite elem_of_seq. lia.
      * constructor; [by apply litF_bit|done].
      * intros rho. simpl. by rewrite HV.
Qed.

Lemma product_step d t cs A : ab_cache A = true -> d < t -> length cs <= nvars c -> has_literal cs ->
  exists B, chain (product_calls d t (lits_from 0 cs)) A B /\ step (fun x => x = d) t A B /\
    exists F, ab B !! d = Some F /\ bitf F /\ forall rho, valid c rho -> F rho = to_bit (covers_point cs rho).
Proof.
  intros Hca Hd Hl Hh. set (lits := lits_from 0 cs).
  assert (HL : Forall (fun q => fst q < nvars c) lits).
  { eapply Forall_impl; [apply lits_bound|]. intros q Hq. simpl in Hq. lia. }
  destruct (literals_step lits HL t A) as (B1&C1&E1&E2&E3&E4&Hs&Fs&HF&Hb&HV).
  destruct (left_step AND d (seq t (length lits)) Fs B1 and_closed I eq_refl) as (G&C2&HG); [congruence| |done|done|].
  { pose proof (lits_has cs Hh 0) as X. fold lits in X. by destruct lits. }
  destruct (resets_step (seq t (length lits)) (bindf d G B1)) as (B&C3&F1&F2&F3&F4&R1&R2). exists B.
  assert (Hd' : d ∉ seq t (length lits)) by (rewrite elem_of_seq; lia).
  assert (GV : forall rho, valid c rho -> G rho = to_bit (covers_point cs rho)).
  { intros rho Hv. rewrite HG, HV by done. rewrite <- product_value.
    2:{ intros i Hi. apply bdd_bit; [done|lia]. }
    pose proof (lits_has cs Hh 0) as X. fold lits in X |- *. destruct lits as [|q lits]; [done|]. cbn [map fold_left].
    assert (Hq : bit (litF q rho)).
    { apply litF_bit; [|done]. by apply Forall_inv in HL. }
    assert (op_math AND 1 (litF q rho) = litF q rho) as -> by (by destruct Hq as [-> | ->]). done. }
  split_and!.
  - unfold product_calls. eapply chain_app; [exact C1|]. eapply chain_app; [exact C2|exact C3].
  - constructor; simpl in *; try congruence.
    + intros x Hx Hn. assert (x ∉ seq t (length lits)) by (rewrite elem_of_seq; lia).
      rewrite R2, lookup_insert_ne, Hs by done. done.
    + intros x Hn. destruct (decide (x ∈ seq t (length lits))); [right; auto|]. left.
      rewrite R2, lookup_insert_ne, Hs by done. done.
  - exists G. split_and!; [|intros rho Hv; rewrite GV by done; unfold bit; destruct (covers_point cs rho); auto|done].
    rewrite R2 by done. simpl. apply lookup_insert.
Qed.

Definition cube_fits (fi : nat) (q : list (option bool) * list (option bool)) : Prop :=
  length (fst q) <= nvars c /\ fi < length (snd q) /\ (snd q !! fi = Some (Some true) -> has_literal (fst q)).

Lemma products_step fi t ls cubes : Forall2 line_is ls cubes -> Forall (cube_fits fi) cubes ->
  forall q A, ab_cache A = true -> q + length ls <= t ->
  exists ks B, products_calls (Z.of_nat fi) q t ls = Some (ks, q + length (selected fi cubes)) /\
    chain ks A B /\ step (fun x => q <= x < q + length (selected fi cubes)) t A B /\
    exists Fs, funs B (seq q (length (selected fi cubes))) Fs /\ Forall bitf Fs /\
      forall rho, valid c rho -> map (fun F => F rho) Fs = map (fun cs => to_bit (covers_point cs rho)) (selected fi cubes).
Proof.
  induction 1 as [|l [cs fs] ls cubes [Hl1 Hl2] HL IH]; intros Hfit q A Hca Hq.
  - simpl. exists [], A. rewrite Nat.add_0_r. split_and!; [done|constructor|apply step_refl|].
    exists []. split_and!; [constructor|constructor|done].
  - inversion Hfit as [|? ? (Hn&Hf&Hh) Hfit']; subst. simpl in Hn, Hf, Hh, Hl1, Hl2, Hq. simpl.
    apply lookup_lt_is_Some in Hf as [v Hv]. rewrite (ci_get _ _ Hl2 _ _ Hv). rewrite Hv.
    assert (SK : forall v, v <> Some true -> (code v =? 1)%Z = false) by (by intros [[]|]).
    destruct (decide (v = Some true)) as [->|Nv].
    + rewrite (literals_spec _ _ Hl1). change (code (Some true) =? 1)%Z with true. cbn iota.
      destruct (product_step q t cs A Hca ltac:(lia) Hn (Hh Hv)) as (B1&C1&S1&F&HF&Hb&HV).
      destruct (IH Hfit' (S q) B1) as (ks&B&E&C2&S2&Fs&HFs&Hbs&HVs); [rewrite (sp_cache _ _ _ _ S1); done|lia|].
      rewrite E. simpl. eexists _, B. split_and!.
      * f_equal. f_equal. lia.
      * eapply chain_app; [exact C1|exact C2].
      * eapply step_trans; [exact S1|exact S2|done|done| |]; intros x; simpl; lia.
      * exists (F :: Fs). split_and!.
        -- constructor; [|done]. rewrite (sp_same _ _ _ _ S2); [done|lia|]. intros X. simpl in X. lia.
        -- by constructor.
        -- intros rho Hv'. simpl. by rewrite HV, HVs.
    + rewrite SK by done.
      assert (E : match v with Some true => cs :: selected fi cubes | _ => selected fi cubes end = selected fi cubes) by by destruct v as [[]|].
      rewrite E. destruct (IH Hfit' q A Hca ltac:(lia)) as (ks&B&X). exists ks, B. exact X.
Qed.

Lemma selected_length fi cubes : length (selected fi cubes) <= length cubes.
Proof. induction cubes as [|[cs fs] cubes IH]; simpl; [done|]. destruct (fs !! fi) as [[[]|]|]; simpl; lia. Qed.

Lemma function_step tree fi d q t ls cubes A : Forall2 line_is ls cubes -> Forall (cube_fits fi) cubes -> ls <> [] ->
  ab_cache A = true -> d < q -> q + length ls <= t ->
  exists ks B, function_calls tree (Z.of_nat fi) d q t ls = Some ks /\ chain ks A B /\ step (fun x => x = d) q A B /\
    exists F, ab B !! d = Some F /\ forall rho, valid c rho -> F rho = sum_of_products cubes fi rho.
Proof.
  intros HL Hfit Hne Hca Hd Hq. destruct (products_step fi t ls cubes HL Hfit q A Hca Hq) as (ks0&B0&E0&C0&S0&Fs0&HF0&Hb0&HV0).
  unfold function_calls. rewrite E0.
  set (n := length (selected fi cubes)) in *.
  assert (X : exists ks k' B1 Fs, (if (q + n =? q)%nat then ([CConst q 0], S q) else (ks0, q + n)) = (ks, q + k') /\ k' <> 0 /\
    chain ks A B1 /\ step (fun x => q <= x < q + k') q A B1 /\ funs B1 (seq q k') Fs /\ Forall bitf Fs /\
    forall rho, valid c rho -> match map (fun F => F rho) Fs with [] => 0%Z | v :: vs => fold_left (op_math OR) vs v end = sum_of_products cubes fi rho).
  { destruct (Nat.eqb_spec (q + n) q) as [En|Nn].
    - exists [CConst q 0], 1, (bindf q (fun _ => 0%Z) A), [fun _ => 0%Z]. split_and!; [f_equal; lia|done| | | | |].
      + apply chain_one. intros s. apply S_const. apply bit_tval. by left.
      + constructor; try done; simpl; intros x; intros; [|left]; rewrite lookup_insert_ne by lia; done.
      + constructor; [|constructor]. simpl. apply lookup_insert.
      + constructor; [|constructor]. intros rho _. by left.
      + intros rho Hv. simpl. rewrite <- sum_value. destruct (selected fi cubes) eqn:Es; [done|]. unfold n in En. simpl in En. lia.
    - exists ks0, n, B0, Fs0. split_and!; [done|lia|done| |done|done|].
      + eapply step_trans; [apply (step_refl (fun _ => False) q)|exact S0| | | |]; [done|lia|by intros x Hx|by intros x Hx].
      + intros rho Hv. rewrite HV0 by done. rewrite <- sum_value. destruct (selected fi cubes) as [|cs sel] eqn:Es; [unfold n in Nn; simpl in Nn; lia|].
        cbn [map fold_left]. f_equal. destruct (covers_point cs rho); done. }
  destruct X as (ks&k'&B1&Fs&->&Hk&C1&S1&HF&Hb&HV). replace (q + k' - q) with k' by lia.
  assert (Hdk : d ∉ seq q k') by (rewrite elem_of_seq; lia).
  assert (Y : exists G B2, chain [if tree then CTree d OR (seq q k') else CLeft d OR (seq q k')] B1 B2 /\
    ab B2 !! d = Some G /\ step (fun x => x = d) q B1 B2 /\
    forall rho, valid c rho -> G rho = sum_of_products cubes fi rho).
  { assert (Hca1 : ab_cache B1 = true) by (rewrite (sp_cache _ _ _ _ S1); done).
    assert (Hs : seq q k' <> []) by by destruct k'.
    destruct tree.
    - destruct (tree_step d (seq q k') Fs B1 Hca1 Hs) as (G&C2&HG); [apply NoDup_ListNoDup, seq_NoDup|done|done|].
      eexists G, _. split_and!; [exact C2|simpl; apply lookup_insert| |intros rho Hv; rewrite HG by done; by apply HV].
      assert (DL : forall xs (mm : gmap nat (asg -> Z)) x, del_list xs mm !! x = if decide (x ∈ xs) then None else mm !! x).
      { clear. induction xs as [|y xs IH]; intros mm x; [|change (del_list (y :: xs) mm) with (delete y (del_list xs mm))].
        - simpl. destruct (decide (x ∈ [])) as [H|]; [by apply elem_of_nil in H|done].
        - destruct (decide (x = y)) as [->|N].
          + rewrite lookup_delete. destruct (decide (y ∈ y :: xs)) as [|H]; [done|]. destruct H. constructor.
          + rewrite lookup_delete_ne by done. rewrite IH.
            destruct (decide (x ∈ xs)), (decide (x ∈ y :: xs)) as [H|H]; try done.
            * destruct H. by constructor.
            * apply elem_of_cons in H as [|]; done. }
      constructor; try done; simpl.
      + intros x Hx Hn. rewrite lookup_insert_ne, DL by done. destruct (decide _) as [H|]; [|done]. rewrite elem_of_seq in H. lia.
      + intros x Hn. rewrite lookup_insert_ne, DL by done. destruct (decide _); auto.
    - destruct (left_step OR d (seq q k') Fs B1 or_closed I eq_refl Hca1 Hs HF Hb) as (G&C2&HG).
      eexists G, _. split_and!; [exact C2|simpl; apply lookup_insert| |intros rho Hv; rewrite HG by done; by apply HV].
      constructor; try done; simpl; intros x; intros; [|left]; rewrite lookup_insert_ne by done; done. }
  destruct Y as (G&B2&C2&HG&S2&GV).
  destruct (resets_step (seq q k') B2) as (B&C3&F1&F2&F3&F4&R1&R2).
  eexists _, B. split_and!; [reflexivity| | |].
  - eapply chain_app; [exact C1|]. eapply chain_app; [exact C2|exact C3].
  - constructor.
    + rewrite F1, (sp_order _ _ _ _ S2), (sp_order _ _ _ _ S1). done.
    + rewrite F2, (sp_canon _ _ _ _ S2), (sp_canon _ _ _ _ S1). done.
    + rewrite F3, (sp_cache _ _ _ _ S2), (sp_cache _ _ _ _ S1). done.
    + rewrite F4, (sp_clean _ _ _ _ S2), (sp_clean _ _ _ _ S1). done.
    + intros x Hx Hn. rewrite R2 by (rewrite elem_of_seq; lia). rewrite (sp_same _ _ _ _ S2) by done.
      apply (sp_same _ _ _ _ S1); [done|]. lia.
    + intros x Hn. destruct (decide (x ∈ seq q k')) as [Hi|Hi]; [right; auto|]. rewrite R2 by done.
      destruct (sp_old _ _ _ _ S2 x) as [->|]; [done| |by right]. apply (sp_old _ _ _ _ S1). rewrite elem_of_seq in Hi. lia.
  - exists G. split; [|done]. by rewrite R2.
Qed.

Lemma functions_step tree o q t ls cubes fis : Forall2 line_is ls cubes -> ls <> [] -> q + length ls <= t ->
  (forall fi, fi ∈ fis -> Forall (cube_fits fi) cubes) -> (forall fi, fi ∈ fis -> o + fi < q) -> NoDup fis ->
  forall A, ab_cache A = true ->
  exists ks B, functions_calls tree fis o q t ls = Some ks /\ chain ks A B /\ step (fun x => exists fi, fi ∈ fis /\ x = o + fi) q A B /\
    forall fi, fi ∈ fis -> exists F, ab B !! (o + fi) = Some F /\ forall rho, valid c rho -> F rho = sum_of_products cubes fi rho.
Proof.
  intros HL Hne Hq. induction fis as [|fi fis IH]; intros Hfit Hlt Hnd A Hca.
  - simpl. exists [], A. split_and!; [done|constructor|apply step_refl|]. intros fi Hfi. by apply elem_of_nil in Hfi.
  - inversion Hnd as [|? ? Hni Hnd']; subst.
    destruct (function_step tree fi (o + fi) q t ls cubes A HL) as (ks1&B1&E1&C1&S1&F&HF&HV); try done.
    { apply Hfit. constructor. } { apply Hlt. constructor. }
    destruct (IH) with (A := B1) as (ks2&B&E2&C2&S2&HFs); try done.
    { intros fj Hj. apply Hfit. by constructor. } { intros fj Hj. apply Hlt. by constructor. }
    { by rewrite (sp_cache _ _ _ _ S1). }
    simpl. rewrite E1, E2. eexists _, B. split_and!; [done|by eapply chain_app| |].
    + eapply step_trans; [exact S1|exact S2|done|done| |].
      * intros x ->. exists fi. split; [constructor|done].
      * intros x (fj&Hj&->). exists fj. split; [by constructor|done].
    + intros fj Hj. apply elem_of_cons in Hj as [->|Hj]; [|by apply HFs]. exists F. split; [|done].
      rewrite (sp_same _ _ _ _ S2); [done|apply Hlt; constructor|]. intros (fj&Hj&Ej). assert (fi = fj) as <- by lia. done.
Qed.
End chain.
