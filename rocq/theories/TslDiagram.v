(** * make_diagram of a minmax expression as a program *)

From stdpp Require Import gmap list.
From Coq Require Import ZArith Lia.
From Verif Require Import Base Ops Tables NodeManager Tools Sift DiagramManager World.
From Verif Require Import Heap Inv InvLemmas Prim GC Make Build Apply Api Constr Expr VecSpec Vec Eval Fold.
From Verif Require Import OpSpec OpProof WorldSpec WorldProof Ctor History PropsBase Chain PropsBase2 FromPla.
From Verif Require Import Prob Tsl TslIter.

Local Open Scope nat_scope.

(** value of a non-empty fold *)
Definition fold1 (o : opc) (l : list Z) : Z :=
  match l with [] => 0%Z | v :: vs => fold_left (op_math o) vs v end.

Section chain.
Context (c : cfg) (b p m : Z) (strict : bool).
Context (Hc : wf_cfg c) (Hn : nvars c <> 0) (Hb : forall k, c_fixed c = Some k -> b = k).
Notation chain := (chain c (ops_with b p m) strict).
Notation step := (step).

(** values that the variables can have *)
Definition level (v : Z) : Prop := (0 <= v < Nondet)%Z /\ match c_fixed c with Some k => (v < k)%Z | None => True end.
Definition levelf (F : asg -> Z) : Prop := forall rho, valid c rho -> level (F rho).

Lemma level_tval v : level v -> tval c v.
Proof. intros H. by left. Qed.

Lemma fixed_small k : c_fixed c = Some k -> (k < Nondet)%Z.
Proof. intros E. rewrite <- (wc_fixed c Hc k E 0) by lia. apply (wc_dom_small c Hc). lia. Qed.

Lemma min_closed : op_closed c MIN level.
Proof.
  intros x y [Hx Fx] [Hy Fy].
  assert (L : level (op_math MIN x y)). { split; simpl; [lia|]. destruct (c_fixed c); [lia|done]. }
  split; [|done]. split; [|by apply level_tval]. unfold plain_op. destruct (c_fixed c); split; done.
Qed.

Lemma max_closed : op_closed c MAX level.
Proof.
  intros x y [Hx Fx] [Hy Fy].
  assert (L : level (op_math MAX x y)). { split; simpl; [lia|]. destruct (c_fixed c); [lia|done]. }
  split; [|done]. split; [|by apply level_tval]. unfold plain_op. destruct (c_fixed c) as [k|] eqn:E; cbn [op_dom].
  - pose proof (fixed_small k E). lia.
  - split; done.
Qed.

Definition minmax_opc (o : opc) : Prop := o = MIN \/ o = MAX.

Lemma mm_closed o : minmax_opc o -> op_closed c o level.
Proof. intros [->| ->]; [apply min_closed|apply max_closed]. Qed.

Lemma mm_known o : minmax_opc o -> op_known c (ops_with b p m) o.
Proof.
  intros H. apply op_allowed_known. destruct H as [->| ->]; unfold plain_op; destruct (c_fixed c) as [k|] eqn:E; try done.
  cbn. symmetry. by apply Hb.
Qed.

Lemma mm_assoc o x y z : minmax_opc o -> op_math o (op_math o x y) z = op_math o x (op_math o y z).
Proof. intros [->| ->]; simpl; lia. Qed.

Lemma del_list_lookup xs (mm : gmap nat (asg -> Z)) x : del_list xs mm !! x = if decide (x ∈ xs) then None else mm !! x.
Proof.
  revert x. induction xs as [|y xs IH]; intros x; [|change (del_list (y :: xs) mm) with (delete y (del_list xs mm))].
  - simpl. destruct (decide (x ∈ [])) as [H|]; [by apply elem_of_nil in H|done].
  - destruct (decide (x = y)) as [->|N].
    + rewrite lookup_delete. destruct (decide (y ∈ y :: xs)) as [|H]; [done|]. destruct H. constructor.
    + rewrite lookup_delete_ne by done. rewrite IH.
      destruct (decide (x ∈ xs)), (decide (x ∈ y :: xs)) as [H|H]; try done.
      * destruct H. by constructor.
      * apply elem_of_cons in H as [|]; done.
Qed.

(** a fold followed by the end of the life of the elements *)
Lemma fold_step tree o d q n Fs A : minmax_opc o -> ab_cache A = true -> n <> 0 -> d < q ->
  funs A (seq q n) Fs -> Forall levelf Fs ->
  exists B, chain ([fold_call tree d o (seq q n)] ++ map CReset (seq q n)) A B /\
    FromPla.step (fun x => x = d) q A B /\ (forall x, x ∈ seq q n -> ab B !! x = None) /\
    exists F, ab B !! d = Some F /\ levelf F /\ forall rho, valid c rho -> F rho = fold1 o (map (fun G => G rho) Fs).
Proof.
  intros Ho Hca Hn0 Hd HF Hl.
  assert (Hall : forall rho, valid c rho -> Forall level (map (fun G => G rho) Fs)).
  { intros rho Hv. rewrite Forall_map. eapply Forall_impl; [exact Hl|]. intros G HG. by apply HG. }
  assert (HV := mm_closed o Ho). assert (Har : op_arith o = false) by (by destruct Ho as [->| ->]).
  assert (Hs : seq q n <> []) by by destruct n.
  assert (ND : NoDup (seq q n)) by apply NoDup_ListNoDup, seq_NoDup.
  assert (Hdk : d ∉ seq q n) by (rewrite elem_of_seq; lia).
  assert (Y : exists G B, chain [fold_call tree d o (seq q n)] A B /\ ab B !! d = Some G /\ FromPla.step (fun x => x = d) q A B /\
    forall rho, valid c rho -> G rho = fold1 o (map (fun G => G rho) Fs) /\ level (G rho)).
  { destruct tree; unfold fold_call.
    - eexists _, (bindf d _ (set_ab (del_list (seq q n) (ab A)) A)). split_and!.
      + apply chain_one. intros s. apply S_tree; [done|by apply mm_known|done|done|exact HF|].
        intros rho Hv. eapply closed_rounds_good; [exact HV|by rewrite Har|by apply Hall].
      + simpl. apply lookup_insert.
      + constructor; try done; simpl.
        * intros x Hx Hnx. rewrite lookup_insert_ne, del_list_lookup by done. destruct (decide _) as [H|]; [|done]. rewrite elem_of_seq in H. lia.
        * intros x Hnx. rewrite lookup_insert_ne, del_list_lookup by done. destruct (decide _); auto.
      + intros rho Hv. cbn beta. specialize (Hall rho Hv).
        rewrite (balanced_on level _ (op_math o)); [|intros y z Hy Hz; apply op_applicable_fun; by apply HV|intros y z Hy Hz; by apply HV|done].
        destruct (map (fun G => G rho) Fs) as [|v vs] eqn:Em.
        { exfalso. apply map_eq_nil in Em. subst Fs. inversion HF. by destruct n. }
        inversion Hall; subst. rewrite (balanced_assoc_on level (op_math o)); try done; [|by intros; apply HV|by intros; apply mm_assoc].
        simpl. split; [done|]. apply (fold_on level (op_math o) (op_math o)); try done. intros y z Hy Hz. by apply HV.
    - inversion HF as [E|x F xs Fs' Hx HF' E]; [by destruct n|]. subst Fs. rewrite <- E in *.
      eexists _, (bindf d _ A). split_and!.
      + apply chain_one. intros s. apply (S_left _ _ _ s d o x xs F Fs'); [done|by apply mm_known|by constructor|]. intros rho Hv.
        specialize (Hall rho Hv). inversion Hall; subst. eapply closed_fold_good; [exact HV|by rewrite Har|done|done].
      + simpl. apply lookup_insert.
      + constructor; try done; simpl; intros z; intros; [|left]; rewrite lookup_insert_ne by done; done.
      + intros rho Hv. cbn beta. specialize (Hall rho Hv). cbn [map] in Hall |- *. inversion Hall; subst.
        destruct (fold_on level (op_fun (apply_op c o)) (op_math o)) with (x := F rho) (l := map (fun G => G rho) Fs') as [E1 E2]; try done.
        * intros y z Hy Hz. apply op_applicable_fun. by apply HV.
        * intros y z Hy Hz. by apply HV.
        * rewrite E1. split; done. }
  destruct Y as (G&B2&C2&HG&S2&GV).
  destruct (resets_step c b p m strict (seq q n) B2) as (B&C3&F1&F2&F3&F4&R1&R2).
  exists B. split_and!.
  - eapply chain_app; [exact C2|exact C3].
  - constructor.
    + by rewrite F1, (sp_order _ _ _ _ S2).
    + by rewrite F2, (sp_canon _ _ _ _ S2).
    + by rewrite F3, (sp_cache _ _ _ _ S2).
    + by rewrite F4, (sp_clean _ _ _ _ S2).
    + intros x Hx Hnx. rewrite R2 by (rewrite elem_of_seq; lia). by apply (sp_same _ _ _ _ S2).
    + intros x Hnx. destruct (decide (x ∈ seq q n)) as [Hi|Hi]; [right; auto|]. rewrite R2 by done. by apply (sp_old _ _ _ _ S2).
  - done.
  - exists G. split; [by rewrite R2|]. split; [intros rho Hv; by apply GV|intros rho Hv; by apply GV].
Qed.

Lemma var_level i : i < nvars c -> levelf (fun rho => Z.of_nat (rho i)).
Proof.
  intros Hi rho Hv. specialize (Hv i Hi). pose proof (wc_dom_small c Hc i Hi). split; [lia|].
  destruct (c_fixed c) as [k|] eqn:E; [|done]. pose proof (wc_fixed c Hc k E i Hi). lia.
Qed.

Lemma variables_step term : Forall (fun i => i < nvars c) term -> forall t A,
  exists B, chain (variables_calls t term) A B /\
    ab_order B = ab_order A /\ ab_canon B = ab_canon A /\ ab_cache B = ab_cache A /\ ab_clean B = ab_clean A /\
    (forall x, x ∉ seq t (length term) -> ab B !! x = ab A !! x) /\
    exists Fs, funs B (seq t (length term)) Fs /\ Forall levelf Fs /\
      forall rho, map (fun F => F rho) Fs = map (fun i => Z.of_nat (rho i)) term.
Proof.
  induction 1 as [|i term Hi H IH]; intros t A; simpl.
  - exists A. split_and!; try done; [constructor|]. exists []. split_and!; [constructor|constructor|done].
  - destruct (IH (S t) (bindf t (fun rho => Z.of_nat (rho i)) A)) as (B&Ch&E1&E2&E3&E4&Hs&Fs&HF&Hl&HV). exists B. split_and!; try done.
    + econstructor; [|exact Ch]. intros s. by apply S_var.
    + intros x Hx. apply not_elem_of_cons in Hx as [Hx1 Hx2]. rewrite Hs by done. simpl. by rewrite lookup_insert_ne.
    + exists ((fun rho => Z.of_nat (rho i)) :: Fs). split_and!.
      * constructor; [|done]. rewrite Hs; [apply lookup_insert|]. rewrite elem_of_seq. lia.
      * constructor; [by apply var_level|done].
      * intros rho. simpl. by rewrite HV.
Qed.

Definition term_ok (term : list nat) : Prop := term <> [] /\ Forall (fun i => i < nvars c) term.

Definition term_val1 (rho : asg) (term : list nat) : Z := fold1 MIN (map (fun i => Z.of_nat (rho i)) term).

Lemma term_step tree d t term A : ab_cache A = true -> d < t -> term_ok term ->
  exists B, chain (term_calls tree d t term) A B /\ FromPla.step (fun x => x = d) t A B /\
    exists F, ab B !! d = Some F /\ levelf F /\ forall rho, valid c rho -> F rho = term_val1 rho term.
Proof.
  intros Hca Hd [Hne Ht]. destruct (variables_step term Ht t A) as (B1&C1&E1&E2&E3&E4&Hs&Fs&HF&Hl&HV).
  destruct (fold_step tree MIN d t (length term) Fs B1) as (B&C2&S2&R2&F&HFd&HlF&HVF); try done; [by left|congruence|by destruct term|].
  exists B. split_and!.
  - unfold term_calls. eapply chain_app; [exact C1|exact C2].
  - destruct S2. constructor; try congruence.
    + intros x Hx Hnx. rewrite sp_same by done. apply Hs. rewrite elem_of_seq. lia.
    + intros x Hnx. destruct (decide (x ∈ seq t (length term))) as [Hi|Hi].
      * right. by apply R2.
      * rewrite <- (Hs x Hi). by apply sp_old.
  - exists F. split_and!; [done|done|]. intros rho Hv. rewrite HVF by done. unfold term_val1. by rewrite HV.
Qed.

Lemma terms_step tree t e : Forall term_ok e -> forall q A, ab_cache A = true -> q + length e <= t ->
  exists B, chain (terms_calls tree q t e) A B /\ FromPla.step (fun x => q <= x < q + length e) t A B /\
    exists Fs, funs B (seq q (length e)) Fs /\ Forall levelf Fs /\
      forall rho, valid c rho -> map (fun F => F rho) Fs = map (term_val1 rho) e.
Proof.
  induction 1 as [|term e Ht He IH]; intros q A Hca Hq; cbn [terms_calls length seq map].
  - exists A. split_and!; [constructor|apply step_refl|]. exists []. split_and!; [constructor|constructor|done].
  - simpl in Hq. destruct (term_step tree q t term A Hca ltac:(lia) Ht) as (B1&C1&S1&F&HF&Hl&HV).
    destruct (IH (S q) B1) as (B&C2&S2&Fs&HFs&Hls&HVs); [by rewrite (sp_cache _ _ _ _ S1)|lia|].
    exists B. split_and!.
    + eapply chain_app; [exact C1|exact C2].
    + eapply step_trans; [exact S1|exact S2|done|done| |]; intros x; simpl; lia.
    + exists (F :: Fs). split_and!.
      * constructor; [|done]. rewrite (sp_same _ _ _ _ S2); [done|lia|]. intros X. simpl in X. lia.
      * by constructor.
      * intros rho Hv'. simpl. by rewrite HV, HVs.
Qed.

Lemma minmax_step tree d q t e A : ab_cache A = true -> d < q -> q + length e <= t -> e <> [] -> Forall term_ok e ->
  exists B, chain (minmax_calls tree d q t e) A B /\ FromPla.step (fun x => x = d) q A B /\
    exists F, ab B !! d = Some F /\ forall rho, valid c rho -> F rho = fold1 MAX (map (term_val1 rho) e).
Proof.
  intros Hca Hd Hq Hne He. destruct (terms_step tree t e He q A Hca Hq) as (B1&C1&S1&Fs&HFs&Hls&HVs).
  destruct (fold_step tree MAX d q (length e) Fs B1) as (B&C2&S2&R2&F&HFd&HlF&HVF); try done; [by right|by rewrite (sp_cache _ _ _ _ S1)|by destruct e|].
  exists B. split_and!.
  - unfold minmax_calls. eapply chain_app; [exact C1|exact C2].
  - destruct S1 as [O1 K1 C1' L1 M1 N1], S2 as [O2 K2 C2' L2 M2 N2]. constructor; try congruence.
    + intros x Hx Hnx. rewrite M2 by done. apply M1; lia.
    + intros x Hnx. destruct (decide (x ∈ seq q (length e))) as [Hi|Hi]; [right; by apply R2|].
      destruct (N2 x Hnx) as [->|]; [|by right]. apply N1. rewrite elem_of_seq in Hi. lia.
  - exists F. split; [done|]. intros rho Hv. rewrite HVF by done. by rewrite HVs.
Qed.
End chain.
