(** * Programs described without reference to manager states *)

From stdpp Require Import gmap list.
From Coq Require Import ZArith Lia.
From Verif Require Import Base Ops Tables NodeManager Tools Sift DiagramManager World.
From Verif Require Import Heap Inv InvLemmas Prim GC Make Build Apply Api Constr Expr VecSpec Vec Eval Fold.
From Verif Require Import OpSpec OpProof WorldSpec WorldProof Ctor History PropsBase.

Local Open Scope nat_scope.

(** [chain ks A A']: the calls [ks] may be made whatever the state of the manager is *)
Inductive chain (c : cfg) (opsem : Z -> option (Z -> Z -> Z)) (strict : bool) :
  list call -> astate -> astate -> Prop :=
| Ch_nil A : chain c opsem strict [] A A
| Ch_cons k ks A A1 A2 : (forall s, spec c opsem strict s k A A1) ->
    chain c opsem strict ks A1 A2 -> chain c opsem strict (k :: ks) A A2.

Lemma chain_history c opsem strict p : forall ks ks0 s vars A A' vars' s',
  history c opsem strict p ks0 s vars A -> chain c opsem strict ks A A' ->
  run c ks vars s = Ok vars' s' -> history c opsem strict p (ks0 ++ ks) s' vars' A'.
Proof.
  induction ks as [|k ks IH]; intros ks0 s vars A A' vars' s' H Ch E.
  - inversion Ch; subst. injection E as <- <-. by rewrite app_nil_r.
  - inversion Ch as [|?? ? A1 ? Sp Ch']; subst. simpl in E. unfold bind in E.
    destruct (exec c k vars s) as [v1 s1| |] eqn:Ek; try done.
    replace (ks0 ++ k :: ks) with ((ks0 ++ [k]) ++ ks) by by rewrite <- app_assoc.
    eapply IH; [|exact Ch'|exact E]. econstructor; [exact H|apply Sp|exact Ek].
Qed.

Lemma chain_new c opsem strict p ks s0 s A' vars' s' :
  cargs_ok c strict p -> new_manager c p s0 = Ok tt s -> chain c opsem strict ks (no_objects p) A' ->
  run c ks ∅ s = Ok vars' s' -> history c opsem strict p ks s' vars' A'.
Proof.
  intros Hp Hn Ch E. change ks with ([] ++ ks). eapply chain_history; [|exact Ch|exact E]. by econstructor.
Qed.

Lemma run_chain c opsem strict args : wf_cfg c -> forall ks1 ks s vars A B,
  history c opsem strict args ks s vars A -> chain c opsem strict ks1 A B ->
  match run c ks1 vars s with
  | Ok vars' s' => history c opsem strict args (ks ++ ks1) s' vars' B
  | Err e => e = ERefOver \/ (strict = false /\ e = EPool)
  | Fuel => False
  end.
Proof.
  intros Hc. induction ks1 as [|k ks1 IH]; intros ks s vars A B H Ch; inversion Ch; subst; simpl.
  - by rewrite app_nil_r.
  - pose proof (history_safe c opsem strict args ks s vars A k _ Hc H (H2 s)) as X. unfold bind.
    destruct (exec c k vars s) as [v1 s1|e|] eqn:E; [|exact X|exact X].
    replace (ks ++ k :: ks1) with ((ks ++ [k]) ++ ks1) by by rewrite <- app_assoc.
    eapply IH; [|done]. eapply H_call; [exact H|apply H2|exact E].
Qed.

(** memory before the constructor has run *)
Definition no_state : st :=
  St ∅ [] [] [] (ACache 0%Z 0%N []) (Pool [] 1%positive 0%N 0%Z 0%Z 0%Z) [] [] 0%Z 0%Z (fun _ => 0%Z) (fun _ => 0%Z) false false.

(** calls that only concern the caches and the collector *)
Definition upkeep (k : call) : bool :=
  match k with CGc | CClearCache | CCacheRatio _ | CGcRatio _ => true | _ => false end.

Definition not_reorder (k : call) : bool :=
  match k with CReorder | CAuto true => false | _ => true end.

(** the program without these calls *)
Definition essential (ks : list call) : list call := List.filter (fun k => negb (upkeep k)) ks.

(** the same configuration with nodes placed at other addresses *)
Definition placed (ptr : positive -> N) (c : cfg) : cfg :=
  Cfg (c_doms c) (c_fixed c) ptr (c_dbg c) (c_trap c).

Lemma spec_placed ptr c opsem s s2 k A A' : not_reorder k = true ->
  spec c opsem false s k A A' -> spec (placed ptr c) opsem false s2 k A A'.
Proof. intros Hk H. destruct H.
  - by apply S_const.
  - by apply S_var.
  - by apply S_varnot.
  - exact (S_vec (placed ptr c) opsem false s2 d vs A H H0).
  - exact (S_expr (placed ptr c) opsem false s2 d e A H).
  - exact (S_apply (placed ptr c) opsem false s2 d o x y F G A H H0 H1 H2 H3).
  - exact (S_left (placed ptr c) opsem false s2 d o x xs F Fs A H H0 H1 H2).
  - exact (S_tree (placed ptr c) opsem false s2 d o xs Fs A H H0 H1 H2 H3 H4).
  - exact (S_transform (placed ptr c) opsem false s2 d f x F A H H0).
  - exact (S_cofactor (placed ptr c) opsem false s2 d x i k F A H H0).
  - exact (S_cofactors (placed ptr c) opsem false s2 d x vs F A H H0).
  - by apply S_copy.
  - by apply S_move.
  - by apply S_swap.
  - by apply S_reset.
  - by apply S_gc.
  - by apply S_clear.
  - by apply S_cratio.
  - by apply S_gcratio.
  - by apply S_auto.
  - discriminate Hk.
  - exact (S_dpld (placed ptr c) opsem false s2 d vc f x F A H H0 H1 H2).
  - exact (S_extend (placed ptr c) opsem false s2 d from i x F A H H0 H1 H2 H3).
  - exact (S_dplde (placed ptr c) opsem false s2 d vc f from x F A H H0 H1 H2 H3).
  - exact (S_mnf (placed ptr c) opsem false s2 x F A fl H H0).
Qed.

Lemma spec_cached c opsem strict s k A A' : spec c opsem strict s k A A' -> not_reorder k = true ->
  ab_cache A = true -> ab_cache A' = true.
Proof. intros H. destruct H; simpl; done. Qed.

Lemma spec_canon c opsem strict s k A A' : spec c opsem strict s k A A' -> not_reorder k = true ->
  ab_canon A = true -> ab_canon A' = true.
Proof. intros H. destruct H; simpl; done. Qed.

Lemma chain_canon c opsem strict ks A A' : chain c opsem strict ks A A' ->
  Forall (fun k => not_reorder k = true) ks -> ab_canon A = true -> ab_canon A' = true.
Proof.
  induction 1 as [A|k ks A A1 A2 Sp Ch IH]; intros Hr H; [done|]. inversion Hr; subst.
  apply IH; [done|]. by eapply spec_canon; [apply (Sp no_state)| |].
Qed.

Lemma spec_upkeep c opsem strict s k A A' : spec c opsem strict s k A A' -> upkeep k = true ->
  ab_cache A = true -> A' = A.
Proof. intros H. destruct H; simpl; try done. intros _ E. destruct A; simpl in *. by subst. Qed.

Lemma upkeep_spec c opsem s k A : upkeep k = true -> ab_cache A = true -> spec c opsem false s k A A.
Proof.
  destruct k; simpl; try done; intros _ E; try by constructor.
  destruct A; simpl in *. subst. exact (S_clear c opsem false s (AState ab ab_order ab_canon true ab_clean)).
Qed.

Lemma history_chain c opsem p ks s vars A : history c opsem false p ks s vars A ->
  Forall (fun k => not_reorder k = true) ks ->
  ab_cache A = true /\ chain c opsem false (essential ks) (no_objects p) A.
Proof.
  intros H. induction H as [s0 s Hp Hn|ks s vars A k A' s' vars' H IH Sp E]; intros Hks.
  - split; [done|]. constructor.
  - apply Forall_app in Hks as [Hks Hk]. inversion Hk as [|?? Hk1 _]; subst; clear Hk; rename Hk1 into Hk. destruct (IH Hks) as [Hca Ch].
    split; [exact (spec_cached _ _ _ _ _ _ _ Sp Hk Hca)|]. unfold essential. rewrite List.filter_app. simpl.
    destruct (upkeep k) eqn:Hu; simpl.
    + rewrite app_nil_r. by rewrite (spec_upkeep _ _ _ _ _ _ _ Sp Hu Hca).
    + clear -Ch Sp Hk. change (chain c opsem false (essential ks ++ [k]) (no_objects p) A').
      induction Ch as [A|k' ks' A A1 A2 Sp' Ch IH]; simpl.
      * econstructor; [|constructor]. intros s1. pose proof (spec_placed (c_ptr c) c opsem s s1 k A A' Hk Sp) as X. by destruct c.
      * econstructor; [exact Sp'|by apply IH].
Qed.

Lemma essential_reorder ks : Forall (fun k => not_reorder k = true) (essential ks) ->
  Forall (fun k => not_reorder k = true) ks.
Proof.
  intros H. apply Forall_forall. intros k Hk. destruct (not_reorder k) eqn:E; [done|].
  rewrite Forall_forall in H. rewrite <- (H k), E; [done|]. apply elem_of_list_In, filter_In.
  split; [by apply elem_of_list_In|]. by destruct k.
Qed.

Lemma essential_reorder' ks : Forall (fun k => not_reorder k = true) ks ->
  Forall (fun k => not_reorder k = true) (essential ks).
Proof.
  rewrite !Forall_forall. intros H k Hk. apply H. apply elem_of_list_In in Hk. apply filter_In in Hk as [? _].
  by apply elem_of_list_In.
Qed.

Lemma chain_essential ptr c opsem : forall ks2 ks1 A A',
  chain c opsem false ks1 A A' -> ab_cache A = true -> essential ks2 = ks1 ->
  Forall (fun k => not_reorder k = true) ks2 -> chain (placed ptr c) opsem false ks2 A A'.
Proof.
  induction ks2 as [|k ks2 IH]; intros ks1 A A' Ch Hca E Hr.
  - simpl in E. subst. inversion Ch; subst. constructor.
  - inversion Hr as [|?? Hk Hr']; subst. unfold essential in Ch. simpl in Ch. destruct (upkeep k) eqn:Hu; simpl in Ch.
    + econstructor; [intros s; by apply upkeep_spec|]. by eapply IH.
    + inversion Ch as [|?? ? A1 ? Sp Ch']; subst. econstructor.
      * intros s. eapply (spec_placed ptr c opsem s); [done|apply Sp].
      * eapply IH; [exact Ch'| |done|done]. exact (spec_cached _ _ _ _ _ _ _ (Sp no_state) Hk Hca).
Qed.
