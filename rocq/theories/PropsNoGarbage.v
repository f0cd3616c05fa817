(** * C79: the constructions leave no garbage *)

From stdpp Require Import gmap list.
From Coq Require Import ZArith Lia.
From Verif Require Import Base Ops Tables NodeManager Tools Sift DiagramManager World Queries.
From Verif Require Import Heap Inv InvLemmas Prim GC Make Build Apply Api Constr Expr VecSpec Vec Eval Fold.
From Verif Require Import OpSpec OpProof WorldSpec WorldProof Ctor History PropsBase Chain PropsBase2 PropsCore PropsCore2 Examples.
From Verif Require Import QuerySpec QueryProof PropsQuery NoGarbage.

Local Open Scope nat_scope.
Local Opaque exec run.

Lemma spec_built c opsem strict s k A A' d : spec c opsem strict s k A A' -> built k = Some d ->
  exists F, A' = bindf d F A.
Proof. intros S Hb. destruct S; cbn [built] in Hb; try discriminate; injection Hb as ->; eauto. Qed.

(** ** Sizes *)

Lemma nlive_le s s' (D : list positive) :
  (forall e, live (s_heap s') e <> None -> live (s_heap s) e <> None \/ e ∈ D) ->
  nlive (s_heap s') <= nlive (s_heap s) + length D.
Proof.
  intros H. destruct (live_list_ok s) as [N1 L1]. destruct (live_list_ok s') as [N2 L2].
  rewrite (nlive_list _ _ N1 L1), (nlive_list _ _ N2 L2), <- app_length. apply submseteq_length.
  apply NoDup_submseteq; [done|]. intros e He. apply L2 in He. apply elem_of_app. destruct (H e He); [left|by right].
  by apply L1.
Qed.

Lemma count_nlive c opsem strict args ks s vars A : wf_cfg c -> history c opsem strict args ks s vars A ->
  total_node_count s = Ok (Z.of_nat (nlive (s_heap s))) s.
Proof.
  intros Hc H. destruct (live_list_ok s) as [N1 L1]. rewrite (nlive_list _ _ N1 L1).
  by apply (C05_total_count c strict opsem args ks s vars A).
Qed.

(** ** What a construction makes *)

(** Every node that is there after a construction was there before it, or the new diagram is
    made of it. *)
Theorem C79_no_garbage : forall c opsem strict args ks s vars A k A' d vars' s',
  wf_cfg c -> history c opsem strict args ks s vars A -> spec c opsem strict s k A A' -> built k = Some d ->
  exec c k vars s = Ok vars' s' ->
  exists a, vars' !! d = Some a /\ forall e x, live (s_heap s') e = Some x ->
    live (s_heap s) e = Some x \/ reach (live (s_heap s')) a e.
Proof.
  intros c opsem strict args ks s vars A k A' d vars' s' Hc H S Hb E.
  destruct (history_winv _ _ _ _ _ _ _ _ Hc H) as [g W].
  destruct (exec_new c opsem strict g s vars k A A' d vars' s' Hc W S Hb E) as [[a ->] _ N].
  exists a. split; [by rewrite lookup_insert|]. intros e x Hx. destruct (N e x Hx) as [|(a'&Ha'&Hr)]; [by left|].
  rewrite lookup_insert in Ha'. injection Ha' as <-. by right.
Qed.

(** the sum modulo 4 of two diagrams of the example program *)
Lemma ex_plus46 s : spec ex_cfg ex_ops true s (CApply 9 (PLUS 4) 4 6) ex_abs
  (bindf 9 (fun rho => op_fun (apply_op ex_cfg (PLUS 4)) (exF4 rho) (exF6 rho)) ex_abs).
Proof.
  apply (S_apply ex_cfg ex_ops true s 9 (PLUS 4) 4 6 exF4 exF6); [done|done|reflexivity|reflexivity|].
  intros rho Hv. apply op_applicable_good; [|done]. apply ex_closed; [pose proof (exF4_range rho Hv); lia|apply exF6_range].
Qed.

Definition plus46 : option (Z * Z * Z) :=
  match total_node_count ex_st, exec ex_cfg (CApply 9 (PLUS 4) 4 6) ex_vars ex_st with
  | Ok n _, Ok v s =>
      match v !! 9 with
      | Some a => match diagram_node_count ex_cfg a s, total_node_count s with Ok m _, Ok n' _ => Some (n, m, n') | _, _ => None end
      | None => None
      end
  | _, _ => None
  end.

Example C79_no_garbage_case : exists v s a, exec ex_cfg (CApply 9 (PLUS 4) 4 6) ex_vars ex_st = Ok v s /\ v !! 9 = Some a /\
  forall e x, live (s_heap s) e = Some x -> live (s_heap ex_st) e = Some x \/ reach (live (s_heap s)) a e.
Proof.
  destruct (ex_call (CApply 9 (PLUS 4) 4 6)) as (v&s&E); [by vm_compute|].
  destruct (C79_no_garbage ex_cfg ex_ops true ex_args ex_prog ex_st ex_vars ex_abs _ _ 9 v s ex_wf ex_history
    (ex_plus46 ex_st) eq_refl E) as (a&Ha&N). ex3 v s a.
Qed.

(** ... hence the manager grows by at most the size of the new diagram. *)
Theorem C79_growth : forall c opsem strict args ks s vars A k A' d vars' s',
  wf_cfg c -> history c opsem strict args ks s vars A -> spec c opsem strict s k A A' -> built k = Some d ->
  ab_clean A = true -> exec c k vars s = Ok vars' s' ->
  exists a n m n', vars' !! d = Some a /\ total_node_count s = Ok n s /\ diagram_node_count c a s' = Ok m s' /\
    total_node_count s' = Ok n' s' /\ (n' <= n + m)%Z.
Proof.
  intros c opsem strict args ks s vars A k A' d vars' s' Hc H S Hb Hcl E.
  destruct (C79_no_garbage c opsem strict args ks s vars A k A' d vars' s' Hc H S Hb E) as (a&Ha&N).
  assert (H' : history c opsem strict args (ks ++ [k]) s' vars' A') by (by eapply H_call).
  destruct (spec_built _ _ _ _ _ _ _ _ S Hb) as [F ->].
  destruct (history_query c opsem strict args _ s' vars' (bindf d F A) d F Hc H') as (g&a'&Ha'&C&Hh&_&_&Cl&_).
  { simpl. by rewrite lookup_insert. }
  rewrite Ha in Ha'. injection Ha' as <-.
  destruct (node_count_ok c opsem strict g s' C (Cl Hcl) a Hh) as (D&ND&HD&Ed).
  exists a, (Z.of_nat (nlive (s_heap s))), (Z.of_nat (length D)), (Z.of_nat (nlive (s_heap s'))).
  split; [done|]. split; [by eapply count_nlive|]. split; [done|]. split; [by eapply count_nlive|].
  assert (nlive (s_heap s') <= nlive (s_heap s) + length D); [|lia]. apply nlive_le.
  intros e He. destruct (live (s_heap s') e) as [x|] eqn:Ee; [|done]. destruct (N e x Ee) as [Ex|Hr].
  - left. by rewrite Ex.
  - right. by apply HD.
Qed.

(** here 21 nodes become 27 and the new diagram has 10 *)
Example C79_growth_case : plus46 = Some (21, 10, 27)%Z.
Proof. by vm_compute. Qed.

(** The construction of a function that some other object has already makes no node. *)
Theorem C79_known : forall c opsem strict args ks s vars A k A' d y F G vars' s',
  wf_cfg c -> history c opsem strict args ks s vars A -> spec c opsem strict s k A A' -> built k = Some d ->
  ab_canon A = true -> y <> d -> ab A !! y = Some G -> ab A' !! d = Some F -> fun_eq c F G ->
  exec c k vars s = Ok vars' s' ->
  (forall e x, live (s_heap s') e = Some x -> live (s_heap s) e = Some x) /\
  exists n n', total_node_count s = Ok n s /\ total_node_count s' = Ok n' s' /\ (n' <= n)%Z.
Proof.
  intros c opsem strict args ks s vars A k A' d y F G vars' s' Hc H S Hb Hcn Hy HG HF HE E.
  assert (H' : history c opsem strict args (ks ++ [k]) s' vars' A') by (by eapply H_call).
  destruct (history_winv _ _ _ _ _ _ _ _ Hc H) as [g W].
  destruct (exec_new c opsem strict g s vars k A A' d vars' s' Hc W S Hb E) as [[a Ev] K N].
  assert (Ha : vars' !! d = Some a) by (by rewrite Ev, lookup_insert).
  destruct (spec_built _ _ _ _ _ _ _ _ S Hb) as [F' EA].
  assert (HG' : ab A' !! y = Some G) by (rewrite EA; simpl; by rewrite lookup_insert_ne).
  destruct (history_value _ _ _ _ _ _ _ _ y G Hc H' HG') as (b&Hb'&Vb).
  destruct (history_value _ _ _ _ _ _ _ _ d F Hc H' HF) as (a'&Ha'&Va).
  rewrite Ha in Ha'. injection Ha' as <-.
  assert (a = b) as <-.
  { assert (X : equals vars' d y = true).
    { apply (C02_equals_exact c strict opsem args (ks ++ [k]) s' vars' A' d y a b Hc H'); [by rewrite EA|done|done|].
      intros vals Hv. rewrite (Va vals Hv), (Vb vals Hv). f_equal. apply HE, Hv. }
    unfold equals in X. apply bool_decide_eq_true in X. congruence. }
  assert (Hh : held g (s_heap s) a).
  { rewrite Ev, lookup_insert_ne in Hb' by done. eapply ext_held; [apply (wi_calm _ _ _ _ _ _ _ W)|]. by eapply wi_pos. }
  assert (L : forall e x, live (s_heap s') e = Some x -> live (s_heap s) e = Some x).
  { intros e x Hx. destruct (N e x Hx) as [|(a'&Ha'&Hr)]; [done|]. rewrite Ha in Ha'. injection Ha' as <-.
    destruct (kept_reach_inv g _ _ a e K Hh Hr) as [_ He]. by rewrite <- (K e He). }
  split; [done|]. exists (Z.of_nat (nlive (s_heap s))), (Z.of_nat (nlive (s_heap s'))).
  split; [by eapply count_nlive|]. split; [by eapply count_nlive|].
  pose proof (nlive_le s s' []) as X. simpl in X. rewrite Nat.add_0_r in X.
  assert (nlive (s_heap s') <= nlive (s_heap s)); [|lia]. apply X. intros e He.
  destruct (live (s_heap s') e) as [x|] eqn:Ee; [|done]. left. by rewrite (L e x Ee).
Qed.

(** the conjunction of two variables, the second time the other way round *)
Lemma ex_and20 s : spec ex_cfg ex_ops true s (CApply 9 AND 2 0) ex_abs
  (bindf 9 (fun rho => op_fun (apply_op ex_cfg AND) (exV 2 rho) (exV 0 rho)) ex_abs).
Proof.
  apply (S_apply ex_cfg ex_ops true s 9 AND 2 0 (exV 2) (exV 0)); [done|done|reflexivity|reflexivity|].
  intros rho Hv. apply op_applicable_good; [|done]. unfold exV. split.
  - ex_values rho Hv; repeat split; vm_compute; done.
  - ex_values rho Hv; apply ex_tval; vm_compute; done.
Qed.

Example C79_known_case : exists v s, exec ex_cfg (CApply 9 AND 2 0) ex_vars ex_st = Ok v s /\
  forall e x, live (s_heap s) e = Some x -> live (s_heap ex_st) e = Some x.
Proof.
  destruct (ex_call (CApply 9 AND 2 0)) as (v&s&E); [by vm_compute|]. exists v, s. split; [exact E|].
  apply (C79_known ex_cfg ex_ops true ex_args ex_prog ex_st ex_vars ex_abs _ _ 9 5
    (fun rho => op_fun (apply_op ex_cfg AND) (exV 2 rho) (exV 0 rho)) exF5 v s ex_wf ex_history
    (ex_and20 ex_st) eq_refl); [done|done|reflexivity|reflexivity| |exact E].
  intros rho Hv. unfold exF5, exV. ex_values rho Hv; by vm_compute.
Qed.

(** ** Managers without garbage *)

(** every node belongs to some object of the program *)
Definition no_garbage (s : st) (vars : vars_t) : Prop :=
  forall e, live (s_heap s) e <> None -> in_use s vars e.

(** A construction whose object was empty before keeps the manager free of garbage, and
    force_gc makes it so. *)
Theorem C79_kept_free : forall c opsem strict args ks s vars A k A' d vars' s',
  wf_cfg c -> history c opsem strict args ks s vars A -> spec c opsem strict s k A A' -> built k = Some d ->
  vars !! d = None -> no_garbage s vars -> exec c k vars s = Ok vars' s' -> no_garbage s' vars'.
Proof.
  intros c opsem strict args ks s vars A k A' d vars' s' Hc H S Hb Hd HN E.
  destruct (history_winv _ _ _ _ _ _ _ _ Hc H) as [g W].
  destruct (exec_new c opsem strict g s vars k A A' d vars' s' Hc W S Hb E) as [[a Ev] K N].
  intros e He. destruct (live (s_heap s') e) as [x|] eqn:Ee; [|done]. destruct (N e x Ee) as [Ex|(b&Hb'&Hr)].
  - destruct (HN e) as (y&r&Hy&Hr); [by rewrite Ex|]. exists y, r. split.
    + rewrite Ev, lookup_insert_ne; [done|]. intros ->. congruence.
    + eapply kept_reach; [exact K| |exact Hr]. eapply ext_held; [apply (wi_calm _ _ _ _ _ _ _ W)|]. by eapply wi_pos.
  - by exists d, b.
Qed.

Theorem C79_collected_free : forall c opsem strict args ks s vars A vars' s',
  wf_cfg c -> history c opsem strict args ks s vars A -> ab_clean A = true ->
  exec c CGc vars s = Ok vars' s' -> no_garbage s' vars'.
Proof.
  intros c opsem strict args ks s vars A vars' s' Hc H Hcl E e He.
  destruct (history_gc _ _ _ _ _ _ _ _ _ _ Hc H E) as (->&_&Hiff&Hl). apply Hiff. by apply (Hl Hcl).
Qed.

(** A program that only constructs diagrams, each in an object of its own, never has garbage:
    the manager holds the nodes of its objects and no others. *)
Theorem C79_program : forall c opsem strict args ks s vars A,
  wf_cfg c -> history c opsem strict args ks s vars A ->
  Forall (fun k => built k <> None) ks -> NoDup (omap built ks) ->
  forall e, live (s_heap s) e <> None <-> in_use s vars e.
Proof.
  intros c opsem strict args ks s vars A Hc H HB ND.
  assert (X : no_garbage s vars /\ forall d, vars !! d <> None -> d ∈ omap built ks).
  { revert HB ND. induction H as [s0 s P Hn|ks s vars A k A' s' vars' H IH S E]; intros HB ND.
    - split; [|by intros d; rewrite lookup_empty]. intros e He. exfalso. apply He.
      destruct (new_winv c opsem strict _ _ _ P Hn) as [g W]. 
      destruct (live (s_heap s) e) as [x|] eqn:Ee; [|done]. exfalso.
      unfold new_manager in Hn.
      destruct (construct_ok c (ca_order args) (ca_main args) (ca_extra args) (ca_cache args) (ca_caps args)
        (ca_gcthr args) (ca_cratio args) s0 (co_order _ _ _ P)) as (i2l&Eq&_).
      rewrite Eq in Hn. simplify_eq.
    - apply Forall_app in HB as [HB1 HB2]. rewrite Forall_singleton in HB2.
      rewrite omap_app in ND |- *. destruct (built k) as [d|] eqn:Eb; [|done]. simpl in *. rewrite Eb in *. simpl in *.
      apply NoDup_app in ND as (ND1&ND2&_). destruct (IH HB1 ND1) as [G V].
      assert (Hd : vars !! d = None).
      { destruct (vars !! d) eqn:Ed; [|done]. exfalso. apply (ND2 d); [|set_solver]. apply V. by rewrite Ed. }
      split; [by eapply C79_kept_free|].
      destruct (history_winv _ _ _ _ _ _ _ _ Hc H) as [g W].
      destruct (exec_new c opsem strict g s vars k A A' d vars' s' Hc W S Eb E) as [[a ->] _ _].
      intros d' Hd'. destruct (decide (d' = d)) as [->|Hne]; [set_solver|]. rewrite lookup_insert_ne in Hd' by done.
      apply elem_of_app. left. by apply V. }
  intros e. split; [apply X|]. intros (d&r&Hd&Hr). destruct (history_winv _ _ _ _ _ _ _ _ Hc H) as [g W].
  pose proof (wi_calm _ _ _ _ _ _ _ W) as C. eapply held_live; [apply C|].
  exists r. split; [|done]. pose proof (wi_pos _ _ _ _ _ _ _ _ _ W Hd) as P.
  destruct (wf_ext _ _ _ _ _ (cl_wf _ _ _ _ _ C) r P) as [? ?]. split_and!; try done. right. by left.
Qed.

(** the first seven calls of the example program *)
Lemma chain_split c opsem strict ks2 : forall ks1 A A', chain c opsem strict (ks1 ++ ks2) A A' ->
  exists B, chain c opsem strict ks1 A B.
Proof.
  induction ks1 as [|k ks1 IH]; intros A A' Ch; [exists A; constructor|]. simpl in Ch. inversion Ch; subst.
  edestruct IH as [B HB]; [eassumption|]. exists B. by econstructor.
Qed.

Example C79_program_case : exists s vars A, history ex_cfg ex_ops true ex_args (take 7 ex_prog) s vars A /\
  (exists e, live (s_heap s) e <> None) /\ forall e, live (s_heap s) e <> None <-> in_use s vars e.
Proof.
  destruct (chain_split ex_cfg ex_ops true (drop 7 ex_prog) (take 7 ex_prog) (no_objects ex_args) ex_abs) as [A Ch];
    [rewrite take_drop; apply ex_chain|].
  destruct (new_manager ex_cfg ex_args no_state) as [[] s0| |] eqn:E; [|by vm_compute in E..].
  assert (X : match new_manager ex_cfg ex_args no_state with
    Ok _ s1 => match run ex_cfg (take 7 ex_prog) ∅ s1 with Ok _ s => 0 <? nlive (s_heap s) | _ => false end | _ => false end = true)
    by (by vm_compute).
  rewrite E in X. destruct (run ex_cfg (take 7 ex_prog) ∅ s0) as [v s| |] eqn:R; [|done..].
  assert (H : history ex_cfg ex_ops true ex_args (take 7 ex_prog) s v A)
    by (eapply chain_new; [apply ex_args_ok|exact E|exact Ch|exact R]).
  exists s, v, A. split; [done|]. split.
  - apply Nat.ltb_lt in X. destruct (live_list_ok s) as [N L]. rewrite (nlive_list _ _ N L) in X.
    destruct (live_list s) as [|e l]; [simpl in X; lia|]. exists e. apply L. by left.
  - apply (C79_program _ _ _ _ _ _ _ _ ex_wf H); [repeat (constructor; [done|]); constructor|].
    cbn. clear. repeat (constructor; [set_solver|]). constructor.
Qed.

(** ** Folds *)

Definition ex_sum : asg -> Z :=
  fun rho => fold_left (op_fun (apply_op ex_cfg (PLUS 4))) (map (fun G => G rho) [exF6; exV 0]) (exF4 rho).

Lemma ex_left s : spec ex_cfg ex_ops true s (CLeft 9 (PLUS 4) [4; 6; 0]) ex_abs (bindf 9 ex_sum ex_abs).
Proof.
  assert (HF : funs ex_abs [4; 6; 0] [exF4; exF6; exV 0]) by (repeat constructor).
  apply (S_left ex_cfg ex_ops true s 9 (PLUS 4) 4 [6; 0] exF4 [exF6; exV 0]); [done|done|exact HF|]. intros rho Hv.
  pose proof (funs_in ex_cfg (fun x => 0 <= x < 8)%Z ex_abs [4; 6; 0] [exF4; exF6; exV 0] HF ex_in rho Hv) as Hall.
  apply (closed_fold_good ex_cfg (PLUS 4) (fun x => 0 <= x < 8)%Z); [apply ex_closed|discriminate| |].
  - by apply Forall_cons_1 in Hall as [? _].
  - by apply Forall_cons_1 in Hall as [_ ?].
Qed.

(** left_fold (and tree_fold) build their intermediate results too, and these stay in the
    manager until the next collection: the count can pass the nodes in use at once. *)
Theorem C79_fold_refuted : exists s vars k A A' vars' s' d,
  history ex_cfg ex_ops true ex_args (ex_prog ++ [CGc]) s vars A /\ spec ex_cfg ex_ops true s k A A' /\
  (exists F, A' = bindf d F A) /\ vars !! d = None /\ exec ex_cfg k vars s = Ok vars' s' /\
  no_garbage s vars /\ ~ no_garbage s' vars'.
Proof.
  assert (X : match exec ex_cfg CGc ex_vars ex_st with
    | Ok v1 s1 => match exec ex_cfg (CLeft 9 (PLUS 4) [4; 6; 0]) v1 s1 with
      | Ok v2 s2 => match exec ex_cfg CGc v2 s2 with
        | Ok _ s3 => (nlive (s_heap s3) <? nlive (s_heap s2)) && bool_decide (v1 !! 9 = None) | _ => false end
      | _ => false end | _ => false end = true) by (by vm_compute).
  destruct (exec ex_cfg CGc ex_vars ex_st) as [v1 s1| |] eqn:E1; [|done..].
  destruct (exec ex_cfg (CLeft 9 (PLUS 4) [4; 6; 0]) v1 s1) as [v2 s2| |] eqn:E2; [|done..].
  destruct (exec ex_cfg CGc v2 s2) as [v3 s3| |] eqn:E3; [|done..].
  apply andb_true_iff in X as [X Hv1]. apply bool_decide_eq_true in Hv1. apply Nat.ltb_lt in X.
  assert (H1 : history ex_cfg ex_ops true ex_args (ex_prog ++ [CGc]) s1 v1 ex_abs)
    by (eapply H_call; [apply ex_history|apply S_gc|exact E1]).
  pose proof (ex_left s1) as S2. set (F := ex_sum) in *.
  assert (H2 : history ex_cfg ex_ops true ex_args ((ex_prog ++ [CGc]) ++ [CLeft 9 (PLUS 4) [4; 6; 0]]) s2 v2 (bindf 9 F ex_abs))
    by (eapply H_call; [exact H1|exact S2|exact E2]).
  exists s1, v1, (CLeft 9 (PLUS 4) [4; 6; 0]), ex_abs, (bindf 9 F ex_abs), v2, s2, 9.
  split; [exact H1|]. split; [exact S2|]. split; [by exists F|]. split; [exact Hv1|]. split; [exact E2|]. split.
  { eapply C79_collected_free; [apply ex_wf|apply ex_history|reflexivity|exact E1]. }
  intros NG. destruct (history_gc _ _ _ _ _ _ _ _ _ _ ex_wf H2 E3) as (_&Hk&_&_).
  pose proof (nlive_le s3 s2 []) as Y. simpl in Y. rewrite Nat.add_0_r in Y.
  apply (Nat.lt_irrefl (nlive (s_heap s2))). eapply Nat.le_lt_trans; [apply Y|exact X].
  intros e He. left. rewrite (Hk e (NG e He)). done.
Qed.

Print Assumptions C79_no_garbage.
Print Assumptions C79_growth.
Print Assumptions C79_known.
Print Assumptions C79_kept_free.
Print Assumptions C79_collected_free.
Print Assumptions C79_program.
Print Assumptions C79_fold_refuted.
