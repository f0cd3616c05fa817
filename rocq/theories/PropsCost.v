(** * The documented complexity of the queries

    The functions of [Cost] are the functions of the model with a counter
    (evaluate_forget, one_forget, all_forget and count_forget of [CostProof]). *)

From stdpp Require Import gmap list.
From Coq Require Import ZArith Lia.
From Verif Require Import Base Ops Tables NodeManager Tools Sift DiagramManager World Queries Cost.
From Verif Require Import Heap Inv InvLemmas Prim GC Make Build Apply Api Constr Expr VecSpec Vec Eval Fold.
From Verif Require Import OpSpec OpProof WorldSpec WorldProof Ctor History PropsBase Chain PropsBase2 PropsCore Examples.
From Verif Require Import Trav QuerySpec QueryProof Minimal PropsQuery CostSpec CostProof.

Local Open Scope nat_scope.
Local Opaque exec run new_manager.

Lemma calm_perm c opsem strict g s : calm c opsem strict g s -> Permutation (s_l2i s) (seq 0 (nvars c)).
Proof.
  intros C. apply NoDup_Permutation; [by eapply order_NoDup|apply NoDup_seq|]. intros i.
  rewrite (order_elem c opsem strict g s C i), elem_of_seq. lia.
Qed.

(** evaluate: at most one step for every variable and one for the terminal node *)
Theorem C70_evaluate : forall c strict opsem args ks s vars A x F vals,
  wf_cfg c -> history c opsem strict args ks s vars A -> ab A !! x = Some F -> vals_ok c vals ->
  exists a k, vars !! x = Some a /\ evaluate_steps c (S (nvars c)) vals a s = Ok (F (of_vals vals), k) s /\ k <= S (nvars c).
Proof.
  intros c strict opsem args ks s vars A x F vals Hc H HF Hv.
  destruct (history_query _ _ _ _ _ _ _ _ _ _ Hc H HF) as (g&a&Ha&C&Hh&EF&_).
  pose proof (evaluate_held c opsem strict (fun _ => False) g s vals a (cl_wf _ _ _ _ _ C) (cl_quiet _ _ _ _ _ C) Hv Hh) as E. unfold wp in E.
  destruct (evaluate c a vals s) as [w s'| |] eqn:E1; try done. destruct E as [-> E].
  unfold evaluate in E1. rewrite <- evaluate_forget in E1.
  destruct (evaluate_steps c (S (nvars c)) vals a s) as [[w' k] t| |] eqn:E2; [|done|done].
  pose proof (evaluate_steps_le _ _ _ _ _ _ _ E2) as Hk. cbn [forget fst snd] in *.
  assert (w' = w) as -> by congruence. assert (t = s) as -> by congruence. exists a, k. split; [done|].
  rewrite EF by apply Hv. rewrite (proj1 (Ev_nval c opsem strict g s C a (of_vals vals) w Hh (proj2 Hv)) E). split; [done|lia].
Qed.

(** satisfy_one for a Boolean function and one of its two values *)
Theorem C70_satisfy_one_boolean : forall c strict opsem args ks s vars A x F v,
  wf_cfg c -> history c opsem strict args ks s vars A -> ab_canon A = true -> ab A !! x = Some F ->
  (forall rho, valid c rho -> F rho = 0%Z \/ F rho = 1%Z) -> (v = 0%Z \/ v = 1%Z) ->
  exists a vals b k, vars !! x = Some a /\
    satisfy_one_calls (depth c) v (replicate (nvars c) 0) a s = Ok (vals, b, k) s /\
    k <= S (list_sum (c_doms c)).
Proof.
  intros c strict opsem args ks s vars A x F v Hc H Hcn HF H01 Hv.
  destruct (history_query _ _ _ _ _ _ _ _ _ _ Hc H HF) as (g&a&Ha&C&Hh&EF&_&_&Cn).
  destruct (one_boolean c opsem strict g s Hc C (Cn Hcn) v Hv (depth c) a (replicate (nvars c) 0) Hh) as (vals&b&k&E&_&Hk).
  - unfold depth. lia.
  - intros rho Hr. rewrite <- EF by done. by apply H01.
  - apply zeros_ok. done.
  - exists a, vals, b, k. split; [done|]. split; [done|].
    assert (W : forall l, widths c s l <= list_sum (c_doms c)).
    { intros l. unfold widths. transitivity (list_sum (map (dom c) (s_l2i s))).
      - rewrite <- (take_drop l (s_l2i s)) at 2. rewrite map_app, list_sum_app. lia.
      - assert (X : map (dom c) (seq 0 (nvars c)) = c_doms c).
        { apply list_eq. intros i. destruct (decide (i < nvars c)) as [Hi|Hi].
          - rewrite list_lookup_fmap, lookup_seq_lt by done. simpl. symmetry. by apply dom_lookup.
          - rewrite !lookup_ge_None_2; [done|unfold nvars in *; lia|rewrite map_length, seq_length; lia]. }
        rewrite <- X. apply Nat.eq_le_incl. apply Permutation_list_sum. apply Permutation_map. by eapply calm_perm. }
    destruct b; [specialize (W (rank c g (s_heap s) a)); lia|lia].
Qed.

Lemma parity_sensitive c opsem strict g s F a : calm c opsem strict g s -> (forall i, i < nvars c -> dom c i = 2) ->
  fun_eq c F (nval c s a) -> fun_eq c F (parity (nvars c)) -> sensitive c s 0 (nval c s a).
Proof.
  intros C H2 E1 E2 rho i Hr Hi. rewrite drop_0 in Hi.
  assert (Hin : i < nvars c) by by apply (order_elem c opsem strict g s C).
  assert (U : forall k, k < 2 -> valid c (upd rho i k)).
  { intros k Hk j Hj. unfold upd. destruct (decide (j = i)) as [->|]; [rewrite H2 by done; lia|by apply Hr]. }
  rewrite <- !E1, !E2 by (apply U; lia). by apply parity_flip.
Qed.

(** satisfy_one and satisfy_all for the parity function and a value that it does not have *)
Theorem C70_satisfy_one_exponential : forall c strict opsem args ks s vars A x F v,
  wf_cfg c -> history c opsem strict args ks s vars A -> ab_canon A = true -> ab_clean A = true -> ab A !! x = Some F ->
  (forall i, i < nvars c -> dom c i = 2) -> fun_eq c F (parity (nvars c)) -> v <> 0%Z -> v <> 1%Z ->
  exists a N vals, vars !! x = Some a /\ diagram_node_count c a s = Ok (Z.of_nat N) s /\ N <= 2 * nvars c + 1 /\
    satisfy_one_calls (depth c) v (replicate (nvars c) 0) a s = Ok (vals, false, 2 ^ S (nvars c) - 1) s.
Proof.
  intros c strict opsem args ks s vars A x F v Hc H Hcn Hcl HF H2 EP V0 V1.
  destruct (C60_minimal _ _ _ _ _ _ _ _ _ _ Hc H Hcn Hcl HF) as (a&Gs&Ha&_&EN&HN).
  destruct (history_query _ _ _ _ _ _ _ _ _ _ Hc H HF) as (g&a'&Ha'&C&Hh&EF&Ho&_&_).
  assert (a' = a) as -> by congruence. rewrite <- Ho in HN. pose proof (calm_perm _ _ _ _ _ C) as P.
  destruct (one_full c opsem strict g s C H2 v (depth c) a 0 (replicate (nvars c) 0) Hh) as (vals&E&_).
  - lia.
  - unfold depth. lia.
  - by eapply parity_sensitive.
  - intros rho Hr. rewrite <- EF, EP by done. unfold parity.
    pose proof (Nat.mod_upper_bound (list_sum (map rho (seq 0 (nvars c)))) 2 ltac:(done)). lia.
  - by rewrite replicate_length.
  - exists a, (length Gs), vals. split; [done|]. split; [done|]. split.
    + rewrite <- parity_size. apply (HN _ _ _ (parity_ordered c _ H2 P F EP)). by apply parity_reach.
    + rewrite E. unfold paths. by rewrite Nat.sub_0_r.
Qed.

Theorem C70_satisfy_all_exponential : forall c strict opsem args ks s vars A x F v,
  wf_cfg c -> history c opsem strict args ks s vars A -> ab_canon A = true -> ab_clean A = true -> ab A !! x = Some F ->
  (forall i, i < nvars c -> dom c i = 2) -> fun_eq c F (parity (nvars c)) -> v <> 0%Z -> v <> 1%Z ->
  exists a N vals, vars !! x = Some a /\ diagram_node_count c a s = Ok (Z.of_nat N) s /\ N <= 2 * nvars c + 1 /\
    satisfy_all_calls c (depth c) v 0 (replicate (nvars c) 0, []) a s = Ok (vals, [], 2 ^ S (nvars c) - 1) s.
Proof.
  intros c strict opsem args ks s vars A x F v Hc H Hcn Hcl HF H2 EP V0 V1.
  destruct (C60_minimal _ _ _ _ _ _ _ _ _ _ Hc H Hcn Hcl HF) as (a&Gs&Ha&_&EN&HN).
  destruct (history_query _ _ _ _ _ _ _ _ _ _ Hc H HF) as (g&a'&Ha'&C&Hh&EF&Ho&_&_).
  assert (a' = a) as -> by congruence. rewrite <- Ho in HN. pose proof (calm_perm _ _ _ _ _ C) as P.
  destruct (all_full c opsem strict g s C H2 v (depth c) a 0 (replicate (nvars c) 0) [] Hh) as (vals&E&_).
  - lia.
  - unfold depth. lia.
  - by eapply parity_sensitive.
  - intros rho Hr. rewrite <- EF, EP by done. unfold parity.
    pose proof (Nat.mod_upper_bound (list_sum (map rho (seq 0 (nvars c)))) 2 ltac:(done)). lia.
  - by rewrite replicate_length.
  - exists a, (length Gs), vals. split; [done|]. split; [done|]. split.
    + rewrite <- parity_size. apply (HN _ _ _ (parity_ordered c _ H2 P F EP)). by apply parity_reach.
    + rewrite E. unfold paths. by rewrite Nat.sub_0_r.
Qed.

Lemma list_sum_pointwise {X} (f h : X -> nat) k l : (forall x, In x l -> f x <= h x * k) ->
  list_sum (map f l) <= list_sum (map h l) * k.
Proof.
  induction l as [|x l IH]; intros Hl; [done|]. cbn [map list_sum fold_right]. pose proof (Hl x (or_introl eq_refl)).
  assert (list_sum (map f l) <= list_sum (map h l) * k) by (apply IH; intros; apply Hl; by right). unfold list_sum in *. lia.
Qed.

(** satisfy_count: one operation for every node, and what the operations do in total *)
Theorem C70_satisfy_count : forall c strict opsem args ks s vars A x F v sols,
  wf_cfg c -> history c opsem strict args ks s vars A -> ab_clean A = true -> ab A !! x = Some F -> value_ok c v ->
  (dom_prod (c_doms c) <= product_limit c)%Z -> all_solutions c F v sols ->
  exists a w, vars !! x = Some a /\ satisfy_count_work c v a s = Ok (Z.of_nat (length sols), w) s /\
    diagram_node_count c a s = Ok (Z.of_nat (w_nodes w)) s /\
    w_sons w <= w_nodes w * list_max (c_doms c) /\ w_product w <= w_sons w * nvars c /\
    (c_fixed c <> None -> w_product w = 0).
Proof.
  intros c strict opsem args ks s vars A x F v sols Hc H Hcl HF Hv Hfit HS.
  destruct (C09_satisfy_count _ _ _ _ _ _ _ _ _ _ _ _ Hc H Hcl HF Hv Hfit HS) as (a&Ha&Ek).
  destruct (history_query _ _ _ _ _ _ _ _ _ _ Hc H HF) as (g&a'&Ha'&C&Hh&EF&Ho&Cl&_).
  assert (a' = a) as -> by congruence. rewrite (dom_prod_order c s (proj1 (cl_ord _ _ _ _ _ C))) in Hfit.
  destruct (satisfy_count_work_ok c opsem strict g s Hc C (Cl Hcl) v a Hfit Hh Hv) as (D&k&ND&HD&Ek'&E).
  assert (k = Z.of_nat (length sols)) as -> by congruence.
  destruct (node_count_ok c opsem strict g s C (Cl Hcl) a Hh) as (D'&ND'&HD'&EN).
  assert (Hx : forall y, In y D -> held g (s_heap s) y).
  { intros y Hy. apply elem_of_list_In, HD in Hy. by eapply held_reach. }
  exists a. eexists. split; [done|]. split; [exact E|]. cbn [w_nodes w_sons w_product]. split; [|split; [|split]].
  - rewrite EN. do 2 f_equal. apply Permutation_length, NoDup_Permutation; try done. intros y. by rewrite HD, HD'.
  - apply list_sum_le. intros y Hy. eapply degree_le; eauto.
  - apply list_sum_pointwise. intros y Hy. eapply skips_le; eauto.
  - intros Hf. assert (list_sum (map (skips c g s) D) <= length D * 0) as X; [|lia]. apply list_sum_le. intros y _. unfold skips.
    destruct (live (s_heap s) y) as [[w|i sons]|]; [done| |done].
    assert (Z : forall f, list_sum (map (fun b : positive => product_steps c (S (rank c g (s_heap s) y)) (f b)) sons) <= length sons * 0).
    { intros f. apply list_sum_le. intros b _. unfold product_steps. by destruct (c_fixed c). }
    etransitivity; [apply Z|lia].
Qed.

Lemma list_sum_sub {X} (f : X -> nat) l l' : l ⊆+ l' -> list_sum (map f l) <= list_sum (map f l').
Proof.
  intros Hs. apply submseteq_Permutation in Hs as [k ->]. rewrite map_app, list_sum_app. lia.
Qed.

(** a diagram with [nvars c + 2] nodes for which domain_product makes a quadratic number of steps *)
Theorem C70_satisfy_count_quadratic : forall c strict opsem args ks s vars A x F v,
  wf_cfg c -> history c opsem strict args ks s vars A -> ab_canon A = true -> ab_clean A = true -> ab A !! x = Some F ->
  value_ok c v -> (dom_prod (c_doms c) <= product_limit c)%Z ->
  (forall i, i < nvars c -> dom c i = 2) -> c_fixed c = None -> fun_eq c F (conj_all (nvars c)) ->
  exists a k w, vars !! x = Some a /\ satisfy_count_work c v a s = Ok (k, w) s /\
    w_nodes w <= nvars c + 2 /\ nvars c * (nvars c - 1) / 2 <= w_product w.
Proof.
  intros c strict opsem args ks s vars A x F v Hc H Hcn Hcl HF Hv Hfit H2 Hfix EP.
  destruct (C60_minimal _ _ _ _ _ _ _ _ _ _ Hc H Hcn Hcl HF) as (a&Gs&Ha&_&EN&HN).
  destruct (history_query _ _ _ _ _ _ _ _ _ _ Hc H HF) as (g&a'&Ha'&C&Hh&EF&Ho&Cl&Cn).
  assert (a' = a) as -> by congruence. rewrite <- Ho in HN. pose proof (calm_perm _ _ _ _ _ C) as P.
  rewrite (dom_prod_order c s (proj1 (cl_ord _ _ _ _ _ C))) in Hfit.
  destruct (satisfy_count_work_ok c opsem strict g s Hc C (Cl Hcl) v a Hfit Hh Hv) as (D&k&ND&HD&Ek'&E).
  destruct (node_count_ok c opsem strict g s C (Cl Hcl) a Hh) as (D'&ND'&HD'&EN').
  exists a, k. eexists. split; [done|]. split; [exact E|]. cbn [w_nodes w_product]. split.
  - assert (length D = length D') as -> by (apply Permutation_length, NoDup_Permutation; try done; intros y; by rewrite HD, HD').
    assert (length D' = length Gs) as -> by (rewrite EN in EN'; assert (Z.of_nat (length Gs) = Z.of_nat (length D')) by congruence; lia).
    rewrite <- conj_size. apply (HN _ _ _ (conj_ordered c _ H2 P F EP)). by apply conj_reach.
  - destruct (conj_chain c opsem strict g s Hc C H2 (Cn Hcn) Hfix (nvars c) a 0) as (K&NK&HK&T); [lia|done|lia| |].
    + intros rho Hr. rewrite <- EF, EP by done. unfold conj_all, all_ones. rewrite drop_0. by rewrite (forallb_perm _ _ _ P).
    + assert (X : forall m, m * (m - 1) / 2 = triangle m).
      { intros m. assert (Y : m * (m - 1) = triangle m * 2).
        { induction m as [|m IH]; [done|]. cbn [triangle]. destruct m as [|m]; [done|]. nia. }
        rewrite Y. by apply Nat.div_mul. }
      rewrite X. etransitivity; [exact T|]. apply list_sum_sub, NoDup_submseteq; [done|]. intros y Hy. apply HD. by apply HK.
Qed.

(** ** A concrete program: six Boolean variables, order x5, ..., x0 *)

Definition cost_cfg : cfg := Cfg [2; 2; 2; 2; 2; 2] None (fun p => N.pos p * 64)%N true false.
Definition cost_args : cargs := CArgs [5; 4; 3; 2; 1; 0]%Z 90 40 20 [7; 7; 7; 7; 7; 7]%Z (fun n => n / 5)%Z (fun n => n)%Z.
Definition bits (k : nat) : list nat := map (fun j => k / 2 ^ j mod 2) (seq 0 6).
Definition parity_vec : list Z := map (fun k => Z.of_nat (list_sum (bits k) mod 2)) (seq 0 64).
Definition conj_vec : list Z := replicate 63 0%Z ++ [1%Z].
Definition cost_prog : list call := [CVec 0 parity_vec; CVec 1 conj_vec; CGc].

Definition cost_run : res vars_t :=
  match new_manager cost_cfg cost_args no_state with Ok _ s => run cost_cfg cost_prog ∅ s | Err e => Err e | Fuel => Fuel end.
Definition cost_vars : vars_t := match cost_run with Ok v _ => v | _ => ∅ end.
Definition cost_st : st := match cost_run with Ok _ s => s | _ => no_state end.
Definition costF0 : asg -> Z := fun rho => nth (vec_index cost_cfg [5; 4; 3; 2; 1; 0] rho) parity_vec 0%Z.
Definition costF1 : asg -> Z := fun rho => nth (vec_index cost_cfg [5; 4; 3; 2; 1; 0] rho) conj_vec 0%Z.
Definition cost_abs : astate := bindf 1 costF1 (bindf 0 costF0 (no_objects cost_args)).

Lemma cost_two i : i < nvars cost_cfg -> dom cost_cfg i = 2.
Proof. intros Hi. do 6 (destruct i as [|i]; [done|]). vm_compute in Hi. lia. Qed.

Lemma cost_wf : wf_cfg cost_cfg.
Proof.
  constructor.
  - intros i Hi. rewrite cost_two by done. lia.
  - done.
  - intros i Hi. do 6 (destruct i as [|i]; [by vm_compute|]). vm_compute in Hi. lia.
Qed.

Lemma cost_args_ok strict : cargs_ok cost_cfg strict cost_args.
Proof.
  constructor; try done.
  - unfold is_order, cost_args. simpl. symmetry. apply (Permutation_rev [0; 1; 2; 3; 4; 5]%Z).
  - intros _. split; [done|]. intros n Hn. simpl in Hn. simpl. apply Z.div_le_lower_bound; lia.
Qed.

Lemma cost_tval v : (v = 0 \/ v = 1)%Z -> tval cost_cfg v.
Proof. intros H. left. split; [change Nondet with 2147483646%Z; lia|done]. Qed.

Lemma cost_vec_ok l : forallb (fun v => (v =? 0)%Z || (v =? 1)%Z) l = true -> Forall (tval cost_cfg) l.
Proof.
  rewrite forallb_forall. intros H. apply Forall_forall. intros v Hv. apply elem_of_list_In, H in Hv. apply cost_tval.
  apply orb_true_iff in Hv. rewrite !Z.eqb_eq in Hv. done.
Qed.

Lemma cost_chain : chain cost_cfg ex_ops true cost_prog (no_objects cost_args) cost_abs.
Proof.
  unfold cost_prog.
  apply (Ch_cons _ _ _ _ _ _ (bindf 0 costF0 (no_objects cost_args))).
  { intros s; apply S_vec; [by vm_compute|]. apply cost_vec_ok. by vm_compute. }
  apply (Ch_cons _ _ _ _ _ _ cost_abs).
  { intros s; apply S_vec; [by vm_compute|]. apply cost_vec_ok. by vm_compute. }
  eapply Ch_cons; [intros s; apply S_gc|]. constructor.
Qed.

Lemma cost_history : history cost_cfg ex_ops true cost_args cost_prog cost_st cost_vars cost_abs.
Proof.
  destruct (new_manager cost_cfg cost_args no_state) as [[] s| |] eqn:E; [|by vm_compute in E..].
  eapply chain_new; [apply cost_args_ok|exact E|apply cost_chain|].
  unfold cost_vars, cost_st, cost_run. rewrite E.
  destruct (run cost_cfg cost_prog ∅ s) as [v s'| |] eqn:R; [done| |];
    assert (X : match cost_run with Ok _ _ => true | _ => false end = true) by (by vm_compute);
    unfold cost_run in X; by rewrite E, R in X.
Qed.

Ltac cost_values rho Hv :=
  pose proof (Hv 0 ltac:(vm_compute; lia)); pose proof (Hv 1 ltac:(vm_compute; lia)); pose proof (Hv 2 ltac:(vm_compute; lia));
  pose proof (Hv 3 ltac:(vm_compute; lia)); pose proof (Hv 4 ltac:(vm_compute; lia)); pose proof (Hv 5 ltac:(vm_compute; lia));
  rewrite cost_two in * by (vm_compute; lia);
  destruct (rho 0) as [|[|?]] eqn:?; try lia; destruct (rho 1) as [|[|?]] eqn:?; try lia;
  destruct (rho 2) as [|[|?]] eqn:?; try lia; destruct (rho 3) as [|[|?]] eqn:?; try lia;
  destruct (rho 4) as [|[|?]] eqn:?; try lia; destruct (rho 5) as [|[|?]] eqn:?; try lia.

Lemma cost_parity : fun_eq cost_cfg costF0 (parity 6).
Proof.
  intros rho Hv. unfold costF0, parity, vec_index. simpl. cost_values rho Hv; by vm_compute.
Qed.
Lemma cost_conj : fun_eq cost_cfg costF1 (conj_all 6).
Proof.
  intros rho Hv. unfold costF1, conj_all, vec_index. simpl. cost_values rho Hv; by vm_compute.
Qed.

(** at most 13 nodes and 127 calls; one operation for every node; 15 steps of domain_product *)
Example C70_parity_case : exists a N vals vals', cost_vars !! 0 = Some a /\ diagram_node_count cost_cfg a cost_st = Ok (Z.of_nat N) cost_st /\
  N <= 13 /\ satisfy_one_calls (depth cost_cfg) 2 (replicate 6 0) a cost_st = Ok (vals, false, 127) cost_st /\
  satisfy_all_calls cost_cfg (depth cost_cfg) 2 0 (replicate 6 0, []) a cost_st = Ok (vals', [], 127) cost_st.
Proof.
  destruct (C70_satisfy_one_exponential _ _ _ _ _ _ _ _ 0 costF0 2%Z cost_wf cost_history eq_refl eq_refl eq_refl cost_two cost_parity
    ltac:(done) ltac:(done)) as (a&N&vals&Ha&EN&HN&E).
  destruct (C70_satisfy_all_exponential _ _ _ _ _ _ _ _ 0 costF0 2%Z cost_wf cost_history eq_refl eq_refl eq_refl cost_two cost_parity
    ltac:(done) ltac:(done)) as (a'&N'&vals'&Ha'&EN'&HN'&E').
  exists a, N, vals, vals'. split; [exact Ha|]. split; [exact EN|]. split; [exact HN|]. split; [exact E|].
  rewrite Ha in Ha'. replace a with a' by congruence. exact E'.
Qed.

Example C70_boolean_case : exists a vals b k, cost_vars !! 0 = Some a /\
  satisfy_one_calls (depth cost_cfg) 1 (replicate 6 0) a cost_st = Ok (vals, b, k) cost_st /\ k <= 13.
Proof.
  destruct (C70_satisfy_one_boolean _ _ _ _ _ _ _ _ 0 costF0 1%Z cost_wf cost_history eq_refl eq_refl) as (a&vals&b&k&Ha&E&Hk).
  - intros rho Hv. rewrite cost_parity by done. unfold parity.
    pose proof (Nat.mod_upper_bound (list_sum (map rho (seq 0 6))) 2 ltac:(done)). lia.
  - by right.
  - exists a, vals, b, k. split; [exact Ha|]. split; [exact E|exact Hk].
Qed.

Example C70_count_case : exists a k w, cost_vars !! 1 = Some a /\ satisfy_count_work cost_cfg 1 a cost_st = Ok (k, w) cost_st /\
  w_nodes w <= 8 /\ 15 <= w_product w.
Proof.
  exact (C70_satisfy_count_quadratic _ _ _ _ _ _ _ _ 1 costF1 1%Z cost_wf cost_history eq_refl eq_refl eq_refl I
    ltac:(by vm_compute) cost_two eq_refl cost_conj).
Qed.

Example C70_evaluate_case : exists a k, cost_vars !! 0 = Some a /\
  evaluate_steps cost_cfg 7 [1; 0; 1; 1; 0; 0] a cost_st = Ok (1%Z, k) cost_st /\ k <= 7.
Proof.
  apply (C70_evaluate _ _ _ _ _ _ _ _ 0 costF0 [1; 0; 1; 1; 0; 0] cost_wf cost_history eq_refl).
  split; [done|]. intros i Hi. rewrite cost_two by done. do 6 (destruct i as [|i]; [vm_compute; lia|]). vm_compute in Hi. lia.
Qed.

Print Assumptions C70_evaluate.
Print Assumptions C70_satisfy_one_boolean.
Print Assumptions C70_satisfy_one_exponential.
Print Assumptions C70_satisfy_all_exponential.
Print Assumptions C70_satisfy_count.
Print Assumptions C70_satisfy_count_quadratic.
