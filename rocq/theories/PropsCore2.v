(** * Further properties of program histories *)

From stdpp Require Import gmap list.
From Coq Require Import ZArith Lia.
From Verif Require Import Base Ops Tables NodeManager Tools Sift DiagramManager World.
From Verif Require Import Heap Inv InvLemmas Prim GC Make Build Apply Api Constr Expr VecSpec Vec Eval Fold.
From Verif Require Import OpSpec OpProof WorldSpec WorldProof Ctor History PropsBase Chain PropsBase2 PropsCore Examples.

Local Open Scope nat_scope.
Local Opaque exec run new_manager.

(** ** C16 *)
Theorem C16_left_fold : forall c strict b p m args ks s vars A d o x xs F Fs V vars' s',
  wf_cfg c -> history c (ops_with b p m) strict args ks s vars A -> ab_cache A = true ->
  op_allowed b p m (plain_op c o) -> (c_trap c = true -> op_arith o = false) ->
  funs A (x :: xs) (F :: Fs) -> op_closed c o V ->
  (forall y G, y ∈ x :: xs -> ab A !! y = Some G -> forall rho, valid c rho -> V (G rho)) ->
  exec c (CLeft d o (x :: xs)) vars s = Ok vars' s' ->
  exists a, vars' !! d = Some a /\
    computes c s' a (fun rho => fold_left (op_math o) (map (fun G => G rho) Fs) (F rho)).
Proof.
  intros c strict b p m args ks s vars A d o x xs F Fs V vars' s' Hc H Hca Hop Ht HF HV Hin E.
  assert (Hall : forall rho, valid c rho -> Forall V (map (fun G => G rho) (F :: Fs))) by (by eapply funs_in).
  destruct (call_value c strict (ops_with b p m) args ks s vars A (CLeft d o (x :: xs))
    (bindf d (fun rho => fold_left (op_fun (apply_op c o)) (map (fun G => G rho) Fs) (F rho)) A) s' vars' d
    (fun rho => fold_left (op_fun (apply_op c o)) (map (fun G => G rho) Fs) (F rho)) Hc H) as (a&Hd&W); [|done| |].
  - apply S_left; try done; [by apply op_allowed_known|]. intros rho Hv.
    specialize (Hall rho Hv). inversion Hall; subst. by eapply closed_fold_good.
  - simpl. by rewrite lookup_insert.
  - exists a. split; [done|]. eapply computes_ext; [|exact W]. intros rho Hv. cbn beta.
    specialize (Hall rho Hv). inversion Hall; subst. apply (fold_on V); try done.
    + intros y z Hy Hz. apply op_applicable_fun. by apply HV.
    + intros y z Hy Hz. by apply HV.
Qed.

(** sums modulo 4 of ternary and other values *)
Lemma ex_closed : op_closed ex_cfg (PLUS 4) (fun x => 0 <= x < 8)%Z.
Proof.
  intros x y Hx Hy. pose proof (Z.mod_pos_bound (x + y) 4 ltac:(lia)).
  split; [split; [|apply ex_tval; simpl; lia]|simpl; lia].
  simpl. unfold ordinary. change Nondet with 2147483646%Z. lia.
Qed.

Lemma ex_in y G : y ∈ [4; 6; 0] -> ab ex_abs !! y = Some G -> forall rho, valid ex_cfg rho -> (0 <= G rho < 8)%Z.
Proof.
  intros Hy HG rho Hv. rewrite !elem_of_cons in Hy. destruct Hy as [-> | [-> | [-> | Hy]]]; [| | |by apply elem_of_nil in Hy].
  - change (Some exF4 = Some G) in HG. injection HG as <-. pose proof (exF4_range rho Hv). lia.
  - change (Some exF6 = Some G) in HG. injection HG as <-. apply exF6_range.
  - change (Some (exV 0) = Some G) in HG. injection HG as <-. unfold exV. apply ex_valid in Hv. lia.
Qed.

Example C16_left_case : exists v s a, exec ex_cfg (CLeft 9 (PLUS 4) [4; 6; 0]) ex_vars ex_st = Ok v s /\ v !! 9 = Some a /\
  computes ex_cfg s a (fun rho => ((exF4 rho + exF6 rho) mod 4 + exV 0 rho) mod 4)%Z.
Proof.
  destruct (ex_call (CLeft 9 (PLUS 4) [4; 6; 0])) as (v&s&E); [by vm_compute|].
  destruct (C16_left_fold ex_cfg true 2 4 3 ex_args ex_prog ex_st ex_vars ex_abs 9 (PLUS 4) 4 [6; 0] exF4 [exF6; exV 0]
    (fun x => 0 <= x < 8)%Z v s ex_wf ex_history) as (a&Ha&V);
    [reflexivity|reflexivity|discriminate|repeat constructor|apply ex_closed|apply ex_in|exact E|ex3 v s a].
Qed.


Theorem C16_tree_fold : forall c strict b p m args ks s vars A d o x xs F Fs V vars' s',
  wf_cfg c -> history c (ops_with b p m) strict args ks s vars A -> ab_cache A = true ->
  op_allowed b p m (plain_op c o) -> (c_trap c = true -> op_arith o = false) ->
  NoDup (x :: xs) -> funs A (x :: xs) (F :: Fs) -> op_closed c o V ->
  (forall y G, y ∈ x :: xs -> ab A !! y = Some G -> forall rho, valid c rho -> V (G rho)) ->
  exec c (CTree d o (x :: xs)) vars s = Ok vars' s' ->
  exists a, vars' !! d = Some a /\
    (computes c s' a (fun rho => default 0%Z (balanced (op_math o) (F rho :: map (fun G => G rho) Fs)))) /\
    ((forall u v w, V u -> V v -> V w -> op_math o (op_math o u v) w = op_math o u (op_math o v w)) ->
     computes c s' a (fun rho => fold_left (op_math o) (map (fun G => G rho) Fs) (F rho))).
Proof.
  intros c strict b p m args ks s vars A d o x xs F Fs V vars' s' Hc H Hca Hop Ht Hnd HF HV Hin E.
  assert (Hall : forall rho, valid c rho -> Forall V (map (fun G => G rho) (F :: Fs))) by (by eapply funs_in).
  set (R := fun rho => default 0%Z (balanced (op_fun (apply_op c o)) (map (fun G => G rho) (F :: Fs)))).
  destruct (call_value c strict (ops_with b p m) args ks s vars A (CTree d o (x :: xs))
    (bindf d R (set_ab (del_list (x :: xs) (ab A)) A)) s' vars' d R Hc H) as (a&Hd&W); [|done| |].
  - apply S_tree; try done; [by apply op_allowed_known|]. intros rho Hv.
    eapply closed_rounds_good; [done|done|]. by apply Hall.
  - simpl. by rewrite lookup_insert.
  - assert (W' : computes c s' a (fun rho => default 0%Z (balanced (op_math o) (F rho :: map (fun G => G rho) Fs)))).
    { eapply computes_ext; [|exact W]. intros rho Hv. unfold R. rewrite (balanced_on V _ (op_math o)); [done| | |by apply Hall].
      + intros y z Hy Hz. apply op_applicable_fun. by apply HV.
      + intros y z Hy Hz. by apply HV. }
    exists a. split_and!; [done|done|]. intros Has. eapply computes_ext; [|exact W']. intros rho Hv. cbn beta.
    specialize (Hall rho Hv). inversion Hall; subst.
    rewrite (balanced_assoc_on V (op_math o)); try done. intros y z Hy Hz. by apply HV.
Qed.

Example C16_tree_case : exists v s a, exec ex_cfg (CTree 9 (PLUS 4) [4; 6; 0]) ex_vars ex_st = Ok v s /\ v !! 9 = Some a /\
  computes ex_cfg s a (fun rho => ((exF4 rho + exF6 rho) mod 4 + exV 0 rho) mod 4)%Z.
Proof.
  destruct (ex_call (CTree 9 (PLUS 4) [4; 6; 0])) as (v&s&E); [by vm_compute|].
  destruct (C16_tree_fold ex_cfg true 2 4 3 ex_args ex_prog ex_st ex_vars ex_abs 9 (PLUS 4) 4 [6; 0] exF4 [exF6; exV 0]
    (fun x => 0 <= x < 8)%Z v s ex_wf ex_history) as (a&Ha&_&V);
    [reflexivity|reflexivity|discriminate|clear; repeat constructor; set_solver|repeat constructor|apply ex_closed|apply ex_in|exact E|].
  exists v, s, a. split; [exact E|]. split; [exact Ha|]. apply V. intros x y w _ _ _. simpl.
  rewrite Zplus_mod_idemp_l, Zplus_mod_idemp_r. f_equal. lia.
Qed.


(** ** C06 *)

Theorem C06_evaluate : forall c strict opsem args ks s vars A d a,
  wf_cfg c -> history c opsem strict args ks s vars A -> vars !! d = Some a ->
  (forall vals, vals_ok c vals -> exists v t, evaluate c a vals s = Ok v s /\
     reach (live (s_heap s)) a t /\ live (s_heap s) t = Some (Term v)) /\
  (forall vals vals', vals_ok c vals -> vals_ok c vals' ->
     (forall i, occurs s a i -> vals !! i = vals' !! i) -> evaluate c a vals s = evaluate c a vals' s).
Proof.
  intros c strict opsem args ks s vars A d a Hc H Ha. destruct (history_winv _ _ _ _ _ _ _ _ Hc H) as [g W].
  pose proof (wi_pos _ _ _ _ _ _ _ _ _ W Ha) as P. pose proof (wi_calm _ _ _ _ _ _ _ W) as C.
  assert (X : forall vals, vals_ok c vals -> exists v, evaluate c a vals s = Ok v s /\ Ev (live (s_heap s)) a (of_vals vals) v).
  { intros vals Hv. pose proof (evaluate_spec c opsem strict (fun _ => False) g s vals a C Hv P) as E. unfold wp in E.
    destruct (evaluate c a vals s) as [v s'| |]; try done. destruct E as [-> E]. eauto. }
  split.
  - intros vals Hv. destruct (X vals Hv) as (v&E&Ev1). destruct (Ev_terminal _ _ _ _ Ev1) as (t&?&?). eauto 10.
  - intros vals vals' Hv Hv' Hag. destruct (X vals Hv) as (v&E&Ev1). destruct (X vals' Hv') as (v'&E'&Ev2).
    rewrite E, E'. f_equal. eapply Ev_det; [|exact Ev2]. eapply Ev_vars; [|exact Ev1].
    intros b i sons Hr L. unfold of_vals. rewrite !nth_lookup, (Hag i); [done|]. by exists b, sons.
Qed.

(** object 5 does not mention x1 *)
Example C06_case : exists a, ex_vars !! 5 = Some a /\
  evaluate ex_cfg a [1; 0; 1] ex_st = evaluate ex_cfg a [1; 2; 1] ex_st /\
  evaluate ex_cfg a [1; 0; 1] ex_st = Ok 1%Z ex_st.
Proof.
  destruct (history_value _ _ _ _ _ _ _ _ 5 exF5 ex_wf ex_history eq_refl) as (a&Ha&V). exists a. split; [exact Ha|].
  assert (H1 : vals_ok ex_cfg [1; 0; 1]).
  { split; [done|]. intros i Hi. do 3 (destruct i as [|i]; [vm_compute; lia|]). vm_compute in Hi. lia. }
  assert (H2 : vals_ok ex_cfg [1; 2; 1]).
  { split; [done|]. intros i Hi. do 3 (destruct i as [|i]; [vm_compute; lia|]). vm_compute in Hi. lia. }
  rewrite (V _ H1), (V _ H2). split; reflexivity.
Qed.


(** ** C08 *)
Theorem C08_to_vector : forall c strict opsem args ks s vars A d a,
  wf_cfg c -> history c opsem strict args ks s vars A -> vars !! d = Some a ->
  exists vs, to_vector c a s = Ok vs s /\ length vs = prodl c (ab_order A) /\
    forall vals, vals_ok c vals -> exists v, vs !! vec_index c (ab_order A) (of_vals vals) = Some v /\
      evaluate c a vals s = Ok v s.
Proof.
  intros c strict opsem args ks s vars A d a Hc H Ha. destruct (history_winv _ _ _ _ _ _ _ _ Hc H) as [g W].
  pose proof (wi_pos _ _ _ _ _ _ _ _ _ W Ha) as P. pose proof (wi_calm _ _ _ _ _ _ _ W) as C.
  pose proof (to_vector_spec c opsem strict (fun _ => False) g s a Hc C P) as T. unfold wp in T.
  destruct (to_vector c a s) as [vs s'| |]; try done. destruct T as [-> [L T]].
  rewrite (wi_order _ _ _ _ _ _ _ W) in *. exists vs. split_and!; [done|done|]. intros vals Hv.
  pose proof (evaluate_spec c opsem strict (fun _ => False) g s vals a C Hv P) as E. unfold wp in E.
  destruct (evaluate c a vals s) as [v s'| |]; try done. destruct E as [-> E]. exists v. split; [|done].
  apply T; [apply Hv|done].
Qed.

Example C08_case : exists a, ex_vars !! 6 = Some a /\ to_vector ex_cfg a ex_st = Ok ex_vec ex_st.
Proof.
  destruct (history_value _ _ _ _ _ _ _ _ 6 exF6 ex_wf ex_history eq_refl) as (a&Ha&V). exists a. split; [exact Ha|].
  destruct (C08_to_vector ex_cfg true ex_ops ex_args ex_prog ex_st ex_vars ex_abs 6 a ex_wf ex_history Ha) as (vs&E&L&Hvs).
  rewrite E. f_equal.
  assert (X : match ex_vars !! 6 with Some a => match to_vector ex_cfg a ex_st with Ok vs _ => vs | _ => [] end | None => [] end = ex_vec)
    by (by vm_compute).
  by rewrite Ha, E in X.
Qed.


Theorem C08_round_trip_diagram : forall c strict opsem args ks s vars A x a e vs v1 s1,
  wf_cfg c -> history c opsem strict args ks s vars A -> ab_canon A = true -> x <> e ->
  vars !! x = Some a -> to_vector c a s = Ok vs s -> is_Some (ab A !! x) ->
  exec c (CVec e vs) vars s = Ok v1 s1 -> equals v1 e x = true.
Proof.
  intros c strict opsem args ks s vars A x a e vs v1 s1 Hc H Hcn Hne Ha T [F HF] E.
  destruct (C08_to_vector _ _ _ _ _ _ _ _ _ _ Hc H Ha) as (vs'&T'&L&Hvs). rewrite T in T'. injection T' as <-.
  destruct (history_value _ _ _ _ _ _ _ _ _ _ Hc H HF) as (a0&Ha0&VF). simplify_eq.
  assert (Hnth : forall rho, valid c rho -> nth (vec_index c (ab_order A) rho) vs 0%Z = F rho).
  { intros rho Hv. destruct (vals_of c rho Hv) as [Ho Eo]. destruct (Hvs _ Ho) as (v&Hk&Ev1).
    rewrite (VF _ Ho) in Ev1. injection Ev1 as <-. destruct (history_order c strict _ _ _ _ _ _ Hc H) as [ND Hel].
    rewrite (vec_index_ext c (ab_order A) _ rho) in Hk by (intros i Hi; apply Eo; by apply Hel).
    rewrite (nth_lookup_Some _ _ _ _ Hk). symmetry.
    eapply (history_ext c opsem strict args ks s vars A x F); try done. intros i Hi. symmetry. by apply Eo. }
  assert (H1 : history c opsem strict args (ks ++ [CVec e vs]) s1 v1
    (bindf e (fun rho => nth (vec_index c (ab_order A) rho) vs 0%Z) A)).
  { econstructor; [exact H| |exact E]. constructor; [done|]. apply Forall_lookup. intros k v Hk.
    destruct (position_vals c strict _ _ _ _ _ _ k Hc H) as (vals&Hv&Ek); [rewrite <- L; by eapply lookup_lt_Some|].
    destruct (Hvs vals Hv) as (v'&Hk'&Ev1). rewrite Ek in Hk'. simplify_eq.
    rewrite (VF vals Hv) in Ev1. injection Ev1 as <-. eapply history_tval; [done|exact H|exact HF|apply Hv]. }
  destruct (history_value c opsem strict args _ s1 v1 _ e (fun rho => nth (vec_index c (ab_order A) rho) vs 0%Z) Hc H1) as (a1&Ha1&V1); [simpl; by rewrite lookup_insert|].
  destruct (history_value c opsem strict args _ s1 v1 _ x F Hc H1) as (b&Hb&Vb); [simpl; by rewrite lookup_insert_ne|].
  eapply (history_equals c opsem strict args _ s1 v1 _ e x a1 b Hc H1); try done.
  intros vals Hv. rewrite (V1 vals Hv), (Vb vals Hv). f_equal. apply Hnth, Hv.
Qed.

Example C08_diagram_case : exists v s, exec ex_cfg (CVec 9 ex_vec) ex_vars ex_st = Ok v s /\ equals v 9 6 = true.
Proof.
  destruct C08_case as (a&Ha&T). destruct (ex_call (CVec 9 ex_vec)) as (v&s&E); [by vm_compute|].
  exists v, s. split; [exact E|].
  apply (C08_round_trip_diagram ex_cfg true ex_ops ex_args ex_prog ex_st ex_vars ex_abs 6 a 9 ex_vec v s ex_wf ex_history);
    [reflexivity|lia|exact Ha|exact T|eexists; reflexivity|exact E].
Qed.


Theorem C08_round_trip_vector : forall c strict opsem args ks s vars A d vs v1 s1,
  wf_cfg c -> history c opsem strict args ks s vars A ->
  length vs = prodl c (ab_order A) -> Forall (tval c) vs ->
  exec c (CVec d vs) vars s = Ok v1 s1 ->
  exists a, v1 !! d = Some a /\ to_vector c a s1 = Ok vs s1.
Proof.
  intros c strict opsem args ks s vars A d vs v1 s1 Hc H L T E.
  set (F := fun rho => nth (vec_index c (ab_order A) rho) vs 0%Z).
  assert (H1 : history c opsem strict args (ks ++ [CVec d vs]) s1 v1 (bindf d F A)).
  { econstructor; [exact H| |exact E]. by constructor. }
  destruct (history_value c opsem strict args _ s1 v1 _ d F Hc H1) as (a&Ha&V); [simpl; by rewrite lookup_insert|].
  exists a. split; [done|]. destruct (C08_to_vector _ _ _ _ _ _ _ _ _ _ Hc H1 Ha) as (ws&Tw&Lw&Hws).
  rewrite Tw. f_equal. simpl ab_order in *. apply list_eq. intros k.
  destruct (decide (k < prodl c (ab_order A))) as [Hk|Hk].
  - destruct (position_vals c strict _ _ _ _ _ _ k Hc H Hk) as (vals&Hv&Ek). destruct (Hws vals Hv) as (w&Hw&Ev1).
    rewrite (V vals Hv) in Ev1. injection Ev1 as <-. rewrite Ek in Hw. rewrite Hw. unfold F. rewrite Ek.
    symmetry. destruct (nth_lookup_or_length vs k 0%Z); [done|lia].
  - rewrite !lookup_ge_None_2 by lia. done.
Qed.

Example C08_vector_case : exists v s a, exec ex_cfg (CVec 9 (rev ex_vec)) ex_vars ex_st = Ok v s /\ v !! 9 = Some a /\
  to_vector ex_cfg a s = Ok (rev ex_vec) s.
Proof.
  destruct (ex_call (CVec 9 (rev ex_vec))) as (v&s&E); [by vm_compute|].
  destruct (C08_round_trip_vector ex_cfg true ex_ops ex_args ex_prog ex_st ex_vars ex_abs 9 (rev ex_vec) v s ex_wf ex_history)
    as (a&Ha&T); [by vm_compute| |exact E|ex3 v s a].
  clear. unfold ex_vec. simpl. repeat (constructor; [apply ex_tval; lia|]). constructor.
Qed.


(** ** C23 *)
Theorem C23_order_permutation : forall c strict opsem args ks s vars A,
  wf_cfg c -> history c opsem strict args ks s vars A ->
  s_l2i s = ab_order A /\ Permutation (s_l2i s) (seq 0 (nvars c)) /\
  length (s_i2l s) = nvars c /\
  forall l i, s_l2i s !! l = Some i <-> s_i2l s !! i = Some l.
Proof.
  intros c strict opsem args ks s vars A Hc H. destruct (history_winv _ _ _ _ _ _ _ _ Hc H) as [g W].
  pose proof (ord_perm _ _ _ (cl_ord _ _ _ _ _ (wi_calm _ _ _ _ _ _ _ W))) as P.
  split_and!; [by apply W| |apply P|apply P].
  apply NoDup_Permutation; [by eapply perm_l2i_NoDup|apply NoDup_seq|].
  intros i. rewrite (perm_elem c s i P), elem_of_seq. lia.
Qed.

Example C23_case : s_l2i ex_st = [2; 0; 1] /\ s_i2l ex_st = [1; 2; 0].
Proof. by vm_compute. Qed.


(** ** C27 *)

(** in every state satisfying the invariant, which all intermediate states of
    all calls do, a created node is a cell that was not in use *)
Theorem C27_fresh_cell : forall c strict opsem g s b a s',
  WF c opsem strict g s -> create_node b s = Ok a s' -> live (s_heap s) a = None.
Proof.
  intros c strict opsem g s b a s' W H. unfold create_node in H. destruct (pool_create (s_pool s)) as [[a0 p]|] eqn:E; [|done].
  simplify_eq. destruct (wf_pool _ _ _ _ _ W). unfold pool_create in E.
  destruct (p_avail (s_pool s) <=? 0)%Z; [done|]. unfold live.
  destruct (p_free (s_pool s)) as [|f fr] eqn:Ef.
  - destruct (p_left (s_pool s)); [done|]. simplify_eq.
    destruct (s_heap s !! p_next (s_pool s)) as [n|] eqn:En; [|done]. apply po_next in En. lia.
  - simplify_eq. destruct (po_free a) as (n&Hn&U); [set_solver|]. by rewrite Hn, U.
Qed.

Example C27_case : exists g a s', WF ex_cfg ex_ops true g ex_st /\ create_node (Term 42) ex_st = Ok a s'.
Proof.
  destruct (history_winv _ _ _ _ _ _ _ _ ex_wf ex_history) as [g W]. exists g.
  destruct (ok_ex (create_node (Term 42) ex_st)) as (a&s'&E); [by vm_compute|]. exists a, s'.
  split; [apply (cl_wf _ _ _ _ _ (wi_calm _ _ _ _ _ _ _ W))|exact E].
Qed.


Theorem C27_pool_never_exhausted : forall c opsem args ks s vars A k A',
  wf_cfg c -> history c opsem true args ks s vars A -> spec c opsem true s k A A' ->
  match exec c k vars s with Ok _ _ => True | Err e => e = ERefOver | Fuel => False end.
Proof.
  intros c opsem args ks s vars A k A' Hc H S. pose proof (history_safe c opsem true args ks s vars A k A' Hc H S) as X.
  destruct (exec c k vars s); try done. by destruct X as [?|[? _]].
Qed.

(** a manager with room for one node in either pool: the pool grows as needed *)
Definition ex_tiny : cargs := CArgs [2; 0; 1]%Z 1 1 1 [1; 1; 1]%Z (fun n => n)%Z (fun n => n)%Z.

Example C27_tiny_case : cargs_ok ex_cfg true ex_tiny /\
  match new_manager ex_cfg ex_tiny no_state with Ok _ s => is_ok (run ex_cfg ex_prog ∅ s) | _ => false end = true.
Proof.
  split; [|by vm_compute]. constructor; try done.
  - unfold is_order, ex_tiny. simpl. apply (Permutation_cons_append [0; 1]%Z 2%Z).
Qed.


(** ** C31 *)
Theorem C31_references_balance : forall c strict opsem args ks s vars A,
  wf_cfg c -> history c opsem strict args ks s vars A ->
  (forall d a, vars !! d = Some a -> live (s_heap s) a <> None) /\
  (forall a n, s_heap s !! a = Some n -> n_used n = true ->
     N.to_nat (n_refs n) =
       length (List.filter (fun q => bool_decide (snd q = a)) (map_to_list vars)) + edges [] (s_heap s) a).
Proof.
  intros c strict opsem args ks s vars A Hc H. destruct (history_winv _ _ _ _ _ _ _ _ Hc H) as [g W].
  pose proof (wi_calm _ _ _ _ _ _ _ W) as C. pose proof (cl_wf _ _ _ _ _ C) as WF0.
  destruct (cl_quiet _ _ _ _ _ C) as [Hdy _]. split.
  - intros d a Ha. apply (wf_ext _ _ _ _ _ WF0). by eapply wi_pos.
  - intros a n Hn U. rewrite (wf_refs _ _ _ _ _ WF0 a n Hn U) by (rewrite Hdy; set_solver).
    rewrite Hdy, (wi_ext _ _ _ _ _ _ _ W). f_equal. unfold hcount, map_fold. simpl.
    induction (map_to_list vars) as [|[d b] l IH]; simpl; [done|]. rewrite IH.
    destruct (decide (b = a)); case_bool_decide; simpl; try done.
Qed.

(** the root of objects 6 and 7 is counted twice and nothing points to it *)
Example C31_case : match ex_vars !! 6 with
  | Some a => match s_heap ex_st !! a with
              | Some n => (n_refs n =? 2)%N && (edges [] (s_heap ex_st) a =? 0)
              | None => false end
  | None => false end = true.
Proof. by vm_compute. Qed.


(** assigning an object to itself changes no object *)
Theorem C31_self_assignment : forall c strict opsem args ks s vars A d F vars' s',
  wf_cfg c -> history c opsem strict args ks s vars A -> ab A !! d = Some F ->
  exec c (CCopy d d) vars s = Ok vars' s' ->
  forall x G, ab A !! x = Some G -> exists a, vars' !! x = Some a /\ computes c s' a G.
Proof.
  intros c strict opsem args ks s vars A d F vars' s' Hc H HF E x G HG.
  assert (H1 : history c opsem strict args (ks ++ [CCopy d d]) s' vars' (bindf d F A)).
  { econstructor; [exact H| |exact E]. by constructor. }
  eapply (history_value c opsem strict args _ s' vars' _ x G Hc H1). simpl.
  destruct (decide (x = d)) as [->|]; [rewrite lookup_insert; congruence|by rewrite lookup_insert_ne].
Qed.

Example C31_self_case : exists v s a, exec ex_cfg (CCopy 4 4) ex_vars ex_st = Ok v s /\ v !! 4 = Some a /\ computes ex_cfg s a exF4.
Proof.
  destruct (ex_call (CCopy 4 4)) as (v&s&E); [by vm_compute|].
  destruct (C31_self_assignment ex_cfg true ex_ops ex_args ex_prog ex_st ex_vars ex_abs 4 exF4 v s ex_wf ex_history) with (x := 4) (G := exF4)
    as (a&Ha&V); [reflexivity|exact E|reflexivity|ex3 v s a].
Qed.


(** ** C52 *)
Theorem C52_constructor_accepts : forall c p s0, is_order (nvars c) (ca_order p) ->
  exists s, new_manager c p s0 = Ok tt s /\ s_l2i s = map Z.to_nat (ca_order p) /\
    length (s_i2l s) = nvars c /\ forall l i, s_l2i s !! l = Some i <-> s_i2l s !! i = Some l.
Proof.
  intros c p s0 P. destruct (construct_ok c (ca_order p) (ca_main p) (ca_extra p) (ca_cache p) (ca_caps p)
    (ca_gcthr p) (ca_cratio p) s0 P) as (i2l&E&L&I). eexists. split; [exact E|]. simpl. done.
Qed.

Example C52_accepts_case : is_order (nvars ex_cfg) [2; 0; 1]%Z.
Proof. apply (Permutation_cons_append [0; 1]%Z 2%Z). Qed.


Theorem C52_constructor_rejects : forall c p s0 s, c_dbg c = true ->
  new_manager c p s0 = Ok tt s -> is_order (nvars c) (ca_order p).
Proof. intros c p s0 s Hd H. exact (construct_only c _ _ _ _ _ _ _ _ _ Hd H). Qed.

Example C52_rejects_case : c_dbg ex_cfg = true /\ is_ok (new_manager ex_cfg ex_args no_state) = true /\
  is_ok (new_manager ex_cfg (CArgs [2; 0; 2]%Z 60 40 20 [7; 7; 7]%Z (fun n => n / 5)%Z (fun n => n)%Z) no_state) = false.
Proof. by vm_compute. Qed.


Theorem C52_default_order : forall c, is_order (nvars c) (default_or_fwd (nvars c) []).
Proof. intros c. apply default_order. Qed.

(** ** C20, C53 *)

Theorem C53_placement_independent : forall c ptr opsem p1 p2 ks1 ks2 s1 v1 A s0 s s2 v2,
  wf_cfg c -> history c opsem false p1 ks1 s1 v1 A ->
  Forall (fun k => not_reorder k = true) ks1 ->
  cargs_ok c false p2 -> ca_order p2 = ca_order p1 -> essential ks2 = essential ks1 ->
  new_manager (placed ptr c) p2 s0 = Ok tt s -> run (placed ptr c) ks2 ∅ s = Ok v2 s2 ->
  (forall x F, ab A !! x = Some F -> exists a1 a2, v1 !! x = Some a1 /\ v2 !! x = Some a2 /\
     forall vals, vals_ok c vals ->
       evaluate c a1 vals s1 = Ok (F (of_vals vals)) s1 /\
       evaluate (placed ptr c) a2 vals s2 = Ok (F (of_vals vals)) s2) /\
  (forall x y, is_Some (ab A !! x) -> is_Some (ab A !! y) -> equals v1 x y = equals v2 x y).
Proof. intros. by eapply two_runs. Qed.

Definition ex_ptr : positive -> N := fun p => (N.pos p * N.pos p * 40 + 8)%N.
Definition ex_prog2 : list call := CGcRatio (fun n => n) :: CClearCache :: CCacheRatio (fun n => n / 2)%Z :: ex_prog ++ [CGc; CClearCache].

Example C53_case : exists s s2 v2, new_manager (placed ex_ptr ex_cfg) ex_tiny no_state = Ok tt s /\
  run (placed ex_ptr ex_cfg) ex_prog2 ∅ s = Ok v2 s2 /\ essential ex_prog2 = essential ex_prog /\
  Forall (fun k => not_reorder k = true) ex_prog /\ ca_order ex_tiny = ca_order ex_args.
Proof.
  destruct (ok_ex (new_manager (placed ex_ptr ex_cfg) ex_tiny no_state)) as ([]&s&E1); [by vm_compute|].
  destruct (ok_ex (run (placed ex_ptr ex_cfg) ex_prog2 ∅ s)) as (v2&s2&E2).
  { assert (X : match new_manager (placed ex_ptr ex_cfg) ex_tiny no_state with
      Ok _ s => is_ok (run (placed ex_ptr ex_cfg) ex_prog2 ∅ s) | _ => false end = true) by (by vm_compute).
    by rewrite E1 in X. }
  exists s, s2, v2. split; [exact E1|]. split; [exact E2|]. split; [reflexivity|].
  split; [|reflexivity]. repeat (constructor; [reflexivity|]). constructor.
Qed.


Theorem C20_cache_transparent : forall c opsem p1 p2 ks1 ks2 s1 v1 A s0 s s2 v2,
  wf_cfg c -> history c opsem false p1 ks1 s1 v1 A ->
  Forall (fun k => not_reorder k = true) ks1 ->
  cargs_ok c false p2 -> ca_order p2 = ca_order p1 -> essential ks2 = essential ks1 ->
  new_manager c p2 s0 = Ok tt s -> run c ks2 ∅ s = Ok v2 s2 ->
  (forall x F, ab A !! x = Some F -> exists a1 a2, v1 !! x = Some a1 /\ v2 !! x = Some a2 /\
     computes c s1 a1 F /\ computes c s2 a2 F) /\
  (forall x y, is_Some (ab A !! x) -> is_Some (ab A !! y) -> equals v1 x y = equals v2 x y).
Proof.
  intros c opsem p1 p2 ks1 ks2 s1 v1 A s0 s s2 v2 Hc H Hr Hp2 Ho Ek Hn Hrun.
  assert (E : placed (c_ptr c) c = c) by by destruct c.
  rewrite <- E in Hn, Hrun. destruct (two_runs c _ _ _ _ _ _ _ _ _ _ _ _ _ Hc H Hr Hp2 Ho Ek Hn Hrun) as [X Y].
  split; [|done]. intros x F HF. destruct (X x F HF) as (a1&a2&Ha1&Ha2&V). rewrite E in V. exists a1, a2.
  split; [done|]. split; [done|]. split; intros vals Hv; by apply V.
Qed.

Example C20_case : exists s s2 v2, new_manager ex_cfg ex_tiny no_state = Ok tt s /\
  run ex_cfg ex_prog2 ∅ s = Ok v2 s2 /\ equals v2 6 7 = equals ex_vars 6 7.
Proof.
  destruct (ok_ex (new_manager ex_cfg ex_tiny no_state)) as ([]&s&E1); [by vm_compute|].
  destruct (ok_ex (run ex_cfg ex_prog2 ∅ s)) as (v2&s2&E2).
  { assert (X : match new_manager ex_cfg ex_tiny no_state with
      Ok _ s => is_ok (run ex_cfg ex_prog2 ∅ s) | _ => false end = true) by (by vm_compute).
    by rewrite E1 in X. }
  exists s, s2, v2. split; [exact E1|]. split; [exact E2|].
  assert (X : match new_manager ex_cfg ex_tiny no_state with
    Ok _ s => match run ex_cfg ex_prog2 ∅ s with Ok v _ => bool_decide (equals v 6 7 = equals ex_vars 6 7) | _ => false end
    | _ => false end = true) by (by vm_compute).
  rewrite E1, E2 in X. by apply bool_decide_eq_true in X.
Qed.

Print Assumptions C16_left_fold.
Print Assumptions C16_tree_fold.
Print Assumptions C06_evaluate.
Print Assumptions C08_to_vector.
Print Assumptions C08_round_trip_diagram.
Print Assumptions C08_round_trip_vector.
Print Assumptions C23_order_permutation.
Print Assumptions C27_fresh_cell.
Print Assumptions C27_pool_never_exhausted.
Print Assumptions C31_references_balance.
Print Assumptions C31_self_assignment.
Print Assumptions C52_constructor_accepts.
Print Assumptions C52_constructor_rejects.
Print Assumptions C52_default_order.
Print Assumptions C53_placement_independent.
Print Assumptions C20_cache_transparent.
