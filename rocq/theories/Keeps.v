(** * Preservation of properties of pool, nodes and sizes by every function

    [kp c I m]: the function [m] preserves [I].  [I] may speak about the pool,
    about the bodies of nodes and whether they are in use, about the node count, the
    threshold of the next adjustment, the cache ratio and the capacity of the cache,
    not about tables, entries of the cache, marks and counts.  The section takes the few places where these change as
    hypotheses and concludes for all calls. *)

From stdpp Require Import gmap list.
From Coq Require Import ZArith Lia.
From Verif Require Import Base Ops Tables NodeManager Tools Sift DiagramManager Reliability World.

Local Open Scope nat_scope.

Definition look (h : gmap positive node) (a : positive) : option (body * bool) :=
  (fun n => (n_body n, n_used n)) <$> h !! a.

(** the same pool and nodes *)
Definition akin (s s' : st) : Prop := s_pool s' = s_pool s /\ forall a, look (s_heap s') a = look (s_heap s) a.

(** the same numbers *)
Definition level_with (s s' : st) : Prop :=
  s_count s' = s_count s /\ s_adj s' = s_adj s /\ s_cratio s' = s_cratio s /\ a_cap (s_cache s') = a_cap (s_cache s).

Definition alike (s s' : st) : Prop := akin s s' /\ level_with s s'.

Lemma remove_unused_cap h ac : a_cap (cache_remove_unused h ac) = a_cap ac.
Proof.
  unfold cache_remove_unused. generalize (imap pair (a_ents ac)) as l. intros l. revert ac.
  induction l as [|[k [e|]] l IH]; intros ac; simpl; [done| |done].
  destruct (ent_used h e); rewrite IH; done.
Qed.

Lemma level_refl s : level_with s s.
Proof. done. Qed.

Section gen.
Context (I : st -> Prop) (HI : forall s s', alike s s' -> I s -> I s').

Definition kept {X} (m : M X) : Prop := forall s x s', m s = Ok x s' -> I s -> I s'.
Notation kp := kept.

Lemma kp_ret {X} (x : X) : kp (ret x).
Proof using. intros s y s' E. by injection E as <- <-. Qed.
Lemma kp_fail {X} e : kp (@fail X e).
Proof using. intros s x s' H. discriminate. Qed.
Lemma kp_nofuel {X} : kp (@nofuel X).
Proof using. intros s x s' H. discriminate. Qed.
Lemma kp_of_opt {X} e (o : option X) : kp (of_opt e o).
Proof using. destruct o; [apply kp_ret|apply kp_fail]. Qed.
Lemma kp_bind {X Y} (m : M X) (k : X -> M Y) : kp m -> (forall x, kp (k x)) -> kp (let* x := m in k x).
Proof using.
  intros Hm Hk s y s' H. unfold bind in H. destruct (m s) as [x s1| |] eqn:E; [|discriminate..]. intros Hs.
  eapply Hk; [exact H|]. by eapply Hm.
Qed.
Lemma kp_gets {X} (f : st -> X) : kp (gets f).
Proof using. intros s x s' E. by injection E as <- <-. Qed.
Lemma kp_read {X} e (f : st -> option X) : kp (fun s => of_opt e (f s) s).
Proof using. intros s x s' E. by apply (kp_of_opt e (f s) s x s'). Qed.
Lemma kp_modify f : (forall s, s_pool (f s) = s_pool s) -> (forall s, s_heap (f s) = s_heap s) -> (forall s, level_with s (f s)) -> kp (modify f).
Proof using HI. intros E1 E2 E3 s x s' E. injection E as <- <-. apply HI. split; [split; [done|]|done]. intros a. by rewrite E2. Qed.
Lemma kp_mapM_ {X} (f : X -> M unit) l : (forall x, kp (f x)) -> kp (mapM_ f l).
Proof using. intros H. induction l; simpl; [apply kp_ret|]. by apply kp_bind. Qed.
Lemma kp_mapM {X Y} (f : X -> M Y) l : (forall x, kp (f x)) -> kp (mapM f l).
Proof using. intros H. induction l; simpl; [apply kp_ret|]. apply kp_bind; [done|intros ?]. apply kp_bind; [done|intros ?]. apply kp_ret. Qed.
Lemma kp_mapMs {X Y S} (f : S -> X -> M (S * Y)) l : (forall m x, kp (f m x)) -> forall m, kp (mapMs f m l).
Proof using. intros H. induction l; intros m; simpl; [apply kp_ret|]. apply kp_bind; [done|intros ?]. apply kp_bind; [done|intros ?]. apply kp_ret. Qed.

Lemma getn_look a s n s' : getn a s = Ok n s' -> s' = s /\ s_heap s !! a = Some n /\ n_used n = true.
Proof using.
  unfold getn. destruct (s_heap s !! a) as [m|]; [|discriminate]. destruct (n_used m) eqn:U; [|discriminate].
  intros E. by injection E as <- <-.
Qed.
Lemma look_insert (h : gmap positive node) a n b : look (<[a := n]> h) b = if decide (b = a) then Some (n_body n, n_used n) else look h b.
Proof using. unfold look. destruct (decide (b = a)) as [->|]; [by rewrite lookup_insert|by rewrite lookup_insert_ne]. Qed.
Lemma look_same (h : gmap positive node) a n n' : h !! a = Some n -> n_body n' = n_body n -> n_used n' = n_used n ->
  forall b, look (<[a := n']> h) b = look h b.
Proof using. intros Ha Hb Hu b. rewrite look_insert. destruct (decide (b = a)) as [->|]; [|done]. unfold look. by rewrite Ha, Hb, Hu. Qed.

Lemma kp_getn a : kp (getn a).
Proof using. intros s n s' E. by destruct (getn_look _ _ _ _ E) as (->&_). Qed.
Lemma kp_upd a (k : node -> M unit) :
  (forall n s x s', k n s = Ok x s' -> exists n', n_body n' = n_body n /\ n_used n' = n_used n /\ s' = set_heap (<[a := n']> (s_heap s)) s) ->
  kp (let* n := getn a in k n).
Proof using HI.
  intros H s x s' E. unfold bind in E. destruct (getn a s) as [n s1| |] eqn:G; [|discriminate..].
  destruct (getn_look _ _ _ _ G) as (->&Ha&_). destruct (H n s x s' E) as (n'&E1&E2&->). apply HI. split; [split; [done|]|done]. by apply (look_same _ _ n).
Qed.
Lemma kp_set_mark b a : kp (set_mark b a).
Proof using HI. apply kp_upd. intros n s x s' E. injection E as <- <-. eexists; split_and!; [| |reflexivity]; done. Qed.
Lemma kp_inc_ref a : kp (inc_ref a).
Proof using HI. apply kp_upd. intros n s x s' E. destruct (_ <? _)%N; [|discriminate]. injection E as <- <-. eexists; split_and!; [| |reflexivity]; done. Qed.
Lemma kp_dec_ref a : kp (dec_ref a).
Proof using HI. apply kp_upd. intros n s x s' E. destruct (_ =? _)%N; [discriminate|]. injection E as <- <-. eexists; split_and!; [| |reflexivity]; done. Qed.

End gen.

Create HintDb kp discriminated.
Global Hint Resolve kp_getn kp_set_mark kp_inc_ref kp_dec_ref : kp.

Ltac kp_step :=
  first
  [ solve [auto with kp]
  | apply kp_ret | apply kp_fail | apply kp_nofuel | apply kp_of_opt
  | apply kp_bind; [|intros ?]
  | apply kp_gets
  | apply kp_modify; [assumption|intros; reflexivity..|intros; repeat split; simpl; try apply remove_unused_cap]
  | apply kp_mapM_; intros ?
  | apply kp_mapM; intros ?
  | apply kp_mapMs; intros ? ?
  | apply kp_read
  | match goal with |- kept _ (match ?x with _ => _ end) => destruct x end
  | match goal with |- kept _ (let '_ := ?x in _) => destruct x end ].
Ltac kp_tac := repeat kp_step.

Section manager.
Context (c : cfg) (I : st -> Prop) (HI : forall s s', alike s s' -> I s -> I s').
Notation kp := (kept I).
Context (Hdel : forall a, kp (delete_node c a)).

Hint Resolve HI Hdel : kp.

Lemma kp_get_int a : kp (get_int a).
Proof using. unfold get_int. kp_tac. Qed.
Hint Resolve kp_get_int : kp.
Lemma kp_get_son a k : kp (get_son a k).
Proof using. unfold get_son. kp_tac. Qed.
Lemma kp_level_of_index i : kp (level_of_index i).
Proof using. unfold level_of_index. kp_tac. Qed.
Lemma kp_index_at i : kp (index_at i).
Proof using. unfold index_at. kp_tac. Qed.
Hint Resolve kp_get_son kp_level_of_index kp_index_at : kp.
Lemma kp_get_level a : kp (get_level c a).
Proof using. unfold get_level. kp_tac. Qed.
Hint Resolve kp_get_level : kp.
Lemma kp_gc_node i b a : kp (gc_node c i b a).
Proof using HI Hdel. unfold gc_node. kp_tac. Qed.
Hint Resolve kp_gc_node : kp.
Lemma kp_gc_level l : kp (gc_level c l).
Proof using HI Hdel. unfold gc_level. kp_tac. Qed.
Lemma kp_gc_terms k : kp (gc_slot c s_terms set_terms k).
Proof using HI Hdel. unfold gc_slot. kp_tac. Qed.
Lemma kp_gc_specs k : kp (gc_slot c s_specs set_specs k).
Proof using HI Hdel. unfold gc_slot. kp_tac. Qed.
Hint Resolve kp_gc_level kp_gc_terms kp_gc_specs : kp.
Lemma kp_collect_garbage : kp (collect_garbage c).
Proof using HI Hdel. unfold collect_garbage. kp_tac. Qed.
Hint Resolve kp_collect_garbage : kp.
Lemma kp_force_gc : kp (force_gc c).
Proof using HI Hdel. unfold force_gc. kp_tac. Qed.
Hint Resolve kp_force_gc : kp.

Lemma kp_new b : kp (adjust_if_needed c) -> kp (ensure_available c) -> kp (create_node b) -> kp (make_new_node c b).
Proof using. intros. unfold make_new_node. kp_tac. Qed.

Context (Hint_ : forall i sons, kp (make_new_node c (Int i sons))).
Hint Resolve Hint_ : kp.

Lemma kp_make_internal i sons : kp (make_internal_node c i sons).
Proof using HI Hint_.
  unfold make_internal_node. destruct (adj_eq sons); [kp_tac|]. apply kp_bind; [|intros ?; kp_tac].
  intros s x s' E. destruct (s_tabs s !! i); [|discriminate]. by injection E as <- <-.
Qed.
Hint Resolve kp_make_internal : kp.
Lemma kp_dec_ref_try_gc fuel : forall a, kp (dec_ref_try_gc c fuel a).
Proof using HI Hdel. induction fuel; intros; simpl; kp_tac. Qed.
Lemma kp_cofactor_row n d a : kp (cofactor_row n d a).
Proof using. unfold cofactor_row. kp_tac. Qed.
Hint Resolve kp_dec_ref_try_gc kp_cofactor_row : kp.

Context (Hterm : forall v, kp (make_new_node c (Term v))) (Hswap : forall a, kp (swap_node_with_next c a)).
Hint Resolve Hterm Hswap : kp.

Lemma kp_make_special : kp (make_special_node c).
Proof using HI Hterm.
  unfold make_special_node. apply kp_bind; [|intros ?; kp_tac].
  apply kp_modify; [done|intros s; by destruct (s_specs s)..].
Qed.
Hint Resolve kp_make_special : kp.
Lemma kp_make_terminal v : kp (make_terminal_node c v).
Proof using HI Hterm.
  unfold make_terminal_node. destruct (_ && _); [apply kp_fail|]. destruct (is_special v); [kp_tac|].
  destruct (v <? 0)%Z; [apply kp_fail|]. cbv zeta. apply kp_bind; [|intros ?; kp_tac].
  apply kp_modify; [done|intros s; by destruct (_ <=? v)%Z..].
Qed.
Lemma kp_cache_find id comm l r : kp (cache_find c id comm l r).
Proof using HI. unfold cache_find. kp_tac. Qed.
Lemma kp_cache_put id comm a l r : kp (cache_put c id comm a l r).
Proof using HI. unfold cache_put. kp_tac. Qed.
Lemma kp_cache_clear : kp cache_clear.
Proof using HI. unfold cache_clear. kp_tac. Qed.
Lemma kp_diagram_of a : kp (diagram_of a).
Proof using HI. unfold diagram_of. kp_tac. Qed.
Lemma kp_diagram_copy a : kp (diagram_copy a).
Proof using HI. by apply kp_inc_ref. Qed.
Lemma kp_diagram_destroy a : kp (diagram_destroy a).
Proof using HI. by apply kp_dec_ref. Qed.
Hint Resolve kp_make_terminal kp_cache_find kp_cache_put kp_cache_clear kp_diagram_of kp_diagram_copy kp_diagram_destroy : kp.

Lemma kp_swap_variable i : kp (swap_variable_with_next c i).
Proof using HI Hswap. unfold swap_variable_with_next. kp_tac. Qed.
Hint Resolve kp_swap_variable : kp.
Lemma kp_determine : kp (determine_sift_order c).
Proof using.
  intros s x s' E. unfold determine_sift_order in E.
  destruct (mapM_opt _ _) as [cs|]; [|discriminate]. destruct (heapsort _ cs); [|discriminate]. by injection E as <- <-.
Qed.
Hint Resolve kp_determine : kp.
Lemma kp_move_up i : kp (move_var_up c i).
Proof using HI Hswap. unfold move_var_up. kp_tac. Qed.
Lemma kp_move_down i : kp (move_var_down c i).
Proof using HI Hswap. apply kp_swap_variable. Qed.
Lemma kp_note_best cur best : kp (note_best cur best).
Proof. unfold note_best. kp_tac. Qed.
Hint Resolve kp_move_up kp_move_down kp_note_best : kp.
Lemma kp_down_loop fuel i : forall cur best, kp (sift_down_loop c fuel i cur best).
Proof. induction fuel; intros; simpl; kp_tac. Qed.
Lemma kp_up_loop fuel i : forall cur best, kp (sift_up_loop c fuel i cur best).
Proof. induction fuel; intros; simpl; kp_tac. Qed.
Lemma kp_restore fuel i t : forall cur, kp (restore_loop c fuel i cur t).
Proof. induction fuel; intros; simpl; kp_tac. Qed.
Hint Resolve kp_down_loop kp_up_loop kp_restore : kp.
Lemma kp_place i : kp (place_variable c i).
Proof. unfold place_variable. kp_tac. Qed.
Hint Resolve kp_place : kp.
Lemma kp_sift : kp (sift_variables c).
Proof. unfold sift_variables. kp_tac. Qed.
Hint Resolve kp_sift : kp.


Lemma kp_run_deferred : kp (run_deferred c).
Proof. unfold run_deferred. kp_tac. Qed.
Hint Resolve kp_run_deferred : kp.

(** ** DiagramManager.v *)
Lemma kp_with_handle m : kp m -> kp (with_handle m).
Proof. intros. unfold with_handle. kp_tac. Qed.
Lemma kp_variable_impl i : kp (variable_impl c i).
Proof. unfold variable_impl. kp_tac. Qed.
Hint Resolve kp_with_handle kp_variable_impl : kp.
Lemma kp_shrink fuel : forall st, kp (shrink_stack c fuel st).
Proof. induction fuel; intros; simpl; kp_tac. Qed.
Hint Resolve kp_shrink : kp.
Lemma kp_vector_loop fuel i : forall vs st, kp (from_vector_loop c fuel i vs st).
Proof. induction fuel; intros; simpl; kp_tac. Qed.
Hint Resolve kp_vector_loop : kp.
Lemma kp_from_vector_impl vs : kp (from_vector_impl c vs).
Proof. unfold from_vector_impl. kp_tac. Qed.
Hint Resolve kp_from_vector_impl : kp.
Lemma kp_run_op o l r : kp (run_op c o l r).
Proof. unfold run_op. kp_tac. Qed.
Hint Resolve kp_run_op : kp.
Lemma kp_apply_impl fuel o : forall l r, kp (apply_impl c fuel o l r).
Proof. induction fuel; intros; simpl; kp_tac. Qed.
Hint Resolve kp_apply_impl : kp.
Lemma kp_apply o l r : kp (apply c o l r).
Proof. unfold apply. kp_tac. Qed.
Hint Resolve kp_apply : kp.
Lemma kp_drop o : kp (drop_handle o).
Proof. unfold drop_handle. kp_tac. Qed.
Hint Resolve kp_drop : kp.
Lemma kp_left_loop o l : forall acc, kp (left_fold_loop c o acc l).
Proof. induction l; intros; simpl; kp_tac. Qed.
Hint Resolve kp_left_loop : kp.
Lemma kp_left_fold o l : kp (left_fold c o l).
Proof. unfold left_fold. kp_tac. Qed.
Lemma kp_arr_slot arr k : kp (slot arr k).
Proof. unfold slot. kp_tac. Qed.
Hint Resolve kp_left_fold kp_arr_slot : kp.
Lemma kp_tree_pairs n o : forall k arr, kp (tree_pairs c n k o arr).
Proof. induction n; intros; simpl; kp_tac. Qed.
Hint Resolve kp_tree_pairs : kp.
Lemma kp_tree_steps n o : forall k arr, kp (tree_steps c n o k arr).
Proof. induction n; intros; simpl; kp_tac. Qed.
Hint Resolve kp_tree_steps : kp.
Lemma kp_tree_fold o arr : kp (tree_fold c o arr).
Proof. unfold tree_fold. kp_tac. Qed.
Hint Resolve kp_tree_fold : kp.
Lemma kp_cofactor_impl fuel vi vv : forall m a, kp (cofactor_impl c fuel vi vv m a).
Proof. induction fuel; intros; simpl; kp_tac. Qed.
Hint Resolve kp_cofactor_impl : kp.
Lemma kp_get_cofactor a vi vv : kp (get_cofactor c a vi vv).
Proof. unfold get_cofactor. kp_tac. Qed.
Lemma kp_cofactors_impl fuel vars : forall todo m a, kp (cofactors_impl c fuel vars todo m a).
Proof. induction fuel; intros; simpl; kp_tac. Qed.
Hint Resolve kp_get_cofactor kp_cofactors_impl : kp.
Lemma kp_get_cofactors a vars : kp (get_cofactors c a vars).
Proof. unfold get_cofactors. kp_tac. Qed.
Lemma kp_transform_impl fuel f : forall m a, kp (transform_impl c fuel f m a).
Proof. induction fuel; intros; simpl; kp_tac. Qed.
Hint Resolve kp_get_cofactors kp_transform_impl : kp.
Lemma kp_transform f a : kp (transform c f a).
Proof. unfold transform. kp_tac. Qed.
Lemma kp_apply_n fuel f : forall m lr, kp (apply_n_impl c fuel f m lr).
Proof. induction fuel; intros; simpl; kp_tac. Qed.
Hint Resolve kp_transform kp_apply_n : kp.
Lemma kp_expression_impl e : kp (from_expression_impl c e).
Proof. induction e; cbn [from_expression_impl]; kp_tac. Qed.
Hint Resolve kp_expression_impl : kp.
Lemma kp_from_expression e : kp (from_expression_tree c e).
Proof. unfold from_expression_tree. kp_tac. Qed.
Hint Resolve kp_from_expression : kp.

(** ** Reliability.v *)
Lemma kp_son_skip i v a k : kp (son_skip i v a k).
Proof. unfold son_skip. kp_tac. Qed.
Hint Resolve kp_son_skip : kp.
Lemma kp_dpld_impl fuel vc f : forall m lr, kp (dpld_impl c fuel vc f m lr).
Proof. induction fuel; intros; simpl; kp_tac. Qed.
Lemma kp_dpld_roots vc a : kp (dpld_roots vc a).
Proof. unfold dpld_roots. kp_tac. Qed.
Hint Resolve kp_dpld_impl kp_dpld_roots : kp.
Lemma kp_dpld vc f a : kp (dpld c vc f a).
Proof. unfold dpld. kp_tac. Qed.
Lemma kp_extend_at from i a : kp (extend_at c from i a).
Proof. unfold extend_at. kp_tac. Qed.
Hint Resolve kp_dpld kp_extend_at : kp.
Lemma kp_to_dpld_e_impl fuel from vi : forall m a, kp (to_dpld_e_impl c fuel from vi m a).
Proof. induction fuel; intros; simpl; kp_tac. Qed.
Hint Resolve kp_to_dpld_e_impl : kp.
Lemma kp_to_dpld_e from vi a : kp (to_dpld_e c from vi a).
Proof. unfold to_dpld_e. kp_tac. Qed.
Hint Resolve kp_to_dpld_e : kp.
Lemma kp_dpld_e vc f from a : kp (dpld_e c vc f from a).
Proof. unfold dpld_e. kp_tac. Qed.
Lemma kp_is_term v a : kp (Reliability.is_term v a).
Proof. unfold Reliability.is_term. kp_tac. Qed.
Hint Resolve kp_dpld_e kp_is_term : kp.
Lemma kp_mnf_ones k : forall sons, kp (mnf_ones k sons).
Proof. induction k; intros; cbn [mnf_ones]; kp_tac. Qed.
Lemma kp_mnf_zeros k : forall sons, kp (mnf_zeros k sons).
Proof. induction k; intros; cbn [mnf_zeros]; kp_tac. Qed.
Hint Resolve kp_mnf_ones kp_mnf_zeros : kp.
Lemma kp_to_mnf_impl fuel : forall m a, kp (to_mnf_impl c fuel m a).
Proof. induction fuel; intros; simpl; kp_tac. Qed.
Hint Resolve kp_to_mnf_impl : kp.
Lemma kp_to_mnf a : kp (to_mnf c a).
Proof. unfold to_mnf. kp_tac. Qed.
Hint Resolve kp_to_mnf : kp.

(** ** Calls *)
Lemma kp_put vars d a : kp (put vars d a).
Proof. unfold put. kp_tac. Qed.
Lemma kp_deref vars x : kp (deref vars x).
Proof. unfold deref. kp_tac. Qed.
Hint Resolve kp_put kp_deref : kp.



Definition ratio_ok (k : call) : Prop := match k with CCacheRatio f => kp (modify (set_cratio f)) | _ => True end.

Lemma kp_exec k vars : ratio_ok k -> kp (exec c k vars).
Proof.
  intros Hr.
  destruct k; simpl in Hr; unfold exec, constant, variable, variable_not, from_vector, clear_cache, force_reorder; cbv zeta; kp_tac.
Qed.
Hint Resolve kp_exec : kp.


Lemma kp_run ks : Forall ratio_ok ks -> forall vars, kp (run c ks vars).
Proof. induction 1; intros; cbn [run]; [apply kp_ret|apply kp_bind; [by apply kp_exec|done]]. Qed.

End manager.

(** adjust_tables and adjust_caches change neither pool nor nodes *)
Lemma kp_adjust c (I : st -> Prop) : (forall s s', akin s s' -> I s -> I s') -> kept I (adjust_if_needed c).
Proof.
  intros HI s x s' E. unfold adjust_if_needed, bind, gets, adjust_tables, adjust_caches, modify, ret in E.
  destruct (_ <=? _)%Z; injection E as <- <-; [|done]. by apply HI.
Qed.
