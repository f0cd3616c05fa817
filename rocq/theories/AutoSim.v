(** * Automatic reordering while the pool does not grow

    [set_auto_reorder(true)] changes nothing but two things: what happens when
    the pool is empty (node_manager.hpp:1026-1056) and, through the flag set
    there, what run_deferred does.  Here: a computation that ends with a pool of
    the same size would have given the same result with the mode off. *)

From stdpp Require Import gmap list.
From Coq Require Import ZArith Lia.
From Verif Require Import Base Ops Tables NodeManager Tools Sift DiagramManager Reliability World.

Local Open Scope nat_scope.

(** the state with the mode switched off and nothing pending *)
Definition quieted (s : st) : st := set_auto false (set_defer false s).

(** the number of cells the pool has ever had, plus one *)
Definition pool_end (s : st) : Z := (Z.pos (p_next (s_pool s)) + Z.of_N (p_left (s_pool s)))%Z.

Definition sim {A} (m : M A) : Prop := forall s a s',
  m s = Ok a s' -> s_auto s = true ->
  s_auto s' = true /\ (pool_end s <= pool_end s')%Z /\
  (s_defer s = false -> pool_end s' = pool_end s ->
     s_defer s' = false /\ m (quieted s) = Ok a (quieted s')).

Lemma sim_ret {A} (a : A) : sim (ret a).
Proof. intros s b s' E Ha. injection E as <- <-. split; [done|]. split; [lia|]. done. Qed.
Lemma sim_fail {A} e : sim (@fail A e).
Proof. intros s b s' E. discriminate. Qed.
Lemma sim_nofuel {A} : sim (@nofuel A).
Proof. intros s b s' E. discriminate. Qed.
Lemma sim_of_opt {A} e (o : option A) : sim (of_opt e o).
Proof. destruct o; [apply sim_ret|apply sim_fail]. Qed.

Lemma sim_bind {A B} (m : M A) (k : A -> M B) : sim m -> (forall a, sim (k a)) -> sim (bind m k).
Proof.
  intros Hm Hk s b s' E Ha. unfold bind in *. destruct (m s) as [a s1| |] eqn:Em; [|discriminate..].
  destruct (Hm s a s1 Em Ha) as (Ha1&L1&S1). destruct (Hk a s1 b s' E Ha1) as (Ha2&L2&S2).
  split; [done|]. split; [lia|]. intros Hd HP. destruct (S1 Hd) as [Hd1 E1]; [lia|].
  destruct (S2 Hd1) as [Hd2 E2]; [lia|]. split; [done|]. by rewrite E1.
Qed.

Lemma sim_gets {A} (f : st -> A) : (forall s, f (quieted s) = f s) -> sim (gets f).
Proof.
  intros H s b s' E Ha. injection E as <- <-. split; [done|]. split; [lia|]. intros Hd _. split; [done|].
  unfold gets. by rewrite H.
Qed.

Lemma sim_modify (f : st -> st) :
  (forall s, s_auto (f s) = s_auto s) -> (forall s, pool_end (f s) = pool_end s) ->
  (forall s, s_defer s = false -> s_defer (f s) = false) -> (forall s, f (quieted s) = quieted (f s)) -> sim (modify f).
Proof.
  intros H1 H2 H3 H4 s b s' E Ha. injection E as <- <-. rewrite H1, H2. split; [done|]. split; [lia|].
  intros Hd _. split; [auto|]. unfold modify. by rewrite H4.
Qed.

Lemma sim_read {A} e (F : st -> option A) : (forall s, F (quieted s) = F s) -> sim (fun s => of_opt e (F s) s).
Proof.
  intros H s b s' E Ha. destruct (F s) as [x|] eqn:EF; [|discriminate]. injection E as <- <-.
  split; [done|]. split; [lia|]. intros Hd _. split; [done|]. by rewrite H, EF.
Qed.

Lemma sim_mapM_ {A} (f : A -> M unit) l : (forall a, sim (f a)) -> sim (mapM_ f l).
Proof. intros H. induction l; simpl; [apply sim_ret|]. apply sim_bind; auto. Qed.
Lemma sim_mapM {A B} (f : A -> M B) l : (forall a, sim (f a)) -> sim (mapM f l).
Proof.
  intros H. induction l; simpl; [apply sim_ret|]. apply sim_bind; [auto|]. intros. apply sim_bind; [auto|]. intros. apply sim_ret.
Qed.
Lemma sim_mapMs {A B S} (f : S -> A -> M (S * B)) l : (forall m a, sim (f m a)) -> forall m, sim (mapMs f m l).
Proof.
  intros H. induction l; intros m; simpl; [apply sim_ret|]. apply sim_bind; [auto|]. intros. apply sim_bind; [auto|]. intros. apply sim_ret.
Qed.

Create HintDb sim.

Ltac sim_step :=
  first
  [ solve [auto with sim]
  | apply sim_ret | apply sim_fail | apply sim_nofuel | apply sim_of_opt
  | apply sim_bind; [|intros ?]
  | apply sim_gets; intros; reflexivity
  | apply sim_modify; intros; first [reflexivity|assumption]
  | apply sim_mapM_; intros ?
  | apply sim_mapM; intros ?
  | apply sim_mapMs; intros ? ?
  | apply sim_read; intros; reflexivity
  | match goal with |- sim (match ?x with _ => _ end) => destruct x end
  | match goal with |- sim (let '_ := ?x in _) => destruct x end ].
Ltac sim_tac := repeat sim_step.

Section sim.
Context (c : cfg).

Lemma sim_getn a : sim (getn a).
Proof.
  intros s b s' E Ha. unfold getn in *. destruct (s_heap s !! a) as [n|] eqn:En; [|discriminate].
  destruct (n_used n) eqn:U; [|discriminate]. injection E as <- <-. split; [done|]. split; [lia|].
  intros Hd _. split; [done|]. simpl. by rewrite En, U.
Qed.
Hint Resolve sim_getn : sim.
Lemma sim_modn a f : sim (modn a f).
Proof. unfold modn. sim_tac. Qed.
Hint Resolve sim_modn : sim.
Lemma sim_set_mark b a : sim (set_mark b a).
Proof. apply sim_modn. Qed.
Lemma sim_inc_ref a : sim (inc_ref a).
Proof. unfold inc_ref. sim_tac. Qed.
Lemma sim_dec_ref a : sim (dec_ref a).
Proof. unfold dec_ref. sim_tac. Qed.
Hint Resolve sim_set_mark sim_inc_ref sim_dec_ref : sim.
Lemma sim_get_int a : sim (get_int a).
Proof. unfold get_int. sim_tac. Qed.
Hint Resolve sim_get_int : sim.
Lemma sim_get_son a k : sim (get_son a k).
Proof. unfold get_son. sim_tac. Qed.
Lemma sim_level_of_index i : sim (level_of_index i).
Proof. unfold level_of_index. sim_tac. Qed.
Lemma sim_index_at i : sim (index_at i).
Proof. unfold index_at. sim_tac. Qed.
Hint Resolve sim_get_son sim_level_of_index sim_index_at : sim.
Lemma sim_get_level a : sim (get_level c a).
Proof. unfold get_level. sim_tac. Qed.
Lemma sim_delete_node a : sim (delete_node c a).
Proof. unfold delete_node. sim_tac. Qed.
Hint Resolve sim_get_level sim_delete_node : sim.
Lemma sim_gc_node i b a : sim (gc_node c i b a).
Proof. unfold gc_node. sim_tac. Qed.
Hint Resolve sim_gc_node : sim.
Lemma sim_gc_level l : sim (gc_level c l).
Proof. unfold gc_level. sim_tac. Qed.
Hint Resolve sim_gc_level : sim.
Lemma sim_gc_slot_terms k : sim (gc_slot c s_terms set_terms k).
Proof. unfold gc_slot. sim_tac. Qed.
Lemma sim_gc_slot_specs k : sim (gc_slot c s_specs set_specs k).
Proof. unfold gc_slot. sim_tac. Qed.
Hint Resolve sim_gc_slot_terms sim_gc_slot_specs : sim.
Lemma sim_collect_garbage : sim (collect_garbage c).
Proof. unfold collect_garbage. sim_tac. Qed.
Hint Resolve sim_collect_garbage : sim.
Lemma sim_force_gc : sim (force_gc c).
Proof. unfold force_gc. sim_tac. Qed.
Lemma sim_adjust : sim (adjust_if_needed c).
Proof. unfold adjust_if_needed, adjust_tables, adjust_caches. sim_tac. Qed.
Hint Resolve sim_force_gc sim_adjust : sim.

(** the pool is not touched by the adjustment of the tables *)
Lemma adjust_pool s a s' : adjust_if_needed c s = Ok a s' -> s_pool s' = s_pool s.
Proof.
  unfold adjust_if_needed, adjust_tables, adjust_caches, bind, gets, modify, ret.
  destruct (s_adj s <=? s_count s)%Z; intros E; injection E as <- <-; done.
Qed.

Lemma create_pool b s a s' : create_node b s = Ok a s' ->
  (0 < p_avail (s_pool s))%Z /\ s_auto s' = s_auto s /\ s_defer s' = s_defer s /\ pool_end s' = pool_end s /\
  create_node b (quieted s) = Ok a (quieted s').
Proof.
  unfold create_node, pool_end. intros E. unfold quieted at 1. simpl.
  unfold pool_create in *. destruct (Z.leb_spec (p_avail (s_pool s)) 0) as [H|H]; [discriminate|].
  destruct (p_free (s_pool s)) as [|x fr].
  - destruct (p_left (s_pool s)) as [|q] eqn:L; [discriminate|]. injection E as <- <-. simpl. split_and!; try done. lia.
  - injection E as <- <-. simpl. split_and!; done.
Qed.

Lemma ensure_auto s : s_auto s = true -> ensure_available c s =
  if (p_avail (s_pool s) =? 0)%Z then Ok tt (set_defer true (set_pool (pool_grow (s_pool s)) s)) else Ok tt s.
Proof. intros H. unfold ensure_available, bind, gets. rewrite H. by destruct (p_avail (s_pool s) =? 0)%Z. Qed.

Lemma sim_make_new_node b : sim (make_new_node c b).
Proof.
  intros s a s' E Ha. unfold make_new_node, bind in *. rewrite ensure_auto in E by done.
  destruct (p_avail (s_pool s) =? 0)%Z eqn:Ev.
  - set (s1 := set_defer true _) in E.
    destruct (adjust_if_needed c s1) as [[] s2| |] eqn:E2; [|discriminate..].
    destruct (sim_adjust s1 tt s2 E2 Ha) as (Ha2&L2&_). apply adjust_pool in E2.
    destruct (create_pool b s2 a s' E) as (Hav&Ha3&_&L3&_). rewrite E2 in Hav. simpl in Hav.
    assert (G : pool_end s1 = (pool_end s + Z.max 0 (p_extra (s_pool s)))%Z).
    { unfold pool_end, s1. simpl. unfold padd. destruct (p_left (s_pool s)) as [|q]; lia. }
    split; [congruence|]. split; [lia|]. intros _ HP. lia.
  - destruct (adjust_if_needed c s) as [[] s2| |] eqn:E2; [|discriminate..].
    destruct (sim_adjust s tt s2 E2 Ha) as (Ha2&L2&S2).
    destruct (create_pool b s2 a s' E) as (Hav&Ha3&Hd3&L3&E3). split; [congruence|]. split; [lia|].
    intros Hd HP. destruct (S2 Hd) as [Hd2 E4]; [lia|]. split; [congruence|].
    assert (ensure_available c (quieted s) = Ok tt (quieted s)) as ->.
    { unfold ensure_available, bind, gets, quieted. simpl. by rewrite Ev. }
    by rewrite E4.
Qed.
Hint Resolve sim_make_new_node : sim.

Lemma sim_make_special : sim (make_special_node c).
Proof.
  unfold make_special_node. apply sim_bind.
  - apply sim_modify; intros s; unfold quieted; simpl; by destruct (s_specs s).
  - intros ?. sim_tac.
Qed.
Hint Resolve sim_make_special : sim.
Lemma sim_make_terminal v : sim (make_terminal_node c v).
Proof.
  unfold make_terminal_node. sim_tac.
  apply sim_modify; intros s; unfold quieted; simpl; by destruct (Z.of_nat (length (s_terms s)) <=? v)%Z.
Qed.
Hint Resolve sim_make_terminal : sim.
Lemma sim_make_internal i sons : sim (make_internal_node c i sons).
Proof.
  unfold make_internal_node. sim_tac.
  intros s a s' E Ha. destruct (s_tabs s !! i) as [t|] eqn:Et; [|discriminate]. injection E as <- <-.
  split; [done|]. split; [lia|]. intros Hd _. split; [done|]. unfold quieted. simpl. by rewrite Et.
Qed.
Hint Resolve sim_make_internal : sim.
Lemma sim_cache_find id comm l r : sim (cache_find c id comm l r).
Proof. unfold cache_find. sim_tac. Qed.
Lemma sim_cache_put id comm a l r : sim (cache_put c id comm a l r).
Proof. unfold cache_put. sim_tac. Qed.
Lemma sim_cache_clear : sim cache_clear.
Proof. unfold cache_clear. sim_tac. Qed.
Lemma sim_diagram_of a : sim (diagram_of a).
Proof. unfold diagram_of. sim_tac. Qed.
Lemma sim_diagram_copy a : sim (diagram_copy a).
Proof. apply sim_inc_ref. Qed.
Lemma sim_diagram_destroy a : sim (diagram_destroy a).
Proof. apply sim_dec_ref. Qed.
Hint Resolve sim_cache_find sim_cache_put sim_cache_clear sim_diagram_of sim_diagram_copy sim_diagram_destroy : sim.

(** ** Sift.v *)
Lemma sim_dec_ref_try_gc fuel : forall a, sim (dec_ref_try_gc c fuel a).
Proof. induction fuel; intros a; simpl; sim_tac. Qed.
Hint Resolve sim_dec_ref_try_gc : sim.
Lemma sim_cofactor_row n d a : sim (cofactor_row n d a).
Proof. unfold cofactor_row. sim_tac. Qed.
Hint Resolve sim_cofactor_row : sim.
Lemma sim_swap_node a : sim (swap_node_with_next c a).
Proof. unfold swap_node_with_next. sim_tac. Qed.
Hint Resolve sim_swap_node : sim.
Lemma sim_swap_variable i : sim (swap_variable_with_next c i).
Proof. unfold swap_variable_with_next. sim_tac. Qed.
Hint Resolve sim_swap_variable : sim.
Lemma sim_determine : sim (determine_sift_order c).
Proof.
  intros s a s' E Ha. unfold determine_sift_order in *. unfold quieted at 1. simpl.
  destruct (mapM_opt _ _) as [cs|]; [|discriminate]. destruct (heapsort _ cs); [|discriminate].
  injection E as <- <-. split; [done|]. split; [lia|]. done.
Qed.
Hint Resolve sim_determine : sim.
Lemma sim_move_up i : sim (move_var_up c i).
Proof. unfold move_var_up. sim_tac. Qed.
Lemma sim_move_down i : sim (move_var_down c i).
Proof. apply sim_swap_variable. Qed.
Lemma sim_note_best cur best : sim (note_best cur best).
Proof. unfold note_best. sim_tac. Qed.
Hint Resolve sim_move_up sim_move_down sim_note_best : sim.
Lemma sim_down_loop fuel i : forall cur best, sim (sift_down_loop c fuel i cur best).
Proof. induction fuel; intros; simpl; sim_tac. Qed.
Lemma sim_up_loop fuel i : forall cur best, sim (sift_up_loop c fuel i cur best).
Proof. induction fuel; intros; simpl; sim_tac. Qed.
Lemma sim_restore fuel i t : forall cur, sim (restore_loop c fuel i cur t).
Proof. induction fuel; intros; simpl; sim_tac. Qed.
Hint Resolve sim_down_loop sim_up_loop sim_restore : sim.
Lemma sim_place i : sim (place_variable c i).
Proof. unfold place_variable. sim_tac. Qed.
Hint Resolve sim_place : sim.
Lemma sim_sift : sim (sift_variables c).
Proof. unfold sift_variables. sim_tac. Qed.
Hint Resolve sim_sift : sim.

Lemma sim_run_deferred : sim (run_deferred c).
Proof.
  intros s a s' E Ha. unfold run_deferred, bind at 1, gets at 1 in E. destruct (s_defer s) eqn:Ed.
  - assert (X : sim (let* _ := collect_garbage c in let* _ := cache_clear in sift_variables c)) by sim_tac.
    destruct (X s a s' E Ha) as (?&?&_). done.
  - injection E as <- <-. split; [done|]. split; [lia|]. done.
Qed.
Hint Resolve sim_run_deferred : sim.

(** ** DiagramManager.v *)
Lemma sim_with_handle m : sim m -> sim (with_handle m).
Proof. intros. unfold with_handle. sim_tac. Qed.
Lemma sim_variable_impl i : sim (variable_impl c i).
Proof. unfold variable_impl. sim_tac. Qed.
Hint Resolve sim_with_handle sim_variable_impl : sim.
Lemma sim_shrink fuel : forall st, sim (shrink_stack c fuel st).
Proof. induction fuel; intros; simpl; sim_tac. Qed.
Hint Resolve sim_shrink : sim.
Lemma sim_vector_loop fuel i : forall vs st, sim (from_vector_loop c fuel i vs st).
Proof. induction fuel; intros; simpl; sim_tac. Qed.
Hint Resolve sim_vector_loop : sim.
Lemma sim_from_vector_impl vs : sim (from_vector_impl c vs).
Proof. unfold from_vector_impl. sim_tac. Qed.
Hint Resolve sim_from_vector_impl : sim.
Lemma sim_run_op o l r : sim (run_op c o l r).
Proof. unfold run_op. sim_tac. Qed.
Hint Resolve sim_run_op : sim.
Lemma sim_apply_impl fuel o : forall l r, sim (apply_impl c fuel o l r).
Proof. induction fuel; intros; simpl; sim_tac. Qed.
Hint Resolve sim_apply_impl : sim.
Lemma sim_apply o l r : sim (apply c o l r).
Proof. unfold apply. sim_tac. Qed.
Hint Resolve sim_apply : sim.
Lemma sim_drop o : sim (drop_handle o).
Proof. unfold drop_handle. sim_tac. Qed.
Hint Resolve sim_drop : sim.
Lemma sim_left_loop o l : forall acc, sim (left_fold_loop c o acc l).
Proof. induction l; intros; simpl; sim_tac. Qed.
Hint Resolve sim_left_loop : sim.
Lemma sim_left_fold o l : sim (left_fold c o l).
Proof. unfold left_fold. sim_tac. Qed.
Lemma sim_slot arr k : sim (slot arr k).
Proof. unfold slot. sim_tac. Qed.
Hint Resolve sim_left_fold sim_slot : sim.
Lemma sim_tree_pairs n o : forall k arr, sim (tree_pairs c n k o arr).
Proof. induction n; intros; simpl; sim_tac. Qed.
Hint Resolve sim_tree_pairs : sim.
Lemma sim_tree_steps n o : forall k arr, sim (tree_steps c n o k arr).
Proof. induction n; intros; simpl; sim_tac. Qed.
Hint Resolve sim_tree_steps : sim.
Lemma sim_tree_fold o arr : sim (tree_fold c o arr).
Proof. unfold tree_fold. sim_tac. Qed.
Hint Resolve sim_tree_fold : sim.
Lemma sim_cofactor_impl fuel vi vv : forall m a, sim (cofactor_impl c fuel vi vv m a).
Proof. induction fuel; intros; simpl; sim_tac. Qed.
Hint Resolve sim_cofactor_impl : sim.
Lemma sim_get_cofactor a vi vv : sim (get_cofactor c a vi vv).
Proof. unfold get_cofactor. sim_tac. Qed.
Lemma sim_cofactors_impl fuel vars : forall todo m a, sim (cofactors_impl c fuel vars todo m a).
Proof. induction fuel; intros; simpl; sim_tac. Qed.
Hint Resolve sim_get_cofactor sim_cofactors_impl : sim.
Lemma sim_get_cofactors a vars : sim (get_cofactors c a vars).
Proof. unfold get_cofactors. sim_tac. Qed.
Lemma sim_transform_impl fuel f : forall m a, sim (transform_impl c fuel f m a).
Proof. induction fuel; intros; simpl; sim_tac. Qed.
Hint Resolve sim_get_cofactors sim_transform_impl : sim.
Lemma sim_transform f a : sim (transform c f a).
Proof. unfold transform. sim_tac. Qed.
Lemma sim_apply_n fuel f : forall m lr, sim (apply_n_impl c fuel f m lr).
Proof. induction fuel; intros; simpl; sim_tac. Qed.
Hint Resolve sim_transform sim_apply_n : sim.
Lemma sim_expression_impl e : sim (from_expression_impl c e).
Proof. induction e; cbn [from_expression_impl]; sim_tac. Qed.
Hint Resolve sim_expression_impl : sim.
Lemma sim_from_expression e : sim (from_expression_tree c e).
Proof. unfold from_expression_tree. sim_tac. Qed.
Hint Resolve sim_from_expression : sim.

(** ** Reliability.v *)
Lemma sim_son_skip i v a k : sim (son_skip i v a k).
Proof. unfold son_skip. sim_tac. Qed.
Hint Resolve sim_son_skip : sim.
Lemma sim_dpld_impl fuel vc f : forall m lr, sim (dpld_impl c fuel vc f m lr).
Proof. induction fuel; intros; simpl; sim_tac. Qed.
Lemma sim_dpld_roots vc a : sim (dpld_roots vc a).
Proof. unfold dpld_roots. sim_tac. Qed.
Hint Resolve sim_dpld_impl sim_dpld_roots : sim.
Lemma sim_dpld vc f a : sim (dpld c vc f a).
Proof. unfold dpld. sim_tac. Qed.
Lemma sim_extend_at from i a : sim (extend_at c from i a).
Proof. unfold extend_at. sim_tac. Qed.
Hint Resolve sim_dpld sim_extend_at : sim.
Lemma sim_to_dpld_e_impl fuel from vi : forall m a, sim (to_dpld_e_impl c fuel from vi m a).
Proof. induction fuel; intros; simpl; sim_tac. Qed.
Hint Resolve sim_to_dpld_e_impl : sim.
Lemma sim_to_dpld_e from vi a : sim (to_dpld_e c from vi a).
Proof. unfold to_dpld_e. sim_tac. Qed.
Hint Resolve sim_to_dpld_e : sim.
Lemma sim_dpld_e vc f from a : sim (dpld_e c vc f from a).
Proof. unfold dpld_e. sim_tac. Qed.
Lemma sim_is_term v a : sim (Reliability.is_term v a).
Proof. unfold Reliability.is_term. sim_tac. Qed.
Hint Resolve sim_dpld_e sim_is_term : sim.
Lemma sim_mnf_ones k : forall sons, sim (mnf_ones k sons).
Proof. induction k; intros; cbn [mnf_ones]; sim_tac. Qed.
Lemma sim_mnf_zeros k : forall sons, sim (mnf_zeros k sons).
Proof. induction k; intros; cbn [mnf_zeros]; sim_tac. Qed.
Hint Resolve sim_mnf_ones sim_mnf_zeros : sim.
Lemma sim_to_mnf_impl fuel : forall m a, sim (to_mnf_impl c fuel m a).
Proof. induction fuel; intros; simpl; sim_tac. Qed.
Hint Resolve sim_to_mnf_impl : sim.
Lemma sim_to_mnf a : sim (to_mnf c a).
Proof. unfold to_mnf. sim_tac. Qed.
Hint Resolve sim_to_mnf : sim.

(** ** Calls *)
Lemma sim_put vars d a : sim (put vars d a).
Proof. unfold put. sim_tac. Qed.
Lemma sim_deref vars x : sim (deref vars x).
Proof. unfold deref. sim_tac. Qed.
Hint Resolve sim_put sim_deref : sim.

Lemma sim_exec k vars : (forall b, k <> CAuto b) -> sim (exec c k vars).
Proof.
  intros H. destruct k; unfold exec, constant, variable, variable_not, from_vector, clear_cache, force_reorder; cbv zeta; sim_tac.
  by destruct (H b).
Qed.

Lemma sim_run ks : (forall k b, k ∈ ks -> k <> CAuto b) -> forall vars, sim (run c ks vars).
Proof.
  induction ks as [|k ks IH]; intros H vars; simpl; [apply sim_ret|].
  apply sim_bind; [apply sim_exec; intros b; apply H; by left|]. intros v. apply IH. intros k' b Hk. apply H. by right.
Qed.

End sim.
