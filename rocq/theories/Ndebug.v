(** * Builds with and without assertions

    README.md, "Assertions": assert of <cassert> is empty when NDEBUG is defined.  The
    two builds of the same program are compared state by state, for every state of the
    manager and not only for those that programs reach. *)

From stdpp Require Import gmap list.
From Coq Require Import ZArith Lia.
From Verif Require Import Base Ops Tables NodeManager Tools Sift DiagramManager Reliability World Queries Prob Symbolic Mcvs.

Local Open Scope nat_scope.

(** the manager [c] in a build with ([true]) or without ([false]) assertions *)
Definition built (b : bool) (c : cfg) : cfg := Cfg (c_doms c) (c_fixed c) (c_ptr c) b (c_trap c).

(** [m1] does what [m0] does unless it stops at an assertion *)
Definition stops {A} (m1 m0 : M A) : Prop := forall s, m1 s = m0 s \/ m1 s = Err EAssert.

Lemma st_refl {A} (m : M A) : stops m m.
Proof. intros s. by left. Qed.

Lemma st_bind {A B} (m1 m0 : M A) (k1 k0 : A -> M B) :
  stops m1 m0 -> (forall a, stops (k1 a) (k0 a)) -> stops (bind m1 k1) (bind m0 k0).
Proof.
  intros Hm Hk s. unfold bind. destruct (Hm s) as [->| ->]; [|by right].
  destruct (m0 s); [apply Hk|by left..].
Qed.

Lemma st_guard {A} b (m1 m0 : M A) : stops m1 m0 -> stops (if b : bool then fail EAssert else m1) m0.
Proof. intros H s. destruct b; [by right|apply H]. Qed.

Lemma st_mapM_ {A} (f1 f0 : A -> M unit) l : (forall a, stops (f1 a) (f0 a)) -> stops (mapM_ f1 l) (mapM_ f0 l).
Proof. intros H. induction l; [apply st_refl|]. cbn [mapM_]. apply st_bind; auto. Qed.

Lemma st_mapM {A B} (f1 f0 : A -> M B) l : (forall a, stops (f1 a) (f0 a)) -> stops (mapM f1 l) (mapM f0 l).
Proof.
  intros H. induction l; [apply st_refl|]. cbn [mapM]. apply st_bind; [auto|]. intros b.
  apply st_bind; [auto|]. intros. apply st_refl.
Qed.

Lemma st_mapMs {A B S} (f1 f0 : S -> A -> M (S * B)) l :
  (forall m a, stops (f1 m a) (f0 m a)) -> forall m, stops (mapMs f1 m l) (mapMs f0 m l).
Proof.
  intros H. induction l; [intros; apply st_refl|]. intros m. cbn [mapMs]. apply st_bind; [auto|]. intros b.
  apply st_bind; [auto|]. intros. apply st_refl.
Qed.

Lemma st_foldM {A B} (f1 f0 : B -> A -> M B) l :
  (forall m a, stops (f1 m a) (f0 m a)) -> forall m, stops (foldM f1 m l) (foldM f0 m l).
Proof.
  intros H. induction l; [intros; apply st_refl|]. intros m. cbn [foldM]. apply st_bind; auto.
Qed.

Create HintDb stops discriminated.

(** both sides are unfolded in the same way *)
Ltac field := unfold nvars, dom; cbn [built c_doms c_fixed c_ptr c_dbg c_trap andb].
Ltac st := intros; field; repeat first
  [ solve [auto 2 with stops nocore]
  | match goal with
    | |- stops (bind _ _) (bind _ _) => apply st_bind; [|intros ?]
    | |- stops (mapM_ _ _) (mapM_ _ _) => apply st_mapM_; intros ?
    | |- stops (mapM _ _) (mapM _ _) => apply st_mapM; intros ?
    | |- stops (mapMs _ _ _) (mapMs _ _ _) => apply st_mapMs; intros ? ?
    | |- stops (foldM _ _ _) (foldM _ _ _) => apply st_foldM; intros ? ?
    | |- stops (match ?x with _ => _ end) (match ?x with _ => _ end) => destruct x
    | |- stops (if _ then fail EAssert else _) _ => apply st_guard
    end
  | exact (st_refl _) ].

Section calls.
Context (c : cfg).
Local Notation c1 := (built true c).
Local Notation c0 := (built false c).

Lemma st_delete_node a : stops (delete_node c1 a) (delete_node c0 a).
Proof. unfold delete_node. st. Qed.
#[local] Hint Resolve st_delete_node : stops.

Lemma st_gc_node i b a : stops (gc_node c1 i b a) (gc_node c0 i b a).
Proof. unfold gc_node. st. Qed.
#[local] Hint Resolve st_gc_node : stops.
Lemma st_gc_level l : stops (gc_level c1 l) (gc_level c0 l).
Proof. unfold gc_level. st. Qed.
#[local] Hint Resolve st_gc_level : stops.
Lemma st_gc_slot get set k : stops (gc_slot c1 get set k) (gc_slot c0 get set k).
Proof. unfold gc_slot. st. Qed.
#[local] Hint Resolve st_gc_slot : stops.
Lemma st_collect_garbage : stops (collect_garbage c1) (collect_garbage c0).
Proof. unfold collect_garbage. st. Qed.
#[local] Hint Resolve st_collect_garbage : stops.
Lemma st_force_gc : stops (force_gc c1) (force_gc c0).
Proof. unfold force_gc. st. Qed.
#[local] Hint Resolve st_force_gc : stops.
Lemma st_ensure_available : stops (ensure_available c1) (ensure_available c0).
Proof. unfold ensure_available. st. Qed.
#[local] Hint Resolve st_ensure_available : stops.
Lemma st_make_new_node b : stops (make_new_node c1 b) (make_new_node c0 b).
Proof. unfold make_new_node. st. Qed.
#[local] Hint Resolve st_make_new_node : stops.
Lemma st_make_special_node : stops (make_special_node c1) (make_special_node c0).
Proof. unfold make_special_node. st. Qed.
#[local] Hint Resolve st_make_special_node : stops.
Lemma st_make_terminal_node v : stops (make_terminal_node c1 v) (make_terminal_node c0 v).
Proof. unfold make_terminal_node. st. Qed.
#[local] Hint Resolve st_make_terminal_node : stops.
Lemma st_make_internal_node i l : stops (make_internal_node c1 i l) (make_internal_node c0 i l).
Proof. unfold make_internal_node. st. Qed.
#[local] Hint Resolve st_make_internal_node : stops.

Lemma st_dec_ref_try_gc fuel a : stops (dec_ref_try_gc c1 fuel a) (dec_ref_try_gc c0 fuel a).
Proof. revert a. induction fuel; intros; cbn [dec_ref_try_gc]; st. Qed.
#[local] Hint Resolve st_dec_ref_try_gc : stops.
Lemma st_swap_node a : stops (swap_node_with_next c1 a) (swap_node_with_next c0 a).
Proof. unfold swap_node_with_next. st. Qed.
#[local] Hint Resolve st_swap_node : stops.
Lemma st_swap_variable i : stops (swap_variable_with_next c1 i) (swap_variable_with_next c0 i).
Proof. unfold swap_variable_with_next. st. Qed.
#[local] Hint Resolve st_swap_variable : stops.
Lemma st_move_down i : stops (move_var_down c1 i) (move_var_down c0 i).
Proof. apply st_swap_variable. Qed.
Lemma st_move_up i : stops (move_var_up c1 i) (move_var_up c0 i).
Proof. unfold move_var_up. st. Qed.
#[local] Hint Resolve st_move_down st_move_up : stops.
Lemma st_sift_down fuel i cur best : stops (sift_down_loop c1 fuel i cur best) (sift_down_loop c0 fuel i cur best).
Proof. revert cur best. induction fuel; intros; cbn [sift_down_loop]; st. Qed.
Lemma st_sift_up fuel i cur best : stops (sift_up_loop c1 fuel i cur best) (sift_up_loop c0 fuel i cur best).
Proof. revert cur best. induction fuel; intros; cbn [sift_up_loop]; st. Qed.
Lemma st_restore fuel i cur t : stops (restore_loop c1 fuel i cur t) (restore_loop c0 fuel i cur t).
Proof. revert cur. induction fuel; intros; cbn [restore_loop]; st. Qed.
#[local] Hint Resolve st_sift_down st_sift_up st_restore : stops.
Lemma st_place i : stops (place_variable c1 i) (place_variable c0 i).
Proof. unfold place_variable. st. Qed.
#[local] Hint Resolve st_place : stops.
Lemma st_sift : stops (sift_variables c1) (sift_variables c0).
Proof. unfold sift_variables. st. Qed.
#[local] Hint Resolve st_sift : stops.
Lemma st_run_deferred : stops (run_deferred c1) (run_deferred c0).
Proof. unfold run_deferred. st. Qed.
#[local] Hint Resolve st_run_deferred : stops.

Lemma st_constant v : stops (constant c1 v) (constant c0 v).
Proof. unfold constant, with_handle. st. Qed.
Lemma st_variable_impl i : stops (variable_impl c1 i) (variable_impl c0 i).
Proof. unfold variable_impl. st. Qed.
#[local] Hint Resolve st_variable_impl : stops.
Lemma st_variable i : stops (variable c1 i) (variable c0 i).
Proof. unfold variable, with_handle. st. Qed.
Lemma st_variable_not i : stops (variable_not c1 i) (variable_not c0 i).
Proof. unfold variable_not, with_handle. st. Qed.
Lemma st_shrink fuel l : stops (shrink_stack c1 fuel l) (shrink_stack c0 fuel l).
Proof. revert l. induction fuel; intros; cbn [shrink_stack]; st. Qed.
#[local] Hint Resolve st_shrink : stops.
Lemma st_vector_loop fuel i vs l : stops (from_vector_loop c1 fuel i vs l) (from_vector_loop c0 fuel i vs l).
Proof. revert vs l. induction fuel; intros; cbn [from_vector_loop]; st. Qed.
#[local] Hint Resolve st_vector_loop : stops.
Lemma st_from_vector vs : stops (from_vector c1 vs) (from_vector c0 vs).
Proof. unfold from_vector, from_vector_impl, with_handle. st. Qed.

Lemma st_apply_impl fuel o l r : stops (apply_impl c1 fuel o l r) (apply_impl c0 fuel o l r).
Proof. revert l r. induction fuel; intros; cbn [apply_impl]; st. Qed.
#[local] Hint Resolve st_apply_impl : stops.
Lemma st_apply o l r : stops (apply c1 o l r) (apply c0 o l r).
Proof. unfold apply. apply st_bind; [apply st_apply_impl|]. st. Qed.
#[local] Hint Resolve st_apply : stops.
Lemma st_left_loop o l a : stops (left_fold_loop c1 o a l) (left_fold_loop c0 o a l).
Proof. revert a. induction l; intros; cbn [left_fold_loop]; st. Qed.
#[local] Hint Resolve st_left_loop : stops.
Lemma st_left_fold o l : stops (left_fold c1 o l) (left_fold c0 o l).
Proof. unfold left_fold. st. Qed.
Lemma st_tree_pairs n k o arr : stops (tree_pairs c1 n k o arr) (tree_pairs c0 n k o arr).
Proof. revert k arr. induction n; intros; cbn [tree_pairs]; st. Qed.
#[local] Hint Resolve st_tree_pairs : stops.
Lemma st_tree_steps n o k arr : stops (tree_steps c1 n o k arr) (tree_steps c0 n o k arr).
Proof. revert k arr. induction n; intros; cbn [tree_steps]; st. Qed.
#[local] Hint Resolve st_tree_steps : stops.
Lemma st_tree_fold o arr : stops (tree_fold c1 o arr) (tree_fold c0 o arr).
Proof. unfold tree_fold. st. Qed.

Lemma st_cofactor_impl fuel i k m a : stops (cofactor_impl c1 fuel i k m a) (cofactor_impl c0 fuel i k m a).
Proof. revert m a. induction fuel; intros; cbn [cofactor_impl]; st. Qed.
#[local] Hint Resolve st_cofactor_impl : stops.
Lemma st_cofactor a i k : stops (get_cofactor c1 a i k) (get_cofactor c0 a i k).
Proof. unfold get_cofactor. st. Qed.
Lemma st_cofactors_impl fuel vs t m a : stops (cofactors_impl c1 fuel vs t m a) (cofactors_impl c0 fuel vs t m a).
Proof. revert t m a. induction fuel; intros; cbn [cofactors_impl]; st. Qed.
#[local] Hint Resolve st_cofactors_impl : stops.
Lemma st_cofactors a vs : stops (get_cofactors c1 a vs) (get_cofactors c0 a vs).
Proof. unfold get_cofactors. st. Qed.
Lemma st_transform_impl fuel f m a : stops (transform_impl c1 fuel f m a) (transform_impl c0 fuel f m a).
Proof. revert m a. induction fuel; intros; cbn [transform_impl]; st. Qed.
#[local] Hint Resolve st_transform_impl : stops.
Lemma st_transform f a : stops (transform c1 f a) (transform c0 f a).
Proof. unfold transform. st. Qed.
Lemma st_apply_n fuel f m lr : stops (apply_n_impl c1 fuel f m lr) (apply_n_impl c0 fuel f m lr).
Proof.
  revert m lr. induction fuel; intros; cbn [apply_n_impl]; [st|]. destruct lr as [l r].
  change (pack_lookup c1) with (pack_lookup c0). st.
Qed.
#[local] Hint Resolve st_apply_n : stops.
Lemma st_expression_impl e : stops (from_expression_impl c1 e) (from_expression_impl c0 e).
Proof. induction e; cbn [from_expression_impl]; st. Qed.
#[local] Hint Resolve st_expression_impl : stops.
Lemma st_expression e : stops (from_expression_tree c1 e) (from_expression_tree c0 e).
Proof. unfold from_expression_tree. st. Qed.

Lemma st_dpld_impl fuel vc f m lr : stops (dpld_impl c1 fuel vc f m lr) (dpld_impl c0 fuel vc f m lr).
Proof. revert m lr. induction fuel; intros; cbn [dpld_impl]; [st|]. destruct lr as [l r]. st. Qed.
#[local] Hint Resolve st_dpld_impl : stops.
Lemma st_dpld vc f a : stops (dpld c1 vc f a) (dpld c0 vc f a).
Proof. unfold dpld. st. Qed.
#[local] Hint Resolve st_dpld : stops.
Lemma st_extend_at k i a : stops (extend_at c1 k i a) (extend_at c0 k i a).
Proof. unfold extend_at. st. Qed.
#[local] Hint Resolve st_extend_at : stops.
Lemma st_dpld_e_impl fuel k i m a : stops (to_dpld_e_impl c1 fuel k i m a) (to_dpld_e_impl c0 fuel k i m a).
Proof. revert m a. induction fuel; intros; cbn [to_dpld_e_impl]; st. Qed.
#[local] Hint Resolve st_dpld_e_impl : stops.
Lemma st_to_dpld_e k i a : stops (to_dpld_e c1 k i a) (to_dpld_e c0 k i a).
Proof. unfold to_dpld_e. st. Qed.
#[local] Hint Resolve st_to_dpld_e : stops.
Lemma st_dpld_e vc f k a : stops (dpld_e c1 vc f k a) (dpld_e c0 vc f k a).
Proof. unfold dpld_e. st. Qed.
Lemma st_mnf_impl fuel m a : stops (to_mnf_impl c1 fuel m a) (to_mnf_impl c0 fuel m a).
Proof. revert m a. induction fuel; intros; cbn [to_mnf_impl]; st. Qed.
#[local] Hint Resolve st_mnf_impl : stops.
Lemma st_mnf a : stops (to_mnf c1 a) (to_mnf c0 a).
Proof. unfold to_mnf. st. Qed.

#[local] Hint Resolve st_constant st_variable st_variable_not st_from_vector st_expression st_left_fold st_tree_fold
  st_transform st_cofactor st_cofactors st_dpld_e st_mnf : stops.

Lemma st_exec k vars : stops (exec c1 k vars) (exec c0 k vars).
Proof. unfold exec, force_reorder. st. Qed.

Lemma st_run ks vars : stops (run c1 ks vars) (run c0 ks vars).
Proof. revert vars. induction ks; intros; cbn [run]; [apply st_refl|]. apply st_bind; [apply st_exec|auto]. Qed.
End calls.

Section queries.
Context (c : cfg).
Local Notation c1 := (built true c).
Local Notation c0 := (built false c).

Lemma st_evaluate_loop fuel vals a : stops (evaluate_loop c1 fuel vals a) (evaluate_loop c0 fuel vals a).
Proof. revert a. induction fuel; intros; cbn [evaluate_loop]; st. Qed.
Lemma st_evaluate a vals : stops (evaluate c1 a vals) (evaluate c0 a vals).
Proof. apply st_evaluate_loop. Qed.
#[local] Hint Resolve st_evaluate : stops.
Lemma st_vector_out fuel a vals : stops (to_vector_loop c1 fuel a vals) (to_vector_loop c0 fuel a vals).
Proof. revert vals. induction fuel; intros; cbn [to_vector_loop]; st. Qed.
#[local] Hint Resolve st_vector_out : stops.
Lemma st_to_vector a : stops (to_vector c1 a) (to_vector c0 a).
Proof. unfold to_vector. st. Qed.
Lemma st_index_node_count i : stops (index_node_count c1 i) (index_node_count c0 i).
Proof. unfold index_node_count. st. Qed.
Lemma st_value_check v : stops (value_check c1 v) (value_check c0 v).
Proof. unfold value_check. st. Qed.
#[local] Hint Resolve st_value_check : stops.
Lemma st_satisfy_count v a : stops (satisfy_count c1 v a) (satisfy_count c0 v a).
Proof. unfold satisfy_count. st. Qed.
Lemma st_satisfy_one v a : stops (satisfy_one c1 v a) (satisfy_one c0 v a).
Proof. unfold satisfy_one. st. Qed.
Lemma st_satisfy_all v a : stops (satisfy_all c1 v a) (satisfy_all c0 v a).
Proof. unfold satisfy_all. st. Qed.

Lemma st_trav_post {T} (f1 f0 : T -> positive -> M T) : (forall x a, stops (f1 x a) (f0 x a)) ->
  forall fuel x a, stops (trav_post f1 fuel x a) (trav_post f0 fuel x a).
Proof. intros H fuel. induction fuel; intros; cbn [trav_post]; st; apply H. Qed.
Lemma st_traverse_post {T} (f1 f0 : T -> positive -> M T) : (forall x a, stops (f1 x a) (f0 x a)) ->
  forall x a, stops (traverse_post c1 f1 x a) (traverse_post c0 f0 x a).
Proof. intros H x a. unfold traverse_post. apply st_bind; [by apply st_trav_post|]. st. Qed.
Lemma st_traverse_level {T} (f1 f0 : T -> positive -> M T) : (forall x a, stops (f1 x a) (f0 x a)) ->
  forall x a, stops (traverse_level c1 f1 x a) (traverse_level c0 f0 x a).
Proof.
  intros H. assert (V : forall x a, stops (level_visit c1 f1 x a) (level_visit c0 f0 x a)).
  { intros x a. unfold level_visit. apply st_bind; [apply H|]. st. }
  assert (L : forall k l x, stops (trav_levels c1 f1 k l x) (trav_levels c0 f0 k l x)).
  { intros k. induction k; intros; cbn [trav_levels]; st. }
  intros x a. unfold traverse_level. st.
Qed.

Context {R : Type} (ar : arith R).

Lemma st_wrapped (ps : list R) i k : stops (wrapped c1 ar ps i k) (wrapped c0 ar ps i k).
Proof. unfold wrapped. st. Qed.

(** the probabilities may be those of prob_vector_wrap, which has an assertion of its own *)
Lemma st_ntps_post sel (p1 p0 : probs) a data : (forall i k, stops (p1 i k) (p0 i k)) ->
  stops (ntps_post c1 ar sel p1 a data) (ntps_post c0 ar sel p0 a data).
Proof.
  intros H. assert (S : forall a i d k, stops (post_son ar p1 a i d k) (post_son ar p0 a i d k)).
  { intros. unfold post_son. st; apply H. }
  assert (O : forall d a, stops (post_op c1 ar p1 d a) (post_op c0 ar p0 d a)).
  { intros. unfold post_op. st; apply S. }
  unfold ntps_post. apply st_bind; [apply st_refl|intros ?]. apply st_bind; [apply st_refl|intros ?].
  apply st_bind; [by apply st_traverse_post|]. st.
Qed.

Lemma st_ntps_level (p1 p0 : probs) a data : (forall i k, stops (p1 i k) (p0 i k)) ->
  stops (ntps_level c1 ar p1 a data) (ntps_level c0 ar p0 a data).
Proof.
  intros H. assert (S : forall a i d k, stops (level_son ar p1 a i d k) (level_son ar p0 a i d k)).
  { intros. unfold level_son. st; apply H. }
  assert (O : forall d a, stops (level_op c1 ar p1 d a) (level_op c0 ar p0 d a)).
  { intros. unfold level_op. st; apply S. }
  unfold ntps_level. apply st_bind; [apply st_refl|intros ?]. apply st_bind; [apply st_refl|intros ?].
  by apply st_traverse_level.
Qed.

Lemma st_availability j (p1 p0 : probs) a data : (forall i k, stops (p1 i k) (p0 i k)) ->
  stops (calculate_availability c1 ar j p1 a data) (calculate_availability c0 ar j p0 a data).
Proof. intros H. unfold calculate_availability. apply st_bind; [apply st_refl|]. intros. by apply st_ntps_post. Qed.
Lemma st_unavailability j (p1 p0 : probs) a data : (forall i k, stops (p1 i k) (p0 i k)) ->
  stops (calculate_unavailability c1 ar j p1 a data) (calculate_unavailability c0 ar j p0 a data).
Proof. intros H. unfold calculate_unavailability. apply st_bind; [apply st_refl|]. intros. by apply st_ntps_post. Qed.

Lemma st_count_data v a data : stops (satisfy_count_data c1 ar v a data) (satisfy_count_data c0 ar v a data).
Proof. unfold satisfy_count_data. st. Qed.
#[local] Hint Resolve st_count_data : stops.
Lemma st_state_frequency j a data : stops (state_frequency c1 ar j a data) (state_frequency c0 ar j a data).
Proof. unfold state_frequency. st. Qed.

Lemma st_fussell (p1 p0 : probs) a u cs ci data : (forall i k, stops (p1 i k) (p0 i k)) ->
  stops (fussell_vesely_importance c1 ar p1 a u cs ci data) (fussell_vesely_importance c0 ar p0 a u cs ci data).
Proof.
  intros H. assert (S : forall k l acc, stops (sum_lower ar p1 ci l k acc) (sum_lower ar p0 ci l k acc)).
  { intros k. induction k; intros; cbn [sum_lower]; st; apply H. }
  unfold fussell_vesely_importance. apply st_bind; [apply st_mnf|intros ?].
  apply st_bind; [by apply st_ntps_post|intros ?]. apply st_bind; [apply S|]. st.
Qed.

End queries.

Lemma st_symbolic c j pr a : stops (symbolic_availability (built true c) j pr a) (symbolic_availability (built false c) j pr a).
Proof.
  assert (O : forall m a, stops (sym_op (built true c) pr m a) (sym_op (built false c) pr m a)).
  { intros. unfold sym_op. st. }
  unfold symbolic_availability. apply st_bind; [apply st_refl|intros ?]. apply st_bind; [apply st_refl|intros ?].
  apply st_bind; [by apply st_traverse_post|]. st.
Qed.

Lemma st_mcvs_g c j x t vars : stops (mcvs_g (built true c) j x t vars) (mcvs_g (built false c) j x t vars).
Proof.
  unfold mcvs_g, vectors_g. change (mcvs_changes (built true c)) with (mcvs_changes (built false c)).
  apply st_bind; [apply st_run|intros v1]. apply st_bind; [apply st_refl|intros a]. apply st_bind; [apply st_satisfy_all|intros out].
  apply st_bind; [apply st_run|intros v2]. apply st_refl.
Qed.

Lemma run_app_eq c ks ks' : forall vars s,
  run c (ks ++ ks') vars s = match run c ks vars s with Ok v s' => run c ks' v s' | Err e => Err e | Fuel => Fuel end.
Proof.
  induction ks as [|k ks IH]; intros vars s; [done|]. cbn [app run]. unfold bind at 1 2.
  destruct (exec c k vars s); [apply IH|done..].
Qed.
