(** * C75: the enumeration of the domain and the expressions of the tests *)

From stdpp Require Import gmap list list_numbers.
From Coq Require Import ZArith Lia.
From Verif Require Import Base Ops Tables NodeManager Tools Sift DiagramManager World Queries.
From Verif Require Import Heap Inv Eval Expr VecSpec Vec OpSpec OpProof WorldSpec Ctor History PropsBase Chain PropsBase2 Examples Refuted.
From Verif Require Import QuerySpec PropsCore PropsCore2 PropsDpld Prob ProbSpec PropsProb Tsl TslProof TslProof2 PropsTsl FromPla.
From Verif Require Import TslIter TslIterProof TslDiagram.

Local Open Scope nat_scope.
Local Opaque exec run new_manager.

(** ** The iterator *)

(** iterating up to the sentinel gives every vector of values once; the k-th one is the
    one whose digits, in the given order with the first variable the most significant
    one, form the number k: the order of the vectors of from_vector and to_vector *)
Theorem C75_domain_iterator : forall c order fuel, has_states c -> nvars c <> 0 -> order ≡ₚ seq 0 (nvars c) -> prodl c order < fuel ->
  exists it xs, ordered_iter (c_doms c) order = Val it /\ collect fuel Val it = Val xs /\
    forall k x, xs !! k = Some x <-> vals_ok c x /\ vec_index c order (of_vals x) = k.
Proof.
  intros c order fuel Hs Hn Hp HF.
  destruct (all_ok c order Hp Hn Val (fun x => x) fuel Hs ltac:(done) HF) as (xs&it&E1&E2&H). exists it, xs.
  rewrite map_id in E2. by split_and!.
Qed.

Example C75_domain_iterator_case : exists it, ordered_iter [2; 3; 2] [2; 0; 1] = Val it /\ collect 20 Val it =
  Val [[0; 0; 0]; [0; 1; 0]; [0; 2; 0]; [1; 0; 0]; [1; 1; 0]; [1; 2; 0]; [0; 0; 1]; [0; 1; 1]; [0; 2; 1]; [1; 0; 1]; [1; 1; 1]; [1; 2; 1]].
Proof. eexists. split; [reflexivity|by vm_compute]. Qed.

(** the comments at iterators.hpp:36-47 say that the variable order[0] changes most
    often; it changes least often *)
Theorem C75_significance_refuted : exists it it', implicit_iter [2; 2] = Val it /\ next it = Val it' /\
  di_vals it !! 0 = di_vals it' !! 0 /\ di_vals it !! 1 <> di_vals it' !! 1.
Proof. eexists _, _. split; [reflexivity|]. split; [by vm_compute|]. split; [done|]. by vm_compute. Qed.

(** the iterator with a fixed variable (as in the test of cofactors,
    core.test.cpp:739-743) cannot be made *)
Theorem C75_fixed_refuted : exists doms order fixed, order ≡ₚ seq 0 (length doms) /\
  Forall (fun p => exists d, doms !! fst p = Some d /\ snd p < d) fixed /\ make_iter doms order fixed = Bad EUninit.
Proof.
  exists [2; 2; 2], [0; 1; 2], [(0, 0); (2, 1)]. split; [done|]. split; [|done].
  repeat constructor; eexists; (split; [reflexivity|simpl; lia]).
Qed.

(** an iterator without variables to increment never reaches the sentinel *)
Theorem C75_endless : forall doms fuel, doms <> [] -> exists it, ordered_iter doms [] = Val it /\ collect fuel Val it = Loop.
Proof.
  intros doms fuel Hne. eexists. split; [reflexivity|].
  change (free_indices [] []) with (@nil nat). induction fuel as [|fuel IH]; [done|]. cbn [collect].
  destruct doms as [|d doms]; [done|]. cbn [length replicate at_end di_vals obind next bump di_doms di_idx] in *. by rewrite IH.
Qed.

(** and without any variables at all it stands at the sentinel from the start,
    although a function of no variables has one vector of values *)
Theorem C75_no_variables_refuted : exists it c, c_doms c = [] /\ vals_ok c [] /\ implicit_iter (c_doms c) = Val it /\ collect 5 Val it = Val [].
Proof.
  exists (DIter [] [] []), (Cfg [] None (fun p => N.pos p * 64)%N true false). split; [done|]. split; [|done].
  split; [done|]. intros i Hi. simpl in Hi. unfold nvars in Hi. simpl in Hi. lia.
Qed.

(** ** Expression trees *)

Definition draws_ok (draw : list bool -> choice) : Prop := forall p, (2 <= ch_denom (draw p) <= 10)%Z.

(** whatever the random numbers and whichever argument is evaluated first, the tree has
    every variable at one leaf, and its function is a coherent structure function: it
    does not decrease when a variable grows, and its value is the value of one of them *)
Theorem C75_make_tree : forall draw n, draws_ok draw -> 1 <= n -> (Z.of_nat n <= max32)%Z ->
  exists e, make_tree n draw (Z.of_nat n) = Val e /\ leaves e ≡ₚ seq 0 n /\
    (forall rho, exists i, i < n /\ xeval (as_expr e) rho = Z.of_nat (rho i)) /\
    (forall rho rho', (forall i, rho i <= rho' i) -> (xeval (as_expr e) rho <= xeval (as_expr e) rho')%Z).
Proof.
  intros draw n Hd H1 HM. destruct (grow_ok draw Hd n n [] 0 H1 ltac:(done) HM) as (e&E&Nc&L). exists e. split_and!.
  - unfold make_tree. rewrite E. done.
  - done.
  - intros rho. destruct (tree_value e rho Nc) as (i&Hi&Ev). exists i. split; [|done].
    rewrite L in Hi. apply elem_of_seq in Hi. lia.
  - apply tree_monotone.
Qed.

Definition sample_draw (p : list bool) : choice :=
  Choice (2 + Z.of_nat (length p)) (if Nat.even (length p) then OMax else OMin) (Nat.odd (length p)).

Example C75_make_tree_case : draws_ok (fun p => sample_draw (take 3 p)) /\ make_tree 6 sample_draw 6 =
  Val (TOp OMax (TOp OMin (TVar 3) (TOp OMax (TVar 5) (TVar 4))) (TOp OMin (TVar 0) (TOp OMax (TVar 2) (TVar 1)))).
Proof.
  split; [|by vm_compute]. intros p. unfold sample_draw. cbn [ch_denom]. pose proof (take_length p 3). lia.
Qed.

(** without variables the recursion does not end before the arithmetic overflows *)
Theorem C75_make_tree_refuted : forall draw fuel n e, draws_ok draw -> (n <= 0)%Z -> make_tree fuel draw n <> Val e.
Proof.
  intros draw fuel n e Hd Hn. unfold make_tree.
  assert (X : forall fuel p n i r, (n <= 0)%Z -> grow fuel draw p n i <> Val r).
  { clear - Hd. induction fuel as [|fuel IH]; intros p n i r Hn; [done|]. cbn [grow].
    destruct (Z.eqb_spec n 1); [lia|]. pose proof (Hd p) as Hp.
    assert (Hq : (Z.quot n (ch_denom (draw p)) <= 0)%Z).
    { rewrite <- (Z.opp_involutive n), Z.quot_opp_l by lia. pose proof (Z.quot_pos (- n) (ch_denom (draw p))). lia. }
    replace (Z.max 1 (Z.quot n (ch_denom (draw p)))) with 1%Z by lia.
    unfold int32. destruct ((n - 1 <=? max32) && (- max32 - 1 <=? n - 1))%Z; [|done]. cbn [obind].
    destruct (ch_left_first (draw p)).
    - destruct (grow fuel draw (true :: p) 1 i) as [l|?|]; [|done|done]. cbn [obind].
      destruct (grow fuel draw (false :: p) (n - 1) (snd l)) as [q|?|] eqn:E; [|done|done]. exfalso. eapply IH; [|exact E]. lia.
    - destruct (grow fuel draw (false :: p) (n - 1) i) as [q|?|] eqn:E; [|done|done]. exfalso. eapply IH; [|exact E]. lia. }
  destruct (grow fuel draw [] n 0) as [r|?|] eqn:E; [|done|done]. exfalso. by eapply X.
Qed.

(** ** make_vector, and the tree as a diagram *)

Lemma prodl_prodn c : prodl c (seq 0 (nvars c)) = prodn (c_doms c).
Proof.
  assert (G : forall m i, i + m = nvars c -> prodl c (seq i m) = prodn (drop i (c_doms c))).
  { induction m as [|m IH]; intros i Hi; cbn [seq prodl]; [by rewrite drop_ge by (unfold nvars in *; lia)|].
    rewrite (IH (S i)) by lia. by rewrite (drop_S _ _ _ (TslIterProof.dom_lookup c i ltac:(lia))). }
  rewrite (G (nvars c) 0 eq_refl). by rewrite drop_0.
Qed.

(** the position of the values in the natural order of the variables *)
Definition place (c : cfg) (vals : list nat) : nat := vec_index c (seq 0 (nvars c)) (of_vals vals).

Theorem C75_make_vector : forall c e fuel, has_states c -> nvars c <> 0 -> (forall i, i ∈ leaves e -> i < nvars c) ->
  (dom_prod (c_doms c) <= max32)%Z -> prodl c (seq 0 (nvars c)) < fuel ->
  exists vec, make_vector fuel e (c_doms c) = Val vec /\ length vec = prodl c (seq 0 (nvars c)) /\
    forall vals, vals_ok c vals -> vec !! place c vals = Some (xeval (as_expr e) (of_vals vals)).
Proof.
  intros c e fuel Hs Hn Hl Hb HF.
  destruct (all_ok c (seq 0 (nvars c)) ltac:(done) Hn (eval_tree e) (fun x => xeval (as_expr e) (of_vals x)) fuel Hs) as (xs&it&E1&E2&H).
  - intros vals Hv. by apply (eval_tree_ok c).
  - done.
  - exists (map (fun x => xeval (as_expr e) (of_vals x)) xs). split_and!.
    + unfold make_vector. rewrite dom_prod_states, states_length in Hb.
      rewrite domain_size_ok; [|by apply has_states_all|done]. cbn [obind].
      change (implicit_iter (c_doms c)) with (ordered_iter (c_doms c) (seq 0 (nvars c))). by rewrite E1.
    + rewrite map_length. set (N := prodl c (seq 0 (nvars c))) in *. apply Nat.le_antisymm.
      * destruct (decide (length xs <= N)) as [|Hgt]; [done|]. exfalso.
        destruct (lookup_lt_is_Some_2 xs N ltac:(lia)) as [x Hx]. apply H in Hx as [Hx Ex].
        pose proof (vec_index_lt c (seq 0 (nvars c)) (of_vals x)) as B. rewrite Ex in B. unfold N in B.
        specialize (B ltac:(intros i Hi; apply Hx; apply elem_of_seq in Hi; lia)). lia.
      * destruct (decide (N <= length xs)) as [|Hlt]; [done|]. exfalso.
        destruct (vec_index_surj c (seq 0 (nvars c)) (length xs)) as (rho&Er&Hr); [apply NoDup_ListNoDup, seq_NoDup| |lia|].
        { intros i Hi. apply Hs. apply elem_of_seq in Hi. lia. }
        assert (Hv : valid c rho). { intros i Hi. destruct (Hr i) as [|[Hni _]]; [done|]. destruct Hni. apply elem_of_seq. lia. }
        destruct (vals_of c rho Hv) as [Ho Eo].
        assert (X : xs !! length xs = Some (map rho (seq 0 (nvars c)))).
        { apply H. split; [done|]. rewrite <- Er. apply vec_index_ext. intros i Hi. apply Eo. apply elem_of_seq in Hi. lia. }
        apply lookup_lt_Some in X. lia.
    + intros vals Hv. rewrite list_lookup_fmap. rewrite (proj2 (H (place c vals) vals)); [done|]. done.
Qed.

(** the vector that the tests compute from a tree is the one of the diagram that the
    manager builds from it, and makes the truth table of the same function; [e] is any
    tree whose leaves are variables of the manager, such as those of C75_make_tree *)
Theorem C75_tree_agrees : forall c strict opsem args ks s vars A e d vars' s' fuel,
  wf_cfg c -> history c opsem strict args ks s vars A -> ab_order A = seq 0 (nvars c) -> nvars c <> 0 ->
  no_const e -> (forall i, i ∈ leaves e -> i < nvars c) -> (dom_prod (c_doms c) <= max32)%Z -> prodl c (seq 0 (nvars c)) < fuel ->
  exec c (CExpr d (as_expr e)) vars s = Ok vars' s' ->
  exists a vec t, vars' !! d = Some a /\ make_vector fuel e (c_doms c) = Val vec /\ to_vector c a s' = Ok vec s' /\
    make_table vec (c_doms c) = Val t /\ table_of c (xeval (as_expr e)) t.
Proof.
  intros c strict opsem args ks s vars A e d vars' s' fuel Hc H Ho Hn Nc Hl Hb HF E.
  assert (Hs : has_states c) by (intros i Hi; by apply (wc_dom _ Hc)).
  assert (Hx : xok c (as_expr e)).
  { apply tree_xok; [done|done|]. intros i Hi v Hv. left. pose proof (wc_dom_small c Hc i Hi).
    split; [lia|]. destruct (c_fixed c) as [k|] eqn:Ek; [|done]. pose proof (wc_fixed c Hc k Ek i Hi). lia. }
  set (B := AState (<[d := xeval (as_expr e)]> (ab A)) (ab_order A) (ab_canon A) (ab_cache A) false).
  assert (H1 : history c opsem strict args (ks ++ [CExpr d (as_expr e)]) s' vars' B).
  { econstructor; [exact H| |exact E]. by apply S_expr. }
  destruct (history_value _ _ _ _ _ _ _ _ d (xeval (as_expr e)) Hc H1 (lookup_insert _ _ _)) as (a&Ha&V).
  destruct (C75_make_vector c e fuel Hs Hn Hl Hb HF) as (vec&Ev&Lv&Hvec).
  destruct (C61_agrees c strict opsem args _ s' vars' B d (xeval (as_expr e)) a Hc H1 (lookup_insert _ _ _) Ha Ho Hn Hb) as (vs&t&Et&Em&Ht).
  { exists (replicate (nvars c) 0). assert (Z0 : vals_ok c (replicate (nvars c) 0)) by exact (proj1 (zeros_ok c [] Hn Hs)). split; [done|].
    destruct (tree_value e (of_vals (replicate (nvars c) 0)) Nc) as (i&Hi&->). pose proof (proj2 Z0 i (Hl i Hi)) as L0.
    pose proof (wc_dom_small c Hc i (Hl i Hi)). change Undef with 2147483647%Z. change Nondet with 2147483646%Z in *. lia. }
  exists a, vec, t. split; [done|]. split; [done|].
  assert (vec = vs) as ->; [|done].
  destruct (C08_to_vector _ _ _ _ _ _ _ _ _ _ Hc H1 Ha) as (ws&Tw&Lw&Hws). rewrite Et in Tw. injection Tw as <-.
  change (ab_order B) with (ab_order A) in Lw, Hws. rewrite Ho in Lw, Hws.
  apply list_eq. intros k. destruct (decide (k < prodl c (seq 0 (nvars c)))) as [Hk|Hk].
  - destruct (vec_index_surj c (seq 0 (nvars c)) k) as (rho&Er&Hr); [apply NoDup_ListNoDup, seq_NoDup| |done|].
    { intros i Hi. apply Hs. apply elem_of_seq in Hi. lia. }
    assert (Hv : valid c rho). { intros i Hi. destruct (Hr i) as [|[Hni _]]; [done|]. destruct Hni. apply elem_of_seq. lia. }
    destruct (vals_of c rho Hv) as [Hvo Eo].
    assert (X : place c (map rho (seq 0 (nvars c))) = k).
    { rewrite <- Er. apply vec_index_ext. intros i Hi. apply Eo. apply elem_of_seq in Hi. lia. }
    destruct (Hws _ Hvo) as (v&Hv1&Hv2). change (vs !! place c (map rho (seq 0 (nvars c))) = Some v) in Hv1.
    pose proof (Hvec _ Hvo) as Hv3. rewrite X in Hv1, Hv3. rewrite Hv1, Hv3. rewrite (V _ Hvo) in Hv2. congruence.
  - rewrite !lookup_ge_None_2; [done| |]; lia.
Qed.

(** ** Maxima of minima *)

(** [v] is the largest number such that all variables of some term have at least the value [v] *)
Definition minmax_value (e : list (list nat)) (rho : asg) (v : Z) : Prop :=
  (exists t, t ∈ e /\ forall i, i ∈ t -> (v <= Z.of_nat (rho i))%Z) /\
  forall t, t ∈ e -> exists i, i ∈ t /\ (Z.of_nat (rho i) <= v)%Z.

(** the terms are not empty and their variables exist *)
Definition terms_ok (c : cfg) (e : list (list nat)) : Prop :=
  e <> [] /\ Forall (fun t => t <> [] /\ Forall (fun i => i < nvars c) t) e.

Lemma fold_min_spec l : forall x, let m := fold_left Z.min l x in m ∈ x :: l /\ forall y, y ∈ x :: l -> (m <= y)%Z.
Proof.
  induction l as [|z l IH]; intros x m; cbn [fold_left] in m.
  - unfold m. split; [by left|]. intros y Hy. apply elem_of_list_singleton in Hy. lia.
  - destruct (IH (Z.min x z)) as [I1 I2]. fold m in I1, I2. split.
    + apply elem_of_cons in I1 as [E|I1]; [|do 2 right; done]. rewrite E.
      destruct (Z.min_spec x z) as [[_ ->]|[_ ->]]; [by left|right; by left].
    + intros y Hy. pose proof (I2 (Z.min x z) ltac:(by left)). apply elem_of_cons in Hy as [->|Hy]; [lia|].
      apply elem_of_cons in Hy as [->|Hy]; [lia|]. apply I2. by right.
Qed.

Lemma fold_max_spec l : forall x, let m := fold_left Z.max l x in m ∈ x :: l /\ forall y, y ∈ x :: l -> (y <= m)%Z.
Proof.
  induction l as [|z l IH]; intros x m; cbn [fold_left] in m.
  - unfold m. split; [by left|]. intros y Hy. apply elem_of_list_singleton in Hy. lia.
  - destruct (IH (Z.max x z)) as [I1 I2]. fold m in I1, I2. split.
    + apply elem_of_cons in I1 as [E|I1]; [|do 2 right; done]. rewrite E.
      destruct (Z.max_spec x z) as [[_ ->]|[_ ->]]; [right; by left|by left].
    + intros y Hy. pose proof (I2 (Z.max x z) ltac:(by left)). apply elem_of_cons in Hy as [->|Hy]; [lia|].
      apply elem_of_cons in Hy as [->|Hy]; [lia|]. apply I2. by right.
Qed.

Lemma term_val1_spec rho t : t <> [] ->
  (exists i, i ∈ t /\ term_val1 rho t = Z.of_nat (rho i)) /\ forall i, i ∈ t -> (term_val1 rho t <= Z.of_nat (rho i))%Z.
Proof.
  destruct t as [|i t]; [done|]. intros _. unfold term_val1. cbn [map fold1].
  destruct (fold_min_spec (map (fun i => Z.of_nat (rho i)) t) (Z.of_nat (rho i))) as [S1 S2].
  change (fold_left (op_math MIN)) with (fold_left Z.min). split.
  - change (_ :: map _ t) with (map (fun i => Z.of_nat (rho i)) (i :: t)) in S1. apply elem_of_list_fmap in S1 as (j&E&Hj). by exists j.
  - intros j Hj. apply S2. change (_ :: map _ t) with (map (fun i => Z.of_nat (rho i)) (i :: t)). apply elem_of_list_fmap. by exists j.
Qed.

Lemma fold1_value c rho e : terms_ok c e -> minmax_value e rho (fold1 MAX (map (term_val1 rho) e)).
Proof.
  intros [Hne He]. destruct e as [|t0 e]; [done|]. cbn [map fold1]. change (fold_left (op_math MAX)) with (fold_left Z.max).
  destruct (fold_max_spec (map (term_val1 rho) e) (term_val1 rho t0)) as [S1 S2].
  set (m := fold_left _ _ _) in *. clearbody m. rewrite Forall_forall in He. split.
  - change (_ :: map _ e) with (map (term_val1 rho) (t0 :: e)) in S1. apply elem_of_list_fmap in S1 as (t&->&Ht).
    exists t. split; [done|]. apply (term_val1_spec rho t). by apply He.
  - intros t Ht. destruct (term_val1_spec rho t) as [(i&Hi&Ei) _]; [by apply He|]. exists i. split; [done|]. rewrite <- Ei.
    apply S2. change (_ :: map _ e) with (map (term_val1 rho) (t0 :: e)). apply elem_of_list_fmap. by exists t.
Qed.

Lemma minmax_value_fun e rho v w : minmax_value e rho v -> minmax_value e rho w -> v = w.
Proof.
  intros [(t&Ht&H1) H2] [(u&Hu&H3) H4]. destruct (H4 t Ht) as (i&Hi&?), (H2 u Hu) as (j&Hj&?).
  specialize (H1 i Hi). specialize (H3 j Hj). lia.
Qed.

(** the evaluation of the tests gives that value *)
Theorem C75_minmax : forall c e vals, wf_cfg c -> terms_ok c e -> vals_ok c vals ->
  exists v, eval_minmax e vals = Val v /\ minmax_value e (of_vals vals) v.
Proof.
  intros c e vals Hc [Hne He] Hv. eexists. split.
  - apply (eval_minmax_ok c); [done|]. eapply Forall_impl; [exact He|]. intros t [_ Ht] i Hi. rewrite Forall_forall in Ht. by apply Ht.
  - assert (Et : map (fun t => foldr Z.min max32 (map (fun i => Z.of_nat (of_vals vals i)) t)) e = map (term_val1 (of_vals vals)) e).
    { apply map_ext_in. intros t Ht. apply elem_of_list_In in Ht. rewrite Forall_forall in He. destruct (He t Ht) as [Hn Hi].
      destruct t as [|i t]; [done|]. cbn [map]. rewrite foldr_min_fold. unfold term_val1. cbn [map fold1].
      change (fold_left (op_math MIN)) with (fold_left Z.min). apply Z.min_r.
      destruct (fold_min_spec (map (fun i => Z.of_nat (of_vals vals i)) t) (Z.of_nat (of_vals vals i))) as [_ S2].
      specialize (S2 _ ltac:(by left)). inversion Hi; subst. pose proof (proj2 Hv i ltac:(done)). pose proof (wc_dom_small c Hc i ltac:(done)).
      change Nondet with 2147483646%Z in *. unfold max32. lia. }
    rewrite Et. assert (M : foldr Z.max min32 (map (term_val1 (of_vals vals)) e) = fold1 MAX (map (term_val1 (of_vals vals)) e)).
    { assert (P : forall y, y ∈ map (term_val1 (of_vals vals)) e -> (0 <= y)%Z).
      { intros y Hy. apply elem_of_list_fmap in Hy as (t&->&Ht). rewrite Forall_forall in He.
        destruct (term_val1_spec (of_vals vals) t) as [(i&_&->) _]; [by apply He|lia]. }
      assert (Q : map (term_val1 (of_vals vals)) e <> []) by (by destruct e).
      revert P Q. generalize (map (term_val1 (of_vals vals)) e) as l. clear.
      intros [|x l] P Q; [done|]. cbn [fold1]. change (fold_left (op_math MAX)) with (fold_left Z.max). specialize (P x ltac:(by left)).
      assert (G : forall x, foldr Z.max min32 (x :: l) = Z.max min32 (fold_left Z.max l x)).
      { clear. induction l as [|y l IH]; intros x; cbn [foldr fold_left]; [lia|]. rewrite <- IH. cbn [foldr]. lia. }
      rewrite G. apply Z.max_r. destruct (fold_max_spec l x) as [_ S2]. specialize (S2 x ltac:(by left)). unfold min32, max32 in *. lia. }
    rewrite M. by apply (fold1_value c).
Qed.

Example C75_minmax_case : terms_ok ex_cfg [[0; 1]; [2]; [1; 1]] /\ eval_minmax [[0; 1]; [2]; [1; 1]] [0; 2; 1] = Val 2%Z.
Proof. split; [|by vm_compute]. split; [done|]. repeat constructor; try done; vm_compute; lia. Qed.

(** an expression without terms and one with an empty term *)
Theorem C75_minmax_empty_refuted : eval_minmax [] [0; 1] = Val (-2147483648)%Z /\ eval_minmax [[0]; []] [0; 1] = Val 2147483647%Z.
Proof. split; by vm_compute. Qed.

(** the random expressions of the tests *)
Theorem C75_make_minmax : forall c pick terms size, (forall t k, pick t k < nvars c) -> 1 <= terms -> 1 <= size ->
  exists e, make_minmax pick (nvars c) terms size = Val e /\ length e = terms /\ Forall (fun t => length t = size) e /\ terms_ok c e.
Proof.
  intros c pick terms size Hp Ht Hs. assert (Hn : nvars c <> 0) by (specialize (Hp 0 0); lia).
  unfold make_minmax. destruct (Nat.eqb_spec (nvars c) 0); [done|]. eexists. split; [reflexivity|].
  split; [by rewrite map_length, seq_length|]. split; [|split].
  - rewrite Forall_map. apply Forall_forall. intros t _. by rewrite map_length, seq_length.
  - destruct terms; [lia|done].
  - rewrite Forall_map. apply Forall_forall. intros t _. split; [destruct size; [lia|done]|].
    rewrite Forall_map. apply Forall_forall. intros k _. apply Hp.
Qed.

(** make_diagram, for both kinds of folds and in every manager: the diagram has the value
    of the expression, the other objects keep their functions, and no temporary object is
    left; [b] is the bound of the table of the operators (C54) *)
Theorem C75_minmax_diagram : forall c strict b p m args ks s vars A tree d q t e,
  wf_cfg c -> history c (ops_with b p m) strict args ks s vars A -> ab_cache A = true -> (forall k, c_fixed c = Some k -> b = k) ->
  terms_ok c e -> d < q -> q + length e <= t ->
  match run c (minmax_calls tree d q t e) vars s with
  | Ok vars' s' => exists A', history c (ops_with b p m) strict args (ks ++ minmax_calls tree d q t e) s' vars' A' /\
      (exists a, vars' !! d = Some a /\ forall vals, vals_ok c vals ->
        exists v, DiagramManager.evaluate c a vals s' = Ok v s' /\ eval_minmax e vals = Val v /\ minmax_value e (of_vals vals) v) /\
      (forall x F, x < q -> x <> d -> ab A !! x = Some F -> exists a, vars' !! x = Some a /\ computes c s' a F) /\
      ((forall x, q <= x -> ab A !! x = None) -> forall x, q <= x -> ab A' !! x = None)
  | Err e => e = ERefOver \/ (strict = false /\ e = EPool)
  | Fuel => False
  end.
Proof.
  intros c strict b p m args ks s vars A tree d q t e Hc H Hca Hb He Hd Hq.
  assert (Hn : nvars c <> 0).
  { destruct He as [Hne He]. destruct e as [|[|i u] e]; [done| |]; inversion He as [|? ? [? Hu] _]; subst; [done|]. inversion Hu; subst. lia. }
  destruct (minmax_step c b p m strict Hc Hn Hb tree d q t e A Hca Hd Hq (proj1 He) (proj2 He)) as (B&Ch&St&F&HF&HV).
  pose proof (run_chain c (ops_with b p m) strict args Hc _ ks s vars A B H Ch) as X.
  destruct (run c (minmax_calls tree d q t e) vars s) as [vars' s'|er|]; [|exact X|exact X]. exists B. split; [exact X|]. split; [|split].
  - destruct (history_value _ _ _ _ _ _ _ _ _ _ Hc X HF) as (a&Ha&W). exists a. split; [done|]. intros vals Hv.
    destruct (C75_minmax c e vals Hc He Hv) as (v&Ev&Mv). exists v. split; [|done]. rewrite (W vals Hv). f_equal.
    rewrite HV by apply Hv. eapply minmax_value_fun; [by apply (fold1_value c)|done].
  - intros x G Hx Hxd HG. apply (history_value _ _ _ _ _ _ _ _ _ _ Hc X). by rewrite (sp_same _ _ _ _ St).
  - intros Hfree x Hx. destruct (sp_old _ _ _ _ St x) as [->|]; [lia|by apply Hfree|done].
Qed.

(** hence the folds from the left and as a tree give the same diagram (the test
    core.test.cpp:204-214) *)
Theorem C75_folds_agree : forall c strict b p m args ks s vars A t1 t2 d1 d2 q t e vars1 s1 vars2 s2,
  wf_cfg c -> history c (ops_with b p m) strict args ks s vars A -> ab_cache A = true -> ab_canon A = true ->
  (forall k, c_fixed c = Some k -> b = k) -> terms_ok c e -> d1 < q -> d2 < q -> d1 <> d2 -> q + length e <= t ->
  run c (minmax_calls t1 d1 q t e) vars s = Ok vars1 s1 -> run c (minmax_calls t2 d2 q t e) vars1 s1 = Ok vars2 s2 ->
  equals vars2 d1 d2 = true.
Proof.
  intros c strict b p m args ks s vars A t1 t2 d1 d2 q t e vars1 s1 vars2 s2 Hc H Hca Hcn Hb He H1 H2 Hne Hq R1 R2.
  assert (Hn : nvars c <> 0).
  { destruct He as [Hne' He]. destruct e as [|[|i u] e]; [done| |]; inversion He as [|? ? [? Hu] _]; subst; [done|]. inversion Hu; subst. lia. }
  destruct (minmax_step c b p m strict Hc Hn Hb t1 d1 q t e A Hca H1 Hq (proj1 He) (proj2 He)) as (B&Ch&St&F&HF&HV).
  pose proof (run_chain c (ops_with b p m) strict args Hc _ ks s vars A B H Ch) as X. rewrite R1 in X.
  destruct (minmax_step c b p m strict Hc Hn Hb t2 d2 q t e B) as (B2&Ch2&St2&F2&HF2&HV2); try done; [by rewrite (sp_cache _ _ _ _ St)|apply He|apply He|].
  pose proof (run_chain c (ops_with b p m) strict args Hc _ _ s1 vars1 B B2 X Ch2) as Y. rewrite R2 in Y.
  assert (HF1 : ab B2 !! d1 = Some F) by (by rewrite (sp_same _ _ _ _ St2)).
  destruct (history_value _ _ _ _ _ _ _ _ _ _ Hc Y HF1) as (a1&Ha1&W1).
  destruct (history_value _ _ _ _ _ _ _ _ _ _ Hc Y HF2) as (a2&Ha2&W2).
  apply (C02_equals_exact c strict (ops_with b p m) args _ s2 vars2 B2 d1 d2 a1 a2 Hc Y); [|done|done|].
  - by rewrite (sp_canon _ _ _ _ St2), (sp_canon _ _ _ _ St).
  - intros vals Hv. rewrite (W1 vals Hv), (W2 vals Hv). f_equal. rewrite HV, HV2 by apply Hv. done.
Qed.

(** ** Cases *)

Definition sample_tree : tree := TOp OMax (TOp OMin (TVar 2) (TVar 0)) (TVar 1).

Example C75_make_vector_case : make_vector 20 sample_tree [2; 3; 2] = Val [0; 0; 1; 1; 2; 2; 0; 1; 1; 1; 2; 2]%Z.
Proof. by vm_compute. Qed.

Lemma sample_run : exists s vars s', new_manager cm args3 no_state = Ok tt s /\ exec cm (CExpr 0 (as_expr sample_tree)) ∅ s = Ok vars s'.
Proof.
  assert (X : match new_manager cm args3 no_state with Ok _ s => is_ok (exec cm (CExpr 0 (as_expr sample_tree)) ∅ s) | _ => false end = true) by by vm_compute.
  destruct (new_manager cm args3 no_state) as [[] s| |]; [|discriminate X..]. exists s.
  destruct (exec cm (CExpr 0 (as_expr sample_tree)) ∅ s) as [vars s'| |]; [|discriminate X..]. exists vars, s'. by split.
Qed.

Example C75_tree_agrees_case : exists s vars s' a vec t, exec cm (CExpr 0 (as_expr sample_tree)) ∅ s = Ok vars s' /\ vars !! 0 = Some a /\
  make_vector 20 sample_tree [2; 2; 2] = Val vec /\ to_vector cm a s' = Ok vec s' /\ make_table vec [2; 2; 2] = Val t /\
  table_of cm (xeval (as_expr sample_tree)) t.
Proof.
  destruct sample_run as (s&vars&s'&En&E).
  assert (H0 : history cm (ops_with 2 4 3) true args3 [] s ∅ (no_objects args3)) by (eapply H_new; [|exact En]; exact cm_args).
  destruct (C75_tree_agrees cm true (ops_with 2 4 3) args3 [] s ∅ _ sample_tree 0 vars s' 20 cm_wf H0 eq_refl ltac:(discriminate) ltac:(by repeat split))
    as (a&vec&t&X); [|by vm_compute|by vm_compute; lia|exact E|].
  - intros i Hi. change (i ∈ [2; 0; 1]) in Hi. change (i < 3). rewrite !elem_of_cons, elem_of_nil in Hi. lia.
  - exists s, vars, s', a, vec, t. split; [exact E|exact X].
Qed.

Example C75_make_minmax_case : exists e, make_minmax (fun t k => (2 * t + k) mod 3) 3 3 2 = Val e /\ terms_ok ex_cfg e /\ e = [[0; 1]; [2; 0]; [1; 2]].
Proof.
  destruct (C75_make_minmax ex_cfg (fun t k => (2 * t + k) mod 3) 3 2) as (e&E&_&_&H); [|lia|lia|].
  - intros t k. change (nvars ex_cfg) with 3. apply Nat.mod_upper_bound. lia.
  - exists e. split; [exact E|]. split; [exact H|]. vm_compute in E. by injection E as <-.
Qed.

Definition sample_terms : minmax := [[0; 1]; [2; 0]; [1; 2]].

Lemma sample_terms_ok : terms_ok ex_cfg sample_terms.
Proof. split; [done|]. repeat constructor; try done; vm_compute; lia. Qed.

Lemma sample_minmax : exists v1 s1 v2 s2, run ex_cfg (minmax_calls false 20 30 40 sample_terms) ex_vars ex_st = Ok v1 s1 /\
  run ex_cfg (minmax_calls true 21 30 40 sample_terms) v1 s1 = Ok v2 s2.
Proof.
  assert (X : match run ex_cfg (minmax_calls false 20 30 40 sample_terms) ex_vars ex_st with
    Ok v1 s1 => is_ok (run ex_cfg (minmax_calls true 21 30 40 sample_terms) v1 s1) | _ => false end = true) by by vm_compute.
  destruct (run ex_cfg (minmax_calls false 20 30 40 sample_terms) ex_vars ex_st) as [v1 s1| |]; [|discriminate X..]. exists v1, s1.
  destruct (run ex_cfg (minmax_calls true 21 30 40 sample_terms) v1 s1) as [v2 s2| |]; [|discriminate X..]. exists v2, s2. by split.
Qed.

Example C75_minmax_diagram_case : exists v s a, run ex_cfg (minmax_calls false 20 30 40 sample_terms) ex_vars ex_st = Ok v s /\
  v !! 20 = Some a /\ DiagramManager.evaluate ex_cfg a [1; 2; 0] s = Ok 1%Z s /\ eval_minmax sample_terms [1; 2; 0] = Val 1%Z.
Proof.
  destruct sample_minmax as (v1&s1&v2&s2&E1&_).
  pose proof (C75_minmax_diagram ex_cfg true 2 4 3 ex_args ex_prog ex_st ex_vars ex_abs false 20 30 40 sample_terms ex_wf ex_history
    eq_refl ltac:(discriminate) sample_terms_ok ltac:(lia) ltac:(simpl; lia)) as X. rewrite E1 in X.
  destruct X as (A'&_&(a&Ha&X)&_). exists v1, s1, a. split; [exact E1|]. split; [exact Ha|].
  destruct (X [1; 2; 0]) as (v&Ev&Em&_).
  { split; [done|]. intros i Hi. do 3 (destruct i as [|i]; [vm_compute; lia|]). vm_compute in Hi. lia. }
  assert (Em' : eval_minmax sample_terms [1; 2; 0] = Val 1%Z) by by vm_compute.
  rewrite Em' in Em. injection Em as <-. split; [exact Ev|exact Em'].
Qed.

Example C75_folds_agree_case : exists v1 s1 v2 s2, run ex_cfg (minmax_calls false 20 30 40 sample_terms) ex_vars ex_st = Ok v1 s1 /\
  run ex_cfg (minmax_calls true 21 30 40 sample_terms) v1 s1 = Ok v2 s2 /\ equals v2 20 21 = true.
Proof.
  destruct sample_minmax as (v1&s1&v2&s2&E1&E2). exists v1, s1, v2, s2. split; [exact E1|]. split; [exact E2|].
  exact (C75_folds_agree ex_cfg true 2 4 3 ex_args ex_prog ex_st ex_vars ex_abs false true 20 21 30 40 sample_terms v1 s1 v2 s2
    ex_wf ex_history eq_refl eq_refl ltac:(discriminate) sample_terms_ok ltac:(lia) ltac:(lia) ltac:(lia) ltac:(simpl; lia) E1 E2).
Qed.

Print Assumptions C75_domain_iterator.
Print Assumptions C75_make_tree.
Print Assumptions C75_make_tree_refuted.
Print Assumptions C75_make_vector.
Print Assumptions C75_tree_agrees.
Print Assumptions C75_minmax_diagram.
Print Assumptions C75_folds_agree.
