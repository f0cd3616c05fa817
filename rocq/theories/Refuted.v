(** * Properties that do not hold: programs on which the model, hence the code,
    violates them.  Every theorem gives a legal program and the wrong outcome. *)

From stdpp Require Import gmap list.
From Coq Require Import ZArith Lia.
From Verif Require Import Base Ops Tables NodeManager Tools Sift DiagramManager World Queries.
From Verif Require Import Heap Inv WorldSpec Ctor History Chain.

Local Open Scope Z_scope.

(** a manager is constructed and the calls [ks] are made *)
Definition outcome (c : cfg) (p : cargs) (ks : list call) : res vars_t :=
  match new_manager c p no_state with Ok _ s => run c ks ∅ s | Err e => Err e | Fuel => Fuel end.

(** the results of queries on the object [x]; the state afterwards is dropped *)
Definition query_of {T} (q : positive -> M T) (vars : vars_t) (s : st) (x : nat) : option T :=
  match vars !! x with
  | Some a => match q a s with Ok r _ => Some r | _ => None end
  | None => None
  end.
Definition value_at c vars s x vals : option Z := query_of (fun a => evaluate c a vals) vars s x.
Definition vector_of c vars s x : option (list Z) := query_of (to_vector c) vars s x.
Definition count_of c v vars s x : option Z := query_of (satisfy_count c v) vars s x.

Definition status (r : res vars_t) : option err := match r with Err e => Some e | _ => None end.

Lemma outcome_ok (r : res vars_t) (P : vars_t -> st -> Prop) :
  (match r with Ok v s => P v s | _ => False end) -> exists v s, r = Ok v s /\ P v s.
Proof. destruct r as [v s| |]; try done. intros H. by exists v, s. Qed.

(** a BDD manager with three variables; nodes are 64 bytes apart; assertions on *)
Definition c3 : cfg := Cfg [2; 2; 2]%nat (Some 2) (fun p => N.pos p * 64)%N true false.
Definition pool3 (main extra : Z) : cargs := CArgs [0; 1; 2] main extra 64 [10; 10; 10] (fun n => n / 5) (fun n => n).
Definition args3 : cargs := pool3 100 100.

Lemma c3_wf : wf_cfg c3.
Proof.
  constructor.
  - intros i Hi. do 3 (destruct i as [|i]; [vm_compute; lia|]). vm_compute in Hi. lia.
  - intros m Hm i Hi. injection Hm as <-. do 3 (destruct i as [|i]; [done|]). vm_compute in Hi. lia.
  - intros i Hi. do 3 (destruct i as [|i]; [by vm_compute|]). vm_compute in Hi. lia.
Qed.

Lemma pool3_ok main extra : 5 <= main -> 1 <= extra -> cargs_ok c3 true (pool3 main extra).
Proof.
  intros H1 H2. constructor.
  - unfold is_order. done.
  - done.
  - simpl. lia.
  - simpl. lia.
  - intros _. split; [done|]. simpl. intros n Hn. apply Z.div_le_lower_bound; lia.
Qed.

(** the vector of a function of three Boolean variables, first position = lowest bit *)
Definition bits (n : Z) : list Z := map (fun k => Z.b2z (Z.testbit n (Z.of_nat k))) (seq 0 8).

(** ** C18: nodes stay behind after from_expression_tree, and queries on other
    diagrams go wrong *)

Definition max01 : expr := XOp Z.max (XVar 0) (XVar 1).

Theorem C18_leak_refuted : exists c p d e vars s,
  wf_cfg c /\ cargs_ok c true p /\ outcome c p [CExpr d e; CReset d; CGc] = Ok vars s /\
  vars = ∅ /\ s_count s > 0.
Proof.
  exists c3, args3, 0%nat, max01.
  destruct (outcome_ok (outcome c3 args3 [CExpr 0 max01; CReset 0; CGc]) (fun v s => bool_decide (v = ∅) = true /\ s_count s > 0))
    as (vars&s&E&H1&H2); [by vm_compute|]. apply bool_decide_eq_true in H1.
  exists vars, s. split; [apply c3_wf|]. split; [by apply pool3_ok|]. split; [exact E|]. split; [exact H1|exact H2].
Qed.

(** x0 has the value 1 for four of the eight assignments; before the call it is
    counted correctly, afterwards the count is 0 *)
Theorem C18_query_refuted : exists c p d e vars s vars' s',
  wf_cfg c /\ cargs_ok c true p /\
  outcome c p [CVar 1 0] = Ok vars s /\ exec c (CExpr d e) vars s = Ok vars' s' /\ d <> 1%nat /\
  count_of c 1 vars s 1 = Some 4 /\ count_of c 1 vars' s' 1 = Some 0 /\
  vector_of c vars s 1 = vector_of c vars' s' 1.
Proof.
  exists c3, args3, 0%nat, max01.
  destruct (outcome_ok (outcome c3 args3 [CVar 1 0]) (fun v s => match exec c3 (CExpr 0 max01) v s with
    Ok v' s' => count_of c3 1 v s 1 = Some 4 /\ count_of c3 1 v' s' 1 = Some 0 /\ vector_of c3 v s 1 = vector_of c3 v' s' 1
    | _ => False end)) as (vars&s&E&H); [by vm_compute|].
  destruct (exec c3 (CExpr 0 max01) vars s) as [vars' s'| |] eqn:E'; try contradiction.
  exists vars, s, vars', s'. destruct H as (H1&H2&H3).
  split; [apply c3_wf|]. split; [by apply pool3_ok|]. split; [exact E|]. split; [exact E'|]. split; [lia|]. split; [exact H1|]. split; [exact H2|exact H3].
Qed.

(** ** C21: the second sum is taken from the cache of the first *)

Definition c4 : cfg := Cfg [3; 3]%nat None (fun p => N.pos p * 64)%N true false.
Definition args4 : cargs := CArgs [0; 1] 100 100 64 [10; 10] (fun n => n / 5) (fun n => n).

Lemma c4_wf : wf_cfg c4.
Proof.
  constructor.
  - intros i Hi. do 2 (destruct i as [|i]; [vm_compute; lia|]). vm_compute in Hi. lia.
  - done.
  - intros i Hi. do 2 (destruct i as [|i]; [by vm_compute|]). vm_compute in Hi. lia.
Qed.

Lemma args4_ok : cargs_ok c4 true args4.
Proof.
  constructor.
  - unfold is_order. done.
  - done.
  - done.
  - done.
  - intros _. split; [done|]. simpl. intros n Hn. apply Z.div_le_lower_bound; lia.
Qed.

Theorem C21_moduli_refuted : exists c p vars s m n x y z vals,
  wf_cfg c /\ cargs_ok c true p /\
  outcome c p [CVar 0 0; CVar 1 1; CApply 2 (PLUS m) 0 1; CApply 3 (PLUS n) 0 1] = Ok vars s /\
  value_at c vars s 0 vals = Some x /\ value_at c vars s 1 vals = Some y /\ value_at c vars s 3 vals = Some z /\
  z <> (x + y) mod n.
Proof.
  exists c4, args4.
  destruct (outcome_ok (outcome c4 args4 [CVar 0 0; CVar 1 1; CApply 2 (PLUS 4) 0 1; CApply 3 (PLUS 2) 0 1])
    (fun v s => value_at c4 v s 0 [1; 2]%nat = Some 1 /\ value_at c4 v s 1 [1; 2]%nat = Some 2 /\ value_at c4 v s 3 [1; 2]%nat = Some 3))
    as (vars&s&E&H1&H2&H3); [by vm_compute|].
  exists vars, s, 4, 2, 1, 2, 3, [1; 2]%nat.
  split; [apply c4_wf|]. split; [apply args4_ok|]. split; [exact E|]. split; [exact H1|]. split; [exact H2|]. split; [exact H3|].
  by vm_compute.
Qed.

(** ** C24: after a reordering, the same function can be built twice *)

Theorem C24_equals_after_reorder_refuted : exists c p h f l vars s,
  wf_cfg c /\ cargs_ok c true p /\
  outcome c p [CVec 0 h; CVec 1 f; CReorder; CVec 2 l] = Ok vars s /\
  vector_of c vars s 0 = Some l /\ vector_of c vars s 2 = Some l /\ equals vars 0 2 = false.
Proof.
  exists c3, args3, (bits 163), (bits 139), (bits 163).
  destruct (outcome_ok (outcome c3 args3 [CVec 0 (bits 163); CVec 1 (bits 139); CReorder; CVec 2 (bits 163)])
    (fun v s => vector_of c3 v s 0 = Some (bits 163) /\ vector_of c3 v s 2 = Some (bits 163) /\ equals v 0 2 = false))
    as (vars&s&E&H1&H2&H3); [by vm_compute|].
  exists vars, s. split; [apply c3_wf|]. split; [by apply pool3_ok|]. split; [exact E|]. split; [exact H1|]. split; [exact H2|exact H3].
Qed.

(** ** C25: a freed cell is reused while the cache still mentions it *)

Theorem C25_apply_after_reorder_refuted : exists c p ks vars s vals x y z,
  wf_cfg c /\ cargs_ok c true p /\ outcome c p (ks ++ [CApply 5 AND 3 4]) = Ok vars s /\
  value_at c vars s 3 vals = Some x /\ value_at c vars s 4 vals = Some y /\ value_at c vars s 5 vals = Some z /\
  0 <= x <= 1 /\ 0 <= y <= 1 /\ z <> x * y.
Proof.
  exists c3, args3, [CVec 0 [0; 0; 1; 1; 0; 1; 0; 1]; CVec 1 [1; 1; 0; 0; 1; 1; 0; 1]; CApply 2 AND 0 1; CReset 2; CReorder;
    CVec 3 [1; 0; 0; 1; 1; 0; 0; 1]; CVec 4 [1; 0; 1; 1; 0; 0; 1; 1]].
  cbn [app].
  destruct (outcome_ok (outcome c3 args3 [CVec 0 [0; 0; 1; 1; 0; 1; 0; 1]; CVec 1 [1; 1; 0; 0; 1; 1; 0; 1]; CApply 2 AND 0 1; CReset 2; CReorder;
    CVec 3 [1; 0; 0; 1; 1; 0; 0; 1]; CVec 4 [1; 0; 1; 1; 0; 0; 1; 1]; CApply 5 AND 3 4])
    (fun v s => value_at c3 v s 3 [0; 1; 0]%nat = Some 1 /\
      value_at c3 v s 4 [0; 1; 0]%nat = Some 0 /\ value_at c3 v s 5 [0; 1; 0]%nat = Some 1))
    as (vars&s&E&H1&H2&H3); [by vm_compute|].
  exists vars, s, [0; 1; 0]%nat, 1, 0, 1.
  split; [apply c3_wf|]. split; [by apply pool3_ok|]. split; [exact E|]. split; [exact H1|]. split; [exact H2|]. split; [exact H3|]. lia.
Qed.

(** ** C26: the result is protected only by its mark when the deferred
    reordering runs; it is freed, and returned *)

Theorem C26_auto_reorder_value_refuted : exists c p ks vars s vals x y z,
  wf_cfg c /\ cargs_ok c true p /\ outcome c p (CAuto true :: ks ++ [CApply 3 XOR 1 2]) = Ok vars s /\
  value_at c vars s 1 vals = Some x /\ value_at c vars s 2 vals = Some y /\ value_at c vars s 3 vals = Some z /\
  0 <= x <= 1 /\ 0 <= y <= 1 /\ z <> (x + y) mod 2.
Proof.
  exists c3, (pool3 5 100), [CVec 0 [0; 1; 0; 1; 0; 0; 1; 0]; CVec 1 [1; 0; 1; 0; 0; 0; 1; 0]; CVec 2 [1; 1; 1; 1; 0; 1; 1; 1]].
  cbn [app].
  destruct (outcome_ok (outcome c3 (pool3 5 100) [CAuto true; CVec 0 [0; 1; 0; 1; 0; 0; 1; 0]; CVec 1 [1; 0; 1; 0; 0; 0; 1; 0];
    CVec 2 [1; 1; 1; 1; 0; 1; 1; 1]; CApply 3 XOR 1 2])
    (fun v s => value_at c3 v s 1 [0; 0; 0]%nat = Some 1 /\
      value_at c3 v s 2 [0; 0; 0]%nat = Some 1 /\ value_at c3 v s 3 [0; 0; 0]%nat = Some 1))
    as (vars&s&E&H1&H2&H3); [by vm_compute|].
  exists vars, s, [0; 0; 0]%nat, 1, 1, 1.
  split; [apply c3_wf|]. split; [by apply pool3_ok|]. split; [exact E|]. split; [exact H1|]. split; [exact H2|]. split; [exact H3|].
  split; [lia|]. split; [lia|]. by vm_compute.
Qed.

(** here the returned root is a freed cell, which the diagram object then uses *)
Theorem C26_auto_reorder_dangling_refuted : exists c p ks vars s,
  wf_cfg c /\ cargs_ok c true p /\ outcome c p (CAuto true :: ks) = Ok vars s /\
  exec c (CApply 3 XOR 1 2) vars s = Err EStale.
Proof.
  exists c3, (pool3 8 100), [CVec 0 [0; 1; 0; 1; 0; 0; 0; 0]; CVec 1 [0; 1; 1; 1; 0; 1; 0; 1]; CVec 2 [0; 0; 1; 0; 0; 0; 0; 0]].
  destruct (outcome_ok (outcome c3 (pool3 8 100) [CAuto true; CVec 0 [0; 1; 0; 1; 0; 0; 0; 0]; CVec 1 [0; 1; 1; 1; 0; 1; 0; 1];
    CVec 2 [0; 0; 1; 0; 0; 0; 0; 0]]) (fun v s => exec c3 (CApply 3 XOR 1 2) v s = Err EStale))
    as (vars&s&E&H); [by vm_compute|].
  exists vars, s. split; [apply c3_wf|]. split; [by apply pool3_ok|]. split; [exact E|exact H].
Qed.

(** ** C28: a full pool without extra pool, and ratio 0 *)

Theorem C28_no_extra_pool_refuted : exists c p ks,
  wf_cfg c /\ cargs_ok c false p /\ (forall n, ca_main p <= n -> 1 <= ca_gcthr p n) /\
  outcome c p ks = Err EPool.
Proof.
  exists c3, (pool3 5 0), [CVec 0 (bits 105)]. split; [apply c3_wf|]. split.
  - constructor; [unfold is_order; done|done|done|done|done].
  - split; [|by vm_compute]. simpl. intros n Hn. apply Z.div_le_lower_bound; lia.
Qed.

(** ratio 0 is accepted by set_gc_ratio; with it an unproductive collection is
    not followed by an allocation *)
Theorem C28_ratio_zero_refuted : exists c p ks,
  wf_cfg c /\ cargs_ok c true p /\ outcome c p (CGcRatio (fun _ => 0) :: ks) = Err EPool.
Proof.
  exists c3, (pool3 5 100), [CVec 0 (bits 105)]. split; [apply c3_wf|]. split; [by apply pool3_ok|]. by vm_compute.
Qed.

(** the default ratio 0.20 with fewer than five nodes: the product is truncated to 0 *)
Theorem C28_small_pool_refuted : exists c p ks,
  wf_cfg c /\ cargs_ok c false p /\ 1 <= ca_main p /\ 1 <= ca_extra p /\ ca_gcthr p = (fun n => n * 20 / 100) /\
  outcome c p ks = Err EPool.
Proof.
  exists c3, (CArgs [0; 1; 2] 4 100 64 [10; 10; 10] (fun n => n * 20 / 100) (fun n => n)), [CVec 0 (bits 105)].
  split; [apply c3_wf|]. split; [constructor; [unfold is_order; done|done|done|done|done]|].
  split; [done|]. split; [done|]. split; [done|]. by vm_compute.
Qed.

(** ** C32: copying a default-constructed or moved-from object *)

Theorem C32_copy_null_refuted : forall c vars s d x, vars !! x = None -> exec c (CCopy d x) vars s = Err ENull.
Proof. intros c vars s d x H. unfold exec, bind, deref. by rewrite H. Qed.

Theorem C32_moved_from_refuted : exists c p ks vars s,
  wf_cfg c /\ cargs_ok c true p /\ outcome c p (ks ++ [CMove 1 0]) = Ok vars s /\ exec c (CCopy 2 0) vars s = Err ENull.
Proof.
  exists c3, args3, [CVar 0 0]. cbn [app].
  destruct (outcome_ok (outcome c3 args3 [CVar 0 0; CMove 1 0]) (fun v s => exec c3 (CCopy 2 0) v s = Err ENull))
    as (vars&s&E&H); [by vm_compute|].
  exists vars, s. split; [apply c3_wf|]. split; [by apply pool3_ok|]. split; [exact E|exact H].
Qed.

(** ** C37: force_reorder ends in the order it started from, with more nodes *)

Theorem C37_more_nodes_refuted : exists c p ks vars s vars' s',
  wf_cfg c /\ cargs_ok c true p /\ outcome c p ks = Ok vars s /\ exec c CReorder vars s = Ok vars' s' /\
  s_l2i s' = s_l2i s /\ s_count s' > s_count s.
Proof.
  exists c3, args3, [CVec 0 (bits 163); CVec 1 (bits 139); CGc].
  destruct (outcome_ok (outcome c3 args3 [CVec 0 (bits 163); CVec 1 (bits 139); CGc])
    (fun v s => match exec c3 CReorder v s with Ok _ s' => s_l2i s' = s_l2i s /\ s_count s' > s_count s | _ => False end))
    as (vars&s&E&H); [by vm_compute|].
  destruct (exec c3 CReorder vars s) as [vars' s'| |] eqn:E'; try contradiction.
  exists vars, s, vars', s'. split; [apply c3_wf|]. split; [by apply pool3_ok|]. split; [exact E|]. split; [exact E'|exact H].
Qed.

(** ** C38: the power of a fixed domain is computed in 32 bits *)

Definition c21 : cfg := Cfg (replicate 21 3%nat) (Some 3) (fun p => N.pos p * 64)%N true false.
Definition args21 : cargs := CArgs (map Z.of_nat (seq 0 21)) 100 100 64 (replicate 21 10) (fun n => n / 5) (fun n => n).

Lemma c21_wf : wf_cfg c21.
Proof.
  constructor.
  - intros i Hi. do 21 (destruct i as [|i]; [vm_compute; lia|]). vm_compute in Hi. lia.
  - intros m Hm i Hi. injection Hm as <-. do 21 (destruct i as [|i]; [done|]). vm_compute in Hi. lia.
  - intros i Hi. do 21 (destruct i as [|i]; [by vm_compute|]). vm_compute in Hi. lia.
Qed.

Lemma args21_ok : cargs_ok c21 true args21.
Proof.
  constructor.
  - unfold is_order. done.
  - done.
  - done.
  - done.
  - intros _. split; [done|]. simpl. intros n Hn. apply Z.div_le_lower_bound; lia.
Qed.

Theorem C38_domain_product_refuted : exists c p vars s from to,
  wf_cfg c /\ cargs_ok c true p /\ outcome c p [] = Ok vars s /\ (from <= to <= nvars c)%nat /\
  dom_prod (take (to - from) (drop from (c_doms c))) < 2 ^ 63 /\ domain_product c from to s = Err EOverflow.
Proof.
  exists c21, args21.
  destruct (outcome_ok (outcome c21 args21 []) (fun _ s => domain_product c21 0 20 s = Err EOverflow))
    as (vars&s&E&H); [by vm_compute|].
  exists vars, s, 0%nat, 20%nat. split; [apply c21_wf|]. split; [apply args21_ok|]. split; [exact E|]. split; [vm_compute; lia|].
  split; [by vm_compute|exact H].
Qed.

(** hence satisfy_count(1, constant 0) is undefined although the result is 0 *)
Theorem C38_satisfy_count_refuted : exists c p vars s a,
  wf_cfg c /\ cargs_ok c true p /\ outcome c p [CVar 0 0] = Ok vars s /\ vars !! 0%nat = Some a /\
  satisfy_count c 1 a s = Err EOverflow.
Proof.
  exists c21, args21.
  destruct (outcome_ok (outcome c21 args21 [CVar 0 0]) (fun v s => match v !! 0%nat with Some a => satisfy_count c21 1 a s = Err EOverflow | None => False end))
    as (vars&s&E&H); [by vm_compute|]. destruct (vars !! 0%nat) as [a|] eqn:Ha; [|contradiction].
  exists vars, s, a. split; [apply c21_wf|]. split; [apply args21_ok|]. split; [exact E|]. split; [exact Ha|exact H].
Qed.

(** ** C52: an order that is not a permutation passes check_distinct and is used
    to write out of bounds *)

Theorem C52_order_refuted : exists c p, wf_cfg c /\ c_dbg c = true /\ length (ca_order p) = nvars c /\
  ~ is_order (nvars c) (ca_order p) /\ check_distinct (ca_order p) = Some true /\ outcome c p [] = Err EOob.
Proof.
  exists c4, (CArgs [0; 5] 100 100 64 [10; 10] (fun n => n / 5) (fun n => n)).
  split; [apply c4_wf|]. split; [done|]. split; [done|]. split; [|by vm_compute].
  unfold is_order. simpl. intros P. assert (X : 5 ∈ [0; 5]) by set_solver. rewrite P in X. set_solver.
Qed.

(** ** C57: the same pair of values gives different results *)

Theorem C57_or_refuted : exists c p ks vars s vals vals' r r',
  wf_cfg c /\ cargs_ok c true p /\ outcome c p ks = Ok vars s /\
  value_at c vars s 0 vals = Some 1 /\ value_at c vars s 1 vals = Some 2 /\
  value_at c vars s 3 vals' = Some 1 /\ value_at c vars s 4 vals' = Some 2 /\
  In (CApply 2 OR 0 1) ks /\ In (CApply 5 OR 3 4) ks /\
  value_at c vars s 2 vals = Some r /\ value_at c vars s 5 vals' = Some r' /\ r <> r'.
Proof.
  set (ks := [CVar 0 0; CConst 1 2; CApply 2 OR 0 1; CVar 3 0; CVar 4 1; CApply 5 OR 3 4]).
  exists c4, args4, ks.
  destruct (outcome_ok (outcome c4 args4 ks)
    (fun v s => value_at c4 v s 0 [1; 2]%nat = Some 1 /\ value_at c4 v s 1 [1; 2]%nat = Some 2 /\
      value_at c4 v s 3 [1; 2]%nat = Some 1 /\ value_at c4 v s 4 [1; 2]%nat = Some 2 /\
      value_at c4 v s 2 [1; 2]%nat = Some 2 /\ value_at c4 v s 5 [1; 2]%nat = Some 1))
    as (vars&s&E&H0&H1&H3&H4&H2&H5); [by vm_compute|].
  exists vars, s, [1; 2]%nat, [1; 2]%nat, 2, 1. split; [apply c4_wf|]. split; [apply args4_ok|]. split; [exact E|].
  split; [exact H0|]. split; [exact H1|]. split; [exact H3|]. split; [exact H4|].
  split; [subst ks; simpl; tauto|]. split; [subst ks; simpl; tauto|].
  split; [exact H2|]. split; [exact H5|done].
Qed.

Print Assumptions C18_leak_refuted.
Print Assumptions C18_query_refuted.
Print Assumptions C21_moduli_refuted.
Print Assumptions C24_equals_after_reorder_refuted.
Print Assumptions C25_apply_after_reorder_refuted.
Print Assumptions C26_auto_reorder_value_refuted.
Print Assumptions C26_auto_reorder_dangling_refuted.
Print Assumptions C28_no_extra_pool_refuted.
Print Assumptions C28_ratio_zero_refuted.
Print Assumptions C28_small_pool_refuted.
Print Assumptions C32_copy_null_refuted.
Print Assumptions C32_moved_from_refuted.
Print Assumptions C37_more_nodes_refuted.
Print Assumptions C38_domain_product_refuted.
Print Assumptions C38_satisfy_count_refuted.
Print Assumptions C52_order_refuted.
Print Assumptions C57_or_refuted.
