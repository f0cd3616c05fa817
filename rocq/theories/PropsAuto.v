(** * Automatic reordering: which calls may be used, and what they return

    [ahistory] (AutoSpec.v) are the programs that switch the mode on and off and
    otherwise make calls that take a handle of the result first, or calls during
    which the pool does not grow and before which nothing is pending. *)

From stdpp Require Import gmap list.
From Coq Require Import ZArith Lia.
From Verif Require Import Base Ops Tables NodeManager Tools Sift DiagramManager Reliability World Queries.
From Verif Require Import Heap Inv Apply Constr VecSpec Eval OpSpec OpProof WorldSpec WorldProof Ctor History PropsBase Chain Examples Refuted.
From Verif Require Import AutoSim AutoSpec AutoProof.

Local Open Scope nat_scope.
Local Opaque exec.

(** ** C71: every object keeps its function, in both modes, pending or not *)

Theorem C71_values : forall c strict opsem args ks s vars A d F,
  wf_cfg c -> ahistory c opsem strict args ks s vars A -> ab A !! d = Some F ->
  exists a, vars !! d = Some a /\ computes c s a F.
Proof. intros. by eapply ahistory_value. Qed.

Theorem C71_equals_exact : forall c strict opsem args ks s vars A x y a b,
  wf_cfg c -> ahistory c opsem strict args ks s vars A -> ab_canon A = true ->
  vars !! x = Some a -> vars !! y = Some b ->
  equals vars x y = true <-> same_values c s a b.
Proof. intros. by eapply ahistory_equals. Qed.

Theorem C71_calls_succeed : forall c strict opsem args ks s vars A k A',
  wf_cfg c -> ahistory c opsem strict args ks s vars A -> handle_first k -> spec c opsem strict s k A A' ->
  match exec c k vars s with
  | Ok _ _ => True
  | Err e => e = ERefOver \/ (strict = false /\ e = EPool)
  | Fuel => False
  end.
Proof. intros. by eapply ahistory_safe. Qed.

(** a cofactor taken while a reordering is pending *)
Theorem C71_cofactor_pending : forall c strict opsem args ks s vars A d x i k F vars' s',
  wf_cfg c -> ahistory c opsem strict args ks s vars A -> ab A !! x = Some F -> k < dom c i ->
  exec c (CCofactor d x i k) vars s = Ok vars' s' ->
  (exists a, vars' !! d = Some a /\ computes c s' a (fun rho => F (upd rho i k))) /\
  (forall y G, y <> d -> ab A !! y = Some G -> exists a, vars' !! y = Some a /\ computes c s' a G).
Proof.
  intros c strict opsem args ks s vars A d x i k F vars' s' Hc H HF Hk E.
  assert (H' : ahistory c opsem strict args (ks ++ [CCofactor d x i k]) s' vars'
    (settle (CCofactor d x i k) s' (bindf d (fun rho => F (upd rho i k)) A))).
  { eapply A_first; [exact H|done| |exact E]. by apply S_cofactor. }
  split.
  - eapply ahistory_value; [done|exact H'|]. simpl. apply lookup_insert.
  - intros y G Hy HG. eapply ahistory_value; [done|exact H'|]. simpl. by rewrite lookup_insert_ne.
Qed.

(** ** C71: while the pool does not grow, the mode makes no difference *)

Lemma quieted_off s : s_defer s = false -> quieted s = set_auto false s.
Proof. destruct s. simpl. by intros ->. Qed.

Theorem C71_no_growth_same : forall c ks vars s vars' s',
  (forall k b, k ∈ ks -> k <> CAuto b) -> s_auto s = true -> s_defer s = false ->
  run c ks vars s = Ok vars' s' -> pool_end s' = pool_end s ->
  s_defer s' = false /\ run c ks vars (set_auto false s) = Ok vars' (set_auto false s').
Proof.
  intros c ks vars s vars' s' Hk Ha Hd E Hp. destruct (sim_run c ks Hk vars s vars' s' E Ha) as (_&_&H).
  destruct (H Hd Hp) as [Hd' E']. split; [done|]. by rewrite <- !quieted_off.
Qed.

(** the pool only grows *)
Theorem C71_pool_monotone : forall c ks vars s vars' s',
  (forall k b, k ∈ ks -> k <> CAuto b) -> s_auto s = true ->
  run c ks vars s = Ok vars' s' -> s_auto s' = true /\ (pool_end s <= pool_end s')%Z.
Proof.
  intros c ks vars s vars' s' Hk Ha E. destruct (sim_run c ks Hk vars s vars' s' E Ha) as (H1&H2&_). done.
Qed.

(** ** C26: taking the handle first is enough

    [apply_repaired] is apply (diagram_manager.hpp:1190-1211) with the two last
    steps exchanged, as in get_cofactor. *)

Theorem C26_handle_first_suffices : forall c strict b p m args ks s vars A o x y d F G,
  wf_cfg c -> ahistory c (ops_with b p m) strict args ks s vars A -> ab_cache A = true ->
  op_allowed b p m (plain_op c o) -> (c_trap c = true -> op_arith o = false) ->
  ab A !! x = Some F -> ab A !! y = Some G ->
  (forall rho, valid c rho -> op_applicable c o (F rho) (G rho)) ->
  match (let* l := deref vars x in let* r := deref vars y in
         let* a := apply_repaired c o l r in put vars d a) s with
  | Ok vars' s' =>
      (exists a, vars' !! d = Some a /\ computes c s' a (fun rho => op_math o (F rho) (G rho))) /\
      (forall z K, z <> d -> ab A !! z = Some K -> exists a, vars' !! z = Some a /\ computes c s' a K)
  | Err e => e = ERefOver \/ (strict = false /\ e = EPool)
  | Fuel => False
  end.
Proof.
  intros c strict b p m args ks s vars A o x y d F G Hc H Hca Hop Ht HF HG Ha.
  pose proof (ahistory_apply_repaired c (ops_with b p m) strict args ks s vars A o x y d F G Hc H Hca
    (op_allowed_known _ _ _ _ _ Hop) HF HG (fun rho Hv => op_applicable_good _ _ _ _ (Ha rho Hv) Ht)) as X.
  destruct ((let* l := deref vars x in _) s) as [vars' s'| |]; [|done..]. destruct X as [g W].
  pose proof (quieted_calm c (ops_with b p m) strict g s' (wi_calm _ _ _ _ _ _ _ W)) as C.
  assert (V : forall z K, ab (settle CReorder s' (bindf d (fun rho => op_fun (apply_op c o) (F rho) (G rho)) A)) !! z = Some K ->
    exists a, vars' !! z = Some a /\ computes c s' a K).
  { intros z K HK. destruct (wi_den_pos _ _ _ _ _ _ _ z K W HK) as (a&Ha'&D&P). exists a. split; [done|].
    by eapply (den_computes c (ops_with b p m) strict). }
  split.
  - destruct (V d (fun rho => op_fun (apply_op c o) (F rho) (G rho))) as (a&Ha'&Va); [apply lookup_insert|].
    exists a. split; [done|]. eapply computes_ext; [|exact Va]. intros rho Hv. cbn beta. apply op_applicable_fun. auto.
  - intros z K Hz HK. apply V. simpl. by rewrite lookup_insert_ne.
Qed.

(** ** C71: switching the mode off does not cancel a pending reordering

    set_auto_reorder(false) leaves gcReorderDeferred_ set (node_manager.hpp:422-426);
    the next
    apply reorders the variables, and its result is wrong, with the mode off. *)

Theorem C71_switch_off_refuted : exists c p ks vars s vars' s' vals x y z,
  wf_cfg c /\ cargs_ok c true p /\ outcome c p (ks ++ [CAuto false]) = Ok vars s /\ s_auto s = false /\
  exec c (CApply 3 XOR 1 2) vars s = Ok vars' s' /\ s_l2i s' <> s_l2i s /\
  value_at c vars' s' 1 vals = Some x /\ value_at c vars' s' 2 vals = Some y /\ value_at c vars' s' 3 vals = Some z /\
  (0 <= x <= 1 /\ 0 <= y <= 1 /\ z <> (x + y) mod 2)%Z.
Proof.
  exists c3, (pool3 5 100), [CAuto true; CVec 0 [0; 1; 0; 1; 0; 0; 1; 0]%Z; CVec 1 [1; 0; 1; 0; 0; 0; 1; 0]%Z;
    CVec 2 [1; 1; 1; 1; 0; 1; 1; 1]%Z]. cbn [app].
  destruct (outcome_ok (outcome c3 (pool3 5 100) [CAuto true; CVec 0 [0; 1; 0; 1; 0; 0; 1; 0]%Z; CVec 1 [1; 0; 1; 0; 0; 0; 1; 0]%Z;
    CVec 2 [1; 1; 1; 1; 0; 1; 1; 1]%Z; CAuto false])
    (fun v s => s_auto s = false /\ match exec c3 (CApply 3 XOR 1 2) v s with
      | Ok v' s' => s_l2i s = [0; 1; 2] /\ s_l2i s' = [0; 2; 1] /\ value_at c3 v' s' 1 [0; 0; 0] = Some 1%Z /\
          value_at c3 v' s' 2 [0; 0; 0] = Some 1%Z /\ value_at c3 v' s' 3 [0; 0; 0] = Some 1%Z
      | _ => False end))
    as (vars&s&E&Ha&H); [by vm_compute|].
  destruct (outcome_ok (exec c3 (CApply 3 XOR 1 2) vars s) _ H) as (vars'&s'&E'&L&L'&H1&H2&H3).
  exists vars, s, vars', s', [0; 0; 0], 1%Z, 1%Z, 1%Z.
  split; [apply c3_wf|]. split; [by apply pool3_ok|]. split; [exact E|]. split; [exact Ha|]. split; [exact E'|].
  split; [rewrite L, L'; discriminate|]. split; [exact H1|]. split; [exact H2|]. split; [exact H3|].
  split; [lia|]. split; [lia|]. by vm_compute.
Qed.

(** ** A case: the pool grows while object 1 is built, and the cofactor, the
    next call, reorders the variables *)

Definition au_pre : list call := [CAuto true; CVec 0 (bits 128); CVec 1 (bits 16)].

Lemma bits_tval n : Forall (tval c3) (bits n).
Proof.
  unfold bits. apply Forall_forall. intros z Hz. apply elem_of_list_In, in_map_iff in Hz as (k&<-&_). left.
  change (c_fixed c3) with (Some 2%Z). unfold Nondet. destruct (Z.testbit n (Z.of_nat k)); simpl; lia.
Qed.

Lemma au_history v s : outcome c3 (pool3 6 100) au_pre = Ok v s ->
  ahistory c3 ex_ops true (pool3 6 100) au_pre s v
    (bindf 1 (fun rho => nth (vec_index c3 [0; 1; 2] rho) (bits 16) 0%Z)
    (bindf 0 (fun rho => nth (vec_index c3 [0; 1; 2] rho) (bits 128) 0%Z) (no_objects (pool3 6 100)))).
Proof.
  unfold outcome, au_pre. intros E. destruct (new_manager c3 (pool3 6 100) no_state) as [[] s0| |] eqn:E0; [|discriminate..].
  cbn [run] in E. unfold bind in E.
  destruct (exec c3 (CAuto true) ∅ s0) as [v1 s1| |] eqn:E1; [|discriminate..].
  destruct (exec c3 (CVec 0 _) v1 s1) as [v2 s2| |] eqn:E2; [|discriminate..].
  destruct (exec c3 (CVec 1 _) v2 s2) as [v3 s3| |] eqn:E3; [|discriminate..].
  assert (v3 = v) as <- by (unfold ret in E; congruence). assert (s3 = s) as <- by (unfold ret in E; congruence).
  pose proof (A_new c3 ex_ops true (pool3 6 100) no_state s0 (pool3_ok 6 100 ltac:(lia) ltac:(lia)) E0) as H0.
  pose proof (A_mode _ _ _ _ _ _ _ _ true s1 v1 H0 E1) as H1.
  assert (S2 : spec c3 ex_ops true s1 (CVec 0 (bits 128)) (no_objects (pool3 6 100))
    (bindf 0 (fun rho => nth (vec_index c3 [0; 1; 2] rho) (bits 128) 0%Z) (no_objects (pool3 6 100)))).
  { apply (S_vec c3 ex_ops true s1 0 (bits 128) (no_objects (pool3 6 100))); [by vm_compute|apply bits_tval]. }
  pose proof (A_first _ _ _ _ _ _ _ _ (CVec 0 (bits 128)) _ s2 v2 H1 I S2 E2) as H2. cbn [settle app] in H2.
  refine (A_first _ _ _ _ _ _ _ _ (CVec 1 (bits 16)) _ s3 v3 H2 I _ E3).
  apply (S_vec c3 ex_ops true s2 1 (bits 16) (bindf 0 (fun rho => nth (vec_index c3 [0; 1; 2] rho) (bits 128) 0%Z) (no_objects (pool3 6 100))));
    [by vm_compute|apply bits_tval].
Qed.

Example C71_case : exists v s v' s' a b, outcome c3 (pool3 6 100) au_pre = Ok v s /\
  s_auto s = true /\ s_defer s = true /\ exec c3 (CCofactor 2 0 1 1) v s = Ok v' s' /\
  s_defer s' = false /\ s_l2i s = [0; 1; 2] /\ s_l2i s' = [1; 2; 0] /\
  v' !! 2 = Some a /\
  computes c3 s' a (fun rho => nth (vec_index c3 [0; 1; 2] (upd rho 1 1)) (bits 128) 0%Z) /\
  v' !! 1 = Some b /\ computes c3 s' b (fun rho => nth (vec_index c3 [0; 1; 2] rho) (bits 16) 0%Z).
Proof.
  destruct (outcome_ok (outcome c3 (pool3 6 100) au_pre)
    (fun v s => (s_auto s = true /\ s_defer s = true /\ s_l2i s = [0; 1; 2]) /\ match exec c3 (CCofactor 2 0 1 1) v s with
      | Ok v' s' => s_defer s' = false /\ s_l2i s' = [1; 2; 0]
      | _ => False end)) as (v&s&E&(Ha&Hd&Hl)&H); [by vm_compute|].
  destruct (outcome_ok (exec c3 (CCofactor 2 0 1 1) v s) _ H) as (v'&s'&E'&Hd'&Hl').
  destruct (C71_cofactor_pending c3 true ex_ops (pool3 6 100) au_pre s v _ 2 0 1 1
    (fun rho => nth (vec_index c3 [0; 1; 2] rho) (bits 128) 0%Z) v' s' c3_wf (au_history v s E) eq_refl) as [(a&Ha'&Va) Hoth];
    [by vm_compute; lia|exact E'|].
  destruct (Hoth 1 (fun rho => nth (vec_index c3 [0; 1; 2] rho) (bits 16) 0%Z)) as (b&Hb&Vb); [done|reflexivity|].
  exists v, s, v', s', a, b.
  split; [exact E|]. split; [exact Ha|]. split; [exact Hd|]. split; [exact E'|]. split; [exact Hd'|]. split; [exact Hl|].
  split; [exact Hl'|]. split; [exact Ha'|]. split; [exact Va|]. split; [exact Hb|exact Vb].
Qed.

(** before object 1 is built the pool has not grown, and apply is right *)
Example C71_no_growth_case : exists v s v' s', outcome c3 (pool3 20 100) [CAuto true; CVec 0 (bits 128); CVec 1 (bits 16)] = Ok v s /\
  run c3 [CApply 2 OR 0 1; CReset 0; CApply 0 AND 1 2] v s = Ok v' s' /\ s_auto s = true /\ s_defer s = false /\ pool_end s' = pool_end s /\
  (s_count s < s_count s')%Z /\
  run c3 [CApply 2 OR 0 1; CReset 0; CApply 0 AND 1 2] v (set_auto false s) = Ok v' (set_auto false s').
Proof.
  destruct (outcome_ok (outcome c3 (pool3 20 100) [CAuto true; CVec 0 (bits 128); CVec 1 (bits 16)])
    (fun v s => (s_auto s = true /\ s_defer s = false) /\ match run c3 [CApply 2 OR 0 1; CReset 0; CApply 0 AND 1 2] v s with
      | Ok v' s' => pool_end s' = pool_end s /\ (s_count s < s_count s')%Z
      | _ => False end)) as (v&s&E&(Ha&Hd)&H); [by vm_compute|].
  destruct (outcome_ok (run c3 [CApply 2 OR 0 1; CReset 0; CApply 0 AND 1 2] v s) _ H) as (v'&s'&E'&Hp&Hn).
  exists v, s, v', s'. split; [exact E|]. split; [exact E'|]. split; [exact Ha|]. split; [exact Hd|]. split; [exact Hp|].
  split; [exact Hn|]. refine (proj2 (C71_no_growth_same _ _ _ _ _ _ _ Ha Hd E' Hp)).
  clear. intros k b Hk. rewrite !elem_of_cons, elem_of_nil in Hk. by destruct Hk as [->|[->|[->|[]]]].
Qed.

(** the program of C26_auto_reorder_value_refuted, with the handle taken first *)
Example C26_repaired_case : exists v s v' s', outcome c3 (pool3 5 100) [CAuto true; CVec 0 [0; 1; 0; 1; 0; 0; 1; 0]%Z;
    CVec 1 [1; 0; 1; 0; 0; 0; 1; 0]%Z; CVec 2 [1; 1; 1; 1; 0; 1; 1; 1]%Z] = Ok v s /\ s_defer s = true /\
  (let* l := deref v 1 in let* r := deref v 2 in let* a := apply_repaired c3 XOR l r in put v 3 a) s = Ok v' s' /\
  s_defer s' = false /\ value_at c3 v' s' 3 [0; 0; 0] = Some 0%Z.
Proof.
  destruct (outcome_ok (outcome c3 (pool3 5 100) [CAuto true; CVec 0 [0; 1; 0; 1; 0; 0; 1; 0]%Z;
      CVec 1 [1; 0; 1; 0; 0; 0; 1; 0]%Z; CVec 2 [1; 1; 1; 1; 0; 1; 1; 1]%Z])
    (fun v s => s_defer s = true /\ match (let* l := deref v 1 in let* r := deref v 2 in let* a := apply_repaired c3 XOR l r in put v 3 a) s with
      | Ok v' s' => s_defer s' = false /\ value_at c3 v' s' 3 [0; 0; 0] = Some 0%Z
      | _ => False end)) as (v&s&E&Hd&H); [by vm_compute|].
  destruct (outcome_ok _ _ H) as (v'&s'&E'&Hd'&Hv).
  exists v, s, v', s'. split; [exact E|]. split; [exact Hd|]. split; [exact E'|]. split; [exact Hd'|exact Hv].
Qed.

Print Assumptions C71_values.
Print Assumptions C71_equals_exact.
Print Assumptions C71_calls_succeed.
Print Assumptions C71_cofactor_pending.
Print Assumptions C71_no_growth_same.
Print Assumptions C71_pool_monotone.
Print Assumptions C26_handle_first_suffices.
Print Assumptions C71_switch_off_refuted.
