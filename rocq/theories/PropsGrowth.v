(** * C81: the memory of the pool follows the nodes that the program needs *)

From stdpp Require Import gmap list.
From Coq Require Import ZArith Lia.
From Verif Require Import Base Ops Tables NodeManager Tools Sift DiagramManager World Queries.
From Verif Require Import Heap Inv InvLemmas Prim GC Make Api Eval VecSpec WorldSpec WorldProof Ctor History PropsBase Chain Examples.
From Verif Require Import NoGarbage PropsNoGarbage Refuted.

Local Open Scope nat_scope.
Local Opaque exec run new_manager.

(** the cells that the pool has allocated: nodes in the manager and available cells *)
Definition capacity (s : st) : Z := (Z.of_nat (nlive (s_heap s)) + p_avail (s_pool s))%Z.

(** some of the nodes that belong to objects before or after a call *)
Definition needed (s : st) (vars : vars_t) (s' : st) (vars' : vars_t) (l : list positive) : Prop :=
  NoDup l /\ forall e, e ∈ l -> in_use s vars e \/ in_use s' vars' e.

Lemma capacity_cells c opsem strict args ks s vars A : wf_cfg c -> history c opsem strict args ks s vars A -> capacity s = cells s.
Proof.
  intros Hc H. destruct (history_winv _ _ _ _ _ _ _ _ Hc H) as [g W]. unfold capacity, cells.
  by rewrite (wf_count _ _ _ _ _ (cl_wf _ _ _ _ _ (wi_calm _ _ _ _ _ _ _ W))).
Qed.

Lemma held_in_use c opsem strict g s vars A e : winv c opsem strict g s vars A -> ab_clean A = true ->
  held g (s_heap s) e -> in_use s vars e.
Proof.
  intros W Hcl (r&(_&_&[Hm|[Hx|Hf]])&Hr).
  - exfalso. by eapply (wi_clean _ _ _ _ _ _ _ W Hcl).
  - rewrite (wi_ext _ _ _ _ _ _ _ W) in Hx. apply hcount_pos_inv in Hx as [d Hd]. by exists d, r.
  - destruct (cl_quiet _ _ _ _ _ (wi_calm _ _ _ _ _ _ _ W)) as [_ Hq]. rewrite Hq in Hf. set_solver.
Qed.

(** ** One call *)

(** A construction enlarges the pool only if, with the [m] cells before the last chunk was
    added, less than the threshold of [m] would be left next to nodes that belong to objects
    of the program before the call or after it.  Nodes of intermediate results, of the
    cache and garbage do not count. *)
Theorem C81_call : forall c opsem strict args ks s vars A k A' d vars' s',
  wf_cfg c -> history c opsem strict args ks s vars A -> spec c opsem strict s k A A' -> built k = Some d ->
  ab_clean A = true -> exec c k vars s = Ok vars' s' ->
  capacity s' = capacity s \/
  exists m l, capacity s' = (m + p_extra (s_pool s))%Z /\ needed s vars s' vars' l /\
    (m - s_gcthr s m < Z.of_nat (length l))%Z.
Proof.
  intros c opsem strict args ks s vars A k A' d vars' s' Hc H S Hb Hcl E.
  assert (H' : history c opsem strict args (ks ++ [k]) s' vars' A') by (by eapply H_call).
  rewrite (capacity_cells _ _ _ _ _ _ _ _ Hc H), (capacity_cells _ _ _ _ _ _ _ _ Hc H').
  destruct (history_winv _ _ _ _ _ _ _ _ Hc H) as [g W].
  destruct (nt_grown _ _ _ _ _ _ (exec_new c opsem strict g s vars k A A' d vars' s' Hc W S Hb E)) as (_&_&[G|(m&l&Cm&N&L&T)]); [by left|].
  right. exists m, l. split; [done|]. split; [|done]. split; [done|]. intros e He. destruct (L e He) as [Hh|(a&Ha&Hr)].
  - left. by eapply held_in_use.
  - right. by exists d, a.
Qed.

(** ** Programs *)

(** calls that only deal with objects, the cache and garbage *)
Definition light (k : call) : bool :=
  match k with CMove _ _ | CSwap _ _ | CReset _ | CGc | CClearCache | CCacheRatio _ => true | _ => false end.

(** programs of constructions and such calls in which, at any call, at most [P] nodes belong
    to objects before it or after it *)
Inductive peak (c : cfg) (opsem : Z -> option (Z -> Z -> Z)) (strict : bool) (args : cargs) (P : nat) :
  list call -> st -> vars_t -> astate -> Prop :=
| P_new s vars A : history c opsem strict args [] s vars A -> peak c opsem strict args P [] s vars A
| P_call ks s vars A k A' vars' s' : peak c opsem strict args P ks s vars A -> spec c opsem strict s k A A' ->
    built k <> None \/ light k = true -> exec c k vars s = Ok vars' s' ->
    (forall l, needed s vars s' vars' l -> length l <= P) ->
    peak c opsem strict args P (ks ++ [k]) s' vars' A'.

Lemma peak_history c opsem strict args P ks s vars A : peak c opsem strict args P ks s vars A -> history c opsem strict args ks s vars A.
Proof. induction 1; [done|by eapply H_call]. Qed.

Lemma drop_fields o s u s' : drop_handle o s = Ok u s' -> s_count s' = s_count s /\ s_pool s' = s_pool s /\ s_gcthr s' = s_gcthr s.
Proof. unfold drop_handle. destruct o; [|by intros [= <- <-]]. intros E. by apply dec_ref_live in E as (_&?). Qed.

Transparent exec.
Lemma light_same c opsem strict g k vars s A vars' s' : winv c opsem strict g s vars A -> light k = true ->
  exec c k vars s = Ok vars' s' ->
  cells s' = cells s /\ p_extra (s_pool s') = p_extra (s_pool s) /\ s_gcthr s' = s_gcthr s.
Proof.
  intros W Hl E. destruct k; try discriminate Hl; unfold exec, bind in E.
  - destruct (vars !! x) as [a|].
    + apply put_live in E as (_&_&E1&E2&E3). unfold cells. by rewrite E1, E2, E3.
    + destruct (drop_handle _ s) as [u s1| |] eqn:E1; [|done|done]. injection E as <- <-. apply drop_fields in E1 as (E1&E2&E3).
      unfold cells. by rewrite E1, E2, E3.
  - by injection E as <- <-.
  - destruct (drop_handle _ s) as [u s1| |] eqn:E1; [|done|done]. injection E as <- <-. apply drop_fields in E1 as (E1&E2&E3).
    unfold cells. by rewrite E1, E2, E3.
  - pose proof (wi_calm _ _ _ _ _ _ _ W) as C.
    pose proof (force_gc_spec c opsem strict (fun _ => False) g s (cl_wf _ _ _ _ _ C)) as X. unfold wp in X.
    destruct (force_gc c s) as [[] s1| |]; try done. injection E as <- <-.
    destruct X as (_&_&So&_&_&_&Ee&_&_&Hav&_); [apply C|apply (cl_ord _ _ _ _ _ C)|]. unfold cells.
    split; [lia|]. split; [done|apply So].
  - by injection E as <- <-.
  - by injection E as <- <-.
Qed.
Opaque exec.

Lemma peak_inv c opsem strict args P ks s vars A : wf_cfg c -> peak c opsem strict args P ks s vars A ->
  ab_clean A = true /\ p_extra (s_pool s) = ca_extra args /\ s_gcthr s = ca_gcthr args /\
  (cells s = ca_main args \/ exists m, cells s = (m + ca_extra args)%Z /\ (m - ca_gcthr args m < Z.of_nat P)%Z).
Proof.
  intros Hc H. induction H as [s vars A H|ks s vars A k A' vars' s' H IH S Hk E HP].
  - inversion H as [s0 s1 Po Hn|? ? ? ? ? ? ? ? _ _ _ E0]; [|by destruct ks]. subst. split; [done|].
    Transparent new_manager. unfold new_manager in Hn. Opaque new_manager.
    destruct (construct_ok c (ca_order args) (ca_main args) (ca_extra args) (ca_cache args) (ca_caps args)
      (ca_gcthr args) (ca_cratio args) s0 (co_order _ _ _ Po)) as (i2l&Eq&_).
    rewrite Eq in Hn. simplify_eq. unfold cells. simpl. split; [done|]. split; [done|]. by left.
  - destruct IH as (Hcl&Hx&Ht&Hb). pose proof (peak_history _ _ _ _ _ _ _ _ _ H) as Hh.
    destruct (history_winv _ _ _ _ _ _ _ _ Hc Hh) as [g W].
    destruct (built k) as [d|] eqn:Eb.
    + destruct (nt_grown _ _ _ _ _ _ (exec_new c opsem strict g s vars k A A' d vars' s' Hc W S Eb E)) as (X&Y&G).
      split. { destruct (spec_built _ _ _ _ _ _ _ _ S Eb) as [F ->]. done. }
      rewrite X, Y. split; [done|]. split; [done|]. destruct G as [->|(m&l&Cm&N&L&T)]; [done|]. right. exists m.
      rewrite Cm, Hx. split; [done|]. rewrite <- Ht. assert (length l <= P); [|lia]. apply HP. split; [done|].
      intros e He. destruct (L e He) as [?|(a&Ha&Hr)]; [left; by eapply held_in_use|right; by exists d, a].
    + destruct Hk as [|Hk]; [done|]. destruct (light_same _ _ _ _ _ _ _ _ _ _ W Hk E) as (Ec&X&Y).
      split. { destruct S; try discriminate Hk; done. }
      rewrite Ec, X, Y. done.
Qed.

(** The pool never has more than the initial cells or one chunk beyond the number of cells
    for which the threshold is met. *)
Theorem C81_program : forall c opsem strict args P ks s vars A M,
  wf_cfg c -> peak c opsem strict args P ks s vars A ->
  (forall m, (M < m)%Z -> (Z.of_nat P <= m - ca_gcthr args m)%Z) ->
  (capacity s <= Z.max (ca_main args) (M + ca_extra args))%Z.
Proof.
  intros c opsem strict args P ks s vars A M Hc H HM.
  rewrite (capacity_cells _ _ _ _ _ _ _ _ Hc (peak_history _ _ _ _ _ _ _ _ _ H)).
  destruct (peak_inv _ _ _ _ _ _ _ _ _ Hc H) as (_&_&_&[->|(m&->&Hm)]); [lia|].
  destruct (Z_lt_ge_dec M m) as [Hlt|]; [|lia]. specialize (HM m Hlt). lia.
Qed.

(** with the default ratio 0.20 of the code: a quarter more than the peak, and one chunk *)
Theorem C81_default : forall c opsem strict args P ks s vars A,
  wf_cfg c -> peak c opsem strict args P ks s vars A -> ca_gcthr args = (fun n => n * 20 / 100)%Z ->
  (capacity s <= Z.max (ca_main args) (5 * Z.of_nat P / 4 + ca_extra args))%Z.
Proof.
  intros c opsem strict args P ks s vars A Hc H Ht. apply (C81_program c opsem strict args P ks s vars A _ Hc H).
  rewrite Ht. intros m Hm. pose proof (Z.div_mod (5 * Z.of_nat P) 4 ltac:(lia)). pose proof (Z.mod_pos_bound (5 * Z.of_nat P) 4 ltac:(lia)).
  assert (m * 20 / 100 <= m - Z.of_nat P)%Z; [|lia]. apply Z.div_le_upper_bound; lia.
Qed.

(** ** A concrete case: two diagrams after one another in the same object, five cells *)

Lemma in_use_live c opsem strict args ks s vars A e : wf_cfg c -> history c opsem strict args ks s vars A ->
  in_use s vars e -> live (s_heap s) e <> None.
Proof.
  intros Hc H (d&r&Hd&Hr). destruct (history_winv _ _ _ _ _ _ _ _ Hc H) as [g W].
  pose proof (wi_calm _ _ _ _ _ _ _ W) as C. eapply held_live; [apply C|].
  exists r. split; [|done]. pose proof (wi_pos _ _ _ _ _ _ _ _ _ W Hd) as P.
  destruct (wf_ext _ _ _ _ _ (cl_wf _ _ _ _ _ C) r P) as [? ?]. split_and!; try done. right. by left.
Qed.

Lemma needed_le c opsem strict args ks s vars A ks' s' vars' A' l :
  wf_cfg c -> history c opsem strict args ks s vars A -> history c opsem strict args ks' s' vars' A' ->
  needed s vars s' vars' l -> length l <= nlive (s_heap s) + nlive (s_heap s').
Proof.
  intros Hc H H' [N L]. destruct (PropsQuery.live_list_ok s) as [N1 L1]. destruct (PropsQuery.live_list_ok s') as [N2 L2].
  rewrite (PropsQuery.nlive_list _ _ N1 L1), (PropsQuery.nlive_list _ _ N2 L2), <- app_length. apply submseteq_length.
  apply NoDup_submseteq; [done|]. intros e He. apply elem_of_app. destruct (L e He) as [Hu|Hu].
  - left. apply L1. by eapply (in_use_live c opsem strict args ks).
  - right. apply L2. by eapply (in_use_live c opsem strict args ks').
Qed.

Definition gr_args : cargs := pool3 5 3.

Definition gr_test : bool :=
  match new_manager c3 gr_args no_state with
  | Ok _ s0 => match exec c3 (CVec 0 (bits 105)) ∅ s0 with
    | Ok v1 s1 => match exec c3 (CVec 0 (bits 23)) v1 s1 with
      | Ok v2 s2 => (nlive (s_heap s0) + nlive (s_heap s1) <=? 20) && (nlive (s_heap s1) + nlive (s_heap s2) <=? 20) &&
          (5 <? capacity s1)%Z && (capacity s1 <? capacity s2)%Z
      | _ => false end
    | _ => false end
  | _ => false
  end.

Lemma gr_test_ok : gr_test = true.
Proof. by vm_compute. Qed.

Lemma gr_vec s n A : ab_order A = [0; 1; 2] -> exists F, spec c3 (fun _ => None) true s (CVec 0 (bits n)) A (bindf 0 F A).
Proof.
  intros E. eexists. apply S_vec; [by rewrite E|]. unfold bits. apply Forall_map, Forall_true. intros k. left.
  destruct (Z.testbit n (Z.of_nat k)); vm_compute; split; done.
Qed.

(** The pool grows in both calls; the theorem bounds it by 27 cells. *)
Example C81_program_case : exists s0 v1 s1 v2 s2 A,
  peak c3 (fun _ => None) true gr_args 20 [CVec 0 (bits 105); CVec 0 (bits 23)] s2 v2 A /\
  exec c3 (CVec 0 (bits 105)) ∅ s0 = Ok v1 s1 /\ exec c3 (CVec 0 (bits 23)) v1 s1 = Ok v2 s2 /\
  (5 < capacity s1)%Z /\ (capacity s1 < capacity s2)%Z /\ (capacity s2 <= 27)%Z.
Proof.
  pose proof gr_test_ok as X. unfold gr_test in X.
  destruct (new_manager c3 gr_args no_state) as [[] s0| |] eqn:E0; [|discriminate..].
  destruct (exec c3 (CVec 0 (bits 105)) ∅ s0) as [v1 s1| |] eqn:E1; [|discriminate..].
  destruct (exec c3 (CVec 0 (bits 23)) v1 s1) as [v2 s2| |] eqn:E2; [|discriminate..].
  apply andb_prop in X as [X X4]. apply andb_prop in X as [X X3]. apply andb_prop in X as [X1 X2].
  apply Nat.leb_le in X1, X2. apply Z.ltb_lt in X3, X4.
  assert (H0 : history c3 (fun _ => None) true gr_args [] s0 ∅ (no_objects gr_args)).
  { eapply H_new; [apply pool3_ok; done|exact E0]. }
  destruct (gr_vec s0 105 (no_objects gr_args) eq_refl) as [F S1].
  assert (H1 : history c3 (fun _ => None) true gr_args ([] ++ [CVec 0 (bits 105)]) s1 v1 (bindf 0 F (no_objects gr_args))).
  { eapply H_call; [exact H0|exact S1|exact E1]. }
  destruct (gr_vec s1 23 (bindf 0 F (no_objects gr_args)) eq_refl) as [G S2].
  assert (H2 : history c3 (fun _ => None) true gr_args (([] ++ [CVec 0 (bits 105)]) ++ [CVec 0 (bits 23)]) s2 v2
    (bindf 0 G (bindf 0 F (no_objects gr_args)))).
  { eapply H_call; [exact H1|exact S2|exact E2]. }
  assert (P2 : peak c3 (fun _ => None) true gr_args 20 (([] ++ [CVec 0 (bits 105)]) ++ [CVec 0 (bits 23)]) s2 v2
    (bindf 0 G (bindf 0 F (no_objects gr_args)))).
  { eapply P_call; [eapply P_call; [apply P_new; exact H0|exact S1|left; discriminate|exact E1|]|exact S2|left; discriminate|exact E2|].
    - intros l Hl. pose proof (needed_le _ _ _ _ _ _ _ _ _ _ _ _ _ c3_wf H0 H1 Hl) as Y. clear - X1 Y. lia.
    - intros l Hl. pose proof (needed_le _ _ _ _ _ _ _ _ _ _ _ _ _ c3_wf H1 H2 Hl) as Y. clear - X2 Y. lia. }
  exists s0, v1, s1, v2, s2, (bindf 0 G (bindf 0 F (no_objects gr_args))).
  split; [exact P2|]. split; [exact E1|]. split; [exact E2|]. split; [exact X3|]. split; [exact X4|].
  apply (C81_program _ _ _ _ _ _ _ _ _ 24%Z c3_wf P2). cbn [ca_gcthr gr_args pool3]. intros m Hm.
  pose proof (Z.div_le_upper_bound m 5 (m - 20) ltac:(lia) ltac:(lia)). lia.
Qed.

(** ** The documented rule

    README: the pool grows if a collection gives back less than 0.05 times the size of the
    pool.  The code takes 0.20 times the number of nodes (node_manager.hpp:1044-1053):
    here the collection gives one of ten cells back, 0.10 of the pool, and it still grows. *)

Definition rule_prog : list call :=
  [CVar 0 0; CVar 1 1; CVar 2 2; CVarNot 3 0; CVarNot 4 1; CVarNot 5 2; CApply 6 AND 0 1; CApply 7 AND 1 2; CReset 6].

Definition rule_test : bool :=
  match outcome c3 (pool3 10 7) rule_prog with
  | Ok v s => match exec c3 CGc v s, exec c3 (CApply 8 OR 0 1) v s with
    | Ok _ sg, Ok _ s' => (p_avail (s_pool s) =? 0)%Z && (p_avail (s_pool sg) =? 1)%Z && (capacity s =? 10)%Z && (capacity s' =? 17)%Z
    | _, _ => false end
  | _ => false
  end.

Lemma rule_test_ok : rule_test = true.
Proof. by vm_compute. Qed.

Theorem C81_documented_refuted : exists c p ks k v s vg sg v' s',
  wf_cfg c /\ cargs_ok c true p /\ ca_gcthr p = (fun n => n / 5)%Z /\ outcome c p ks = Ok v s /\
  p_avail (s_pool s) = 0%Z /\ exec c CGc v s = Ok vg sg /\ (5 * ca_main p <= 100 * p_avail (s_pool sg))%Z /\
  exec c k v s = Ok v' s' /\ (capacity s < capacity s')%Z.
Proof.
  pose proof rule_test_ok as X. unfold rule_test in X. exists c3, (pool3 10 7), rule_prog, (CApply 8 OR 0 1).
  destruct (outcome c3 (pool3 10 7) rule_prog) as [v s| |] eqn:E; [|discriminate..].
  destruct (exec c3 CGc v s) as [vg sg| |] eqn:Eg; [|discriminate..].
  destruct (exec c3 (CApply 8 OR 0 1) v s) as [v' s'| |] eqn:E'; [|discriminate..].
  apply andb_prop in X as [X X4]. apply andb_prop in X as [X X3]. apply andb_prop in X as [X1 X2].
  apply Z.eqb_eq in X1, X2, X3, X4. exists v, s, vg, sg, v', s'.
  split; [apply c3_wf|]. split; [by apply pool3_ok|]. split; [reflexivity|]. split; [reflexivity|]. split; [exact X1|].
  split; [exact Eg|]. split; [rewrite X2; by vm_compute|]. split; [exact E'|]. rewrite X3, X4. by vm_compute.
Qed.

Print Assumptions C81_call.
Print Assumptions C81_program.
Print Assumptions C81_default.
Print Assumptions C81_documented_refuted.
