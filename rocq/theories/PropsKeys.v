(** * C80: diagrams as keys of unordered containers *)

From stdpp Require Import gmap list.
From Coq Require Import ZArith Lia.
From Verif Require Import Base Ops Tables NodeManager Tools Sift DiagramManager World Queries.
From Verif Require Import Heap Inv InvLemmas Eval OpSpec OpProof VecSpec WorldSpec WorldProof Ctor History PropsBase Chain Examples.
From Verif Require Import QuerySpec QueryProof PropsCore Refuted PropsNoGarbage Keys KeysSpec KeysProof.

Local Open Scope nat_scope.
Local Opaque exec run new_manager.

(** Diagrams of equal functions have equal hashes; in general objects that are equal
    have equal hashes. *)
Theorem C80_hash : forall c opsem strict args ks s vars A x y F G,
  wf_cfg c -> history c opsem strict args ks s vars A ->
  (equals vars x y = true -> hash_obj c vars x = hash_obj c vars y) /\
  (ab_canon A = true -> ab A !! x = Some F -> ab A !! y = Some G -> fun_eq c F G -> hash_obj c vars x = hash_obj c vars y).
Proof.
  intros c opsem strict args ks s vars A x y F G Hc H. split.
  - intros E. unfold equals in E. apply bool_decide_eq_true in E. unfold hash_obj. by rewrite E.
  - intros Hcn HF HG HE. unfold hash_obj. by rewrite (proj2 (roots_eq c opsem strict args ks s vars A x y F G Hc H Hcn HF HG) HE).
Qed.

(** No call changes the hash of an object that it does not assign, or whether two such
    objects are equal: not a collection, not a reordering. *)
Theorem C80_stable : forall c k vars s vars' s' x y,
  exec c k vars s = Ok vars' s' -> x ∉ touched k -> y ∉ touched k ->
  hash_obj c vars' x = hash_obj c vars x /\ equals vars' x y = equals vars x y.
Proof.
  intros c k vars s vars' s' x y E Hx Hy. unfold hash_obj, equals.
  by rewrite (exec_untouched _ _ _ _ _ _ _ E Hx), (exec_untouched _ _ _ _ _ _ _ E Hy).
Qed.

Lemma ex_reorders : is_ok (exec ex_cfg CReorder ex_vars ex_st) = true.
Proof. by vm_compute. Qed.

Example C80_stable_case : exists v s, exec ex_cfg CReorder ex_vars ex_st = Ok v s /\
  hash_obj ex_cfg v 4 = hash_obj ex_cfg ex_vars 4 /\ equals v 6 7 = true.
Proof.
  destruct (ex_call CReorder ex_reorders) as (v&s&E). exists v, s. split; [exact E|]. split.
  - apply (C80_stable ex_cfg CReorder ex_vars ex_st v s 4 4 E); apply not_elem_of_nil.
  - destruct (C80_stable ex_cfg CReorder ex_vars ex_st v s 6 7 E) as [_ ->]; [apply not_elem_of_nil..|]. by vm_compute.
Qed.

(** A map with diagrams as keys, used together with any other calls: find gives the
    value that was inserted first for the function, if there is one. *)
Theorem C80_find : forall c opsem strict args base n us s vars m A fm x F v,
  wf_cfg c -> uhist c opsem strict args base n us s vars m A fm -> ab_canon A = true -> ab A !! x = Some F ->
  (exists e, um_find c vars m x = Some e /\ e_val e = v) <-> maps_to c fm F v.
Proof.
  intros c opsem strict args base n us s vars m A fm x F v Hc H Hcn HF.
  destruct (uhist_inv _ _ _ _ _ _ _ _ _ _ _ _ Hc H) as [[ks Hk] K]. by eapply find_known.
Qed.

(** ... so a function has one value. *)
Theorem C80_unique : forall c opsem strict args base n us s vars m A fm x F v w,
  wf_cfg c -> uhist c opsem strict args base n us s vars m A fm -> ab_canon A = true -> ab A !! x = Some F ->
  maps_to c fm F v -> maps_to c fm F w -> v = w.
Proof.
  intros c opsem strict args base n us s vars m A fm x F v w Hc H Hcn HF Hv Hw.
  apply (C80_find c opsem strict args base n us s vars m A fm x F v Hc H Hcn HF) in Hv as (e&E&<-).
  apply (C80_find c opsem strict args base n us s vars m A fm x F w Hc H Hcn HF) in Hw as (e'&E'&<-). congruence.
Qed.

(** Also after a reordering no element is lost: the key of each element, and each object
    with the same root, finds it, and the key still has its function. *)
Theorem C80_kept : forall c opsem strict args base n us s vars m A fm,
  wf_cfg c -> uhist c opsem strict args base n us s vars m A fm ->
  (forall F v, (F, v) ∈ fm -> exists e a, e ∈ entries m /\ e_val e = v /\ vars !! e_key e = Some a /\ computes c s a F) /\
  forall e x, e ∈ entries m -> equals vars (e_key e) x = true -> um_find c vars m x = Some e.
Proof.
  intros c opsem strict args base n us s vars m A fm Hc H.
  destruct (uhist_inv _ _ _ _ _ _ _ _ _ _ _ _ Hc H) as [[ks Hk] K]. split.
  - intros F v HI. destruct (k_from _ _ _ _ _ _ K F v HI) as (e&He&HF&Hv).
    destruct (history_value _ _ _ _ _ _ _ _ _ F Hc Hk HF) as (a&Ha&V). by exists e, a.
  - intros e x He Hx. unfold equals in Hx. apply bool_decide_eq_true in Hx.
    destruct (k_ent _ _ _ _ _ _ K e He) as (_&a&Ha&_). apply (find_ok c base vars A m fm x a e K); [congruence|done].
Qed.

(** the functions of objects 6 and 9 are inserted, then looked up as objects 7 and 5 *)
Definition key_prog : list ustep := [UEmplace 6 10; UCall (CApply 9 AND 2 0); UEmplace 9 3; UCall CGc; UEmplace 5 8; URehash 1].

Definition key_run : res (vars_t * umap) := u_run ex_cfg key_prog ex_vars (um_new 20 2) ex_st.

Definition key_test : bool :=
  match key_run with
  | Ok (v, m) _ => bool_decide (e_val <$> um_find ex_cfg v m 7 = Some 10%Z) &&
      bool_decide (e_val <$> um_find ex_cfg v m 5 = Some 3%Z) && bool_decide (um_find ex_cfg v m 4 = None)
  | _ => false
  end.

Example C80_find_case : key_test = true.
Proof. by vm_compute. Qed.

Lemma exF56 : ~ fun_eq ex_cfg exF5 exF6.
Proof.
  intros H. pose (rho := fun i : nat => if i =? 1 then 2 else 1).
  assert (V : valid ex_cfg rho). { intros i Hi. do 3 (destruct i as [|i]; [vm_compute; lia|]). vm_compute in Hi. lia. }
  specialize (H rho V). by vm_compute in H.
Qed.

(** two steps of a run *)
Definition two_ok (k l : ustep) : bool :=
  match u_exec ex_cfg k ex_vars (um_new 20 2) ex_st with
  | Ok (v, m) s => match u_exec ex_cfg l v m s with Ok _ _ => true | _ => false end
  | _ => false
  end.

Lemma two_runs k l : two_ok k l = true -> exists v m s v' m' s',
  u_exec ex_cfg k ex_vars (um_new 20 2) ex_st = Ok (v, m) s /\ u_exec ex_cfg l v m s = Ok (v', m') s'.
Proof.
  unfold two_ok. destruct (u_exec ex_cfg k ex_vars (um_new 20 2) ex_st) as [[v m] s| |]; [|discriminate..].
  destruct (u_exec ex_cfg l v m s) as [[v' m'] s'| |] eqn:E; [|discriminate..]. intros _.
  exists v, m, s, v', m', s'. split; [reflexivity|exact E].
Qed.

Lemma key_two : two_ok (UEmplace 6 10) (UEmplace 5 3) = true.
Proof. by vm_compute. Qed.

(** a history of the theorems, and what they say about it *)
Example C80_uhist_case : exists v m s A,
  uhist ex_cfg ex_ops true ex_args 20 2 [UEmplace 6 10; UEmplace 5 3] s v m A [(exF5, 3%Z); (exF6, 10%Z)] /\
  (exists e, um_find ex_cfg v m 7 = Some e /\ e_val e = 10%Z) /\ (exists e, um_find ex_cfg v m 5 = Some e /\ e_val e = 3%Z).
Proof.
  destruct (two_runs _ _ key_two) as (v1&m1&s1&v2&m2&s2&E1&E2).
  assert (U1 : uhist ex_cfg ex_ops true ex_args 20 2 ([] ++ [UEmplace 6 10]) s1 v1 m1 (bindf (um_next (um_new 20 2)) exF6 ex_abs) [(exF6, 10%Z)]).
  { apply (U_new ex_cfg ex_ops true ex_args 20 2 [] ex_st ex_vars (um_new 20 2) ex_abs [] 6 10%Z exF6 s1 v1 m1).
    - apply (U_start ex_cfg ex_ops true ex_args 20 2 ex_prog). exact ex_history.
    - reflexivity.
    - reflexivity.
    - intros (v&G&HG&_). by apply not_elem_of_nil in HG.
    - exact E1. }
  assert (Hn : 20 <= um_next m1).
  { destruct (uhist_inv _ _ _ _ _ _ _ _ _ _ _ _ ex_wf U1) as [_ K]. apply (k_base _ _ _ _ _ _ K). }
  set (A1 := bindf (um_next (um_new 20 2)) exF6 ex_abs) in *.
  assert (U2 : uhist ex_cfg ex_ops true ex_args 20 2 ([UEmplace 6 10] ++ [UEmplace 5 3]) s2 v2 m2 (bindf (um_next m1) exF5 A1) [(exF5, 3%Z); (exF6, 10%Z)]).
  { apply (U_new ex_cfg ex_ops true ex_args 20 2 [UEmplace 6 10] s1 v1 m1 A1 [(exF6, 10%Z)] 5 3%Z exF5 s2 v2 m2).
    - exact U1.
    - reflexivity.
    - reflexivity.
    - intros (v&G&HG&HE). apply elem_of_list_singleton in HG. injection HG as -> ->. by apply exF56.
    - exact E2. }
  exists v2, m2, s2, (bindf (um_next m1) exF5 A1). split; [exact U2|]. split.
  - apply (C80_find ex_cfg ex_ops true ex_args 20 2 _ s2 v2 m2 _ _ 7 exF6 10%Z ex_wf U2 eq_refl).
    + etransitivity; [apply lookup_insert_ne; lia|reflexivity].
    + exists exF6. split; [apply elem_of_list_further, elem_of_list_here|]. intros rho _. reflexivity.
  - apply (C80_find ex_cfg ex_ops true ex_args 20 2 _ s2 v2 m2 _ _ 5 exF5 3%Z ex_wf U2 eq_refl).
    + etransitivity; [apply lookup_insert_ne; lia|reflexivity].
    + exists exF5. split; [apply elem_of_list_here|]. intros rho _. reflexivity.
Qed.

(** After a reordering the lookup with a new diagram of a function that has an element
    can miss it (compare C24). *)
Definition miss_test : bool :=
  match new_manager c3 args3 no_state with
  | Ok _ s => match u_run c3 [UCall (CVec 0 (bits 163)); UCall (CVec 1 (bits 139)); UEmplace 0 7; UCall CReorder; UCall (CVec 2 (bits 163))] ∅ (um_new 10 2) s with
     | Ok (v, m) s => bool_decide (vector_of c3 v s 0 = Some (bits 163)) && bool_decide (vector_of c3 v s 2 = Some (bits 163)) &&
         bool_decide (e_val <$> um_find c3 v m 0 = Some 7%Z) && bool_decide (um_find c3 v m 2 = None)
     | _ => false end
  | _ => false
  end.

Lemma miss : miss_test = true.
Proof. by vm_compute. Qed.

Theorem C80_reorder_refuted : exists c p us s0 v m s x y l,
  wf_cfg c /\ cargs_ok c true p /\ new_manager c p no_state = Ok tt s0 /\
  u_run c us ∅ (um_new 10 2) s0 = Ok (v, m) s /\
  vector_of c v s x = Some l /\ vector_of c v s y = Some l /\
  e_val <$> um_find c v m x = Some 7%Z /\ um_find c v m y = None.
Proof.
  pose proof miss as H. unfold miss_test in H.
  destruct (new_manager c3 args3 no_state) as [[] s0| |] eqn:E0; [|discriminate..].
  match type of H with (match ?r with _ => _ end = true) => destruct r as [[v m] s| |] eqn:E1 end; [|discriminate..].
  apply andb_prop in H as [H H4]. apply andb_prop in H as [H H3]. apply andb_prop in H as [H1 H2].
  apply bool_decide_eq_true in H1, H2, H3, H4.
  exists c3, args3. eexists. exists s0, v, m, s, 0, 2, (bits 163).
  split; [apply c3_wf|]. split; [by apply pool3_ok|]. split; [exact E0|]. split; [exact E1|]. split; [exact H1|]. split; [exact H2|]. split; [exact H3|exact H4].
Qed.

Print Assumptions C80_hash.
Print Assumptions C80_stable.
Print Assumptions C80_find.
Print Assumptions C80_unique.
Print Assumptions C80_kept.
Print Assumptions C80_reorder_refuted.
