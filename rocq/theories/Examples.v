(** * Concrete programs that meet the hypotheses of the theorems *)

From stdpp Require Import gmap list.
From Coq Require Import ZArith Lia.
From Verif Require Import Base Ops Tables NodeManager Tools Sift DiagramManager World.
From Verif Require Import Heap Inv GC Build Apply Constr Expr VecSpec Vec Eval Fold.
From Verif Require Import OpSpec OpProof WorldSpec WorldProof Ctor History PropsBase Chain.

Local Open Scope nat_scope.

(** domains 2, 3, 2; nodes are 64 bytes apart; assertions on; order x2, x0, x1 *)
Definition ex_cfg : cfg := Cfg [2; 3; 2] None (fun p => N.pos p * 64)%N true false.
Definition ex_args : cargs := CArgs [2; 0; 1]%Z 60 40 20 [7; 7; 7]%Z (fun n => n / 5)%Z (fun n => n)%Z.

Definition ex_prog : list call :=
  [CVar 0 0; CVar 1 1; CVar 2 2; CApply 3 MAX 0 1; CApply 4 (PLUS 4) 3 2; CApply 5 AND 0 2;
   CVec 6 [0; 1; 2; 1; 1; 2; 0; 1; 2; 0; 0; 7]%Z; CReset 1; CCopy 7 6; CGc; CApply 1 LESS 5 4].

Definition ex_run : res vars_t :=
  match new_manager ex_cfg ex_args no_state with Ok _ s => run ex_cfg ex_prog ∅ s | Err e => Err e | Fuel => Fuel end.
Definition ex_vars : vars_t := match ex_run with Ok v _ => v | _ => ∅ end.
Definition ex_st : st := match ex_run with Ok _ s => s | _ => no_state end.

Definition ex_vec : list Z := [0; 1; 2; 1; 1; 2; 0; 1; 2; 0; 0; 7]%Z.
Definition exV (i : nat) : asg -> Z := fun rho => Z.of_nat (rho i).
Definition exF3 : asg -> Z := fun rho => op_fun MAX (exV 0 rho) (exV 1 rho).
Definition exF4 : asg -> Z := fun rho => op_fun (PLUS 4) (exF3 rho) (exV 2 rho).
Definition exF5 : asg -> Z := fun rho => op_fun AND (exV 0 rho) (exV 2 rho).
Definition exF6 : asg -> Z := fun rho => nth (vec_index ex_cfg [2; 0; 1] rho) ex_vec 0%Z.
Definition exF1 : asg -> Z := fun rho => op_fun LESS (exF5 rho) (exF4 rho).

(** after the first three calls, before the third last and after the last call *)
Definition ex_abs3 : astate := bindf 2 (exV 2) (bindf 1 (exV 1) (bindf 0 (exV 0) (no_objects ex_args))).
Definition ex_abs7 : astate := bindf 6 exF6 (bindf 5 exF5 (bindf 4 exF4 (bindf 3 exF3 ex_abs3))).
Definition ex_abs : astate := bindf 1 exF1 (bindf 7 exF6 (set_ab (delete 1 (ab ex_abs7)) ex_abs7)).

Lemma ex_wf : wf_cfg ex_cfg.
Proof.
  constructor.
  - intros i Hi. do 3 (destruct i as [|i]; [vm_compute; lia|]). vm_compute in Hi. lia.
  - done.
  - intros i Hi. do 3 (destruct i as [|i]; [by vm_compute|]). vm_compute in Hi. lia.
Qed.

Lemma ex_args_ok strict : cargs_ok ex_cfg strict ex_args.
Proof.
  constructor; try done.
  - unfold is_order, ex_args. simpl. apply (Permutation_cons_append [0; 1]%Z 2%Z).
  - intros _. split; [done|]. intros n Hn. simpl in Hn. simpl. apply Z.div_le_lower_bound; lia.
Qed.

(** values of the variables in valid assignments *)
Lemma ex_valid rho : valid ex_cfg rho -> rho 0 < 2 /\ rho 1 < 3 /\ rho 2 < 2.
Proof.
  intros H. split; [apply (H 0); vm_compute; lia|]. split; [apply (H 1); vm_compute; lia|].
  apply (H 2). vm_compute. lia.
Qed.

Ltac ex_values rho Hv :=
  apply ex_valid in Hv as (?&?&?);
  destruct (rho 0) as [|[|?]] eqn:?; try lia;
  destruct (rho 1) as [|[|[|?]]] eqn:?; try lia;
  destruct (rho 2) as [|[|?]] eqn:?; try lia.

Lemma ex_tval v : (0 <= v < 100)%Z -> tval ex_cfg v.
Proof. intros H. left. split; [change Nondet with 2147483646%Z; lia|done]. Qed.

Definition ex_ops : Z -> option (Z -> Z -> Z) := ops_with 2 4 3.

Lemma ex_chain : chain ex_cfg ex_ops true ex_prog (no_objects ex_args) ex_abs.
Proof.
  unfold ex_prog.
  apply (Ch_cons _ _ _ _ _ _ (bindf 0 (exV 0) (no_objects ex_args))); [intros s; apply S_var; vm_compute; lia|].
  eapply Ch_cons; [intros s; apply S_var; vm_compute; lia|].
  apply (Ch_cons _ _ _ _ _ _ ex_abs3); [intros s; apply S_var; vm_compute; lia|].
  apply (Ch_cons _ _ _ _ _ _ (bindf 3 exF3 ex_abs3)).
  { intros s. apply (S_apply ex_cfg ex_ops true s 3 MAX 0 1 (exV 0) (exV 1)); [done|done|reflexivity|reflexivity|].
    intros rho Hv. apply op_applicable_good; [|done]. unfold exV. split.
    - ex_values rho Hv; split; split; vm_compute; done.
    - ex_values rho Hv; apply ex_tval; vm_compute; done. }
  apply (Ch_cons _ _ _ _ _ _ (bindf 4 exF4 (bindf 3 exF3 ex_abs3))).
  { intros s. apply (S_apply ex_cfg ex_ops true s 4 (PLUS 4) 3 2 exF3 (exV 2)); [done|done|reflexivity|reflexivity|].
    intros rho Hv. apply op_applicable_good; [|done]. unfold exF3, exV. split.
    - ex_values rho Hv; repeat split; vm_compute; done.
    - ex_values rho Hv; apply ex_tval; vm_compute; done. }
  apply (Ch_cons _ _ _ _ _ _ (bindf 5 exF5 (bindf 4 exF4 (bindf 3 exF3 ex_abs3)))).
  { intros s. apply (S_apply ex_cfg ex_ops true s 5 AND 0 2 (exV 0) (exV 2)); [done|done|reflexivity|reflexivity|].
    intros rho Hv. apply op_applicable_good; [|done]. unfold exV. split.
    - ex_values rho Hv; repeat split; vm_compute; done.
    - ex_values rho Hv; apply ex_tval; vm_compute; done. }
  apply (Ch_cons _ _ _ _ _ _ ex_abs7).
  { intros s; apply S_vec; [by vm_compute|]. repeat (constructor; [apply ex_tval; lia|]). constructor. }
  eapply Ch_cons; [intros s; apply S_reset|].
  eapply Ch_cons; [intros s; apply (S_copy ex_cfg ex_ops true s 7 6 exF6); reflexivity|].
  eapply Ch_cons; [intros s; apply S_gc|].
  eapply Ch_cons; [intros s; apply (S_apply ex_cfg ex_ops true s 1 LESS 5 4 exF5 exF4); [done|done|reflexivity|reflexivity|]|].
  { intros rho Hv. apply op_applicable_good; [|done]. unfold exF4, exF5, exF3, exV. split.
    - ex_values rho Hv; repeat split; vm_compute; done.
    - ex_values rho Hv; apply ex_tval; vm_compute; done. }
  constructor.
Qed.

Lemma ex_history : history ex_cfg ex_ops true ex_args ex_prog ex_st ex_vars ex_abs.
Proof.
  destruct (new_manager ex_cfg ex_args no_state) as [[] s| |] eqn:E; [|by vm_compute in E..].
  eapply chain_new; [apply ex_args_ok|exact E|apply ex_chain|].
  unfold ex_vars, ex_st, ex_run. rewrite E.
  destruct (run ex_cfg ex_prog ∅ s) as [v s'| |] eqn:R; [done| |];
    assert (X : match ex_run with Ok _ _ => true | _ => false end = true) by (by vm_compute);
    unfold ex_run in X; by rewrite E, R in X.
Qed.

Lemma exF4_range rho : valid ex_cfg rho -> (0 <= exF4 rho < 4)%Z.
Proof. intros Hv. unfold exF4, exF3, exV. ex_values rho Hv; vm_compute; done. Qed.

Lemma exF5_bit rho : valid ex_cfg rho -> bit (exF5 rho).
Proof. intros Hv. unfold exF5, exV. ex_values rho Hv; vm_compute; auto. Qed.

Lemma exF6_range rho : (0 <= exF6 rho < 8)%Z.
Proof.
  unfold exF6. generalize (vec_index ex_cfg [2; 0; 1] rho). intros n.
  do 12 (destruct n as [|n]; [vm_compute; done|]). destruct n; vm_compute; done.
Qed.

Definition is_ok {T} (r : res T) : bool := match r with Ok _ _ => true | _ => false end.

Lemma ok_ex {T} (r : res T) : is_ok r = true -> exists x s, r = Ok x s.
Proof. destruct r as [x s| |]; try done. intros _. by exists x, s. Qed.

(** the calls of the examples succeed *)
Lemma ex_call k : is_ok (exec ex_cfg k ex_vars ex_st) = true ->
  exists v s, exec ex_cfg k ex_vars ex_st = Ok v s.
Proof. apply ok_ex. Qed.

(** two calls after [ex_prog] *)
Lemma ex_two k1 k2 : is_ok (run ex_cfg [k1; k2] ex_vars ex_st) = true ->
  exists v1 s1 v2 s2, exec ex_cfg k1 ex_vars ex_st = Ok v1 s1 /\ exec ex_cfg k2 v1 s1 = Ok v2 s2.
Proof.
  simpl. unfold bind, ret. destruct (exec ex_cfg k1 ex_vars ex_st) as [v1 s1| |]; try done.
  destruct (exec ex_cfg k2 v1 s1) as [v2 s2| |] eqn:E; try done. intros _. by exists v1, s1, v2, s2.
Qed.

Global Opaque ex_run ex_vars ex_st.

Ltac ex3 v s a := exists v, s, a; split; [eassumption|split; eassumption].
