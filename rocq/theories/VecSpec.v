(** * Truth vectors: the position of an assignment (specification side) *)

From stdpp Require Import gmap list.
From Coq Require Import ZArith Lia.
From Verif Require Import Base Heap.

Local Open Scope nat_scope.

Section vec.
Context (c : cfg).

(** number of assignments of the variables in [l] *)
Fixpoint prodl (l : list nat) : nat :=
  match l with
  | [] => 1
  | i :: l => dom c i * prodl l
  end.

(** mixed radix number formed by the values of the variables in [l], the first
    one being the most significant *)
Fixpoint vec_index (l : list nat) (rho : asg) : nat :=
  match l with
  | [] => 0
  | i :: l => rho i * prodl l + vec_index l rho
  end.

End vec.

Lemma prodl_app c l1 l2 : prodl c (l1 ++ l2) = prodl c l1 * prodl c l2.
Proof. induction l1 as [|i l1 IH]; simpl; [lia|]. rewrite IH. lia. Qed.

Lemma prodl_perm c l1 l2 : l1 ≡ₚ l2 -> prodl c l1 = prodl c l2.
Proof. induction 1; simpl; try lia. Qed.

Lemma vec_index_snoc c l i rho : vec_index c (l ++ [i]) rho = vec_index c l rho * dom c i + rho i.
Proof.
  induction l as [|j l IH]; simpl; [lia|]. rewrite IH, prodl_app. simpl. nia.
Qed.

Lemma vec_index_lt c l rho : (forall i, i ∈ l -> rho i < dom c i) -> vec_index c l rho < prodl c l.
Proof.
  induction l as [|i l IH]; intros H; simpl; [lia|].
  specialize (IH ltac:(intros; apply H; set_solver)). pose proof (H i ltac:(set_solver)). nia.
Qed.

Lemma vec_index_ext c l rho rho' : (forall i, i ∈ l -> rho i = rho' i) -> vec_index c l rho = vec_index c l rho'.
Proof.
  induction l as [|i l IH]; intros H; simpl; [done|].
  rewrite (H i), IH; [done| |]; set_solver.
Qed.

(** different assignments have different positions *)
Lemma vec_index_inj c l rho rho' :
  (forall i, i ∈ l -> rho i < dom c i) -> (forall i, i ∈ l -> rho' i < dom c i) ->
  vec_index c l rho = vec_index c l rho' -> forall i, i ∈ l -> rho i = rho' i.
Proof.
  induction l as [|i l IH]; intros H H' E j Hj; simpl in *; [set_solver|].
  pose proof (vec_index_lt c l rho ltac:(intros; apply H; set_solver)) as B1.
  pose proof (vec_index_lt c l rho' ltac:(intros; apply H'; set_solver)) as B2.
  assert (rho i = rho' i /\ vec_index c l rho = vec_index c l rho') as [E1 E2] by (apply (Nat.div_mod_unique (prodl c l)); lia).
  apply elem_of_cons in Hj as [->|Hj]; [done|]. apply IH; try done; intros; [apply H|apply H']; set_solver.
Qed.

(** every position is the one of some assignment *)
Lemma vec_index_surj c l n :
  NoDup l -> (forall i, i ∈ l -> 1 <= dom c i) -> n < prodl c l ->
  exists rho, vec_index c l rho = n /\ forall i, rho i < dom c i \/ (i ∉ l /\ rho i = 0).
Proof.
  revert n. induction l as [|i l IH]; intros n Hnd Hd Hn; simpl in *.
  - exists (fun _ => 0). split; [lia|]. intros i. right. split; [set_solver|done].
  - apply NoDup_cons in Hnd as [Hni Hnd].
    assert (Hp : prodl c l <> 0) by nia.
    destruct (IH (n mod prodl c l) Hnd) as (rho&E&Hr).
    { intros; apply Hd; set_solver. }
    { by apply Nat.mod_upper_bound. }
    exists (upd rho i (n / prodl c l)). split.
    + rewrite upd_same. rewrite (vec_index_ext c l _ rho).
      * rewrite E. pose proof (Nat.div_mod n (prodl c l) Hp). lia.
      * intros j Hj. apply upd_other. intros ->. done.
    + intros j. destruct (decide (j = i)) as [->|Hne].
      * left. rewrite upd_same. apply Nat.div_lt_upper_bound; lia.
      * rewrite upd_other by done. destruct (Hr j) as [?|[? ?]]; [by left|right]. split; [set_solver|done].
Qed.
