(** * Probabilities of the states of a system, independent of diagrams *)

From stdpp Require Import list.
From Coq Require Import ZArith Ring_theory Lia.
From Verif Require Import Base Prob Eval QuerySpec VecSpec.

Local Open Scope nat_scope.

(** all state vectors of components with [ds] states *)
Fixpoint states (ds : list nat) : list (list nat) :=
  match ds with
  | [] => [[]]
  | d :: ds => flat_map (fun k => map (cons k) (states ds)) (seq 0 d)
  end.

Section spec.
Context {R : Type} (ar : arith R).
Notation "0" := (a_zero ar).
Notation "1" := (a_one ar).
Notation "x + y" := (a_add ar x y).
Notation "x * y" := (a_mul ar x y).

Definition rsum (l : list R) : R := fold_right (a_add ar) 0 l.

(** the probability of one state vector: the components are independent *)
Fixpoint weight (ps : list (list R)) (x : list nat) : R :=
  match ps, x with
  | row :: ps, k :: x => nth k row 0 * weight ps x
  | _, _ => 1
  end.

(** one distribution for every component *)
Definition distributions (ds : list nat) (ps : list (list R)) : Prop :=
  Forall2 (fun d row => length row = d /\ rsum row = 1) ds ps.

(** the probability of the event [A] *)
Definition probability (ds : list nat) (ps : list (list R)) (A : list nat -> bool) : R :=
  rsum (map (fun x => if A x then weight ps x else 0) (states ds)).

(** the matrix that a vector of the probabilities of state 1 stands for *)
Definition two_state (ps : list R) : list (list R) := map (fun p => [a_sub ar 1 p; p]) ps.

(** exact arithmetic *)
Definition a_opp (x : R) : R := a_sub ar 0 x.
Definition exact : Prop := ring_theory 0 1 (a_add ar) (a_mul ar) (a_sub ar) a_opp eq.
End spec.

(** [states] lists every vector once *)
Lemma states_elem ds x : x ∈ states ds <-> Forall2 (fun k d => k < d) x ds.
Proof.
  revert x. induction ds as [|d ds IH]; intros x; cbn [states].
  - rewrite elem_of_list_singleton. split; [by intros ->|]. by inversion 1.
  - rewrite elem_of_list_In, in_flat_map. split.
    + intros (k&Hk&Hx). apply in_seq in Hk. apply elem_of_list_In, elem_of_list_fmap in Hx as (y&->&Hy).
      constructor; [lia|]. by apply IH.
    + intros (k&y&Hk&Hy&->)%Forall2_cons_inv_r. exists k. split; [apply in_seq; lia|]. apply elem_of_list_In, elem_of_list_fmap.
      exists y. split; [done|]. by apply IH.
Qed.

Lemma states_NoDup ds : NoDup (states ds).
Proof.
  induction ds as [|d ds IH]; cbn [states]; [apply NoDup_singleton|].
  generalize 0 as st. induction d as [|d IHd]; intros st; simpl; [constructor|].
  apply NoDup_app. split_and!; [|  |apply IHd].
  - apply NoDup_fmap_2; [|done]. by intros ? ? [= ->].
  - intros x (y&->&Hy)%elem_of_list_fmap Hin. apply elem_of_list_In, in_flat_map in Hin as (k&Hk&Hin).
    apply in_seq in Hk. apply elem_of_list_In, elem_of_list_fmap in Hin as (z&Hz&_). injection Hz as ->. lia.
Qed.
