(** * What programs may expect from the node pool *)

From stdpp Require Import gmap list.
From Coq Require Import ZArith.
From Verif Require Import Base Links Pool.

Record apool := APool {
  ap_live : gmap (nat * nat) obj;  (* nodes in use *)
  ap_hand : gset nat;              (* arrays that belong to the program *)
  ap_total : nat;                  (* cells of all chunks *)
  ap_ever : gset (nat * nat)       (* cells that were handed out at least once *)
}.

Definition p_allows (A : apool) (k : pop) : Prop :=
  match k with
  | PArray => True
  | PDelArray a => a ∈ ap_hand A
  | PCreate OLeaf => size (ap_live A) < ap_total A
  | PCreate (OInner a) => size (ap_live A) < ap_total A /\ a ∈ ap_hand A
  | PRelease cl => is_Some (ap_live A !! cl)
  | PSetSons cl a => a ∈ ap_hand A /\ exists old, ap_live A !! cl = Some (OInner old)
  | PGrow => size (ap_ever A) = ap_total A
  end.

Definition taken (o : obj) (hand : gset nat) : gset nat :=
  match o with OLeaf => hand | OInner a => hand ∖ {[a]} end.

(** [extra]: size of the chunks that grow adds *)
Definition p_effect (extra : nat) (A : apool) (k : pop) (r : pres) (A' : apool) : Prop :=
  match k with
  | PArray => exists a, r = RArray a /\ a ∉ ap_hand A /\ (forall cl, ap_live A !! cl <> Some (OInner a)) /\
      A' = APool (ap_live A) ({[a]} ∪ ap_hand A) (ap_total A) (ap_ever A)
  | PDelArray a => A' = APool (ap_live A) (ap_hand A ∖ {[a]}) (ap_total A) (ap_ever A)
  | PCreate o => exists cl, r = RCell cl /\ ap_live A !! cl = None /\
      A' = APool (<[cl := o]> (ap_live A)) (taken o (ap_hand A)) (ap_total A) ({[cl]} ∪ ap_ever A)
  | PRelease cl => A' = APool (delete cl (ap_live A)) (ap_hand A) (ap_total A) (ap_ever A)
  | PSetSons cl a => A' = APool (<[cl := OInner a]> (ap_live A)) (ap_hand A ∖ {[a]}) (ap_total A) (ap_ever A)
  | PGrow => A' = APool (ap_live A) (ap_hand A) (ap_total A + extra) (ap_ever A)
  end.

Inductive pool_program (main extra : nat) : list pop -> lpool -> apool -> Prop :=
| PP_new : pool_program main extra [] (q_new main extra) (APool ∅ ∅ main ∅)
| PP_call ks p A k p' r A' : pool_program main extra ks p A -> p_allows A k -> q_exec k p = LVal (p', r) ->
    p_effect extra A k r A' -> pool_program main extra (ks ++ [k]) p' A'.
