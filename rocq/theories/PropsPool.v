(** * C64: lifetimes in the node pool *)

From stdpp Require Import gmap list.
From Coq Require Import ZArith Lia.
From Verif Require Import Base Links Pool PoolSpec PoolProof.

(** every call that is allowed ends without error (no array freed twice, no
    destructor of a cell without an object, no cell outside its chunk), a new node
    never takes a cell in use *)
Theorem C64_calls main extra ks p A k : pool_program main extra ks p A -> p_allows A k ->
  exists p' r A', q_exec k p = LVal (p', r) /\ p_effect extra A k r A' /\ pool_program main extra (ks ++ [k]) p' A'.
Proof.
  intros P Hp. destruct (p_step main extra p A k (pool_program_pinv main extra ks p A P) Hp) as (p'&r&A'&E&Ef&_).
  exists p', r, A'. split; [done|]. split; [done|]. by eapply PP_call.
Qed.

(** the destructor of the pool destroys every node that was constructed exactly once
    and frees the array of each: only arrays that the program still holds remain *)
Theorem C64_end main extra ks p A : pool_program main extra ks p A ->
  exists m, q_end p = LVal m /\ fst m = ∅ /\ snd m = ap_hand A.
Proof. intros P. apply (end_ok main extra). by eapply pool_program_pinv. Qed.

(** get_available_node_count *)
Theorem C64_available main extra ks p A : pool_program main extra ks p A ->
  q_avail p = (Z.of_nat (ap_total A) - Z.of_nat (size (ap_live A)))%Z.
Proof.
  intros P. destruct (inv_size main extra p A (pool_program_pinv main extra ks p A P)) as (n&off&rest&_&_&L&_&Av&T&Sl&_). lia.
Qed.

Lemma program_snoc main extra ks k p A : pool_program main extra (ks ++ [k]) p A ->
  exists q B r, pool_program main extra ks q B /\ p_allows B k /\ q_exec k q = LVal (p, r) /\ p_effect extra B k r A.
Proof.
  intros H. remember (ks ++ [k]) as l eqn:El. destruct H as [|ks' q B k' p' r A' P O E F].
  - by destruct ks.
  - apply app_inj_tail in El as [-> ->]. eauto 10.
Qed.

Lemma program_unique main extra ks p A p' A' : pool_program main extra ks p A -> pool_program main extra ks p' A' -> p = p' /\ A = A'.
Proof.
  revert p A p' A'. induction ks as [|k ks IH] using rev_ind; intros p A p' A' H1 H2.
  - assert (N : forall q B, pool_program main extra [] q B -> q = q_new main extra /\ B = APool ∅ ∅ main ∅).
    { intros q B H. remember [] as l eqn:El. destruct H as [|ks']; [done|]. by destruct ks'. }
    apply N in H1 as [-> ->]. by apply N in H2 as [-> ->].
  - apply program_snoc in H1 as (q1&B1&r1&P1&_&E1&F1). apply program_snoc in H2 as (q2&B2&r2&P2&_&E2&F2).
    destruct (IH _ _ _ _ P1 P2) as [-> ->]. rewrite E1 in E2. injection E2 as -> ->. split; [done|].
    destruct k; simpl in F1, F2; try congruence.
    + destruct F1 as (a&Ea&_&_&->), F2 as (b&Eb&_&_&->). congruence.
    + destruct F1 as (a&Ea&_&->), F2 as (b&Eb&_&->). congruence.
Qed.

(** grow is called when no node is available, or after a garbage collection that was
    started because none was available (node_manager.hpp:1028-1057): then it is allowed *)
Theorem C64_grow_allowed main extra ks p A rs : pool_program main extra ks p A -> q_avail p = 0%Z ->
  forall p' A', pool_program main extra (ks ++ rs) p' A' ->
    (forall k, k ∈ rs -> exists cl, k = PRelease cl) -> p_allows A' PGrow.
Proof.
  intros P H0. assert (G : p_allows A PGrow).
  { destruct (inv_size main extra p A (pool_program_pinv main extra ks p A P)) as (n&off&rest&_&_&L&_&Av&T&_&Se). simpl. lia. }
  induction rs as [|k rs IH] using rev_ind; intros p' A' P' Hr.
  - rewrite app_nil_r in P'. by destruct (program_unique _ _ _ _ _ _ _ P P') as [_ <-].
  - rewrite app_assoc in P'. destruct (program_snoc _ _ _ _ _ _ P') as (q1&B1&r&P1&_&_&F).
    destruct (Hr k) as [cl ->]; [set_solver|]. simpl in F. subst. apply (IH _ _ P1). intros j Hj. apply Hr. set_solver.
Qed.

(** ** Concrete programs *)

Definition p_effect_of (extra : nat) (A : apool) (k : pop) (r : pres) : apool :=
  match k, r with
  | PArray, RArray a => APool (ap_live A) ({[a]} ∪ ap_hand A) (ap_total A) (ap_ever A)
  | PDelArray a, _ => APool (ap_live A) (ap_hand A ∖ {[a]}) (ap_total A) (ap_ever A)
  | PCreate o, RCell cl => APool (<[cl := o]> (ap_live A)) (taken o (ap_hand A)) (ap_total A) ({[cl]} ∪ ap_ever A)
  | PRelease cl, _ => APool (delete cl (ap_live A)) (ap_hand A) (ap_total A) (ap_ever A)
  | PSetSons cl a, _ => APool (<[cl := OInner a]> (ap_live A)) (ap_hand A ∖ {[a]}) (ap_total A) (ap_ever A)
  | PGrow, _ => APool (ap_live A) (ap_hand A) (ap_total A + extra) (ap_ever A)
  | _, _ => A
  end.

Definition p_allowed (A : apool) (k : pop) : bool :=
  match k with
  | PArray => true
  | PDelArray a => bool_decide (a ∈ ap_hand A)
  | PCreate OLeaf => size (ap_live A) <? ap_total A
  | PCreate (OInner a) => (size (ap_live A) <? ap_total A) && bool_decide (a ∈ ap_hand A)
  | PRelease cl => match ap_live A !! cl with Some _ => true | None => false end
  | PSetSons cl a => bool_decide (a ∈ ap_hand A) && match ap_live A !! cl with Some (OInner _) => true | _ => false end
  | PGrow => size (ap_ever A) =? ap_total A
  end.

Lemma p_allowed_ok A k : p_allowed A k = true -> p_allows A k.
Proof.
  destruct k as [|a|[|a]|cl|cl a|]; simpl; rewrite ?andb_true_iff, ?bool_decide_eq_true, ?Nat.ltb_lt, ?Nat.eqb_eq; try done.
  - destruct (ap_live A !! cl); [eauto|done].
  - intros [? H]. split; [done|]. destruct (ap_live A !! cl) as [[|old]|]; try done. eauto.
Qed.

Fixpoint p_track (extra : nat) (ks : list pop) (p : lpool) (A : apool) : option (lpool * apool) :=
  match ks with
  | [] => Some (p, A)
  | k :: ks =>
      if p_allowed A k then
        match q_exec k p with LVal (p', r) => p_track extra ks p' (p_effect_of extra A k r) | _ => None end
      else None
  end.

Lemma p_track_ok main extra ks : forall pre p A p' A', pool_program main extra pre p A -> p_track extra ks p A = Some (p', A') ->
  pool_program main extra (pre ++ ks) p' A'.
Proof.
  induction ks as [|k ks IH]; intros pre p A p' A' P E; simpl in E.
  - injection E as <- <-. by rewrite app_nil_r.
  - destruct (p_allowed A k) eqn:Ea; [|done]. apply p_allowed_ok in Ea.
    destruct (q_exec k p) as [[p1 r]| |] eqn:Ex; try done.
    replace (pre ++ k :: ks) with ((pre ++ [k]) ++ ks) by (by rewrite <- app_assoc).
    eapply IH; [|exact E]. eapply PP_call; [exact P|exact Ea|exact Ex|].
    destruct (p_step main extra p A k (pool_program_pinv main extra _ _ _ P) Ea) as (p2&r2&A2&E2&Ef&_). rewrite Ex in E2. injection E2 as <- <-.
    destruct k; simpl in *; try done.
    + destruct Ef as (a&->&?&?&_). by exists a.
    + destruct Ef as (a&->&Ha&_). by exists a.
Qed.

Lemma p_tracked main extra ks (Q : lpool -> apool -> Prop) :
  match p_track extra ks (q_new main extra) (APool ∅ ∅ main ∅) with Some (p, A) => Q p A | None => False end ->
  exists p A, pool_program main extra ks p A /\ Q p A.
Proof.
  intros H. destruct (p_track extra ks (q_new main extra) (APool ∅ ∅ main ∅)) as [[p A]|] eqn:E; [|contradiction].
  exists p, A. split; [exact (p_track_ok main extra ks [] _ _ _ _ (PP_new main extra) E)|exact H].
Qed.

(** a pool of two nodes that grows by two: a leaf, an inner node that is released and
    whose cell is used again, sons that are replaced, an array given back *)
Definition pool_case : list pop :=
  [PCreate OLeaf; PArray; PCreate (OInner 0); PArray; PRelease (0, 1); PCreate (OInner 1); PGrow;
   PArray; PArray; PDelArray 2; PCreate OLeaf; PSetSons (0, 1) 3; PArray; PRelease (0, 0)].

Example C64_case : exists p A, pool_program 2 2 pool_case p A /\
  q_avail p = 2%Z /\ q_free p = [(0, 0)] /\ elements (q_arrays p) = [3; 4] /\ elements (ap_hand A) = [4] /\
  match q_end p with LVal m => elements (snd m) = [4] | _ => False end.
Proof. apply (p_tracked 2 2 pool_case). vm_compute. done. Qed.

(** the destructor relies on the rule for grow: chunks behind the current one are taken
    to be full.  A grow while the main pool has cells left leads to destructors of cells
    that hold no node *)
Theorem C64_early_grow : exists p A p' r, pool_program 2 2 [PCreate OLeaf] p A /\
  ~ p_allows A PGrow /\ q_exec PGrow p = LVal (p', r) /\ q_end p' = LBad EUninit.
Proof.
  destruct (p_tracked 2 2 [PCreate OLeaf] (fun p A => size (ap_ever A) <> ap_total A /\
    match q_exec PGrow p with LVal (p', r) => q_end p' = LBad EUninit | _ => False end)) as (p&A&P&H1&H2).
  - vm_compute. done.
  - destruct (q_exec PGrow p) as [[p' r]| |] eqn:E; [|contradiction..]. exists p, A, p', r. done.
Qed.

(** a pool of two nodes is full; one is released, as by a garbage collection; the pool
    grows, and the program goes on *)
Example C64_grow_case : exists p A p' r A', pool_program 2 2 [PCreate OLeaf; PCreate OLeaf; PRelease (0, 1)] p A /\ q_avail p = 1%Z /\
  q_exec PGrow p = LVal (p', r) /\ pool_program 2 2 [PCreate OLeaf; PCreate OLeaf; PRelease (0, 1); PGrow] p' A' /\ q_avail p' = 3%Z.
Proof.
  destruct (p_tracked 2 2 [PCreate OLeaf; PCreate OLeaf] (fun p A => q_avail p = 0%Z)) as (p0&A0&P0&H0); [by vm_compute|].
  destruct (p_tracked 2 2 [PCreate OLeaf; PCreate OLeaf; PRelease (0, 1)] (fun p A => q_avail p = 1%Z /\ ap_total A = 2 /\ size (ap_live A) = 1))
    as (p&A&P&H1&HT&HL); [vm_compute; done|].
  assert (G : p_allows A PGrow).
  { apply (C64_grow_allowed 2 2 _ p0 A0 [PRelease (0, 1)] P0 H0 p A P). intros k ->%elem_of_list_singleton. by exists (0, 1). }
  destruct (C64_calls 2 2 _ p A PGrow P G) as (p'&r&A'&E&F&P'). exists p, A, p', r, A'. split_and!; [exact P|exact H1|exact E|exact P'|].
  rewrite (C64_available _ _ _ _ _ P'). simpl in F. subst A'. simpl. by rewrite HT, HL.
Qed.

Print Assumptions C64_calls.
Print Assumptions C64_end.
Print Assumptions C64_available.
Print Assumptions C64_grow_allowed.
Print Assumptions C64_early_grow.
