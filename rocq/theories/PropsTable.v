(** * C33: unique tables are sets of nodes keyed by their sons

    Links.v models the tables as the code has them: arrays of head pointers, chains
    through the next_ fields, which all tables and the free list of the pool share.
    TableSpec.v says what a program may do with tables and nodes and what the effect
    is; it knows neither buckets nor pointers. *)

From stdpp Require Import gmap list.
From Coq Require Import ZArith Lia.
From Verif Require Import Base Tables Links TableSpec LinksWorld.

(** every call that is allowed ends without error, has the effect of the
    specification, and does not disturb any other table: chains never become
    cyclic, no node is lost or duplicated *)
Theorem C33_calls c ks w A k : program c ks w A -> allows A k ->
  exists w' r A', l_exec c k w = LVal (w', r) /\ effect A k r A' /\ program c (ks ++ [k]) w' A'.
Proof.
  intros P Hp. destruct (l_step c w A k (program_linv c ks w A P) Hp) as (w'&r&A'&E&Ef&_).
  exists w', r, A'. split; [done|]. split; [done|]. by eapply P_call.
Qed.

(** find returns a stored node if and only if one with these sons is stored *)
Theorem C33_find c ks w A i sons : program c ks w A -> aw_tabs A !! i = Some (Some true) ->
  match l_find c w i sons with
  | LVal (Some a) => aw_at A !! a = Some (InTab i) /\ aw_sons A !! a = Some sons
  | LVal None => forall a, aw_at A !! a = Some (InTab i) -> aw_sons A !! a <> Some sons
  | _ => False
  end.
Proof. intros P. apply good_find. by eapply program_linv. Qed.

(** iteration visits every stored node once and get_size is their number *)
Theorem C33_iterate c ks w A i k : program c ks w A -> aw_tabs A !! i = Some (Some k) ->
  exists l, l_nodes w i = LVal l /\ NoDup l /\ (forall a, a ∈ l <-> aw_at A !! a = Some (InTab i)) /\
    l_size w i = LVal (Z.of_nat (length l)).
Proof. intros P. apply (good_nodes c). by eapply program_linv. Qed.

(** a new node is never one that is in use *)
Theorem C33_create c ks w A sons w' r : program c ks w A -> l_exec c (TCreate sons) w = LVal (w', r) ->
  exists a, r = Some a /\ aw_at A !! a = None.
Proof.
  intros P E. destruct (l_step c w A (TCreate sons) (program_linv c ks w A P) I) as (w2&r2&A2&E2&Ef&_).
  rewrite E in E2. injection E2 as -> ->. destruct Ef as (a&->&Ha&_). by exists a.
Qed.

(** ** Concrete programs *)

Definition effect_of (A : aworld) (k : top) (r : option positive) : aworld :=
  match k, r with
  | TTable _, _ => AW (aw_at A) (aw_sons A) (aw_tabs A ++ [Some true])
  | TCreate sons, Some a => AW (<[a := Loose]> (aw_at A)) (<[a := sons]> (aw_sons A)) (aw_tabs A)
  | TCreate _, None => A
  | TSons a sons, _ => AW (aw_at A) (<[a := sons]> (aw_sons A)) (aw_tabs A)
  | TRelease a, _ => AW (delete a (aw_at A)) (aw_sons A) (aw_tabs A)
  | TInsert i a, _ => AW (<[a := InTab i]> (aw_at A)) (aw_sons A) (aw_tabs A)
  | TErase i a, _ => AW (<[a := Loose]> (aw_at A)) (aw_sons A) (aw_tabs A)
  | TAdjust _, _ | TGrow _, _ => A
  | TClear i, _ => AW (move_all i Dropped (aw_at A)) (aw_sons A) (aw_tabs A)
  | TSteal i, _ => AW (move_all i (InTab (length (aw_tabs A))) (aw_at A)) (aw_sons A) (aw_tabs A ++ [Some false])
  | TMerge i j, _ => AW (move_all j (InTab i) (aw_at A)) (aw_sons A) (<[j := None]> (aw_tabs A))
  | TSweep i dead, _ => AW (filter (fun ap => ~ (snd ap = InTab i /\ dead (fst ap) = true)) (aw_at A)) (aw_sons A) (aw_tabs A)
  end.

Definition is_outside (A : aworld) (a : positive) : bool :=
  match aw_at A !! a with Some Loose | Some Dropped => true | _ => false end.

Definition allowed (A : aworld) (k : top) : bool :=
  match k with
  | TTable _ | TCreate _ | TGrow _ => true
  | TSons a _ => is_outside A a ||
      match aw_at A !! a with Some (InTab i) => bool_decide (aw_tabs A !! i = Some (Some false)) | _ => false end
  | TRelease a => is_outside A a
  | TInsert i a => bool_decide (aw_tabs A !! i = Some (Some true)) && bool_decide (aw_at A !! a = Some Loose)
  | TErase i a => bool_decide (aw_tabs A !! i = Some (Some true)) && bool_decide (aw_at A !! a = Some (InTab i))
  | TAdjust i | TClear i | TSteal i | TSweep i _ => bool_decide (aw_tabs A !! i = Some (Some true))
  | TMerge i j => negb (Nat.eqb i j) && bool_decide (aw_tabs A !! i = Some (Some true)) &&
      match aw_tabs A !! j with Some (Some _) => true | _ => false end
  end.

Fixpoint track (c : cfg) (ks : list top) (w : lworld) (A : aworld) : option (lworld * aworld) :=
  match ks with
  | [] => Some (w, A)
  | k :: ks =>
      if allowed A k then
        match l_exec c k w with LVal (w', r) => track c ks w' (effect_of A k r) | _ => None end
      else None
  end.

Lemma is_outside_ok A a : is_outside A a = true -> outside A a.
Proof. unfold is_outside, outside. destruct (aw_at A !! a) as [[]|]; try done; auto. Qed.

Lemma allowed_ok A k : allowed A k = true -> allows A k.
Proof.
  destruct k; simpl; try done; rewrite ?andb_true_iff, ?orb_true_iff, ?bool_decide_eq_true; try tauto.
  - intros [H|H]; [left; by apply is_outside_ok|right]. destruct (aw_at A !! a) as [[i| |]|]; try done.
    exists i. by apply bool_decide_eq_true in H.
  - apply is_outside_ok.
  - intros [[H1 H2] H3]. split_and!; [|done|].
    + intros ->. by rewrite Nat.eqb_refl in H1.
    + destruct (aw_tabs A !! j) as [[b|]|]; try done. by exists b.
Qed.

Lemma track_ok c ks : forall pre w A w' A', program c pre w A -> track c ks w A = Some (w', A') -> program c (pre ++ ks) w' A'.
Proof.
  induction ks as [|k ks IH]; intros pre w A w' A' P E; simpl in E.
  - injection E as <- <-. by rewrite app_nil_r.
  - destruct (allowed A k) eqn:Ea; [|done]. apply allowed_ok in Ea.
    destruct (l_exec c k w) as [[w1 r]| |] eqn:Ex; try done.
    replace (pre ++ k :: ks) with ((pre ++ [k]) ++ ks) by (by rewrite <- app_assoc). eapply IH; [|exact E]. eapply P_call; [exact P|exact Ea|exact Ex|].
    destruct (l_step c w A k (program_linv c _ _ _ P) Ea) as (w2&r2&A2&E2&Ef&_). rewrite Ex in E2. injection E2 as <- <-.
    destruct k; simpl in *; try done. destruct Ef as (a&->&Ha&_). by exists a.
Qed.

Lemma tracked c ks (Q : lworld -> aworld -> Prop) :
  match track c ks l_start (AW ∅ ∅ []) with Some (w, A) => Q w A | None => False end ->
  exists w A, program c ks w A /\ Q w A.
Proof.
  intros H. destruct (track c ks l_start (AW ∅ ∅ [])) as [[w A]|] eqn:E; [|contradiction].
  exists w, A. split; [exact (track_ok c ks [] _ _ _ _ (P_start c) E)|exact H].
Qed.

(** addresses 4912 bytes apart: nodes with one son share a bucket of a table of
    capacity 307 *)
Definition ct : cfg := Cfg [2; 2; 2] None (fun p => 4912 * N.pos p)%N true true.

(** two tables, nodes that collide, an erase in the middle of a chain, a sweep, a
    table taken and given other sons and merged as when variables are swapped, a
    node reused by the pool *)
Definition table_program : list top :=
  [TTable 100; TTable 100;
   TCreate [10%positive]; TCreate [11%positive]; TCreate [12%positive]; TCreate [13%positive]; TCreate [14%positive];
   TInsert 0 1; TInsert 0 2; TInsert 0 3; TInsert 0 4; TInsert 1 5;
   TErase 0 2; TRelease 2; TSweep 0 (Pos.eqb 3); TCreate [15%positive]; TInsert 1 3;
   TSteal 0; TSons 1 [16%positive]; TCreate [17%positive]; TInsert 0 2; TAdjust 0; TMerge 1 2].

Example C33_case : exists w A, program ct table_program w A /\
  l_nodes w 1 = LVal [1%positive; 4%positive; 3%positive; 5%positive] /\ l_nodes w 0 = LVal [2%positive] /\
  l_find ct w 1 [16%positive] = LVal (Some 1%positive) /\ l_find ct w 1 [10%positive] = LVal None /\ l_size w 1 = LVal 4%Z.
Proof. apply (tracked ct table_program). vm_compute. done. Qed.

(** ** clear is no complete reset

    The specification only lets nodes be inserted that are [Loose]: clear() leaves the
    next_ fields of the nodes it drops, and insert does not reset the field when the
    bucket is empty.  A node that is inserted again drags its old chain along: here
    node 1 is found and visited although only node 2 was inserted and the size is 1. *)
Theorem C33_clear_refuted : exists w A w',
  program ct [TTable 100; TCreate [10%positive]; TCreate [11%positive]; TInsert 0 1; TInsert 0 2; TClear 0] w A /\
  aw_at A !! 1%positive = Some Dropped /\ aw_at A !! 2%positive = Some Dropped /\
  l_exec ct (TInsert 0 2) w = LVal (w', None) /\
  l_find ct w' 0 [10%positive] = LVal (Some 1%positive) /\
  l_nodes w' 0 = LVal [2%positive; 1%positive] /\ l_size w' 0 = LVal 1%Z.
Proof.
  destruct (tracked ct [TTable 100; TCreate [10%positive]; TCreate [11%positive]; TInsert 0 1; TInsert 0 2; TClear 0]
    (fun w A => aw_at A !! 1%positive = Some Dropped /\ aw_at A !! 2%positive = Some Dropped /\
       match l_exec ct (TInsert 0 2) w with
       | LVal (w', None) => l_find ct w' 0 [10%positive] = LVal (Some 1%positive) /\
           l_nodes w' 0 = LVal [2%positive; 1%positive] /\ l_size w' 0 = LVal 1%Z
       | _ => False
       end)) as (w&A&P&X1&X2&X).
  - vm_compute. done.
  - destruct (l_exec ct (TInsert 0 2) w) as [[w' [r|]]| |] eqn:E1; [contradiction| |contradiction..]. exists w, A, w'. destruct X as (X3&X4&X5). split_and!; first [assumption|reflexivity].
Qed.

(** inserting the two nodes in the other order closes a cycle: find of other sons
    never ends *)
Theorem C33_clear_cycle_refuted : exists w A w1 w2,
  program ct [TTable 100; TCreate [10%positive]; TCreate [11%positive]; TInsert 0 1; TInsert 0 2; TClear 0] w A /\
  l_exec ct (TInsert 0 2) w = LVal (w1, None) /\ l_exec ct (TInsert 0 1) w1 = LVal (w2, None) /\
  lw_nx w2 !! 1%positive = Some 2%positive /\ lw_nx w2 !! 2%positive = Some 1%positive /\
  l_find ct w2 0 [12%positive] = LLoop.
Proof.
  destruct (tracked ct [TTable 100; TCreate [10%positive]; TCreate [11%positive]; TInsert 0 1; TInsert 0 2; TClear 0]
    (fun w A => match l_exec ct (TInsert 0 2) w with
       | LVal (w1, None) =>
           match l_exec ct (TInsert 0 1) w1 with
           | LVal (w2, None) => lw_nx w2 !! 1%positive = Some 2%positive /\ lw_nx w2 !! 2%positive = Some 1%positive /\
               l_find ct w2 0 [12%positive] = LLoop
           | _ => False
           end
       | _ => False
       end)) as (w&A&P&X).
  - vm_compute. done.
  - destruct (l_exec ct (TInsert 0 2) w) as [[w1 [r|]]| |] eqn:E1; [contradiction| |contradiction..].
    destruct (l_exec ct (TInsert 0 1) w1) as [[w2 [r|]]| |] eqn:E2; [contradiction| |contradiction..].
    exists w, A, w1, w2. destruct X as (X1&X2&X3). split_and!; first [assumption|reflexivity].
Qed.

Print Assumptions C33_calls.
Print Assumptions C33_find.
Print Assumptions C33_iterate.
Print Assumptions C33_create.
Print Assumptions C33_clear_refuted.
Print Assumptions C33_clear_cycle_refuted.
