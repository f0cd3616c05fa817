(** * C73: the manager uses the unique tables and the pool correctly

    C33 says what programs that use unique tables through pointers can rely on, as
    long as every call is allowed: no node is inserted that is in a table already,
    none is released that is still in one, and so on.  The model of the manager has
    lists in place of the chains.  Here it is proved that everything the manager
    does with its tables and its pool is such a program, so that C33 applies to the
    tables of every manager. *)

From stdpp Require Import gmap list.
From Coq Require Import ZArith Lia.
From Verif Require Import Base Ops Tables NodeManager World Heap Inv InvLemmas TabLemmas Api WorldSpec WorldProof History.
From Verif Require Import Links LinksProof TableSpec LinksWorld Trace TraceManager Examples.

Local Open Scope nat_scope.

(** ** What is claimed *)

(** following the pointers [nx] from [hd] gives the nodes [l] and ends *)
Inductive linked (nx : gmap positive positive) : option positive -> list positive -> Prop :=
| L_end : linked nx None []
| L_next a l : linked nx (nx !! a) l -> linked nx (Some a) (a :: l).

(** the machine with pointers answers for every table like the manager, and its
    free list is the free list of the pool *)
Definition shows (c : cfg) (s : st) (w : lworld) : Prop :=
  (forall i t, s_tabs s !! i = Some t ->
     l_nodes w i = LVal (tab_nodes t) /\ l_size w i = LVal (t_size t) /\
     forall sons, l_find c w i sons = LVal (tab_find c (s_heap s) t sons)) /\
  linked (lw_nx w) (lw_free w) (p_free (s_pool s)).

(** the tables of the manager can be used, there are no others, and no node was
    lost by clearing a table *)
Definition tidy (s : st) (A : aworld) : Prop :=
  (forall i k, aw_tabs A !! i = Some (Some k) <-> i < length (s_tabs s) /\ k = true) /\
  forall a, aw_at A !! a <> Some Dropped.

(** internal nodes are in the table of their variable, terminals in none *)
Definition placed (s : st) (A : aworld) : Prop :=
  forall a, aw_at A !! a =
    match live (s_heap s) a with Some (Int i _) => Some (InTab i) | Some (Term _) => Some Loose | None => None end /\
    forall i sons, live (s_heap s) a = Some (Int i sons) -> aw_sons A !! a = Some sons.

(** ** Proofs *)

Lemma chain_linked nx l : forall hd, chain nx hd l -> linked nx hd l.
Proof. induction l as [|a l IH]; intros hd; [intros ->; constructor|intros [-> C]; constructor; auto]. Qed.

Lemma tm_shows c s w A : linv c w A -> tm None s w A -> shows c s w.
Proof.
  intros I T. split; [|apply chain_linked, T]. intros i t Ht.
  destruct (tm_tab _ _ _ _ T _ _ Ht) as (_&p&Hp&R). unfold l_nodes, l_size, tab_at. rewrite Hp. cbn [lbind]. split_and!.
  - by apply nodes_ok.
  - by rewrite (rp_size _ _ _ R).
  - intros sons. by eapply tm_find.
Qed.

Lemma tm_tidy s w A : tm None s w A -> tidy s A.
Proof.
  intros T. split; [|apply T]. intros i k. split.
  - intros Hk. destruct (decide (i < length (s_tabs s))) as [Hi|Hi].
    + apply lookup_lt_is_Some_2 in Hi as Hi'. destruct Hi' as [t Ht]. destruct (tm_tab _ _ _ _ T _ _ Ht) as (Hk'&_).
      rewrite Hk in Hk'. injection Hk' as ->. done.
    + destruct (tm_rest _ _ _ _ T i k) as [u Hu]; [lia|done|done].
  - intros [Hi ->]. apply lookup_lt_is_Some_2 in Hi as [t Ht]. apply (tm_tab _ _ _ _ T _ _ Ht).
Qed.

Lemma run_stands c ks : forall vars s vars' s' ts, run c ks vars s = Ok vars' s' -> stands c None s ts ->
  exists ts', stands c None s' (ts ++ ts').
Proof.
  induction ks as [|k ks IH]; intros vars s vars' s' ts E St; cbn [run] in E.
  - injection E as <- <-. exists []. by rewrite app_nil_r.
  - unfold bind in E. destruct (exec c k vars s) as [v1 s1|e1|] eqn:E1; try done.
    destruct (tr_exec c k vars s v1 s1 ts E1 St) as [t1 S1]. destruct (IH _ _ _ _ _ E S1) as [t2 S2].
    exists (t1 ++ t2). by rewrite app_assoc.
Qed.

Lemma new_stands c p s0 s : new_manager c p s0 = Ok tt s -> stands c None s (map TTable (ca_caps p)).
Proof.
  unfold new_manager, construct. intros E. destruct (_ && _); [done|]. destruct (if c_dbg c then _ else _) as [[]|]; try done.
  destruct (fill_levels _ _ _); [|done]. injection E as <-. by apply step_new.
Qed.

Lemma history_stands c opsem strict p ks s vars A : history c opsem strict p ks s vars A -> exists ts, stands c None s ts.
Proof.
  induction 1 as [s0 s _ E|ks s vars A k A' s' vars' _ [ts St] _ E]; [eexists; by eapply new_stands|].
  destruct (tr_exec c k vars s vars' s' ts E St) as [t1 S1]. eauto.
Qed.

(** ** The theorems *)

(** for any arguments of the constructor and any calls that end without error,
    also in automatic mode and outside of the documented preconditions *)
Theorem C73_tables c p s0 s1 ks vars s : new_manager c p s0 = Ok tt s1 -> run c ks ∅ s1 = Ok vars s ->
  exists ts w A, program c ts w A /\ shows c s w /\ tidy s A.
Proof.
  intros E1 E2. destruct (run_stands _ _ _ _ _ _ _ E2 (new_stands _ _ _ _ E1)) as (t2&w&A&P&T).
  eexists _, w, A. split; [exact P|]. split; [eapply tm_shows; [by eapply program_linv|done]|by eapply tm_tidy].
Qed.

(** the next calls of the manager continue the program *)
Theorem C73_next c p s0 s1 ks vars s ks' vars' s' : new_manager c p s0 = Ok tt s1 -> run c ks ∅ s1 = Ok vars s ->
  run c ks' vars s = Ok vars' s' ->
  exists ts ts' w A w' A', program c ts w A /\ shows c s w /\ tidy s A /\
    program c (ts ++ ts') w' A' /\ shows c s' w' /\ tidy s' A'.
Proof.
  intros E1 E2 E3. destruct (run_stands _ _ _ _ _ _ _ E2 (new_stands _ _ _ _ E1)) as (t2&St).
  destruct (run_stands _ _ _ _ _ _ _ E3 St) as (t3&w'&A'&P'&T'). destruct St as (w&A&P&T).
  eexists _, _, w, A, w', A'. split_and!; [exact P| |by eapply tm_tidy|exact P'| |by eapply tm_tidy].
  - eapply tm_shows; [by eapply program_linv|done].
  - eapply tm_shows; [by eapply program_linv|done].
Qed.

(** in specified programs the tables hold exactly the internal nodes *)
Theorem C73_places c opsem strict p ks s vars A0 : wf_cfg c -> history c opsem strict p ks s vars A0 ->
  exists ts w A, program c ts w A /\ shows c s w /\ tidy s A /\ placed s A.
Proof.
  intros Hc H. destruct (history_stands _ _ _ _ _ _ _ _ H) as (ts&w&A&P&T). pose proof (program_linv _ _ _ _ P) as I.
  exists ts, w, A. split; [done|]. split; [by eapply tm_shows|]. split; [by eapply tm_tidy|].
  destruct (history_winv _ _ _ _ _ _ _ _ Hc H) as [g W]. pose proof (wi_calm _ _ _ _ _ _ _ W) as [F Q _].
  assert (Hfl : g_fl g = []) by apply Q.
  assert (Hint : forall a i, aw_at A !! a = Some (InTab i) <-> exists sons, live (s_heap s) a = Some (Int i sons)).
  { intros a i. assert (Ht : forall t, s_tabs s !! i = Some t -> a ∈ tab_nodes t <-> exists sons, live (s_heap s) a = Some (Int i sons)).
    { intros t Ht. destruct (wf_tab _ _ _ _ _ F _ _ Ht) as (Hcap&Hlen&Hch&_). unfold tab_nodes. split.
      - intros Ha. apply elem_of_concat in Ha as (b&l&Hb&Hl).
        apply (Hch _ _ Hb) in Hl as (_&sons&?&_). eauto.
      - intros [sons Hs]. destruct (lookup_lt_is_Some_2 (t_buckets t) (bucket_of t (node_hash c sons))) as [l Hl].
        { rewrite Hlen. unfold bucket_of. pose proof (N.mod_lt (node_hash c sons) (t_cap t)). lia. }
        apply elem_of_concat. eexists _, l. split; [done|]. apply (Hch _ _ Hl).
        rewrite Hfl. split; [by apply not_elem_of_nil|eauto]. }
    split.
    - intros Ha. destruct (decide (i < length (s_tabs s))) as [Hi|Hi].
      + apply lookup_lt_is_Some_2 in Hi as [t Hi]. apply (Ht t Hi). by eapply (tm_in c None s w A i t a I T (or_introl Hi)).
      + destruct (li_in c _ _ I _ _ Ha) as [k Hk]. destruct (tm_rest _ _ _ _ T i k) as [u Hu]; [lia|done|done].
    - intros [sons Hs]. pose proof (wf_node _ _ _ _ _ F _ _ Hs) as (Hi&_). rewrite <- (wf_ntabs _ _ _ _ _ F) in Hi.
      apply lookup_lt_is_Some_2 in Hi as [t Hi]. apply (tm_in c None s w A i t a I T (or_introl Hi)). apply (Ht t Hi). eauto. }
  intros a. split.
  - destruct (live (s_heap s) a) as [[v|i sons]|] eqn:El.
    + by eapply tm_term.
    + apply Hint. eauto.
    + destruct (aw_at A !! a) as [[i| |]|] eqn:Ea; [| | |done].
      * apply Hint in Ea as [sons Hs]. congruence.
      * destruct (tm_loose _ _ _ _ T a Ea). congruence.
      * by destruct (tm_drop _ _ _ _ T a).
  - intros i sons Hs. assert (Ha : aw_at A !! a = Some (InTab i)) by (apply Hint; eauto).
    rewrite (li_sons c _ _ I _ _ Ha), (tm_sons _ _ _ _ T) by eauto. unfold sons_of. unfold live in Hs.
    destruct (s_heap s !! a) as [n|]; [|done]. destruct (n_used n); [|done]. injection Hs as ->. done.
Qed.

(** ** A concrete case: the program of Examples.v followed by a reordering, which
    turns the order 2, 0, 1 into 2, 1, 0 and frees eight cells, and a collection *)

Definition st_of {A} (r : res A) : st := match r with Ok _ s => s | _ => Chain.no_state end.

Lemma st_of_ok {A} (r : res A) : (match r with Ok _ _ => true | _ => false end) = true -> exists v, r = Ok v (st_of r).
Proof. destruct r; [|done|done]. intros _. by eexists. Qed.

Definition ex_after : st := st_of (run ex_cfg [CReorder; CGc] ex_vars ex_st).

Lemma ex_after_ok : exists vars, run ex_cfg [CReorder; CGc] ex_vars ex_st = Ok vars ex_after.
Proof. exact (st_of_ok (run ex_cfg [CReorder; CGc] ex_vars ex_st) ltac:(vm_compute; reflexivity)). Qed.

Transparent ex_run ex_vars ex_st.
Lemma ex_start : exists s1, new_manager ex_cfg ex_args Chain.no_state = Ok tt s1 /\ run ex_cfg ex_prog ∅ s1 = Ok ex_vars ex_st.
Proof.
  destruct (new_manager ex_cfg ex_args Chain.no_state) as [[] s| |] eqn:E; [|by vm_compute in E..].
  exists s. split; [reflexivity|]. unfold ex_vars, ex_st, ex_run. rewrite E.
  destruct (run ex_cfg ex_prog ∅ s) as [v s'| |] eqn:R; [reflexivity| |];
    assert (X : match ex_run with Ok _ _ => true | _ => false end = true) by (by vm_compute);
    unfold ex_run in X; by rewrite E, R in X.
Qed.
Opaque ex_run ex_vars ex_st ex_after.

Lemma shows_lists c s w i l n fr : shows c s w ->
  (tab_nodes <$> s_tabs s !! i, t_size <$> s_tabs s !! i, p_free (s_pool s)) = (Some l, Some n, fr) ->
  l_nodes w i = LVal l /\ l_size w i = LVal n /\ linked (lw_nx w) (lw_free w) fr.
Proof.
  intros [H L] E. destruct (s_tabs s !! i) as [t|] eqn:Et; [|done]. injection E as <- <- <-.
  destruct (H i t Et) as (?&?&_). done.
Qed.

Example C73_example : exists ts ts' w A w' A',
  program ex_cfg ts w A /\ program ex_cfg (ts ++ ts') w' A' /\
  (l_nodes w 1 = LVal [16; 7; 10; 5; 19; 11]%positive /\ l_size w 1 = LVal 6%Z /\ linked (lw_nx w) (lw_free w) []) /\
  (l_nodes w' 1 = LVal [26; 23; 28; 19; 17]%positive /\ l_size w' 1 = LVal 5%Z /\
   linked (lw_nx w') (lw_free w') [12; 5; 29; 27; 10; 25; 7; 24]%positive).
Proof.
  destruct ex_start as (s1&E1&E2). destruct ex_after_ok as (v&E3).
  destruct (C73_next _ _ _ _ _ _ _ _ _ _ E1 E2 E3) as (ts&ts'&w&A&w'&A'&P&S&_&P'&S'&_).
  exists ts, ts', w, A, w', A'. split; [exact P|]. split; [exact P'|]. split.
  - apply (shows_lists _ _ _ _ _ _ _ S). vm_compute. reflexivity.
  - apply (shows_lists _ _ _ _ _ _ _ S'). vm_compute. reflexivity.
Qed.

Example C73_example_places : exists ts w A, program ex_cfg ts w A /\ shows ex_cfg ex_st w /\
  aw_at A !! 19%positive = Some (InTab 1) /\ aw_at A !! 1%positive = Some Loose /\ aw_at A !! 40%positive = None.
Proof.
  destruct (C73_places _ _ _ _ _ _ _ _ ex_wf ex_history) as (ts&w&A&P&S&_&Pl). exists ts, w, A.
  split; [exact P|]. split; [exact S|]. split; [|split].
  - destruct (Pl 19%positive) as [-> _]. vm_compute. reflexivity.
  - destruct (Pl 1%positive) as [-> _]. vm_compute. reflexivity.
  - destruct (Pl 40%positive) as [-> _]. vm_compute. reflexivity.
Qed.

Print Assumptions C73_tables.
Print Assumptions C73_next.
Print Assumptions C73_places.
