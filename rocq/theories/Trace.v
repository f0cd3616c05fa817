(** * The manager as a program that uses unique tables: single calls

    The model of the manager keeps the buckets of its tables and the free cells of
    the pool as lists.  [tm] says that a state of the machine of Links.v, where
    both are chains of next_ pointers, stands for a state of the manager. *)

From stdpp Require Import gmap list.
From Coq Require Import ZArith Lia.
From Verif Require Import Base Ops Tables NodeManager Heap InvLemmas TabLemmas Links LinksProof TableSpec LinksWorld.

Local Open Scope nat_scope.

Section trace.
Context (c : cfg).

(** the nodes of the terminals are the nodes that terminals_ and specials_ name *)
Record slots (s : st) : Prop := {
  sl_term : forall k a, s_terms s !! k = Some (Some a) ->
    exists v, live (s_heap s) a = Some (Term v) /\ is_special v = false /\ Z.to_nat v = k;
  sl_spec : forall k a, s_specs s !! k = Some (Some a) -> k = 0 /\ live (s_heap s) a = Some (Term Undef)
}.

(** [tmp]: a table that was taken from the manager, and its number *)
Record tm (tmp : option (nat * utab)) (s : st) (w : lworld) (A : aworld) : Prop := {
  tm_tab : forall i u, s_tabs s !! i = Some u ->
    aw_tabs A !! i = Some (Some true) /\ exists t, lw_tabs w !! i = Some (Some t) /\ rep (lw_nx w) t u;
  tm_tmp : forall j u, tmp = Some (j, u) -> length (s_tabs s) <= j /\
    aw_tabs A !! j = Some (Some false) /\ exists t, lw_tabs w !! j = Some (Some t) /\ rep (lw_nx w) t u;
  tm_rest : forall i k, length (s_tabs s) <= i -> aw_tabs A !! i = Some (Some k) -> exists u, tmp = Some (i, u);
  tm_free : chain (lw_nx w) (lw_free w) (p_free (s_pool s));
  tm_new : lw_new w = p_next (s_pool s);
  tm_sons : forall a, is_Some (aw_at A !! a) -> sons_of (lw_heap w) a = sons_of (s_heap s) a;
  tm_term : forall a v, live (s_heap s) a = Some (Term v) -> aw_at A !! a = Some Loose;
  tm_loose : forall a, aw_at A !! a = Some Loose -> is_Some (live (s_heap s) a);
  tm_slots : slots s;
  tm_drop : forall a, aw_at A !! a <> Some Dropped
}.

Definition stands (tmp : option (nat * utab)) (s : st) (ts : list top) : Prop :=
  exists w A, program c ts w A /\ tm tmp s w A.

(** ** A table of pointers stands for one table of lists *)

Lemma chain_inj (nx : gmap positive positive) l : forall hd l', chain nx hd l -> chain nx hd l' -> l = l'.
Proof.
  induction l as [|a l IH]; intros hd [|b l']; simpl; try done.
  - intros -> [? _]. done.
  - intros [-> _] ?. done.
  - intros [-> C] [[= ->] C']. f_equal. by eapply IH.
Qed.

Lemma rep_inj nx t u u' : rep nx t u -> rep nx t u' -> u = u'.
Proof.
  intros [s1 c1 _ _ _ h1] [s2 c2 _ _ _ h2]. destruct u as [sz cap bs], u' as [sz' cap' bs']. simpl in *.
  f_equal; [congruence|congruence|]. clear -h1 h2. revert bs' h2. induction h1 as [|x y l l' H _ IH]; intros bs' H2.
  - by inversion H2.
  - inversion H2; subst. f_equal; [by eapply chain_inj|auto].
Qed.

Lemma tm_in tmp s w A i u a : linv c w A -> tm tmp s w A -> (s_tabs s !! i = Some u \/ tmp = Some (i, u)) ->
  a ∈ tab_nodes u <-> aw_at A !! a = Some (InTab i).
Proof.
  intros I T H.
  assert (exists k t, aw_tabs A !! i = Some (Some k) /\ lw_tabs w !! i = Some (Some t) /\ rep (lw_nx w) t u) as (k&t&Hk&Ht&R).
  { destruct H as [H|H].
    - destruct (tm_tab _ _ _ _ T _ _ H) as (?&t&?&?). by exists true, t.
    - destruct (tm_tmp _ _ _ _ T _ _ H) as (_&?&t&?&?). by exists false, t. }
  destruct (tab_good c _ _ _ _ I Hk) as (t'&Ht'&_&u'&R'&N&_). rewrite Ht in Ht'. injection Ht' as <-.
  rewrite (rep_inj _ _ _ _ R R'). apply N.
Qed.

(** ** Steps that do not concern the tables *)

Lemma tm_frame tmp s s' w A : tm tmp s w A -> s_tabs s' = s_tabs s ->
  p_free (s_pool s') = p_free (s_pool s) -> p_next (s_pool s') = p_next (s_pool s) ->
  (forall a, sons_of (s_heap s') a = sons_of (s_heap s) a) ->
  (forall a, live (s_heap s') a = live (s_heap s) a) -> slots s' -> tm tmp s' w A.
Proof.
  intros [] E1 E2 E3 E4 E5 Sl. constructor; rewrite ?E1, ?E2, ?E3; try done.
  - intros a Ha. rewrite E4. auto.
  - intros a v. rewrite E5. eauto.
  - intros a. rewrite E5. auto.
Qed.

(** ** One table changes *)

Lemma tm_one tmp s s' w A i u u' t' nx' free' m' :
  linv c w A -> tm tmp s w A -> s_tabs s !! i = Some u -> s_tabs s' = <[i := u']> (s_tabs s) -> rep nx' t' u' ->
  (forall j a, j <> i -> aw_at A !! a = Some (InTab j) -> nx' !! a = lw_nx w !! a) ->
  chain nx' free' (p_free (s_pool s')) -> p_next (s_pool s') = p_next (s_pool s) ->
  (forall a, is_Some (m' !! a) -> is_Some (aw_at A !! a) /\ sons_of (s_heap s') a = sons_of (s_heap s) a) ->
  (forall a v, live (s_heap s') a = Some (Term v) -> m' !! a = Some Loose) ->
  (forall a, m' !! a = Some Loose -> is_Some (live (s_heap s') a)) -> slots s' ->
  (forall a, m' !! a <> Some Dropped) ->
  tm tmp s' (LW (<[i := Some t']> (lw_tabs w)) nx' free' (lw_new w) (lw_heap w)) (AW m' (aw_sons A) (aw_tabs A)).
Proof.
  intros I T Hu Et R Hn C En Hs Ht Hlo Sl Hd.
  destruct (tm_tab _ _ _ _ T _ _ Hu) as (Hk&t0&Ht0&_). pose proof (lookup_lt_Some _ _ _ Hu) as Hi.
  constructor; simpl; rewrite ?Et, ?insert_length; try done.
  - intros j v Hj. destruct (decide (j = i)) as [->|Hne].
    + rewrite list_lookup_insert in Hj by done. injection Hj as <-. split; [done|]. exists t'.
      rewrite list_lookup_insert by (by eapply lookup_lt_Some). done.
    + rewrite list_lookup_insert_ne in Hj by done. destruct (tm_tab _ _ _ _ T _ _ Hj) as (Hk'&t&Htj&Rj). split; [done|].
      exists t. rewrite list_lookup_insert_ne by done. split; [done|]. eapply rep_frame; [|exact Rj].
      intros a Ha. apply (Hn j); [done|]. apply (tm_in tmp s w A j v a I T); [by left|done].
  - intros j v Hj. destruct (tm_tmp _ _ _ _ T _ _ Hj) as (Hl&Hk'&t&Htj&Rj). split; [done|]. split; [done|].
    exists t. rewrite list_lookup_insert_ne by lia. split; [done|]. eapply rep_frame; [|exact Rj].
    intros a Ha. apply (Hn j); [lia|]. apply (tm_in tmp s w A j v a I T); [by right|done].
  - apply T.
  - rewrite En. apply T.
  - intros a Ha. destruct (Hs a Ha) as [Ha' E]. rewrite E. by apply T.
Qed.

(** ** The hashes depend on the sons only *)

Lemma insert_all_ext h h' l : forall t, (forall a, a ∈ l -> sons_of h' a = sons_of h a) -> tab_insert_all c h' t l = tab_insert_all c h t l.
Proof.
  unfold tab_insert_all. induction l as [|a l IH]; intros t H; simpl; [done|]. rewrite H by set_solver. apply IH. set_solver.
Qed.
Lemma rehash_ext h h' t n : (forall a, a ∈ tab_nodes t -> sons_of h' a = sons_of h a) -> tab_rehash c h' t n = tab_rehash c h t n.
Proof. apply insert_all_ext. Qed.
Lemma adjust_ext h h' t : (forall a, a ∈ tab_nodes t -> sons_of h' a = sons_of h a) -> tab_adjust c h' t = tab_adjust c h t.
Proof. intros H. unfold tab_adjust. destruct (_ <? _)%Z; [|done]. by apply rehash_ext. Qed.
Lemma merge_ext h h' t t' : (forall a, a ∈ tab_nodes t -> sons_of h' a = sons_of h a) -> (forall a, a ∈ tab_nodes t' -> sons_of h' a = sons_of h a) ->
  tab_merge c h' t t' = tab_merge c h t t'.
Proof. intros H H'. unfold tab_merge. rewrite (adjust_ext h h') by done. by apply insert_all_ext. Qed.
Lemma find_ext_in h h' t sons : (forall a, a ∈ tab_nodes t -> sons_of h' a = sons_of h a) -> tab_find c h' t sons = tab_find c h t sons.
Proof.
  intros H. unfold tab_find. set (b := bucket_of t (node_hash c sons)).
  assert (Hb : forall a, a ∈ nth b (t_buckets t) [] -> sons_of h' a = sons_of h a).
  { intros a Ha. apply H. unfold tab_nodes. destruct (t_buckets t !! b) as [l|] eqn:E.
    - rewrite (nth_lookup_Some _ _ _ _ E) in Ha. apply elem_of_concat. eauto.
    - rewrite nth_lookup, E in Ha. simpl in Ha. by apply elem_of_nil in Ha. }
  revert Hb. generalize (nth b (t_buckets t) []). intros l. induction l as [|a l IH]; intros Hb; simpl; [done|].
  unfold node_equals. rewrite (Hb a) by set_solver. destruct (bool_decide _); [done|]. apply IH. set_solver.
Qed.

Lemma tm_sons_in tmp s w A i u : linv c w A -> tm tmp s w A -> (s_tabs s !! i = Some u \/ tmp = Some (i, u)) ->
  forall a, a ∈ tab_nodes u -> sons_of (lw_heap w) a = sons_of (s_heap s) a.
Proof. intros I T H a Ha. apply (tm_sons _ _ _ _ T). rewrite (tm_in tmp s w A i u a I T H) in Ha. rewrite Ha. eauto. Qed.

(** what the manager reads is what the pointers say *)
Lemma tm_find s w A i u sons tmp : linv c w A -> tm tmp s w A -> s_tabs s !! i = Some u ->
  l_find c w i sons = LVal (tab_find c (s_heap s) u sons).
Proof.
  intros I T Hu. destruct (tm_tab _ _ _ _ T _ _ Hu) as (Hk&t&Ht&R). unfold l_find, tab_at. rewrite Ht. cbn [lbind].
  rewrite (find_ok c (lw_heap w) _ _ _ sons R). f_equal. apply find_ext_in. eapply tm_sons_in; [done..|by left].
Qed.

(** ** The calls *)

Ltac call P := eapply (P_call c _ _ _ _ _ _ _ P).

Lemma step_grow tmp s s' ts : stands tmp s ts -> s_tabs s' = s_tabs s -> s_heap s' = s_heap s -> s_terms s' = s_terms s ->
  s_specs s' = s_specs s -> s_pool s' = pool_grow (s_pool s) -> stands tmp s' (ts ++ [TGrow (p_left (s_pool s))]).
Proof.
  intros (w&A&P&T) E1 E2 E3 E4 E5. eexists _, A. split; [call P; done|].
  destruct T as [? ? ? ? Hn ? ? ? [s1 s2] ?]. constructor; simpl; rewrite ?E1, ?E2, ?E5; simpl; try done; [by rewrite Hn|].
  constructor; rewrite ?E2, ?E3, ?E4; done.
Qed.

Lemma step_adjust tmp s s' ts i u : stands tmp s ts -> s_tabs s !! i = Some u -> s_tabs s' = <[i := tab_adjust c (s_heap s) u]> (s_tabs s) ->
  s_heap s' = s_heap s -> s_terms s' = s_terms s -> s_specs s' = s_specs s -> s_pool s' = s_pool s -> stands tmp s' (ts ++ [TAdjust i]).
Proof.
  intros (w&A&P&T) Hu E1 E2 E3 E4 E5. pose proof (program_linv c _ _ _ P) as I.
  destruct (tm_tab _ _ _ _ T _ _ Hu) as (Hk&t&Ht&R).
  destruct (adjust_ok c (lw_heap w) _ _ _ R) as (t'&nx'&E&R'&F&Pm).
  exists (LW (<[i := Some t']> (lw_tabs w)) nx' (lw_free w) (lw_new w) (lw_heap w)), A. split.
  - call P; [done| |done]. simpl. unfold tab_at. rewrite Ht. cbn [lbind]. rewrite E. done.
  - pose proof (tm_in tmp s w A i u) as Hin.
    destruct A as [m ss tabs]. eapply (tm_one tmp s s' w (AW m ss tabs)); try done; simpl.
    + rewrite (adjust_ext (s_heap s)) in R' by (intros a Ha; eapply tm_sons_in; [exact I|exact T|by left|done]). done.
    + intros j a Hj Ha. apply F. rewrite (Hin a I T) by (by left). simpl. congruence.
    + rewrite E5. eapply chain_frame; [|exact (tm_free _ _ _ _ T)]. intros a Ha. apply F.
      rewrite (Hin a I T) by (by left). destruct (li_free _ _ _ I) as (lf&C&_&Hf).
      rewrite <- (chain_inj _ _ _ _ (tm_free _ _ _ _ T) C) in Hf. destruct (Hf a Ha) as [Hf1 _]. rewrite Hf1. done.
    + by rewrite E5.
    + intros a Ha. rewrite E2. done.
    + rewrite E2. exact (tm_term _ _ _ _ T).
    + rewrite E2. exact (tm_loose _ _ _ _ T).
    + destruct (tm_slots _ _ _ _ T) as [s1 s2]. constructor; rewrite ?E2, ?E3, ?E4; done.
    + exact (tm_drop _ _ _ _ T).
Qed.

Lemma free_out tmp s w A a : linv c w A -> tm tmp s w A -> a ∈ p_free (s_pool s) -> aw_at A !! a = None.
Proof.
  intros I T Ha. destruct (li_free _ _ _ I) as (lf&C&_&Hf).
  rewrite <- (chain_inj _ _ _ _ (tm_free _ _ _ _ T) C) in Hf. by apply Hf.
Qed.

Lemma free_nodup tmp s w A : linv c w A -> tm tmp s w A -> NoDup (p_free (s_pool s)).
Proof.
  intros I T. destruct (li_free _ _ _ I) as (lf&C&ND&_). by rewrite <- (chain_inj _ _ _ _ (tm_free _ _ _ _ T) C) in ND.
Qed.

Definition body_sons (b : body) : list positive := match b with Int _ sons => sons | Term _ => [] end.

(** pool.create; the new terminal is not yet in its slot *)
Lemma step_create tmp s s' ts b a p : stands tmp s ts -> pool_create (s_pool s) = Some (a, p) ->
  s_pool s' = p -> s_heap s' = <[a := Node b false true 0]> (s_heap s) ->
  s_tabs s' = s_tabs s -> s_terms s' = s_terms s -> s_specs s' = s_specs s ->
  exists w A, program c (ts ++ [TCreate (body_sons b)]) w A /\ tm tmp s' w A /\ aw_at A !! a = Some Loose /\
    (forall k, s_terms s !! k <> Some (Some a)) /\ (forall k, s_specs s !! k <> Some (Some a)).
Proof.
  intros (w&A&P&T) Ep E1 E2 E3 E4 E5. pose proof (program_linv c _ _ _ P) as I.
  assert (H : exists free' new', l_exec c (TCreate (body_sons b)) w =
      LVal (LW (lw_tabs w) (set_next a None (lw_nx w)) free' new' (<[a := with_sons (body_sons b)]> (lw_heap w)), Some a) /\
      aw_at A !! a = None /\ chain (lw_nx w) free' (p_free p) /\ a ∉ p_free p /\ new' = p_next p).
  { unfold pool_create in Ep. destruct (_ <=? _)%Z; [done|]. pose proof (tm_free _ _ _ _ T) as C. pose proof (tm_new _ _ _ _ T) as N.
    pose proof (free_out _ _ _ _ a I T) as Fo. pose proof (free_nodup _ _ _ _ I T) as ND.
    destruct (p_free (s_pool s)) as [|x l] eqn:Ef.
    - destruct (p_left (s_pool s)); [done|]. injection Ep as <- <-. simpl in C. simpl. rewrite C, N. eexists _, _. split; [done|]. simpl.
      split_and!; try done; [|set_solver]. destruct (aw_at A !! p_next (s_pool s)) eqn:E; [|done]. apply (li_new _ _ _ I) in E. lia.
    - injection Ep as <- <-. destruct C as [C1 C2]. simpl. rewrite C1. eexists _, _. split; [done|]. simpl.
      inversion ND; subst. split_and!; try done. apply Fo. set_solver. }
  destruct H as (free'&new'&E&Ha&C&Hni&Hnew).
  eexists _, (AW (<[a := Loose]> (aw_at A)) (<[a := body_sons b]> (aw_sons A)) (aw_tabs A)). split.
  - call P; [done|exact E|]. by exists a.
  - pose proof (tm_slots _ _ _ _ T) as [s1 s2].
    assert (Nt : forall v, live (s_heap s) a <> Some (Term v)) by (intros v Hv; apply (tm_term _ _ _ _ T) in Hv; congruence).
    assert (Hns : forall k, s_terms s !! k <> Some (Some a)) by (intros k Hk; destruct (s1 _ _ Hk) as (v&Hv&_); by apply (Nt v)).
    assert (Hnp : forall k, s_specs s !! k <> Some (Some a)) by (intros k Hk; destruct (s2 _ _ Hk) as (_&Hv); by apply (Nt Undef)).
    split_and!; [|simpl; by rewrite lookup_insert|done|done].
    assert (Hnx : forall d, d <> a -> set_next a None (lw_nx w) !! d = lw_nx w !! d) by (intros d Hd; simpl; by rewrite lookup_delete_ne).
    constructor; simpl; rewrite ?E1, ?E3.
    + intros i u Hu. destruct (tm_tab _ _ _ _ T _ _ Hu) as (Hk&t&Ht&R). split; [done|]. exists t. split; [done|].
      eapply rep_frame; [|exact R]. intros d Hd. apply Hnx. intros ->. rewrite (tm_in tmp s w A i u a I T) in Hd by (by left). congruence.
    + intros i u Hu. destruct (tm_tmp _ _ _ _ T _ _ Hu) as (Hl&Hk&t&Ht&R). split; [done|]. split; [done|]. exists t. split; [done|].
      eapply rep_frame; [|exact R]. intros d Hd. apply Hnx. intros ->. rewrite (tm_in tmp s w A i u a I T) in Hd by (by right). congruence.
    + apply T.
    + eapply chain_frame; [|exact C]. intros d Hd. apply Hnx. intros ->. done.
    + done.
    + intros d Hd. rewrite E2. unfold sons_of. destruct (decide (d = a)) as [->|Hne].
      * rewrite !lookup_insert. simpl. by destruct b.
      * rewrite !lookup_insert_ne by done. rewrite lookup_insert_ne in Hd by done. by apply (tm_sons _ _ _ _ T).
    + intros d v. rewrite E2, live_insert. destruct (decide (d = a)) as [->|Hne]; [by rewrite lookup_insert|].
      rewrite lookup_insert_ne by done. apply T.
    + intros d. rewrite E2, live_insert. destruct (decide (d = a)) as [->|Hne]; [simpl; eauto|].
      rewrite lookup_insert_ne by done. apply T.
    + constructor; rewrite ?E4, ?E5.
      * intros k d Hk. destruct (s1 _ _ Hk) as (v&Hv&?). exists v. split; [|done]. rewrite E2, live_insert.
        destruct (decide (d = a)) as [->|]; [by destruct (Hns k)|done].
      * intros k d Hk. destruct (s2 _ _ Hk) as (?&Hv). split; [done|]. rewrite E2, live_insert.
        destruct (decide (d = a)) as [->|]; [by destruct (Hnp k)|done].
    + intros d. destruct (decide (d = a)) as [->|Hne]; [by rewrite lookup_insert|rewrite lookup_insert_ne by done]. apply T.
Qed.

(** table.insert *)
Lemma step_insert tmp s s' ts i u a w A : program c ts w A -> tm tmp s w A -> aw_at A !! a = Some Loose ->
  s_tabs s !! i = Some u -> (forall v, live (s_heap s) a <> Some (Term v)) ->
  s_tabs s' = <[i := tab_insert u a (node_hash c (sons_of (s_heap s) a))]> (s_tabs s) ->
  s_heap s' = s_heap s -> s_terms s' = s_terms s -> s_specs s' = s_specs s -> s_pool s' = s_pool s ->
  stands tmp s' (ts ++ [TInsert i a]).
Proof.
  intros P T Ha Hu Nt E1 E2 E3 E4 E5. pose proof (program_linv c _ _ _ P) as I.
  destruct (tm_tab _ _ _ _ T _ _ Hu) as (Hk&t&Ht&R). pose proof (tm_in tmp s w A i u) as Hin.
  assert (Hni : a ∉ tab_nodes u) by (rewrite (Hin a I T) by (by left); congruence).
  assert (Hs : sons_of (lw_heap w) a = sons_of (s_heap s) a) by (apply (tm_sons _ _ _ _ T); rewrite Ha; eauto).
  destruct (insert_impl_ok _ _ _ _ (node_hash c (sons_of (s_heap s) a)) R Hni (li_loose _ _ _ I _ Ha)) as (t'&nx'&E&R'&F).
  eexists _, (AW (<[a := InTab i]> (aw_at A)) (aw_sons A) (aw_tabs A)). split.
  - call P; [done| |done]. simpl. unfold tab_at. rewrite Ht. cbn [lbind]. unfold p_insert, hash_of. rewrite Hs, E. done.
  - eapply (tm_one tmp s s' w A); try done; simpl.
    + destruct R' as [rs rc rpo rl rn rch]. constructor; simpl; simpl in rs; try done. by rewrite rs.
    + intros j d Hj Hd. apply F. congruence.
    + rewrite E5. eapply chain_frame; [|exact (tm_free _ _ _ _ T)]. intros d Hd. apply F. intros ->.
      rewrite (free_out _ _ _ _ _ I T Hd) in Ha. done.
    + by rewrite E5.
    + intros d Hd. rewrite E2. split; [|done]. destruct (decide (d = a)) as [->|Hne]; [rewrite Ha; eauto|by rewrite lookup_insert_ne in Hd].
    + intros d v. rewrite E2. intros Hd. destruct (decide (d = a)) as [->|Hne]; [by destruct (Nt v)|].
      rewrite lookup_insert_ne by done. by eapply tm_term.
    + intros d. rewrite E2. destruct (decide (d = a)) as [->|Hne]; [by rewrite lookup_insert|rewrite lookup_insert_ne by done]. apply T.
    + destruct (tm_slots _ _ _ _ T) as [s1 s2]. constructor; rewrite ?E2, ?E3, ?E4; done.
    + intros d. destruct (decide (d = a)) as [->|Hne]; [by rewrite lookup_insert|rewrite lookup_insert_ne by done]. apply T.
Qed.

(** table.erase *)
Lemma step_erase tmp s s' ts i u u' a w A : program c ts w A -> tm tmp s w A -> s_tabs s !! i = Some u ->
  tab_erase c (s_heap s) u a = Some u' -> s_tabs s' = <[i := u']> (s_tabs s) ->
  is_Some (live (s_heap s) a) ->
  s_heap s' = s_heap s -> s_terms s' = s_terms s -> s_specs s' = s_specs s -> s_pool s' = s_pool s ->
  exists w' A', program c (ts ++ [TErase i a]) w' A' /\ tm tmp s' w' A' /\ aw_at A' !! a = Some Loose.
Proof.
  intros P T Hu Eu E1 Hla E2 E3 E4 E5. pose proof (program_linv c _ _ _ P) as I.
  destruct (tm_tab _ _ _ _ T _ _ Hu) as (Hk&t&Ht&R). pose proof (tm_in tmp s w A i u) as Hin.
  destruct (erase_ok _ _ _ _ _ _ R Eu) as (t'&nx'&it&E&R'&Na&F&_&_&_&Pm).
  assert (Ha : a ∈ tab_nodes u) by (rewrite Pm; set_solver).
  pose proof (tm_sons_in tmp s w A i u I T (or_introl Hu) a Ha) as Hs.
  rewrite (Hin a I T) in Ha by (by left).
  eexists _, (AW (<[a := Loose]> (aw_at A)) (aw_sons A) (aw_tabs A)). split.
  - call P; [done| |done]. simpl. unfold tab_at. rewrite Ht. cbn [lbind]. unfold p_erase, hash_of. rewrite Hs.
    destruct (rep_bucket _ _ _ (node_hash c (sons_of (s_heap s) a)) R) as (hd&l&_&_&E6&_). rewrite E6, E. done.
  - split; [|simpl; by rewrite lookup_insert].
    eapply (tm_one tmp s s' w A); try done; simpl.
    + intros j d Hj Hd. apply F. rewrite (Hin d I T) by (by left). congruence.
    + rewrite E5. eapply chain_frame; [|exact (tm_free _ _ _ _ T)]. intros d Hd. apply F.
      rewrite (Hin d I T) by (by left). rewrite (free_out _ _ _ _ _ I T Hd). done.
    + by rewrite E5.
    + intros d Hd. rewrite E2. split; [|done]. destruct (decide (d = a)) as [->|Hne]; [rewrite Ha; eauto|by rewrite lookup_insert_ne in Hd].
    + intros d v. rewrite E2. intros Hd. destruct (decide (d = a)) as [->|Hne]; [by rewrite lookup_insert|].
      rewrite lookup_insert_ne by done. by eapply tm_term.
    + intros d. rewrite E2. destruct (decide (d = a)) as [->|Hne]; [done|rewrite lookup_insert_ne by done]. apply T.
    + destruct (tm_slots _ _ _ _ T) as [s1 s2]. constructor; rewrite ?E2, ?E3, ?E4; done.
    + intros d. destruct (decide (d = a)) as [->|Hne]; [by rewrite lookup_insert|rewrite lookup_insert_ne by done]. apply T.
Qed.

(** pool.destroy *)
Lemma step_release tmp s s' ts a n w A : program c ts w A -> tm tmp s w A -> aw_at A !! a = Some Loose ->
  s_pool s' = pool_destroy (s_pool s) a -> s_heap s' = <[a := n]> (s_heap s) -> n_used n = false ->
  s_tabs s' = s_tabs s -> slots s' -> stands tmp s' (ts ++ [TRelease a]).
Proof.
  intros P T Ha E1 E2 Hn E3 Sl. pose proof (program_linv c _ _ _ P) as I.
  eexists _, (AW (delete a (aw_at A)) (aw_sons A) (aw_tabs A)). split.
  { call P; [by left|done|done]. }
  assert (Hnx : forall d, d <> a -> set_next a (lw_free w) (lw_nx w) !! d = lw_nx w !! d).
  { intros d Hd. destruct (lw_free w); simpl; [by rewrite lookup_insert_ne|by rewrite lookup_delete_ne]. }
  assert (Hx : set_next a (lw_free w) (lw_nx w) !! a = lw_free w).
  { destruct (lw_free w); simpl; [by rewrite lookup_insert|by rewrite lookup_delete]. }
  constructor; simpl; rewrite ?E1, ?E3.
  - intros i u Hu. destruct (tm_tab _ _ _ _ T _ _ Hu) as (Hk&t&Ht&R). split; [done|]. exists t. split; [done|].
    eapply rep_frame; [|exact R]. intros d Hd. apply Hnx. intros ->. rewrite (tm_in tmp s w A i u a I T) in Hd by (by left). congruence.
  - intros i u Hu. destruct (tm_tmp _ _ _ _ T _ _ Hu) as (Hl&Hk&t&Ht&R). split; [done|]. split; [done|]. exists t. split; [done|].
    eapply rep_frame; [|exact R]. intros d Hd. apply Hnx. intros ->. rewrite (tm_in tmp s w A i u a I T) in Hd by (by right). congruence.
  - apply T.
  - simpl. split; [done|]. rewrite Hx. eapply chain_frame; [|exact (tm_free _ _ _ _ T)]. intros d Hd. apply Hnx. intros ->.
    rewrite (free_out _ _ _ _ _ I T Hd) in Ha. done.
  - simpl. apply T.
  - intros d Hd. destruct (decide (d = a)) as [->|Hne]; [rewrite lookup_delete in Hd; by destruct Hd|].
    rewrite lookup_delete_ne in Hd by done. rewrite E2. rewrite (tm_sons _ _ _ _ T d Hd). unfold sons_of. by rewrite lookup_insert_ne.
  - intros d v. rewrite E2, live_insert. destruct (decide (d = a)) as [->|Hne]; [by rewrite Hn|].
    rewrite lookup_delete_ne by done. apply T.
  - intros d. rewrite E2, live_insert. destruct (decide (d = a)) as [->|Hne]; [by rewrite lookup_delete|].
    rewrite lookup_delete_ne by done. apply T.
  - done.
  - intros d. destruct (decide (d = a)) as [->|Hne]; [by rewrite lookup_delete|rewrite lookup_delete_ne by done]. apply T.
Qed.

(** the loop of the garbage collection *)
Lemma step_sweep tmp s s' ts i u dead : stands tmp s ts -> s_tabs s !! i = Some u ->
  s_tabs s' = <[i := swept dead u (length (List.filter dead (tab_nodes u)))]> (s_tabs s) ->
  p_free (s_pool s') = rev (List.filter dead (tab_nodes u)) ++ p_free (s_pool s) -> p_next (s_pool s') = p_next (s_pool s) ->
  (forall a, sons_of (s_heap s') a = sons_of (s_heap s) a) ->
  (forall a v, live (s_heap s') a = Some (Term v) -> live (s_heap s) a = Some (Term v)) ->
  (forall a, a ∉ tab_nodes u -> live (s_heap s') a = live (s_heap s) a) ->
  slots s' -> stands tmp s' (ts ++ [TSweep i dead]).
Proof.
  intros (w&A&P&T) Hu E1 E2 E3 E4 E5 E6 Sl. pose proof (program_linv c _ _ _ P) as I.
  destruct (tm_tab _ _ _ _ T _ _ Hu) as (Hk&t&Ht&R). pose proof (tm_in tmp s w A i u) as Hin.
  destruct (sweep_all dead (lw_free w) (p_free (s_pool s)) (lw_nx w) t u R (tm_free _ _ _ _ T)) as (t'&nx'&free'&E&R'&C&F).
  { intros d Hd. rewrite (Hin d I T) by (by left). rewrite (free_out _ _ _ _ _ I T Hd). done. }
  eexists _, (AW (filter (fun ap => ~ (snd ap = InTab i /\ dead (fst ap) = true)) (aw_at A)) (aw_sons A) (aw_tabs A)). split.
  - call P; [done| |done]. simpl. unfold tab_at. rewrite Ht. cbn [lbind]. rewrite E. done.
  - cbn [fst snd]. eapply (tm_one tmp s s' w A); try done; simpl.
    + intros j d Hj Hd. apply F. rewrite (Hin d I T) by (by left). congruence.
    + by rewrite E2.
    + intros d [p Hd]. apply map_filter_lookup_Some in Hd as [Hd _]. rewrite Hd. eauto.
    + intros d v Hd. apply map_filter_lookup_Some. split; [apply (tm_term _ _ _ _ T d v); by apply E5|]. simpl. naive_solver.
    + intros d Hd. apply map_filter_lookup_Some in Hd as [Hd _]. rewrite E6; [by apply (tm_loose _ _ _ _ T)|].
      rewrite (Hin d I T) by (by left). congruence.
    + intros d Hd. apply map_filter_lookup_Some in Hd as [Hd _]. by apply (tm_drop _ _ _ _ T d).
Qed.

(** unique_table tmp(table); table.clear() *)
Lemma step_steal s s' ts i u : stands None s ts -> s_tabs s !! i = Some u -> s_tabs s' = <[i := tab_clear u]> (s_tabs s) ->
  s_heap s' = s_heap s -> s_terms s' = s_terms s -> s_specs s' = s_specs s -> s_pool s' = s_pool s ->
  exists j, stands (Some (j, u)) s' (ts ++ [TSteal i]).
Proof.
  intros (w&A&P&T) Hu E1 E2 E3 E4 E5. pose proof (program_linv c _ _ _ P) as I.
  destruct (tm_tab _ _ _ _ T _ _ Hu) as (Hk&t&Ht&R). pose proof (lookup_lt_Some _ _ _ Hk) as Hi. pose proof (lookup_lt_Some _ _ _ Hu) as Hi'.
  pose proof (tabs_length c _ _ I) as Lt.
  assert (Hlen : length (s_tabs s) <= length (aw_tabs A)).
  { destruct (decide (length (s_tabs s) <= length (aw_tabs A))) as [|Hn]; [done|].
    destruct (lookup_lt_is_Some_2 (s_tabs s) (length (aw_tabs A))) as [v Hv]; [lia|].
    destruct (tm_tab _ _ _ _ T _ _ Hv) as (Hv'&_). apply lookup_lt_Some in Hv'. lia. }
  exists (length (aw_tabs A)).
  eexists _, (AW (move_all i (InTab (length (aw_tabs A))) (aw_at A)) (aw_sons A) (aw_tabs A ++ [Some false])). split.
  - call P; [done| |done]. simpl. unfold tab_at. rewrite Ht. cbn [lbind]. done.
  - constructor; simpl; rewrite ?E1, ?E5, ?insert_length.
    + intros j v Hj. destruct (decide (j = i)) as [->|Hne].
      * rewrite list_lookup_insert in Hj by done. injection Hj as <-. split; [by apply lookup_app_l_Some|].
        eexists. split; [apply lookup_app_l_Some; rewrite list_lookup_insert by lia; done|].
        unfold p_clear, tab_clear. rewrite (rp_cap _ _ _ R). apply empty_rep. apply R.
      * rewrite list_lookup_insert_ne in Hj by done. destruct (tm_tab _ _ _ _ T _ _ Hj) as (Hk'&t2&Ht2&R2). split; [by apply lookup_app_l_Some|].
        exists t2. split; [apply lookup_app_l_Some; by rewrite list_lookup_insert_ne by done|done].
    + intros j v [= <- <-]. split; [done|]. split; [by rewrite list_lookup_middle|]. exists t. split; [|done].
      rewrite lookup_app_r by (rewrite insert_length; lia). rewrite insert_length, Lt, Nat.sub_diag. done.
    + intros j k Hj Hjk. destruct (decide (j < length (aw_tabs A))) as [Hlt|Hge].
      * rewrite lookup_app_l in Hjk by done. by destruct (tm_rest _ _ _ _ T j k Hj Hjk).
      * rewrite lookup_app_r in Hjk by lia. destruct (j - length (aw_tabs A)) eqn:Ej; [|done]. exists u. by replace j with (length (aw_tabs A)) by lia.
    + apply T.
    + apply T.
    + intros a Ha. rewrite E2. apply (tm_sons _ _ _ _ T). rewrite move_all_lookup in Ha. by apply fmap_is_Some in Ha.
    + intros a v. rewrite E2. intros Ha. apply (tm_term _ _ _ _ T) in Ha. rewrite move_all_lookup, Ha. done.
    + intros a Ha. rewrite E2. apply (tm_loose _ _ _ _ T). by eapply move_all_loose.
    + destruct (tm_slots _ _ _ _ T) as [s1 s2]. constructor; rewrite ?E2, ?E3, ?E4; done.
    + intros a. rewrite move_all_lookup. destruct (aw_at A !! a) as [p|] eqn:Ep; simpl; [|done]. case_decide; [done|].
      intros [= ->]. by apply (tm_drop _ _ _ _ T a).
Qed.

(** node->set_sons on a node of the table that was taken *)
Lemma step_sons j u s s' ts a n : stands (Some (j, u)) s ts -> a ∈ tab_nodes u -> s_heap s' = <[a := n]> (s_heap s) ->
  (forall v, n_body n <> Term v) -> s_tabs s' = s_tabs s -> s_terms s' = s_terms s -> s_specs s' = s_specs s -> s_pool s' = s_pool s ->
  stands (Some (j, u)) s' (ts ++ [TSons a (body_sons (n_body n))]).
Proof.
  intros (w&A&P&T) Ha E2 Hb E1 E3 E4 E5. pose proof (program_linv c _ _ _ P) as I.
  destruct (tm_tmp _ _ _ _ T _ _ eq_refl) as (Hl&Hk&t&Ht&R). rewrite (tm_in _ _ _ _ j u a I T (or_intror eq_refl)) in Ha.
  eexists _, (AW (aw_at A) (<[a := body_sons (n_body n)]> (aw_sons A)) (aw_tabs A)). split.
  - call P; [right; by exists j|done|done].
  - assert (Nt : forall v, live (s_heap s) a <> Some (Term v)) by (intros v Hv; apply (tm_term _ _ _ _ T) in Hv; congruence).
    assert (Hlv : forall d v, live (s_heap s') d = Some (Term v) <-> live (s_heap s) d = Some (Term v)).
    { intros d v. rewrite E2, live_insert. destruct (decide (d = a)) as [->|]; [|done]. split; [|by intros ?%Nt].
      destruct (n_used n); [|done]. intros [= H]. by destruct (Hb v). }
    constructor; simpl; rewrite ?E1, ?E5; try apply T.
    + intros d Hd. rewrite E2. unfold sons_of. destruct (decide (d = a)) as [->|Hne].
      * rewrite !lookup_insert. simpl. by destruct (n_body n).
      * rewrite !lookup_insert_ne by done. by apply (tm_sons _ _ _ _ T).
    + intros d v Hd. apply Hlv in Hd. by eapply tm_term.
    + intros d Hd. rewrite E2, live_insert, decide_False by congruence. by apply (tm_loose _ _ _ _ T).
    + destruct (tm_slots _ _ _ _ T) as [s1 s2]. constructor; rewrite ?E3, ?E4.
      * intros k d Hk'. destruct (s1 _ _ Hk') as (v&Hv&?). exists v. by rewrite Hlv.
      * intros k d Hk'. destruct (s2 _ _ Hk'). by rewrite Hlv.
Qed.

(** table.merge *)
Lemma step_merge j u s s' ts i v : stands (Some (j, u)) s ts -> s_tabs s !! i = Some v ->
  s_tabs s' = <[i := tab_merge c (s_heap s) v u]> (s_tabs s) ->
  s_heap s' = s_heap s -> s_terms s' = s_terms s -> s_specs s' = s_specs s -> s_pool s' = s_pool s ->
  stands None s' (ts ++ [TMerge i j]).
Proof.
  intros (w&A&P&T) Hv E1 E2 E3 E4 E5. pose proof (program_linv c _ _ _ P) as I.
  destruct (tm_tmp _ _ _ _ T _ _ eq_refl) as (Hl&Hkj&tj&Htj&Rj).
  destruct (tm_tab _ _ _ _ T _ _ Hv) as (Hk&t&Ht&R). pose proof (lookup_lt_Some _ _ _ Hv) as Hi. pose proof (lookup_lt_Some _ _ _ Ht) as Hi'.
  assert (Hij : i <> j) by lia.
  assert (In1 : forall d, d ∈ tab_nodes v <-> aw_at A !! d = Some (InTab i)) by (intros d; apply (tm_in _ _ _ _ i v d I T); by left).
  assert (In2 : forall d, d ∈ tab_nodes u <-> aw_at A !! d = Some (InTab j)) by (intros d; apply (tm_in _ _ _ _ j u d I T); by right).
  destruct (merge_ok c (lw_heap w) _ _ _ _ _ R Rj) as (t'&nx'&E&R'&F&Pm).
  { apply NoDup_app. split_and!; [apply Rj| |apply R]. intros d Hd1 Hd2. apply In1 in Hd2. apply In2 in Hd1. congruence. }
  assert (F' : forall d, aw_at A !! d <> Some (InTab i) -> aw_at A !! d <> Some (InTab j) -> nx' !! d = lw_nx w !! d).
  { intros d H1 H2. apply F; [by rewrite In1|by rewrite In2]. }
  rewrite (merge_ext (s_heap s)) in R' by (intros d Hd; eapply tm_sons_in; [exact I|exact T| |exact Hd]; eauto).
  eexists _, (AW (move_all j (InTab i) (aw_at A)) (aw_sons A) (<[j := None]> (aw_tabs A))). split.
  - call P; [split; [done|]; split; [done|by exists false]| |done]. simpl. unfold tab_at. rewrite Ht, Htj. cbn [lbind]. rewrite E. done.
  - cbn [fst snd]. constructor; simpl; rewrite ?E1, ?E5, ?insert_length.
    + intros k x Hx. pose proof (lookup_lt_Some _ _ _ Hx) as Hkl. rewrite insert_length in Hkl. destruct (decide (k = i)) as [->|Hne].
      * rewrite list_lookup_insert in Hx by done. injection Hx as <-. rewrite list_lookup_insert_ne by done. split; [done|].
        exists t'. rewrite list_lookup_insert_ne by done. rewrite list_lookup_insert by done. done.
      * rewrite list_lookup_insert_ne in Hx by done. destruct (tm_tab _ _ _ _ T _ _ Hx) as (Hk'&t2&Ht2&R2).
        rewrite list_lookup_insert_ne by lia. split; [done|]. exists t2. rewrite !list_lookup_insert_ne by lia. split; [done|].
        eapply rep_frame; [|exact R2]. intros d Hd. rewrite (tm_in _ _ _ _ k x d I T (or_introl Hx)) in Hd.
        apply F'; rewrite Hd; intros [= ->]; [done|lia].
    + done.
    + intros k b Hkl Hkb. destruct (decide (k = j)) as [->|Hne].
      * rewrite list_lookup_insert in Hkb by (by eapply lookup_lt_Some). done.
      * rewrite list_lookup_insert_ne in Hkb by done. destruct (tm_rest _ _ _ _ T k b Hkl Hkb) as [? [= -> _]]. done.
    + eapply chain_frame; [|exact (tm_free _ _ _ _ T)]. intros d Hd. apply F'; rewrite (free_out _ _ _ _ _ I T Hd); done.
    + apply T.
    + intros a Ha. rewrite E2. apply (tm_sons _ _ _ _ T). rewrite move_all_lookup in Ha. by apply fmap_is_Some in Ha.
    + intros a x. rewrite E2. intros Ha. apply (tm_term _ _ _ _ T) in Ha. rewrite move_all_lookup, Ha. done.
    + intros a Ha. rewrite E2. apply (tm_loose _ _ _ _ T). by eapply move_all_loose.
    + destruct (tm_slots _ _ _ _ T) as [s1 s2]. constructor; rewrite ?E2, ?E3, ?E4; done.
    + intros a. rewrite move_all_lookup. destruct (aw_at A !! a) as [p|] eqn:Ep; simpl; [|done]. case_decide; [done|].
      intros [= ->]. by apply (tm_drop _ _ _ _ T a).
Qed.

(** the constructor of the manager *)
Lemma step_tables caps : forall ts w A l, program c ts w A -> lw_tabs w = map Some l -> aw_tabs A = map (fun _ => Some true) l -> 
  exists w' A' l', program c (ts ++ map TTable caps) w' A' /\ lw_tabs w' = map Some (l ++ l') /\ aw_tabs A' = map (fun _ => Some true) (l ++ l') /\
    l' = map p_new caps /\ lw_nx w' = lw_nx w /\ lw_free w' = lw_free w /\ lw_new w' = lw_new w /\ aw_at A' = aw_at A.
Proof.
  induction caps as [|cap caps IH]; intros ts w A l P E1 E2.
  - exists w, A, []. rewrite !app_nil_r. done.
  - destruct (IH (ts ++ [TTable cap]) (LW (lw_tabs w ++ [Some (p_new cap)]) (lw_nx w) (lw_free w) (lw_new w) (lw_heap w))
      (AW (aw_at A) (aw_sons A) (aw_tabs A ++ [Some true])) (l ++ [p_new cap])) as (w'&A'&l'&P'&H1&H2&H3&H4).
    + call P; done.
    + simpl. by rewrite E1, map_app.
    + simpl. by rewrite E2, map_app.
    + exists w', A', (p_new cap :: l'). rewrite <- app_assoc in P', H1, H2. simpl in *. split_and!; try done; try apply H4. by rewrite H3.
Qed.

Lemma step_new s caps : s_tabs s = map tab_new caps -> s_terms s = [] -> s_specs s = [] -> s_heap s = ∅ ->
  p_free (s_pool s) = [] -> p_next (s_pool s) = 1%positive -> stands None s (map TTable caps).
Proof.
  intros E1 E2 E3 E4 E5 E6.
  destruct (step_tables caps [] l_start (AW ∅ ∅ []) [] (P_start c) eq_refl eq_refl) as (w&A&l&P&H1&H2&->&H4&H5&H6&H7).
  simpl in *. exists w, A. split; [done|]. constructor; rewrite ?E1, ?E4, ?E5, ?E6, ?H7; try done.
  - intros i u Hu. rewrite list_lookup_fmap in Hu. destruct (caps !! i) as [cap|] eqn:Ec; [|done]. injection Hu as <-.
    rewrite H1, H2, map_map, !list_lookup_fmap, Ec. simpl. split; [done|]. eexists. split; [done|].
    unfold p_new, tab_new. apply empty_rep. pose proof (get_gte_pos cap). lia.
  - intros i k Hi Hk. rewrite H2 in Hk. apply lookup_lt_Some in Hk. rewrite !map_length in *. lia.
  - intros a [x Hx]. by rewrite lookup_empty in Hx.
  - constructor; rewrite ?E2, ?E3; done.
Qed.

End trace.
