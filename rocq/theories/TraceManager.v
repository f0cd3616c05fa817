(** * The manager as a program that uses unique tables: all its functions

    Whatever the manager does to its tables and its pool is a sequence of calls
    that the specification of the tables allows. *)

From stdpp Require Import gmap list.
From Coq Require Import ZArith Lia.
From Verif Require Import Base Ops Tables NodeManager Tools Sift DiagramManager Reliability World.
From Verif Require Import Heap InvLemmas TabLemmas Links LinksProof TableSpec LinksWorld Trace.

Local Open Scope nat_scope.

(** ** Actions that concern neither tables nor pool *)

Definition hush {X} (m : M X) : Prop := forall s x s', m s = Ok x s' ->
  s_tabs s' = s_tabs s /\ s_pool s' = s_pool s /\ s_terms s' = s_terms s /\ s_specs s' = s_specs s /\
  (forall a, sons_of (s_heap s') a = sons_of (s_heap s) a) /\ forall a, live (s_heap s') a = live (s_heap s) a.

Lemma hush_ret {X} (x : X) : hush (ret x).
Proof. intros s y s' H. injection H as <- <-. done. Qed.
Lemma hush_bind {X Y} (m : M X) (k : X -> M Y) : hush m -> (forall x, hush (k x)) -> hush (let* x := m in k x).
Proof.
  intros Hm Hk s y s' H. unfold bind in H. destruct (m s) as [x s1| |] eqn:E; [|discriminate..].
  destruct (Hm _ _ _ E) as (A1&A2&A3&A4&A5&A6). destruct (Hk x _ _ _ H) as (B1&B2&B3&B4&B5&B6).
  split_and!; try congruence; intros a; congruence.
Qed.
Lemma hush_mapM_ {X} (f : X -> M unit) l : (forall x, hush (f x)) -> hush (mapM_ f l).
Proof. intros H. induction l; simpl; [apply hush_ret|]. by apply hush_bind. Qed.

Lemma getn_ok a s n s' : getn a s = Ok n s' -> s' = s /\ s_heap s !! a = Some n /\ n_used n = true /\ live (s_heap s) a = Some (n_body n).
Proof.
  unfold getn, live. destruct (s_heap s !! a) as [m|]; [|discriminate]. destruct (n_used m) eqn:U; [|discriminate].
  intros E. injection E as <- <-. by rewrite U.
Qed.

Lemma same_body (h : gmap positive node) a n n' : h !! a = Some n -> n_body n' = n_body n -> n_used n' = n_used n ->
  (forall b, sons_of (<[a := n']> h) b = sons_of h b) /\ forall b, live (<[a := n']> h) b = live h b.
Proof.
  intros Ha Hb Hu. split; intros b.
  - unfold sons_of. destruct (decide (b = a)) as [->|]; [by rewrite lookup_insert, Ha, Hb|by rewrite lookup_insert_ne].
  - rewrite live_insert. destruct (decide (b = a)) as [->|]; [|done]. unfold live. by rewrite Ha, Hb, Hu.
Qed.

Lemma hush_upd a (k : node -> M unit) :
  (forall n s x s', k n s = Ok x s' -> exists n', n_body n' = n_body n /\ n_used n' = n_used n /\ s' = set_heap (<[a := n']> (s_heap s)) s) ->
  hush (let* n := getn a in k n).
Proof.
  intros H s x s' E. unfold bind in E. destruct (getn a s) as [n s1| |] eqn:G; [|discriminate..].
  destruct (getn_ok _ _ _ _ G) as (->&Ha&_). destruct (H n s x s' E) as (n'&E1&E2&->).
  destruct (same_body (s_heap s) a n n' Ha E1 E2). done.
Qed.
Lemma hush_modn a f : (forall n, n_body (f n) = n_body n) -> (forall n, n_used (f n) = n_used n) -> hush (modn a f).
Proof. intros Hf Hu. apply hush_upd. intros n s x s' E. injection E as <- <-. by exists (f n). Qed.
Lemma hush_inc_ref a : hush (inc_ref a).
Proof. apply hush_upd. intros n s x s' E. destruct (_ <? _)%N; [|discriminate]. injection E as <- <-. eexists; split_and!; [| |reflexivity]; done. Qed.
Lemma hush_dec_ref a : hush (dec_ref a).
Proof. apply hush_upd. intros n s x s' E. destruct (_ =? _)%N; [discriminate|]. injection E as <- <-. eexists; split_and!; [| |reflexivity]; done. Qed.

Section traced.
Context (c : cfg).

Definition traced (tmp : option (nat * utab)) {X} (m : M X) : Prop := forall s x s' ts,
  m s = Ok x s' -> stands c tmp s ts -> exists ts', stands c tmp s' (ts ++ ts').

Lemma stay tmp s s' ts : stands c tmp s ts -> (forall w A, tm tmp s w A -> tm tmp s' w A) -> exists ts', stands c tmp s' (ts ++ ts').
Proof. intros (w&A&P&T) H. exists []. rewrite app_nil_r. exists w, A. auto. Qed.

Lemma hush_slots s s' : slots s -> s_terms s' = s_terms s -> s_specs s' = s_specs s -> (forall a, live (s_heap s') a = live (s_heap s) a) -> slots s'.
Proof.
  intros [s1 s2] E1 E2 E3. constructor; rewrite ?E1, ?E2.
  - intros k a Hk. destruct (s1 _ _ Hk) as (v&?). exists v. by rewrite E3.
  - intros k a Hk. rewrite E3. eauto.
Qed.

Lemma hush_traced tmp {X} (m : M X) : hush m -> traced tmp m.
Proof.
  intros H s x s' ts E St. destruct (H _ _ _ E) as (E1&E2&E3&E4&E5&E6). eapply stay; [done|]. intros w A T.
  eapply tm_frame; [exact T|done|by rewrite E2|by rewrite E2|done|done|]. eapply hush_slots; [apply T|done..].
Qed.

Section gen.
Context (tmp : option (nat * utab)).
Notation tr := (traced tmp).

Lemma tr_ret {X} (x : X) : tr (ret x).
Proof. apply hush_traced, hush_ret. Qed.
Lemma tr_fail {X} e : tr (@fail X e).
Proof. intros s x s' ts H. discriminate. Qed.
Lemma tr_nofuel {X} : tr (@nofuel X).
Proof. intros s x s' ts H. discriminate. Qed.
Lemma tr_of_opt {X} e (o : option X) : tr (of_opt e o).
Proof. destruct o; [apply tr_ret|apply tr_fail]. Qed.
Lemma tr_bind {X Y} (m : M X) (k : X -> M Y) : tr m -> (forall x, tr (k x)) -> tr (let* x := m in k x).
Proof.
  intros Hm Hk s y s' ts H St. unfold bind in H. destruct (m s) as [x s1| |] eqn:E; [|discriminate..].
  destruct (Hm _ _ _ _ E St) as (t1&S1). destruct (Hk x _ _ _ _ H S1) as (t2&S2). exists (t1 ++ t2). by rewrite app_assoc.
Qed.
Lemma tr_gets {X} (f : st -> X) : tr (gets f).
Proof. apply hush_traced. intros s x s' H. injection H as <- <-. done. Qed.
Lemma tr_read {X} e (f : st -> option X) : tr (fun s => of_opt e (f s) s).
Proof. intros s x s' ts E. by apply (tr_of_opt e (f s) s x s' ts). Qed.
Lemma tr_modify f : (forall s, s_tabs (f s) = s_tabs s) -> (forall s, s_pool (f s) = s_pool s) -> (forall s, s_terms (f s) = s_terms s) ->
  (forall s, s_specs (f s) = s_specs s) -> (forall s, s_heap (f s) = s_heap s) -> tr (modify f).
Proof. intros E1 E2 E3 E4 E5. apply hush_traced. intros s x s' H. injection H as <- <-. rewrite E1, E2, E3, E4, E5. done. Qed.
Lemma tr_mapM_ {X} (f : X -> M unit) l : (forall x, tr (f x)) -> tr (mapM_ f l).
Proof. intros H. induction l; simpl; [apply tr_ret|]. by apply tr_bind. Qed.
Lemma tr_mapM {X Y} (f : X -> M Y) l : (forall x, tr (f x)) -> tr (mapM f l).
Proof. intros H. induction l; simpl; [apply tr_ret|]. apply tr_bind; [done|intros ?]. apply tr_bind; [done|intros ?]. apply tr_ret. Qed.
Lemma tr_mapMs {X Y S} (f : S -> X -> M (S * Y)) l : (forall m x, tr (f m x)) -> forall m, tr (mapMs f m l).
Proof. intros H. induction l; intros m; simpl; [apply tr_ret|]. apply tr_bind; [done|intros ?]. apply tr_bind; [done|intros ?]. apply tr_ret. Qed.
Lemma tr_getn a : tr (getn a).
Proof. apply hush_traced. intros s n s' H. destruct (getn_ok _ _ _ _ H) as (->&_). done. Qed.
Lemma tr_set_mark b a : tr (set_mark b a).
Proof. by apply hush_traced, hush_modn. Qed.
Lemma tr_inc_ref a : tr (inc_ref a).
Proof. apply hush_traced, hush_inc_ref. Qed.
Lemma tr_dec_ref a : tr (dec_ref a).
Proof. apply hush_traced, hush_dec_ref. Qed.

End gen.

End traced.

Create HintDb tr discriminated.
Global Hint Resolve tr_getn tr_set_mark tr_inc_ref tr_dec_ref : tr.

Ltac tr_step :=
  first
  [ solve [auto with tr]
  | apply tr_ret | apply tr_fail | apply tr_nofuel | apply tr_of_opt
  | apply tr_bind; [|intros ?]
  | apply tr_gets
  | apply tr_modify; intros; reflexivity
  | apply tr_mapM_; intros ?
  | apply tr_mapM; intros ?
  | apply tr_mapMs; intros ? ?
  | apply tr_read
  | match goal with |- traced _ _ (match ?x with _ => _ end) => destruct x end
  | match goal with |- traced _ _ (let '_ := ?x in _) => destruct x end ].
Ltac tr_tac := repeat tr_step.

Section manager.
Context (c : cfg).

(** ** Garbage collection *)

Lemma remove1_filter a l l' : NoDup l -> remove1 a l = Some l' -> a ∈ l /\ l' = List.filter (fun x => negb (bool_decide (x = a))) l.
Proof.
  revert l'. induction l as [|b l IH]; intros l' ND E; simpl in E; [done|]. inversion ND; subst. destruct (decide (b = a)) as [->|Hne].
  - injection E as <-. split; [set_solver|]. simpl. rewrite bool_decide_true by done. simpl. symmetry. apply filter_all.
    intros x Hx. rewrite bool_decide_false; [done|]. intros ->. done.
  - destruct (remove1 a l) as [l2|]; [|done]. injection E as <-. destruct (IH l2) as [Hin ->]; [done..|]. split; [set_solver|].
    simpl. by rewrite bool_decide_false.
Qed.

Lemma filter_filter {X} (f g : X -> bool) l : List.filter f (List.filter g l) = List.filter (fun x => g x && f x) l.
Proof. induction l as [|x l IH]; simpl; [done|]. destruct (g x) eqn:E; simpl; [destruct (f x); by rewrite IH|done]. Qed.
Lemma filter_ext_in {X} (f g : X -> bool) (l : list X) : (forall x, x ∈ l -> f x = g x) -> List.filter f l = List.filter g l.
Proof. intros H. induction l as [|x l IH]; simpl; [done|]. rewrite H by set_solver. rewrite IH; [done|]. intros y Hy. apply H. set_solver. Qed.

Definition isin (D : list positive) (a : positive) : bool := bool_decide (a ∈ D).
Definition cut (D : list positive) (u : utab) : utab := swept (isin D) u (length D).

Lemma bucket_of_elem (bs : list (list positive)) b b' l l' a : NoDup (concat bs) -> bs !! b = Some l -> bs !! b' = Some l' -> a ∈ l -> a ∈ l' -> b = b'.
Proof.
  revert b b'. induction bs as [|x bs IH]; intros b b' ND Hb Hb' Ha Ha'; [done|]. simpl in ND. apply NoDup_app in ND as (N1&N2&N3).
  destruct b as [|b], b' as [|b']; simpl in *; simplify_eq; [done| | |f_equal; eauto].
  - destruct (N2 a Ha). apply elem_of_concat. eauto.
  - destruct (N2 a Ha'). apply elem_of_concat. eauto.
Qed.

Lemma cut_erase D u b a u' : NoDup (tab_nodes u) -> tab_erase_at (cut D u) b a = Some u' ->
  u' = cut (D ++ [a]) u /\ exists l, t_buckets u !! b = Some l /\ a ∈ l.
Proof.
  intros ND E. unfold tab_erase_at, cut, swept in E. simpl in E. rewrite list_lookup_fmap in E.
  destruct (t_buckets u !! b) as [l|] eqn:Eb; [|done]. simpl in E.
  destruct (remove1 a _) as [l'|] eqn:Er; [|done]. injection E as <-.
  apply remove1_filter in Er as [Ha ->]; [|apply nodup_filter; by eapply bucket_nodup].
  rewrite elem_filter in Ha. destruct Ha as [Ha _]. split; [|eauto]. unfold cut, swept. f_equal.
  - rewrite app_length. simpl. lia.
  - apply list_eq. intros k. rewrite list_lookup_fmap. destruct (decide (k = b)) as [->|Hne].
    + rewrite list_lookup_insert by (rewrite map_length; by eapply lookup_lt_Some). rewrite Eb. simpl. f_equal. rewrite filter_filter.
      apply filter_ext_in. intros x _. unfold alive, isin. repeat case_bool_decide; set_solver.
    + rewrite list_lookup_insert_ne by done. rewrite list_lookup_fmap. destruct (t_buckets u !! k) as [lk|] eqn:Ek; [|done]. simpl. f_equal.
      apply filter_ext_in. intros x Hx. assert (x <> a) by (intros ->; apply Hne; by eapply bucket_of_elem).
      unfold alive, isin. repeat case_bool_decide; set_solver.
Qed.

(** [s]: the nodes [D] of table [i] were deleted since [s0] *)
Record swp (i : nat) (u : utab) (s0 : st) (D : list positive) (s : st) : Prop := {
  sw_tabs : s_tabs s = <[i := cut D u]> (s_tabs s0);
  sw_free : p_free (s_pool s) = rev D ++ p_free (s_pool s0);
  sw_next : p_next (s_pool s) = p_next (s_pool s0);
  sw_sons : forall a, sons_of (s_heap s) a = sons_of (s_heap s0) a;
  sw_live : forall a v, live (s_heap s) a = Some (Term v) <-> live (s_heap s0) a = Some (Term v);
  sw_other : forall a, a ∉ D -> live (s_heap s) a = live (s_heap s0) a;
  sw_terms : s_terms s = s_terms s0;
  sw_specs : s_specs s = s_specs s0
}.

Lemma delete_node_run a s x s' : delete_node c a s = Ok x s' -> exists n, s_heap s !! a = Some n /\ n_used n = true /\
  s' = set_pool (pool_destroy (s_pool s) a) (set_heap (<[a := Node (n_body n) (n_mark n) false (n_refs n)]> (s_heap s)) (set_count (s_count s - 1) s)).
Proof.
  unfold delete_node, bind. destruct (getn a s) as [n s1| |] eqn:G; [|discriminate..]. destruct (getn_ok _ _ _ _ G) as (->&Ha&U&_).
  destruct (_ && _); [discriminate|]. intros E. injection E as <- <-. eauto.
Qed.

Lemma gc_node_swp i u s0 D b a s x s' : NoDup (tab_nodes u) -> s_tabs s0 !! i = Some u -> swp i u s0 D s -> gc_node c i b a s = Ok x s' ->
  exists D', sublist D' [a] /\ swp i u s0 (D ++ D') s'.
Proof.
  intros ND Hu W E. pose proof (lookup_lt_Some _ _ _ Hu) as Hi. unfold gc_node, bind at 1 in E. destruct (getn a s) as [n s1| |] eqn:G; [|discriminate..].
  destruct (getn_ok _ _ _ _ G) as (->&_). destruct (can_be_gced n); cycle 1.
  { injection E as <- <-. exists []. rewrite app_nil_r. split; [apply sublist_nil_l|done]. }
  unfold bind at 1 in E. destruct (get_int a s) as [[ix sons] s2| |] eqn:G2; [|discriminate..].
  assert (s2 = s /\ live (s_heap s) a = Some (Int ix sons)) as [-> Hlv].
  { unfold get_int, bind in G2. rewrite G in G2. destruct (getn_ok _ _ _ _ G) as (_&_&_&Hl). destruct (n_body n); [discriminate|]. by injection G2 as <- <- <-. }
  unfold bind at 1 in E. destruct (mapM_ dec_ref _ s) as [y s3| |] eqn:G3; [|discriminate..].
  destruct (hush_mapM_ dec_ref sons hush_dec_ref s y s3 G3) as (A1&A2&A3&A4&A5&A6).
  unfold bind at 1 in E. destruct (s_tabs s3 !! i) as [t|] eqn:Et; [|discriminate]. cbn [of_opt] in E. unfold ret at 1 in E.
  unfold bind at 1 in E. destruct (tab_erase_at t b a) as [t'|] eqn:Ee; [|discriminate]. cbn [of_opt] in E. unfold ret at 1 in E.
  unfold bind at 1, modify at 1 in E. apply delete_node_run in E as (n'&Hn'&U'&->).
  rewrite A1, (sw_tabs _ _ _ _ _ W), list_lookup_insert in Et by done. injection Et as <-.
  destruct (cut_erase _ _ _ _ _ ND Ee) as [-> _]. exists [a]. split; [done|]. destruct W. constructor; simpl.
  - rewrite A1, sw_tabs0. apply list_insert_insert.
  - rewrite A2, sw_free0, rev_app_distr. done.
  - by rewrite A2.
  - intros d. simpl in Hn'. transitivity (sons_of (s_heap s3) d); [|by rewrite A5]. unfold sons_of. destruct (decide (d = a)) as [->|]; [by rewrite lookup_insert, Hn'|by rewrite lookup_insert_ne].
  - intros d v. simpl in Hn'. rewrite live_insert. destruct (decide (d = a)) as [->|]; [|by rewrite A6]. simpl.
    rewrite <- sw_live0. split; [done|]. rewrite Hlv. done.
  - intros d Hd. rewrite live_insert, decide_False by set_solver. rewrite A6. apply sw_other0. set_solver.
  - congruence.
  - congruence.
Qed.

Lemma gc_chain_swp i u s0 b l : NoDup (tab_nodes u) -> s_tabs s0 !! i = Some u -> forall D s x s', swp i u s0 D s ->
  mapM_ (gc_node c i b) l s = Ok x s' -> exists D', sublist D' l /\ swp i u s0 (D ++ D') s'.
Proof.
  intros ND Hu. induction l as [|a l IH]; intros D s x s' W E; simpl in E.
  - injection E as <- <-. exists []. by rewrite app_nil_r.
  - unfold bind in E. destruct (gc_node c i b a s) as [y s1| |] eqn:E1; [|discriminate..].
    destruct (gc_node_swp _ _ _ _ _ _ _ _ _ ND Hu W E1) as (D1&H1&W1). destruct (IH _ _ _ _ W1 E) as (D2&H2&W2).
    exists (D1 ++ D2). split; [by apply (sublist_app D1 [a])|]. by rewrite app_assoc.
Qed.

Lemma gc_chains_swp i u s0 (l : list (nat * list positive)) : NoDup (tab_nodes u) -> s_tabs s0 !! i = Some u -> forall D s x s', swp i u s0 D s ->
  mapM_ (fun bc : nat * list positive => mapM_ (gc_node c i (fst bc)) (snd bc)) l s = Ok x s' ->
  exists D', sublist D' (concat (map snd l)) /\ swp i u s0 (D ++ D') s'.
Proof.
  intros ND Hu. induction l as [|[b ch] l IH]; intros D s x s' W E; simpl in E.
  - injection E as <- <-. exists []. by rewrite app_nil_r.
  - unfold bind in E. destruct (mapM_ (gc_node c i b) ch s) as [y s1| |] eqn:E1; [|discriminate..].
    destruct (gc_chain_swp _ _ _ _ _ ND Hu _ _ _ _ W E1) as (D1&H1&W1). destruct (IH _ _ _ _ W1 E) as (D2&H2&W2).
    exists (D1 ++ D2). split; [simpl; by apply sublist_app|]. by rewrite app_assoc.
Qed.

Lemma imap_snd {X} (l : list X) : forall n, map snd (imap (fun k => pair (n + k)) l) = l.
Proof. induction l as [|x l IH]; intros n; simpl; [done|]. f_equal. rewrite <- (IH (S n)) at 2. f_equal. apply imap_ext. intros. unfold compose. f_equal. lia. Qed.

Lemma filter_none {X} (f : X -> bool) (l : list X) : (forall x, x ∈ l -> f x = false) -> List.filter f l = [].
Proof. intros H. induction l as [|x l IH]; simpl; [done|]. rewrite H by set_solver. apply IH. intros y Hy. apply H. set_solver. Qed.
Lemma filter_sublist (D l : list positive) : NoDup l -> sublist D l -> List.filter (isin D) l = D.
Proof.
  intros ND H. induction H as [|x D l H IH|x D l H IH]; simpl; [done| |]; inversion ND; subst.
  - unfold isin at 1. rewrite bool_decide_true by set_solver. f_equal. rewrite <- IH at 2 by done. apply filter_ext_in.
    intros y Hy. unfold isin. apply bool_decide_ext. assert (y <> x) by (intros ->; done). set_solver.
  - unfold isin at 1. rewrite bool_decide_false; [auto|]. intros Hx. apply H2. by eapply elem_of_submseteq; [exact Hx|apply sublist_submseteq].
Qed.

Lemma tab_nodup tmp s ts i u : stands c tmp s ts -> s_tabs s !! i = Some u -> NoDup (tab_nodes u).
Proof. intros (w&A&_&T) Hu. destruct (tm_tab _ _ _ _ T _ _ Hu) as (_&t&_&R). apply R. Qed.

Section gen.
Context (tmp : option (nat * utab)).
Notation tr := (traced c tmp).

Lemma tr_get_int a : tr (get_int a).
Proof. unfold get_int. tr_tac. Qed.
Hint Resolve tr_get_int : tr.
Lemma tr_get_son a k : tr (get_son a k).
Proof. unfold get_son. tr_tac. Qed.
Lemma tr_level_of_index i : tr (level_of_index i).
Proof. unfold level_of_index. tr_tac. Qed.
Lemma tr_index_at i : tr (index_at i).
Proof. unfold index_at. tr_tac. Qed.
Hint Resolve tr_get_son tr_level_of_index tr_index_at : tr.
Lemma tr_get_level a : tr (get_level c a).
Proof. unfold get_level. tr_tac. Qed.
Hint Resolve tr_get_level : tr.

Lemma tr_gc_level l : tr (gc_level c l).
Proof.
  unfold gc_level. apply tr_bind; [tr_tac|]. intros i s x s' ts E St. unfold bind in E.
  destruct (s_tabs s !! i) as [u|] eqn:Hu; [|discriminate]. cbn [of_opt ret] in E. unfold ret in E.
  pose proof (tab_nodup _ _ _ _ _ St Hu) as ND.
  assert (W : swp i u s [] s).
  { constructor; try done. unfold cut, swept. rewrite Z.sub_0_r. rewrite list_insert_id; [done|]. rewrite Hu. f_equal.
    destruct u as [sz cap bs]. simpl. f_equal. symmetry. etransitivity; [|apply list_fmap_id]. apply list_fmap_ext. intros k ch _. apply filter_all. intros a _. done. }
  destruct (gc_chains_swp i u s (imap pair (t_buckets u)) ND Hu [] s x s' W E) as (D&HD&W'). simpl in W'.
  change (imap pair (t_buckets u)) with (imap (fun k => pair (0 + k)) (t_buckets u)) in HD. rewrite imap_snd in HD. change (sublist D (tab_nodes u)) in HD.
  exists [TSweep i (isin D)]. pose proof (filter_sublist D _ ND HD) as EF.
  destruct W'. eapply step_sweep; try done; rewrite ?EF; try done.
  - intros a v. apply sw_live0.
  - intros a Ha. apply sw_other0. intros Hd. apply Ha. by eapply elem_of_submseteq; [exact Hd|apply sublist_submseteq].
  - destruct St as (w&A&_&T). destruct (tm_slots _ _ _ _ T) as [s1 s2]. constructor; rewrite ?sw_terms0, ?sw_specs0.
    + intros k a Hk. destruct (s1 _ _ Hk) as (v&Hv&?). exists v. by rewrite sw_live0.
    + intros k a Hk. rewrite sw_live0. eauto.
Qed.
Hint Resolve tr_gc_level : tr.

(** a terminal that is deleted *)
Lemma tr_gc_term k : tr (gc_slot c s_terms set_terms k).
Proof.
  intros s x s' ts E St. unfold gc_slot, bind at 1, gets at 1 in E. destruct (s_terms s !! k) as [[a|]|] eqn:Ek; [|by eapply tr_ret..].
  unfold bind at 1 in E. destruct (getn a s) as [n s1| |] eqn:G; [|discriminate..]. destruct (getn_ok _ _ _ _ G) as (->&Ha&U&_).
  destruct (can_be_gced n); [|by eapply tr_ret]. unfold bind at 1 in E. destruct (delete_node c a s) as [y s2| |] eqn:Ed; [|discriminate..].
  apply delete_node_run in Ed as (n'&Hn'&_&->). injection E as <- <-. destruct St as (w&A&P&T). destruct (tm_slots _ _ _ _ T) as [s1 s2].
  destruct (s1 _ _ Ek) as (v&Hv&Sv&Kv). exists [TRelease a]. eapply step_release; [exact P|exact T|by eapply tm_term|simpl; done..|].
  constructor; simpl.
  - intros k' d Hk'. rewrite live_insert. apply list_lookup_insert_Some in Hk' as [(_&?&_)|(Hne&Hk')]; [done|].
    destruct (s1 _ _ Hk') as (v'&Hv'&?&Kv'). exists v'. destruct (decide (d = a)) as [->|]; [|done]. rewrite Hv in Hv'. injection Hv' as ->. congruence.
  - intros k' d Hk'. destruct (s2 _ _ Hk') as (->&Hd). split; [done|]. rewrite live_insert. destruct (decide (d = a)) as [->|]; [|done].
    rewrite Hv in Hd. injection Hd as ->. done.
Qed.

Lemma tr_gc_spec k : tr (gc_slot c s_specs set_specs k).
Proof.
  intros s x s' ts E St. unfold gc_slot, bind at 1, gets at 1 in E. destruct (s_specs s !! k) as [[a|]|] eqn:Ek; [|by eapply tr_ret..].
  unfold bind at 1 in E. destruct (getn a s) as [n s1| |] eqn:G; [|discriminate..]. destruct (getn_ok _ _ _ _ G) as (->&Ha&U&_).
  destruct (can_be_gced n); [|by eapply tr_ret]. unfold bind at 1 in E. destruct (delete_node c a s) as [y s2| |] eqn:Ed; [|discriminate..].
  apply delete_node_run in Ed as (n'&Hn'&_&->). injection E as <- <-. destruct St as (w&A&P&T). destruct (tm_slots _ _ _ _ T) as [s1 s2].
  destruct (s2 _ _ Ek) as (->&Hv). exists [TRelease a]. eapply step_release; [exact P|exact T|by eapply tm_term|simpl; done..|].
  constructor; simpl.
  - intros k' d Hk'. destruct (s1 _ _ Hk') as (v'&Hv'&S'&Kv'). exists v'. split; [|done]. rewrite live_insert. destruct (decide (d = a)) as [->|]; [|done].
    rewrite Hv in Hv'. injection Hv' as <-. done.
  - intros k' d Hk'. apply list_lookup_insert_Some in Hk' as [(_&?&_)|(Hne&Hk')]; [done|]. destruct (s2 _ _ Hk') as (->&_). done.
Qed.
Hint Resolve tr_gc_term tr_gc_spec : tr.
Lemma tr_collect_garbage : tr (collect_garbage c).
Proof. unfold collect_garbage. tr_tac. Qed.
Hint Resolve tr_collect_garbage : tr.
Lemma tr_force_gc : tr (force_gc c).
Proof. unfold force_gc. tr_tac. Qed.
Hint Resolve tr_force_gc : tr.

(** ** New nodes *)

Lemma tr_adjust_tables : tr (adjust_tables c).
Proof.
  intros s x s' ts E St. injection E as <- <-.
  enough (H : forall n, n <= length (s_tabs s) -> exists ts', stands c tmp
    (set_tabs (map (tab_adjust c (s_heap s)) (take n (s_tabs s)) ++ drop n (s_tabs s)) s) (ts ++ ts')).
  { destruct (H (length (s_tabs s))) as (ts'&H'); [lia|]. exists ts'. by rewrite firstn_all, drop_all, app_nil_r in H'. }
  induction n as [|n IH]; intros Hn.
  - exists []. rewrite app_nil_r. simpl. by destruct s.
  - destruct IH as (ts'&H'); [lia|]. destruct (lookup_lt_is_Some_2 (s_tabs s) n) as [u Hu]; [lia|].
    exists (ts' ++ [TAdjust n]). rewrite app_assoc. eapply step_adjust; [exact H'| | |done..].
    + simpl. rewrite lookup_app_r; rewrite map_length, take_length; [|lia]. rewrite lookup_drop. replace (n + _) with n by lia. exact Hu.
    + simpl. rewrite (take_S_r _ _ _ Hu), map_app. simpl. rewrite (drop_S _ _ _ Hu), <- app_assoc. simpl.
      rewrite insert_app_r_alt by (rewrite map_length, take_length; lia). rewrite map_length, take_length. by replace (n - _) with 0 by lia.
Qed.
Hint Resolve tr_adjust_tables : tr.
Lemma tr_adjust : tr (adjust_if_needed c).
Proof. unfold adjust_if_needed, adjust_caches. tr_tac. Qed.
Lemma tr_grow : tr grow.
Proof. intros s x s' ts E St. injection E as <- <-. exists [TGrow (p_left (s_pool s))]. by eapply step_grow. Qed.
Hint Resolve tr_adjust tr_grow : tr.
Lemma tr_ensure : tr (ensure_available c).
Proof. unfold ensure_available. tr_tac. Qed.
Hint Resolve tr_ensure : tr.

(** the node that was created is in no table and in no slot *)
Lemma new_node b s a s' ts : make_new_node c b s = Ok a s' -> stands c tmp s ts -> exists ts' w A,
  program c (ts ++ ts') w A /\ tm tmp s' w A /\ aw_at A !! a = Some Loose /\ live (s_heap s') a = Some b.
Proof.
  intros E St. unfold make_new_node, bind in E. destruct (ensure_available c s) as [x1 s1| |] eqn:E1; [|discriminate..].
  destruct (adjust_if_needed c s1) as [x2 s2| |] eqn:E2; [|discriminate..].
  destruct (tr_ensure _ _ _ _ E1 St) as (t1&S1). destruct (tr_adjust _ _ _ _ E2 S1) as (t2&S2).
  unfold create_node in E. destruct (pool_create (s_pool s2)) as [[a' p]|] eqn:Ep; [|discriminate]. injection E as <- <-.
  destruct (step_create c tmp s2 (set_pool p (set_heap (<[a':=Node b false true 0]> (s_heap s2)) (set_count (s_count s2 + 1) s2))) _ b a' p S2 Ep)
    as (w&A&P&T&Ha&_); [done..|].
  exists (t1 ++ t2 ++ [TCreate (body_sons b)]), w, A. rewrite !app_assoc. split; [done|]. split; [done|]. split; [done|].
  simpl. rewrite live_insert. by rewrite decide_True.
Qed.

Lemma tr_slot (f : st -> st) : (forall s, s_tabs (f s) = s_tabs s) -> (forall s, s_pool (f s) = s_pool s) -> (forall s, s_heap (f s) = s_heap s) ->
  (forall s, slots s -> slots (f s)) -> tr (modify f).
Proof.
  intros E1 E2 E3 E4 s x s' ts E St. injection E as <- <-. eapply stay; [exact St|]. intros w A T.
  eapply tm_frame; [exact T|..]; rewrite ?E1, ?E2, ?E3; try done. apply E4, T.
Qed.

Lemma tr_make_special : tr (make_special_node c).
Proof.
  unfold make_special_node. apply tr_bind; [|intros ?; apply tr_bind; [tr_tac|]].
  - apply tr_slot; try (intros s; by destruct (s_specs s)).
    intros s [s1 s2]. destruct (s_specs s) as [|o l] eqn:Es; [|by constructor; rewrite ?Es].
    constructor; simpl; [done|]. intros [|k] a; simpl; done.
  - intros [[a|]|]; [tr_tac| |]; (intros s x' s' ts E St; unfold bind at 1 in E;
    destruct (make_new_node c (Term Undef) s) as [a s1| |] eqn:En; [|discriminate..];
    destruct (new_node _ _ _ _ _ En St) as (t1&w&A&P&T&Ha&Hl); unfold bind at 1, modify at 1 in E;
    assert (S1 : stands c tmp (set_specs (<[0 := Some a]> (s_specs s1)) s1) (ts ++ t1));
    [exists w, A; split; [done|]; eapply tm_frame; [exact T|done..|]; destruct (tm_slots _ _ _ _ T) as [q1 q2]; constructor; simpl;
     [done|intros k d Hk; apply list_lookup_insert_Some in Hk as [(<-&[= <-]&_)|(_&Hk)]; eauto]|];
    assert (Tr : tr (let* _ := set_mark true a in ret a)) by tr_tac; destruct (Tr _ _ _ _ E S1) as (t2&S2); exists (t1 ++ t2); by rewrite app_assoc).
Qed.
Hint Resolve tr_make_special : tr.

Lemma tr_make_terminal v : tr (make_terminal_node c v).
Proof.
  unfold make_terminal_node. destruct (_ && _); [apply tr_fail|]. destruct (is_special v) eqn:Sv; [tr_tac|]. destruct (v <? 0)%Z; [apply tr_fail|].
  cbv zeta. apply tr_bind; [|intros ?; apply tr_bind; [tr_tac|]].
  - apply tr_slot; try (intros s; by destruct (Z.of_nat (length (s_terms s)) <=? v)%Z).
    intros s [s1 s2]. destruct (Z.of_nat (length (s_terms s)) <=? v)%Z; [|by constructor].
    constructor; simpl; [|done]. intros k a Hk. apply lookup_app_Some in Hk as [Hk|[_ Hk]]; [eauto|]. by apply lookup_replicate in Hk as [? _].
  - intros [[a|]|]; [tr_tac| |]; (intros s x' s' ts E St; unfold bind at 1 in E;
    destruct (make_new_node c (Term v) s) as [a s1| |] eqn:En; [|discriminate..];
    destruct (new_node _ _ _ _ _ En St) as (t1&w&A&P&T&Ha&Hl); unfold bind at 1, modify at 1 in E;
    assert (S1 : stands c tmp (set_terms (<[Z.to_nat v := Some a]> (s_terms s1)) s1) (ts ++ t1));
    [exists w, A; split; [done|]; eapply tm_frame; [exact T|done..|]; destruct (tm_slots _ _ _ _ T) as [q1 q2]; constructor; simpl;
     [intros k d Hk; apply list_lookup_insert_Some in Hk as [(<-&[= <-]&_)|(_&Hk)]; eauto|done]|];
    assert (Tr : tr (let* _ := set_mark true a in ret a)) by tr_tac; destruct (Tr _ _ _ _ E S1) as (t2&S2); exists (t1 ++ t2); by rewrite app_assoc).
Qed.
Hint Resolve tr_make_terminal : tr.

Lemma alter_some {X} (f : X -> X) i (l : list X) x : l !! i = Some x -> alter f i l = <[i := f x]> l.
Proof.
  intros H. apply list_eq. intros k. destruct (decide (k = i)) as [->|Hne].
  - rewrite list_lookup_alter, H, list_lookup_insert by (by eapply lookup_lt_Some). done.
  - by rewrite list_lookup_alter_ne, list_lookup_insert_ne.
Qed.
Lemma alter_none {X} (f : X -> X) i (l : list X) : l !! i = None -> alter f i l = l.
Proof.
  intros H. apply list_eq. intros k. destruct (decide (k = i)) as [->|Hne]; [by rewrite list_lookup_alter, H|by rewrite list_lookup_alter_ne].
Qed.

Lemma tr_make_internal i sons : tr (make_internal_node c i sons).
Proof.
  unfold make_internal_node. destruct (adj_eq sons); [tr_tac|]. apply tr_bind.
  { apply hush_traced. intros s x s' E. destruct (s_tabs s !! i); [|discriminate]. by injection E as <- <-. }
  intros [a|]; [tr_tac|]. intros s x s' ts E St. unfold bind at 1 in E.
  destruct (make_new_node c (Int i sons) s) as [a s1| |] eqn:En; [|discriminate..].
  destruct (new_node _ _ _ _ _ En St) as (t1&w&A&P&T&Ha&Hl). unfold bind at 1, modify at 1 in E.
  assert (S1 : exists t2, stands c tmp (set_tabs (alter (fun t => tab_insert t a (node_hash c sons)) i (s_tabs s1)) s1) (ts ++ t2)).
  { destruct (s_tabs s1 !! i) as [u|] eqn:Hu.
    - exists (t1 ++ [TInsert i a]). rewrite app_assoc. eapply step_insert; [exact P|exact T|done|exact Hu| | |done..].
      + intros v. rewrite Hl. done.
      + simpl. rewrite (alter_some _ _ _ _ Hu). unfold sons_of, live in *. destruct (s_heap s1 !! a) as [n|]; [|done]. destruct (n_used n); [|done].
        injection Hl as ->. done.
    - exists t1. exists w, A. split; [done|]. eapply tm_frame; [exact T|simpl; by rewrite ?alter_none|done..|destruct (tm_slots _ _ _ _ T); by constructor]. }
  destruct S1 as (t2&S2).
  assert (Tr : tr (let* _ := mapM_ inc_ref sons in let* _ := mapM_ (set_mark false) sons in let* _ := set_mark true a in ret a)) by tr_tac.
  destruct (Tr _ _ _ _ E S2) as (t3&S3). exists (t2 ++ t3). by rewrite app_assoc.
Qed.
Hint Resolve tr_make_internal : tr.

Lemma tr_cache_find id comm l r : tr (cache_find c id comm l r).
Proof. unfold cache_find. tr_tac. Qed.
Lemma tr_cache_put id comm a l r : tr (cache_put c id comm a l r).
Proof. unfold cache_put. tr_tac. Qed.
Lemma tr_cache_clear : tr cache_clear.
Proof. unfold cache_clear. tr_tac. Qed.
Lemma tr_diagram_of a : tr (diagram_of a).
Proof. unfold diagram_of. tr_tac. Qed.
Lemma tr_diagram_copy a : tr (diagram_copy a).
Proof. apply tr_inc_ref. Qed.
Lemma tr_diagram_destroy a : tr (diagram_destroy a).
Proof. apply tr_dec_ref. Qed.

(** ** Reordering *)

(** a node of a table that loses its last reference *)
Lemma tr_dec_ref_try_gc fuel : forall a, tr (dec_ref_try_gc c fuel a).
Proof.
  induction fuel as [|fuel IH]; intros a; simpl; [apply tr_nofuel|]. apply tr_bind; [apply tr_dec_ref|intros _].
  intros s x s' ts E St. unfold bind at 1 in E. destruct (getn a s) as [n s1| |] eqn:G; [|discriminate..].
  destruct (getn_ok _ _ _ _ G) as (->&Hn&U&Hl). destruct (can_be_gced n); [|by eapply tr_ret]. destruct (n_body n) as [v|i sons] eqn:Eb.
  - destruct (is_special v) eqn:Sv; [discriminate|]. unfold bind, modify in E. apply delete_node_run in E as (n'&Hn'&_&->).
    destruct St as (w&A&P&T). destruct (tm_slots _ _ _ _ T) as [s1 s2]. exists [TRelease a].
    eapply step_release; [exact P|exact T|by eapply tm_term|simpl; done..|]. constructor; simpl.
    + intros k' d Hk'. rewrite live_insert. apply list_lookup_insert_Some in Hk' as [(_&?&_)|(Hne&Hk')]; [done|].
      destruct (s1 _ _ Hk') as (v'&Hv'&?&Kv'). exists v'. destruct (decide (d = a)) as [->|]; [|done]. rewrite Hl in Hv'. injection Hv' as ->. congruence.
    + intros k' d Hk'. destruct (s2 _ _ Hk') as (->&Hd). split; [done|]. rewrite live_insert. destruct (decide (d = a)) as [->|]; [|done].
      rewrite Hl in Hd. injection Hd as ->. done.
  - unfold bind at 1 in E. destruct (mapM_ (dec_ref_try_gc c fuel) sons s) as [y s1| |] eqn:E1; [|discriminate..].
    destruct (tr_mapM_ c tmp _ sons IH _ _ _ _ E1 St) as (t1&S1).
    unfold bind at 1 in E. destruct (s_tabs s1 !! i) as [u|] eqn:Hu; [|discriminate]. cbn [of_opt] in E. unfold ret at 1 in E.
    unfold bind at 1 in E. destruct (tab_erase c (s_heap s1) u a) as [u'|] eqn:Eu; [|discriminate]. cbn [of_opt] in E. unfold ret at 1 in E.
    unfold bind, modify in E. apply delete_node_run in E as (n'&Hn'&U'&->). destruct S1 as (w&A&P&T). simpl in Hn'.
    destruct (step_erase c tmp s1 (set_tabs (<[i := u']> (s_tabs s1)) s1) _ i u u' a w A P T Hu Eu) as (w'&A'&P'&T'&Ha'); [done|unfold live; rewrite Hn', U'; eauto|done..|].
    exists (t1 ++ [TErase i a] ++ [TRelease a]). rewrite !app_assoc.
    eapply (step_release c tmp _ _ _ a); [exact P'|exact T'|exact Ha'|simpl; done..|].
    assert (Nt : forall v, live (s_heap s1) a <> Some (Term v)).
    { intros v Hv. apply (tm_term _ _ _ _ T) in Hv. unfold tab_erase in Eu.
      pose proof (tm_in c tmp s1 w A i u a (program_linv c _ _ _ P) T (or_introl Hu)) as Hin.
      destruct (tm_tab _ _ _ _ T _ _ Hu) as (_&t&_&R). destruct (erase_ok _ _ _ _ _ _ R Eu) as (_&_&_&_&_&_&_&_&_&_&Pm).
      assert (Hau : a ∈ tab_nodes u) by (rewrite Pm; set_solver). apply Hin in Hau. congruence. }
    destruct (tm_slots _ _ _ _ T) as [s2 s3]. constructor; simpl.
    + intros k d Hk. destruct (s2 _ _ Hk) as (v&Hv&?). exists v. split; [|done]. rewrite live_insert. destruct (decide (d = a)) as [->|]; [by destruct (Nt v)|done].
    + intros k d Hk. destruct (s3 _ _ Hk) as (?&Hv). split; [done|]. rewrite live_insert. destruct (decide (d = a)) as [->|]; [by destruct (Nt Undef)|done].
Qed.
Lemma tr_cofactor_row n d a : tr (cofactor_row n d a).
Proof. unfold cofactor_row. tr_tac. Qed.

End gen.

Hint Resolve tr_get_int tr_get_son tr_level_of_index tr_index_at tr_get_level tr_collect_garbage tr_force_gc : tr.
Hint Resolve tr_make_terminal tr_make_internal tr_cache_find tr_cache_put tr_cache_clear : tr.
Hint Resolve tr_diagram_of tr_diagram_copy tr_diagram_destroy tr_dec_ref_try_gc tr_cofactor_row : tr.

(** the nodes of the table that was taken get other sons *)
Lemma tr_swap_node j u a : a ∈ tab_nodes u -> traced c (Some (j, u)) (swap_node_with_next c a).
Proof.
  intros Ha. unfold swap_node_with_next. apply tr_bind; [tr_tac|]. intros [i old]. apply tr_bind; [tr_tac|intros level]. apply tr_bind; [tr_tac|intros next].
  cbv zeta. apply tr_bind; [tr_tac|intros rows]. apply tr_bind; [tr_tac|intros outer]. apply tr_bind; [|intros ?; tr_tac].
  intros s x s' ts E St. unfold modn, bind in E. destruct (getn a s) as [n s1| |] eqn:G; [|discriminate..].
  destruct (getn_ok _ _ _ _ G) as (->&Hn&U&Hl). injection E as <- <-.
  exists [TSons a outer]. by eapply (step_sons c j u s _ ts a (Node (Int next outer) (n_mark n) (n_used n) (n_refs n))).
Qed.

Lemma tr_swap_nodes j u l : (forall a, a ∈ l -> a ∈ tab_nodes u) -> traced c (Some (j, u)) (mapM_ (swap_node_with_next c) l).
Proof.
  induction l as [|a l IH]; intros H; simpl; [apply tr_ret|]. apply tr_bind; [apply tr_swap_node, H; set_solver|intros _]. apply IH. set_solver.
Qed.

Notation tr := (traced c None).

(** *** swap_variable_with_next: the table is taken, its nodes change, and it is
    merged into the table of the other variable *)
Lemma tr_swap_variable i : tr (swap_variable_with_next c i).
Proof.
  unfold swap_variable_with_next. apply tr_bind; [tr_tac|intros level]. apply tr_bind; [tr_tac|intros next].
  intros s x s' ts E St. unfold bind at 1 in E. destruct (s_tabs s !! i) as [u|] eqn:Hu; [|discriminate]. cbn [of_opt] in E. unfold ret at 1 in E.
  unfold bind at 1, modify at 1 in E. rewrite (alter_some _ _ _ _ Hu) in E.
  destruct (step_steal c s (set_tabs (<[i := tab_clear u]> (s_tabs s)) s) ts i u St Hu) as (j&S1); [done..|].
  unfold bind at 1 in E. destruct (mapM_ (swap_node_with_next c) (tab_nodes u) _) as [y s1| |] eqn:E1; [|discriminate..].
  destruct (tr_swap_nodes j u (tab_nodes u) (fun a H => H) _ _ _ _ E1 S1) as (t2&S2).
  unfold bind at 1, modify at 1 in E. cbn [s_tabs set_tabs s_heap] in E.
  assert (S3 : exists t3, stands c (Some (j, u)) (set_tabs (alter (tab_adjust c (s_heap s1)) i (s_tabs s1)) s1) (ts ++ t3)).
  { destruct (s_tabs s1 !! i) as [v|] eqn:Hv.
    - exists ([TSteal i] ++ t2 ++ [TAdjust i]). rewrite !app_assoc. eapply step_adjust; [exact S2|exact Hv|simpl; by rewrite (alter_some _ _ _ _ Hv)|done..].
    - exists ([TSteal i] ++ t2). rewrite app_assoc. rewrite alter_none by done. by destruct s1. }
  destruct S3 as (t3&S3). set (s2 := set_tabs _ s1) in S3, E.
  unfold bind at 1 in E. destruct (s_tabs s2 !! next) as [v|] eqn:Hv; [|discriminate]. cbn [of_opt] in E. unfold ret at 1 in E.
  unfold bind at 1, modify at 1 in E. injection E as <- <-.
  exists (t3 ++ [TMerge next j]). rewrite app_assoc.
  destruct (step_merge c j u s2 (set_tabs (<[next := tab_merge c (s_heap s2) v u]> (s_tabs s2)) s2) _ next v S3 Hv) as (w&A&P&T); [done..|].
  exists w, A. split; [done|]. rewrite (alter_some _ _ _ _ Hv).
  eapply tm_frame; [exact T|done..|]. destruct (tm_slots _ _ _ _ T). by constructor.
Qed.
Hint Resolve tr_swap_variable : tr.
Lemma tr_determine : tr (determine_sift_order c).
Proof.
  apply hush_traced. intros s x s' E. unfold determine_sift_order in E.
  destruct (mapM_opt _ _) as [cs|]; [|discriminate]. destruct (heapsort _ cs); [|discriminate]. by injection E as <- <-.
Qed.
Hint Resolve tr_determine : tr.
Lemma tr_move_up i : tr (move_var_up c i).
Proof. unfold move_var_up. tr_tac. Qed.
Lemma tr_move_down i : tr (move_var_down c i).
Proof. apply tr_swap_variable. Qed.
Lemma tr_note_best cur best : tr (note_best cur best).
Proof. unfold note_best. tr_tac. Qed.
Hint Resolve tr_move_up tr_move_down tr_note_best : tr.
Lemma tr_down_loop fuel i : forall cur best, tr (sift_down_loop c fuel i cur best).
Proof. induction fuel; intros; simpl; tr_tac. Qed.
Lemma tr_up_loop fuel i : forall cur best, tr (sift_up_loop c fuel i cur best).
Proof. induction fuel; intros; simpl; tr_tac. Qed.
Lemma tr_restore fuel i t : forall cur, tr (restore_loop c fuel i cur t).
Proof. induction fuel; intros; simpl; tr_tac. Qed.
Hint Resolve tr_down_loop tr_up_loop tr_restore : tr.
Lemma tr_place i : tr (place_variable c i).
Proof. unfold place_variable. tr_tac. Qed.
Hint Resolve tr_place : tr.
Lemma tr_sift : tr (sift_variables c).
Proof. unfold sift_variables. tr_tac. Qed.
Hint Resolve tr_sift : tr.


Lemma tr_run_deferred : tr (run_deferred c).
Proof. unfold run_deferred. tr_tac. Qed.
Hint Resolve tr_run_deferred : tr.

(** ** DiagramManager.v *)
Lemma tr_with_handle m : tr m -> tr (with_handle m).
Proof. intros. unfold with_handle. tr_tac. Qed.
Lemma tr_variable_impl i : tr (variable_impl c i).
Proof. unfold variable_impl. tr_tac. Qed.
Hint Resolve tr_with_handle tr_variable_impl : tr.
Lemma tr_shrink fuel : forall st, tr (shrink_stack c fuel st).
Proof. induction fuel; intros; simpl; tr_tac. Qed.
Hint Resolve tr_shrink : tr.
Lemma tr_vector_loop fuel i : forall vs st, tr (from_vector_loop c fuel i vs st).
Proof. induction fuel; intros; simpl; tr_tac. Qed.
Hint Resolve tr_vector_loop : tr.
Lemma tr_from_vector_impl vs : tr (from_vector_impl c vs).
Proof. unfold from_vector_impl. tr_tac. Qed.
Hint Resolve tr_from_vector_impl : tr.
Lemma tr_run_op o l r : tr (run_op c o l r).
Proof. unfold run_op. tr_tac. Qed.
Hint Resolve tr_run_op : tr.
Lemma tr_apply_impl fuel o : forall l r, tr (apply_impl c fuel o l r).
Proof. induction fuel; intros; simpl; tr_tac. Qed.
Hint Resolve tr_apply_impl : tr.
Lemma tr_apply o l r : tr (apply c o l r).
Proof. unfold apply. tr_tac. Qed.
Hint Resolve tr_apply : tr.
Lemma tr_drop o : tr (drop_handle o).
Proof. unfold drop_handle. tr_tac. Qed.
Hint Resolve tr_drop : tr.
Lemma tr_left_loop o l : forall acc, tr (left_fold_loop c o acc l).
Proof. induction l; intros; simpl; tr_tac. Qed.
Hint Resolve tr_left_loop : tr.
Lemma tr_left_fold o l : tr (left_fold c o l).
Proof. unfold left_fold. tr_tac. Qed.
Lemma tr_arr_slot arr k : tr (slot arr k).
Proof. unfold slot. tr_tac. Qed.
Hint Resolve tr_left_fold tr_arr_slot : tr.
Lemma tr_tree_pairs n o : forall k arr, tr (tree_pairs c n k o arr).
Proof. induction n; intros; simpl; tr_tac. Qed.
Hint Resolve tr_tree_pairs : tr.
Lemma tr_tree_steps n o : forall k arr, tr (tree_steps c n o k arr).
Proof. induction n; intros; simpl; tr_tac. Qed.
Hint Resolve tr_tree_steps : tr.
Lemma tr_tree_fold o arr : tr (tree_fold c o arr).
Proof. unfold tree_fold. tr_tac. Qed.
Hint Resolve tr_tree_fold : tr.
Lemma tr_cofactor_impl fuel vi vv : forall m a, tr (cofactor_impl c fuel vi vv m a).
Proof. induction fuel; intros; simpl; tr_tac. Qed.
Hint Resolve tr_cofactor_impl : tr.
Lemma tr_get_cofactor a vi vv : tr (get_cofactor c a vi vv).
Proof. unfold get_cofactor. tr_tac. Qed.
Lemma tr_cofactors_impl fuel vars : forall todo m a, tr (cofactors_impl c fuel vars todo m a).
Proof. induction fuel; intros; simpl; tr_tac. Qed.
Hint Resolve tr_get_cofactor tr_cofactors_impl : tr.
Lemma tr_get_cofactors a vars : tr (get_cofactors c a vars).
Proof. unfold get_cofactors. tr_tac. Qed.
Lemma tr_transform_impl fuel f : forall m a, tr (transform_impl c fuel f m a).
Proof. induction fuel; intros; simpl; tr_tac. Qed.
Hint Resolve tr_get_cofactors tr_transform_impl : tr.
Lemma tr_transform f a : tr (transform c f a).
Proof. unfold transform. tr_tac. Qed.
Lemma tr_apply_n fuel f : forall m lr, tr (apply_n_impl c fuel f m lr).
Proof. induction fuel; intros; simpl; tr_tac. Qed.
Hint Resolve tr_transform tr_apply_n : tr.
Lemma tr_expression_impl e : tr (from_expression_impl c e).
Proof. induction e; cbn [from_expression_impl]; tr_tac. Qed.
Hint Resolve tr_expression_impl : tr.
Lemma tr_from_expression e : tr (from_expression_tree c e).
Proof. unfold from_expression_tree. tr_tac. Qed.
Hint Resolve tr_from_expression : tr.

(** ** Reliability.v *)
Lemma tr_son_skip i v a k : tr (son_skip i v a k).
Proof. unfold son_skip. tr_tac. Qed.
Hint Resolve tr_son_skip : tr.
Lemma tr_dpld_impl fuel vc f : forall m lr, tr (dpld_impl c fuel vc f m lr).
Proof. induction fuel; intros; simpl; tr_tac. Qed.
Lemma tr_dpld_roots vc a : tr (dpld_roots vc a).
Proof. unfold dpld_roots. tr_tac. Qed.
Hint Resolve tr_dpld_impl tr_dpld_roots : tr.
Lemma tr_dpld vc f a : tr (dpld c vc f a).
Proof. unfold dpld. tr_tac. Qed.
Lemma tr_extend_at from i a : tr (extend_at c from i a).
Proof. unfold extend_at. tr_tac. Qed.
Hint Resolve tr_dpld tr_extend_at : tr.
Lemma tr_to_dpld_e_impl fuel from vi : forall m a, tr (to_dpld_e_impl c fuel from vi m a).
Proof. induction fuel; intros; simpl; tr_tac. Qed.
Hint Resolve tr_to_dpld_e_impl : tr.
Lemma tr_to_dpld_e from vi a : tr (to_dpld_e c from vi a).
Proof. unfold to_dpld_e. tr_tac. Qed.
Hint Resolve tr_to_dpld_e : tr.
Lemma tr_dpld_e vc f from a : tr (dpld_e c vc f from a).
Proof. unfold dpld_e. tr_tac. Qed.
Lemma tr_is_term v a : tr (Reliability.is_term v a).
Proof. unfold Reliability.is_term. tr_tac. Qed.
Hint Resolve tr_dpld_e tr_is_term : tr.
Lemma tr_mnf_ones k : forall sons, tr (mnf_ones k sons).
Proof. induction k; intros; cbn [mnf_ones]; tr_tac. Qed.
Lemma tr_mnf_zeros k : forall sons, tr (mnf_zeros k sons).
Proof. induction k; intros; cbn [mnf_zeros]; tr_tac. Qed.
Hint Resolve tr_mnf_ones tr_mnf_zeros : tr.
Lemma tr_to_mnf_impl fuel : forall m a, tr (to_mnf_impl c fuel m a).
Proof. induction fuel; intros; simpl; tr_tac. Qed.
Hint Resolve tr_to_mnf_impl : tr.
Lemma tr_to_mnf a : tr (to_mnf c a).
Proof. unfold to_mnf. tr_tac. Qed.
Hint Resolve tr_to_mnf : tr.

(** ** Calls *)
Lemma tr_put vars d a : tr (put vars d a).
Proof. unfold put. tr_tac. Qed.
Lemma tr_deref vars x : tr (deref vars x).
Proof. unfold deref. tr_tac. Qed.
Hint Resolve tr_put tr_deref : tr.



Lemma tr_exec k vars : tr (exec c k vars).
Proof.
  destruct k; unfold exec, constant, variable, variable_not, from_vector, clear_cache, force_reorder; cbv zeta; tr_tac.
Qed.

End manager.
