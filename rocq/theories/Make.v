(** * Node creation *)

From stdpp Require Import gmap list.
From Coq Require Import ZArith Lia.
From Verif Require Import Base Ops Tables NodeManager Heap Inv InvLemmas Prim TabLemmas GC.

Local Open Scope nat_scope.

Definition sons_in (b : body) : list positive := match b with Int _ sons => sons | Term _ => [] end.

Section make.
Context (c : cfg) (opsem : Z -> option (Z -> Z -> Z)) (strict : bool).
Notation rank := (rank c).
Notation WF := (WF c opsem strict).
Notation sstep := (sstep c opsem strict).
Notation allowed := (allowed strict).

Lemma ord_same g s s' : same_order s s' -> ord c g s -> ord c g s'.
Proof.
  intros (E1&E2&_) [P O]. split; [by eapply perm_same|]. intros i Hi. rewrite E2. auto.
Qed.
Lemma perm_same_order s s' : same_order s s' -> perm_ok c s -> perm_ok c s'.
Proof. intros (E1&E2&_) P. by eapply perm_same. Qed.

(** ** Growing the pool *)

Lemma WF_grow g s : WF g s -> p_left (s_pool s) = 0%N -> WF g (set_pool (pool_grow (s_pool s)) s).
Proof.
  intros W Hl. destruct W. constructor; simpl; try done. destruct wf_pool.
  constructor; simpl; try done.
  - rewrite po_avail, Hl. simpl. lia.
  - rewrite Hl. simpl. eauto.
  - lia.
Qed.

(** step that keeps the live heap up to collection *)
Record gstep (g : ghost) (s s' : st) : Prop := {
  gs_wf : WF g s';
  gs_rel : gcrel2 g s s';
  gs_same : same_order s s';
  gs_grown : grown c g s s'
}.

Lemma gcrel2_refl g s : gcrel2 g s s.
Proof. constructor; try done. Qed.
Lemma gcrel2_trans g s1 s2 s3 : gcrel2 g s1 s2 -> gcrel2 g s2 s3 -> gcrel2 g s1 s3.
Proof.
  intros [A1 A2 A3 A4 A5] [B1 B2 B3 B4 B5]. constructor; eauto using keeps_trans; [|congruence..].
  intros d. by rewrite B3.
Qed.
Lemma gstep_refl g s : WF g s -> gstep g s s.
Proof. intros. constructor; [done|apply gcrel2_refl|apply same_order_refl|by apply grown_same]. Qed.
Lemma gstep_trans g s1 s2 s3 : gstep g s1 s2 -> gstep g s2 s3 -> gstep g s1 s3.
Proof.
  intros [] []. constructor; [done|eapply gcrel2_trans; eauto|eapply same_order_trans; eauto|].
  eapply grown_trans; eauto. by apply g2_keeps.
Qed.
Lemma gstep_sstep g s s' : gstep g s s' -> sstep g s s'.
Proof. intros [? [] ? ?]. constructor; done. Qed.

Lemma avail_nonneg g s : WF g s -> (0 <= p_avail (s_pool s))%Z.
Proof. intros W. rewrite (po_avail _ _ (wf_pool _ _ _ _ _ W)). lia. Qed.

Lemma avail_zero_left g s : WF g s -> p_avail (s_pool s) = 0%Z -> p_left (s_pool s) = 0%N.
Proof. intros W E. rewrite (po_avail _ _ (wf_pool _ _ _ _ _ W)) in E. lia. Qed.

Lemma live_list h : exists l : list positive, NoDup l /\ (forall a, a ∈ l -> live h a <> None) /\ length l = nlive h.
Proof.
  induction h as [|a n h Ha IH] using map_ind; [exists []; split_and!; [constructor|set_solver|done]|].
  destruct IH as (l&N&L&E). unfold nlive in *. rewrite hsum_insert_new by done. destruct (n_used n) eqn:U.
  - exists (a :: l). split_and!; [|intros d|simpl; lia].
    + constructor; [|done]. intros H%L. unfold live in H. by rewrite Ha in H.
    + rewrite live_insert, U. intros [->|Hd]%elem_of_cons; [by rewrite decide_True|].
      destruct (decide (d = a)); [done|by apply L].
  - exists l. split_and!; [done| |simpl; lia]. intros d Hd. rewrite live_insert.
    destruct (decide (d = a)) as [->|]; [|by apply L]. apply L in Hd. unfold live in Hd. by rewrite Ha in Hd.
Qed.

Lemma ensure_available_spec ok g s :
  WF g s -> g_dy g = [] -> perm_ok c s ->
  wp ok (ensure_available c) (fun _ s' =>
    gstep g s s' /\ (strict = true -> (0 < p_avail (s_pool s'))%Z)) s.
Proof.
  intros W Hdy P. unfold ensure_available. apply wp_bind, wp_gets. apply wp_bind, wp_gets.
  pose proof (avail_nonneg g s W) as Hnn.
  destruct (s_auto s) eqn:Ha.
  - destruct (p_avail (s_pool s) =? 0)%Z eqn:E.
    + apply Z.eqb_eq in E. apply wp_bind. unfold grow. apply wp_modify. apply wp_modify.
      pose proof (avail_zero_left g s W E) as Hl.
      pose proof (WF_grow g s W Hl) as W'. split.
      * constructor.
        -- destruct W'. constructor; done.
        -- constructor; try done.
        -- repeat split. simpl. congruence.
        -- intros _. simpl. congruence.
      * intros Hst. destruct (wf_strict _ _ _ _ _ W Hst) as [? _]. simpl. lia.
    + apply Z.eqb_neq in E. apply wp_ret. split; [by apply gstep_refl|lia].
  - destruct (p_avail (s_pool s) =? 0)%Z eqn:E.
    + apply Z.eqb_eq in E. apply wp_bind, wp_gets. apply wp_bind.
      eapply wp_mono; [by apply (force_gc_spec c opsem strict ok g s)|].
      intros _ s1 (W1&G1&S1&_&_&Hm&Hx&Hlf&Hc&Hac&HS). apply wp_bind, wp_gets.
      pose proof (avail_zero_left g s W E) as Hl.
      destruct (p_avail (s_pool s1) <? s_gcthr s (s_count s))%Z eqn:El.
      * unfold grow. apply wp_modify. split.
        -- constructor; simpl.
           ++ apply WF_grow; [done|congruence].
           ++ by destruct G1.
           ++ done.
           ++ intros O _. split; [done|]. right. apply Z.ltb_lt in El.
              destruct (live_list (s_heap s1)) as (l&N&L&Hlen). exists (s_count s), l.
              split; [unfold cells; simpl; lia|]. split; [done|]. split.
              { intros a Hin. apply (settled_held c opsem strict g s1); try done; [by apply HS|by apply L]. }
              rewrite Hlen, <- (wf_count _ _ _ _ _ W1). lia.
        -- intros Hst. destruct (wf_strict _ _ _ _ _ W1 Hst) as [? _]. simpl.
           pose proof (avail_nonneg g s1 W1). lia.
      * apply wp_ret. split; [constructor; [done..|apply grown_same; [unfold cells; lia|done]]|]. intros Hst.
        destruct (wf_strict _ _ _ _ _ W Hst) as [_ Hthr]. apply Z.ltb_ge in El.
        pose proof (po_main _ _ (wf_pool _ _ _ _ _ W)) as Hpm.
        rewrite <- (wf_count _ _ _ _ _ W), E in Hpm.
        specialize (Hthr (s_count s) ltac:(lia)). lia.
    + apply Z.eqb_neq in E. apply wp_ret. split; [by apply gstep_refl|lia].
Qed.

(** ** Table and cache growth *)

Lemma cache_insert_fields ac op res l r :
  a_cap (cache_insert c ac op res l r) = a_cap ac /\
  length (a_ents (cache_insert c ac op res l r)) = length (a_ents ac) /\
  forall k e, a_ents (cache_insert c ac op res l r) !! k = Some (Some e) ->
    a_ents ac !! k = Some (Some e) \/ e = Ent op l r res.
Proof.
  unfold cache_insert; simpl. split_and!; [done|by rewrite insert_length|].
  intros k e He. destruct (decide (k = slot_of c ac op l r)) as [->|Hne].
  - destruct (decide (slot_of c ac op l r < length (a_ents ac))).
    + rewrite list_lookup_insert in He by done. simplify_eq. by right.
    + rewrite list_insert_ge in He by lia. by left.
  - rewrite list_lookup_insert_ne in He by done. by left.
Qed.

Lemma cache_rehash_spec ac newcap :
  a_cap (cache_rehash c ac newcap) = newcap /\
  length (a_ents (cache_rehash c ac newcap)) = N.to_nat newcap /\
  forall k e, a_ents (cache_rehash c ac newcap) !! k = Some (Some e) ->
    exists j, a_ents ac !! j = Some (Some e).
Proof.
  unfold cache_rehash.
  set (f := fun ac (o : option ent) => _).
  assert (G : forall L ac0,
    a_cap (fold_left f L ac0) = a_cap ac0 /\
    length (a_ents (fold_left f L ac0)) = length (a_ents ac0) /\
    forall k e, a_ents (fold_left f L ac0) !! k = Some (Some e) ->
      a_ents ac0 !! k = Some (Some e) \/ Some e ∈ L).
  { induction L as [|o L IH]; intros ac0; simpl; [split_and!; auto|].
    destruct (IH (f ac0 o)) as (H1&H2&H3).
    assert (Hf : a_cap (f ac0 o) = a_cap ac0 /\ length (a_ents (f ac0 o)) = length (a_ents ac0) /\
      forall k e, a_ents (f ac0 o) !! k = Some (Some e) -> a_ents ac0 !! k = Some (Some e) \/ o = Some e).
    { unfold f. destruct o as [e|]; [|split_and!; auto].
      destruct (cache_insert_fields ac0 (e_op e) (e_res e) (e_l e) (e_r e)) as (?&?&F).
      split_and!; try done. intros k e' He. destruct (F k e' He) as [?| ->]; [auto|].
      right. by destruct e. }
    destruct Hf as (F1&F2&F3). split_and!; [congruence|congruence|].
    intros k e He. destruct (H3 k e He) as [H|H]; [|right; set_solver].
    destruct (F3 k e H) as [?| ->]; [auto|right; set_solver]. }
  destruct (G (a_ents ac) (ACache 0 newcap (replicate (N.to_nat newcap) None))) as (H1&H2&H3).
  split_and!.
  - by rewrite H1.
  - rewrite H2. apply replicate_length.
  - intros k e He. destruct (H3 k e He) as [H|H].
    + simpl in H. apply lookup_replicate in H as [? _]. done.
    + by apply elem_of_list_lookup_1.
Qed.

Lemma cache_grow_ok g h ac aprox : cache_ok c opsem g h ac -> cache_ok c opsem g h (cache_grow c ac aprox).
Proof.
  intros H. unfold cache_grow. destruct (_ <? _)%Z eqn:E; [|done].
  pose proof (get_gte_pos aprox).
  destruct (cache_rehash_spec ac (Z.to_N (get_gte_capacity aprox))) as (H1&H2&H3).
  destruct H as (?&?&Hm). split_and!; [rewrite H1; lia|congruence|].
  destruct (g_cm g); [done| |].
  - intros k e He. destruct (H3 k e He) as [j Hj]. by eapply Hm.
  - intros k e He. destruct (H3 k e He) as [j Hj]. by eapply Hm.
Qed.

Lemma WF_adjust_tabs g s :
  WF g s -> WF g (set_tabs (map (tab_adjust c (s_heap s)) (s_tabs s)) s).
Proof.
  intros W. destruct W. constructor; simpl; try done.
  - by rewrite map_length.
  - intros i t Ht. rewrite list_lookup_fmap in Ht. destruct (s_tabs s !! i) as [t0|] eqn:E; simplify_eq/=.
    specialize (wf_tab i t0 E). apply tab_ok_tabP in wf_tab as [T1 T2]. apply tab_ok_tabP.
    destruct (tab_adjust_ok c (s_heap s) _ t0 T1) as (H1&H2&H3). split; [done|]. rewrite H2, H3. done.
Qed.

Lemma adjust_if_needed_spec ok g s :
  WF g s ->
  wp ok (adjust_if_needed c) (fun _ s' =>
    gstep g s s' /\ s_heap s' = s_heap s /\ s_pool s' = s_pool s) s.
Proof.
  intros W. unfold adjust_if_needed. apply wp_bind, wp_gets, wp_bind, wp_gets.
  destruct (_ <=? _)%Z.
  2:{ apply wp_ret. split; [by apply gstep_refl|done]. }
  apply wp_bind. unfold adjust_tables. apply wp_modify. apply wp_bind. unfold adjust_caches.
  apply wp_modify. apply wp_modify. split; [|done].
  constructor; [|constructor; try done|by repeat split|by apply grown_same].
  pose proof (WF_adjust_tabs g s W) as W1.
  pose proof (cache_grow_ok g (s_heap s) (s_cache s) (s_cratio s (s_count s)) (wf_cache _ _ _ _ _ W)) as HC.
  destruct W1. constructor; try done.
Qed.

(** ** Pool creation *)

Lemma pool_create_spec h p a p' b :
  pool_ok h p -> pool_create p = Some (a, p') ->
  live h a = None /\
  p_main p' = p_main p /\ p_extra p' = p_extra p /\ (p_avail p' + 1 = p_avail p)%Z /\
  nlive (<[a := Node b false true 0]> h) = S (nlive h) /\
  pool_ok (<[a := Node b false true 0]> h) p'.
Proof.
  intros [] H. unfold pool_create in H. destruct (p_avail p <=? 0)%Z; [done|].
  destruct (p_free p) as [|x fr] eqn:Efr.
  - destruct (p_left p) as [|q] eqn:El; [done|]. simplify_eq.
    assert (Hnone : h !! p_next p = None).
    { destruct (h !! p_next p) eqn:E; [|done]. apply po_next in E. lia. }
    assert (Hn : nlive (<[p_next p := Node b false true 0]> h) = S (nlive h)).
    { unfold nlive. by rewrite hsum_insert_new. }
    split_and!; try done.
    + unfold live. by rewrite Hnone.
    + simpl. lia.
    + constructor; simpl; try done.
      * rewrite po_avail. simpl. lia.
      * set_solver.
      * intros d n Hd U. destruct (decide (d = p_next p)) as [->|Hne].
        -- rewrite lookup_insert in Hd. by simplify_eq.
        -- rewrite lookup_insert_ne in Hd by done. by eapply po_used.
      * intros d n Hd. destruct (decide (d = p_next p)) as [->|Hne]; [lia|].
        rewrite lookup_insert_ne in Hd by done. apply po_next in Hd. lia.
      * lia.
  - simplify_eq. destruct (po_free a) as (m&Hm&Um); [set_solver|].
    assert (Hn : nlive (<[a := Node b false true 0]> h) = S (nlive h)).
    { unfold nlive. pose proof (hsum_update (fun _ n => if n_used n then 1 else 0) h a m (Node b false true 0) Hm) as E.
      cbn beta in E. rewrite Um in E. simpl in *. lia. }
    inversion po_nodup as [|? ? Hna Hnd]; subst.
    split_and!; try done.
    + unfold live. by rewrite Hm, Um.
    + simpl. lia.
    + constructor; simpl; try done.
      * rewrite po_avail. simpl. lia.
      * intros d Hd. rewrite lookup_insert_ne by (by intros ->). apply po_free. set_solver.
      * intros d n Hd U. destruct (decide (d = a)) as [->|Hne].
        -- rewrite lookup_insert in Hd. by simplify_eq.
        -- rewrite lookup_insert_ne in Hd by done. pose proof (po_used d n Hd U). set_solver.
      * intros d n Hd. destruct (decide (d = a)) as [->|Hne]; [by eapply po_next|].
        rewrite lookup_insert_ne in Hd by done. by eapply po_next.
      * lia.
Qed.

Lemma create_node_spec g b (Q : positive -> st -> Prop) s :
  WF g s -> (strict = true -> (0 < p_avail (s_pool s))%Z) ->
  (forall a p', live (s_heap s) a = None ->
     p_main p' = p_main (s_pool s) -> p_extra p' = p_extra (s_pool s) -> (p_avail p' + 1 = p_avail (s_pool s))%Z ->
     nlive (<[a := Node b false true 0]> (s_heap s)) = S (nlive (s_heap s)) ->
     pool_ok (<[a := Node b false true 0]> (s_heap s)) p' ->
     Q a (set_pool p' (set_heap (<[a := Node b false true 0]> (s_heap s)) (set_count (s_count s + 1) s)))) ->
  wp allowed (create_node b) Q s.
Proof.
  intros W Hst HQ. unfold wp, create_node.
  destruct (pool_create (s_pool s)) as [[a p']|] eqn:E.
  - destruct (pool_create_spec _ _ _ _ b (wf_pool _ _ _ _ _ W) E) as (?&?&?&?&?&?). by apply HQ.
  - right. split; [|done]. destruct strict; [|done]. specialize (Hst eq_refl).
    pose proof (po_avail _ _ (wf_pool _ _ _ _ _ W)) as Hav.
    unfold pool_create in E. destruct (p_avail (s_pool s) <=? 0)%Z eqn:El; [apply Z.leb_le in El; lia|].
    destruct (p_free (s_pool s)); [|done]. destruct (p_left (s_pool s)); [|done]. simpl in Hav. lia.
Qed.

(** ** The heap with one more node *)

Section new.
Context (g : ghost) (s : st) (a : positive) (b : body) (h2 : gmap positive node).
Let h1 := <[a := Node b false true 0]> (s_heap s).
Context (W : WF g s) (Hdy : g_dy g = []) (Ha : live (s_heap s) a = None)
        (Hrr : rrel h1 h2)
        (Hcnt : forall d n n', h1 !! d = Some n -> h2 !! d = Some n' ->
           N.to_nat (n_refs n') = N.to_nat (n_refs n) + count_occ Pos.eq_dec (sons_in b) d)
        (Hsons : forall d, d ∈ sons_in b -> live (s_heap s) d <> None).

Lemma new_live d : live h2 d = if decide (d = a) then Some b else live (s_heap s) d.
Proof. rewrite (hrel_live h1) by (by apply rrel_hrel). unfold h1. by rewrite live_insert. Qed.

Lemma new_live_old d x : live (s_heap s) d = Some x -> live h2 d = Some x.
Proof. intros H. rewrite new_live, decide_False; [done|]. intros ->. congruence. Qed.

Lemma new_nfl : a ∉ g_fl g.
Proof. intros H. destruct (wf_fl _ _ _ _ _ W a H) as (?&?&?). congruence. Qed.

Lemma new_rank d : d <> a -> rank g h2 d = rank g (s_heap s) d.
Proof. intros Hd. apply rank_ext. by rewrite new_live, decide_False. Qed.

Lemma new_rank_a : rank g h2 a = match b with Int i _ => g_lv g i | Term _ => nvars c end.
Proof. unfold Inv.rank. rewrite decide_False by apply new_nfl. rewrite new_live, decide_True; done. Qed.

Lemma new_edges d : edges [] h2 d = edges [] (s_heap s) d + count_occ Pos.eq_dec (sons_in b) d.
Proof.
  rewrite (hrel_edges _ h1) by (by apply rrel_hrel). unfold edges, h1.
  assert (E : cnt d (Node b false true 0) = count_occ Pos.eq_dec (sons_in b) d).
  { unfold cnt, sons_in. simpl. by destruct b. }
  set (f := fun (b0 : positive) (n : node) => if n_used n && negb (bool_decide (b0 ∈ [])) then cnt d n else 0).
  assert (Ef : f a (Node b false true 0) = count_occ Pos.eq_dec (sons_in b) d) by exact E.
  destruct (s_heap s !! a) as [m|] eqn:Em.
  - pose proof (hsum_update f (s_heap s) a m (Node b false true 0) Em) as H.
    assert (f a m = 0).
    { unfold f. unfold live in Ha. rewrite Em in Ha. by destruct (n_used m). }
    lia.
  - rewrite hsum_insert_new by done. lia.
Qed.

Lemma new_marked d : marked h2 d <-> marked (s_heap s) d.
Proof.
  rewrite (rrel_marked _ _ d Hrr). unfold h1. destruct (decide (d = a)) as [->|Hne].
  - unfold marked. rewrite lookup_insert. split.
    + intros (n&?&?&?). simplify_eq/=.
    + intros (n&Hn&U&_). unfold live in Ha. rewrite Hn, U in Ha. done.
  - by rewrite marked_insert_ne.
Qed.

Lemma new_keeps : keeps g (s_heap s) h2.
Proof.
  apply keeps_intro.
  - intros d Hd. apply (held_live _ _ _ _ _ _ W) in Hd as [Hd _].
    destruct (live (s_heap s) d) eqn:E; [|done]. by apply new_live_old.
  - intros r (Hl&Hd&Hr). apply root_held. split; [|split; [done|]].
    + destruct (live (s_heap s) r) eqn:E; [|done]. by rewrite (new_live_old _ _ E).
    + rewrite new_marked. done.
Qed.

Lemma new_Ev_inv d rho v : live (s_heap s) d <> None -> Ev (live h2) d rho v -> Ev (live (s_heap s)) d rho v.
Proof.
  intros Hd H. revert Hd. induction H as [d rho v H|d rho i sons e v H He _ IH]; intros Hd.
  - destruct (live (s_heap s) d) eqn:E; [|done]. rewrite (new_live_old _ _ E) in H. simplify_eq.
    by apply Ev_term.
  - destruct (live (s_heap s) d) eqn:E; [|done]. rewrite (new_live_old _ _ E) in H. simplify_eq.
    eapply Ev_int; [done|done|]. apply IH.
    destruct (wf_son _ _ _ _ _ _ _ _ e W E) as (?&_); [rewrite Hdy; set_solver| |done].
    by eapply elem_of_list_lookup_2.
Qed.

Lemma new_Ev d rho v : Ev (live (s_heap s)) d rho v -> Ev (live h2) d rho v.
Proof. induction 1; [eapply Ev_term|eapply Ev_int]; eauto using new_live_old. Qed.

Lemma WF_new p' tabs' terms' specs' :
  p_main p' = p_main (s_pool s) -> p_extra p' = p_extra (s_pool s) ->
  nlive h1 = S (nlive (s_heap s)) -> pool_ok h1 p' ->
  node_ok c g h2 a b ->
  length tabs' = nvars c ->
  (forall i t, tabs' !! i = Some t -> tab_ok c g h2 i t) ->
  (forall k d, terms' !! k = Some (Some d) <->
     s_terms s !! k = Some (Some d) \/ (d = a /\ b = Term (Z.of_nat k) /\ Z.of_nat k <> Undef)) ->
  (forall k d, specs' !! k = Some (Some d) <->
     s_specs s !! k = Some (Some d) \/ (d = a /\ b = Term Undef /\ k = 0)) ->
  (g_cn g = true -> forall i sons, b = Int i sons ->
     adj_eq sons = false /\ forall d, live (s_heap s) d <> Some (Int i sons)) ->
  WF g (set_pool p' (set_heap h2 (set_count (s_count s + 1)
     (set_tabs tabs' (set_terms terms' (set_specs specs' s)))))).
Proof.
  intros Hpm Hpx Hnl Hpool Hok Hlt Htab Htm Hsp Hcan.
  assert (Hh : hrel h1 h2) by (by apply rrel_hrel).
  assert (Has : a ∉ sons_in b) by (intros H; by apply Hsons in H).
  assert (Hcase : forall d x, live h2 d = Some x -> (d = a /\ x = b) \/ (d <> a /\ live (s_heap s) d = Some x)).
  { intros d x. rewrite new_live. destruct (decide (d = a)); naive_solver. }
  constructor; simpl.
  - intros d x Hx. destruct (Hcase d x Hx) as [[-> ->]|[Hne Hx']]; [done|].
    pose proof (wf_node _ _ _ _ _ W d x Hx') as Hn. destruct x as [v|i sons]; [done|]. simpl.
    rewrite new_rank by done. destruct Hn as (?&?&?&Hs). split_and!; try done.
    intros Hd e He. destruct (Hs Hd e He) as [Hle ?].
    assert (e <> a) by (intros ->; done). rewrite new_rank by done. split; [|done].
    by rewrite new_live, decide_False.
  - intros d Hd. destruct (wf_fl _ _ _ _ _ W d Hd) as (i&sons&?). exists i, sons. by apply new_live_old.
  - apply (wf_lv _ _ _ _ _ W).
  - done.
  - done.
  - intros k d Hk. apply Htm in Hk as [Hk|(->&Eb&?)].
    + destruct (wf_term1 _ _ _ _ _ W k d Hk). split; [by apply new_live_old|done].
    + by rewrite new_live, decide_True, Eb.
  - intros d v Hd Hv. apply Htm. destruct (Hcase _ _ Hd) as [[-> Eb]|[Hne Hd']].
    + right. rewrite <- Eb in Hok. destruct Hok as [[[? ?]|[? ?]] _]; [|done]. rewrite <- Eb. rewrite Z2Nat.id by lia. done.
    + left. by eapply wf_term2.
  - intros k d Hk. apply Hsp in Hk as [Hk|(->&Eb&->)].
    + destruct (wf_spec1 _ _ _ _ _ W k d Hk). split; [done|by apply new_live_old].
    + by rewrite new_live, decide_True, Eb.
  - intros d Hd. apply Hsp. destruct (Hcase _ _ Hd) as [[-> Eb]|[Hne Hd']]; [by right|].
    left. by eapply wf_spec2.
  - intros d n' Hd U _. rewrite Hdy, new_edges.
    destruct (hrel_lookup _ _ _ _ Hh Hd) as (n&Hn&_&Un).
    rewrite (Hcnt d n n' Hn Hd). unfold h1 in Hn. destruct (decide (d = a)) as [->|Hne].
    + rewrite lookup_insert in Hn. simplify_eq/=.
      assert (g_ext g a = 0).
      { destruct (decide (g_ext g a = 0)); [done|]. destruct (wf_ext _ _ _ _ _ W a); [lia|done]. }
      assert (edges [] (s_heap s) a = 0); [|lia].
      destruct (decide (edges [] (s_heap s) a = 0)); [done|].
      assert (0 < edges [] (s_heap s) a) as Hp by lia. apply edges_pos in Hp as (p&i&sons&Hp&_&Hin).
      destruct (wf_son _ _ _ _ _ _ _ _ a W Hp) as (?&_); [rewrite Hdy; set_solver|done|done].
    + rewrite lookup_insert_ne in Hn by done.
      rewrite (wf_refs _ _ _ _ _ W d n Hn); [rewrite Hdy; lia|congruence|rewrite Hdy; set_solver].
  - intros d Hd. destruct (wf_ext _ _ _ _ _ W d Hd) as [Hl ?]. split; [|done].
    destruct (live (s_heap s) d) eqn:E; [|done]. by rewrite (new_live_old _ _ E).
  - rewrite Hdy. set_solver.
  - eapply pool_ok_rel; [exact Hh|done].
  - intros Hst. destruct (wf_strict _ _ _ _ _ W Hst) as [? ?]. split; simpl; [lia|].
    rewrite Hpm. done.
  - rewrite (hrel_nlive _ _ Hh), Hnl, (wf_count _ _ _ _ _ W). lia.
  - destruct (wf_cache _ _ _ _ _ W) as (?&?&Hm). split_and!; try done. destruct (g_cm g); try done.
    intros k e He. destruct (Hm k e He) as (L1&L2&L3&Hrk&Hev).
    assert (Hl' : forall d, live (s_heap s) d <> None -> live h2 d <> None).
    { intros d Hd. destruct (live (s_heap s) d) eqn:E; [|done]. by rewrite (new_live_old _ _ E). }
    assert (Hne : forall d, live (s_heap s) d <> None -> d <> a) by (by intros d Hd ->).
    split_and!; auto.
    + rewrite !new_rank by auto. done.
    + intros f Hf rho x y Hv Hx Hy. apply new_Ev. eapply Hev; eauto using new_Ev_inv.
  - intros Hcn. destruct (wf_canon _ _ _ _ _ W Hcn) as [C1 C2]. split.
    + intros d d' i sons Hd Hd'.
      destruct (Hcase _ _ Hd) as [[-> E]|[Hne Hd0]], (Hcase _ _ Hd') as [[-> E']|[Hne' Hd0']]; try done.
      * exfalso. destruct (Hcan Hcn i sons) as [_ Hno]; [done|]. by apply (Hno d').
      * exfalso. destruct (Hcan Hcn i sons) as [_ Hno]; [done|]. by apply (Hno d).
      * eauto.
    + intros d i sons Hd. destruct (Hcase _ _ Hd) as [[-> E]|[Hne Hd0]].
      * by destruct (Hcan Hcn i sons) as [? _].
      * eauto.
Qed.

Lemma new_tabs (tabs' : list utab) :
  (forall i t, tabs' !! i = Some t ->
     match b with
     | Int j sons =>
         if decide (i = j)
         then exists t0, s_tabs s !! i = Some t0 /\ t = tab_insert t0 a (node_hash c sons)
         else s_tabs s !! i = Some t
     | Term _ => s_tabs s !! i = Some t
     end) ->
  forall i t, tabs' !! i = Some t -> tab_ok c g h2 i t.
Proof.
  intros H i t Ht. specialize (H i t Ht).
  assert (Hkey : forall P t0, tabP (keyh c (s_heap s)) P t0 ->
     (forall d, P d -> exists j sons, live (s_heap s) d = Some (Int j sons)) -> tabP (keyh c h2) P t0).
  { intros P t0 HP Hin. eapply tabP_ext; [done| |exact HP]. intros d Hd.
    destruct (Hin d Hd) as (j&sons&Hl). unfold keyh.
    rewrite (live_sons_of _ _ _ _ Hl), (live_sons_of _ _ _ _ (new_live_old _ _ Hl)). done. }
  assert (Hold : forall t0, s_tabs s !! i = Some t0 ->
     tabP (keyh c h2) (inTab g (s_heap s) i) t0 /\ t_size t0 = Z.of_nat (tlen t0)).
  { intros t0 Ht0. pose proof (wf_tab _ _ _ _ _ W i t0 Ht0) as T. apply tab_ok_tabP in T as [T1 T2].
    split; [|done]. apply Hkey; [done|]. intros d [_ (sons&?)]. eauto. }
  apply tab_ok_tabP.
  assert (Hout : (forall sons, b <> Int i sons) -> s_tabs s !! i = Some t ->
     tabP (keyh c h2) (inTab g h2 i) t ∧ t_size t = Z.of_nat (tlen t)).
  { intros Hb Ht0. destruct (Hold t Ht0) as [T1 T2]. split; [|done].
    eapply tabP_ext; [|done|exact T1]. intros d. unfold inTab. rewrite new_live.
    destruct (decide (d = a)) as [->|]; [|done]. rewrite Ha. split; intros (_&?&?); [done|].
    simplify_eq. by exfalso; eapply Hb. }
  assert (Hb : (exists v, b = Term v) \/ exists j sons, b = Int j sons) by (clear; destruct b; eauto).
  destruct Hb as [(v&Eb)|(j&sons&Eb)]; rewrite Eb in H; [apply Hout; [congruence|done]|].
  destruct (decide (i = j)) as [->|Hne]; [|apply Hout; [congruence|done]].
  destruct H as (t0&Ht0&->). destruct (Hold t0 Ht0) as [T1 T2].
  assert (Ek : node_hash c sons = keyh c h2 a).
  { unfold keyh. rewrite (live_sons_of h2 a j sons); [done|]. by rewrite new_live, decide_True, Eb. }
  assert (Hnew : ~ inTab g (s_heap s) j a) by (intros [_ (?&?)]; congruence).
  unfold tab_insert. rewrite Ek. split.
  - pose proof (tabP_insert _ _ _ a T1 Hnew) as T3.
    eapply tabP_ext; [|done|exact T3]. intros d. unfold inTab. rewrite new_live.
    destruct (decide (d = a)) as [->|Hd].
    + split; [|by right]. intros _. split; [apply new_nfl|]. rewrite Eb. eauto.
    + naive_solver.
  - pose proof (tlen_insert _ _ _ a T1) as Hl. unfold tlen in *. simpl in *. lia.
Qed.

End new.

(** ** make_new_node *)

Lemma make_new_node_spec g b (Q : positive -> st -> Prop) s :
  WF g s -> g_dy g = [] -> perm_ok c s ->
  (forall s1 a p', gstep g s s1 -> live (s_heap s1) a = None ->
     p_main p' = p_main (s_pool s1) -> p_extra p' = p_extra (s_pool s1) -> (p_avail p' + 1 = p_avail (s_pool s1))%Z ->
     nlive (<[a := Node b false true 0]> (s_heap s1)) = S (nlive (s_heap s1)) ->
     pool_ok (<[a := Node b false true 0]> (s_heap s1)) p' ->
     Q a (set_pool p' (set_heap (<[a := Node b false true 0]> (s_heap s1)) (set_count (s_count s1 + 1) s1)))) ->
  wp allowed (make_new_node c b) Q s.
Proof.
  intros W Hdy P HQ. unfold make_new_node. apply wp_bind.
  eapply wp_mono; [by apply ensure_available_spec|]. intros _ s1 [G1 Hav]. apply wp_bind.
  eapply wp_mono; [apply adjust_if_needed_spec, G1|]. intros _ s2 (G2&Eh&Ep).
  apply (create_node_spec g); [apply G2|by rewrite Ep|].
  intros a p' ? ? ? ? ? ?. apply HQ; try done. by eapply gstep_trans.
Qed.

(** result of a node construction *)
Record mstep (g : ghost) (s s' : st) (r : positive) (b : body) : Prop := {
  ms_step : sstep g s s';
  ms_live : live (s_heap s') r = Some b;
  ms_nfl : r ∉ g_fl g;
  ms_root : root g (s_heap s') r;
  ms_marks : forall d, marked (s_heap s') d <-> (marked (s_heap s) d /\ d ∉ sons_in b) \/ d = r;
  ms_new : forall d x, live (s_heap s') d = Some x -> live (s_heap s) d = Some x \/ d = r
}.

(** unmark the sons, mark the node *)
Lemma finish_spec ok g a i sons s0 s :
  WF g s -> g_dy g = [] -> live (s_heap s) a = Some (Int i sons) -> a ∉ g_fl g ->
  sstep g s0 s -> (forall d, marked (s_heap s) d <-> marked (s_heap s0) d) ->
  (forall d x, live (s_heap s) d = Some x -> live (s_heap s0) d = Some x \/ d = a) ->
  wp ok (let* _ := mapM_ (set_mark false) sons in let* _ := set_mark true a in ret a)
     (fun r s' => mstep g s0 s' r (Int i sons)) s.
Proof.
  intros W Hdy Hl Hfl S0 HM0 HN0. apply wp_bind. apply wp_unmark_all.
  { intros d Hd. by destruct (wf_son _ _ _ _ _ _ _ _ d W Hl) as (?&_); [rewrite Hdy; set_solver|..]. }
  intros h1 Hm1 HM1. apply wp_bind.
  assert (W1 : WF g (set_heap h1 s)).
  { apply WF_mrel; try done. rewrite Hdy. set_solver. }
  assert (HL1 : forall d, live h1 d = live (s_heap s) d) by (intros; by apply hrel_live, mrel_hrel).
  apply (wp_mark c opsem strict g); simpl; [done|by rewrite HL1, Hl|by rewrite Hdy; set_solver|].
  intros h2 S2 Hm2 Hroot HM2. apply wp_ret.
  assert (HL2 : forall d, live h2 d = live (s_heap s) d).
  { intros d. rewrite <- HL1. by apply hrel_live, mrel_hrel. }
  constructor; simpl.
  - eapply sstep_trans; [exact S0|]. constructor; [apply S2| |by repeat split|by apply grown_same].
    apply hrel_keeps; [apply mrel_hrel; by eapply mrel_trans|].
    intros r (Hr&Hrd&Hrr).
    assert (Hroots : marked h2 r \/ 0 < g_ext g r \/ r ∈ g_fl g -> held g h2 r).
    { intros. apply root_held. split_and!; [by rewrite HL2|done|done]. }
    destruct (decide (r ∈ sons)) as [Hin|Hnin].
    + eapply held_son; [apply root_held; exact Hroot|by rewrite HL2|done].
    + apply Hroots. rewrite HM2, HM1. tauto.
  - by rewrite HL2.
  - done.
  - done.
  - intros d. rewrite HM2. simpl. rewrite HM1, HM0. tauto.
  - intros d x. rewrite HL2. apply HN0.
Qed.

Lemma make_internal_spec g i sons s :
  WF g s -> g_dy g = [] -> perm_ok c s -> (g_cn g = true -> g_fl g = []) ->
  i < nvars c -> length sons = dom c i ->
  (forall d, d ∈ sons -> held g (s_heap s) d /\ g_lv g i < rank g (s_heap s) d) ->
  adj_eq sons = false ->
  wp allowed (make_internal_node c i sons) (fun r s' => mstep g s s' r (Int i sons)) s.
Proof.
  intros W Hdy P Hcn Hi Hlen Hsons Hadj. unfold make_internal_node. rewrite Hadj.
  destruct (lookup_lt_is_Some_2 (s_tabs s) i) as [t Ht]; [by rewrite (wf_ntabs _ _ _ _ _ W)|].
  apply wp_bind. unfold wp at 1. rewrite Ht.
  pose proof (wf_tab _ _ _ _ _ W i t Ht) as T.
  destruct (tab_find c (s_heap s) t sons) as [a|] eqn:F.
  - destruct (tab_find_Some _ _ _ _ _ _ _ T F) as [Hl Hfl].
    apply finish_spec; auto; try done; by apply sstep_refl.
  - apply wp_bind. apply (make_new_node_spec g); try done.
    intros s1 a p' G Ha Hpm Hpx Hpa Hnl Hpool.
    assert (Hlive1 : forall d, d ∈ sons -> live (s_heap s1) d = live (s_heap s) d /\
       live (s_heap s1) d <> None /\ rank g (s_heap s1) d = rank g (s_heap s) d).
    { intros d Hd. destruct (Hsons d Hd) as [Hh Hr]. destruct (g2_keeps _ _ _ (gs_rel _ _ _ G) d Hh) as [Hh' E].
      split_and!; [done| |by apply rank_ext].
      rewrite E. by apply (held_live c opsem strict g s). }
    apply wp_bind. apply wp_modify. apply wp_bind.
    set (h1 := <[a := Node (Int i sons) false true 0]> (s_heap s1)).
    assert (HL1 : forall d, d <> a -> live h1 d = live (s_heap s1) d).
    { intros d Hd. unfold h1. by rewrite live_insert, decide_False. }
    apply (wp_inc_refs allowed sons); simpl; [by left| |].
    { intros d Hd. destruct (Hlive1 d Hd) as (_&Hl&_). fold h1. rewrite HL1; [done|]. by intros ->. }
    fold h1. intros h2 Hrr Hcnt.
    set (tabs' := alter (fun t => tab_insert t a (node_hash c sons)) i (s_tabs s1)).
    assert (W1 : WF g s1) by apply G.
    assert (Hson1 : forall d, d ∈ sons_in (Int i sons) -> live (s_heap s1) d <> None).
    { intros d Hd. by apply Hlive1. }
    assert (Hnr : forall d, d <> a -> rank g h2 d = rank g (s_heap s1) d).
    { intros d Hd. by eapply (new_rank g s1 a (Int i sons) h2). }
    assert (Hra : rank g h2 a = g_lv g i).
    { by rewrite (new_rank_a g s1 a (Int i sons) h2). }
    assert (HL2 : forall d, live h2 d = if decide (d = a) then Some (Int i sons) else live (s_heap s1) d).
    { intros d. by eapply (new_live s1 a (Int i sons) h2). }
    assert (Hok : node_ok c g h2 a (Int i sons)).
    { simpl. split_and!; try done.
      - rewrite Hra. by apply (wf_lv _ _ _ _ _ W).
      - intros _ d Hd. destruct (Hlive1 d Hd) as (_&Hl&Hr). destruct (Hsons d Hd) as [_ Hlt].
        assert (d <> a) by (by intros ->).
        rewrite HL2, decide_False by done. split; [done|]. rewrite Hra, Hnr by done. lia. }
    assert (Hlt' : length tabs' = nvars c).
    { unfold tabs'. rewrite alter_length. apply (wf_ntabs _ _ _ _ _ W1). }
    assert (Htabs : forall j t', tabs' !! j = Some t' -> tab_ok c g h2 j t').
    { eapply new_tabs; eauto.
      intros j t' Hj. simpl. unfold tabs' in Hj. destruct (decide (j = i)) as [->|Hne].
      - rewrite list_lookup_alter in Hj. destruct (s_tabs s1 !! i) as [t0|] eqn:E0; simplify_eq/=. eauto.
      - by rewrite list_lookup_alter_ne in Hj. }
    assert (Hcan : g_cn g = true -> forall j ss, Int i sons = Int j ss ->
       adj_eq ss = false /\ forall d, live (s_heap s1) d <> Some (Int j ss)).
    { intros Hc j ss [= <- <-]. split; [done|]. intros d Hd.
      apply (g2_sub _ _ _ (gs_rel _ _ _ G)) in Hd.
      eapply (tab_find_None c g); [exact T|exact F| |exact Hd]. rewrite Hcn by done. set_solver. }
    assert (W2 : WF g (set_pool p' (set_heap h2 (set_count (s_count s1 + 1)
     (set_tabs tabs' (set_terms (s_terms s1) (set_specs (s_specs s1) s1))))))).
    { eapply WF_new; eauto; intros; naive_solver. }
    match type of W2 with WF g ?st2 => set (s2 := st2) in * end.
    assert (K2 : keeps g (s_heap s1) h2) by (eapply new_keeps; eauto).
    apply (finish_spec allowed g a i sons s s2 W2 Hdy).
    + simpl. by rewrite HL2, decide_True.
    + by eapply (new_nfl g s1 a).
    + constructor; [done| | |].
      * eapply keeps_trans; [apply (g2_keeps _ _ _ (gs_rel _ _ _ G))|exact K2].
      * pose proof (gs_same _ _ _ G) as S. exact S.
      * eapply grown_trans; [apply (gs_grown _ _ _ G)|apply grown_same|apply G|exact K2]; unfold cells; simpl; [lia|done].
    + intros d. simpl. rewrite (new_marked s1 a (Int i sons) h2) by done. apply (g2_marked _ _ _ (gs_rel _ _ _ G)).
    + intros d x. simpl. rewrite HL2. destruct (decide (d = a)) as [->|]; [by right|].
      intros Hx. left. by apply (g2_sub _ _ _ (gs_rel _ _ _ G)).
Qed.

(** ** make_internal_node with the redundancy test *)

Lemma adj_eq_all l x : adj_eq l = true -> x ∈ l -> l !! 0 = Some x.
Proof.
  induction l as [|a [|b l] IH]; intros H Hx; [set_solver|set_solver|].
  simpl in H. apply andb_true_iff in H as [Hab H]. apply bool_decide_eq_true in Hab as ->.
  apply elem_of_cons in Hx as [->|Hx]; [done|]. apply (IH H Hx).
Qed.

(** [r] stands for the node [Int i sons] *)
Definition repr (h : gmap positive node) (i : nat) (sons : list positive) (r : positive) : Prop :=
  (adj_eq sons = false /\ live h r = Some (Int i sons)) \/
  (adj_eq sons = true /\ forall d, d ∈ sons -> d = r).

Record istep (g : ghost) (s s' : st) (r : positive) (i : nat) (sons : list positive) : Prop := {
  is_step : sstep g s s';
  is_repr : repr (s_heap s') i sons r;
  is_held : held g (s_heap s') r;
  is_rank : g_lv g i <= rank g (s_heap s') r;
  is_marks : forall d, marked (s_heap s') d -> (marked (s_heap s) d /\ d ∉ sons) \/ d = r;
  is_new : forall d x, live (s_heap s') d = Some x -> live (s_heap s) d = Some x \/ d = r
}.

Lemma make_internal_node_spec g i sons s :
  WF g s -> g_dy g = [] -> perm_ok c s -> (g_cn g = true -> g_fl g = []) ->
  i < nvars c -> length sons = dom c i -> 0 < dom c i ->
  (forall d, d ∈ sons -> held g (s_heap s) d /\ g_lv g i < rank g (s_heap s) d) ->
  wp allowed (make_internal_node c i sons) (fun r s' => istep g s s' r i sons) s.
Proof.
  intros W Hdy P Hcn Hi Hlen Hd Hsons. destruct (adj_eq sons) eqn:Hadj.
  - unfold make_internal_node. rewrite Hadj. destruct sons as [|r sons]; [simpl in *; lia|].
    simpl. apply wp_ret. destruct (Hsons r) as [Hh Hr]; [set_solver|]. constructor; simpl.
    + by apply sstep_refl.
    + right. split; [done|]. intros d Hin. pose proof (adj_eq_all _ _ Hadj Hin). simpl in *. congruence.
    + done.
    + lia.
    + intros d Hm. destruct (decide (d ∈ r :: sons)) as [Hin|Hn]; [|auto].
      right. pose proof (adj_eq_all _ _ Hadj Hin). simpl in *. congruence.
    + by left.
  - eapply wp_mono; [by apply make_internal_spec|]. intros r s' [S L Hfl R Mk Nw]. constructor; try done.
    + by left.
    + by apply root_held.
    + unfold Inv.rank. rewrite decide_False by done. by rewrite L.
    + intros d. apply Mk.
Qed.

Lemma repr_Ev h i sons r rho v d :
  repr h i sons r -> sons !! rho i = Some d -> Ev (live h) d rho v -> Ev (live h) r rho v.
Proof.
  intros [[_ Hr]|[_ Hr]] Hd Hv; [by eapply Ev_int|].
  rewrite <- (Hr d); [done|]. by eapply elem_of_list_lookup_2.
Qed.

(** ** Terminals *)

Lemma WF_resize_terms g s l :
  (forall k d, l !! k = Some (Some d) <-> s_terms s !! k = Some (Some d)) ->
  WF g s -> WF g (set_terms l s).
Proof.
  intros E W. destruct W. constructor; simpl; try done.
  - intros k a Hk. apply E in Hk. eauto.
  - intros a v Ha Hv. apply E. eauto.
Qed.

Lemma WF_resize_specs g s l :
  (forall k d, l !! k = Some (Some d) <-> s_specs s !! k = Some (Some d)) ->
  WF g s -> WF g (set_specs l s).
Proof.
  intros E W. destruct W. constructor; simpl; try done.
  - intros k a Hk. apply E in Hk. eauto.
  - intros a Ha. apply E. eauto.
Qed.

Lemma mark_term_spec ok g a v s0 s :
  WF g s -> g_dy g = [] -> live (s_heap s) a = Some (Term v) ->
  sstep g s0 s -> (forall d, marked (s_heap s) d <-> marked (s_heap s0) d) ->
  (forall d x, live (s_heap s) d = Some x -> live (s_heap s0) d = Some x \/ d = a) ->
  wp ok (let* _ := set_mark true a in ret a) (fun r s' => mstep g s0 s' r (Term v)) s.
Proof.
  intros W Hdy Hl S0 HM HN. apply wp_bind.
  apply (wp_mark c opsem strict g); [done|by rewrite Hl|by rewrite Hdy; set_solver|].
  intros h1 s1 S1 Hm1 Hroot HM1. apply wp_ret.
  assert (L1 : live h1 a = Some (Term v)) by (rewrite (hrel_live (s_heap s)); [done|by apply mrel_hrel]).
  constructor; try done.
  - by eapply sstep_trans.
  - by destruct (wf_node _ _ _ _ _ W a _ Hl) as [_ ?].
  - intros d. simpl. rewrite HM1, HM. set_solver.
  - intros d x. simpl. rewrite (hrel_live (s_heap s)); [apply HN|by apply mrel_hrel].
Qed.

Lemma new_term_spec g v (sel : bool) k s0 s :
  (sel = true -> v = Z.of_nat k /\ v <> Undef) -> (sel = false -> v = Undef /\ k = 0) ->
  let get := if sel then s_terms else s_specs in
  let set := if sel then set_terms else set_specs in
  WF g s -> g_dy g = [] -> perm_ok c s -> tval c v ->
  sstep g s0 s -> (forall d, marked (s_heap s) d <-> marked (s_heap s0) d) ->
  s_heap s = s_heap s0 ->
  k < length (get s) -> (forall d, get s !! k <> Some (Some d)) ->
  wp allowed (let* a := make_new_node c (Term v) in
      let* _ := modify (fun s => set (<[k := Some a]> (get s)) s) in
      let* _ := set_mark true a in ret a) (fun r s' => mstep g s0 s' r (Term v)) s.
Proof.
  intros Hs1 Hs2 get set W Hdy P Hv S0 HM HH Hk Hno. apply wp_bind. apply (make_new_node_spec g); try done.
  intros s1 a p' G Ha Hpm Hpx Hpa Hnl Hpool.
  apply wp_bind, wp_modify.
  set (h1 := <[a := Node (Term v) false true 0]> (s_heap s1)).
  assert (W1 : WF g s1) by apply G.
  assert (Hrr : rrel h1 h1) by apply rrel_refl.
  assert (Hcnt : forall d n n', h1 !! d = Some n -> h1 !! d = Some n' ->
           N.to_nat (n_refs n') = N.to_nat (n_refs n) + count_occ Pos.eq_dec (sons_in (Term v)) d).
  { intros; simplify_eq. simpl. lia. }
  assert (Hson1 : forall d, d ∈ sons_in (Term v) -> live (s_heap s1) d <> None) by (simpl; set_solver).
  assert (Hnfl : a ∉ g_fl g) by (eapply new_nfl; eauto).
  assert (Htabs : forall j t', s_tabs s1 !! j = Some t' -> tab_ok c g h1 j t').
  { eapply (new_tabs g s1 a (Term v) h1); eauto. }
  assert (Hget1 : forall d, get s1 !! k <> Some (Some d)).
  { intros d Hd. unfold get in *. destruct sel.
    - destruct (Hs1 eq_refl) as [-> Hu].
      apply (wf_term1 _ _ _ _ _ W1) in Hd as [Hd _]. apply (g2_sub _ _ _ (gs_rel _ _ _ G)) in Hd.
      apply (wf_term2 _ _ _ _ _ W) in Hd; [|done]. rewrite Nat2Z.id in Hd. by eapply Hno.
    - destruct (Hs2 eq_refl) as [-> ->].
      apply (wf_spec1 _ _ _ _ _ W1) in Hd as [_ Hd]. apply (g2_sub _ _ _ (gs_rel _ _ _ G)) in Hd.
      apply (wf_spec2 _ _ _ _ _ W) in Hd. by eapply Hno. }
  assert (Hk1 : k < length (get s1)).
  { unfold get in *. destruct sel; [rewrite (g2_terms _ _ _ (gs_rel _ _ _ G))|rewrite (g2_specs _ _ _ (gs_rel _ _ _ G))]; done. }
  assert (Hslot : forall j d, <[k := Some a]> (get s1) !! j = Some (Some d) <->
     get s1 !! j = Some (Some d) \/ (d = a /\ j = k)).
  { intros j d. destruct (decide (j = k)) as [->|Hne].
    - rewrite list_lookup_insert by done. split; [intros; simplify_eq; auto|].
      intros [H|[-> _]]; [by apply Hget1 in H|done].
    - rewrite list_lookup_insert_ne by done. tauto. }
  assert (W2 : WF g (set_pool p' (set_heap h1 (set_count (s_count s1 + 1) (set_tabs (s_tabs s1)
          (set_terms (if sel then <[k:=Some a]> (s_terms s1) else s_terms s1)
            (set_specs (if sel then s_specs s1 else <[k:=Some a]> (s_specs s1)) s1))))))).
  { eapply WF_new; eauto.
    - split; done.
    - apply (wf_ntabs _ _ _ _ _ W1).
    - intros j d. destruct sel.
      + destruct (Hs1 eq_refl) as [-> Hu]. change (s_terms s1) with (get s1). rewrite Hslot.
        split; (intros [?|[-> E]]; [by left|right]).
        * by subst.
        * destruct E as [E _]. injection E as E. split; [done|lia].
      + destruct (Hs2 eq_refl) as [-> ->]. split; [by left|]. intros [?|(_&E&Hu)]; [done|].
        injection E as E. by rewrite <- E in Hu.
    - intros j d. destruct sel.
      + destruct (Hs1 eq_refl) as [-> Hu]. split; [by left|]. intros [?|(_&E&_)]; [done|].
        injection E as E. done.
      + destruct (Hs2 eq_refl) as [-> ->]. change (s_specs s1) with (get s1). rewrite Hslot.
        naive_solver.
    - intros _ i sons [=]. }
  match type of W2 with WF g ?st2 => set (s2 := st2) in * end.
  match goal with |- wp _ _ _ ?st2 => assert (Es : st2 = s2) end.
  { unfold s2, set, get. by destruct sel. }
  rewrite Es. apply (mark_term_spec allowed g a v s0 s2 W2 Hdy).
  - simpl. unfold h1. by rewrite live_insert, decide_True.
  - eapply sstep_trans; [exact S0|]. constructor; [done| | |].
    + eapply keeps_trans; [apply (g2_keeps _ _ _ (gs_rel _ _ _ G))|]. eapply new_keeps; eauto.
    + pose proof (gs_same _ _ _ G) as S. exact S.
    + eapply grown_trans; [apply (gs_grown _ _ _ G)|apply grown_same|apply G|]; [unfold cells; simpl; lia|done|]. eapply new_keeps; eauto.
  - intros d. simpl. rewrite (new_marked s1 a (Term v) h1) by done.
    rewrite (g2_marked _ _ _ (gs_rel _ _ _ G)). apply HM.
  - intros d x. simpl. unfold h1. rewrite live_insert. destruct (decide (d = a)) as [->|]; [by right|].
    intros Hx. left. rewrite <- HH. by apply (g2_sub _ _ _ (gs_rel _ _ _ G)).
Qed.

Lemma make_terminal_node_spec g v s :
  WF g s -> g_dy g = [] -> perm_ok c s -> tval c v ->
  wp allowed (make_terminal_node c v) (fun r s' => mstep g s s' r (Term v)) s.
Proof.
  intros W Hdy P Hv. unfold make_terminal_node.
  assert (Hdbg : c_dbg c && match c_fixed c with Some m => (m <=? v)%Z | None => false end = false).
  { destruct Hv as [[? Hm]|[-> [E|E]]].
    - destruct (c_fixed c) as [m|]; [|apply andb_false_r]. apply andb_false_iff. right. lia.
    - by rewrite E.
    - by rewrite E, andb_false_r. }
  rewrite Hdbg. unfold is_special. destruct (v =? Undef)%Z eqn:Eu.
  - apply Z.eqb_eq in Eu as ->. unfold make_special_node. apply wp_bind, wp_modify.
    set (s1 := match s_specs s with [] => set_specs [None] s | _ => s end).
    assert (W1 : WF g s1).
    { unfold s1. destruct (s_specs s) eqn:E; [|done]. apply WF_resize_specs; [|done].
      intros k d. rewrite E. split; [|by destruct k]. destruct k as [|[|k]]; done. }
    assert (S1 : sstep g s s1).
    { constructor; [done| | |]; unfold s1; destruct (s_specs s); try (by apply grown_same); repeat split; done. }
    assert (Eh : s_heap s1 = s_heap s) by (unfold s1; by destruct (s_specs s)).
    assert (Hlen : 0 < length (s_specs s1)).
    { unfold s1. destruct (s_specs s) eqn:E; simpl; [lia|]. rewrite E. simpl. lia. }
    assert (P1 : perm_ok c s1) by (eapply perm_same_order; [apply S1|done]).
    apply wp_bind, wp_gets.
    destruct (s_specs s1 !! 0) as [[a|]|] eqn:E0.
    + apply (wf_spec1 _ _ _ _ _ W1) in E0 as [_ Hl].
      apply (mark_term_spec allowed g); auto; rewrite Eh; auto.
    + apply (new_term_spec g Undef false 0); try done; try (by rewrite Eh); simpl; congruence.
    + apply lookup_ge_None in E0. lia.
  - apply Z.eqb_neq in Eu. destruct Hv as [[Hv Hm]|[? _]]; [|done].
    assert ((v <? 0)%Z = false) as -> by lia.
    apply wp_bind, wp_modify. set (k := Z.to_nat v).
    set (s1 := if (Z.of_nat (length (s_terms s)) <=? v)%Z then _ else s).
    assert (W1 : WF g s1).
    { unfold s1. destruct (_ <=? _)%Z eqn:E; [|done]. apply WF_resize_terms; [|done].
      intros j d. rewrite lookup_app_Some. split.
      - intros [?|[_ H]]; [done|]. apply lookup_replicate in H as [? _]. done.
      - by left. }
    assert (S1 : sstep g s s1).
    { constructor; [done| | |]; unfold s1; destruct (_ <=? _)%Z; try (by apply grown_same); repeat split; done. }
    assert (Eh : s_heap s1 = s_heap s) by (unfold s1; by destruct (_ <=? _)%Z).
    assert (Hlen : k < length (s_terms s1)).
    { unfold s1. destruct (_ <=? _)%Z eqn:E; simpl.
      - rewrite app_length, replicate_length. unfold k. lia.
      - apply Z.leb_gt in E. unfold k. lia. }
    assert (P1 : perm_ok c s1) by (eapply perm_same_order; [apply S1|done]).
    assert (Ek : v = Z.of_nat k) by (unfold k; lia).
    apply wp_bind, wp_gets.
    destruct (s_terms s1 !! k) as [[a|]|] eqn:E0.
    + apply (wf_term1 _ _ _ _ _ W1) in E0 as [Hl _].
      rewrite Ek. apply (mark_term_spec allowed g); auto; rewrite Eh; auto.
    + apply (new_term_spec g v true k); try done; try (by rewrite Eh); try (by left); simpl; congruence.
    + apply lookup_ge_None in E0. lia.
Qed.

End make.
