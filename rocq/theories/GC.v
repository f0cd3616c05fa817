(** * Garbage collection *)

From stdpp Require Import gmap list.
From Coq Require Import ZArith Lia.
From Verif Require Import Base Ops Tables NodeManager Heap Inv InvLemmas Prim TabLemmas.

Local Open Scope nat_scope.

Lemma perm_l2i_lt c s l i : perm_ok c s -> s_l2i s !! l = Some i -> i < nvars c.
Proof. intros P H. apply (pm_inv _ _ P) in H. rewrite <- (pm_i2l _ _ P). by eapply lookup_lt_Some. Qed.
Lemma perm_i2l_lt c s l i : perm_ok c s -> s_i2l s !! i = Some l -> l < nvars c.
Proof. intros P H. apply (pm_inv _ _ P) in H. rewrite <- (pm_l2i _ _ P). by eapply lookup_lt_Some. Qed.
Lemma perm_l2i_ex c s l : perm_ok c s -> l < nvars c -> exists i, s_l2i s !! l = Some i /\ i < nvars c.
Proof.
  intros P H. destruct (lookup_lt_is_Some_2 (s_l2i s) l) as [i Hi]; [by rewrite (pm_l2i _ _ P)|].
  exists i. split; [done|by eapply perm_l2i_lt].
Qed.
Lemma perm_i2l_ex c s i : perm_ok c s -> i < nvars c -> exists l, s_i2l s !! i = Some l /\ l < nvars c.
Proof.
  intros P H. destruct (lookup_lt_is_Some_2 (s_i2l s) i) as [l Hl]; [by rewrite (pm_i2l _ _ P)|].
  exists l. split; [done|by eapply perm_i2l_lt].
Qed.
Lemma perm_same c s s' : s_l2i s' = s_l2i s -> s_i2l s' = s_i2l s -> perm_ok c s -> perm_ok c s'.
Proof. intros E1 E2 [? ? ?]. constructor; rewrite ?E1, ?E2; done. Qed.

Definition g_set_cm m g := Ghost (g_ext g) (g_dy g) (g_fl g) (g_flr g) (g_lv g) m (g_cn g).

Definition ext_plus (e : positive -> nat) (l : list positive) : positive -> nat :=
  fun a => e a + count_occ Pos.eq_dec l a.

Section gc.
Context (c : cfg) (opsem : Z -> option (Z -> Z -> Z)) (strict : bool).
Notation rank := (rank c).
Notation WF := (WF c opsem strict).

(** ** Deletion of a node *)

Lemma edges_dying g h a n i sons d :
  h !! a = Some n -> n_used n = true -> n_body n = Int i sons -> a ∉ g_dy g ->
  edges (a :: g_dy g) h d + count_occ Pos.eq_dec sons d = edges (g_dy g) h d.
Proof.
  intros Ha U B Hdy. unfold edges.
  rewrite (hsum_delete _ h a n Ha), (hsum_delete _ h a n Ha).
  rewrite U. rewrite bool_decide_true by set_solver. rewrite bool_decide_false by done. simpl.
  unfold cnt at 2. rewrite B.
  rewrite (hsum_ext (fun b n => if n_used n && negb (bool_decide (b ∈ g_dy g)) then cnt d n else 0)
             (fun b n => if n_used n && negb (bool_decide (b ∈ a :: g_dy g)) then cnt d n else 0) (delete a h)).
  - lia.
  - intros b m Hb. destruct (decide (b = a)) as [->|Hne]; [by rewrite lookup_delete in Hb|].
    rewrite (bool_decide_ext (b ∈ a :: g_dy g) (b ∈ g_dy g)); [done|]. set_solver.
Qed.

Lemma edges_antimono dy dy' h a : (forall d, d ∈ dy -> d ∈ dy') -> edges dy h a = 0 -> edges dy' h a = 0.
Proof.
  intros Hs H. destruct (decide (edges dy' h a = 0)) as [|Hne]; [done|].
  assert (Hp : 0 < edges dy' h a) by lia. apply edges_pos in Hp as (p&i&sons&?&?&?).
  assert (0 < edges dy h a); [|lia]. apply edges_pos. exists p, i, sons. split_and!; auto.
Qed.

(** the references of a node to its sons become external *)
Lemma WF_start_dying g s a n i sons :
  WF g s -> s_heap s !! a = Some n -> n_used n = true -> n_body n = Int i sons ->
  n_refs n = 0%N -> n_mark n = false -> a ∉ g_dy g -> a ∉ g_fl g ->
  WF (g_set_ext (ext_plus (g_ext g) sons) (g_set_dy (a :: g_dy g) g)) s.
Proof.
  intros W Ha U B R Mk Hdy Hfl.
  assert (Hl : live (s_heap s) a = Some (Int i sons)) by (apply live_Some; eauto).
  pose proof (wf_refs _ _ _ _ _ W a n Ha U Hdy) as Hr. rewrite R in Hr. simpl in Hr.
  assert (Hed : forall d, edges (a :: g_dy g) (s_heap s) d + count_occ Pos.eq_dec sons d = edges (g_dy g) (s_heap s) d)
    by (intros; by eapply edges_dying).
  assert (Hns : a ∉ sons).
  { intros Hin. destruct (wf_son _ _ _ _ _ _ _ _ _ W Hl Hdy Hin) as (_&?&_). lia. }
  destruct W. constructor; simpl; try done.
  - intros d b Hb. specialize (wf_node d b Hb). destruct b as [v|j ss]; [done|].
    destruct wf_node as (?&?&?&Hs). split_and!; try done. simpl. intros Hd. apply Hs. set_solver.
  - intros d m Hd Um Hdd. unfold ext_plus. rewrite (wf_refs d m Hd Um) by set_solver.
    rewrite <- Hed. lia.
  - intros d Hd. unfold ext_plus in Hd.
    destruct (decide (d ∈ sons)) as [Hin|Hnin].
    + specialize (wf_node a _ Hl) as (?&?&?&Hs). destruct (Hs Hdy d Hin) as [? ?]. split; [done|].
      intros [->|Hdd]%elem_of_cons; [done|].
      destruct (wf_dy d Hdd) as (_&?&?&?&_&_&_&_&_&E0).
      assert (0 < edges (g_dy g) (s_heap s) d); [|lia]. apply edges_pos. eauto 10.
    + assert (count_occ Pos.eq_dec sons d = 0) as E.
      { apply count_occ_not_In. by rewrite <- elem_of_list_In. }
      destruct (wf_ext d) as [? ?]; [lia|]. split; [done|]. intros [->|?]%elem_of_cons; [lia|done].
  - intros d [->|Hd]%elem_of_cons.
    + split; [done|]. exists i, sons, n. split_and!; try done.
      eapply edges_antimono; [|]; [set_solver|]. lia.
    + destruct (wf_dy d Hd) as (?&j&ss&m&?&?&?&?&?&?). split; [done|]. exists j, ss, m. split_and!; try done.
      eapply edges_antimono; [|done]. set_solver.
Qed.

Definition freed (n : node) : node := Node (n_body n) (n_mark n) false (n_refs n).

Lemma live_freed h a n d : live (<[a:=freed n]> h) d = if decide (d = a) then None else live h d.
Proof. by rewrite live_insert. Qed.

Lemma nlive_freed h a n : h !! a = Some n -> n_used n = true -> S (nlive (<[a:=freed n]> h)) = nlive h.
Proof.
  intros Ha U. unfold nlive.
  pose proof (hsum_update (fun _ n => if n_used n then 1 else 0) h a n (freed n) Ha) as H.
  cbn beta in H. rewrite U in H. simpl in H. lia.
Qed.

(** giving a node back to the pool *)
Lemma WF_free g s a n dy' tabs' terms' specs' :
  WF g s -> g_cm g <> CValid ->
  s_heap s !! a = Some n -> n_used n = true -> a ∉ g_fl g ->
  g_ext g a = 0 -> edges (g_dy g) (s_heap s) a = 0 ->
  (forall d, d ∈ dy' <-> d ∈ g_dy g /\ d <> a) ->
  (is_term n = false -> a ∈ g_dy g) ->
  length tabs' = nvars c ->
  (forall i t, tabs' !! i = Some t -> tab_ok c g (<[a:=freed n]> (s_heap s)) i t) ->
  (forall k d, terms' !! k = Some (Some d) <-> s_terms s !! k = Some (Some d) /\ d <> a) ->
  (forall k d, specs' !! k = Some (Some d) <-> s_specs s !! k = Some (Some d) /\ d <> a) ->
  WF (g_set_dy dy' g)
     (set_pool (pool_destroy (s_pool s) a) (set_heap (<[a:=freed n]> (s_heap s))
        (set_count (s_count s - 1) (set_tabs tabs' (set_terms terms' (set_specs specs' s)))))).
Proof.
  intros W Hcm Ha U Hfl He0 Hed Hdy' Hterm Hlt Htab Htm Hsp.
  set (h' := <[a:=freed n]> (s_heap s)).
  assert (HL : forall d, live h' d = if decide (d = a) then None else live (s_heap s) d)
    by (intros; apply live_freed).
  assert (HLs : forall d b, live h' d = Some b -> live (s_heap s) d = Some b /\ d <> a).
  { intros d b. rewrite HL. destruct (decide (d = a)); [done|auto]. }
  assert (HE : forall d, edges dy' h' d = edges (g_dy g) (s_heap s) d).
  { intros d. symmetry. apply hsum_rel. intros b. unfold h'.
    destruct (decide (b = a)) as [->|Hne].
    - rewrite Ha, lookup_insert. cbn beta. rewrite U. simpl.
      destruct (is_term n) eqn:T.
      + unfold is_term in T. unfold cnt. destruct (n_body n); [|done]. by destruct (negb _).
      + rewrite bool_decide_true by auto. done.
    - rewrite lookup_insert_ne by done. destruct (s_heap s !! b) as [m|]; [|done]. cbn beta.
      rewrite (bool_decide_ext (b ∈ dy') (b ∈ g_dy g)); [done|]. rewrite Hdy'. tauto. }
  assert (Hrk : forall d, d <> a -> rank (g_set_dy dy' g) h' d = rank g (s_heap s) d).
  { intros d Hd. unfold Inv.rank. simpl. rewrite HL, (decide_False (P:=d=a)) by done. done. }
  pose proof (nlive_freed _ _ _ Ha U) as Hnl. fold h' in Hnl.
  destruct W. constructor; simpl; fold h'; try done.
  - intros d b Hb. destruct (HLs d b Hb) as [Hb' Hne]. specialize (wf_node d b Hb').
    destruct b as [v|i sons]; [done|]. simpl. rewrite Hrk by done.
    destruct wf_node as (?&?&?&Hs). split_and!; try done. intros Hdd e Hin.
    assert (d ∉ g_dy g) as Hdd' by (rewrite Hdy' in Hdd; naive_solver).
    destruct (Hs Hdd' e Hin) as [? ?].
    assert (e <> a).
    { intros ->. assert (0 < edges (g_dy g) (s_heap s) a); [|lia]. apply edges_pos. eauto 10. }
    rewrite Hrk, HL, decide_False by done. done.
  - intros d Hd. rewrite HL, decide_False by (by intros ->). auto.
  - intros k d Hk. apply Htm in Hk as [Hk Hne]. rewrite HL, decide_False by done. eauto.
  - intros d v Hd Hv. apply HLs in Hd as [Hd Hne]. apply Htm. eauto.
  - intros k d Hk. apply Hsp in Hk as [Hk Hne]. rewrite HL, decide_False by done. eauto.
  - intros d Hd. apply HLs in Hd as [Hd Hne]. apply Hsp. eauto.
  - intros d m Hd Um Hdd. rewrite HE. unfold h' in Hd.
    destruct (decide (d = a)) as [->|Hne].
    + rewrite lookup_insert in Hd. simplify_eq.
    + rewrite lookup_insert_ne in Hd by done. apply wf_refs; auto. rewrite Hdy' in Hdd. naive_solver.
  - intros d Hd. destruct (decide (d = a)) as [->|Hne]; [lia|]. destruct (wf_ext d Hd).
    rewrite HL, decide_False by done. split; [done|]. rewrite Hdy'. tauto.
  - intros d Hd. apply Hdy' in Hd as [Hd Hne]. destruct (wf_dy d Hd) as (?&i&sons&m&?&?&?&?&?&?).
    split; [done|]. exists i, sons, m. unfold h'. rewrite lookup_insert_ne by done.
    split_and!; try done. fold h'. by rewrite HE.
  - destruct wf_pool. constructor; simpl; try done.
    + rewrite po_avail. lia.
    + constructor; [|done]. intros Hf. destruct (po_free a Hf) as (m&?&?). simplify_eq. congruence.
    + intros d [->|Hd]%elem_of_cons.
      * exists (freed n). unfold h'. by rewrite lookup_insert.
      * destruct (decide (d = a)) as [->|Hne]; [exists (freed n); unfold h'; by rewrite lookup_insert|].
        unfold h'. rewrite lookup_insert_ne by done. auto.
    + intros d m Hd Um. destruct (decide (d = a)) as [->|Hne]; [set_solver|].
      unfold h' in Hd. rewrite lookup_insert_ne in Hd by done. apply elem_of_cons. right. eauto.
    + intros d m Hd. destruct (decide (d = a)) as [->|Hne]; [eauto|].
      unfold h' in Hd. rewrite lookup_insert_ne in Hd by done. eauto.
    + lia.
  - lia.
  - destruct wf_cache as (?&?&?). split_and!; try done. simpl. by destruct (g_cm g).
  - intros Hcn. destruct (wf_canon Hcn) as [C1 C2]. split.
    + intros d d' i sons Hd Hd'. apply HLs in Hd as [? ?]. apply HLs in Hd' as [? ?]. eauto.
    + intros d i sons Hd. apply HLs in Hd as [? ?]. eauto.
Qed.

(** ** Relation between the states before and after collection *)

Record gcrel (g : ghost) (s s' : st) : Prop := {
  gr_sub : forall d b, live (s_heap s') d = Some b -> live (s_heap s) d = Some b;
  gr_keeps : keeps g (s_heap s) (s_heap s');
  gr_marked : forall d, marked (s_heap s') d <-> marked (s_heap s) d;
  gr_cache : s_cache s' = s_cache s;
  gr_l2i : s_l2i s' = s_l2i s;
  gr_i2l : s_i2l s' = s_i2l s;
  gr_gcthr : s_gcthr s' = s_gcthr s;
  gr_cratio : s_cratio s' = s_cratio s;
  gr_auto : s_auto s' = s_auto s;
  gr_defer : s_defer s' = s_defer s;
  gr_adj : s_adj s' = s_adj s;
  gr_main : p_main (s_pool s') = p_main (s_pool s);
  gr_extra : p_extra (s_pool s') = p_extra (s_pool s);
  gr_left : p_left (s_pool s') = p_left (s_pool s);
  gr_caps : map t_cap (s_tabs s') = map t_cap (s_tabs s);
  gr_terms : length (s_terms s') = length (s_terms s);
  gr_specs : length (s_specs s') = length (s_specs s);
  gr_count : (s_count s' <= s_count s)%Z;
  gr_avail : (p_avail (s_pool s') + s_count s' = p_avail (s_pool s) + s_count s)%Z
}.

Lemma gcrel_refl g s : gcrel g s s.
Proof. constructor; try done. Qed.

Lemma gcrel_trans g s1 s2 s3 : gcrel g s1 s2 -> gcrel g s2 s3 -> gcrel g s1 s3.
Proof.
  intros [] []. constructor; try congruence; try lia; auto.
  - by eapply keeps_trans.
  - intros d. by rewrite gr_marked1.
Qed.

Lemma gcrel_same_order g s s' : gcrel g s s' -> same_order s s'.
Proof. intros []. repeat split; auto. Qed.

(** ** Collection of one internal node *)

Lemma gc_node_spec ok g i b a sons t s :
  WF g s -> g_cm g <> CValid -> a ∉ g_fl g -> a ∉ g_dy g ->
  live (s_heap s) a = Some (Int i sons) -> s_tabs s !! i = Some t ->
  bucket_of t (node_hash c sons) = b ->
  wp ok (gc_node c i b a) (fun _ s' =>
    WF g s' /\ gcrel g s s' /\
    (forall d, d <> a -> live (s_heap s') d = live (s_heap s) d) /\
    (forall d, d <> a -> d ∉ sons -> s_heap s' !! d = s_heap s !! d) /\
    (forall n, s_heap s' !! a = Some n -> n_used n = true ->
       can_be_gced n = false /\ s_heap s !! a = Some n)) s.
Proof.
  intros W Hcm Hfl Hdy Hl Ht Hb.
  pose proof Hl as Hl'. apply live_Some in Hl' as (n&Hn&U&B).
  unfold gc_node. apply wp_bind. eapply wp_getn; eauto.
  destruct (can_be_gced n) eqn:G.
  2:{ apply wp_ret. split_and!; try done. intros; by simplify_eq. }
  unfold can_be_gced in G. apply andb_true_iff in G as [R Mk].
  apply N.eqb_eq in R. apply negb_true_iff in Mk.
  apply wp_bind. eapply wp_get_int; [done|]. simpl. apply wp_bind.
  pose proof (WF_start_dying g s a n i sons W Hn U B R Mk Hdy Hfl) as W1.
  set (g1 := g_set_ext (ext_plus (g_ext g) sons) (g_set_dy (a :: g_dy g) g)) in *.
  assert (Hns : a ∉ sons).
  { intros Hin. destruct (wf_son _ _ _ _ _ _ _ _ _ W Hl Hdy Hin) as (_&?&_). lia. }
  apply wp_dec_refs.
  { intros d Hd. destruct (wf_son _ _ _ _ _ _ _ _ _ W Hl Hdy Hd) as (Hld&_&Hdd).
    apply live_not_None in Hld as (m&Hm&Um). exists m. split_and!; try done.
    rewrite (wf_refs _ _ _ _ _ W1 d m Hm Um); simpl.
    - unfold ext_plus. lia.
    - set_solver. }
  intros h1 Hrr Hcnt Hoth.
  assert (Hh1 : hrel (s_heap s) h1) by (by apply rrel_hrel).
  assert (H1a : h1 !! a = Some n) by (rewrite Hoth; done).
  pose proof (wf_refs _ _ _ _ _ W a n Hn U Hdy) as Hrefs. rewrite R in Hrefs. simpl in Hrefs.
  assert (W2 : WF (g_set_ext (g_ext g) g1) (set_heap h1 s)).
  { apply WF_hrel; try done; simpl.
    - intros d m' Hm' Um' Hdd. destruct (hrel_lookup _ _ _ _ Hh1 Hm') as (m&Hm&?&?).
      specialize (Hcnt d m m' Hm Hm').
      assert (N.to_nat (n_refs m) = ext_plus (g_ext g) sons d + edges (a :: g_dy g) (s_heap s) d) as E.
      { apply (wf_refs _ _ _ _ _ W1); [done|congruence|done]. }
      unfold ext_plus in E. lia.
    - intros d m m' Hd Hm Hm' R0 M0. rewrite (rrel_mark _ _ _ _ _ Hrr Hm Hm').
      specialize (Hcnt d m m' Hm Hm'). split; [|done].
      apply N2Nat.inj. simpl. rewrite R0 in Hcnt. simpl in Hcnt. lia.
    - intros d Hd. destruct (wf_ext _ _ _ _ _ W d Hd) as [? ?]. split; [done|].
      intros [->|?]%elem_of_cons; [lia|done]. }
  apply wp_bind. unfold wp at 1. simpl. rewrite Ht. simpl.
  apply wp_bind.
  pose proof (wf_tab _ _ _ _ _ W2 i t Ht) as Htab. apply tab_ok_tabP in Htab as [HtP Hsz].
  assert (Hl1 : live h1 a = Some (Int i sons)) by (rewrite (hrel_live (s_heap s)); done).
  destruct (tabP_erase _ _ t a HtP) as (t'&Her&HtP'&Hlen'&Hsz'&Hcap').
  { split; simpl; [done|]. eauto. }
  assert (Hbk : bucket_of t (keyh c (s_heap (set_heap h1 s)) a) = b).
  { unfold keyh. simpl. by rewrite (live_sons_of _ _ _ _ Hl1). }
  rewrite Hbk in Her. eapply wp_of_opt; [done|].
  apply wp_bind. apply wp_modify. unfold delete_node. apply wp_bind. eapply wp_getn; [done|done|].
  replace (c_dbg c && n_mark n) with false by (by rewrite Mk, andb_false_r). apply wp_modify.
  set (s' := set_pool _ _).
  assert (Hs'h : s_heap s' = <[a:=freed n]> h1) by done.
  assert (HL : forall d, live (s_heap s') d = if decide (d = a) then None else live (s_heap s) d).
  { intros d. rewrite Hs'h, live_freed. by rewrite (hrel_live (s_heap s)). }
  assert (W3 : WF g s').
  { assert (WF (g_set_dy (g_dy g) (g_set_ext (g_ext g) g1)) s') as W3; [|by destruct g].
    unfold s'. apply (WF_free (g_set_ext (g_ext g) g1) (set_heap h1 s) a n (g_dy g)
      (<[i:=t']> (s_tabs s)) (s_terms s) (s_specs s)); try done; simpl.
    - lia.
    - rewrite (hrel_edges _ (s_heap s)) by done. eapply edges_antimono; [|]; [set_solver|]. lia.
    - intros d. rewrite elem_of_cons. naive_solver.
    - set_solver.
    - rewrite insert_length. apply (wf_ntabs _ _ _ _ _ W).
    - intros j tj Hj. apply tab_ok_tabP. destruct (decide (j = i)) as [->|Hne].
      + rewrite list_lookup_insert in Hj by (by eapply lookup_lt_Some). simplify_eq.
        split; [|rewrite Hsz'; simpl in *; lia].
        eapply tabP_ext; [| |exact HtP'].
        * intros d. unfold inTab; simpl. rewrite live_freed. destruct (decide (d = a)) as [->|].
          -- split; [tauto|]. intros (_&?&?). done.
          -- tauto.
        * intros d [[_ (ss&Hss)] Hne]. unfold keyh. simpl in *.
          erewrite (live_sons_of (<[a:=freed n]> h1)); [|rewrite live_freed, decide_False; done].
          by erewrite live_sons_of.
      + rewrite list_lookup_insert_ne in Hj by done.
        pose proof (wf_tab _ _ _ _ _ W2 j tj Hj) as T. apply tab_ok_tabP in T as [T1 T2]. split; [|done].
        eapply tabP_ext; [| |exact T1].
        * intros d. unfold inTab; simpl. rewrite live_freed. destruct (decide (d = a)) as [->|]; [|done].
          rewrite Hl1. split; [intros (_&?&?); simplify_eq|intros (_&?&?); done].
        * intros d [_ (ss&Hss)]. unfold keyh. simpl in *.
          assert (d <> a) by (intros ->; congruence).
          erewrite (live_sons_of (<[a:=freed n]> h1)); [|rewrite live_freed, decide_False; done].
          by erewrite live_sons_of.
    - intros k d. split; [|tauto]. intros Hk. split; [done|]. intros ->.
      apply (wf_term1 _ _ _ _ _ W) in Hk as [? ?]. congruence.
    - intros k d. split; [|tauto]. intros Hk. split; [done|]. intros ->.
      apply (wf_spec1 _ _ _ _ _ W) in Hk as [? ?]. congruence. }
  assert (Hnh : ~ held g (s_heap s) a) by (by eapply not_held).
  assert (HM : forall d, marked (s_heap s') d <-> marked (s_heap s) d).
  { intros d. rewrite Hs'h. destruct (decide (d = a)) as [->|Hne].
    - unfold marked. rewrite lookup_insert. split; intros (m&?&?&?); simplify_eq. congruence.
    - rewrite marked_insert_ne by done. by apply rrel_marked. }
  split_and!; try done.
  - constructor; try done; simpl; try lia.
    + intros d e. rewrite HL. destruct (decide (d = a)); done.
    + apply keeps_intro.
      * intros d Hd. rewrite HL, decide_False; [done|]. by intros ->.
      * intros r Hr. assert (r <> a) by (intros ->; by apply Hnh, root_held).
        apply root_held. destruct Hr as (?&?&Hr). split; [|split; [done|]].
        -- fold s'. by rewrite HL, decide_False.
        -- destruct Hr as [Hr|Hr]; [left; by apply HM|by right].
    + rewrite list_fmap_insert. rewrite Hcap'. apply list_insert_id. by rewrite list_lookup_fmap, Ht.
  - intros d Hd. by rewrite HL, decide_False.
  - intros d Hd Hds. rewrite Hs'h, lookup_insert_ne by done. by apply Hoth.
  - intros m. rewrite Hs'h, lookup_insert. intros [= <-]. done.
Qed.

(** ** One level *)

Lemma mapM_app {A} (f : A -> M unit) l1 l2 s :
  mapM_ f (l1 ++ l2) s = bind (mapM_ f l1) (fun _ => mapM_ f l2) s.
Proof.
  revert s. induction l1 as [|a l1 IH]; intros s; [done|]. simpl. unfold bind at 1 2 3.
  destruct (f a s); try done. by rewrite IH.
Qed.

Definition flat (L : list (nat * list positive)) : list (nat * positive) :=
  concat (map (fun bc => map (pair (fst bc)) (snd bc)) L).

Lemma mapM_map {A B} (f : A -> B) (k : B -> M unit) l s :
  mapM_ k (map f l) s = mapM_ (fun a => k (f a)) l s.
Proof.
  revert s. induction l as [|a l IH]; intros s; [done|]. simpl. unfold bind.
  destruct (k (f a) s); try done.
Qed.

Lemma mapM_flat (f : nat -> positive -> M unit) L s :
  mapM_ (fun bc : nat * list positive => mapM_ (f (fst bc)) (snd bc)) L s =
  mapM_ (fun p => f (fst p) (snd p)) (flat L) s.
Proof.
  revert s. induction L as [|[b ch] L IH]; intros s; [done|]. unfold flat. simpl.
  rewrite mapM_app. unfold bind. rewrite mapM_map. simpl.
  destruct (mapM_ (f b) ch s); try done.
Qed.

Lemma flat_elem L b a : (b, a) ∈ flat L <-> exists ch, (b, ch) ∈ L /\ a ∈ ch.
Proof.
  unfold flat. rewrite elem_of_concat. split.
  - intros (k&ch&Hk&Hin). rewrite list_lookup_fmap in Hk.
    destruct (L !! k) as [[b' ch']|] eqn:E; simplify_eq/=.
    apply elem_of_list_fmap in Hin as (a'&[= -> ->]&?). exists ch'. split; [|done].
    by eapply elem_of_list_lookup_2.
  - intros (ch&Hin&Ha). apply elem_of_list_lookup_1 in Hin as [k Hk].
    exists k, (map (pair b) ch). rewrite list_lookup_fmap, Hk. split; [done|].
    apply elem_of_list_fmap. eauto.
Qed.

Lemma flat_snd L : map snd (flat L) = concat (map snd L).
Proof.
  induction L as [|[b ch] L IH]; [done|]. unfold flat in *. simpl.
  rewrite map_app, IH. f_equal. rewrite map_map. simpl. apply map_id.
Qed.

Lemma imap_pair_elem {A} (B : list A) b ch : (b, ch) ∈ imap pair B <-> B !! b = Some ch.
Proof.
  rewrite elem_of_lookup_imap. split.
  - intros (k&x&[= -> ->]&?). done.
  - intros. eauto.
Qed.

Lemma imap_pair_snd {A} (B : list A) : map snd (imap pair B) = B.
Proof.
  apply list_eq. intros k. rewrite list_lookup_fmap, list_lookup_imap.
  by destruct (B !! k).
Qed.

Definition settled (n : node) : Prop := can_be_gced n = false.

Lemma gc_nodes_spec ok g i cap l s :
  WF g s -> g_cm g <> CValid -> g_dy g = [] ->
  NoDup (map snd l) ->
  map t_cap (s_tabs s) !! i = Some cap ->
  (forall b a, (b, a) ∈ l -> a ∉ g_fl g /\
     exists sons, live (s_heap s) a = Some (Int i sons) /\ N.to_nat (node_hash c sons mod cap) = b) ->
  wp ok (mapM_ (fun p => gc_node c i (fst p) (snd p)) l) (fun _ s' =>
    WF g s' /\ gcrel g s s' /\
    (forall d, d ∉ map snd l -> live (s_heap s') d = live (s_heap s) d) /\
    (forall d n, s_heap s' !! d = Some n -> n_used n = true -> rank g (s_heap s') d <= g_lv g i ->
       s_heap s !! d = Some n) /\
    (forall a n, a ∈ map snd l -> s_heap s' !! a = Some n -> n_used n = true -> settled n)) s.
Proof.
  intros W Hcm Hdy Hnd. revert s W. induction l as [|[b a] l IH]; intros s W Hcap Hl; simpl.
  - apply wp_ret. split_and!; try done. set_solver.
  - apply wp_bind. simpl in Hnd. inversion Hnd as [|? ? Hna Hnd']; subst.
    destruct (Hl b a) as (Hfl&sons&Hs&Hb); [set_solver|].
    rewrite list_lookup_fmap in Hcap. destruct (s_tabs s !! i) as [t|] eqn:Ht; simplify_eq/=.
    eapply wp_mono; [eapply gc_node_spec; eauto; by rewrite Hdy; set_solver|].
    intros _ s1 (W1&G1&Hlive1&Hh1&Ha1).
    eapply wp_mono; [apply IH; try done|].
    + rewrite (gr_caps _ _ _ G1), list_lookup_fmap, Ht. done.
    + intros b' a' Hin. destruct (Hl b' a') as (?&ss&?&?); [set_solver|]. split; [done|].
      exists ss. rewrite Hlive1; [done|]. intros ->. apply Hna. apply elem_of_list_fmap.
      by exists (b', a).
    + intros _ s2 (W2&G2&Hlive2&Hh2&Ha2).
      assert (Hranka : rank g (s_heap s) a = g_lv g i).
      { unfold Inv.rank. by rewrite decide_False, Hs. }
      assert (Hkey : forall d n, s_heap s2 !! d = Some n -> n_used n = true ->
                rank g (s_heap s2) d <= g_lv g i -> s_heap s !! d = Some n).
      { intros d n Hd U Hr. specialize (Hh2 d n Hd U Hr) as Hd1.
        destruct (decide (d = a)) as [->|Hne]; [by apply Ha1|].
        rewrite <- (Hh1 d); [done|done|]. intros Hin.
        assert (rank g (s_heap s2) d = rank g (s_heap s) d) as Er.
        { apply rank_ext. rewrite (live_of _ _ _ Hd U). rewrite <- (Hlive1 d Hne).
          by rewrite (live_of _ _ _ Hd1 U). }
        assert (Hda : a ∉ g_dy g) by (rewrite Hdy; set_solver).
        destruct (wf_son _ _ _ _ _ _ _ _ _ W Hs Hda Hin) as (_&?&_).
        lia. }
      split_and!; try done.
      * by eapply gcrel_trans.
      * intros d Hd. rewrite Hlive2 by set_solver. apply Hlive1. set_solver.
      * intros d n [->|Hd]%elem_of_cons Hn U; [|by eapply Ha2].
        pose proof (gr_sub _ _ _ G2 _ _ (live_of _ _ _ Hn U)) as Hb1.
        pose proof (gr_sub _ _ _ G1 _ _ Hb1) as Hb0.
        apply (Ha1 n); [|done]. apply Hh2; try done.
        unfold Inv.rank. rewrite decide_False by done. rewrite (live_of _ _ _ Hn U).
        rewrite Hs in Hb0. injection Hb0 as Hb0. by rewrite <- Hb0.
Qed.

Lemma gc_level_spec ok g l i s :
  WF g s -> g_cm g <> CValid -> g_dy g = [] -> s_l2i s !! l = Some i -> i < nvars c ->
  wp ok (gc_level c l) (fun _ s' =>
    WF g s' /\ gcrel g s s' /\
    (forall d n, s_heap s' !! d = Some n -> n_used n = true -> rank g (s_heap s') d <= g_lv g i ->
       s_heap s !! d = Some n) /\
    (forall a n j sons, s_heap s' !! a = Some n -> n_used n = true -> a ∉ g_fl g ->
       n_body n = Int j sons -> j = i -> settled n)) s.
Proof.
  intros W Hcm Hdy Hl Hi. unfold gc_level. apply wp_bind. eapply wp_index_at; [done|].
  destruct (lookup_lt_is_Some_2 (s_tabs s) i) as [t Ht]; [by rewrite (wf_ntabs _ _ _ _ _ W)|].
  apply wp_bind. unfold wp at 1. simpl. rewrite Ht. simpl.
  unfold wp. rewrite mapM_flat. pose proof (wf_tab _ _ _ _ _ W i t Ht) as T.
  assert (Hmem : forall a, a ∈ map snd (flat (imap pair (t_buckets t))) <-> inTab g (s_heap s) i a).
  { intros a. rewrite flat_snd, imap_pair_snd. apply tab_ok_tabP in T as [T _]. by eapply tabP_elem. }
  pose proof (gc_nodes_spec ok g i (t_cap t) (flat (imap pair (t_buckets t))) s W Hcm Hdy) as H.
  unfold wp in H. destruct (mapM_ _ _ _) as [u s'|e|] eqn:E.
  - destruct H as (W'&G&_&Hh&Hs').
    + rewrite flat_snd, imap_pair_snd. apply tab_ok_tabP in T as [T _]. by eapply tabP_NoDup.
    + by rewrite list_lookup_fmap, Ht.
    + intros b a (ch&Hin&Ha)%flat_elem. apply imap_pair_elem in Hin.
      destruct T as (_&_&T&_). apply (T b ch Hin) in Ha as (?&sons&?&?). eauto.
    + split_and!; try done. intros a n j sons Hn U Hfl Hb ->.
      eapply Hs'; [|done|done]. apply Hmem. split; [done|]. exists sons. rewrite <- Hb.
      eapply gr_sub; [done|]. by apply live_of.
  - apply H.
    + rewrite flat_snd, imap_pair_snd. apply tab_ok_tabP in T as [T _]. by eapply tabP_NoDup.
    + by rewrite list_lookup_fmap, Ht.
    + intros b a (ch&Hin&Ha)%flat_elem. apply imap_pair_elem in Hin.
      destruct T as (_&_&T&_). apply (T b ch Hin) in Ha as (?&sons&?&?). eauto.
  - apply H.
    + rewrite flat_snd, imap_pair_snd. apply tab_ok_tabP in T as [T _]. by eapply tabP_NoDup.
    + by rewrite list_lookup_fmap, Ht.
    + intros b a (ch&Hin&Ha)%flat_elem. apply imap_pair_elem in Hin.
      destruct T as (_&_&T&_). apply (T b ch Hin) in Ha as (?&sons&?&?). eauto.
Qed.

Lemma gc_levels_spec ok g k m s :
  WF g s -> g_cm g <> CValid -> g_dy g = [] -> perm_ok c s -> k + m <= nvars c ->
  (ord c g s -> forall a n, s_heap s !! a = Some n -> n_used n = true -> a ∉ g_fl g ->
     is_term n = false -> rank g (s_heap s) a < k -> settled n) ->
  wp ok (mapM_ (gc_level c) (seq k m)) (fun _ s' =>
    WF g s' /\ gcrel g s s' /\
    (ord c g s -> forall a n, s_heap s' !! a = Some n -> n_used n = true -> a ∉ g_fl g ->
     is_term n = false -> rank g (s_heap s') a < k + m -> settled n)) s.
Proof.
  intros W Hcm Hdy. revert k s W. induction m as [|m IH]; intros k s W P Hk HD; simpl.
  - apply wp_ret. rewrite Nat.add_0_r. split_and!; done.
  - apply wp_bind. destruct (perm_l2i_ex c s k P) as (i&Hi&Hlt); [lia|].
    eapply wp_mono; [by eapply gc_level_spec|].
    intros _ s1 (W1&G1&Hh1&Hs1).
    eapply wp_mono; [apply IH; try done|].
    + eapply perm_same; [apply (gr_l2i _ _ _ G1)|apply (gr_i2l _ _ _ G1)|done].
    + lia.
    + intros O1. assert (O : ord c g s).
      { destruct O1 as [? O1]. split; [done|]. intros j Hj. rewrite <- (gr_i2l _ _ _ G1). auto. }
      assert (Hlv : g_lv g i = k).
      { apply (pm_inv _ _ P) in Hi. rewrite (proj2 O i Hlt) in Hi. by simplify_eq. }
      intros a n Hn U Hfl Ht Hr.
      destruct (n_body n) as [v|j sons] eqn:B; [unfold is_term in Ht; by rewrite B in Ht|].
      pose proof (live_of _ _ _ Hn U) as Hla. rewrite B in Hla.
      destruct (decide (j = i)) as [->|Hne]; [by eapply Hs1|].
      assert (Hrk : rank g (s_heap s1) a = g_lv g j).
      { unfold Inv.rank. by rewrite decide_False, Hla. }
      assert (Hj : j < nvars c).
      { destruct (wf_node _ _ _ _ _ W1 a _ Hla) as (?&_). done. }
      assert (g_lv g j <> k).
      { intros Ej. apply Hne. pose proof (proj2 O j Hj) as E1. rewrite Ej in E1.
        apply (pm_inv _ _ P) in E1. congruence. }
      pose proof (Hh1 a n Hn U) as Hn0. specialize (Hn0 ltac:(lia)).
      eapply (HD O); try done. erewrite rank_ext; [|].
      2:{ rewrite (live_of _ _ _ Hn0 U). by rewrite <- (live_of _ _ _ Hn U). }
      lia.
    + intros _ s2 (W2&G2&H2). split_and!; try done; [by eapply gcrel_trans|].
      intros O. rewrite <- Nat.add_succ_comm. apply H2.
      destruct O as [? O]. split; [eapply perm_same; [apply (gr_l2i _ _ _ G1)|apply (gr_i2l _ _ _ G1)|done]|].
      intros j Hj. rewrite (gr_i2l _ _ _ G1). auto.
Qed.

(** ** Terminals *)

Lemma gc_term_aux ok g (sel : bool) k s :
  WF g s -> g_cm g <> CValid -> g_dy g = [] ->
  let get := if sel then s_terms else s_specs in
  let set := if sel then set_terms else set_specs in
  wp ok (gc_slot c get set k) (fun _ s' =>
    WF g s' /\ gcrel g s s' /\
    (forall d n, s_heap s' !! d = Some n -> n_used n = true -> s_heap s !! d = Some n) /\
    (forall j d, get s' !! j = Some (Some d) -> get s !! j = Some (Some d)) /\
    (forall d n, get s' !! k = Some (Some d) -> s_heap s' !! d = Some n -> n_used n = true -> settled n)) s.
Proof.
  intros W Hcm Hdy get set. unfold gc_slot. apply wp_bind. apply wp_gets.
  destruct (get s !! k) as [[a|]|] eqn:Hk.
  2,3: apply wp_ret; split_and!; try done; intros; congruence.
  assert (Hv : exists v, live (s_heap s) a = Some (Term v) /\
     (sel = true -> v = Z.of_nat k /\ v <> Undef) /\ (sel = false -> v = Undef /\ k = 0)).
  { unfold get in Hk. destruct sel.
    - apply (wf_term1 _ _ _ _ _ W) in Hk as [? ?]. exists (Z.of_nat k). split_and!; try done.
    - apply (wf_spec1 _ _ _ _ _ W) in Hk as [? ?]. exists Undef. split_and!; try done. }
  destruct Hv as (v&Hla&Hv1&Hv2).
  pose proof Hla as Hl'. apply live_Some in Hl' as (n&Hn&U&B).
  apply wp_bind. eapply wp_getn; eauto.
  destruct (can_be_gced n) eqn:G.
  2:{ apply wp_ret. split_and!; try done. intros; by simplify_eq. }
  unfold can_be_gced in G. apply andb_true_iff in G as [R Mk].
  apply N.eqb_eq in R. apply negb_true_iff in Mk.
  assert (Hfl : a ∉ g_fl g).
  { by destruct (wf_node _ _ _ _ _ W a _ Hla) as [_ ?]. }
  pose proof (wf_refs _ _ _ _ _ W a n Hn U) as Hrefs. rewrite Hdy in Hrefs.
  specialize (Hrefs ltac:(set_solver)). rewrite R in Hrefs. simpl in Hrefs.
  apply wp_bind. unfold delete_node. apply wp_bind. eapply wp_getn; [done|done|].
  replace (c_dbg c && n_mark n) with false by (by rewrite Mk, andb_false_r). apply wp_modify.
  apply wp_modify.
  assert (Hslot : forall j d, <[k := None]> (get s) !! j = Some (Some d) <->
                     get s !! j = Some (Some d) /\ d <> a).
  { intros j d. destruct (decide (j = k)) as [->|Hne].
    - rewrite list_lookup_insert by (by eapply lookup_lt_Some). rewrite Hk. naive_solver.
    - rewrite list_lookup_insert_ne by done. split; [|tauto]. intros Hj. split; [done|]. intros ->.
      unfold get in *. destruct sel.
      + apply (wf_term1 _ _ _ _ _ W) in Hj as [Hj _]. apply (wf_term1 _ _ _ _ _ W) in Hk as [Hk _].
        rewrite Hj in Hk. injection Hk as Hk. lia.
      + apply (wf_spec1 _ _ _ _ _ W) in Hj as [Hj _]. apply (wf_spec1 _ _ _ _ _ W) in Hk as [Hk _]. lia. }
  assert (Hother : forall j d, (if sel then s_specs s else s_terms s) !! j = Some (Some d) -> d <> a).
  { intros j d Hj ->. destruct sel.
    - apply (wf_spec1 _ _ _ _ _ W) in Hj as [_ Hj]. destruct Hv1 as [? ?]; [done|]. congruence.
    - apply (wf_term1 _ _ _ _ _ W) in Hj as [Hj ?]. destruct Hv2 as [? ?]; [done|]. congruence. }
  set (s' := set _ _).
  assert (Es' : s' = set_pool (pool_destroy (s_pool s) a) (set_heap (<[a:=freed n]> (s_heap s))
        (set_count (s_count s - 1) (set_tabs (s_tabs s)
          (set_terms (if sel then <[k:=None]> (s_terms s) else s_terms s)
            (set_specs (if sel then s_specs s else <[k:=None]> (s_specs s)) s)))))).
  { unfold s', set, get. by destruct sel. }
  assert (W' : WF g s').
  { rewrite Es'. assert (Eg : g = g_set_dy [] g) by (destruct g; simpl in *; by subst).
    rewrite Eg at 1. apply (WF_free g s a n []); try done.
    - lia.
    - rewrite Hdy. lia.
    - intros d. rewrite Hdy. set_solver.
    - unfold is_term. by rewrite B.
    - apply (wf_ntabs _ _ _ _ _ W).
    - intros i t Ht. pose proof (wf_tab _ _ _ _ _ W i t Ht) as T. apply tab_ok_tabP in T as [T1 T2].
      apply tab_ok_tabP. split; [|done]. eapply tabP_ext; [| |exact T1].
      + intros d. unfold inTab. rewrite live_freed. destruct (decide (d = a)) as [->|]; [|done].
        rewrite Hla. split; intros (_&?&?); done.
      + intros d [_ (ss&Hss)]. unfold keyh. assert (d <> a) by (intros ->; congruence).
        erewrite (live_sons_of (<[a:=freed n]> (s_heap s))); [|rewrite live_freed, decide_False; done].
        by erewrite live_sons_of.
    - intros j d. destruct sel; [apply Hslot|]. split; [|tauto]. intros Hj. split; [done|by eapply Hother].
    - intros j d. destruct sel; [|apply Hslot]. split; [|tauto]. intros Hj. split; [done|by eapply Hother]. }
  assert (Hnh : ~ held g (s_heap s) a).
  { eapply not_held; try done. rewrite Hdy. set_solver. }
  assert (Hs'h : s_heap s' = <[a:=freed n]> (s_heap s)) by (by rewrite Es').
  assert (Hget : get s' = <[k:=None]> (get s)) by (rewrite Es'; unfold get; by destruct sel).
  assert (HL : forall d, live (s_heap s') d = if decide (d = a) then None else live (s_heap s) d).
  { intros d. by rewrite Hs'h, live_freed. }
  assert (HM : forall d, marked (s_heap s') d <-> marked (s_heap s) d).
  { intros d. rewrite Hs'h. destruct (decide (d = a)) as [->|Hne].
    - unfold marked. rewrite lookup_insert. split; intros (m&?&?&?); simplify_eq. congruence.
    - by rewrite marked_insert_ne by done. }
  split_and!; try done.
  - assert (Hmisc : length (s_terms s') = length (s_terms s) /\ length (s_specs s') = length (s_specs s)).
    { rewrite Es'. simpl. destruct sel; by rewrite insert_length. }
    constructor; try (rewrite Es'; done); try apply Hmisc.
    + intros d e. rewrite HL. destruct (decide (d = a)); done.
    + apply keeps_intro.
      * intros d Hd. rewrite HL, decide_False; [done|]. by intros ->.
      * intros r Hr. assert (r <> a) by (intros ->; by apply Hnh, root_held).
        apply root_held. destruct Hr as (?&?&Hr). split; [|split; [done|]].
        -- by rewrite HL, decide_False.
        -- destruct Hr as [Hr|Hr]; [left; by apply HM|by right].
    + exact HM.
    + rewrite Es'. simpl. lia.
    + rewrite Es'. simpl. lia.
  - intros d m. rewrite Hs'h. destruct (decide (d = a)) as [->|Hne].
    + rewrite lookup_insert. intros [= <-]. done.
    + by rewrite lookup_insert_ne by done.
  - intros j d. rewrite Hget, Hslot. tauto.
  - intros d m. rewrite Hget, list_lookup_insert; [done|]. by eapply lookup_lt_Some.
Qed.

Lemma gc_terms_spec ok g (sel : bool) k m s :
  WF g s -> g_cm g <> CValid -> g_dy g = [] ->
  let get := if sel then s_terms else s_specs in
  let set := if sel then set_terms else set_specs in
  (forall j d n, j < k -> get s !! j = Some (Some d) -> s_heap s !! d = Some n -> n_used n = true -> settled n) ->
  wp ok (mapM_ (gc_slot c get set) (seq k m)) (fun _ s' =>
    WF g s' /\ gcrel g s s' /\
    (forall d n, s_heap s' !! d = Some n -> n_used n = true -> s_heap s !! d = Some n) /\
    (forall j d n, j < k + m -> get s' !! j = Some (Some d) -> s_heap s' !! d = Some n ->
       n_used n = true -> settled n)) s.
Proof.
  intros W Hcm Hdy get set. revert k s W. induction m as [|m IH]; intros k s W HD; simpl.
  - apply wp_ret. rewrite Nat.add_0_r. split_and!; done.
  - apply wp_bind. eapply wp_mono; [apply (gc_term_aux ok g sel k s W Hcm Hdy)|].
    intros _ s1 (W1&G1&Hh1&Hg1&Hs1). fold get in Hg1, Hs1.
    eapply wp_mono; [apply (IH (S k) s1 W1)|].
    + intros j d n Hj Hd Hn U. destruct (decide (j = k)) as [->|Hne]; [by eapply Hs1|].
      eapply (HD j d); eauto. lia.
    + intros _ s2 (W2&G2&Hh2&Hs2). split_and!; try done.
      * by eapply gcrel_trans.
      * intros d n Hd U. eauto.
      * intros j d n Hj. apply Hs2. lia.
Qed.

(** ** collect_garbage *)

Lemma collect_garbage_spec ok g s :
  WF g s -> g_cm g <> CValid -> g_dy g = [] -> perm_ok c s ->
  wp ok (collect_garbage c) (fun _ s' =>
    WF g s' /\ gcrel g s s' /\
    (ord c g s -> forall a n, s_heap s' !! a = Some n -> n_used n = true -> a ∉ g_fl g -> settled n)) s.
Proof.
  intros W Hcm Hdy P. unfold collect_garbage. apply wp_bind.
  eapply wp_mono; [apply (gc_levels_spec ok g 0 (nvars c) s); try done; lia|].
  intros _ s1 (W1&G1&H1). apply wp_bind. apply wp_gets. apply wp_bind.
  eapply wp_mono; [apply (gc_terms_spec ok g true 0 (length (s_terms s1)) s1 W1 Hcm Hdy); lia|].
  intros _ s2 (W2&G2&Hh2&H2). apply wp_bind. apply wp_gets.
  eapply wp_mono; [apply (gc_terms_spec ok g false 0 (length (s_specs s2)) s2 W2 Hcm Hdy); lia|].
  intros _ s3 (W3&G3&Hh3&H3). split; [done|]. split; [eauto using gcrel_trans|].
  intros O a n Hn U Hfl. pose proof (Hh3 a n Hn U) as Hn2. pose proof (Hh2 a n Hn2 U) as Hn1.
  pose proof (live_of _ _ _ Hn U) as Hl3. destruct (n_body n) as [v|i sons] eqn:B.
  - destruct (decide (v = Undef)) as [->|Hv].
    + pose proof (wf_spec2 _ _ _ _ _ W3 a Hl3) as Hsp. eapply (H3 0 a); try done. simpl.
      rewrite <- (gr_specs _ _ _ G3). by eapply lookup_lt_Some.
    + pose proof (live_of _ _ _ Hn2 U) as Hl2. rewrite B in Hl2.
      pose proof (wf_term2 _ _ _ _ _ W2 a v Hl2 Hv) as Htm. eapply (H2 (Z.to_nat v) a); try done. simpl.
      rewrite <- (gr_terms _ _ _ G2). by eapply lookup_lt_Some.
  - apply (H1 O a n); try done; simpl.
    + unfold is_term. by rewrite B.
    + pose proof (live_of _ _ _ Hn1 U) as Hl1. rewrite B in Hl1.
      destruct (wf_node _ _ _ _ _ W1 a _ Hl1) as (_&_&?&_). done.
Qed.

(** everything that survives is held *)
Lemma settled_held g s :
  WF g s -> g_dy g = [] ->
  (forall a n, s_heap s !! a = Some n -> n_used n = true -> a ∉ g_fl g -> settled n) ->
  forall a, live (s_heap s) a <> None -> held g (s_heap s) a.
Proof.
  intros W Hdy HS a. remember (rank g (s_heap s) a) as m eqn:Em. revert a Em.
  induction m as [m IH] using lt_wf_ind. intros a Em Hl.
  assert (Hnd : forall d, d ∉ g_dy g) by (intros; rewrite Hdy; set_solver).
  destruct (decide (a ∈ g_fl g)) as [Hfl|Hfl].
  { apply root_held. split_and!; auto. }
  apply live_not_None in Hl as (n&Hn&U). pose proof (HS a n Hn U Hfl) as Hs.
  unfold settled, can_be_gced in Hs. apply andb_false_iff in Hs as [Hs|Hs].
  - apply N.eqb_neq in Hs. pose proof (wf_refs _ _ _ _ _ W a n Hn U (Hnd a)) as Hr.
    destruct (decide (g_ext g a = 0)) as [He|He].
    + assert (0 < edges (g_dy g) (s_heap s) a) as Hp by lia.
      apply edges_pos in Hp as (p&i&sons&Hp&_&Hin).
      destruct (wf_son _ _ _ _ _ _ _ _ _ W Hp (Hnd p) Hin) as (_&Hlt&_).
      eapply held_son; [|exact Hp|exact Hin]. eapply IH; [|done|congruence]. lia.
    + apply root_held. split_and!; [apply live_not_None; eauto|auto|]. right. left. lia.
  - apply negb_false_iff in Hs. apply root_held. split_and!; [apply live_not_None; eauto|auto|].
    left. exists n. done.
Qed.

(** ** Apply cache after a collection *)

Lemma WF_set_cm g s m : WF g s -> (m = CNone \/ m = g_cm g) -> WF (g_set_cm m g) s.
Proof.
  intros W [->| ->]; [|by destruct g].
  destruct W. constructor; try done. destruct wf_cache as (?&?&_). done.
Qed.

Lemma remove_unused_fields h ac L :
  let f := fun ac (ko : nat * option ent) =>
               match snd ko with
               | Some e => if ent_used h e then ac
                           else ACache (a_size ac - 1) (a_cap ac) (<[fst ko := None]> (a_ents ac))
               | None => ac
               end in
  a_cap (fold_left f L ac) = a_cap ac /\
  length (a_ents (fold_left f L ac)) = length (a_ents ac) /\
  (forall k e, a_ents (fold_left f L ac) !! k = Some (Some e) ->
     a_ents ac !! k = Some (Some e) /\ forall e', (k, Some e') ∈ L -> k < length (a_ents ac) -> ent_used h e' = true).
Proof.
  intros f. revert ac. induction L as [|[j o] L IH]; intros ac; simpl.
  - split_and!; try done. intros k e He. split; [done|]. set_solver.
  - destruct (IH (f ac (j, o))) as (H1&H2&H3).
    assert (Hf : a_cap (f ac (j, o)) = a_cap ac /\ length (a_ents (f ac (j, o))) = length (a_ents ac) /\
       forall k e, a_ents (f ac (j, o)) !! k = Some (Some e) -> a_ents ac !! k = Some (Some e) /\
         (forall e', (k, Some e') = (j, o) -> k < length (a_ents ac) -> ent_used h e' = true)).
    { unfold f; simpl. destruct o as [e|]; [|by split_and!].
      destruct (ent_used h e) eqn:Eu; simpl.
      - split_and!; try done. intros k e0 He0. split; [done|]. intros e' [= -> ->]. done.
      - rewrite insert_length. split_and!; try done. intros k e0 He0.
        destruct (decide (k = j)) as [->|Hne].
        + destruct (decide (j < length (a_ents ac))) as [Hlt|Hge].
          * rewrite list_lookup_insert in He0 by done. done.
          * rewrite list_insert_ge in He0 by lia. split; [done|]. intros; lia.
        + rewrite list_lookup_insert_ne in He0 by done. split; [done|]. intros ? [=]. congruence. }
    destruct Hf as (F1&F2&F3). split_and!; [congruence|congruence|].
    intros k e He. destruct (H3 k e He) as [He1 Hu]. destruct (F3 k e He1) as [He0 Hu0]. split; [done|].
    intros e' [Heq|Hin]%elem_of_cons Hlt; [by eapply Hu0|]. eapply Hu; [done|]. by rewrite F2.
Qed.

Lemma cache_remove_unused_spec h ac :
  a_cap (cache_remove_unused h ac) = a_cap ac /\
  length (a_ents (cache_remove_unused h ac)) = length (a_ents ac) /\
  (forall k e, a_ents (cache_remove_unused h ac) !! k = Some (Some e) ->
     a_ents ac !! k = Some (Some e) /\ ent_used h e = true).
Proof.
  destruct (remove_unused_fields h ac (imap pair (a_ents ac))) as (H1&H2&H3).
  split_and!; try done. intros k e He. destruct (H3 k e He) as [He0 Hu]. split; [done|].
  eapply Hu; [by apply imap_pair_elem|]. by eapply lookup_lt_Some.
Qed.

Lemma is_used_live h a : is_used h a = true -> live h a <> None.
Proof. unfold is_used, live. destruct (h !! a) as [n|]; [|done]. intros ->. done. Qed.

(** evaluation in a smaller heap *)
Lemma sub_Ev h h' a rho v :
  (forall d b, live h' d = Some b -> live h d = Some b) -> Ev (live h') a rho v -> Ev (live h) a rho v.
Proof. intros Hs. induction 1; [eapply Ev_term|eapply Ev_int]; eauto. Qed.

Lemma WF_set_cache g s ac :
  WF g s -> cache_ok c opsem g (s_heap s) ac -> WF g (set_cache ac s).
Proof. intros W Hc. destruct W. constructor; done. Qed.

(** what force_gc and ensure_available do to the heap *)
Record gcrel2 (g : ghost) (s s' : st) : Prop := {
  g2_sub : forall d b, live (s_heap s') d = Some b -> live (s_heap s) d = Some b;
  g2_keeps : keeps g (s_heap s) (s_heap s');
  g2_marked : forall d, marked (s_heap s') d <-> marked (s_heap s) d;
  g2_terms : length (s_terms s') = length (s_terms s);
  g2_specs : length (s_specs s') = length (s_specs s)
}.

Lemma force_gc_spec ok g s :
  WF g s -> g_dy g = [] -> perm_ok c s ->
  wp ok (force_gc c) (fun _ s' =>
    WF g s' /\ gcrel2 g s s' /\ same_order s s' /\ s_defer s' = s_defer s /\ s_adj s' = s_adj s /\
    p_main (s_pool s') = p_main (s_pool s) /\ p_extra (s_pool s') = p_extra (s_pool s) /\
    p_left (s_pool s') = p_left (s_pool s) /\
    (s_count s' <= s_count s)%Z /\
    (p_avail (s_pool s') + s_count s' = p_avail (s_pool s) + s_count s)%Z /\
    (ord c g s -> forall a n, s_heap s' !! a = Some n -> n_used n = true -> a ∉ g_fl g -> settled n)) s.
Proof.
  intros W Hdy P. unfold force_gc. apply wp_bind.
  assert (Hcm0 : CNone <> CValid) by done.
  pose proof (WF_set_cm g s CNone W (or_introl eq_refl)) as W0.
  eapply wp_mono; [apply (collect_garbage_spec ok (g_set_cm CNone g) s W0); [done|done|done]|].
  intros _ s1 (W1&G1&H1). apply wp_modify.
  assert (K1 : keeps g (s_heap s) (s_heap s1)) by apply (gr_keeps _ _ _ G1).
  split.
  - destruct (cache_remove_unused_spec (s_heap s1) (s_cache s1)) as (C1&C2&C3).
    pose proof (wf_cache _ _ _ _ _ W1) as (Hc1&Hc2&_).
    assert (W2 : WF (g_set_cm (g_cm g) g) (set_cache (cache_remove_unused (s_heap s1) (s_cache s1)) s1));
      [|by destruct g].
    pose proof (wf_cache _ _ _ _ _ W) as (_&_&Hm). pose proof W1 as W1'.
    destruct W1. constructor; simpl; try done.
    split_and!; [by rewrite C1|by rewrite C1, C2|]. simpl. destruct (g_cm g) eqn:Ecm; [done| |].
    + intros k e He. apply C3 in He as [He _]. rewrite (gr_cache _ _ _ G1) in He. by eapply Hm.
    + intros k e He. apply C3 in He as [He Hu]. rewrite (gr_cache _ _ _ G1) in He.
      destruct (Hm k e He) as (Ll&Lr&Lres&Hrk&Hev).
      unfold ent_used in Hu. apply andb_true_iff in Hu as [Hu U3]. apply andb_true_iff in Hu as [U1 U2].
      assert (Hsame : forall d, live (s_heap s1) d <> None -> live (s_heap s1) d = live (s_heap s) d).
      { intros d Hd. destruct (live (s_heap s1) d) eqn:E; [|done]. by rewrite (gr_sub _ _ _ G1 _ _ E). }
      split_and!; try (by apply is_used_live).
      * assert (Hrk' : forall d, is_used (s_heap s1) d = true -> Inv.rank c (g_set_cm CValid g) (s_heap s1) d = rank g (s_heap s) d).
        { intros d Hd. unfold Inv.rank. simpl. rewrite Hsame by (by apply is_used_live). done. }
        rewrite !Hrk' by done. done.
      * intros f Hf rho x y Hv Hx Hy.
        assert (Hx' : Ev (live (s_heap s)) (e_l e) rho x) by (eapply sub_Ev; [apply (gr_sub _ _ _ G1)|done]).
        assert (Hy' : Ev (live (s_heap s)) (e_r e) rho y) by (eapply sub_Ev; [apply (gr_sub _ _ _ G1)|done]).
        pose proof (Hev f Hf rho x y Hv Hx' Hy') as Hr.
        destruct (Ev_total _ _ _ _ s1 (e_res e) rho W1') as (w&Hw&_);
          [by apply is_used_live|simpl; rewrite Hdy; set_solver|done|].
        assert (Ev (live (s_heap s)) (e_res e) rho w) as Hw' by (eapply sub_Ev; [apply (gr_sub _ _ _ G1)|done]).
        by rewrite (Ev_det _ _ _ _ _ Hr Hw').
  - destruct G1. split_and!; try done.
Qed.

End gc.
