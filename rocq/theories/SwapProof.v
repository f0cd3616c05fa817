(** * Swapping adjacent variables *)

From stdpp Require Import gmap list.
From Coq Require Import ZArith Lia.
From Verif Require Import Base Ops Tables NodeManager Tools Sift.
From Verif Require Import Heap Inv InvLemmas Prim TabLemmas GC Make.

Local Open Scope nat_scope.

Lemma reach_sub (L L' : positive -> option body) a d :
  (forall e b, L' e = Some b -> L e = Some b) -> reach L' a d -> reach L a d.
Proof. intros H. induction 1; [constructor|]. eapply reach_step; eauto. Qed.

Section dec.
Context (c : cfg) (opsem : Z -> option (Z -> Z -> Z)) (strict : bool).
Notation rank := (rank c).
Notation WF := (WF c opsem strict).

(** the terminals below [a] are also below a node of the floating set *)
Definition anchored (g : ghost) (h : gmap positive node) (a : positive) : Prop :=
  forall t v, reach (live h) a t -> live h t = Some (Term v) ->
    exists f, f ∈ g_fl g /\ reach (live h) f t.

Definition dec_post (g : ghost) (s s' : st) : Prop :=
  WF g s' /\ gcrel g s s' /\ forall d, d ∈ g_dy g -> s_heap s' !! d = s_heap s !! d.

Lemma fl_held g s f : WF g s -> f ∈ g_fl g -> held g (s_heap s) f.
Proof.
  intros W Hf. apply root_held. destruct (wf_fl _ _ _ _ _ W f Hf) as (i&sons&E). split; [congruence|].
  split; [|auto]. intros Hd. by apply (wf_dy _ _ _ _ _ W) in Hd as [? _].
Qed.

Lemma ext_held g s a : WF g s -> 0 < g_ext g a -> held g (s_heap s) a.
Proof.
  intros W Ha. apply root_held. destruct (wf_ext _ _ _ _ _ W a Ha). split; [done|]. auto.
Qed.

Lemma dec_list_spec ok fuel
  (IH : forall g s a ext', WF g s -> g_cm g <> CValid -> (forall d, g_ext g d = ext_inc ext' a d) ->
    anchored g (s_heap s) a -> (g_fl g <> [] -> g_flr g < rank g (s_heap s) a) -> nvars c - rank g (s_heap s) a < fuel ->
    wp ok (dec_ref_try_gc c fuel a) (fun _ s' => dec_post (g_set_ext ext' g) s s') s) :
  forall l g s ext', WF g s -> g_cm g <> CValid -> (forall d, g_ext g d = ext_plus ext' l d) ->
    (forall a, a ∈ l -> anchored g (s_heap s) a /\ (g_fl g <> [] -> g_flr g < rank g (s_heap s) a) /\
       nvars c - rank g (s_heap s) a < fuel) ->
    wp ok (mapM_ (dec_ref_try_gc c fuel) l) (fun _ s' => dec_post (g_set_ext ext' g) s s') s.
Proof.
  induction l as [|a l IHl]; intros g s ext' W Hcm He Hl; simpl.
  - apply wp_ret. split; [|split; [apply gcrel_refl|done]].
    rewrite <- (set_heap_id s). apply WF_hrel; [apply hrel_refl| | | |exact W].
    + intros a n Ha U Hd. rewrite (wf_refs _ _ _ _ _ W a n Ha U Hd), He. unfold ext_plus. simpl. lia.
    + intros. by simplify_eq.
    + intros a Ha. apply (wf_ext _ _ _ _ _ W). rewrite He. unfold ext_plus. lia.
  - apply wp_bind. destruct (Hl a) as (Hp&Hr&Hf); [set_solver|].
    eapply wp_mono.
    { apply (IH g s a (ext_plus ext' l) W Hcm); try done.
      intros d. rewrite He. unfold ext_inc, ext_plus. rewrite count_occ_cons_eq. destruct (decide _); lia. }
    intros _ s1 (W1&G1&D1). set (g1 := g_set_ext (ext_plus ext' l) g) in *.
    assert (Hsame : forall d, d ∈ l -> live (s_heap s1) d = live (s_heap s) d).
    { intros d Hd. apply (gr_keeps _ _ _ G1). apply root_held.
      assert (P : 0 < g_ext g d).
      { rewrite He. unfold ext_plus. apply elem_of_list_In, (count_occ_In Pos.eq_dec) in Hd. simpl. destruct (Pos.eq_dec a d); lia. }
      destruct (wf_ext _ _ _ _ _ W d P). split; [done|]. split; [done|]. right; left. simpl. unfold ext_plus.
      apply elem_of_list_In, (count_occ_In Pos.eq_dec) in Hd. lia. }
    eapply wp_mono.
    { apply (IHl g1 s1 ext' W1); [done|done|]. intros d Hd.
      destruct (Hl d) as (Hp'&Hr'&Hf'); [set_solver|].
      assert (Hrk : rank g1 (s_heap s1) d = rank g (s_heap s) d).
      { unfold Inv.rank. simpl. by rewrite (Hsame d Hd). }
      rewrite Hrk. split; [|done].
      intros t v Ht Htv. destruct (Hp' t v) as (f&Hf0&Hft).
      - eapply reach_sub; [|exact Ht]. apply G1.
      - by apply (gr_sub _ _ _ G1).
      - exists f. split; [done|]. eapply keeps_reach; [apply G1| |exact Hft].
        apply root_held. destruct (wf_fl _ _ _ _ _ W f Hf0) as (i&sons&E). split; [congruence|]. split; [|auto].
        intros Hdy. by apply (wf_dy _ _ _ _ _ W) in Hdy as [? _]. }
    intros _ s2 (W2&G2&D2). split; [|split].
    + exact W2.
    + assert (G1' : gcrel (g_set_ext ext' g) s s1); [|eapply gcrel_trans; [exact G1'|exact G2]].
      destruct G1. constructor; try done. apply keeps_intro.
      * intros d Hd. apply gr_keeps. destruct Hd as (r&(?&?&Hr0)&?). exists r. split; [|done].
        split; [done|]. split; [done|]. simpl in *. unfold ext_plus. destruct Hr0 as [?|[?|?]]; auto. right; left. lia.
      * intros r (Hr1&Hr2&Hr0). apply root_held. split; [|split; [done|]].
        -- assert (held g1 (s_heap s) r) as Hh.
           { apply root_held. split; [done|]. split; [done|]. simpl in *. unfold ext_plus. destruct Hr0 as [?|[?|?]]; auto. right; left. lia. }
           by rewrite (proj2 (gr_keeps r Hh)).
        -- destruct Hr0 as [?|?]; [left; by apply gr_marked|auto].
    + intros d Hd. rewrite (D2 d Hd). by apply D1.
Qed.

Lemma dec_try_spec ok fuel : forall g s a ext', WF g s -> g_cm g <> CValid -> (forall d, g_ext g d = ext_inc ext' a d) ->
  anchored g (s_heap s) a -> (g_fl g <> [] -> g_flr g < rank g (s_heap s) a) -> nvars c - rank g (s_heap s) a < fuel ->
  wp ok (dec_ref_try_gc c fuel a) (fun _ s' => dec_post (g_set_ext ext' g) s s') s.
Proof.
  induction fuel as [|fuel IH]; intros g s a ext' W Hcm He Hanc Hfr Hfuel; [lia|].
  cbn [dec_ref_try_gc]. set (g' := g_set_ext ext' g).
  destruct (wf_ext _ _ _ _ _ W a) as [Hla Hdya].
  { rewrite He. unfold ext_inc. rewrite decide_True by done. lia. }
  apply live_not_None in Hla as (n&Hn&U).
  pose proof (wf_refs _ _ _ _ _ W a n Hn U Hdya) as Hrefs.
  rewrite He in Hrefs. unfold ext_inc in Hrefs. rewrite decide_True in Hrefs by done.
  apply wp_bind. eapply wp_dec_ref; [exact Hn|exact U|lia|].
  set (n1 := rf (n_refs n - 1) n). set (h1 := <[a := n1]> (s_heap s)). set (s1 := set_heap h1 s).
  assert (Hrr : rrel (s_heap s) h1) by (by apply rrel_insert).
  assert (Hh1 : hrel (s_heap s) h1) by (by apply rrel_hrel).
  assert (HL1 : forall d, live h1 d = live (s_heap s) d) by (intros; by apply hrel_live).
  assert (W1 : WF g' s1).
  { apply WF_hrel; try done.
    - intros d m Hd Um Hdd. unfold h1 in Hd. destruct (decide (d = a)) as [->|Hne].
      + rewrite lookup_insert in Hd. simplify_eq. simpl. lia.
      + rewrite lookup_insert_ne in Hd by done. rewrite (wf_refs _ _ _ _ _ W d m Hd Um Hdd), He.
        unfold ext_inc. by rewrite decide_False.
    - intros d m m' Hd Hm Hm' R0 M0. assert (d <> a) by (intros ->; done). unfold h1 in Hm'.
      rewrite lookup_insert_ne in Hm' by done. by simplify_eq.
    - intros d Hd. apply (wf_ext _ _ _ _ _ W). rewrite He. unfold ext_inc. destruct (decide _); lia. }
  assert (HM1 : forall d, marked h1 d <-> marked (s_heap s) d) by (intros; by apply rrel_marked).
  assert (G1 : gcrel g' s s1).
  { constructor; try done; simpl.
    - intros d b. by rewrite HL1.
    - apply hrel_keeps; [done|]. intros r (Hr1&Hr2&Hr0). apply root_held. split; [by rewrite HL1|]. split; [done|].
      destruct Hr0 as [?|?]; [left; by apply HM1|auto]. }
  assert (D1 : forall d, d ∈ g_dy g -> h1 !! d = s_heap s !! d).
  { intros d Hd. unfold h1. rewrite lookup_insert_ne; [done|]. intros <-. done. }
  assert (H1a : h1 !! a = Some n1) by (unfold h1; by rewrite lookup_insert).
  apply wp_bind. eapply wp_getn; [exact H1a|exact U|].
  destruct (can_be_gced n1) eqn:G.
  2:{ apply wp_ret. split; [done|]. split; [done|]. exact D1. }
  unfold can_be_gced in G. apply andb_true_iff in G as [R Mk].
  apply N.eqb_eq in R. apply negb_true_iff in Mk.
  assert (He0 : ext' a = 0 /\ edges (g_dy g) (s_heap s) a = 0).
  { pose proof (wf_refs _ _ _ _ _ W1 a n1 H1a U Hdya) as X. rewrite R in X. simpl in X.
    rewrite (hrel_edges _ (s_heap s)) in X by done. lia. }
  destruct He0 as [He0 Hed0].
  assert (Hnfl : a ∉ g_fl g).
  { intros Hin. assert (g_fl g <> []) by (intros E; rewrite E in Hin; set_solver).
    specialize (Hfr H). unfold Inv.rank in Hfr. rewrite decide_True in Hfr by done. lia. }
  change (n_body n1) with (n_body n). destruct (n_body n) as [v|i sons] eqn:B.
  { (* terminals are never freed here *)
    exfalso. assert (Hl : live (s_heap s) a = Some (Term v)) by (apply live_Some; eauto).
    destruct (Hanc a v (reach_refl _ _) Hl) as (f&Hf&Hfa).
    destruct (wf_fl _ _ _ _ _ W f Hf) as (j&ss&Ef).
    assert (Hfd : f ∉ g_dy g) by (intros Hd; by apply (wf_dy _ _ _ _ _ W) in Hd as [? _]).
    apply reach_inv_r in Hfa as [->|(p&j'&ss'&Hfp&Ep&Hin)]; [congruence|].
    destruct (wf_reach _ _ _ _ _ f p W ltac:(congruence) Hfd Hfp) as (_&Hpd&_).
    assert (0 < edges (g_dy g) (s_heap s) a); [|lia]. apply edges_pos. eauto 10. }
  assert (Hl : live (s_heap s) a = Some (Int i sons)) by (apply live_Some; eauto).
  assert (Hl1 : live h1 a = Some (Int i sons)) by (by rewrite HL1).
  pose proof (WF_start_dying _ _ _ g' s1 a n1 i sons W1 H1a U B R Mk Hdya Hnfl) as W2.
  set (g2 := g_set_ext (ext_plus (g_ext g') sons) (g_set_dy (a :: g_dy g') g')) in *.
  assert (Hrk : forall d, rank g2 h1 d = rank g (s_heap s) d).
  { intros d. unfold Inv.rank. simpl. by rewrite HL1. }
  apply wp_bind. eapply wp_mono.
  { apply (dec_list_spec ok fuel IH sons g2 s1 ext' W2); [done|done|]. intros d Hd.
    destruct (wf_son _ _ _ _ _ a i sons d W Hl Hdya Hd) as (Hld&Hrd&Hdd).
    pose proof (rank_le _ _ _ _ _ d W Hld) as Hrle.
    simpl. rewrite Hrk. split_and!.
    - intros t v Ht Htv. destruct (Hanc t v) as (f&Hf&Hft).
      + eapply reach_step; [exact Hl|exact Hd|]. eapply reach_ext; [|exact Ht]. intros; by rewrite <- HL1.
      + by rewrite <- HL1.
      + exists f. split; [done|]. eapply reach_ext; [|exact Hft]. intros. simpl. by rewrite HL1.
    - intros Hne. specialize (Hfr Hne). lia.
    - lia. }
  intros _ s2 (W3&G2&D2).
  replace (g_set_ext ext' g2) with (g_set_dy (a :: g_dy g) g') in W3, G2, D2 by done.
  assert (H2a : s_heap s2 !! a = Some n1) by (rewrite (D2 a ltac:(set_solver)); exact H1a).
  assert (Hl2 : live (s_heap s2) a = Some (Int i sons)) by (apply live_Some; exists n1; done).
  destruct (wf_node _ _ _ _ _ W a _ Hl) as (Hi&_&_&_).
  destruct (lookup_lt_is_Some_2 (s_tabs s2) i) as [t Ht]; [by rewrite (wf_ntabs _ _ _ _ _ W3)|].
  apply wp_bind. eapply wp_of_opt; [exact Ht|]. apply wp_bind.
  pose proof (wf_tab _ _ _ _ _ W3 i t Ht) as Htab. apply tab_ok_tabP in Htab as [HtP Hsz].
  destruct (tabP_erase _ _ t a HtP) as (t'&Her&HtP'&Hlen'&Hsz'&Hcap').
  { split; simpl; [done|]. eauto. }
  eapply wp_of_opt; [exact Her|].
  apply wp_bind. apply wp_modify. unfold delete_node. apply wp_bind. eapply wp_getn; [exact H2a|done|].
  replace (c_dbg c && n_mark n1) with false by (by rewrite Mk, andb_false_r). apply wp_modify.
  set (s3 := set_pool _ _).
  assert (Hs3h : s_heap s3 = <[a:=freed n1]> (s_heap s2)) by done.
  assert (HL : forall d, live (s_heap s3) d = if decide (d = a) then None else live (s_heap s2) d).
  { intros d. by rewrite Hs3h, live_freed. }
  assert (W4 : WF g' s3).
  { assert (WF (g_set_dy (g_dy g) (g_set_dy (a :: g_dy g) g')) s3) as W4; [|by destruct g].
    unfold s3. apply (WF_free _ _ _ (g_set_dy (a :: g_dy g) g') s2 a n1 (g_dy g)
      (<[i:=t']> (s_tabs s2)) (s_terms s2) (s_specs s2)); try done; simpl.
    - destruct (wf_dy _ _ _ _ _ W3 a) as (_&?&?&?&_&_&_&_&_&E0); [simpl; set_solver|]. exact E0.
    - intros d. rewrite elem_of_cons. naive_solver.
    - set_solver.
    - rewrite insert_length. apply (wf_ntabs _ _ _ _ _ W3).
    - intros j tj Hj. apply tab_ok_tabP. destruct (decide (j = i)) as [->|Hne].
      + rewrite list_lookup_insert in Hj by (by eapply lookup_lt_Some). simplify_eq.
        split; [|rewrite Hsz'; simpl in *; lia].
        eapply tabP_ext; [| |exact HtP'].
        * intros d. unfold inTab; simpl. rewrite live_freed. destruct (decide (d = a)) as [->|].
          -- split; [tauto|]. intros (_&?&?). done.
          -- tauto.
        * intros d [[_ (ss&Hss)] Hne]. unfold keyh. simpl in *.
          erewrite (live_sons_of (<[a:=freed n1]> (s_heap s2))); [|rewrite live_freed, decide_False; done].
          by erewrite live_sons_of.
      + rewrite list_lookup_insert_ne in Hj by done.
        pose proof (wf_tab _ _ _ _ _ W3 j tj Hj) as T. apply tab_ok_tabP in T as [T1 T2]. split; [|done].
        eapply tabP_ext; [| |exact T1].
        * intros d. unfold inTab; simpl. rewrite live_freed. destruct (decide (d = a)) as [->|]; [|done].
          rewrite Hl2. split; [intros (_&?&?); simplify_eq|intros (_&?&?); done].
        * intros d [_ (ss&Hss)]. unfold keyh. simpl in *.
          assert (d <> a) by (intros ->; congruence).
          erewrite (live_sons_of (<[a:=freed n1]> (s_heap s2))); [|rewrite live_freed, decide_False; done].
          by erewrite live_sons_of.
    - intros k d. split; [|tauto]. intros Hk. split; [done|]. intros ->.
      apply (wf_term1 _ _ _ _ _ W3) in Hk as [? ?]. congruence.
    - intros k d. split; [|tauto]. intros Hk. split; [done|]. intros ->.
      apply (wf_spec1 _ _ _ _ _ W3) in Hk as [? ?]. congruence. }
  assert (Hnh : ~ held g' (s_heap s1) a) by (by eapply not_held).
  assert (HM : forall d, marked (s_heap s3) d <-> marked (s_heap s2) d).
  { intros d. rewrite Hs3h. destruct (decide (d = a)) as [->|Hne].
    - unfold marked. rewrite lookup_insert, H2a. split; intros (m&?&?&?); simplify_eq. congruence.
    - by rewrite marked_insert_ne. }
  assert (Hup : forall d, held g' (s_heap s1) d -> held (g_set_dy (a :: g_dy g) g') (s_heap s1) d).
  { intros d (r&Hr&Hrd). exists r. split; [|done]. assert (r <> a) by (intros ->; by apply Hnh, root_held).
    destruct Hr as (?&?&?). split; [done|]. split; [|done]. simpl in *. set_solver. }
  split; [exact W4|]. split.
  - eapply gcrel_trans; [exact G1|]. pose proof (gr_keeps _ _ _ G2) as K2. destruct G2. constructor; try done; simpl; try lia.
    + intros d b. fold s3. rewrite HL. destruct (decide (d = a)); [done|]. auto.
    + fold s3. apply keeps_intro.
      * intros d Hd. rewrite HL, decide_False; [|by intros ->]. apply K2. auto.
      * intros r Hr. assert (r <> a) by (intros ->; by apply Hnh, root_held).
        assert (E : live (s_heap s2) r = live (s_heap s1) r) by (apply K2, Hup, root_held, Hr).
        apply root_held. destruct Hr as (Hr1&Hr2&Hr0). split; [|split; [done|]].
        -- rewrite HL, decide_False, E by done. done.
        -- destruct Hr0 as [Hr0|Hr0]; [left; by apply HM, gr_marked|by right].
    + intros d. etransitivity; [apply HM|apply gr_marked].
    + rewrite list_fmap_insert. rewrite Hcap'. rewrite list_insert_id; [done|]. by rewrite list_lookup_fmap, Ht.
    + simpl in *. lia.
    + simpl in *. lia.
  - intros d Hd. simpl in Hd. rewrite Hs3h, lookup_insert_ne by (by intros <-). rewrite D2 by (simpl; set_solver).
    by apply D1.
Qed.

End dec.
