(** * Basic facts about the invariant: transfer between heaps, counting, holding *)

From stdpp Require Import gmap list.
From Coq Require Import ZArith Lia.
From Verif Require Import Base Ops Tables NodeManager Heap Inv.

Local Open Scope nat_scope.

Lemma live_Some h a b :
  live h a = Some b <-> exists n, h !! a = Some n /\ n_used n = true /\ n_body n = b.
Proof.
  unfold live. destruct (h !! a) as [n|] eqn:E.
  - destruct (n_used n) eqn:U.
    + split; [intros; simplify_eq; eauto|intros (m&?&?&?); simplify_eq; done].
    + split; [done|intros (m&?&?&?); simplify_eq; congruence].
  - split; [done|intros (m&?&?&?); done].
Qed.

Lemma live_of h a n : h !! a = Some n -> n_used n = true -> live h a = Some (n_body n).
Proof. intros. apply live_Some. eauto. Qed.

Lemma live_not_None h a : live h a <> None <-> exists n, h !! a = Some n /\ n_used n = true.
Proof.
  split.
  - intros H. destruct (live h a) eqn:E; [|done]. apply live_Some in E as (n&?&?&?); eauto.
  - intros (n&?&?). rewrite (live_of h a n); done.
Qed.

Lemma live_insert h a n b :
  live (<[a:=n]> h) b = if decide (b = a) then (if n_used n then Some (n_body n) else None) else live h b.
Proof.
  unfold live. destruct (decide (b = a)) as [->|Hne].
  - by rewrite lookup_insert.
  - by rewrite lookup_insert_ne by done.
Qed.

Lemma marked_insert_ne h a n b : b <> a -> marked (<[a:=n]> h) b <-> marked h b.
Proof. intros. unfold marked. by rewrite lookup_insert_ne by done. Qed.

Lemma marked_live h a : marked h a -> live h a <> None.
Proof. intros (n&?&?&?). apply live_not_None. eauto. Qed.

(** ** Heaps that differ in marks and reference counts only *)

Definition hrel (h h' : gmap positive node) : Prop :=
  forall a, match h !! a, h' !! a with
            | Some n, Some n' => n_body n' = n_body n /\ n_used n' = n_used n
            | None, None => True
            | _, _ => False
            end.

Lemma hrel_refl h : hrel h h.
Proof. intros a. by destruct (h !! a). Qed.

Lemma hrel_trans h1 h2 h3 : hrel h1 h2 -> hrel h2 h3 -> hrel h1 h3.
Proof.
  intros A B a. specialize (A a). specialize (B a).
  destruct (h1 !! a), (h2 !! a), (h3 !! a); try done. intuition congruence.
Qed.

Lemma hrel_insert h a n n' :
  h !! a = Some n -> n_body n' = n_body n -> n_used n' = n_used n -> hrel h (<[a:=n']> h).
Proof.
  intros Ha Hb Hu b. destruct (decide (b = a)) as [->|Hne].
  - by rewrite Ha, lookup_insert.
  - rewrite lookup_insert_ne by done. by destruct (h !! b).
Qed.

Lemma hrel_live h h' a : hrel h h' -> live h' a = live h a.
Proof.
  intros H. specialize (H a). unfold live.
  destruct (h !! a), (h' !! a); try done. destruct H as [-> ->]. done.
Qed.

Lemma hrel_sons h h' a : hrel h h' -> sons_of h' a = sons_of h a.
Proof.
  intros H. specialize (H a). unfold sons_of.
  destruct (h !! a), (h' !! a); try done. destruct H as [-> _]. done.
Qed.

Lemma hrel_edges dy h h' a : hrel h h' -> edges dy h' a = edges dy h a.
Proof.
  intros H. symmetry. apply hsum_rel. intros b. specialize (H b).
  destruct (h !! b), (h' !! b); try done. destruct H as [Hb Hu].
  cbn beta. unfold cnt. by rewrite Hb, Hu.
Qed.

Lemma hrel_nlive h h' : hrel h h' -> nlive h' = nlive h.
Proof.
  intros H. symmetry. apply hsum_rel. intros b. specialize (H b).
  destruct (h !! b), (h' !! b); try done. destruct H as [Hb Hu]. cbn beta. by rewrite Hu.
Qed.

Lemma hrel_lookup h h' a n' : hrel h h' -> h' !! a = Some n' ->
  exists n, h !! a = Some n /\ n_body n' = n_body n /\ n_used n' = n_used n.
Proof.
  intros H E. specialize (H a). rewrite E in H. destruct (h !! a); [|done]. naive_solver.
Qed.

Lemma hrel_lookup_l h h' a n : hrel h h' -> h !! a = Some n ->
  exists n', h' !! a = Some n' /\ n_body n' = n_body n /\ n_used n' = n_used n.
Proof.
  intros H E. specialize (H a). rewrite E in H. destruct (h' !! a); [|done]. naive_solver.
Qed.

Section lemmas.
Context (c : cfg) (opsem : Z -> option (Z -> Z -> Z)) (strict : bool).
Notation rank := (rank c).
Notation node_ok := (node_ok c).
Notation tab_ok := (tab_ok c).
Notation ent_ok := (ent_ok c opsem).
Notation cache_ok := (cache_ok c opsem).
Notation WF := (WF c opsem strict).

(** ** Components only depend on the live view *)

Lemma rank_ext g h h' a : live h' a = live h a -> rank g h' a = rank g h a.
Proof. unfold Inv.rank. by intros ->. Qed.

Lemma node_ok_ext g h h' a b :
  (forall d, live h' d = live h d) -> node_ok g h a b -> node_ok g h' a b.
Proof.
  intros E. destruct b as [v|i sons]; simpl; [done|].
  intros (?&?&Hr&Hs). rewrite !(rank_ext g h h') by done.
  split_and!; try done. intros Hdy d Hd. rewrite E, (rank_ext g h h') by done. auto.
Qed.

Lemma tab_ok_ext g h h' i t :
  (forall d, live h' d = live h d) -> tab_ok g h i t -> tab_ok g h' i t.
Proof.
  intros E (?&?&Hb&?). split_and!; try done.
  intros b chain Hc. destruct (Hb b chain Hc) as [? Ha]. split; [done|].
  intros a. rewrite Ha. by rewrite E.
Qed.

Lemma ent_ok_ext g h h' e :
  (forall d, live h' d = live h d) -> ent_ok g h e -> ent_ok g h' e.
Proof.
  intros E (?&?&?&?&Hev). unfold Inv.ent_ok. rewrite !E.
  rewrite !(rank_ext g h h') by done. split_and!; try done.
  intros f Hf rho x y Hv Hx Hy.
  eapply Ev_ext; [exact E|]. eapply Hev; eauto; (eapply Ev_ext; [|eauto]); done.
Qed.

Lemma cache_ok_ext g h h' ac :
  (forall d, live h' d = live h d) -> cache_ok g h ac -> cache_ok g h' ac.
Proof.
  intros E (?&?&Hm). split_and!; try done. destruct (g_cm g); try done.
  intros k e He. eapply ent_ok_ext; eauto.
Qed.

Lemma pool_ok_rel h h' p : hrel h h' -> pool_ok h p -> pool_ok h' p.
Proof.
  intros H [? ? Hf Hu Hn ? ?]. constructor; try done.
  - intros a Ha. destruct (Hf a Ha) as (n&Hn1&Hn2).
    destruct (hrel_lookup_l _ _ _ _ H Hn1) as (n'&?&?&?). exists n'. split; [done|congruence].
  - intros a n' Ha Hu'. destruct (hrel_lookup _ _ _ _ H Ha) as (n&?&?&?).
    apply (Hu a n); congruence.
  - intros a n' Ha. destruct (hrel_lookup _ _ _ _ H Ha) as (n&?&?&?). eauto.
  - by rewrite (hrel_nlive _ _ H).
Qed.

(** changing marks, reference counts and the external references *)
Lemma WF_hrel g s h' e :
  hrel (s_heap s) h' ->
  (forall a n', h' !! a = Some n' -> n_used n' = true -> a ∉ g_dy g ->
     N.to_nat (n_refs n') = e a + edges (g_dy g) (s_heap s) a) ->
  (forall a n n', a ∈ g_dy g -> s_heap s !! a = Some n -> h' !! a = Some n' ->
     n_refs n = 0%N -> n_mark n = false -> n_refs n' = 0%N /\ n_mark n' = false) ->
  (forall a, 0 < e a -> live (s_heap s) a <> None /\ a ∉ g_dy g) ->
  WF g s -> WF (g_set_ext e g) (set_heap h' s).
Proof.
  intros H Hr Hd He W. destruct W.
  assert (E : forall d, live h' d = live (s_heap s) d) by (intros; by apply hrel_live).
  constructor; simpl; try done.
  - intros a b. rewrite E. intros Hb. eapply (node_ok_ext g); eauto.
  - intros a Ha. rewrite E. eauto.
  - intros i t Ht. eapply (tab_ok_ext g); eauto.
  - intros k a Hk. rewrite E. eauto.
  - intros a v. rewrite E. eauto.
  - intros k a Hk. rewrite E. eauto.
  - intros a. rewrite E. eauto.
  - intros a n' Ha Hu Hdy. rewrite (hrel_edges _ _ _ _ H). eauto.
  - intros a. rewrite E. auto.
  - intros a Ha. destruct (wf_dy a Ha) as (?&i&sons&n&Hn&?&?&?&?&?). split; [done|].
    destruct (hrel_lookup_l _ _ _ _ H Hn) as (n'&?&?&?).
    destruct (Hd a n n') as [? ?]; auto.
    exists i, sons, n'. split_and!; try done; try congruence.
    by rewrite (hrel_edges _ _ _ _ H).
  - by eapply pool_ok_rel.
  - by rewrite (hrel_nlive _ _ H).
  - eapply (cache_ok_ext g); eauto.
  - intros Hcn. destruct (wf_canon Hcn) as [C1 C2]. split; intros *; rewrite !E; eauto.
Qed.

(** changing marks only *)
Lemma WF_marks g s h' :
  hrel (s_heap s) h' ->
  (forall a n n', s_heap s !! a = Some n -> h' !! a = Some n' -> n_refs n' = n_refs n) ->
  (forall a n n', a ∈ g_dy g -> s_heap s !! a = Some n -> h' !! a = Some n' -> n_mark n' = n_mark n) ->
  WF g s -> WF g (set_heap h' s).
Proof.
  intros H Hr Hm W.
  replace g with (g_set_ext (g_ext g) g) by (by destruct g).
  apply WF_hrel; try done; destruct g as [e dy fl flr lv cm cn]; simpl in *.
  - intros a n' Ha Hu Hdy. destruct (hrel_lookup _ _ _ _ H Ha) as (n&Hn&?&?).
    rewrite (Hr a n n') by done. rewrite (wf_refs _ _ _ _ _ W a n); simpl; auto. congruence.
  - intros a n n' Hdy Ha Ha' Hrn Hmn. rewrite (Hr a n n'), (Hm a n n') by done. done.
  - intros a Ha. by apply (wf_ext _ _ _ _ _ W).
Qed.

(** ** Edges and references *)

Lemma cnt_pos a n : 0 < cnt a n <-> exists i sons, n_body n = Int i sons /\ a ∈ sons.
Proof.
  unfold cnt. destruct (n_body n) as [v|i sons].
  - split; [lia|intros (?&?&?&?); done].
  - split.
    + intros H. exists i, sons. split; [done|]. apply elem_of_list_In.
      by apply (count_occ_In Pos.eq_dec).
    + intros (j&ss&?&Ha); simplify_eq. apply elem_of_list_In in Ha.
      by apply (count_occ_In Pos.eq_dec) in Ha.
Qed.

Lemma edges_pos dy h a :
  0 < edges dy h a <->
  exists p i sons, live h p = Some (Int i sons) /\ p ∉ dy /\ a ∈ sons.
Proof.
  split.
  - intros H. apply hsum_pos in H as (p&n&Hp&H).
    destruct (n_used n) eqn:U; simpl in H; [|lia].
    case_bool_decide; simpl in H; [lia|].
    apply cnt_pos in H as (i&sons&?&?). exists p, i, sons. split_and!; try done.
    apply live_Some; eauto.
  - intros (p&i&sons&Hl&Hdy&Ha). apply live_Some in Hl as (n&Hn&Hu&Hb).
    eapply Nat.lt_le_trans; [|apply (hsum_le _ h p n Hn)].
    cbn beta. rewrite Hu, bool_decide_false by done. simpl. apply cnt_pos; eauto.
Qed.

(** a node that is neither marked nor referenced is not held *)
Lemma not_held g s a n :
  WF g s -> s_heap s !! a = Some n -> n_used n = true -> a ∉ g_dy g -> a ∉ g_fl g ->
  n_refs n = 0%N -> n_mark n = false -> ~ held g (s_heap s) a.
Proof.
  intros W Ha Hu Hdy Hfl Hr Hm (r&(Hl&Hd&Hroot)&Hreach).
  pose proof (wf_refs _ _ _ _ _ W a n Ha Hu Hdy) as Hrefs. rewrite Hr in Hrefs. simpl in Hrefs.
  assert (edges (g_dy g) (s_heap s) a = 0 /\ g_ext g a = 0) as [He Hx] by lia.
  apply reach_inv_r in Hreach as [->|(p&i&sons&Hrp&Hp&Hin)].
  - destruct Hroot as [(n'&?&?&?)|[?|?]]; [congruence|lia|done].
  - assert (p ∉ g_dy g).
    { intros Hpd. apply reach_inv_r in Hrp as [->|(q&j&ss&Hrq&Hq&Hin')]; [done|].
      clear Hrefs He Hin. revert q j ss Hrq Hq Hin'. revert p i sons Hp Hpd.
      assert (Hgen : forall x y, reach (live (s_heap s)) x y -> x ∉ g_dy g -> y ∈ g_dy g -> False).
      { induction 1 as [x|x y z i sons Hx' Hy _ IH]; intros Hxd Hzd; [done|].
        apply IH; [|done]. intros Hyd.
        destruct (wf_dy _ _ _ _ _ W y Hyd) as (_&i'&ss&m&_&_&_&_&_&E0).
        assert (0 < edges (g_dy g) (s_heap s) y); [|lia].
        apply edges_pos. eauto 10. }
      intros p i sons Hp Hpd q j ss Hrq Hq Hin'.
      eapply Hgen; [|exact Hd|exact Hpd].
      eapply reach_trans; [exact Hrq|]. eapply reach_son; eauto. }
    assert (0 < edges (g_dy g) (s_heap s) a); [|lia].
    apply edges_pos. eauto 10.
Qed.

(** sons of live nodes are live and deeper *)
Lemma wf_son g s a i sons d :
  WF g s -> live (s_heap s) a = Some (Int i sons) -> a ∉ g_dy g -> d ∈ sons ->
  live (s_heap s) d <> None /\ rank g (s_heap s) a < rank g (s_heap s) d /\ d ∉ g_dy g.
Proof.
  intros W Ha Hdy Hd. destruct (wf_node _ _ _ _ _ W a _ Ha) as (?&?&?&Hs).
  destruct (Hs Hdy d Hd). split_and!; try done.
  intros Hdd. destruct (wf_dy _ _ _ _ _ W d Hdd) as (_&?&?&?&_&_&_&_&_&E0).
  assert (0 < edges (g_dy g) (s_heap s) d); [|lia]. apply edges_pos. eauto 10.
Qed.

Lemma wf_reach g s a d :
  WF g s -> live (s_heap s) a <> None -> a ∉ g_dy g -> reach (live (s_heap s)) a d ->
  live (s_heap s) d <> None /\ d ∉ g_dy g /\ (a = d \/ rank g (s_heap s) a < rank g (s_heap s) d).
Proof.
  intros W Hl Hdy H. revert Hl Hdy.
  induction H as [a|a b d i sons Ha Hb _ IH]; intros Hl Hdy.
  - auto.
  - destruct (wf_son g s a i sons b W Ha Hdy Hb) as (?&?&?).
    destruct IH as (?&?&[->|?]); auto. split_and!; auto. right. lia.
Qed.

Lemma held_live g s a : WF g s -> held g (s_heap s) a -> live (s_heap s) a <> None /\ a ∉ g_dy g.
Proof.
  intros W (r&(Hl&Hd&_)&Hr). destruct (wf_reach g s r a W Hl Hd Hr) as (?&?&?). auto.
Qed.

Lemma held_reach g h a b : held g h a -> reach (live h) a b -> held g h b.
Proof. intros (r&?&?) ?. exists r. split; [done|]. by eapply reach_trans. Qed.

Lemma held_son g h a i sons b : held g h a -> live h a = Some (Int i sons) -> b ∈ sons -> held g h b.
Proof. intros. eapply held_reach; eauto. by eapply reach_son. Qed.

Lemma root_held g h a : root g h a -> held g h a.
Proof. intros. exists a. split; [done|constructor]. Qed.

Lemma keeps_refl g h : keeps g h h.
Proof. intros a H; auto. Qed.

Lemma keeps_trans g h1 h2 h3 : keeps g h1 h2 -> keeps g h2 h3 -> keeps g h1 h3.
Proof.
  intros A B a Ha. destruct (A a Ha) as [Ha2 E2]. destruct (B a Ha2) as [Ha3 E3].
  split; [done|congruence].
Qed.

(** meaning is kept *)
Lemma keeps_Ev g h h' a rho v : keeps g h h' -> held g h a -> Ev (live h) a rho v -> Ev (live h') a rho v.
Proof.
  intros K Ha. apply Ev_agree. intros b Hb. apply K. by eapply held_reach.
Qed.

Lemma keeps_Ev_inv g h h' a rho v : keeps g h h' -> held g h a -> Ev (live h') a rho v -> Ev (live h) a rho v.
Proof.
  intros K Ha H. revert Ha.
  induction H as [a rho v H|a rho i sons b v H Hb _ IH]; intros Ha.
  - apply Ev_term. by rewrite <- (proj2 (K a Ha)).
  - assert (live h a = Some (Int i sons)) by (by rewrite <- (proj2 (K a Ha))).
    eapply Ev_int; eauto. apply IH. eapply held_son; eauto. by eapply elem_of_list_lookup_2.
Qed.

Lemma keeps_reach g h h' a b : keeps g h h' -> held g h a -> reach (live h) a b -> reach (live h') a b.
Proof. intros K Ha. apply reach_agree. intros d Hd. apply K. by eapply held_reach. Qed.

Lemma keeps_rank g h h' a : keeps g h h' -> held g h a -> rank g h' a = rank g h a.
Proof. intros K Ha. apply rank_ext. by apply K. Qed.

(** roots survive, then everything held survives *)
Lemma keeps_intro g h h' :
  (forall a, held g h a -> live h' a = live h a) ->
  (forall r, root g h r -> held g h' r) ->
  keeps g h h'.
Proof.
  intros L R a Ha. split; [|auto]. destruct Ha as (r&Hr&Hra).
  eapply held_reach; [by apply R|]. eapply reach_agree; [|exact Hra].
  intros b Hb. apply L. exists r. eauto.
Qed.

(** ** Totality of evaluation *)

Lemma rank_le g s a : WF g s -> live (s_heap s) a <> None -> rank g (s_heap s) a <= nvars c.
Proof.
  intros W H. destruct (live (s_heap s) a) as [b|] eqn:E; [|done].
  destruct b as [v|i sons].
  - destruct (wf_node _ _ _ _ _ W a _ E) as [_ Hfl]. unfold Inv.rank. rewrite E, decide_False by done. done.
  - destruct (wf_node _ _ _ _ _ W a _ E) as (_&_&?&_). lia.
Qed.

Lemma Ev_total g s a rho :
  WF g s -> live (s_heap s) a <> None -> a ∉ g_dy g -> valid c rho ->
  exists v, Ev (live (s_heap s)) a rho v /\ tval c v.
Proof.
  intros W. remember (nvars c - rank g (s_heap s) a) as m eqn:Em.
  revert a Em. induction m as [m IH] using lt_wf_ind. intros a Em Ha Hdy Hv.
  destruct (live (s_heap s) a) as [b|] eqn:E; [|done].
  pose proof (wf_node _ _ _ _ _ W a b E) as Hok. destruct b as [v|i sons].
  - exists v. split; [by apply Ev_term|]. apply Hok.
  - destruct Hok as (Hi&Hlen&Hr&_).
    destruct (sons !! rho i) as [d|] eqn:Hd.
    2:{ apply lookup_ge_None in Hd. specialize (Hv i Hi). lia. }
    assert (d ∈ sons) as Hin by (by eapply elem_of_list_lookup_2).
    destruct (wf_son g s a i sons d W E Hdy Hin) as (Hl&Hrk&Hd').
    pose proof (rank_le g s d W Hl).
    destruct (IH (nvars c - rank g (s_heap s) d)) with (a := d) as (v&Hv'&?); auto; [lia|].
    exists v. split; [|done]. eapply Ev_int; eauto.
Qed.

End lemmas.
