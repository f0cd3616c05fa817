(** * Specifications of the node primitives *)

From stdpp Require Import gmap list.
From Coq Require Import ZArith Lia.
From Verif Require Import Base Ops Tables NodeManager Heap Inv InvLemmas.

Local Open Scope nat_scope.

Lemma set_heap_id s : set_heap (s_heap s) s = s.
Proof. by destruct s. Qed.
Lemma set_heap_set_heap h1 h2 s : set_heap h2 (set_heap h1 s) = set_heap h2 s.
Proof. done. Qed.

Lemma same_order_refl s : same_order s s.
Proof. by repeat split. Qed.
Lemma same_order_trans s1 s2 s3 : same_order s1 s2 -> same_order s2 s3 -> same_order s1 s3.
Proof.
  intros (a1&a2&a3&a4&a5&a6) (b1&b2&b3&b4&b5&b6). unfold same_order.
  split_and!; try congruence. intros E. rewrite b6, a6 by congruence. done.
Qed.

Lemma wp_getn ok a n (Q : node -> st -> Prop) s :
  s_heap s !! a = Some n -> n_used n = true -> Q n s -> wp ok (getn a) Q s.
Proof. intros H U HQ. unfold wp, getn. by rewrite H, U. Qed.

Lemma wp_getn_live ok a b (Q : node -> st -> Prop) s :
  live (s_heap s) a = Some b ->
  (forall n, s_heap s !! a = Some n -> n_used n = true -> n_body n = b -> Q n s) ->
  wp ok (getn a) Q s.
Proof. intros H HQ. apply live_Some in H as (n&?&?&?). eapply wp_getn; eauto. Qed.

Lemma wp_get_int ok a i sons (Q : nat * list positive -> st -> Prop) s :
  live (s_heap s) a = Some (Int i sons) -> Q (i, sons) s -> wp ok (get_int a) Q s.
Proof.
  intros H HQ. apply wp_bind. eapply wp_getn_live; [done|]. intros n _ _ ->. done.
Qed.

Lemma wp_get_son ok a i sons k b (Q : positive -> st -> Prop) s :
  live (s_heap s) a = Some (Int i sons) -> sons !! k = Some b -> Q b s -> wp ok (get_son a k) Q s.
Proof.
  intros H Hk HQ. apply wp_bind. eapply wp_get_int; [done|]. by eapply wp_of_opt.
Qed.

Lemma wp_level_of_index ok i l (Q : nat -> st -> Prop) s :
  s_i2l s !! i = Some l -> Q l s -> wp ok (level_of_index i) Q s.
Proof. intros H HQ. unfold wp, level_of_index. by rewrite H. Qed.

Lemma wp_index_at ok l i (Q : nat -> st -> Prop) s :
  s_l2i s !! l = Some i -> Q i s -> wp ok (index_at l) Q s.
Proof. intros H HQ. unfold wp, index_at. by rewrite H. Qed.

(** ** Marks *)

Definition mk (b : bool) (n : node) : node := Node (n_body n) b (n_used n) (n_refs n).

(** only marks differ *)
Definition mrel (h h' : gmap positive node) : Prop :=
  forall a, match h !! a, h' !! a with
            | Some n, Some n' => n' = mk (n_mark n') n
            | None, None => True
            | _, _ => False
            end.

Lemma mrel_refl h : mrel h h.
Proof. intros a. destruct (h !! a) as [[]|]; done. Qed.
Lemma mrel_trans h1 h2 h3 : mrel h1 h2 -> mrel h2 h3 -> mrel h1 h3.
Proof.
  intros A B a. specialize (A a). specialize (B a).
  destruct (h1 !! a) as [[]|], (h2 !! a) as [[]|], (h3 !! a) as [[]|]; try done.
  unfold mk in *; simpl in *. congruence.
Qed.
Lemma mrel_hrel h h' : mrel h h' -> hrel h h'.
Proof.
  intros A a. specialize (A a). destruct (h !! a) as [[]|], (h' !! a) as [[]|]; try done.
  unfold mk in *; simpl in *. split; congruence.
Qed.
Lemma mrel_insert h a n b : h !! a = Some n -> mrel h (<[a:=mk b n]> h).
Proof.
  intros Ha d. destruct (decide (d = a)) as [->|Hne].
  - by rewrite Ha, lookup_insert.
  - rewrite lookup_insert_ne by done. destruct (h !! d) as [[]|]; done.
Qed.
Lemma mrel_refs h h' a n n' : mrel h h' -> h !! a = Some n -> h' !! a = Some n' -> n_refs n' = n_refs n.
Proof. intros A H H'. specialize (A a). rewrite H, H' in A. rewrite A. done. Qed.

Lemma marked_mk h a n b d :
  h !! a = Some n -> n_used n = true ->
  marked (<[a:=mk b n]> h) d <-> (if decide (d = a) then b = true else marked h d).
Proof.
  intros Ha U. destruct (decide (d = a)) as [->|Hne].
  - unfold marked. rewrite lookup_insert. split.
    + intros (m&?&?&?). simplify_eq. done.
    + intros ->. exists (mk true n). done.
  - by rewrite marked_insert_ne.
Qed.

Lemma wp_set_mark ok b a (Q : unit -> st -> Prop) s :
  live (s_heap s) a <> None ->
  (forall n, s_heap s !! a = Some n -> n_used n = true ->
     Q tt (set_heap (<[a := mk b n]> (s_heap s)) s)) ->
  wp ok (set_mark b a) Q s.
Proof.
  intros Hl HQ. apply live_not_None in Hl as (n&Hn&U).
  unfold set_mark, modn. apply wp_bind. eapply wp_getn; eauto. apply wp_modify. apply (HQ n Hn U).
Qed.

(** unmarking a list *)
Lemma wp_unmark_all ok l (Q : unit -> st -> Prop) s :
  (forall a, a ∈ l -> live (s_heap s) a <> None) ->
  (forall h', mrel (s_heap s) h' -> (forall d, marked h' d <-> marked (s_heap s) d /\ d ∉ l) ->
     Q tt (set_heap h' s)) ->
  wp ok (mapM_ (set_mark false) l) Q s.
Proof.
  revert s Q. induction l as [|a l IH]; intros s Q Hl HQ; simpl.
  - apply wp_ret. rewrite <- (set_heap_id s). apply HQ; [apply mrel_refl|]. set_solver.
  - apply wp_bind. apply wp_set_mark; [apply Hl; set_solver|].
    intros n Hn U. apply IH; simpl.
    + intros d Hd. rewrite (hrel_live (s_heap s)) by (by apply mrel_hrel, mrel_insert).
      apply Hl. set_solver.
    + intros h' Hm Hd. apply HQ.
      * eapply mrel_trans; [by apply mrel_insert|done].
      * intros d. rewrite Hd. rewrite (marked_mk (s_heap s) a n false d Hn U).
        destruct (decide (d = a)); set_solver.
Qed.

(** ** Reference counts *)

Definition rf (r : N) (n : node) : node := Node (n_body n) (n_mark n) (n_used n) r.

(** only reference counts differ *)
Definition rrel (h h' : gmap positive node) : Prop :=
  forall a, match h !! a, h' !! a with
            | Some n, Some n' => n' = rf (n_refs n') n
            | None, None => True
            | _, _ => False
            end.
Lemma rrel_refl h : rrel h h.
Proof. intros a. destruct (h !! a) as [[]|]; done. Qed.
Lemma rrel_trans h1 h2 h3 : rrel h1 h2 -> rrel h2 h3 -> rrel h1 h3.
Proof.
  intros A B a. specialize (A a). specialize (B a).
  destruct (h1 !! a) as [[]|], (h2 !! a) as [[]|], (h3 !! a) as [[]|]; try done.
  unfold rf in *; simpl in *. congruence.
Qed.
Lemma rrel_hrel h h' : rrel h h' -> hrel h h'.
Proof.
  intros A a. specialize (A a). destruct (h !! a) as [[]|], (h' !! a) as [[]|]; try done.
  unfold rf in *; simpl in *. split; congruence.
Qed.
Lemma rrel_insert h a n r : h !! a = Some n -> rrel h (<[a:=rf r n]> h).
Proof.
  intros Ha d. destruct (decide (d = a)) as [->|Hne].
  - by rewrite Ha, lookup_insert.
  - rewrite lookup_insert_ne by done. destruct (h !! d) as [[]|]; done.
Qed.
Lemma rrel_mark h h' a n n' : rrel h h' -> h !! a = Some n -> h' !! a = Some n' -> n_mark n' = n_mark n.
Proof. intros A H H'. specialize (A a). rewrite H, H' in A. rewrite A. done. Qed.
Lemma rrel_marked h h' d : rrel h h' -> marked h' d <-> marked h d.
Proof.
  intros A. specialize (A d). unfold marked.
  destruct (h !! d) as [n|], (h' !! d) as [n'|]; try done.
  split; intros (m&?&?&?); simplify_eq; rewrite A in *; eauto.
Qed.

Lemma wp_inc_ref (ok : err -> Prop) a n (Q : unit -> st -> Prop) s :
  ok ERefOver -> s_heap s !! a = Some n -> n_used n = true ->
  Q tt (set_heap (<[a := rf (n_refs n + 1) n]> (s_heap s)) s) ->
  wp ok (inc_ref a) Q s.
Proof.
  intros Hok Hn U HQ. unfold inc_ref. apply wp_bind. eapply wp_getn; eauto.
  destruct (_ <? _)%N; [|done]. apply wp_modify. done.
Qed.

Lemma wp_dec_ref ok a n (Q : unit -> st -> Prop) s :
  s_heap s !! a = Some n -> n_used n = true -> n_refs n <> 0%N ->
  Q tt (set_heap (<[a := rf (n_refs n - 1) n]> (s_heap s)) s) ->
  wp ok (dec_ref a) Q s.
Proof.
  intros Hn U Hr HQ. unfold dec_ref. apply wp_bind. eapply wp_getn; eauto.
  rewrite (proj2 (N.eqb_neq _ _) Hr). apply wp_modify. done.
Qed.

Lemma count_occ_cons_eq a b l :
  count_occ Pos.eq_dec (b :: l) a = (if decide (a = b) then 1 else 0) + count_occ Pos.eq_dec l a.
Proof. simpl. destruct (Pos.eq_dec b a), (decide (a = b)); subst; done || lia. Qed.

Lemma wp_inc_refs (ok : err -> Prop) l (Q : unit -> st -> Prop) s :
  ok ERefOver ->
  (forall a, a ∈ l -> live (s_heap s) a <> None) ->
  (forall h', rrel (s_heap s) h' ->
     (forall d n n', s_heap s !! d = Some n -> h' !! d = Some n' ->
        N.to_nat (n_refs n') = N.to_nat (n_refs n) + count_occ Pos.eq_dec l d) ->
     Q tt (set_heap h' s)) ->
  wp ok (mapM_ inc_ref l) Q s.
Proof.
  intros Hok. revert s Q. induction l as [|a l IH]; intros s Q Hl HQ; simpl.
  - apply wp_ret. rewrite <- (set_heap_id s). apply HQ; [apply rrel_refl|].
    intros; simplify_eq. simpl. lia.
  - apply wp_bind. destruct (proj1 (live_not_None (s_heap s) a)) as (n&Hn&U); [apply Hl; set_solver|].
    eapply wp_inc_ref; eauto. apply IH; simpl.
    + intros d Hd. rewrite (hrel_live (s_heap s)) by (by apply rrel_hrel, rrel_insert).
      apply Hl. set_solver.
    + intros h' Hr Hc. apply HQ.
      * eapply rrel_trans; [by apply rrel_insert|done].
      * intros d m m' Hm Hm'. change (a :: l) with ([a] ++ l).
        destruct (decide (d = a)) as [->|Hne].
        -- rewrite (Hc a (rf (n_refs n + 1) n) m'); [|apply lookup_insert|done].
           simplify_eq. simpl. destruct (Pos.eq_dec a a); [|done]. lia.
        -- rewrite (Hc d m m'); [|by rewrite lookup_insert_ne|done].
           simpl. destruct (Pos.eq_dec a d); [congruence|]. lia.
Qed.

Lemma wp_dec_refs ok l (Q : unit -> st -> Prop) s :
  (forall a, a ∈ l -> exists n, s_heap s !! a = Some n /\ n_used n = true /\
                                count_occ Pos.eq_dec l a <= N.to_nat (n_refs n)) ->
  (forall h', rrel (s_heap s) h' ->
     (forall d n n', s_heap s !! d = Some n -> h' !! d = Some n' ->
        N.to_nat (n_refs n') + count_occ Pos.eq_dec l d = N.to_nat (n_refs n)) ->
     (forall d, d ∉ l -> h' !! d = s_heap s !! d) ->
     Q tt (set_heap h' s)) ->
  wp ok (mapM_ dec_ref l) Q s.
Proof.
  revert s Q. induction l as [|a l IH]; intros s Q Hl HQ; simpl.
  - apply wp_ret. rewrite <- (set_heap_id s). apply HQ; [apply rrel_refl| |done].
    intros; simplify_eq. simpl. lia.
  - apply wp_bind. destruct (Hl a) as (n&Hn&U&Hc); [set_solver|].
    simpl in Hc. destruct (Pos.eq_dec a a); [|done].
    eapply wp_dec_ref; eauto; [lia|]. apply IH; simpl.
    + intros d Hd. destruct (Hl d) as (m&Hm&Um&Hcm); [set_solver|].
      simpl in Hcm. destruct (decide (d = a)) as [->|Hne].
      * simplify_eq. exists (rf (n_refs n - 1) n). rewrite lookup_insert. split_and!; try done.
        simpl. lia.
      * exists m. rewrite lookup_insert_ne by done. split_and!; try done.
        destruct (Pos.eq_dec a d); lia.
    + intros h' Hr Hcn Ho. apply HQ.
      * eapply rrel_trans; [by apply rrel_insert|done].
      * intros d m m' Hm Hm'. destruct (decide (d = a)) as [->|Hne].
        -- specialize (Hcn a (rf (n_refs n - 1) n) m'). rewrite lookup_insert in Hcn.
           simplify_eq. simpl. destruct (Pos.eq_dec a a); [|done].
           specialize (Hcn eq_refl Hm'). simpl in Hcn. lia.
        -- specialize (Hcn d m m'). rewrite lookup_insert_ne in Hcn by done.
           simpl. destruct (Pos.eq_dec a d); [congruence|]. auto.
      * intros d Hd. rewrite Ho by set_solver. rewrite lookup_insert_ne; set_solver.
Qed.

Section prim.
Context (c : cfg) (opsem : Z -> option (Z -> Z -> Z)) (strict : bool).
Notation rank := (rank c).
Notation WF := (WF c opsem strict).
Notation sstep := (sstep c opsem strict).

Lemma grown_same g s s' : cells s' = cells s -> p_extra (s_pool s') = p_extra (s_pool s) -> grown c g s s'.
Proof. intros E X _ _. split; [done|by left]. Qed.
Lemma grown_trans g s1 s2 s3 : grown c g s1 s2 -> grown c g s2 s3 -> same_order s1 s2 ->
  keeps g (s_heap s2) (s_heap s3) -> grown c g s1 s3.
Proof.
  intros G1 G2 (E1&E2&E3&_&E4&_) K O A. destruct (G1 O A) as [X1 H1].
  destruct G2 as [X2 H2]; [|by rewrite E4|].
  { destruct O as [P O]. split; [|by rewrite E2]. destruct P. constructor; rewrite ?E1, ?E2; done. }
  split; [congruence|]. destruct H2 as [H2|(m&l&C&N&L&T)].
  - destruct H1 as [H1|(m&l&C&N&L&T)]; [left; congruence|]. right. exists m, l.
    split; [congruence|]. split; [done|]. split; [|done]. intros a Ha. by apply K, L.
  - right. exists m, l. split; [congruence|]. split; [done|]. split; [done|]. by rewrite <- E3.
Qed.
Lemma sstep_refl g s : WF g s -> sstep g s s.
Proof. intros. constructor; [done|apply keeps_refl|apply same_order_refl|by apply grown_same]. Qed.
Lemma sstep_trans g s1 s2 s3 : sstep g s1 s2 -> sstep g s2 s3 -> sstep g s1 s3.
Proof.
  intros [? ? ? ?] [? ? ? ?]. constructor; [done|eapply keeps_trans; eauto|eapply same_order_trans; eauto|eapply grown_trans; eauto].
Qed.

Lemma WF_mrel g s h' :
  mrel (s_heap s) h' -> (forall a, a ∈ g_dy g -> marked h' a -> marked (s_heap s) a) ->
  WF g s -> WF g (set_heap h' s).
Proof.
  intros H Hd W. apply WF_marks; try done.
  - by apply mrel_hrel.
  - intros; by eapply mrel_refs.
  - intros a n n' Hdy Ha Ha'. destruct (wf_dy _ _ _ _ _ W a Hdy) as (_&i&sons&m&?&?&?&?&Hm&?).
    simplify_eq. rewrite Hm. specialize (H a). rewrite Ha, Ha' in H.
    destruct (n_mark n') eqn:E; [|done].
    destruct (Hd a Hdy) as (m&?&?&?); [|simplify_eq; congruence].
    exists n'. split_and!; try done. rewrite H. done.
Qed.

Lemma hrel_held g h h' a :
  hrel h h' -> (forall r, root g h r -> held g h' r) -> held g h a -> held g h' a.
Proof.
  intros H Hr (r&Hroot&Hreach). eapply held_reach; [by apply Hr|].
  eapply reach_ext; [|done]. intros. by apply hrel_live.
Qed.

Lemma hrel_keeps g h h' :
  hrel h h' -> (forall r, root g h r -> held g h' r) -> keeps g h h'.
Proof.
  intros H Hr a Ha. split; [by eapply hrel_held|by apply hrel_live].
Qed.

(** set_marked *)
Lemma wp_mark g (ok : err -> Prop) a (Q : unit -> st -> Prop) s :
  WF g s -> live (s_heap s) a <> None -> a ∉ g_dy g ->
  (forall h', let s' := set_heap h' s in
     sstep g s s' -> mrel (s_heap s) h' -> root g h' a ->
     (forall d, marked h' d <-> marked (s_heap s) d \/ d = a) -> Q tt s') ->
  wp ok (set_mark true a) Q s.
Proof.
  intros W Hl Hdy HQ. apply wp_set_mark; [done|]. intros n Hn U.
  assert (Hm : mrel (s_heap s) (<[a:=mk true n]> (s_heap s))) by (by apply mrel_insert).
  assert (HM : forall d, marked (<[a:=mk true n]> (s_heap s)) d <-> marked (s_heap s) d \/ d = a).
  { intros d. rewrite (marked_mk _ a n true d Hn U). destruct (decide (d = a)); naive_solver. }
  apply HQ; try done.
  - constructor; [|apply hrel_keeps; [by apply mrel_hrel|]|by repeat split|by apply grown_same].
    + apply WF_mrel; try done. intros d Hd. rewrite HM. intros [?| ->]; done.
    + intros r (Hr&Hrd&Hroot). apply root_held. split; [|split; [done|]].
      * rewrite (hrel_live (s_heap s)); [done|by apply mrel_hrel].
      * rewrite HM. tauto.
  - split; [|split; [done|]].
    + rewrite (hrel_live (s_heap s)); [done|by apply mrel_hrel].
    + left. apply HM. by right.
Qed.

End prim.
