(** * Unique tables as sets of nodes *)

From stdpp Require Import gmap list.
From Coq Require Import ZArith Lia.
From Verif Require Import Base Ops Tables NodeManager Heap Inv InvLemmas.

Local Open Scope nat_scope.

(** [t] holds exactly the nodes satisfying [P], each once, in the bucket of its key *)
Definition tabP (key : positive -> N) (P : positive -> Prop) (t : utab) : Prop :=
  (0 < t_cap t)%N /\
  length (t_buckets t) = N.to_nat (t_cap t) /\
  forall b chain, t_buckets t !! b = Some chain ->
    NoDup chain /\ forall a, a ∈ chain <-> P a /\ bucket_of t (key a) = b.

Definition tlen (t : utab) : nat := length (concat (t_buckets t)).

Lemma bucket_lt t k : (0 < t_cap t)%N -> bucket_of t k < N.to_nat (t_cap t).
Proof. intros. unfold bucket_of. pose proof (N.mod_upper_bound k (t_cap t)). lia. Qed.

Lemma tabP_ext key key' P P' t :
  (forall a, P a <-> P' a) -> (forall a, P a -> key' a = key a) -> tabP key P t -> tabP key' P' t.
Proof.
  intros HP Hk (?&?&H). split_and!; try done. intros b chain Hb.
  destruct (H b chain Hb) as [? Hc]. split; [done|]. intros a. rewrite Hc, <- HP.
  split; intros [? ?]; split; auto; rewrite Hk in *; auto.
Qed.

Lemma concat_insert {A} (B : list (list A)) b ch ch' :
  B !! b = Some ch -> length (concat (<[b:=ch']> B)) + length ch = length (concat B) + length ch'.
Proof.
  revert b. induction B as [|x B IH]; intros [|b] Hb; simplify_eq/=; rewrite !app_length; [lia|].
  specialize (IH b Hb). lia.
Qed.

Lemma elem_of_concat {A} (B : list (list A)) a :
  a ∈ concat B <-> exists b ch, B !! b = Some ch /\ a ∈ ch.
Proof.
  induction B as [|x B IH]; simpl.
  - split; [set_solver|intros (b&ch&H&_)]. by destruct b.
  - rewrite elem_of_app, IH. split.
    + intros [?|(b&ch&?&?)]; [exists 0, x; done|exists (S b), ch; done].
    + intros ([|b]&ch&Hb&?); simplify_eq/=; eauto.
Qed.

Lemma NoDup_concat {A} (B : list (list A)) :
  (forall b ch, B !! b = Some ch -> NoDup ch) ->
  (forall b b' ch ch' a, B !! b = Some ch -> B !! b' = Some ch' -> a ∈ ch -> a ∈ ch' -> b = b') ->
  NoDup (concat B).
Proof.
  induction B as [|x B IH]; intros H1 H2; simpl; [constructor|].
  apply NoDup_app. split_and!.
  - by apply (H1 0).
  - intros a Ha Hc. apply elem_of_concat in Hc as (b&ch&Hb&Hin).
    by pose proof (H2 0 (S b) x ch a eq_refl Hb Ha Hin).
  - apply IH.
    + intros b ch Hb. by apply (H1 (S b)).
    + intros b b' ch ch' a Hb Hb' Ha Ha'. pose proof (H2 (S b) (S b') ch ch' a Hb Hb' Ha Ha'). lia.
Qed.

Lemma tabP_elem key P t a : tabP key P t -> a ∈ concat (t_buckets t) <-> P a.
Proof.
  intros (Hc&Hl&H). rewrite elem_of_concat. split.
  - intros (b&ch&Hb&Hin). apply (H b ch Hb) in Hin. tauto.
  - intros Ha. destruct (lookup_lt_is_Some_2 (t_buckets t) (bucket_of t (key a))) as [ch Hch].
    { rewrite Hl. by apply bucket_lt. }
    exists (bucket_of t (key a)), ch. split; [done|]. by apply (H _ _ Hch).
Qed.

Lemma tabP_NoDup key P t : tabP key P t -> NoDup (concat (t_buckets t)).
Proof.
  intros (Hc&Hl&H). apply NoDup_concat.
  - intros b ch Hb. by apply (H b ch Hb).
  - intros b b' ch ch' a Hb Hb' Ha Ha'.
    apply (H _ _ Hb) in Ha as [_ <-]. apply (H _ _ Hb') in Ha' as [_ <-]. done.
Qed.

Lemma tabP_empty key cap sz : (0 < cap)%N -> tabP key (fun _ => False) (UTab sz cap (empty_buckets cap)).
Proof.
  intros Hc. split_and!; simpl; [done|apply replicate_length|].
  intros b chain Hb. apply lookup_replicate in Hb as [-> _]. split; [constructor|].
  intros a. set_solver.
Qed.

Lemma tlen_empty sz cap : tlen (UTab sz cap (empty_buckets cap)) = 0.
Proof. unfold tlen, empty_buckets. simpl. induction (N.to_nat cap); done. Qed.

Lemma tabP_insert key P t a :
  tabP key P t -> ~ P a -> tabP key (fun d => P d \/ d = a) (tab_insert_impl t a (key a)).
Proof.
  intros (Hc&Hl&H) Ha. split_and!; simpl; [done|by rewrite alter_length|].
  intros b chain Hb. change (bucket_of (tab_insert_impl t a (key a))) with (bucket_of t).
  destruct (decide (b = bucket_of t (key a))) as [->|Hne].
  - rewrite list_lookup_alter in Hb. destruct (t_buckets t !! _) as [ch|] eqn:Hch; simplify_eq/=.
    destruct (H _ _ Hch) as [Hnd Hin]. split.
    + constructor; [|done]. rewrite Hin. tauto.
    + intros d. rewrite elem_of_cons, Hin. naive_solver.
  - rewrite list_lookup_alter_ne in Hb by done. destruct (H _ _ Hb) as [Hnd Hin]. split; [done|].
    intros d. rewrite Hin. naive_solver.
Qed.

Lemma tlen_insert key P t a : tabP key P t -> tlen (tab_insert_impl t a (key a)) = S (tlen t).
Proof.
  intros (Hc&Hl&H). unfold tlen; simpl.
  destruct (lookup_lt_is_Some_2 (t_buckets t) (bucket_of t (key a))) as [ch Hch].
  { rewrite Hl. by apply bucket_lt. }
  assert (E : alter (cons a) (bucket_of t (key a)) (t_buckets t) = <[bucket_of t (key a) := a :: ch]> (t_buckets t)).
  { apply list_eq. intros j. destruct (decide (j = bucket_of t (key a))) as [->|Hne].
    - rewrite list_lookup_alter, Hch, list_lookup_insert; [done|]. by eapply lookup_lt_Some.
    - by rewrite list_lookup_alter_ne, list_lookup_insert_ne. }
  rewrite E. pose proof (concat_insert _ _ _ (a :: ch) Hch). simpl in *. lia.
Qed.

Lemma insert_all_fields c h t l :
  t_cap (tab_insert_all c h t l) = t_cap t /\ t_size (tab_insert_all c h t l) = t_size t.
Proof.
  revert t. induction l as [|a l IH]; intros t; [done|].
  exact (IH (tab_insert_impl t a (node_hash c (sons_of h a)))).
Qed.

Lemma tabP_insert_all c h P t l :
  let key := fun a => node_hash c (sons_of h a) in
  tabP key P t -> NoDup l -> (forall a, a ∈ l -> ~ P a) ->
  tabP key (fun d => P d \/ d ∈ l) (tab_insert_all c h t l) /\
  tlen (tab_insert_all c h t l) = tlen t + length l.
Proof.
  intros key. revert P t. induction l as [|a l IH]; intros P t HP Hnd Hl; simpl.
  - split; [|lia]. eapply tabP_ext; [| |done]; [set_solver|done].
  - inversion Hnd as [|? ? Hal Hnd']; subst.
    pose proof (tabP_insert key P t a HP) as Hi.
    destruct (IH _ _ (Hi ltac:(apply Hl; set_solver))) as [H1 H2]; [done| |].
    + intros d Hd [?| ->]; [|done]. eapply Hl; [|done]. set_solver.
    + split.
      * eapply tabP_ext; [| |exact H1]; [|done]. intros d. cbn beta. rewrite elem_of_cons. tauto.
      * etransitivity; [exact H2|]. rewrite (tlen_insert key P) by done. lia.
Qed.

Lemma get_gte_pos d : (0 < get_gte_capacity d)%Z.
Proof.
  unfold get_gte_capacity. assert (H : Forall (fun x => 0 < x)%Z capacities).
  { unfold capacities. repeat constructor; lia. }
  induction H; simpl; [lia|]. destruct (d <? x)%Z; done.
Qed.

Lemma tab_rehash_ok c h P t newcap :
  let key := fun a => node_hash c (sons_of h a) in
  (0 < newcap)%N -> tabP key P t ->
  tabP key P (tab_rehash c h t newcap) /\ tlen (tab_rehash c h t newcap) = tlen t /\
  t_size (tab_rehash c h t newcap) = t_size t.
Proof.
  intros key Hn HP. unfold tab_rehash.
  destruct (tabP_insert_all c h (fun _ => False) (UTab (t_size t) newcap (empty_buckets newcap)) (concat (t_buckets t)))
    as [H1 H2].
  - by apply tabP_empty.
  - by eapply tabP_NoDup.
  - tauto.
  - split_and!.
    + eapply tabP_ext; [| |exact H1]; [|done]. intros d. cbn beta. rewrite (tabP_elem key P t d HP). tauto.
    + rewrite H2, tlen_empty. done.
    + rewrite (proj2 (insert_all_fields _ _ _ _)). done.
Qed.

Lemma tab_adjust_ok c h P t :
  let key := fun a => node_hash c (sons_of h a) in
  tabP key P t ->
  tabP key P (tab_adjust c h t) /\ tlen (tab_adjust c h t) = tlen t /\
  t_size (tab_adjust c h t) = t_size t.
Proof.
  intros key HP. unfold tab_adjust. destruct (_ <? _)%Z; [|done].
  apply tab_rehash_ok; [|done]. pose proof (get_gte_pos (4 * t_size t / 3)). lia.
Qed.

Lemma tab_merge_ok c h P P' t other :
  let key := fun a => node_hash c (sons_of h a) in
  tabP key P t -> NoDup (concat (t_buckets other)) -> (forall a, a ∈ concat (t_buckets other) <-> P' a) ->
  (forall a, P' a -> ~ P a) ->
  tabP key (fun d => P d \/ P' d) (tab_merge c h t other) /\
  tlen (tab_merge c h t other) = tlen t + tlen other /\
  t_size (tab_merge c h t other) = (t_size t + t_size other)%Z.
Proof.
  intros key HP Hnd HP' Hdis. unfold tab_merge.
  set (t1 := UTab (t_size t + t_size other) (t_cap t) (t_buckets t)).
  assert (HP1 : tabP key P t1) by exact HP.
  destruct (tab_adjust_ok c h P t1 HP1) as (H1&H2&H3).
  destruct (tabP_insert_all c h P (tab_adjust c h t1) (concat (t_buckets other)) H1) as [H4 H5].
  - done.
  - intros a Ha. apply Hdis. by apply HP'.
  - split_and!.
    + eapply tabP_ext; [| |exact H4]; [|done]. intros d. cbn beta. by rewrite HP'.
    + rewrite H5, H2. done.
    + rewrite (proj2 (insert_all_fields _ _ _ _)), H3. done.
Qed.

(** ** Removal *)

Lemma remove1_Some a l : a ∈ l -> exists l', remove1 a l = Some l' /\ l ≡ₚ a :: l'.
Proof.
  induction l as [|b l IH]; intros Ha; [set_solver|]. simpl.
  destruct (decide (b = a)) as [->|Hne]; [eauto|].
  destruct IH as (l'&->&Hp); [set_solver|]. exists (b :: l'). split; [done|].
  rewrite Hp. constructor.
Qed.

Lemma tabP_erase key P t a :
  tabP key P t -> P a ->
  exists t', tab_erase_at t (bucket_of t (key a)) a = Some t' /\
    tabP key (fun d => P d /\ d <> a) t' /\ tlen t = S (tlen t') /\
    t_size t' = (t_size t - 1)%Z /\ t_cap t' = t_cap t.
Proof.
  intros (Hc&Hl&H) Ha. unfold tab_erase_at.
  destruct (lookup_lt_is_Some_2 (t_buckets t) (bucket_of t (key a))) as [ch Hch].
  { rewrite Hl. by apply bucket_lt. }
  rewrite Hch. destruct (H _ _ Hch) as [Hnd Hin].
  destruct (remove1_Some a ch) as (ch'&->&Hp); [by apply Hin|].
  rewrite Hp in Hnd. inversion Hnd as [|? ? Hna Hnd']; subst.
  eexists; split; [done|]. split_and!; simpl; try done.
  - split_and!; simpl; [done|by rewrite insert_length|].
    intros b chain Hb. change (bucket_of (UTab _ _ _)) with (bucket_of t).
    destruct (decide (b = bucket_of t (key a))) as [->|Hne].
    + rewrite list_lookup_insert in Hb by (by eapply lookup_lt_Some). simplify_eq. split; [done|].
      intros d. specialize (Hin d). rewrite Hp, elem_of_cons in Hin. split.
      * intros Hd. destruct (proj1 Hin (or_intror Hd)). split; [split; [done|]|done].
        intros ->. done.
      * intros [[? ?] ?]. destruct (proj2 Hin); auto. done.
    + rewrite list_lookup_insert_ne in Hb by done. destruct (H _ _ Hb) as [? Hin'].
      split; [done|]. intros d. rewrite Hin'. split; [|tauto].
      intros [? <-]. split; [split; [done|]|done]. intros ->. done.
  - unfold tlen. simpl. pose proof (concat_insert _ _ _ ch' Hch).
    rewrite (Permutation_length Hp) in *. simpl in *. lia.
Qed.

(** ** Connection with the invariant *)

Section tab.
Context (c : cfg).

Definition keyh (h : gmap positive node) (a : positive) : N := node_hash c (sons_of h a).

Definition inTab (g : ghost) (h : gmap positive node) (i : nat) (a : positive) : Prop :=
  a ∉ g_fl g /\ exists sons, live h a = Some (Int i sons).

Lemma live_sons_of h a i sons : live h a = Some (Int i sons) -> sons_of h a = sons.
Proof. intros H. apply live_Some in H as (n&Hn&_&Hb). unfold sons_of. by rewrite Hn, Hb. Qed.

Lemma tab_ok_tabP g h i t :
  tab_ok c g h i t <-> tabP (keyh h) (inTab g h i) t /\ t_size t = Z.of_nat (tlen t).
Proof.
  unfold tab_ok, tabP, tlen. split.
  - intros (?&?&H&?). split_and!; try done. intros b chain Hb. destruct (H b chain Hb) as [? Hin].
    split; [done|]. intros a. rewrite Hin. split.
    + intros (?&sons&Hs&?). split; [split; eauto|]. unfold keyh. by erewrite live_sons_of by done.
    + intros [[? (sons&Hs)] Hk]. split; [done|]. exists sons. split; [done|].
      unfold keyh in Hk. by erewrite live_sons_of in Hk by done.
  - intros [(?&?&H) ?]. split_and!; try done. intros b chain Hb. destruct (H b chain Hb) as [? Hin].
    split; [done|]. intros a. rewrite Hin. split.
    + intros [[? (sons&Hs)] Hk]. split; [done|]. exists sons. split; [done|].
      unfold keyh in Hk. by erewrite live_sons_of in Hk by done.
    + intros (?&sons&Hs&?). split; [split; eauto|]. unfold keyh. by erewrite live_sons_of by done.
Qed.

(** find returns a node with the given sons when there is one *)
Lemma tab_find_Some g h i t sons a :
  tab_ok c g h i t -> tab_find c h t sons = Some a -> live h a = Some (Int i sons) /\ a ∉ g_fl g.
Proof.
  intros T H. unfold tab_find in H. apply List.find_some in H as [Hin Heq].
  unfold node_equals in Heq. apply bool_decide_eq_true in Heq.
  destruct T as (?&Hl&T&_).
  destruct (lookup_lt_is_Some_2 (t_buckets t) (bucket_of t (node_hash c sons))) as [ch Hch].
  { rewrite Hl. by apply bucket_lt. }
  rewrite (nth_lookup_Some _ _ _ _ Hch) in Hin. apply elem_of_list_In in Hin.
  apply (T _ _ Hch) in Hin as (?&sons'&Hs&_). split; [|done].
  by rewrite (live_sons_of _ _ _ _ Hs) in Heq; subst.
Qed.

Lemma tab_find_None g h i t sons a :
  tab_ok c g h i t -> tab_find c h t sons = None -> a ∉ g_fl g -> live h a <> Some (Int i sons).
Proof.
  intros T H Hfl Ha. unfold tab_find in H.
  destruct T as (?&Hl&T&_).
  destruct (lookup_lt_is_Some_2 (t_buckets t) (bucket_of t (node_hash c sons))) as [ch Hch].
  { rewrite Hl. by apply bucket_lt. }
  rewrite (nth_lookup_Some _ _ _ _ Hch) in H.
  assert (Hin : a ∈ ch) by (apply (T _ _ Hch); eauto).
  apply elem_of_list_In in Hin. pose proof (List.find_none _ _ H a Hin) as Heq.
  unfold node_equals in Heq. apply bool_decide_eq_false in Heq.
  by rewrite (live_sons_of _ _ _ _ Ha) in Heq.
Qed.

End tab.
