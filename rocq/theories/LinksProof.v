(** * The chains of next_ pointers behave like lists *)

From stdpp Require Import gmap list fin_maps fin_map_dom.
From Coq Require Import ZArith Lia.
From Verif Require Import Base Ops Tables NodeManager Heap Inv InvLemmas TabLemmas Links.

Local Open Scope nat_scope.

(** ** Chains *)

Fixpoint chain (nx : gmap positive positive) (hd : option positive) (l : list positive) : Prop :=
  match l with
  | [] => hd = None
  | a :: l => hd = Some a /\ chain nx (nx !! a) l
  end.

Lemma chain_frame (nx nx' : gmap positive positive) l : forall hd,
  (forall a, a ∈ l -> nx' !! a = nx !! a) -> chain nx hd l -> chain nx' hd l.
Proof.
  induction l as [|a l IH]; intros hd H; simpl; [done|]. intros [-> C]. split; [done|].
  rewrite H by left. apply IH; [|done]. intros b Hb. apply H. by right.
Qed.

Lemma chains_frame (nx nx' : gmap positive positive) heads bs :
  (forall a, a ∈ concat bs -> nx' !! a = nx !! a) -> Forall2 (chain nx) heads bs -> Forall2 (chain nx') heads bs.
Proof.
  intros H F. induction F as [|hd l heads bs C F IH]; constructor.
  - eapply chain_frame; [|done]. intros a Ha. apply H. simpl. apply elem_of_app. by left.
  - apply IH. intros a Ha. apply H. simpl. apply elem_of_app. by right.
Qed.

(** all nodes but the last one have a successor *)
Lemma chain_front nx l : forall hd, chain nx hd l -> forall a, a ∈ removelast l -> a ∈ (stdpp.base.dom nx : gset positive).
Proof.
  induction l as [|a l IH]; intros hd C b Hb; simpl in *; [by apply elem_of_nil in Hb|]. destruct C as [_ C].
  destruct l as [|d l]; [by apply elem_of_nil in Hb|]. apply elem_of_cons in Hb as [->|Hb].
  - destruct C as [C _]. apply elem_of_dom. eauto.
  - by apply (IH _ C).
Qed.

Lemma removelast_sub {A} (l : list A) : sublist (removelast l) l.
Proof. induction l as [|a l IH]; [constructor|]. destruct l as [|b l]; [constructor; constructor|]. by constructor. Qed.
Lemma removelast_length {A} (l : list A) : length l <= S (length (removelast l)).
Proof. induction l as [|a l IH]; simpl; [lia|]. destruct l; simpl in *; lia. Qed.

Lemma chains_length (nx : gmap positive positive) heads bs : Forall2 (chain nx) heads bs -> NoDup (concat bs) ->
  length (concat bs) <= length bs + size nx.
Proof.
  intros F ND. set (fr := concat (map (fun l => removelast l) bs)).
  assert (L : length (concat bs) <= length bs + length fr).
  { subst fr. clear. induction bs as [|l bs IH]; simpl; [lia|]. rewrite !app_length. pose proof (removelast_length l). lia. }
  assert (Sb : sublist fr (concat bs)).
  { subst fr. clear. induction bs as [|l bs IH]; simpl; [constructor|]. apply sublist_app; [apply removelast_sub|done]. }
  assert (D : forall a, a ∈ fr -> a ∈ (stdpp.base.dom nx : gset positive)).
  { subst fr. clear -F. induction F as [|hd l heads bs C F IH]; simpl; [by intros a ?%elem_of_nil|].
    intros a [H|H]%elem_of_app; [by eapply chain_front|auto]. }
  assert (ND' : NoDup fr).
  { clear -ND Sb. revert ND. induction Sb; intros ND; [done| |].
    - apply NoDup_cons in ND as [N1 N2]. constructor; [|auto]. intros H. apply N1. by eapply elem_of_submseteq, sublist_submseteq.
    - apply NoDup_cons in ND as [N1 N2]. auto. }
  enough (length fr <= size nx) by lia.
  rewrite <- (size_dom nx). rewrite <- (size_list_to_set (C := gset positive) fr ND').
  apply subseteq_size. intros a Ha. apply D. by apply elem_of_list_to_set in Ha.
Qed.

Lemma chain_length (nx : gmap positive positive) hd l : chain nx hd l -> NoDup l -> length l <= steps nx.
Proof.
  intros C ND. pose proof (chains_length nx [hd] [l]) as H. simpl in H. rewrite app_nil_r in H.
  unfold steps. apply H; [by repeat constructor|done].
Qed.

(** ** A table of pointers that stands for a table of lists *)

Record rep (nx : gmap positive positive) (t : ptab) (u : utab) : Prop := {
  rp_size : pt_size t = t_size u;
  rp_cap : pt_cap t = t_cap u;
  rp_pos : (0 < t_cap u)%N;
  rp_len : length (t_buckets u) = N.to_nat (t_cap u);
  rp_nodup : NoDup (tab_nodes u);
  rp_chains : Forall2 (chain nx) (pt_heads t) (t_buckets u)
}.

Lemma rep_frame nx nx' t u : (forall a, a ∈ tab_nodes u -> nx' !! a = nx !! a) -> rep nx t u -> rep nx' t u.
Proof. intros H []. constructor; try done. by eapply chains_frame. Qed.

Lemma rep_heads nx t u : rep nx t u -> length (pt_heads t) = N.to_nat (t_cap u).
Proof. intros R. rewrite (Forall2_length _ _ _ (rp_chains _ _ _ R)). apply R. Qed.

Lemma rep_bucket nx t u k : rep nx t u -> exists hd l, pt_heads t !! idx t k = Some hd /\
  t_buckets u !! bucket_of u k = Some l /\ idx t k = bucket_of u k /\ chain nx hd l.
Proof.
  intros R. pose proof (bucket_lt u k (rp_pos _ _ _ R)) as Hk.
  assert (E : idx t k = bucket_of u k) by (unfold idx, bucket_of; by rewrite (rp_cap _ _ _ R)).
  destruct (lookup_lt_is_Some_2 (t_buckets u) (bucket_of u k)) as [l Hl]; [by rewrite (rp_len _ _ _ R)|].
  destruct (Forall2_lookup_r _ _ _ _ _ (rp_chains _ _ _ R) Hl) as (hd&Hh&C). rewrite E. eauto 10.
Qed.

Lemma bucket_nodup (bs : list (list positive)) b l : NoDup (concat bs) -> bs !! b = Some l -> NoDup l.
Proof.
  intros ND Hl. apply elem_of_list_split_length in Hl as (l1&l2&->&_). rewrite concat_app in ND. simpl in ND.
  apply NoDup_app in ND as (_&_&ND). by apply NoDup_app in ND as (ND&_&_).
Qed.

Local Arguments steps : simpl never.

Section ok.
Context (c : cfg) (h : gmap positive node).

Lemma walk_ok (nx : gmap positive positive) sons l : forall fuel hd, chain nx hd l -> length l <= fuel ->
  walk h fuel nx sons hd = LVal (List.find (node_equals h sons) l).
Proof.
  induction l as [|a l IH]; intros fuel hd; simpl; [intros ->; by destruct fuel|]. intros [-> C] Hf.
  destruct fuel as [|fuel]; [lia|]. simpl. destruct (node_equals h sons a); [done|]. apply IH; [done|lia].
Qed.

Lemma find_ok nx t u sons : rep nx t u -> p_find c h t nx sons = LVal (tab_find c h u sons).
Proof.
  intros R. unfold p_find, tab_find. destruct (rep_bucket nx t u (node_hash c sons) R) as (hd&l&E1&E2&_&C). rewrite E1. cbn [l_get lbind].
  rewrite (nth_lookup_Some _ _ _ _ E2). apply walk_ok; [done|]. eapply chain_length; [done|].
  eapply bucket_nodup; [apply R|done].
Qed.

Lemma insert_nodes (u : utab) a k : (0 < t_cap u)%N -> length (t_buckets u) = N.to_nat (t_cap u) ->
  tab_nodes (tab_insert_impl u a k) ≡ₚ a :: tab_nodes u.
Proof.
  intros Hp Hl. pose proof (bucket_lt u k Hp) as Hk. destruct (lookup_lt_is_Some_2 (t_buckets u) (bucket_of u k)) as [l E2]; [by rewrite Hl|].
  unfold tab_nodes, tab_insert_impl. simpl.
  apply elem_of_list_split_length in E2 as (l1&l2&E2&Lb). rewrite E2, Lb. clear.
  induction l1 as [|x l1 IH]; simpl; [done|]. rewrite IH. by rewrite <- Permutation_middle.
Qed.

Lemma insert_impl_ok nx t u a k : rep nx t u -> a ∉ tab_nodes u -> nx !! a = None ->
  exists t' nx', p_insert_impl t nx a k = LVal (t', nx') /\ rep nx' t' (tab_insert_impl u a k) /\
    (forall b, b <> a -> nx' !! b = nx !! b).
Proof.
  intros R Ha Hn. unfold p_insert_impl. destruct (rep_bucket nx t u k R) as (hd&l&E1&E2&E3&C). rewrite E1. simpl.
  eexists _, _. split; [done|].
  set (nx' := match hd with Some b => <[a := b]> nx | None => nx end).
  assert (F : forall b, b <> a -> nx' !! b = nx !! b). { intros b Hb. subst nx'. destruct hd; [by rewrite lookup_insert_ne|done]. }
  assert (Na : nx' !! a = hd). { subst nx'. destruct hd; [by rewrite lookup_insert|done]. }
  split; [|exact F].
  assert (Eb : alter (cons a) (bucket_of u k) (t_buckets u) = <[bucket_of u k := a :: l]> (t_buckets u)).
  { apply list_eq. intros j. destruct (decide (j = bucket_of u k)) as [->|Hne].
    - rewrite list_lookup_alter, E2, list_lookup_insert; [done|]. by eapply lookup_lt_Some.
    - by rewrite list_lookup_alter_ne, list_lookup_insert_ne. }
  assert (Fr : Forall2 (chain nx') (pt_heads t) (t_buckets u)).
  { eapply chains_frame; [|apply R]. intros b Hb. apply F. intros ->. by apply Ha. }
  constructor; simpl; try apply R.
  - rewrite alter_length. apply R.
  - rewrite insert_nodes by apply R. constructor; [done|apply R].
  - rewrite Eb, <- E3. rewrite E3. apply Forall2_insert; [done|]. split; [done|].
    rewrite Na. eapply Forall2_lookup_lr; [exact Fr| |exact E2]. by rewrite <- E3.
Qed.

(** ** erase *)

Lemma find_prev_ok (nx : gmap positive positive) a l2 l1 : forall fuel hd p,
  chain nx hd (l1 ++ p :: a :: l2) -> NoDup (l1 ++ p :: a :: l2) -> length l1 < fuel ->
  find_prev fuel nx a hd = LVal p.
Proof.
  induction l1 as [|b l1 IH]; intros fuel hd p C ND Hf; (destruct fuel as [|fuel]; [simpl in *; lia|]); simpl in *.
  - destruct C as [-> [C _]]. simpl. by rewrite bool_decide_true.
  - destruct C as [-> C]. simpl. apply NoDup_cons in ND as [Nb ND]. rewrite bool_decide_false.
    + apply IH; [done|done|lia].
    + intros E. rewrite E in C. destruct l1 as [|d l1]; simpl in C.
      * destruct C as [[= ->] _]. apply NoDup_cons in ND as [N _]. apply N. left.
      * destruct C as [[= ->] _]. simpl in ND. apply NoDup_cons in ND as [N _]. apply N, elem_of_app. right. right. left.
Qed.

Lemma chain_app (nx : gmap positive positive) l1 a l2 : forall hd, chain nx hd (l1 ++ a :: l2) -> chain nx (nx !! a) l2.
Proof. induction l1 as [|b l1 IH]; intros hd; simpl; [by intros [_ C]|]. intros [_ C]. by eapply IH. Qed.

(** the chain without [a] *)
Lemma chain_cut (nx : gmap positive positive) a l2 l1 : forall hd p, chain nx hd (l1 ++ p :: a :: l2) -> NoDup (l1 ++ p :: a :: l2) ->
  chain (delete a (set_next p (nx !! a) nx)) hd (l1 ++ p :: l2).
Proof.
  intros hd p C ND. revert hd C ND. induction l1 as [|b l1 IH]; intros hd C ND; simpl in *.
  - destruct C as [-> [Cp C]]. split; [done|].
    apply NoDup_cons in ND as [Np ND]. apply NoDup_cons in ND as [Na ND].
    assert (p <> a) by (intros ->; apply Np; left).
    rewrite lookup_delete_ne by done.
    assert (E : set_next p (nx !! a) nx !! p = nx !! a).
    { destruct (nx !! a) eqn:X; simpl; [by rewrite lookup_insert|by rewrite lookup_delete]. }
    rewrite E. eapply chain_frame; [|exact C]. intros d Hd.
    assert (d <> a) by (intros ->; done). assert (d <> p) by (intros ->; apply Np; by right).
    rewrite lookup_delete_ne by done. destruct (nx !! a); simpl; [by rewrite lookup_insert_ne|by rewrite lookup_delete_ne].
  - destruct C as [-> C]. split; [done|]. apply NoDup_cons in ND as [Nb ND].
    assert (b <> a) by (intros ->; apply Nb, elem_of_app; right; right; left).
    assert (b <> p) by (intros ->; apply Nb, elem_of_app; right; left).
    assert (E : delete a (set_next p (nx !! a) nx) !! b = nx !! b).
    { rewrite lookup_delete_ne by done. destruct (nx !! a); simpl; [by rewrite lookup_insert_ne|by rewrite lookup_delete_ne]. }
    rewrite E. by apply IH.
Qed.

Lemma remove1_split a l l' : remove1 a l = Some l' -> exists l1 l2, l = l1 ++ a :: l2 /\ l' = l1 ++ l2.
Proof.
  revert l'. induction l as [|b l IH]; intros l'; simpl; [done|]. destruct (decide (b = a)) as [->|].
  - intros [= <-]. by exists [], l.
  - destruct (remove1 a l) as [l0|]; [|done]. intros [= <-]. destruct (IH l0 eq_refl) as (l1&l2&->&->). by exists (b :: l1), l2.
Qed.

Lemma last_snoc {A} (l : list A) : l = [] \/ exists l' x, l = l' ++ [x].
Proof. induction l as [|x l _] using rev_ind; [by left|right; eauto]. Qed.

(** an iterator and what it will visit *)
Definition todo (nx : gmap positive positive) (heads : list (option positive)) (i : iter) (rest : list positive) : Prop :=
  (i = It (length heads) None /\ rest = []) \/
  (exists l bs, chain nx (it_node i) l /\ l <> [] /\ it_bucket i < length heads /\
     Forall2 (chain nx) (drop (S (it_bucket i)) heads) bs /\ rest = l ++ concat bs).

Lemma todo_from nx heads b bs : b <= length heads -> Forall2 (chain nx) (drop b heads) bs ->
  todo nx heads (it_from heads b) (concat bs).
Proof.
  unfold it_from. remember (drop b heads) as d eqn:Ed. revert b Ed bs. induction d as [|hd d IH]; intros b Ed bs Hb F.
  - inversion F; subst. left. split; [|done]. simpl. f_equal.
    assert (length (drop b heads) = 0) by (by rewrite <- Ed). rewrite drop_length in *. lia.
  - inversion F as [|? l ? bs' C F']; subst. assert (Hlt : b < length heads).
    { assert (length (drop b heads) = S (length d)) by (by rewrite <- Ed). rewrite drop_length in *. lia. }
    assert (Ed' : d = drop (S b) heads). { rewrite <- (drop_drop heads b 1) || (replace (S b) with (b + 1) by lia; rewrite <- drop_drop). by rewrite <- Ed. }
    destruct hd as [a|]; simpl.
    + right. exists l, bs'. simpl. rewrite <- Ed'. split_and!; try done. intros ->. done.
    + destruct l; [|by destruct C]. simpl. apply IH; [done|lia|done].
Qed.

Lemma todo_next nx heads i a rest : todo nx heads i (a :: rest) -> it_node i = Some a /\ it_bucket i < length heads /\
  exists i', it_next heads nx i = LVal i' /\ todo nx heads i' rest.
Proof.
  intros [[_ H]|(l&bs&C&Hl&Hb&F&E)]; [done|]. destruct l as [|x l]; [done|]. injection E as <- ->. destruct C as [Ei C].
  split; [done|]. split; [done|]. unfold it_next. rewrite Ei. simpl. destruct l as [|y l].
  - simpl in C. rewrite C. eexists. split; [done|]. simpl. by apply todo_from.
  - destruct C as [Ea C]. rewrite Ea. eexists. split; [done|]. right. exists (y :: l), bs. simpl. split_and!; try done.
Qed.

Lemma todo_frame nx nx' heads i rest : (forall a, a ∈ rest -> nx' !! a = nx !! a) -> todo nx heads i rest -> todo nx' heads i rest.
Proof.
  intros H [X|(l&bs&C&Hl&Hb&F&->)]; [by left|]. right. exists l, bs. split_and!; try done.
  - eapply chain_frame; [|done]. intros a Ha. apply H, elem_of_app. by left.
  - eapply chains_frame; [|done]. intros a Ha. apply H, elem_of_app. by right.
Qed.

Lemma todo_end nx heads i rest : todo nx heads i rest -> i = It (length heads) None <-> rest = [].
Proof.
  intros [[-> ->]|(l&bs&C&Hl&Hb&F&->)]; [done|]. destruct l as [|a l]; [done|]. destruct C as [E _]. split; [|done].
  intros ->. done.
Qed.

Lemma erase_ok nx t u b a u' : rep nx t u -> tab_erase_at u b a = Some u' ->
  exists t' nx' i, erase_impl t nx b a = LVal (t', nx', i) /\ rep nx' t' u' /\ nx' !! a = None /\
    (forall d, d ∉ tab_nodes u -> nx' !! d = nx !! d) /\ it_next (pt_heads t) nx (It b (Some a)) = LVal i /\
    length (pt_heads t') = length (pt_heads t) /\ drop (S b) (pt_heads t') = drop (S b) (pt_heads t) /\
    tab_nodes u ≡ₚ a :: tab_nodes u'.
Proof.
  intros R. unfold tab_erase_at. destruct (t_buckets u !! b) as [l|] eqn:El; [|done].
  destruct (remove1 a l) as [l'|] eqn:Er; [|done]. intros [= <-].
  destruct (Forall2_lookup_r _ _ _ _ _ (rp_chains _ _ _ R) El) as (hd&Eh&C).
  assert (Hlt : b < length (t_buckets u)) by (by eapply lookup_lt_Some).
  apply remove1_split in Er as (l1&l2&->&->).
  pose proof (bucket_nodup _ _ _ (rp_nodup _ _ _ R) El) as ND.
  assert (Pm : tab_nodes u ≡ₚ a :: concat (<[b := l1 ++ l2]> (t_buckets u))).
  { unfold tab_nodes. apply elem_of_list_split_length in El as (B1&B2&->&->).
    rewrite insert_app_r_alt, Nat.sub_diag by lia. simpl. rewrite !concat_app. simpl. rewrite <- !app_assoc. simpl.
    rewrite <- !Permutation_middle. done. }
  assert (Hin : forall d, d ∈ l1 ++ a :: l2 -> d ∈ tab_nodes u).
  { intros d Hd. apply elem_of_concat. eauto. }
  assert (ND' : NoDup (concat (<[b := l1 ++ l2]> (t_buckets u))) /\ a ∉ concat (<[b := l1 ++ l2]> (t_buckets u))).
  { pose proof (rp_nodup _ _ _ R) as N. rewrite Pm in N. apply NoDup_cons in N as [? ?]. done. }
  assert (It1 : exists i, it_next (pt_heads t) nx (It b (Some a)) = LVal i).
  { unfold it_next. simpl. destruct (nx !! a); eauto. }
  destruct It1 as [i Hi]. unfold erase_impl. rewrite Hi, Eh. cbn [l_get lbind].
  (* chains of the other buckets *)
  assert (Oth : forall j lj, j <> b -> t_buckets u !! j = Some lj -> forall d, d ∈ lj -> d ∉ l1 ++ a :: l2).
  { intros j lj Hj Ej d Hd Hd'. pose proof (rp_nodup _ _ _ R) as N. unfold tab_nodes in N.
    assert (G : forall (bs : list (list positive)) j b lj lb, bs !! j = Some lj -> bs !! b = Some lb -> j < b -> NoDup (concat bs) -> d ∈ lj -> d ∈ lb -> False).
    { clear. induction bs as [|x bs IH]; intros j b lj lb E1 E2 Hlt N D1 D2; [done|]. simpl in N. apply NoDup_app in N as (_&N1&N2).
      destruct b as [|b]; [lia|]. destruct j as [|j]; simpl in *.
      - injection E1 as ->. apply (N1 d D1). apply elem_of_concat. eauto.
      - by apply (IH j b lj lb E1 E2 ltac:(lia)). }
    destruct (decide (j < b)); [by apply (G _ j b lj _ Ej El)|apply (G _ b j _ lj El Ej); [lia|done..]]. }
  assert (Upd : forall (nx' : gmap positive positive) hd', chain nx' hd' (l1 ++ l2) ->
    (forall d, d ∉ l1 ++ a :: l2 -> nx' !! d = nx !! d) ->
    Forall2 (chain nx') (<[b := hd']> (pt_heads t)) (<[b := l1 ++ l2]> (t_buckets u))).
  { intros nx' hd' C' F. apply Forall2_same_length_lookup. rewrite !insert_length. split; [by eapply Forall2_length, R|].
    intros j x y Hx Hy. destruct (decide (j = b)) as [->|Hne].
    - rewrite list_lookup_insert in Hx by (by rewrite (Forall2_length _ _ _ (rp_chains _ _ _ R))).
      rewrite list_lookup_insert in Hy by done. by simplify_eq.
    - rewrite list_lookup_insert_ne in Hx by done. rewrite list_lookup_insert_ne in Hy by done.
      eapply chain_frame; [|eapply Forall2_lookup_lr; [apply R|done|done]]. intros d Hd. apply F. by eapply Oth. }
  destruct (last_snoc l1) as [->|(l1'&p&->)].
  - simpl in C. destruct C as [-> C]. rewrite bool_decide_true by done. eexists _, _, _. split; [done|]. simpl.
    split_and!; try done.
    + constructor; simpl; try apply R; [by rewrite (rp_size _ _ _ R)|by rewrite insert_length; apply R|apply ND'|].
      apply Upd; [|intros d Hd; rewrite lookup_delete_ne; [done|intros ->; apply Hd; left]].
      simpl. eapply chain_frame; [|exact C]. intros d Hd. rewrite lookup_delete_ne; [done|].
      intros ->. simpl in ND. by apply NoDup_cons in ND as [? _].
    + by rewrite lookup_delete.
    + intros d Hd. rewrite lookup_delete_ne; [done|]. intros ->. apply Hd, Hin. left.
    + by rewrite insert_length.
    + rewrite drop_insert_gt by lia. done.
  - rewrite <- app_assoc in *. cbn [app] in *.
    assert (Hh : hd <> Some a).
    { destruct l1' as [|x l1']; simpl in *; destruct C as [-> _]; intros [= ->].
      - apply NoDup_cons in ND as [N _]. apply N. left.
      - apply NoDup_cons in ND as [N _]. apply N, elem_of_app. right. right. left. }
    rewrite bool_decide_false by done.
    rewrite (find_prev_ok nx a l2 l1' (steps nx) hd p C ND).
    2:{ pose proof (chain_length _ _ _ C ND) as L. rewrite app_length in L. simpl in L. lia. }
    cbn [lbind]. eexists _, _, _. split; [done|].
    assert (Fd : forall d, d ∉ l1' ++ p :: a :: l2 -> delete a (set_next p (nx !! a) nx) !! d = nx !! d).
    { intros d Hd. assert (d <> a) by (intros ->; apply Hd, elem_of_app; right; right; left).
      assert (d <> p) by (intros ->; apply Hd, elem_of_app; right; left).
      rewrite lookup_delete_ne by done. destruct (nx !! a); simpl; [by rewrite lookup_insert_ne|by rewrite lookup_delete_ne]. }
    split_and!; try done.
    + constructor; simpl; try apply R; [by rewrite (rp_size _ _ _ R)|by rewrite insert_length; apply R|apply ND'|].
      rewrite <- (list_insert_id (pt_heads t) b hd Eh). apply Upd; [by apply chain_cut|]. intros d Hd. apply Fd. by rewrite <- app_assoc in Hd.
    + apply lookup_delete.
    + intros d Hd. apply Fd. intros Hd'. apply Hd. by apply Hin.
Qed.

(** ** rehash *)

Lemma reinsert_ok l : forall fuel nx t u hd, chain nx hd l -> length l <= fuel -> rep nx t u -> NoDup (l ++ tab_nodes u) ->
  exists t' nx', reinsert c h fuel t nx hd = LVal (t', nx') /\ rep nx' t' (tab_insert_all c h u l) /\
    (forall d, d ∉ l -> nx' !! d = nx !! d) /\ tab_nodes (tab_insert_all c h u l) ≡ₚ l ++ tab_nodes u.
Proof.
  induction l as [|a l IH]; intros fuel nx t u hd C Hf R ND.
  - simpl in C. subst hd. destruct fuel; (exists t, nx; done).
  - destruct C as [-> C]. destruct fuel as [|fuel]; [simpl in Hf; lia|]. cbn [reinsert set_next].
    cbn [app] in ND. apply NoDup_cons in ND as [Na ND]. rewrite elem_of_app in Na.
    assert (R0 : rep (delete a nx) t u).
    { eapply rep_frame; [|exact R]. intros d Hd. rewrite lookup_delete_ne; [done|]. intros ->. tauto. }
    destruct (insert_impl_ok (delete a nx) t u a (hash_of c h a) R0) as (t1&nx1&E1&R1&F1); [tauto|by rewrite lookup_delete|].
    rewrite E1. cbn [lbind fst snd].
    pose proof (insert_nodes u a (hash_of c h a) (rp_pos _ _ _ R) (rp_len _ _ _ R)) as P1.
    destruct (IH fuel nx1 t1 (tab_insert_impl u a (hash_of c h a)) (nx !! a)) as (t2&nx2&E2&R2&F2&P2).
    + eapply chain_frame; [|exact C]. intros d Hd. assert (d <> a) by (intros ->; tauto).
      rewrite F1 by done. by rewrite lookup_delete_ne.
    + simpl in Hf. lia.
    + done.
    + rewrite P1, <- Permutation_middle. constructor; [by rewrite elem_of_app|done].
    + exists t2, nx2. split; [done|]. split; [done|]. split.
      * intros d Hd. apply not_elem_of_cons in Hd as [? ?]. rewrite F2, F1 by done. by rewrite lookup_delete_ne.
      * change (tab_insert_all c h u (a :: l)) with (tab_insert_all c h (tab_insert_impl u a (hash_of c h a)) l).
        rewrite P2, P1. by rewrite <- Permutation_middle.
Qed.

Lemma reinsert_all_ok bs : forall nx t u heads, Forall2 (chain nx) heads bs -> rep nx t u -> NoDup (concat bs ++ tab_nodes u) ->
  exists t' nx', reinsert_all c h t nx heads = LVal (t', nx') /\ rep nx' t' (tab_insert_all c h u (concat bs)) /\
    (forall d, d ∉ concat bs -> nx' !! d = nx !! d) /\ tab_nodes (tab_insert_all c h u (concat bs)) ≡ₚ concat bs ++ tab_nodes u.
Proof.
  induction bs as [|l bs IH]; intros nx t u heads F R ND; inversion F as [|hd ? heads' ? C F']; subst; cbn [reinsert_all concat].
  - exists t, nx. done.
  - cbn [concat] in ND. rewrite <- app_assoc in ND.
    assert (NDl : NoDup (l ++ tab_nodes u) /\ (forall d, d ∈ l -> d ∉ concat bs)).
    { apply NoDup_app in ND as (N1&N2&N3). apply NoDup_app in N3 as (N3&N4&N5). split.
      - apply NoDup_app. split_and!; [done| |done]. intros d Hd H. apply (N2 d Hd), elem_of_app. by right.
      - intros d Hd H. apply (N2 d Hd), elem_of_app. by left. }
    destruct NDl as [NDl Dis].
    destruct (reinsert_ok l (steps nx) nx t u hd C) as (t1&nx1&E1&R1&F1&P1); [|done|done|].
    { eapply chain_length; [done|]. by apply NoDup_app in NDl as (?&_&_). }
    rewrite E1. cbn [lbind fst snd].
    destruct (IH nx1 t1 (tab_insert_all c h u l) heads') as (t2&nx2&E2&R2&F2&P2).
    { eapply chains_frame; [|done]. intros d Hd. apply F1. intros H. by apply (Dis d H). }
    { done. }
    { rewrite P1. rewrite (app_assoc (concat bs)), (Permutation_app_comm (concat bs)), <- app_assoc. done. }
    assert (E : tab_insert_all c h u (l ++ concat bs) = tab_insert_all c h (tab_insert_all c h u l) (concat bs)).
    { unfold tab_insert_all. by rewrite fold_left_app. }
    exists t2, nx2. rewrite E. split; [done|]. split; [done|]. split.
    + intros d Hd. rewrite elem_of_app in Hd. rewrite F2, F1 by tauto. done.
    + rewrite P2, P1. rewrite (app_assoc (concat bs)), (Permutation_app_comm (concat bs)). done.
Qed.

Lemma empty_nodes sz cap : tab_nodes (UTab sz cap (empty_buckets cap)) = [].
Proof. unfold tab_nodes, empty_buckets. simpl. induction (N.to_nat cap); done. Qed.

Lemma empty_rep nx sz cap : (0 < cap)%N -> rep nx (PTab sz cap (replicate (N.to_nat cap) None)) (UTab sz cap (empty_buckets cap)).
Proof.
  intros Hp. constructor; simpl; try done; [apply replicate_length|by rewrite empty_nodes; constructor|].
  unfold empty_buckets. induction (N.to_nat cap); simpl; constructor; done.
Qed.

Lemma rehash_ok nx t u cap : rep nx t u -> (0 < cap)%N ->
  exists t' nx', p_rehash c h t nx cap = LVal (t', nx') /\ rep nx' t' (tab_rehash c h u cap) /\
    (forall d, d ∉ tab_nodes u -> nx' !! d = nx !! d) /\ tab_nodes (tab_rehash c h u cap) ≡ₚ tab_nodes u.
Proof.
  intros R Hc. unfold p_rehash, tab_rehash. rewrite (rp_size _ _ _ R).
  destruct (reinsert_all_ok (t_buckets u) nx (PTab (t_size u) cap (replicate (N.to_nat cap) None))
    (UTab (t_size u) cap (empty_buckets cap)) (pt_heads t)) as (t'&nx'&E&R'&F&P).
  - apply R.
  - by apply empty_rep.
  - rewrite empty_nodes, app_nil_r. apply R.
  - rewrite empty_nodes, app_nil_r in P. exists t', nx'. done.
Qed.

Lemma adjust_ok nx t u : rep nx t u ->
  exists t' nx', p_adjust c h t nx = LVal (t', nx') /\ rep nx' t' (tab_adjust c h u) /\
    (forall d, d ∉ tab_nodes u -> nx' !! d = nx !! d) /\ tab_nodes (tab_adjust c h u) ≡ₚ tab_nodes u.
Proof.
  intros R. unfold p_adjust, tab_adjust. rewrite (rp_size _ _ _ R), (rp_cap _ _ _ R).
  destruct (_ <? _)%Z; [|by exists t, nx]. apply rehash_ok; [done|]. pose proof (get_gte_pos (4 * t_size u / 3)). lia.
Qed.

(** ** merge *)

Lemma merge_loop_ok rest : forall fuel nx t u heads i, todo nx heads i rest -> length rest <= fuel -> rep nx t u -> NoDup (rest ++ tab_nodes u) ->
  exists t' nx', merge_loop c h fuel t nx heads i = LVal (t', nx') /\ rep nx' t' (tab_insert_all c h u rest) /\
    (forall d, d ∉ rest -> nx' !! d = nx !! d) /\ tab_nodes (tab_insert_all c h u rest) ≡ₚ rest ++ tab_nodes u.
Proof.
  induction rest as [|a rest IH]; intros fuel nx t u heads i T Hf R ND; pose proof (todo_end _ _ _ _ T) as He.
  - destruct fuel; cbn [merge_loop]; rewrite bool_decide_true by (by apply He); exists t, nx; done.
  - destruct fuel as [|fuel]; [simpl in Hf; lia|]. cbn [merge_loop]. rewrite bool_decide_false by (rewrite He; done).
    destruct (todo_next _ _ _ _ _ T) as (Ei&_&i'&En&T'). rewrite Ei. cbn [l_get lbind]. rewrite En. cbn [lbind set_next].
    cbn [app] in ND. apply NoDup_cons in ND as [Na ND]. rewrite elem_of_app in Na.
    assert (R0 : rep (delete a nx) t u).
    { eapply rep_frame; [|exact R]. intros d Hd. rewrite lookup_delete_ne; [done|]. intros ->. tauto. }
    destruct (insert_impl_ok (delete a nx) t u a (hash_of c h a) R0) as (t1&nx1&E1&R1&F1); [tauto|by rewrite lookup_delete|].
    rewrite E1. cbn [lbind fst snd].
    pose proof (insert_nodes u a (hash_of c h a) (rp_pos _ _ _ R) (rp_len _ _ _ R)) as P1.
    destruct (IH fuel nx1 t1 (tab_insert_impl u a (hash_of c h a)) heads i') as (t2&nx2&E2&R2&F2&P2).
    + eapply todo_frame; [|exact T']. intros d Hd. assert (d <> a) by (intros ->; tauto).
      rewrite F1 by done. by rewrite lookup_delete_ne.
    + simpl in Hf. lia.
    + done.
    + rewrite P1, <- Permutation_middle. constructor; [by rewrite elem_of_app|done].
    + exists t2, nx2. split; [done|]. split; [done|]. split.
      * intros d Hd. apply not_elem_of_cons in Hd as [? ?]. rewrite F2, F1 by done. by rewrite lookup_delete_ne.
      * change (tab_insert_all c h u (a :: rest)) with (tab_insert_all c h (tab_insert_impl u a (hash_of c h a)) rest).
        rewrite P2, P1. by rewrite <- Permutation_middle.
Qed.

Lemma todo_begin nx t u : rep nx t u -> todo nx (pt_heads t) (p_begin t) (tab_nodes u).
Proof. intros R. unfold p_begin. apply todo_from; [lia|]. rewrite drop_0. apply R. Qed.

Lemma merge_ok nx t u t' u' : rep nx t u -> rep nx t' u' -> NoDup (tab_nodes u' ++ tab_nodes u) ->
  exists t2 nx2, p_merge c h t t' nx = LVal (t2, nx2) /\ rep nx2 t2 (tab_merge c h u u') /\
    (forall d, d ∉ tab_nodes u -> d ∉ tab_nodes u' -> nx2 !! d = nx !! d) /\
    tab_nodes (tab_merge c h u u') ≡ₚ tab_nodes u' ++ tab_nodes u.
Proof.
  intros R R' ND. unfold p_merge, tab_merge. rewrite (rp_size _ _ _ R), (rp_size _ _ _ R'), (rp_cap _ _ _ R).
  set (u1 := UTab (t_size u + t_size u') (t_cap u) (t_buckets u)).
  assert (R1 : rep nx (PTab (t_size u + t_size u') (t_cap u) (pt_heads t)) u1) by (constructor; simpl; try apply R; done).
  destruct (adjust_ok nx _ u1 R1) as (t2&nx2&E2&R2&F2&P2). rewrite E2. cbn [lbind fst snd].
  change (tab_nodes u1) with (tab_nodes u) in *. apply NoDup_app in ND as (N1&N2&N3).
  assert (R2' : rep nx2 t' u') by (eapply rep_frame; [|exact R']; intros d Hd; apply F2; by apply N2).
  destruct (merge_loop_ok (tab_nodes u') (length (pt_heads t') + steps nx2) nx2 t2 (tab_adjust c h u1) (pt_heads t') (p_begin t'))
    as (t3&nx3&E3&R3&F3&P3).
  - by apply todo_begin.
  - pose proof (chains_length nx2 _ _ (rp_chains _ _ _ R2') N1) as L. rewrite <- (Forall2_length _ _ _ (rp_chains _ _ _ R2')) in L.
    unfold steps, tab_nodes. lia.
  - done.
  - rewrite P2. by apply NoDup_app.
  - exists t3, nx3. split; [done|]. split; [exact R3|]. split.
    + intros d H1 H2. by rewrite F3, F2.
    + etransitivity; [exact P3|]. by rewrite P2.
Qed.

(** ** Iteration *)

Lemma iterate_ok rest : forall fuel nx heads i, todo nx heads i rest -> length rest <= fuel -> iterate fuel heads nx i = LVal rest.
Proof.
  induction rest as [|a rest IH]; intros fuel nx heads i T Hf; pose proof (todo_end _ _ _ _ T) as He.
  - destruct fuel; cbn [iterate]; by rewrite bool_decide_true by (by apply He).
  - destruct fuel as [|fuel]; [simpl in Hf; lia|]. cbn [iterate]. rewrite bool_decide_false by (rewrite He; done).
    destruct (todo_next _ _ _ _ _ T) as (Ei&_&i'&En&T'). rewrite Ei. cbn [l_get lbind]. rewrite En. cbn [lbind].
    simpl in Hf. rewrite (IH fuel) by (done || lia). done.
Qed.

Lemma rep_fuel nx t u : rep nx t u -> length (tab_nodes u) <= length (pt_heads t) + steps nx.
Proof.
  intros R. pose proof (chains_length nx _ _ (rp_chains _ _ _ R) (rp_nodup _ _ _ R)) as L.
  rewrite <- (Forall2_length _ _ _ (rp_chains _ _ _ R)) in L. unfold steps, tab_nodes. lia.
Qed.

Lemma nodes_ok nx t u : rep nx t u -> p_nodes t nx = LVal (tab_nodes u).
Proof. intros R. apply iterate_ok; [by apply todo_begin|by apply rep_fuel]. Qed.

(** ** The loop of the garbage collection *)

(** an iterator in a table that may lose the nodes it has passed *)
Definition posn (u : utab) (i : iter) (rest : list positive) : Prop :=
  (i = It (length (t_buckets u)) None /\ rest = []) \/
  (exists pre a l, t_buckets u !! it_bucket i = Some (pre ++ a :: l) /\ it_node i = Some a /\
     rest = a :: l ++ concat (drop (S (it_bucket i)) (t_buckets u))).

Lemma posn_from nx heads bs b : Forall2 (chain nx) heads bs -> b <= length bs ->
  forall sz cap, posn (UTab sz cap bs) (it_from heads b) (concat (drop b bs)).
Proof.
  intros F Hb sz cap. unfold it_from. remember (drop b heads) as d eqn:Ed. revert b Ed Hb. induction d as [|hd d IH]; intros b Ed Hb.
  - pose proof (Forall2_length _ _ _ F) as L.
    assert (length (drop b heads) = 0) by (by rewrite <- Ed). rewrite drop_length in *.
    left. simpl. split; [f_equal; lia|]. by rewrite drop_ge by lia.
  - pose proof (Forall2_length _ _ _ F) as L.
    assert (Hlt : b < length heads).
    { assert (length (drop b heads) = S (length d)) by (by rewrite <- Ed). rewrite drop_length in *. lia. }
    destruct (lookup_lt_is_Some_2 heads b Hlt) as [hd' Eh]. destruct (lookup_lt_is_Some_2 bs b ltac:(lia)) as [l El].
    pose proof (Forall2_lookup_lr _ _ _ _ _ _ F Eh El) as C.
    rewrite (drop_S _ _ _ Eh) in Ed. injection Ed as -> Ed. rewrite (drop_S _ _ _ El). simpl.
    destruct hd' as [a|].
    + destruct l as [|x l]; [done|]. destruct C as [[= ->] C]. right. exists [], x, l. simpl. done.
    + destruct l; [|by destruct C]. simpl. apply IH; [done|lia].
Qed.

Lemma posn_next nx t u i a rest : rep nx t u -> posn u i (a :: rest) -> it_node i = Some a /\ it_bucket i < length (t_buckets u) /\
  exists i', it_next (pt_heads t) nx i = LVal i' /\ posn u i' rest.
Proof.
  intros R [[_ H]|(pre&x&l&Eb&Ei&E)]; [done|]. injection E as <- ->. split; [done|].
  assert (Hlt : it_bucket i < length (t_buckets u)) by (by eapply lookup_lt_Some). split; [done|].
  unfold it_next. rewrite Ei. cbn [l_get lbind].
  destruct (Forall2_lookup_r _ _ _ _ _ (rp_chains _ _ _ R) Eb) as (hd&_&C). apply chain_app in C.
  destruct l as [|y l].
  - simpl in C. rewrite C. eexists. split; [done|]. simpl. destruct u as [sz cap bs].
    apply (posn_from nx); [apply R|simpl in *; lia].
  - destruct C as [-> C]. eexists. split; [done|]. right. exists (pre ++ [a]), y, l. simpl. rewrite <- app_assoc. done.
Qed.

Lemma remove1_mid a l1 l2 : a ∉ l1 -> remove1 a (l1 ++ a :: l2) = Some (l1 ++ l2).
Proof.
  induction l1 as [|b l1 IH]; simpl; intros H; [by rewrite decide_True|]. apply not_elem_of_cons in H as [H1 H2].
  rewrite decide_False by done. by rewrite IH.
Qed.

Definition alive (dead : positive -> bool) : positive -> bool := fun a => negb (dead a).
Definition swept (dead : positive -> bool) (u : utab) (n : nat) : utab :=
  UTab (t_size u - Z.of_nat n) (t_cap u) (map (List.filter (alive dead)) (t_buckets u)).

Lemma filter_all {A} (f : A -> bool) l : (forall x, x ∈ l -> f x = true) -> List.filter f l = l.
Proof.
  induction l as [|x l IH]; intros H; simpl; [done|]. rewrite (H x) by left. f_equal. apply IH. intros y Hy. apply H. by right.
Qed.

Lemma posn_erase nx t u i a rest : rep nx t u -> posn u i (a :: rest) ->
  exists u', tab_erase_at u (it_bucket i) a = Some u' /\ t_size u' = (t_size u - 1)%Z /\ t_cap u' = t_cap u /\
    (forall i', it_next (pt_heads t) nx i = LVal i' -> posn u' i' rest) /\
    (forall dead, dead a = true -> map (List.filter (alive dead)) (t_buckets u') = map (List.filter (alive dead)) (t_buckets u)).
Proof.
  intros R P. pose proof (posn_next _ _ _ _ _ _ R P) as (_&Hlt&_).
  destruct P as [[_ H]|(pre&x&l&Eb&Ei&E)]; [done|]. injection E as <- ->.
  pose proof (bucket_nodup _ _ _ (rp_nodup _ _ _ R) Eb) as ND. apply NoDup_app in ND as (_&ND&_).
  unfold tab_erase_at. rewrite Eb, remove1_mid by (intros H; apply (ND a H); left).
  eexists. split; [done|]. split; [done|]. split; [done|]. split.
  - intros i'. unfold it_next. rewrite Ei. cbn [l_get lbind].
    destruct (Forall2_lookup_r _ _ _ _ _ (rp_chains _ _ _ R) Eb) as (hd&_&C). apply chain_app in C.
    destruct l as [|y l].
    + simpl in C. rewrite C. intros [= <-].
      pose proof (posn_from nx (pt_heads t) (t_buckets u) (S (it_bucket i)) (rp_chains _ _ _ R) Hlt (t_size u) (t_cap u)) as P.
      destruct P as [[E1 E2]|(pre'&x&l&Eb'&Ei'&E)]; simpl in *.
      * left. simpl. by rewrite insert_length.
      * right. exists pre', x, l. simpl.
        assert (it_bucket i < it_bucket (it_from (pt_heads t) (S (it_bucket i)))).
        { clear. unfold it_from. generalize (S (it_bucket i)) at 2. intros b.
          enough (forall b d, b <= it_bucket (move_to_next_bucket b d)) by (specialize (H (S (it_bucket i)) (drop b (pt_heads t))); lia).
          clear. intros b d. revert b. induction d as [|[a|] d IH]; intros b; simpl; [lia|lia|]. specialize (IH (S b)). lia. }
        rewrite list_lookup_insert_ne by lia. rewrite drop_insert_gt by lia. done.
    + destruct C as [-> C]. intros [= <-]. right. exists pre, y, l. simpl.
      rewrite list_lookup_insert by done. rewrite drop_insert_gt by lia. done.
  - intros dead Hd. simpl. apply list_eq. intros j. rewrite !list_lookup_fmap.
    destruct (decide (j = it_bucket i)) as [->|Hne].
    + rewrite list_lookup_insert by done. rewrite Eb. simpl. f_equal. rewrite !List.filter_app. simpl. replace (alive dead a) with false; [done|]. unfold alive. by rewrite Hd.
    + by rewrite list_lookup_insert_ne.
Qed.

Lemma filter_len (f : positive -> bool) l : length (List.filter f l) + length (List.filter (fun a => negb (f a)) l) = length l.
Proof. induction l as [|a l IH]; simpl; [done|]. destruct (f a); simpl; lia. Qed.

Lemma sweep_ok dead rest : forall fuel free lf nx t u i,
  posn u i rest -> rep nx t u -> length rest <= fuel -> chain nx free lf -> (forall d, d ∈ lf -> d ∉ tab_nodes u) ->
  NoDup rest -> (forall d, d ∈ tab_nodes u -> d ∉ rest -> dead d = false) ->
  exists t' nx' free', sweep fuel dead free t nx i = LVal (t', nx', free') /\
    rep nx' t' (swept dead u (length (List.filter dead rest))) /\ chain nx' free' (rev (List.filter dead rest) ++ lf) /\
    (forall d, d ∉ tab_nodes u -> nx' !! d = nx !! d).
Proof.
  induction rest as [|a rest IH]; intros fuel free lf nx t u i P R Hf Cf Df ND Hal.
  - assert (E : i = p_end t).
    { destruct P as [[-> _]|(?&?&?&_&_&?)]; [|done]. unfold p_end. by rewrite (Forall2_length _ _ _ (rp_chains _ _ _ R)). }
    assert (Ew : swept dead u 0 = u).
    { unfold swept. destruct u as [sz cap bs]. simpl. f_equal; [lia|]. rewrite <- (list_fmap_id bs) at 2. apply list_fmap_ext.
      intros j l Hl. apply filter_all. intros d Hd. unfold alive. rewrite Hal; [done| |apply not_elem_of_nil].
      apply elem_of_concat. eauto. }
    destruct fuel; cbn [sweep]; rewrite bool_decide_true by done; (exists t, nx, free); simpl; rewrite Ew; done.
  - destruct fuel as [|fuel]; [simpl in Hf; lia|]. cbn [sweep].
    destruct (posn_next _ _ _ _ _ _ R P) as (Ei&Hlt&i'&En&P').
    rewrite bool_decide_false by (intros ->; done). rewrite Ei. cbn [l_get lbind].
    apply NoDup_cons in ND as [Na ND].
    destruct (dead a) eqn:Ed.
    + destruct (posn_erase _ _ _ _ _ _ R P) as (u'&Eu&Es&Ec&Pu&Em). specialize (Pu i' En). specialize (Em dead Ed).
      destruct (erase_ok nx t u (it_bucket i) a u' R Eu) as (t'&nx'&i2&Ee&R'&Nn&F&En'&HL&_&Pm).
      unfold p_erase_it. rewrite Ei. cbn [l_get lbind]. rewrite Ee. cbn [lbind fst snd].
      assert (i2 = i') as ->. { destruct i as [b n]. simpl in *. rewrite Ei in En. rewrite En' in En. by injection En. }
      assert (Hd : forall d, d <> a -> set_next a free nx' !! d = nx' !! d).
      { intros d Hd. destruct free; simpl; [by rewrite lookup_insert_ne|by rewrite lookup_delete_ne]. }
      assert (Ha : set_next a free nx' !! a = free).
      { destruct free; simpl; [by rewrite lookup_insert|by rewrite lookup_delete]. }
      assert (Ina : a ∉ tab_nodes u' /\ forall d, d ∈ tab_nodes u <-> d = a \/ d ∈ tab_nodes u').
      { pose proof (rp_nodup _ _ _ R) as N. rewrite Pm in N. apply NoDup_cons in N as [? _]. split; [done|]. intros d. by rewrite Pm, elem_of_cons. }
      destruct Ina as [Ina Inu].
      destruct (IH fuel (Some a) (a :: lf) (set_next a free nx') t' u' i') as (t2&nx2&f2&E2&R2&C2&F2).
      * done.
      * eapply rep_frame; [|exact R']. intros d Hd'. apply Hd. by intros ->.
      * simpl in Hf. lia.
      * split; [done|]. rewrite Ha. eapply chain_frame; [|exact Cf]. intros d Hd'.
        rewrite Hd by (intros ->; apply (Df a Hd'); apply Inu; by left). apply F. by apply Df.
      * intros d [->|Hd']%elem_of_cons; [done|]. intros H. apply (Df d Hd'). apply Inu. by right.
      * done.
      * intros d H1 H2. apply Hal; [apply Inu; by right|]. intros [->|H]%elem_of_cons; done.
      * exists t2, nx2, f2. rewrite E2. split; [done|]. cbn [List.filter]. rewrite Ed. cbn [length rev].
        rewrite <- app_assoc. cbn [app]. split; [|split; [exact C2|]].
        -- replace (swept dead u (S (length (List.filter dead rest)))) with (swept dead u' (length (List.filter dead rest))); [exact R2|].
           unfold swept. rewrite Em, Ec, Es. f_equal. lia.
        -- intros d Hd'. rewrite Inu in Hd'. rewrite F2 by tauto. rewrite Hd by tauto. apply F. rewrite Inu. tauto.
    + rewrite En. cbn [lbind].
      destruct (IH fuel free lf nx t u i') as (t2&nx2&f2&E2&R2&C2&F2); try done.
      * simpl in Hf. lia.
      * intros d H1 H2. destruct (decide (d = a)) as [->|]; [done|]. apply Hal; [done|]. by intros [->|H]%elem_of_cons.
      * exists t2, nx2, f2. rewrite E2. cbn [List.filter]. rewrite Ed. done.
Qed.

Lemma sweep_all dead free lf nx t u : rep nx t u -> chain nx free lf -> (forall d, d ∈ lf -> d ∉ tab_nodes u) ->
  exists t' nx' free', p_sweep dead free t nx = LVal (t', nx', free') /\
    rep nx' t' (swept dead u (length (List.filter dead (tab_nodes u)))) /\ chain nx' free' (rev (List.filter dead (tab_nodes u)) ++ lf) /\
    (forall d, d ∉ tab_nodes u -> nx' !! d = nx !! d).
Proof.
  intros R C D. apply sweep_ok; try done.
  - unfold p_begin. destruct u as [sz cap bs]. apply (posn_from nx (pt_heads t) bs 0); [apply R|lia].
  - by apply rep_fuel.
  - apply R.
Qed.

End ok.
