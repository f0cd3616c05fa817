(** * Programs that use unique tables: invariant *)

From stdpp Require Import gmap list.
From Coq Require Import ZArith Lia.
From Verif Require Import Base Tables TabLemmas Links LinksProof TableSpec.

Section inv.
Context (c : cfg).

Definition key (h : gmap positive node) (a : positive) : N := node_hash c (sons_of h a).
Definition inT (m : gmap positive place) (i : nat) (a : positive) : Prop := m !! a = Some (InTab i).

Definition good (h : gmap positive node) (nx : gmap positive positive) (m : gmap positive place) (i : nat) (t : ptab) (k : bool) : Prop :=
  exists u, rep nx t u /\ (forall a, a ∈ tab_nodes u <-> inT m i a) /\ t_size u = Z.of_nat (length (tab_nodes u)) /\
    (k = true -> tabP (key h) (inT m i) u).

Record linv (w : lworld) (A : aworld) : Prop := {
  li_tab : forall i, match lw_tabs w !! i, aw_tabs A !! i with
                     | Some (Some t), Some (Some k) => good (lw_heap w) (lw_nx w) (aw_at A) i t k
                     | Some None, Some None => True
                     | None, None => True
                     | _, _ => False
                     end;
  li_in : forall a i, inT (aw_at A) i a -> exists k, aw_tabs A !! i = Some (Some k);
  li_loose : forall a, aw_at A !! a = Some Loose -> lw_nx w !! a = None;
  li_free : exists lf, chain (lw_nx w) (lw_free w) lf /\ NoDup lf /\ forall a, a ∈ lf -> aw_at A !! a = None /\ (a < lw_new w)%positive;
  li_new : forall a p, aw_at A !! a = Some p -> (a < lw_new w)%positive;
  li_sons : forall a p, aw_at A !! a = Some p -> aw_sons A !! a = Some (sons_of (lw_heap w) a)
}.

Lemma good_frame h nx m i t k h' nx' m' : good h nx m i t k ->
  (forall a, inT m' i a <-> inT m i a) -> (forall a, inT m i a -> nx' !! a = nx !! a) ->
  (k = true -> forall a, inT m i a -> sons_of h' a = sons_of h a) -> good h' nx' m' i t k.
Proof.
  intros (u&R&N&Z&T) Hm Hn Hs. exists u. split_and!.
  - eapply rep_frame; [|exact R]. intros a Ha. apply Hn, N, Ha.
  - intros a. rewrite N. symmetry. apply Hm.
  - done.
  - intros Hk. eapply tabP_ext; [| |exact (T Hk)].
    + intros a. symmetry. apply Hm.
    + intros a Ha. unfold key. by rewrite (Hs Hk a Ha).
Qed.

(** a table that exists *)
Lemma tab_good w A i k : linv w A -> aw_tabs A !! i = Some (Some k) ->
  exists t, lw_tabs w !! i = Some (Some t) /\ tab_at w i = LVal t /\ good (lw_heap w) (lw_nx w) (aw_at A) i t k.
Proof.
  intros I Hk. pose proof (li_tab _ _ I i) as H. rewrite Hk in H. unfold tab_at.
  destruct (lw_tabs w !! i) as [[t|]|] eqn:E; try done. by exists t.
Qed.

(** one table changes *)
Lemma linv_one w A i k t' nx' m' free' lf :
  linv w A -> aw_tabs A !! i = Some (Some k) -> good (lw_heap w) nx' m' i t' k ->
  (forall j a, j <> i -> inT m' j a <-> inT (aw_at A) j a) ->
  (forall j a, j <> i -> inT (aw_at A) j a -> nx' !! a = lw_nx w !! a) ->
  (forall a, m' !! a = Some Loose -> nx' !! a = None) ->
  (forall a p, m' !! a = Some p -> is_Some (aw_at A !! a)) ->
  chain nx' free' lf -> NoDup lf -> (forall a, a ∈ lf -> m' !! a = None /\ (a < lw_new w)%positive) ->
  linv (LW (<[i := Some t']> (lw_tabs w)) nx' free' (lw_new w) (lw_heap w)) (AW m' (aw_sons A) (aw_tabs A)).
Proof.
  intros I Hk G Ho Hn Hl Hs C ND Hf. destruct (tab_good _ _ _ _ I Hk) as (t&Et&_&_).
  constructor; simpl.
  - intros j. destruct (decide (j = i)) as [->|Hne].
    + rewrite list_lookup_insert by (by eapply lookup_lt_Some). by rewrite Hk.
    + rewrite list_lookup_insert_ne by done. pose proof (li_tab _ _ I j) as H.
      destruct (lw_tabs w !! j) as [[tj|]|], (aw_tabs A !! j) as [[kj|]|]; try done.
      eapply good_frame; [exact H|by intros; apply Ho|intros; by eapply Hn|done].
  - intros a j Ha. destruct (decide (j = i)) as [->|Hne]; [eauto|]. apply (Ho j a Hne) in Ha. by eapply li_in.
  - done.
  - exists lf. split_and!; done.
  - intros a p Ha. destruct (Hs a p Ha) as [p' Hp]. by eapply li_new.
  - intros a p Ha. destruct (Hs a p Ha) as [p' Hp]. by eapply li_sons.
Qed.

Lemma free_frame (nx nx' : gmap positive positive) free (lf : list positive) (m : gmap positive place) new :
  chain nx free lf -> (forall a, a ∈ lf -> m !! a = None /\ (a < new)%positive) ->
  (forall a, m !! a = None -> nx' !! a = nx !! a) -> chain nx' free lf.
Proof. intros C H F. eapply chain_frame; [|exact C]. intros a Ha. apply F. by apply H. Qed.

Lemma swept_nodes dead u n : tab_nodes (swept dead u n) = List.filter (alive dead) (tab_nodes u).
Proof.
  unfold tab_nodes, swept. simpl. induction (t_buckets u) as [|l bs IH]; simpl; [done|]. by rewrite List.filter_app, IH.
Qed.

Lemma elem_filter (f : positive -> bool) l a : a ∈ List.filter f l <-> a ∈ l /\ f a = true.
Proof. rewrite !elem_of_list_In. apply List.filter_In. Qed.

Lemma nodup_filter (f : positive -> bool) l : NoDup l -> NoDup (List.filter f l).
Proof. rewrite !NoDup_ListNoDup. apply List.NoDup_filter. Qed.

Lemma swept_tabP ky P dead u n : tabP ky P u -> tabP ky (fun a => P a /\ dead a = false) (swept dead u n).
Proof.
  intros (Hc&Hl&H). split_and!; simpl; [done|by rewrite map_length|].
  intros b l Hb. change (bucket_of (swept dead u n)) with (bucket_of u).
  rewrite list_lookup_fmap in Hb. destruct (t_buckets u !! b) as [l0|] eqn:E; simplify_eq/=.
  destruct (H _ _ E) as [ND Hi]. split; [by apply nodup_filter|].
  intros a. rewrite elem_filter, Hi. unfold alive. destruct (dead a); naive_solver.
Qed.

Lemma start_linv : linv l_start (AW ∅ ∅ []).
Proof.
  constructor; simpl; try (intros a ?; unfold inT; simpl; rewrite lookup_empty; done).
  - done.
  - exists []. split; [done|]. split; [constructor|set_solver].
Qed.

Lemma move_all_lookup i to m a : move_all i to m !! a = (fun p => if decide (p = InTab i) then to else p) <$> m !! a.
Proof. apply lookup_fmap. Qed.

Lemma perm_len {X} (l l' : list X) : l ≡ₚ l' -> length l = length l'.
Proof. apply Permutation_length. Qed.

Lemma tabs_length w A : linv w A -> length (lw_tabs w) = length (aw_tabs A).
Proof.
  intros I. pose proof (li_tab _ _ I) as H. destruct (Nat.lt_trichotomy (length (lw_tabs w)) (length (aw_tabs A))) as [L|[L|L]]; [|done|].
  - specialize (H (length (lw_tabs w))). rewrite (lookup_ge_None_2 (lw_tabs w)) in H by lia.
    destruct (lookup_lt_is_Some_2 _ _ L) as [x E]. rewrite E in H. done.
  - specialize (H (length (aw_tabs A))). rewrite (lookup_ge_None_2 (aw_tabs A)) in H by lia.
    destruct (lookup_lt_is_Some_2 _ _ L) as [[x|] E]; rewrite E in H; done.
Qed.

Lemma move_all_in i to m j a : inT (move_all i to m) j a <-> (j <> i /\ inT m j a) \/ (to = InTab j /\ inT m i a).
Proof.
  unfold inT. rewrite move_all_lookup. destruct (m !! a) as [p|]; simpl; [|naive_solver].
  case_decide; naive_solver.
Qed.
Lemma move_all_none i to m a : move_all i to m !! a = None <-> m !! a = None.
Proof. rewrite move_all_lookup. by destruct (m !! a). Qed.
Lemma move_all_loose i j m a : move_all i (InTab j) m !! a = Some Loose -> m !! a = Some Loose.
Proof. rewrite move_all_lookup. destruct (m !! a) as [p|]; simpl; [|done]. case_decide; congruence. Qed.

(** every call that is allowed ends and has the effect the specification says *)
Lemma l_step w A k : linv w A -> allows A k ->
  exists w' r A', l_exec c k w = LVal (w', r) /\ effect A k r A' /\ linv w' A'.
Proof.
  intros I Hp. destruct (li_free _ _ I) as (lf&C&ND&Hf).
  destruct k as [cap|sons|a sons|a|skip|i a|i a|i|i|i|i j|i dead]; simpl in Hp; simpl.
  - (* TTable *)
    eexists _, _, _. split; [done|]. split; [done|].
    pose proof (tabs_length _ _ I) as Lt.
    constructor; simpl.
    + intros i. destruct (decide (i < length (lw_tabs w))) as [L|L].
      * rewrite !lookup_app_l by lia. apply (li_tab _ _ I).
      * rewrite !lookup_app_r by lia. rewrite <- Lt. destruct (i - length (lw_tabs w)) as [|n] eqn:En; [|done].
        simpl. pose proof (get_gte_pos cap) as Hg.
        assert (Hc : (0 < Z.to_N (get_gte_capacity cap))%N) by lia.
        assert (No : forall a, ~ inT (aw_at A) i a).
        { intros a Ha. destruct (li_in _ _ I _ _ Ha) as [k Hk]. apply lookup_lt_Some in Hk. lia. }
        exists (tab_new cap). split_and!.
        -- unfold p_new, tab_new. by apply empty_rep.
        -- intros a. unfold tab_new. rewrite empty_nodes. split; [set_solver|]. intros Ha. by destruct (No a).
        -- unfold tab_new. by rewrite empty_nodes.
        -- intros _. eapply tabP_ext; [| |apply (tabP_empty (key (lw_heap w)) _ 0%Z Hc)].
           ++ intros a. split; [done|]. intros Ha. by destruct (No a).
           ++ done.
    + intros a i Ha. destruct (li_in _ _ I _ _ Ha) as [k Hk]. exists k. apply lookup_app_l_Some, Hk.
    + apply I.
    + eauto.
    + apply I.
    + apply I.
  - (* TCreate *)
    assert (E : exists a free' new', lw_free w = match lw_free w with Some _ => Some a | None => None end /\
      l_exec c (TCreate sons) w = LVal (LW (lw_tabs w) (set_next a None (lw_nx w)) free' new' (<[a := with_sons sons]> (lw_heap w)), Some a) /\
      aw_at A !! a = None /\ (lw_new w <= new')%positive /\ (a < new')%positive /\
      exists lf', chain (lw_nx w) free' lf' /\ a ∉ lf' /\ NoDup lf' /\ forall d, d ∈ lf' -> d ∈ lf).
    { simpl. destruct (lw_free w) as [a|] eqn:Ef.
      - destruct lf as [|b lf]; [done|]. destruct C as [Cb C]. simplify_eq/=. inversion ND; subst.
        exists b, (lw_nx w !! b), (lw_new w). split; [done|]. split; [done|]. destruct (Hf b) as [? ?]; [set_solver|].
        split; [done|]. split; [lia|]. split; [done|]. exists lf. split_and!; try done. set_solver.
      - exists (lw_new w), None, (Pos.succ (lw_new w)). split; [done|]. split; [done|]. split.
        { destruct (aw_at A !! lw_new w) eqn:E; [|done]. apply (li_new _ _ I) in E. lia. }
        split; [lia|]. split; [lia|]. exists []. split_and!; [done|set_solver|constructor|set_solver]. }
    destruct E as (a&free'&new'&_&E&Ha&Hle&Hlt&lf'&C'&Hn&ND'&Hs). simpl in E.
    eexists _, _, _. split; [exact E|]. split; [exists a; done|].
    assert (Hne : forall b p, aw_at A !! b = Some p -> b <> a) by (intros b p Hb ->; congruence).
    assert (Hnx : forall b, b <> a -> set_next a None (lw_nx w) !! b = lw_nx w !! b).
    { intros b Hb. simpl. by rewrite lookup_delete_ne by done. }
    assert (Hso : forall b, b <> a -> sons_of (<[a := with_sons sons]> (lw_heap w)) b = sons_of (lw_heap w) b).
    { intros b Hb. unfold sons_of. by rewrite lookup_insert_ne by done. }
    constructor; simpl.
    + intros i. pose proof (li_tab _ _ I i) as H. destruct (lw_tabs w !! i) as [[t|]|], (aw_tabs A !! i) as [[k|]|]; try done.
      eapply good_frame; [exact H| | |].
      * intros b. unfold inT. destruct (decide (b = a)) as [->|?]; [rewrite lookup_insert, Ha; done|by rewrite lookup_insert_ne by done].
      * intros b Hb. apply Hnx. by eapply Hne.
      * intros _ b Hb. apply Hso. by eapply Hne.
    + intros b i. unfold inT. destruct (decide (b = a)) as [->|?]; [by rewrite lookup_insert|rewrite lookup_insert_ne by done]. apply I.
    + intros b. destruct (decide (b = a)) as [->|?]; [by rewrite lookup_delete|]. rewrite lookup_insert_ne, lookup_delete_ne by done. apply I.
    + exists lf'. split_and!; [|done|].
      * eapply chain_frame; [|exact C']. intros b Hb. apply Hnx. congruence.
      * intros b Hb. destruct (Hf b (Hs b Hb)). rewrite lookup_insert_ne by congruence. split; [done|lia].
    + intros b p. destruct (decide (b = a)) as [->|?]; [done|]. rewrite lookup_insert_ne by done. intros Hb. apply (li_new _ _ I) in Hb. lia.
    + intros b p. destruct (decide (b = a)) as [->|?].
      * intros _. rewrite lookup_insert. unfold sons_of. by rewrite lookup_insert.
      * rewrite !lookup_insert_ne by done. intros Hb. rewrite Hso by done. by eapply li_sons.
  - (* TSons *)
    assert (Hk : forall i k, inT (aw_at A) i a -> aw_tabs A !! i = Some (Some k) -> k = false).
    { intros i k Hi Hk. unfold inT in Hi. destruct Hp as [[Hp|Hp]|(i'&Hp&Hk')]; congruence. }
    assert (Hin : is_Some (aw_at A !! a)) by (destruct Hp as [[Hp|Hp]|(i'&Hp&Hk')]; rewrite Hp; eauto).
    assert (Hso : forall b, b <> a -> sons_of (<[a := with_sons sons]> (lw_heap w)) b = sons_of (lw_heap w) b).
    { intros b Hb. unfold sons_of. by rewrite lookup_insert_ne by done. }
    eexists _, _, _. split; [done|]. split; [done|]. constructor; simpl; try apply I.
    + intros i. pose proof (li_tab _ _ I i) as H. destruct (lw_tabs w !! i) as [[t|]|], (aw_tabs A !! i) as [[k|]|] eqn:Ek; try done.
      eapply good_frame; [exact H|done|done|]. intros -> b Hb. apply Hso. intros ->. by specialize (Hk i true Hb Ek).
    + intros b p Hb. destruct (decide (b = a)) as [->|?].
      * rewrite lookup_insert. unfold sons_of. by rewrite lookup_insert.
      * rewrite lookup_insert_ne by done. rewrite Hso by done. by eapply li_sons.
  - (* TRelease *)
    assert (Ho : forall i, ~ inT (aw_at A) i a) by (intros i Hi; unfold inT in Hi; destruct Hp; congruence).
    assert (Hlt : (a < lw_new w)%positive) by (destruct Hp as [Hp|Hp]; by eapply li_new).
    assert (Hal : a ∉ lf).
    { intros Hi. destruct (Hf a Hi) as [E _]. destruct Hp; congruence. }
    assert (Hnx : forall b, b <> a -> set_next a (lw_free w) (lw_nx w) !! b = lw_nx w !! b).
    { intros b Hb. unfold set_next. destruct (lw_free w); [by rewrite lookup_insert_ne|by rewrite lookup_delete_ne]. }
    eexists _, _, _. split; [done|]. split; [done|]. constructor; simpl.
    + intros i. pose proof (li_tab _ _ I i) as H. destruct (lw_tabs w !! i) as [[t|]|], (aw_tabs A !! i) as [[k|]|]; try done.
      eapply good_frame; [exact H| |intros b Hb; apply Hnx; intros ->; by destruct (Ho i)|done].
      intros b. unfold inT. destruct (decide (b = a)) as [->|?]; [|by rewrite lookup_delete_ne].
      rewrite lookup_delete. split; [done|]. intros Hi. by destruct (Ho i).
    + intros b i. unfold inT. destruct (decide (b = a)) as [->|?]; [by rewrite lookup_delete|rewrite lookup_delete_ne by done]. apply I.
    + intros b. destruct (decide (b = a)) as [->|?]; [by rewrite lookup_delete|]. rewrite lookup_delete_ne by done. rewrite Hnx by done. apply I.
    + exists (a :: lf). split_and!.
      * split; [done|]. assert (E : set_next a (lw_free w) (lw_nx w) !! a = lw_free w).
        { unfold set_next. destruct (lw_free w); [by rewrite lookup_insert|by rewrite lookup_delete]. }
        rewrite E. eapply chain_frame; [|exact C]. intros b Hb. apply Hnx. congruence.
      * by constructor.
      * intros b Hb. apply elem_of_cons in Hb as [->|Hb]; [by rewrite lookup_delete|]. destruct (Hf b Hb). split; [|done].
        rewrite lookup_delete_ne by congruence. done.
    + intros b p Hb. apply lookup_delete_Some in Hb as [_ Hb]. by eapply li_new.
    + intros b p Hb. apply lookup_delete_Some in Hb as [_ Hb]. by eapply li_sons.
  - (* TGrow *)
    eexists _, _, _. split; [done|]. split; [done|].
    assert (Hl : (lw_new w <= padd (lw_new w) skip)%positive) by (destruct skip; simpl; lia).
    constructor; simpl; try apply I.
    + exists lf. split_and!; [done..|]. intros a Ha. destruct (Hf a Ha). split; [done|lia].
    + intros a p Ha. apply (li_new _ _ I) in Ha. lia.
  - (* TInsert *)
    destruct Hp as [Hk Ha]. destruct (tab_good _ _ _ _ I Hk) as (t&Et&Ew&u&R&N&Z&T). specialize (T eq_refl).
    assert (Hni : a ∉ tab_nodes u) by (rewrite N; unfold inT; congruence).
    destruct (insert_impl_ok _ _ _ _ (key (lw_heap w) a) R Hni (li_loose _ _ I _ Ha)) as (t'&nx'&E&R'&F).
    rewrite Ew. cbn [lbind]. unfold p_insert. change (hash_of c (lw_heap w) a) with (key (lw_heap w) a). rewrite E. cbn [lbind fst snd].
    eexists _, _, _. split; [done|]. split; [done|].
    pose proof (insert_nodes u a (key (lw_heap w) a) (rp_pos _ _ _ R) (rp_len _ _ _ R)) as P.
    assert (Hm : forall b, inT (<[a := InTab i]> (aw_at A)) i b <-> inT (aw_at A) i b \/ b = a).
    { intros b. unfold inT. destruct (decide (b = a)) as [->|?]; [rewrite lookup_insert; tauto|rewrite lookup_insert_ne by done; tauto]. }
    unfold set_tab. eapply linv_one; [exact I|exact Hk| | | | | |eapply free_frame; [exact C|exact Hf|]|exact ND|].
    + exists (UTab (t_size (tab_insert_impl u a (key (lw_heap w) a)) + 1) (t_cap (tab_insert_impl u a (key (lw_heap w) a))) (t_buckets (tab_insert_impl u a (key (lw_heap w) a)))).
      split_and!.
      * destruct R' as [rs rc rpo rl rn rch]. constructor; simpl; simpl in rs; try done. by rewrite rs.
      * intros b. change (tab_nodes (UTab _ _ ?x)) with (concat x). change (concat _) with (tab_nodes (tab_insert_impl u a (key (lw_heap w) a))).
        rewrite P, elem_of_cons, N, Hm. tauto.
      * change (tab_nodes (UTab _ _ ?x)) with (concat x). change (concat _) with (tab_nodes (tab_insert_impl u a (key (lw_heap w) a))).
        rewrite (perm_len _ _ P). simpl. lia.
      * intros _. pose proof (tabP_insert (key (lw_heap w)) _ u a T) as T'.
        assert (T2 : tabP (key (lw_heap w)) (inT (<[a:=InTab i]> (aw_at A)) i) (tab_insert_impl u a (key (lw_heap w) a))).
        { eapply tabP_ext; [| |apply T'].
          - intros b. by rewrite Hm.
          - done.
          - unfold inT. congruence. }
        exact T2.
    + intros j b Hj. unfold inT. destruct (decide (b = a)) as [->|?]; [rewrite lookup_insert, Ha; naive_solver|by rewrite lookup_insert_ne by done].
    + intros j b Hj Hb. apply F. unfold inT in Hb. congruence.
    + intros b. destruct (decide (b = a)) as [->|?]; [by rewrite lookup_insert|]. rewrite lookup_insert_ne by done. rewrite F by done. apply I.
    + intros b p. destruct (decide (b = a)) as [->|?]; [eauto|]. rewrite lookup_insert_ne by done. eauto.
    + intros b Hb. apply F. congruence.
    + intros b Hb. destruct (Hf b Hb). rewrite lookup_insert_ne by congruence. done.
  - (* TErase *)
    destruct Hp as [Hk Ha]. destruct (tab_good _ _ _ _ I Hk) as (t&Et&Ew&u&R&N&Z&T). specialize (T eq_refl).
    destruct (tabP_erase _ _ _ a T Ha) as (u'&Eu&Tu&Lu&Su&Cu).
    destruct (erase_ok _ _ _ _ _ _ R Eu) as (t'&nx'&it&E&R'&Na&F&_&_&_&P).
    rewrite Ew. cbn [lbind]. unfold p_erase.
    assert (Eb : idx t (hash_of c (lw_heap w) a) = bucket_of u (key (lw_heap w) a)).
    { destruct (rep_bucket _ _ _ (key (lw_heap w) a) R) as (hd&l&_&_&E3&_). exact E3. }
    rewrite Eb, E. cbn [lbind fst snd].
    eexists _, _, _. split; [done|]. split; [done|].
    assert (Hm : forall b, inT (<[a := Loose]> (aw_at A)) i b <-> inT (aw_at A) i b /\ b <> a).
    { intros b. unfold inT. destruct (decide (b = a)) as [->|?]; [rewrite lookup_insert; naive_solver|rewrite lookup_insert_ne by done; tauto]. }
    assert (F' : forall b, ~ inT (aw_at A) i b -> nx' !! b = lw_nx w !! b) by (intros b Hb; apply F; by rewrite N).
    unfold set_tab. eapply linv_one; [exact I|exact Hk| | | | | |eapply free_frame; [exact C|exact Hf|]|exact ND|].
    + exists u'. split_and!; [done| | |].
      * intros b. rewrite Hm. apply (tabP_elem _ _ _ b Tu).
      * rewrite Su, Z. rewrite (perm_len _ _ P). simpl. lia.
      * intros _. eapply tabP_ext; [|done|exact Tu]. intros b. by rewrite Hm.
    + intros j b Hj. unfold inT. destruct (decide (b = a)) as [->|?]; [|by rewrite lookup_insert_ne by done]. rewrite lookup_insert.
      unfold inT in Ha. rewrite Ha. split; [done|]. intros [= ->]. done.
    + intros j b Hj Hb. apply F'. unfold inT in *. congruence.
    + intros b. destruct (decide (b = a)) as [->|?]; [done|]. rewrite lookup_insert_ne by done. intros Hb. rewrite F'; [by apply I|]. unfold inT. congruence.
    + intros b p. destruct (decide (b = a)) as [->|?]; [eauto|]. rewrite lookup_insert_ne by done. eauto.
    + intros b Hb. apply F'. unfold inT. congruence.
    + intros b Hb. destruct (Hf b Hb). rewrite lookup_insert_ne by congruence. done.
  - (* TAdjust *)
    destruct (tab_good _ _ _ _ I Hp) as (t&Et&Ew&u&R&N&Z&T). specialize (T eq_refl).
    destruct (adjust_ok c (lw_heap w) _ _ _ R) as (t'&nx'&E&R'&F&P). destruct (tab_adjust_ok c (lw_heap w) _ _ T) as (T'&L'&S').
    rewrite Ew. cbn [lbind]. rewrite E. cbn [lbind fst snd].
    assert (F' : forall b, ~ inT (aw_at A) i b -> nx' !! b = lw_nx w !! b) by (intros b Hb; apply F; by rewrite N).
    eexists _, _, _. split; [done|]. split; [done|]. destruct A as [m ss tabs]. simpl in *.
    unfold set_tab. eapply (linv_one w (AW m ss tabs)); [exact I|exact Hp| | | | | |eapply free_frame; [exact C|exact Hf|]|exact ND|].
    + exists (tab_adjust c (lw_heap w) u). split_and!; [done| | |done].
      * intros b. rewrite P. apply N.
      * rewrite S', Z. by rewrite (perm_len _ _ P).
    + done.
    + intros j b Hj Hb. apply F'. unfold inT in *. simpl in Hb. congruence.
    + intros b Hb. rewrite F'; [by apply I|]. unfold inT. congruence.
    + simpl. eauto.
    + intros b Hb. apply F'. unfold inT. simpl in Hb. congruence.
    + intros b Hb. by apply Hf.
  - (* TClear *)
    destruct (tab_good _ _ _ _ I Hp) as (t&Et&Ew&u&R&N&Z&T). specialize (T eq_refl).
    rewrite Ew. cbn [lbind]. eexists _, _, _. split; [done|]. split; [done|].
    assert (Hm : forall j b, j <> i -> inT (move_all i Dropped (aw_at A)) j b <-> inT (aw_at A) j b).
    { intros j b Hj. unfold inT. rewrite move_all_lookup. destruct (aw_at A !! b) as [p|]; simpl; [|done]. case_decide; naive_solver. }
    unfold set_tab. eapply linv_one; [exact I|exact Hp| | | | | |exact C|exact ND|].
    + assert (Hc : (0 < t_cap u)%N) by apply R.
      assert (No : forall b, ~ inT (move_all i Dropped (aw_at A)) i b).
      { intros b. unfold inT. rewrite move_all_lookup. destruct (aw_at A !! b) as [p|]; simpl; [|done]. case_decide; naive_solver. }
      exists (UTab 0 (t_cap u) (empty_buckets (t_cap u))). split_and!.
      * unfold p_clear. rewrite (rp_cap _ _ _ R). rewrite ?(rep_heads _ _ _ R). by apply empty_rep.
      * intros b. rewrite empty_nodes. split; [set_solver|]. intros Hb. by destruct (No b).
      * by rewrite empty_nodes.
      * intros _. eapply tabP_ext; [|done|by apply tabP_empty]. intros b. split; [done|]. apply No.
    + done.
    + done.
    + intros b. rewrite move_all_lookup. intros Hb. apply I. destruct (aw_at A !! b) as [p|]; simplify_eq/=. case_decide; congruence.
    + intros b p. rewrite move_all_lookup. destruct (aw_at A !! b); naive_solver.
    + intros b Hb. destruct (Hf b Hb) as [E ?]. by rewrite move_all_lookup, E.
  - (* TSteal *)
    destruct (tab_good _ _ _ _ I Hp) as (t&Et&Ew&u&R&N&Z&T). specialize (T eq_refl).
    rewrite Ew. cbn [lbind]. eexists _, _, _. split; [done|]. split; [done|].
    pose proof (tabs_length _ _ I) as Lt. pose proof (lookup_lt_Some _ _ _ Hp) as Li.
    assert (Big : forall j b, inT (aw_at A) j b -> j < length (aw_tabs A)).
    { intros j b Hb. destruct (li_in _ _ I _ _ Hb) as [k Hk]. by eapply lookup_lt_Some. }
    set (n := length (aw_tabs A)) in *. simpl.
    constructor; simpl.
    + intros j. destruct (decide (j < n)) as [Lj|Lj].
      * rewrite lookup_app_l by (rewrite insert_length; lia). rewrite lookup_app_l by done.
        destruct (decide (j = i)) as [->|Hj].
        -- rewrite list_lookup_insert by lia. rewrite Hp.
           assert (Hc : (0 < t_cap u)%N) by apply R.
           assert (No : forall b, ~ inT (move_all i (InTab n) (aw_at A)) i b).
           { intros b. rewrite move_all_in. intros [[? ?]|[E ?]]; [done|]. injection E. lia. }
           exists (UTab 0 (t_cap u) (empty_buckets (t_cap u))). split_and!.
           ++ unfold p_clear. rewrite (rp_cap _ _ _ R). by apply empty_rep.
           ++ intros b. rewrite empty_nodes. split; [set_solver|]. intros Hb. by destruct (No b).
           ++ by rewrite empty_nodes.
           ++ intros _. eapply tabP_ext; [|done|by apply tabP_empty]. intros b. split; [done|]. apply No.
        -- rewrite list_lookup_insert_ne by done. pose proof (li_tab _ _ I j) as H.
           destruct (lw_tabs w !! j) as [[tj|]|], (aw_tabs A !! j) as [[kj|]|]; try done.
           eapply good_frame; [exact H| |done|done].
           intros b. rewrite move_all_in. split; [|tauto]. intros [[? ?]|[E ?]]; [done|]. injection E. lia.
      * rewrite lookup_app_r by (rewrite insert_length; lia). rewrite lookup_app_r by lia. rewrite insert_length, Lt.
        replace (j - length (aw_tabs A)) with (j - n) by done.
        destruct (j - n) as [|d] eqn:Ej; [|done]. assert (j = n) as -> by lia. simpl.
        exists u. split_and!; [done| |done|done]. intros b. rewrite N, move_all_in. split; [auto|].
        intros [[? Hb]|[_ ?]]; [|done]. apply Big in Hb. lia.
    + intros a j Ha. apply move_all_in in Ha as [[Hj Ha]|[Ej Ha]].
      * destruct (li_in _ _ I _ _ Ha) as [k Hk]. exists k. by apply lookup_app_l_Some.
      * injection Ej as <-. exists false. rewrite lookup_app_r by (unfold n; lia). replace (n - length (aw_tabs A)) with 0 by (unfold n; lia). done.
    + intros a Ha. apply move_all_loose in Ha. by apply I.
    + exists lf. split_and!; [done|done|]. intros a Ha. rewrite move_all_none. by apply Hf.
    + intros a p Ha. destruct (aw_at A !! a) as [p'|] eqn:E; [by eapply li_new|]. apply (move_all_none i (InTab n)) in E. congruence.
    + intros a p Ha. destruct (aw_at A !! a) as [p'|] eqn:E; [by eapply li_sons|]. apply (move_all_none i (InTab n)) in E. congruence.
  - (* TMerge *)
    destruct Hp as (Hij&Hk&kj&Hkj). destruct (tab_good _ _ _ _ I Hk) as (t&Et&Ew&u&R&N&Z&T). specialize (T eq_refl).
    destruct (tab_good _ _ _ _ I Hkj) as (t'&Et'&Ew'&u'&R'&N'&Z'&_).
    assert (Hdis : forall a, inT (aw_at A) j a -> ~ inT (aw_at A) i a) by (unfold inT; intros a E1 E2; congruence).
    assert (NDD : NoDup (tab_nodes u' ++ tab_nodes u)).
    { apply NoDup_app. split_and!; [apply R'| |apply R]. intros a Ha Ha'. apply N' in Ha. apply N in Ha'. by eapply Hdis. }
    destruct (merge_ok c (lw_heap w) _ _ _ _ _ R R' NDD) as (t2&nx2&E&R2&F&P).
    destruct (tab_merge_ok c (lw_heap w) _ (inT (aw_at A) j) _ u' T (rp_nodup _ _ _ R') N' Hdis) as (T2&L2&S2).
    rewrite Ew, Ew'. cbn [lbind]. rewrite E. cbn [lbind fst snd]. unfold set_tab. cbn [lw_tabs lw_nx lw_free lw_new lw_heap].
    eexists _, _, _. split; [done|]. split; [done|].
    assert (F' : forall b, ~ inT (aw_at A) i b -> ~ inT (aw_at A) j b -> nx2 !! b = lw_nx w !! b).
    { intros b H1 H2. apply F; [by rewrite N|by rewrite N']. }
    assert (Li : i < length (lw_tabs w)) by (by eapply lookup_lt_Some).
    assert (Lj : j < length (lw_tabs w)) by (by eapply lookup_lt_Some).
    constructor; cbn [aw_at aw_sons aw_tabs lw_tabs lw_nx lw_free lw_new lw_heap].
    + intros d. destruct (decide (d = j)) as [->|Hd].
      * rewrite list_lookup_insert by (by rewrite insert_length). rewrite list_lookup_insert by (by eapply lookup_lt_Some). done.
      * rewrite !(list_lookup_insert_ne _ j d) by done. destruct (decide (d = i)) as [->|Hdi].
        -- rewrite list_lookup_insert by done. rewrite Hk.
           exists (tab_merge c (lw_heap w) u u'). split_and!; [done| | |].
           ++ intros b. rewrite P, elem_of_app, N, N', move_all_in. naive_solver.
           ++ rewrite S2, Z, Z', (perm_len _ _ P), app_length. lia.
           ++ intros _. eapply tabP_ext; [|done|exact T2]. intros b. rewrite move_all_in. naive_solver.
        -- rewrite list_lookup_insert_ne by done. pose proof (li_tab _ _ I d) as H.
           destruct (lw_tabs w !! d) as [[td|]|], (aw_tabs A !! d) as [[kd|]|]; try done.
           eapply good_frame; [exact H| | |done].
           ++ intros b. rewrite move_all_in. naive_solver.
           ++ intros b Hb. apply F'; unfold inT in *; congruence.
    + intros a d Ha. apply move_all_in in Ha as [[Hd Ha]|[Ed Ha]].
      * destruct (li_in _ _ I _ _ Ha) as [k Hkd]. exists k. by rewrite list_lookup_insert_ne by done.
      * injection Ed as <-. exists true. by rewrite list_lookup_insert_ne by done.
    + intros a Ha. apply move_all_loose in Ha. rewrite F'; [by apply I|unfold inT; congruence|unfold inT; congruence].
    + exists lf. split_and!; [|done|].
      * eapply free_frame; [exact C|exact Hf|]. intros b Hb. apply F'; unfold inT; congruence.
      * intros a Ha. rewrite move_all_none. by apply Hf.
    + intros a p Ha. destruct (aw_at A !! a) as [p'|] eqn:Ea; [by eapply li_new|]. apply (move_all_none j (InTab i)) in Ea. congruence.
    + intros a p Ha. destruct (aw_at A !! a) as [p'|] eqn:Ea; [by eapply li_sons|]. apply (move_all_none j (InTab i)) in Ea. congruence.
  - (* TSweep *)
    destruct (tab_good _ _ _ _ I Hp) as (t&Et&Ew&u&R&N&Z&T). specialize (T eq_refl).
    assert (Hfl : forall d, d ∈ lf -> d ∉ tab_nodes u).
    { intros d Hd. rewrite N. destruct (Hf d Hd). unfold inT. congruence. }
    destruct (sweep_all dead _ _ _ _ _ R C Hfl) as (t'&nx'&free'&E&R'&C'&F).
    rewrite Ew. cbn [lbind]. rewrite E. cbn [lbind fst snd].
    eexists _, _, _. split; [done|]. split; [done|].
    set (m' := filter _ (aw_at A)).
    assert (Hm : forall a p, m' !! a = Some p <-> aw_at A !! a = Some p /\ ~ (p = InTab i /\ dead a = true)).
    { intros a p. unfold m'. by rewrite map_filter_lookup_Some. }
    assert (F' : forall b, ~ inT (aw_at A) i b -> nx' !! b = lw_nx w !! b) by (intros b Hb; apply F; by rewrite N).
    assert (Hi : forall b, inT m' i b <-> inT (aw_at A) i b /\ dead b = false).
    { intros b. unfold inT. rewrite Hm. destruct (dead b); naive_solver. }
    eapply linv_one; [exact I|exact Hp| | | | | |exact C'| |].
    + eexists. split_and!; [exact R'| | |].
      * intros b. rewrite swept_nodes, elem_filter, N, Hi. unfold alive. destruct (dead b); naive_solver.
      * rewrite swept_nodes. unfold swept. cbn [t_size]. rewrite Z.
        pose proof (filter_len dead (tab_nodes u)) as L. change (alive dead) with (fun a => negb (dead a)). lia.
      * intros _. eapply tabP_ext; [|done|by apply swept_tabP]. intros b. by rewrite Hi.
    + intros j b Hj. unfold inT. rewrite Hm. naive_solver.
    + intros j b Hj Hb. apply F'. unfold inT in *. congruence.
    + intros b Hb. apply Hm in Hb as [Hb _]. rewrite F'; [by apply I|]. unfold inT. congruence.
    + intros b p Hb. apply Hm in Hb as [-> _]. eauto.
    + apply NoDup_app. split_and!; [| |done].
      * rewrite NoDup_ListNoDup. apply List.NoDup_rev. rewrite <- NoDup_ListNoDup. apply nodup_filter, R.
      * intros b Hb Hl. apply (Hfl b Hl). rewrite elem_of_list_In, <- List.in_rev, <- elem_of_list_In in Hb. by apply elem_filter in Hb as [? _].
    + intros b Hb. apply elem_of_app in Hb as [Hb|Hb].
      * rewrite elem_of_list_In, <- List.in_rev, <- elem_of_list_In in Hb. apply elem_filter in Hb as [Hb Hd]. apply N in Hb.
        split; [|by eapply li_new]. destruct (m' !! b) as [p|] eqn:Ep; [|done]. apply Hm in Ep as [Ep Hn]. unfold inT in Hb.
        destruct Hn. split; [congruence|done].
      * destruct (Hf b Hb) as [Hn ?]. split; [|done]. destruct (m' !! b) as [p|] eqn:Ep; [|done]. apply Hm in Ep as [Ep _]. congruence.
Qed.

(** what an invariant table answers *)
Lemma good_nodes w A i k : linv w A -> aw_tabs A !! i = Some (Some k) ->
  exists l, l_nodes w i = LVal l /\ NoDup l /\ (forall a, a ∈ l <-> aw_at A !! a = Some (InTab i)) /\ l_size w i = LVal (Z.of_nat (length l)).
Proof.
  intros I Hk. destruct (tab_good _ _ _ _ I Hk) as (t&Et&Ew&u&R&N&Z&_). exists (tab_nodes u).
  unfold l_nodes, l_size. rewrite Ew. cbn [lbind]. split_and!; [by apply nodes_ok|apply R|apply N|]. by rewrite (rp_size _ _ _ R), Z.
Qed.

Lemma good_find w A i sons : linv w A -> aw_tabs A !! i = Some (Some true) ->
  match l_find c w i sons with
  | LVal (Some a) => aw_at A !! a = Some (InTab i) /\ aw_sons A !! a = Some sons
  | LVal None => forall a, aw_at A !! a = Some (InTab i) -> aw_sons A !! a <> Some sons
  | _ => False
  end.
Proof.
  intros I Hk. destruct (tab_good _ _ _ _ I Hk) as (t&Et&Ew&u&R&N&Z&T). specialize (T eq_refl).
  unfold l_find. rewrite Ew. cbn [lbind]. rewrite (find_ok c (lw_heap w) _ _ _ sons R).
  destruct T as (Tc&Tl&T). unfold tab_find.
  destruct (lookup_lt_is_Some_2 (t_buckets u) (bucket_of u (node_hash c sons))) as [l El].
  { rewrite Tl. by apply bucket_lt. }
  rewrite (nth_lookup_Some _ _ _ _ El). destruct (T _ _ El) as [_ Hin].
  destruct (List.find _ l) as [a|] eqn:Ef.
  - apply List.find_some in Ef as [Ha Heq]. apply elem_of_list_In in Ha. apply Hin in Ha as [Ha _].
    apply bool_decide_eq_true in Heq. split; [done|]. rewrite (li_sons _ _ I _ _ Ha). by f_equal.
  - intros a Ha Hs. rewrite (li_sons _ _ I _ _ Ha) in Hs. injection Hs as Hs.
    assert (Hl : a ∈ l). { apply Hin. split; [done|]. unfold key. by rewrite Hs. }
    apply elem_of_list_In in Hl. pose proof (List.find_none _ _ Ef a Hl) as Heq.
    apply bool_decide_eq_false in Heq. done.
Qed.

Lemma program_linv ks w A : program c ks w A -> linv w A.
Proof.
  induction 1 as [|ks w A k w' r A' _ I Hp E Ef]; [apply start_linv|].
  destruct (l_step w A k I Hp) as (w2&r2&A2&E2&Ef2&I2). rewrite E in E2. injection E2 as <- <-.
  assert (A' = A2) as ->; [|done].
  destruct k; simpl in Ef, Ef2; try congruence. destruct Ef as (a&Ea&_&->), Ef2 as (b&Eb&_&->). congruence.
Qed.

End inv.
