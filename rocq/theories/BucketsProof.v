(** * Proofs about the arrays of the tables *)

From stdpp Require Import list.
From Coq Require Import ZArith Lia.
From Verif Require Import Base Tables Tsl CacheProof Buckets.

Local Open Scope Z_scope.
Local Opaque get_gte_capacity capacities.

(** ** Capacities *)
Definition rank (x : Z) : Z := Z.of_nat (length (List.filter (fun y => y <? x) capacities)).

Lemma listed n : In (get_gte_capacity n) capacities.
Proof.
  Local Transparent get_gte_capacity. unfold get_gte_capacity. destruct (gte_capacity_in_spec capacities n) as [(H&_)|[-> _]]; [done|].
  Local Transparent capacities. vm_compute. tauto.
Qed.
Local Opaque get_gte_capacity.

(** each listed prime is at least twice the ones before it; ranks are 0, ..., 23 *)
Lemma listed_pairs : forallb (fun x => forallb (fun y => negb (x <? y) || ((2 * x <=? y) && (rank x + 1 <=? rank y))) capacities &&
  (0 <? x) && (0 <=? rank x) && (rank x <=? 23)) capacities = true.
Proof. vm_compute. reflexivity. Qed.
Local Opaque capacities rank.

Lemma listed_one x : In x capacities -> 0 < x /\ 0 <= rank x <= 23.
Proof.
  intros H. pose proof listed_pairs as P. rewrite forallb_forall in P. specialize (P x H).
  apply andb_true_iff in P as [P P3]. apply andb_true_iff in P as [P P2]. apply andb_true_iff in P as [_ P1].
  apply Z.ltb_lt in P1. apply Z.leb_le in P2, P3. lia.
Qed.
Lemma listed_lt x y : In x capacities -> In y capacities -> x < y -> 2 * x <= y /\ rank x + 1 <= rank y.
Proof.
  intros H Hy Hlt. pose proof listed_pairs as P. rewrite forallb_forall in P. specialize (P x H).
  apply andb_true_iff in P as [P _]. apply andb_true_iff in P as [P _]. apply andb_true_iff in P as [P _].
  rewrite forallb_forall in P. specialize (P y Hy). apply orb_true_iff in P as [P|P].
  - apply negb_true_iff, Z.ltb_ge in P. lia.
  - apply andb_true_iff in P as [P1%Z.leb_le P2%Z.leb_le]. lia.
Qed.

(** ** Memory *)
Lemma take_out_perm l id n rest : NoDup (map fst l) -> l ≡ₚ (id, n) :: rest ->
  exists l', take_out id l = Some (n, l') /\ l' ≡ₚ rest.
Proof.
  revert rest. induction l as [|[i k] l IH]; intros rest ND P; [by apply Permutation_nil_cons in P|].
  simpl. inversion ND as [|? ? Hi ND']; subst. destruct (Nat.eqb_spec i id) as [->|Hne].
  - assert (In (id, n) ((id, k) :: l)) as [E|Hin] by (rewrite P; by left).
    + injection E as ->. exists l. split; [done|]. by apply Permutation_cons_inv in P.
    + destruct Hi. apply elem_of_list_In. apply in_map_iff. by exists (id, n).
  - assert (In (i, k) rest) as Hr.
    { assert (In (i, k) ((id, n) :: rest)) as [E|E] by (rewrite <- P; by left); [congruence|done]. }
    apply elem_of_list_In, elem_of_Permutation in Hr as [rest' Hr].
    destruct (IH rest') as (l'&El&Pl); [done| |].
    + apply (Permutation_cons_inv (a := (i, k))). rewrite P, Hr. apply Permutation_swap.
    + rewrite El. eexists. split; [done|]. by rewrite Pl, Hr.
Qed.

Definition owned (ts : list btab) : list (nat * Z) :=
  omap (fun t => match b_arr t with Some id => Some (id, b_cap t) | None => None end) ts.

(** all tables that exist own an array of their capacity; [st] are the arrays nobody owns *)
Record binv (m : mem) (ts : list btab) (st : list (nat * Z)) : Prop := {
  bi_live : m_live m ≡ₚ owned ts ++ st;
  bi_dup : NoDup (map fst (m_live m));
  bi_next : Forall (fun p => fst p < m_next m)%nat (m_live m);
  bi_tabs : Forall (fun t => b_arr t <> None /\ In (b_cap t) capacities) ts;
  bi_stale : Forall (fun p => 0 < snd p) st
}.

Lemma binv_perm m ts ts' st : ts ≡ₚ ts' -> binv m ts st -> binv m ts' st.
Proof.
  intros P []. constructor; try done; [|by rewrite <- P].
  rewrite bi_live0. apply Permutation_app_tail. unfold owned. by rewrite P.
Qed.

Lemma binv_touch m t ts st : binv m (t :: ts) st -> touch (b_arr t) (b_cap t) m = Val tt.
Proof.
  intros []. apply Forall_cons in bi_tabs0 as [[Ha _] _]. unfold touch. destruct (b_arr t) as [id|] eqn:E; [|done].
  simpl in bi_live0. rewrite E in bi_live0. destruct (take_out_perm _ _ _ _ bi_dup0 bi_live0) as (l'&->&_).
  by rewrite Z.leb_refl.
Qed.

Lemma binv_size m t ts st n : binv m (t :: ts) st -> binv m (BTab n (b_cap t) (b_arr t) :: ts) st.
Proof.
  intros []. constructor; try done. apply Forall_cons in bi_tabs0 as [? ?]. by apply Forall_cons.
Qed.

Lemma binv_alloc m ts st n sz : binv m ts st -> In n capacities ->
  binv (Mem (S (m_next m)) ((m_next m, n) :: m_live m)) (BTab sz n (Some (m_next m)) :: ts) st.
Proof.
  intros [] Hn. constructor; simpl.
  - by rewrite bi_live0.
  - constructor; [|done]. intros H. apply elem_of_list_In, in_map_iff in H as ([i k]&E&Hin). simpl in E. subst i.
    rewrite Forall_forall in bi_next0. apply elem_of_list_In, bi_next0 in Hin. simpl in Hin. lia.
  - constructor; [simpl; lia|]. eapply Forall_impl; [exact bi_next0|]. intros p Hp. simpl in *. lia.
  - apply Forall_cons. split; [|done]. by split.
  - done.
Qed.

Lemma take_out_head id n l : take_out id ((id, n) :: l) = Some (n, l).
Proof. simpl. by rewrite Nat.eqb_refl. Qed.

Lemma touch_head m id n : touch (Some id) n (Mem (S id) ((id, n) :: m)) = Val tt.
Proof. unfold touch. cbn [m_live]. by rewrite take_out_head, Z.leb_refl. Qed.

Lemma b_new_ok m ts st cap : binv m ts st ->
  exists t m', b_new cap m = Val (t, m') /\ binv m' (t :: ts) st /\ b_cap t = get_gte_capacity cap.
Proof.
  intros I. unfold b_new, alloc, obind. cbv zeta. rewrite touch_head.
  eexists _, _. split; [reflexivity|]. split; [|done]. apply binv_alloc; [done|apply listed].
Qed.

Lemma b_copy_ok m t ts st : binv m (t :: ts) st ->
  exists t' m', b_copy t m = Val (t', m') /\ binv m' (t' :: t :: ts) st /\ b_cap t' = b_cap t /\ b_size t' = b_size t.
Proof.
  intros I. unfold b_copy, alloc, obind. rewrite touch_head.
  assert (Hc : In (b_cap t) capacities) by (destruct I; apply Forall_cons in bi_tabs0; tauto).
  pose proof (binv_alloc m (t :: ts) st (b_cap t) (b_size t) I Hc) as I'.
  rewrite (binv_touch _ t (BTab (b_size t) (b_cap t) (Some (m_next m)) :: ts) st).
  - eexists _, _. split; [reflexivity|]. done.
  - eapply binv_perm; [|exact I']. apply Permutation_swap.
Qed.

Lemma b_destroy_ok m t ts st : binv m (t :: ts) st -> exists m', b_destroy t m = Val m' /\ binv m' ts st.
Proof.
  intros []. apply Forall_cons in bi_tabs0 as [[Ha Hc] Hts]. unfold b_destroy, free. destruct (b_arr t) as [id|] eqn:E; [|done].
  simpl in bi_live0. rewrite E in bi_live0. destruct (take_out_perm _ _ _ _ bi_dup0 bi_live0) as (l'&->&P).
  eexists. split; [reflexivity|].
  assert (Pm : m_live m ≡ₚ (id, b_cap t) :: l') by (rewrite bi_live0, P; done).
  constructor; simpl; try done.
  - rewrite Pm in bi_dup0. by inversion bi_dup0.
  - rewrite Pm in bi_next0. by inversion bi_next0.
Qed.

(** ** Accounts *)
Definition total (f : Z -> Z) (l : list Z) : Z := foldr (fun x s => f x + s) 0 l.
Definition caps (ts : list btab) : list Z := map b_cap ts.
Definition sizes (st : list (nat * Z)) : list Z := map snd st.

Lemma total_app f l l' : total f (l ++ l') = total f l + total f l'.
Proof. induction l; simpl; [done|]. lia. Qed.
Lemma total_perm f l l' : l ≡ₚ l' -> total f l = total f l'.
Proof. induction 1; simpl; lia. Qed.

Definition num (st : list (nat * Z)) : Z := Z.of_nat (length st).

Record account (st : list (nat * Z)) (ts : list btab) (st' : list (nat * Z)) (ts' : list btab) : Prop := {
  ac_size : total id (sizes st') + total id (caps ts) <= total id (sizes st) + total id (caps ts');
  ac_num : num st' + total rank (caps ts) <= num st + total rank (caps ts');
  ac_mono : num st <= num st';
  ac_none : num st' = num st -> caps ts' = caps ts
}.

Lemma b_grow_ok m t ts st n : binv m (t :: ts) st ->
  exists t' m' st', b_grow t n m = Val (t', m') /\ binv m' (t' :: ts) st' /\ account st [t] st' [t'] /\ b_size t' = b_size t.
Proof.
  intros I. assert (Hc : In (b_cap t) capacities) by (destruct I; apply Forall_cons in bi_tabs0; tauto).
  unfold b_grow. cbv zeta. destruct (Z.ltb_spec (b_cap t) (get_gte_capacity n)) as [Hlt|Hge].
  - set (nc := get_gte_capacity n) in *. assert (Hnc : In nc capacities) by apply listed.
    unfold b_rehash, alloc, obind.
    pose proof (binv_alloc m (t :: ts) st nc (b_size t) I Hnc) as I'.
    rewrite (binv_touch _ t (BTab (b_size t) nc (Some (m_next m)) :: ts) st) by (eapply binv_perm; [|exact I']; apply Permutation_swap).
    rewrite touch_head. destruct (b_arr t) as [id|] eqn:E.
    2: { destruct I as [_ _ _ Ht _]. apply Forall_cons in Ht as [[Hn _] _]. done. }
    destruct (listed_lt _ _ Hc Hnc Hlt) as [H2 Hr]. destruct (listed_one _ Hc) as [Hp Hr1]. destruct (listed_one _ Hnc) as [_ Hr2].
    eexists _, _, ((id, b_cap t) :: st). split; [reflexivity|]. split; [|split; [|done]].
    + destruct I'. constructor; try done.
      * simpl in *. rewrite E in bi_live0. rewrite bi_live0. apply Permutation_skip. apply Permutation_middle.
      * apply Forall_cons in bi_tabs0 as [? H]. apply Forall_cons in H as [_ ?]. by apply Forall_cons.
      * by apply Forall_cons.
    + constructor; simpl; unfold Datatypes.id, num; simpl; intros; lia.
  - eexists _, _, st. split; [reflexivity|]. split; [done|]. split; [|done]. by constructor.
Qed.

(** ** The manager *)
Definition all (b : bman) : list btab := bm_cache b :: bm_tabs b.

Lemma account_refl st ts : account st ts st ts.
Proof. by constructor. Qed.
Lemma account_trans st ts st1 ts1 st2 ts2 : account st ts st1 ts1 -> account st1 ts1 st2 ts2 -> account st ts st2 ts2.
Proof. intros [? ? ? N1] [? ? ? N2]. constructor; [lia..|]. intros E. rewrite N2, N1; [done|lia..]. Qed.
Lemma account_frame st ts st' ts' l l' : account st ts st' ts' -> account st (l ++ ts ++ l') st' (l ++ ts' ++ l').
Proof. intros [? ? ? N]. constructor; unfold caps in *; rewrite ?map_app, ?total_app; [lia..|]. intros E. by rewrite N. Qed.
Lemma account_caps st ts st' ts' us us' : caps us = caps ts -> caps us' = caps ts' -> account st ts st' ts' -> account st us st' us'.
Proof. intros E E' []. constructor; rewrite ?E, ?E'; done. Qed.

Lemma split_at (ts : list btab) i t : ts !! i = Some t ->
  exists l1 l2, ts = l1 ++ t :: l2 /\ forall t', <[i := t']> ts = l1 ++ t' :: l2.
Proof.
  revert i. induction ts as [|x ts IH]; intros i H; [done|]. destruct i as [|i]; simpl in H.
  - injection H as ->. exists [], ts. done.
  - destruct (IH i H) as (l1&l2&->&E). exists (x :: l1), l2. split; [done|]. intros t'. simpl. by rewrite E.
Qed.

(** bringing one table to the front *)
Lemma front (c t : btab) l1 l2 ts0 : c :: (l1 ++ t :: l2) ++ ts0 ≡ₚ t :: c :: (l1 ++ l2) ++ ts0.
Proof. rewrite <- Permutation_middle. simpl. apply Permutation_swap. Qed.

Lemma adjust_each_ok ts : forall us m st, binv m (ts ++ us) st ->
  exists ts' m' st', adjust_each ts m = Val (ts', m') /\ binv m' (ts' ++ us) st' /\ account st ts st' ts' /\ length ts' = length ts.
Proof.
  induction ts as [|t ts IH]; intros us m st I; simpl.
  { exists [], m, st. split; [done|]. split; [done|]. split; [apply account_refl|done]. }
  destruct (b_grow_ok m t (ts ++ us) st (4 * b_size t / 3) I) as (t'&m1&st1&E&I1&A1&_). unfold b_adjust. rewrite E. cbn [obind].
  destruct (IH (t' :: us) m1 st1) as (ts'&m2&st2&E2&I2&A2&L2).
  { eapply binv_perm; [|exact I1]. apply Permutation_middle. }
  rewrite E2. cbn [obind]. eexists _, _, st2. split; [reflexivity|]. split; [|split; [|simpl; lia]].
  - eapply binv_perm; [|exact I2]. symmetry. apply Permutation_middle.
  - eapply account_trans; [exact (account_frame _ _ _ _ [] ts A1)|]. pose proof (account_frame _ _ _ _ [t'] [] A2) as A. by rewrite !app_nil_r in A.
Qed.

Definition op_in (n : nat) (o : bop) : Prop :=
  match o with BUse i | BInsert i | BErase i => (i < n)%nat | _ => True end.

Lemma bstep_ok b o m ts0 st : binv m (all b ++ ts0) st -> op_in (length (bm_tabs b)) o ->
  exists b' m' st', bstep b o m = Val (b', m') /\ binv m' (all b' ++ ts0) st' /\ account st (all b) st' (all b') /\
    length (bm_tabs b') = length (bm_tabs b).
Proof.
  destruct b as [ca ts]. unfold all. simpl. intros I Hin.
  assert (Huse : forall i, (i < length ts)%nat -> exists t l1 l2, ts !! i = Some t /\ ts = l1 ++ t :: l2 /\
    (forall t', <[i := t']> ts = l1 ++ t' :: l2) /\ b_use t m = Val tt /\ binv m (t :: ca :: (l1 ++ l2) ++ ts0) st).
  { intros i Hi. destruct (lookup_lt_is_Some_2 ts i Hi) as [t Ht]. destruct (split_at ts i t Ht) as (l1&l2&E&Ei).
    exists t, l1, l2. assert (I' : binv m (t :: ca :: (l1 ++ l2) ++ ts0) st).
    { eapply binv_perm; [|exact I]. rewrite E. apply front. }
    split_and!; try done. by eapply binv_touch. }
  destruct o as [i|i|i| | |n]; simpl in Hin |- *.
  - destruct (Huse i Hin) as (t&l1&l2&Ht&_&_&Eu&_). rewrite Ht. cbn [o_get obind]. rewrite Eu. cbn [obind].
    eexists _, m, st. split; [reflexivity|]. split; [done|]. split; [apply account_refl|done].
  - destruct (Huse i Hin) as (t&l1&l2&Ht&E&Ei&Eu&I'). rewrite Ht. cbn [o_get obind]. rewrite Eu. cbn [obind].
    eexists _, m, st. split; [reflexivity|]. cbn [bm_cache bm_tabs]. rewrite Ei. split; [|split].
    + eapply binv_perm; [symmetry; apply front|]. by apply binv_size.
    + eapply account_caps; [| |apply (account_refl st (ca :: ts))]; [done|]. subst ts. unfold caps. simpl. by rewrite !map_app.
    + subst ts. rewrite !app_length. done.
  - destruct (Huse i Hin) as (t&l1&l2&Ht&E&Ei&Eu&I'). rewrite Ht. cbn [o_get obind]. rewrite Eu. cbn [obind].
    eexists _, m, st. split; [reflexivity|]. cbn [bm_cache bm_tabs]. rewrite Ei. split; [|split].
    + eapply binv_perm; [symmetry; apply front|]. by apply binv_size.
    + eapply account_caps; [| |apply (account_refl st (ca :: ts))]; [done|]. subst ts. unfold caps. simpl. by rewrite !map_app.
    + subst ts. rewrite !app_length. done.
  - destruct (adjust_each_ok ts (ca :: ts0) m st) as (ts'&m'&st'&E&I'&A&L).
    { eapply binv_perm; [|exact I]. simpl. apply Permutation_middle. }
    rewrite E. cbn [obind]. eexists _, m', st'. split; [reflexivity|]. split; [|split; [|done]]; cbn [bm_cache bm_tabs].
    + eapply binv_perm; [|exact I']. symmetry. apply Permutation_middle.
    + pose proof (account_frame _ _ _ _ [ca] [] A) as A'. by rewrite !app_nil_r in A'.
  - unfold b_use. rewrite (binv_touch _ _ _ _ I). cbn [obind]. eexists _, m, st. split; [reflexivity|]. split; [done|]. split; [apply account_refl|done].
  - destruct (b_grow_ok m ca (ts ++ ts0) st n I) as (t'&m'&st'&E&I'&A&_). rewrite E. cbn [obind].
    eexists _, m', st'. split; [reflexivity|]. split; [done|]. split; [|done]. exact (account_frame _ _ _ _ [] ts A).
Qed.

Lemma bsteps_ok os : forall b m ts0 st, binv m (all b ++ ts0) st -> Forall (op_in (length (bm_tabs b))) os ->
  exists b' m' st', bsteps b os m = Val (b', m') /\ binv m' (all b' ++ ts0) st' /\ account st (all b) st' (all b') /\
    length (bm_tabs b') = length (bm_tabs b).
Proof.
  induction os as [|o os IH]; intros b m ts0 st I Hin; simpl.
  { exists b, m, st. split; [done|]. split; [done|]. split; [apply account_refl|done]. }
  apply Forall_cons in Hin as [Ho Hos]. destruct (bstep_ok b o m ts0 st I Ho) as (b1&m1&st1&E1&I1&A1&L1). rewrite E1. cbn [obind].
  rewrite <- L1 in Hos. destruct (IH b1 m1 ts0 st1 I1 Hos) as (b2&m2&st2&E2&I2&A2&L2). rewrite E2.
  exists b2, m2, st2. split; [done|]. split; [done|]. split; [by eapply account_trans|congruence].
Qed.

Definition call_in (n : nat) (k : bcall) : Prop :=
  match k with BOp o => op_in n o | BSwap i j os => (i < n)%nat /\ (j < n)%nat /\ Forall (op_in n) os end.

Lemma b_swap_ok b i j os m st : binv m (all b) st -> call_in (length (bm_tabs b)) (BSwap i j os) ->
  exists b' m' st', b_swap b i j os m = Val (b', m') /\ binv m' (all b') st' /\ account st (all b) st' (all b') /\
    length (bm_tabs b') = length (bm_tabs b).
Proof.
  destruct b as [ca ts]. unfold all. simpl. intros I (Hi&Hj&Hos). unfold b_swap. cbn [bm_tabs bm_cache].
  destruct (lookup_lt_is_Some_2 ts i Hi) as [t Ht]. rewrite Ht. cbn [o_get obind].
  destruct (split_at ts i t Ht) as (l1&l2&E&Ei). rewrite Ei.
  assert (I0 : binv m (t :: ca :: (l1 ++ l2) ++ []) st).
  { eapply binv_perm; [|exact I]. rewrite E. rewrite <- front. by rewrite app_nil_r. }
  rewrite app_nil_r in I0. destruct (b_copy_ok m t _ st I0) as (tmp&m1&E1&I1&Ec&_). rewrite E1. cbn [obind].
  assert (I1' : binv m1 (t :: tmp :: ca :: l1 ++ l2) st) by (eapply binv_perm; [apply Permutation_swap|exact I1]).
  unfold b_use at 1. rewrite (binv_touch _ _ _ _ I1'). cbn [obind].
  unfold b_use at 1. rewrite (binv_touch _ _ _ _ I1). cbn [obind].
  set (t0 := BTab 0 (b_cap t) (b_arr t)). set (b0 := BMan ca (l1 ++ t0 :: l2)).
  assert (L0 : length (bm_tabs b0) = length ts) by (subst ts; simpl; rewrite !app_length; done).
  assert (I2 : binv m1 (all b0 ++ [tmp]) st).
  { eapply binv_perm; [|exact (binv_size _ _ _ _ 0 I1')]. unfold all. simpl.
    fold t0. rewrite front. apply Permutation_skip.
    change (ca :: (l1 ++ l2) ++ [tmp]) with ((ca :: l1 ++ l2) ++ [tmp]). apply Permutation_cons_append. }
  destruct (bsteps_ok os b0 m1 [tmp] st I2) as (b1&m2&st2&E2&I3&A3&L3); [by rewrite L0|].
  rewrite E2. cbn [obind]. clear I1 I1' I2.
  destruct b1 as [ca1 ts1]. unfold all in *. simpl in *.
  assert (Hi1 : (i < length ts1)%nat) by lia. destruct (lookup_lt_is_Some_2 ts1 i Hi1) as [u Hu]. rewrite Hu. cbn [o_get obind].
  destruct (split_at ts1 i u Hu) as (k1&k2&F&Fi).
  assert (I4 : binv m2 (u :: ca1 :: (k1 ++ k2) ++ [tmp]) st2) by (eapply binv_perm; [|exact I3]; rewrite F; apply front).
  destruct (b_grow_ok _ _ _ _ (4 * b_size u / 3) I4) as (u'&m3&st3&E3&I5&A5&_). unfold b_adjust at 1. rewrite E3. cbn [obind bm_cache bm_tabs]. rewrite Fi.
  set (ts2 := k1 ++ u' :: k2). assert (L2 : length ts2 = length ts1) by (subst ts1 ts2; rewrite !app_length; done).
  assert (I6 : binv m3 (ca1 :: ts2 ++ [tmp]) st3) by (eapply binv_perm; [|exact I5]; symmetry; apply front).
  assert (Hj2 : (j < length ts2)%nat) by lia. destruct (lookup_lt_is_Some_2 ts2 j Hj2) as [v Hv]. unfold b_move. cbn [bm_cache bm_tabs]. rewrite Hv. cbn [o_get obind].
  destruct (split_at ts2 j v Hv) as (n1&n2&G&Gj).
  assert (I7 : binv m3 (v :: ca1 :: (n1 ++ n2) ++ [tmp]) st3) by (eapply binv_perm; [|exact I6]; rewrite G; apply front).
  unfold b_merge, b_adjust.
  destruct (b_grow_ok _ _ _ _ (4 * (b_size v + b_size tmp) / 3) (binv_size _ _ _ _ (b_size v + b_size tmp) I7)) as (v'&m4&st4&E4&I8&A8&_).
  cbn [b_size]. rewrite E4. cbn [obind]. unfold b_use. rewrite ?Gj.
  assert (I9 : binv m4 (tmp :: v' :: ca1 :: n1 ++ n2) st4).
  { eapply binv_perm; [|exact I8]. change (v' :: ca1 :: (n1 ++ n2) ++ [tmp]) with ((v' :: ca1 :: n1 ++ n2) ++ [tmp]).
    by rewrite <- Permutation_cons_append. }
  rewrite (binv_touch _ _ _ _ I9). cbn [obind]. rewrite (binv_touch _ _ _ _ I8). cbn [obind bm_tabs bm_cache]. rewrite ?Gj.
  destruct (b_destroy_ok _ _ _ _ I9) as (m5&E5&I10). rewrite E5. cbn [obind]. unfold b_destroy, free. cbn [b_arr obind].
  eexists _, m5, st4. split; [reflexivity|]. cbn [bm_cache bm_tabs]. split; [|split].
  - eapply binv_perm; [|exact I10]. rewrite Permutation_swap. apply Permutation_skip. by rewrite <- Permutation_middle.
  - apply account_trans with (st1 := st2) (ts1 := ca1 :: ts1).
    { eapply account_caps; [| |exact A3]; [|done]. subst ts. unfold caps. simpl. by rewrite !map_app. }
    apply account_trans with (st1 := st3) (ts1 := ca1 :: ts2).
    { subst ts1 ts2. exact (account_frame _ _ _ _ (ca1 :: k1) k2 A5). }
    rewrite G. pose proof (account_frame _ _ _ _ (ca1 :: n1) n2 A8) as A9. eapply account_caps; [| |exact A9]; unfold caps; simpl; by rewrite !map_app.
  - transitivity (length ts2); [rewrite G, !app_length; done|lia].
Qed.

Lemma bcalls_ok ks : forall b m st, binv m (all b) st -> Forall (call_in (length (bm_tabs b))) ks ->
  exists b' m' st', bcalls b ks m = Val (b', m') /\ binv m' (all b') st' /\ account st (all b) st' (all b') /\
    length (bm_tabs b') = length (bm_tabs b).
Proof.
  induction ks as [|k ks IH]; intros b m st I Hin; simpl.
  { exists b, m, st. split; [done|]. split; [done|]. split; [apply account_refl|done]. }
  apply Forall_cons in Hin as [Hk Hks].
  assert (exists b1 m1 st1, bcall_step b k m = Val (b1, m1) /\ binv m1 (all b1) st1 /\ account st (all b) st1 (all b1) /\
    length (bm_tabs b1) = length (bm_tabs b)) as (b1&m1&st1&E1&I1&A1&L1).
  { destruct k as [o|i j os]; simpl in *.
    - destruct (bstep_ok b o m [] st) as (b1&m1&st1&E1&I1&A1&L1); [by rewrite app_nil_r|done|]. rewrite app_nil_r in I1.
      by exists b1, m1, st1.
    - by apply b_swap_ok. }
  rewrite E1. cbn [obind]. rewrite <- L1 in Hks. destruct (IH b1 m1 st1 I1 Hks) as (b2&m2&st2&E2&I2&A2&L2). rewrite E2.
  exists b2, m2, st2. split; [done|]. split; [done|]. split; [by eapply account_trans|congruence].
Qed.

(** ** Constructor and destructor *)
Lemma relocate_ok ts m : Forall (fun t => b_arr t <> None) ts -> relocate ts m = Val (ts, m).
Proof.
  induction 1 as [|t ts Ht Hts IH]; simpl; [done|]. unfold b_destroy, free. cbn [b_arr obind]. by rewrite IH.
Qed.

Lemma emplace_all_ok cs : forall ts us m, binv m (us ++ ts) [] ->
  exists ts' m', emplace_all ts cs m = Val (ts', m') /\ binv m' (us ++ ts') [] /\
    caps ts' = caps ts ++ map (fun c => get_gte_capacity (fst c)) cs.
Proof.
  induction cs as [|[cap full] cs IH]; intros ts us m I; simpl.
  { exists ts, m. split; [done|]. split; [done|]. by rewrite app_nil_r. }
  unfold emplace. destruct (b_new_ok m (us ++ ts) [] cap I) as (t&m1&E1&I1&C1). rewrite E1. cbn [obind].
  assert (Er : (if full then relocate ts m1 else Val (ts, m1)) = Val (ts, m1)).
  { destruct full; [|done]. apply relocate_ok. destruct I as [_ _ _ H _]. apply Forall_app in H as [_ H]. eapply Forall_impl; [exact H|]. by intros ? []. }
  rewrite Er. cbn [obind]. destruct (IH (ts ++ [t]) us m1) as (ts'&m'&E&I'&C).
  { eapply binv_perm; [|exact I1]. rewrite app_assoc. apply Permutation_cons_append. }
  rewrite E. exists ts', m'. split; [done|]. split; [done|]. rewrite C. unfold caps. rewrite map_app. simpl. by rewrite <- app_assoc, C1.
Qed.

Definition fresh : mem := Mem 0 [].

Lemma construct_ok cachecap cs : exists b m, b_construct cachecap cs fresh = Val (b, m) /\ binv m (all b) [] /\
  caps (all b) = get_gte_capacity cachecap :: map (fun c => get_gte_capacity (fst c)) cs.
Proof.
  assert (I : binv fresh [] []) by (constructor; simpl; try done; constructor).
  unfold b_construct. destruct (b_new_ok _ _ _ cachecap I) as (ca&m1&E1&I1&C1). rewrite E1. cbn [obind].
  destruct (emplace_all_ok cs [] [ca] m1) as (ts&m2&E2&I2&C2); [done|]. rewrite E2. cbn [obind].
  eexists _, _. split; [reflexivity|]. split; [done|]. unfold all, caps in *. simpl in *. by rewrite C1, C2.
Qed.

Lemma destroy_all_ok ts : forall us m st, binv m (ts ++ us) st -> exists m', destroy_all ts m = Val m' /\ binv m' us st.
Proof.
  induction ts as [|t ts IH]; intros us m st I; simpl; [by exists m|].
  destruct (b_destroy_ok _ _ _ _ I) as (m1&E&I1). rewrite E. cbn [obind]. by apply IH.
Qed.

Lemma destruct_ok b m st : binv m (all b) st -> exists m', b_destruct b m = Val m' /\ binv m' [] st.
Proof.
  intros I. unfold b_destruct. destruct (destroy_all_ok (bm_tabs b) [bm_cache b] m st) as (m1&E&I1).
  { eapply binv_perm; [|exact I]. apply Permutation_cons_append. }
  rewrite E. cbn [obind]. by apply b_destroy_ok.
Qed.
