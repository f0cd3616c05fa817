(** * C77: the arrays of the unique tables and of the apply cache *)

From stdpp Require Import list.
From Coq Require Import ZArith Lia.
From Verif Require Import Base Tables Tsl Buckets BucketsProof.

Local Open Scope Z_scope.
Local Opaque get_gte_capacity capacities.

(** the life of a manager: the constructor with the given sizes, some calls, the
    destructor.  Result: the manager after the constructor, the manager after the calls
    with the memory at that time, and the memory after the destructor. *)
Definition life (cachecap : Z) (cs : list (Z * bool)) (ks : list bcall) : out (bman * (bman * mem) * mem) :=
  let? r := b_construct cachecap cs (Mem 0 []) in
  let (b0, m) := r : bman * mem in
  let? r := bcalls b0 ks m in
  let (b, m) := r : bman * mem in
  let? m' := b_destruct b m in
  Val (b0, (b, m), m').

Fixpoint sum (l : list Z) : Z := match l with [] => 0 | x :: l => x + sum l end.

(** numbers of elements of all arrays that are allocated *)
Definition elements (m : mem) : list Z := map snd (m_live m).

(** capacities of the cache and of the tables *)
Definition capacities_of (b : bman) : list Z := b_cap (bm_cache b) :: map b_cap (bm_tabs b).

Lemma sum_total l : sum l = total id l.
Proof. induction l as [|x l IH]; simpl; [done|]. by rewrite IH. Qed.

Lemma life_ok cachecap cs ks : Forall (call_in (length cs)) ks ->
  exists b0 b m m' st, life cachecap cs ks = Val (b0, (b, m), m') /\ binv m (all b) st /\ binv m' [] st /\
    account [] (all b0) st (all b) /\ length (bm_tabs b) = length cs /\
    caps (all b0) = get_gte_capacity cachecap :: map (fun c => get_gte_capacity (fst c)) cs.
Proof.
  intros Hks. destruct (construct_ok cachecap cs) as (b0&m0&E0&I0&C0). unfold life. fold fresh. rewrite E0. cbn [obind].
  assert (L0 : length (bm_tabs b0) = length cs).
  { apply (f_equal length) in C0. unfold all, caps in C0. simpl in C0. rewrite !map_length in C0. lia. }
  rewrite <- L0 in Hks. destruct (bcalls_ok ks b0 m0 [] I0 Hks) as (b&m&st&E&I&A&L). rewrite E. cbn [obind].
  destruct (destruct_ok b m st I) as (m'&E'&I'). rewrite E'. cbn [obind]. exists b0, b, m, m', st. split_and!; try done. congruence.
Qed.

(** No array is used or freed that is not allocated, and no element outside an array is
    accessed.  Live tables have their own arrays of their capacities. *)
Theorem C77_arrays : forall cachecap cs ks, Forall (call_in (length cs)) ks ->
  exists b0 b m m', life cachecap cs ks = Val (b0, (b, m), m') /\
    (exists ids, map b_arr (bm_cache b :: bm_tabs b) = map Some ids /\ NoDup ids /\
      Forall2 (fun id cap => (id, cap) ∈ m_live m) ids (capacities_of b)).
Proof.
  intros cachecap cs ks Hks. destruct (life_ok cachecap cs ks Hks) as (b0&b&m&m'&st&E&I&_). exists b0, b, m, m'. split; [done|].
  change (bm_cache b :: bm_tabs b) with (all b). change (capacities_of b) with (caps (all b)).
  destruct I as [Hl Hd _ Ht _].
  assert (H : exists ids, map b_arr (all b) = map Some ids /\ owned (all b) = zip ids (caps (all b)) /\ length ids = length (caps (all b))).
  { clear -Ht. induction (all b) as [|t ts IH]; [by exists []|]. apply Forall_cons in Ht as [[Hn _] Ht].
    destruct (IH Ht) as (ids&E1&E2&E3). destruct (b_arr t) as [id|] eqn:Et; [|done]. exists (id :: ids). simpl. unfold owned in *. simpl.
    rewrite Et, E1, E2. simpl. by rewrite E3. }
  destruct H as (ids&E1&E2&E3). exists ids. split; [done|].
  assert (Ef : map fst (owned (all b)) = ids).
  { rewrite E2. clear -E3. revert E3. generalize (caps (all b)). induction ids as [|x ids IH]; intros [|c l] E; try done. simpl. f_equal. apply IH. simpl in E. lia. }
  split.
  - rewrite Hl in Hd. rewrite map_app in Hd. apply NoDup_app in Hd as [Hd _]. by rewrite Ef in Hd.
  - apply Forall2_same_length_lookup_2; [done|]. intros i x c Hx Hc. rewrite Hl. apply elem_of_app. left. rewrite E2.
    apply elem_of_list_lookup. exists i. apply lookup_zip_with_Some. by exists x, c.
Qed.

(** What is still allocated after the destructor is lost.  It is not more than what the
    capacities have grown by, at most 23 arrays for each table, and nothing if and only
    if no capacity has changed. *)
Theorem C77_lost : forall cachecap cs ks b0 b m m', Forall (call_in (length cs)) ks ->
  life cachecap cs ks = Val (b0, (b, m), m') ->
  sum (elements m') + sum (capacities_of b0) <= sum (capacities_of b) /\
  Z.of_nat (length (elements m')) <= 23 * (1 + Z.of_nat (length cs)) /\
  (elements m' = [] <-> capacities_of b = capacities_of b0).
Proof.
  intros cachecap cs ks b0 b m m' Hks E. destruct (life_ok cachecap cs ks Hks) as (b0'&b'&m1&m1'&st&E'&I&I'&A&L&C0).
  rewrite E in E'. injection E' as <- <- <- <-. change (capacities_of b0) with (caps (all b0)). change (capacities_of b) with (caps (all b)).
  destruct I' as [Hl _ _ _ _]. simpl in Hl. assert (Hlen : length (elements m') = length st) by (unfold elements; by rewrite map_length, Hl).
  destruct A as [A1 A2 A3 A4]. change (total id (sizes [])) with 0 in A1. change (num []) with 0 in *. unfold num in *. rewrite (sum_total (elements m')), (sum_total (caps (all b0))), (sum_total (caps (all b))). split; [|split; [|split]].
  - unfold elements. rewrite (total_perm id (map snd (m_live m')) (sizes st)) by (unfold sizes; by rewrite Hl). lia.
  - assert (Hr : forall ts, Forall (fun t => b_arr t <> None /\ In (b_cap t) capacities) ts -> 0 <= total rank (caps ts) <= 23 * Z.of_nat (length ts)).
    { clear. induction 1 as [|t ts [_ Ht] Hts IH]; simpl; [lia|]. destruct (listed_one _ Ht). lia. }
    assert (Hr0 : 0 <= total rank (caps (all b0))).
    { assert (Ha : Forall (fun c => In c capacities) (caps (all b0))).
      { rewrite C0. apply Forall_cons. split; [apply listed|]. clear. induction cs; simpl; constructor; [apply listed|done]. }
      revert Ha. generalize (caps (all b0)). clear. induction 1 as [|c l Hc Hl IH]; simpl; [lia|]. destruct (listed_one _ Hc). lia. }
    destruct I as [_ _ _ Ht _]. apply Hr in Ht. change (length (all b)) with (S (length (bm_tabs b))) in Ht. rewrite L in Ht. rewrite Hlen. lia.
  - intros Hn. rewrite Hn in Hlen. simpl in Hlen. apply A4. rewrite <- Hlen. done.
  - intros Hc. rewrite Hc in A2. assert (length st = 0%nat) by lia. apply nil_length_inv. by rewrite Hlen.
Qed.

(** At any time the arrays that are allocated have at most twice as many elements as the
    arrays in use. *)
Theorem C77_memory : forall cachecap cs ks b0 b m m', Forall (call_in (length cs)) ks ->
  life cachecap cs ks = Val (b0, (b, m), m') ->
  sum (elements m) + sum (capacities_of b0) <= 2 * sum (capacities_of b).
Proof.
  intros cachecap cs ks b0 b m m' Hks E. destruct (life_ok cachecap cs ks Hks) as (b0'&b'&m1&m1'&st&E'&I&I'&A&L&C0).
  rewrite E in E'. injection E' as <- <- <- <-. change (capacities_of b0) with (caps (all b0)). change (capacities_of b) with (caps (all b)).
  destruct A as [A1 _ _ _]. rewrite (sum_total (elements m)), (sum_total (caps (all b0))), (sum_total (caps (all b))). destruct I as [Hl _ _ Ht _]. unfold elements.
  rewrite (total_perm id (map snd (m_live m)) (map snd (owned (all b) ++ st))) by (by rewrite Hl).
  rewrite map_app, total_app. fold (sizes st).
  assert (Eo : map snd (owned (all b)) = caps (all b)).
  { clear -Ht. induction (all b) as [|t ts IH]; [done|]. apply Forall_cons in Ht as [[Hn _] Ht]. destruct (b_arr t) as [id|] eqn:Et; [|done].
    unfold owned in *. simpl. rewrite Et. simpl. f_equal. by apply IH. }
  rewrite Eo. change (total id (sizes [])) with 0 in A1. lia.
Qed.

(** The arrays are lost: two tables of 307 buckets, the cache asked for 400 entries after a swap. *)
Example C77_hypotheses : Forall (call_in 2) [BOp (BInsert 0); BSwap 0 1 [BUse 1; BInsert 1]; BOp (BGrow 400)].
Proof. repeat constructor; simpl; lia. Qed.

Theorem C77_lost_refuted : exists cachecap cs ks r m', Forall (call_in (length cs)) ks /\
  life cachecap cs ks = Val (r, m') /\ elements m' <> [].
Proof.
  exists 100, [(100, false); (100, true)], [BOp (BInsert 0); BSwap 0 1 [BUse 1; BInsert 1]; BOp (BGrow 400)].
  eexists _, _. split; [exact C77_hypotheses|]. split; [vm_compute; reflexivity|]. by vm_compute.
Qed.

(** without growth nothing is lost; with growth, what is lost here is what the cache grew from *)
Example C77_case :
  match life 100 [(100, false); (100, true)] [BOp (BInsert 0); BSwap 0 1 [BUse 1; BInsert 1]; BOp (BGrow 200)] with
  | Val (b0, (b, m), m') => elements m' = [] /\ capacities_of b = capacities_of b0
  | _ => False
  end /\
  match life 100 [(100, false); (100, true)] [BOp (BGrow 400); BOp (BGrow 2000)] with
  | Val (b0, (b, m), m') => elements m' = [617; 307] /\ capacities_of b0 = [307; 307; 307] /\ capacities_of b = [2477; 307; 307]
  | _ => False
  end.
Proof. vm_compute. by repeat split. Qed.

(** freeing an array twice or using one after it was freed is an outcome of the model *)
Example C77_freed_case :
  (let? r := b_new 100 (Mem 0 []) in let (t, m) := r : btab * mem in let? m := b_destroy t m in b_destroy t m) = Bad EStale /\
  (let? r := b_new 100 (Mem 0 []) in let (t, m) := r : btab * mem in let? m := b_destroy t m in b_use t m) = Bad EStale /\
  (let? r := b_new 100 (Mem 0 []) in let (t, m) := r : btab * mem in b_use (BTab 0 (b_cap t + 1) (b_arr t)) m) = Bad EOob.
Proof. by vm_compute. Qed.

Print Assumptions C77_arrays.
Print Assumptions C77_lost.
Print Assumptions C77_memory.
Print Assumptions C77_lost_refuted.
