(** * C74: the manager uses the node pool correctly, up to its destruction

    C64 says what programs that use the pool can rely on if every call is allowed.
    Here it is proved that whatever the manager does is such a program. *)

From stdpp Require Import gmap list.
From Coq Require Import ZArith Lia.
From Verif Require Import Base Ops Tables NodeManager World WorldSpec Heap Inv Keeps Links Pool PoolSpec PoolProof PropsPool PoolTrace Examples.
From Verif Require PropsTrace.

Local Open Scope nat_scope.

(** ** What is claimed *)

(** [f]: where the numbered cells of the manager are in the chunks of the pool *)
Record in_pool (s : st) (p : lpool) (A : apool) (f : gmap positive (nat * nat)) : Prop := {
  ip_one : forall a a' cl, f !! a = Some cl -> f !! a' = Some cl -> a = a';
  (* every node in use is a live object of the right kind, and there are no others *)
  ip_node : forall a b, live (s_heap s) a = Some b -> exists cl, f !! a = Some cl /\
    match b with Term _ => ap_live A !! cl = Some OLeaf | Int _ _ => exists arr, ap_live A !! cl = Some (OInner arr) end;
  ip_object : forall cl, is_Some (ap_live A !! cl) -> exists a b, f !! a = Some cl /\ live (s_heap s) a = Some b;
  (* the same list of free cells and the same count of available ones *)
  ip_free : Forall2 (fun a cl => f !! a = Some cl) (p_free (s_pool s)) (q_free p);
  ip_avail : p_avail (s_pool s) = q_avail p;
  (* every array of sons belongs to a node *)
  ip_hand : ap_hand A = ∅
}.

(** the destructor of the pool ends without error, no object and no array remain *)
Definition ends_clean (p : lpool) : Prop := q_end p = LVal (∅, ∅).

(** nodes in use *)
Definition in_use (s : st) : nat := length (filter (fun x => n_used (snd x) = true) (map_to_list (s_heap s))).

(** ** Proofs *)

Lemma live_look h a b : live h a = Some b <-> look h a = Some (b, true).
Proof.
  unfold live, look. destruct (h !! a) as [n|]; [|by split]. simpl. destruct (n_used n); split; intros E; by simplify_eq.
Qed.

Lemma pm_in_pool main extra ks s p A f : pool_program main extra ks p A -> ap_hand A = ∅ -> pm s p A f -> in_pool s p A f /\ ends_clean p.
Proof.
  intros P Hh T. pose proof (pool_program_pinv _ _ _ _ _ P) as I. split.
  - constructor; try apply T; [| |done].
    + intros a b Hb. apply live_look in Hb. destruct (pm_used _ _ _ _ T a b Hb) as (cl&Hcl&Ho). exists cl. split; [done|]. by destruct b.
    + intros cl [o Ho]. apply (pi_live _ _ _ _ I) in Ho as Hc. destruct Hc as [Hc _].
      destruct (proj1 (pm_cell _ _ _ _ T cl)) as [a Ha]; [eauto|].
      destruct (live (s_heap s) a) as [b|] eqn:El; [by exists a, b|].
      rewrite (pm_unused _ _ _ _ T a cl Ha) in Ho; [done|]. intros b Hb. apply live_look in Hb. congruence.
  - destruct (C64_end _ _ _ _ _ P) as ([m1 m2]&E&E1&E2). simpl in E1, E2. unfold ends_clean. by rewrite E, E1, E2, Hh.
Qed.

Lemma stands_in_pool main extra ks0 s : pstands main extra ks0 s ->
  exists ks p A f, pool_program main extra (ks0 ++ ks) p A /\ in_pool s p A f /\ ends_clean p.
Proof. intros (ks'&p&A&f&P&[ks ->]&Hh&T). exists ks, p, A, f. split; [done|]. by eapply pm_in_pool. Qed.

Lemma total_grown main extra ks p A : pool_program main extra ks p A -> exists g, ap_total A = main + g * extra.
Proof.
  induction 1 as [|ks p A k p' r A' _ [g IH] _ _ F]; [by exists 0|].
  destruct k; simpl in F; try (subst A'; simpl; by exists g).
  - destruct F as (?&_&_&_&->). by exists g.
  - destruct F as (?&_&_&->). by exists g.
  - subst A'. simpl. exists (S g). lia.
Qed.

Lemma in_pool_size s p A f : in_pool s p A f -> size (ap_live A) = in_use s.
Proof.
  intros T. unfold in_use. set (l := filter _ _).
  assert (Hl : forall a n, (a, n) ∈ l <-> s_heap s !! a = Some n /\ n_used n = true).
  { intros a n. unfold l. rewrite elem_of_list_filter, elem_of_map_to_list. simpl. tauto. }
  assert (Hv : forall a n, (a, n) ∈ l -> live (s_heap s) a = Some (n_body n)).
  { intros a n H. apply Hl in H as [H U]. unfold live. by rewrite H, U. }
  change (size (ap_live A)) with (length (map_to_list (ap_live A))).
  rewrite <- (fmap_length fst (map_to_list (ap_live A))). 
  assert (P : (map_to_list (ap_live A)).*1 ≡ₚ ((fun x => default (0, 0) (f !! fst x)) <$> l)); [|by rewrite P, fmap_length].
  apply NoDup_Permutation.
  - apply NoDup_fst_map_to_list.
  - apply NoDup_fmap_2_strong; [|apply NoDup_filter, NoDup_map_to_list].
    intros [a n] [a' n'] H1 H2 E. simpl in E. destruct (ip_node _ _ _ _ T _ _ (Hv _ _ H1)) as (cl&E1&_).
    destruct (ip_node _ _ _ _ T _ _ (Hv _ _ H2)) as (cl'&E2&_). rewrite E1, E2 in E. simpl in E. subst cl'.
    pose proof (ip_one _ _ _ _ T _ _ _ E1 E2) as <-. apply Hl in H1 as [H1 _]. apply Hl in H2 as [H2 _]. congruence.
  - intros cl. rewrite elem_of_list_fmap. split.
    + intros ([cl' o]&->&Ho). apply elem_of_map_to_list in Ho. simpl.
      destruct (ip_object _ _ _ _ T cl') as (a&b&Ha&Hb); [eauto|]. unfold live in Hb.
      destruct (s_heap s !! a) as [n|] eqn:En; [|done]. destruct (n_used n) eqn:U; [|done].
      apply elem_of_list_fmap. exists (a, n). simpl. rewrite Ha. split; [done|]. by apply Hl.
    + intros H. apply elem_of_list_fmap in H as ([a n]&->&Hn). simpl. destruct (ip_node _ _ _ _ T _ _ (Hv _ _ Hn)) as (cl&E1&Ho). rewrite E1. simpl.
      assert (exists o, ap_live A !! cl = Some o) as [o Ho'] by (destruct (n_body n); [eauto|destruct Ho; eauto]).
      exists (cl, o). split; [done|]. by apply elem_of_map_to_list.
Qed.

(** ** The theorems *)

(** for any arguments of the constructor and any calls that end without error, also in
    automatic mode and outside of the documented preconditions: what the manager did is
    a program that uses the pool correctly, and the manager can be destroyed *)
Theorem C74_pool c p s0 s1 ks vars s : (0 <= ca_main p)%Z -> (0 <= ca_extra p)%Z ->
  new_manager c p s0 = Ok tt s1 -> run c ks ∅ s1 = Ok vars s ->
  exists ops q A f, pool_program (Z.to_nat (ca_main p)) (Z.to_nat (ca_extra p)) ops q A /\ in_pool s q A f /\ ends_clean q.
Proof.
  intros Hm He E1 E2. pose proof (pool_run _ _ _ c _ _ _ _ _ E2 (pool_new_manager _ _ _ _ Hm He E1)) as H.
  destruct (stands_in_pool _ _ _ _ H) as (ops&q&A&f&P&H2). by exists ops, q, A, f.
Qed.

(** the next calls of the manager continue the program *)
Theorem C74_next c p s0 s1 ks vars s ks' vars' s' : (0 <= ca_main p)%Z -> (0 <= ca_extra p)%Z ->
  new_manager c p s0 = Ok tt s1 -> run c ks ∅ s1 = Ok vars s -> run c ks' vars s = Ok vars' s' ->
  exists ops ops' q A f q' A' f',
    pool_program (Z.to_nat (ca_main p)) (Z.to_nat (ca_extra p)) ops q A /\ in_pool s q A f /\ ends_clean q /\
    pool_program (Z.to_nat (ca_main p)) (Z.to_nat (ca_extra p)) (ops ++ ops') q' A' /\ in_pool s' q' A' f' /\ ends_clean q'.
Proof.
  intros Hm He E1 E2 E3. pose proof (pool_run _ _ _ c _ _ _ _ _ E2 (pool_new_manager _ _ _ _ Hm He E1)) as H.
  destruct H as (ops&q&A&f&P&_&Hh&T).
  assert (H1 : pstands (Z.to_nat (ca_main p)) (Z.to_nat (ca_extra p)) ops s) by (by exists ops, q, A, f).
  destruct (stands_in_pool _ _ _ _ (pool_run _ _ _ c _ _ _ _ _ E3 H1)) as (ops'&q'&A'&f'&P'&T'&C').
  destruct (pm_in_pool _ _ _ _ _ _ _ P Hh T). by exists ops, ops', q, A, f, q', A', f'.
Qed.

(** get_available_node_count: nodes in use and available ones make up the main pool
    and the chunks that were added *)
Theorem C74_count c p s0 s1 ks vars s : (0 <= ca_main p)%Z -> (0 <= ca_extra p)%Z ->
  new_manager c p s0 = Ok tt s1 -> run c ks ∅ s1 = Ok vars s ->
  exists g, (p_avail (s_pool s) + Z.of_nat (in_use s) = ca_main p + Z.of_nat g * ca_extra p)%Z.
Proof.
  intros Hm He E1 E2. destruct (C74_pool _ _ _ _ _ _ _ Hm He E1 E2) as (ops&q&A&f&P&T&_).
  destruct (total_grown _ _ _ _ _ P) as [g Hg]. exists g. rewrite (ip_avail _ _ _ _ T), (C64_available _ _ _ _ _ P), (in_pool_size _ _ _ _ T). lia.
Qed.

(** ** A concrete case: the program of Examples.v with a main pool of six nodes, which
    grows by four at a time, followed by a reordering and a collection *)

Definition small_args : cargs := CArgs [2; 0; 1]%Z 6 4 20 [7; 7; 7]%Z (fun n => n / 5)%Z (fun n => n)%Z.

Definition small_run : res vars_t :=
  match new_manager ex_cfg small_args Chain.no_state with
  | Ok _ s => run ex_cfg (ex_prog ++ [CReorder; CGc]) ∅ s | Err e => Err e | Fuel => Fuel end.

Definition small_st : st := match small_run with Ok _ s => s | _ => Chain.no_state end.

Lemma small_ok : exists s1 vars, new_manager ex_cfg small_args Chain.no_state = Ok tt s1 /\
  run ex_cfg (ex_prog ++ [CReorder; CGc]) ∅ s1 = Ok vars small_st.
Proof.
  assert (X : match small_run with Ok _ _ => true | _ => false end = true) by (by vm_compute). unfold small_st, small_run in *.
  destruct (new_manager ex_cfg small_args Chain.no_state) as [[] s| |] eqn:E; [|done..]. exists s.
  destruct (run ex_cfg (ex_prog ++ [CReorder; CGc]) ∅ s) as [v s'| |] eqn:R; [|done..]. by exists v.
Qed.

Lemma small_pool : p_avail (s_pool small_st) = 9%Z /\ length (p_free (s_pool small_st)) = 8 /\ in_use small_st = 21.
Proof. split; [|split]; vm_compute; reflexivity. Qed.
Global Opaque small_st.

(** the pool grew six times; 21 nodes, eight free cells and one cell that was never used *)
Example C74_example : exists ops q A f, pool_program 6 4 ops q A /\ in_pool small_st q A f /\ ends_clean q /\
  length (q_free q) = 8 /\ ap_total A = 30 /\ size (ap_live A) = 21.
Proof.
  destruct small_ok as (s1&vars&E1&E2). destruct (C74_pool ex_cfg small_args _ _ _ _ _ ltac:(by vm_compute) ltac:(by vm_compute) E1 E2) as (ops&q&A&f&P&T&C).
  exists ops, q, A, f. destruct small_pool as (S1&S2&S3). split_and!; [exact P|exact T|exact C|..].
  - rewrite <- S2. symmetry. apply (Forall2_length _ _ _ (ip_free _ _ _ _ T)).
  - pose proof (C64_available _ _ _ _ _ P) as Av. rewrite <- (ip_avail _ _ _ _ T), S1, (in_pool_size _ _ _ _ T), S3 in Av. lia.
  - by rewrite (in_pool_size _ _ _ _ T).
Qed.

Example C74_count_example : exists g, (9 + 21 = 6 + Z.of_nat g * 4)%Z.
Proof.
  destruct small_ok as (s1&vars&E1&E2). destruct (C74_count ex_cfg small_args _ _ _ _ _ ltac:(by vm_compute) ltac:(by vm_compute) E1 E2) as [g Hg]. exists g.
  destruct small_pool as (S1&S2&S3). by rewrite S1, S3 in Hg.
Qed.

Example C74_next_example : exists ops ops' q A f q' A' f', pool_program 60 40 ops q A /\ in_pool ex_st q A f /\ ends_clean q /\
  pool_program 60 40 (ops ++ ops') q' A' /\ in_pool PropsTrace.ex_after q' A' f' /\ ends_clean q'.
Proof.
  destruct PropsTrace.ex_start as (s1&E1&E2). destruct PropsTrace.ex_after_ok as [vars E3].
  exact (C74_next ex_cfg ex_args _ _ _ _ _ _ _ _ ltac:(by vm_compute) ltac:(by vm_compute) E1 E2 E3).
Qed.

Print Assumptions C74_pool.
Print Assumptions C74_next.
Print Assumptions C74_count.
