(** * C76: the apply cache keeps pace with the number of nodes

    The claims hold for every program whose calls succeed, also for one that no
    specification in [WorldSpec] covers. *)

From stdpp Require Import gmap list.
From Coq Require Import ZArith Lia.
From Verif Require Import Base Ops Tables NodeManager Tools Sift DiagramManager World WorldSpec.
From Verif Require Import CacheProof Keeps Chain Refuted PropsTables PaceProof.

Local Open Scope Z_scope.
Local Opaque get_gte_capacity capacities cache_grow cache_new.

(** [s] is reached by a program that constructs a manager and makes the calls [ks] *)
Definition reached (c : cfg) (p : cargs) (ks : list call) (vars : vars_t) (s : st) : Prop :=
  0 <= ca_main p /\ 0 <= ca_extra p /\ exists s0 s1, new_manager c p s0 = Ok tt s1 /\ run c ks ∅ s1 = Ok vars s.

Definition no_ratio (ks : list call) : Prop := forall f, CCacheRatio f ∉ ks.

(** the number of nodes is at most the threshold of the next adjustment; the
    threshold is 230 doubled some times and never more than twice the number of cells
    that the pool has allocated *)
Theorem C76_threshold : forall c p ks vars s, reached c p ks vars s ->
  exists k, s_adj s = 230 * 2 ^ Z.of_nat k /\ s_count s <= s_adj s /\ ((0 < k)%nat -> s_adj s <= 2 * cells (s_pool s)).
Proof.
  intros c p ks vars s (Hm&He&s0&s1&E0&E). destruct (pace_new_manager _ _ _ _ Hm He E0) as (P&_).
  destruct (pace_run (fun _ _ => True) (fun _ _ _ _ _ _ => I) c (fun _ _ _ _ => I) ks ∅) with (s := s1) (x := vars) (s' := s) as (k&[]&_); [|done|by exists 0%nat|].
  - apply Forall_true. intros []; try done. intros t x t' Et. injection Et as <- <-. intros (k&[]&_). exists k. split; [|done]. by constructor.
  - exists k. split; [done|]. split; [done|]. intros Hk. specialize (pc_need Hk). rewrite pc_adj.
    destruct k as [|k]; [lia|]. rewrite threshold_S. simpl in pc_need. rewrite Nat.sub_0_r in pc_need. lia.
Qed.

(** what the invariant says about the cache *)
Definition cached (r : Z -> Z) (cap0 : Z) (s : st) (k : nat) : Prop :=
  s_cratio s = r /\
  ((0 < k)%nat -> get_gte_capacity (r (threshold (k - 1))) <= Z.of_N (a_cap (s_cache s))) /\
  (Z.of_N (a_cap (s_cache s)) = cap0 \/ exists j, (j < k)%nat /\ Z.of_N (a_cap (s_cache s)) = get_gte_capacity (r (threshold j))).

(** as long as the ratio is not changed: after an adjustment the capacity is at least
    the one asked for with the number of nodes at the last adjustment, and it is the
    initial one or one that was asked for at an adjustment *)
Theorem C76_cache : forall c p ks vars s, reached c p ks vars s -> no_ratio ks ->
  exists k, s_adj s = 230 * 2 ^ Z.of_nat k /\
    ((0 < k)%nat -> get_gte_capacity (ca_cratio p (s_adj s / 2)) <= Z.of_N (a_cap (s_cache s))) /\
    (Z.of_N (a_cap (s_cache s)) = get_gte_capacity (ca_cache p) \/
     exists j, (j < k)%nat /\ Z.of_N (a_cap (s_cache s)) = get_gte_capacity (ca_cratio p (230 * 2 ^ Z.of_nat j))).
Proof.
  intros c p ks vars s (Hm&He&s0&s1&E0&E) Hr. destruct (pace_new_manager _ _ _ _ Hm He E0) as (P&P1&P2&P3).
  set (r := ca_cratio p) in *. set (cap0 := get_gte_capacity (ca_cache p)).
  assert (H0 : 0 < cap0).
  { destruct (C35_capacity_listed (ca_cache p)) as (_&Hp&_). apply Znumtheory.prime_ge_2 in Hp. subst cap0. lia. }
  assert (HQ : forall s s' k, s_cratio s' = s_cratio s -> a_cap (s_cache s') = a_cap (s_cache s) -> cached r cap0 s k -> cached r cap0 s' k).
  { intros t t' k E1 E2. unfold cached. by rewrite E1, E2. }
  destruct (pace_run (cached r cap0) HQ c) with (ks := ks) (vars := (∅ : vars_t)) (s := s1) (x := vars) (s' := s) as (k&[]&Hk1&Hk2&Hk3); [| |done| |].
  - intros t k Hc (E1&E2&E3). unfold cached. cbn [s_cratio set_cache s_cache]. rewrite cache_grow_cap, E1, Hc. cbn [Nat.sub]. rewrite Nat.sub_0_r.
    split; [done|]. split; [intros _; lia|].
    destruct (Z.max_spec (Z.of_N (a_cap (s_cache t))) (get_gte_capacity (r (threshold k)))) as [[_ ->]|[_ ->]].
    + right. exists k. split; [lia|done].
    + destruct E3 as [E3|(j&Hj&E3)]; [by left|right; exists j; split; [lia|done]].
  - apply Forall_forall. intros k Hk. destruct k; try done. by eapply Hr in Hk.
  - exists 0%nat. split; [done|]. split; [done|]. split; [lia|]. left. rewrite P3. Local Transparent cache_new. unfold cache_new. cbn [a_cap]. subst cap0. lia.
  - exists k. split; [done|]. split; [|done]. intros Hk. specialize (Hk2 Hk). destruct k as [|k]; [lia|].
    rewrite pc_adj, threshold_S. cbn [Nat.sub] in Hk2. rewrite Nat.sub_0_r in Hk2. rewrite Z.mul_comm, Z.div_mul by lia. done.
Qed.

Lemma gte_least n : 307 <= get_gte_capacity n.
Proof.
  destruct (C35_capacity_listed n) as (Hin&_). revert Hin. generalize (get_gte_capacity n) as d. intros d Hd.
  assert (F : Forall (fun x => 307 <= x) capacities) by (vm_compute; repeat constructor; discriminate).
  rewrite Forall_forall in F. apply F. by apply elem_of_list_In.
Qed.

Lemma gte_greater n : n < 2602722289 -> n < get_gte_capacity n.
Proof.
  intros H. destruct (C35_capacity_listed n) as (_&_&Hc). apply (Hc 2602722289); [|done]. vm_compute. tauto.
Qed.

Lemma gte_last n : 2602722289 <= n -> get_gte_capacity n = 2602722289.
Proof.
  intros H. destruct (C35_capacity_listed n) as (Hin&_). Local Transparent get_gte_capacity. unfold get_gte_capacity in *.
  destruct (gte_capacity_in_spec capacities n) as [(H1&H2&_)|[-> _]]; [|done].
  assert (F : forallb (fun x => x <=? 2602722289) capacities = true) by (vm_compute; reflexivity).
  rewrite forallb_forall in F. apply F, Z.leb_le in H1. lia.
Qed.
Local Opaque get_gte_capacity.

(** the ratio as the quotient of two integers, rounded down: the capacity exceeds half
    of ratio * number of nodes, as long as the largest prime of the list does and as
    soon as the tables were adjusted (or the ratio is at most 2) *)
Theorem C76_cache_size : forall c p ks vars s a b, reached c p ks vars s -> no_ratio ks ->
  0 < a -> 0 < b -> (forall n, ca_cratio p n = a * n / b) ->
  a * s_count s < 2 * b * 2602722289 -> 230 < s_count s \/ a <= 2 * b ->
  a * s_count s < 2 * b * Z.of_N (a_cap (s_cache s)).
Proof.
  intros c p ks vars s a b H Hr Ha Hb Er Hs Hbig.
  destruct (C76_threshold _ _ _ _ _ H) as (k&Ek&Hle&_). destruct (C76_cache _ _ _ _ _ H Hr) as (k'&Ek'&Hc&Hcap).
  assert (k' = k) as ->.
  { assert (E : 2 ^ Z.of_nat k = 2 ^ Z.of_nat k') by lia. apply Z.pow_inj_r in E; lia. }
  assert (H307 : 307 <= Z.of_N (a_cap (s_cache s))).
  { destruct Hcap as [->|(j&_&->)]; apply gte_least. }
  destruct k as [|k].
  - change (s_adj s = 230) in Ek. destruct Hbig as [?|Hbig]; [lia|]. nia.
  - specialize (Hc ltac:(lia)). rewrite Er in Hc.
    assert (Ed : s_adj s / 2 = 230 * 2 ^ Z.of_nat k).
    { rewrite Ek, Nat2Z.inj_succ, Z.pow_succ_r by lia. replace (230 * (2 * 2 ^ Z.of_nat k)) with (230 * 2 ^ Z.of_nat k * 2) by lia. by rewrite Z.div_mul. }
    assert (E2 : s_adj s = 2 * (s_adj s / 2)) by (rewrite Ed, Ek, Nat2Z.inj_succ, Z.pow_succ_r by lia; lia).
    set (n := s_adj s / 2) in *. set (q := a * n / b) in *.
    assert (Hq : a * n < b * (q + 1)) by (subst q; pose proof (Z.mul_succ_div_gt (a * n) b Hb); lia).
    destruct (Z.lt_ge_cases q 2602722289) as [Hq2|Hq2].
    + pose proof (gte_greater _ Hq2). nia.
    + rewrite gte_last in Hc by done. nia.
Qed.

(** the default: ratio 1.0 *)
Corollary C76_default_cache : forall c p ks vars s, reached c p ks vars s -> no_ratio ks -> (forall n, ca_cratio p n = n) ->
  s_count s < 2 * 2602722289 -> s_count s < 2 * Z.of_N (a_cap (s_cache s)).
Proof.
  intros c p ks vars s H Hr E Hs. pose proof (C76_cache_size c p ks vars s 1 1 H Hr) as T.
  enough (1 * s_count s < 2 * 1 * Z.of_N (a_cap (s_cache s))) by lia. apply T; try lia.
  intros n. rewrite E, Z.div_1_r. lia.
Qed.

(** the cache never shrinks, whatever ratios are set *)
Theorem C76_never_shrinks : forall c p ks vars s ks' vars' s', reached c p ks vars s -> run c ks' vars s = Ok vars' s' ->
  (a_cap (s_cache s) <= a_cap (s_cache s'))%N.
Proof.
  intros c p ks vars s ks' vars' s' (Hm&He&s0&s1&E0&E) E'. destruct (pace_new_manager _ _ _ _ Hm He E0) as (P&_).
  assert (Hp : pace (fun _ _ => True) s).
  { eapply (pace_run (fun _ _ => True) (fun _ _ _ _ _ _ => I) c (fun _ _ _ _ => I) ks ∅); [|exact E|by exists 0%nat].
    apply Forall_true. intros []; try done. intros t x t' Et. injection Et as <- <-. intros (k&[]&_). exists k. split; [|done]. by constructor. }
  destruct Hp as (k&Hk&_). set (x := a_cap (s_cache s)).
  assert (Hp' : pace (fun s _ => (x <= a_cap (s_cache s))%N) s').
  { eapply (pace_run (fun s _ => (x <= a_cap (s_cache s))%N)); [| | |exact E'|by exists k].
    - intros t t' j _ ->. done.
    - intros t j _ Ht. cbn [s_cache set_cache]. pose proof (cache_grow_cap c (s_cache t) (s_cratio t (s_count t))). lia.
    - apply Forall_true. intros []; try done. intros t y t' Et. injection Et as <- <-. intros (j&[]&Hj). exists j. split; [|done]. by constructor. }
  by destruct Hp' as (_&_&Hp').
Qed.

Lemma outcome_reached c p ks (P : st -> Prop) : 0 <= ca_main p -> 0 <= ca_extra p ->
  match outcome c p ks with Ok _ s => P s | _ => False end -> exists v s, reached c p ks v s /\ P s.
Proof.
  intros Hm He. unfold outcome. destruct (new_manager c p no_state) as [[] s1| |] eqn:E0; [|done..].
  destruct (run c ks ∅ s1) as [v s| |] eqn:E; [|done..]. intros HP. exists v, s. split; [|done].
  split; [done|]. split; [done|]. by exists no_state, s1.
Qed.

(** "Size of the cache is calculated as ratio * uniqueNodeCount"
    (diagram_manager.hpp:671-681) does not hold after the call: set_cache_ratio does
    not change the cache, the ratio is used the next time the tables are adjusted *)
Definition ratio_prog : list call := [CVar 0 0; CVar 1 1; CCacheRatio (fun n => 1000 * n)].

Lemma ratio_run : match outcome c3 args3 ratio_prog with
  | Ok _ s => s_count s = 4 /\ a_cap (s_cache s) = 307%N | _ => False end.
Proof. vm_compute. split; reflexivity. Qed.

Theorem C76_documented_size_refuted : exists c p ks vars s f, reached c p ks vars s /\
  last ks = Some (CCacheRatio f) /\ Z.of_N (a_cap (s_cache s)) < f (s_count s).
Proof.
  destruct (outcome_reached c3 args3 ratio_prog (fun s => s_count s = 4 /\ a_cap (s_cache s) = 307%N)) as (v&s&E&H1&H3);
    [discriminate|discriminate|exact ratio_run|].
  exists c3, args3, ratio_prog, v, s, (fun n => 1000 * n).
  split; [exact E|]. split; [reflexivity|]. rewrite H1, H3. reflexivity.
Qed.

(** ** A case: 231 constants in a multi-valued manager with ratio 2 *)
Definition pace_cfg : cfg := Cfg [2; 3]%nat None (fun p => N.pos p * 64)%N true false.
Definition pace_args : cargs := CArgs [0; 1] 300 100 64 [10; 10] (fun n => n / 5) (fun n => 2 * n / 1).
Definition pace_prog : list call := map (fun k => CConst k (Z.of_nat k)) (seq 0 231).

Lemma pace_run_ok : match outcome pace_cfg pace_args pace_prog with
  | Ok _ s => s_count s = 231 /\ s_adj s = 460 /\ a_cap (s_cache s) = 617%N | _ => False end.
Proof. vm_compute. split; [|split]; reflexivity. Qed.

Lemma pace_case : exists v s, reached pace_cfg pace_args pace_prog v s /\ s_count s = 231 /\ s_adj s = 460 /\ a_cap (s_cache s) = 617%N.
Proof. apply (outcome_reached pace_cfg pace_args pace_prog); [discriminate|discriminate|exact pace_run_ok]. Qed.

Lemma pace_no_ratio : no_ratio pace_prog.
Proof. intros f H. apply elem_of_list_In, in_map_iff in H as (k&E&_). discriminate. Qed.

Example C76_case : exists v s, reached pace_cfg pace_args pace_prog v s /\ s_count s = 231 /\ s_count s <= 460 /\ 2 * s_count s < 2 * 617.
Proof.
  destruct pace_case as (v&s&H&H1&H2&H3). exists v, s. split; [exact H|]. split; [exact H1|].
  destruct (C76_threshold _ _ _ _ _ H) as (k&_&Hle&_). rewrite H2 in Hle. split; [exact Hle|].
  pose proof (C76_cache_size _ _ _ _ _ 2 1 H pace_no_ratio) as T. rewrite H3 in T. apply T; try lia. reflexivity.
Qed.

(** from here on: everything is collected, the ratio is set to 0 *)
Definition shrink_prog : list call := CCacheRatio (fun _ => 0) :: map CReset (seq 0 231) ++ [CGc].

Lemma shrink_run : match outcome pace_cfg pace_args (pace_prog ++ shrink_prog) with
  | Ok _ s => s_count s = 0 | _ => False end.
Proof. vm_compute. reflexivity. Qed.

Lemma run_app_ok c ks1 ks2 : forall vars s v s', run c (ks1 ++ ks2) vars s = Ok v s' ->
  exists v1 s1, run c ks1 vars s = Ok v1 s1 /\ run c ks2 v1 s1 = Ok v s'.
Proof.
  induction ks1 as [|k ks1 IH]; intros vars s v s' H; [by exists vars, s|].
  cbn [app run] in *. unfold bind in *. destruct (exec c k vars s) as [w t| |]; [|done..]. by apply IH.
Qed.

Example C76_shrink_case : exists v s v' s', reached pace_cfg pace_args pace_prog v s /\
  run pace_cfg shrink_prog v s = Ok v' s' /\ s_count s' = 0 /\ (307 <= a_cap (s_cache s'))%N.
Proof.
  destruct (outcome_reached pace_cfg pace_args (pace_prog ++ shrink_prog) (fun s => s_count s = 0)) as (v'&s'&(Hm&He&s0&s1&E0&E)&H);
    [discriminate|discriminate|exact shrink_run|].
  destruct (run_app_ok _ _ _ _ _ _ _ E) as (v&s&E1&E2).
  assert (R : reached pace_cfg pace_args pace_prog v s).
  { split; [exact Hm|]. split; [exact He|]. exists s0, s1. split; [exact E0|exact E1]. }
  exists v, s, v', s'. split; [exact R|]. split; [exact E2|]. split; [exact H|].
  etransitivity; [|exact (C76_never_shrinks _ _ _ _ _ _ _ _ R E2)].
  destruct (C76_cache _ _ _ _ _ R pace_no_ratio) as (k&_&_&Hc).
  assert (307 <= Z.of_N (a_cap (s_cache s))) by (destruct Hc as [->|(j&_&->)]; apply gte_least). lia.
Qed.

Print Assumptions C76_threshold.
Print Assumptions C76_cache.
Print Assumptions C76_cache_size.
Print Assumptions C76_default_cache.
Print Assumptions C76_never_shrinks.
Print Assumptions C76_documented_size_refuted.
