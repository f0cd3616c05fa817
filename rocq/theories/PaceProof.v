(** * The sizes of the tables and the cache follow the number of nodes *)

From stdpp Require Import gmap list.
From Coq Require Import ZArith Lia.
From Verif Require Import Base Ops Tables NodeManager Tools Sift DiagramManager Reliability World WorldSpec.
From Verif Require Import CacheProof Keeps.

Local Open Scope Z_scope.

(** all cells of the chunks that the pool has allocated *)
Definition cells (p : pool) : Z := Z.pos (p_next p) - 1 + Z.of_N (p_left p).

(** the threshold after [k] adjustments *)
Definition threshold (k : nat) : Z := 230 * 2 ^ Z.of_nat k.

Record paced (s : st) (k : nat) : Prop := {
  pc_extra : 0 <= p_extra (s_pool s);
  pc_avail : 0 <= p_avail (s_pool s);
  pc_cells : s_count s + p_avail (s_pool s) = cells (s_pool s);
  pc_adj : s_adj s = threshold k;
  pc_count : s_count s <= s_adj s;
  pc_need : (0 < k)%nat -> threshold (k - 1) <= cells (s_pool s)
}.

Lemma threshold_S k : threshold (S k) = 2 * threshold k.
Proof. unfold threshold. rewrite Nat2Z.inj_succ, Z.pow_succ_r by lia. lia. Qed.
Lemma threshold_pos k : 230 <= threshold k.
Proof. induction k; [done|]. rewrite threshold_S. lia. Qed.

Section pace.
(** what else is claimed after [k] adjustments; it depends on the ratio and the capacity of the cache only *)
Context (Q : st -> nat -> Prop) (HQ : forall s s' k, s_cratio s' = s_cratio s -> a_cap (s_cache s') = a_cap (s_cache s) -> Q s k -> Q s' k).
Context (c : cfg).
Context (HQ2 : forall s k, s_count s = threshold k -> Q s k ->
  Q (set_cache (cache_grow c (s_cache s) (s_cratio s (s_count s))) s) (S k)).

Definition pace (s : st) : Prop := exists k, paced s k /\ Q s k.

Lemma pace_level s s' : s_pool s' = s_pool s -> level_with s s' -> pace s -> pace s'.
Proof using HQ.
  intros E (L1&L2&L3&L4) (k&[]&H). exists k. split; [|by apply (HQ s)].
  constructor; rewrite ?E, ?L1, ?L2; done.
Qed.
Lemma pace_alike s s' : alike s s' -> pace s -> pace s'.
Proof using HQ. intros [[E _] L]. by apply pace_level. Qed.

Lemma pace_delete a : kept pace (delete_node c a).
Proof using HQ.
  intros s x s' E (k&[]&H). unfold delete_node, bind in E. destruct (getn a s) as [n s1| |] eqn:G; [|discriminate..].
  destruct (getn_look _ _ _ _ G) as (->&_). destruct (_ && _); [discriminate|]. injection E as <- <-.
  exists k. split; [|by apply (HQ s)]. constructor; simpl; try done; [lia| |lia]. unfold cells in *. simpl. lia.
Qed.

Lemma pace_grow : kept pace grow.
Proof using HQ.
  intros s x s' E (k&[]&H). unfold grow, modify in E. injection E as <- <-. exists k. split; [|by apply (HQ s)].
  assert (Hp : Z.pos (padd (p_next (s_pool s)) (p_left (s_pool s))) = Z.pos (p_next (s_pool s)) + Z.of_N (p_left (s_pool s))).
  { unfold padd. destruct (p_left (s_pool s)); lia. }
  constructor; simpl; try done; [lia| |]; unfold cells in *; simpl; rewrite ?Hp; [lia|]. intros Hk. specialize (pc_need0 Hk). lia.
Qed.

Lemma pace_ensure : kept pace (ensure_available c).
Proof using HQ.
  unfold ensure_available. apply kp_bind; [apply kp_gets|intros auto]. apply kp_bind; [apply kp_gets|intros avail].
  destruct auto; (destruct (avail =? 0); [|apply kp_ret]).
  - apply kp_bind; [apply pace_grow|intros _]. intros s x s' E. injection E as <- <-. by apply pace_level.
  - apply kp_bind; [apply kp_gets|intros thr]. apply kp_bind; [|intros _].
    { apply kp_force_gc; [apply pace_alike|apply pace_delete]. }
    apply kp_bind; [apply kp_gets|intros av]. destruct (av <? thr); [apply pace_grow|apply kp_ret].
Qed.

(** make_new_node: when a node is created the count is below the threshold *)
Lemma pace_new b : kept pace (make_new_node c b).
Proof using HQ HQ2.
  intros s x s' E H. unfold make_new_node in E. unfold bind at 1 in E.
  destruct (ensure_available c s) as [[] s1| |] eqn:Ee; [|discriminate..].
  destruct (pace_ensure _ _ _ Ee H) as (k&[]&HQ1). unfold bind at 1 in E.
  destruct (adjust_if_needed c s1) as [[] s2| |] eqn:Ea; [|discriminate..].
  assert (Hs2 : exists k', paced s2 k' /\ Q s2 k' /\ s_count s2 < s_adj s2).
  { unfold adjust_if_needed, bind, gets, adjust_tables, adjust_caches, modify, ret in Ea.
    destruct (Z.leb_spec (s_adj s1) (s_count s1)) as [Hl|Hl]; injection Ea as <-.
    - assert (Hc : s_count s1 = threshold k) by lia. pose proof (threshold_pos k). exists (S k). split; [|split].
      + constructor; simpl; try done; [rewrite threshold_S; lia|lia|]. intros _. rewrite Nat.sub_0_r. lia.
      + eapply HQ; [| |exact (HQ2 s1 k Hc HQ1)]; done.
      + simpl. pose proof (threshold_pos k). lia.
    - exists k. done. }
  destruct Hs2 as (k'&[]&HQ'&Hlt). unfold create_node in E.
  destruct (pool_create (s_pool s2)) as [[a q]|] eqn:Ep; [|discriminate]. injection E as <- <-.
  exists k'. split; [|by apply (HQ s2)]. unfold pool_create in Ep.
  destruct (Z.leb_spec (p_avail (s_pool s2)) 0); [discriminate|]. destruct (p_free (s_pool s2)).
  - destruct (p_left (s_pool s2)) as [|lf] eqn:El; [discriminate|]. injection Ep as <- <-.
    constructor; simpl; try done; [lia| |lia|]; unfold cells in *; simpl; rewrite El in *; [lia|]. intros Hk. specialize (pc_need1 Hk). lia.
  - injection Ep as <- <-. constructor; simpl; try done; [lia| |lia]. unfold cells in *; simpl. lia.
Qed.

Lemma pace_swap a : kept pace (swap_node_with_next c a).
Proof using HQ HQ2.
  assert (Hmi : forall i l, kept pace (make_internal_node c i l)).
  { intros i l. apply kp_make_internal; [apply pace_alike|]. intros. apply pace_new. }
  unfold swap_node_with_next. apply kp_bind; [apply kp_get_int|intros [i old]].
  apply kp_bind; [apply kp_level_of_index|intros level]. apply kp_bind; [apply kp_index_at|intros next]. cbv zeta.
  apply kp_bind; [apply kp_mapM; intros; apply kp_cofactor_row|intros rows].
  apply kp_bind; [apply kp_mapM; intros; apply kp_bind; [apply kp_of_opt|intros; apply Hmi]|intros outer].
  apply kp_bind; [|intros _].
  { intros s x s' E. unfold modn, bind in E. destruct (getn a s) as [n s1| |] eqn:G; [|discriminate..].
    destruct (getn_look _ _ _ _ G) as (->&_). injection E as <- <-. by apply pace_level. }
  apply kp_bind; [|intros _].
  - apply kp_mapM_. intros b. apply kp_bind; [by apply kp_inc_ref, pace_alike|intros _; by apply kp_set_mark, pace_alike].
  - apply kp_mapM_. intros b. apply kp_dec_ref_try_gc; [apply pace_alike|apply pace_delete].
Qed.

Lemma pace_run ks vars : Forall (ratio_ok pace) ks -> kept pace (run c ks vars).
Proof using HQ HQ2.
  intros H. apply kp_run; [apply pace_alike|apply pace_delete|intros; apply pace_new..|apply pace_swap|done].
Qed.

End pace.

Lemma pace_new_manager c p s0 s : 0 <= ca_main p -> 0 <= ca_extra p -> new_manager c p s0 = Ok tt s ->
  paced s 0 /\ s_cratio s = ca_cratio p /\ s_adj s = 230 /\ s_cache s = cache_new (ca_cache p).
Proof.
  intros Hm He. unfold new_manager, construct. intros E. destruct (_ && _); [done|]. destruct (if c_dbg c then _ else _) as [[]|]; try done.
  destruct (fill_levels _ _ _); [|done]. injection E as <-. split; [|done]. constructor; simpl; try done; try lia.
  unfold cells, pool_new. simpl. lia.
Qed.

(** the cache grows to the requested capacity and never shrinks *)
Lemma cache_grow_cap c ac n : Z.of_N (a_cap (cache_grow c ac n)) = Z.max (Z.of_N (a_cap ac)) (get_gte_capacity n).
Proof.
  unfold cache_grow. destruct (Z.ltb_spec (Z.of_N (a_cap ac)) (get_gte_capacity n)) as [H|H]; [|lia].
  assert (R : forall l a, a_cap (fold_left (fun ac (o : option ent) => match o with Some e => cache_insert c ac (e_op e) (e_res e) (e_l e) (e_r e) | None => ac end) l a) = a_cap a).
  { induction l as [|[e|] l IH]; intros a; simpl; [done| |done]. by rewrite IH. }
  unfold cache_rehash. rewrite R. cbn [a_cap]. lia.
Qed.
