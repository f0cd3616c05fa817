(** * Properties of the hash tables: C34, C35 *)

From stdpp Require Import gmap list.
From Coq Require Import ZArith Lia Znumtheory Sorted.
From Verif Require Import Base Tables TabLemmas CacheProof FloatProof.

Local Open Scope Z_scope.

(** ** C34: for every placement of the nodes in memory ([c_ptr c]), that is, for
    every pattern of collisions *)
Theorem C34_cache_returns_last_put : forall c cap ks op l r res,
  cache_lookup c (cops_run c cap ks) op l r = Some res -> last_put ks op l r = Some res.
Proof. intros c cap ks op l r res H. eapply lookup_inv; [apply cops_inv|exact H]. Qed.

(** a result that was just put is found *)
Theorem C34_cache_hit : forall c cap ks op l r res,
  cache_lookup c (cops_run c cap (ks ++ [Put op res l r])) op l r = Some res.
Proof.
  intros. unfold cops_run. rewrite fold_left_app. simpl.
  destruct (cops_inv c cap ks) as [H1 H2 _ _]. by apply lookup_put.
Qed.

(** the recorded size is the number of occupied entries *)
Theorem C34_cache_size : forall c cap ks,
  a_size (cops_run c cap ks) = Z.of_nat (length (List.filter (fun o : option ent => if o then true else false) (a_ents (cops_run c cap ks)))).
Proof.
  intros. rewrite (ci_size _ _ _ (cops_inv c cap ks)). f_equal. unfold occupied.
  induction (a_ents (cops_run c cap ks)) as [|[e|] es IH]; simpl; [done|f_equal; exact IH|exact IH].
Qed.

(** all nodes at the same address: everything collides in one entry; then the cache grows *)
Definition same_place : cfg := Cfg [2; 2]%nat (Some 2) (fun _ => 4096)%N true false.

Example C34_case :
  let ks := [Put 1 5 3 4; Put 1 6 3 7; Put 1 8 3 7; Grow 400; Put 2 9 3 4] in
  cache_lookup same_place (cops_run same_place 100 ks) 1 3 4 = None /\
  cache_lookup same_place (cops_run same_place 100 ks) 1 3 7 = Some 8%positive /\
  last_put ks 1 3 7 = Some 8%positive /\ a_cap (cops_run same_place 100 ks) = 617%N /\
  cache_lookup same_place (cops_run same_place 100 (ks ++ [Clear])) 1 3 7 = None.
Proof. by vm_compute. Qed.

(** ** C35 *)
Theorem C35_capacity_listed : forall d,
  In (get_gte_capacity d) capacities /\ prime (get_gte_capacity d) /\
  (forall x, In x capacities -> d < x -> d < get_gte_capacity d <= x).
Proof.
  intros d.
  assert (S : forall l1 x l2 y, capacities = l1 ++ x :: l2 -> In y capacities -> Forall (fun z => z <= d) l1 -> d < y -> x <= y).
  { intros l1 x l2 y E Hy F Hd. rewrite E in Hy. apply in_app_or in Hy as [Hy|[->|Hy]].
    - rewrite List.Forall_forall in F. specialize (F y Hy). lia.
    - lia.
    - apply elem_of_list_In, elem_of_list_lookup in Hy as [k Hk].
      assert (So : forall i j a b, (i < j)%nat -> capacities !! i = Some a -> capacities !! j = Some b -> a < b).
      { assert (St : Sorted.StronglySorted Z.lt capacities).
        { unfold capacities. repeat (constructor; [|repeat (constructor; [lia|]); constructor]). constructor. }
        clear -St. induction St as [|z l St IH F]; intros [|i] [|j] a b Hij Ha Hb; simplify_eq/=; try lia.
        - eapply (proj1 (Forall_lookup _ _) F); eauto.
        - eapply (IH i j); [lia|done|done]. }
      assert (x < y); [|lia]. apply (So (length l1) (length l1 + S k)%nat); [lia| |].
      + rewrite E, lookup_app_r, Nat.sub_diag by lia. done.
      + rewrite E, lookup_app_r by lia. replace (length l1 + S k - length l1)%nat with (S k) by lia. done. }
  unfold get_gte_capacity.
  destruct (gte_capacity_in_spec capacities d) as [(H1&H2&l1&l2&E&F)|[H1 H2]].
  - split; [done|]. split.
    + pose proof capacities_prime as P. rewrite List.Forall_forall in P. by apply P.
    + intros x Hx Hd. split; [done|]. by apply (S l1 _ l2).
  - rewrite H1. assert (Hin : In 2602722289 capacities) by (unfold capacities; simpl; tauto).
    split; [done|]. split.
    + pose proof capacities_prime as P. rewrite List.Forall_forall in P. by apply P.
    + intros x Hx Hd. rewrite List.Forall_forall in H2. specialize (H2 x Hx). lia.
Qed.

Example C35_case : map get_gte_capacity [-5; 306; 307; 1301361142; 1301361143; 99999999999] =
  [307; 307; 617; 1301361143; 2602722289; 2602722289].
Proof. by vm_compute. Qed.

(** after adjust_capacity (as used by merge and after the swaps) the load is at
    most 3/4, unless the last prime is too small; the table never shrinks *)
Theorem C35_load : forall c h t,
  let t' := tab_adjust c h t in
  (4 * t_size t / 3 < 2602722289 -> 4 * t_size t' <= 3 * Z.of_N (t_cap t')) /\
  (t_cap t <= t_cap t')%N /\ t_size t' = t_size t.
Proof.
  intros c h t. simpl. unfold tab_adjust.
  destruct (C35_capacity_listed (4 * t_size t / 3)) as (Hin&_&Hmin).
  assert (Hlt : 4 * t_size t / 3 < 2602722289 -> 4 * t_size t / 3 < get_gte_capacity (4 * t_size t / 3)).
  { intros H. apply (Hmin 2602722289); [unfold capacities; simpl; tauto|done]. }
  pose proof (Z.div_mod (4 * t_size t) 3 ltac:(lia)) as Ed. pose proof (Z.mod_pos_bound (4 * t_size t) 3 ltac:(lia)) as Em.
  pose proof (get_gte_pos (4 * t_size t / 3)) as Hp.
  destruct (Z.ltb_spec (Z.of_N (t_cap t)) (get_gte_capacity (4 * t_size t / 3))) as [H|H].
  - unfold tab_rehash.
    destruct (insert_all_fields c h (UTab (t_size t) (Z.to_N (get_gte_capacity (4 * t_size t / 3)))
      (empty_buckets (Z.to_N (get_gte_capacity (4 * t_size t / 3))))) (concat (t_buckets t))) as [-> ->]. simpl.
    split; [intros Hs; specialize (Hlt Hs); lia|]. split; [lia|done].
  - split; [intros Hs; specialize (Hlt Hs); lia|]. split; [lia|done].
Qed.

Example C35_load_case : t_cap (tab_adjust same_place ∅ (UTab 231 307 [])) = 617%N /\
  t_cap (tab_adjust same_place ∅ (UTab 230 307 [])) = 307%N.
Proof. by vm_compute. Qed.

(** the model divides exactly where the code divides in double precision *)
Theorem C35_double_division : forall size, 0 <= size < 2 ^ 50 -> approx_capacity size = 4 * size / 3.
Proof. exact approx_capacity_exact. Qed.

Example C35_double_case : 0 <= 12345678 < 2 ^ 50 /\ 4 * 12345678 / 3 = 16460904.
Proof. vm_compute. split; [split; [discriminate|reflexivity]|reflexivity]. Qed.

Print Assumptions C34_cache_returns_last_put.
Print Assumptions C34_cache_hit.
Print Assumptions C34_cache_size.
Print Assumptions C35_capacity_listed.
Print Assumptions C35_load.
Print Assumptions C35_double_division.
