(** * The apply cache and the capacities of the tables *)

From stdpp Require Import gmap list.
From Coq Require Import ZArith Lia Znumtheory.
From Verif Require Import Base Tables TabLemmas GC.

Local Open Scope nat_scope.

(** ** Sequences of cache operations *)

(** calls of the members of apply_cache, hash_tables.hpp:751-860; [Clean] is
    remove_unused in a state of the nodes *)
Inductive cop :=
| Put (op : Z) (res l r : positive)
| Clear
| Grow (n : Z)
| Clean (h : gmap positive node).

Definition cop_run (c : cfg) (ac : acache) (k : cop) : acache :=
  match k with
  | Put op res l r => cache_insert c ac op res l r
  | Clear => cache_cleared ac
  | Grow n => cache_grow c ac n
  | Clean h => cache_remove_unused h ac
  end.

Definition cops_run (c : cfg) (cap : Z) (ks : list cop) : acache := fold_left (cop_run c) ks (cache_new cap).

(** what was put last for a key, since the last [Clear] *)
Definition note (m : Z -> positive -> positive -> option positive) (k : cop) : Z -> positive -> positive -> option positive :=
  match k with
  | Put op res l r => fun op' l' r' => if decide (op' = op /\ l' = l /\ r' = r) then Some res else m op' l' r'
  | Clear => fun _ _ _ => None
  | Grow _ | Clean _ => m
  end.
Definition last_put (ks : list cop) : Z -> positive -> positive -> option positive :=
  fold_left note ks (fun _ _ _ => None).

(** occupied entries *)
Definition occupied (l : list (option ent)) : nat := length (omap id l).

Section cache.
Context (c : cfg).

Record cinv (m : Z -> positive -> positive -> option positive) (ac : acache) : Prop := {
  ci_cap : (0 < a_cap ac)%N;
  ci_len : length (a_ents ac) = N.to_nat (a_cap ac);
  ci_ent : forall k e, a_ents ac !! k = Some (Some e) ->
    k = slot_of c ac (e_op e) (e_l e) (e_r e) /\ m (e_op e) (e_l e) (e_r e) = Some (e_res e);
  ci_size : a_size ac = Z.of_nat (occupied (a_ents ac))
}.

Lemma slot_lt ac op l r : (0 < a_cap ac)%N -> slot_of c ac op l r < N.to_nat (a_cap ac).
Proof. intros. unfold slot_of. pose proof (N.mod_upper_bound (cache_hash c op l r) (a_cap ac)). lia. Qed.

Lemma occupied_insert l k (o o' : option ent) : l !! k = Some o ->
  occupied (<[k := o']> l) + (if o then 1 else 0) = occupied l + (if o' then 1 else 0).
Proof.
  unfold occupied. revert k. induction l as [|x l IH]; intros [|k] H; simplify_eq/=.
  - destruct o, o'; simpl; lia.
  - specialize (IH k H). destruct x; simpl; lia.
Qed.

Lemma occupied_replicate n : occupied (replicate n None) = 0.
Proof. unfold occupied. by induction n. Qed.

Lemma cinv_empty m cap : (0 < cap)%N -> cinv m (ACache 0 cap (replicate (N.to_nat cap) None)).
Proof.
  intros H. constructor; simpl; [done|apply replicate_length| |by rewrite occupied_replicate].
  intros k e He. apply lookup_replicate in He as [? ?]. done.
Qed.

Lemma cinv_put m ac op res l r : cinv m ac -> cinv (note m (Put op res l r)) (cache_insert c ac op res l r).
Proof.
  intros [H1 H2 H3 H4]. pose proof (slot_lt ac op l r H1) as Hs.
  constructor; simpl; [done|by rewrite insert_length| |].
  - intros k e He. change (slot_of c _ (e_op e) (e_l e) (e_r e)) with (slot_of c ac (e_op e) (e_l e) (e_r e)).
    destruct (decide (k = slot_of c ac op l r)) as [->|Hne].
    + rewrite list_lookup_insert in He by lia. simplify_eq. simpl. split; [done|]. by rewrite decide_True.
    + rewrite list_lookup_insert_ne in He by done. destruct (H3 k e He) as [E M]. split; [done|].
      destruct (decide _) as [(E1&E2&E3)|]; [|done]. rewrite E1, E2, E3 in E. done.
  - destruct (lookup_lt_is_Some_2 (a_ents ac) (slot_of c ac op l r)) as [o Ho]; [lia|]. rewrite Ho.
    pose proof (occupied_insert _ _ _ (Some (Ent op l r res)) Ho). destruct o; simpl in *; lia.
Qed.

(** re-insertion keeps what is known when every key occurs at most once *)
Lemma cinv_refill m es : forall ac,
  cinv m ac -> (forall e, Some e ∈ es -> m (e_op e) (e_l e) (e_r e) = Some (e_res e)) ->
  cinv m (fold_left (fun ac (o : option ent) =>
    match o with Some e => cache_insert c ac (e_op e) (e_res e) (e_l e) (e_r e) | None => ac end) es ac).
Proof.
  induction es as [|o es IH]; intros ac I H; [done|]. simpl. apply IH; [|intros; apply H; set_solver].
  destruct o as [e|]; [|done]. pose proof (cinv_put m ac (e_op e) (e_res e) (e_l e) (e_r e) I) as [J1 J2 J3 J4].
  constructor; try done. intros k e' He'. destruct (J3 k e' He') as [E M]. split; [done|].
  simpl in M. destruct (decide _) as [(E1&E2&E3)|]; [|done].
  rewrite E1, E2, E3, <- M. apply H. set_solver.
Qed.

Lemma cinv_grow m ac n : cinv m ac -> cinv m (cache_grow c ac n).
Proof.
  intros I. unfold cache_grow. destruct (_ <? _)%Z; [|done]. unfold cache_rehash.
  pose proof (get_gte_pos n). apply cinv_refill; [apply cinv_empty; lia|].
  intros e He. apply elem_of_list_lookup in He as [k Hk]. apply (ci_ent _ _ I k e Hk).
Qed.

Lemma cinv_clean m ac h : cinv m ac -> cinv m (cache_remove_unused h ac).
Proof.
  intros I. unfold cache_remove_unused.
  assert (G : forall l ac', cinv m ac' -> NoDup (map fst l) ->
    (forall k o, (k, o) ∈ l -> a_ents ac' !! k = Some o) ->
    cinv m (fold_left (fun ac (ko : nat * option ent) =>
               match snd ko with
               | Some e => if ent_used h e then ac
                           else ACache (a_size ac - 1) (a_cap ac) (<[fst ko := None]> (a_ents ac))
               | None => ac
               end) l ac')).
  { induction l as [|[k o] l IH]; intros ac' I' N H; [done|]. simpl in N. apply NoDup_cons in N as [Nk N]. simpl.
    assert (Hk : a_ents ac' !! k = Some o) by (apply H; set_solver).
    assert (Hl : forall k0 o0, (k0, o0) ∈ l -> k0 <> k).
    { intros k0 o0 Hin ->. apply Nk. apply elem_of_list_fmap. exists (k, o0). done. }
    apply IH; [|done|].
    - destruct o as [e|]; [|done]. destruct (ent_used h e); [done|]. destruct I' as [J1 J2 J3 J4].
      constructor; simpl; [done|by rewrite insert_length| |].
      + intros k0 e0 He0. destruct (decide (k0 = k)) as [->|Hne].
        * rewrite list_lookup_insert in He0 by (eapply lookup_lt_Some; eauto). done.
        * rewrite list_lookup_insert_ne in He0 by done. by apply J3.
      + pose proof (occupied_insert _ _ _ None Hk). simpl in *. lia.
    - intros k0 o0 Hin. pose proof (Hl _ _ Hin). assert (Hk0 : a_ents ac' !! k0 = Some o0) by (apply H; set_solver).
      destruct o as [e|]; [|done]. destruct (ent_used h e); [done|]. simpl. by rewrite list_lookup_insert_ne. }
  apply G; [done| |].
  - assert (E : map fst (imap pair (a_ents ac)) = seq 0 (length (a_ents ac))); [|rewrite E; apply NoDup_seq].
    clear. generalize (a_ents ac). intros l. apply list_eq. intros i. rewrite list_lookup_fmap, list_lookup_imap.
    destruct (decide (i < length l)).
    + destruct (lookup_lt_is_Some_2 l i) as [x ->]; [done|]. simpl. by rewrite lookup_seq_lt.
    + rewrite (lookup_ge_None_2 l i) by lia. simpl. symmetry. apply lookup_ge_None_2. rewrite seq_length. lia.
  - intros k o Hin. apply elem_of_list_lookup in Hin as [i Hi]. rewrite list_lookup_imap in Hi.
    destruct (a_ents ac !! i) eqn:E; simplify_eq/=. done.
Qed.

Lemma cinv_run ks : forall m ac, cinv m ac -> cinv (fold_left note ks m) (fold_left (cop_run c) ks ac).
Proof.
  induction ks as [|k ks IH]; intros m ac I; [done|]. simpl. apply IH. destruct k; simpl.
  - by apply (cinv_put m ac op res l r).
  - apply cinv_empty, I.
  - by apply cinv_grow.
  - by apply cinv_clean.
Qed.

Lemma cops_inv cap ks : cinv (last_put ks) (cops_run c cap ks).
Proof. apply cinv_run, cinv_empty. pose proof (get_gte_pos cap). lia. Qed.

Lemma lookup_inv m ac op l r a : cinv m ac -> cache_lookup c ac op l r = Some a -> m op l r = Some a.
Proof.
  intros I H. unfold cache_lookup in H. destruct (a_ents ac !! _) as [[e|]|] eqn:E; try done.
  destruct (_ && _ && _) eqn:B; [|done]. apply andb_prop in B as [B B3]. apply andb_prop in B as [B1 B2].
  apply Z.eqb_eq in B1. apply bool_decide_eq_true in B2, B3. subst. simplify_eq. by apply (ci_ent _ _ I _ _ E).
Qed.

Lemma lookup_put ac op res l r : (0 < a_cap ac)%N -> length (a_ents ac) = N.to_nat (a_cap ac) ->
  cache_lookup c (cache_insert c ac op res l r) op l r = Some res.
Proof.
  intros H1 H2. unfold cache_lookup. change (slot_of c (cache_insert c ac op res l r) op l r) with (slot_of c ac op l r).
  simpl. rewrite list_lookup_insert by (rewrite H2; by apply slot_lt). simpl.
  rewrite Z.eqb_refl, !bool_decide_true by done. done.
Qed.

End cache.

(** ** Capacities *)

Lemma gte_capacity_in_spec l d :
  (In (gte_capacity_in l d) l /\ (d < gte_capacity_in l d)%Z /\
     exists l1 l2, l = l1 ++ gte_capacity_in l d :: l2 /\ Forall (fun x => (x <= d)%Z) l1)
  \/ (gte_capacity_in l d = 2602722289%Z /\ Forall (fun x => (x <= d)%Z) l).
Proof.
  induction l as [|x l IH]; simpl; [by right|]. destruct (Z.ltb_spec d x) as [H|H].
  - left. split; [by left|]. split; [done|]. by exists [], l.
  - destruct IH as [(H1&H2&l1&l2&E&F)|[H1 H2]].
    + left. split; [by right|]. split; [done|]. exists (x :: l1), l2. split; [simpl; by f_equal|by constructor].
    + right. split; [done|]. by constructor.
Qed.

(** primality by trial division with 2, 3 and the numbers 6k-1, 6k+1 *)
Fixpoint no_divisor (fuel : nat) (d n : Z) : bool :=
  if (n <? d * d)%Z then true else
  match fuel with
  | O => false
  | S fuel => if (n mod d =? 0)%Z then false else if (n mod (d + 2) =? 0)%Z then false
              else no_divisor fuel (d + 6) n
  end.

Definition prime_test (n : Z) : bool :=
  negb (n mod 2 =? 0)%Z && negb (n mod 3 =? 0)%Z && no_divisor (Z.to_nat (Z.sqrt n)) 5 n.

Lemma mod_ndiv n d : (n mod d =? 0)%Z = false -> ~ (d | n)%Z.
Proof. intros H Hd. apply Z.eqb_neq in H. apply H. by apply Zdivide_mod. Qed.

Lemma ndiv_mul n d x : ~ (d | n)%Z -> (d | x)%Z -> ~ (x | n)%Z.
Proof. intros H Hd Hx. apply H. by etransitivity. Qed.

Lemma no_divisor_spec n : ~ (2 | n)%Z -> ~ (3 | n)%Z ->
  forall fuel d, (1 < d)%Z -> (d mod 6 = 5)%Z -> no_divisor fuel d n = true ->
  forall x, (d <= x)%Z -> (x * x <= n)%Z -> ~ (x | n)%Z.
Proof.
  intros N2 N3. induction fuel as [|fuel IH]; intros d Hd Hm H x Hx Hxn; cbn [no_divisor] in H;
    destruct (Z.ltb_spec n (d * d)) as [Hl|Hl]; try nia; try done.
  destruct (n mod d =? 0)%Z eqn:E1; [done|]. destruct (n mod (d + 2) =? 0)%Z eqn:E2; [done|].
  destruct (decide (d + 6 <= x)%Z) as [Hge|Hlt].
  - apply (IH (d + 6)%Z); try done; [lia|]. rewrite <- Hm. rewrite <- (Z_mod_plus_full d 1 6). f_equal.
  - assert (x = d \/ x = d + 1 \/ x = d + 2 \/ x = d + 3 \/ x = d + 4 \/ x = d + 5)%Z as C by lia.
    pose proof (Z.div_mod d 6 ltac:(lia)) as Ed. rewrite Hm in Ed.
    destruct C as [->|[->|[->|[->|[->| ->]]]]].
    + by apply mod_ndiv.
    + apply (ndiv_mul n 2); [done|]. exists (3 * (d / 6) + 3)%Z. lia.
    + by apply mod_ndiv.
    + apply (ndiv_mul n 2); [done|]. exists (3 * (d / 6) + 4)%Z. lia.
    + apply (ndiv_mul n 3); [done|]. exists (2 * (d / 6) + 3)%Z. lia.
    + apply (ndiv_mul n 2); [done|]. exists (3 * (d / 6) + 5)%Z. lia.
Qed.

Lemma prime_test_ok n : (1 < n)%Z -> prime_test n = true -> prime n.
Proof.
  intros Hn H. unfold prime_test in H. apply andb_prop in H as [H H5]. apply andb_prop in H as [H2 H3].
  apply negb_true_iff in H2, H3. apply mod_ndiv in H2, H3.
  assert (G : forall x, (1 < x)%Z -> (x * x <= n)%Z -> ~ (x | n)%Z).
  { intros x Hx Hxn. destruct (decide (5 <= x)%Z) as [|].
    - by eapply (no_divisor_spec n H2 H3 _ 5).
    - assert (x = 2 \/ x = 3 \/ x = 4)%Z as [->|[->| ->]] by lia; [done|done|].
      apply (ndiv_mul n 2); [done|]. by exists 2%Z. }
  apply prime_alt. split; [done|]. intros x Hx Hd. destruct (Z.le_gt_cases (x * x) n) as [Hle|Hgt].
  - apply (G x); [lia|done|done].
  - destruct Hd as [y Hy]. apply (G y); [nia|nia|]. exists x. lia.
Qed.

Lemma capacities_prime : Forall prime capacities.
Proof.
  assert (H : Forall (fun n => (1 < n)%Z /\ prime_test n = true) capacities).
  { apply Forall_forall. intros n Hn.
    assert (E : forallb (fun n => (1 <? n)%Z && prime_test n) capacities = true) by (vm_compute; reflexivity).
    rewrite forallb_forall in E. specialize (E n). rewrite <- elem_of_list_In in E. apply E, andb_prop in Hn as [H1 H2].
    split; [by apply Z.ltb_lt|done]. }
  eapply Forall_impl; [exact H|]. intros n [H1 H2]. by apply prime_test_ok.
Qed.
