(** * The constructor: the initial state satisfies the invariant *)

From stdpp Require Import gmap list.
From Coq Require Import ZArith Lia.
From Verif Require Import Base Ops Tables NodeManager Tools Sift DiagramManager World.
From Verif Require Import Heap Inv InvLemmas Prim TabLemmas GC Make Build Apply Api Fold WorldSpec WorldProof.

Local Open Scope nat_scope.

(** ** The reverse mapping *)

Lemma fill_levels_spec order : forall k i2l i2l',
  fill_levels k order i2l = Some i2l' -> NoDup order ->
  length i2l' = length i2l /\
  (forall x, x ∈ order -> (0 <= x < Z.of_nat (length i2l))%Z) /\
  (forall j x, order !! j = Some x -> i2l' !! Z.to_nat x = Some (k + j)) /\
  (forall i, Z.of_nat i ∉ order -> i2l' !! i = i2l !! i).
Proof.
  induction order as [|x order IH]; simpl; intros k i2l i2l' H ND.
  - simplify_eq. split_and!; auto; intros; set_solver.
  - destruct ((x <? 0)%Z || (Z.of_nat (length i2l) <=? x)%Z) eqn:E; [done|].
    apply orb_false_iff in E as [E1 E2]. apply Z.ltb_ge in E1. apply Z.leb_gt in E2.
    inversion ND as [|?? Hx ND']; subst.
    destruct (IH _ _ _ H ND') as (L&R&P&O). rewrite insert_length in L, R. split_and!.
    + done.
    + intros y Hy. apply elem_of_cons in Hy as [->|Hy]; [lia|auto].
    + intros [|j] y Hy; simpl in Hy.
      * simplify_eq. rewrite O by (rewrite Z2Nat.id by lia; done).
        rewrite list_lookup_insert by lia. f_equal; lia.
      * rewrite (P j y Hy). f_equal; lia.
    + intros i Hi. rewrite O by set_solver. apply list_lookup_insert_ne. intros <-.
      apply Hi. rewrite Z2Nat.id by lia. set_solver.
Qed.

Lemma fill_levels_ok order : forall k i2l,
  (forall x, x ∈ order -> (0 <= x < Z.of_nat (length i2l))%Z) ->
  is_Some (fill_levels k order i2l).
Proof.
  induction order as [|x order IH]; simpl; intros k i2l H; [eauto|].
  pose proof (H x ltac:(set_solver)).
  rewrite (proj2 (Z.ltb_ge _ _)), (proj2 (Z.leb_gt _ _)) by lia. simpl.
  apply IH. intros y Hy. rewrite insert_length. apply H. set_solver.
Qed.

Lemma fill_levels_range order : forall k i2l i2l',
  fill_levels k order i2l = Some i2l' -> forall x, x ∈ order -> (0 <= x < Z.of_nat (length i2l))%Z.
Proof.
  induction order as [|x order IH]; simpl; intros k i2l i2l' H y Hy; [set_solver|].
  destruct ((x <? 0)%Z || (Z.of_nat (length i2l) <=? x)%Z) eqn:E; [done|].
  apply orb_false_iff in E as [E1 E2]. apply Z.ltb_ge in E1. apply Z.leb_gt in E2.
  apply elem_of_cons in Hy as [->|Hy]; [lia|].
  specialize (IH _ _ _ H y Hy). rewrite insert_length in IH. lia.
Qed.

(** ** check_distinct *)

Lemma check_bits_true l : forall bits, check_bits bits l = Some true ->
  NoDup l /\ forall x, x ∈ l -> (0 <= x)%Z /\ bits !! Z.to_nat x = Some false.
Proof.
  induction l as [|x l IH]; simpl; intros bits H.
  - split; [constructor|set_solver].
  - destruct (Z.ltb_spec x 0); [done|].
    destruct (bits !! Z.to_nat x) as [[]|] eqn:E; try done.
    destruct (IH _ H) as [ND P]. split.
    + constructor; [|done]. intros Hx. destruct (P x Hx) as [_ Q].
      rewrite list_lookup_insert in Q; [done|]. by eapply lookup_lt_Some.
    + intros y Hy. apply elem_of_cons in Hy as [->|Hy]; [done|]. destruct (P y Hy) as [Q1 Q2].
      split; [done|]. destruct (decide (Z.to_nat x = Z.to_nat y)) as [Eq|Ne].
      * rewrite Eq, list_lookup_insert in Q2; [done|]. rewrite <- Eq. by eapply lookup_lt_Some.
      * by rewrite list_lookup_insert_ne in Q2.
Qed.

Lemma check_bits_ok l : forall bits, NoDup l ->
  (forall x, x ∈ l -> (0 <= x)%Z /\ bits !! Z.to_nat x = Some false) -> check_bits bits l = Some true.
Proof.
  induction l as [|x l IH]; simpl; intros bits ND H; [done|].
  inversion ND as [|?? Hx ND']; subst. destruct (H x ltac:(set_solver)) as [Q1 Q2].
  rewrite (proj2 (Z.ltb_ge _ _)) by lia. rewrite Q2. apply IH; [done|].
  intros y Hy. destruct (H y ltac:(set_solver)) as [Q3 Q4]. split; [done|].
  rewrite list_lookup_insert_ne; [done|]. intros E. assert (x = y) as -> by lia. done.
Qed.

Lemma fold_max_ge l : forall x, (x <= fold_left Z.max l x)%Z /\ forall y, y ∈ l -> (y <= fold_left Z.max l x)%Z.
Proof.
  induction l as [|z l IH]; simpl; intros x; [split; [lia|set_solver]|].
  destruct (IH (Z.max x z)) as [A B]. split; [lia|].
  intros y Hy. apply elem_of_cons in Hy as [->|Hy]; [lia|auto].
Qed.

Lemma check_distinct_ok l : NoDup l -> (forall x, x ∈ l -> (0 <= x)%Z) -> check_distinct l = Some true.
Proof.
  destruct l as [|x l]; [done|]. intros ND H. unfold check_distinct. apply check_bits_ok; [done|].
  intros y Hy. split; [by apply H|]. apply lookup_replicate_2.
  destruct (fold_max_ge l x) as [A B]. pose proof (H x ltac:(set_solver)). pose proof (H y Hy).
  apply elem_of_cons in Hy as [->|Hy]; [lia|]. specialize (B y Hy). lia.
Qed.

Lemma check_distinct_NoDup l : check_distinct l = Some true -> NoDup l.
Proof. destruct l; [constructor|]. intros H. by apply check_bits_true in H as []. Qed.

(** ** Permutations of the indices *)

Lemma is_order_NoDup n order : is_order n order -> NoDup order.
Proof.
  intros P. rewrite P. apply NoDup_fmap_2_strong; [|apply NoDup_seq]. intros; lia.
Qed.
Lemma is_order_length n order : is_order n order -> length order = n.
Proof. intros P. rewrite P, map_length, seq_length. done. Qed.
Lemma is_order_elem n order x : is_order n order -> x ∈ order <-> (0 <= x < Z.of_nat n)%Z.
Proof.
  intros P. rewrite P. rewrite elem_of_list_In, in_map_iff. split.
  - intros (i&<-&Hi). apply in_seq in Hi. lia.
  - intros H. exists (Z.to_nat x). split; [lia|]. apply in_seq. lia.
Qed.
Lemma is_order_intro n order :
  NoDup order -> length order = n -> (forall x, x ∈ order -> (0 <= x < Z.of_nat n)%Z) -> is_order n order.
Proof.
  intros ND L H. unfold is_order. apply NoDup_Permutation_bis.
  - by apply NoDup_ListNoDup.
  - rewrite map_length, seq_length. lia.
  - intros x Hx. apply elem_of_list_In, H in Hx. apply in_map_iff. exists (Z.to_nat x).
    split; [lia|]. apply in_seq. lia.
Qed.

Lemma default_order n : is_order n (default_or_fwd n []).
Proof. unfold is_order. done. Qed.

Section ctor.
Context (c : cfg) (opsem : Z -> option (Z -> Z -> Z)) (strict : bool).

Notation construct := (construct c).

Lemma construct_ok order main extra cc caps f r s0 :
  is_order (nvars c) order ->
  exists i2l, construct order main extra cc caps f r s0 =
    Ok tt (St ∅ (map tab_new caps) [] [] (cache_new cc) (pool_new main extra)
              (map Z.to_nat order) i2l 0 230 f r false false) /\
    length i2l = nvars c /\
    forall l i, map Z.to_nat order !! l = Some i <-> i2l !! i = Some l.
Proof.
  intros P. pose proof (is_order_NoDup _ _ P) as ND. pose proof (is_order_length _ _ P) as L.
  destruct (fill_levels_ok order 0 (replicate (nvars c) 0)) as [i2l Hi].
  { intros x Hx. rewrite replicate_length. by apply (is_order_elem _ _ _ P). }
  destruct (fill_levels_spec _ _ _ _ Hi ND) as (L'&R&Q&_). rewrite replicate_length in L', R.
  exists i2l. split_and!; [|done|].
  - unfold NodeManager.construct. rewrite L, Nat.eqb_refl, andb_false_r, Hi.
    destruct (c_dbg c); [|done]. rewrite check_distinct_ok; [done|done|]. intros x Hx. specialize (R x Hx). lia.
  - intros l i. split.
    + rewrite list_lookup_fmap. destruct (order !! l) as [x|] eqn:E; simpl; [|done]. intros [= <-].
      by apply (Q l x) in E.
    + intros H. assert (Hx : Z.of_nat i ∈ order).
      { apply (is_order_elem _ _ _ P). apply lookup_lt_Some in H. lia. }
      apply elem_of_list_lookup in Hx as [j Hj]. pose proof (Q _ _ Hj) as E.
      rewrite Nat2Z.id in E. simpl in E. rewrite H in E. simplify_eq.
      rewrite list_lookup_fmap, Hj. simpl. by rewrite Nat2Z.id.
Qed.

Lemma construct_only order main extra cc caps f r s0 s :
  c_dbg c = true -> construct order main extra cc caps f r s0 = Ok tt s -> is_order (nvars c) order.
Proof.
  unfold NodeManager.construct. intros ->. simpl.
  destruct (Nat.eqb_spec (length order) (nvars c)) as [L|]; simpl; [|done].
  destruct (check_distinct order) as [[]|] eqn:E; try done.
  destruct (fill_levels 0 order _) as [i2l|] eqn:Fl; [|done]. intros _.
  apply is_order_intro; [by apply check_distinct_NoDup|done|].
  intros x Hx. pose proof (fill_levels_range _ _ _ _ Fl x Hx) as R. by rewrite replicate_length in R.
Qed.

(** ** The invariant *)

Lemma gte_pos d : (0 < get_gte_capacity d)%Z.
Proof.
  assert (H : forall l, Forall (fun x => (0 < x)%Z) l -> (0 < gte_capacity_in l d)%Z).
  { induction l as [|x l IH]; simpl; intros F; [lia|]. inversion F; subst. destruct (d <? x)%Z; auto. }
  apply H. unfold capacities. repeat (constructor; [lia|]). constructor.
Qed.

Local Opaque get_gte_capacity.

Lemma concat_replicate_nil {A} n : concat (replicate n ([] : list A)) = [].
Proof. induction n; simpl; auto. Qed.

Definition g_init (i2l : list nat) : ghost :=
  Ghost (fun _ => 0) [] [] 0 (fun i => nth i i2l 0) CValid true.

Lemma init_calm order main extra cc caps f r i2l :
  is_order (nvars c) order -> length i2l = nvars c ->
  (forall l i, map Z.to_nat order !! l = Some i <-> i2l !! i = Some l) ->
  length caps = nvars c -> (0 <= main)%Z -> (0 <= extra)%Z ->
  (strict = true -> (1 <= extra)%Z /\ forall n, (main <= n)%Z -> (1 <= f n)%Z) ->
  calm c opsem strict (g_init i2l)
    (St ∅ (map tab_new caps) [] [] (cache_new cc) (pool_new main extra)
              (map Z.to_nat order) i2l 0 230 f r false false).
Proof.
  intros P L Inv Lc Hm He Hs.
  assert (Hl : forall a, live (∅ : gmap positive node) a = None) by (intros; unfold live; by rewrite lookup_empty).
  assert (Hlv : forall i, i < nvars c -> nth i i2l 0 < nvars c).
  { intros i Hi. destruct (lookup_lt_is_Some_2 i2l i) as [l Hl']; [lia|].
    rewrite (nth_lookup_Some _ _ _ _ Hl'). apply Inv in Hl'. apply lookup_lt_Some in Hl'.
    rewrite map_length, (is_order_length _ _ P) in Hl'. done. }
  constructor; try reflexivity; try (by split).
  - constructor; simpl; try (by intros ??; rewrite Hl); try (by intros ???; rewrite Hl); try (by intros ??%elem_of_nil).
    + done.
    + by rewrite map_length.
    + intros i t Ht. rewrite list_lookup_fmap in Ht. destruct (caps !! i) as [cap|]; simpl in Ht; [|done].
      simplify_eq. pose proof (gte_pos cap). unfold tab_ok. simpl. split_and!.
      * lia.
      * unfold empty_buckets. by rewrite replicate_length.
      * intros b chain Hb. apply lookup_replicate in Hb as [-> _]. split; [constructor|].
        intros a. split; [set_solver|]. intros (_&sons&Hs'&_). by rewrite Hl in Hs'.
      * unfold empty_buckets. by rewrite concat_replicate_nil.
    + intros a H. by rewrite Hl in H.
    + intros a n. by rewrite lookup_empty.
    + intros a H. lia.
    + unfold pool_new. constructor; cbn [p_avail p_free p_left p_next p_main p_extra length].
      * lia.
      * constructor.
      * intros a Ha. by apply elem_of_nil in Ha.
      * intros a n Ha. by rewrite lookup_empty in Ha.
      * intros a n Ha. by rewrite lookup_empty in Ha.
      * done.
      * lia.
    + exact Hs.
    + done.
    + pose proof (gte_pos cc). unfold cache_ok. simpl. split_and!; [lia|by rewrite replicate_length|].
      intros k e Hk. apply lookup_replicate in Hk as [? _]. done.
    + intros. split; intros; rewrite Hl in *; done.
  - split.
    + constructor; simpl; [|done|done]. rewrite map_length. by apply is_order_length.
    + simpl. intros i Hi. destruct (lookup_lt_is_Some_2 i2l i) as [l Hl']; [lia|].
      by rewrite (nth_lookup_Some _ _ _ _ Hl').
Qed.

End ctor.
