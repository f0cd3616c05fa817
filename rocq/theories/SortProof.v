(** * Heapsort *)

From stdpp Require Import list.
From Coq Require Import ZArith Lia.
From Verif Require Import Base Tools.

Local Open Scope nat_scope.

Section sort.
Context {A : Type} (cmp : A -> A -> bool).
Implicit Types xs ys : list A.

(** ** Exchanging two elements *)

Lemma swap_at_length xs i j : length (swap_at xs i j) = length xs.
Proof. unfold swap_at. destruct (xs !! i), (xs !! j); rewrite ?insert_length; done. Qed.

Definition transp (i j k : nat) : nat := if decide (k = i) then j else if decide (k = j) then i else k.

Lemma swap_at_lookup xs i j k : i < length xs -> j < length xs ->
  swap_at xs i j !! k = xs !! transp i j k.
Proof.
  intros Hi Hj. unfold swap_at, transp.
  destruct (lookup_lt_is_Some_2 xs i Hi) as [a Ha]. destruct (lookup_lt_is_Some_2 xs j Hj) as [b Hb].
  rewrite Ha, Hb. destruct (decide (k = i)) as [->|].
  - rewrite list_lookup_insert by (by rewrite insert_length). done.
  - rewrite list_lookup_insert_ne by done. destruct (decide (k = j)) as [->|].
    + by rewrite list_lookup_insert.
    + by rewrite list_lookup_insert_ne.
Qed.

Lemma swap_at_perm xs i j : swap_at xs i j ≡ₚ xs.
Proof.
  destruct (decide (i < length xs)) as [Hi|Hi], (decide (j < length xs)) as [Hj|Hj].
  - apply Permutation_inj. split; [by rewrite swap_at_length|]. exists (transp i j). split.
    + intros p q. unfold transp. repeat destruct (decide _); congruence.
    + intros k. by apply swap_at_lookup.
  - unfold swap_at. rewrite (lookup_ge_None_2 xs j) by lia. by destruct (xs !! i).
  - unfold swap_at. rewrite (lookup_ge_None_2 xs i) by lia. done.
  - unfold swap_at. rewrite (lookup_ge_None_2 xs i) by lia. done.
Qed.

Lemma cmp_at_swap xs i j p q : i < length xs -> j < length xs ->
  cmp_at cmp (swap_at xs i j) p q = cmp_at cmp xs (transp i j p) (transp i j q).
Proof. intros. unfold cmp_at. by rewrite !swap_at_lookup. Qed.

(** ** Only elements below [size] move *)

Definition moves (n : nat) xs ys : Prop :=
  ys ≡ₚ xs /\ (forall j, n <= j -> ys !! j = xs !! j) /\
  forall j, j < n -> exists j', j' < n /\ ys !! j = xs !! j'.

Lemma moves_refl n xs : moves n xs xs.
Proof. split_and!; eauto. Qed.
Lemma moves_trans n xs ys zs : moves n xs ys -> moves n ys zs -> moves n xs zs.
Proof.
  intros (P1&H1&J1) (P2&H2&J2). split_and!.
  - by rewrite P2.
  - intros j Hj. rewrite H2, H1 by done. done.
  - intros j Hj. destruct (J2 j Hj) as (j'&Hj'&E). destruct (J1 j' Hj') as (j''&?&?). exists j''. split; [done|congruence].
Qed.
Lemma moves_swap n xs i j : n <= length xs -> i < n -> j < n -> moves n xs (swap_at xs i j).
Proof.
  intros Hn Hi Hj. split_and!; [apply swap_at_perm| |].
  - intros k Hk. rewrite swap_at_lookup by lia. unfold transp. by rewrite !decide_False by lia.
  - intros k Hk. exists (transp i j k). rewrite swap_at_lookup by lia. split; [|done].
    unfold transp. repeat destruct (decide _); lia.
Qed.
Lemma moves_length n xs ys : moves n xs ys -> length ys = length xs.
Proof. intros (P&_). by rewrite P. Qed.

Lemma sift_down_moves fuel : forall xs i n, n <= length xs -> 0 < fuel -> n < fuel + i ->
  exists ys, sift_down cmp fuel xs i n = Some ys /\ moves n xs ys.
Proof.
  induction fuel as [|fuel IH]; intros xs i n Hn H0 Hf; [lia|].
  cbn [sift_down]. destruct (Nat.ltb_spec (2 * i + 1) n) as [Hl|Hl]; [|eauto using moves_refl].
  set (s1 := if cmp_at cmp xs i (2 * i + 1) then 2 * i + 1 else i).
  set (s2 := if (S (2 * i + 1) <? n) && cmp_at cmp xs s1 (S (2 * i + 1)) then S (2 * i + 1) else s1).
  assert (Hs2 : s2 = i \/ i < s2 < n).
  { unfold s2, s1. destruct (Nat.ltb_spec (S (2 * i + 1)) n); simpl; repeat case_match; lia. }
  destruct (Nat.eqb_spec s2 i) as [->|Hne]; [eauto using moves_refl|].
  destruct (IH (swap_at xs i s2) s2 n) as (ys&->&M).
  - by rewrite swap_at_length.
  - lia.
  - lia.
  - exists ys. split; [done|]. eapply moves_trans; [|exact M]. apply moves_swap; lia.
Qed.

Lemma make_heap_moves i : forall xs n, n = length xs ->
  exists ys, make_heap cmp i xs n = Some ys /\ moves n xs ys.
Proof.
  induction i as [|i IH]; intros xs n Hn; cbn [make_heap]; [eauto using moves_refl|].
  destruct (sift_down_moves (S n) xs i n) as (ys&->&M); [lia|lia|lia|].
  destruct (IH ys n) as (zs&->&M'); [by rewrite (moves_length _ _ _ M)|].
  exists zs. split; [done|]. by eapply moves_trans.
Qed.

Lemma pop_heap_perm l : forall xs, l < length xs -> exists ys, pop_heap cmp l xs = Some ys /\ ys ≡ₚ xs.
Proof.
  induction l as [|l IH]; intros xs Hl; cbn [pop_heap]; [eauto|].
  destruct (sift_down_moves (S (S l)) (swap_at xs (S l) 0) 0 (S l)) as (ys&->&M); [rewrite swap_at_length; lia|lia|lia|].
  destruct (IH ys) as (zs&->&P).
  - rewrite (moves_length _ _ _ M), swap_at_length. lia.
  - exists zs. split; [done|]. rewrite P. destruct M as (->&_). apply swap_at_perm.
Qed.

(** the procedure terminates and permutes, whatever the comparator does *)
Lemma heapsort_perm xs : exists ys, heapsort cmp xs = Some ys /\ ys ≡ₚ xs.
Proof.
  unfold heapsort. destruct xs as [|x xs']; [eauto|]. set (xs := x :: xs').
  destruct (make_heap_moves (length xs / 2 + 1) xs (length xs) eq_refl) as (ys&->&M).
  destruct (pop_heap_perm (length xs - 1) ys) as (zs&->&P).
  - rewrite (moves_length _ _ _ M). simpl. lia.
  - exists zs. split; [done|]. rewrite P. apply M.
Qed.

(** ** Order *)

(** strict weak order *)
Record weak_order : Prop := {
  wo_irrefl : forall a, cmp a a = false;
  wo_asym : forall a b, cmp a b = true -> cmp b a = false;
  wo_ntrans : forall a b d, cmp a b = false -> cmp b d = false -> cmp a d = false
}.

Context (WO : weak_order).

Lemma at_irrefl xs i : cmp_at cmp xs i i = false.
Proof. unfold cmp_at. destruct (xs !! i); [apply WO|done]. Qed.
Lemma at_asym xs i j : cmp_at cmp xs i j = true -> cmp_at cmp xs j i = false.
Proof. unfold cmp_at. destruct (xs !! i), (xs !! j); try done. apply WO. Qed.
Lemma at_ntrans xs i j k : j < length xs -> cmp_at cmp xs i j = false -> cmp_at cmp xs j k = false -> cmp_at cmp xs i k = false.
Proof.
  intros Hj. unfold cmp_at. destruct (lookup_lt_is_Some_2 xs j Hj) as [b ->].
  destruct (xs !! i), (xs !! k); try done. apply WO.
Qed.

(** a parent from [k] on is not smaller than its children below [n] *)
Definition is_child (p ch : nat) : Prop := ch = 2 * p + 1 \/ ch = 2 * p + 2.
Definition heap (k n : nat) xs : Prop :=
  forall p ch, k <= p -> is_child p ch -> ch < n -> cmp_at cmp xs p ch = false.

Lemma sift_down_heap fuel : forall xs i n k, n <= length xs -> k <= i ->
  (forall p ch, k <= p -> p <> i -> is_child p ch -> ch < n -> cmp_at cmp xs p ch = false) ->
  (forall p ch, k <= p -> is_child p i -> is_child i ch -> ch < n -> cmp_at cmp xs p ch = false) ->
  forall ys, sift_down cmp fuel xs i n = Some ys -> heap k n ys.
Proof.
  induction fuel as [|fuel IH]; intros xs i n k Hn Hk H1 H2 ys E; [done|].
  cbn [sift_down] in E. destruct (Nat.ltb_spec (2 * i + 1) n) as [Hl|Hl].
  2:{ injection E as <-. intros p ch Hp Hc Hn'. destruct (decide (p = i)) as [->|]; [|by apply H1].
      unfold is_child in Hc. lia. }
  set (s1 := if cmp_at cmp xs i (2 * i + 1) then 2 * i + 1 else i) in E.
  set (s2 := if (S (2 * i + 1) <? n) && cmp_at cmp xs s1 (S (2 * i + 1)) then S (2 * i + 1) else s1) in E.
  (* s2 is a greatest one of the three *)
  assert (Hs2 : (s2 = i \/ is_child i s2 /\ s2 < n /\ cmp_at cmp xs i s2 = true) /\
    forall ch, is_child i ch -> ch < n -> cmp_at cmp xs s2 ch = false).
  { unfold s2, s1, is_child. destruct (cmp_at cmp xs i (2 * i + 1)) eqn:C1.
    - destruct (Nat.ltb_spec (S (2 * i + 1)) n) as [Hr|Hr]; cbn [andb].
      + destruct (cmp_at cmp xs (2 * i + 1) (S (2 * i + 1))) eqn:C2.
        * split.
          -- right. split_and!; [lia|lia|]. destruct (cmp_at cmp xs i (S (2 * i + 1))) eqn:C3; [done|].
             apply at_asym in C2. rewrite (at_ntrans xs i (S (2*i+1)) (2*i+1)) in C1; [done|lia|done|done].
          -- intros ch [->| ->] Hch; [by apply at_asym|].
             replace (2 * i + 2) with (S (2 * i + 1)) by lia. apply at_irrefl.
        * split; [right; split_and!; [lia|lia|done]|]. intros ch [->| ->] Hch; [apply at_irrefl|].
          replace (2 * i + 2) with (S (2 * i + 1)) by lia. done.
      + split; [right; split_and!; [lia|lia|done]|]. intros ch [->| ->] Hch; [apply at_irrefl|lia].
    - destruct (Nat.ltb_spec (S (2 * i + 1)) n) as [Hr|Hr]; cbn [andb].
      + destruct (cmp_at cmp xs i (S (2 * i + 1))) eqn:C2.
        * split; [right; split_and!; [lia|lia|done]|]. intros ch [->| ->] Hch.
          -- apply at_asym in C2. apply (at_ntrans xs _ i); [lia|done|done].
          -- replace (2 * i + 2) with (S (2 * i + 1)) by lia. apply at_irrefl.
        * split; [by left|]. intros ch [->| ->] Hch; [done|]. replace (2 * i + 2) with (S (2 * i + 1)) by lia. done.
      + split; [by left|]. intros ch [->| ->] Hch; [done|lia]. }
  destruct Hs2 as [Hs2 Hmax]. destruct (Nat.eqb_spec s2 i) as [Heq|Hne].
  - injection E as <-. intros p ch Hp Hc Hn'. destruct (decide (p = i)) as [->|]; [|by apply H1].
    rewrite <- Heq at 1. by apply Hmax.
  - destruct Hs2 as [|(Hch&Hs2n&Hlt)]; [done|].
    assert (Hi : i < n) by lia.
    apply (IH (swap_at xs i s2) s2 n k) in E; [done| | | |].
    + by rewrite swap_at_length.
    + unfold is_child in Hch. lia.
    + intros p ch Hp Hps Hc Hcn. rewrite cmp_at_swap by lia. unfold transp.
      destruct (decide (p = i)) as [->|Hpi].
      * destruct (decide (ch = i)) as [->|]; [unfold is_child in Hc; lia|].
        destruct (decide (ch = s2)) as [->|].
        -- by apply at_asym.
        -- by apply Hmax.
      * rewrite (decide_False (P := p = s2)) by done. destruct (decide (ch = i)) as [->|].
        -- by apply H2.
        -- rewrite decide_False; [by apply H1|]. intros ->. unfold is_child in *. lia.
    + intros p ch Hp Hc1 Hc2 Hcn. assert (p = i) as -> by (unfold is_child in *; lia).
      rewrite cmp_at_swap by lia. unfold transp. rewrite decide_True by done.
      rewrite !decide_False by (unfold is_child in *; lia). apply H1; unfold is_child in *; lia.
Qed.

Lemma make_heap_heap i : forall xs n ys, n = length xs -> heap i n xs -> make_heap cmp i xs n = Some ys -> heap 0 n ys.
Proof.
  induction i as [|i IH]; intros xs n ys Hn H E; cbn [make_heap] in E; [by injection E as <-|].
  destruct (sift_down_moves (S n) xs i n) as (zs&Ez&M); [lia|lia|lia|]. rewrite Ez in E.
  eapply (IH zs n ys); [by rewrite (moves_length _ _ _ M)| |exact E].
  eapply (sift_down_heap (S n) xs i n i); [lia|lia| | |exact Ez].
  - intros p ch Hp Hpi. apply H. lia.
  - intros p ch Hp Hc. unfold is_child in Hc. lia.
Qed.

Lemma heap_root n xs : n <= length xs -> heap 0 n xs -> forall j, j < n -> cmp_at cmp xs 0 j = false.
Proof.
  intros Hn H. induction j as [j IH] using lt_wf_ind. intros Hj.
  destruct (decide (j = 0)) as [->|Hne]; [apply at_irrefl|].
  assert (exists p, is_child p j /\ p < j) as (p&Hp&Hpj).
  { unfold is_child. destruct (Nat.Even_Odd_dec j) as [[q ->]|[q ->]]; [exists (q - 1)|exists q]; lia. }
  apply (at_ntrans xs 0 p j); [lia| |].
  - apply IH; lia.
  - apply H; [lia|done|done].
Qed.

Lemma pop_heap_sorted l : forall xs ys, l < length xs -> heap 0 (S l) xs ->
  (forall i j, i < j -> l < j -> cmp_at cmp xs j i = false) ->
  pop_heap cmp l xs = Some ys -> forall i j, i < j -> cmp_at cmp ys j i = false.
Proof.
  induction l as [|l IH]; intros xs ys Hl H S E; cbn [pop_heap] in E.
  - injection E as <-. intros i j Hij. apply S; lia.
  - set (xs1 := swap_at xs (Datatypes.S l) 0) in *.
    assert (Hl1 : length xs1 = length xs) by apply swap_at_length.
    destruct (sift_down_moves (Datatypes.S (Datatypes.S l)) xs1 0 (Datatypes.S l)) as (zs&Ez&M); [lia|lia|lia|].
    rewrite Ez in E.
    assert (S1 : forall i j, i < j -> l < j -> cmp_at cmp xs1 j i = false).
    { intros i j Hij Hlj. unfold xs1. rewrite cmp_at_swap by lia. unfold transp.
      destruct (decide (j = Datatypes.S l)) as [->|].
      - rewrite (decide_False (P := i = Datatypes.S l)) by lia. destruct (decide (i = 0)) as [->|].
        + apply (heap_root (Datatypes.S (Datatypes.S l))); [lia|done|lia].
        + apply (heap_root (Datatypes.S (Datatypes.S l))); [lia|done|lia].
      - rewrite (decide_False (P := j = 0)) by lia. destruct (decide (i = Datatypes.S l)) as [->|]; [apply S; lia|].
        destruct (decide (i = 0)) as [->|]; apply S; lia. }
    eapply (IH zs ys); [rewrite (moves_length _ _ _ M); lia| | |exact E].
    + eapply (sift_down_heap _ xs1 0 (Datatypes.S l) 0); [lia|lia| | |exact Ez].
      * intros p ch Hp Hp0 Hc Hch. unfold xs1. rewrite cmp_at_swap by lia. unfold transp.
        unfold is_child in Hc. rewrite !decide_False by lia. apply H; [lia|done|lia].
      * intros p ch Hp Hc. unfold is_child in Hc. lia.
    + intros i j Hij Hlj. destruct M as (_&Mh&Ml). unfold cmp_at.
      destruct (decide (j = l)) as [->|]; [lia|]. rewrite (Mh j) by lia.
      destruct (decide (i < Datatypes.S l)) as [Hi|Hi].
      * destruct (Ml i Hi) as (i'&Hi'&->). apply S1; lia.
      * rewrite (Mh i) by lia. apply S1; lia.
Qed.

Lemma heapsort_sorted xs ys : heapsort cmp xs = Some ys ->
  forall i j a b, i < j -> ys !! i = Some a -> ys !! j = Some b -> cmp b a = false.
Proof.
  intros E i j a b Hij Ha Hb.
  assert (X : cmp_at cmp ys j i = false); [|unfold cmp_at in X; by rewrite Hb, Ha in X].
  unfold heapsort in E. destruct xs as [|x xs']; [injection E as <-; unfold cmp_at; by rewrite lookup_nil|].
  set (xs := x :: xs') in *.
  destruct (make_heap_moves (length xs / 2 + 1) xs (length xs) eq_refl) as (zs&Ez&M). rewrite Ez in E.
  assert (Hz : length zs = length xs) by apply (moves_length _ _ _ M).
  assert (Hp : 0 < length xs) by (simpl; lia).
  eapply (pop_heap_sorted (length xs - 1) zs ys); [lia| | |exact E|exact Hij].
  - replace (S (length xs - 1)) with (length xs) by lia.
    apply (make_heap_heap (length xs / 2 + 1) xs (length xs) zs); [done| |exact Ez]. intros p ch Hp' Hc Hch. exfalso.
    pose proof (Nat.div_mod (length xs) 2 ltac:(lia)). pose proof (Nat.mod_upper_bound (length xs) 2 ltac:(lia)).
    unfold is_child in Hc. lia.
  - intros p q Hpq Hq. unfold cmp_at. rewrite (lookup_ge_None_2 zs q) by lia. done.
Qed.

End sort.
