(** * sort with uint32 indices (C36) *)

From stdpp Require Import list.
From Coq Require Import ZArith NArith Lia.
From Verif Require Import Base Tools SortProof WordSort.

Local Open Scope nat_scope.

Section sort.
Context {A : Type} (M : N) (cmp : A -> A -> bool).
Implicit Types xs ys : list A.

Lemma cmp_word_ok xs i j : i < length xs -> j < length xs -> cmp_word cmp xs (N.of_nat i) (N.of_nat j) = Some (cmp_at cmp xs i j).
Proof.
  intros Hi Hj. unfold cmp_word, at_word, cmp_at. rewrite !Nat2N.id.
  destruct (lookup_lt_is_Some_2 xs i Hi) as [a ->]. by destruct (lookup_lt_is_Some_2 xs j Hj) as [b ->].
Qed.

Lemma swap_word_ok xs i j : i < length xs -> j < length xs -> swap_word xs (N.of_nat i) (N.of_nat j) = Some (swap_at xs i j).
Proof.
  intros Hi Hj. unfold swap_word, at_word, swap_at. rewrite !Nat2N.id.
  destruct (lookup_lt_is_Some_2 xs i Hi) as [a ->]. by destruct (lookup_lt_is_Some_2 xs j Hj) as [b ->].
Qed.

Lemma ltb_of_nat i j : (N.of_nat i <? N.of_nat j)%N = (i <? j).
Proof. destruct (N.ltb_spec (N.of_nat i) (N.of_nat j)), (Nat.ltb_spec i j); lia. Qed.

Lemma sift_down_word_ok fuel : forall xs i n ys,
  n <= length xs -> (2 * N.of_nat n <= M)%N -> (2 * N.of_nat i + 1 < M)%N ->
  sift_down cmp fuel xs i n = Some ys -> sift_down_word M cmp fuel xs (N.of_nat i) (N.of_nat n) = SDone ys /\ length ys = length xs.
Proof.
  induction fuel as [|fuel IH]; intros xs i n ys Hn HM Hi E; [done|]. cbn [sift_down] in E. cbn [sift_down_word].
  set (l := 2 * i + 1) in *.
  assert (El : ((2 * N.of_nat i + 1) mod M)%N = N.of_nat l) by (rewrite N.mod_small by done; unfold l; lia). rewrite El, ltb_of_nat.
  destruct (Nat.ltb_spec l n) as [Hl|Hl]; [|by injection E as <-].
  assert (Er : ((N.of_nat l + 1) mod M)%N = N.of_nat (S l)) by (rewrite N.mod_small; lia). rewrite Er, ltb_of_nat.
  rewrite cmp_word_ok by lia.
  replace (if cmp_at cmp xs i l then N.of_nat l else N.of_nat i) with (N.of_nat (if cmp_at cmp xs i l then l else i)) by (by destruct (cmp_at cmp xs i l)).
  set (sw := if cmp_at cmp xs i l then l else i) in *. assert (Hsw : sw < n) by (unfold sw; destruct (cmp_at cmp xs i l); unfold l in *; lia).
  assert (Eb : (if S l <? n then cmp_word cmp xs (N.of_nat sw) (N.of_nat (S l)) else Some false) = Some ((S l <? n) && cmp_at cmp xs sw (S l))).
  { destruct (Nat.ltb_spec (S l) n); [|done]. by rewrite cmp_word_ok by lia. }
  rewrite Eb. cbn [andb].
  replace (if (S l <? n) && cmp_at cmp xs sw (S l) then N.of_nat (S l) else N.of_nat sw)
    with (N.of_nat (if (S l <? n) && cmp_at cmp xs sw (S l) then S l else sw)) by (by destruct ((S l <? n) && cmp_at cmp xs sw (S l))).
  set (w := if (S l <? n) && cmp_at cmp xs sw (S l) then S l else sw) in *.
  assert (Hw : w < n).
  { unfold w. destruct (Nat.ltb_spec (S l) n); [|done]. cbn [andb]. destruct (cmp_at cmp xs sw (S l)); lia. }
  assert (Ew : (N.of_nat w =? N.of_nat i)%N = (w =? i)) by (destruct (N.eqb_spec (N.of_nat w) (N.of_nat i)), (Nat.eqb_spec w i); lia).
  rewrite Ew. destruct (Nat.eqb_spec w i); [by injection E as <-|].
  rewrite swap_word_ok by (unfold l in *; lia). destruct (IH (swap_at xs i w) w n ys) as [X Y]; [by rewrite swap_at_length|done|lia|done|].
  rewrite swap_at_length in Y. done.
Qed.

Lemma make_heap_word_ok i : forall xs n ys, n <= length xs -> (2 * N.of_nat n <= M)%N -> (2 * N.of_nat i <= M)%N ->
  make_heap cmp i xs n = Some ys -> make_heap_word M cmp i xs (N.of_nat n) = SDone ys /\ length ys = length xs.
Proof.
  induction i as [|i IH]; intros xs n ys Hn HM Hi E; cbn [make_heap make_heap_word] in *; [by injection E as <-|].
  rewrite Nat2N.id. destruct (sift_down cmp (S n) xs i n) as [zs|] eqn:Es; [|done].
  destruct (sift_down_word_ok (S n) xs i n zs Hn HM ltac:(lia) Es) as [-> Hz].
  destruct (IH zs n ys ltac:(lia) HM ltac:(lia) E) as [-> Hy]. split; [done|lia].
Qed.

Lemma pop_heap_word_ok l : forall xs ys, l < length xs -> (2 * N.of_nat (length xs) <= M)%N ->
  pop_heap cmp l xs = Some ys -> pop_heap_word M cmp l xs = SDone ys.
Proof.
  induction l as [|l IH]; intros xs ys Hl HM E; cbn [pop_heap pop_heap_word] in *; [by injection E as <-|].
  change 0%N with (N.of_nat 0). rewrite swap_word_ok by lia.
  destruct (sift_down cmp (S (S l)) (swap_at xs (S l) 0) 0 (S l)) as [zs|] eqn:Es; [|done].
  destruct (sift_down_word_ok (S (S l)) (swap_at xs (S l) 0) 0 (S l) zs) as [X Y]; [rewrite swap_at_length; lia|lia|lia|done|].
  rewrite X. rewrite swap_at_length in Y. apply IH; [lia|by rewrite Y|done].
Qed.

Lemma sort_word_ok xs ys : (4 <= M)%N -> (2 * N.of_nat (length xs) <= M)%N -> heapsort cmp xs = Some ys -> sort_word M cmp xs = SDone ys.
Proof.
  intros M4 HM E. unfold heapsort in E. unfold sort_word. destruct xs as [|x0 xs0]; [by injection E as <-|].
  set (xs := x0 :: xs0) in *. assert (L1 : 1 <= length xs) by (unfold xs; cbn; lia).
  destruct (make_heap cmp (length xs / 2 + 1) xs (length xs)) as [zs|] eqn:Em; [|done].
  rewrite (N.mod_small (N.of_nat (length xs))) by lia.
  assert (Eh : N.to_nat ((N.of_nat (length xs) / 2 + 1) mod M) = length xs / 2 + 1).
  { change 2%N with (N.of_nat 2). rewrite <- Nat2N.inj_div. pose proof (Nat.div_le_upper_bound (length xs) 2 (length xs) ltac:(lia) ltac:(lia)).
    rewrite N.mod_small by lia. lia. }
  rewrite Eh.
  assert (Hh : length xs / 2 + 1 <= length xs \/ length xs = 1).
  { destruct (decide (length xs = 1)); [by right|]. left. pose proof (Nat.div_mod_eq (length xs) 2). lia. }
  destruct (make_heap_word_ok (length xs / 2 + 1) xs (length xs) zs) as [-> Hz]; [lia|lia| |done|].
  { destruct Hh as [Hh|Hh]; [lia|]. rewrite Hh. cbn. lia. }
  replace (N.to_nat ((N.of_nat (length xs) + M - 1) mod M)) with (length xs - 1).
  - apply pop_heap_word_ok; [lia|rewrite Hz; lia|done].
  - replace (N.of_nat (length xs) + M - 1)%N with (N.of_nat (length xs) - 1 + 1 * M)%N by lia.
    rewrite N.mod_add by lia. rewrite N.mod_small by lia. lia.
Qed.
End sort.

(** up to 2^31 elements no index wraps around and no access is outside the vector: the function with
    32-bit indices is the one of [C36_sort_sorts] *)
Theorem C36_sort_uint32 : forall (T : Type) (cmp : T -> T -> bool) (xs : list T),
  (N.of_nat (length xs) <= 2 ^ 31)%N ->
  exists ys, sort_word (2 ^ 32) cmp xs = SDone ys /\ heapsort cmp xs = Some ys /\ Permutation ys xs.
Proof.
  intros T cmp xs Hl. destruct (heapsort_perm cmp xs) as (ys&E&P). exists ys. split; [|done]. apply sort_word_ok; [done| |done].
  change (2 ^ 32)%N with (2 * 2 ^ 31)%N. lia.
Qed.

(** and so for every width of the indices *)
Theorem C36_sort_word : forall (M : N) (T : Type) (cmp : T -> T -> bool) (xs : list T),
  (4 <= M)%N -> (2 * N.of_nat (length xs) <= M)%N ->
  exists ys, sort_word M cmp xs = SDone ys /\ heapsort cmp xs = Some ys.
Proof. intros M T cmp xs M4 HM. destruct (heapsort_perm cmp xs) as (ys&E&P). exists ys. split; [by apply sort_word_ok|done]. Qed.

Example C36_uint32_case : sort_word (2 ^ 32) (fun x y : nat * Z => (snd y <? snd x)%Z) [(0, 3%Z); (1, 7%Z); (2, 3%Z); (3, 9%Z); (4, 7%Z)]
  = SDone [(3, 9%Z); (4, 7%Z); (1, 7%Z); (2, 3%Z); (0, 3%Z)].
Proof. by vm_compute. Qed.

(** the bound is sharp: indices of 3 bits and one element more than a half of 8; the two
    exchanges of a node with its second son undo each other for ever *)
Example C36_word_sharp : sort_word 8 Nat.ltb [1; 2; 3; 4] = SDone [1; 2; 3; 4] /\ sort_word 8 Nat.ltb [3; 1; 0; 0; 2] = SFuel.
Proof. by vm_compute. Qed.

Example C36_word_sharp_forever : forall fuel, sift_down_word 8 Nat.ltb fuel [3; 1; 0; 0; 2] 1 5 = SFuel.
Proof.
  intros fuel. enough (sift_down_word 8 Nat.ltb fuel [3; 1; 0; 0; 2] 1 5 = SFuel /\ sift_down_word 8 Nat.ltb fuel [3; 2; 0; 0; 1] 4 5 = SFuel) by tauto.
  induction fuel as [|fuel [IH1 IH2]]; [done|]. split; [exact IH2|exact IH1].
Qed.

Print Assumptions C36_sort_uint32.
Print Assumptions C36_sort_word.
