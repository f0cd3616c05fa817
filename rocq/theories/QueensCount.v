(** * Assignments of the board and lists of columns *)

From stdpp Require Import gmap list.
From Coq Require Import ZArith Lia.
From Verif Require Import Base InvLemmas Heap Eval QueensSpec QueensProof.

Local Open Scope nat_scope.

Section count.
Context (n : nat).

Definition square (qs : list nat) (k : nat) : nat := if decide (qs !! (k / n) = Some (k mod n)) then 1 else 0.
Definition enc (qs : list nat) : list nat := map (square qs) (seq 0 (n * n)).

Lemma enc_length qs : length (enc qs) = n * n.
Proof. unfold enc. by rewrite map_length, seq_length. Qed.

Lemma enc_of_vals qs k : k < n * n -> of_vals (enc qs) k = square qs k.
Proof.
  intros Hk. unfold of_vals, enc. rewrite (nth_indep _ 0 (square qs 0)) by (by rewrite map_length, seq_length).
  rewrite map_nth, seq_nth by done. done.
Qed.

Lemma cell_div i j : j < n -> (i * n + j) / n = i /\ (i * n + j) mod n = j.
Proof.
  intros Hj. split.
  - rewrite Nat.div_add_l by lia. rewrite Nat.div_small by done. lia.
  - rewrite Nat.add_comm, Nat.mod_add by lia. by apply Nat.mod_small.
Qed.

Lemma square_cell qs i j : j < n -> square qs (i * n + j) = if decide (qs !! i = Some j) then 1 else 0.
Proof. intros Hj. unfold square. destruct (cell_div i j Hj) as [-> ->]. done. Qed.

Lemma board_enc qs i j : i < n -> j < n -> board n (of_vals (enc qs)) i j <-> qs !! i = Some j.
Proof.
  intros Hi Hj. unfold board. rewrite enc_of_vals by nia. rewrite square_cell by done.
  destruct (decide (qs !! i = Some j)); split; done.
Qed.

Lemma enc_placement qs : columns n qs -> placement n (board n (of_vals (enc qs))).
Proof.
  intros (Hl&Hb&Ha). split.
  - intros i j i' j' Hi Hj Hi' Hj' Q Q'. rewrite board_enc in Q, Q' by done. by eapply Ha.
  - intros i Hi. destruct (lookup_lt_is_Some_2 qs i) as [j Hj]; [lia|]. exists j. split; [by eapply Hb|]. rewrite board_enc by eauto. done.
Qed.

Lemma enc_inj qs qs' : columns n qs -> columns n qs' -> enc qs = enc qs' -> qs = qs'.
Proof.
  intros (Hl&Hb&_) (Hl'&_&_) E. apply list_eq_same_length with (n := n); [done|done|]. intros i x y Hi Hx Hy.
  assert (Hxn : x < n) by by eapply Hb. assert (B : board n (of_vals (enc qs)) i x) by by apply board_enc.
  rewrite E in B. apply board_enc in B; [|done|done]. congruence.
Qed.

(** the list of columns of an assignment *)
Definition row_of (rho : nat -> nat) (i : nat) : nat :=
  match list_find (fun j => rho (i * n + j) = 1) (seq 0 n) with Some (_, j) => j | None => 0 end.
Definition dec (rho : nat -> nat) : list nat := map (row_of rho) (seq 0 n).

Lemma row_of_board rho i : placement n (board n rho) -> i < n -> row_of rho i < n /\ board n rho i (row_of rho i).
Proof.
  intros [_ Hp] Hi. unfold row_of. destruct (list_find _ _) as [[k j]|] eqn:E.
  - apply list_find_Some in E as (Hk&Hj&_). apply elem_of_list_lookup_2, elem_of_seq in Hk. split; [lia|done].
  - apply list_find_None in E. destruct (Hp i Hi) as (j&Hj&Q). rewrite Forall_forall in E. destruct (E j); [|done]. apply elem_of_seq. lia.
Qed.

Lemma dec_lookup rho i j : dec rho !! i = Some j <-> i < n /\ j = row_of rho i.
Proof.
  unfold dec. rewrite list_lookup_fmap. split.
  - intros H. destruct (seq 0 n !! i) as [k|] eqn:E; [|done]. injection H as <-. apply lookup_seq in E as [-> E]. done.
  - intros [Hi ->]. rewrite lookup_seq_lt by done. done.
Qed.

Lemma dec_columns rho : placement n (board n rho) -> columns n (dec rho).
Proof.
  intros P. split; [|split].
  - unfold dec. by rewrite map_length, seq_length.
  - intros i j H. apply dec_lookup in H as [Hi ->]. by apply row_of_board.
  - intros i i' j j' H H'. apply dec_lookup in H as [Hi ->], H' as [Hi' ->].
    destruct (row_of_board rho i P Hi), (row_of_board rho i' P Hi'). by apply P.
Qed.

Lemma enc_dec vals : length vals = n * n -> (forall k, k < n * n -> of_vals vals k < 2) ->
  placement n (board n (of_vals vals)) -> enc (dec (of_vals vals)) = vals.
Proof.
  intros Hl Hb P. apply list_eq_same_length with (n := n * n); [done|apply enc_length|]. intros k x y Hk Hx Hy.
  rewrite of_vals_lookup in Hx by (by rewrite enc_length). rewrite of_vals_lookup in Hy by lia. injection Hx as <-. injection Hy as <-.
  rewrite enc_of_vals by done. assert (Hn : n <> 0) by nia. set (i := k / n). set (j := k mod n).
  assert (Ek : k = i * n + j) by (subst i j; rewrite (Nat.div_mod k n) at 1 by done; lia).
  assert (Hj : j < n) by (apply Nat.mod_upper_bound; done). assert (Hi : i < n) by (apply Nat.div_lt_upper_bound; done).
  specialize (Hb k Hk). rewrite Ek in *. rewrite square_cell by done. destruct (row_of_board _ i P Hi) as [Hr Br].
  destruct (decide _) as [E|E].
  - apply dec_lookup in E as [_ ->]. done.
  - destruct (decide (of_vals vals (i * n + j) = 1)) as [Q|Q]; [|lia]. exfalso. apply E, dec_lookup. split; [done|].
    destruct (decide (j = row_of (of_vals vals) i)) as [|Hne]; [done|]. exfalso.
    apply (proj1 P i j i (row_of (of_vals vals) i)); try done. unfold attacks. lia.
Qed.
End count.
