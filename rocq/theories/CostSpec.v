(** * Two families of functions and diagrams for them *)

From stdpp Require Import gmap list.
From Coq Require Import ZArith Lia.
From Verif Require Import Base Heap Inv QuerySpec.

Local Open Scope nat_scope.

(** the sum of the variables modulo 2 *)
Definition parity (n : nat) : asg -> Z := fun rho => Z.of_nat (list_sum (map rho (seq 0 n)) mod 2).
(** 1 if all variables are 1 *)
Definition conj_all (n : nat) : asg -> Z := fun rho => if forallb (fun i => rho i =? 1) (seq 0 n) then 1%Z else 0%Z.

Section diagrams.
Context (c : cfg) (order : list nat) (H2 : forall i, i < nvars c -> dom c i = 2) (P : Permutation order (seq 0 (nvars c))).
Notation n := (nvars c).

Definition cell (m : nat) : positive := Pos.of_succ_nat m.
Definition code (p : positive) : nat := Nat.pred (Pos.to_nat p).
Lemma code_cell m : code (cell m) = m.
Proof. unfold code, cell. by rewrite SuccNat2Pos.id_succ. Qed.
Lemma cell_code p : cell (code p) = p.
Proof. unfold code, cell. pose proof (Pos2Nat.is_pos p). rewrite Pos.of_nat_succ, Nat.succ_pred by lia. apply Pos2Nat.id. Qed.

Lemma order_len : length order = n.
Proof. by rewrite (Permutation_length P), seq_length. Qed.
Lemma order_at l : l < n -> exists i, order !! l = Some i /\ i < n.
Proof.
  intros Hl. destruct (lookup_lt_is_Some_2 order l) as [i Hi]; [by rewrite order_len|]. exists i. split; [done|].
  assert (i ∈ seq 0 n) as X by (rewrite <- P; by eapply elem_of_list_lookup_2). apply elem_of_seq in X. lia.
Qed.

(** ** Parity: two nodes on every level but the first; cell 2l+b of level l has the parity b so far *)
Definition parity_diagram (p : positive) : option body :=
  let l := code p / 2 in let b := code p mod 2 in
  match order !! l with
  | Some i => Some (Int i [cell (2 * S l + b); cell (2 * S l + (1 - b))])
  | None => Some (Term (Z.of_nat b))
  end.
Definition parity_cells : list positive := map cell (0 :: seq 2 (2 * n)).

Lemma code2 l b : b < 2 -> code (cell (2 * l + b)) / 2 = l /\ code (cell (2 * l + b)) mod 2 = b.
Proof.
  intros Hb. rewrite code_cell. split.
  - rewrite (Nat.mul_comm 2 l), Nat.div_add_l by lia. rewrite Nat.div_small by done. lia.
  - rewrite Nat.add_comm, (Nat.mul_comm 2 l), Nat.mod_add by lia. by apply Nat.mod_small.
Qed.

Lemma parity_value k : forall l b rho, k = n - l -> l <= n -> b < 2 -> valid c rho ->
  Ev parity_diagram (cell (2 * l + b)) rho (Z.of_nat ((b + list_sum (map rho (drop l order))) mod 2)).
Proof.
  induction k as [|k IH]; intros l b rho Hk Hl Hb Hv; destruct (code2 l b Hb) as [C1 C2].
  - assert (l = n) as -> by lia. rewrite drop_ge by (rewrite order_len; lia). change (list_sum (map rho [])) with 0. rewrite Nat.add_0_r.
    rewrite Nat.mod_small by done. apply Ev_term. unfold parity_diagram. rewrite C1, C2.
    by rewrite lookup_ge_None_2 by (rewrite order_len; lia).
  - destruct (order_at l ltac:(lia)) as (i&Hi&Hin). rewrite (drop_S _ _ _ Hi). cbn [map list_sum fold_right].
    pose proof (Hv i Hin) as Hri. rewrite (H2 i Hin) in Hri.
    assert (E : parity_diagram (cell (2 * l + b)) = Some (Int i [cell (2 * S l + b); cell (2 * S l + (1 - b))])).
    { unfold parity_diagram. by rewrite C1, C2, Hi. }
    destruct (rho i) as [|[|]] eqn:Er; [| |lia].
    + eapply Ev_int; [exact E|by rewrite Er|]. apply IH; [lia|lia|done|done].
    + eapply Ev_int; [exact E|by rewrite Er|].
      replace ((b + (1 + fold_right Nat.add 0 (map rho (drop (S l) order)))) mod 2) with (((1 - b) + list_sum (map rho (drop (S l) order))) mod 2).
      * apply IH; [lia|lia|lia|done].
      * change (fold_right Nat.add 0) with list_sum. destruct b as [|[|]]; [| |lia].
        -- f_equal.
        -- replace (1 + (1 + list_sum (map rho (drop (S l) order)))) with (list_sum (map rho (drop (S l) order)) + 1 * 2) by lia.
           rewrite Nat.mod_add by lia. f_equal.
Qed.

Lemma parity_ordered F : fun_eq c F (parity n) -> ordered_diagram c order parity_diagram (cell 0) F.
Proof.
  intros EF. constructor.
  - intros x i sons _ E. unfold parity_diagram in E. destruct (order !! (code x / 2)) as [i'|] eqn:Eo; [|done]. assert (sons = [cell (2 * S (code x / 2) + code x mod 2); cell (2 * S (code x / 2) + (1 - code x mod 2))]) as -> by congruence. assert (i' = i) as -> by congruence. clear E.
    assert (Hin : i < n).
    { pose proof (lookup_lt_Some _ _ _ Eo) as X. rewrite order_len in X. destruct (order_at _ X) as (j&Ej&?). congruence. }
    split; [done|]. split; [by rewrite H2|]. intros y j ss Hy Ey. exists (code x / 2), (S (code x / 2)). split; [done|]. split; [|lia].
    assert (Hb : code x mod 2 < 2) by (apply Nat.mod_upper_bound; lia).
    assert (code y / 2 = S (code x / 2)) as Hl.
    { apply elem_of_cons in Hy as [->|Hy]; [by apply code2|]. apply elem_of_list_singleton in Hy as ->. apply code2. lia. }
    unfold parity_diagram in Ey. rewrite Hl in Ey. destruct (order !! S (code x / 2)); [by injection Ey as ->|done].
  - intros rho Hv. rewrite (EF rho Hv). unfold parity.
    pose proof (parity_value n 0 0 rho ltac:(lia) ltac:(lia) ltac:(lia) Hv) as X. rewrite drop_0 in X. change (2 * 0 + 0) with 0 in X. rewrite Nat.add_0_l in X.
    assert (list_sum (map rho (seq 0 n)) = list_sum (map rho order)) as -> by (apply Permutation_list_sum; symmetry; by apply Permutation_map).
    exact X.
Qed.

Lemma parity_reach y : reach parity_diagram (cell 0) y -> y ∈ parity_cells.
Proof.
  assert (G : forall x y, reach parity_diagram x y -> (code x = 0 \/ 2 <= code x < 2 + 2 * n) -> code y = 0 \/ 2 <= code y < 2 + 2 * n).
  { intros x z H. induction H as [x|x z w i sons E Hz _ IH]; [done|]. intros Hx. apply IH. right.
    unfold parity_diagram in E. destruct (order !! (code x / 2)) as [j|] eqn:Eo; [|done]. assert (sons = [cell (2 * S (code x / 2) + code x mod 2); cell (2 * S (code x / 2) + (1 - code x mod 2))]) as -> by congruence. assert (j = i) as -> by congruence. clear E.
    apply lookup_lt_Some in Eo. rewrite order_len in Eo. assert (code x mod 2 < 2) by (apply Nat.mod_upper_bound; lia).
    apply elem_of_cons in Hz as [->|Hz]; [rewrite code_cell; lia|]. apply elem_of_list_singleton in Hz as ->. rewrite code_cell. lia. }
  intros H. unfold parity_cells. rewrite <- (cell_code y). apply elem_of_list_In, in_map, elem_of_list_In.
  destruct (G _ _ H ltac:(left; apply code_cell)) as [->|?]; [by left|]. right. apply elem_of_seq. lia.
Qed.

Lemma parity_size : length parity_cells = 2 * n + 1.
Proof. unfold parity_cells. rewrite map_length. cbn [length]. rewrite seq_length. lia. Qed.

(** ** Conjunction: a node on every level *)
Definition conj_diagram (p : positive) : option body :=
  match order !! code p with
  | Some i => Some (Int i [cell (S n); cell (S (code p))])
  | None => Some (Term (if code p =? n then 1%Z else 0%Z))
  end.
Definition conj_cells : list positive := map cell (seq 0 (n + 2)).

Lemma conj_value k : forall l rho, k = n - l -> l <= n -> valid c rho ->
  Ev conj_diagram (cell l) rho (if forallb (fun i => rho i =? 1) (drop l order) then 1%Z else 0%Z).
Proof.
  induction k as [|k IH]; intros l rho Hk Hl Hv.
  - assert (l = n) as -> by lia. rewrite drop_ge by (rewrite order_len; lia). simpl. apply Ev_term. unfold conj_diagram.
    rewrite code_cell, lookup_ge_None_2 by (rewrite order_len; lia). by rewrite Nat.eqb_refl.
  - destruct (order_at l ltac:(lia)) as (i&Hi&Hin). rewrite (drop_S _ _ _ Hi). cbn [forallb].
    pose proof (Hv i Hin) as Hri. rewrite (H2 i Hin) in Hri.
    assert (E : conj_diagram (cell l) = Some (Int i [cell (S n); cell (S l)])).
    { unfold conj_diagram. by rewrite code_cell, Hi. }
    destruct (rho i) as [|[|]] eqn:Er; [| |lia]; cbn [Nat.eqb andb].
    + eapply Ev_int; [exact E|by rewrite Er|]. apply Ev_term. unfold conj_diagram.
      rewrite code_cell, lookup_ge_None_2 by (rewrite order_len; lia). destruct (Nat.eqb_spec (S n) n); [lia|done].
    + eapply Ev_int; [exact E|by rewrite Er|]. apply IH; [lia|lia|done].
Qed.

Lemma forallb_perm f (l l' : list nat) : Permutation l l' -> forallb f l = forallb f l'.
Proof.
  induction 1 as [|x l l' _ IH|x y l|l l' l'' _ IH1 _ IH2]; simpl; [done|by rewrite IH| |congruence].
  destruct (f x), (f y); done.
Qed.

Lemma conj_ordered F : fun_eq c F (conj_all n) -> ordered_diagram c order conj_diagram (cell 0) F.
Proof.
  intros EF. constructor.
  - intros x i sons _ E. unfold conj_diagram in E. destruct (order !! code x) as [i'|] eqn:Eo; [|done]. assert (sons = [cell (S n); cell (S (code x))]) as -> by congruence. assert (i' = i) as -> by congruence. clear E.
    assert (Hin : i < n).
    { pose proof (lookup_lt_Some _ _ _ Eo) as X. rewrite order_len in X. destruct (order_at _ X) as (j&Ej&?). congruence. }
    split; [done|]. split; [by rewrite H2|]. intros y j ss Hy Ey. unfold conj_diagram in Ey. exists (code x), (S (code x)).
    split; [done|]. split; [|lia]. apply elem_of_cons in Hy as [->|Hy].
    + rewrite code_cell, lookup_ge_None_2 in Ey by (rewrite order_len; lia). done.
    + apply elem_of_list_singleton in Hy as ->. rewrite code_cell in Ey. destruct (order !! S (code x)); [by injection Ey as ->|done].
  - intros rho Hv. rewrite (EF rho Hv). unfold conj_all. rewrite (forallb_perm _ _ _ (Permutation_sym P)).
    pose proof (conj_value n 0 rho ltac:(lia) ltac:(lia) Hv) as X. by rewrite drop_0 in X.
Qed.

Lemma conj_reach y : reach conj_diagram (cell 0) y -> y ∈ conj_cells.
Proof.
  assert (G : forall x y, reach conj_diagram x y -> code x < n + 2 -> code y < n + 2).
  { intros x z H. induction H as [x|x z w i sons E Hz _ IH]; [done|]. intros Hx. apply IH.
    unfold conj_diagram in E. destruct (order !! code x) as [j|] eqn:Eo; [|done]. assert (sons = [cell (S n); cell (S (code x))]) as -> by congruence. assert (j = i) as -> by congruence. clear E.
    apply lookup_lt_Some in Eo. rewrite order_len in Eo.
    apply elem_of_cons in Hz as [->|Hz]; [rewrite code_cell; lia|]. apply elem_of_list_singleton in Hz as ->. rewrite code_cell. lia. }
  intros H. unfold conj_cells. rewrite <- (cell_code y). apply elem_of_list_In, in_map, elem_of_list_In, elem_of_seq.
  pose proof (G _ _ H ltac:(rewrite code_cell; lia)). lia.
Qed.

Lemma conj_size : length conj_cells = n + 2.
Proof. unfold conj_cells. by rewrite map_length, seq_length. Qed.
End diagrams.

(** changing one variable changes the parity *)
Lemma sum_upd rho i l : NoDup l -> i ∈ l -> list_sum (map (upd rho i 1) l) = S (list_sum (map (upd rho i 0) l)).
Proof.
  induction l as [|j l IH]; intros ND Hi; [by apply elem_of_nil in Hi|]. apply NoDup_cons in ND as [Hj ND].
  change (upd rho i 1 j + list_sum (map (upd rho i 1) l) = S (upd rho i 0 j + list_sum (map (upd rho i 0) l))).
  destruct (decide (i = j)) as [->|Hne].
  - rewrite !upd_same. assert (E : map (upd rho j 1) l = map (upd rho j 0) l); [|rewrite E; lia].
    apply map_ext_in. intros k Hk. rewrite !upd_other; [done|..]; intros ->; by apply Hj, elem_of_list_In.
  - rewrite !upd_other by done. rewrite IH; [lia|done|]. apply elem_of_cons in Hi as [|]; done.
Qed.

Lemma parity_flip n rho i : i < n -> parity n (upd rho i 0) <> parity n (upd rho i 1).
Proof.
  intros Hi. unfold parity. rewrite (sum_upd rho i (seq 0 n)) by (apply NoDup_seq || (apply elem_of_seq; lia)).
  generalize (list_sum (map (upd rho i 0) (seq 0 n))). intros m E. apply Nat2Z.inj in E.
  assert (m mod 2 < 2) by (apply Nat.mod_upper_bound; lia).
  pose proof (Nat.div_mod_eq m 2). pose proof (Nat.div_mod_eq (S m) 2). lia.
Qed.
