(** * The operators implement their meaning *)

From stdpp Require Import base tactics.
From Coq Require Import ZArith Lia Bool.
From Verif Require Import Base Ops OpSpec Inv Apply.

Local Open Scope Z_scope.

Lemma wrap32_id z : -2147483648 <= z <= 2147483647 -> wrap32 z = z.
Proof. intros H. unfold wrap32. rewrite Z.mod_small by lia. lia. Qed.

Ltac op_cases :=
  repeat match goal with
  | |- context [Z.eqb ?a ?b] => destruct (Z.eqb_spec a b)
  | |- context [Z.ltb ?a ?b] => destruct (Z.ltb_spec a b)
  | |- context [Z.leb ?a ?b] => destruct (Z.leb_spec a b)
  | |- context [decide ?P] => destruct (decide P)
  end.

Lemma Nondet_eq : Nondet = 2147483646. Proof. done. Qed.
Lemma Undef_eq : Undef = 2147483647. Proof. done. Qed.

Lemma min_or_0 x y : 0 <= x -> 0 <= y -> (Z.min x y =? 0) = bool_decide (x = 0 \/ y = 0).
Proof. intros. case_bool_decide; destruct (Z.eqb_spec (Z.min x y) 0); try done; lia. Qed.

Lemma op_fun_math o x y : op_dom o x y -> op_fun o x y = op_math o x y.
Proof.
  assert (HN : Nondet = 2147483646) by done. assert (HU : Undef = 2147483647) by done.
  destruct o; cbn [op_dom op_math op_fun]; unfold ordinary, truth, b2z.
  - intros [H1 H2]. op_cases; simpl; try lia.
  - intros (H1&H2&H3). op_cases; simpl; try lia.
  - intros (H1&H2&H3). op_cases; simpl; try lia.
  - intros [H1 H2]. op_cases; simpl; try lia.
  - intros [H1 H2]. op_cases; simpl; try lia.
  - intros (H1&H2&H3).
    assert (E : Z.odd (Z.min x y) || Z.odd (Z.max x y) = bool_decide (Z.odd x = true \/ Z.odd y = true)).
    { destruct (Z.min_spec x y) as [[L ->]|[L ->]]; [rewrite Z.max_r by lia|rewrite Z.max_l by lia];
        destruct (Z.odd x), (Z.odd y); case_bool_decide as E; simpl; try done; exfalso; intuition done. }
    rewrite E. case_bool_decide as E'; destruct (decide _); try done. apply Z.max_comm.
  - intros [H1 H2]. op_cases; simpl; try lia.
  - intros [H1 H2]. op_cases; simpl; try lia.
  - intros [H1 H2]. op_cases; simpl; try lia.
  - intros [H1 H2]. op_cases; simpl; try lia.
  - intros [H1 H2]. op_cases; simpl; try lia.
  - intros [H1 H2]. op_cases; simpl; try lia.
  - intros [H1 H2]. op_cases; simpl; try lia.
  - intros [H1 H2]. op_cases; simpl; try lia.
  - done.
  - intros (H1&H2&H3). op_cases; simpl; try lia.
  - intros (H1&H2&H3&H4). op_cases; simpl; try lia. rewrite wrap32_id by lia.
    apply Z.rem_mod_nonneg; lia.
  - intros (H1&H2&H3&H4). op_cases; simpl; try lia.
    + assert (x * y = 0) as -> by nia. by rewrite Z.mod_0_l by lia.
    + rewrite wrap32_id by nia. apply Z.rem_mod_nonneg; nia.
  - intros [H1 H2]. op_cases; simpl; try lia.
Qed.

(** on truth values: the truth tables *)
Lemma op_math_bool o f x y : bool_table o = Some f -> op_math o (b2z x) (b2z y) = b2z (f x y).
Proof. destruct o; simpl; intros E; try discriminate; injection E as <-; by destruct x, y. Qed.

Lemma bool_table_dom o f x y : bool_table o = Some f -> op_dom o (b2z x) (b2z y).
Proof.
  destruct o; simpl; intros E; try discriminate; unfold ordinary; change Nondet with 2147483646;
    change Undef with 2147483647; destruct x, y; vm_compute; intuition congruence.
Qed.

Lemma lor_Nondet x : ordinary x -> Z.odd x = false -> Z.lor x Nondet = Nondet.
Proof.
  unfold ordinary. change Nondet with 2147483646. intros Hx Ho.
  assert (E : x = Z.shiftl (x / 2) 1).
  { rewrite Z.shiftl_mul_pow2 by lia. pose proof (Z.div_mod x 2 ltac:(lia)). rewrite Zmod_odd, Ho in H. lia. }
  rewrite E. change 2147483646 with (Z.shiftl (Z.ones 30) 1). rewrite <- Z.shiftl_lor. f_equal.
  assert (0 <= x / 2 < 2 ^ 30).
  { change (2 ^ 30) with 1073741824. split; [apply Z.div_pos; lia|apply Z.div_lt_upper_bound; lia]. }
  apply Z.lor_ones_low; [lia|]. destruct (Z.eq_dec (x / 2) 0) as [->|]; [done|].
  apply Z.log2_lt_pow2; lia.
Qed.

Lemma nor_short x y : ordinary x -> ordinary y ->
  op_fun NOR x Nondet <> Nondet -> op_fun NOR x Nondet = op_fun NOR x y.
Proof.
  intros Hx Hy. cbn [op_fun]. pose proof Hx as Hx'. unfold ordinary in Hx', Hy.
  rewrite (Z.min_l x Nondet), (Z.max_r x Nondet) by lia. change (Z.odd Nondet) with false. rewrite orb_false_r.
  destruct (Z.odd x) eqn:E.
  - intros _. destruct (Z.min_spec x y) as [[L ->]|[L ->]]; [|rewrite (Z.max_l x y) by lia]; rewrite E; [done|by rewrite orb_true_r].
  - rewrite lor_Nondet by done. done.
Qed.

(** a determined answer for a placeholder is the answer for every value *)
Lemma op_short o x y : op_dom o x y ->
  (op_fun o Nondet y <> Nondet -> op_fun o Nondet y = op_fun o x y) /\
  (op_fun o x Nondet <> Nondet -> op_fun o x Nondet = op_fun o x y) /\
  op_fun o Nondet Nondet = Nondet.
Proof.
  assert (HN : Nondet = 2147483646) by done. assert (HU : Undef = 2147483647) by done.
  destruct o; cbn [op_dom]; unfold ordinary.
  - intros [H1 H2]. cbn [op_fun]. split_and!; op_cases; simpl; lia.
  - intros (H1&H2&H3). cbn [op_fun]. split_and!; op_cases; simpl; lia.
  - intros (H1&H2&H3). cbn [op_fun]. rewrite !Z.max_l, (Z.max_r x Nondet) by lia. rewrite Z.eqb_refl. by split_and!.
  - intros [H1 H2]. cbn [op_fun]. split_and!; op_cases; simpl; lia.
  - intros [H1 H2]. cbn [op_fun]. rewrite !Z.max_l, (Z.max_r x Nondet) by lia. rewrite Z.eqb_refl. by split_and!.
  - intros (H1&H2&H3). split_and!; [|by apply nor_short|done].
    rewrite (op_comm_ok NOR Nondet), (op_comm_ok NOR x y) by done. by apply nor_short.
  - intros [H1 H2]. cbn [op_fun]. rewrite !Z.max_l, (Z.max_r x Nondet) by lia. rewrite Z.eqb_refl. by split_and!.
  - intros [H1 H2]. cbn [op_fun]. rewrite !Z.max_l, (Z.max_r x Nondet) by lia. rewrite Z.eqb_refl. by split_and!.
  - intros [H1 H2]. cbn [op_fun]. rewrite !Z.max_l, (Z.max_r x Nondet) by lia. rewrite Z.eqb_refl. by split_and!.
  - intros [H1 H2]. cbn [op_fun]. rewrite !Z.max_l, (Z.max_r x Nondet) by lia. rewrite Z.eqb_refl. by split_and!.
  - intros [H1 H2]. cbn [op_fun]. rewrite !Z.max_l, (Z.max_r x Nondet) by lia. rewrite Z.eqb_refl. by split_and!.
  - intros [H1 H2]. cbn [op_fun]. rewrite !Z.max_l, (Z.max_r x Nondet) by lia. rewrite Z.eqb_refl. by split_and!.
  - intros [H1 H2]. cbn [op_fun]. rewrite !Z.max_l, (Z.max_r x Nondet) by lia. rewrite Z.eqb_refl. by split_and!.
  - intros [H1 H2]. cbn [op_fun]. split_and!; op_cases; simpl; lia.
  - intros [H1 H2]. cbn [op_fun]. split_and!; lia.
  - intros (H1&H2&H3). cbn [op_fun]. split_and!; op_cases; simpl; lia.
  - intros (H1&H2&H3&H4). cbn [op_fun]. rewrite !Z.max_l, (Z.max_r x Nondet) by lia. rewrite Z.eqb_refl. by split_and!.
  - intros (H1&H2&H3&H4). cbn [op_fun]. rewrite (Z.max_l Nondet y), (Z.max_l Nondet Nondet), (Z.max_r x Nondet) by lia.
    rewrite Z.eqb_refl. split_and!; op_cases; simpl; lia.
  - intros [H1 H2]. cbn [op_fun]. rewrite !Z.max_l, (Z.max_r x Nondet) by lia. rewrite Z.eqb_refl. split_and!; op_cases; simpl; lia.
Qed.

(** outside of [op_dom] the answer of OR for a placeholder is wrong for one of the sides *)
Lemma or_dom_exact x y : ordinary x -> ordinary y -> ~ op_dom OR x y ->
  op_fun OR x Nondet <> Nondet /\ op_fun OR Nondet y <> Nondet /\
  (op_fun OR x Nondet <> op_fun OR x y \/ op_fun OR Nondet y <> op_fun OR x y).
Proof.
  unfold ordinary. cbn [op_dom op_fun]. unfold ordinary. assert (HN : Nondet = 2147483646) by done.
  intros H1 H2 H3. split_and!; op_cases; simpl; lia.
Qed.

Lemma op_dom_ne o x y : op_dom o x y -> x <> Nondet /\ y <> Nondet.
Proof.
  assert (HN : Nondet = 2147483646) by done. assert (HU : Undef = 2147483647) by done.
  destruct o; cbn [op_dom]; unfold ordinary; lia.
Qed.

Lemma op_dom_good c o x y : op_dom o x y -> tval c (op_math o x y) ->
  (c_trap c = true -> op_arith o = false) -> good_op c o x y.
Proof.
  intros H T Ht. destruct (op_dom_ne _ _ _ H) as [Nx Ny]. destruct (op_short _ _ _ H) as (S1&S2&S3).
  unfold good_op. rewrite (op_fun_math _ _ _ H) in *. split_and!; try done.
  intros Et. specialize (Ht Et). destruct o; simpl in *; done.
Qed.

Lemma op_math_comm o x y : op_comm o = true -> op_dom o x y -> op_math o x y = op_math o y x.
Proof.
  intros Hc H. assert (H' : op_dom o y x).
  { destruct o; cbn [op_dom op_comm] in *; try discriminate; try tauto; rewrite ?(Z.add_comm y x), ?(Z.mul_comm y x), ?(Z.lxor_comm y x), ?(Z.lor_comm y x); intuition congruence. }
  rewrite <- !op_fun_math by done. by apply op_comm_ok.
Qed.
