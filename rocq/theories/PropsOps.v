(** * Properties of the operators and of the packed node word *)

From stdpp Require Import gmap list.
From Coq Require Import ZArith NArith Lia Bool.
From Verif Require Import Base Ops Inv Apply OpSpec OpProof NodeBits.

Local Open Scope Z_scope.

(** ** C56 *)

Theorem C56_truth_tables : forall o x y, op_dom o x y -> op_fun o x y = op_math o x y.
Proof. apply op_fun_math. Qed.

Example C56_case : op_dom (MULTIPLIES 5) 7 8 /\ op_fun (MULTIPLIES 5) 7 8 = 1 /\ op_dom LESS 3 9 /\ op_fun LESS 3 9 = 1.
Proof. by vm_compute. Qed.

(** the meaning of the logical operators on truth values *)
Theorem C56_boolean : forall o f, bool_table o = Some f -> forall x y : bool,
  op_dom o (b2z x) (b2z y) /\ op_fun o (b2z x) (b2z y) = b2z (f x y).
Proof.
  intros o f E x y. pose proof (bool_table_dom o f x y E) as H. split; [done|].
  rewrite op_fun_math by done. by apply op_math_bool.
Qed.

(** and beyond: which values they combine, and to what *)
Example C56_beyond_case : op_dom AND 3 5 /\ op_fun AND 3 5 = 5 /\ op_dom IMPLIES 4 2 /\ op_fun IMPLIES 4 2 = 1 /\
  op_dom XNOR 2 3 /\ op_fun XNOR 2 3 = 0 /\ op_dom NOR 2 4 /\ op_fun NOR 2 4 = 6 /\
  op_dom PI_CONJ 2 Undef /\ op_fun PI_CONJ 2 Undef = 2 /\ op_dom XOR 2 7 /\ op_fun XOR 2 7 = 5.
Proof. unfold op_dom, ordinary. split_and!; try (by vm_compute); try (left; by vm_compute); by right. Qed.

Theorem C56_commutative : forall o x y, op_comm o = true -> op_fun o x y = op_fun o y x.
Proof. intros o x y H. by apply op_comm_ok. Qed.

(** an operator that is marked as not commutative is not commutative *)
Theorem C56_not_commutative : forall o, op_comm o = false -> exists x y, op_dom o x y /\ op_fun o x y <> op_fun o y x.
Proof.
  intros o H. exists 0, 1. destruct o; try done; (split; [|by vm_compute]); unfold op_dom, ordinary, bit;
    change Nondet with 2147483646; lia.
Qed.

(** one operand is known, the other is the placeholder: a result that is not the
    placeholder is the result for every value of the other operand *)
Theorem C56_short_circuit : forall o x r,
  op_fun o x Nondet = r -> r <> Nondet -> forall y, op_dom o x y -> op_fun o x y = r.
Proof. intros o x r <- Hr y Hd. destruct (op_short o x y Hd) as (_&H&_). symmetry. auto. Qed.

Theorem C56_short_circuit_left : forall o y r,
  op_fun o Nondet y = r -> r <> Nondet -> forall x, op_dom o x y -> op_fun o x y = r.
Proof. intros o y r <- Hr x Hd. destruct (op_short o x y Hd) as (H&_&_). symmetry. auto. Qed.

Example C56_short_case : op_fun AND 0 Nondet = 0 /\ op_fun OR Nondet 1 = 1 /\ op_fun IMPLIES 0 Nondet = 1 /\
  op_fun (MAXB 4) 3 Nondet = 3 /\ op_fun XOR 1 Nondet = Nondet.
Proof. by vm_compute. Qed.

Example C56_short_apply_case : (forall y, ordinary y -> op_fun AND 0 y = 0) /\ (forall x, 0 <= x < 4 -> op_fun (MAXB 4) x 3 = 3).
Proof.
  split.
  - intros y Hy. apply (C56_short_circuit AND 0 0); [done|done|]. split; [|done]. by vm_compute.
  - intros x Hx. apply (C56_short_circuit_left (MAXB 4) 3 3); [done|done|]. unfold op_dom, Nondet. lia.
Qed.

Example C56_not_commutative_case : op_comm LESS = false /\ op_dom LESS 1 2 /\ op_fun LESS 1 2 = 1 /\ op_fun LESS 2 1 = 0.
Proof. by vm_compute. Qed.

Theorem C56_unknown : forall o x y, op_dom o x y -> op_fun o Nondet Nondet = Nondet.
Proof. intros o x y Hd. by destruct (op_short o x y Hd) as (_&_&H). Qed.

(** the sum that PLUS evaluates before it looks at the placeholder overflows when
    both operands are the placeholder *)
Theorem C56_overflow_refuted : forall m, op_ovf (PLUS m) Nondet Nondet = true /\ op_ovf (MULTIPLIES m) Nondet Nondet = true.
Proof. done. Qed.

(** ** C57 *)

(** OR answers as soon as one operand is known to be positive.  Both answers are
    right exactly when one operand is 0 or they are equal; for two different positive
    values one of the two answers is wrong. *)
Theorem C57_or_exact : forall x y, ordinary x -> ordinary y ->
  ((op_fun OR x Nondet <> Nondet -> op_fun OR x Nondet = op_fun OR x y) /\
   (op_fun OR Nondet y <> Nondet -> op_fun OR Nondet y = op_fun OR x y)) <->
  (x = 0 \/ y = 0 \/ x = y).
Proof.
  intros x y Hx Hy. split.
  - intros [H1 H2]. destruct (Z.eq_dec x 0); [tauto|]. destruct (Z.eq_dec y 0); [tauto|]. destruct (Z.eq_dec x y); [tauto|].
    destruct (or_dom_exact x y Hx Hy) as (N1&N2&[N|N]); [intros (_&_&D); tauto|exfalso; auto..].
  - intros D. destruct (op_short OR x y) as (S1&S2&_); [done|]. auto.
Qed.

Example C57_or_case : op_fun OR 2 Nondet = 2 /\ op_fun OR Nondet 1 = 1 /\ op_fun OR 2 1 = 1.
Proof. by vm_compute. Qed.

(** ** C59 *)

(** the right fold of a binary function *)
Inductive folds (f : Z -> Z -> Z) : list Z -> Z -> Prop :=
| F_one x : folds f [x] x
| F_cons x l r : folds f l r -> folds f (x :: l) (f x r).

Theorem C59_nary_folds : forall o t u us, exists r, nary o t (u :: us) = Some r /\ folds (op_fun o) (t :: u :: us) r.
Proof.
  intros o t u us. revert t u. induction us as [|v us IH]; intros t u.
  - exists (op_fun o t u). split; [done|]. repeat constructor.
  - destruct (IH u v) as (r&E&F). exists (op_fun o t r). split; [|by constructor].
    change (nary o t (u :: v :: us)) with (match nary o u (v :: us) with Some r => Some (op_fun o t r) | None => None end).
    by rewrite E.
Qed.

Example C59_case : nary NAND 1 [1; 0; 1] = Some 1 /\ nary MIN 7 [3; 5; 4] = Some 3 /\ nary XOR 1 [1; 1; 0; 1] = Some 0.
Proof. by vm_compute. Qed.

(** what the folds of the associative operators compute *)
Theorem C59_and : forall t u us r, Forall bit (t :: u :: us) -> nary AND t (u :: us) = Some r ->
  bit r /\ (r = 1 <-> Forall (fun x => x = 1) (t :: u :: us)).
Proof.
  intros t u us r HB E. destruct (C59_nary_folds AND t u us) as (r'&E'&F). rewrite E in E'. injection E' as <-.
  clear E. induction F as [x|x l r F IH].
  - inversion HB; subst. split; [done|]. split; [intros ->; by repeat constructor|by inversion 1].
  - inversion HB as [|? ? Hx Hl]; subst. destruct (IH Hl) as [Hr Hi]. rewrite Forall_cons, <- Hi.
    destruct Hx as [->| ->], Hr as [->| ->]; vm_compute; (split; [auto|]); split; auto; intuition discriminate.
Qed.

Theorem C59_or : forall t u us r, Forall bit (t :: u :: us) -> nary OR t (u :: us) = Some r ->
  bit r /\ (r = 0 <-> Forall (fun x => x = 0) (t :: u :: us)).
Proof.
  intros t u us r HB E. destruct (C59_nary_folds OR t u us) as (r'&E'&F). rewrite E in E'. injection E' as <-.
  clear E. induction F as [x|x l r F IH].
  - inversion HB; subst. split; [done|]. split; [intros ->; by repeat constructor|by inversion 1].
  - inversion HB as [|? ? Hx Hl]; subst. destruct (IH Hl) as [Hr Hi]. rewrite Forall_cons, <- Hi.
    destruct Hx as [->| ->], Hr as [->| ->]; vm_compute; (split; [auto|]); split; auto; intuition discriminate.
Qed.

Theorem C59_xor : forall t u us r, Forall bit (t :: u :: us) -> nary XOR t (u :: us) = Some r ->
  r = (foldr Z.add 0 (t :: u :: us)) mod 2.
Proof.
  intros t u us r HB E. destruct (C59_nary_folds XOR t u us) as (r'&E'&F). rewrite E in E'. injection E' as <-.
  clear E. induction F as [x|x l r F IH].
  - inversion HB as [|? ? [->| ->] ?]; done.
  - inversion HB as [|? ? Hx Hl]; subst. specialize (IH Hl). cbn [foldr]. rewrite Z.add_mod by lia. rewrite <- IH.
    assert (bit r) as Hr. { rewrite IH. pose proof (Z.mod_pos_bound (foldr Z.add 0 l) 2 ltac:(lia)). unfold bit. lia. }
    destruct Hx as [->| ->], Hr as [->| ->]; done.
Qed.

(** the least, respectively the greatest, of the values *)
Theorem C59_min : forall t u us r, Forall ordinary (t :: u :: us) -> nary MIN t (u :: us) = Some r ->
  r ∈ t :: u :: us /\ Forall (fun x => r <= x) (t :: u :: us).
Proof.
  intros t u us r HB E. destruct (C59_nary_folds MIN t u us) as (r'&E'&F). rewrite E in E'. injection E' as <-.
  clear E. induction F as [x|x l r F IH].
  - split; [set_solver|]. repeat constructor. lia.
  - inversion HB as [|? ? Hx Hl]; subst. destruct (IH Hl) as [Hin Hle].
    assert (Hr : ordinary r) by (by eapply Forall_forall in Hl).
    rewrite op_fun_math by done. cbn [op_math]. split.
    + destruct (Z.min_spec x r) as [[_ ->]|[_ ->]]; set_solver.
    + constructor; [lia|]. eapply Forall_impl; [exact Hle|]. simpl. lia.
Qed.

Theorem C59_max : forall t u us r, nary MAX t (u :: us) = Some r ->
  r ∈ t :: u :: us /\ Forall (fun x => x <= r) (t :: u :: us).
Proof.
  intros t u us r E. destruct (C59_nary_folds MAX t u us) as (r'&E'&F). rewrite E in E'. injection E' as <-.
  clear E. induction F as [x|x l r F IH].
  - split; [set_solver|]. repeat constructor. lia.
  - destruct IH as [Hin Hle]. change (op_fun MAX x r) with (Z.max x r). split.
    + destruct (Z.max_spec x r) as [[_ ->]|[_ ->]]; set_solver.
    + constructor; [lia|]. eapply Forall_impl; [exact Hle|]. simpl. lia.
Qed.

Example C59_max_case : nary MAX 3 [9; 4; 9; 1] = Some 9 /\ nary AND 1 [1; 1; 0] = Some 0 /\ nary OR 0 [0; 0; 1] = Some 1.
Proof. by vm_compute. Qed.

(** ** C29 *)

Local Open Scope N_scope.

(** four independent fields *)
Record fields := Fields { f_mark : bool; f_used : bool; f_leaf : bool; f_refs : N }.

(** [w] stores the fields [f] *)
Definition stores (w : word) (f : fields) : Prop :=
  w < 2 ^ 32 /\ f_refs f < 2 ^ 29 /\
  w = (if f_mark f then 2 ^ 31 else 0) + (if f_used f then 2 ^ 30 else 0) + (if f_leaf f then 2 ^ 29 else 0) + f_refs f.

Definition field_step (f : fields) (o : wop) : option fields :=
  match o with
  | WUnuse => Some (Fields (f_mark f) false (f_leaf f) (f_refs f))
  | WToggle => Some (Fields (negb (f_mark f)) (f_used f) (f_leaf f) (f_refs f))
  | WMark => Some (Fields true (f_used f) (f_leaf f) (f_refs f))
  | WUnmark => Some (Fields false (f_used f) (f_leaf f) (f_refs f))
  | WInc => if f_refs f + 1 <? 2 ^ 29 then Some (Fields (f_mark f) (f_used f) (f_leaf f) (f_refs f + 1)) else None
  | WDec => if 0 <? f_refs f then Some (Fields (f_mark f) (f_used f) (f_leaf f) (f_refs f - 1)) else None
  end.

Fixpoint field_run (f : fields) (os : list wop) : option fields :=
  match os with
  | [] => Some f
  | o :: os => match field_step f o with Some f => field_run f os | None => None end
  end.

Definition enc (m u l : bool) (r : N) : N :=
  (if m then 2 ^ 31 else 0) + (if u then 2 ^ 30 else 0) + (if l then 2 ^ 29 else 0) + r.

Local Ltac Zify.zify_post_hook ::= Z.to_euclidean_division_equations.

Lemma enc_bits m u l r k : r < 2 ^ 29 ->
  N.testbit (enc m u l r) k = if k <? 29 then N.testbit r k else if k =? 29 then l else if k =? 30 then u else if k =? 31 then m else false.
Proof.
  intros Hr. unfold enc. destruct (N.ltb_spec k 29) as [Hk|Hk].
  - rewrite <- (N.mod_pow2_bits_low _ 29 k) by done. rewrite <- (N.mod_pow2_bits_low r 29 k) by done. f_equal.
    rewrite <- (N.mod_small r (2 ^ 29)) at 2 by done.
    change (2 ^ 31) with (4 * 2 ^ 29). change (2 ^ 30) with (2 * 2 ^ 29). change (2 ^ 29) with 536870912 in *.
    destruct m, u, l; lia.
  - replace k with ((k - 29) + 29) by lia. rewrite <- N.div_pow2_bits.
    assert (E : ((if m then 2 ^ 31 else 0) + (if u then 2 ^ 30 else 0) + (if l then 2 ^ 29 else 0) + r) / 2 ^ 29 =
      (if m then 4 else 0) + (if u then 2 else 0) + (if l then 1 else 0)).
    { change (2 ^ 31) with 2147483648. change (2 ^ 30) with 1073741824. change (2 ^ 29) with 536870912 in *. destruct m, u, l; lia. }
    rewrite E. clear E. generalize (k - 29) (N.sub_add 29 k Hk). intros j <-.
    destruct (N.eqb_spec (j + 29) 29); [assert (j = 0) as -> by lia; by destruct m, u, l|].
    destruct (N.eqb_spec (j + 29) 30); [assert (j = 1) as -> by lia; by destruct m, u, l|].
    destruct (N.eqb_spec (j + 29) 31); [assert (j = 2) as -> by lia; by destruct m, u, l|].
    apply N.bits_above_log2. destruct m, u, l; simpl N.log2; simpl; lia.
Qed.

Lemma enc_op (f : N -> N -> N) (g : bool -> bool -> bool) m u l r m' u' l' r' :
  (forall a b k, N.testbit (f a b) k = g (N.testbit a k) (N.testbit b k)) -> g false false = false ->
  r < 2 ^ 29 -> r' < 2 ^ 29 -> f r r' < 2 ^ 29 ->
  f (enc m u l r) (enc m' u' l' r') = enc (g m m') (g u u') (g l l') (f r r').
Proof.
  intros Hf Hg Hr Hr' Hff. apply N.bits_inj. intros k. rewrite Hf, !enc_bits by done.
  destruct (k <? 29); [by rewrite Hf|]. destruct (k =? 29); [done|]. destruct (k =? 30); [done|]. by destruct (k =? 31).
Qed.

Lemma land_ones29 r : r < 2 ^ 29 -> N.land r (2 ^ 29 - 1) = r.
Proof. intros H. change (2 ^ 29 - 1) with (N.ones 29). rewrite N.land_ones. by apply N.mod_small. Qed.

Lemma enc_inj m u l r m' u' l' r' : r < 2 ^ 29 -> r' < 2 ^ 29 -> enc m u l r = enc m' u' l' r' -> m = m' /\ u = u' /\ l = l' /\ r = r'.
Proof.
  intros H H'. unfold enc. change (2 ^ 31) with 2147483648. change (2 ^ 30) with 1073741824. change (2 ^ 29) with 536870912 in *.
  destruct m, u, l, m', u', l'; intros E; repeat split; lia.
Qed.

Lemma enc_lt m u l r : r < 2 ^ 29 -> enc m u l r < 2 ^ 32.
Proof.
  unfold enc. change (2 ^ 32) with 4294967296. change (2 ^ 31) with 2147483648. change (2 ^ 30) with 1073741824.
  change (2 ^ 29) with 536870912. destruct m, u, l; lia.
Qed.

Lemma enc_zero m u l r : r < 2 ^ 29 -> (enc m u l r =? 0) = negb m && negb u && negb l && (r =? 0).
Proof.
  intros H. destruct (N.eqb_spec (enc m u l r) 0) as [E|E].
  - change 0 with (enc false false false 0) in E. apply enc_inj in E as (->&->&->&->); done.
  - destruct m, u, l, (N.eqb_spec r 0); try done.
Qed.

Lemma refs_max : RefsMax = 2 ^ 29. Proof. done. Qed.

Lemma get_refs_enc m u l r : r < 2 ^ 29 -> get_refs (enc m u l r) = r.
Proof.
  intros H. unfold get_refs. change RefsM with (enc false false false (2 ^ 29 - 1)).
  rewrite (enc_op N.land andb) by (try done; try apply N.land_spec; by rewrite land_ones29).
  rewrite !andb_false_r, land_ones29 by done. done.
Qed.

(** the queries return the fields *)
Theorem C29_queries : forall w f, stores w f ->
  is_marked w = f_mark f /\ is_used w = f_used f /\ was_internal w = negb (f_leaf f) /\
  is_terminal w = f_used f && f_leaf f /\ is_internal w = f_used f && negb (f_leaf f) /\ get_refs w = f_refs f.
Proof.
  intros w [m u l r] (_&Hr&->). cbn [f_mark f_used f_leaf f_refs] in *. fold (enc m u l r).
  assert (Hu : is_used (enc m u l r) = u).
  { unfold is_used. change UsedM with (enc false true false 0).
    rewrite (enc_op N.land andb) by (try done; try apply N.land_spec; by rewrite N.land_0_r).
    rewrite N.land_0_r, enc_zero by done. by destruct m, u, l. }
  assert (Hl : (N.land (enc m u l r) LeafM =? 0) = negb l).
  { change LeafM with (enc false false true 0).
    rewrite (enc_op N.land andb) by (try done; try apply N.land_spec; by rewrite N.land_0_r).
    rewrite N.land_0_r, enc_zero by done. by destruct m, u, l. }
  unfold is_internal, is_terminal, was_internal. rewrite Hu, Hl, negb_involutive. split.
  - unfold is_marked. change MarkM with (enc true false false 0).
    rewrite (enc_op N.land andb) by (try done; try apply N.land_spec; by rewrite N.land_0_r).
    rewrite N.land_0_r, enc_zero by done. by destruct m, u, l.
  - split_and!; try done; [by destruct u, l|by apply get_refs_enc].
Qed.

Lemma word_step_fields w f o f' : stores w f -> field_step f o = Some f' -> exists w', word_step w o = Some w' /\ stores w' f'.
Proof.
  destruct f as [m u l r]. intros (Hw&Hr&->) E. cbn [f_mark f_used f_leaf f_refs] in *. fold (enc m u l r) in *.
  assert (Hst : forall m u l r, r < 2 ^ 29 -> stores (enc m u l r) (Fields m u l r)).
  { intros m0 u0 l0 r0 H0. split; [by apply enc_lt|]. split; [done|]. done. }
  destruct o; cbn [field_step f_mark f_used f_leaf f_refs word_step] in *.
  - injection E as <-. eexists. split; [done|]. change (not32 UsedM) with (enc true false true (2 ^ 29 - 1)).
    rewrite (enc_op N.land andb) by (try done; try apply N.land_spec; by rewrite land_ones29).
    rewrite !andb_true_r, andb_false_r, land_ones29 by done. by apply Hst.
  - injection E as <-. eexists. split; [done|]. change MarkM with (enc true false false 0).
    rewrite (enc_op N.lxor xorb) by (try done; try apply N.lxor_spec; by rewrite N.lxor_0_r).
    rewrite !xorb_false_r, xorb_true_r, N.lxor_0_r by done. by apply Hst.
  - injection E as <-. eexists. split; [done|]. change MarkM with (enc true false false 0).
    rewrite (enc_op N.lor orb) by (try done; try apply N.lor_spec; by rewrite N.lor_0_r).
    rewrite !orb_false_r, orb_true_r, N.lor_0_r by done. by apply Hst.
  - injection E as <-. eexists. split; [done|]. change (not32 MarkM) with (enc false true true (2 ^ 29 - 1)).
    rewrite (enc_op N.land andb) by (try done; try apply N.land_spec; by rewrite land_ones29).
    rewrite !andb_true_r, andb_false_r, land_ones29 by done. by apply Hst.
  - destruct (N.ltb_spec (r + 1) (2 ^ 29)) as [H|]; [|done]. injection E as <-.
    rewrite get_refs_enc, refs_max by done. destruct (N.ltb_spec r (2 ^ 29)); [|lia]. eexists. split; [done|].
    replace (enc m u l r + 1) with (enc m u l (r + 1)) by (unfold enc; lia).
    rewrite N.mod_small by (by apply enc_lt). by apply Hst.
  - destruct (N.ltb_spec 0 r) as [H|]; [|done]. injection E as <-.
    rewrite get_refs_enc by done. destruct (N.ltb_spec 0 r); [|lia]. eexists. split; [done|].
    assert (Hr' : r - 1 < 2 ^ 29) by lia.
    assert (X : enc m u l r + mod32 - 1 = enc m u l (r - 1) + 1 * mod32) by (unfold enc; lia).
    rewrite X, N.mod_add by done. rewrite N.mod_small by (by apply enc_lt). by apply Hst.
Qed.

(** sequences of operations on the word act as on independent fields, as long as
    the number of references stays below 2^29 and is not decremented at 0 *)
Theorem C29_fields_independent : forall os w f f', stores w f -> field_run f os = Some f' ->
  exists w', word_run w os = Some w' /\ stores w' f'.
Proof.
  induction os as [|o os IH]; intros w f f' Hs E; cbn [field_run word_run] in *.
  - injection E as <-. by exists w.
  - destruct (field_step f o) as [f1|] eqn:E1; [|done].
    destruct (word_step_fields w f o f1 Hs E1) as (w1&->&H1). by apply (IH w1 f1).
Qed.

Theorem C29_new_nodes : stores new_terminal (Fields false true true 0) /\ stores new_internal (Fields false true false 0).
Proof. done. Qed.

Example C29_case : field_run (Fields false true true 0) [WInc; WMark; WInc; WToggle; WDec; WMark; WUnuse] = Some (Fields true false true 1) /\
  word_run new_terminal [WInc; WMark; WInc; WToggle; WDec; WMark; WUnuse] = Some (2 ^ 31 + 2 ^ 29 + 1).
Proof. by vm_compute. Qed.

(** ** C30 *)

(** The assertion of inc_ref_count never fires: the masked count is always below
    RefsMax. *)
Theorem C30_assertion_useless : forall w f, stores w f -> word_step w WInc <> None.
Proof.
  intros w f H. destruct (C29_queries w f H) as (_&_&_&_&_&E). unfold word_step. rewrite E, refs_max.
  destruct (N.ltb_spec (f_refs f) (2 ^ 29)); [done|]. destruct H as (_&H&_). lia.
Qed.

(** The largest count that can be stored is accepted; the increment turns an
    internal node into a terminal one. *)
Theorem C30_leaf_flag_refuted : exists w w' f, stores w f /\ f_leaf f = false /\
  word_step w WInc = Some w' /\ is_internal w = true /\ is_terminal w' = true /\ get_refs w' = 0.
Proof.
  exists (2 ^ 30 + (2 ^ 29 - 1)), (2 ^ 30 + 2 ^ 29), (Fields false true false (2 ^ 29 - 1)). by vm_compute.
Qed.

(** such a word is reached from a new node by increments alone *)
Theorem C30_reachable : forall n, n < 2 ^ 29 ->
  exists w, word_run new_internal (replicate (N.to_nat n) WInc) = Some w /\ stores w (Fields false true false n).
Proof.
  intros n Hn. apply (C29_fields_independent _ _ (Fields false true false 0)); [apply C29_new_nodes|].
  assert (X : forall (k : nat) r, r + N.of_nat k < 2 ^ 29 -> field_run (Fields false true false r) (replicate k WInc) =
    Some (Fields false true false (r + N.of_nat k))).
  { induction k as [|k IH]; intros r H; cbn [replicate field_run field_step f_mark f_used f_leaf f_refs].
    - by rewrite N.add_0_r.
    - destruct (N.ltb_spec (r + 1) (2 ^ 29)); [|lia]. rewrite IH by lia. do 2 f_equal. lia. }
  rewrite X; [|by rewrite N2Nat.id, N.add_0_l]. by rewrite N2Nat.id.
Qed.

(** a thousand references *)
Example C30_case : exists w, word_run new_internal (replicate (N.to_nat 1000) WInc) = Some w /\ stores w (Fields false true false 1000) /\
  is_internal w = true /\ get_refs w = 1000.
Proof.
  destruct (C30_reachable 1000 ltac:(by vm_compute)) as (w&E&H). exists w. split; [exact E|]. split; [exact H|].
  destruct (C29_queries _ _ H) as (_&_&_&_&Q1&Q2). clear E H. rewrite Q1, Q2. split; reflexivity.
Qed.

Print Assumptions C56_truth_tables.
Print Assumptions C56_boolean.
Print Assumptions C56_commutative.
Print Assumptions C56_not_commutative.
Print Assumptions C56_short_circuit.
Print Assumptions C56_short_circuit_left.
Print Assumptions C56_unknown.
Print Assumptions C56_overflow_refuted.
Print Assumptions C57_or_exact.
Print Assumptions C59_nary_folds.
Print Assumptions C59_and.
Print Assumptions C59_or.
Print Assumptions C59_xor.
Print Assumptions C59_min.
Print Assumptions C59_max.
Print Assumptions C29_queries.
Print Assumptions C29_fields_independent.
Print Assumptions C29_new_nodes.
Print Assumptions C30_assertion_useless.
Print Assumptions C30_leaf_flag_refuted.
Print Assumptions C30_reachable.
