(** * The n queens program: what its objects are *)

From stdpp Require Import gmap list.
From Coq Require Import ZArith Lia.
From Verif Require Import Base Ops Tables NodeManager Tools Sift DiagramManager World.
From Verif Require Import Heap Inv InvLemmas Prim GC Make Build Apply Api Constr Expr VecSpec Vec Eval Fold.
From Verif Require Import OpSpec OpProof WorldSpec WorldProof Ctor History PropsBase Chain PropsBase2 FromPla.
From Verif Require Import Queens QueensSpec.

Local Open Scope nat_scope.
Local Arguments op_math : simpl never.

Section chain.
Context (c : cfg) (b p m : Z) (strict : bool).
Context (Hbdd : c_fixed c = Some 2%Z) (Hc : wf_cfg c).
Notation chain := (chain c (ops_with b p m) strict).

(** the object [x] is the Boolean function [f] *)
Definition is (A : astate) (x : nat) (f : asg -> bool) : Prop :=
  exists F, ab A !! x = Some F /\ forall rho, valid c rho -> F rho = to_bit (f rho).

(** everything but the objects in [D] is the same *)
Record same (D : list nat) (A B : astate) : Prop := {
  sm_order : ab_order B = ab_order A;
  sm_canon : ab_canon B = ab_canon A;
  sm_cache : ab_cache B = ab_cache A;
  sm_clean : ab_clean B = ab_clean A;
  sm_ab : forall x, x ∉ D -> ab B !! x = ab A !! x
}.

Lemma same_trans D A B C : same D A B -> same D B C -> same D A C.
Proof. intros [] []. constructor; try congruence. intros x Hx. rewrite sm_ab1, sm_ab0; done. Qed.
Lemma same_weak D D' A B : D ⊆ D' -> same D A B -> same D' A B.
Proof. intros H []. constructor; try done. intros x Hx. apply sm_ab0. auto. Qed.
Lemma same_refl D A : same D A A.
Proof. by constructor. Qed.
Lemma same_bind D d F A : d ∈ D -> same D A (bindf d F A).
Proof. intros H. constructor; try done. intros x Hx. simpl. apply lookup_insert_ne. intros ->. done. Qed.
Lemma same_reset D d A : d ∈ D -> same D A (set_ab (delete d (ab A)) A).
Proof. intros H. constructor; try done. intros x Hx. simpl. apply lookup_delete_ne. intros ->. done. Qed.
Lemma is_same D A B x f : same D A B -> x ∉ D -> is A x f -> is B x f.
Proof. intros [] Hx (F&HF&HV). exists F. split; [|done]. by rewrite sm_ab0. Qed.
Lemma is_ext A x f g : (forall rho, valid c rho -> f rho = g rho) -> is A x f -> is A x g.
Proof. intros E (F&HF&HV). exists F. split; [done|]. intros rho Hv. rewrite HV by done. by rewrite E. Qed.

Lemma to_bit_bit v : bit (to_bit v).
Proof. destruct v; [by right|by left]. Qed.

Lemma const_chain d v A : exists B, chain [CConst d (to_bit v)] A B /\ same [d] A B /\ is B d (fun _ => v).
Proof.
  eexists. split; [apply chain_one; intros s; apply S_const; apply bit_tval; [done|apply to_bit_bit]|].
  split; [apply same_bind; by left|]. eexists. split; [apply lookup_insert|done].
Qed.

Lemma apply_chain o bo d x y f g A : op_closed c o bit -> op_allowed b p m (plain_op c o) -> op_arith o = false ->
  (forall u v, op_math o (to_bit u) (to_bit v) = to_bit (bo u v)) -> ab_cache A = true -> is A x f -> is A y g ->
  exists B, chain [CApply d o x y] A B /\ same [d] A B /\ is B d (fun rho => bo (f rho) (g rho)).
Proof.
  intros HV Hop Har Ho Hca (F&HF&EF) (G&HG&EG). eexists. split; [|split].
  - apply chain_one. intros s. apply (S_apply _ _ _ s d o x y F G); [done|by apply op_allowed_known|done|done|]. intros rho Hv.
    rewrite EF, EG by done. apply op_applicable_good; [|by rewrite Har]. apply HV; apply to_bit_bit.
  - apply same_bind; by left.
  - eexists. split; [apply lookup_insert|]. intros rho Hv. cbn beta. rewrite EF, EG by done.
    rewrite op_applicable_fun by (apply HV; apply to_bit_bit). apply Ho.
Qed.

Lemma and_chain d x y f g A : ab_cache A = true -> is A x f -> is A y g ->
  exists B, chain [CApply d AND x y] A B /\ same [d] A B /\ is B d (fun rho => f rho && g rho).
Proof. apply apply_chain; [by apply and_closed|done|done|by intros [] []]. Qed.
Lemma or_chain d x y f g A : ab_cache A = true -> is A x f -> is A y g ->
  exists B, chain [CApply d OR x y] A B /\ same [d] A B /\ is B d (fun rho => f rho || g rho).
Proof. apply apply_chain; [by apply or_closed|done|done|by intros [] []]. Qed.

Lemma not_chain d x f A : is A x f ->
  exists B, chain [CTransform d (fun v => 1 - v)%Z x] A B /\ same [d] A B /\ is B d (fun rho => negb (f rho)).
Proof.
  intros (F&HF&EF). assert (E : forall v, (1 - to_bit v)%Z = to_bit (negb v)) by by intros []. eexists. split; [|split].
  - apply chain_one. intros s. apply (S_transform _ _ _ s d _ x F); [done|]. intros rho Hv. rewrite EF, E by done. apply bit_tval; [done|apply to_bit_bit].
  - apply same_bind; by left.
  - eexists. split; [apply lookup_insert|]. intros rho Hv. cbn beta. by rewrite EF, E.
Qed.

Lemma reset_chain d A : exists B, chain [CReset d] A B /\ same [d] A B.
Proof. eexists. split; [apply chain_one; intros s; apply S_reset|]. apply same_reset. by left. Qed.

Context (n : nat) (Hn : nvars c = n * n).
Notation result := (result n).
Notation tmp := (tmp n).
Notation neg := (neg n).

Definition queen (rho : asg) (k : nat) : bool := rho k =? 1.

Record ready (A : astate) (f : asg -> bool) : Prop := {
  rd_cache : ab_cache A = true;
  rd_clean : ab_clean A = true;
  rd_board : forall k, k < n * n -> is A k (fun rho => queen rho k);
  rd_result : is A result f
}.

Lemma ready_same A B f : same [tmp; neg] A B -> ready A f -> ready B f.
Proof.
  intros S []. constructor.
  - by rewrite (sm_cache _ _ _ S).
  - by rewrite (sm_clean _ _ _ S).
  - intros k Hk. eapply is_same; [exact S| |by apply rd_board0]. unfold Queens.tmp, Queens.neg. rewrite !elem_of_cons, elem_of_nil. lia.
  - eapply is_same; [exact S| |done]. unfold Queens.tmp, Queens.neg, Queens.result. rewrite !elem_of_cons, elem_of_nil. lia.
Qed.
Lemma ready_result A B f g : same [result] A B -> is B result g -> ready A f -> ready B g.
Proof.
  intros S Hg []. constructor; try done.
  - by rewrite (sm_cache _ _ _ S).
  - by rewrite (sm_clean _ _ _ S).
  - intros k Hk. eapply is_same; [exact S| |by apply rd_board0]. unfold Queens.result. rewrite !elem_of_cons, elem_of_nil. lia.
Qed.

Ltac inl := repeat (rewrite !elem_of_cons || rewrite elem_of_nil); unfold Queens.tmp, Queens.neg, Queens.result; lia.
Ltac sub := intros ?; inl.

Lemma with_not_chain o bo x f g A : (forall d x y f g A, ab_cache A = true -> is A x f -> is A y g ->
    exists B, chain [CApply d o x y] A B /\ same [d] A B /\ is B d (fun rho => bo (f rho) (g rho))) ->
  x < n * n -> ready A f -> is A tmp g ->
  exists B, chain (with_not n o x) A B /\ ready B f /\ is B tmp (fun rho => bo (g rho) (negb (queen rho x))).
Proof.
  intros Ho Hx R Ht. destruct (not_chain neg x _ A (rd_board _ _ R x Hx)) as (B1&C1&S1&I1).
  assert (R1 : ready B1 f) by (eapply ready_same; [eapply same_weak; [|exact S1]; sub|exact R]).
  assert (T1 : is B1 tmp g) by (eapply is_same; [exact S1|inl|exact Ht]).
  destruct (Ho tmp tmp neg _ _ B1 (rd_cache _ _ R1) T1 I1) as (B2&C2&S2&I2).
  assert (R2 : ready B2 f) by (eapply ready_same; [eapply same_weak; [|exact S2]; sub|exact R1]).
  destruct (reset_chain neg B2) as (B3&C3&S3). exists B3. split; [|split].
  - change (with_not n o x) with ([CTransform neg (fun v => 1 - v)%Z x] ++ [CApply tmp o tmp neg] ++ [CReset neg]).
    eapply chain_app; [exact C1|]. eapply chain_app; [exact C2|exact C3].
  - eapply ready_same; [eapply same_weak; [|exact S3]; sub|exact R2].
  - eapply is_same; [exact S3|inl|exact I2].
Qed.

Lemma ands_chain xs : forall f g A, Forall (fun x => x < n * n) xs -> ready A f -> is A tmp g ->
  exists B, chain (concat (map (with_not n AND) xs)) A B /\ ready B f /\
    is B tmp (fun rho => g rho && forallb (fun x => negb (queen rho x)) xs).
Proof.
  induction xs as [|x xs IH]; intros f g A Hx R Ht.
  - exists A. split; [constructor|]. split; [done|]. eapply is_ext; [|exact Ht]. intros rho _. simpl. by rewrite andb_true_r.
  - apply Forall_cons in Hx as [Hx Hxs]. destruct (with_not_chain AND andb x f g A and_chain Hx R Ht) as (B1&C1&R1&T1).
    destruct (IH f _ B1 Hxs R1 T1) as (B&C2&R2&T2). exists B. split; [by eapply chain_app|]. split; [done|].
    eapply is_ext; [|exact T2]. intros rho _. simpl. by rewrite andb_assoc.
Qed.

(** result = apply<AND>(result, tmp), end of the life of tmp *)
Lemma finish_chain f g A : ready A f -> is A tmp g ->
  exists B, chain [CApply result AND result tmp; CReset tmp] A B /\ ready B (fun rho => f rho && g rho).
Proof.
  intros R Ht. destruct (and_chain result result tmp f g A (rd_cache _ _ R) (rd_result _ _ R) Ht) as (B1&C1&S1&I1).
  pose proof (ready_result _ _ _ _ S1 I1 R) as R1. destruct (reset_chain tmp B1) as (B2&C2&S2). exists B2. split.
  - change [CApply result AND result tmp; CReset tmp] with ([CApply result AND result tmp] ++ [CReset tmp]). by eapply chain_app.
  - eapply ready_same; [eapply same_weak; [|exact S2]; sub|exact R1].
Qed.

Definition clause_ok (q : nat * list nat) : Prop := fst q < n * n /\ Forall (fun x => x < n * n) (snd q).
Definition clause (q : nat * list nat) (rho : asg) : bool :=
  forallb (fun x => negb (queen rho x)) (snd q) || negb (queen rho (fst q)).

Lemma start_chain v f A : ready A f -> exists B, chain [CConst tmp (to_bit v)] A B /\ ready B f /\ is B tmp (fun _ => v).
Proof.
  intros R. destruct (const_chain tmp v A) as (B&C&S&I). exists B. split; [done|]. split; [|done].
  eapply ready_same; [eapply same_weak; [|exact S]; sub|exact R].
Qed.

Lemma clause_chain q f A : clause_ok q -> ready A f ->
  exists B, chain (clause_calls n q) A B /\ ready B (fun rho => f rho && clause q rho).
Proof.
  intros [H1 H2] R. destruct (start_chain true f A R) as (B1&C1&R1&T1). destruct (ands_chain _ _ _ _ H2 R1 T1) as (B2&C2&R2&T2).
  destruct (with_not_chain OR orb _ _ _ _ or_chain H1 R2 T2) as (B3&C3&R3&T3). destruct (finish_chain _ _ _ R3 T3) as (B4&C4&R4).
  exists B4. split; [|done]. unfold clause_calls. eapply chain_app; [exact C1|]. eapply chain_app; [exact C2|]. eapply chain_app; [exact C3|exact C4].
Qed.

Lemma ready_ext A f g : (forall rho, valid c rho -> f rho = g rho) -> ready A f -> ready A g.
Proof. intros E []. constructor; try done. by eapply is_ext. Qed.

Lemma clauses_chain qs : forall f A, Forall clause_ok qs -> ready A f ->
  exists B, chain (concat (map (clause_calls n) qs)) A B /\ ready B (fun rho => f rho && forallb (fun q => clause q rho) qs).
Proof.
  induction qs as [|q qs IH]; intros f A Hq R.
  - exists A. split; [constructor|]. eapply ready_ext; [|exact R]. intros rho _. simpl. by rewrite andb_true_r.
  - apply Forall_cons in Hq as [Hq Hqs]. destruct (clause_chain q f A Hq R) as (B1&C1&R1). destruct (IH _ B1 Hqs R1) as (B&C2&R2).
    exists B. split; [by eapply chain_app|]. eapply ready_ext; [|exact R2]. intros rho _. simpl. by rewrite andb_assoc.
Qed.

Lemma ors_chain xs : forall f g A, Forall (fun x => x < n * n) xs -> ready A f -> is A tmp g ->
  exists B, chain (map (fun x => CApply tmp OR tmp x) xs) A B /\ ready B f /\ is B tmp (fun rho => g rho || existsb (queen rho) xs).
Proof.
  induction xs as [|x xs IH]; intros f g A Hx R Ht.
  - exists A. split; [constructor|]. split; [done|]. eapply is_ext; [|exact Ht]. intros rho _. simpl. by rewrite orb_false_r.
  - apply Forall_cons in Hx as [Hx Hxs]. destruct (or_chain tmp tmp x _ _ A (rd_cache _ _ R) Ht (rd_board _ _ R x Hx)) as (B1&C1&S1&T1).
    assert (R1 : ready B1 f) by (eapply ready_same; [eapply same_weak; [|exact S1]; sub|exact R]).
    destruct (IH f _ B1 Hxs R1 T1) as (B&C2&R2&T2). exists B. split; [|split; [done|]].
    + change (map (fun x => CApply tmp OR tmp x) (x :: xs)) with ([CApply tmp OR tmp x] ++ map (fun x => CApply tmp OR tmp x) xs). by eapply chain_app.
    + eapply is_ext; [|exact T2]. intros rho _. simpl. by rewrite orb_assoc.
Qed.

Definition some_in (rho : asg) (i : nat) : bool := existsb (queen rho) (map (fun j => i * n + j) (seq 0 n)).

Lemma place_chain i f A : i < n -> ready A f ->
  exists B, chain (place_calls n i) A B /\ ready B (fun rho => f rho && some_in rho i).
Proof.
  intros Hi R. destruct (start_chain false f A R) as (B1&C1&R1&T1).
  assert (Hr : Forall (fun x => x < n * n) (map (fun j => i * n + j) (seq 0 n))).
  { apply Forall_forall. intros x Hx. apply elem_of_list_fmap in Hx as (j&->&Hj). apply elem_of_seq in Hj. nia. }
  destruct (ors_chain _ f _ B1 Hr R1 T1) as (B2&C2&R2&T2).
  destruct (finish_chain _ _ _ R2 T2) as (B3&C3&R3). exists B3. split.
  - unfold place_calls, loop. eapply chain_app; [exact C1|]. eapply chain_app; [|exact C3]. by rewrite map_map in C2.
  - done.
Qed.

Lemma places_chain is : forall f A, Forall (fun i => i < n) is -> ready A f ->
  exists B, chain (concat (map (place_calls n) is)) A B /\ ready B (fun rho => f rho && forallb (some_in rho) is).
Proof.
  induction is as [|i is IH]; intros f A Hq R.
  - exists A. split; [constructor|]. eapply ready_ext; [|exact R]. intros rho _. simpl. by rewrite andb_true_r.
  - apply Forall_cons in Hq as [Hq Hqs]. destruct (place_chain i f A Hq R) as (B1&C1&R1). destruct (IH _ B1 Hqs R1) as (B&C2&R2).
    exists B. split; [by eapply chain_app|]. eapply ready_ext; [|exact R2]. intros rho _. simpl. by rewrite andb_assoc.
Qed.

Lemma board_chain k : forall A, k <= n * n ->
  exists B, chain (map (fun k => CVar k k) (seq 0 k)) A B /\ same (seq 0 k) A B /\ forall x, x < k -> is B x (fun rho => queen rho x).
Proof.
  induction k as [|k IH]; intros A Hk.
  - exists A. split; [constructor|]. split; [apply same_refl|lia].
  - destruct (IH A) as (B&Ch&S&I); [lia|]. assert (Ek : k < nvars c) by lia.
    eexists. rewrite seq_S, map_app. change (0 + k) with k. split; [eapply chain_app; [exact Ch|apply chain_one; intros s; by apply S_var]|]. split.
    + eapply same_trans; [eapply same_weak; [|exact S]|apply same_bind]; [set_solver|]. apply elem_of_app. right. by left.
    + intros x Hx. destruct (decide (x = k)) as [->|Hne].
      * eexists. split; [apply lookup_insert|]. intros rho Hv. cbn beta. pose proof (bdd_bit c Hbdd Hc rho k Hv Ek) as Hr. unfold queen.
        assert (rho k = 0 \/ rho k = 1) as [-> | ->] by lia; reflexivity.
      * destruct (I x) as (F&HF&HV); [lia|]. exists F. split; [|done]. simpl. by rewrite lookup_insert_ne.
Qed.

(** ** What the clauses say *)
Definition all_clauses : list (nat * list nat) := rows n ++ cols n ++ rising n ++ falling n.

Lemma loops_elem {T} (f : nat -> nat -> T) x : x ∈ loops n f <-> exists i j, i < n /\ j < n /\ x = f i j.
Proof.
  unfold loops, loop. rewrite elem_of_list_In, in_concat. split.
  - intros (l&Hl&Hx). apply in_map_iff in Hl as (i&<-&Hi). apply in_map_iff in Hx as (j&<-&Hj). apply in_seq in Hi, Hj. exists i, j. split_and!; [lia|lia|done].
  - intros (i&j&Hi&Hj&->). exists (map (f i) (seq 0 n)). split; apply in_map_iff; eexists; (split; [reflexivity|apply in_seq; lia]).
Qed.
Lemma picked_elem bb f x : x ∈ picked n bb f <-> exists k, k < n /\ bb k = true /\ x = f k.
Proof.
  unfold picked. rewrite elem_of_list_In, in_map_iff. split.
  - intros (k&<-&Hk). apply filter_In in Hk as [Hk Hb]. apply in_seq in Hk. exists k. split_and!; [lia|done|done].
  - intros (k&Hk&Hb&->). exists k. split; [done|]. apply filter_In. split; [apply in_seq; lia|done].
Qed.

Lemma all_clauses_ok : Forall clause_ok all_clauses.
Proof.
  apply Forall_forall. intros q Hq. unfold all_clauses in Hq. rewrite !elem_of_app in Hq. unfold clause_ok. rewrite Forall_forall.
  destruct Hq as [Hq|[Hq|[Hq|Hq]]]; apply loops_elem in Hq as (i&j&Hi&Hj&->); cbn [fst snd]; (split; [nia|]);
    intros x Hx; apply picked_elem in Hx as (k&Hk&Hb&->); rewrite ?andb_true_iff, ?Nat.leb_le, ?Nat.ltb_lt in Hb; nia.
Qed.

Definition board (rho : asg) (i j : nat) : Prop := rho (i * n + j) = 1.

Lemma queen_board rho i j : queen rho (i * n + j) = true <-> board rho i j.
Proof. unfold queen, board. by rewrite Nat.eqb_eq. Qed.

Lemma clause_true q rho : clause q rho = true <-> (queen rho (fst q) = true -> forall x, x ∈ snd q -> queen rho x <> true).
Proof.
  unfold clause. rewrite orb_true_iff, forallb_forall. split.
  - intros [H|H] Hq x Hx; [|by rewrite Hq in H]. apply elem_of_list_In in Hx. apply H in Hx. by destruct (queen rho x).
  - intros H. destruct (queen rho (fst q)); [left|by right]. intros x Hx. apply elem_of_list_In in Hx. specialize (H eq_refl x Hx). by destruct (queen rho x).
Qed.

Lemma clauses_placement rho : forallb (fun q => clause q rho) all_clauses && forallb (some_in rho) (seq 0 n) = true <-> placement n (board rho).
Proof.
  rewrite andb_true_iff, !forallb_forall. split.
  - intros [Hcl Hp]. split.
    + intros i j i' j' Hi Hj Hi' Hj' Q Q' [Hne Ha]. apply queen_board in Q, Q'.
      assert (X : forall others, (i * n + j, others) ∈ all_clauses -> i' * n + j' ∉ others).
      { intros others Ho Hx. apply elem_of_list_In in Ho. apply Hcl in Ho. rewrite clause_true in Ho. by apply (Ho Q _ Hx). }
      destruct Ha as [->|[->|Ha]].
      * apply (X (picked n (fun k => negb (j =? k)) (fun k => i' * n + k))).
        { unfold all_clauses. rewrite elem_of_app. left. apply loops_elem. by exists i', j. }
        apply picked_elem. exists j'. split_and!; [done| |done]. apply negb_true_iff, Nat.eqb_neq. lia.
      * apply (X (picked n (fun k => negb (i =? k)) (fun k => k * n + j'))).
        { unfold all_clauses. rewrite !elem_of_app. right; left. apply loops_elem. by exists j', i. }
        apply picked_elem. exists i'. split_and!; [done| |done]. apply negb_true_iff, Nat.eqb_neq. lia.
      * destruct (decide (i = i')) as [->|Hii]; [lia|].
        destruct (Z.eq_dec (Z.of_nat i - Z.of_nat i') (Z.of_nat j - Z.of_nat j')) as [E|E].
        -- apply (X (picked n (fun k => (i <=? j + k) && (j + k <? n + i) && negb (k =? i)) (fun k => k * n + (j + k - i)))).
           { unfold all_clauses. rewrite !elem_of_app. right; right; left. apply loops_elem. by exists i, j. }
           apply picked_elem. exists i'. split_and!; [done| |f_equal; lia]. rewrite !andb_true_iff, Nat.leb_le, Nat.ltb_lt, negb_true_iff, Nat.eqb_neq. lia.
        -- apply (X (picked n (fun k => (k <=? j + i) && (j + i <? n + k) && negb (k =? i)) (fun k => k * n + (j + i - k)))).
           { unfold all_clauses. rewrite !elem_of_app. right; right; right. apply loops_elem. by exists i, j. }
           apply picked_elem. exists i'. split_and!; [done| |f_equal; lia]. rewrite !andb_true_iff, Nat.leb_le, Nat.ltb_lt, negb_true_iff, Nat.eqb_neq. lia.
    + intros i Hi. specialize (Hp i ltac:(apply in_seq; lia)). unfold some_in in Hp. apply existsb_exists in Hp as (x&Hx&Q).
      apply in_map_iff in Hx as (j&<-&Hj). apply in_seq in Hj. exists j. split; [lia|]. by apply queen_board.
  - intros [Ha Hp]. split.
    + intros q Hq. apply elem_of_list_In in Hq. apply clause_true. intros Q x Hx Q'.
      assert (Y : forall i j i' j', i < n -> j < n -> i' < n -> j' < n -> fst q = i * n + j -> x = i' * n + j' -> attacks i j i' j' -> False).
      { intros i j i' j' Hi Hj Hi' Hj' E E' At. rewrite E in Q. rewrite E' in Q'. apply queen_board in Q, Q'. by apply (Ha i j i' j'). }
      unfold all_clauses in Hq. rewrite !elem_of_app in Hq.
      destruct Hq as [Hq|[Hq|[Hq|Hq]]]; apply loops_elem in Hq as (i&j&Hi&Hj&->); cbn [fst snd] in *; apply picked_elem in Hx as (k&Hk&Hb&->).
      * apply negb_true_iff, Nat.eqb_neq in Hb. eapply (Y i j i k); try done. unfold attacks. lia.
      * apply negb_true_iff, Nat.eqb_neq in Hb. eapply (Y j i k i); try done. unfold attacks. lia.
      * rewrite !andb_true_iff, Nat.leb_le, Nat.ltb_lt, negb_true_iff, Nat.eqb_neq in Hb. eapply (Y i j k (j + k - i)); try done; [lia|]. unfold attacks. lia.
      * rewrite !andb_true_iff, Nat.leb_le, Nat.ltb_lt, negb_true_iff, Nat.eqb_neq in Hb. eapply (Y i j k (j + i - k)); try done; [lia|]. unfold attacks. lia.
    + intros i Hi. apply in_seq in Hi. destruct (Hp i) as (j&Hj&Q); [lia|]. unfold some_in. apply existsb_exists. exists (i * n + j).
      split; [|by apply queen_board]. apply in_map_iff. exists j. split; [done|]. apply in_seq. lia.
Qed.

(** ** The whole program *)
Lemma queens_chain A :
  ab_cache A = true -> ab_clean A = true ->
  exists B F, chain (queens_calls n) A B /\ ab_clean B = true /\ ab B !! result = Some F /\
    forall rho, valid c rho -> (F rho = 0%Z \/ F rho = 1%Z) /\ (F rho = 1%Z <-> placement n (board rho)).
Proof.
  intros Hca Hcl. destruct (board_chain (n * n) A (le_n _)) as (B1&C1&S1&I1).
  destruct (const_chain result true B1) as (B2&C2&S2&I2).
  assert (R2 : ready B2 (fun _ => true)).
  { constructor; [| | |done].
    - by rewrite (sm_cache _ _ _ S2), (sm_cache _ _ _ S1).
    - by rewrite (sm_clean _ _ _ S2), (sm_clean _ _ _ S1).
    - intros k Hk. eapply is_same; [exact S2|inl|by apply I1]. }
  destruct (clauses_chain all_clauses _ _ all_clauses_ok R2) as (B3&C3&R3).
  assert (Hr : Forall (fun i => i < n) (seq 0 n)) by (apply Forall_forall; intros i Hi; apply elem_of_seq in Hi; lia).
  destruct (places_chain (seq 0 n) _ _ Hr R3) as (B4&C4&R4).
  destruct (rd_result _ _ R4) as (F&HF&HV). exists B4, F. split; [|split; [apply R4|split; [done|]]].
  - unfold queens_calls. eapply chain_app; [exact C1|eapply chain_app; [exact C2|eapply chain_app; [exact C3|exact C4]]].
  - intros rho Hv. rewrite HV by done. cbn beta. rewrite andb_true_l. rewrite <- clauses_placement.
    destruct (_ && _); simpl; split; auto; by split.
Qed.
End chain.
