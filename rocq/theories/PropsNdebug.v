(** * C82: builds with and without assertions *)

From stdpp Require Import gmap list.
From Coq Require Import ZArith Lia.
From Verif Require Import Base Ops Tables NodeManager Tools Sift DiagramManager Reliability World Queries Prob Symbolic Mcvs.
From Verif Require Import Inv WorldSpec History Chain Ndebug Refuted Examples.

Local Open Scope nat_scope.

(** ** Calls

    For every program and every state of the manager, reachable or not: the build with
    assertions does exactly what the build without them does, errors included, or it
    stops at an assertion. *)
Theorem C82_calls : forall c ks vars s,
  run (built true c) ks vars s = run (built false c) ks vars s \/ run (built true c) ks vars s = Err EAssert.
Proof. intros. apply st_run. Qed.

(** ** The constructor; check_distinct only runs inside of an assertion *)

Lemma max_fold l : forall x, (x <= fold_left Z.max l x)%Z /\ forall y, y ∈ l -> (y <= fold_left Z.max l x)%Z.
Proof.
  induction l as [|z l IH]; intros x; simpl; [split; [lia|]; intros y H; by apply elem_of_nil in H|].
  destruct (IH (Z.max x z)) as [H1 H2]. split; [lia|]. intros y [->|H]%elem_of_cons; [lia|auto].
Qed.

Lemma check_bits_none l : forall bits, (forall x, x ∈ l -> (x < Z.of_nat (length bits))%Z) ->
  check_bits bits l = None -> exists x, x ∈ l /\ (x < 0)%Z.
Proof.
  induction l as [|x l IH]; intros bits H E; simpl in E; [done|].
  destruct (Z.ltb_spec x 0); [exists x; split; [left|done]|].
  destruct (bits !! Z.to_nat x) as [[]|] eqn:Eb; [done| |].
  - destruct (IH (<[Z.to_nat x := true]> bits)) as (y&Hy&Hn); [|done|].
    + intros y Hy. rewrite insert_length. apply H. by right.
    + exists y. split; [by right|done].
  - apply lookup_ge_None in Eb. specialize (H x ltac:(left)). lia.
Qed.

Lemma fill_negative x l : x ∈ l -> (x < 0)%Z -> forall k i2l, fill_levels k l i2l = None.
Proof.
  intros Hx Hn. induction l as [|y l IH]; [by apply elem_of_nil in Hx|]. intros k i2l. simpl.
  apply elem_of_cons in Hx as [<-|Hx]; [by destruct (Z.ltb_spec x 0); [|lia]|].
  destruct (_ || _); [done|by apply IH].
Qed.

Lemma check_distinct_none l : check_distinct l = None -> forall k i2l, fill_levels k l i2l = None.
Proof.
  destruct l as [|x l]; [done|]. intros E. destruct (max_fold l x) as [H1 H2].
  destruct (check_bits_none (x :: l) (replicate (Z.to_nat (fold_left Z.max l x + 1)) false)) as (y&Hy&Hn); [|exact E|].
  - intros y Hy. rewrite replicate_length. assert (y <= fold_left Z.max l x)%Z by (apply elem_of_cons in Hy as [->|Hy]; auto).
    destruct (Z_lt_le_dec (fold_left Z.max l x + 1) 0); lia.
  - intros. by eapply fill_negative.
Qed.

Theorem C82_constructor : forall c args s,
  new_manager (built true c) args s = new_manager (built false c) args s \/ new_manager (built true c) args s = Err EAssert.
Proof.
  intros c args s. unfold new_manager, construct. cbn [built c_dbg andb]. unfold nvars. cbn [built c_doms].
  destruct (negb _); [by right|]. destruct (check_distinct _) as [[]|] eqn:E; [by left|by right|].
  left. by rewrite (check_distinct_none _ E).
Qed.

(** ** Queries: everything that looks at assertions *)
Theorem C82_queries : forall c a s,
  (forall vals, evaluate (built true c) a vals s = evaluate (built false c) a vals s \/ evaluate (built true c) a vals s = Err EAssert) /\
  (to_vector (built true c) a s = to_vector (built false c) a s \/ to_vector (built true c) a s = Err EAssert) /\
  (forall i, index_node_count (built true c) i s = index_node_count (built false c) i s \/ index_node_count (built true c) i s = Err EAssert) /\
  (forall v, satisfy_count (built true c) v a s = satisfy_count (built false c) v a s \/ satisfy_count (built true c) v a s = Err EAssert) /\
  (forall v, satisfy_one (built true c) v a s = satisfy_one (built false c) v a s \/ satisfy_one (built true c) v a s = Err EAssert) /\
  (forall v, satisfy_all (built true c) v a s = satisfy_all (built false c) v a s \/ satisfy_all (built true c) v a s = Err EAssert).
Proof.
  intros c a s. split; [intros; apply st_evaluate|]. split; [apply st_to_vector|]. split; [intros; apply st_index_node_count|].
  split; [intros; apply st_satisfy_count|]. split; [intros; apply st_satisfy_one|intros; apply st_satisfy_all].
Qed.

(** the functions of the reliability manager, with the probabilities in a vector *)
Theorem C82_reliability : forall R (ar : arith R) c ps a data s,
  (forall j, calculate_probability (built true c) ar j (wrapped (built true c) ar ps) a data s =
             calculate_probability (built false c) ar j (wrapped (built false c) ar ps) a data s \/
             calculate_probability (built true c) ar j (wrapped (built true c) ar ps) a data s = Err EAssert) /\
  (calculate_probabilities (built true c) ar (wrapped (built true c) ar ps) a data s =
   calculate_probabilities (built false c) ar (wrapped (built false c) ar ps) a data s \/
   calculate_probabilities (built true c) ar (wrapped (built true c) ar ps) a data s = Err EAssert) /\
  (forall j, calculate_availability (built true c) ar j (wrapped (built true c) ar ps) a data s =
             calculate_availability (built false c) ar j (wrapped (built false c) ar ps) a data s \/
             calculate_availability (built true c) ar j (wrapped (built true c) ar ps) a data s = Err EAssert) /\
  (forall j, state_frequency (built true c) ar j a data s = state_frequency (built false c) ar j a data s \/
             state_frequency (built true c) ar j a data s = Err EAssert) /\
  (forall u cs ci,
    fussell_vesely_importance (built true c) ar (wrapped (built true c) ar ps) a u cs ci data s =
    fussell_vesely_importance (built false c) ar (wrapped (built false c) ar ps) a u cs ci data s \/
    fussell_vesely_importance (built true c) ar (wrapped (built true c) ar ps) a u cs ci data s = Err EAssert) /\
  (forall j x t vars, mcvs_g (built true c) j x t vars s = mcvs_g (built false c) j x t vars s \/
                      mcvs_g (built true c) j x t vars s = Err EAssert).
Proof.
  intros R ar c ps a data s. pose proof (st_wrapped c ar ps) as W.
  split; [intros; by apply st_ntps_post|]. split; [by apply st_ntps_level|]. split; [intros; by apply st_availability|].
  split; [intros; apply st_state_frequency|]. split; [intros; by apply st_fussell|]. intros. apply st_mcvs_g.
Qed.

Theorem C82_symbolic : forall c j pr a s,
  symbolic_availability (built true c) j pr a s = symbolic_availability (built false c) j pr a s \/
  symbolic_availability (built true c) j pr a s = Err EAssert.
Proof. intros. apply st_symbolic. Qed.

(** ** Programs that keep the contract

    A program whose calls meet their preconditions (those of the build with assertions)
    never stops at an assertion: the two builds construct the same manager and the
    same objects, and every further legal call has the same outcome. *)
Theorem C82_contract : forall c opsem strict args ks s vars A,
  wf_cfg c -> history (built true c) opsem strict args ks s vars A ->
  (exists s0 s1, new_manager (built false c) args s0 = Ok tt s1 /\ run (built false c) ks ∅ s1 = Ok vars s) /\
  forall k A', spec (built true c) opsem strict s k A A' ->
    exec (built true c) k vars s = exec (built false c) k vars s /\ exec (built true c) k vars s <> Err EAssert.
Proof.
  intros c opsem strict args ks s vars A Hc H. assert (Hc' : wf_cfg (built true c)) by (destruct Hc as [H1 H2 H3]; constructor; [exact H1|exact H2|exact H3]).
  split.
  - induction H as [s0 s P E|ks s vars A k A' s' vars' H (s0&s1&E0&E1) S E].
    + exists s0, s. split; [|reflexivity]. destruct (C82_constructor c args s0) as [X|X]; [rewrite <- X; exact E|rewrite X in E; discriminate E].
    + exists s0, s1. split; [exact E0|]. rewrite run_app_eq. rewrite E1. cbn [run]. unfold bind, ret.
      destruct (st_exec c k vars s) as [X|X]; [|rewrite X in E; discriminate E]. rewrite <- X, E. reflexivity.
  - intros k A' S. pose proof (history_safe _ _ _ _ _ _ _ _ _ _ Hc' H S) as X.
    destruct (st_exec c k vars s) as [Y|Y]; [|rewrite Y in X; destruct X as [X|[_ X]]; discriminate X].
    split; [exact Y|]. intros Z. rewrite Z in X. destruct X as [X|[_ X]]; discriminate X.
Qed.

(** ** examples/soft_x.cpp *)

(** mss_manager<3> manager(3, 100), line 9; the sizes of the tables are not essential *)
Definition soft_cfg : cfg := Cfg [3; 3; 3] (Some 3%Z) (fun p => N.pos p * 64)%N true false.
Definition soft_args : cargs :=
  CArgs [0; 1; 2]%Z 100%Z 50%Z 100%Z [10; 10; 10]%Z (fun n => n / 5)%Z (fun n => n).

(** lines 10-14 and 20: x0, x1, x2, g, sf and dpldX1 *)
Definition soft_calls : list call :=
  [CVar 0 0; CVar 1 1; CVar 2 2; CApply 3 MIN 1 2; CApply 4 MAX 0 3;
   CDpld 5 (VarChange 0 0 1) (type_3_increase 1) 4].

(** line 25: mcvs(sf, 1) *)
Definition soft_mcvs (b : bool) : option (list (list nat)) * option err :=
  match outcome (built b soft_cfg) soft_args soft_calls with
  | Ok vars s => match mcvs_g (built b soft_cfg) 1 4 6 vars s with
                 | Ok r _ => (Some (fst r), None)
                 | Err e => (None, Some e)
                 | Fuel => (None, None)
                 end
  | Err e => (None, Some e)
  | Fuel => (None, None)
  end.

(** the structure function max(x0, min(x1, x2)) and its minimal cut vectors for state 1:
    the value is below 1, and one step up of any component makes it at least 1 *)
Definition soft_value (x0 x1 x2 : nat) : nat := Nat.max x0 (Nat.min x1 x2).
Definition soft_cut (x0 x1 x2 : nat) : Prop :=
  soft_value x0 x1 x2 < 1 /\
  (x0 < 2 -> 1 <= soft_value (S x0) x1 x2) /\ (x1 < 2 -> 1 <= soft_value x0 (S x1) x2) /\ (x2 < 2 -> 1 <= soft_value x0 x1 (S x2)).

(** Without assertions the example gets the two minimal cut vectors; with assertions it is
    stopped, because mcvs makes the terminal node of undefined values (F7). *)
Theorem C82_soft_x_refuted :
  (exists l, soft_mcvs false = (Some l, None) /\
    forall x0 x1 x2, x0 < 3 -> x1 < 3 -> x2 < 3 -> [x0; x1; x2] ∈ l <-> soft_cut x0 x1 x2) /\
  soft_mcvs true = (None, Some EAssert).
Proof.
  split; [|vm_compute; reflexivity]. exists [[0; 0; 2]; [0; 2; 0]]. split; [vm_compute; reflexivity|].
  intros x0 x1 x2 H0 H1 H2. unfold soft_cut, soft_value. split.
  - intros H. apply elem_of_cons in H as [H|H]; [injection H as -> -> ->; lia|].
    apply elem_of_list_singleton in H. injection H as -> -> ->. lia.
  - intros (E&E0&E1&E2). assert (x0 = 0) as -> by lia. destruct (decide (x1 = 0)) as [->|].
    + assert (x2 = 2) as -> by lia. left.
    + assert (x2 = 0) as -> by lia. assert (x1 = 2) as -> by lia. right. left.
Qed.

(** ** Cases *)

(** both outcomes of [C82_calls] occur *)
Example C82_calls_case :
  status (outcome (built true c3) args3 [CVar 0 0; CConst 1 2%Z]) = Some EAssert /\
  status (outcome (built false c3) args3 [CVar 0 0; CConst 1 2%Z]) = None /\
  status (outcome (built true c3) args3 [CVar 0 0; CVar 1 1; CApply 2 OR 0 1]) = None.
Proof. split; [vm_compute; reflexivity|]. split; vm_compute; reflexivity. Qed.

Example C82_constructor_case :
  new_manager (built true c3) (CArgs [0; 0; 1]%Z 10 10 10 [5; 5; 5]%Z (fun n => n) (fun n => n)) no_state = Err EAssert /\
  (exists s, new_manager (built false c3) (CArgs [0; 0; 1]%Z 10 10 10 [5; 5; 5]%Z (fun n => n) (fun n => n)) no_state = Ok tt s) /\
  new_manager (built true c3) (CArgs [0; 1; -1]%Z 10 10 10 [5; 5; 5]%Z (fun n => n) (fun n => n)) no_state = Err EOob.
Proof. split; [reflexivity|]. split; [eexists; reflexivity|reflexivity]. Qed.

(** the program of [ex_history], without assertions *)
Example C82_contract_case : exists s0 s1,
  new_manager (built false ex_cfg) ex_args s0 = Ok tt s1 /\ run (built false ex_cfg) ex_prog ∅ s1 = Ok ex_vars ex_st.
Proof.
  destruct (C82_contract ex_cfg _ _ _ _ _ _ _ ex_wf ex_history) as [H _]. exact H.
Qed.

Print Assumptions C82_calls.
Print Assumptions C82_constructor.
Print Assumptions C82_queries.
Print Assumptions C82_reliability.
Print Assumptions C82_symbolic.
Print Assumptions C82_contract.
Print Assumptions C82_soft_x_refuted.
