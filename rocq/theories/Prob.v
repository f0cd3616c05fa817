(** * reliability_manager.hpp: probabilities and importance measures

    Line numbers refer to libteddy/details/reliability_manager.hpp unless another
    file is named.

    The managers of this file have Data = double: every node carries a number
    [data_] that the queries use as scratch memory.  The constructors of node
    (node.hpp:199-213, tools.hpp:346-350) do not initialise it.  Nothing else reads it, so it is kept
    outside of the manager's state, in a map that the queries take and return; an
    address without an entry holds an indeterminate value and reading it is
    [EUninit].

    The arithmetic is a parameter.  Instances: a commutative ring (exact
    arithmetic) and binary64 with rounding (ProbFloat.v). *)

From stdpp Require Import gmap list.
From Coq Require Import ZArith.
From Verif Require Import Base Tools NodeManager DiagramManager Queries Reliability.

Local Open Scope Z_scope.

(** the operations on double that are used; [a_ofZ]: static_cast<double> of an
    int64, [a_toZ]: static_cast<int64> of a double (truncation; [None] when the
    result does not fit, which is undefined behaviour) *)
Record arith (R : Type) := Arith {
  a_zero : R;
  a_one : R;
  a_add : R -> R -> R;
  a_sub : R -> R -> R;
  a_mul : R -> R -> R;
  a_div : R -> R -> R;
  a_ofZ : Z -> R;
  a_toZ : R -> option Z
}.
Arguments a_zero {R}. Arguments a_one {R}. Arguments a_add {R}. Arguments a_sub {R}.
Arguments a_mul {R}. Arguments a_div {R}. Arguments a_ofZ {R}. Arguments a_toZ {R}.

Section prob.
Context (c : cfg) {R : Type} (ar : arith R).

Notation ndata := (gmap positive R).

(** node.hpp:228-244 get_data *)
Definition rd (data : ndata) (a : positive) : M R := of_opt EUninit (data !! a).

(** ** Probabilities of the components

    probs[i][k]: a matrix (any object with two subscripts that returns numbers,
    here a list of rows) or a vector of the probabilities of state 1 wrapped by
    prob_vector_wrap (probabilities.hpp:20-60). *)
Definition probs := nat -> nat -> M R.

Definition matrix (ps : list (list R)) : probs := fun i k =>
  let* row := of_opt EOob (ps !! i) in of_opt EOob (row !! k).

Definition wrapped (ps : list R) : probs := fun i k =>
  if c_dbg c && negb ((k =? 1)%nat || (k =? 0)%nat) then fail EAssert else
  let* p := of_opt EOob (ps !! i) in
  ret (if (k =? 1)%nat then p else a_sub ar (a_one ar) p).

(** ** Terminal nodes: node_manager.hpp:428-433, 780-793

    A negative value passes the comparison and indexes the vector out of range. *)
Definition get_terminal_node (v : Z) : M (option positive) :=
  let* ts := gets s_terms in
  if v <? Z.of_nat (length ts)
  then (if v <? 0 then fail EOob else of_opt EOob (ts !! Z.to_nat v)) else ret None.

(** the nodes visited by for_each_terminal_node *)
Definition terminal_nodes : M (list positive) := gets (fun s => omap id (s_terms s)).

Definition set_all (v : R) (data : ndata) (l : list positive) : ndata :=
  fold_left (fun data a => <[a := v]> data) l data.

(** ** calculate_ntps_post_impl: lines 1080-1120 *)

(** lines 1107-1111, one son *)
Definition post_son (pr : probs) (a : positive) (i : nat) (data : ndata) (k : nat) : M ndata :=
  let* son := get_son a k in
  let* x := rd data son in
  let* p := pr i k in
  let* y := rd data a in
  ret (<[a := a_add ar y (a_mul ar x p)]> data).

(** lines 1099-1115 *)
Definition post_op (pr : probs) (data : ndata) (a : positive) : M ndata :=
  let* n := getn a in
  match n_body n with
  | Term _ => ret data
  | Int i _ =>
      let* d := of_opt EOob (c_doms c !! i) in
      foldM (post_son pr a i) (<[a := a_zero ar]> data) (seq 0 d)
  end.

(** lines 1090-1096 *)
Definition select (data : ndata) (v : Z) : M ndata :=
  let* t := get_terminal_node v in
  ret (match t with Some a => <[a := a_one ar]> data | None => data end).

Definition ntps_post (sel : list Z) (pr : probs) (a : positive) (data : ndata) : M (R * ndata) :=
  let* ts := terminal_nodes in
  let* data := foldM select (set_all (a_zero ar) data ts) sel in
  let* data := traverse_post c (post_op pr) data a in
  let* r := rd data a in
  ret (r, data).

(** ** calculate_ntps_level_impl: lines 1122-1155 *)

(** lines 1145-1150, one son *)
Definition level_son (pr : probs) (a : positive) (i : nat) (data : ndata) (k : nat) : M ndata :=
  let* son := get_son a k in
  let* y := rd data son in
  let* x := rd data a in
  let* p := pr i k in
  ret (<[son := a_add ar y (a_mul ar x p)]> data).

(** lines 1137-1153 *)
Definition level_op (pr : probs) (data : ndata) (a : positive) : M ndata :=
  let* n := getn a in
  match n_body n with
  | Term _ => ret data
  | Int i _ =>
      let* d := of_opt EOob (c_doms c !! i) in
      foldM (level_son pr a i) data (seq 0 d)
  end.

Definition ntps_level (pr : probs) (a : positive) (data : ndata) : M ndata :=
  let* data := traverse_pre c (fun data b => ret (<[b := a_zero ar]> data)) data a in
  let* ts := terminal_nodes in
  traverse_level c (level_op pr) (<[a := a_one ar]> (set_all (a_zero ar) data ts)) a.

(** ** Probabilities of the states of the system *)

(** lines 546-554; 532-544 with [wrapped] probabilities *)
Definition calculate_probabilities (pr : probs) (a : positive) (data : ndata) : M ndata := ntps_level pr a data.

(** lines 571-581; 556-569 with state 1 and [wrapped] probabilities *)
Definition calculate_probability (j : Z) (pr : probs) (a : positive) (data : ndata) : M (R * ndata) :=
  ntps_post [j] pr a data.

(** lines 583-589 *)
Definition get_probability (j : Z) (data : ndata) : M R :=
  let* t := get_terminal_node j in
  match t with Some a => rd data a | None => ret (a_zero ar) end.

(** node->get_value(), node.hpp:283-288 *)
Definition node_value (a : positive) : M Z :=
  let* n := getn a in match n_body n with Term v => ret v | Int _ _ => fail EAssert end.

(** the values of the terminal nodes that satisfy [p], lines 613-622 and 674-683 *)
Definition values_with (p : Z -> bool) : M (list Z) :=
  let* ts := terminal_nodes in
  foldM (fun vs a => let* v := node_value a in ret (if p v then vs ++ [v] else vs)) [] ts.

(** lines 605-626 and, with [wrapped] probabilities and state 1, 591-603 *)
Definition calculate_availability (j : Z) (pr : probs) (a : positive) (data : ndata) : M (R * ndata) :=
  let* vs := values_with (fun v => j <=? v) in ntps_post vs pr a data.
(** lines 666-686 and, with state 1, 655-664 (this one takes a matrix) *)
Definition calculate_unavailability (j : Z) (pr : probs) (a : positive) (data : ndata) : M (R * ndata) :=
  let* vs := values_with (fun v => v <? j) in ntps_post vs pr a data.

(** the sum of the data of the terminal nodes that satisfy [p] *)
Definition sum_with (p : Z -> bool) (data : ndata) : M R :=
  let* ts := terminal_nodes in
  foldM (fun r a =>
    let* v := node_value a in
    if p v then let* x := rd data a in ret (a_add ar r x) else ret r) (a_zero ar) ts.

(** lines 638-653 *)
Definition get_availability (j : Z) (data : ndata) : M R := sum_with (fun v => j <=? v) data.
(** lines 628-636 *)
Definition get_availability_bss (data : ndata) : M R := get_probability 1 data.
(** lines 697-712 and, with state 1, 688-695 *)
Definition get_unavailability (j : Z) (data : ndata) : M R := sum_with (fun v => v <? j) data.

(** ** Counting in a reliability manager: diagram_manager.hpp:1416-1484 with
    Data = double.  T is double and data(node) is the data of the node. *)

Definition countd_son (l : nat) (a : positive) (data : ndata) (b : positive) : M ndata :=
  let* lb := get_level c b in
  let* diff := domain_product c (S l) lb in
  let* y := rd data a in
  let* x := rd data b in
  ret (<[a := a_add ar y (a_mul ar x (a_ofZ ar diff))]> data).

Definition countd_op (v : Z) (data : ndata) (a : positive) : M ndata :=
  let* n := getn a in
  match n_body n with
  | Term w => ret (<[a := if w =? v then a_one ar else a_zero ar]> data)
  | Int _ sons =>
      let* l := get_level c a in
      foldM (countd_son l a) (<[a := a_zero ar]> data) sons
  end.

Definition satisfy_count_data (v : Z) (a : positive) (data : ndata) : M (Z * ndata) :=
  let* _ := value_check c v in
  let* data := traverse_post c (countd_op v) data a in
  let* r := rd data a in
  let* alpha := of_opt EOverflow (a_toZ ar r) in
  let* l := get_level c a in
  let* p := domain_product c 0 l in
  let* n := of_opt EOverflow (chk min64 max64 (alpha * p)) in
  ret (n, data).

(** ** Frequencies and importance measures *)

(** lines 768-779; 959-969 with state 1 *)
Definition state_frequency (j : Z) (a : positive) (data : ndata) : M (R * ndata) :=
  let* size := domain_product c 0 (nvars c) in
  let* nd := satisfy_count_data j a data in
  ret (a_div ar (a_ofZ ar (fst nd)) (a_ofZ ar size), snd nd).
Definition structural_importance (a : positive) (data : ndata) : M (R * ndata) := state_frequency 1 a data.

(** lines 971-979 *)
Definition birnbaum_importance (pr : probs) (a : positive) (data : ndata) : M (R * ndata) :=
  calculate_probability 1 pr a data.

(** lines 989-994: the sum over lowerState = l, ..., componentState - 1 *)
Fixpoint sum_lower (pr : probs) (ci : nat) (l k : nat) (acc : R) : M R :=
  match k with
  | O => ret acc
  | S k => let* p := pr ci l in sum_lower pr ci (S l) k (a_add ar acc p)
  end.

(** lines 981-1000; the diagram [mnf] dies at the end of the scope *)
Definition fussell_vesely_importance (pr : probs) (a : positive) (unavailability : R) (cs ci : nat) (data : ndata) : M (R * ndata) :=
  let* b := to_mnf c a in
  let* pd := calculate_probability 1 pr b data in
  let* nominator := sum_lower pr ci 0 cs (a_zero ar) in
  let* _ := diagram_destroy b in
  ret (a_div ar (a_mul ar nominator (fst pd)) unavailability, snd pd).

End prob.
