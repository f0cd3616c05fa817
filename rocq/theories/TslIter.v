(** * libtsl: enumeration of the domain and the expressions of the tests

    Files: libtsl/iterators.hpp (it.hpp), libtsl/iterators.cpp (it.cpp),
    libtsl/expressions.hpp (ex.hpp), libtsl/expressions.cpp (ex.cpp),
    libtsl/generators.hpp (gen.hpp), tests/setup.hpp (setup.hpp).

    Simplifications: domains, indices and values of variables are natural numbers
    (int32 in the C++); a random number is the value of a function that the theorems
    quantify over, so the generators (std::ranlux48 and the distributions) are not
    modelled beyond the range of their results; the type of a node that is not one of
    the three alternatives of the variant cannot be expressed; in make_diagram and variables the
    reallocation of the vectors of diagrams (which moves or copies the
    diagrams) is left out. *)

From stdpp Require Import list.
From Coq Require Import ZArith.
From Verif Require Import Base Ops Tools Prob Tsl DiagramManager World.

Local Open Scope Z_scope.

(** ** class domain_iterator: it.hpp:21-90 *)
Record diter := DIter {
  di_doms : list nat;  (* domains_ *)
  di_idx : list nat;   (* indices_ *)
  di_vals : list nat   (* varVals_ *)
}.

(** the end iterator, it.cpp:14-16 *)
Definition end_iter : diter := DIter [] [] [].

(** it.cpp:43-59: the variables of the order that are not fixed, reversed *)
Definition free_indices (order : list nat) (fixed : list (nat * nat)) : list nat :=
  rev (filter (fun i => i ∉ map fst fixed) order).

(** the constructor, it.cpp:36-72.  Line 67 writes to elements of the member varVals_
    while that member is being initialised (the local vector [vs] was meant), so any
    pair in [fixed] is an access to a vector whose lifetime has not started. *)
Definition make_iter (doms order : list nat) (fixed : list (nat * nat)) : out diter :=
  match fixed with
  | [] => Val (DIter doms (free_indices order fixed) (replicate (length doms) 0%nat))
  | _ :: _ => Bad EUninit
  end.

(** it.cpp:28-34 *)
Definition ordered_iter (doms order : list nat) : out diter := make_iter doms order [].

(** it.cpp:18-26 *)
Definition implicit_iter (doms : list nat) : out diter := make_iter doms (seq 0 (length doms)) [].

(** the loop of operator++, it.cpp:83-96; the flag is [overflow] *)
Fixpoint bump (doms : list nat) (idx : list nat) (vals : list nat) (overflow : bool) : out (list nat * bool) :=
  match idx with
  | [] => Val (vals, overflow)
  | i :: idx =>
      let? v := o_get EOob (vals !! i) in
      let? d := o_get EOob (doms !! i) in
      if (S v =? d)%nat then bump doms idx (<[i := 0%nat]> vals) true
      else Val (<[i := S v]> vals, false)
  end.

(** operator++, it.cpp:79-106 *)
Definition next (it : diter) : out diter :=
  let? r := bump (di_doms it) (di_idx it) (di_vals it) false in
  let (vals, overflow) := r : list nat * bool in
  if overflow then Val end_iter else Val (DIter (di_doms it) (di_idx it) vals).

(** operator== with the sentinel, it.cpp:127-130 *)
Definition at_end (it : diter) : bool := match di_vals it with [] => true | _ :: _ => false end.

(** while (it != end) { out.push_back(f( *it)); ++it; }: the loops at setup.hpp:522-525,
    core.test.cpp:150-158 and 175-182 *)
Fixpoint collect {A} (fuel : nat) (f : list nat -> out A) (it : diter) : out (list A) :=
  match fuel with
  | O => Loop
  | S fuel =>
      if at_end it then Val [] else
      let? x := f (di_vals it) in
      let? it := next it in
      let? l := collect fuel f it in
      Val (x :: l)
  end.

(** ** minmax_expr: ex.hpp, ex.cpp:10-50 *)
Definition minmax := list (list nat).

Definition min32 : Z := - max32 - 1.

(** lines 41-46 *)
Definition eval_term (vs : list nat) (term : list nat) : out Z :=
  o_fold (fun m x => let? v := o_get EOob (vs !! x) in Val (if Z.of_nat v <? m then Z.of_nat v else m)) max32 term.

(** lines 35-50 *)
Definition eval_minmax (e : minmax) (vs : list nat) : out Z :=
  o_fold (fun m term => let? t := eval_term vs term in Val (if m <? t then t else m)) min32 e.

(** make_minmax_expression, ex.cpp:10-33: [pick t k] is the k-th index drawn for term t *)
Definition make_minmax (pick : nat -> nat -> nat) (vars terms size : nat) : out minmax :=
  if (vars =? 0)%nat then Bad EAssert else
  Val (map (fun t => map (pick t) (seq 0 size)) (seq 0 terms)).

(** ** expr_node: ex.hpp, ex.cpp:54-141 *)
Inductive minmax_op := OMin | OMax.

Inductive tree :=
| TVar (i : nat)
| TConst (v : Z)
| TOp (o : minmax_op) (l r : tree).

(** expr_node::evaluate, ex.cpp:117-131 *)
Definition node_eval (o : minmax_op) (l r : Z) : Z :=
  match o with
  | OMin => if l <? r then l else r
  | OMax => if l <? r then r else l
  end.

(** evaluate_expression, ex.cpp:174-196 *)
Fixpoint eval_tree (e : tree) (vs : list nat) : out Z :=
  match e with
  | TVar i => let? v := o_get EOob (vs !! i) in Val (Z.of_nat v)
  | TConst v => Val v
  | TOp o l r => let? x := eval_tree l vs in let? y := eval_tree r vs in Val (node_eval o x y)
  end.

(** the tree as from_expression_tree sees it: diagram_manager.hpp:1136-1173 *)
Fixpoint as_expr (e : tree) : expr :=
  match e with
  | TVar i => XVar i
  | TConst v => XConst v
  | TOp o l r => XOp (node_eval o) (as_expr l) (as_expr r)
  end.

(** what happens at one inner node of make_expression_tree: the number drawn from
    rngbranch, the operation, and which of the two recursive calls runs first (the
    order of the evaluation of arguments is not specified in C++) *)
Record choice := Choice { ch_denom : Z; ch_op : minmax_op; ch_left_first : bool }.

(** the lambda go, ex.cpp:149-170; the draws belong to the path from the root to the
    node ([true]: left son); [i] is the captured counter *)
Fixpoint grow (fuel : nat) (draw : list bool -> choice) (path : list bool) (n : Z) (i : nat) : out (tree * nat) :=
  match fuel with
  | O => Loop
  | S fuel =>
      if n =? 1 then Val (TVar i, S i) else
      let ch := draw path in
      let lhs := Z.max 1 (Z.quot n (ch_denom ch)) in
      let? rhs := int32 (n - lhs) in
      if ch_left_first ch then
        let? l := grow fuel draw (true :: path) lhs i in
        let? r := grow fuel draw (false :: path) rhs (snd l) in
        Val (TOp (ch_op ch) (fst l) (fst r), snd r)
      else
        let? r := grow fuel draw (false :: path) rhs i in
        let? l := grow fuel draw (true :: path) lhs (snd r) in
        Val (TOp (ch_op ch) (fst l) (fst r), snd l)
  end.

(** make_expression_tree, ex.cpp:143-172 *)
Definition make_tree (fuel : nat) (draw : list bool -> choice) (n : Z) : out tree :=
  let? r := grow fuel draw [] n 0 in Val (fst r).

(** ** make_vector: setup.hpp:509-527; the size passed to reserve is the product of the
    domains in int32 arithmetic, lines 515-517 *)
Definition make_vector (fuel : nat) (e : tree) (doms : list nat) : out (list Z) :=
  let? _ := domain_size_int doms in
  let? it := implicit_iter doms in
  collect fuel (eval_tree e) it.

(** ** make_diagram of a minmax_expr: gen.hpp:15-44 and the same text at setup.hpp:359-391,
    as a program.  [d] is the result, [p], [p + 1], ... are the elements of termDs and
    [t], [t + 1], ... those of vars; [tree] is fold_type::Tree *)

(** manager.variables: diagram_manager.hpp:876-905 *)
Fixpoint variables_calls (t : nat) (term : list nat) : list call :=
  match term with
  | [] => []
  | i :: term => CVar t i :: variables_calls (S t) term
  end.

(** min_fold and max_fold, lines 22-34 *)
Definition fold_call (tree : bool) (d : nat) (o : opc) (xs : list nat) : call :=
  if tree then CTree d o xs else CLeft d o xs.

(** one round of the loop, lines 38-42 *)
Definition term_calls (tree : bool) (d t : nat) (term : list nat) : list call :=
  variables_calls t term ++ [fold_call tree d MIN (seq t (length term))] ++ map CReset (seq t (length term)).

Fixpoint terms_calls (tree : bool) (p t : nat) (e : minmax) : list call :=
  match e with
  | [] => []
  | term :: e => term_calls tree p t term ++ terms_calls tree (S p) t e
  end.

Definition minmax_calls (tree : bool) (d p t : nat) (e : minmax) : list call :=
  terms_calls tree p t e ++ [fold_call tree d MAX (seq p (length e))] ++ map CReset (seq p (length e)).
