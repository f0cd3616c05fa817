(** * examples/n_queens.cpp as a program

    solve(n), lines 12-138.  The objects are numbered: 0, ..., n*n - 1 are the elements
    of the vector board, then come result, tmp and the temporary object that
    holds what negate returns.  The last two lines, get_node_count and satisfy_count,
    are queries and are not part of the program.  Integers are unbounded (the code uses int,
    n*n fits for n < 46341). *)

From stdpp Require Import gmap list.
From Coq Require Import ZArith.
From Verif Require Import Base Ops DiagramManager World.

Local Open Scope nat_scope.

Section queens.
Context (n : nat).

Definition result : nat := n * n.
Definition tmp : nat := n * n + 1.
Definition neg : nat := n * n + 2.

(** tmp = manager.apply<o>(tmp, manager.negate(board[x])), for example lines 38-41;
    negate is transform with 1 - v (diagram_manager.hpp:1823-1830), and what it returns
    lives until the end of the assignment *)
Definition with_not (o : opc) (x : nat) : list call :=
  [CTransform neg (fun v => 1 - v)%Z x; CApply tmp o tmp neg; CReset neg].

(** the body of the inner loop, lines 34-48: [others] are the board cells that the loop over k
    visits; the life of tmp ends with the body *)
Definition clause_calls (p : nat * list nat) : list call :=
  [CConst tmp 1%Z] ++ concat (map (with_not AND) (snd p)) ++ with_not OR (fst p) ++
  [CApply result AND result tmp; CReset tmp].

Definition loop {A} (f : nat -> A) : list A := map f (seq 0 n).
Definition loops {A} (f : nat -> nat -> A) : list A := concat (loop (fun i => loop (f i))).
Definition picked (b : nat -> bool) (f : nat -> nat) : list nat := map f (List.filter b (seq 0 n)).

(** lines 29-50 *)
Definition rows : list (nat * list nat) :=
  loops (fun i j => (i * n + j, picked (fun k => negb (j =? k)) (fun k => i * n + k))).
(** lines 52-74 *)
Definition cols : list (nat * list nat) :=
  loops (fun j i => (i * n + j, picked (fun k => negb (i =? k)) (fun k => k * n + j))).
(** lines 76-100 *)
Definition rising : list (nat * list nat) :=
  loops (fun i j => (i * n + j,
    picked (fun k => (i <=? j + k) && (j + k <? n + i) && negb (k =? i)) (fun k => k * n + (j + k - i)))).
(** lines 102-126 *)
Definition falling : list (nat * list nat) :=
  loops (fun i j => (i * n + j,
    picked (fun k => (k <=? j + i) && (j + i <? n + k) && negb (k =? i)) (fun k => k * n + (j + i - k)))).

(** lines 129-138 *)
Definition place_calls (i : nat) : list call :=
  [CConst tmp 0%Z] ++ loop (fun j => CApply tmp OR tmp (i * n + j)) ++
  [CApply result AND result tmp; CReset tmp].

(** lines 20-138 *)
Definition queens_calls : list call :=
  map (fun k => CVar k k) (seq 0 (n * n)) ++
  [CConst result 1%Z] ++
  concat (map clause_calls (rows ++ cols ++ rising ++ falling)) ++
  concat (loop place_calls).

(** lines 15-138; the ratios are functions of the node count as everywhere *)
Definition queens (cratio gcratio : Z -> Z) : list call :=
  CCacheRatio cratio :: CGcRatio gcratio :: queens_calls.
End queens.
