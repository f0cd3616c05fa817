(** * The problem of the n queens *)

From stdpp Require Import list.
From Coq Require Import ZArith.

Local Open Scope nat_scope.

(** two different squares (row, column) on a common line *)
Definition attacks (i j i' j' : nat) : Prop :=
  (i <> i' \/ j <> j') /\
  (i = i' \/ j = j' \/ Z.abs (Z.of_nat i - Z.of_nat i') = Z.abs (Z.of_nat j - Z.of_nat j')).

(** [Q i j]: there is a queen in row i and column j *)
Definition placement (n : nat) (Q : nat -> nat -> Prop) : Prop :=
  (forall i j i' j', i < n -> j < n -> i' < n -> j' < n -> Q i j -> Q i' j' -> ~ attacks i j i' j') /\
  (forall i, i < n -> exists j, j < n /\ Q i j).

(** a placement as the list of the columns of the queens in rows 0, 1, ... *)
Definition columns (n : nat) (qs : list nat) : Prop :=
  length qs = n /\ (forall i j, qs !! i = Some j -> j < n) /\
  (forall i i' j j', qs !! i = Some j -> qs !! i' = Some j' -> ~ attacks i j i' j').

(** the number of placements *)
Definition placements (n : nat) (k : nat) : Prop :=
  exists l, NoDup l /\ (forall qs, qs ∈ l <-> columns n qs) /\ length l = k.
