(** * What minimal cut and path vectors are *)

From stdpp Require Import list.
From Coq Require Import ZArith.
From Verif Require Import Base Heap Eval.

Section spec.
Context (c : cfg) (F : asg -> Z) (j : Z).

(** [vals] is in a state below [j], some component can be improved, and every
    such improvement of a single component by one brings the state to [j] or above *)
Definition minimal_cut (vals : list nat) : Prop :=
  vals_ok c vals /\ (F (of_vals vals) < j)%Z /\
  (exists i, i < nvars c /\ S (nth i vals 0) < dom c i) /\
  (forall i, i < nvars c -> S (nth i vals 0) < dom c i -> (j <= F (of_vals (alter S i vals)))%Z).

(** [vals] is in state [j] or above, some component can be degraded, and every
    such degradation of a single component by one brings the state below [j] *)
Definition minimal_path (vals : list nat) : Prop :=
  vals_ok c vals /\ (j <= F (of_vals vals))%Z /\
  (exists i, i < nvars c /\ 0 < nth i vals 0) /\
  (forall i, i < nvars c -> 0 < nth i vals 0 -> (F (of_vals (alter pred i vals)) < j)%Z).

End spec.
