(** * Minimal normal forms (specification side)

    What to_mnf makes of a set of assignments: not the downward closure, but a set
    that depends on the order of the variables. *)

From stdpp Require Import list.
From Verif Require Import Base Heap Inv.

Local Open Scope nat_scope.

Section spec.
Context (c : cfg).

(** all variables at their last value *)
Definition top : asg := fun i => dom c i - 1.

(** [closes order P rho]: [rho] belongs to the set that is made of [P].  The first
    variable [v] of the order is treated first.  Its value in [rho] may be raised to
    [K] in two cases.  In the first one, [K] together with the last values of all
    other variables belongs to [P]; then the others do not matter.  In the second one,
    [K] is the lowest value, from the one in [rho] on, with which anything belongs to
    [P]; then the others are treated in turn. *)
Fixpoint closes (order : list nat) (P : asg -> Prop) (rho : asg) : Prop :=
  match order with
  | [] => P rho
  | v :: order =>
      (exists K, 0 < K /\ rho v <= K < dom c v /\ P (upd top v K)) \/
      exists K, rho v <= K < dom c v /\
        (forall k, rho v <= k < K -> forall r, valid c r -> ~ P (upd r v k)) /\
        (exists r, valid c r /\ P (upd r v K)) /\
        closes order (fun r => P (upd r v K)) rho
  end.
End spec.
