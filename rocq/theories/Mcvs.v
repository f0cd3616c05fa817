(** * Minimal cut and path vectors: reliability_manager.hpp:1002-1078

    The functions are programs over the manager's own operations.  Their local
    objects get names from [t] on, which the caller must not use: the vector
    dpldes gets [t], [t+1], ... and conj the name behind the vector.  The local
    object dpld lives inside [CDpldE]. *)

From stdpp Require Import gmap list.
From Coq Require Import ZArith.
From Verif Require Import Base Ops Tables NodeManager Tools Sift DiagramManager Reliability World Queries.

Section mcvs.
Context (c : cfg).

(** the loops over variables and their values: lines 1036-1041, 1063-1068 *)
Definition mcvs_changes : list var_change :=
  flat_map (fun i => map (fun k => VarChange i k (k + 1)) (seq 0 (dom c i - 1))) (seq 0 (nvars c)).
Definition mpvs_changes : list var_change :=
  flat_map (fun i => map (fun k => VarChange i k (k - 1)) (seq 1 (dom c i - 1))) (seq 0 (nvars c)).

(** lines 1042-1044, 1069-1071: the derivatives are pushed to the vector *)
Fixpoint derivative_calls (f : Z -> Z -> bool) (x t : nat) (vcs : list var_change) : list call :=
  match vcs with
  | [] => []
  | vc :: vcs => CDpldE t vc f (vc_from vc) x :: derivative_calls f x (S t) vcs
  end.

(** lines 1048-1049, 1075-1076: satisfy_all_g writes the elements of the result; at the
    end conj and the vector are destroyed *)
Definition vectors_g (vcs : list var_change) (f : Z -> Z -> bool) (x t : nat) (vars : vars_t)
  : M (list (list nat) * vars_t) :=
  let n := length vcs in
  let* vars1 := run c (derivative_calls f x t vcs ++ [CTree (t + n) PI_CONJ (seq t n)]) vars in
  let* con := deref vars1 (t + n) in
  let* out := satisfy_all c 1 con in
  let* vars2 := run c (CReset (t + n) :: map CReset (seq t n)) vars1 in
  ret (out, vars2).

(** lines 1026-1051 *)
Definition mcvs_g (state : Z) (x t : nat) (vars : vars_t) : M (list (list nat) * vars_t) :=
  vectors_g mcvs_changes (type_3_increase state) x t vars.

(** lines 1053-1078 *)
Definition mpvs_g (state : Z) (x t : nat) (vars : vars_t) : M (list (list nat) * vars_t) :=
  vectors_g mpvs_changes (type_3_decrease state) x t vars.

(** lines 1002-1012 *)
Definition mcvs (state : Z) (x t : nat) (vars : vars_t) : M (list (list nat) * vars_t) :=
  mcvs_g state x t vars.

(** lines 1014-1024: line 1022 calls mcvs_g *)
Definition mpvs (state : Z) (x t : nat) (vars : vars_t) : M (list (list nat) * vars_t) :=
  mcvs_g state x t vars.
End mcvs.
