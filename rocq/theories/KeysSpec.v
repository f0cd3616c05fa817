(** * Programs that use diagrams as keys: specification
    The map is described by a list of pairs of a function and a value. *)

From stdpp Require Import gmap list.
From Coq Require Import ZArith.
From Verif Require Import Base Ops DiagramManager World Keys Heap VecSpec WorldSpec QuerySpec History.

Local Open Scope nat_scope.

Notation funmap := (list ((asg -> Z) * Z)).

Section spec.
Context (c : cfg) (opsem : Z -> option (Z -> Z -> Z)) (strict : bool).

(** the function has an element, up to equality of functions *)
Definition maps_to (fm : funmap) (F : asg -> Z) (v : Z) : Prop :=
  exists G, (G, v) ∈ fm /\ fun_eq c F G.
Definition known (fm : funmap) (F : asg -> Z) : Prop := exists v, maps_to fm F v.

(** the program: calls of the library that assign to objects below [base] only, and
    operations on a map that has been constructed with [n + 1] buckets *)
Inductive uhist (p : cargs) (base n : nat) : list ustep -> st -> vars_t -> umap -> astate -> funmap -> Prop :=
| U_start ks s vars A : history c opsem strict p ks s vars A -> uhist p base n [] s vars (um_new base n) A []
| U_call us s vars m A fm k A' s' vars' m' : uhist p base n us s vars m A fm ->
    spec c opsem strict s k A A' -> Forall (fun d => d < base) (touched k) ->
    u_exec c (UCall k) vars m s = Ok (vars', m') s' -> uhist p base n (us ++ [UCall k]) s' vars' m' A' fm
| U_known us s vars m A fm x v F s' vars' m' : uhist p base n us s vars m A fm ->
    ab_canon A = true -> ab A !! x = Some F -> known fm F ->
    u_exec c (UEmplace x v) vars m s = Ok (vars', m') s' -> uhist p base n (us ++ [UEmplace x v]) s' vars' m' A fm
| U_new us s vars m A fm x v F s' vars' m' : uhist p base n us s vars m A fm ->
    ab_canon A = true -> ab A !! x = Some F -> ~ known fm F ->
    u_exec c (UEmplace x v) vars m s = Ok (vars', m') s' ->
    uhist p base n (us ++ [UEmplace x v]) s' vars' m' (bindf (um_next m) F A) ((F, v) :: fm)
| U_erase us s vars m A fm x F s' vars' m' fm' : uhist p base n us s vars m A fm ->
    ab_canon A = true -> ab A !! x = Some F ->
    (forall G v, (G, v) ∈ fm' <-> (G, v) ∈ fm /\ ~ fun_eq c F G) ->
    u_exec c (UErase x) vars m s = Ok (vars', m') s' ->
    uhist p base n (us ++ [UErase x]) s' vars' m'
      (match um_find c vars m x with Some e => set_ab (delete (e_key e) (ab A)) A | None => A end) fm'
| U_rehash us s vars m A fm k s' vars' m' : uhist p base n us s vars m A fm ->
    u_exec c (URehash k) vars m s = Ok (vars', m') s' -> uhist p base n (us ++ [URehash k]) s' vars' m' A fm.

End spec.
