(** * What client programs compute (specification side)

    Every object of the program denotes a function from assignments to values. *)

From stdpp Require Import gmap list.
From Coq Require Import ZArith.
From Verif Require Import Base Ops NodeManager DiagramManager Reliability World.
From Verif Require Import Heap Inv Apply Constr Expr VecSpec Fold.

Local Open Scope nat_scope.

Record astate := AState {
  ab : gmap nat (asg -> Z);  (* the functions of the objects *)
  ab_order : list nat;       (* the order of the variables *)
  ab_canon : bool;           (* the variables have not been reordered *)
  ab_cache : bool;           (* the cache was cleared since the last reordering *)
  ab_clean : bool            (* from_expression_tree has not been used, fussell_vesely_importance only for convex functions *)
}.

Definition set_ab (m : gmap nat (asg -> Z)) (A : astate) : astate :=
  AState m (ab_order A) (ab_canon A) (ab_cache A) (ab_clean A).
Definition bindf (d : nat) (F : asg -> Z) (A : astate) : astate := set_ab (<[d := F]> (ab A)) A.

Definition set_fun (m : gmap nat (asg -> Z)) (d : nat) (o : option (asg -> Z)) : gmap nat (asg -> Z) :=
  match o with Some F => <[d := F]> m | None => delete d m end.

Definition del_list (xs : list nat) (m : gmap nat (asg -> Z)) : gmap nat (asg -> Z) :=
  foldr delete m xs.

(** functions of a list of objects *)
Definition funs (A : astate) (xs : list nat) (Fs : list (asg -> Z)) : Prop :=
  Forall2 (fun x F => ab A !! x = Some F) xs Fs.

Section spec.
Context (c : cfg) (opsem : Z -> option (Z -> Z -> Z)) (strict : bool).

(** the operator is the one its cache identifier stands for *)
Definition op_known (o : opc) : Prop := opsem (op_id (apply_op c o)) = Some (op_fun (apply_op c o)).

(** functions with values 0 and 1 that are 1 everywhere between two places where they
    are 1, like the derivatives of coherent systems *)
Definition convex (F : asg -> Z) : Prop :=
  (forall rho, valid c rho -> F rho = 0%Z \/ F rho = 1%Z) /\
  forall x y z, valid c x -> valid c y -> valid c z ->
    (forall i, i < nvars c -> x i <= y i <= z i) -> F x = 1%Z -> F z = 1%Z -> F y = 1%Z.

(** [spec s k A A']: in manager state [s] the call [k] may be made by a program
    whose objects are described by [A], and afterwards they are described by [A'].
    Of [s] only the size of the main pool is used, and the order of the variables
    after a reordering. *)
Inductive spec (s : st) : call -> astate -> astate -> Prop :=
| S_const d v A : tval c v -> spec s (CConst d v) A (bindf d (fun _ => v) A)
| S_var d i A : i < nvars c -> spec s (CVar d i) A (bindf d (fun rho => Z.of_nat (rho i)) A)
| S_varnot d i A : i < nvars c -> dom c i = 2 ->
    spec s (CVarNot d i) A (bindf d (fun rho => 1 - Z.of_nat (rho i))%Z A)
| S_vec d vs A : length vs = prodl c (ab_order A) -> Forall (tval c) vs ->
    spec s (CVec d vs) A (bindf d (fun rho => nth (vec_index c (ab_order A) rho) vs 0%Z) A)
| S_expr d e A : xok c e ->
    spec s (CExpr d e) A (AState (<[d := xeval e]> (ab A)) (ab_order A) (ab_canon A) (ab_cache A) false)
| S_apply d o x y F G A : ab_cache A = true -> op_known o ->
    ab A !! x = Some F -> ab A !! y = Some G ->
    (forall rho, valid c rho -> good_op c (apply_op c o) (F rho) (G rho)) ->
    spec s (CApply d o x y) A (bindf d (fun rho => op_fun (apply_op c o) (F rho) (G rho)) A)
| S_left d o x xs F Fs A : ab_cache A = true -> op_known o -> funs A (x :: xs) (F :: Fs) ->
    (forall rho, valid c rho -> fold_good c (apply_op c o) (F rho) (map (fun G => G rho) Fs)) ->
    spec s (CLeft d o (x :: xs)) A
      (bindf d (fun rho => fold_left (op_fun (apply_op c o)) (map (fun G => G rho) Fs) (F rho)) A)
| S_tree d o xs Fs A : ab_cache A = true -> op_known o -> NoDup xs -> xs <> [] -> funs A xs Fs ->
    (forall rho, valid c rho -> rounds_good c (apply_op c o) (length Fs) (map (fun G => G rho) Fs)) ->
    spec s (CTree d o xs) A
      (bindf d (fun rho => default 0%Z (balanced (op_fun (apply_op c o)) (map (fun G => G rho) Fs)))
         (set_ab (del_list xs (ab A)) A))
| S_transform d f x F A : ab A !! x = Some F ->
    (forall rho, valid c rho -> tval c (f (F rho))) ->
    spec s (CTransform d f x) A (bindf d (fun rho => f (F rho)) A)
| S_cofactor d x i k F A : ab A !! x = Some F -> k < dom c i ->
    spec s (CCofactor d x i k) A (bindf d (fun rho => F (upd rho i k)) A)
| S_cofactors d x vs F A : ab A !! x = Some F -> Forall (fun p => snd p < dom c (fst p)) vs ->
    spec s (CCofactors d x vs) A (bindf d (fun rho => F (updl rho vs)) A)
| S_copy d x F A : ab A !! x = Some F -> spec s (CCopy d x) A (bindf d F A)
| S_move d x A : spec s (CMove d x) A (set_ab (set_fun (delete x (ab A)) d (ab A !! x)) A)
| S_swap d x A : spec s (CSwap d x) A (set_ab (set_fun (set_fun (ab A) d (ab A !! x)) x (ab A !! d)) A)
| S_reset d A : spec s (CReset d) A (set_ab (delete d (ab A)) A)
| S_gc A : spec s CGc A A
| S_clear A : spec s CClearCache A (AState (ab A) (ab_order A) (ab_canon A) true (ab_clean A))
| S_cratio f A : spec s (CCacheRatio f) A A
| S_gcratio f A : (strict = true -> forall n, (p_main (s_pool s) <= n)%Z -> (1 <= f n)%Z) ->
    spec s (CGcRatio f) A A
| S_auto A : spec s (CAuto false) A A
| S_reorder A : spec s CReorder A
    (AState (ab A) (match force_reorder c s with Ok _ s' => s_l2i s' | _ => ab_order A end)
       false false (ab_clean A))
| S_dpld d vc f x F A : ab A !! x = Some F -> tval c 1 ->
    vc_from vc < dom c (vc_index vc) -> vc_to vc < dom c (vc_index vc) ->
    spec s (CDpld d vc f x) A (bindf d (fun rho =>
      if f (F (upd rho (vc_index vc) (vc_from vc))) (F (upd rho (vc_index vc) (vc_to vc))) then 1%Z else 0%Z) A)
| S_extend d from i x F A : ab A !! x = Some F -> ab_canon A = true -> i < nvars c -> tval c Undef ->
    (forall rho k, valid c rho -> k < dom c i -> F (upd rho i k) = F rho) ->
    spec s (CExtend d from i x) A (bindf d (fun rho => if rho i =? from then F rho else Undef) A)
| S_dplde d vc f from x F A : ab A !! x = Some F -> tval c 1 -> tval c Undef ->
    vc_from vc < dom c (vc_index vc) -> vc_to vc < dom c (vc_index vc) ->
    spec s (CDpldE d vc f from x) A (bindf d (fun rho =>
      if rho (vc_index vc) =? from then
        if f (F (upd rho (vc_index vc) (vc_from vc))) (F (upd rho (vc_index vc) (vc_to vc))) then 1%Z else 0%Z
      else Undef) A)
| S_mnf x F A fl : ab A !! x = Some F -> (fl = true -> ab_clean A = true /\ convex F) ->
    spec s (CMnf x) A (AState (ab A) (ab_order A) (ab_canon A) (ab_cache A) fl).

(** ** Histories *)

(** arguments of the constructor; the ratios as functions of the node count *)
Record cargs := CArgs {
  ca_order : list Z;
  ca_main : Z;
  ca_extra : Z;
  ca_cache : Z;
  ca_caps : list Z;
  ca_gcthr : Z -> Z;
  ca_cratio : Z -> Z
}.

Definition new_manager (p : cargs) : M unit :=
  construct c (ca_order p) (ca_main p) (ca_extra p) (ca_cache p) (ca_caps p) (ca_gcthr p) (ca_cratio p).

(** a permutation of the variable indices *)
Definition is_order (n : nat) (order : list Z) : Prop := Permutation order (map Z.of_nat (seq 0 n)).

Record cargs_ok (p : cargs) : Prop := {
  co_order : is_order (nvars c) (ca_order p);
  co_caps : length (ca_caps p) = nvars c;
  co_main : (0 <= ca_main p)%Z;
  co_extra : (0 <= ca_extra p)%Z;
  co_strict : strict = true ->
    (1 <= ca_extra p)%Z /\ forall n, (ca_main p <= n)%Z -> (1 <= ca_gcthr p n)%Z
}.

Definition no_objects (p : cargs) : astate := AState ∅ (map Z.to_nat (ca_order p)) true true true.

(** [history p ks s vars A]: a program that constructs a manager with [p] and
    makes the calls [ks] reaches manager state [s] with objects [vars], which
    are described by [A] *)
Inductive history (p : cargs) : list call -> st -> vars_t -> astate -> Prop :=
| H_new s0 s : cargs_ok p -> new_manager p s0 = Ok tt s -> history p [] s ∅ (no_objects p)
| H_call ks s vars A k A' s' vars' :
    history p ks s vars A -> spec s k A A' -> exec c k vars s = Ok vars' s' ->
    history p (ks ++ [k]) s' vars' A'.

End spec.
