(** * Programs that use automatic reordering (specification side)

    Which calls are right in which states when set_auto_reorder is used.  A call
    that takes a handle of its result before the deferred reordering, or does
    not run it, is right at any time ([handle_first]).  The other calls are right
    if nothing is pending and the pool does not grow during the call; that they
    are not right otherwise is C26_auto_reorder_dangling_refuted. *)

From stdpp Require Import gmap list.
From Coq Require Import ZArith.
From Verif Require Import Base Ops NodeManager DiagramManager Reliability World WorldSpec AutoSim.

Definition handle_first (k : call) : Prop :=
  match k with
  | CConst _ _ | CVar _ _ | CVarNot _ _ | CVec _ _ | CCofactor _ _ _ _ | CCofactors _ _ _
  | CCopy _ _ | CMove _ _ | CSwap _ _ | CReset _ | CGc | CClearCache | CCacheRatio _ | CGcRatio _
  | CAuto _ | CReorder => True
  | CExpr _ _ | CApply _ _ _ _ | CLeft _ _ _ | CTree _ _ _ | CTransform _ _ _ | CDpld _ _ _ _
  | CExtend _ _ _ _ | CDpldE _ _ _ _ _ | CMnf _ => False
  end.

(** after a call that may have reordered the variables *)
Definition settle (k : call) (s' : st) (A : astate) : astate :=
  match k with
  | CCofactor _ _ _ _ | CCofactors _ _ _ | CReorder =>
      AState (ab A) (s_l2i s') false (ab_cache A) (ab_clean A)
  | _ => A
  end.

Section spec.
Context (c : cfg) (opsem : Z -> option (Z -> Z -> Z)) (strict : bool).

Inductive ahistory (p : cargs) : list call -> st -> vars_t -> astate -> Prop :=
| A_new s0 s : cargs_ok c strict p -> new_manager c p s0 = Ok tt s -> ahistory p [] s ∅ (no_objects p)
| A_mode ks s vars A b s' vars' :
    ahistory p ks s vars A -> exec c (CAuto b) vars s = Ok vars' s' ->
    ahistory p (ks ++ [CAuto b]) s' vars' A
| A_first ks s vars A k A' s' vars' :
    ahistory p ks s vars A -> handle_first k -> spec c opsem strict s k A A' -> exec c k vars s = Ok vars' s' ->
    ahistory p (ks ++ [k]) s' vars' (settle k s' A')
| A_same ks s vars A k A' s' vars' :
    ahistory p ks s vars A -> spec c opsem strict (quieted s) k A A' -> exec c k vars s = Ok vars' s' ->
    s_defer s = false -> (s_auto s = true -> pool_end s' = pool_end s) ->
    ahistory p (ks ++ [k]) s' vars' A'.

End spec.
