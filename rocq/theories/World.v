(** * Client programs: named diagram objects and calls of the manager's API *)

From stdpp Require Import gmap list.
From Coq Require Import ZArith.
From Verif Require Import Base Ops Tables NodeManager Tools Sift DiagramManager Reliability.

(** A program state: the manager and the diagram objects of the program.  A name
    that is not in the map is a default-constructed or moved-from object
    (diagram.hpp:91, root_ = nullptr). *)
Notation vars_t := (gmap nat positive).

Inductive call :=
| CConst (d : nat) (v : Z)                          (* d = m.constant(v) *)
| CVar (d i : nat)                                  (* d = m.variable(i) *)
| CVarNot (d i : nat)                               (* d = m.variable_not(i) *)
| CVec (d : nat) (vs : list Z)                      (* d = m.from_vector(vs) *)
| CExpr (d : nat) (e : expr)                        (* d = m.from_expression_tree(e) *)
| CApply (d : nat) (o : opc) (x y : nat)            (* d = m.apply<o>(x, y) *)
| CLeft (d : nat) (o : opc) (xs : list nat)         (* d = m.left_fold<o>(xs) *)
| CTree (d : nat) (o : opc) (xs : list nat)         (* d = m.tree_fold<o>(xs), in place *)
| CTransform (d : nat) (f : Z -> Z) (x : nat)       (* d = m.transform(x, f) *)
| CCofactor (d x i k : nat)                         (* d = m.get_cofactor(x, i, k) *)
| CCofactors (d x : nat) (vars : list (nat * nat))  (* d = m.get_cofactor(x, vars) *)
| CCopy (d x : nat)                                 (* d = x *)
| CMove (d x : nat)                                 (* d = std::move(x) *)
| CSwap (d x : nat)                                 (* swap(d, x) *)
| CReset (d : nat)                                  (* end of the life of d *)
| CGc                                               (* m.force_gc() *)
| CClearCache                                       (* m.clear_cache() *)
| CCacheRatio (f : Z -> Z)                          (* m.set_cache_ratio(r), f n = r * n *)
| CGcRatio (f : Z -> Z)                             (* m.set_gc_ratio(r), f n = r * n *)
| CAuto (b : bool)                                  (* m.set_auto_reorder(b) *)
| CReorder                                          (* m.force_reorder() *)
| CDpld (d : nat) (vc : var_change) (f : Z -> Z -> bool) (x : nat) (* d = m.dpld(vc, f, x) *)
| CExtend (d from i x : nat)                        (* d = m.to_dpld_e(from, i, x) *)
| CDpldE (d : nat) (vc : var_change) (f : Z -> Z -> bool) (from x : nat)
                                                    (* d = m.to_dpld_e(from, vc.index_, m.dpld(vc, f, x)) *)
| CMnf (x : nat).                                   (* the diagram of m.fussell_vesely_importance(_, x, ...) *)

(** diagram.hpp:172-175 equals, 111-129 operator==: the root pointers are compared *)
Definition equals (vars : vars_t) (x y : nat) : bool := bool_decide (vars !! x = vars !! y).

(** set_gc_ratio, set_cache_ratio: node_manager.hpp:405-427; diagram.hpp:131-190 for the objects *)
Section exec.
Context (c : cfg).

Definition deref (vars : vars_t) (x : nat) : M positive := of_opt ENull (vars !! x).

(** the object [d] receives the reference [a]; operator= swaps with a temporary,
    whose destructor releases the old reference (diagram.hpp:163-169) *)
Definition put (vars : vars_t) (d : nat) (a : positive) : M vars_t :=
  let* _ := drop_handle (vars !! d) in ret (<[d := a]> vars).

Definition set_opt (vars : vars_t) (d : nat) (o : option positive) : vars_t :=
  match o with Some a => <[d := a]> vars | None => delete d vars end.

(** the elements of a range after an algorithm that works in place *)
Fixpoint set_opts (vars : vars_t) (xs : list nat) (arr : list (option positive)) : vars_t :=
  match xs, arr with
  | x :: xs, o :: arr => set_opts (set_opt vars x o) xs arr
  | _, _ => vars
  end.

Definition exec (k : call) (vars : vars_t) : M vars_t :=
  match k with
  | CConst d v => let* a := constant c v in put vars d a
  | CVar d i => let* a := variable c i in put vars d a
  | CVarNot d i => let* a := variable_not c i in put vars d a
  | CVec d vs => let* a := from_vector c vs in put vars d a
  | CExpr d e => let* a := from_expression_tree c e in put vars d a
  | CApply d o x y =>
      let* l := deref vars x in
      let* r := deref vars y in
      let* a := apply c o l r in put vars d a
  | CLeft d o xs =>
      let* l := mapM (deref vars) xs in
      let* a := left_fold c o l in put vars d a
  | CTree d o xs =>
      let* l := mapM (deref vars) xs in
      let* ra := tree_fold c o (map Some l) in
      put (set_opts vars xs (snd ra)) d (fst ra)
  | CTransform d f x => let* l := deref vars x in let* a := transform c f l in put vars d a
  | CCofactor d x i k => let* l := deref vars x in let* a := get_cofactor c l i k in put vars d a
  | CCofactors d x vs => let* l := deref vars x in let* a := get_cofactors c l vs in put vars d a
  | CCopy d x =>
      (* the copy constructor dereferences the pointer of its argument *)
      let* l := deref vars x in
      let* _ := diagram_copy l in put vars d l
  | CMove d x =>
      let vars' := delete x vars in
      match vars !! x with
      | Some a => put vars' d a
      | None => let* _ := drop_handle (vars' !! d) in ret (delete d vars')
      end
  | CSwap d x => ret (set_opt (set_opt vars d (vars !! x)) x (vars !! d))
  | CReset d => let* _ := drop_handle (vars !! d) in ret (delete d vars)
  | CGc => let* _ := force_gc c in ret vars
  | CClearCache => let* _ := clear_cache in ret vars
  | CCacheRatio f => let* _ := modify (set_cratio f) in ret vars
  | CGcRatio f => let* _ := modify (set_gcthr f) in ret vars
  | CAuto b => let* _ := modify (set_auto b) in ret vars
  | CReorder => let* _ := force_reorder c in ret vars
  | CDpld d vc f x => let* l := deref vars x in let* a := dpld c vc f l in put vars d a
  | CExtend d from i x => let* l := deref vars x in let* a := to_dpld_e c from i l in put vars d a
  | CDpldE d vc f from x => let* l := deref vars x in let* a := dpld_e c vc f from l in put vars d a
  | CMnf x =>
      let* l := deref vars x in
      let* a := to_mnf c l in
      let* _ := diagram_destroy a in ret vars
  end.

Fixpoint run (ks : list call) (vars : vars_t) : M vars_t :=
  match ks with
  | [] => ret vars
  | k :: ks => let* vars' := exec k vars in run ks vars'
  end.

End exec.
