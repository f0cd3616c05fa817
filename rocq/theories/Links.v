(** * hash_tables.hpp: unique tables as chains of next_ pointers

    Line numbers refer to libteddy/details/hash_tables.hpp unless another file is
    named.

    Tables.v describes the buckets of a unique table as lists.  In the code a
    bucket is the head of a chain through the field next_ of the nodes, a field
    that the list of free nodes of the pool uses as well.  This file follows the
    code at that level: the fields next_ of all nodes form one map, which all
    tables share.  Memory of the bucket arrays is not modelled (rehash does not
    free the old array); the sons of the nodes do not change during a call. *)

From stdpp Require Import gmap list.
From Coq Require Import ZArith.
From Verif Require Import Base Tables.

Local Open Scope Z_scope.

(** ** Outcomes: a value, undefined behaviour (dereferencing nullptr, indexing out
    of range), or a loop that was not followed to its end *)
Inductive lout (A : Type) := LVal (a : A) | LBad (e : err) | LLoop.
Arguments LVal {A}. Arguments LBad {A}. Arguments LLoop {A}.
Definition lbind {A B} (m : lout A) (f : A -> lout B) : lout B :=
  match m with LVal a => f a | LBad e => LBad e | LLoop => LLoop end.
Notation "'let!' x := m 'in' k" := (lbind m (fun x => k)) (at level 200, x name, right associativity).
Definition l_get {A} (e : err) (x : option A) : lout A := match x with Some a => LVal a | None => LBad e end.

(** ** The fields next_ of all nodes; no entry: nullptr.  node.hpp:247-256 *)
Notation nexts := (gmap positive positive).
Definition set_next (a : positive) (x : option positive) (nx : nexts) : nexts :=
  match x with Some b => <[a := b]> nx | None => delete a nx end.

(** ** class unique_table: lines 252-257; domain_ is the number of sons *)
Record ptab := PTab { pt_size : Z; pt_cap : N; pt_heads : list (option positive) }.

Section links.
Context (c : cfg) (h : gmap positive node).

Definition hash_of (a : positive) : N := node_hash c (sons_of h a).
Definition idx (t : ptab) (hash : N) : nat := N.to_nat (hash mod pt_cap t).

(** long enough for every chain without a cycle *)
Definition steps (nx : nexts) : nat := S (size nx).

(** lines 439-449 *)
Definition p_new (capacity : Z) : ptab :=
  let cap := Z.to_N (get_gte_capacity capacity) in PTab 0 cap (replicate (N.to_nat cap) None).

(** lines 480-497 *)
Fixpoint walk (fuel : nat) (nx : nexts) (sons : list positive) (current : option positive) : lout (option positive) :=
  match current with
  | None => LVal None
  | Some a =>
      match fuel with
      | O => LLoop
      | S fuel => if node_equals h sons a then LVal (Some a) else walk fuel nx sons (nx !! a)
      end
  end.
Definition p_find (t : ptab) (nx : nexts) (sons : list positive) : lout (option positive) :=
  let! hd := l_get EOob (pt_heads t !! idx t (node_hash c sons)) in
  walk (steps nx) nx sons hd.

(** lines 638-652 *)
Definition p_insert_impl (t : ptab) (nx : nexts) (a : positive) (hash : N) : lout (ptab * nexts) :=
  let i := idx t hash in
  let! bucket := l_get EOob (pt_heads t !! i) in
  let nx := match bucket with Some b => <[a := b]> nx | None => nx end in
  LVal (PTab (pt_size t) (pt_cap t) (<[i := Some a]> (pt_heads t)), nx).

(** lines 516-524 *)
Definition p_insert (t : ptab) (nx : nexts) (a : positive) (hash : N) : lout (ptab * nexts) :=
  let! r := p_insert_impl t nx a hash in
  LVal (PTab (pt_size (fst r) + 1) (pt_cap (fst r)) (pt_heads (fst r)), snd r).

(** ** Iterators: lines 354-435.  [it_bucket] is the offset of bucket_ *)
Record iter := It { it_bucket : nat; it_node : option positive }.

(** lines 427-435: the buckets from [b] on *)
Fixpoint move_to_next_bucket (b : nat) (heads : list (option positive)) : iter :=
  match heads with
  | [] => It b None
  | Some a :: _ => It b (Some a)
  | None :: heads => move_to_next_bucket (S b) heads
  end.
Definition it_from (heads : list (option positive)) (b : nat) : iter := move_to_next_bucket b (drop b heads).
Definition p_begin (t : ptab) : iter := it_from (pt_heads t) 0.
Definition p_end (t : ptab) : iter := It (length (pt_heads t)) None.

Global Instance iter_eq_dec : EqDecision iter.
Proof. solve_decision. Defined.

(** lines 376-387 operator++ *)
Definition it_next (heads : list (option positive)) (nx : nexts) (i : iter) : lout iter :=
  let! a := l_get ENull (it_node i) in
  match nx !! a with
  | Some b => LVal (It (it_bucket i) (Some b))
  | None => LVal (it_from heads (S (it_bucket i)))
  end.

(** ** erase: lines 526-541, 654-679 *)

(** lines 670-674: the node before [a] in a chain *)
Fixpoint find_prev (fuel : nat) (nx : nexts) (a : positive) (prev : option positive) : lout positive :=
  match fuel with
  | O => LLoop
  | S fuel =>
      let! p := l_get ENull prev in
      if bool_decide (nx !! p = Some a) then LVal p else find_prev fuel nx a (nx !! p)
  end.

Definition erase_impl (t : ptab) (nx : nexts) (b : nat) (a : positive) : lout (ptab * nexts * iter) :=
  let! ret := it_next (pt_heads t) nx (It b (Some a)) in
  let! hd := l_get EOob (pt_heads t !! b) in
  if bool_decide (hd = Some a) then
    LVal (PTab (pt_size t - 1) (pt_cap t) (<[b := nx !! a]> (pt_heads t)), set_next a None nx, ret)
  else
    let! prev := find_prev (steps nx) nx a hd in
    LVal (PTab (pt_size t - 1) (pt_cap t) (pt_heads t), set_next a None (set_next prev (nx !! a) nx), ret).

Definition p_erase_it (t : ptab) (nx : nexts) (i : iter) : lout (ptab * nexts * iter) :=
  let! a := l_get ENull (it_node i) in erase_impl t nx (it_bucket i) a.
Definition p_erase (t : ptab) (nx : nexts) (a : positive) : lout (ptab * nexts * iter) :=
  erase_impl t nx (idx t (hash_of a)) a.

(** ** rehash: lines 596-630 *)

(** lines 614-625, one bucket *)
Fixpoint reinsert (fuel : nat) (t : ptab) (nx : nexts) (current : option positive) : lout (ptab * nexts) :=
  match current with
  | None => LVal (t, nx)
  | Some a =>
      match fuel with
      | O => LLoop
      | S fuel =>
          let next := nx !! a in
          let! r := p_insert_impl t (set_next a None nx) a (hash_of a) in
          reinsert fuel (fst r) (snd r) next
      end
  end.
Fixpoint reinsert_all (t : ptab) (nx : nexts) (old : list (option positive)) : lout (ptab * nexts) :=
  match old with
  | [] => LVal (t, nx)
  | hd :: old => let! r := reinsert (steps nx) t nx hd in reinsert_all (fst r) (snd r) old
  end.
Definition p_rehash (t : ptab) (nx : nexts) (newcap : N) : lout (ptab * nexts) :=
  reinsert_all (PTab (pt_size t) newcap (replicate (N.to_nat newcap) None)) nx (pt_heads t).

(** lines 543-553; see Tables.v about the division *)
Definition p_adjust (t : ptab) (nx : nexts) : lout (ptab * nexts) :=
  let newcap := get_gte_capacity (4 * pt_size t / 3) in
  if Z.of_N (pt_cap t) <? newcap then p_rehash t nx (Z.to_N newcap) else LVal (t, nx).

(** lines 561-570: the nodes are not touched *)
Definition p_clear (t : ptab) : ptab := PTab 0 (pt_cap t) (replicate (N.to_nat (pt_cap t)) None).

(** ** merge: lines 499-514; the parameter [other] has its own bucket array *)
Fixpoint merge_loop (fuel : nat) (t : ptab) (nx : nexts) (other : list (option positive)) (i : iter) : lout (ptab * nexts) :=
  if bool_decide (i = It (length other) None) then LVal (t, nx)
  else
    match fuel with
    | O => LLoop
    | S fuel =>
        let! a := l_get ENull (it_node i) in
        let! i' := it_next other nx i in
        let! r := p_insert_impl t (set_next a None nx) a (hash_of a) in
        merge_loop fuel (fst r) (snd r) other i'
    end.
Definition p_merge (t other : ptab) (nx : nexts) : lout (ptab * nexts) :=
  let! r := p_adjust (PTab (pt_size t + pt_size other) (pt_cap t) (pt_heads t)) nx in
  merge_loop (length (pt_heads other) + steps (snd r)) (fst r) (snd r) (pt_heads other) (p_begin other).

(** ** Iterating over a table: "for (node_t* const node : table)" *)
Fixpoint iterate (fuel : nat) (heads : list (option positive)) (nx : nexts) (i : iter) : lout (list positive) :=
  if bool_decide (i = It (length heads) None) then LVal []
  else
    match fuel with
    | O => LLoop
    | S fuel =>
        let! a := l_get ENull (it_node i) in
        let! i' := it_next heads nx i in
        let! l := iterate fuel heads nx i' in
        LVal (a :: l)
    end.
Definition p_nodes (t : ptab) (nx : nexts) : lout (list positive) :=
  iterate (length (pt_heads t) + steps nx) (pt_heads t) nx (p_begin t).

(** ** The loop of the garbage collection: node_manager.hpp:640-655.  [dead] tells
    which nodes can be collected; delete_node hands the node to the pool, which
    puts it in front of its list of free nodes (node_pool.hpp:168-174) *)
Fixpoint sweep (fuel : nat) (dead : positive -> bool) (free : option positive) (t : ptab) (nx : nexts) (i : iter)
  : lout (ptab * nexts * option positive) :=
  if bool_decide (i = p_end t) then LVal (t, nx, free)
  else
    match fuel with
    | O => LLoop
    | S fuel =>
        let! a := l_get ENull (it_node i) in
        if dead a then
          let! r := p_erase_it t nx i in
          let nx := set_next a free (snd (fst r)) in
          sweep fuel dead (Some a) (fst (fst r)) nx (snd r)
        else
          let! i' := it_next (pt_heads t) nx i in
          sweep fuel dead free t nx i'
    end.
Definition p_sweep (dead : positive -> bool) (free : option positive) (t : ptab) (nx : nexts) : lout (ptab * nexts * option positive) :=
  sweep (length (pt_heads t) + steps nx) dead free t nx (p_begin t).

End links.

(** ** Programs that use unique tables

    All tables and the pool share the fields next_.  A table that was merged into
    another one does not exist any more. *)

Record lworld := LW {
  lw_tabs : list (option ptab);
  lw_nx : nexts;
  lw_free : option positive;            (* freeNodes_ of the pool *)
  lw_new : positive;                    (* nextPoolNode_ of the pool *)
  lw_heap : gmap positive node          (* only the sons matter *)
}.

Inductive top :=
| TTable (capacity : Z)                        (* unique_table(capacity, domain) *)
| TCreate (sons : list positive)               (* pool.create(index, sons) *)
| TSons (a : positive) (sons : list positive)  (* node->set_sons(sons) *)
| TRelease (a : positive)                      (* pool.destroy(node) *)
| TGrow (skip : N)                             (* pool.grow(): the cells left in the chunk are skipped *)
| TInsert (i : nat) (a : positive)             (* table.insert(node, hash) *)
| TErase (i : nat) (a : positive)              (* table.erase(node) *)
| TAdjust (i : nat)                            (* table.adjust_capacity() *)
| TClear (i : nat)                             (* table.clear() *)
| TSteal (i : nat)                             (* unique_table tmp(table); table.clear(): node_manager.hpp:1350-1351 *)
| TMerge (i j : nat)                           (* table i.merge(move(table j)) *)
| TSweep (i : nat) (dead : positive -> bool).  (* node_manager.hpp:640-655 *)

Definition with_sons (sons : list positive) : node := Node (Int 0 sons) false true 0.

Section machine.
Context (c : cfg).

Definition tab_at (w : lworld) (i : nat) : lout ptab :=
  match lw_tabs w !! i with Some (Some t) => LVal t | _ => LBad EOob end.

Definition set_tab (w : lworld) (i : nat) (t : ptab) (nx : nexts) : lworld :=
  LW (<[i := Some t]> (lw_tabs w)) nx (lw_free w) (lw_new w) (lw_heap w).

Definition l_exec (k : top) (w : lworld) : lout (lworld * option positive) :=
  match k with
  | TTable cap => LVal (LW (lw_tabs w ++ [Some (p_new cap)]) (lw_nx w) (lw_free w) (lw_new w) (lw_heap w), None)
  | TCreate sons =>
      (* node_pool.hpp:145-166; the constructor of node sets next_ to nullptr *)
      match lw_free w with
      | Some a => LVal (LW (lw_tabs w) (set_next a None (lw_nx w)) (lw_nx w !! a) (lw_new w) (<[a := with_sons sons]> (lw_heap w)), Some a)
      | None => let a := lw_new w in
          LVal (LW (lw_tabs w) (set_next a None (lw_nx w)) None (Pos.succ a) (<[a := with_sons sons]> (lw_heap w)), Some a)
      end
  | TSons a sons => LVal (LW (lw_tabs w) (lw_nx w) (lw_free w) (lw_new w) (<[a := with_sons sons]> (lw_heap w)), None)
  | TRelease a => LVal (LW (lw_tabs w) (set_next a (lw_free w) (lw_nx w)) (Some a) (lw_new w) (lw_heap w), None)
  | TGrow skip => LVal (LW (lw_tabs w) (lw_nx w) (lw_free w) (padd (lw_new w) skip) (lw_heap w), None) (* node_pool.hpp:176-190 *)
  | TInsert i a =>
      let! t := tab_at w i in
      let! r := p_insert t (lw_nx w) a (hash_of c (lw_heap w) a) in
      LVal (set_tab w i (fst r) (snd r), None)
  | TErase i a =>
      let! t := tab_at w i in
      let! r := p_erase c (lw_heap w) t (lw_nx w) a in
      LVal (set_tab w i (fst (fst r)) (snd (fst r)), None)
  | TAdjust i =>
      let! t := tab_at w i in
      let! r := p_adjust c (lw_heap w) t (lw_nx w) in
      LVal (set_tab w i (fst r) (snd r), None)
  | TClear i =>
      let! t := tab_at w i in
      LVal (set_tab w i (p_clear t) (lw_nx w), None)
  | TSteal i =>
      let! t := tab_at w i in
      let w' := set_tab w i (p_clear t) (lw_nx w) in
      LVal (LW (lw_tabs w' ++ [Some t]) (lw_nx w') (lw_free w') (lw_new w') (lw_heap w'), None)
  | TMerge i j =>
      let! t := tab_at w i in
      let! t' := tab_at w j in
      let! r := p_merge c (lw_heap w) t t' (lw_nx w) in
      let w' := set_tab w i (fst r) (snd r) in
      LVal (LW (<[j := None]> (lw_tabs w')) (lw_nx w') (lw_free w') (lw_new w') (lw_heap w'), None)
  | TSweep i dead =>
      let! t := tab_at w i in
      let! r := p_sweep dead (lw_free w) t (lw_nx w) in
      LVal (LW (<[i := Some (fst (fst r))]> (lw_tabs w)) (snd (fst r)) (snd r) (lw_new w) (lw_heap w), None)
  end.

Definition l_start : lworld := LW [] ∅ None 1 ∅.

Definition l_find (w : lworld) (i : nat) (sons : list positive) : lout (option positive) :=
  let! t := tab_at w i in p_find c (lw_heap w) t (lw_nx w) sons.
Definition l_size (w : lworld) (i : nat) : lout Z := let! t := tab_at w i in LVal (pt_size t).
Definition l_nodes (w : lworld) (i : nat) : lout (list positive) := let! t := tab_at w i in p_nodes t (lw_nx w).

Fixpoint l_run (ks : list top) (w : lworld) : lout lworld :=
  match ks with
  | [] => LVal w
  | k :: ks => let! r := l_exec k w in l_run ks (fst r)
  end.

End machine.
