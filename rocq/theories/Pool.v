(** * node_pool.hpp, node.hpp: lifetimes of nodes, of their son arrays and of the chunks

    Line numbers refer to libteddy/details/node_pool.hpp unless another file is named.

    Tables.v numbers the cells of the pool and forgets the chunks.  Here a cell is a
    place in a chunk, the objects in the cells have constructors and destructors, and
    nodes of mixed degree own an array that make_son_container allocated.  The list of
    free nodes is a list; Links.v has its pointers.  For nodes of a fixed degree the
    sons are part of the node and the destructor is trivial; that case is the one
    without arrays. *)

From stdpp Require Import gmap list.
From Coq Require Import ZArith.
From Verif Require Import Base Links.

(** chunk and offset *)
Notation cell := (nat * nat)%type.

(** what the destructor looks at, node.hpp:214-227: the bit LeafM and the array; both
    outlive the release of the node, which only clears UsedM (node_manager.hpp:1073-1080) *)
Inductive obj := OLeaf | OInner (sons : nat).

Record lpool := LPool {
  q_chunks : list (nat * nat);      (* pools_: chunk and its size, newest first *)
  q_next : cell;                    (* nextPoolNode_ *)
  q_free : list cell;               (* freeNodes_ *)
  q_main : nat;
  q_extra : nat;
  q_avail : Z;
  q_cells : gmap (nat * nat) obj;   (* cells that hold an object *)
  q_arrays : gset nat;              (* son arrays that are allocated *)
  q_fresh : nat                     (* next array *)
}.

(** std::free of a son array *)
Definition free_array (a : nat) (arrays : gset nat) : lout (gset nat) :=
  if decide (a ∈ arrays) then LVal (arrays ∖ {[a]}) else LBad EStale.

(** node.hpp:214-227 ~node *)
Definition destruct_cell (cl : cell) (m : gmap (nat * nat) obj * gset nat) : lout (gmap (nat * nat) obj * gset nat) :=
  match fst m !! cl with
  | None => LBad EUninit
  | Some OLeaf => LVal (delete cl (fst m), snd m)
  | Some (OInner a) => let! arrays := free_array a (snd m) in LVal (delete cl (fst m), arrays)
  end.

Inductive pop :=
| PArray                              (* make_son_container: node.hpp:99-105 *)
| PDelArray (a : nat)                 (* delete_son_container: node.hpp:107-110 *)
| PCreate (o : obj)                   (* create(value), create(index, sons) *)
| PRelease (cl : cell)                (* destroy(node) *)
| PSetSons (cl : cell) (a : nat)      (* node->set_sons(sons): node.hpp:272-281 *)
| PGrow.

Inductive pres := RNone | RArray (a : nat) | RCell (cl : cell).

(** lines 74-93 *)
Definition q_new (main extra : nat) : lpool :=
  LPool [(0, main)] (0, 0) [] main extra (Z.of_nat main) ∅ ∅ 0.

Definition chunk_size (p : lpool) (id : nat) : nat :=
  default 0 (snd <$> find (fun x => Nat.eqb (fst x) id) (q_chunks p)).

Definition set_mem (p : lpool) (m : gmap (nat * nat) obj * gset nat) : lpool :=
  LPool (q_chunks p) (q_next p) (q_free p) (q_main p) (q_extra p) (q_avail p) (fst m) (snd m) (q_fresh p).

Definition q_exec (k : pop) (p : lpool) : lout (lpool * pres) :=
  match k with
  | PArray => LVal (LPool (q_chunks p) (q_next p) (q_free p) (q_main p) (q_extra p) (q_avail p) (q_cells p)
                      ({[q_fresh p]} ∪ q_arrays p) (S (q_fresh p)), RArray (q_fresh p))
  | PDelArray a => let! arrays := free_array a (q_arrays p) in LVal (set_mem p (q_cells p, arrays), RNone)
  | PCreate o =>
      (* lines 145-166; without the assertion the pool would run over the end of the chunk *)
      if (q_avail p <=? 0)%Z then LBad EAssert else
      match q_free p with
      | cl :: fr =>
          let! m := destruct_cell cl (q_cells p, q_arrays p) in
          LVal (LPool (q_chunks p) (q_next p) fr (q_main p) (q_extra p) (q_avail p - 1) (<[cl := o]> (fst m)) (snd m) (q_fresh p), RCell cl)
      | [] =>
          let cl := q_next p in
          if decide (snd cl < chunk_size p (fst cl)) then
            LVal (LPool (q_chunks p) (fst cl, S (snd cl)) [] (q_main p) (q_extra p) (q_avail p - 1) (<[cl := o]> (q_cells p)) (q_arrays p) (q_fresh p), RCell cl)
          else LBad EOob
      end
  | PRelease cl =>
      (* lines 168-174 *)
      LVal (LPool (q_chunks p) (q_next p) (cl :: q_free p) (q_main p) (q_extra p) (q_avail p + 1) (q_cells p) (q_arrays p) (q_fresh p), RNone)
  | PSetSons cl a =>
      match q_cells p !! cl with
      | Some (OInner old) => let! arrays := free_array old (q_arrays p) in LVal (set_mem p (<[cl := OInner a]> (q_cells p), arrays), RNone)
      | _ => LBad EUninit
      end
  | PGrow =>
      (* lines 176-190 *)
      let id := length (q_chunks p) in
      LVal (LPool ((id, q_extra p) :: q_chunks p) (id, 0) (q_free p) (q_main p) (q_extra p) (q_avail p + Z.of_nat (q_extra p)) (q_cells p) (q_arrays p) (q_fresh p), RNone)
  end.

(** lines 203-219 deallocate_pool: the destructors of the cells [from, last) *)
Fixpoint destruct_cells (id from count : nat) (m : gmap (nat * nat) obj * gset nat) : lout (gmap (nat * nat) obj * gset nat) :=
  match count with
  | O => LVal m
  | S count => let! m := destruct_cell (id, from) m in destruct_cells id (S from) count m
  end.

(** lines 114-130: the chunks behind the current one; the last one is the main pool *)
Fixpoint dealloc_rest (main extra : nat) (chunks : list (nat * nat)) (m : gmap (nat * nat) obj * gset nat) : lout (gmap (nat * nat) obj * gset nat) :=
  match chunks with
  | [] => LVal m
  | (id, _) :: rest =>
      let! m := destruct_cells id 0 (match rest with [] => main | _ => extra end) m in dealloc_rest main extra rest m
  end.

(** lines 106-131 ~node_pool; nextPoolNode_ points into the current chunk *)
Definition q_end (p : lpool) : lout (gmap (nat * nat) obj * gset nat) :=
  match q_chunks p with
  | [] => LBad ENull
  | (id, _) :: rest =>
      let! m := destruct_cells id 0 (snd (q_next p)) (q_cells p, q_arrays p) in
      dealloc_rest (q_main p) (q_extra p) rest m
  end.
