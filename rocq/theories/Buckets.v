(** * The arrays of the unique tables and of the apply cache

    Line numbers refer to libteddy/details/hash_tables.hpp, with nm: to
    libteddy/details/node_manager.hpp.

    What is followed here is which arrays are allocated, used and freed.  The
    contents of the arrays are left out; an access to some element is an access to the
    element with the largest index that the code can compute ([x mod capacity]).  Who calls
    what and when depends on the contents, so programs of the manager are arbitrary lists
    of the calls it makes.  Both classes have the same fields as far as
    arrays are concerned, and one record stands for both.  Allocation does not fail. *)

From stdpp Require Import list.
From Coq Require Import ZArith.
From Verif Require Import Base Tables Tsl.

Local Open Scope Z_scope.

(** ** Memory: the live arrays with their numbers of elements *)
Record mem := Mem { m_next : nat; m_live : list (nat * Z) }.

Fixpoint take_out (id : nat) (l : list (nat * Z)) : option (Z * list (nat * Z)) :=
  match l with
  | [] => None
  | (i, n) :: l =>
      if (i =? id)%nat then Some (n, l)
      else match take_out id l with Some (k, l) => Some (k, (i, n) :: l) | None => None end
  end.

(** std::calloc, std::malloc: lines 709-725, 866-873 *)
Definition alloc (n : Z) (m : mem) : out (nat * mem) :=
  Val (m_next m, Mem (S (m_next m)) ((m_next m, n) :: m_live m)).

(** std::free; nullptr is allowed *)
Definition free (p : option nat) (m : mem) : out mem :=
  match p with
  | None => Val m
  | Some id => match take_out id (m_live m) with
               | Some (_, l) => Val (Mem (m_next m) l)
               | None => Bad EStale
               end
  end.

(** elements 0, ..., n - 1 of an array are read or written *)
Definition touch (p : option nat) (n : Z) (m : mem) : out unit :=
  match p with
  | None => if n <=? 0 then Val tt else Bad ENull
  | Some id => match take_out id (m_live m) with
               | Some (k, _) => if n <=? k then Val tt else Bad EOob
               | None => Bad EStale
               end
  end.

(** ** unique_table: lines 244-247; apply_cache: lines 333-335 *)
Record btab := BTab { b_size : Z; b_cap : Z; b_arr : option nat }.

(** lines 438-449, 729-735 *)
Definition b_new (capacity : Z) (m : mem) : out (btab * mem) :=
  let cap := get_gte_capacity capacity in
  let? a := alloc cap m in
  let (id, m) := a : nat * mem in
  let? _ := touch (Some id) cap m in
  Val (BTab 0 cap (Some id), m).

(** lines 451-463 *)
Definition b_copy (t : btab) (m : mem) : out (btab * mem) :=
  let? a := alloc (b_cap t) m in
  let (id, m) := a : nat * mem in
  let? _ := touch (Some id) (b_cap t) m in
  let? _ := touch (b_arr t) (b_cap t) m in
  Val (BTab (b_size t) (b_cap t) (Some id), m).

(** lines 465-472, 737-743: the new object and what is left of the old one *)
Definition b_move (t : btab) : btab * btab := (t, BTab 0 (b_cap t) None).

(** lines 474-478, 745-749 *)
Definition b_destroy (t : btab) (m : mem) : out mem := free (b_arr t) m.

(** find, put, insert, erase, begin, clear, remove_unused: some elements of the array *)
Definition b_use (t : btab) (m : mem) : out unit := touch (b_arr t) (b_cap t) m.

(** lines 596-629, 833-864; the size of the cache, which is set to 0 and counted again, is
    not used for anything that concerns arrays.  The pointer to the old array is a local variable; the old
    array is not freed *)
Definition b_rehash (t : btab) (newcap : Z) (m : mem) : out (btab * mem) :=
  let? a := alloc newcap m in
  let (id, m) := a : nat * mem in
  let? _ := touch (b_arr t) (b_cap t) m in
  let? _ := touch (Some id) newcap m in
  Val (BTab (b_size t) newcap (Some id), m).

(** lines 786-795 *)
Definition b_grow (t : btab) (aprox : Z) (m : mem) : out (btab * mem) :=
  let newcap := get_gte_capacity aprox in
  if b_cap t <? newcap then b_rehash t newcap m else Val (t, m).

(** lines 543-553; size_ / 0.75 as in Tables.v *)
Definition b_adjust (t : btab) (m : mem) : out (btab * mem) := b_grow t (4 * b_size t / 3) m.

(** lines 499-514; [other] is the parameter, destroyed by the caller at the end of the call *)
Definition b_merge (t other : btab) (m : mem) : out (btab * mem) :=
  let? r := b_adjust (BTab (b_size t + b_size other) (b_cap t) (b_arr t)) m in
  let (t, m) := r : btab * mem in
  let? _ := b_use other m in
  let? _ := b_use t m in
  Val (t, m).

(** ** The manager: nm:241-243 *)
Record bman := BMan { bm_cache : btab; bm_tabs : list btab }.

(** std::vector::emplace_back, nm:387-402: when the vector has to grow, its elements
    are moved and what is left of the old ones is destroyed *)
Fixpoint relocate (ts : list btab) (m : mem) : out (list btab * mem) :=
  match ts with
  | [] => Val ([], m)
  | t :: ts =>
      let (t, old) := b_move t in
      let? m := b_destroy old m in
      let? r := relocate ts m in
      let (ts, m) := r : list btab * mem in
      Val (t :: ts, m)
  end.

Definition emplace (ts : list btab) (capacity : Z) (full : bool) (m : mem) : out (list btab * mem) :=
  let? r := b_new capacity m in
  let (t, m) := r : btab * mem in
  let? r := (if full then relocate ts m else Val (ts, m)) in
  let (ts, m) := r : list btab * mem in
  Val (ts ++ [t], m).

Fixpoint emplace_all (ts : list btab) (caps : list (Z * bool)) (m : mem) : out (list btab * mem) :=
  match caps with
  | [] => Val (ts, m)
  | (cap, full) :: caps =>
      let? r := emplace ts cap full m in
      let (ts, m) := r : list btab * mem in
      emplace_all ts caps m
  end.

(** the constructor, nm:323-402 *)
Definition b_construct (cachecap : Z) (caps : list (Z * bool)) (m : mem) : out (bman * mem) :=
  let? r := b_new cachecap m in
  let (ca, m) := r : btab * mem in
  let? r := emplace_all [] caps m in
  let (ts, m) := r : list btab * mem in
  Val (BMan ca ts, m).

(** nm:997-1013 *)
Fixpoint adjust_each (ts : list btab) (m : mem) : out (list btab * mem) :=
  match ts with
  | [] => Val ([], m)
  | t :: ts =>
      let? r := b_adjust t m in
      let (t, m) := r : btab * mem in
      let? r := adjust_each ts m in
      let (ts, m) := r : list btab * mem in
      Val (t :: ts, m)
  end.

(** what the manager does with one table, with all tables or with the cache *)
Inductive bop :=
| BUse (i : nat)        (* find, iteration, clear: nm:508-509, 632-660, 766-775 *)
| BInsert (i : nat)     (* nm:520 *)
| BErase (i : nat)      (* nm:650, 1326 *)
| BAdjust               (* adjust_tables, nm:997-1013 *)
| BCache                (* find, put, clear, remove_unused: nm:625, 807, 830, 836, 855 *)
| BGrow (aprox : Z).    (* adjust_caches, nm:1015-1020 *)

Definition bstep (b : bman) (o : bop) (m : mem) : out (bman * mem) :=
  match o with
  | BUse i => let? t := o_get EOob (bm_tabs b !! i) in let? _ := b_use t m in Val (b, m)
  | BInsert i =>
      let? t := o_get EOob (bm_tabs b !! i) in
      let? _ := b_use t m in
      Val (BMan (bm_cache b) (<[i := BTab (b_size t + 1) (b_cap t) (b_arr t)]> (bm_tabs b)), m)
  | BErase i =>
      let? t := o_get EOob (bm_tabs b !! i) in
      let? _ := b_use t m in
      Val (BMan (bm_cache b) (<[i := BTab (b_size t - 1) (b_cap t) (b_arr t)]> (bm_tabs b)), m)
  | BAdjust =>
      let? r := adjust_each (bm_tabs b) m in
      let (ts, m) := r : list btab * mem in Val (BMan (bm_cache b) ts, m)
  | BCache => let? _ := b_use (bm_cache b) m in Val (b, m)
  | BGrow aprox =>
      let? r := b_grow (bm_cache b) aprox m in
      let (t, m) := r : btab * mem in Val (BMan t (bm_tabs b), m)
  end.

Fixpoint bsteps (b : bman) (os : list bop) (m : mem) : out (bman * mem) :=
  match os with
  | [] => Val (b, m)
  | o :: os => let? r := bstep b o m in let (b, m) := r : bman * mem in bsteps b os m
  end.

(** ** Calls of the manager: [BSwap] is swap_variable_with_next, nm:1343-1367, with the
    calls [os] that swap_node_with_next makes for all nodes in between *)
Inductive bcall :=
| BOp (o : bop)
| BSwap (index next : nat) (os : list bop).

Definition b_swap (b : bman) (i j : nat) (os : list bop) (m : mem) : out (bman * mem) :=
  let? t := o_get EOob (bm_tabs b !! i) in
  (* line 1350 *)
  let? r := b_copy t m in
  let (tmp, m) := r : btab * mem in
  (* line 1351 *)
  let? _ := b_use t m in
  let b := BMan (bm_cache b) (<[i := BTab 0 (b_cap t) (b_arr t)]> (bm_tabs b)) in
  (* lines 1352-1355 *)
  let? _ := b_use tmp m in
  let? r := bsteps b os m in
  let (b, m) := r : bman * mem in
  (* line 1356 *)
  let? t := o_get EOob (bm_tabs b !! i) in
  let? r := b_adjust t m in
  let (t, m) := r : btab * mem in
  let b := BMan (bm_cache b) (<[i := t]> (bm_tabs b)) in
  (* lines 1357-1359: the parameter is constructed from tmpTable by a move *)
  let (other, tmp) := b_move tmp in
  let? t := o_get EOob (bm_tabs b !! j) in
  let? r := b_merge t other m in
  let (t, m) := r : btab * mem in
  let? m := b_destroy other m in
  let b := BMan (bm_cache b) (<[j := t]> (bm_tabs b)) in
  (* line 1367: end of the life of tmpTable *)
  let? m := b_destroy tmp m in
  Val (b, m).

Definition bcall_step (b : bman) (k : bcall) (m : mem) : out (bman * mem) :=
  match k with
  | BOp o => bstep b o m
  | BSwap i j os => b_swap b i j os m
  end.

Fixpoint bcalls (b : bman) (ks : list bcall) (m : mem) : out (bman * mem) :=
  match ks with
  | [] => Val (b, m)
  | k :: ks => let? r := bcall_step b k m in let (b, m) := r : bman * mem in bcalls b ks m
  end.

(** the destructors of the members: the tables, then the cache *)
Fixpoint destroy_all (ts : list btab) (m : mem) : out mem :=
  match ts with
  | [] => Val m
  | t :: ts => let? m := b_destroy t m in destroy_all ts m
  end.

Definition b_destruct (b : bman) (m : mem) : out mem :=
  let? m := destroy_all (bm_tabs b) m in b_destroy (bm_cache b) m.
