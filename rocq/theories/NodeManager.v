(** * node_manager.hpp: nodes, garbage collection *)

From stdpp Require Import gmap list.
From Coq Require Import ZArith.
From Verif Require Import Base Ops Tables.

Local Open Scope Z_scope.

(** ** Node access: node.hpp *)

(** dereference; a node that is not in use must not be dereferenced *)
Definition getn (a : positive) : M node := fun s =>
  match s_heap s !! a with
  | Some n => if n_used n then Ok n s else Err EStale
  | None => Err EStale
  end.

Definition modn (a : positive) (f : node -> node) : M unit :=
  let* n := getn a in
  modify (fun s => set_heap (<[a := f n]> (s_heap s)) s).

(** node.hpp:327-336 set_marked, set_notmarked, toggle_marked *)
Definition set_mark (b : bool) (a : positive) : M unit :=
  modn a (fun n => Node (n_body n) b (n_used n) (n_refs n)).
Definition toggle_mark (a : positive) : M unit :=
  modn a (fun n => Node (n_body n) (negb (n_mark n)) (n_used n) (n_refs n)).

(** node.hpp:175-179: the reference count has 29 bits *)
Definition refs_limit : N := 536870912.

(** node.hpp:344-349 inc_ref_count *)
Definition inc_ref (a : positive) : M unit :=
  let* n := getn a in
  if (n_refs n + 1 <? refs_limit)%N
  then modify (fun s => set_heap (<[a := Node (n_body n) (n_mark n) (n_used n) (n_refs n + 1)]> (s_heap s)) s)
  else fail ERefOver.

(** node.hpp:351-356 dec_ref_count *)
Definition dec_ref (a : positive) : M unit :=
  let* n := getn a in
  if (n_refs n =? 0)%N then fail ERefUnder
  else modify (fun s => set_heap (<[a := Node (n_body n) (n_mark n) (n_used n) (n_refs n - 1)]> (s_heap s)) s).

(** node.hpp:291-301 *)
Definition is_term (n : node) : bool :=
  match n_body n with Term _ => true | Int _ _ => false end.

(** get_son / get_sons / get_index: node.hpp:255-271, 359-364 *)
Definition get_int (a : positive) : M (nat * list positive) :=
  let* n := getn a in
  match n_body n with
  | Int i sons => ret (i, sons)
  | Term _ => fail EAssert
  end.

Definition get_son (a : positive) (k : nat) : M positive :=
  let* is := get_int a in of_opt EOob (snd is !! k).

Section manager.
Context (c : cfg).

(** ** Levels and domains: node_manager.hpp:528-570 *)

Definition level_of_index (i : nat) : M nat := fun s => of_opt EOob (s_i2l s !! i) s.
Definition index_at (level : nat) : M nat := fun s => of_opt EOob (s_l2i s !! level) s.

Definition get_level (a : positive) : M nat :=
  let* n := getn a in
  match n_body n with
  | Term _ => ret (nvars c)
  | Int i _ => level_of_index i
  end.

(** ** delete_node: node_manager.hpp:1073-1080 *)
Definition delete_node (a : positive) : M unit :=
  let* n := getn a in
  if c_dbg c && n_mark n then fail EAssert else
  modify (fun s =>
    set_pool (pool_destroy (s_pool s) a)
      (set_heap (<[a := Node (n_body n) (n_mark n) false (n_refs n)]> (s_heap s))
         (set_count (s_count s - 1) s))).

(** can_be_gced: node_manager.hpp:1229-1233 *)
Definition can_be_gced (n : node) : bool := (n_refs n =? 0)%N && negb (n_mark n).

(** ** collect_garbage: node_manager.hpp:628-686 *)

(** lines 645-655, one iteration of the table loop *)
Definition gc_node (i b : nat) (a : positive) : M unit :=
  let* n := getn a in
  if can_be_gced n then
    let* is := get_int a in
    let* _ := mapM_ dec_ref (snd is) in
    let* t := (fun s => of_opt EOob (s_tabs s !! i) s) in
    let* t' := of_opt ENull (tab_erase_at t b a) in
    let* _ := modify (fun s => set_tabs (<[i := t']> (s_tabs s)) s) in
    delete_node a
  else ret tt.

(** lines 638-656, one level; the chains are read up front, which is what the
    iterator sees because only visited nodes are erased *)
Definition gc_level (level : nat) : M unit :=
  let* i := index_at level in
  let* t := (fun s => of_opt EOob (s_tabs s !! i) s) in
  mapM_ (fun bc : nat * list positive => mapM_ (gc_node i (fst bc)) (snd bc))
        (imap pair (t_buckets t)).

(** lines 659-675, one slot of terminals_ or specials_ *)
Definition gc_slot (get : st -> list (option positive))
    (set : list (option positive) -> st -> st) (k : nat) : M unit :=
  let* o := gets (fun s => get s !! k) in
  match o with
  | Some (Some a) =>
      let* n := getn a in
      if can_be_gced n then
        let* _ := delete_node a in
        modify (fun s => set (<[k := None]> (get s)) s)
      else ret tt
  | _ => ret tt
  end.

Definition collect_garbage : M unit :=
  let* _ := mapM_ gc_level (seq 0 (nvars c)) in
  let* nt := gets (fun s => length (s_terms s)) in
  let* _ := mapM_ (gc_slot s_terms set_terms) (seq 0 nt) in
  let* ns := gets (fun s => length (s_specs s)) in
  mapM_ (gc_slot s_specs set_specs) (seq 0 ns).

(** ** force_gc: node_manager.hpp:621-626 *)
Definition force_gc : M unit :=
  let* _ := collect_garbage in
  modify (fun s => set_cache (cache_remove_unused (s_heap s) (s_cache s)) s).

(** ** adjust_tables, adjust_caches: node_manager.hpp:996-1019 *)
Definition adjust_tables : M unit :=
  modify (fun s => set_tabs (map (tab_adjust c (s_heap s)) (s_tabs s)) s).
Definition adjust_caches : M unit :=
  modify (fun s => set_cache (cache_grow c (s_cache s) (s_cratio s (s_count s))) s).

(** ** make_new_node: node_manager.hpp:1021-1071 *)

Definition grow : M unit := modify (fun s => set_pool (pool_grow (s_pool s)) s).

(** lines 1026-1056 *)
Definition ensure_available : M unit :=
  let* auto := gets s_auto in
  let* avail := gets (fun s => p_avail (s_pool s)) in
  if auto then
    if avail =? 0 then
      let* _ := grow in modify (set_defer true)
    else ret tt
  else
    if avail =? 0 then
      let* thr := gets (fun s => s_gcthr s (s_count s)) in
      let* _ := force_gc in
      let* avail := gets (fun s => p_avail (s_pool s)) in
      if avail <? thr then grow else ret tt
    else ret tt.

(** lines 1058-1067 *)
Definition adjust_if_needed : M unit :=
  let* cnt := gets s_count in
  let* adj := gets s_adj in
  if adj <=? cnt then
    let* _ := adjust_tables in
    let* _ := adjust_caches in
    modify (set_adj (2 * adj))
  else ret tt.

(** lines 1069-1070 *)
Definition create_node (b : body) : M positive := fun s =>
  match pool_create (s_pool s) with
  | None => Err EPool
  | Some (a, p) =>
      Ok a (set_pool p (set_heap (<[a := Node b false true 0]> (s_heap s))
             (set_count (s_count s + 1) s)))
  end.

Definition make_new_node (b : body) : M positive :=
  let* _ := ensure_available in
  let* _ := adjust_if_needed in
  create_node b.

(** ** make_special_node: node_manager.hpp:462-480 *)
Definition make_special_node : M positive :=
  let* _ := modify (fun s =>
    match s_specs s with [] => set_specs [None] s | _ => s end) in
  let* slot := gets (fun s => s_specs s !! 0%nat) in
  match slot with
  | Some (Some a) => let* _ := set_mark true a in ret a
  | _ =>
      let* a := make_new_node (Term Undef) in
      let* _ := modify (fun s => set_specs (<[0%nat := Some a]> (s_specs s)) s) in
      let* _ := set_mark true a in ret a
  end.

(** ** make_terminal_node: node_manager.hpp:435-460.  A negative value passes
    the size test and indexes terminals_ far out of bounds. *)
Definition make_terminal_node (v : Z) : M positive :=
  if c_dbg c && match c_fixed c with Some m => m <=? v | None => false end
  then fail EAssert else
  if is_special v then make_special_node else
  if v <? 0 then fail EOob else
  let k := Z.to_nat v in
  let* _ := modify (fun s =>
    if Z.of_nat (length (s_terms s)) <=? v
    then set_terms (s_terms s ++ replicate (S k - length (s_terms s)) None) s else s) in
  let* slot := gets (fun s => s_terms s !! k) in
  match slot with
  | Some (Some a) => let* _ := set_mark true a in ret a
  | _ =>
      let* a := make_new_node (Term v) in
      let* _ := modify (fun s => set_terms (<[k := Some a]> (s_terms s)) s) in
      let* _ := set_mark true a in ret a
  end.

(** ** is_redundant: node_manager.hpp:980-994 *)
Fixpoint adj_eq (l : list positive) : bool :=
  match l with
  | a :: ((b :: _) as t) => bool_decide (a = b) && adj_eq t
  | _ => true
  end.

(** ** make_internal_node: node_manager.hpp:489-526 *)
Definition make_internal_node (i : nat) (sons : list positive) : M positive :=
  if adj_eq sons then of_opt EOob (sons !! 0%nat) else
  let* found := (fun s =>
    match s_tabs s !! i with
    | Some t => Ok (tab_find c (s_heap s) t sons) s
    | None => Err EOob
    end) in
  match found with
  | Some a =>
      let* _ := mapM_ (set_mark false) sons in
      let* _ := set_mark true a in ret a
  | None =>
      let* a := make_new_node (Int i sons) in
      let* _ := modify (fun s =>
        set_tabs (alter (fun t => tab_insert t a (node_hash c sons)) i (s_tabs s)) s) in
      let* _ := mapM_ inc_ref sons in
      let* _ := mapM_ (set_mark false) sons in
      let* _ := set_mark true a in ret a
  end.

(** ** cache_find, cache_put: node_manager.hpp:795-831 *)

(** the pointer comparison of lines 802 and 825 *)
Definition order_args (comm : bool) (l r : positive) : positive * positive :=
  if comm && (c_ptr c r <? c_ptr c l)%N then (r, l) else (l, r).

Definition cache_find (id : Z) (comm : bool) (l r : positive) : M (option positive) :=
  let '(l, r) := order_args comm l r in
  let* o := gets (fun s => cache_lookup c (s_cache s) id l r) in
  match o with
  | Some a => let* _ := set_mark true a in ret (Some a)
  | None => ret None
  end.

Definition cache_put (id : Z) (comm : bool) (res l r : positive) : M unit :=
  let '(l, r) := order_args comm l r in
  modify (fun s => set_cache (cache_insert c (s_cache s) id res l r) s).

(** cache_clear: node_manager.hpp:833-837 *)
Definition cache_clear : M unit := modify (fun s => set_cache (cache_cleared (s_cache s)) s).

(** ** Constructor: node_manager.hpp:323-403 *)

(** check_distinct: node_manager.hpp:1206-1227; [None] is an access outside of
    the bitset *)
Fixpoint check_bits (bits : list bool) (l : list Z) : option bool :=
  match l with
  | [] => Some true
  | x :: l =>
      if x <? 0 then None else
      match bits !! Z.to_nat x with
      | None => None
      | Some true => Some false
      | Some false => check_bits (<[Z.to_nat x := true]> bits) l
      end
  end.

Definition check_distinct (ints : list Z) : option bool :=
  match ints with
  | [] => Some true
  | x :: l => check_bits (replicate (Z.to_nat (fold_left Z.max l x + 1)) false) ints
  end.

(** lines 365-370: the reverse mapping; [None] is a write out of bounds *)
Fixpoint fill_levels (level : nat) (order : list Z) (i2l : list nat) : option (list nat) :=
  match order with
  | [] => Some i2l
  | x :: order =>
      if (x <? 0) || (Z.of_nat (length i2l) <=? x) then None
      else fill_levels (S level) order (<[Z.to_nat x := level]> i2l)
  end.

(** [caps] are the requested table capacities (the double computations of lines
    382-400, see Sizes.v), [cachecap] the one of lines 333-335 *)
Definition construct (order : list Z) (main extra cachecap : Z) (caps : list Z)
    (gcthr cratio : Z -> Z) : M unit := fun _ =>
  if c_dbg c && negb (length order =? nvars c)%nat then Err EAssert else
  match (if c_dbg c then check_distinct order else Some true) with
  | None => Err EOob
  | Some false => Err EAssert
  | Some true =>
      match fill_levels 0 order (replicate (nvars c) 0%nat) with
      | None => Err EOob
      | Some i2l =>
          Ok tt (St ∅ (map tab_new caps) [] [] (cache_new cachecap) (pool_new main extra)
                    (map Z.to_nat order) i2l 0 230 gcthr cratio false false)
      end
  end.

(** default_or_fwd: diagram_manager.hpp:1967-1983 *)
Definition default_or_fwd (varCount : nat) (indices : list Z) : list Z :=
  match indices with [] => map Z.of_nat (seq 0 varCount) | _ => indices end.

End manager.

(** ** diagram.hpp:131-156: handle construction, copy and destruction *)

Definition diagram_of (a : positive) : M unit :=
  let* _ := inc_ref a in set_mark false a.
Definition diagram_copy (a : positive) : M unit := inc_ref a.
Definition diagram_destroy (a : positive) : M unit := dec_ref a.
