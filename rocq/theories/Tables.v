(** * Hash tables and node pool: hash_tables.hpp, node_pool.hpp, tools.hpp *)

From stdpp Require Import gmap list.
From Coq Require Import ZArith.
From Verif Require Import Base.

Local Open Scope Z_scope.

(** ** Hashing on 64-bit words: tools.hpp:61-97 *)

Definition w64 (n : N) : N := (n mod 18446744073709551616)%N.

(** tools.hpp:80-84 add_hash *)
Definition add_hash (h e : N) : N :=
  N.lxor h (w64 (e + 2654435769 + N.shiftl h 6 + N.shiftr h 2)).

(** tools.hpp:64-67 do_hash(void* ) *)
Definition ptr_hash (c : cfg) (p : positive) : N := N.shiftr (w64 (c_ptr c p)) 4.

(** hash_tables.hpp:681-691 node_hash *)
Definition node_hash (c : cfg) (sons : list positive) : N :=
  fold_left (fun h p => add_hash h (ptr_hash c p)) sons 0%N.

(** tools.hpp:90-97 pack_hash(opId, lhs, rhs) *)
Definition cache_hash (c : cfg) (op : Z) (l r : positive) : N :=
  add_hash (add_hash (add_hash 0 (Z.to_N (op mod 18446744073709551616)))
                     (ptr_hash c l)) (ptr_hash c r).

(** ** Capacities: hash_tables.hpp:24-29, 340-350 *)

Definition capacities : list Z :=
  [307; 617; 1237; 2477; 4957; 9923; 19853; 39709; 79423; 158849; 317701;
   635413; 1270849; 2541701; 5083423; 10166857; 20333759; 40667527; 81335063;
   162670129; 325340273; 650680571; 1301361143; 2602722289].

Fixpoint gte_capacity_in (l : list Z) (desired : Z) : Z :=
  match l with
  | [] => 2602722289
  | x :: l => if desired <? x then x else gte_capacity_in l desired
  end.

Definition get_gte_capacity (desired : Z) : Z := gte_capacity_in capacities desired.

(** ** Unique table *)

Definition empty_buckets (cap : N) : list (list positive) :=
  replicate (N.to_nat cap) [].

(** hash_tables.hpp:439-449 *)
Definition tab_new (capacity : Z) : utab :=
  let cap := Z.to_N (get_gte_capacity capacity) in
  UTab 0 cap (empty_buckets cap).

Definition bucket_of (t : utab) (hash : N) : nat := N.to_nat (hash mod t_cap t).

Definition sons_of (h : gmap positive node) (a : positive) : list positive :=
  match h !! a with
  | Some n => match n_body n with Int _ sons => sons | Term _ => [] end
  | None => []
  end.

(** hash_tables.hpp:693-707 node_equals *)
Definition node_equals (h : gmap positive node) (sons : list positive) (a : positive) : bool :=
  bool_decide (sons_of h a = sons).

(** hash_tables.hpp:480-497 find; the hash is recomputed where it is needed *)
Definition tab_find (c : cfg) (h : gmap positive node) (t : utab) (sons : list positive)
  : option positive :=
  List.find (node_equals h sons) (nth (bucket_of t (node_hash c sons)) (t_buckets t) []).

(** hash_tables.hpp:638-652 insert_impl *)
Definition tab_insert_impl (t : utab) (a : positive) (hash : N) : utab :=
  UTab (t_size t) (t_cap t) (alter (cons a) (bucket_of t hash) (t_buckets t)).

(** hash_tables.hpp:516-524 insert *)
Definition tab_insert (t : utab) (a : positive) (hash : N) : utab :=
  let t := tab_insert_impl t a hash in UTab (t_size t + 1) (t_cap t) (t_buckets t).

(** removal of one cell from a chain; [None] models running off the chain *)
Fixpoint remove1 (a : positive) (l : list positive) : option (list positive) :=
  match l with
  | [] => None
  | b :: l => if decide (b = a) then Some l
              else match remove1 a l with Some l' => Some (b :: l') | None => None end
  end.

(** hash_tables.hpp:526-532, 654-679 erase(iterator), erase_impl *)
Definition tab_erase_at (t : utab) (b : nat) (a : positive) : option utab :=
  match t_buckets t !! b with
  | None => None
  | Some chain =>
      match remove1 a chain with
      | None => None
      | Some chain' => Some (UTab (t_size t - 1) (t_cap t) (<[b := chain']> (t_buckets t)))
      end
  end.

(** hash_tables.hpp:534-541 erase(node) *)
Definition tab_erase (c : cfg) (h : gmap positive node) (t : utab) (a : positive) : option utab :=
  tab_erase_at t (bucket_of t (node_hash c (sons_of h a))) a.

(** re-insertion loop shared by rehash (614-625) and merge (506-513) *)
Definition tab_insert_all (c : cfg) (h : gmap positive node) (t : utab) (l : list positive) : utab :=
  fold_left (fun t a => tab_insert_impl t a (node_hash c (sons_of h a))) l t.

(** hash_tables.hpp:596-630 rehash *)
Definition tab_rehash (c : cfg) (h : gmap positive node) (t : utab) (newcap : N) : utab :=
  tab_insert_all c h (UTab (t_size t) newcap (empty_buckets newcap)) (concat (t_buckets t)).

(** hash_tables.hpp:543-553 adjust_capacity; size / 0.75 is exact in double
    below 2^50 and truncates to 4 * size / 3 *)
Definition tab_adjust (c : cfg) (h : gmap positive node) (t : utab) : utab :=
  let newcap := get_gte_capacity (4 * t_size t / 3) in
  if Z.of_N (t_cap t) <? newcap then tab_rehash c h t (Z.to_N newcap) else t.

(** hash_tables.hpp:561-570 clear *)
Definition tab_clear (t : utab) : utab := UTab 0 (t_cap t) (empty_buckets (t_cap t)).

(** hash_tables.hpp:499-514 merge *)
Definition tab_merge (c : cfg) (h : gmap positive node) (t other : utab) : utab :=
  let t := UTab (t_size t + t_size other) (t_cap t) (t_buckets t) in
  tab_insert_all c h (tab_adjust c h t) (concat (t_buckets other)).

(** nodes of a table in iteration order: hash_tables.hpp:354-435 *)
Definition tab_nodes (t : utab) : list positive := concat (t_buckets t).

(** ** Apply cache *)

(** hash_tables.hpp:729-735 *)
Definition cache_new (capacity : Z) : acache :=
  let cap := Z.to_N (get_gte_capacity capacity) in
  ACache 0 cap (replicate (N.to_nat cap) None).

Definition slot_of (c : cfg) (ac : acache) (op : Z) (l r : positive) : nat :=
  N.to_nat (cache_hash c op l r mod a_cap ac).

(** hash_tables.hpp:751-764 find *)
Definition cache_lookup (c : cfg) (ac : acache) (op : Z) (l r : positive) : option positive :=
  match a_ents ac !! slot_of c ac op l r with
  | Some (Some e) =>
      if (e_op e =? op) && bool_decide (e_l e = l) && bool_decide (e_r e = r)
      then Some (e_res e) else None
  | _ => None
  end.

(** hash_tables.hpp:766-785 put *)
Definition cache_insert (c : cfg) (ac : acache) (op : Z) (res l r : positive) : acache :=
  let k := slot_of c ac op l r in
  let size := match a_ents ac !! k with Some (Some _) => a_size ac | _ => a_size ac + 1 end in
  ACache size (a_cap ac) (<[k := Some (Ent op l r res)]> (a_ents ac)).

(** hash_tables.hpp:833-860 rehash *)
Definition cache_rehash (c : cfg) (ac : acache) (newcap : N) : acache :=
  fold_left (fun ac (o : option ent) =>
               match o with
               | Some e => cache_insert c ac (e_op e) (e_res e) (e_l e) (e_r e)
               | None => ac
               end)
    (a_ents ac) (ACache 0 newcap (replicate (N.to_nat newcap) None)).

(** hash_tables.hpp:787-795 grow_capacity *)
Definition cache_grow (c : cfg) (ac : acache) (aprox : Z) : acache :=
  let newcap := get_gte_capacity aprox in
  if Z.of_N (a_cap ac) <? newcap then cache_rehash c ac (Z.to_N newcap) else ac.

Definition is_used (h : gmap positive node) (a : positive) : bool :=
  match h !! a with Some n => n_used n | None => false end.

(** hash_tables.hpp:805-806 *)
Definition ent_used (h : gmap positive node) (e : ent) : bool :=
  is_used h (e_l e) && is_used h (e_r e) && is_used h (e_res e).

(** hash_tables.hpp:797-814 remove_unused *)
Definition cache_remove_unused (h : gmap positive node) (ac : acache) : acache :=
  fold_left (fun ac (ko : nat * option ent) =>
               match snd ko with
               | Some e => if ent_used h e then ac
                           else ACache (a_size ac - 1) (a_cap ac) (<[fst ko := None]> (a_ents ac))
               | None => ac
               end)
    (imap pair (a_ents ac)) ac.

(** hash_tables.hpp:816-825 clear *)
Definition cache_cleared (ac : acache) : acache :=
  ACache 0 (a_cap ac) (replicate (N.to_nat (a_cap ac)) None).

(** ** Node pool *)

Definition padd (p : positive) (n : N) : positive :=
  match n with N0 => p | Npos q => (p + q)%positive end.

(** node_pool.hpp:74-93; cells of the main pool are numbered from 1 *)
Definition pool_new (main extra : Z) : pool :=
  Pool [] 1%positive (Z.to_N main) main extra main.

(** node_pool.hpp:145-166 create.  Without assertions an empty pool would hand
    out the cell past the end of the chunk; both cases are [EPool]. *)
Definition pool_create (p : pool) : option (positive * pool) :=
  if p_avail p <=? 0 then None else
  match p_free p with
  | a :: fr => Some (a, Pool fr (p_next p) (p_left p) (p_main p) (p_extra p) (p_avail p - 1))
  | [] =>
      match p_left p with
      | N0 => None
      | _ => Some (p_next p,
                   Pool [] (Pos.succ (p_next p)) (N.pred (p_left p)) (p_main p) (p_extra p) (p_avail p - 1))
      end
  end.

(** node_pool.hpp:168-174 destroy *)
Definition pool_destroy (p : pool) (a : positive) : pool :=
  Pool (a :: p_free p) (p_next p) (p_left p) (p_main p) (p_extra p) (p_avail p + 1).

(** node_pool.hpp:176-190 grow; what is left of the current chunk is skipped *)
Definition pool_grow (p : pool) : pool :=
  Pool (p_free p) (padd (p_next p) (p_left p)) (Z.to_N (p_extra p))
       (p_main p) (p_extra p) (p_avail p + p_extra p).
