(** * Traversals and queries: node_manager.hpp:573-593, 705-735, 860-971,
    diagram_manager.hpp:1416-1612, 1832-1868

    The element of a node written by a query (get_data(), or the map used when
    Data is void) is not a part of [node]; queries thread it as an accumulator. *)

From stdpp Require Import gmap list.
From Coq Require Import ZArith.
From Verif Require Import Base NodeManager Tools.

Local Open Scope Z_scope.

(** fold over a list, for loops with an accumulator *)
Fixpoint foldM {A B} (f : B -> A -> M B) (acc : B) (l : list A) : M B :=
  match l with
  | [] => ret acc
  | a :: l => let* acc := f acc a in foldM f acc l
  end.

(** node->is_marked() != son->is_marked() *)
Definition marks_differ (a b : positive) : M bool :=
  let* n := getn a in
  let* m := getn b in
  ret (xorb (n_mark n) (n_mark m)).

(** ** Traversals *)
Section traverse.
Context {T : Type} (op : T -> positive -> M T).

(** node_manager.hpp:873-893 traverse_pre_impl.  The loop over k < get_domain(node)
    runs over the list of the sons, whose length is that domain. *)
Fixpoint trav_pre (fuel : nat) (acc : T) (a : positive) : M T :=
  match fuel with
  | O => nofuel
  | S fuel =>
      let* _ := toggle_mark a in
      let* acc := op acc a in
      let* n := getn a in
      match n_body n with
      | Term _ => ret acc
      | Int _ sons =>
          foldM (fun acc b => let* d := marks_differ a b in
            if d : bool then trav_pre fuel acc b else ret acc) acc sons
      end
  end.

(** node_manager.hpp:908-929 traverse_post_impl *)
Fixpoint trav_post (fuel : nat) (acc : T) (a : positive) : M T :=
  match fuel with
  | O => nofuel
  | S fuel =>
      let* _ := toggle_mark a in
      let* n := getn a in
      let* acc :=
        match n_body n with
        | Term _ => ret acc
        | Int _ sons =>
            foldM (fun acc b => let* d := marks_differ a b in
              if d : bool then trav_post fuel acc b else ret acc) acc sons
        end in
      op acc a
  end.
End traverse.

(** the empty operation of the second traversal *)
Definition no_op (_ : unit) (_ : positive) : M unit := ret tt.

Section queries.
Context (c : cfg).

(** levels strictly increase along sons and there are varCount + 1 of them *)
Definition depth : nat := S (S (nvars c)).

(** node_manager.hpp:860-870 *)
Definition traverse_pre {T} (op : T -> positive -> M T) (acc : T) (a : positive) : M T :=
  let* acc := trav_pre op depth acc a in
  let* _ := trav_pre no_op depth tt a in
  ret acc.

(** node_manager.hpp:895-905 *)
Definition traverse_post {T} (op : T -> positive -> M T) (acc : T) (a : positive) : M T :=
  let* acc := trav_post op depth acc a in
  let* _ := trav_post no_op depth tt a in
  ret acc.

(** node_manager.hpp:931-971 traverse_level: [buckets] by level.  The inner loop
    pushes into later buckets only, so the bucket being read is taken out at
    the start. *)
Section level.
Context {T : Type} (op : T -> positive -> M T).

Definition push_at (buckets : list (list positive)) (l : nat) (a : positive) : M (list (list positive)) :=
  let* b := of_opt EOob (buckets !! l) in ret (<[l := b ++ [a]]> buckets).

(** lines 947-962: one node of the current bucket *)
Definition level_visit (st : list (list positive) * T) (a : positive) : M (list (list positive) * T) :=
  let* acc := op (snd st) a in
  let* n := getn a in
  match n_body n with
  | Term _ => ret (fst st, acc)
  | Int _ sons =>
      let* bs := foldM (fun bs b => let* d := marks_differ b a in
        if d : bool then
          let* l := get_level c b in
          let* bs := push_at bs l b in
          let* _ := toggle_mark b in ret bs
        else ret bs) (fst st) sons in
      ret (bs, acc)
  end.

(** lines 943-968: the buckets from [l] on *)
Fixpoint trav_levels (k l : nat) (st : list (list positive) * T) : M T :=
  match k with
  | O => ret (snd st)
  | S k =>
      let* b := of_opt EOob (fst st !! l) in
      let* st := foldM level_visit st b in
      trav_levels k (S l) st
  end.

Definition traverse_level (acc : T) (a : positive) : M T :=
  let buckets := replicate (S (nvars c)) [] in
  let* l := get_level c a in
  let* buckets := push_at buckets l a in
  let* _ := toggle_mark a in
  let* acc := trav_levels (S (nvars c) - l) l (buckets, acc) in
  let* _ := trav_pre no_op depth tt a in
  ret acc.
End level.

(** ** Node counts: node_manager.hpp:572-593 *)
Definition diagram_node_count (a : positive) : M Z :=
  traverse_pre (fun k _ => ret (k + 1)) 0 a.
Definition total_node_count : M Z := gets s_count.
Definition index_node_count (i : nat) : M Z :=
  let* tabs := gets s_tabs in
  if c_dbg c && negb (i <? nvars c)%nat then fail EAssert else
  let* t := of_opt EOob (tabs !! i) in ret (t_size t).

(** ** get_dependency_set: diagram_manager.hpp:1832-1868 *)
Definition dependency_op (st : list bool * list nat) (a : positive) : M (list bool * list nat) :=
  let* n := getn a in
  match n_body n with
  | Term _ => ret st
  | Int i _ =>
      let* seen := of_opt EOob (fst st !! i) in
      ret (<[i := true]> (fst st), if seen : bool then snd st else snd st ++ [i])
  end.

Definition get_dependency_set (a : positive) : M (list nat) :=
  let* r := traverse_pre dependency_op (replicate (nvars c) false, []) a in
  ret (snd r).

(** ** domain_product: node_manager.hpp:710-735 *)

(** domains_[levelToIndex_[level]] for level = from .. from + k - 1 *)
Fixpoint product_loop (k from : nat) (product : Z) : M Z :=
  match k with
  | O => ret product
  | S k =>
      let* i := index_at from in
      let* d := of_opt EOob (c_doms c !! i) in
      let* p := of_opt EOverflow (chk min64 max64 (product * Z.of_nat d)) in
      product_loop k (S from) p
  end.

(** 1 << n for int64: defined for 0 <= n < 64, modular result *)
Definition shift64 (n : Z) : option Z :=
  if (0 <=? n) && (n <? 64) then Some (if n =? 63 then min64 else 2 ^ n) else None.

(** The arguments are levels with from <= to; the exponent is then not negative. *)
Definition domain_product (from to : nat) : M Z :=
  match c_fixed c with
  | Some m =>
      if m =? 2 then of_opt EOverflow (shift64 (Z.of_nat to - Z.of_nat from))
      else of_opt EOverflow (int_pow min32 max32 m (N.of_nat (to - from)))
  | None => product_loop (to - from) from 1
  end.

(** ** satisfy_count: diagram_manager.hpp:1416-1484, with Data = void (T is int64) *)

Definition value_check (v : Z) : M unit :=
  match c_fixed c with
  | Some m => if c_dbg c && negb (v <? m) then fail EAssert else ret tt
  | None => ret tt
  end.

(** data(node): a value-initialised element is created when there is none *)
Definition data_at (m : gmap positive Z) (a : positive) : Z := default 0 (m !! a).

Definition count_op (v : Z) (data : gmap positive Z) (a : positive) : M (gmap positive Z) :=
  let* n := getn a in
  match n_body n with
  | Term w => ret (<[a := if w =? v then 1 else 0]> data)
  | Int _ sons =>
      let* l := get_level c a in
      foldM (fun data b =>
        let* lb := get_level c b in
        let* diff := domain_product (S l) lb in
        let* x := of_opt EOverflow (chk min64 max64 (data_at data b * diff)) in
        let* y := of_opt EOverflow (chk min64 max64 (data_at data a + x)) in
        ret (<[a := y]> data)) (<[a := 0]> data) sons
  end.

Definition satisfy_count (v : Z) (a : positive) : M Z :=
  let* _ := value_check v in
  let* data := traverse_post (count_op v) ∅ a in
  let* l := get_level c a in
  let* p := domain_product 0 l in
  of_opt EOverflow (chk min64 max64 (data_at data a * p)).

(** ** satisfy_one: diagram_manager.hpp:1486-1535, for Vars = std::vector<int32>
    (resized, hence zero-initialised).  [vars] is a reference, so the assignments
    made by failed attempts remain. *)
Fixpoint first_son (f : list nat -> positive -> M (list nat * bool)) (i : nat)
    (vars : list nat) (k : nat) (sons : list positive) : M (list nat * bool) :=
  match sons with
  | [] => ret (vars, false)
  | b :: sons =>
      let* _ := of_opt EOob (vars !! i) in
      let* r := f (<[i := k]> vars) b in
      if snd r then ret r else first_son f i (fst r) (S k) sons
  end.

Fixpoint satisfy_one_impl (fuel : nat) (v : Z) (vars : list nat) (a : positive) : M (list nat * bool) :=
  match fuel with
  | O => nofuel
  | S fuel =>
      let* n := getn a in
      match n_body n with
      | Term w => ret (vars, w =? v)
      | Int i sons => first_son (satisfy_one_impl fuel v) i vars 0 sons
      end
  end.

Definition satisfy_one (v : Z) (a : positive) : M (option (list nat)) :=
  let* _ := value_check v in
  let* r := satisfy_one_impl depth v (replicate (nvars c) 0%nat) a in
  ret (if snd r then Some (fst r) else None).

(** ** satisfy_all: diagram_manager.hpp:1537-1612; [out] are the elements written *)
Fixpoint all_loop (f : list nat * list (list nat) -> positive -> M (list nat * list (list nat)))
    (i : nat) (st : list nat * list (list nat)) (k : nat) (sons : list positive)
    : M (list nat * list (list nat)) :=
  match sons with
  | [] => ret st
  | b :: sons =>
      let* _ := of_opt EOob (fst st !! i) in
      let* st := f (<[i := k]> (fst st), snd st) b in
      all_loop f i st (S k) sons
  end.

Fixpoint satisfy_all_impl (fuel : nat) (v : Z) (level : nat) (st : list nat * list (list nat))
    (a : positive) : M (list nat * list (list nat)) :=
  match fuel with
  | O => nofuel
  | S fuel =>
      let* n := getn a in
      match n_body n with
      | Term w =>
          if negb (w =? v) then ret st
          else if (level =? nvars c)%nat then ret (fst st, snd st ++ [fst st])
          else
            let* i := index_at level in
            let* d := of_opt EOob (c_doms c !! i) in
            all_loop (satisfy_all_impl fuel v (S level)) i st 0 (replicate d a)
      | Int i sons =>
          (* at the leaf level get_value() would be called on an internal node *)
          if (level =? nvars c)%nat then fail EAssert else
          let* l := get_level c a in
          if (level <? l)%nat then
            let* j := index_at level in
            let* d := of_opt EOob (c_doms c !! j) in
            all_loop (satisfy_all_impl fuel v (S level)) j st 0 (replicate d a)
          else all_loop (satisfy_all_impl fuel v (S level)) i st 0 sons
      end
  end.

Definition satisfy_all (v : Z) (a : positive) : M (list (list nat)) :=
  let* _ := value_check v in
  let* r := satisfy_all_impl depth v 0 (replicate (nvars c) 0%nat, []) a in
  ret (snd r).

End queries.
