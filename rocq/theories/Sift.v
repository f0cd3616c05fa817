(** * node_manager.hpp: variable reordering *)

From stdpp Require Import gmap list.
From Coq Require Import ZArith.
From Verif Require Import Base Ops Tables NodeManager Tools.

Local Open Scope Z_scope.

Section sift.
Context (c : cfg).

(** ** dec_ref_try_gc: node_manager.hpp:1307-1341.  special_to_index(Undefined)
    is -2147483648 (types.hpp:37-40), so line 1332 writes out of bounds. *)
Fixpoint dec_ref_try_gc (fuel : nat) (a : positive) : M unit :=
  match fuel with
  | O => nofuel
  | S fuel =>
      let* _ := dec_ref a in
      let* n := getn a in
      if can_be_gced n then
        match n_body n with
        | Int i sons =>
            let* _ := mapM_ (dec_ref_try_gc fuel) sons in
            let* t := (fun s => of_opt EOob (s_tabs s !! i) s) in
            let* t' := (fun s => of_opt ENull (tab_erase c (s_heap s) t a) s) in
            let* _ := modify (fun s => set_tabs (<[i := t']> (s_tabs s)) s) in
            delete_node c a
        | Term v =>
            if is_special v then fail EOob
            else
              let* _ := modify (fun s => set_terms (<[Z.to_nat v := None]> (s_terms s)) s) in
              delete_node c a
        end
      else ret tt
  end.

(** ** swap_node_with_next: node_manager.hpp:1235-1305 *)

(** one row of the cofactor matrix, lines 1263-1273 *)
Definition cofactor_row (next : nat) (ndom : nat) (son : positive) : M (list positive) :=
  let* n := getn son in
  match n_body n with
  | Int j sons => if (j =? next)%nat then ret sons else ret (replicate ndom son)
  | Term _ => ret (replicate ndom son)
  end.

Definition swap_node_with_next (a : positive) : M unit :=
  let* is := get_int a in
  let '(i, old) := is in
  let* level := level_of_index i in
  let* next := index_at (S level) in
  let ndom := dom c next in
  let* rows := mapM (cofactor_row next ndom) old in
  let* outer := mapM (fun k =>
      let* inner := of_opt EOob (mapM_opt (fun row : list positive => row !! k) rows) in
      make_internal_node c i inner) (seq 0 ndom) in
  let* _ := modn a (fun n => Node (Int next outer) (n_mark n) (n_used n) (n_refs n)) in
  let* _ := mapM_ (fun b => let* _ := inc_ref b in set_mark false b) outer in
  mapM_ (dec_ref_try_gc (S (nvars c))) old.

(** ** swap_variable_with_next: node_manager.hpp:1343-1367 *)
Definition swap_variable_with_next (i : nat) : M unit :=
  let* level := level_of_index i in
  let* next := index_at (S level) in
  let* tmp := (fun s => of_opt EOob (s_tabs s !! i) s) in
  let* _ := modify (fun s => set_tabs (alter tab_clear i (s_tabs s)) s) in
  let* _ := mapM_ swap_node_with_next (tab_nodes tmp) in
  let* _ := modify (fun s => set_tabs (alter (tab_adjust c (s_heap s)) i (s_tabs s)) s) in
  let* _ := (fun s => of_opt EOob (s_tabs s !! next) s) in
  let* _ := modify (fun s =>
    set_tabs (alter (fun t => tab_merge c (s_heap s) t tmp) next (s_tabs s)) s) in
  modify (fun s =>
    set_l2i (<[level := next]> (<[S level := i]> (s_l2i s)))
      (set_i2l (alter S i (alter Nat.pred next (s_i2l s))) s)).

(** ** sift_variables: node_manager.hpp:1369-1471 *)

(** lines 1379-1393 *)
Definition determine_sift_order : M (list (nat * Z)) := fun s =>
  match mapM_opt (fun i => match s_tabs s !! i with
                           | Some t => Some (i, t_size t)
                           | None => None end) (seq 0 (nvars c)) with
  | None => Err EOob
  | Some counts =>
      match heapsort (fun x y : nat * Z => snd y <? snd x) counts with
      | Some l => Ok l s
      | None => Fuel
      end
  end.

(** lines 1396-1397 *)
Definition move_var_down (i : nat) : M unit := swap_variable_with_next i.

(** lines 1400-1405 *)
Definition move_var_up (i : nat) : M unit :=
  let* level := level_of_index i in
  match level with
  | O => fail EOob
  | S l => let* prev := index_at l in swap_variable_with_next prev
  end.

(** loop state of place_variable: currentLevel, optimalLevel, optimalCount *)
Definition note_best (cur : nat) (best : nat * Z) : M (nat * Z) :=
  let* cnt := gets s_count in
  ret (if cnt <? snd best then (cur, cnt) else best).

(** lines 1417-1426 *)
Fixpoint sift_down_loop (fuel : nat) (i cur : nat) (best : nat * Z) : M (nat * (nat * Z)) :=
  if (cur =? nvars c - 1)%nat then ret (cur, best) else
  match fuel with
  | O => nofuel
  | S fuel =>
      let* _ := move_var_down i in
      let* best := note_best (S cur) best in
      sift_down_loop fuel i (S cur) best
  end.

(** lines 1429-1438 *)
Fixpoint sift_up_loop (fuel : nat) (i cur : nat) (best : nat * Z) : M (nat * (nat * Z)) :=
  if (cur =? 0)%nat then ret (cur, best) else
  match fuel with
  | O => nofuel
  | S fuel =>
      let* _ := move_var_up i in
      let* best := note_best (cur - 1) best in
      sift_up_loop fuel i (cur - 1) best
  end.

(** lines 1441-1445 *)
Fixpoint restore_loop (fuel : nat) (i cur target : nat) : M unit :=
  if (cur =? target)%nat then ret tt else
  match fuel with
  | O => nofuel
  | S fuel =>
      let* _ := move_var_down i in
      restore_loop fuel i (S cur) target
  end.

(** lines 1409-1446 *)
Definition place_variable (i : nat) : M unit :=
  let* cur := level_of_index i in
  let* cnt := gets s_count in
  let* r := sift_down_loop (nvars c) i cur (cur, cnt) in
  let* r := sift_up_loop (nvars c) i (fst r) (snd r) in
  restore_loop (nvars c) i (fst r) (fst (snd r)).

(** lines 1456-1470 *)
Definition sift_variables : M unit :=
  let* order := determine_sift_order in
  let* _ := mapM_ (fun p : nat * Z => place_variable (fst p)) order in
  modify (set_defer false).

(** ** run_deferred: node_manager.hpp:848-857 *)
Definition run_deferred : M unit :=
  let* d := gets s_defer in
  if d then
    let* _ := collect_garbage c in
    let* _ := cache_clear in
    sift_variables
  else ret tt.

End sift.
