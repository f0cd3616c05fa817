(** * diagram_manager.hpp *)

From stdpp Require Import gmap list.
From Coq Require Import ZArith.
From Verif Require Import Base Ops Tables NodeManager Tools Sift.

Local Open Scope Z_scope.

(** memo tables of type std::unordered_map<node_t*, node_t*> *)
Definition memo := gmap positive positive.

(** expression trees: the interface used by diagram_manager.hpp:1136-1173
    (is_constant/get_value, is_variable/get_index, evaluate/get_left/get_right) *)
Inductive expr :=
| XConst (v : Z)
| XVar (i : nat)
| XOp (f : Z -> Z -> Z) (l r : expr).

(** cache of apply_n_impl: hash slot -> (nodes, result), lines 1292-1298, 1327 *)
Definition packcache := gmap N (positive * positive * positive).

Section dmanager.
Context (c : cfg).

(** value of a node for the operator, lines 1231-1232 *)
Definition term_val (n : node) : Z :=
  match n_body n with Term v => v | Int _ _ => Nondet end.

(** ** constant, variable, variable_not: lines 842-866, 1175-1186; the handle
    construction diagram_t(...) is [diagram_of] *)

Definition with_handle (m : M positive) : M positive :=
  let* a := m in let* _ := diagram_of a in ret a.

Definition constant (v : Z) : M positive := with_handle (make_terminal_node c v).

Definition variable_impl (i : nat) : M positive :=
  if (nvars c <=? i)%nat then fail EOob else
  let* sons := mapM (fun k => make_terminal_node c (Z.of_nat k)) (seq 0 (dom c i)) in
  make_internal_node c i sons.

Definition variable (i : nat) : M positive := with_handle (variable_impl i).

Definition variable_not (i : nat) : M positive :=
  with_handle (
    let* t1 := make_terminal_node c 1 in
    let* t0 := make_terminal_node c 0 in
    make_internal_node c i [t1; t0]).

(** ** from_vector: lines 907-990 *)

(** length of the run of frames on the same level at the top of the stack *)
Fixpoint run_length (lvl : nat) (stack : list (positive * nat)) : nat :=
  match stack with
  | (_, l) :: rest => if (l =? lvl)%nat then S (run_length lvl rest) else 0%nat
  | [] => 0%nat
  end.

(** lines 936-973; the top of the stack is the head of the list *)
Fixpoint shrink_stack (fuel : nat) (stack : list (positive * nat)) : M (list (positive * nat)) :=
  match fuel with
  | O => nofuel
  | S fuel =>
      match stack with
      | [] => fail EOob
      | (_, O) :: _ => ret stack
      | (_, S l) :: _ =>
          let count := run_length (S l) stack in
          let* i := index_at l in
          let d := dom c i in
          if (count <? d)%nat then ret stack else
          let* a := make_internal_node c i (rev (map fst (take d stack))) in
          shrink_stack fuel ((a, l) :: drop d stack)
      end
  end.

(** lines 975-986, one round consumes lastDomain values *)
Fixpoint from_vector_loop (fuel : nat) (lasti : nat) (vs : list Z)
    (stack : list (positive * nat)) : M (list (positive * nat)) :=
  match vs with
  | [] => ret stack
  | _ =>
      match fuel with
      | O => nofuel
      | S fuel =>
          let d := dom c lasti in
          if (length vs <? d)%nat then fail EOob else
          let* sons := mapM (make_terminal_node c) (take d vs) in
          let* a := make_internal_node c lasti sons in
          let* stack := shrink_stack (S (nvars c)) ((a, nvars c - 1)%nat :: stack) in
          from_vector_loop fuel lasti (drop d vs) stack
      end
  end.

Definition dom_prod (l : list nat) : Z := fold_right (fun d p => Z.of_nat d * p) 1 l.

Definition from_vector_impl (vs : list Z) : M positive :=
  if (nvars c =? 0)%nat then
    if c_dbg c && negb (length vs =? 1)%nat then fail EAssert else
    let* v := of_opt EOob (vs !! 0%nat) in
    make_terminal_node c v
  else
    let* lasti := index_at (nvars c - 1) in
    if c_dbg c && negb (Z.of_nat (length vs) =? dom_prod (c_doms c)) then fail EAssert else
    let* stack := from_vector_loop (S (length vs)) lasti vs [] in
    if c_dbg c && negb (length stack =? 1)%nat then fail EAssert else
    let* top := of_opt EOob (stack !! 0%nat) in
    ret (fst top).

Definition from_vector (vs : list Z) : M positive := with_handle (from_vector_impl vs).

(** ** apply: lines 1188-1260 *)

Definition run_op (o : opc) (l r : Z) : M Z :=
  if c_trap c && op_ovf o l r then fail EOverflow else ret (op_fun o l r).

Fixpoint apply_impl (fuel : nat) (o : opc) (l r : positive) : M positive :=
  match fuel with
  | O => nofuel
  | S fuel =>
      let* cached := cache_find c (op_id o) (op_comm o) l r in
      match cached with
      | Some a => ret a
      | None =>
          let* ln := getn l in
          let* rn := getn r in
          let* v := run_op o (term_val ln) (term_val rn) in
          if negb (v =? Nondet) then
            let* a := make_terminal_node c v in
            let* _ := cache_put c (op_id o) (op_comm o) a l r in
            ret a
          else
            let* ll := get_level c l in
            let* rl := get_level c r in
            let top := Nat.min ll rl in
            let* i := index_at top in
            let* sons := mapM (fun k =>
              let* l' := (if (ll =? top)%nat then get_son l k else ret l) in
              let* r' := (if (rl =? top)%nat then get_son r k else ret r) in
              apply_impl fuel o l' r') (seq 0 (dom c i)) in
            let* a := make_internal_node c i sons in
            let* _ := cache_put c (op_id o) (op_comm o) a l r in
            ret a
      end
  end.

(** lines 1199-1202: bounded MAX for managers with a fixed domain *)
Definition apply_op (o : opc) : opc :=
  match o, c_fixed c with
  | MAX, Some m => MAXB m
  | _, _ => o
  end.

Definition apply (o : opc) (l r : positive) : M positive :=
  let* a := apply_impl (S (nvars c)) (apply_op o) l r in
  let* _ := run_deferred c in
  let* _ := diagram_of a in
  ret a.

(** ** left_fold, tree_fold: lines 1339-1396, on arrays of handles.  [None] is a
    moved-from handle. *)

Definition drop_handle (o : option positive) : M unit :=
  match o with Some a => diagram_destroy a | None => ret tt end.

(** result = apply<Op>( result, next ); the old value of result is destroyed *)
Fixpoint left_fold_loop (o : opc) (acc : positive) (l : list positive) : M positive :=
  match l with
  | [] => ret acc
  | a :: l =>
      let* r := apply o acc a in
      let* _ := diagram_destroy acc in
      left_fold_loop o r l
  end.

Definition left_fold (o : opc) (l : list positive) : M positive :=
  match l with
  | [] => fail EOob
  | a :: l => let* _ := diagram_copy a in left_fold_loop o a l
  end.

Definition slot (arr : list (option positive)) (k : nat) : M positive :=
  match arr !! k with
  | Some (Some a) => ret a
  | Some None => fail ENull
  | None => fail EOob
  end.

(** lines 1382-1386 *)
Fixpoint tree_pairs (n k : nat) (o : opc) (arr : list (option positive)) : M (list (option positive)) :=
  match n with
  | O => ret arr
  | S n =>
      let* x := slot arr (2 * k)%nat in
      let* y := slot arr (2 * k + 1)%nat in
      let* r := apply o x y in
      let* _ := drop_handle (mjoin (arr !! k)) in
      tree_pairs n (S k) o (<[k := Some r]> arr)
  end.

(** lines 1376-1393 *)
Fixpoint tree_steps (steps : nat) (o : opc) (count : nat) (arr : list (option positive))
  : M (list (option positive)) :=
  match steps with
  | O => ret arr
  | S steps =>
      let odd := Nat.odd count in
      let half := (count / 2)%nat in
      let cur := if odd then S half else half in
      let* arr := tree_pairs half 0 o arr in
      let* arr :=
        (if odd then
           (* move assignment; a self move leaves the handle in place *)
           let* a := slot arr (2 * (cur - 1)) in
           if (2 * (cur - 1) =? cur - 1)%nat then ret arr else
           let* _ := drop_handle (mjoin (arr !! (cur - 1)%nat)) in
           ret (<[(cur - 1)%nat := Some a]> (<[(2 * (cur - 1))%nat := None]> arr))
         else ret arr) in
      tree_steps steps o cur arr
  end.

(** returns the result and the array as the caller is left with it *)
Definition tree_fold (o : opc) (arr : list (option positive)) : M (positive * list (option positive)) :=
  if (length arr =? 0)%nat then fail EOob else
  let steps := Z.to_nat (Z.log2_up (Z.of_nat (length arr))) in
  let* arr := tree_steps steps o (length arr) arr in
  let* a := slot arr 0 in
  ret (a, <[0%nat := None]> arr).

(** ** evaluate: lines 1398-1415 *)
Fixpoint evaluate_loop (fuel : nat) (vals : list nat) (a : positive) : M Z :=
  match fuel with
  | O => nofuel
  | S fuel =>
      let* n := getn a in
      match n_body n with
      | Term v => ret v
      | Int i sons =>
          let* k := of_opt EOob (vals !! i) in
          if c_dbg c && (dom c i <=? k)%nat then fail EAssert else
          let* b := of_opt EOob (sons !! k) in
          evaluate_loop fuel vals b
      end
  end.

Definition evaluate (a : positive) (vals : list nat) : M Z := evaluate_loop (S (nvars c)) vals a.

(** ** to_vector: lines 999-1044 *)

(** lines 1028-1042: one increment; returns the new values and wasLast *)
Fixpoint next_vals (level : nat) (vals : list nat) : M (list nat * bool) :=
  match level with
  | O => ret (vals, true)
  | S level =>
      let* i := index_at level in
      let* v := of_opt EOob (vals !! i) in
      if (S v =? dom c i)%nat then next_vals level (<[i := 0%nat]> vals)
      else ret (<[i := S v]> vals, false)
  end.

Fixpoint to_vector_loop (fuel : nat) (a : positive) (vals : list nat) : M (list Z) :=
  match fuel with
  | O => nofuel
  | S fuel =>
      let* v := evaluate a vals in
      let* nv := next_vals (nvars c) vals in
      if snd nv then ret [v] else
      let* vs := to_vector_loop fuel a (fst nv) in
      ret (v :: vs)
  end.

Definition to_vector (a : positive) : M (list Z) :=
  if (nvars c =? 0)%nat then
    let* n := getn a in
    match n_body n with Term v => ret [v] | Int _ _ => fail EAssert end
  else to_vector_loop (Z.to_nat (dom_prod (c_doms c))) a (replicate (nvars c) 0%nat).

(** ** get_cofactor: lines 1617-1714 *)

Fixpoint cofactor_impl (fuel : nat) (vi vv : nat) (m : memo) (a : positive) : M (memo * positive) :=
  match fuel with
  | O => nofuel
  | S fuel =>
      match m !! a with
      | Some b => ret (m, b)
      | None =>
          let* n := getn a in
          match n_body n with
          | Term _ => ret (m, a)
          | Int i sons =>
              if (i =? vi)%nat then
                let* b := of_opt EOob (sons !! vv) in ret (m, b)
              else
                let* ms := mapMs (cofactor_impl fuel vi vv) m sons in
                let* b := make_internal_node c i (snd ms) in
                ret (<[a := b]> (fst ms), b)
          end
      end
  end.

Definition get_cofactor (a : positive) (vi vv : nat) : M positive :=
  let* n := getn a in
  match n_body n with
  | Term _ => let* _ := diagram_copy a in ret a
  | Int i sons =>
      if (i =? vi)%nat then
        let* b := of_opt EOob (sons !! vv) in
        let* _ := diagram_of b in ret b
      else
        let* mb := cofactor_impl (S (nvars c)) vi vv ∅ a in
        let* _ := diagram_of (snd mb) in
        let* _ := run_deferred c in
        ret (snd mb)
  end.

(** several variables: lines 1642-1676, 1716-1771 *)

Definition find_var (i : nat) (vars : list (nat * nat)) : option nat :=
  match List.find (fun v => (fst v =? i)%nat) vars with
  | Some v => Some (snd v)
  | None => None
  end.

Fixpoint cofactors_impl (fuel : nat) (vars : list (nat * nat)) (todo : nat) (m : memo)
    (a : positive) : M (memo * positive) :=
  match fuel with
  | O => nofuel
  | S fuel =>
      if (todo =? 0)%nat then ret (m, a) else
      match m !! a with
      | Some b => ret (m, b)
      | None =>
          let* n := getn a in
          match n_body n with
          | Term _ => ret (m, a)
          | Int i sons =>
              let* mb :=
                match find_var i vars with
                | Some k =>
                    let* son := of_opt EOob (sons !! k) in
                    cofactors_impl fuel vars (todo - 1) m son
                | None =>
                    let* ms := mapMs (cofactors_impl fuel vars todo) m sons in
                    let* b := make_internal_node c i (snd ms) in
                    ret (fst ms, b)
                end in
              ret (<[a := snd mb]> (fst mb), snd mb)
          end
      end
  end.

Definition get_cofactors (a : positive) (vars : list (nat * nat)) : M positive :=
  let* n := getn a in
  match n_body n with
  | Term _ => let* _ := diagram_copy a in ret a
  | Int i sons =>
      let* rt :=
        match find_var i vars with
        | Some k => let* son := of_opt EOob (sons !! k) in ret (son, (length vars - 1)%nat)
        | None => ret (a, length vars)
        end in
      let* mb := cofactors_impl (S (nvars c)) vars (snd rt) ∅ (fst rt) in
      let* _ := diagram_of (snd mb) in
      let* _ := run_deferred c in
      ret (snd mb)
  end.

(** ** transform, negate, reduce: lines 1773-1830, 1869-1874 *)

Fixpoint transform_impl (fuel : nat) (f : Z -> Z) (m : memo) (a : positive) : M (memo * positive) :=
  match fuel with
  | O => nofuel
  | S fuel =>
      match m !! a with
      | Some b => ret (m, b)
      | None =>
          let* n := getn a in
          match n_body n with
          | Term v => let* b := make_terminal_node c (f v) in ret (m, b)
          | Int i sons =>
              let* ms := mapMs (transform_impl fuel f) m sons in
              let* b := make_internal_node c i (snd ms) in
              ret (<[a := b]> (fst ms), b)
          end
      end
  end.

Definition transform (f : Z -> Z) (a : positive) : M positive :=
  let* mb := transform_impl (S (nvars c)) f ∅ a in
  let* _ := run_deferred c in
  let* _ := diagram_of (snd mb) in
  ret (snd mb).

Definition negate (a : positive) : M positive := transform (fun v => 1 - v) a.
Definition reduce (a : positive) : M positive := transform (fun v => v) a.

(** ** from_expression_tree: lines 1123-1173 and apply_n_impl: 1284-1329 *)

Definition pack_slot (l r : positive) : N :=
  (add_hash (add_hash 0 (ptr_hash c l)) (ptr_hash c r) mod 100000)%N.

Definition pack_lookup (m : packcache) (l r : positive) : option positive :=
  match m !! pack_slot l r with
  | Some (l', r', res) => if bool_decide (l' = l) && bool_decide (r' = r) then Some res else None
  | None => None
  end.

Fixpoint apply_n_impl (fuel : nat) (f : Z -> Z -> Z) (m : packcache) (lr : positive * positive)
  : M (packcache * positive) :=
  match fuel with
  | O => nofuel
  | S fuel =>
      let '(l, r) := lr in
      match pack_lookup m l r with
      | Some a => ret (m, a)
      | None =>
          let* ln := getn l in
          let* rn := getn r in
          let v := f (term_val ln) (term_val rn) in
          let* ma :=
            (if negb (v =? Nondet) then
               let* a := make_terminal_node c v in ret (m, a)
             else
               let* ll := get_level c l in
               let* rl := get_level c r in
               let top := Nat.min ll rl in
               let* i := index_at top in
               let* ms := mapMs (fun m k =>
                 let* l' := (if (ll =? top)%nat then get_son l k else ret l) in
                 let* r' := (if (rl =? top)%nat then get_son r k else ret r) in
                 apply_n_impl fuel f m (l', r')) m (seq 0 (dom c i)) in
               let* a := make_internal_node c i (snd ms) in
               ret (fst ms, a)) in
          ret (<[pack_slot l r := (l, r, snd ma)]> (fst ma), snd ma)
      end
  end.

(** the lambda of lines 1159-1166 *)
Definition lift_op (f : Z -> Z -> Z) (l r : Z) : Z :=
  if (l =? Nondet) || (r =? Nondet) then Nondet else f l r.

(** the cache is cleared after every operation node, lines 1169-1171 *)
Fixpoint from_expression_impl (e : expr) : M positive :=
  match e with
  | XConst v => make_terminal_node c v
  | XVar i => variable_impl i
  | XOp f x y =>
      let* l := from_expression_impl x in
      let* r := from_expression_impl y in
      let* ma := apply_n_impl (S (nvars c)) (lift_op f) ∅ (l, r) in
      ret (snd ma)
  end.

Definition from_expression_tree (e : expr) : M positive :=
  let* a := from_expression_impl e in
  let* _ := run_deferred c in
  let* _ := diagram_of a in
  ret a.

(** ** API wrappers: lines 1947-1963 *)
Definition force_reorder : M unit := sift_variables c.
Definition clear_cache : M unit := cache_clear.

End dmanager.
