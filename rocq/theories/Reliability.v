(** * reliability_manager.hpp: functions that build diagrams

    Line numbers refer to libteddy/details/reliability_manager.hpp unless another
    file is named; dplds.hpp has the types of derivatives. *)

From stdpp Require Import gmap list.
From Coq Require Import ZArith.
From Verif Require Import Base Ops Tables NodeManager Tools Sift DiagramManager.

Local Open Scope Z_scope.

(** ** dplds.hpp:11-63: fChange(lhs, rhs) *)

Definition dpld_basic (from to : Z) (l r : Z) : bool := (l =? from) && (r =? to).
Definition type_1_decrease (j : Z) (l r : Z) : bool := (l =? j) && (r <? j).
Definition type_1_increase (j : Z) (l r : Z) : bool := (l =? j) && (j <? r).
Definition type_2_decrease (l r : Z) : bool := r <? l.
Definition type_2_increase (l r : Z) : bool := l <? r.
Definition type_3_decrease (j : Z) (l r : Z) : bool := (j <=? l) && (r <? j).
Definition type_3_increase (j : Z) (l r : Z) : bool := (l <? j) && (j <=? r).

(** var_change, lines 27-32 *)
Record var_change := VarChange { vc_index : nat; vc_from : nat; vc_to : nat }.

(** dpld_cache: std::unordered_map from pairs of nodes, lines 468-497 *)
Definition dcache := gmap (positive * positive) positive.

Section rmanager.
Context (c : cfg).

(** ** dpld: lines 781-868 *)

(** the lambda get_son, lines 815-824 *)
Definition son_skip (i v : nat) (a : positive) (k : nat) : M positive :=
  let* d := get_son a k in
  let* n := getn d in
  match n_body n with
  | Int j _ => if (j =? i)%nat then get_son d v else ret d
  | Term _ => ret d
  end.

Fixpoint dpld_impl (fuel : nat) (vc : var_change) (f : Z -> Z -> bool) (m : dcache) (lr : positive * positive)
  : M (dcache * positive) :=
  match fuel with
  | O => nofuel
  | S fuel =>
      match m !! lr with
      | Some a => ret (m, a)
      | None =>
          let '(l, r) := lr in
          let* ln := getn l in
          let* rn := getn r in
          let* ma :=
            match n_body ln, n_body rn with
            | Term x, Term y =>
                let* a := make_terminal_node c (if f x y then 1 else 0) in ret (m, a)
            | _, _ =>
                let* ll := get_level c l in
                let* rl := get_level c r in
                let top := Nat.min ll rl in
                let* i := index_at top in
                let* ms := mapMs (fun m k =>
                  let* l' := (if (ll =? top)%nat then son_skip (vc_index vc) (vc_from vc) l k else ret l) in
                  let* r' := (if (rl =? top)%nat then son_skip (vc_index vc) (vc_to vc) r k else ret r) in
                  dpld_impl fuel vc f m (l', r')) m (seq 0 (dom c i)) in
                let* a := make_internal_node c i (snd ms) in
                ret (fst ms, a)
            end in
          ret (<[lr := snd ma]> (fst ma), snd ma)
      end
  end.

(** lines 791-798 *)
Definition dpld_roots (vc : var_change) (a : positive) : M (positive * positive) :=
  let* n := getn a in
  match n_body n with
  | Int i _ =>
      if (i =? vc_index vc)%nat then
        let* l := get_son a (vc_from vc) in
        let* r := get_son a (vc_to vc) in ret (l, r)
      else ret (a, a)
  | Term _ => ret (a, a)
  end.

Definition dpld (vc : var_change) (f : Z -> Z -> bool) (a : positive) : M positive :=
  let* lr := dpld_roots vc a in
  let* ma := dpld_impl (S (nvars c)) vc f ∅ lr in
  let* _ := run_deferred c in
  let* _ := diagram_of (snd ma) in
  ret (snd ma).

(** ** to_dpld_e: lines 870-957 *)

(** lines 884-891 and 939-946: a node of the variable with [a] at position [from] *)
Definition extend_at (from i : nat) (a : positive) : M positive :=
  let* sons := mapM (fun k => if (k =? from)%nat then ret a else make_terminal_node c Undef)
    (seq 0 (dom c i)) in
  make_internal_node c i sons.

Fixpoint to_dpld_e_impl (fuel : nat) (from vi : nat) (m : memo) (a : positive) : M (memo * positive) :=
  match fuel with
  | O => nofuel
  | S fuel =>
      let* n := getn a in
      match n_body n with
      | Term _ => ret (m, a)
      | Int _ sons =>
          match m !! a with
          | Some b => ret (m, b)
          | None =>
              let* vl := level_of_index vi in
              let* nl := get_level c a in
              let* i := index_at nl in
              let* ms := mapMs (fun m d =>
                let* dl := get_level c d in
                if (nl <? vl)%nat && (vl <? dl)%nat then
                  let* b := extend_at from vi d in ret (m, b)
                else to_dpld_e_impl fuel from vi m d) m sons in
              let* b := make_internal_node c i (snd ms) in
              ret (<[a := b]> (fst ms), b)
          end
      end
  end.

Definition to_dpld_e (from vi : nat) (a : positive) : M positive :=
  let* al := get_level c a in
  let* vl := level_of_index vi in
  if (vl <? al)%nat then
    let* b := extend_at from vi a in
    let* _ := diagram_of b in ret b
  else
    let* mb := to_dpld_e_impl (S (nvars c)) from vi ∅ a in
    let* _ := run_deferred c in
    let* _ := diagram_of (snd mb) in
    ret (snd mb).

(** to_dpld_e(from, i, dpld(change, f, diagram)) with the derivative destroyed
    afterwards: lines 1042-1045 and 1069-1072 *)
Definition dpld_e (vc : var_change) (f : Z -> Z -> bool) (from : nat) (a : positive) : M positive :=
  let* d := dpld vc f a in
  let* e := to_dpld_e from (vc_index vc) d in
  let* _ := diagram_destroy d in
  ret e.

(** ** to_mnf: lines 1157-1218 *)

Definition is_term (v : Z) (a : positive) : M bool :=
  let* n := getn a in ret (match n_body n with Term w => w =? v | Int _ _ => false end).

(** lines 1193-1204: k, k - 1, ..., 1 *)
Fixpoint mnf_ones (k : nat) (sons : list positive) : M (list positive) :=
  match k with
  | O => ret sons
  | S k' =>
      let* b := of_opt EOob (sons !! k) in
      let* t := is_term 1 b in
      if t : bool then ret (replicate k b ++ drop k sons) else mnf_ones k' sons
  end.

(** lines 1206-1213: k - 1, ..., 0 *)
Fixpoint mnf_zeros (k : nat) (sons : list positive) : M (list positive) :=
  match k with
  | O => ret sons
  | S k' =>
      let* b := of_opt EOob (sons !! k') in
      let* t := is_term 0 b in
      if t : bool then
        let* d := of_opt EOob (sons !! k) in mnf_zeros k' (<[k' := d]> sons)
      else mnf_zeros k' sons
  end.

Fixpoint to_mnf_impl (fuel : nat) (m : memo) (a : positive) : M (memo * positive) :=
  match fuel with
  | O => nofuel
  | S fuel =>
      let* n := getn a in
      match n_body n with
      | Term _ => ret (m, a)
      | Int i sons =>
          match m !! a with
          | Some b => ret (m, b)
          | None =>
              let* ms := mapMs (to_mnf_impl fuel) m sons in
              let* l := mnf_ones (length sons - 1) (snd ms) in
              let* l := mnf_zeros (length sons - 1) l in
              let* b := make_internal_node c i l in
              ret (<[a := b]> (fst ms), b)
          end
      end
  end.

Definition to_mnf (a : positive) : M positive :=
  let* mb := to_mnf_impl (S (nvars c)) ∅ a in
  let* _ := run_deferred c in
  let* _ := diagram_of (snd mb) in
  ret (snd mb).

End rmanager.
