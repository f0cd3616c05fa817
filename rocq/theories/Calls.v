(** * The calls made by the memoised constructions: diagram_manager.hpp:1617-1830

    The functions of [DiagramManager] with a counter of the calls beside the memo
    table. The lemmas of [CallsProof] say that without the counter they are the functions there. *)

From stdpp Require Import gmap list.
From Coq Require Import ZArith.
From Verif Require Import Base NodeManager Tools Sift DiagramManager.

Section calls.
Context (c : cfg).

(** transform_impl, lines 1787-1818 *)
Fixpoint transform_calls (fuel : nat) (f : Z -> Z) (mk : memo * nat) (a : positive) : M (memo * nat * positive) :=
  match fuel with
  | O => nofuel
  | S fuel =>
      match fst mk !! a with
      | Some b => ret (fst mk, S (snd mk), b)
      | None =>
          let* n := getn a in
          match n_body n with
          | Term v => let* b := make_terminal_node c (f v) in ret (fst mk, S (snd mk), b)
          | Int i sons =>
              let* ms := mapMs (transform_calls fuel f) (fst mk, S (snd mk)) sons in
              let* b := make_internal_node c i (snd ms) in
              ret (<[a := b]> (fst (fst ms)), snd (fst ms), b)
          end
      end
  end.

(** get_cofactor_impl, lines 1678-1714 *)
Fixpoint cofactor_calls (fuel : nat) (vi vv : nat) (mk : memo * nat) (a : positive) : M (memo * nat * positive) :=
  match fuel with
  | O => nofuel
  | S fuel =>
      match fst mk !! a with
      | Some b => ret (fst mk, S (snd mk), b)
      | None =>
          let* n := getn a in
          match n_body n with
          | Term _ => ret (fst mk, S (snd mk), a)
          | Int i sons =>
              if (i =? vi)%nat then
                let* b := of_opt EOob (sons !! vv) in ret (fst mk, S (snd mk), b)
              else
                let* ms := mapMs (cofactor_calls fuel vi vv) (fst mk, S (snd mk)) sons in
                let* b := make_internal_node c i (snd ms) in
                ret (<[a := b]> (fst (fst ms)), snd (fst ms), b)
          end
      end
  end.

(** get_cofactor_impl for several variables, lines 1716-1771 *)
Fixpoint cofactors_calls (fuel : nat) (vars : list (nat * nat)) (todo : nat) (mk : memo * nat)
    (a : positive) : M (memo * nat * positive) :=
  match fuel with
  | O => nofuel
  | S fuel =>
      if (todo =? 0)%nat then ret (fst mk, S (snd mk), a) else
      match fst mk !! a with
      | Some b => ret (fst mk, S (snd mk), b)
      | None =>
          let* n := getn a in
          match n_body n with
          | Term _ => ret (fst mk, S (snd mk), a)
          | Int i sons =>
              let* mb :=
                match find_var i vars with
                | Some k =>
                    let* son := of_opt EOob (sons !! k) in
                    cofactors_calls fuel vars (todo - 1) (fst mk, S (snd mk)) son
                | None =>
                    let* ms := mapMs (cofactors_calls fuel vars todo) (fst mk, S (snd mk)) sons in
                    let* b := make_internal_node c i (snd ms) in
                    ret (fst ms, b)
                end in
              ret (<[a := snd mb]> (fst (fst mb)), snd (fst mb), snd mb)
          end
      end
  end.

(** ** The calls of the library with the number of calls of the functions above *)

(** transform, lines 1773-1785 *)
Definition transform_counted (f : Z -> Z) (a : positive) : M (positive * nat) :=
  let* r := transform_calls (S (nvars c)) f (∅, O) a in
  let* _ := run_deferred c in
  let* _ := diagram_of (snd r) in
  ret (snd r, snd (fst r)).

(** get_cofactor, lines 1617-1640 *)
Definition get_cofactor_counted (a : positive) (vi vv : nat) : M (positive * nat) :=
  let* n := getn a in
  match n_body n with
  | Term _ => let* _ := diagram_copy a in ret (a, O)
  | Int i sons =>
      if (i =? vi)%nat then
        let* b := of_opt EOob (sons !! vv) in
        let* _ := diagram_of b in ret (b, O)
      else
        let* r := cofactor_calls (S (nvars c)) vi vv (∅, O) a in
        let* _ := diagram_of (snd r) in
        let* _ := run_deferred c in
        ret (snd r, snd (fst r))
  end.

(** get_cofactor for several variables, lines 1642-1676 *)
Definition get_cofactors_counted (a : positive) (vars : list (nat * nat)) : M (positive * nat) :=
  let* n := getn a in
  match n_body n with
  | Term _ => let* _ := diagram_copy a in ret (a, O)
  | Int i sons =>
      let* rt :=
        match find_var i vars with
        | Some k => let* son := of_opt EOob (sons !! k) in ret (son, (length vars - 1)%nat)
        | None => ret (a, length vars)
        end in
      let* r := cofactors_calls (S (nvars c)) vars (snd rt) (∅, O) (fst rt) in
      let* _ := diagram_of (snd r) in
      let* _ := run_deferred c in
      ret (snd r, snd (fst r))
  end.
End calls.
