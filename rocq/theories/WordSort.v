(** * sort with its unsigned indices: tools.hpp:224-280

    [heapsort] of [Tools] computes indices in unbounded arithmetic. Here they are numbers
    modulo [M]; the code has uint32, M = 2^32. Reading outside the vector is an outcome of its own. *)

From stdpp Require Import list.
From Coq Require Import NArith.
From Verif Require Import Base Tools.

Inductive sorted_to (A : Type) := SDone (xs : list A) | SOob | SFuel.
Arguments SDone {A} _.
Arguments SOob {A}.
Arguments SFuel {A}.

Section sort.
Context {A : Type} (M : N) (cmp : A -> A -> bool).

Definition at_word (xs : list A) (i : N) : option A := xs !! N.to_nat i.

(** utils::swap(xs[i], xs[j]) *)
Definition swap_word (xs : list A) (i j : N) : option (list A) :=
  match at_word xs i, at_word xs j with
  | Some a, Some b => Some (<[N.to_nat i := b]> (<[N.to_nat j := a]> xs))
  | _, _ => None
  end.

(** [cmp(xs[i], xs[j])] *)
Definition cmp_word (xs : list A) (i j : N) : option bool :=
  match at_word xs i, at_word xs j with Some a, Some b => Some (cmp a b) | _, _ => None end.

(** lines 235-263 *)
Fixpoint sift_down_word (fuel : nat) (xs : list A) (parent size : N) : sorted_to A :=
  match fuel with
  | O => SFuel
  | S fuel =>
      let left := ((2 * parent + 1) mod M)%N in
      let right := ((left + 1) mod M)%N in
      if (left <? size)%N then
        match cmp_word xs parent left with
        | None => SOob
        | Some b =>
            let sw := if b then left else parent in
            match (if (right <? size)%N then cmp_word xs sw right else Some false) with
            | None => SOob
            | Some b =>
                let sw := if b then right else sw in
                if (sw =? parent)%N then SDone xs
                else
                  match swap_word xs parent sw with
                  | Some xs => sift_down_word fuel xs sw size
                  | None => SOob
                  end
            end
        end
      else SDone xs
  end.

(** lines 268-272 *)
Fixpoint make_heap_word (i : nat) (xs : list A) (size : N) : sorted_to A :=
  match i with
  | O => SDone xs
  | S i =>
      match sift_down_word (S (N.to_nat size)) xs (N.of_nat i) size with
      | SDone xs => make_heap_word i xs size
      | r => r
      end
  end.

(** lines 275-279 *)
Fixpoint pop_heap_word (last : nat) (xs : list A) : sorted_to A :=
  match last with
  | O => SDone xs
  | S l =>
      match swap_word xs (N.of_nat (S l)) 0 with
      | None => SOob
      | Some xs =>
          match sift_down_word (S (S l)) xs 0 (N.of_nat (S l)) with
          | SDone xs => pop_heap_word l xs
          | r => r
          end
      end
  end.

(** lines 228-280 *)
Definition sort_word (xs : list A) : sorted_to A :=
  match xs with
  | [] => SDone []
  | _ =>
      let size := (N.of_nat (length xs) mod M)%N in
      match make_heap_word (N.to_nat ((size / 2 + 1) mod M)) xs size with
      | SDone xs => pop_heap_word (N.to_nat ((size + M - 1) mod M)) xs
      | r => r
      end
  end.
End sort.
