(** * tools.hpp: int_pow and heapsort *)

From stdpp Require Import list.
From Coq Require Import ZArith.
From Verif Require Import Base.

Local Open Scope Z_scope.

(** ** Heapsort: tools.hpp:223-279.  [cmp a b] is the comparator call cmp(a, b). *)
Section sort.
Context {A : Type} (cmp : A -> A -> bool).

Definition swap_at (xs : list A) (i j : nat) : list A :=
  match xs !! i, xs !! j with
  | Some a, Some b => <[i := b]> (<[j := a]> xs)
  | _, _ => xs
  end.

(** cmp(xs[i], xs[j]) *)
Definition cmp_at (xs : list A) (i j : nat) : bool :=
  match xs !! i, xs !! j with Some a, Some b => cmp a b | _, _ => false end.

(** lines 235-263; [None] when the fuel runs out *)
Fixpoint sift_down (fuel : nat) (xs : list A) (parent size : nat) : option (list A) :=
  match fuel with
  | O => None
  | S fuel =>
      let left := (2 * parent + 1)%nat in
      let right := S left in
      if (left <? size)%nat then
        let sw := if cmp_at xs parent left then left else parent in
        let sw := if (right <? size)%nat && cmp_at xs sw right then right else sw in
        if (sw =? parent)%nat then Some xs
        else sift_down fuel (swap_at xs parent sw) sw size
      else Some xs
  end.

(** lines 268-272: i = size / 2 + 1 .. 1, sift_down(i - 1, size) *)
Fixpoint make_heap (i : nat) (xs : list A) (size : nat) : option (list A) :=
  match i with
  | O => Some xs
  | S i =>
      match sift_down (S size) xs i size with
      | Some xs => make_heap i xs size
      | None => None
      end
  end.

(** lines 275-279 *)
Fixpoint pop_heap (last : nat) (xs : list A) : option (list A) :=
  match last with
  | O => Some xs
  | S l =>
      match sift_down (S (S l)) (swap_at xs (S l) 0) 0 (S l) with
      | Some xs => pop_heap l xs
      | None => None
      end
  end.

Definition heapsort (xs : list A) : option (list A) :=
  match xs with
  | [] => Some []
  | _ =>
      match make_heap (length xs / 2 + 1) xs (length xs) with
      | Some xs' => pop_heap (length xs - 1) xs'
      | None => None
      end
  end.
End sort.

(** ** int_pow: tools.hpp:16-42, on a signed type with the given bounds.
    [None]: signed overflow.  The exponent is processed bit by bit, lowest
    first, which is the structure of [positive]. *)
Definition chk (lo hi z : Z) : option Z := if (lo <=? z) && (z <=? hi) then Some z else None.

Fixpoint int_pow_loop (lo hi : Z) (e : positive) (base result : Z) : option Z :=
  match e with
  | xH => chk lo hi (result * base)
  | xI e' =>
      match chk lo hi (result * base), chk lo hi (base * base) with
      | Some r, Some b => int_pow_loop lo hi e' b r
      | _, _ => None
      end
  | xO e' =>
      match chk lo hi (base * base) with
      | Some b => int_pow_loop lo hi e' b result
      | None => None
      end
  end.

Definition int_pow (lo hi : Z) (base : Z) (e : N) : option Z :=
  match e with
  | N0 => Some 1
  | Npos p => int_pow_loop lo hi p base 1
  end.

Definition min32 : Z := -2147483648.
Definition max32 : Z := 2147483647.
Definition min64 : Z := -9223372036854775808.
Definition max64 : Z := 9223372036854775807.
