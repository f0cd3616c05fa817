(** * The packed word of a node and the n-ary form of the operators (model) *)

From stdpp Require Import base list.
From Coq Require Import ZArith NArith.
From Verif Require Import Base Ops.

(** ** node.hpp:173-196: one 32-bit word *)

Local Open Scope N_scope.

Definition word := N.
Definition mod32 : N := 2 ^ 32.
(** [~x] on 32 bits *)
Definition not32 (x : word) : word := N.lxor x (mod32 - 1).

Definition MarkM : word := N.shiftl 1 (8 * 4 - 1).           (* 175 *)
Definition UsedM : word := N.shiftl 1 (8 * 4 - 2).           (* 176 *)
Definition LeafM : word := N.shiftl 1 (8 * 4 - 3).           (* 177 *)
Definition RefsM : word := not32 (N.lor (N.lor MarkM UsedM) LeafM). (* 178 *)
Definition RefsMax : word := (RefsM + 1) mod mod32.          (* 179 *)

Definition new_terminal : word := N.lor LeafM UsedM.         (* 203 *)
Definition new_internal : word := UsedM.                     (* 211 *)

Definition is_used (w : word) : bool := negb (N.land w UsedM =? 0).                    (* 302-306 *)
Definition is_terminal (w : word) : bool := is_used w && negb (N.land w LeafM =? 0).   (* 296-300 *)
Definition is_internal (w : word) : bool := is_used w && negb (is_terminal w).         (* 290-294 *)
Definition is_marked (w : word) : bool := negb (N.land w MarkM =? 0).                  (* 314-318 *)
Definition was_internal (w : word) : bool := N.land w LeafM =? 0.                      (* 372-376 *)
Definition get_refs (w : word) : N := N.land w RefsM.                                  (* 338-342 *)

(** the operations; [None] is a failed assertion *)
Inductive wop := WUnuse | WToggle | WMark | WUnmark | WInc | WDec.

Definition word_step (w : word) (o : wop) : option word :=
  match o with
  | WUnuse => Some (N.land w (not32 UsedM))                  (* 308-312 *)
  | WToggle => Some (N.lxor w MarkM)                         (* 320-324 *)
  | WMark => Some (N.lor w MarkM)                            (* 326-330 *)
  | WUnmark => Some (N.land w (not32 MarkM))                 (* 332-336 *)
  | WInc => if get_refs w <? RefsMax then Some ((w + 1) mod mod32) else None          (* 344-349 *)
  | WDec => if 0 <? get_refs w then Some ((w + mod32 - 1) mod mod32) else None        (* 351-356 *)
  end.

Fixpoint word_run (w : word) (os : list wop) : option word :=
  match os with
  | [] => Some w
  | o :: os => match word_step w o with Some w => word_run w os | None => None end
  end.

(** ** operators.hpp:11-21 make_nary: operator() with two arguments is the binary
    operator, with more arguments op(t, op(ts...)); no other form compiles.
    PLUS and MULTIPLIES hide the inherited operator() and have no n-ary form. *)
Local Open Scope Z_scope.

Definition has_nary (o : opc) : bool :=
  match o with
  | AND | OR | XOR | PI_CONJ | NAND | NOR | XNOR | EQUAL_TO | NOT_EQUAL_TO | MIN | MAX | MAXB _ => true
  | _ => false
  end.

Fixpoint nary (o : opc) (t : Z) (ts : list Z) : option Z :=
  match ts with
  | [] => None
  | [r] => Some (op_fun o t r)
  | u :: us => match nary o u us with Some r => Some (op_fun o t r) | None => None end
  end.
