(** * Binary operators: operators.hpp:45-289 *)

From Coq Require Import ZArith Bool.
From Verif Require Import Base.

Local Open Scope Z_scope.

Definition b2z (b : bool) : Z := if b then 1 else 0.

(** operators.hpp: one constructor per operator; [MAXB], [PLUS] and
    [MULTIPLIES] carry their template parameter *)
Inductive opc :=
| AND | OR | XOR | PI_CONJ | NAND | NOR | XNOR | EQUAL_TO | NOT_EQUAL_TO
| LESS | LESS_EQUAL | GREATER | GREATER_EQUAL | MIN | MAX
| MAXB (m : Z) | PLUS (m : Z) | MULTIPLIES (m : Z) | IMPLIES.

(** operation_info<Id, _>::get_id, operators.hpp:23-35 *)
Definition op_id (o : opc) : Z :=
  match o with
  | AND => 1 | OR => 2 | XOR => 3 | PI_CONJ => 4 | NAND => 5 | NOR => 6
  | XNOR => 7 | EQUAL_TO => 8 | NOT_EQUAL_TO => 9 | LESS => 10
  | LESS_EQUAL => 11 | GREATER => 12 | GREATER_EQUAL => 13 | MIN => 14
  | MAX => 15 | MAXB _ => 16 | PLUS _ => 17 | MULTIPLIES _ => 18
  | IMPLIES => 19
  end.

(** operation_info<_, IsCommutative>::is_commutative *)
Definition op_comm (o : opc) : bool :=
  match o with
  | LESS | LESS_EQUAL | GREATER | GREATER_EQUAL | IMPLIES => false
  | _ => true
  end.

(** int32 wrap-around, used for the sums and products of lines 260 and 275 *)
Definition wrap32 (z : Z) : Z := (z + 2147483648) mod 4294967296 - 2147483648.

(** operator() (int32 l, int32 r) of each operator; C++ [%] is [Z.rem] *)
Definition op_fun (o : opc) (l r : Z) : Z :=
  let mi := Z.min l r in
  let ma := Z.max l r in
  match o with
  | AND => if mi =? 0 then mi else ma                                 (* 45-56 *)
  | OR => if mi =? 0 then ma else mi                                  (* 58-69 *)
  | XOR => if ma =? Nondet then ma else Z.lxor l r                    (* 71-82 *)
  | PI_CONJ => if mi =? 0 then mi else if ma =? Undef then mi else ma (* 84-95 *)
  | NAND => if ma =? Nondet then ma else 1 - mi                       (* 97-108 *)
  | NOR => if Z.odd mi || Z.odd ma then 0 else Z.max (Z.lor l r) 1    (* 110-124 *)
  | XNOR => if ma =? Nondet then ma else b2z (l =? r)                 (* 126-137 *)
  | EQUAL_TO => if ma =? Nondet then ma else b2z (l =? r)             (* 139-150 *)
  | NOT_EQUAL_TO => if ma =? Nondet then ma else b2z (negb (l =? r))  (* 152-165 *)
  | LESS => if ma =? Nondet then ma else b2z (l <? r)                 (* 167-176 *)
  | LESS_EQUAL => if ma =? Nondet then ma else b2z (l <=? r)          (* 178-187 *)
  | GREATER => if ma =? Nondet then ma else b2z (r <? l)              (* 189-198 *)
  | GREATER_EQUAL => if ma =? Nondet then Nondet else b2z (r <=? l)   (* 200-210 *)
  | MIN => if (mi =? 0) || negb (ma =? Nondet) then mi else ma        (* 212-223 *)
  | MAX => ma                                                         (* 225-234 *)
  | MAXB m => if (l =? m - 1) || (r =? m - 1) then m - 1 else ma      (* 240-251 *)
  | PLUS m => if ma =? Nondet then ma else Z.rem (wrap32 (l + r)) m   (* 253-263 *)
  | MULTIPLIES m =>                                                   (* 265-278 *)
      if mi =? 0 then 0 else if ma =? Nondet then Nondet
      else Z.rem (wrap32 (l * r)) m
  | IMPLIES =>                                                        (* 280-289 *)
      if l =? 0 then 1 else if ma =? Nondet then Nondet
      else b2z ((l =? 0) || negb (r =? 0))
  end.

(** Signed overflow in the body of an operator: lines 260 and 275 evaluate the
    sum, respectively the product, before looking at Nondetermined. *)
Definition in32 (z : Z) : bool := (-2147483648 <=? z) && (z <=? 2147483647).
Definition op_ovf (o : opc) (l r : Z) : bool :=
  match o with
  | PLUS _ => negb (in32 (l + r))
  | MULTIPLIES _ => negb (in32 (l * r))
  | _ => false
  end.
