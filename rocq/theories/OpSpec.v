(** * What the operators mean (specification side) *)

From stdpp Require Import base.
From Coq Require Import ZArith Lia Bool.
From Verif Require Import Base Ops.

Local Open Scope Z_scope.

(** truth value of a proposition *)
Definition truth (P : Prop) `{Decision P} : Z := if decide P then 1 else 0.

(** the meaning of the logical operators on truth values *)
Definition bool_table (o : opc) : option (bool -> bool -> bool) :=
  match o with
  | AND | PI_CONJ | MIN => Some andb
  | OR | MAX => Some orb
  | XOR | NOT_EQUAL_TO => Some xorb
  | NAND => Some (fun x y => negb (x && y))
  | NOR => Some (fun x y => negb (x || y))
  | XNOR | EQUAL_TO => Some eqb
  | IMPLIES => Some implb
  | _ => None
  end.

(** the mathematical meaning of each operator, on the values of [op_dom] *)
Definition op_math (o : opc) (x y : Z) : Z :=
  match o with
  | AND => if decide (x = 0 \/ y = 0) then 0 else Z.max x y
  | OR => Z.max x y
  | XOR => Z.lxor x y
  | PI_CONJ =>
      if decide (x = 0 \/ y = 0) then 0
      else if decide (x = Undef) then y else if decide (y = Undef) then x else Z.max x y
  | NAND => 1 - Z.min x y
  | NOR => if decide (Z.odd x = true \/ Z.odd y = true) then 0 else Z.max 1 (Z.lor x y)
  | XNOR => truth (x = y)
  | EQUAL_TO => truth (x = y)
  | NOT_EQUAL_TO => truth (x <> y)
  | LESS => truth (x < y)
  | LESS_EQUAL => truth (x <= y)
  | GREATER => truth (y < x)
  | GREATER_EQUAL => truth (y <= x)
  | MIN => Z.min x y
  | MAX | MAXB _ => Z.max x y
  | PLUS m => (x + y) mod m
  | MULTIPLIES m => (x * y) mod m
  | IMPLIES => truth (x = 0 \/ y <> 0)
  end.

Definition bit (x : Z) : Prop := x = 0 \/ x = 1.
Definition ordinary (x : Z) : Prop := 0 <= x < Nondet.

(** the values on which the operator may be used: its answer for a placeholder must be
    right (which excludes OR of two different positive values), and sums, products and
    bit patterns must be representable *)
Definition op_dom (o : opc) (x y : Z) : Prop :=
  match o with
  | AND | NAND | XNOR | IMPLIES => ordinary x /\ ordinary y
  | OR => ordinary x /\ ordinary y /\ (x = 0 \/ y = 0 \/ x = y)
  | XOR => ordinary x /\ ordinary y /\ Z.lxor x y < Nondet
  | NOR => ordinary x /\ ordinary y /\ Z.lor x y < Nondet
  | PI_CONJ => (ordinary x \/ x = Undef) /\ (ordinary y \/ y = Undef)
  | EQUAL_TO | NOT_EQUAL_TO | LESS | LESS_EQUAL | GREATER | GREATER_EQUAL | MIN | MAX =>
      ordinary x /\ ordinary y
  | MAXB m => 0 <= x < m /\ 0 <= y < m /\ m < Nondet
  | PLUS m => ordinary x /\ ordinary y /\ x + y <= 2147483647 /\ 0 < m < Nondet
  | MULTIPLIES m => ordinary x /\ ordinary y /\ x * y <= 2147483647 /\ 0 < m < Nondet
  end.

(** the operators whose code adds or multiplies the placeholder for a value that
    is not known yet *)
Definition op_arith (o : opc) : bool :=
  match o with PLUS _ | MULTIPLIES _ => true | _ => false end.
