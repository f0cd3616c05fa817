(** * Definitions and lemmas used in the statements and proofs of the properties *)

From stdpp Require Import gmap list.
From Coq Require Import ZArith Lia.
From Verif Require Import Base Ops Tables NodeManager Tools Sift DiagramManager World.
From Verif Require Import Heap Inv GC Build Apply Constr Expr VecSpec Vec Eval Fold.
From Verif Require Import OpSpec OpProof WorldSpec WorldProof Ctor History.

Local Open Scope nat_scope.

(** one function per operator identifier: a program that uses only one modulus
    for PLUS, for MULTIPLIES and for bounded MAX *)
Definition ops_with (b p m : Z) (id : Z) : option (Z -> Z -> Z) :=
  match id with
  | 1 => Some (op_fun AND) | 2 => Some (op_fun OR) | 3 => Some (op_fun XOR)
  | 4 => Some (op_fun PI_CONJ) | 5 => Some (op_fun NAND) | 6 => Some (op_fun NOR)
  | 7 => Some (op_fun XNOR) | 8 => Some (op_fun EQUAL_TO) | 9 => Some (op_fun NOT_EQUAL_TO)
  | 10 => Some (op_fun LESS) | 11 => Some (op_fun LESS_EQUAL) | 12 => Some (op_fun GREATER)
  | 13 => Some (op_fun GREATER_EQUAL) | 14 => Some (op_fun MIN) | 15 => Some (op_fun MAX)
  | 16 => Some (op_fun (MAXB b)) | 17 => Some (op_fun (PLUS p)) | 18 => Some (op_fun (MULTIPLIES m))
  | 19 => Some (op_fun IMPLIES)
  | _ => None
  end%Z.

Definition op_allowed (b p m : Z) (o : opc) : Prop :=
  match o with MAXB b' => b' = b | PLUS p' => p' = p | MULTIPLIES m' => m' = m | _ => True end.

(** the documented meaning of MAX in a manager with a fixed domain of [m] values:
    the maximum of values below [m] *)
Definition plain_op (c : cfg) (o : opc) : opc :=
  match o, c_fixed c with MAX, Some m => MAXB m | _, _ => o end.

(** the values are in the domain of the operator and the result can be stored *)
Definition op_applicable (c : cfg) (o : opc) (x y : Z) : Prop :=
  op_dom (plain_op c o) x y /\ tval c (op_math o x y).

Lemma apply_op_plain c o : apply_op c o = plain_op c o.
Proof. unfold apply_op, plain_op. by destruct (c_fixed c), o. Qed.

Lemma op_allowed_known c b p m o : op_allowed b p m (plain_op c o) -> op_known c (ops_with b p m) o.
Proof. unfold op_known. replace (apply_op c o) with (plain_op c o) by (symmetry; apply apply_op_plain). destruct (plain_op c o); simpl; try done; by intros ->. Qed.

Lemma apply_op_math c o x y : op_math (apply_op c o) x y = op_math o x y.
Proof. unfold apply_op. destruct o; try done. by destruct (c_fixed c). Qed.

Lemma op_applicable_good c o x y : op_applicable c o x y -> (c_trap c = true -> op_arith o = false) ->
  good_op c (apply_op c o) x y.
Proof.
  intros [H T] Ht. rewrite <- apply_op_plain in H. apply op_dom_good; [done|by rewrite apply_op_math|].
  intros E. specialize (Ht E). unfold apply_op. destruct o; try done. by destruct (c_fixed c).
Qed.

Lemma op_applicable_fun c o x y : op_applicable c o x y -> op_fun (apply_op c o) x y = op_math o x y.
Proof. intros [H _]. rewrite <- apply_op_plain in H. by rewrite op_fun_math, apply_op_math. Qed.

Lemma computes_ext c s a F G : (forall rho, valid c rho -> F rho = G rho) -> computes c s a F -> computes c s a G.
Proof. intros E H vals Hv. rewrite <- E by apply Hv. by apply H. Qed.

Section base.
Context (c : cfg) (strict : bool).

(** ** Creating a diagram by a call: the general form *)
Lemma call_value opsem p ks s vars A k A' s' vars' d F :
  wf_cfg c -> history c opsem strict p ks s vars A -> spec c opsem strict s k A A' ->
  exec c k vars s = Ok vars' s' -> ab A' !! d = Some F ->
  exists a, vars' !! d = Some a /\ computes c s' a F.
Proof. intros Hc H S E HF. eapply history_value; [done| |done]. by econstructor. Qed.

End base.
