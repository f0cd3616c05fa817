(** * Distributions over time and symbolic expressions

    Line numbers refer to libteddy/details/probabilities.hpp unless another file is
    named.  Numbers are real numbers here: rounding is not modelled, and GiNaC's
    expressions are terms whose value at a time is given by [ev]. *)

From stdpp Require Import gmap list.
From Coq Require Import ZArith Reals.
From Flocq Require Import Core.
From Verif Require Import Base NodeManager DiagramManager Queries Reliability Prob.

Local Open Scope R_scope.

Definition real_arith : arith R := Arith R 0 1 Rplus Rminus Rmult Rdiv IZR (fun x => Some (Ztrunc x)).

(** std::pow(x, y) for x >= 0.  pow(0, y) with y < 0 is infinite in the code; it is 0
    here and excluded by the theorems. *)
Definition rpow (x y : R) : R :=
  if Rlt_dec 0 x then Rpower x y else if Req_EM_T y 0 then 1 else 0.

(** ** Distributions: lines 106-206 *)
Inductive dist :=
| Exponential (rate : R)
| Weibull (scale shape : R)
| Constant (value : R)
| Custom (f : R -> R).

(** operator()(t): lines 121-124, 147-151, 173-176, 197-200, 231-237 *)
Definition value_at (d : dist) (t : R) : R :=
  match d with
  | Exponential rate => rate * exp (- rate * t)
  | Weibull scale shape => (shape / scale) * rpow (t / scale) (shape - 1) * exp (- rpow (t / scale) shape)
  | Constant value => value
  | Custom f => f t
  end.

(** prob_dist: lines 211-241; [pd_t] is dist_base::t_, lines 71-81 *)
Record prob_dist := PDist { pd_dist : dist; pd_t : R }.
Definition new_dist (d : dist) : prob_dist := PDist d 0.
Definition set_t (t : R) (d : prob_dist) : prob_dist := PDist (pd_dist d) t.

(** operator double: lines 116-119, 142-145, 168-171, 192-195, 223-229 *)
Definition to_double (d : prob_dist) : R :=
  match pd_dist d with Constant value => value | d' => value_at d' (pd_t d) end.

(** at_time: lines 261-269, 271-282 *)
Definition at_time (t : R) (ds : list prob_dist) : list prob_dist := map (set_t t) ds.
Definition at_time_matrix (t : R) (ds : list (list prob_dist)) : list (list prob_dist) := map (map (set_t t)) ds.

(** ** Expressions: lines 295-380 *)
Inductive sx :=
| XTime
| XConst (r : R)
| XAdd (x y : sx)
| XSub (x y : sx)
| XMul (x y : sx)
| XDiv (x y : sx)
| XExp (x : sx)
| XPow (x y : sx).

(** expression::evaluate: lines 307-311 *)
Fixpoint ev (t : R) (x : sx) : R :=
  match x with
  | XTime => t
  | XConst r => r
  | XAdd x y => ev t x + ev t y
  | XSub x y => ev t x - ev t y
  | XMul x y => ev t x * ev t y
  | XDiv x y => ev t x / ev t y
  | XExp x => exp (ev t x)
  | XPow x y => rpow (ev t x) (ev t y)
  end.

(** lines 336-339 *)
Definition sym_exponential (rate : R) : sx := XMul (XConst rate) (XExp (XMul (XConst (- rate)) XTime)).

(** lines 344-349 *)
Definition sym_weibull (shape scale : R) : sx :=
  XMul (XMul (XConst (shape / scale)) (XPow (XDiv XTime (XConst scale)) (XConst (shape - 1))))
       (XExp (XSub (XConst 0) (XPow (XDiv XTime (XConst scale)) (XConst shape)))).

(** lines 354-357 *)
Definition sym_constant (prob : R) : sx := XConst prob.

(** lines 362-365 *)
Definition sym_complement (x : sx) : sx := XSub (XConst 1) x.

(** lines 370-379 *)
Definition as_matrix (xs : list sx) : list (list sx) := map (fun x => [sym_complement x; x]) xs.

(** ** symbolic_availability: reliability_manager.hpp:715-764 *)
Section symbolic.
Context (c : cfg).
Notation xmap := (gmap positive sx).

Definition sprobs := nat -> nat -> M sx.
Definition smatrix (ps : list (list sx)) : sprobs := fun i k =>
  let* row := of_opt EOob (ps !! i) in of_opt EOob (row !! k).

(** lines 753-758, one son; find(son) of an absent son returns end() *)
Definition sym_son (pr : sprobs) (a : positive) (i : nat) (m : xmap) (k : nat) : M xmap :=
  let* son := get_son a k in
  let* x := of_opt EOob (m !! son) in
  let* p := pr i k in
  let* y := of_opt EOob (m !! a) in
  ret (<[a := XAdd y (XMul x p)]> m).

(** lines 742-761; emplace keeps an entry that exists *)
Definition sym_op (pr : sprobs) (m : xmap) (a : positive) : M xmap :=
  let* n := getn a in
  match n_body n with
  | Term _ => ret m
  | Int i _ =>
      if c_dbg c && bool_decide (is_Some (m !! a)) then fail EAssert else
      let m := match m !! a with Some _ => m | None => <[a := XConst 0]> m end in
      let* d := of_opt EOob (c_doms c !! i) in
      foldM (sym_son pr a i) m (seq 0 d)
  end.

(** lines 727-737 *)
Definition sym_terminal (j : Z) (m : xmap) (a : positive) : M xmap :=
  let* v := node_value a in
  ret (match m !! a with Some _ => m | None => <[a := XConst (if (j <=? v)%Z then 1 else 0)]> m end).

Definition symbolic_availability (j : Z) (pr : sprobs) (a : positive) : M sx :=
  let* ts := terminal_nodes in
  let* m := foldM (sym_terminal j) ∅ ts in
  let* m := traverse_post c (sym_op pr) m a in
  of_opt EOob (m !! a).
End symbolic.
