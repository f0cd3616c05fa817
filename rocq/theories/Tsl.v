(** * libtsl: the truth tables that the tests of the library compare with

    Files: libtsl/truth_table.hpp (tt.hpp), libtsl/truth_table.cpp (tt.cpp),
    libtsl/truth_table_reliability.hpp (ttr.hpp), libtsl/truth_table_reliability.cpp
    (ttr.cpp).

    Simplifications: domains and elements are natural numbers (int32 in the C++);
    int64 counts are unbounded; double is the parameter [arith] of Prob.v; asserts
    are always checked; std::reduce multiplies from left to right (for domains that are at
    least 1 no other order has larger intermediate results). *)

From stdpp Require Import list.
From Coq Require Import ZArith.
From Verif Require Import Base Tools Prob.

Local Open Scope Z_scope.

(** ** Outcomes: a value, undefined behaviour or a failed assertion, or a loop
    that the model did not follow to its end *)
Inductive out (A : Type) := Val (a : A) | Bad (e : err) | Loop.
Arguments Val {A}. Arguments Bad {A}. Arguments Loop {A}.

Definition obind {A B} (m : out A) (f : A -> out B) : out B :=
  match m with Val a => f a | Bad e => Bad e | Loop => Loop end.
Notation "'let?' x := m 'in' k" := (obind m (fun x => k)) (at level 200, x name, right associativity).

Definition o_get {A} (e : err) (x : option A) : out A := match x with Some a => Val a | None => Bad e end.
Definition o_fold {A B} (f : B -> A -> out B) : B -> list A -> out B :=
  fix go b l := match l with [] => Val b | x :: l => let? b := f b x in go b l end.
Definition int32 (z : Z) : out Z := if (z <=? max32) && (- max32 - 1 <=? z) then Val z else Bad EOverflow.
(** v[i] = x *)
Definition o_set {A} (l : list A) (i : nat) (x : A) : out (list A) :=
  if (i <? length l)%nat then Val (<[i := x]> l) else Bad EOob.

(** ** struct truth_table: tt.hpp:16-30 *)
Record table := Table {
  t_vec : list Z;     (* vector_ *)
  t_dom : list nat;   (* domain_ *)
  t_off : list Z;     (* offset_ *)
  t_max : Z           (* maxValue_ *)
}.

(** std::ranges::max of the values other than Undefined, tt.cpp:18-21;
    the range must not be empty *)
Definition max_value (vec : list Z) : out Z :=
  match filter (fun v => v <> Undef) vec with
  | [] => Bad EOob
  | v :: l => Val (fold_left Z.max l v)
  end.

(** tt.cpp:23-26 *)
Definition domain_size_int (doms : list nat) : out Z := o_fold (fun p d => int32 (p * Z.of_nat d)) 1 doms.

(** tt.cpp:30-40: the offsets from the last to the first one *)
Fixpoint offsets (doms : list nat) : out (list Z) :=
  match doms with
  | [] => Val []
  | _ :: doms =>
      match doms with
      | [] => Val [1]
      | d :: _ =>
          let? offs := offsets doms in
          let? o := o_get EOob (head offs) in
          let? x := int32 (Z.of_nat d * o) in
          Val (x :: offs)
      end
  end.

(** the constructor, tt.cpp:11-41 *)
Definition make_table (vec : list Z) (doms : list nat) : out table :=
  let? m := max_value vec in
  let? p := domain_size_int doms in
  if negb (Z.of_nat (length vec) =? p) then Bad EAssert else
  if (length doms =? 0)%nat then Bad EAssert else
  let? offs := offsets doms in
  Val (Table vec doms offs m).

(** tt.cpp:43-46 *)
Definition var_count (t : table) : nat := length (t_dom t).

(** tt.cpp:109-119 to_index *)
Definition to_index (t : table) (vars : list nat) : out Z :=
  if negb (length vars =? var_count t)%nat then Bad EAssert else
  o_fold (fun index i =>
    let? v := o_get EOob (vars !! i) in
    let? o := o_get EOob (t_off t !! i) in
    let? x := int32 (Z.of_nat v * o) in
    int32 (index + x)) 0 (seq 0 (var_count t)).

(** vector[as_uindex(i)] *)
Definition at_index {A} (l : list A) (i : Z) : out A :=
  if i <? 0 then Bad EOob else o_get EOob (l !! Z.to_nat i).

(** tt.cpp:100-104 *)
Definition evaluate (t : table) (vars : list nat) : out Z :=
  let? i := to_index t vars in at_index (t_vec t) i.

(** ** domain_for_each: tt.hpp:63-96 *)

(** lines 79-91; the flag is [overflow], which is true at the end of the loop only when i == 0 *)
Fixpoint advance (doms : list nat) (i : nat) (elem : list nat) : out (list nat * bool) :=
  match i with
  | O => Val (elem, true)
  | S i =>
      let? e := o_get EOob (elem !! i) in
      let? d := o_get EOob (doms !! i) in
      if (S e =? d)%nat then advance doms i (<[i := 0%nat]> elem)
      else Val (<[i := S e]> elem, false)
  end.

(** lines 74-95 *)
Fixpoint each_loop {A} (fuel : nat) (n : nat) (vec : list Z) (doms : list nat) (f : A -> Z -> list nat -> out A)
    (acc : A) (elem : list nat) (k : nat) : out A :=
  match fuel with
  | O => Loop
  | S fuel =>
      let? v := o_get EOob (vec !! k) in
      let? acc := f acc v elem in
      let? r := advance doms n elem in
      let (elem, was_last) := r : list nat * bool in
      if was_last then Val acc else each_loop fuel n vec doms f acc elem (S k)
  end.

(** [acc]: the objects captured by reference in f *)
Definition domain_for_each {A} (t : table) (f : A -> Z -> list nat -> out A) (acc : A) : out A :=
  each_loop (S (length (t_vec t))) (var_count t) (t_vec t) (t_dom t) f acc (replicate (var_count t) 0%nat) 0.

(** ** Queries *)

(** tt.cpp:68-76 *)
Definition satisfy_count (t : table) (v : Z) : Z := fold_left (fun r x => r + (if x =? v then 1 else 0)) (t_vec t) 0.

(** tt.cpp:78-93 *)
Definition satisfy_all (t : table) (v : Z) : out (list (list nat)) :=
  domain_for_each t (fun elems x elem => Val (if x =? v then elems ++ [elem] else elems)) [].

(** tt.cpp:95-98 *)
Definition domain_size (t : table) : Z := Z.of_nat (length (t_vec t)).

(** tt.hpp:128-140 apply_mutable; maxValue_ keeps its value *)
Definition apply_mutable (l r : table) (op : Z -> Z -> Z) : out table :=
  if negb (length (t_vec l) =? length (t_vec r))%nat then Bad EAssert else
  if negb (bool_decide (t_dom l = t_dom r)) then Bad EAssert else
  Val (Table (zip_with op (t_vec l) (t_vec r)) (t_dom l) (t_off l) (t_max l)).

(** tt.hpp:149-167 compare *)
Fixpoint compare_loop (cmp : nat -> nat -> bool) (l r : list nat) : out bool :=
  match l, r with
  | [], _ => Val true
  | _ :: _, [] => Bad EOob
  | x :: l, y :: r => if cmp x y then compare_loop cmp l r else Val false
  end.
Definition compare (cmp : nat -> nat -> bool) (l r : list nat) : out bool :=
  if negb (length l =? length r)%nat then Bad EAssert else compare_loop cmp l r.

(** ** Derivatives: ttr.hpp:13-18, 117-169 are the functions of Reliability.v *)

(** ttr.hpp:188-206: the function called for every element *)
Definition dpld_step (t : table) (i from to : nat) (change : Z -> Z -> bool) (result : list Z) (f_from : Z) (elem : list nat) : out (list Z) :=
  let? e := o_get EOob (elem !! i) in
  if negb (e =? from)%nat then Val result else
  let? tmp := o_set elem i to in
  let? f_to := evaluate t tmp in
  let der := if change f_from f_to then 1 else 0 in
  let? d := o_get EOob (t_dom t !! i) in
  o_fold (fun result value =>
    let? tmp := o_set tmp i value in
    let? index := to_index t tmp in
    if index <? 0 then Bad EOob else o_set result (Z.to_nat index) der) result (seq 0 d).

(** ttr.hpp:178-209 *)
Definition dpld (t : table) (i from to : nat) (change : Z -> Z -> bool) : out table :=
  let? result := domain_for_each t (dpld_step t i from to change) (replicate (length (t_vec t)) 0) in
  make_table result (t_dom t).

(** ttr.hpp:218-247; the state is (result, index) *)
Definition dpld_e (t : table) (i from to : nat) (change : Z -> Z -> bool) : out table :=
  let? r := domain_for_each t (fun st f_from elem =>
      let (result, index) := st : list Z * nat in
      let? e := o_get EOob (elem !! i) in
      if negb (e =? from)%nat then
        let? result := o_set result index Undef in Val (result, S index)
      else
        let? tmp := o_set elem i to in
        let? f_to := evaluate t tmp in
        let? result := o_set result index (if change f_from f_to then 1 else 0) in
        Val (result, S index))
    (replicate (length (t_vec t)) 0, 0%nat) in
  make_table (fst r) (t_dom t).

(** ** Minimal cut and path vectors: ttr.cpp:169-221 *)

(** lines 172-174 *)
Definition pi_conj (l r : Z) : Z := Z.min (Z.min l r) Undef.

(** lines 176-185: the derivatives, in this order *)
Definition up_changes (doms : list nat) : list (nat * nat * nat) :=
  concat (imap (fun i d => map (fun from => (i, from, S from)) (seq 0 (d - 1))) doms).
(** lines 203-212 *)
Definition down_changes (doms : list nat) : list (nat * nat * nat) :=
  concat (imap (fun i d => map (fun from => (i, from, pred from)) (seq 1 (d - 1))) doms).

Definition vectors (t : table) (changes : list (nat * nat * nat)) (change : Z -> Z -> bool) : out (list (list nat)) :=
  let? dplds := o_fold (fun ts ch =>
      let '(i, from, to) := ch : nat * nat * nat in
      let? d := dpld_e t i from to change in Val (ts ++ [d])) [] changes in
  match dplds with
  | [] => Bad EOob (* front() of an empty vector *)
  | d :: ds =>
      let? r := o_fold (fun acc d => apply_mutable acc d pi_conj) d ds in
      satisfy_all r 1
  end.

(** type_3_increase and type_3_decrease: ttr.hpp:156-169 *)
Definition increase (j l r : Z) : bool := (l <? j) && (j <=? r).
Definition decrease (j l r : Z) : bool := (j <=? l) && (r <? j).

Definition calculate_mcvs (t : table) (j : Z) : out (list (list nat)) := vectors t (up_changes (t_dom t)) (increase j).
Definition calculate_mpvs (t : table) (j : Z) : out (list (list nat)) := vectors t (down_changes (t_dom t)) (decrease j).

(** ** Probabilities *)
Section prob.
Context {R : Type} (ar : arith R).

(** ttr.cpp:10-36 *)
Definition probability_bss (t : table) (ps : list R) : out R :=
  domain_for_each t (fun total v elem =>
    if negb (v =? 1) then Val total else
    let? local := o_fold (fun local i =>
        let? e := o_get EOob (elem !! i) in
        let? p := o_get EOob (ps !! i) in
        Val (a_mul ar local (if (e =? 1)%nat then p else a_sub ar (a_one ar) p)))
      (a_one ar) (seq 0 (var_count t)) in
    Val (a_add ar total local)) (a_zero ar).

(** probabilities[i][k] *)
Definition entry (ps : list (list R)) (i k : nat) : out R :=
  let? row := o_get EOob (ps !! i) in o_get EOob (row !! k).

(** ttr.cpp:38-67 *)
Definition probability (t : table) (ps : list (list R)) (j : Z) : out R :=
  domain_for_each t (fun total v elem =>
    if negb (v =? j) then Val total else
    let? local := o_fold (fun local i =>
        let? e := o_get EOob (elem !! i) in
        let? p := entry ps i e in
        Val (a_mul ar local p)) (a_one ar) (seq 0 (var_count t)) in
    Val (a_add ar total local)) (a_zero ar).

(** ttr.cpp:69-82: the states from [j] to the largest value of the table *)
Definition availability (t : table) (ps : list (list R)) (j : Z) : out R :=
  o_fold (fun r k => let? p := probability t ps (j + Z.of_nat k) in Val (a_add ar r p)) (a_zero ar)
    (seq 0 (Z.to_nat (t_max t + 1 - j))).

(** ttr.cpp:84-97: the states from [j - 1] down to 0 *)
Definition unavailability (t : table) (ps : list (list R)) (j : Z) : out R :=
  o_fold (fun r k => let? p := probability t ps (Z.of_nat k) in Val (a_add ar r p)) (a_zero ar)
    (rev (seq 0 (Z.to_nat j))).

(** ttr.cpp:99-103 *)
Definition state_frequency (t : table) (j : Z) : R :=
  a_div ar (a_ofZ ar (satisfy_count t j)) (a_ofZ ar (domain_size t)).

(** ttr.cpp:105-119; integer divisions, and the product is computed in int64 *)
Definition structural_importance (t : table) (i : nat) : out R :=
  let size := fold_left (fun p d => p * Z.of_nat d) (t_dom t) 1 in
  let? d := o_get EOob (t_dom t !! i) in
  if (d =? 0)%nat then Bad EAssert else
  let n := Z.quot (satisfy_count t 1) (Z.of_nat d) in
  let m := Z.quot size (Z.of_nat d) in
  Val (a_div ar (a_ofZ ar n) (a_ofZ ar m)).

(** ttr.cpp:121-127 *)
Definition birnbaum_importance (t : table) (ps : list (list R)) : out R := probability t ps 1.

(** ttr.cpp:223-235 *)
Definition vector_probability (x : list nat) (ps : list (list R)) : out R :=
  o_fold (fun r i =>
    let? e := o_get EOob (x !! i) in
    let? p := entry ps i e in
    Val (a_mul ar r p)) (a_one ar) (seq 0 (length x)).

(** ttr.cpp:150-159: the loop over the relevant vectors; the filter view tests each vector when it is reached *)
Fixpoint covered (i : nat) (st : Z) (mcvs : list (list nat)) (elem : list nat) : out bool :=
  match mcvs with
  | [] => Val false
  | m :: mcvs =>
      let? e := o_get EOob (m !! i) in
      if negb (Z.of_nat e =? st - 1) then covered i st mcvs elem else
      let? b := compare Nat.leb elem m in
      if b : bool then Val true else covered i st mcvs elem
  end.

(** ttr.cpp:129-167 *)
Definition fussell_vesely (t : table) (ps : list (list R)) (i : nat) (st j : Z) : out R :=
  let? mcvs := calculate_mcvs t j in
  let? result := domain_for_each t (fun r _ elem =>
      let? b := covered i st mcvs elem in
      if negb b then Val r else
      let? p := vector_probability elem ps in Val (a_add ar r p)) (a_zero ar) in
  let? u := unavailability t ps j in
  Val (a_div ar result u).
End prob.
