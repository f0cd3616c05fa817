(** * The work done by the queries whose complexity is documented: diagram_manager.hpp:407-500, 1398-1612

    The functions of [DiagramManager] and [Queries] with a counter. The lemmas of
    [CostProof] say that without the counter they are the functions there. *)

From stdpp Require Import gmap list.
From Coq Require Import ZArith.
From Verif Require Import Base NodeManager Tools DiagramManager Queries.

Section cost.
Context (c : cfg).

(** evaluate, lines 1398-1415: how often the condition of the loop is tested *)
Fixpoint evaluate_steps (fuel : nat) (vals : list nat) (a : positive) : M (Z * nat) :=
  match fuel with
  | O => nofuel
  | S fuel =>
      let* n := getn a in
      match n_body n with
      | Term v => ret (v, 1)
      | Int i sons =>
          let* k := of_opt EOob (vals !! i) in
          if c_dbg c && (dom c i <=? k) then fail EAssert else
          let* b := of_opt EOob (sons !! k) in
          let* r := evaluate_steps fuel vals b in
          ret (fst r, S (snd r))
      end
  end.

(** satisfy_one_impl, lines 1510-1535: how often it is called *)
Fixpoint first_son_calls (f : list nat -> positive -> M (list nat * bool * nat)) (i : nat)
    (vars : list nat) (k : nat) (sons : list positive) : M (list nat * bool * nat) :=
  match sons with
  | [] => ret (vars, false, 0)
  | b :: sons =>
      let* _ := of_opt EOob (vars !! i) in
      let* r := f (<[i := k]> vars) b in
      if snd (fst r) then ret r
      else
        let* q := first_son_calls f i (fst (fst r)) (S k) sons in
        ret (fst q, snd r + snd q)
  end.

Fixpoint satisfy_one_calls (fuel : nat) (v : Z) (vars : list nat) (a : positive) : M (list nat * bool * nat) :=
  match fuel with
  | O => nofuel
  | S fuel =>
      let* n := getn a in
      match n_body n with
      | Term w => ret (vars, (w =? v)%Z, 1)
      | Int i sons =>
          let* r := first_son_calls (satisfy_one_calls fuel v) i vars 0 sons in
          ret (fst r, S (snd r))
      end
  end.

(** satisfy_all_impl, lines 1574-1612: how often it is called *)
Fixpoint all_loop_calls (f : list nat * list (list nat) -> positive -> M (list nat * list (list nat) * nat))
    (i : nat) (st : list nat * list (list nat)) (k : nat) (sons : list positive)
    : M (list nat * list (list nat) * nat) :=
  match sons with
  | [] => ret (st, 0)
  | b :: sons =>
      let* _ := of_opt EOob (fst st !! i) in
      let* r := f (<[i := k]> (fst st), snd st) b in
      let* q := all_loop_calls f i (fst r) (S k) sons in
      ret (fst q, snd r + snd q)
  end.

Fixpoint satisfy_all_calls (fuel : nat) (v : Z) (level : nat) (st : list nat * list (list nat))
    (a : positive) : M (list nat * list (list nat) * nat) :=
  match fuel with
  | O => nofuel
  | S fuel =>
      let* n := getn a in
      match n_body n with
      | Term w =>
          if negb (w =? v)%Z then ret (st, 1)
          else if level =? nvars c then ret (fst st, snd st ++ [fst st], 1)
          else
            let* i := index_at level in
            let* d := of_opt EOob (c_doms c !! i) in
            let* r := all_loop_calls (satisfy_all_calls fuel v (S level)) i st 0 (replicate d a) in
            ret (fst r, S (snd r))
      | Int i sons =>
          if level =? nvars c then fail EAssert else
          let* l := get_level c a in
          if level <? l then
            let* j := index_at level in
            let* d := of_opt EOob (c_doms c !! j) in
            let* r := all_loop_calls (satisfy_all_calls fuel v (S level)) j st 0 (replicate d a) in
            ret (fst r, S (snd r))
          else
            let* r := all_loop_calls (satisfy_all_calls fuel v (S level)) i st 0 sons in
            ret (fst r, S (snd r))
      end
  end.

(** the operation of satisfy_count, lines 1457-1478: how often it is called, how
    many sons it looks at and, when the domains are not fixed, how many
    iterations domain_product (node_manager.hpp:724-734) makes for them *)
Record work := Work { w_nodes : nat; w_sons : nat; w_product : nat }.

Definition product_steps (from to : nat) : nat := match c_fixed c with Some _ => 0 | None => to - from end.

Definition count_work (v : Z) (st : gmap positive Z * work) (a : positive) : M (gmap positive Z * work) :=
  let* n := getn a in
  let w := snd st in
  match n_body n with
  | Term x => ret (<[a := if (x =? v)%Z then 1%Z else 0%Z]> (fst st), Work (S (w_nodes w)) (w_sons w) (w_product w))
  | Int _ sons =>
      let* l := get_level c a in
      foldM (fun st b =>
        let data := fst st in
        let* lb := get_level c b in
        let* diff := domain_product c (S l) lb in
        let* x := of_opt EOverflow (chk min64 max64 (data_at data b * diff)) in
        let* y := of_opt EOverflow (chk min64 max64 (data_at data a + x)) in
        ret (<[a := y]> data, Work (w_nodes (snd st)) (S (w_sons (snd st))) (w_product (snd st) + product_steps (S l) lb)))
        (<[a := 0%Z]> (fst st), Work (S (w_nodes w)) (w_sons w) (w_product w)) sons
  end.

(** the two traversals call traverse_post_impl once for every operation *)
Definition satisfy_count_work (v : Z) (a : positive) : M (Z * work) :=
  let* _ := value_check c v in
  let* r := traverse_post c (count_work v) (∅, Work 0 0 0) a in
  let* l := get_level c a in
  let* p := domain_product c 0 l in
  let* n := of_opt EOverflow (chk min64 max64 (data_at (fst r) a * p)) in
  ret (n, snd r).
End cost.
