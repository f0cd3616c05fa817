(** * satisfy_one and satisfy_all with Vars = std::array and with output iterators: diagram_manager.hpp:1486-1612

    "Vars vars;" leaves the elements of a std::array indeterminate and only a
    std::vector is resized, so the content at the start is a parameter; it is
    a list of natural numbers, negative contents are not modelled. *)

From stdpp Require Import gmap list.
From Coq Require Import ZArith.
From Verif Require Import Base NodeManager Tools Queries.

Section arrays.
Context (c : cfg).

(** diagram_manager.hpp:1486-1508 *)
Definition satisfy_one_array (content : list nat) (v : Z) (a : positive) : M (option (list nat)) :=
  let* _ := value_check c v in
  let* r := satisfy_one_impl (depth c) v content a in
  ret (if snd r then Some (fst r) else None).

(** diagram_manager.hpp:1550-1572 *)
Definition satisfy_all_array (content : list nat) (v : Z) (a : positive) : M (list (list nat)) :=
  let* _ := value_check c v in
  let* r := satisfy_all_impl c (depth c) v 0 (content, []) a in
  ret (snd r).

(** ** satisfy_all_g with an iterator into a buffer: lines 1550-1612

    [OutputIt out] is passed by value in every call. The calls in the loops
    get a copy of the same iterator, and "*out++ = vars" advances a copy that
    is then dropped. So the position [p] is a parameter that no call changes. *)

Fixpoint satisfy_all_buffer (fuel : nat) (v : Z) (p : nat) (level : nat) (st : list nat * list (list nat)) (a : positive)
    : M (list nat * list (list nat)) :=
  match fuel with
  | O => nofuel
  | S fuel =>
      let* n := getn a in
      match n_body n with
      | Term w =>
          if negb (w =? v)%Z then ret st
          else if (level =? nvars c)%nat then
            let* _ := of_opt EOob (snd st !! p) in ret (fst st, <[p := fst st]> (snd st))
          else
            let* i := index_at level in
            let* d := of_opt EOob (c_doms c !! i) in
            all_loop (satisfy_all_buffer fuel v p (S level)) i st 0 (replicate d a)
      | Int i sons =>
          if (level =? nvars c)%nat then fail EAssert else
          let* l := get_level c a in
          if (level <? l)%nat then
            let* j := index_at level in
            let* d := of_opt EOob (c_doms c !! j) in
            all_loop (satisfy_all_buffer fuel v p (S level)) j st 0 (replicate d a)
          else all_loop (satisfy_all_buffer fuel v p (S level)) i st 0 sons
      end
  end.

(** Vars = std::vector, [buffer] is what the iterator points into *)
Definition satisfy_all_g (buffer : list (list nat)) (v : Z) (a : positive) : M (list (list nat)) :=
  let* _ := value_check c v in
  let* r := satisfy_all_buffer (depth c) v 0 0 (replicate (nvars c) 0%nat, buffer) a in
  ret (snd r).
End arrays.
