(** * Diagrams as keys: diagram.hpp:183-211
    std::hash and std::equal_to are specialised for diagrams, so that a program
    can use them as keys of unordered containers.  The container here is an
    unordered_map with values of type int: a vector of buckets, the hash stored
    with each element, equal_to within a bucket (as in libstdc++).  The key of an
    element is a copy of the diagram, an object of its own.  The library of the
    compiler is not part of /repo; this is what the C++ standard requires of it
    (try_emplace, erase, rehash, find). *)

From stdpp Require Import gmap list.
From Coq Require Import ZArith.
From Verif Require Import Base Ops Tables NodeManager DiagramManager World.

Local Open Scope nat_scope.

Record entry := Ent { e_key : nat; e_hash : N; e_val : Z }.

(** [um_next]: the name of the next key object *)
Record umap := UMap { um_buckets : list (list entry); um_next : nat }.

Inductive ustep :=
| UCall (k : call)             (* any call of the library *)
| UEmplace (x : nat) (v : Z)   (* map.try_emplace(x, v) *)
| UErase (x : nat)             (* map.erase(x) *)
| URehash (n : nat).           (* map.rehash(n) *)

Section keys.
Context (c : cfg).

(** diagram.hpp:186-194: do_hash of the pointer, which may be null *)
Definition hash_obj (vars : vars_t) (x : nat) : N :=
  match vars !! x with Some a => ptr_hash c a | None => 0%N end.

Definition slot_for (n : nat) (h : N) : nat := N.to_nat (h mod N.of_nat n).

(** diagram.hpp:196-208 equal_to is equals *)
Definition matches (vars : vars_t) (x : nat) (h : N) (e : entry) : bool :=
  (e_hash e =? h)%N && equals vars (e_key e) x.

Definition um_find (vars : vars_t) (m : umap) (x : nat) : option entry :=
  let h := hash_obj vars x in
  match um_buckets m !! slot_for (length (um_buckets m)) h with
  | Some l => List.find (matches vars x h) l
  | None => None
  end.

Definition add_entry (bs : list (list entry)) (e : entry) : list (list entry) :=
  alter (cons e) (slot_for (length bs) (e_hash e)) bs.

Definition entries (m : umap) : list entry := concat (um_buckets m).

Definition um_rehash (m : umap) (n : nat) : umap :=
  UMap (fold_left add_entry (entries m) (replicate (S n) [])) (um_next m).

Definition u_exec (k : ustep) (vars : vars_t) (m : umap) : M (vars_t * umap) :=
  match k with
  | UCall k => let* vars' := exec c k vars in ret (vars', m)
  | UEmplace x v =>
      match um_find vars m x with
      | Some _ => ret (vars, m)
      | None =>
          let* vars' := exec c (CCopy (um_next m) x) vars in
          ret (vars', UMap (add_entry (um_buckets m) (Ent (um_next m) (hash_obj vars x) v)) (S (um_next m)))
      end
  | UErase x =>
      match um_find vars m x with
      | Some e =>
          let* vars' := exec c (CReset (e_key e)) vars in
          ret (vars', UMap (map (List.filter (fun e' => negb (e_key e' =? e_key e))) (um_buckets m)) (um_next m))
      | None => ret (vars, m)
      end
  | URehash n => ret (vars, um_rehash m n)
  end.

Fixpoint u_run (us : list ustep) (vars : vars_t) (m : umap) : M (vars_t * umap) :=
  match us with
  | [] => ret (vars, m)
  | k :: us => let* r := u_exec k vars m in u_run us (fst r) (snd r)
  end.

(** an empty map; its first key object has the name [base] *)
Definition um_new (base n : nat) : umap := UMap (replicate (S n) []) base.

End keys.
