(** * Sizes computed by the constructor in the type double

    node_manager.hpp:324-402, the thresholds of 1014-1060, and the default pool
    sizes of core.hpp and reliability.hpp.  Arithmetic is IEEE binary64
    (ProbFloat.v).  [None] is undefined behaviour: a conversion to an integer of a
    number that does not fit (or of no number), or an access past domains_. *)

From Coq Require Import ZArith List Bool.
From Flocq Require Import Core BinarySingleNaN.
From Verif Require Import Base Tools NodeManager ProbFloat.
Import ListNotations.

Local Open Scope Z_scope.

Definition mul64 : b64 -> b64 -> b64 := Bmult mode_NE.
Definition div64 : b64 -> b64 -> b64 := Bdiv mode_NE.
Definition sub64 : b64 -> b64 -> b64 := Bminus mode_NE.

(** a literal n / d with n, d small: the double nearest to the quotient *)
Definition literal (n d : Z) : b64 := div64 (b64_of_Z n) (b64_of_Z d).

(** static_cast<int32>(x) *)
Definition b64_to_int32 (x : b64) : option Z := if is_finite x then chk min32 max32 (Btrunc x) else None.

Section sizes.
Context (varCount nodePoolSize : Z).

(** lines 377-380 *)
Definition peak_position : b64 := mul64 (literal 71 100) (sub64 (b64_of_Z varCount) Bone).
Definition peak_count : b64 := mul64 (literal 5 100) (b64_of_Z nodePoolSize).

(** lines 384-388: fc * x / c *)
Definition size_before (i : Z) : option Z :=
  b64_to_int64 (div64 (mul64 peak_count (b64_of_Z i)) peak_position).

(** lines 393-398: (fc * x) / (c - n) - (fc * n) / (c - n) *)
Definition size_after (i : Z) : option Z :=
  let n := sub64 (b64_of_Z varCount) Bone in
  let d := sub64 peak_position n in
  b64_to_int64 (sub64 (div64 (mul64 peak_count (b64_of_Z i)) d) (div64 (mul64 peak_count n) d)).

(** emplace_back(f(i), get_domain(i)) for i, i + 1, ... ([k] times).  get_domain of a
    mixed manager reads domains_[i], which has varCount elements. *)
Fixpoint add_tables (mixed : bool) (f : Z -> option Z) (k : nat) (i : Z) : option (list Z) :=
  match k with
  | O => Some []
  | S k =>
      match f i with
      | None => None
      | Some s =>
          if mixed && (varCount <=? i) then None else
          match add_tables mixed f k (i + 1) with Some l => Some (s :: l) | None => None end
      end
  end.

(** lines 382-400: the sizes with which the unique tables are created *)
Definition table_sizes (mixed : bool) : option (list Z) :=
  match b64_to_int32 peak_position with
  | None => None
  | Some m =>
      match add_tables mixed size_before (Z.to_nat (m + 1)) 0 with
      | None => None
      | Some l =>
          match add_tables mixed size_after (Z.to_nat (varCount - (m + 1))) (m + 1) with
          | None => None
          | Some l' => Some (l ++ l')
          end
      end
  end.

(** lines 333-335: DEFAULT_CACHE_RATIO = 1.0, line 237 *)
Definition cache_size : option Z := b64_to_int64 (mul64 (literal 1 1) (b64_of_Z nodePoolSize)).

End sizes.

(** lines 1045-1047: growThreshold with gcRatio_ = [ratio]; lines 1017-1018: the
    capacity wanted for the cache with cacheRatio_ = [ratio] *)
Definition grow_threshold (ratio : b64) (nodeCount : Z) : option Z := b64_to_int64 (mul64 ratio (b64_of_Z nodeCount)).

(** DEFAULT_GC_RATIO, line 238 *)
Definition gc_ratio : b64 := literal 20 100.

(** the ratios as functions of the node count.  There are no counts above 2^62 (a node
    has more than 4 bytes); 0 for an undefined conversion, see [C65_thresholds]. *)
Definition by_ratio (ratio : b64) (nodeCount : Z) : Z :=
  if 2 ^ 62 <? nodeCount then 1 else match grow_threshold ratio nodeCount with Some z => z | None => 0 end.

(** core.hpp:193, 223, 254, 288 and reliability.hpp:177, 207, 238, 272: the size of
    the additional pools when it is not given, nodePoolSize / 2 *)
Definition default_extra (nodePoolSize : Z) : Z := Z.quot nodePoolSize 2.

(** The constructor with the sizes of this file.  is_mixed<Domain> is the absence of a
    fixed domain. *)
Definition construct_sized (c : cfg) (order : list Z) (main extra : Z) : M unit := fun s =>
  let V := Z.of_nat (nvars c) in
  match cache_size main, table_sizes V main (match c_fixed c with None => true | Some _ => false end) with
  | Some cachecap, Some caps => construct c order main extra cachecap caps (by_ratio gc_ratio) (by_ratio (literal 1 1)) s
  | _, _ => Err EOverflow
  end.
