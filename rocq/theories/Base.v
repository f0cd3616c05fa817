(** * Base: outcomes, configuration, manager state and the state monad.

    Everything below models C++ of /repo/libteddy/details.  Pointers are cell
    numbers ([positive]); the cell numbering is only a naming, the machine
    address of a cell is [c_ptr], an arbitrary function.

    Simplifications (all model files):
    - a son array holds exactly [domain] entries (arrays of fixed degree have
      unused tail entries in the C++ when a domain is smaller than the degree);
    - intrusive [next_] chains are lists of cells;
    - int64 counters and sizes are unbounded [Z] unless stated otherwise;
    - reading a node that has been given back to the pool is the outcome
      [Err EStale] (in the C++ the stale fields would be read). *)

From stdpp Require Import gmap list.
From Coq Require Import ZArith.

Local Open Scope Z_scope.

(** ** Special values: types.hpp:14-15, 37-40 *)

(** types.hpp:14  Undefined = ~(1 << 31) *)
Definition Undef : Z := 2147483647.
(** types.hpp:15  Nondetermined = Undefined - 1 *)
Definition Nondet : Z := 2147483646.
(** types.hpp:42-45 is_special *)
Definition is_special (v : Z) : bool := v =? Undef.

(** ** Outcomes *)

Inductive err :=
| EStale    (* use of a node that is not in use *)
| EOob      (* index outside of an array *)
| EAssert   (* assertion that fails in a debug build *)
| EPool     (* node_pool::create with no node available *)
| ERefOver  (* reference count does not fit its 29 bits *)
| ERefUnder (* reference count below zero *)
| EOverflow (* signed integer overflow *)
| EUninit   (* read of an uninitialised value *)
| ENull.    (* null pointer dereference *)

#[global] Instance err_eq_dec : EqDecision err.
Proof. solve_decision. Defined.

(** ** Nodes: node.hpp:175-226 (the packed word is refined in NodeBits.v) *)

Inductive body :=
| Term (v : Z)                          (* terminal_.value_ *)
| Int (i : nat) (sons : list positive). (* internal_.index_, internal_.sons_ *)

#[global] Instance body_eq_dec : EqDecision body.
Proof. solve_decision. Defined.

Record node := Node {
  n_body : body;
  n_mark : bool;   (* MarkM *)
  n_used : bool;   (* UsedM *)
  n_refs : N       (* RefsM *)
}.

(** ** Unique table: hash_tables.hpp:243-247 *)
Record utab := UTab {
  t_size : Z;
  t_cap : N;
  t_buckets : list (list positive)
}.

(** ** Apply cache: hash_tables.hpp:260-266, 332-335; [None] is a zeroed entry *)
Record ent := Ent { e_op : Z; e_l : positive; e_r : positive; e_res : positive }.

Record acache := ACache {
  a_size : Z;
  a_cap : N;
  a_ents : list (option ent)
}.

(** ** Node pool: node_pool.hpp:65-71; [p_next] is nextPoolNode_, [p_left] the
    number of cells between nextPoolNode_ and the end of the current chunk *)
Record pool := Pool {
  p_free : list positive;
  p_next : positive;
  p_left : N;
  p_main : Z;
  p_extra : Z;
  p_avail : Z
}.

(** ** Manager: node_manager.hpp:240-255.  The two ratios are kept as the
    functions node count -> threshold they induce (lines 1017, 1045-1047), so
    no assumption on floating point arithmetic is made. *)
Record st := St {
  s_heap : gmap positive node;
  s_tabs : list utab;
  s_terms : list (option positive);
  s_specs : list (option positive);
  s_cache : acache;
  s_pool : pool;
  s_l2i : list nat;
  s_i2l : list nat;
  s_count : Z;
  s_adj : Z;
  s_gcthr : Z -> Z;
  s_cratio : Z -> Z;
  s_auto : bool;
  s_defer : bool
}.

Definition set_heap x s := St x (s_tabs s) (s_terms s) (s_specs s) (s_cache s) (s_pool s) (s_l2i s) (s_i2l s) (s_count s) (s_adj s) (s_gcthr s) (s_cratio s) (s_auto s) (s_defer s).
Definition set_tabs x s := St (s_heap s) x (s_terms s) (s_specs s) (s_cache s) (s_pool s) (s_l2i s) (s_i2l s) (s_count s) (s_adj s) (s_gcthr s) (s_cratio s) (s_auto s) (s_defer s).
Definition set_terms x s := St (s_heap s) (s_tabs s) x (s_specs s) (s_cache s) (s_pool s) (s_l2i s) (s_i2l s) (s_count s) (s_adj s) (s_gcthr s) (s_cratio s) (s_auto s) (s_defer s).
Definition set_specs x s := St (s_heap s) (s_tabs s) (s_terms s) x (s_cache s) (s_pool s) (s_l2i s) (s_i2l s) (s_count s) (s_adj s) (s_gcthr s) (s_cratio s) (s_auto s) (s_defer s).
Definition set_cache x s := St (s_heap s) (s_tabs s) (s_terms s) (s_specs s) x (s_pool s) (s_l2i s) (s_i2l s) (s_count s) (s_adj s) (s_gcthr s) (s_cratio s) (s_auto s) (s_defer s).
Definition set_pool x s := St (s_heap s) (s_tabs s) (s_terms s) (s_specs s) (s_cache s) x (s_l2i s) (s_i2l s) (s_count s) (s_adj s) (s_gcthr s) (s_cratio s) (s_auto s) (s_defer s).
Definition set_l2i x s := St (s_heap s) (s_tabs s) (s_terms s) (s_specs s) (s_cache s) (s_pool s) x (s_i2l s) (s_count s) (s_adj s) (s_gcthr s) (s_cratio s) (s_auto s) (s_defer s).
Definition set_i2l x s := St (s_heap s) (s_tabs s) (s_terms s) (s_specs s) (s_cache s) (s_pool s) (s_l2i s) x (s_count s) (s_adj s) (s_gcthr s) (s_cratio s) (s_auto s) (s_defer s).
Definition set_count x s := St (s_heap s) (s_tabs s) (s_terms s) (s_specs s) (s_cache s) (s_pool s) (s_l2i s) (s_i2l s) x (s_adj s) (s_gcthr s) (s_cratio s) (s_auto s) (s_defer s).
Definition set_adj x s := St (s_heap s) (s_tabs s) (s_terms s) (s_specs s) (s_cache s) (s_pool s) (s_l2i s) (s_i2l s) (s_count s) x (s_gcthr s) (s_cratio s) (s_auto s) (s_defer s).
Definition set_gcthr x s := St (s_heap s) (s_tabs s) (s_terms s) (s_specs s) (s_cache s) (s_pool s) (s_l2i s) (s_i2l s) (s_count s) (s_adj s) x (s_cratio s) (s_auto s) (s_defer s).
Definition set_cratio x s := St (s_heap s) (s_tabs s) (s_terms s) (s_specs s) (s_cache s) (s_pool s) (s_l2i s) (s_i2l s) (s_count s) (s_adj s) (s_gcthr s) x (s_auto s) (s_defer s).
Definition set_auto x s := St (s_heap s) (s_tabs s) (s_terms s) (s_specs s) (s_cache s) (s_pool s) (s_l2i s) (s_i2l s) (s_count s) (s_adj s) (s_gcthr s) (s_cratio s) x (s_defer s).
Definition set_defer x s := St (s_heap s) (s_tabs s) (s_terms s) (s_specs s) (s_cache s) (s_pool s) (s_l2i s) (s_i2l s) (s_count s) (s_adj s) (s_gcthr s) (s_cratio s) (s_auto s) x.

(** ** Configuration: template parameters and constructor arguments that never
    change.  [c_doms] are the domains by index, [c_fixed] is [Domain::value]
    for managers with a fixed domain, [c_dbg] says whether assertions are
    compiled in, [c_trap] whether signed overflow is an error or wraps. *)
Record cfg := Cfg {
  c_doms : list nat;
  c_fixed : option Z;
  c_ptr : positive -> N;
  c_dbg : bool;
  c_trap : bool
}.

Definition nvars (c : cfg) : nat := length (c_doms c).
Definition dom (c : cfg) (i : nat) : nat := nth i (c_doms c) 0%nat.

(** ** State monad *)

Inductive res (A : Type) :=
| Ok (a : A) (s : st)
| Err (e : err)
| Fuel.
Arguments Ok {A} a s.
Arguments Err {A} e.
Arguments Fuel {A}.

Definition M (A : Type) := st -> res A.

Definition ret {A} (a : A) : M A := fun s => Ok a s.
Definition fail {A} (e : err) : M A := fun _ => Err e.
Definition nofuel {A} : M A := fun _ => Fuel.
Definition bind {A B} (m : M A) (k : A -> M B) : M B := fun s =>
  match m s with
  | Ok a s' => k a s'
  | Err e => Err e
  | Fuel => Fuel
  end.
Definition gets {A} (f : st -> A) : M A := fun s => Ok (f s) s.
Definition modify (f : st -> st) : M unit := fun s => Ok tt (f s).

Notation "'let*' x ':=' m 'in' k" := (bind m (fun x => k))
  (at level 200, x binder, m at level 100, k at level 200, right associativity,
   format "'[v' 'let*'  x  ':='  m  'in' '/' k ']'").

Definition of_opt {A} (e : err) (o : option A) : M A :=
  match o with Some a => ret a | None => fail e end.

Fixpoint mapM_ {A} (f : A -> M unit) (l : list A) : M unit :=
  match l with
  | [] => ret tt
  | a :: l => let* _ := f a in mapM_ f l
  end.

Fixpoint mapM {A B} (f : A -> M B) (l : list A) : M (list B) :=
  match l with
  | [] => ret []
  | a :: l => let* b := f a in let* bs := mapM f l in ret (b :: bs)
  end.

(** map with failure, for pure code *)
Fixpoint mapM_opt {A B} (f : A -> option B) (l : list A) : option (list B) :=
  match l with
  | [] => Some []
  | a :: l =>
      match f a, mapM_opt f l with
      | Some b, Some bs => Some (b :: bs)
      | _, _ => None
      end
  end.

(** map threading an accumulator (memo tables) *)
Fixpoint mapMs {A B S} (f : S -> A -> M (S * B)) (m : S) (l : list A) : M (S * list B) :=
  match l with
  | [] => ret (m, [])
  | a :: l =>
      let* mb := f m a in
      let* mbs := mapMs f (fst mb) l in
      ret (fst mbs, snd mb :: snd mbs)
  end.
