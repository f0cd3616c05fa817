(** * The manager invariant *)

From stdpp Require Import gmap list.
From Coq Require Import ZArith Lia.
From Verif Require Import Base Ops Tables NodeManager Heap.

Local Open Scope nat_scope.

(** ** Hoare predicate *)

Definition wp {A} (ok : err -> Prop) (m : M A) (Q : A -> st -> Prop) (s : st) : Prop :=
  match m s with
  | Ok a s' => Q a s'
  | Err e => ok e
  | Fuel => False
  end.

Lemma wp_ret {A} ok (a : A) (Q : A -> st -> Prop) s : Q a s -> wp ok (ret a) Q s.
Proof. done. Qed.
Lemma wp_bind {A B} ok (m : M A) (k : A -> M B) (Q : B -> st -> Prop) s :
  wp ok m (fun a s' => wp ok (k a) Q s') s -> wp ok (bind m k) Q s.
Proof. unfold wp, bind. destruct (m s); auto. Qed.
Lemma wp_mono {A} ok (m : M A) (P Q : A -> st -> Prop) s :
  wp ok m P s -> (forall a s', P a s' -> Q a s') -> wp ok m Q s.
Proof. unfold wp. destruct (m s); auto. Qed.
Lemma wp_gets {A} ok (f : st -> A) (Q : A -> st -> Prop) s : Q (f s) s -> wp ok (gets f) Q s.
Proof. done. Qed.
Lemma wp_modify ok f (Q : unit -> st -> Prop) s : Q tt (f s) -> wp ok (modify f) Q s.
Proof. done. Qed.
Lemma wp_of_opt {A} ok e (o : option A) a (Q : A -> st -> Prop) s : o = Some a -> Q a s -> wp ok (of_opt e o) Q s.
Proof. intros ->. done. Qed.
Lemma wp_ok_mono {A} (ok ok' : err -> Prop) (m : M A) (Q : A -> st -> Prop) s :
  (forall e, ok e -> ok' e) -> wp ok m Q s -> wp ok' m Q s.
Proof. unfold wp. destruct (m s); auto. Qed.

(** ** Ghost parameters of the invariant *)

(** what is known about the apply cache *)
Inductive cmode := CNone | CEmpty | CValid.

Record ghost := Ghost {
  g_ext : positive -> nat;  (* references from outside of the heap *)
  g_dy : list positive;     (* nodes in the course of being deleted *)
  g_fl : list positive;     (* internal nodes that are in no table (variable swap) *)
  g_flr : nat;              (* rank of those *)
  g_lv : nat -> nat;        (* rank of the variable indices *)
  g_cm : cmode;
  g_cn : bool               (* canonicity is maintained *)
}.

Definition g_set_ext e g := Ghost e (g_dy g) (g_fl g) (g_flr g) (g_lv g) (g_cm g) (g_cn g).
Definition g_set_dy d g := Ghost (g_ext g) d (g_fl g) (g_flr g) (g_lv g) (g_cm g) (g_cn g).

Definition ext_inc (e : positive -> nat) (a : positive) : positive -> nat :=
  fun b => if decide (b = a) then S (e b) else e b.

(** which values may be stored in terminals *)
Definition tval (c : cfg) (v : Z) : Prop :=
  ((0 <= v < Nondet)%Z /\ match c_fixed c with Some m => (v < m)%Z | None => True end)
  \/ (v = Undef /\ (c_dbg c = false \/ c_fixed c = None)).

(** requirements on the configuration *)
Record wf_cfg (c : cfg) : Prop := {
  wc_dom : forall i, i < nvars c -> 1 <= dom c i;
  wc_fixed : forall m, c_fixed c = Some m -> forall i, i < nvars c -> Z.of_nat (dom c i) = m;
  wc_dom_small : forall i, i < nvars c -> (Z.of_nat (dom c i) < Nondet)%Z
}.

(** valid assignments *)
Definition valid (c : cfg) (rho : asg) : Prop := forall i, i < nvars c -> rho i < dom c i.

Definition cnt (a : positive) (n : node) : nat :=
  match n_body n with Int _ sons => count_occ Pos.eq_dec sons a | Term _ => 0 end.

(** number of edges into [a] from live nodes that are not being deleted *)
Definition edges (dy : list positive) (h : gmap positive node) (a : positive) : nat :=
  hsum (fun b n => if n_used n && negb (bool_decide (b ∈ dy)) then cnt a n else 0) h.

Definition nlive (h : gmap positive node) : nat :=
  hsum (fun _ n => if n_used n then 1 else 0) h.

(** levels and indices are inverse permutations *)
Record perm_ok (c : cfg) (s : st) : Prop := {
  pm_l2i : length (s_l2i s) = nvars c;
  pm_i2l : length (s_i2l s) = nvars c;
  pm_inv : forall l i, s_l2i s !! l = Some i <-> s_i2l s !! i = Some l
}.

(** the ghost ranks are the levels *)
Definition ord (c : cfg) (g : ghost) (s : st) : Prop :=
  perm_ok c s /\ forall i, i < nvars c -> s_i2l s !! i = Some (g_lv g i).

Section inv.
Context (c : cfg) (opsem : Z -> option (Z -> Z -> Z)) (strict : bool).

Definition rank (g : ghost) (h : gmap positive node) (a : positive) : nat :=
  if decide (a ∈ g_fl g) then g_flr g else
  match live h a with
  | Some (Int i _) => g_lv g i
  | _ => nvars c
  end.

Definition node_ok (g : ghost) (h : gmap positive node) (a : positive) (b : body) : Prop :=
  match b with
  | Term v => tval c v /\ a ∉ g_fl g
  | Int i sons =>
      i < nvars c /\ length sons = dom c i /\ rank g h a < nvars c /\
      (a ∉ g_dy g -> forall d, d ∈ sons -> live h d <> None /\ rank g h a < rank g h d)
  end.

Definition tab_ok (g : ghost) (h : gmap positive node) (i : nat) (t : utab) : Prop :=
  (0 < t_cap t)%N /\
  length (t_buckets t) = N.to_nat (t_cap t) /\
  (forall b chain, t_buckets t !! b = Some chain ->
     NoDup chain /\
     forall a, a ∈ chain <->
       a ∉ g_fl g /\ exists sons, live h a = Some (Int i sons) /\ bucket_of t (node_hash c sons) = b) /\
  t_size t = Z.of_nat (length (concat (t_buckets t))).

Definition ent_ok (g : ghost) (h : gmap positive node) (e : ent) : Prop :=
  live h (e_l e) <> None /\ live h (e_r e) <> None /\ live h (e_res e) <> None /\
  Nat.min (rank g h (e_l e)) (rank g h (e_r e)) <= rank g h (e_res e) /\
  forall f, opsem (e_op e) = Some f ->
  forall rho x y, valid c rho ->
    Ev (live h) (e_l e) rho x -> Ev (live h) (e_r e) rho y -> Ev (live h) (e_res e) rho (f x y).

Definition cache_ok (g : ghost) (h : gmap positive node) (ac : acache) : Prop :=
  (0 < a_cap ac)%N /\
  length (a_ents ac) = N.to_nat (a_cap ac) /\
  match g_cm g with
  | CNone => True
  | CEmpty => forall k e, a_ents ac !! k <> Some (Some e)
  | CValid => forall k e, a_ents ac !! k = Some (Some e) -> ent_ok g h e
  end.

Definition pool_live (s : st) : Prop :=
  (1 <= p_extra (s_pool s))%Z /\
  forall n, (p_main (s_pool s) <= n)%Z -> (1 <= s_gcthr s n)%Z.

Record pool_ok (h : gmap positive node) (p : pool) : Prop := {
  po_avail : p_avail p = (Z.of_nat (length (p_free p)) + Z.of_N (p_left p))%Z;
  po_nodup : NoDup (p_free p);
  po_free : forall a, a ∈ p_free p -> exists n, h !! a = Some n /\ n_used n = false;
  po_used : forall a n, h !! a = Some n -> n_used n = false -> a ∈ p_free p;
  po_next : forall a n, h !! a = Some n -> (a < p_next p)%positive;
  po_extra : (0 <= p_extra p)%Z;
  po_main : (p_main p <= Z.of_nat (nlive h) + p_avail p)%Z
}.

Record WF (g : ghost) (s : st) : Prop := {
  wf_node : forall a b, live (s_heap s) a = Some b -> node_ok g (s_heap s) a b;
  wf_fl : forall a, a ∈ g_fl g -> exists i sons, live (s_heap s) a = Some (Int i sons);
  wf_lv : forall i, i < nvars c -> g_lv g i < nvars c;
  wf_ntabs : length (s_tabs s) = nvars c;
  wf_tab : forall i t, s_tabs s !! i = Some t -> tab_ok g (s_heap s) i t;
  wf_term1 : forall k a, s_terms s !! k = Some (Some a) ->
      live (s_heap s) a = Some (Term (Z.of_nat k)) /\ Z.of_nat k <> Undef;
  wf_term2 : forall a v, live (s_heap s) a = Some (Term v) -> v <> Undef ->
      s_terms s !! Z.to_nat v = Some (Some a);
  wf_spec1 : forall k a, s_specs s !! k = Some (Some a) ->
      k = 0 /\ live (s_heap s) a = Some (Term Undef);
  wf_spec2 : forall a, live (s_heap s) a = Some (Term Undef) ->
      s_specs s !! 0 = Some (Some a);
  wf_refs : forall a n, s_heap s !! a = Some n -> n_used n = true -> a ∉ g_dy g ->
      N.to_nat (n_refs n) = g_ext g a + edges (g_dy g) (s_heap s) a;
  wf_ext : forall a, 0 < g_ext g a -> live (s_heap s) a <> None /\ a ∉ g_dy g;
  wf_dy : forall a, a ∈ g_dy g -> a ∉ g_fl g /\
      exists i sons n, s_heap s !! a = Some n /\ n_used n = true /\ n_body n = Int i sons /\
        n_refs n = 0%N /\ n_mark n = false /\ edges (g_dy g) (s_heap s) a = 0;
  wf_pool : pool_ok (s_heap s) (s_pool s);
  wf_strict : strict = true -> pool_live s;
  wf_count : s_count s = Z.of_nat (nlive (s_heap s));
  wf_cache : cache_ok g (s_heap s) (s_cache s);
  wf_canon : g_cn g = true ->
      (forall a a' i sons, live (s_heap s) a = Some (Int i sons) ->
                           live (s_heap s) a' = Some (Int i sons) -> a = a') /\
      (forall a i sons, live (s_heap s) a = Some (Int i sons) -> adj_eq sons = false)
}.

(** ** Nodes that must survive *)

Definition root (g : ghost) (h : gmap positive node) (r : positive) : Prop :=
  live h r <> None /\ r ∉ g_dy g /\ (marked h r \/ 0 < g_ext g r \/ r ∈ g_fl g).

Definition held (g : ghost) (h : gmap positive node) (a : positive) : Prop :=
  exists r, root g h r /\ reach (live h) r a.

Definition keeps (g : ghost) (h h' : gmap positive node) : Prop :=
  forall a, held g h a -> held g h' a /\ live h' a = live h a.

(** fields that only reordering and setters change *)
Definition same_order (s s' : st) : Prop :=
  s_l2i s' = s_l2i s /\ s_i2l s' = s_i2l s /\ s_gcthr s' = s_gcthr s /\
  s_cratio s' = s_cratio s /\ s_auto s' = s_auto s /\
  (s_auto s = false -> s_defer s' = s_defer s).

(** the cells of all chunks of the pool *)
Definition cells (s : st) : Z := (s_count s + p_avail (s_pool s))%Z.

(** The pool has grown only when a collection had left almost all cells in use: [m] is
    the number of cells before the last growth, [l] the nodes that were left. *)
Definition grown (g : ghost) (s s' : st) : Prop :=
  ord c g s -> s_auto s = false ->
  p_extra (s_pool s') = p_extra (s_pool s) /\
  (cells s' = cells s \/
   exists m l, cells s' = (m + p_extra (s_pool s))%Z /\ NoDup l /\ (forall a, a ∈ l -> held g (s_heap s') a) /\
     (m - s_gcthr s m < Z.of_nat (length l))%Z).

Record sstep (g : ghost) (s s' : st) : Prop := {
  ss_wf : WF g s';
  ss_keeps : keeps g (s_heap s) (s_heap s');
  ss_same : same_order s s';
  ss_grown : grown g s s'
}.

(** marks of [h'] come from [h] or from [X] *)
Definition marks_le (h h' : gmap positive node) (X : positive -> Prop) : Prop :=
  forall a, marked h' a -> marked h a \/ X a.

Definition allowed (e : err) : Prop := e = ERefOver \/ (strict = false /\ e = EPool).

End inv.
