(** * What programs may expect from unique tables *)

From stdpp Require Import gmap list.
From Coq Require Import ZArith.
From Verif Require Import Base Links.

(** where a node is; nodes without an entry belong to the pool *)
Inductive place :=
| InTab (i : nat)   (* in table i *)
| Loose             (* in no table, its next_ was not used since it was created or erased *)
| Dropped.          (* in no table, but was in a table that was cleared *)

Global Instance place_eq_dec : EqDecision place.
Proof. solve_decision. Defined.

Record aworld := AW {
  aw_at : gmap positive place;
  aw_sons : gmap positive (list positive);
  (** [Some true]: a table; [Some false]: a table whose nodes may get other sons, it
      can only be iterated over and merged; [None]: gone *)
  aw_tabs : list (option bool)
}.

Definition outside (A : aworld) (a : positive) : Prop := aw_at A !! a = Some Loose \/ aw_at A !! a = Some Dropped.

(** preconditions *)
Definition allows (A : aworld) (k : top) : Prop :=
  match k with
  | TTable _ | TCreate _ | TGrow _ => True
  | TSons a _ => outside A a \/ exists i, aw_at A !! a = Some (InTab i) /\ aw_tabs A !! i = Some (Some false)
  | TRelease a => outside A a
  | TInsert i a => aw_tabs A !! i = Some (Some true) /\ aw_at A !! a = Some Loose
  | TErase i a => aw_tabs A !! i = Some (Some true) /\ aw_at A !! a = Some (InTab i)
  | TAdjust i | TClear i | TSteal i | TSweep i _ => aw_tabs A !! i = Some (Some true)
  | TMerge i j => i <> j /\ aw_tabs A !! i = Some (Some true) /\ exists b, aw_tabs A !! j = Some (Some b)
  end.

Definition move_all (i : nat) (to : place) (m : gmap positive place) : gmap positive place :=
  (fun p => if decide (p = InTab i) then to else p) <$> m.

(** effects; [r]: the node that is returned *)
Definition effect (A : aworld) (k : top) (r : option positive) (A' : aworld) : Prop :=
  match k with
  | TTable _ => A' = AW (aw_at A) (aw_sons A) (aw_tabs A ++ [Some true])
  | TCreate sons => exists a, r = Some a /\ aw_at A !! a = None /\
      A' = AW (<[a := Loose]> (aw_at A)) (<[a := sons]> (aw_sons A)) (aw_tabs A)
  | TSons a sons => A' = AW (aw_at A) (<[a := sons]> (aw_sons A)) (aw_tabs A)
  | TRelease a => A' = AW (delete a (aw_at A)) (aw_sons A) (aw_tabs A)
  | TInsert i a => A' = AW (<[a := InTab i]> (aw_at A)) (aw_sons A) (aw_tabs A)
  | TErase i a => A' = AW (<[a := Loose]> (aw_at A)) (aw_sons A) (aw_tabs A)
  | TAdjust _ | TGrow _ => A' = A
  | TClear i => A' = AW (move_all i Dropped (aw_at A)) (aw_sons A) (aw_tabs A)
  | TSteal i => A' = AW (move_all i (InTab (length (aw_tabs A))) (aw_at A)) (aw_sons A) (aw_tabs A ++ [Some false])
  | TMerge i j => A' = AW (move_all j (InTab i) (aw_at A)) (aw_sons A) (<[j := None]> (aw_tabs A))
  | TSweep i dead => A' = AW (filter (fun ap => ~ (snd ap = InTab i /\ dead (fst ap) = true)) (aw_at A)) (aw_sons A) (aw_tabs A)
  end.

(** programs *)
Inductive program (c : cfg) : list top -> lworld -> aworld -> Prop :=
| P_start : program c [] l_start (AW ∅ ∅ [])
| P_call ks w A k w' r A' : program c ks w A -> allows A k -> l_exec c k w = LVal (w', r) -> effect A k r A' ->
    program c (ks ++ [k]) w' A'.
