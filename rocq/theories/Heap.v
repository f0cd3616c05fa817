(** * Views of the heap: live bodies, semantics, reachability, weighted sums.
    Nothing here mentions the algorithms of the model. *)

From stdpp Require Import gmap list.
From Coq Require Import ZArith Lia.
From Verif Require Import Base.

Local Open Scope nat_scope.

(** the body of a node that is in use *)
Definition live (h : gmap positive node) (a : positive) : option body :=
  match h !! a with
  | Some n => if n_used n then Some (n_body n) else None
  | None => None
  end.

Definition marked (h : gmap positive node) (a : positive) : Prop :=
  exists n, h !! a = Some n /\ n_used n = true /\ n_mark n = true.

(** ** Semantics *)

(** assignments of values to variable indices *)
Definition asg := nat -> nat.

(** [Ev L a rho v]: following the sons chosen by [rho] from [a] one arrives at a
    terminal with value [v] *)
Inductive Ev (L : positive -> option body) : positive -> asg -> Z -> Prop :=
| Ev_term a rho v : L a = Some (Term v) -> Ev L a rho v
| Ev_int a rho i sons b v :
    L a = Some (Int i sons) -> sons !! (rho i) = Some b -> Ev L b rho v -> Ev L a rho v.

(** reachability along sons *)
Inductive reach (L : positive -> option body) : positive -> positive -> Prop :=
| reach_refl a : reach L a a
| reach_step a b d i sons :
    L a = Some (Int i sons) -> b ∈ sons -> reach L b d -> reach L a d.

Lemma Ev_det L a rho v w : Ev L a rho v -> Ev L a rho w -> v = w.
Proof.
  intros H; revert w; induction H as [a rho v Ha|a rho i sons b v Ha Hb _ IH]; intros w Hw.
  - inversion Hw; subst; congruence.
  - inversion Hw as [? ? ? Ha'|? ? ? ? ? ? Ha' Hb' Hv]; subst; [congruence|].
    rewrite Ha in Ha'; simplify_eq. auto.
Qed.

Lemma reach_trans L a b d : reach L a b -> reach L b d -> reach L a d.
Proof. induction 1; eauto using reach_step. Qed.

Lemma reach_son L a i sons b : L a = Some (Int i sons) -> b ∈ sons -> reach L a b.
Proof. intros; eapply reach_step; eauto using reach_refl. Qed.

(** [Ev] only looks at what is reachable *)
Lemma Ev_agree L L' a rho v :
  (forall b, reach L a b -> L' b = L b) -> Ev L a rho v -> Ev L' a rho v.
Proof.
  intros Hag H; revert Hag; induction H as [a rho v Ha|a rho i sons b v Ha Hb _ IH]; intros Hag.
  - apply Ev_term. rewrite Hag; auto using reach_refl.
  - eapply Ev_int; [rewrite Hag; eauto using reach_refl|eauto|].
    apply IH; intros d Hd. apply Hag. eapply reach_step; eauto.
    by eapply elem_of_list_lookup_2.
Qed.

Lemma reach_agree L L' a d :
  (forall b, reach L a b -> L' b = L b) -> reach L a d -> reach L' a d.
Proof.
  intros Hag H; revert Hag; induction H as [a|a b d i sons Ha Hb _ IH]; intros Hag.
  - constructor.
  - eapply reach_step; [rewrite Hag; eauto using reach_refl|eauto|].
    apply IH; intros e He. apply Hag. eapply reach_step; eauto.
Qed.

Lemma Ev_ext L L' a rho v : (forall b, L' b = L b) -> Ev L a rho v -> Ev L' a rho v.
Proof. intros; eapply Ev_agree; eauto. Qed.

Lemma reach_ext L L' a d : (forall b, L' b = L b) -> reach L a d -> reach L' a d.
Proof. intros; eapply reach_agree; eauto. Qed.

Lemma reach_inv L a d : reach L a d -> a = d \/ exists i sons b, L a = Some (Int i sons) /\ b ∈ sons /\ reach L b d.
Proof. destruct 1; eauto 10. Qed.

(** last edge of a path *)
Lemma reach_inv_r L a d :
  reach L a d -> a = d \/ exists p i sons, reach L a p /\ L p = Some (Int i sons) /\ d ∈ sons.
Proof.
  induction 1 as [a|a b d i sons Ha Hb _ IH]; [by left|]. right.
  destruct IH as [->|(p&j&ss&Hp&HL&Hd)].
  - exists a, i, sons. auto using reach_refl.
  - exists p, j, ss. split; [|auto]. eapply reach_step; eauto.
Qed.

(** [rho] with variable [i] set to [k] *)
Definition upd (rho : asg) (i k : nat) : asg := fun j => if decide (j = i) then k else rho j.

Lemma upd_same rho i k : upd rho i k i = k.
Proof. unfold upd. by rewrite decide_True. Qed.
Lemma upd_other rho i k j : j <> i -> upd rho i k j = rho j.
Proof. intros. unfold upd. by rewrite decide_False. Qed.

(** [Ev] only depends on the variables that occur *)
Lemma Ev_vars L a rho rho' v :
  (forall b i sons, reach L a b -> L b = Some (Int i sons) -> rho' i = rho i) ->
  Ev L a rho v -> Ev L a rho' v.
Proof.
  intros Hag H; revert Hag; induction H as [a rho v Ha|a rho i sons b v Ha Hb _ IH]; intros Hag.
  - by apply Ev_term.
  - eapply Ev_int; [done| rewrite (Hag a i sons); eauto using reach_refl|].
    apply IH. intros d j ss Hd. apply Hag. eapply reach_step; eauto.
    by eapply elem_of_list_lookup_2.
Qed.

(** ** Weighted sums over the heap *)

Definition hsum (f : positive -> node -> nat) (h : gmap positive node) : nat :=
  map_fold (fun a n acc => f a n + acc) 0 h.

Lemma hsum_empty f : hsum f ∅ = 0.
Proof. unfold hsum. by rewrite map_fold_empty. Qed.

Lemma hsum_insert_new f h a n : h !! a = None -> hsum f (<[a:=n]> h) = f a n + hsum f h.
Proof.
  intros. unfold hsum. rewrite map_fold_insert_L; [done| |done].
  intros; lia.
Qed.

Lemma hsum_delete f h a n : h !! a = Some n -> hsum f h = f a n + hsum f (delete a h).
Proof.
  intros. rewrite <- (insert_delete h a n) at 1 by done.
  apply hsum_insert_new. apply lookup_delete.
Qed.

Lemma hsum_update f h a n n' :
  h !! a = Some n -> hsum f (<[a:=n']> h) + f a n = hsum f h + f a n'.
Proof.
  intros. rewrite (hsum_delete f h a n) by done.
  rewrite (hsum_delete f (<[a:=n']> h) a n') by apply lookup_insert.
  rewrite delete_insert_delete. lia.
Qed.

Lemma hsum_ext f g h : (forall a n, h !! a = Some n -> f a n = g a n) -> hsum f h = hsum g h.
Proof.
  induction h as [|a n h Hn IH] using map_ind; intros Heq.
  - by rewrite !hsum_empty.
  - rewrite !hsum_insert_new by done. rewrite IH, Heq; [done|apply lookup_insert|].
    intros b m Hb. apply Heq. rewrite lookup_insert_ne; [done|congruence].
Qed.

Lemma hsum_le f h a n : h !! a = Some n -> f a n <= hsum f h.
Proof. intros. rewrite (hsum_delete f h a n) by done. lia. Qed.

Lemma hsum_pos f h : 0 < hsum f h -> exists a n, h !! a = Some n /\ 0 < f a n.
Proof.
  induction h as [|a n h Hn IH] using map_ind; intros Hpos.
  - rewrite hsum_empty in Hpos. lia.
  - rewrite hsum_insert_new in Hpos by done.
    destruct (decide (f a n = 0)) as [E|E].
    + destruct IH as (b&m&Hb&Hm); [lia|]. exists b, m. split; [|done].
      rewrite lookup_insert_ne; [done|congruence].
    + exists a, n. split; [apply lookup_insert|lia].
Qed.

Lemma hsum_zero f h : (forall a n, h !! a = Some n -> f a n = 0) -> hsum f h = 0.
Proof.
  intros Hz. destruct (decide (hsum f h = 0)) as [|E]; [done|].
  destruct (hsum_pos f h) as (a&n&Ha&Hn); [lia|]. rewrite Hz in Hn; [lia|done].
Qed.

(** two heaps with the same domain *)
Lemma hsum_rel f g h h' :
  (forall a, match h !! a, h' !! a with
             | Some n, Some n' => f a n = g a n'
             | None, None => True
             | _, _ => False end) ->
  hsum f h = hsum g h'.
Proof.
  revert h'. induction h as [|a n h Hn IH] using map_ind; intros h' Hrel.
  - assert (h' = ∅) as ->; [|by rewrite !hsum_empty].
    apply map_empty; intros a. specialize (Hrel a). rewrite lookup_empty in Hrel.
    destruct (h' !! a); done.
  - pose proof (Hrel a) as Ha. rewrite lookup_insert in Ha.
    destruct (h' !! a) as [n'|] eqn:E; [|done].
    rewrite hsum_insert_new, (hsum_delete g h' a n') by done. rewrite Ha.
    rewrite (IH (delete a h')); [done|]. intros b. specialize (Hrel b).
    destruct (decide (a = b)) as [<-|Hne].
    + rewrite Hn, lookup_delete. done.
    + rewrite lookup_insert_ne in Hrel by done. by rewrite lookup_delete_ne.
Qed.
