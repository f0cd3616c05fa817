(** * Consequences for all histories *)

From stdpp Require Import gmap list.
From Coq Require Import ZArith Lia.
From Verif Require Import Base Ops Tables NodeManager Tools Sift DiagramManager World.
From Verif Require Import Heap Inv InvLemmas Prim TabLemmas GC Make Build Canon Apply Api Constr Expr VecSpec Vec Eval Fold.
From Verif Require Import WorldSpec WorldProof Ctor.

Local Open Scope nat_scope.

(** objects that a call may change *)
Definition touched (k : call) : list nat :=
  match k with
  | CConst d _ | CVar d _ | CVarNot d _ | CVec d _ | CExpr d _ | CApply d _ _ _ | CLeft d _ _
  | CTransform d _ _ | CCofactor d _ _ _ | CCofactors d _ _ | CCopy d _ | CReset d
  | CDpld d _ _ _ | CExtend d _ _ _ | CDpldE d _ _ _ _ => [d]
  | CTree d _ xs => d :: xs
  | CMove d x | CSwap d x => [d; x]
  | CGc | CClearCache | CCacheRatio _ | CGcRatio _ | CAuto _ | CReorder | CMnf _ => []
  end.

Lemma hcount_pos_inv vars a : 0 < hcount vars a -> exists d : nat, vars !! d = Some a.
Proof.
  induction vars as [|d b vars Hd IH] using map_ind; intros H; [rewrite hcount_empty in H; lia|].
  rewrite hcount_new in H by done. destruct (decide (b = a)) as [->|].
  - exists d. by rewrite lookup_insert.
  - destruct IH as [e He]; [lia|]. exists e. rewrite lookup_insert_ne; [done|]. by intros ->; congruence.
Qed.

Section history.
Context (c : cfg) (opsem : Z -> option (Z -> Z -> Z)) (strict : bool).
Notation history := (history c opsem strict).
Notation spec := (spec c opsem strict).
Notation winv := (winv c opsem strict).
Notation calm := (calm c opsem strict).
Notation den := (den c).

Lemma new_winv p s0 s : cargs_ok c strict p -> new_manager c p s0 = Ok tt s ->
  exists g, winv g s ∅ (no_objects p).
Proof.
  intros [P Lc Hm He Hs] H. unfold new_manager in H.
  destruct (construct_ok c (ca_order p) (ca_main p) (ca_extra p) (ca_cache p) (ca_caps p)
    (ca_gcthr p) (ca_cratio p) s0 P) as (i2l&E&L&I).
  rewrite E in H. simplify_eq. exists (g_init i2l). constructor; try done.
  - by apply init_calm.
  - intros _ d. unfold marked. simpl. rewrite lookup_empty. by intros (?&?&?).
Qed.

Lemma history_winv p ks s vars A : wf_cfg c -> history p ks s vars A -> exists g, winv g s vars A.
Proof.
  intros Hc. induction 1 as [s0 s P H|ks s vars A k A' s' vars' H [g W] S E].
  - by eapply new_winv.
  - pose proof (exec_spec c opsem strict g s vars k A A' Hc W S) as X. unfold wp in X. by rewrite E in X.
Qed.

(** the constructor and every call succeed, except for the errors of [allowed] *)
Lemma new_safe p s0 : cargs_ok c strict p -> exists s, new_manager c p s0 = Ok tt s.
Proof.
  intros [P _ _ _ _]. destruct (construct_ok c (ca_order p) (ca_main p) (ca_extra p) (ca_cache p) (ca_caps p)
    (ca_gcthr p) (ca_cratio p) s0 P) as (i2l&E&_). eauto.
Qed.

Lemma history_safe p ks s vars A k A' : wf_cfg c -> history p ks s vars A -> spec s k A A' ->
  match exec c k vars s with
  | Ok _ _ => True
  | Err e => e = ERefOver \/ (strict = false /\ e = EPool)
  | Fuel => False
  end.
Proof.
  intros Hc H S. destruct (history_winv _ _ _ _ _ Hc H) as [g W].
  pose proof (exec_spec c opsem strict g s vars k A A' Hc W S) as X. unfold wp in X.
  by destruct (exec c k vars s).
Qed.

(** ** Values *)

Definition computes (s : st) (a : positive) (F : asg -> Z) : Prop :=
  forall vals, vals_ok c vals -> evaluate c a vals s = Ok (F (of_vals vals)) s.

Lemma den_computes g s a F : calm g s -> 0 < g_ext g a -> den s a F -> computes s a F.
Proof.
  intros C Hx D vals Hv.
  pose proof (evaluate_spec c opsem strict (fun _ => False) g s vals a C Hv Hx) as E. unfold wp in E.
  destruct (evaluate c a vals s) as [v s'| |]; try done. destruct E as [-> E]. f_equal.
  eapply Ev_det; [exact E|]. apply D, Hv.
Qed.

Lemma history_value p ks s vars A d F : wf_cfg c -> history p ks s vars A -> ab A !! d = Some F ->
  exists a, vars !! d = Some a /\ computes s a F.
Proof.
  intros Hc H HF. destruct (history_winv _ _ _ _ _ Hc H) as [g W].
  destruct (wi_den_pos _ _ _ _ _ _ _ _ _ W HF) as (a&Ha&D&P). exists a. split; [done|].
  eapply den_computes; [apply W|done|done].
Qed.

(** all objects evaluate on every assignment, also those not described *)
Lemma history_total p ks s vars A d a : wf_cfg c -> history p ks s vars A -> vars !! d = Some a ->
  exists F, computes s a F.
Proof.
  intros Hc H Ha. destruct (history_winv _ _ _ _ _ Hc H) as [g W].
  pose proof (wi_pos _ _ _ _ _ _ _ _ _ W Ha) as P.
  destruct (den_ex c opsem strict g s a (wi_calm _ _ _ _ _ _ _ W) P) as [F D]. exists F.
  eapply den_computes; [apply W|done|done].
Qed.

Lemma vals_of rho : valid c rho -> vals_ok c (map rho (seq 0 (nvars c))) /\
  forall i, i < nvars c -> of_vals (map rho (seq 0 (nvars c))) i = rho i.
Proof.
  intros Hv. assert (E : forall i, i < nvars c -> of_vals (map rho (seq 0 (nvars c))) i = rho i).
  { intros i Hi. unfold of_vals. rewrite (nth_indep _ 0 (rho 0)) by (rewrite map_length, seq_length; lia).
    rewrite map_nth, seq_nth by lia. done. }
  split; [|done]. split; [by rewrite map_length, seq_length|]. intros i Hi. rewrite E by done. auto.
Qed.

Lemma computes_den g s a F G : calm g s -> 0 < g_ext g a -> den s a F -> computes s a G ->
  forall vals, vals_ok c vals -> F (of_vals vals) = G (of_vals vals).
Proof.
  intros C Hx D HG vals Hv. pose proof (den_computes g s a F C Hx D vals Hv) as E.
  rewrite (HG vals Hv) in E. by simplify_eq.
Qed.

(** described functions depend on the variables only *)
Lemma history_ext p ks s vars A d F rho rho' : wf_cfg c -> history p ks s vars A -> ab A !! d = Some F ->
  valid c rho -> (forall i, i < nvars c -> rho i = rho' i) -> F rho = F rho'.
Proof.
  intros Hc H HF Hv E. destruct (history_winv _ _ _ _ _ Hc H) as [g W].
  destruct (wi_den_pos _ _ _ _ _ _ _ _ _ W HF) as (a&Ha&D&P). pose proof (wi_calm _ _ _ _ _ _ _ W) as C.
  assert (Hv' : valid c rho') by (intros i Hi; rewrite <- E by done; auto).
  eapply Ev_det; [|by apply D]. eapply (Ev_same_vals c opsem strict g s a); [apply C| |exact E|by apply D].
  eapply ext_held; [apply C|done].
Qed.

Lemma history_tval p ks s vars A d F rho : wf_cfg c -> history p ks s vars A -> ab A !! d = Some F ->
  valid c rho -> tval c (F rho).
Proof.
  intros Hc H HF Hv. destruct (history_winv _ _ _ _ _ Hc H) as [g W].
  destruct (wi_den_pos _ _ _ _ _ _ _ _ _ W HF) as (a&Ha&D&P).
  pose proof (cl_wf _ _ _ _ _ (wi_calm _ _ _ _ _ _ _ W)) as WF0.
  pose proof (D rho Hv) as E. clear -E WF0. induction E as [a rho v La|]; [|done].
  by destruct (wf_node _ _ _ _ _ WF0 a _ La).
Qed.

(** ** equals *)

Definition same_values (s : st) (a b : positive) : Prop :=
  forall vals, vals_ok c vals -> evaluate c a vals s = evaluate c b vals s.

Lemma calm_equals g s a b : wf_cfg c -> calm g s -> g_cn g = true -> 0 < g_ext g a -> 0 < g_ext g b ->
  a = b <-> same_values s a b.
Proof.
  intros Hc C Hcn Pa Pb. split.
  - intros ->. by intros vals _.
  - intros E. pose proof (cl_wf _ _ _ _ _ C) as WF0. pose proof (cl_quiet _ _ _ _ _ C) as Hq.
    pose proof (ext_held c opsem strict g s a WF0 Pa) as Ha. pose proof (ext_held c opsem strict g s b WF0 Pb) as Hb.
    eapply (canonical c opsem strict g s); try done.
    + apply C.
    + apply (wf_ext _ _ _ _ _ WF0 a Pa).
    + apply (wf_ext _ _ _ _ _ WF0 b Pb).
    + intros rho v Hv Ev. destruct (vals_of rho Hv) as [Ho Eo].
      pose proof (E _ Ho) as Eq.
      pose proof (evaluate_spec c opsem strict (fun _ => False) g s _ a C Ho Pa) as E1.
      pose proof (evaluate_spec c opsem strict (fun _ => False) g s _ b C Ho Pb) as E2.
      unfold wp in E1, E2. rewrite Eq in E1. destruct (evaluate c b _ s) as [w s'| |]; try done.
      destruct E1 as [_ E1], E2 as [_ E2].
      assert (v = w) as ->.
      { eapply Ev_det; [exact Ev|]. eapply (Ev_same_vals c opsem strict g s a); [done|done| |exact E1]. exact Eo. }
      eapply (Ev_same_vals c opsem strict g s b); [done|done| |exact E2]. exact Eo.
Qed.

Lemma history_equals p ks s vars A x y a b : wf_cfg c -> history p ks s vars A -> ab_canon A = true ->
  vars !! x = Some a -> vars !! y = Some b -> equals vars x y = true <-> same_values s a b.
Proof.
  intros Hc H Hcn Hx Hy. destruct (history_winv _ _ _ _ _ Hc H) as [g W].
  unfold equals. rewrite bool_decide_eq_true, Hx, Hy.
  rewrite <- (calm_equals g s a b Hc (wi_calm _ _ _ _ _ _ _ W) (wi_canon _ _ _ _ _ _ _ W Hcn)
    (wi_pos _ _ _ _ _ _ _ _ _ W Hx) (wi_pos _ _ _ _ _ _ _ _ _ W Hy)).
  split; congruence.
Qed.

(** ** Objects not involved in a call *)

Lemma del_list_ne xs (m : gmap nat (asg -> Z)) d : d ∉ xs -> del_list xs m !! d = m !! d.
Proof.
  induction xs as [|x xs IH]; intros H; simpl; [done|]. rewrite lookup_delete_ne by set_solver. apply IH. set_solver.
Qed.

Lemma spec_untouched s k A A' d : spec s k A A' -> d ∉ touched k -> ab A' !! d = ab A !! d.
Proof.
  assert (Hf : forall m x o, x <> d -> set_fun m x o !! d = m !! d).
  { intros m x [F|] Hne; simpl; [by rewrite lookup_insert_ne|by rewrite lookup_delete_ne]. }
  intros H Hd. destruct H; simpl in *; try done; rewrite ?lookup_insert_ne by set_solver; try done.
  - apply del_list_ne. set_solver.
  - rewrite Hf by set_solver. apply lookup_delete_ne. set_solver.
  - rewrite !Hf by set_solver. done.
  - apply lookup_delete_ne. set_solver.
Qed.

Lemma history_kept p ks s vars A k A' s' vars' d F :
  wf_cfg c -> history p ks s vars A -> spec s k A A' -> exec c k vars s = Ok vars' s' ->
  d ∉ touched k -> ab A !! d = Some F ->
  exists a a', vars !! d = Some a /\ vars' !! d = Some a' /\ computes s a F /\ computes s' a' F.
Proof.
  intros Hc H S E Hd HF. destruct (history_value _ _ _ _ _ _ _ Hc H HF) as (a&Ha&Da).
  assert (H' : history p (ks ++ [k]) s' vars' A') by (by econstructor).
  destruct (history_value p _ s' vars' A' d F Hc H') as (a'&Ha'&Da').
  { by rewrite (spec_untouched _ _ _ _ _ S Hd). }
  eauto 10.
Qed.

(** ** force_gc *)

(** nodes reachable from some object of the program *)
Definition in_use (s : st) (vars : vars_t) (a : positive) : Prop :=
  exists d r, vars !! d = Some r /\ reach (live (s_heap s)) r a.

Lemma history_gc p ks s vars A s' vars' :
  wf_cfg c -> history p ks s vars A -> exec c CGc vars s = Ok vars' s' ->
  vars' = vars /\
  (forall a, in_use s vars a -> live (s_heap s') a = live (s_heap s) a) /\
  (forall a, in_use s' vars a <-> in_use s vars a) /\
  (ab_clean A = true -> forall a, live (s_heap s') a <> None <-> in_use s vars a).
Proof.
  intros Hc H E. destruct (history_winv _ _ _ _ _ Hc H) as [g W].
  pose proof (wi_calm _ _ _ _ _ _ _ W) as C. pose proof (cl_wf _ _ _ _ _ C) as WF0.
  simpl in E. unfold bind in E.
  pose proof (force_gc_spec c opsem strict (fun _ => False) g s WF0) as X. unfold wp in X.
  destruct (force_gc c s) as [[] s1| |]; try done. simpl in E. unfold ret in E. simplify_eq.
  destruct X as (W'&R&So&Ed&Ead&Em&Ee&El&Hcount&Hav&HS); [apply C|eapply ord_perm, C|].
  assert (Hq : quiet g) by apply C. pose proof Hq as [Hdy _].
  assert (Hin : forall a, in_use s vars' a -> held g (s_heap s) a).
  { intros a (d&r&Hd&Hr). exists r. split; [|done].
    destruct (wf_ext _ _ _ _ _ WF0 r) as [? ?]; [by eapply wi_pos|].
    split_and!; try done. right. left. by eapply wi_pos. }
  pose proof (g2_keeps _ _ _ R) as K.
  assert (Hfw : forall r a, reach (live (s_heap s)) r a -> held g (s_heap s) r -> reach (live (s_heap s')) r a).
  { intros r a Hr Hh. induction Hr as [a|a b d i sons La Hb Hr IH]; [constructor|].
    econstructor; [rewrite (proj2 (K a Hh)); exact La|exact Hb|]. apply IH.
    destruct Hh as (r&Hr0&Hra). exists r. split; [done|]. eapply reach_trans; [exact Hra|].
    econstructor; [exact La|exact Hb|constructor]. }
  assert (Hbw : forall r a, reach (live (s_heap s')) r a -> held g (s_heap s) r -> reach (live (s_heap s)) r a).
  { intros r a Hr. induction Hr as [a|a b d i sons La Hb Hr IH]; intros Hh; [constructor|].
    rewrite (proj2 (K a Hh)) in La. econstructor; [exact La|exact Hb|]. apply IH.
    destruct Hh as (r&Hr0&Hra). exists r. split; [done|]. eapply reach_trans; [exact Hra|].
    econstructor; [exact La|exact Hb|constructor]. }
  assert (Hroot : forall d r, vars' !! d = Some r -> held g (s_heap s) r).
  { intros d r Hd. apply Hin. exists d, r. split; [done|constructor]. }
  assert (Hiff : forall a, in_use s' vars' a <-> in_use s vars' a).
  { intros a. split; intros (d&r&Hd&Hr); exists d, r; (split; [done|]); [by eapply Hbw, Hroot|by eapply Hfw, Hroot]. }
  split_and!; [done| |done|].
  - intros a Ha. by apply K, Hin.
  - intros Hcl a. split.
    + intros Ha. rewrite <- Hiff.
      assert (Hh : held g (s_heap s') a).
      { eapply settled_held; try done. intros b n Hb Hu Hfl. eapply HS; try done. apply C. }
      destruct Hh as (r&(Hlr&_&[Hm|[Hx|Hfl]])&Hr).
      * exfalso. apply (g2_marked _ _ _ R) in Hm. by eapply (wi_clean _ _ _ _ _ _ _ W Hcl).
      * rewrite (wi_ext _ _ _ _ _ _ _ W) in Hx. apply hcount_pos_inv in Hx as [d Hd]. exists d, r. done.
      * destruct Hq as [_ Hf]. rewrite Hf in Hfl. set_solver.
    + intros Ha. pose proof (Hin a Ha) as Hh. rewrite (proj2 (K a Hh)).
      eapply held_live; [exact WF0|done].
Qed.

End history.
