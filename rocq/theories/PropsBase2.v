(** * Further definitions and lemmas for the properties *)

From stdpp Require Import gmap list.
From Coq Require Import ZArith Lia.
From Verif Require Import Base Ops Tables NodeManager Tools Sift DiagramManager World.
From Verif Require Import Heap Inv InvLemmas Prim GC Make Build Apply Api Constr Expr VecSpec Vec Eval Fold.
From Verif Require Import OpSpec OpProof WorldSpec WorldProof Ctor History PropsBase Chain.

Local Open Scope nat_scope.

(** ** Folds over a closed set of values *)

Section on.
Context {T : Type} (V : T -> Prop) (f g : T -> T -> T).
Hypothesis Hf : forall x y, V x -> V y -> f x y = g x y.
Hypothesis Hg : forall x y, V x -> V y -> V (g x y).

Lemma fold_on l : forall x, V x -> Forall V l -> fold_left f l x = fold_left g l x /\ V (fold_left g l x).
Proof.
  induction l as [|y l IH]; intros x Hx Hl; simpl; [done|]. inversion Hl; subst.
  rewrite Hf by done. by apply IH; [apply Hg|].
Qed.

Lemma pairup_on l : Forall V l -> pairup f l = pairup g l /\ Forall V (pairup g l).
Proof.
  induction l as [|x|x y l IH] using list_ind2; intros H; [done|done|].
  inversion H as [|?? Hx H']; subst. inversion H' as [|?? Hy H'']; subst. destruct (IH H'') as [E F].
  simpl. rewrite Hf, E by done. split; [done|]. constructor; [by apply Hg|done].
Qed.

Lemma iter_pairup_on n l : Forall V l ->
  Nat.iter n (pairup f) l = Nat.iter n (pairup g) l /\ Forall V (Nat.iter n (pairup g) l).
Proof.
  intros H. induction n as [|n IH]; [done|]. destruct IH as [E F]. simpl. rewrite E. by apply pairup_on.
Qed.

Lemma balanced_on l : Forall V l -> balanced f l = balanced g l.
Proof. intros H. unfold balanced. by rewrite (proj1 (iter_pairup_on (length l) l H)). Qed.

Hypothesis Ha : forall x y z, V x -> V y -> V z -> g (g x y) z = g x (g y z).

Lemma fold_left_pairup_on l : forall x, V x -> Forall V l -> fold_left g (pairup g l) x = fold_left g l x.
Proof.
  induction l as [|y|y z l IH] using list_ind2; intros x Hx H; [done|done|].
  inversion H as [|?? Hy H']; subst. inversion H' as [|?? Hz H'']; subst.
  simpl. rewrite IH by eauto. by rewrite Ha.
Qed.

Lemma balanced_assoc_on x l : V x -> Forall V l -> balanced g (x :: l) = Some (fold_left g l x).
Proof.
  intros Hx Hl. unfold balanced.
  assert (G : forall n x l, V x -> Forall V l ->
    exists y l', Nat.iter n (pairup g) (x :: l) = y :: l' /\ fold_left g l' y = fold_left g l x).
  { induction n as [|n IH]; intros x0 l0 Hx0 Hl0; [by exists x0, l0|]. simpl. rewrite <- iter_comm.
    destruct l0 as [|y l0]; [by apply IH|]. inversion Hl0 as [|?? Hy Hl1]; subst.
    simpl. destruct (IH (g x0 y) (pairup g l0)) as (z&l'&E1&E2); [by apply Hg|by apply pairup_on|].
    exists z, l'. split; [done|]. rewrite E2. apply fold_left_pairup_on; [by apply Hg|done]. }
  destruct (G (length (x :: l)) x l Hx Hl) as (y&l'&E1&E2). rewrite E1. simpl.
  destruct (iter_pairup_enough g (length (x :: l)) (x :: l)) as [w Hw];
    [done|apply Nat.lt_le_incl, Nat.pow_gt_lin_r; lia|].
  specialize (Hw 0). rewrite Nat.add_0_r in Hw. rewrite Hw in E1. simplify_eq. simpl in E2. by rewrite E2.
Qed.
End on.

(** a set of values on which the operator can be used repeatedly *)
Definition op_closed (c : cfg) (o : opc) (V : Z -> Prop) : Prop :=
  forall x y, V x -> V y -> op_applicable c o x y /\ V (op_math o x y).

Section core2.
Context (c : cfg) (strict : bool).

Lemma closed_fold_good o V : op_closed c o V -> (c_trap c = true -> op_arith o = false) ->
  forall l x, V x -> Forall V l -> fold_good c (apply_op c o) x l.
Proof.
  intros HV Ht. induction l as [|y l IH]; intros x Hx Hl; simpl; [done|]. inversion Hl; subst.
  destruct (HV x y) as [A B]; [done..|]. split; [by apply op_applicable_good|].
  rewrite op_applicable_fun by done. by apply IH.
Qed.

Lemma closed_rounds_good o V : op_closed c o V -> (c_trap c = true -> op_arith o = false) ->
  forall n l, Forall V l -> rounds_good c (apply_op c o) n l.
Proof.
  intros HV Ht.
  assert (Hp : forall l, Forall V l -> pairs_good c (apply_op c o) l).
  { induction l as [|x|x y l IH] using list_ind2; intros H; [done|done|].
    inversion H as [|?? Hx H']; subst. inversion H' as [|?? Hy H'']; subst. simpl. split; [|by apply IH].
    apply op_applicable_good; [|done]. by apply HV. }
  induction n as [|n IH]; intros l Hl; simpl; [done|]. split; [by apply Hp|]. apply IH.
  rewrite (proj1 (pairup_on V (op_fun (apply_op c o)) (op_math o)
    (fun x y Hx Hy => op_applicable_fun c o x y (proj1 (HV x y Hx Hy)))
    (fun x y Hx Hy => proj2 (HV x y Hx Hy)) l Hl)).
  by apply (pairup_on V (op_fun (apply_op c o)) (op_math o)
    (fun x y Hx Hy => op_applicable_fun c o x y (proj1 (HV x y Hx Hy)))
    (fun x y Hx Hy => proj2 (HV x y Hx Hy)) l Hl).
Qed.

Lemma funs_in (V : Z -> Prop) A xs Fs :
  funs A xs Fs -> (forall x F, x ∈ xs -> ab A !! x = Some F -> forall rho, valid c rho -> V (F rho)) ->
  forall rho, valid c rho -> Forall V (map (fun G => G rho) Fs).
Proof.
  intros H HV rho Hv. induction H as [|x F xs Fs HF H IH]; simpl; [constructor|]. constructor.
  - eapply HV; [|done|done]. set_solver.
  - apply IH. intros y G Hy. apply HV. set_solver.
Qed.

Lemma Ev_terminal L a rho v : Ev L a rho v -> exists t, reach L a t /\ L t = Some (Term v).
Proof.
  induction 1 as [a rho v La|a rho i sons b v La Hb _ (t&Hr&Ht)]; [exists a; split; [constructor|done]|].
  exists t. split; [|done]. econstructor; [exact La| |exact Hr]. by eapply elem_of_list_lookup_2.
Qed.

(** the variables that occur in a diagram *)
Definition occurs (s : st) (a : positive) (i : nat) : Prop :=
  exists b sons, reach (live (s_heap s)) a b /\ live (s_heap s) b = Some (Int i sons).

Lemma history_order opsem args ks s vars A : wf_cfg c -> history c opsem strict args ks s vars A ->
  NoDup (ab_order A) /\ forall i, i ∈ ab_order A <-> i < nvars c.
Proof.
  intros Hc H. destruct (history_winv _ _ _ _ _ _ _ _ Hc H) as [g W].
  rewrite <- (wi_order _ _ _ _ _ _ _ W). pose proof (ord_perm _ _ _ (cl_ord _ _ _ _ _ (wi_calm _ _ _ _ _ _ _ W))) as P.
  split; [by eapply perm_l2i_NoDup|]. intros i. by apply (perm_elem c s i P).
Qed.

(** every position of a truth vector belongs to an assignment *)
Lemma position_vals opsem args ks s vars A n : wf_cfg c -> history c opsem strict args ks s vars A ->
  n < prodl c (ab_order A) -> exists vals, vals_ok c vals /\ vec_index c (ab_order A) (of_vals vals) = n.
Proof.
  intros Hc H Hn. destruct (history_order _ _ _ _ _ _ Hc H) as [ND Hel].
  destruct (vec_index_surj c (ab_order A) n ND) as (rho&E&Hr); [|done|].
  { intros i Hi. apply (wc_dom _ Hc). by apply Hel. }
  assert (Hv : valid c rho).
  { intros i Hi. destruct (Hr i) as [?|[Hni _]]; [done|]. exfalso. by apply Hni, Hel. }
  destruct (vals_of c rho Hv) as [Ho Eo]. eexists. split; [exact Ho|]. rewrite <- E. apply vec_index_ext.
  intros i Hi. apply Eo. by apply Hel.
Qed.

(** Two runs of the same program that differ in the addresses of the nodes, the
    sizes of the pools, caches and tables, the thresholds and in the calls that
    collect garbage, clear or resize the caches *)
Lemma two_runs ptr opsem p1 p2 ks1 ks2 s1 v1 A s0 s s2 v2 :
  wf_cfg c -> history c opsem false p1 ks1 s1 v1 A ->
  Forall (fun k => not_reorder k = true) ks1 ->
  cargs_ok c false p2 -> ca_order p2 = ca_order p1 -> essential ks2 = essential ks1 ->
  new_manager (placed ptr c) p2 s0 = Ok tt s -> run (placed ptr c) ks2 ∅ s = Ok v2 s2 ->
  (forall x F, ab A !! x = Some F -> exists a1 a2, v1 !! x = Some a1 /\ v2 !! x = Some a2 /\
     forall vals, vals_ok c vals ->
       evaluate c a1 vals s1 = Ok (F (of_vals vals)) s1 /\
       evaluate (placed ptr c) a2 vals s2 = Ok (F (of_vals vals)) s2) /\
  (forall x y, is_Some (ab A !! x) -> is_Some (ab A !! y) -> equals v1 x y = equals v2 x y).
Proof.
  intros Hc H Hr Hp2 Ho Ek Hn Hrun. destruct (history_chain _ _ _ _ _ _ _ H Hr) as [Hca Ch].
  assert (Hc2 : wf_cfg (placed ptr c)) by (destruct Hc; by constructor).
  assert (Hp2' : cargs_ok (placed ptr c) false p2) by (destruct Hp2; by constructor).
  assert (E0 : no_objects p2 = no_objects p1) by (unfold no_objects; by rewrite Ho).
  assert (Hcn : ab_canon A = true).
  { eapply chain_canon; [exact Ch|by apply essential_reorder'|done]. }
  assert (H2 : history (placed ptr c) opsem false p2 ks2 s2 v2 A).
  { eapply chain_new; [exact Hp2'|exact Hn| |exact Hrun]. rewrite E0.
    eapply chain_essential; [exact Ch|done|exact Ek|]. apply essential_reorder. rewrite Ek.
    by apply essential_reorder'. }
  assert (Ok2 : forall vals, vals_ok c vals <-> vals_ok (placed ptr c) vals) by done.
  split.
  - intros x F HF. destruct (history_value _ _ _ _ _ _ _ _ _ _ Hc H HF) as (a1&Ha1&V1).
    destruct (history_value _ _ _ _ _ _ _ _ _ _ Hc2 H2 HF) as (a2&Ha2&V2). exists a1, a2.
    split; [done|]. split; [done|]. intros vals Hv. split; [by apply V1|by apply V2].
  - intros x y [F HF] [G HG].
    destruct (history_value _ _ _ _ _ _ _ _ _ _ Hc H HF) as (a1&Ha1&V1).
    destruct (history_value _ _ _ _ _ _ _ _ _ _ Hc2 H2 HF) as (a2&Ha2&V2).
    destruct (history_value _ _ _ _ _ _ _ _ _ _ Hc H HG) as (b1&Hb1&W1).
    destruct (history_value _ _ _ _ _ _ _ _ _ _ Hc2 H2 HG) as (b2&Hb2&W2).
    apply eq_true_iff_eq.
    rewrite (history_equals c opsem false p1 ks1 s1 v1 A x y a1 b1 Hc H Hcn Ha1 Hb1).
    rewrite (history_equals _ opsem false p2 ks2 s2 v2 A x y a2 b2 Hc2 H2 Hcn Ha2 Hb2).
    unfold same_values. split; intros E vals Hv; specialize (E vals Hv).
    + rewrite (V2 vals Hv), (W2 vals Hv). rewrite (V1 vals Hv), (W1 vals Hv) in E. injection E as ->. done.
    + rewrite (V1 vals Hv), (W1 vals Hv). rewrite (V2 vals Hv), (W2 vals Hv) in E. injection E as ->. done.
Qed.

End core2.
