(** * Managers that hold the same functions (C86) *)

From stdpp Require Import gmap list.
From Coq Require Import ZArith Lia.
From Verif Require Import Base Ops Tables NodeManager Tools Sift DiagramManager World Queries Reliability.
From Verif Require Import Heap Inv InvLemmas Prim GC Make Build Apply Api Constr Expr VecSpec Vec Eval Fold.
From Verif Require Import OpSpec OpProof WorldSpec WorldProof Ctor History PropsBase Chain PropsBase2 PropsCore Examples.
From Verif Require Import Trav QuerySpec QueryProof Minimal PropsQuery PropsIso.

Local Open Scope nat_scope.
Local Opaque exec run new_manager.

(** ** Specification *)

(** two diagrams of two managers give the same values *)
Definition same_function (c c' : cfg) (s s' : st) (a a' : positive) : Prop :=
  forall vals, vals_ok c vals -> exists v, evaluate c a vals s = Ok v s /\ evaluate c' a' vals s' = Ok v s'.

(** every function held by an object of the first manager is held by an object of the second *)
Definition also_held (c c' : cfg) (s s' : st) (vars vars' : vars_t) : Prop :=
  forall x a, vars !! x = Some a -> exists x' a', vars' !! x' = Some a' /\ same_function c c' s s' a a'.

(** the nodes of the two managers correspond one to one, with labels and sons *)
Definition same_nodes (s s' : st) : Prop := exists R, isomorphism (live (s_heap s)) (live (s_heap s')) R /\
  (forall a, live (s_heap s) a <> None -> exists b, R a b) /\ (forall b, live (s_heap s') b <> None -> exists a, R a b).

(** ** Proofs *)

Lemma iso_total L L' R (D D' : list positive) : isomorphism L L' R -> NoDup D ->
  (forall x, x ∈ D -> exists y, R x y) -> (forall y, L' y <> None -> y ∈ D') -> length D <= length D'.
Proof.
  intros I ND HD HD'. destruct (Forall2_choice R D HD) as [ys Hys].
  rewrite (Forall2_length _ _ _ Hys). apply submseteq_length, NoDup_submseteq.
  - apply NoDup_alt. intros j k y Hj Hk. destruct (Forall2_lookup_r _ _ _ _ _ Hys Hj) as (x&Hx&R1).
    destruct (Forall2_lookup_r _ _ _ _ _ Hys Hk) as (z&Hz&R2). pose proof (iso_inj _ _ _ I x z y R1 R2) as <-. by eapply (proj1 (NoDup_alt _) ND).
  - intros y Hy. apply elem_of_list_lookup in Hy as (j&Hj). destruct (Forall2_lookup_r _ _ _ _ _ Hys Hj) as (x&_&Hr).
    apply HD'. pose proof (iso_label _ _ _ I x y Hr) as X. destruct (L x) as [[]|], (L' y) as [[]|]; done.
Qed.

Lemma same_function_nval c c' s s' a a' : c_doms c = c_doms c' -> same_function c c' s s' a a' -> fun_eq c (nval c s a) (nval c' s' a').
Proof.
  intros Hd H rho Hv. destruct (vals_of_asg c rho Hv) as [Hok _]. destruct (H _ Hok) as (v&E1&E2). unfold nval.
  rewrite E1. assert (nvars c' = nvars c) as -> by (unfold nvars; by rewrite Hd). by rewrite E2.
Qed.

(** ** Theorems *)

(** Two managers that have never been reordered, have the same order, hold the same functions and have no garbage:
    one correspondence covers all nodes, so the numbers of nodes are equal. It does not matter how many
    objects hold a function, by which calls they were made, or how the managers were configured. *)
Theorem C86_managers : forall c c' strict strict' opsem opsem' args args' ks ks' s s' vars vars' A A',
  wf_cfg c -> wf_cfg c' -> c_doms c = c_doms c' ->
  history c opsem strict args ks s vars A -> history c' opsem' strict' args' ks' s' vars' A' ->
  ab_canon A = true -> ab_canon A' = true -> ab_order A = ab_order A' ->
  also_held c c' s s' vars vars' -> also_held c' c s' s vars' vars ->
  (forall e, live (s_heap s) e <> None -> in_use s vars e) -> (forall e, live (s_heap s') e <> None -> in_use s' vars' e) ->
  same_nodes s s' /\ exists n, total_node_count s = Ok n s /\ total_node_count s' = Ok n s'.
Proof.
  intros c c' strict strict' opsem opsem' args args' ks ks' s s' vars vars' A A' Hc Hc' Hd H H' Hcn Hcn' Ho AH AH' G G'.
  destruct (history_winv _ _ _ _ _ _ _ _ Hc H) as [g W]. destruct (history_winv _ _ _ _ _ _ _ _ Hc' H') as [g' W'].
  pose proof (wi_calm _ _ _ _ _ _ _ W) as C. pose proof (wi_calm _ _ _ _ _ _ _ W') as C'.
  pose proof (wi_canon _ _ _ _ _ _ _ W Hcn) as Cn. pose proof (wi_canon _ _ _ _ _ _ _ W' Hcn') as Cn'.
  assert (EO : s_l2i s = s_l2i s') by (by rewrite (wi_order _ _ _ _ _ _ _ W), (wi_order _ _ _ _ _ _ _ W')).
  assert (V : forall rho, valid c rho <-> valid c' rho) by (by apply valid_two).
  assert (Hh : forall x a, vars !! x = Some a -> held g (s_heap s) a).
  { intros x a Hx. eapply Api.ext_held; [apply C|]. by eapply wi_pos. }
  assert (Hh' : forall x a, vars' !! x = Some a -> held g' (s_heap s') a).
  { intros x a Hx. eapply Api.ext_held; [apply C'|]. by eapply wi_pos. }
  assert (I : forall x x' a a', vars !! x = Some a -> vars' !! x' = Some a' ->
    isomorphism (live (s_heap s)) (live (s_heap s')) (same_fun c c' s s' a a')).
  { intros x x' a a' Ha Ha'.
    apply (same_fun_iso c c' opsem opsem' strict strict' g g' s s' Hc Hc' C C' Hd EO a a'); [by eapply Hh|by eapply Hh'|..].
    - apply (canon_tight c opsem strict g s Hc C Cn). by eapply Hh.
    - apply (canon_tight c' opsem' strict' g' s' Hc' C' Cn'). by eapply Hh'. }
  set (R := fun x y => exists i i' a a', vars !! i = Some a /\ vars' !! i' = Some a' /\ same_fun c c' s s' a a' x y).
  assert (IR : isomorphism (live (s_heap s)) (live (s_heap s')) R).
  { constructor.
    - intros x y (i&i'&a&a'&Ha&Ha'&Hxy). pose proof (iso_label _ _ _ (I i i' a a' Ha Ha') x y Hxy) as X.
      destruct (live (s_heap s) x) as [[v|j ss]|], (live (s_heap s') y) as [[w|k ts]|]; try done. destruct X as [-> X]. split; [done|].
      eapply Forall2_impl; [exact X|]. intros p q Hpq. by exists i, i', a, a'.
    - intros x y z (i&i'&a&a'&Ha&Ha'&Rx&Ry&E1) (j&j'&b&b'&Hb&Hb'&_&Rz&E2).
      apply (nval_canon c' opsem' strict' g' s' Hc' C' Cn' y z); [exact (held_reach _ _ _ _ (Hh' _ _ Ha') Ry)|exact (held_reach _ _ _ _ (Hh' _ _ Hb') Rz)|].
      intros rho Hr. apply V in Hr. by rewrite <- E1, <- E2.
    - intros x y z (i&i'&a&a'&Ha&Ha'&Rx&_&E1) (j&j'&b&b'&Hb&Hb'&Ry&_&E2).
      apply (nval_canon c opsem strict g s Hc C Cn x y); [exact (held_reach _ _ _ _ (Hh _ _ Ha) Rx)|exact (held_reach _ _ _ _ (Hh _ _ Hb) Ry)|].
      intros rho Hr. by rewrite E1, E2. }
  assert (T1 : forall e, live (s_heap s) e <> None -> exists y, R e y).
  { intros e He. destruct (G e He) as (i&a&Ha&Hr). destruct (AH i a Ha) as (i'&a'&Ha'&SF).
    destruct (iso_reach _ _ R a a' e IR) as (y&_&Hy); [|done|by exists y].
    exists i, i', a, a'. split; [done|]. split; [done|]. split; [constructor|]. split; [constructor|]. by apply same_function_nval. }
  assert (T2 : forall e, live (s_heap s') e <> None -> exists x, R x e).
  { intros e He. destruct (G' e He) as (i'&a'&Ha'&Hr). destruct (AH' i' a' Ha') as (i&a&Ha&SF).
    destruct (iso_reach _ _ _ a' a e (isomorphism_sym _ _ _ IR)) as (y&_&Hy); [|done|by exists y].
    exists i, i', a, a'. split; [done|]. split; [done|]. split; [constructor|]. split; [constructor|].
    intros rho Hv. symmetry. apply (same_function_nval c' c s' s a' a (eq_sym Hd) SF). by apply V. }
  split; [exists R; done|].
  destruct (live_list_ok s) as [ND HD]. destruct (live_list_ok s') as [ND' HD'].
  exists (Z.of_nat (length (live_list s))). split; [by apply (C05_total_count c strict opsem args ks s vars A)|].
  assert (length (live_list s) = length (live_list s')) as ->; [|by apply (C05_total_count c' strict' opsem' args' ks' s' vars' A')].
  apply Nat.le_antisymm.
  - eapply iso_total; [exact IR|done|by intros x ?%HD; apply T1|by intros y; apply HD'].
  - eapply iso_total; [exact (isomorphism_sym _ _ _ IR)|done|by intros x ?%HD'; apply T2|by intros y; apply HD].
Qed.

(** so what get_node_count reports after force_gc depends only on the functions held and on the order *)
Theorem C86_after_gc : forall c c' strict strict' opsem opsem' args args' ks ks' s s' vars vars' A A' s1 s1' vars1 vars1',
  wf_cfg c -> wf_cfg c' -> c_doms c = c_doms c' ->
  history c opsem strict args ks s vars A -> history c' opsem' strict' args' ks' s' vars' A' ->
  ab_canon A = true -> ab_canon A' = true -> ab_clean A = true -> ab_clean A' = true -> ab_order A = ab_order A' ->
  exec c CGc vars s = Ok vars1 s1 -> exec c' CGc vars' s' = Ok vars1' s1' ->
  also_held c c' s1 s1' vars1 vars1' -> also_held c' c s1' s1 vars1' vars1 ->
  same_nodes s1 s1' /\ exists n, total_node_count s1 = Ok n s1 /\ total_node_count s1' = Ok n s1'.
Proof.
  intros c c' strict strict' opsem opsem' args args' ks ks' s s' vars vars' A A' s1 s1' vars1 vars1'
    Hc Hc' Hd H H' Hcn Hcn' Hcl Hcl' Ho E E' AH AH'.
  destruct (history_gc _ _ _ _ _ _ _ _ _ _ Hc H E) as (->&_&Hi&Hl). destruct (history_gc _ _ _ _ _ _ _ _ _ _ Hc' H' E') as (->&_&Hi'&Hl').
  apply (C86_managers c c' strict strict' opsem opsem' args args' (ks ++ [CGc]) (ks' ++ [CGc]) s1 s1' vars vars' A A'); try done.
  - eapply H_call; [exact H|apply S_gc|exact E].
  - eapply H_call; [exact H'|apply S_gc|exact E'].
  - intros e He. apply Hi. by apply (Hl Hcl).
  - intros e He. apply Hi'. by apply (Hl' Hcl').
Qed.

(** ** Case: the manager of [iso_history], and another one that holds the same three functions in five
    objects, made in another order after some more calls *)

Lemma also_held_list c c' strict strict' opsem opsem' args args' ks ks' s s' vars vars' A A' :
  wf_cfg c -> wf_cfg c' -> c_doms c = c_doms c' ->
  history c opsem strict args ks s vars A -> history c' opsem' strict' args' ks' s' vars' A' ->
  Forall (fun x => exists x' F F', ab A !! x = Some F /\ ab A' !! x' = Some F' /\ fun_eq c F F') (map fst (map_to_list vars)) ->
  also_held c c' s s' vars vars'.
Proof.
  intros Hc Hc' Hd H H' HF x a Ha. rewrite Forall_forall in HF. destruct (HF x) as (x'&F&F'&EF&EF'&E).
  { apply elem_of_list_fmap. exists (x, a). split; [done|]. by apply elem_of_map_to_list. }
  destruct (history_value _ _ _ _ _ _ _ _ x F Hc H EF) as (b&Hb&X). rewrite Ha in Hb. injection Hb as <-.
  destruct (history_value _ _ _ _ _ _ _ _ x' F' Hc' H' EF') as (a'&Ha'&X'). exists x', a'. split; [done|].
  intros vals Hv. exists (F (of_vals vals)). split; [by apply X|]. rewrite (E _ (proj2 Hv)). apply X'.
  destruct Hv as [Hl Hv]. split; [unfold nvars in *; by rewrite <- Hd|]. by apply (valid_two c c' Hd).
Qed.

Definition man_prog : list call :=
  [CVec 5 iso_vec; CConst 2 3%Z; CVar 4 0; CVec 6 iso_vec; CConst 1 7%Z; CCopy 9 5; CReset 4].
Definition man_run : res vars_t :=
  match new_manager ex_cfg ex_args no_state with Ok _ s => run ex_cfg man_prog ∅ s | Err e => Err e | Fuel => Fuel end.
Definition man_vars : vars_t := match man_run with Ok v _ => v | _ => ∅ end.
Definition man_st : st := match man_run with Ok _ s => s | _ => no_state end.
Definition man_abs : astate :=
  set_ab (delete 4 (<[9 := isoF]> (<[1 := fun _ => 7%Z]> (<[6 := isoF]> (<[4 := fun rho => Z.of_nat (rho 0)]> (<[2 := fun _ => 3%Z]> (<[5 := isoF]> ∅))))))) (no_objects ex_args).

Lemma man_history : history ex_cfg ex_ops true ex_args man_prog man_st man_vars man_abs.
Proof.
  destruct (new_manager ex_cfg ex_args no_state) as [[] s| |] eqn:E; [|by vm_compute in E..].
  assert (Hv : Forall (tval ex_cfg) iso_vec).
  { unfold iso_vec. repeat (constructor; [apply ex_tval; lia|]). constructor. }
  eapply chain_new; [apply ex_args_ok|exact E| |].
  - unfold man_prog. eapply Ch_cons; [intros t; apply S_vec; [by vm_compute|exact Hv]|]. eapply Ch_cons; [intros t; apply S_const, ex_tval; lia|].
    eapply Ch_cons; [intros t; apply S_var; vm_compute; lia|]. eapply Ch_cons; [intros t; apply S_vec; [by vm_compute|exact Hv]|].
    eapply Ch_cons; [intros t; apply S_const, ex_tval; lia|]. eapply Ch_cons; [intros t; apply (S_copy ex_cfg ex_ops true t 9 5 isoF); reflexivity|].
    eapply Ch_cons; [intros t; apply S_reset|]. apply Ch_nil.
  - unfold man_vars, man_st, man_run. rewrite E. destruct (run ex_cfg man_prog ∅ s) as [v s'| |] eqn:R; [done| |];
      assert (X : match man_run with Ok _ _ => true | _ => false end = true) by (by vm_compute);
      unfold man_run in X; by rewrite E, R in X.
Qed.

(** before the collection the second manager has one node more *)
Example C86_case : exists v s w t,
  exec iso_cfg CGc iso_vars iso_st = Ok v s /\ exec ex_cfg CGc man_vars man_st = Ok w t /\ s_count man_st = 13%Z /\
  same_nodes s t /\ total_node_count s = Ok 12%Z s /\ total_node_count t = Ok 12%Z t.
Proof.
  destruct (ok_ex (exec iso_cfg CGc iso_vars iso_st)) as (v&s&E); [by vm_compute|].
  destruct (ok_ex (exec ex_cfg CGc man_vars man_st)) as (w&t&E'); [by vm_compute|].
  pose proof (H_call _ _ _ _ _ _ _ _ CGc _ _ _ iso_history (S_gc iso_cfg ex_ops true iso_st iso_abs) E) as H.
  pose proof (H_call _ _ _ _ _ _ _ _ CGc _ _ _ man_history (S_gc ex_cfg ex_ops true man_st man_abs) E') as H'.
  destruct (history_gc _ _ _ _ _ _ _ _ _ _ iso_wf iso_history E) as (Ev&_). destruct (history_gc _ _ _ _ _ _ _ _ _ _ ex_wf man_history E') as (Ew&_).
  assert (K : map fst (map_to_list iso_vars) = [0; 1; 3]) by (by vm_compute).
  assert (K' : map fst (map_to_list man_vars) = [1; 5; 9; 2; 6]) by (by vm_compute).
  exists v, s, w, t. split; [exact E|]. split; [exact E'|]. split; [by vm_compute|].
  destruct (C86_after_gc iso_cfg ex_cfg true true ex_ops ex_ops iso_args ex_args iso_prog man_prog iso_st man_st iso_vars man_vars iso_abs man_abs s t v w
    iso_wf ex_wf eq_refl iso_history man_history eq_refl eq_refl eq_refl eq_refl eq_refl E E') as (X&n&N1&N2).
  - apply (also_held_list iso_cfg ex_cfg true true ex_ops ex_ops _ _ _ _ s t v w _ _ iso_wf ex_wf eq_refl H H'). rewrite Ev, K.
    constructor; [exists 1, (fun _ => 7%Z), (fun _ => 7%Z); split; [reflexivity|]; split; [reflexivity|intros rho _; reflexivity]|].
    constructor; [exists 2, (fun _ => 3%Z), (fun _ => 3%Z); split; [reflexivity|]; split; [reflexivity|intros rho _; reflexivity]|].
    constructor; [exists 5, isoF, isoF; split; [reflexivity|]; split; [reflexivity|intros rho _; reflexivity]|constructor].
  - apply (also_held_list ex_cfg iso_cfg true true ex_ops ex_ops _ _ _ _ t s w v _ _ ex_wf iso_wf eq_refl H' H). rewrite Ew, K'.
    constructor; [exists 0, (fun _ => 7%Z), (fun _ => 7%Z); split; [reflexivity|]; split; [reflexivity|intros rho _; reflexivity]|].
    constructor; [exists 3, isoF, isoF; split; [reflexivity|]; split; [reflexivity|intros rho _; reflexivity]|].
    constructor; [exists 3, isoF, isoF; split; [reflexivity|]; split; [reflexivity|intros rho _; reflexivity]|].
    constructor; [exists 1, (fun _ => 3%Z), (fun _ => 3%Z); split; [reflexivity|]; split; [reflexivity|intros rho _; reflexivity]|].
    constructor; [exists 3, isoF, isoF; split; [reflexivity|]; split; [reflexivity|intros rho _; reflexivity]|constructor].
  - assert (n = 12%Z) as En.
    { assert (Y : match exec iso_cfg CGc iso_vars iso_st with Ok _ s => (s_count s =? 12)%Z | _ => false end = true) by (by vm_compute).
      rewrite E in Y. apply Z.eqb_eq in Y. unfold total_node_count, gets in N1. rewrite Y in N1. congruence. }
    rewrite En in N1, N2. exact (conj X (conj N1 N2)).
Qed.

Print Assumptions C86_managers.
Print Assumptions C86_after_gc.
