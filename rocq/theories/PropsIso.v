(** * The diagram of a function is the same in every manager (C85) *)

From stdpp Require Import gmap list.
From Coq Require Import ZArith Lia.
From Verif Require Import Base Ops Tables NodeManager Tools Sift DiagramManager World Queries Reliability.
From Verif Require Import Heap Inv InvLemmas Prim GC Make Build Apply Api Constr Expr VecSpec Vec Eval Fold.
From Verif Require Import OpSpec OpProof WorldSpec WorldProof Ctor History PropsBase Chain PropsBase2 PropsCore Examples.
From Verif Require Import Trav QuerySpec QueryProof Minimal PropsQuery Reduce ReduceWorld.

Local Open Scope nat_scope.
Local Opaque exec run new_manager.

(** ** Specification *)

(** labelled graphs that differ only in the names of their nodes *)
Record isomorphism (L L' : positive -> option body) (R : positive -> positive -> Prop) : Prop := {
  iso_label : forall x y, R x y ->
    match L x, L' y with
    | Some (Term v), Some (Term w) => v = w
    | Some (Int i ss), Some (Int j ts) => i = j /\ Forall2 R ss ts
    | _, _ => False
    end;
  iso_fun : forall x y z, R x y -> R x z -> y = z;
  iso_inj : forall x y z, R x z -> R y z -> x = y
}.
Definition isomorphic (L L' : positive -> option body) (a b : positive) : Prop := exists R, isomorphism L L' R /\ R a b.

Lemma isomorphism_sym L L' R : isomorphism L L' R -> isomorphism L' L (fun y x => R x y).
Proof.
  intros [H1 H2 H3]. constructor; [|by intros; eapply H3|by intros; eapply H2].
  intros y x Hxy. specialize (H1 x y Hxy). destruct (L x) as [[v|i ss]|], (L' y) as [[w|j ts]|]; try done.
  destruct H1 as [-> H1]. split; [done|]. by apply Forall2_flip.
Qed.

Lemma iso_reach L L' R a b x : isomorphism L L' R -> R a b -> reach L a x -> exists y, reach L' b y /\ R x y.
Proof.
  intros I Hab Hx. revert b Hab. induction Hx as [a|a d x i sons E Hd _ IH]; intros b Hab; [exists b; split; [constructor|done]|].
  pose proof (iso_label _ _ _ I a b Hab) as X. rewrite E in X. destruct (L' b) as [[w|j ts]|] eqn:Eb; try done. destruct X as [-> X].
  apply elem_of_list_lookup in Hd as (k&Hk). destruct (Forall2_lookup_l _ _ _ _ _ X Hk) as (e&He&Hde).
  destruct (IH e Hde) as (y&Hy&Hxy). exists y. split; [|done]. eapply reach_step; [exact Eb|by eapply elem_of_list_lookup_2|done].
Qed.

Lemma iso_size L L' R a b (D D' : list positive) : isomorphism L L' R -> R a b -> NoDup D -> (forall x, x ∈ D -> reach L a x) ->
  (forall y, reach L' b y -> y ∈ D') -> length D <= length D'.
Proof.
  intros I Hab ND HD HD'. destruct (Forall2_choice (fun x y => reach L' b y /\ R x y) D) as [ys Hys].
  { intros x Hx. by eapply iso_reach; [..|apply HD]. }
  rewrite (Forall2_length _ _ _ Hys). apply submseteq_length, NoDup_submseteq.
  - apply NoDup_alt. intros j k y Hj Hk. destruct (Forall2_lookup_r _ _ _ _ _ Hys Hj) as (x&Hx&_&R1).
    destruct (Forall2_lookup_r _ _ _ _ _ Hys Hk) as (z&Hz&_&R2). pose proof (iso_inj _ _ _ I x z y R1 R2) as <-. by eapply (proj1 (NoDup_alt _) ND).
  - intros y Hy. apply elem_of_list_lookup in Hy as (j&Hj). destruct (Forall2_lookup_r _ _ _ _ _ Hys Hj) as (x&_&Hr&_). by apply HD'.
Qed.

Lemma iso_Ev L L' R a b rho v : isomorphism L L' R -> R a b -> Ev L a rho v -> Ev L' b rho v.
Proof.
  intros I Hab E. revert b Hab. induction E as [a rho v Ea|a rho i sons d v Ea Hd _ IH]; intros b Hab;
    pose proof (iso_label _ _ _ I a b Hab) as X; rewrite Ea in X; destruct (L' b) as [[w|j ts]|] eqn:Eb; try done.
  - subst. by apply Ev_term.
  - destruct X as [<- X]. destruct (Forall2_lookup_l _ _ _ _ _ X Hd) as (e&He&Hde). eapply Ev_int; [exact Eb|exact He|by apply IH].
Qed.

(** ** Two managers *)

Lemma tight_below c s a x : tight c s a -> reach (live (s_heap s)) a x -> tight c s x.
Proof.
  intros [T1 T2] Hx. split.
  - intros y z Hy Hz. apply T1; by eapply reach_trans.
  - intros y i sons Hy. eapply T2. by eapply reach_trans.
Qed.

(** the variable of an internal node is the first of the order on which its function depends *)
Lemma rank_half c c' opsem opsem' strict strict' g g' s s' x y i sons :
  wf_cfg c -> calm c opsem strict g s -> calm c' opsem' strict' g' s' -> tight c s x -> c_doms c = c_doms c' -> s_l2i s = s_l2i s' ->
  held g (s_heap s) x -> held g' (s_heap s') y -> fun_eq c (nval c s x) (nval c' s' y) ->
  live (s_heap s) x = Some (Int i sons) -> rank c' g' (s_heap s') y <= rank c g (s_heap s) x.
Proof.
  intros Hc C C' T Hd Ho Hx Hy E Ex.
  destruct (int_facts c opsem strict g s C x i sons Hx Ex) as (Hi&_&_&Hox&_).
  destruct (le_lt_dec (rank c' g' (s_heap s') y) (rank c g (s_heap s) x)) as [|Hlt]; [done|exfalso].
  destruct (proj1 (occurs_essential_in c opsem strict g s Hc C x i T Hx)) as (_&rho&k&k'&Hv&Hk&Hk'&Hne).
  { exists x, sons. split; [constructor|done]. }
  assert (V : forall r, valid c r -> valid c' r) by (intros r Hr j; unfold nvars, dom; rewrite <- Hd; apply Hr).
  apply Hne. rewrite !E by by apply upd_valid.
  apply (nval_depends c' opsem' strict' g' s' C' y _ Hy ltac:(done)); [by apply V, upd_valid..|].
  intros j Hj. rewrite !upd_other; [done|intros ->..].
  all: apply elem_of_list_lookup in Hj as (m&Hm); rewrite lookup_drop in Hm; rewrite Ho in Hox;
    pose proof (proj1 (NoDup_alt _) (order_NoDup c' opsem' strict' g' s' C') _ _ _ Hox Hm); lia.
Qed.

Section two.
Context (c c' : cfg) (opsem opsem' : Z -> option (Z -> Z -> Z)) (strict strict' : bool) (g g' : ghost) (s s' : st).
Context (Hc : wf_cfg c) (Hc' : wf_cfg c') (C : calm c opsem strict g s) (C' : calm c' opsem' strict' g' s').
Context (Hd : c_doms c = c_doms c') (Ho : s_l2i s = s_l2i s').
Context (a a' : positive) (Ha : held g (s_heap s) a) (Ha' : held g' (s_heap s') a') (T : tight c s a) (T' : tight c' s' a').

Definition same_fun (x y : positive) : Prop :=
  reach (live (s_heap s)) a x /\ reach (live (s_heap s')) a' y /\ fun_eq c (nval c s x) (nval c' s' y).

Lemma valid_two rho : valid c rho <-> valid c' rho.
Proof. unfold valid, nvars, dom. by rewrite Hd. Qed.

Lemma same_fun_iso : isomorphism (live (s_heap s)) (live (s_heap s')) same_fun.
Proof.
  constructor.
  - intros x y (Rx&Ry&E). assert (Hx : held g (s_heap s) x) by (by eapply held_reach). assert (Hy : held g' (s_heap s') y) by (by eapply held_reach).
    pose proof (tight_below c s a x T Rx) as Tx. pose proof (tight_below c' s' a' y T' Ry) as Ty. destruct (held_body c opsem strict g s C x Hx) as [bx Ex]. destruct (held_body c' opsem' strict' g' s' C' y Hy) as [b_y Ey].
    rewrite Ex, Ey.
    assert (E' : fun_eq c' (nval c' s' y) (nval c s x)) by (intros rho Hr; symmetry; by apply E, valid_two).
    destruct bx as [v|i ss], b_y as [w|j ts].
    + assert (V0 : valid c (fun _ => 0)) by (intros i Hi; pose proof (wc_dom _ Hc i Hi); lia).
      rewrite <- (nval_term c opsem strict g s C x _ v Hx V0 Ex), E by done. apply (nval_term c' opsem' strict' g' s' C' y _ w Hy); [by apply valid_two|done].
    + pose proof (rank_half c' c opsem' opsem strict' strict g' g s' s y x j ts Hc' C' C Ty (eq_sym Hd) (eq_sym Ho) Hy Hx E' Ey) as Hr.
      rewrite (rank_term c g _ _ _ (cl_quiet _ _ _ _ _ C) Ex) in Hr. destruct (int_facts c' opsem' strict' g' s' C' y j ts Hy Ey) as (_&_&Hr'&_).
      unfold nvars in *. rewrite Hd in Hr. lia.
    + pose proof (rank_half c c' opsem opsem' strict strict' g g' s s' x y i ss Hc C C' Tx Hd Ho Hx Hy E Ex) as Hr.
      rewrite (rank_term c' g' _ _ _ (cl_quiet _ _ _ _ _ C') Ey) in Hr. destruct (int_facts c opsem strict g s C x i ss Hx Ex) as (_&_&Hr'&_).
      unfold nvars in *. rewrite <- Hd in Hr. lia.
    + pose proof (rank_half c c' opsem opsem' strict strict' g g' s s' x y i ss Hc C C' Tx Hd Ho Hx Hy E Ex) as R1.
      pose proof (rank_half c' c opsem' opsem strict' strict g' g s' s y x j ts Hc' C' C Ty (eq_sym Hd) (eq_sym Ho) Hy Hx E' Ey) as R2.
      destruct (int_facts c opsem strict g s C x i ss Hx Ex) as (Hi&Hl&_&Hox&Hs).
      destruct (int_facts c' opsem' strict' g' s' C' y j ts Hy Ey) as (Hj&Hl'&_&Hoy&Hs').
      assert (i = j) as <-.
      { assert (rank c g (s_heap s) x = rank c' g' (s_heap s') y) as Er by lia. rewrite Er, Ho in Hox. congruence. }
      split; [done|]. apply Forall2_same_length_lookup_2; [rewrite Hl, Hl'; unfold dom; by rewrite Hd|].
      intros k d e Hk Hk'. destruct (Hs d ltac:(by eapply elem_of_list_lookup_2)) as [Hdh Hdr].
      destruct (Hs' e ltac:(by eapply elem_of_list_lookup_2)) as [Heh Her].
      split; [eapply reach_trans; [exact Rx|eapply reach_son; [exact Ex|by eapply elem_of_list_lookup_2]]|].
      split; [eapply reach_trans; [exact Ry|eapply reach_son; [exact Ey|by eapply elem_of_list_lookup_2]]|].
      assert (Kd : k < dom c i) by (rewrite <- Hl; by eapply lookup_lt_Some).
      intros rho Hv. assert (Hu : valid c (upd rho i k)) by (by apply upd_valid).
      transitivity (nval c s d (upd rho i k)).
      { apply (nval_depends c opsem strict g s C d (S (rank c g (s_heap s) x)) Hdh ltac:(lia)); [done|done|].
        intros m Hm. rewrite upd_other; [done|]. intros ->. by apply (take_drop_notin c opsem strict g s C _ _ Hox). }
      rewrite <- (nval_int c opsem strict g s C x _ i ss d Hx Hu Ex) by by rewrite upd_same.
      rewrite E by done.
      rewrite (nval_int c' opsem' strict' g' s' C' y _ i ts e Hy (proj1 (valid_two _) Hu) Ey) by by rewrite upd_same.
      apply (nval_depends c' opsem' strict' g' s' C' e (S (rank c' g' (s_heap s') y)) Heh ltac:(lia)); [by apply valid_two..|].
      intros m Hm. rewrite upd_other; [done|]. intros ->. by apply (take_drop_notin c' opsem' strict' g' s' C' _ _ Hoy).
  - intros x y z (Hx&Hy&E1) (_&Hz&E2). apply (proj1 T' y z Hy Hz). intros rho Hr. apply valid_two in Hr. by rewrite <- E1, <- E2.
  - intros x y z (Hx&Hz&E1) (Hy&_&E2). apply (proj1 T x y Hx Hy). intros rho Hr. by rewrite E1, E2.
Qed.
End two.

Lemma two_diagrams c c' opsem opsem' strict strict' g g' s s' a a' F F' :
  wf_cfg c -> wf_cfg c' -> calm c opsem strict g s -> calm c' opsem' strict' g' s' -> c_doms c = c_doms c' -> s_l2i s = s_l2i s' ->
  held g (s_heap s) a -> held g' (s_heap s') a' -> tight c s a -> tight c' s' a' ->
  fun_eq c F (nval c s a) -> fun_eq c' F' (nval c' s' a') ->
  isomorphic (live (s_heap s)) (live (s_heap s')) a a' <-> fun_eq c F F'.
Proof.
  intros Hc Hc' C C' Hd Ho Hh Hh' T T' EF EF'. assert (V : forall rho, valid c rho <-> valid c' rho) by (by apply valid_two).
  split.
  - intros (R&I&Hab) rho Hr. rewrite EF by done. rewrite EF' by by apply V. apply (Ev_nval c opsem strict g s C a rho _ Hh Hr).
    apply (iso_Ev _ _ _ _ _ _ _ (isomorphism_sym _ _ _ I) Hab). apply (nval_Ev c' opsem' strict' g' s' C' a' rho Hh'). by apply V.
  - intros E. exists (same_fun c c' s s' a a'). split.
    + by apply (same_fun_iso c c' opsem opsem' strict strict' g g' s s' Hc Hc' C C' Hd Ho a a').
    + split; [constructor|]. split; [constructor|]. intros rho Hr. rewrite <- EF by done. rewrite <- EF' by by apply V. by apply E.
Qed.

Lemma iso_count c c' opsem opsem' strict strict' g g' s s' a a' :
  calm c opsem strict g s -> calm c' opsem' strict' g' s' -> clean s -> clean s' -> held g (s_heap s) a -> held g' (s_heap s') a' ->
  isomorphic (live (s_heap s)) (live (s_heap s')) a a' ->
  exists n, diagram_node_count c a s = Ok n s /\ diagram_node_count c' a' s' = Ok n s'.
Proof.
  intros C C' Cl Cl' Hh Hh' (R&I&Hab).
  destruct (node_count_ok c opsem strict g s C Cl a Hh) as (D&ND&HD&EN).
  destruct (node_count_ok c' opsem' strict' g' s' C' Cl' a' Hh') as (D'&ND'&HD'&EN').
  assert (length D = length D') as EL.
  { apply Nat.le_antisymm.
    - eapply iso_size; [exact I|exact Hab|done|by intros ? ?%HD|by intros ? ?%HD'].
    - eapply iso_size; [exact (isomorphism_sym _ _ _ I)|exact Hab|done|by intros ? ?%HD'|by intros ? ?%HD]. }
  exists (Z.of_nat (length D)). split; [done|]. by rewrite EL.
Qed.

(** the result of reduce after any program, with or without reordering *)
Lemma reduced_query c opsem strict args ks s vars A d x F vars1 s1 :
  wf_cfg c -> history c opsem strict args ks s vars A -> ab A !! x = Some F ->
  exec c (CTransform d (fun v => v) x) vars s = Ok vars1 s1 -> map t_cap (s_tabs s1) = map t_cap (s_tabs s) ->
  exists g a, vars1 !! d = Some a /\ calm c opsem strict g s1 /\ held g (s_heap s1) a /\ fun_eq c F (nval c s1 a) /\
    s_l2i s1 = ab_order A /\ (ab_clean A = true -> clean s1) /\ tight c s1 a.
Proof.
  intros Hc H HF E Ec. destruct (history_winv c opsem strict args _ s vars A Hc H) as [g0 W0].
  assert (Ht : forall rho, valid c rho -> tval c (F rho)).
  { destruct (wi_den_pos c opsem strict g0 s vars A x F W0 HF) as (a&_&D&Pa).
    exact (den_tval c opsem strict g0 s a F (wi_calm _ _ _ _ _ _ _ W0) Pa D). }
  destruct (transform_step c opsem strict g0 s vars A d (fun v => v) x F vars1 s1 Hc W0 HF Ht E) as (b&->&_&R).
  destruct (R Ec) as [Rb _].
  assert (H' : history c opsem strict args (ks ++ [CTransform d (fun v => v) x]) s1 (<[d := b]> vars) (bindf d F A)).
  { eapply H_call; [exact H| |exact E]. by apply (S_transform c opsem strict s d (fun v => v) x F A). }
  destruct (history_query c opsem strict args _ s1 _ (bindf d F A) d F Hc H') as (g&a&Ha&C&Hh&EF&Ho&Cl&_); [apply lookup_insert|].
  rewrite lookup_insert in Ha. assert (b = a) as -> by congruence. clear Ha. cbn in Ho, Cl.
  exists g, a. split_and!; try done; [apply lookup_insert|]. exact (reduced_tight c opsem strict g s1 a Hc C Hh Rb).
Qed.

(** ** Theorems *)

(** Two diagrams in two managers with the same domains and the same order of variables, made by any
    programs with any pool sizes, tables, caches and collections: they differ only in the addresses of
    their nodes exactly if their functions are equal. *)
Theorem C85_isomorphic : forall c c' strict strict' opsem opsem' args args' ks ks' s s' vars vars' A A' x x' F F' a a',
  wf_cfg c -> wf_cfg c' -> c_doms c = c_doms c' ->
  history c opsem strict args ks s vars A -> history c' opsem' strict' args' ks' s' vars' A' ->
  ab_canon A = true -> ab_canon A' = true -> ab_order A = ab_order A' ->
  ab A !! x = Some F -> ab A' !! x' = Some F' -> vars !! x = Some a -> vars' !! x' = Some a' ->
  isomorphic (live (s_heap s)) (live (s_heap s')) a a' <-> fun_eq c F F'.
Proof.
  intros c c' strict strict' opsem opsem' args args' ks ks' s s' vars vars' A A' x x' F F' a a' Hc Hc' Hd H H' Hcn Hcn' Ho HF HF' Ha Ha'.
  destruct (history_query _ _ _ _ _ _ _ _ _ _ Hc H HF) as (g&b&Hb&C&Hh&EF&EO&_&Cn). rewrite Ha in Hb. injection Hb as <-.
  destruct (history_query _ _ _ _ _ _ _ _ _ _ Hc' H' HF') as (g'&b'&Hb'&C'&Hh'&EF'&EO'&_&Cn'). rewrite Ha' in Hb'. injection Hb' as <-.
  apply (two_diagrams c c' opsem opsem' strict strict' g g' s s' a a' F F'); try done; [by rewrite EO, EO'|..].
  - apply (canon_tight c opsem strict g s Hc C (Cn Hcn) a Hh).
  - apply (canon_tight c' opsem' strict' g' s' Hc' C' (Cn' Hcn') a' Hh').
Qed.

(** so the reported numbers of nodes agree between managers *)
Theorem C85_node_count : forall c c' strict strict' opsem opsem' args args' ks ks' s s' vars vars' A A' x x' F F' a a',
  wf_cfg c -> wf_cfg c' -> c_doms c = c_doms c' ->
  history c opsem strict args ks s vars A -> history c' opsem' strict' args' ks' s' vars' A' ->
  ab_canon A = true -> ab_canon A' = true -> ab_clean A = true -> ab_clean A' = true -> ab_order A = ab_order A' ->
  ab A !! x = Some F -> ab A' !! x' = Some F' -> vars !! x = Some a -> vars' !! x' = Some a' -> fun_eq c F F' ->
  exists n, diagram_node_count c a s = Ok n s /\ diagram_node_count c' a' s' = Ok n s'.
Proof.
  intros c c' strict strict' opsem opsem' args args' ks ks' s s' vars vars' A A' x x' F F' a a' Hc Hc' Hd H H' Hcn Hcn' Hcl Hcl' Ho HF HF' Ha Ha' E.
  pose proof (proj2 (C85_isomorphic _ _ _ _ _ _ _ _ _ _ _ _ _ _ _ _ _ _ _ _ _ _ Hc Hc' Hd H H' Hcn Hcn' Ho HF HF' Ha Ha') E) as I.
  destruct (history_query _ _ _ _ _ _ _ _ _ _ Hc H HF) as (g&b&Hb&C&Hh&_&_&Cl&_). rewrite Ha in Hb. injection Hb as <-.
  destruct (history_query _ _ _ _ _ _ _ _ _ _ Hc' H' HF') as (g'&b'&Hb'&C'&Hh'&_&_&Cl'&_). rewrite Ha' in Hb'. injection Hb' as <-.
  apply (iso_count c c' opsem opsem' strict strict' g g' s s' a a'); auto.
Qed.

(** After reorderings the same holds for diagrams that have been reduced, if reduce has not made a
    table grow (C72) and the managers have ended with the same order. *)
Theorem C85_reduced : forall c c' strict strict' opsem opsem' args args' ks ks' s s' vars vars' A A' d d' x x' F F' s1 s1' vars1 vars1',
  wf_cfg c -> wf_cfg c' -> c_doms c = c_doms c' ->
  history c opsem strict args ks s vars A -> history c' opsem' strict' args' ks' s' vars' A' ->
  ab_order A = ab_order A' -> ab_clean A = true -> ab_clean A' = true ->
  ab A !! x = Some F -> ab A' !! x' = Some F' ->
  exec c (CTransform d (fun v => v) x) vars s = Ok vars1 s1 -> exec c' (CTransform d' (fun v => v) x') vars' s' = Ok vars1' s1' ->
  map t_cap (s_tabs s1) = map t_cap (s_tabs s) -> map t_cap (s_tabs s1') = map t_cap (s_tabs s') ->
  exists a a', vars1 !! d = Some a /\ vars1' !! d' = Some a' /\
    (isomorphic (live (s_heap s1)) (live (s_heap s1')) a a' <-> fun_eq c F F') /\
    (fun_eq c F F' -> exists n, diagram_node_count c a s1 = Ok n s1 /\ diagram_node_count c' a' s1' = Ok n s1').
Proof.
  intros c c' strict strict' opsem opsem' args args' ks ks' s s' vars vars' A A' d d' x x' F F' s1 s1' vars1 vars1'
    Hc Hc' Hd H H' Ho Hcl Hcl' HF HF' E E' Ec Ec'.
  destruct (reduced_query _ _ _ _ _ _ _ _ d x F vars1 s1 Hc H HF E Ec) as (g&a&Ha&C&Hh&EF&EO&Cl&T).
  destruct (reduced_query _ _ _ _ _ _ _ _ d' x' F' vars1' s1' Hc' H' HF' E' Ec') as (g'&a'&Ha'&C'&Hh'&EF'&EO'&Cl'&T').
  exists a, a'. split; [done|]. split; [done|].
  assert (X : isomorphic (live (s_heap s1)) (live (s_heap s1')) a a' <-> fun_eq c F F').
  { apply (two_diagrams c c' opsem opsem' strict strict' g g' s1 s1' a a' F F'); try done. by rewrite EO, EO'. }
  split; [exact X|]. intros EQ. apply (iso_count c c' opsem opsem' strict strict' g g' s1 s1' a a'); auto. by apply X.
Qed.

(** ** Case: the function of object 4 of the example, in a manager with other addresses, sizes and
    thresholds and without assertions, from its vector *)
Definition iso_cfg : cfg := Cfg [2; 3; 2] None (fun p => 1000000 - N.pos p * 40)%N false true.
Definition iso_args : cargs := CArgs [2; 0; 1]%Z 4 3 1 [1; 1; 1]%Z (fun n => n)%Z (fun n => 0)%Z.
Definition iso_vec : list Z := [0; 1; 2; 1; 1; 2; 1; 2; 3; 2; 2; 3]%Z.
Definition iso_prog : list call := [CConst 0 7%Z; CConst 1 3%Z; CVar 2 1; CVec 3 iso_vec; CReset 2; CGc].
Definition iso_run : res vars_t :=
  match new_manager iso_cfg iso_args no_state with Ok _ s => run iso_cfg iso_prog ∅ s | Err e => Err e | Fuel => Fuel end.
Definition iso_vars : vars_t := match iso_run with Ok v _ => v | _ => ∅ end.
Definition iso_st : st := match iso_run with Ok _ s => s | _ => no_state end.
Definition isoF : asg -> Z := fun rho => nth (vec_index iso_cfg [2; 0; 1] rho) iso_vec 0%Z.
Definition iso_abs : astate :=
  set_ab (delete 2 (<[3 := isoF]> (<[2 := fun rho => Z.of_nat (rho 1)]> (<[1 := fun _ => 3%Z]> (<[0 := fun _ => 7%Z]> ∅))))) (no_objects iso_args).

Lemma iso_wf : wf_cfg iso_cfg.
Proof.
  constructor.
  - intros i Hi. do 3 (destruct i as [|i]; [vm_compute; lia|]). vm_compute in Hi. lia.
  - done.
  - intros i Hi. do 3 (destruct i as [|i]; [by vm_compute|]). vm_compute in Hi. lia.
Qed.

Lemma iso_tval v : (0 <= v < 100)%Z -> tval iso_cfg v.
Proof. intros H. left. split; [change Nondet with 2147483646%Z; lia|done]. Qed.

Lemma iso_history : history iso_cfg ex_ops true iso_args iso_prog iso_st iso_vars iso_abs.
Proof.
  destruct (new_manager iso_cfg iso_args no_state) as [[] s| |] eqn:E; [|by vm_compute in E..].
  eapply chain_new; [|exact E| |].
  - constructor; try done.
    + unfold is_order, iso_args. simpl. apply (Permutation_cons_append [0; 1]%Z 2%Z).
    + intros _. split; [done|]. intros n Hn. simpl in *. lia.
  - unfold iso_prog. eapply Ch_cons; [intros t; apply S_const, iso_tval; lia|]. eapply Ch_cons; [intros t; apply S_const, iso_tval; lia|].
    eapply Ch_cons; [intros t; apply S_var; vm_compute; lia|].
    eapply Ch_cons; [intros t; apply S_vec; [by vm_compute|]|].
    { unfold iso_vec. repeat (constructor; [apply iso_tval; lia|]). constructor. }
    eapply Ch_cons; [intros t; apply S_reset|]. eapply Ch_cons; [intros t; apply S_gc|]. apply Ch_nil.
  - unfold iso_vars, iso_st, iso_run. rewrite E. destruct (run iso_cfg iso_prog ∅ s) as [v s'| |] eqn:R; [done| |];
      assert (X : match iso_run with Ok _ _ => true | _ => false end = true) by (by vm_compute);
      unfold iso_run in X; by rewrite E, R in X.
Qed.

Lemma iso_same : fun_eq ex_cfg exF4 isoF.
Proof.
  intros rho Hv. unfold exF4, exF3, exV, isoF, vec_index. cbn [foldl fold_left].
  apply ex_valid in Hv as (?&?&?).
  destruct (rho 0) as [|[|?]] eqn:E0; try lia; destruct (rho 1) as [|[|[|?]]] eqn:E1; try lia; destruct (rho 2) as [|[|?]] eqn:E2; try lia;
    by vm_compute.
Qed.

Example C85_case : exists a a', ex_vars !! 4 = Some a /\ iso_vars !! 3 = Some a' /\ a <> a' /\
  isomorphic (live (s_heap ex_st)) (live (s_heap iso_st)) a a' /\
  diagram_node_count ex_cfg a ex_st = Ok 11%Z ex_st /\ diagram_node_count iso_cfg a' iso_st = Ok 11%Z iso_st.
Proof.
  assert (Ha : ex_vars !! 4 = Some 13%positive) by (by vm_compute). assert (Ha' : iso_vars !! 3 = Some 12%positive) by (by vm_compute).
  exists 13%positive, 12%positive. split; [exact Ha|]. split; [exact Ha'|]. split; [discriminate|]. split.
  - apply (C85_isomorphic ex_cfg iso_cfg true true ex_ops ex_ops ex_args iso_args ex_prog iso_prog ex_st iso_st ex_vars iso_vars ex_abs iso_abs 4 3 exF4 isoF);
      [exact ex_wf|exact iso_wf|reflexivity|exact ex_history|exact iso_history|reflexivity|reflexivity|reflexivity|reflexivity|reflexivity|exact Ha|exact Ha'|exact iso_same].
  - destruct (C85_node_count ex_cfg iso_cfg true true ex_ops ex_ops ex_args iso_args ex_prog iso_prog ex_st iso_st ex_vars iso_vars ex_abs iso_abs 4 3 exF4 isoF 13 12) as (n&E1&E2);
      [exact ex_wf|exact iso_wf|reflexivity|exact ex_history|exact iso_history|reflexivity|reflexivity|reflexivity|reflexivity|reflexivity|reflexivity|reflexivity|exact Ha|exact Ha'|exact iso_same|].
    enough (n = 11%Z) as En by (rewrite En in E1, E2; exact (conj E1 E2)).
    assert (X : match diagram_node_count ex_cfg 13 ex_st with Ok m _ => (m =? 11)%Z | _ => false end = true) by (by vm_compute).
    rewrite E1 in X. by apply Z.eqb_eq.
Qed.

(** objects 4 and 5 of the example have different functions, so the second is not isomorphic to the vector *)
Example C85_case_other : exists a a', ex_vars !! 5 = Some a /\ iso_vars !! 3 = Some a' /\
  ~ isomorphic (live (s_heap ex_st)) (live (s_heap iso_st)) a a'.
Proof.
  destruct (history_value _ _ _ _ _ _ _ _ 5 exF5 ex_wf ex_history eq_refl) as (a&Ha&_).
  destruct (history_value _ _ _ _ _ _ _ _ 3 isoF iso_wf iso_history eq_refl) as (a'&Ha'&_).
  exists a, a'. split; [exact Ha|]. split; [exact Ha'|].
  rewrite (C85_isomorphic ex_cfg iso_cfg true true ex_ops ex_ops ex_args iso_args ex_prog iso_prog ex_st iso_st ex_vars iso_vars ex_abs iso_abs 5 3 exF5 isoF a a' ex_wf iso_wf
    eq_refl ex_history iso_history eq_refl eq_refl eq_refl eq_refl eq_refl Ha Ha').
  intros E. assert (V : valid ex_cfg (fun i => if i =? 1 then 2 else 0)).
  { intros i Hi. do 3 (destruct i as [|i]; [vm_compute; lia|]). vm_compute in Hi. lia. }
  specialize (E _ V). by vm_compute in E.
Qed.

(** both managers reorder their variables, from x2 x0 x1 to x2 x1 x0, and reduce *)
Example C85_reduced_case : exists v s w t v1 s1 w1 t1 a a',
  exec ex_cfg CReorder ex_vars ex_st = Ok v s /\ exec iso_cfg CReorder iso_vars iso_st = Ok w t /\
  s_l2i s = [2; 1; 0] /\ s_l2i t = [2; 1; 0] /\
  exec ex_cfg (CTransform 9 (fun v => v) 4) v s = Ok v1 s1 /\ exec iso_cfg (CTransform 9 (fun v => v) 3) w t = Ok w1 t1 /\
  v1 !! 9 = Some a /\ w1 !! 9 = Some a' /\ isomorphic (live (s_heap s1)) (live (s_heap t1)) a a'.
Proof.
  destruct (ex_two CReorder (CTransform 9 (fun v => v) 4)) as (v&s&v1&s1&E1&E2); [by vm_compute|].
  destruct (ok_ex (exec iso_cfg CReorder iso_vars iso_st)) as (w&t&E3); [by vm_compute|].
  destruct (ok_ex (exec iso_cfg (CTransform 9 (fun v => v) 3) w t)) as (w1&t1&E4).
  { assert (X : match exec iso_cfg CReorder iso_vars iso_st with Ok w t => is_ok (exec iso_cfg (CTransform 9 (fun v => v) 3) w t) | _ => false end = true) by (by vm_compute).
    by rewrite E3 in X. }
  assert (P1 : s_l2i s = [2; 1; 0] /\ map t_cap (s_tabs s1) = map t_cap (s_tabs s)).
  { assert (X : match exec ex_cfg CReorder ex_vars ex_st with Ok v s =>
      match exec ex_cfg (CTransform 9 (fun v => v) 4) v s with Ok _ s1 =>
        bool_decide (s_l2i s = [2; 1; 0]) && bool_decide (map t_cap (s_tabs s1) = map t_cap (s_tabs s)) | _ => false end | _ => false end = true) by (by vm_compute).
    rewrite E1, E2 in X. apply andb_prop in X as [X Y]. apply bool_decide_eq_true in X. apply bool_decide_eq_true in Y. exact (conj X Y). }
  assert (P2 : s_l2i t = [2; 1; 0] /\ map t_cap (s_tabs t1) = map t_cap (s_tabs t)).
  { assert (X : match exec iso_cfg CReorder iso_vars iso_st with Ok w t =>
      match exec iso_cfg (CTransform 9 (fun v => v) 3) w t with Ok _ t1 =>
        bool_decide (s_l2i t = [2; 1; 0]) && bool_decide (map t_cap (s_tabs t1) = map t_cap (s_tabs t)) | _ => false end | _ => false end = true) by (by vm_compute).
    rewrite E3, E4 in X. apply andb_prop in X as [X Y]. apply bool_decide_eq_true in X. apply bool_decide_eq_true in Y. exact (conj X Y). }
  pose proof (H_call ex_cfg ex_ops true _ _ _ _ _ CReorder _ _ _ ex_history (S_reorder ex_cfg ex_ops true ex_st ex_abs) E1) as H.
  pose proof (H_call iso_cfg ex_ops true _ _ _ _ _ CReorder _ _ _ iso_history (S_reorder iso_cfg ex_ops true iso_st iso_abs) E3) as H'.
  destruct (C85_reduced ex_cfg iso_cfg true true ex_ops ex_ops _ _ _ _ s t v w _ _ 9 9 4 3 exF4 isoF s1 t1 v1 w1 ex_wf iso_wf eq_refl H H') as (a&a'&Ha&Ha'&X&_);
    [by vm_compute|reflexivity|reflexivity|reflexivity|reflexivity|exact E2|exact E4|exact (proj2 P1)|exact (proj2 P2)|].
  exists v, s, w, t, v1, s1, w1, t1, a, a'. split; [exact E1|]. split; [exact E3|]. split; [exact (proj1 P1)|]. split; [exact (proj1 P2)|].
  split; [exact E2|]. split; [exact E4|]. split; [exact Ha|]. split; [exact Ha'|]. apply X. exact iso_same.
Qed.

(** another order of the variables: the same function, and a diagram of another size *)
Definition iso_args2 : cargs := CArgs [0; 1; 2]%Z 4 3 1 [1; 1; 1]%Z (fun n => n)%Z (fun n => 0)%Z.
Definition iso_vec2 : list Z := [0; 1; 1; 2; 2; 3; 1; 2; 1; 2; 2; 3]%Z.
Definition isoF2 : asg -> Z := fun rho => nth (vec_index iso_cfg [0; 1; 2] rho) iso_vec2 0%Z.

Lemma iso_same2 : fun_eq iso_cfg isoF isoF2.
Proof.
  intros rho Hv. unfold isoF, isoF2, vec_index. apply (ex_valid rho) in Hv as (?&?&?).
  destruct (rho 0) as [|[|?]] eqn:E0; try lia; destruct (rho 1) as [|[|[|?]]] eqn:E1; try lia; destruct (rho 2) as [|[|?]] eqn:E2; try lia;
    by vm_compute.
Qed.

Example C85_order_needed : exists s' vars' a a',
  history iso_cfg ex_ops true iso_args2 [CVec 3 iso_vec2] s' vars' (bindf 3 isoF2 (no_objects iso_args2)) /\
  fun_eq iso_cfg isoF isoF2 /\ iso_vars !! 3 = Some a /\ vars' !! 3 = Some a' /\
  diagram_node_count iso_cfg a iso_st = Ok 11%Z iso_st /\ diagram_node_count iso_cfg a' s' = Ok 10%Z s' /\
  ~ isomorphic (live (s_heap iso_st)) (live (s_heap s')) a a'.
Proof.
  destruct (new_manager iso_cfg iso_args2 no_state) as [[] s| |] eqn:E; [|by vm_compute in E..].
  destruct (ok_ex (run iso_cfg [CVec 3 iso_vec2] ∅ s)) as (v&s'&R).
  { assert (X : match new_manager iso_cfg iso_args2 no_state with Ok _ s => is_ok (run iso_cfg [CVec 3 iso_vec2] ∅ s) | _ => false end = true) by (by vm_compute).
    by rewrite E in X. }
  assert (H : history iso_cfg ex_ops true iso_args2 [CVec 3 iso_vec2] s' v (bindf 3 isoF2 (no_objects iso_args2))).
  { eapply chain_new; [|exact E| |exact R].
    - constructor; try done; [by apply Permutation_refl'|]. intros _. split; [done|]. intros n Hn. simpl in *. lia.
    - eapply Ch_cons; [intros t; apply S_vec; [by vm_compute|]|apply Ch_nil].
      unfold iso_vec2. repeat (constructor; [apply iso_tval; lia|]). constructor. }
  destruct (C60_minimal _ _ _ _ _ _ _ _ 3 isoF iso_wf iso_history eq_refl eq_refl eq_refl) as (a&Gs&Ha&_&N1&_).
  destruct (C60_minimal _ _ _ _ _ _ _ _ 3 isoF2 iso_wf H eq_refl eq_refl eq_refl) as (a'&Gs'&Ha'&_&N2&_).
  assert (L1 : length Gs = 11).
  { assert (X : match iso_vars !! 3 with Some a => match diagram_node_count iso_cfg a iso_st with Ok m _ => (m =? 11)%Z | _ => false end | None => false end = true) by (by vm_compute).
    rewrite Ha, N1 in X. apply Z.eqb_eq in X. lia. }
  assert (L2 : length Gs' = 10).
  { assert (X : match new_manager iso_cfg iso_args2 no_state with Ok _ s =>
      match run iso_cfg [CVec 3 iso_vec2] ∅ s with Ok v s' =>
        match v !! 3 with Some a => match diagram_node_count iso_cfg a s' with Ok m _ => (m =? 10)%Z | _ => false end | None => false end
      | _ => false end | _ => false end = true) by (by vm_compute).
    rewrite E, R, Ha', N2 in X. apply Z.eqb_eq in X. lia. }
  rewrite L1 in N1. rewrite L2 in N2. exists s', v, a, a'. split; [exact H|]. split; [exact iso_same2|]. split; [exact Ha|]. split; [exact Ha'|].
  split; [exact N1|]. split; [exact N2|]. intros (Q&I&Hab).
  destruct (history_query _ _ _ _ _ _ _ _ 3 isoF iso_wf iso_history eq_refl) as (g&b&Hb&C&Hh&_&_&Cl&_). rewrite Ha in Hb. injection Hb as <-.
  destruct (history_query _ _ _ _ _ _ _ _ 3 isoF2 iso_wf H eq_refl) as (g'&b'&Hb'&C'&Hh'&_&_&Cl'&_). rewrite Ha' in Hb'. injection Hb' as <-.
  destruct (node_count_ok iso_cfg ex_ops true g iso_st C (Cl eq_refl) a Hh) as (D&ND&HD&EN).
  destruct (node_count_ok iso_cfg ex_ops true g' s' C' (Cl' eq_refl) a' Hh') as (D'&ND'&HD'&EN').
  rewrite N1 in EN. rewrite N2 in EN'.
  assert (length D = 11 /\ length D' = 10) as [D1 D2].
  { assert (Z.of_nat 11 = Z.of_nat (length D)) by congruence. assert (Z.of_nat 10 = Z.of_nat (length D')) by congruence. lia. }
  assert (length D <= length D'); [|lia].
  eapply iso_size; [exact I|exact Hab|done|by intros ? ?%HD|by intros ? ?%HD'].
Qed.

Print Assumptions C85_isomorphic.
Print Assumptions C85_node_count.
Print Assumptions C85_reduced.
