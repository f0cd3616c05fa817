(** * Comparing diagrams after a reordering: reduce

    After a reordering two diagrams of the same function may be different
    objects. The documentation (diagram_manager.hpp:565-573 and 695-705) tells the
    user to call reduce before a comparison. *)

From stdpp Require Import gmap list.
From Coq Require Import ZArith Lia.
From Verif Require Import Base Ops Tables NodeManager Tools Sift DiagramManager Reliability World Queries.
From Verif Require Import Heap Inv Apply Constr VecSpec Eval QuerySpec Trav QueryProof Minimal OpSpec OpProof WorldSpec WorldProof Ctor History PropsBase.
From Verif Require Import Chain Examples PropsQuery Refuted Reduce ReduceWorld.

Local Open Scope nat_scope.
Local Opaque exec.

(** ** C72: exact while the tables keep their capacity *)

(** a program of any history reduces the objects [snd q] into the objects [fst q] *)
Theorem C72_reduce_canonical : forall c strict opsem args ks s vars A l vars' s' d e x y F G,
  wf_cfg c -> history c opsem strict args ks s vars A ->
  NoDup (map fst l) -> (forall q, q ∈ l -> (exists H, ab A !! snd q = Some H) /\ snd q ∉ map fst l) ->
  run c (reduce_calls l) vars s = Ok vars' s' ->
  map t_cap (s_tabs s') = map t_cap (s_tabs s) ->
  (d, x) ∈ l -> (e, y) ∈ l -> ab A !! x = Some F -> ab A !! y = Some G ->
  equals vars' d e = true <-> forall rho, valid c rho -> F rho = G rho.
Proof.
  intros c strict opsem args ks s vars A l vars' s' d e x y F G Hc H ND Hl E Ec Hd He HF HG.
  destruct (reduce_row c opsem strict args l Hc ks s vars A s' vars' H ND Hl E) as (A'&H'&_&_&HA&R).
  destruct (R Ec) as [R1 _]. destruct (R1 _ Hd) as (a&Ha&Ra). destruct (R1 _ He) as (b&Hb&Rb).
  destruct (history_winv c opsem strict args _ s' vars' A' Hc H') as [g W].
  pose proof (HA _ Hd) as HdF. pose proof (HA _ He) as HeG. cbn [fst snd] in *. rewrite HF in HdF. rewrite HG in HeG.
  by apply (reduced_equal c opsem strict g s' vars' A' d e a b F G Hc W HdF HeG Ha Hb).
Qed.

(** the result has as few nodes as any diagram in this order, and its variables
    are those the function depends on *)
Theorem C72_reduce_minimal : forall c strict opsem args ks s vars A d x F vars' s',
  wf_cfg c -> history c opsem strict args ks s vars A -> ab_clean A = true -> ab A !! x = Some F ->
  exec c (CTransform d (fun v => v) x) vars s = Ok vars' s' ->
  map t_cap (s_tabs s') = map t_cap (s_tabs s) ->
  exists a Gs l, vars' !! d = Some a /\ subfunctions c (ab_order A) F Gs /\
    diagram_node_count c a s' = Ok (Z.of_nat (length Gs)) s' /\
    (forall L rt D, ordered_diagram c (ab_order A) L rt F -> (forall z, reach L rt z -> z ∈ D) -> length Gs <= length D) /\
    get_dependency_set c a s' = Ok l s' /\ NoDup l /\ forall i, i ∈ l <-> essential_var c F i.
Proof.
  intros c strict opsem args ks s vars A d x F vars' s' Hc H Hcl HF E Ec.
  destruct (history_winv c opsem strict args _ s vars A Hc H) as [g0 W0].
  assert (Ht : forall rho, valid c rho -> tval c (F rho)).
  { destruct (wi_den_pos c opsem strict g0 s vars A x F W0 HF) as (a&_&D&Pa).
    exact (den_tval c opsem strict g0 s a F (wi_calm _ _ _ _ _ _ _ W0) Pa D). }
  destruct (transform_step c opsem strict g0 s vars A d (fun v => v) x F vars' s' Hc W0 HF Ht E) as (b&->&_&R).
  destruct (R Ec) as [Rb _].
  assert (H' : history c opsem strict args (ks ++ [CTransform d (fun v => v) x]) s' (<[d := b]> vars) (bindf d F A)).
  { eapply H_call; [exact H| |exact E]. by apply (S_transform c opsem strict s d (fun v => v) x F A). }
  destruct (history_query c opsem strict args _ s' _ (bindf d F A) d F Hc H') as (g&a&Ha&C&Hh&EF&Ho&Cl&_); [apply lookup_insert|].
  rewrite lookup_insert in Ha. assert (b = a) as -> by congruence. clear Ha.
  pose proof (reduced_tight c opsem strict g s' a Hc C Hh Rb) as T. cbn in Ho, Cl.
  destruct (node_count_ok c opsem strict g s' C (Cl Hcl) a Hh) as (D&ND&HD&En).
  destruct (dependency_ok c opsem strict g s' Hc C (Cl Hcl) a Hh) as (l&El&NDl&Hll).
  assert (SF : subfunctions c (ab_order A) F (map (nval c s') D)).
  { rewrite <- Ho. eapply subfunctions_ext; [by eapply order_NoDup|by apply fun_eq_sym|].
    by apply (nodes_subfunctions_in c opsem strict g s' Hc C). }
  exists a, (map (nval c s') D), l. split_and!; try done.
  - apply lookup_insert.
  - by rewrite map_length.
  - intros L rt D' OD HD'. rewrite <- Ho in *.
    apply (ordered_size c (s_l2i s') (order_NoDup c opsem strict g s' C) (order_elem c opsem strict g s' C) L rt F OD _ D' SF HD').
  - intros i. rewrite Hll, (occurs_essential_in c opsem strict g s' Hc C a i T Hh).
    unfold essential_var. split; intros (Hi&rho&k&k'&Hv&Hk&Hk'&Hne); (split; [done|]); exists rho, k, k'; split_and!; try done.
    + rewrite !EF by (by apply upd_valid). done.
    + rewrite <- !EF by (by apply upd_valid). done.
Qed.

(** ** Programs of vectors, reorderings and reduces *)

(** three Boolean variables; the values of the functions are not restricted *)
Definition cx : cfg := Cfg [2; 2; 2] None (fun p => N.pos p * 64)%N true false.
Definition px : cargs := CArgs [0; 1; 2]%Z 2000 1000 64 [10; 10; 10]%Z (fun n => n / 5)%Z (fun n => n).

Lemma cx_wf : wf_cfg cx.
Proof.
  constructor.
  - intros i Hi. do 3 (destruct i as [|i]; [vm_compute; lia|]). vm_compute in Hi. lia.
  - done.
  - intros i Hi. do 3 (destruct i as [|i]; [by vm_compute|]). vm_compute in Hi. lia.
Qed.

Lemma px_ok : cargs_ok cx true px.
Proof.
  constructor; [unfold is_order; done|done|done|done|].
  intros _. split; [done|]. simpl. intros n Hn. apply Z.div_le_lower_bound; lia.
Qed.

(** calls with vectors of eight small values and reduces of the objects [xs] *)
Definition plain_call (xs : list nat) (k : call) : Prop :=
  match k with
  | CVec _ vs => length vs = 8 /\ forallb (fun v => (0 <=? v)%Z && (v <? 1000)%Z) vs = true
  | CReorder => True
  | _ => exists d x, k = CTransform d (fun v => v) x /\ x ∈ xs
  end.

Lemma cx_order opsem g s vars A : winv cx opsem true g s vars A -> prodl cx (ab_order A) = 8.
Proof.
  intros W. pose proof (wi_calm _ _ _ _ _ _ _ W) as C. rewrite <- (wi_order _ _ _ _ _ _ _ W).
  pose proof (order_NoDup cx opsem true g s C) as ND. pose proof (order_elem cx opsem true g s C) as El.
  assert (Hl : length (s_l2i s) = 3).
  { rewrite (Permutation_length (l' := seq 0 3)); [done|]. apply NoDup_Permutation; [done|apply NoDup_seq|].
    intros i. rewrite El, elem_of_seq. change (nvars cx) with 3. lia. }
  assert (Hd : forall i, i ∈ s_l2i s -> dom cx i = 2).
  { intros i Hi%El. change (nvars cx) with 3 in Hi. do 3 (destruct i as [|i]; [done|]). lia. }
  destruct (s_l2i s) as [|i [|j [|k [|]]]]; try done. simpl. rewrite !Hd by set_solver. done.
Qed.

Lemma plain_spec opsem args ks s vars A k xs : history cx opsem true args ks s vars A ->
  plain_call xs k -> (forall x, x ∈ xs -> exists F, ab A !! x = Some F) ->
  exists A', spec cx opsem true s k A A' /\ forall y, y ∈ touched k -> exists F, ab A' !! y = Some F.
Proof.
  intros H Hk Hx. destruct (history_winv cx opsem true args ks s vars A cx_wf H) as [g W].
  assert (Ht : forall d x, x ∈ xs -> exists A', spec cx opsem true s (CTransform d (fun v => v) x) A A' /\
    forall y, y ∈ [d] -> exists F, ab A' !! y = Some F).
  { intros d x Hin. destruct (Hx x Hin) as [F HF]. eexists. split; [eapply S_transform; [exact HF|]|intros y ->%elem_of_list_singleton; simpl; rewrite lookup_insert; eauto].
    destruct (wi_den_pos cx opsem true g s vars A x F W HF) as (a&_&D&Pa).
    exact (den_tval cx opsem true g s a F (wi_calm _ _ _ _ _ _ _ W) Pa D). }
  destruct k; try (destruct Hk as (?&?&?&?); simplify_eq; by apply Ht).
  - destruct Hk as [Hl Hv]. eexists. split.
    + apply S_vec; [by rewrite Hl, (cx_order opsem g s vars A W)|].
      apply Forall_forall. intros v Hin. rewrite forallb_forall in Hv. specialize (Hv v (proj1 (elem_of_list_In _ _) Hin)).
      apply andb_true_iff in Hv as [H1%Z.leb_le H2%Z.ltb_lt]. left. split; [|done]. unfold Nondet. lia.
    + intros y ->%elem_of_list_singleton. simpl. rewrite lookup_insert. eauto.
  - eexists. split; [constructor|]. simpl. set_solver.
Qed.

(** such a program has a history, and the objects it does not assign keep their functions *)
Lemma plain_run opsem args ks' xs : forall ks s vars A vars' s',
  history cx opsem true args ks s vars A ->
  (forall x, x ∈ xs -> exists F, ab A !! x = Some F) ->
  (forall k, k ∈ ks' -> plain_call xs k /\ forall x, x ∈ xs -> x ∉ touched k) ->
  run cx ks' vars s = Ok vars' s' ->
  exists A', history cx opsem true args (ks ++ ks') s' vars' A' /\
    (forall y, (forall k, k ∈ ks' -> y ∉ touched k) -> ab A' !! y = ab A !! y) /\
    forall y, (exists F, ab A !! y = Some F) \/ (exists k, k ∈ ks' /\ y ∈ touched k) -> exists F, ab A' !! y = Some F.
Proof.
  induction ks' as [|k ks' IH]; intros ks s vars A vars' s' H Hx Hk E.
  { cbn in E. injection E as E1 E2. subst vars' s'. exists A. rewrite app_nil_r. split_and!; try done.
    intros y [?|(?&?&_)]; [done|]. set_solver. }
  cbn [run] in E. unfold bind in E. destruct (exec cx k vars s) as [vars1 s1| |] eqn:E1; [|discriminate..].
  destruct (Hk k ltac:(set_solver)) as [Hp Hn].
  destruct (plain_spec opsem args ks s vars A k xs H Hp Hx) as (A1&S1&D1).
  assert (H1 : history cx opsem true args (ks ++ [k]) s1 vars1 A1) by (by eapply H_call).
  assert (Hs : forall y, (exists F, ab A !! y = Some F) \/ y ∈ touched k -> exists F, ab A1 !! y = Some F).
  { intros y Hy. destruct (decide (y ∈ touched k)) as [Hin|Hin]; [auto|].
    rewrite (spec_untouched cx opsem true s k A A1 y S1 Hin). by destruct Hy. }
  destruct (IH (ks ++ [k]) s1 vars1 A1 vars' s' H1) as (A'&H2&O&D); [|set_solver|exact E|].
  { intros x Hin. apply Hs. left. auto. }
  exists A'. split; [by rewrite <- app_assoc in H2|]. split.
  - intros y Hy. rewrite O by set_solver.
    apply (spec_untouched cx opsem true s k A A1 y S1). apply Hy. set_solver.
  - intros y [Hy|(k1&Hk1&Hy)]; apply D.
    + left. apply Hs. by left.
    + apply elem_of_cons in Hk1 as [->|Hk1]; [left; apply Hs; by right|right; eauto].
Qed.

Lemma run_app c ks1 ks2 : forall vars s, run c (ks1 ++ ks2) vars s =
  match run c ks1 vars s with Ok v1 s1 => run c ks2 v1 s1 | Err e => Err e | Fuel => Fuel end.
Proof.
  induction ks1 as [|k ks1 IH]; intros vars s; [done|]. cbn [run app]. unfold bind.
  destruct (exec c k vars s); [apply IH|done|done].
Qed.

Lemma plain_new opsem ks vars s : (forall k, k ∈ ks -> plain_call [] k) -> outcome cx px ks = Ok vars s ->
  exists A, history cx opsem true px ks s vars A /\ forall y k, k ∈ ks -> y ∈ touched k -> exists F, ab A !! y = Some F.
Proof.
  intros Hk E. unfold outcome in E. destruct (new_manager cx px no_state) as [[] s0| |] eqn:En; [|discriminate..].
  destruct (plain_run opsem px ks [] [] s0 ∅ (no_objects px) vars s) as (A&H&_&D); [|set_solver|set_solver|exact E|].
  { eapply H_new; [exact px_ok|exact En]. }
  exists A. split; [exact H|]. intros y k Hin Hy. apply D. right. eauto.
Qed.

(** ** The program *)

Definition vecs (f : Z -> list Z) (l : list nat) : list call := map (fun k => CVec k (f (Z.of_nat k))) l.

(** x2 in the order 0, 1, 2 and in the order 1, 2, 0; functions for which sifting
    prefers another order *)
Definition cx_prog : list call :=
  [CVec 0 [0; 1; 0; 1; 0; 1; 0; 1]%Z; CReorder] ++ vecs (fun k => [0; k; 1; k; 0; k; 1; k]%Z) [10; 11] ++
  [CReorder; CVec 2 [0; 0; 1; 1; 0; 0; 1; 1]%Z] ++ vecs (fun k => [0; 0; k; k; 1; 1; k; k]%Z) [16; 17; 18; 19] ++ [CReorder].

Definition plain_call_b (k : call) : bool :=
  match k with
  | CVec _ vs => Nat.eqb (length vs) 8 && forallb (fun v => (0 <=? v)%Z && (v <? 1000)%Z) vs
  | CReorder => true
  | _ => false
  end.

Lemma plain_check xs ks : forallb plain_call_b ks = true -> forall k, k ∈ ks -> plain_call xs k.
Proof.
  intros H k Hk. rewrite forallb_forall in H. specialize (H k (proj1 (elem_of_list_In _ _) Hk)).
  destruct k; try discriminate; [|done]. apply andb_true_iff in H as [H1%Nat.eqb_eq H2]. done.
Qed.

(** two copies of x2 that are different objects; reduce makes them equal, and
    keeps them different from another function *)
Definition cx_reduces : list (nat * nat) := [(50, 0); (51, 2); (52, 10)].

Definition caps_eqb (s s' : st) : bool := bool_decide (map t_cap (s_tabs s') = map t_cap (s_tabs s)).

Example C72_case : exists vars s A vars' s' F G H,
  history cx (fun _ => None) true px cx_prog s vars A /\
  ab A !! 0 = Some F /\ ab A !! 2 = Some G /\ ab A !! 10 = Some H /\ equals vars 0 2 = false /\
  run cx (reduce_calls cx_reduces) vars s = Ok vars' s' /\ map t_cap (s_tabs s') = map t_cap (s_tabs s) /\
  equals vars' 50 51 = true /\ equals vars' 50 52 = false /\
  (forall rho, valid cx rho -> F rho = G rho) /\ ~ (forall rho, valid cx rho -> F rho = H rho).
Proof.
  destruct (outcome_ok (outcome cx px cx_prog) (fun v s => equals v 0 2 = false /\
    match run cx (reduce_calls cx_reduces) v s with
    | Ok v' s' => caps_eqb s s' = true /\ equals v' 50 51 = true /\ equals v' 50 52 = false
    | _ => False end)) as (vars&s&E&H1&H2); [by vm_compute|].
  destruct (outcome_ok (run cx (reduce_calls cx_reduces) vars s) (fun v' s' =>
    caps_eqb s s' = true /\ equals v' 50 51 = true /\ equals v' 50 52 = false)) as (vars'&s'&E'&Hc&Q1&Q2); [exact H2|]. clear H2.
  destruct (plain_new (fun _ => None) cx_prog vars s) as (A&HA&D); [apply plain_check; by vm_compute|exact E|]. clear E.
  apply bool_decide_eq_true in Hc.
  destruct (D 0 (CVec 0 [0; 1; 0; 1; 0; 1; 0; 1]%Z)) as [F HF]; [apply elem_of_list_In; simpl; tauto|set_solver|].
  destruct (D 2 (CVec 2 [0; 0; 1; 1; 0; 0; 1; 1]%Z)) as [G HG]; [apply elem_of_list_In; simpl; tauto|set_solver|].
  destruct (D 10 (CVec 10 [0; 10; 1; 10; 0; 10; 1; 10]%Z)) as [H HH]; [apply elem_of_list_In; simpl; tauto|set_solver|].
  assert (X : forall d e x y K J, (d, x) ∈ cx_reduces -> (e, y) ∈ cx_reduces -> ab A !! x = Some K -> ab A !! y = Some J ->
    equals vars' d e = true <-> forall rho, valid cx rho -> K rho = J rho).
  { intros d e x y K J Hd He HK HJ.
    apply (C72_reduce_canonical cx true (fun _ => None) px cx_prog s vars A cx_reduces vars' s' d e x y K J cx_wf HA).
    - repeat constructor; set_solver.
    - intros q Hq. unfold cx_reduces in *. split; [|cbn [map fst]; set_solver].
      repeat (apply elem_of_cons in Hq as [->|Hq]; [cbn [snd]; eauto|]). set_solver.
    - exact E'.
    - exact Hc.
    - exact Hd.
    - exact He.
    - exact HK.
    - exact HJ. }
  exists vars, s, A, vars', s', F, G, H. split; [exact HA|]. split; [exact HF|]. split; [exact HG|]. split; [exact HH|].
  split; [exact H1|]. split; [exact E'|]. split; [exact Hc|]. split; [exact Q1|]. split; [exact Q2|].
  clear H1 E' Hc HA D. unfold cx_reduces in X. split.
  - apply (X 50 51 0 2 F G); [set_solver|set_solver|exact HF|exact HG|exact Q1].
  - intros Eq. apply (X 50 52 0 10 F H) in Eq; [congruence|set_solver|set_solver|exact HF|exact HH].
Qed.

(** ** C72: not exact when a table grows in between *)

(** the object 0 is reduced twice; between the calls only vectors are built *)
Definition cx_mid : list call :=
  map (fun k => CVec (100 + k) (replicate 4 (Z.of_nat k / 22)%Z ++ replicate 4 (Z.of_nat k mod 22)%Z)) (seq 22 450).

Lemma reduce_hist c opsem strict args ks s vars A d x F vars' s' : wf_cfg c ->
  history c opsem strict args ks s vars A -> ab A !! x = Some F ->
  exec c (CTransform d (fun v => v) x) vars s = Ok vars' s' ->
  history c opsem strict args (ks ++ [CTransform d (fun v => v) x]) s' vars' (bindf d F A).
Proof.
  intros Hc H HF E. destruct (history_winv c opsem strict args ks s vars A Hc H) as [g W].
  eapply H_call; [exact H| |exact E]. apply (S_transform c opsem strict s d (fun v => v) x F A HF).
  destruct (wi_den_pos c opsem strict g s vars A x F W HF) as (a&_&D&Pa).
  exact (den_tval c opsem strict g s a F (wi_calm _ _ _ _ _ _ _ W) Pa D).
Qed.

(** an object that is reduced twice *)
Lemma reduced_twice prog mid x d e vars s :
  (forall k, k ∈ prog -> plain_call [] k) -> (exists k, k ∈ prog /\ x ∈ touched k) ->
  (forall k, k ∈ mid -> plain_call [] k) -> (forall k, k ∈ mid -> exists z vs, k = CVec z vs /\ z <> x /\ z <> d) ->
  d <> x -> e <> d ->
  outcome cx px (prog ++ [CTransform d (fun v => v) x] ++ mid ++ [CTransform e (fun v => v) x]) = Ok vars s ->
  exists A F, history cx (fun _ => None) true px
    (prog ++ [CTransform d (fun v => v) x] ++ mid ++ [CTransform e (fun v => v) x]) s vars A /\
    ab A !! d = Some F /\ ab A !! e = Some F.
Proof.
  intros Hp (k0&Hk0&Hx0) Hmp Hmid Hdx Hed E.
  assert (Hmt : forall y k, y = x \/ y = d -> k ∈ mid -> y ∉ touched k).
  { intros y k Hy Hk. destruct (Hmid k Hk) as (z&vs&->&Z1&Z2). simpl. intros ->%elem_of_list_singleton. naive_solver. }
  unfold outcome in E. destruct (new_manager cx px no_state) as [[] s0| |] eqn:En; [|discriminate..].
  rewrite run_app in E. destruct (run cx prog ∅ s0) as [v1 s1| |] eqn:E1; [|discriminate..].
  assert (Ho : outcome cx px prog = Ok v1 s1) by (unfold outcome; rewrite En; exact E1).
  destruct (plain_new (fun _ => None) prog v1 s1 Hp Ho) as (A1&HA1&D). clear E1 En Ho.
  destruct (D x k0 Hk0 Hx0) as [F HF]. clear D.
  rewrite run_app in E. cbn [run] in E. unfold bind in E.
  destruct (exec cx (CTransform d (fun v => v) x) v1 s1) as [v2 s2| |] eqn:E2; [|discriminate..]. cbn [ret] in E.
  pose proof (reduce_hist cx _ true px prog s1 v1 A1 d x F v2 s2 cx_wf HA1 HF E2) as HA2. clear E2.
  rewrite run_app in E. destruct (run cx mid v2 s2) as [v3 s3| |] eqn:E3; [|discriminate..].
  destruct (plain_run (fun _ => None) px mid [] _ s2 v2 _ v3 s3 HA2) as (A3&HA3&O&_);
    [intros y Hy; by apply elem_of_nil in Hy|intros k Hk; split; [by apply Hmp|intros y Hy; by apply elem_of_nil in Hy]|exact E3|].
  clear E3. cbn [run] in E. unfold bind in E.
  destruct (exec cx (CTransform e (fun v => v) x) v3 s3) as [v4 s4| |] eqn:E4; [|discriminate..].
  injection E as E5 E6. subst v4 s4.
  assert (HF0 : ab A3 !! x = Some F).
  { rewrite O by (intros k; apply Hmt; by left). simpl. by rewrite lookup_insert_ne. }
  assert (HF50 : ab A3 !! d = Some F).
  { rewrite O by (intros k; apply Hmt; by right). simpl. by rewrite lookup_insert. }
  pose proof (reduce_hist cx _ true px _ s3 v3 A3 e x F vars s cx_wf HA3 HF0 E4) as HA4.
  exists (bindf e F A3), F. split; [by rewrite <- !app_assoc in HA4|].
  split; [simpl; by rewrite lookup_insert_ne|simpl; by rewrite lookup_insert].
Qed.

Theorem C72_reduce_refuted : exists c opsem args ks mid x d e s vars A F,
  wf_cfg c /\
  history c opsem true args (ks ++ [CTransform d (fun v => v) x] ++ mid ++ [CTransform e (fun v => v) x]) s vars A /\
  (forall k, k ∈ mid -> exists z vs, k = CVec z vs /\ z <> x /\ z <> d) /\
  ab A !! d = Some F /\ ab A !! e = Some F /\ equals vars d e = false.
Proof.
  assert (Hmid : forall k, k ∈ cx_mid -> exists z vs, k = CVec z vs /\ z <> 0 /\ z <> 50).
  { unfold cx_mid. intros k (n&->&_)%elem_of_list_fmap. eexists _, _. split; [reflexivity|]. lia. }
  assert (Hmp : forall k, k ∈ cx_mid -> plain_call [] k) by (apply plain_check; vm_compute; reflexivity).
  assert (Hp : forall k, k ∈ cx_prog -> plain_call [] k) by (apply plain_check; vm_compute; reflexivity).
  assert (Hx : exists k, k ∈ cx_prog /\ 0 ∈ touched k).
  { eexists. split; [apply elem_of_list_here|apply elem_of_list_here]. }
  destruct (outcome_ok (outcome cx px (cx_prog ++ [CTransform 50 (fun v => v) 0] ++ cx_mid ++ [CTransform 52 (fun v => v) 0]))
    (fun v s => equals v 50 52 = false)) as (vars&s&E&H1); [vm_compute; reflexivity|].
  destruct (reduced_twice cx_prog cx_mid 0 50 52 vars s Hp Hx Hmp Hmid ltac:(discriminate) ltac:(discriminate) E) as (A&F&HA&H50&H52).
  exists cx, (fun _ => None), px, cx_prog, cx_mid, 0, 50, 52, s, vars, A, F.
  split; [exact cx_wf|]. split; [exact HA|]. split; [exact Hmid|]. split; [exact H50|]. split; [exact H52|exact H1].
Qed.

Print Assumptions C72_reduce_canonical.
Print Assumptions C72_reduce_minimal.
Print Assumptions C72_reduce_refuted.
