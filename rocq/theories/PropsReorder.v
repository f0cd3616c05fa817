(** * Properties of reordering and sorting: C22, C23, C25, C36, C37, C54 *)

From stdpp Require Import gmap list.
From Coq Require Import ZArith Lia.
From Verif Require Import Base Ops Tables NodeManager Tools Sift DiagramManager World.
From Verif Require Import Heap Inv InvLemmas Prim TabLemmas GC Make Build Apply Api Constr Expr VecSpec Vec Eval Fold.
From Verif Require Import SortProof SwapProof SwapNode SwapVar SiftProof.
From Verif Require Import OpSpec OpProof WorldSpec WorldProof Ctor History PropsBase Chain Examples Refuted PropsCore PropsCore2.

Local Open Scope nat_scope.

Lemma exec_reorder c vars s : exec c CReorder vars s =
  match force_reorder c s with Ok _ s' => Ok vars s' | Err e => Err e | Fuel => Fuel end.
Proof. reflexivity. Qed.

Lemma exec_reorder_ok c vars s vars' s' : exec c CReorder vars s = Ok vars' s' ->
  vars' = vars /\ force_reorder c s = Ok tt s'.
Proof. rewrite exec_reorder. destruct (force_reorder c s) as [[] ?| |]; [|discriminate..]. intros E. by injection E as -> ->. Qed.

(** ** C22: every object keeps its node and its function *)
Theorem C22_reorder_preserves : forall c strict opsem args ks s vars A,
  wf_cfg c -> history c opsem strict args ks s vars A ->
  match exec c CReorder vars s with
  | Ok vars' s' => vars' = vars /\
      (forall d a F, vars !! d = Some a -> computes c s a F -> computes c s' a F) /\
      Permutation (s_l2i s') (s_l2i s)
  | Err e => e = ERefOver \/ (strict = false /\ e = EPool)
  | Fuel => False
  end.
Proof.
  intros c strict opsem args ks s vars A Hc H.
  destruct (history_winv _ _ _ _ _ _ _ _ Hc H) as [g W].
  pose proof (wi_calm _ _ _ _ _ _ _ W) as C.
  assert (Hdom : forall i, i < nvars c -> 0 < dom c i) by (intros i Hi; apply (wc_dom _ Hc i Hi)).
  assert (SF : sifting c opsem strict g s) by (constructor; apply C).
  pose proof (sift_variables_spec c opsem strict Hdom g s SF (proj1 (wi_idle _ _ _ _ _ _ _ W)) (proj2 (wi_idle _ _ _ _ _ _ _ W))) as V.
  rewrite exec_reorder. unfold force_reorder. unfold wp in V. destruct (sift_variables c s) as [[] s'|e|]; [|exact V|exact V].
  destruct V as [g' V]. split; [reflexivity|].
  assert (C' : calm c opsem strict g' s').
  { constructor; apply V. }
  split.
  - intros d a F Ha HF. pose proof (wi_pos _ _ _ _ _ _ _ _ _ W Ha) as P.
    destruct (den_ex c opsem strict g s a C P) as [G D].
    pose proof (den_computes c opsem strict g s a G C P D) as HG.
    assert (D' : den c s' a G).
    { intros rho Hv. apply (vs_funs _ _ _ _ _ _ _ V); [done|done|]. by apply D. }
    pose proof (den_computes c opsem strict g' s' a G C') as HG'.
    rewrite (vs_ext _ _ _ _ _ _ _ V) in HG'. specialize (HG' P D').
    intros vals Hv. rewrite (HG' vals Hv). specialize (HG vals Hv). rewrite (HF vals Hv) in HG. injection HG as HG. rewrite HG. reflexivity.
  - apply NoDup_Permutation.
    + eapply perm_l2i_NoDup, ord_perm, (vs_ord _ _ _ _ _ _ _ V).
    + eapply perm_l2i_NoDup, ord_perm, C.
    + intros i. rewrite (perm_elem c s i) by (eapply ord_perm, C).
      apply (perm_elem c s' i). eapply ord_perm, (vs_ord _ _ _ _ _ _ _ V).
Qed.

Lemma run_three c k1 k2 k3 vars s : run c [k1; k2; k3] vars s =
  match exec c k1 vars s with
  | Ok v1 s1 => match exec c k2 v1 s1 with Ok v2 s2 => exec c k3 v2 s2 | Err e => Err e | Fuel => Fuel end
  | Err e => Err e | Fuel => Fuel end.
Proof.
  simpl. unfold bind. destruct (exec c k1 vars s) as [v1 s1| |]; [|done..].
  destruct (exec c k2 v1 s1) as [v2 s2| |]; [|done..]. by destruct (exec c k3 v2 s2).
Qed.

Local Opaque exec run new_manager force_reorder evaluate.

(** six diagrams over variables with domains 2, 3, 2: sifting changes the order *)
Example C22_case : exists vars' s' a, exec ex_cfg CReorder ex_vars ex_st = Ok vars' s' /\
  s_l2i ex_st = [2; 0; 1] /\ s_l2i s' = [2; 1; 0] /\ vars' !! 6 = Some a /\ computes ex_cfg s' a exF6.
Proof.
  destruct (outcome_ok (exec ex_cfg CReorder ex_vars ex_st)
    (fun _ s' => s_l2i ex_st = [2; 0; 1] /\ s_l2i s' = [2; 1; 0])) as (v&s&E&H1&H2); [by vm_compute|].
  pose proof (C22_reorder_preserves _ _ _ _ _ _ _ _ ex_wf ex_history) as P.
  rewrite E in P. destruct P as (->&P&_). clear -E H1 H2 P.
  destruct (history_value _ _ _ _ _ _ _ _ 6 exF6 ex_wf ex_history eq_refl) as (a&Ha&V).
  exists ex_vars, s, a. split; [exact E|]. split; [exact H1|]. split; [exact H2|]. split; [exact Ha|].
  exact (P 6 a exF6 Ha V).
Qed.

(** ** C23 is stated in PropsCore2 for all histories; this one reorders, and goes on *)
Definition ex_abs_r (s : st) : astate := AState (ab ex_abs) (s_l2i s) false false (ab_clean ex_abs).

Lemma ex_history_r : exists s, exec ex_cfg CReorder ex_vars ex_st = Ok ex_vars s /\ s_l2i s = [2; 1; 0] /\
  history ex_cfg ex_ops true ex_args (ex_prog ++ [CReorder]) s ex_vars (ex_abs_r s).
Proof.
  destruct (outcome_ok (exec ex_cfg CReorder ex_vars ex_st)
    (fun _ s' => s_l2i s' = [2; 1; 0])) as (v&s&E&H1); [by vm_compute|].
  pose proof (C22_reorder_preserves _ _ _ _ _ _ _ _ ex_wf ex_history) as P. rewrite E in P. destruct P as (->&_).
  exists s. split; [exact E|]. split; [exact H1|].
  eapply H_call; [exact ex_history| |exact E].
  pose proof (S_reorder ex_cfg ex_ops true ex_st ex_abs) as Sp.
  destruct (exec_reorder_ok _ _ _ _ _ E) as [_ Ef]. rewrite Ef in Sp. exact Sp.
Qed.

Example C23_reorder_case : exists s, exec ex_cfg CReorder ex_vars ex_st = Ok ex_vars s /\
  s_l2i s = [2; 1; 0] /\ forall l i, s_l2i s !! l = Some i <-> s_i2l s !! i = Some l.
Proof.
  destruct ex_history_r as (s&E&L&H). exists s. split; [exact E|]. split; [exact L|].
  apply (C23_order_permutation _ _ _ _ _ _ _ _ ex_wf H).
Qed.

(** ** C25: what does hold; clearing the cache after the reordering is enough *)
Theorem C25_clear_cache_suffices : forall c strict b p m args ks s vars A d o x y F G vars1 s1 vars2 s2 vars' s',
  wf_cfg c -> history c (ops_with b p m) strict args ks s vars A ->
  exec c CReorder vars s = Ok vars1 s1 -> exec c CClearCache vars1 s1 = Ok vars2 s2 ->
  op_allowed b p m (plain_op c o) -> (c_trap c = true -> op_arith o = false) ->
  ab A !! x = Some F -> ab A !! y = Some G ->
  (forall rho, valid c rho -> op_applicable c o (F rho) (G rho)) ->
  exec c (CApply d o x y) vars2 s2 = Ok vars' s' ->
  exists a, vars' !! d = Some a /\ computes c s' a (fun rho => op_math o (F rho) (G rho)).
Proof.
  intros c strict b p m args ks s vars A d o x y F G vars1 s1 vars2 s2 vars' s' Hc H E1 E2 Hop Ht HF HG Ha E3.
  pose proof (S_reorder c (ops_with b p m) strict s A) as Sp.
  pose proof (H_call _ _ _ _ _ _ _ _ _ _ _ _ H Sp E1) as H1. clear Sp.
  match type of H1 with history _ _ _ _ _ _ _ ?A1 => set (A1' := A1) in H1 end.
  pose proof (H_call _ _ _ _ _ _ _ _ _ _ _ _ H1 (S_clear c (ops_with b p m) strict s1 A1') E2) as H2.
  refine (C01_apply_pointwise _ _ _ _ _ _ _ _ _ _ d o x y F G _ _ Hc H2 _ Hop Ht _ _ Ha E3); [reflexivity|exact HF|exact HG].
Qed.

Example C25_clear_case : exists vars1 s1 vars2 s2 vars' s' a,
  exec ex_cfg CReorder ex_vars ex_st = Ok vars1 s1 /\ exec ex_cfg CClearCache vars1 s1 = Ok vars2 s2 /\
  exec ex_cfg (CApply 9 MAX 4 6) vars2 s2 = Ok vars' s' /\ vars' !! 9 = Some a /\
  computes ex_cfg s' a (fun rho => Z.max (exF4 rho) (exF6 rho)).
Proof.
  assert (X : is_ok (run ex_cfg [CReorder; CClearCache; CApply 9 MAX 4 6] ex_vars ex_st) = true) by (by vm_compute).
  rewrite run_three in X.
  destruct (exec ex_cfg CReorder ex_vars ex_st) as [vars1 s1| |] eqn:E1; [|discriminate X..].
  destruct (exec ex_cfg CClearCache vars1 s1) as [vars2 s2| |] eqn:E2; [|discriminate X..].
  destruct (exec ex_cfg (CApply 9 MAX 4 6) vars2 s2) as [vars' s'| |] eqn:E3; [|discriminate X..].
  exists vars1, s1, vars2, s2, vars', s'.
  destruct (C25_clear_cache_suffices ex_cfg true 2 4 3 ex_args ex_prog ex_st ex_vars ex_abs 9 MAX 4 6 exF4 exF6 
    vars1 s1 vars2 s2 vars' s' ex_wf ex_history E1 E2) as (a&Ha&V); [done|done|reflexivity|reflexivity| |exact E3|].
  - clear. intros rho Hv. pose proof (exF4_range rho Hv). pose proof (exF6_range rho). split.
    + simpl. unfold ordinary. change Nondet with 2147483646%Z. lia.
    + apply ex_tval. simpl. lia.
  - exists a. split; [reflexivity|]. split; [exact E2|]. split; [exact E3|]. split; [exact Ha|exact V].
Qed.

(** ** C36 *)
Theorem C36_sort_sorts : forall (T : Type) (cmp : T -> T -> bool) (xs : list T), weak_order cmp ->
  exists ys, heapsort cmp xs = Some ys /\ Permutation ys xs /\
    forall i j a b, i < j -> ys !! i = Some a -> ys !! j = Some b -> cmp b a = false.
Proof.
  intros T cmp xs WO. destruct (heapsort_perm cmp xs) as (ys&E&P). exists ys.
  split; [done|]. split; [done|]. by eapply heapsort_sorted.
Qed.

(** pairs ordered by their second component only: a weak, not a total order *)
Example C36_case : weak_order (fun x y : nat * Z => (snd y <? snd x)%Z) /\
  heapsort (fun x y : nat * Z => (snd y <? snd x)%Z) [(0, 3%Z); (1, 7%Z); (2, 3%Z); (3, 9%Z); (4, 7%Z)]
  = Some [(3, 9%Z); (4, 7%Z); (1, 7%Z); (2, 3%Z); (0, 3%Z)].
Proof.
  split; [|by vm_compute].
  constructor; intros; repeat match goal with
      | H : (_ <? _)%Z = true |- _ => apply Z.ltb_lt in H
      | H : (_ <? _)%Z = false |- _ => apply Z.ltb_ge in H end; apply Z.ltb_ge; lia.
Qed.

(** a comparator that is not a weak order still leads to a permutation *)
Theorem C36_sort_any_comparator : forall (T : Type) (cmp : T -> T -> bool) (xs : list T),
  exists ys, heapsort cmp xs = Some ys /\ Permutation ys xs.
Proof. intros. apply heapsort_perm. Qed.

Example C36_any_case : heapsort (fun _ _ : nat => true) [4; 2; 3; 7] = Some [2; 7; 4; 3].
Proof. by vm_compute. Qed.

(** ** C37: the variable ends at a level where the number of nodes was minimal *)

(** [walk c i s seen t]: moving the variable [i] up or down, one level at a time,
    leads from [s] to [t] through the states [seen] *)
Inductive walk (c : cfg) (i : nat) (s : st) : list st -> st -> Prop :=
| W_here : walk c i s [s] s
| W_move seen t t' : walk c i s seen t ->
    swap_variable_with_next c i t = Ok tt t' \/
    (exists l j, s_i2l t !! i = Some (S l) /\ s_l2i t !! l = Some j /\ swap_variable_with_next c j t = Ok tt t') ->
    walk c i s (seen ++ [t']) t'.

Section argmin.
Context (c : cfg) (opsem : Z -> option (Z -> Z -> Z)) (strict : bool).
Context (Hdom : forall i, i < nvars c -> 0 < dom c i).
Notation sifting := (sifting c opsem strict).
Notation vstep := (vstep c opsem strict).
Notation allowed := (allowed strict).
Notation walk := (walk c).

Lemma wp_eqn {T} ok (m : M T) (Q : T -> st -> Prop) s : wp ok m Q s -> wp ok m (fun r s' => m s = Ok r s' /\ Q r s') s.
Proof. unfold wp. destruct (m s); auto. Qed.

(** [best] was seen, and nothing better was *)
Definition best_of (i : nat) (seen : list st) (best : nat * Z) : Prop :=
  (exists t, t ∈ seen /\ s_i2l t !! i = Some (fst best) /\ s_count t = snd best) /\
  (forall t, t ∈ seen -> (snd best <= s_count t)%Z) /\ fst best < nvars c.

Definition covers (i lo hi : nat) (seen : list st) : Prop :=
  forall l, lo <= l <= hi -> exists t, t ∈ seen /\ s_i2l t !! i = Some l.

Lemma best_of_snoc i seen best t l : best_of i seen best -> s_i2l t !! i = Some l -> l < nvars c ->
  best_of i (seen ++ [t]) (if (s_count t <? snd best)%Z then (l, s_count t) else best).
Proof.
  intros ((b&Hb&Hl&Hc)&M&Hn) Ht Hl'. destruct (Z.ltb_spec (s_count t) (snd best)); split; [|split; [|done]| |split; [|done]].
  - exists t. split; [set_solver|done].
  - intros u Hu. apply elem_of_app in Hu as [Hu|Hu]; [specialize (M u Hu); simpl; lia|].
    apply elem_of_list_singleton in Hu as ->. simpl. lia.
  - exists b. split; [set_solver|done].
  - intros u Hu. apply elem_of_app in Hu as [Hu|Hu]; [by apply M|]. apply elem_of_list_singleton in Hu as ->. lia.
Qed.

Lemma move_down_walk g s i l s0 seen : sifting g s -> s_i2l s !! i = Some l -> S l < nvars c -> walk i s0 seen s ->
  wp allowed (move_var_down c i) (fun _ s' => (exists g', vstep g g' s s') /\ s_i2l s' !! i = Some (S l) /\
    walk i s0 (seen ++ [s']) s') s.
Proof.
  intros SF Hi Hl Wk. eapply wp_mono; [apply wp_eqn, (move_var_down_spec c opsem strict Hdom g s i l SF Hi Hl)|].
  intros [] s' (E&g'&V&Hi'). split; [by exists g'|]. split; [done|]. apply (W_move c i s0 seen s s' Wk). left. exact E.
Qed.

Lemma move_up_walk g s i l s0 seen : sifting g s -> s_i2l s !! i = Some (S l) -> walk i s0 seen s ->
  wp allowed (move_var_up c i) (fun _ s' => (exists g', vstep g g' s s') /\ s_i2l s' !! i = Some l /\
    walk i s0 (seen ++ [s']) s') s.
Proof.
  intros SF Hi Wk. eapply wp_mono; [apply wp_eqn, (move_var_up_spec c opsem strict Hdom g s i l SF Hi)|].
  intros [] s' (E&g'&V&Hi'). split; [by exists g'|]. split; [done|]. apply (W_move c i s0 seen s s' Wk). right.
  pose proof (sf_i2l c opsem strict _ _ _ _ SF Hi) as [Hin Hl].
  destruct (perm_l2i_ex c s l) as (y&Hy&Hyn); [apply SF|lia|]. exists l, y. split; [done|]. split; [done|].
  unfold move_var_up, level_of_index, index_at, bind in E. rewrite Hi in E. simpl in E. rewrite Hy in E. exact E.
Qed.

Lemma sift_down_best i s0 : forall fuel g s seen cur best,
  sifting g s -> s_i2l s !! i = Some cur -> nvars c - 1 - cur <= fuel ->
  walk i s0 seen s -> best_of i seen best ->
  wp allowed (sift_down_loop c fuel i cur best) (fun r s' => exists seen', (exists g', vstep g g' s s') /\
    fst r = nvars c - 1 /\ s_i2l s' !! i = Some (fst r) /\
    walk i s0 seen' s' /\ best_of i seen' (snd r)) s.
Proof.
  induction fuel as [|fuel IH]; intros g s seen cur best SF Hi Hf Wk B;
    pose proof (sf_i2l c opsem strict _ _ _ _ SF Hi) as [Hin Hcn]; cbn [sift_down_loop];
    destruct (Nat.eqb_spec cur (nvars c - 1)) as [E|E].
  - apply wp_ret. exists seen. split; [by apply (sifting_refl c opsem strict)|]. done.
  - lia.
  - apply wp_ret. exists seen. split; [by apply (sifting_refl c opsem strict)|]. done.
  - apply wp_bind. eapply wp_mono; [apply (move_down_walk g s i cur s0 seen SF Hi); [lia|done]|].
    intros _ s1 ((g1&V1)&Hi1&Wk1). apply wp_bind. unfold note_best. apply wp_bind, wp_gets, wp_ret.
    eapply wp_mono; [apply (IH g1 s1 (seen ++ [s1])); [by eapply vstep_sifting|done|lia|done|apply best_of_snoc; [done|done|lia]]|].
    intros r s2 (seen'&(g2&V2)&?). exists seen'. split; [exists g2; by eapply vstep_trans|done].
Qed.

Lemma sift_up_best i s0 : forall fuel g s seen cur best,
  sifting g s -> s_i2l s !! i = Some cur -> cur <= fuel ->
  walk i s0 seen s -> best_of i seen best -> covers i cur (nvars c - 1) seen ->
  wp allowed (sift_up_loop c fuel i cur best) (fun r s' => exists seen', (exists g', vstep g g' s s') /\
    fst r = 0 /\ s_i2l s' !! i = Some (fst r) /\
    walk i s0 seen' s' /\ best_of i seen' (snd r) /\ covers i 0 (nvars c - 1) seen') s.
Proof.
  induction fuel as [|fuel IH]; intros g s seen cur best SF Hi Hf Wk B Cv; cbn [sift_up_loop];
    destruct (Nat.eqb_spec cur 0) as [E|E].
  - apply wp_ret. exists seen. split; [by apply (sifting_refl c opsem strict)|]. subst. done.
  - lia.
  - apply wp_ret. exists seen. split; [by apply (sifting_refl c opsem strict)|]. subst. done.
  - destruct cur as [|cur]; [done|].
    apply wp_bind. eapply wp_mono; [by apply (move_up_walk g s i cur s0 seen SF Hi)|].
    intros _ s1 ((g1&V1)&Hi1&Wk1). apply wp_bind. unfold note_best. apply wp_bind, wp_gets, wp_ret.
    replace (S cur - 1) with cur by lia.
    eapply wp_mono; [apply (IH g1 s1 (seen ++ [s1])); [by eapply vstep_sifting|done|lia|done|apply best_of_snoc; [done|done|pose proof (sf_i2l c opsem strict _ _ _ _ SF Hi); lia]|]|].
    { intros l Hl. destruct (decide (l = cur)) as [->|]; [exists s1; split; [set_solver|done]|].
      destruct (Cv l) as (t&?&?); [lia|]. exists t. split; [set_solver|done]. }
    intros r s2 (seen'&(g2&V2)&?). exists seen'. split; [exists g2; by eapply vstep_trans|done].
Qed.

Lemma place_variable_best g s i :
  sifting g s -> i < nvars c ->
  wp allowed (place_variable c i) (fun _ s' => exists seen t b, walk i s seen t /\
    covers i 0 (nvars c - 1) seen /\ b ∈ seen /\ (forall t, t ∈ seen -> (s_count b <= s_count t)%Z) /\
    s_i2l s' !! i = s_i2l b !! i) s.
Proof.
  intros SF Hi. destruct (perm_i2l_ex c s i) as (l&Hl&Hln); [apply SF|done|].
  unfold place_variable. apply wp_bind. eapply wp_level_of_index; [exact Hl|].
  apply wp_bind, wp_gets, wp_bind.
  eapply wp_mono; [apply (sift_down_best i s (nvars c) g s [s] l (l, s_count s) SF Hl); [lia|constructor|]|].
  { split; [exists s; split; [set_solver|done]|]. split; [|done]. intros t Ht. apply elem_of_list_singleton in Ht as ->. simpl. lia. }
  intros r s1 (seen1&(g1&V1)&Hr1&Hi1&Wk1&B1). apply wp_bind.
  eapply wp_mono; [apply (sift_up_best i s (nvars c) g1 s1 seen1 (fst r) (snd r)); [by eapply vstep_sifting|done|lia|done|done|]|].
  { intros k Hk. assert (k = fst r) as -> by lia. exists s1. split; [|done]. clear -Wk1. inversion Wk1; set_solver. }
  intros r' s2 (seen2&(g2&V2)&Hr2&Hi2&Wk2&((b&Hb&Hlb&Hcb)&M&Hn)&Cv).
  eapply wp_mono; [apply (restore_loop_spec c opsem strict Hdom i (fst (snd r')) Hn (nvars c) g2 s2 (fst r'));
    [by eapply vstep_sifting|done|lia|lia]|].
  intros _ s3 (g3&_&Hi3). exists seen2, s2, b. split_and!; [done|done|done| |congruence].
  intros t Ht. rewrite Hcb. by apply M.
Qed.
End argmin.

Theorem C37_place_variable_best : forall c strict opsem args ks s vars A i s',
  wf_cfg c -> history c opsem strict args ks s vars A -> i < nvars c -> place_variable c i s = Ok tt s' ->
  exists seen t b, walk c i s seen t /\
    (forall l, l < nvars c -> exists u, u ∈ seen /\ s_i2l u !! i = Some l) /\
    b ∈ seen /\ (forall u, u ∈ seen -> (s_count b <= s_count u)%Z) /\ s_i2l s' !! i = s_i2l b !! i.
Proof.
  intros c strict opsem args ks s vars A i s' Hc H Hi E.
  destruct (history_winv _ _ _ _ _ _ _ _ Hc H) as [g W].
  pose proof (wi_calm _ _ _ _ _ _ _ W) as C.
  assert (Hdom : forall i, i < nvars c -> 0 < dom c i) by (intros j Hj; apply (wc_dom _ Hc j Hj)).
  assert (SF : sifting c opsem strict g s) by (constructor; apply C).
  pose proof (place_variable_best c opsem strict Hdom g s i SF Hi) as P. unfold wp in P. rewrite E in P.
  destruct P as (seen&t&b&Wk&Cv&?). exists seen, t, b. split; [exact Wk|]. split; [|assumption].
  intros l Hl. apply Cv. lia.
Qed.

(** a three-variable function given by its vector, then a collection *)
Definition vec_abs (vs : list Z) : astate := bindf 0 (fun rho => nth (vec_index c3 [0; 1; 2] rho) vs 0%Z) (no_objects args3).

Lemma vec_history vs s vars : length vs = 8 -> Forall (tval c3) vs -> outcome c3 args3 [CVec 0 vs; CGc] = Ok vars s ->
  history c3 ex_ops true args3 [CVec 0 vs; CGc] s vars (vec_abs vs).
Proof.
  intros Hl Hv E. unfold outcome in E. destruct (new_manager c3 args3 no_state) as [[] s0| |] eqn:En; [|discriminate E..].
  eapply chain_new; [by apply pool3_ok|exact En| |exact E].
  eapply Ch_cons; [intros s1; apply S_vec; [exact Hl|exact Hv]|].
  eapply Ch_cons; [intros s1; apply S_gc|]. constructor.
Qed.

Lemma bits_tval n : Forall (tval c3) (bits n).
Proof.
  apply Forall_forall. intros v Hv. apply elem_of_list_fmap in Hv as (k&->&_).
  left. change Nondet with 2147483646%Z. change (c_fixed c3) with (Some 2%Z). destruct (Z.testbit n (Z.of_nat k)); simpl; lia.
Qed.

(** a variable is moved to another level, where there are fewer nodes *)
Example C37_place_case : exists vars s s', history c3 ex_ops true args3 [CVec 0 (bits 19); CGc] s vars (vec_abs (bits 19)) /\
  place_variable c3 1 s = Ok tt s' /\ s_i2l s !! 1 = Some 1 /\ s_i2l s' !! 1 = Some 0 /\
  s_count s = 6%Z /\ s_count s' = 5%Z.
Proof.
  destruct (outcome_ok (outcome c3 args3 [CVec 0 (bits 19); CGc]) (fun v s => match place_variable c3 1 s with
    Ok _ s' => s_i2l s !! 1 = Some 1 /\ s_i2l s' !! 1 = Some 0 /\ s_count s = 6%Z /\ s_count s' = 5%Z | _ => False end))
    as (vars&s&E&H); [by vm_compute|].
  apply vec_history in E; [|done|].
  - destruct (place_variable c3 1 s) as [[] s'| |] eqn:Ep; [|contradiction..].
    exists vars, s, s'. split; [exact E|]. split; [exact Ep|exact H].
  - apply bits_tval.
Qed.

(** every variable is sifted exactly once, those with more nodes first *)
Theorem C37_each_variable_once : forall c strict opsem args ks s vars A l s',
  wf_cfg c -> history c opsem strict args ks s vars A -> determine_sift_order c s = Ok l s' ->
  s' = s /\ Permutation (map fst l) (seq 0 (nvars c)) /\
  (forall i n, (i, n) ∈ l -> exists t, s_tabs s !! i = Some t /\ n = t_size t) /\
  forall p q x y, p < q -> l !! p = Some x -> l !! q = Some y -> (snd y <= snd x)%Z.
Proof.
  intros c strict opsem args ks s vars A l s' Hc H E.
  destruct (history_winv _ _ _ _ _ _ _ _ Hc H) as [g W].
  pose proof (wf_ntabs _ _ _ _ _ (cl_wf _ _ _ _ _ (wi_calm _ _ _ _ _ _ _ W))) as Hn.
  pose proof (determine_sift_order_spec c (fun _ => False) s Hn) as P. unfold wp in P. rewrite E in P.
  destruct P as (->&P&So). split; [done|]. split; [|split; [|done]].
  - rewrite P, map_map. simpl. by rewrite map_id.
  - intros i n Hin. rewrite P in Hin. apply elem_of_list_fmap in Hin as (j&Hj&Hjs). simplify_eq.
    apply elem_of_seq in Hjs. destruct (lookup_lt_is_Some_2 (s_tabs s) j) as [t Ht]; [lia|].
    exists t. by rewrite Ht.
Qed.

Example C37_order_case : exists vars s, history c3 ex_ops true args3 [CVec 0 (bits 19); CGc] s vars (vec_abs (bits 19)) /\
  determine_sift_order c3 s = Ok [(1, 2%Z); (2, 1%Z); (0, 1%Z)] s.
Proof.
  destruct (outcome_ok (outcome c3 args3 [CVec 0 (bits 19); CGc]) (fun v s => match determine_sift_order c3 s with
    Ok l s' => l = [(1, 2%Z); (2, 1%Z); (0, 1%Z)] | _ => False end))
    as (vars&s&E&H); [by vm_compute|].
  apply vec_history in E; [|done|].
  - exists vars, s. split; [exact E|].
    destruct (determine_sift_order c3 s) as [l s'| |] eqn:Eo; [|contradiction..]. rewrite H.
    destruct (C37_each_variable_once _ _ _ _ _ _ _ _ _ _ c3_wf E Eo) as [-> _]. reflexivity.
  - apply bits_tval.
Qed.

(** ** C54: with the Undefined terminal or without, no bad access *)
Theorem C54_reorder_memory_safe : forall c strict opsem args ks s vars A e,
  wf_cfg c -> history c opsem strict args ks s vars A -> exec c CReorder vars s = Err e ->
  e <> EOob /\ e <> EStale /\ e <> ENull /\ e <> EUninit /\ e <> EOverflow.
Proof.
  intros c strict opsem args ks s vars A e Hc H E.
  pose proof (C22_reorder_preserves c strict opsem args ks s vars A Hc H) as P. rewrite E in P.
  by destruct P as [->|[_ ->]].
Qed.

(** the node of the Undefined terminal exists, and loses a reference *)
Definition undef_vec : list Z := [0; Undef; 1; Undef; Undef; 1; 0; 0; 1; 1; 0; Undef]%Z.
Definition undef_refs (s : st) : option N :=
  match s_specs s with Some a :: _ => n_refs <$> (s_heap s !! a) | _ => None end.

Example C54_case : exists s vars A s', history ex_cfg ex_ops true ex_args [CVec 0 undef_vec] s vars A /\
  exec ex_cfg CReorder vars s = Ok vars s' /\ undef_refs s = Some 4%N /\ undef_refs s' = Some 3%N.
Proof.
  destruct (outcome_ok (outcome ex_cfg ex_args [CVec 0 undef_vec]) (fun v s => match exec ex_cfg CReorder v s with
    Ok _ s' => undef_refs s = Some 4%N /\ undef_refs s' = Some 3%N | _ => False end))
    as (vars&s&E&H); [by vm_compute|].
  assert (Hh : exists A, history ex_cfg ex_ops true ex_args [CVec 0 undef_vec] s vars A).
  { clear H. unfold outcome in E. destruct (new_manager ex_cfg ex_args no_state) as [[] s0| |] eqn:En; [|discriminate E..].
    eexists. eapply chain_new; [apply ex_args_ok|exact En| |exact E].
    eapply Ch_cons; [intros s1; apply S_vec; [by vm_compute|]|constructor].
    unfold undef_vec. repeat (constructor; [first [apply ex_tval; lia|right; split; [reflexivity|right; reflexivity]]|]). constructor. }
  destruct Hh as [A Hh]. destruct (exec ex_cfg CReorder vars s) as [v s'| |] eqn:Er; [|contradiction..].
  destruct (exec_reorder_ok _ _ _ _ _ Er) as [-> _].
  exists s, vars, A, s'. split; [exact Hh|]. split; [exact Er|exact H].
Qed.

Print Assumptions C22_reorder_preserves.
Print Assumptions C25_clear_cache_suffices.
Print Assumptions C36_sort_sorts.
Print Assumptions C37_place_variable_best.
Print Assumptions C37_each_variable_once.
Print Assumptions C54_reorder_memory_safe.

Print Assumptions C36_sort_any_comparator.
