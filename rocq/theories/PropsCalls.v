(** * The memoised constructions visit every node once

    [transform_counted], [get_cofactor_counted] and [get_cofactors_counted] are the calls of the
    library together with the number of calls of the recursive function that they make
    (C83_same). *)

From stdpp Require Import gmap list.
From Coq Require Import ZArith Lia.
From Verif Require Import Base Ops Tables NodeManager Tools Sift DiagramManager World Queries Cost Calls.
From Verif Require Import Heap Inv InvLemmas Prim GC Make Build Apply Api Deferred Constr Expr VecSpec Vec Eval Fold.
From Verif Require Import OpSpec OpProof WorldSpec WorldProof Ctor History PropsBase Chain PropsBase2 PropsCore Examples.
From Verif Require Import Trav QuerySpec QueryProof Minimal PropsQuery CostSpec CostProof CallsProof PropsCost.

Local Open Scope nat_scope.
Local Opaque exec run new_manager.

(** without the number of calls they are the functions of the model *)
Theorem C83_same : forall c a s,
  (forall f, forget_calls (transform_counted c f a s) = transform c f a s) /\
  (forall vi vv, forget_calls (get_cofactor_counted c a vi vv s) = get_cofactor c a vi vv s) /\
  (forall vals, forget_calls (get_cofactors_counted c a vals s) = get_cofactors c a vals s).
Proof.
  intros c a s. split; [intros f; apply transform_forget|]. split; [intros vi vv; apply cofactor_forget|].
  intros vals. apply cofactors_forget.
Qed.

(** the internal nodes of a diagram *)
Definition internal_nodes (s : st) (a : positive) (ns : list positive) : Prop :=
  NoDup ns /\ forall x, x ∈ ns <-> reach (live (s_heap s)) a x /\ exists i sons, live (s_heap s) x = Some (Int i sons).
(** the number of edges that leave a node *)
Definition edges (s : st) (x : positive) : nat :=
  match live (s_heap s) x with Some (Int _ sons) => length sons | _ => 0 end.

Lemma Ev_terminal L a rho v : Ev L a rho v -> exists t, reach L a t /\ L t = Some (Term v).
Proof.
  induction 1 as [a rho v E|a rho i sons b v E Hb _ IH]; [exists a; split; [apply reach_refl|done]|].
  destruct IH as (t&R&Et). exists t. split; [|done]. eapply reach_step; [exact E| |exact R]. by eapply elem_of_list_lookup_2.
Qed.

Section bound.
Context (c : cfg) (opsem : Z -> option (Z -> Z -> Z)) (strict : bool) (g : ghost) (s : st).
Context (Hc : wf_cfg c) (C : calm c opsem strict g s).

Lemma internal_at_most a ns D dm :
  held g (s_heap s) a -> NoDup D -> (forall x, x ∈ D <-> reach (live (s_heap s)) a x) -> (forall i, i < nvars c -> dom c i <= dm) ->
  NoDup ns -> (forall x, x ∈ ns -> reach (live (s_heap s)) a x /\ inner (live (s_heap s)) x) ->
  list_sum (map (edges s) ns) <= dm * (length D - 1).
Proof using Hc C.
  intros Ha ND HD Hdm Nns Hns.
  assert (X : list_sum (map (edges s) ns) <= length ns * dm).
  { clear -Hns Hdm C. induction ns as [|x ns IH]; [cbn; lia|].
    change (edges s x + list_sum (map (edges s) ns) <= (1 + length ns) * dm).
    assert (list_sum (map (edges s) ns) <= length ns * dm) by (apply IH; intros; apply Hns; by right).
    assert (edges s x <= dm); [|lia]. destruct (Hns x ltac:(by left)) as [_ (i&sons&Lx)]. unfold edges. rewrite Lx.
    destruct (wf_node _ _ _ _ _ (cl_wf _ _ _ _ _ C) x _ Lx) as (Hi&Hlen&_). rewrite Hlen. by apply Hdm. }
  assert (Y : S (length ns) <= length D).
  { destruct (Ev_terminal _ _ _ _ (proj2 (Ev_nval c opsem strict g s C a (fun _ => 0) _ Ha (valid_ex c Hc)) eq_refl)) as (t&R&Et).
    change (S (length ns)) with (length (t :: ns)). apply submseteq_length, NoDup_submseteq.
    - constructor; [|done]. intros Ht. destruct (Hns t Ht) as [_ (i&sons&E)]. congruence.
    - intros x [->|Hx]%elem_of_cons; apply HD; [done|]. by apply Hns. }
  assert (length ns <= length D - 1) by lia. nia.
Qed.
End bound.

(** transform: one call and one for every edge of the diagram *)
Theorem C83_transform : forall c strict opsem args ks s vars A x F f a b k s',
  wf_cfg c -> history c opsem strict args ks s vars A -> ab A !! x = Some F -> vars !! x = Some a ->
  (forall rho, valid c rho -> tval c (f (F rho))) ->
  transform_counted c f a s = Ok (b, k) s' ->
  exists ns, internal_nodes s a ns /\ k = 1 + list_sum (map (edges s) ns).
Proof.
  intros c strict opsem args ks s vars A x F f a b k s' Hc H HF Ha Hf E.
  destruct (history_query _ _ _ _ _ _ _ _ _ _ Hc H HF) as (g&a'&Ha'&C&Hh&EF&_). simplify_eq.
  unfold transform_counted, bind in E. destruct (transform_calls c (S (nvars c)) f (∅, 0) a s) as [[[m k1] b1] s1| |] eqn:E1; [|done|done].
  destruct (run_deferred c s1) as [u s2| |]; [|done|done]. cbn [fst snd] in E. destruct (diagram_of b1 s2) as [u' s3| |]; [|done|done].
  injection E as _ <- _.
  destruct (transform_logged c opsem strict g s Hc (cl_wf _ _ _ _ _ C) (cl_quiet _ _ _ _ _ C) (cl_ord _ _ _ _ _ C) f (S (nvars c))
    a ∅ 0 m k1 b1 s s1) as (_&[_ Fa]&log&G&K); try done.
  - apply sstep_refl, C.
  - intros rho w Hr Hw. rewrite <- (proj1 (Ev_nval c opsem strict g s C a rho w Hh Hr) Hw), <- EF by done. by apply Hf.
  - intros y Hy. unfold memo in *. rewrite lookup_empty in Hy. by destruct Hy.
  - lia.
  - exists log. split; [|exact K]. split; [apply G|]. intros y. split.
    + intros Hy. by destruct (lg_new _ _ _ _ _ G y Hy) as (_&?&?).
    + intros [R I]. destruct (lg_all _ _ _ _ _ G y (Fa y R I)) as [Hy|]; [|done]. unfold memo in *. rewrite lookup_empty in Hy. by destruct Hy.
Qed.

(** in terms of the number of nodes *)
Theorem C83_transform_linear : forall c strict opsem args ks s vars A x F f a b k s' dm,
  wf_cfg c -> history c opsem strict args ks s vars A -> ab_clean A = true -> ab A !! x = Some F -> vars !! x = Some a ->
  (forall rho, valid c rho -> tval c (f (F rho))) -> (forall i, i < nvars c -> dom c i <= dm) ->
  transform_counted c f a s = Ok (b, k) s' ->
  exists N, diagram_node_count c a s = Ok (Z.of_nat N) s /\ k <= 1 + dm * (N - 1).
Proof.
  intros c strict opsem args ks s vars A x F f a b k s' dm Hc H Hcl HF Ha Hf Hdm E.
  destruct (C83_transform _ _ _ _ _ _ _ _ _ _ _ _ _ _ _ Hc H HF Ha Hf E) as (ns&[ND Hns]&->).
  destruct (history_query _ _ _ _ _ _ _ _ _ _ Hc H HF) as (g&a'&Ha'&C&Hh&EF&_&Cl&_). simplify_eq.
  destruct (node_count_ok c opsem strict g s C (Cl Hcl) a Hh) as (D&NDD&HD&EN).
  exists (length D). split; [done|]. apply le_n_S. eapply internal_at_most; try done. intros y Hy. by apply Hns.
Qed.

(** get_cofactor: no more *)
Theorem C83_cofactor_linear : forall c strict opsem args ks s vars A x F vi vv a b k s' dm,
  wf_cfg c -> history c opsem strict args ks s vars A -> ab_clean A = true -> ab A !! x = Some F -> vars !! x = Some a ->
  vv < dom c vi -> (forall i, i < nvars c -> dom c i <= dm) ->
  get_cofactor_counted c a vi vv s = Ok (b, k) s' ->
  exists N, diagram_node_count c a s = Ok (Z.of_nat N) s /\ k <= 1 + dm * (N - 1).
Proof.
  intros c strict opsem args ks s vars A x F vi vv a b k s' dm Hc H Hcl HF Ha Hvv Hdm E.
  destruct (history_query _ _ _ _ _ _ _ _ _ _ Hc H HF) as (g&a'&Ha'&C&Hh&EF&_&Cl&_). simplify_eq.
  destruct (node_count_ok c opsem strict g s C (Cl Hcl) a Hh) as (D&NDD&HD&EN).
  exists (length D). split; [done|].
  unfold get_cofactor_counted, bind in E. destruct (getn a s) as [n s1| |] eqn:En; [|done|done].
  destruct (getn_body c opsem strict g s (cl_wf _ _ _ _ _ C) s a n s1 (sstep_refl _ _ _ _ _ (cl_wf _ _ _ _ _ C)) Hh En) as [-> La].
  destruct (n_body n) as [v|i sons].
  { destruct (diagram_copy a s); [|done|done]. injection E as _ <- _. apply Nat.le_0_l. }
  destruct (i =? vi).
  { destruct (of_opt EOob (sons !! vv) s) as [d t| |]; [|done|done]. destruct (diagram_of d t); [|done|done]. injection E as _ <- _. apply Nat.le_0_l. }
  destruct (cofactor_calls c (S (nvars c)) vi vv (∅, 0) a s) as [[[m k1] b1] s2| |] eqn:E1; [|done|done]. cbn [fst snd] in E.
  destruct (diagram_of b1 s2) as [u s3| |]; [|done|done]. destruct (run_deferred c s3) as [u' s4| |]; [|done|done]. injection E as _ <- _.
  destruct (cofactor_logged c opsem strict g s Hc (cl_wf _ _ _ _ _ C) (cl_quiet _ _ _ _ _ C) (cl_ord _ _ _ _ _ C) vi vv (S (nvars c)) Hvv
    a ∅ 0 m k1 b1 s s2 (sstep_refl _ _ _ _ _ (cl_wf _ _ _ _ _ C)) Hh (memo_ok_empty _ _ _ _ _) ltac:(lia) E1) as (_&log&G&K).
  rewrite K. apply le_n_S. eapply internal_at_most; try done; [apply G|]. intros y Hy. by destruct (lg_new _ _ _ _ _ G y Hy) as (_&?&?).
Qed.

(** and for several variables *)
Theorem C83_cofactors_linear : forall c strict opsem args ks s vars A x F vals a b k s' dm,
  wf_cfg c -> history c opsem strict args ks s vars A -> ab_clean A = true -> ab A !! x = Some F -> vars !! x = Some a ->
  Forall (fun p => snd p < dom c (fst p)) vals -> (forall i, i < nvars c -> dom c i <= dm) ->
  get_cofactors_counted c a vals s = Ok (b, k) s' ->
  exists N, diagram_node_count c a s = Ok (Z.of_nat N) s /\ k <= 1 + dm * (N - 1).
Proof.
  intros c strict opsem args ks s vars A x F vals a b k s' dm Hc H Hcl HF Ha Hvals Hdm E.
  destruct (history_query _ _ _ _ _ _ _ _ _ _ Hc H HF) as (g&a'&Ha'&C&Hh&EF&_&Cl&_). simplify_eq.
  destruct (node_count_ok c opsem strict g s C (Cl Hcl) a Hh) as (D&NDD&HD&EN).
  exists (length D). split; [done|]. pose proof (cl_wf _ _ _ _ _ C) as W. pose proof (cl_quiet _ _ _ _ _ C) as Hq.
  unfold get_cofactors_counted, bind in E. destruct (getn a s) as [n s1| |] eqn:En; [|done|done].
  destruct (getn_body c opsem strict g s W s a n s1 (sstep_refl _ _ _ _ _ W) Hh En) as [-> La].
  destruct (n_body n) as [v|i sons].
  { destruct (diagram_copy a s); [|done|done]. injection E as _ <- _. apply Nat.le_0_l. }
  assert (Hlen' : forall r, pending g vals r <= length vals).
  { intros r. unfold pending. clear. induction vals as [|p l IH]; simpl; [done|]. destruct (_ <=? _); simpl; lia. }
  assert (Go : forall d todo t, held g (s_heap s) d -> reach (live (s_heap s)) a d -> pending g vals (rank c g (s_heap s) d) <= todo -> t = s ->
    match cofactors_calls c (S (nvars c)) vals todo (∅, 0) d t with
    | Ok r _ => snd (fst r) <= 1 + dm * (length D - 1) | _ => True end).
  { intros d todo t Hd Rd Hp ->. destruct (cofactors_calls c (S (nvars c)) vals todo (∅, 0) d s) as [[[m k1] b1] s2| |] eqn:E1; [|done|done].
    cbn [fst snd].
    destruct (cofactors_logged c opsem strict g s Hc W Hq (cl_ord _ _ _ _ _ C) vals (S (nvars c)) Hvals
      todo d ∅ 0 m k1 b1 s s2 (sstep_refl _ _ _ _ _ W) Hd (memo_ok_empty _ _ _ _ _) Hp ltac:(lia) E1) as (_&log&G&K).
    rewrite K. apply le_n_S.
    assert (R : forall y, y ∈ log -> reach (live (s_heap s)) a y /\ inner (live (s_heap s)) y).
    { intros y Hy. destruct (lg_new _ _ _ _ _ G y Hy) as (_&R&I). split; [|done]. by eapply reach_trans. }
    transitivity (list_sum (map (edges s) log)); [|eapply (internal_at_most c opsem strict g s Hc C a); [exact Hh|exact NDD|exact HD|exact Hdm|apply G|exact R]].
    clear -R W Hc Hvals. unfold total. induction log as [|y log IH]; [done|].
    change (kept_width (live (s_heap s)) vals y + list_sum (map (kept_width (live (s_heap s)) vals) log) <= edges s y + list_sum (map (edges s) log)).
    assert (kept_width (live (s_heap s)) vals y <= edges s y).
    { destruct (R y ltac:(by left)) as [_ (j&ss&Ly)]. unfold kept_width, edges. rewrite Ly.
      destruct (find_var j vals) as [q|] eqn:Ef; [|done]. pose proof (find_var_In _ _ _ Ef) as Hin. rewrite Forall_forall in Hvals.
      pose proof (Hvals _ Hin) as Hj. simpl in Hj. destruct (wf_node _ _ _ _ _ W y _ Ly) as (_&Hl&_). lia. }
    assert (list_sum (map (kept_width (live (s_heap s)) vals) log) <= list_sum (map (edges s) log)) by (apply IH; intros; apply R; by right). lia. }
  assert (Fin : forall rt t, match cofactors_calls c (S (nvars c)) vals (snd rt) (∅, 0) (fst rt) t with
      | Ok r _ => snd (fst r) <= 1 + dm * (length D - 1) | _ => True end ->
    match cofactors_calls c (S (nvars c)) vals (snd rt) (∅, 0) (fst rt) t with
    | Ok r s2 => match diagram_of (snd r) s2 with Ok _ s3 => match run_deferred c s3 with Ok _ s4 => ret (snd r, snd (fst r)) s4
        | Err e => Err e | Fuel => Fuel end | Err e => Err e | Fuel => Fuel end | Err e => Err e | Fuel => Fuel end = Ok (b, k) s' ->
    k <= 1 + dm * (length D - 1)).
  { intros rt t Hb E2. destruct (cofactors_calls c (S (nvars c)) vals (snd rt) (∅, 0) (fst rt) t) as [[[m k1] b1] s2| |]; [|done|done].
    cbn [fst snd] in *. destruct (diagram_of b1 s2) as [u s3| |]; [|done|done]. destruct (run_deferred c s3) as [u' s4| |]; [|done|done].
    injection E2 as _ <- _. done. }
  destruct (find_var i vals) as [j|] eqn:Ef.
  - pose proof (find_var_In _ _ _ Ef) as Hin. pose proof Hvals as Hvals'. rewrite Forall_forall in Hvals'. pose proof (Hvals' _ Hin) as Hj. simpl in Hj.
    destruct (wf_node _ _ _ _ _ W a _ La) as (Hi&Hlen&_).
    destruct (lookup_lt_is_Some_2 sons j) as [d Hd']; [lia|]. rewrite Hd' in E.
    assert (Hd : d ∈ sons) by (by eapply elem_of_list_lookup_2).
    destruct (held_son_all c opsem strict g s a i sons d W Hq Hh La Hd) as [Hhd Hrd].
    eapply (Fin (d, length vals - 1) s); [|exact E]. apply Go; [done| | |done].
    + eapply reach_step; [exact La|exact Hd|apply reach_refl].
    + rewrite (rank_int c g _ _ _ _ Hq La) in Hrd. pose proof (pending_step g vals i j _ Ef Hrd). pose proof (Hlen' (g_lv g i)). cbn [snd fst]. lia.
  - eapply (Fin (a, length vals) s); [|exact E]. apply Go; [done|apply reach_refl|apply Hlen'|done].
Qed.

(** parity of six variables: 13 nodes, 11 of them internal, and 127 paths and prefixes of paths
    (C70_parity_case); negate makes 23 calls, a cofactor by the fourth variable 11 *)
Definition cost_root : positive := match cost_vars !! 0 with Some a => a | None => xH end.

Lemma cost_root_ok : cost_vars !! 0 = Some cost_root.
Proof. by vm_compute. Qed.

Definition calls_of {X} (r : res (X * nat)) : option nat := match r with Ok x _ => Some (snd x) | _ => None end.

Example C83_case :
  calls_of (transform_counted cost_cfg (fun v => 1 - v)%Z cost_root cost_st) = Some 23 /\
  calls_of (get_cofactor_counted cost_cfg cost_root 2 1 cost_st) = Some 11 /\
  calls_of (get_cofactors_counted cost_cfg cost_root [(5, 1); (3, 0); (1, 1)] cost_st) = Some 11.
Proof. vm_compute. done. Qed.

Lemma calls_of_ok (r : res (positive * nat)) k : calls_of r = Some k -> exists b s', r = Ok (b, k) s'.
Proof. destruct r as [[b k'] s'| |]; [|done|done]. intros [= ->]. by exists b, s'. Qed.

Lemma cost_negated rho : valid cost_cfg rho -> tval cost_cfg (1 - costF0 rho)%Z.
Proof.
  intros Hv. rewrite cost_parity by done. unfold parity. left.
  pose proof (Nat.mod_upper_bound (list_sum (map rho (seq 0 6))) 2 ltac:(done)). unfold Nondet. split; [lia|done].
Qed.

Example C83_transform_case : exists ns, internal_nodes cost_st cost_root ns /\ 23 = 1 + list_sum (map (edges cost_st) ns).
Proof.
  destruct (calls_of_ok _ _ (proj1 C83_case)) as (b&s'&E).
  exact (C83_transform _ _ _ _ _ _ _ _ 0 costF0 _ _ _ _ _ cost_wf cost_history eq_refl cost_root_ok cost_negated E).
Qed.

Example C83_linear_case : exists N, diagram_node_count cost_cfg cost_root cost_st = Ok (Z.of_nat N) cost_st /\ 23 <= 1 + 2 * (N - 1).
Proof.
  destruct (calls_of_ok _ _ (proj1 C83_case)) as (b&s'&E).
  refine (C83_transform_linear _ _ _ _ _ _ _ _ 0 costF0 _ _ _ _ _ 2 cost_wf cost_history eq_refl eq_refl cost_root_ok cost_negated _ E).
  intros i Hi. rewrite cost_two by done. lia.
Qed.

Print Assumptions C83_same.
Print Assumptions C83_transform.
Print Assumptions C83_transform_linear.
Print Assumptions C83_cofactor_linear.
Print Assumptions C83_cofactors_linear.
