(** * Properties of the queries *)

From stdpp Require Import gmap list.
From Coq Require Import ZArith Lia Sorted.
From Verif Require Import Base Ops Tables NodeManager Tools Sift DiagramManager World Queries.
From Verif Require Import Heap Inv InvLemmas Prim GC Make Build Apply Api Constr Expr VecSpec Vec Eval Fold.
From Verif Require Import OpSpec OpProof WorldSpec WorldProof Ctor History PropsBase Chain PropsBase2 PropsCore Examples.
From Verif Require Import Trav QuerySpec QueryProof Minimal.

Local Open Scope nat_scope.
Local Opaque exec run new_manager.

Lemma solution_ext c F G v vals : fun_eq c F G -> solution c F v vals -> solution c G v vals.
Proof. intros E [Hv H]. split; [done|]. rewrite <- E; [done|apply Hv]. Qed.

Lemma fun_eq_sym c F G : fun_eq c F G -> fun_eq c G F.
Proof. intros H rho Hv. symmetry. auto. Qed.

Lemma all_solutions_ext c F G v l : fun_eq c F G -> all_solutions c F v l -> all_solutions c G v l.
Proof.
  intros E [N H]. split; [done|]. intros vals. rewrite H. split; apply solution_ext; [done|by apply fun_eq_sym].
Qed.

Lemma subfunctions_ext c order F G l : NoDup order -> fun_eq c F G -> subfunctions c order F l -> subfunctions c order G l.
Proof.
  intros HN E [H1 H2 H3].
  assert (X : forall l rho, valid c rho -> fun_eq c (restrict order l rho F) (restrict order l rho G)).
  { intros k rho Hr sigma Hs. apply E. intros i Hi. case_bool_decide; auto. }
  constructor; [| |done].
  - intros K HK. destruct (H1 K HK) as (k&rho&Hk&Hr&EK). exists k, rho. split_and!; try done.
    intros sigma Hs. rewrite EK by done. by apply X.
  - intros k rho Hk Hr. destruct (H2 k rho Hk Hr) as (K&HK&EK). exists K. split; [done|].
    intros sigma Hs. rewrite EK by done. by apply X.
Qed.

(** the state and the node of an object, as the query lemmas need them *)
Lemma history_query c opsem strict args ks s vars A x F :
  wf_cfg c -> history c opsem strict args ks s vars A -> ab A !! x = Some F ->
  exists g a, vars !! x = Some a /\ calm c opsem strict g s /\ held g (s_heap s) a /\ fun_eq c F (nval c s a) /\
    s_l2i s = ab_order A /\ (ab_clean A = true -> clean s) /\ (ab_canon A = true -> g_cn g = true).
Proof.
  intros Hc H HF. destruct (history_winv _ _ _ _ _ _ _ _ Hc H) as [g W].
  destruct (wi_den_pos _ _ _ _ _ _ _ _ _ W HF) as (a&Ha&D&P). pose proof (wi_calm _ _ _ _ _ _ _ W) as C.
  assert (Hh : held g (s_heap s) a) by (eapply ext_held; [apply C|done]).
  exists g, a. split_and!; try done; try apply W.
  intros rho Hv. symmetry. apply (Ev_nval c opsem strict g s C a rho _ Hh Hv). by apply D.
Qed.

(** ** C05 *)

Lemma nlive_list h (D : list positive) : NoDup D -> (forall a, a ∈ D <-> live h a <> None) -> nlive h = length D.
Proof.
  revert D. induction h as [|a n h Hn IH] using map_ind; intros D ND HD.
  - destruct D as [|b D]; [done|]. exfalso. apply (HD b); [set_solver|]. unfold live. by rewrite lookup_empty.
  - unfold nlive. rewrite hsum_insert_new by done.
    assert (Ho : forall b, b <> a -> live (<[a:=n]> h) b = live h b).
    { intros b Hb. unfold live. by rewrite lookup_insert_ne by done. }
    assert (Hla : live h a = None) by (unfold live; by rewrite Hn).
    destruct (n_used n) eqn:U.
    + assert (Hin : a ∈ D) by (apply HD; unfold live; by rewrite lookup_insert, U).
      apply elem_of_Permutation in Hin as (D'&P). rewrite P in ND. apply NoDup_cons in ND as [Hna ND].
      rewrite (Permutation_length P). simpl. f_equal. apply IH; [done|]. intros b. split.
      * intros Hb. assert (b <> a) by (intros ->; done). rewrite <- Ho by done. apply HD. rewrite P. set_solver.
      * intros Hb. assert (b <> a) by (intros ->; done). rewrite <- Ho in Hb by done. apply HD in Hb. rewrite P in Hb. set_solver.
    + simpl. apply IH; [done|]. intros b. rewrite HD. destruct (decide (b = a)) as [->|Hb].
      * rewrite Hla. unfold live. rewrite lookup_insert, U. done.
      * by rewrite Ho.
Qed.

(** the nodes in use *)
Definition live_list (s : st) : list positive := filter (fun a => live (s_heap s) a <> None) (map fst (map_to_list (s_heap s))).
Lemma live_list_ok s : NoDup (live_list s) /\ forall a, a ∈ live_list s <-> live (s_heap s) a <> None.
Proof.
  split; [apply NoDup_filter, NoDup_fst_map_to_list|]. intros a. unfold live_list. rewrite elem_of_list_filter. split; [tauto|].
  intros H. split; [done|]. unfold live in H. destruct (s_heap s !! a) as [n|] eqn:E; [|done].
  apply elem_of_list_fmap. exists (a, n). split; [done|]. by apply elem_of_map_to_list.
Qed.

Theorem C05_total_count : forall c strict opsem args ks s vars A D,
  wf_cfg c -> history c opsem strict args ks s vars A ->
  NoDup D -> (forall a, a ∈ D <-> live (s_heap s) a <> None) ->
  total_node_count s = Ok (Z.of_nat (length D)) s.
Proof.
  intros c strict opsem args ks s vars A D Hc H ND HD. destruct (history_winv _ _ _ _ _ _ _ _ Hc H) as [g W].
  pose proof (cl_wf _ _ _ _ _ (wi_calm _ _ _ _ _ _ _ W)) as Wf. unfold total_node_count, gets. f_equal.
  rewrite (wf_count _ _ _ _ _ Wf). f_equal. by apply nlive_list.
Qed.

Example C05_total_case : exists D : list positive, NoDup D /\ (forall a, a ∈ D <-> live (s_heap ex_st) a <> None) /\
  total_node_count ex_st = Ok (Z.of_nat (length D)) ex_st /\ length D = 21.
Proof.
  exists (live_list ex_st). destruct (live_list_ok ex_st) as [ND HD]. split; [done|]. split; [done|].
  split; [by apply (C05_total_count ex_cfg true ex_ops ex_args ex_prog ex_st ex_vars ex_abs _ ex_wf ex_history)|].
  by vm_compute.
Qed.


Theorem C05_index_count : forall c strict opsem args ks s vars A i D,
  wf_cfg c -> history c opsem strict args ks s vars A -> i < nvars c ->
  NoDup D -> (forall a, a ∈ D <-> exists sons, live (s_heap s) a = Some (Int i sons)) ->
  index_node_count c i s = Ok (Z.of_nat (length D)) s.
Proof.
  intros c strict opsem args ks s vars A i D Hc H Hi ND HD. destruct (history_winv _ _ _ _ _ _ _ _ Hc H) as [g W].
  pose proof (wi_calm _ _ _ _ _ _ _ W) as C. pose proof (cl_wf _ _ _ _ _ C) as Wf.
  destruct (cl_quiet _ _ _ _ _ C) as [_ Hfl].
  destruct (lookup_lt_is_Some_2 (s_tabs s) i) as [t Ht]; [by rewrite (wf_ntabs _ _ _ _ _ Wf)|].
  destruct (wf_tab _ _ _ _ _ Wf i t Ht) as (Hcap&Hlen&Hb&Hsz).
  unfold index_node_count. rewrite (bind_ok _ _ _ (s_tabs s) s) by done.
  destruct (Nat.ltb_spec i (nvars c)); [|lia]. rewrite andb_false_r. rewrite Ht, (bind_ok _ _ _ t s) by done.
  unfold ret. f_equal. rewrite Hsz. f_equal. apply Permutation_length, NoDup_Permutation; [|done|].
  - assert (X : forall bs : list (list positive), (forall b chain, bs !! b = Some chain -> NoDup chain) ->
      (forall b b' chain chain' a, bs !! b = Some chain -> bs !! b' = Some chain' -> a ∈ chain -> a ∈ chain' -> b = b') ->
      NoDup (concat bs)).
    { induction bs as [|chain bs IH]; intros H1 H2; simpl; [constructor|]. apply NoDup_app. split_and!.
      - by apply (H1 0).
      - intros a Ha Hin. apply elem_of_list_In, in_concat in Hin as (ch&Hch&Hin).
        apply elem_of_list_In, elem_of_list_lookup in Hch as (b&Hbb). apply elem_of_list_In in Hin.
        pose proof (H2 0 (S b) chain ch a eq_refl Hbb Ha Hin). lia.
      - apply IH.
        + intros b ch Hch. by apply (H1 (S b)).
        + intros b b' ch ch' a E1 E2 I1 I2. pose proof (H2 (S b) (S b') ch ch' a E1 E2 I1 I2). lia. }
    apply X.
    + intros b chain E. by apply (Hb b chain E).
    + intros b b' chain chain' a E1 E2 I1 I2. apply (Hb b chain E1) in I1 as (_&ss&L1&B1).
      apply (Hb b' chain' E2) in I2 as (_&ss'&L2&B2). congruence.
  - intros a. rewrite HD. split.
    + intros Ha. apply elem_of_list_In, in_concat in Ha as (ch&Hch&Hin).
      apply elem_of_list_In, elem_of_list_lookup in Hch as (b&Hbb). apply elem_of_list_In in Hin.
      apply (Hb b ch Hbb) in Hin as (_&sons&E&_). by exists sons.
    + intros (sons&E). apply elem_of_list_In, in_concat.
      destruct (lookup_lt_is_Some_2 (t_buckets t) (bucket_of t (node_hash c sons))) as [ch Hch].
      { rewrite Hlen. unfold bucket_of. pose proof (N.mod_upper_bound (node_hash c sons) (t_cap t) ltac:(lia)). lia. }
      exists ch. split; [apply elem_of_list_In; by eapply elem_of_list_lookup_2|].
      apply elem_of_list_In. apply (Hb _ ch Hch). split; [rewrite Hfl; set_solver|]. by exists sons.
Qed.

Example C05_index_case : exists D : list positive, length D = 6 /\ index_node_count ex_cfg 1 ex_st = Ok 6%Z ex_st.
Proof.
  set (ok := fun a => exists sons, live (s_heap ex_st) a = Some (Int 1 sons)).
  assert (Hd : forall a, Decision (ok a)).
  { intros a. unfold ok. destruct (live (s_heap ex_st) a) as [[w|i sons]|].
    - right. intros (?&?). done.
    - destruct (decide (i = 1)) as [->|Hi]; [left; by exists sons|]. right. intros (?&E). by injection E.
    - right. intros (?&?). done. }
  destruct (live_list_ok ex_st) as [ND HD].
  assert (E : index_node_count ex_cfg 1 ex_st = Ok (Z.of_nat (length (filter ok (live_list ex_st)))) ex_st).
  { apply (C05_index_count ex_cfg true ex_ops ex_args ex_prog ex_st ex_vars ex_abs 1 _ ex_wf ex_history).
    - vm_compute. lia.
    - by apply NoDup_filter.
    - intros a. rewrite elem_of_list_filter, HD. split; [tauto|]. intros (sons&Ha). split; [by exists sons|]. by rewrite Ha. }
  assert (X : match index_node_count ex_cfg 1 ex_st with Ok n _ => (n =? 6)%Z | _ => false end = true) by (by vm_compute).
  exists (filter ok (live_list ex_st)). rewrite E in X. apply Z.eqb_eq in X. split; [lia|]. by rewrite E, X.
Qed.


Theorem C05_diagram_count : forall c strict opsem args ks s vars A x F D,
  wf_cfg c -> history c opsem strict args ks s vars A -> ab_clean A = true -> ab A !! x = Some F ->
  forall a, vars !! x = Some a -> NoDup D -> (forall b, b ∈ D <-> reach (live (s_heap s)) a b) ->
  diagram_node_count c a s = Ok (Z.of_nat (length D)) s.
Proof.
  intros c strict opsem args ks s vars A x F D Hc H Hcl HF a Ha ND HD.
  destruct (history_query _ _ _ _ _ _ _ _ _ _ Hc H HF) as (g&a'&Ha'&C&Hh&_&_&Cl&_). simplify_eq.
  destruct (node_count_ok c opsem strict g s C (Cl Hcl) a Hh) as (D'&ND'&HD'&E). rewrite E. do 2 f_equal.
  apply Permutation_length, NoDup_Permutation; [done..|]. intros b. by rewrite HD, HD'.
Qed.

Example C05_diagram_case : exists a, ex_vars !! 6 = Some a /\ exists D : list positive,
  (forall b, b ∈ D <-> reach (live (s_heap ex_st)) a b) /\ length D = 10 /\ diagram_node_count ex_cfg a ex_st = Ok 10%Z ex_st.
Proof.
  destruct (history_query _ _ _ _ _ _ _ _ 6 exF6 ex_wf ex_history eq_refl) as (g&a&Ha&C&Hh&_&_&Cl&_).
  destruct (node_count_ok _ _ _ _ _ C (Cl eq_refl) a Hh) as (D&ND&HD&_).
  pose proof (C05_diagram_count ex_cfg true ex_ops ex_args ex_prog ex_st ex_vars ex_abs 6 exF6 D ex_wf ex_history eq_refl eq_refl a Ha ND HD) as E.
  assert (X : match ex_vars !! 6 with Some a => match diagram_node_count ex_cfg a ex_st with Ok n _ => (n =? 10)%Z | _ => false end
    | None => false end = true) by (by vm_compute).
  rewrite Ha, E in X. apply Z.eqb_eq in X. exists a. split; [done|]. exists D. split; [done|]. rewrite E, X. split; [lia|done].
Qed.


(** ** C09, C10, C11 *)

Theorem C11_satisfy_all : forall c strict opsem args ks s vars A x F v,
  wf_cfg c -> history c opsem strict args ks s vars A -> ab A !! x = Some F -> value_ok c v ->
  exists a sols, vars !! x = Some a /\ satisfy_all c v a s = Ok sols s /\
    all_solutions c F v sols /\ StronglySorted (before c (ab_order A)) sols.
Proof.
  intros c strict opsem args ks s vars A x F v Hc H HF Hv.
  destruct (history_query _ _ _ _ _ _ _ _ _ _ Hc H HF) as (g&a&Ha&C&Hh&EF&Ho&_).
  destruct (all_sols_all c (s_l2i s) (nval c s a) v (order_NoDup c opsem strict g s C) (order_elem c opsem strict g s C)) as [H1 H2].
  exists a. eexists. split; [done|]. split; [by apply (satisfy_all_ok c opsem strict g s Hc C)|]. split.
  - eapply all_solutions_ext; [by apply fun_eq_sym|done].
  - by rewrite <- Ho.
Qed.

Example C11_case : exists a, ex_vars !! 5 = Some a /\
  satisfy_all ex_cfg 1 a ex_st = Ok [[1; 0; 1]; [1; 1; 1]; [1; 2; 1]] ex_st /\
  all_solutions ex_cfg exF5 1 [[1; 0; 1]; [1; 1; 1]; [1; 2; 1]].
Proof.
  destruct (C11_satisfy_all ex_cfg true ex_ops ex_args ex_prog ex_st ex_vars ex_abs 5 exF5 1 ex_wf ex_history eq_refl I)
    as (a&sols&Ha&E&HS&_).
  assert (X : match ex_vars !! 5 with Some a => match satisfy_all ex_cfg 1 a ex_st with
    Ok l _ => bool_decide (l = [[1; 0; 1]; [1; 1; 1]; [1; 2; 1]]) | _ => false end | None => false end = true) by (by vm_compute).
  rewrite Ha, E in X. apply bool_decide_eq_true in X. exists a. split; [done|]. rewrite <- X. split; done.
Qed.

(** the order of the levels is x2, x0, x1, hence 2, 0, 1 *)
Example C11_order_case : exists a, ex_vars !! 6 = Some a /\
  satisfy_all ex_cfg 2 a ex_st = Ok [[0; 2; 0]; [1; 2; 0]; [0; 2; 1]] ex_st /\
  StronglySorted (before ex_cfg [2; 0; 1]) [[0; 2; 0]; [1; 2; 0]; [0; 2; 1]].
Proof.
  destruct (C11_satisfy_all ex_cfg true ex_ops ex_args ex_prog ex_st ex_vars ex_abs 6 exF6 2 ex_wf ex_history eq_refl I)
    as (a&sols&Ha&E&_&HS).
  assert (X : match ex_vars !! 6 with Some a => match satisfy_all ex_cfg 2 a ex_st with
    Ok l _ => bool_decide (l = [[0; 2; 0]; [1; 2; 0]; [0; 2; 1]]) | _ => false end | None => false end = true) by (by vm_compute).
  rewrite Ha, E in X. apply bool_decide_eq_true in X. exists a. split; [done|]. rewrite <- X. split; done.
Qed.


Theorem C09_satisfy_count : forall c strict opsem args ks s vars A x F v sols,
  wf_cfg c -> history c opsem strict args ks s vars A -> ab_clean A = true -> ab A !! x = Some F -> value_ok c v ->
  (dom_prod (c_doms c) <= product_limit c)%Z -> all_solutions c F v sols ->
  exists a, vars !! x = Some a /\ satisfy_count c v a s = Ok (Z.of_nat (length sols)) s.
Proof.
  intros c strict opsem args ks s vars A x F v sols Hc H Hcl HF Hv Hfit HS.
  destruct (history_query _ _ _ _ _ _ _ _ _ _ Hc H HF) as (g&a&Ha&C&Hh&EF&Ho&Cl&_).
  destruct (all_sols_all c (s_l2i s) (nval c s a) v (order_NoDup c opsem strict g s C) (order_elem c opsem strict g s C)) as [H1 H2].
  exists a. split; [done|].
  rewrite (dom_prod_order c s (proj1 (cl_ord _ _ _ _ _ C))) in Hfit.
  rewrite (satisfy_count_ok c opsem strict g s Hc C (Cl Hcl) v Hfit a Hh Hv). do 2 f_equal.
  eapply all_solutions_length; [|exact HS]. eapply all_solutions_ext; [by apply fun_eq_sym|done].
Qed.

Example C09_case : exists a, ex_vars !! 5 = Some a /\ satisfy_count ex_cfg 1 a ex_st = Ok 3%Z ex_st.
Proof.
  destruct C11_case as (_&_&_&HS).
  destruct (C09_satisfy_count ex_cfg true ex_ops ex_args ex_prog ex_st ex_vars ex_abs 5 exF5 1 [[1; 0; 1]; [1; 1; 1]; [1; 2; 1]] ex_wf ex_history eq_refl eq_refl I)
    with (2 := HS) as (a&Ha&E); [by vm_compute|]. exists a. split; [done|]. exact E.
Qed.


Theorem C10_satisfy_one : forall c strict opsem args ks s vars A x F v,
  wf_cfg c -> history c opsem strict args ks s vars A -> ab A !! x = Some F -> value_ok c v ->
  exists a r, vars !! x = Some a /\ satisfy_one c v a s = Ok r s /\
    match r with
    | Some vals => solution c F v vals
    | None => forall vals, ~ solution c F v vals
    end.
Proof.
  intros c strict opsem args ks s vars A x F v Hc H HF Hv.
  destruct (history_query _ _ _ _ _ _ _ _ _ _ Hc H HF) as (g&a&Ha&C&Hh&EF&Ho&_).
  destruct (satisfy_one_ok c opsem strict g s Hc C v a Hh Hv) as (r&E&Hr). exists a, r. split_and!; try done.
  destruct r as [vals|].
  - destruct Hr as [Hok HE]. split; [done|]. rewrite EF; [done|apply Hok].
  - intros vals [Hok HE]. apply (Hr (of_vals vals)); [apply Hok|]. rewrite <- EF; [done|apply Hok].
Qed.

Example C10_case : exists a, ex_vars !! 4 = Some a /\ exists vals, satisfy_one ex_cfg 3 a ex_st = Ok (Some vals) ex_st /\
  exF4 (of_vals vals) = 3%Z.
Proof.
  destruct (C10_satisfy_one ex_cfg true ex_ops ex_args ex_prog ex_st ex_vars ex_abs 4 exF4 3 ex_wf ex_history eq_refl I)
    as (a&r&Ha&E&Hr). exists a. split; [done|]. destruct r as [vals|].
  - exists vals. split; [done|]. apply Hr.
  - exfalso. apply (Hr [0; 2; 1]). split; [|by vm_compute]. split; [done|]. intros i Hi.
    do 3 (destruct i as [|i]; [vm_compute; lia|]). vm_compute in Hi. lia.
Qed.

Example C10_none_case : exists a, ex_vars !! 6 = Some a /\ satisfy_one ex_cfg 5 a ex_st = Ok None ex_st /\
  forall vals, ~ solution ex_cfg exF6 5 vals.
Proof.
  destruct (C10_satisfy_one ex_cfg true ex_ops ex_args ex_prog ex_st ex_vars ex_abs 6 exF6 5 ex_wf ex_history eq_refl I)
    as (a&r&Ha&E&Hr). exists a. split; [done|].
  assert (X : match ex_vars !! 6 with Some a => match satisfy_one ex_cfg 5 a ex_st with
    Ok None _ => true | _ => false end | None => false end = true) by (by vm_compute).
  rewrite Ha, E in X. destruct r; [done|]. split; done.
Qed.


(** ** C19 *)

Theorem C19_dependency_set : forall c strict opsem args ks s vars A x F,
  wf_cfg c -> history c opsem strict args ks s vars A -> ab_canon A = true -> ab_clean A = true -> ab A !! x = Some F ->
  exists a l, vars !! x = Some a /\ get_dependency_set c a s = Ok l s /\ NoDup l /\
    forall i, i ∈ l <-> essential_var c F i.
Proof.
  intros c strict opsem args ks s vars A x F Hc H Hcn Hcl HF.
  destruct (history_query _ _ _ _ _ _ _ _ _ _ Hc H HF) as (g&a&Ha&C&Hh&EF&Ho&Cl&Cn).
  destruct (dependency_ok c opsem strict g s Hc C (Cl Hcl) a Hh) as (l&E&ND&Hl). exists a, l. split_and!; try done.
  intros i. rewrite Hl, (occurs_essential c opsem strict g s Hc C (Cn Hcn) a i Hh).
  unfold essential_var. split; intros (Hi&rho&k&k'&Hv&Hk&Hk'&Hne); (split; [done|]); exists rho, k, k'; split_and!; try done.
  - rewrite !EF by (by apply upd_valid). done.
  - rewrite <- !EF by (by apply upd_valid). done.
Qed.

Example C19_case : exists a l, ex_vars !! 5 = Some a /\ get_dependency_set ex_cfg a ex_st = Ok l ex_st /\
  l = [2; 0] /\ ~ essential_var ex_cfg exF5 1 /\ essential_var ex_cfg exF5 0.
Proof.
  destruct (C19_dependency_set ex_cfg true ex_ops ex_args ex_prog ex_st ex_vars ex_abs 5 exF5 ex_wf ex_history eq_refl eq_refl eq_refl)
    as (a&l&Ha&E&_&Hl). exists a, l. split; [done|]. split; [done|].
  assert (X : match ex_vars !! 5 with Some a => match get_dependency_set ex_cfg a ex_st with
    Ok l _ => bool_decide (l = [2; 0]) | _ => false end | None => false end = true) by (by vm_compute).
  rewrite Ha, E in X. apply bool_decide_eq_true in X. split; [done|]. rewrite <- !Hl, X. clear. set_solver.
Qed.


(** ** C38 *)

Theorem C38_domain_product : forall c strict opsem args ks s vars A from to,
  wf_cfg c -> history c opsem strict args ks s vars A -> from <= to <= nvars c ->
  (level_product c (ab_order A) from to <= product_limit c)%Z ->
  domain_product c from to s = Ok (level_product c (ab_order A) from to) s.
Proof.
  intros c strict opsem args ks s vars A from to Hc H Hft Hle. destruct (history_winv _ _ _ _ _ _ _ _ Hc H) as [g W].
  rewrite <- (wi_order _ _ _ _ _ _ _ W) in *. apply domain_product_ok; try done.
  apply (cl_ord _ _ _ _ _ (wi_calm _ _ _ _ _ _ _ W)).
Qed.

Example C38_case : domain_product ex_cfg 1 3 ex_st = Ok 6%Z ex_st /\ domain_product ex_cfg 0 2 ex_st = Ok 4%Z ex_st.
Proof.
  split; [apply (C38_domain_product ex_cfg true ex_ops ex_args ex_prog ex_st ex_vars ex_abs 1 3 ex_wf ex_history)
         |apply (C38_domain_product ex_cfg true ex_ops ex_args ex_prog ex_st ex_vars ex_abs 0 2 ex_wf ex_history)];
  try (vm_compute; lia); by vm_compute.
Qed.


(** ** C60 *)

Theorem C60_minimal : forall c strict opsem args ks s vars A x F,
  wf_cfg c -> history c opsem strict args ks s vars A -> ab_canon A = true -> ab_clean A = true -> ab A !! x = Some F ->
  exists a Gs, vars !! x = Some a /\ subfunctions c (ab_order A) F Gs /\
    diagram_node_count c a s = Ok (Z.of_nat (length Gs)) s /\
    forall L rt D, ordered_diagram c (ab_order A) L rt F -> (forall y, reach L rt y -> y ∈ D) -> length Gs <= length D.
Proof.
  intros c strict opsem args ks s vars A x F Hc H Hcn Hcl HF.
  destruct (history_query _ _ _ _ _ _ _ _ _ _ Hc H HF) as (g&a&Ha&C&Hh&EF&Ho&Cl&Cn).
  destruct (node_count_ok c opsem strict g s C (Cl Hcl) a Hh) as (D&ND&HD&E).
  assert (SF : subfunctions c (ab_order A) F (map (nval c s) D)).
  { rewrite <- Ho. eapply subfunctions_ext; [by eapply order_NoDup|by apply fun_eq_sym|].
    by apply (nodes_subfunctions c opsem strict g s Hc C (Cn Hcn)). }
  exists a, (map (nval c s) D). split_and!; try done; [by rewrite map_length|].
  intros L rt D' OD HD'. rewrite <- Ho in *.
  apply (ordered_size c (s_l2i s) (order_NoDup c opsem strict g s C) (order_elem c opsem strict g s C) L rt F OD _ D' SF HD').
Qed.

Example C60_case : exists a, ex_vars !! 4 = Some a /\ diagram_node_count ex_cfg a ex_st = Ok 11%Z ex_st /\
  forall L rt D, ordered_diagram ex_cfg [2; 0; 1] L rt exF4 -> (forall y, reach L rt y -> y ∈ D) -> 11 <= length D.
Proof.
  destruct (C60_minimal ex_cfg true ex_ops ex_args ex_prog ex_st ex_vars ex_abs 4 exF4 ex_wf ex_history eq_refl eq_refl eq_refl)
    as (a&Gs&Ha&_&E&Hm).
  assert (X : match ex_vars !! 4 with Some a => match diagram_node_count ex_cfg a ex_st with Ok n _ => (n =? 11)%Z | _ => false end
    | None => false end = true) by (by vm_compute).
  rewrite Ha, E in X. apply Z.eqb_eq in X. exists a. split; [done|]. split; [by rewrite E, X|].
  intros L rt D OD HD. pose proof (Hm L rt D OD HD). lia.
Qed.


(** ** C55 *)

Inductive query :=
| QCount
| QTotal
| QIndex (i : nat)
| QDepend
| QSatCount (v : Z)
| QSatOne (v : Z)
| QSatAll (v : Z)
| QEval (vals : list nat)
| QVector
| QProduct (from to : nat).

(** the result is not important here *)
Definition ask (c : cfg) (q : query) (a : positive) : M unit :=
  match q with
  | QCount => let* _ := diagram_node_count c a in ret tt
  | QTotal => let* _ := total_node_count in ret tt
  | QIndex i => let* _ := index_node_count c i in ret tt
  | QDepend => let* _ := get_dependency_set c a in ret tt
  | QSatCount v => let* _ := satisfy_count c v a in ret tt
  | QSatOne v => let* _ := satisfy_one c v a in ret tt
  | QSatAll v => let* _ := satisfy_all c v a in ret tt
  | QEval vals => let* _ := evaluate c a vals in ret tt
  | QVector => let* _ := to_vector c a in ret tt
  | QProduct from to => let* _ := domain_product c from to in ret tt
  end.

(** operations that do not change the manager *)
Definition reads {T} (m : M T) : Prop := forall s r s', m s = Ok r s' -> s' = s.

Lemma reads_bind {A B} (m : M A) (k : A -> M B) : reads m -> (forall a, reads (k a)) -> reads (bind m k).
Proof.
  intros Hm Hk s r s' E. unfold bind in E. destruct (m s) as [a s1| |] eqn:E1; [|done|done].
  rewrite <- (Hm _ _ _ E1). by eapply Hk.
Qed.
Lemma reads_ret {A} (a : A) : reads (ret a). Proof. intros s r s' E. by injection E. Qed.
Lemma reads_fail {A} e : reads (fail (A:=A) e). Proof. done. Qed.
Lemma reads_nofuel {A} : reads (nofuel (A:=A)). Proof. done. Qed.
Lemma reads_opt {A} e (o : option A) : reads (of_opt e o).
Proof. destruct o; [apply reads_ret|done]. Qed.
Lemma reads_gets {A} (f : st -> A) : reads (gets f). Proof. intros s r s' E. by injection E. Qed.
Lemma reads_getn a : reads (getn a).
Proof. intros s r s' E. unfold getn in E. destruct (_ !! _) as [n|]; [|done]. destruct (n_used n); [|done]. by injection E. Qed.
Lemma reads_index l : reads (index_at l).
Proof. intros s r s' E. unfold index_at in E. destruct (_ !! _); [|done]. by injection E. Qed.
Lemma reads_level c a : reads (get_level c a).
Proof.
  apply reads_bind; [apply reads_getn|]. intros n. destruct (n_body n); [apply reads_ret|].
  intros s r s' E. unfold level_of_index in E. destruct (_ !! _); [|done]. by injection E.
Qed.
Lemma reads_foldM {A B} (f : B -> A -> M B) l : (forall b a, reads (f b a)) -> forall acc, reads (foldM f acc l).
Proof. intros Hf. induction l as [|a l IH]; intros acc; cbn [foldM]; [apply reads_ret|]. apply reads_bind; auto. Qed.
Lemma reads_product_loop c k : forall from p, reads (product_loop c k from p).
Proof.
  induction k as [|k IH]; intros from p; cbn [product_loop]; [apply reads_ret|].
  apply reads_bind; [apply reads_index|]. intros i. apply reads_bind; [apply reads_opt|]. intros d.
  apply reads_bind; [apply reads_opt|]. intros q. apply IH.
Qed.
Lemma reads_domain_product c from to : reads (domain_product c from to).
Proof. unfold domain_product. destruct (c_fixed c) as [m|]; [|apply reads_product_loop]. destruct (m =? 2)%Z; apply reads_opt. Qed.
Lemma reads_value_check c v : reads (value_check c v).
Proof. unfold value_check. destruct (c_fixed c); [|apply reads_ret]. destruct (_ && _); [done|apply reads_ret]. Qed.
Lemma reads_count_op c v d a : reads (count_op c v d a).
Proof.
  apply reads_bind; [apply reads_getn|]. intros n. destruct (n_body n) as [w|i sons]; [apply reads_ret|].
  apply reads_bind; [apply reads_level|]. intros l. apply reads_foldM. intros dt b.
  apply reads_bind; [apply reads_level|]. intros lb. apply reads_bind; [apply reads_domain_product|]. intros p.
  apply reads_bind; [apply reads_opt|]. intros y. apply reads_bind; [apply reads_opt|]. intros z. apply reads_ret.
Qed.
Lemma reads_first_son f i sons : (forall vars b, reads (f vars b)) -> forall vars k, reads (first_son f i vars k sons).
Proof.
  intros Hf. induction sons as [|b sons IH]; intros vars k; cbn [first_son]; [apply reads_ret|].
  apply reads_bind; [apply reads_opt|]. intros _. apply reads_bind; [apply Hf|]. intros r. destruct (snd r); [apply reads_ret|apply IH].
Qed.
Lemma reads_satisfy_one c v a : reads (satisfy_one c v a).
Proof.
  apply reads_bind; [apply reads_value_check|]. intros _.
  apply reads_bind; [|intros; apply reads_ret]. generalize (replicate (nvars c) 0), a. generalize (depth c).
  intros fuel. induction fuel as [|fuel IH]; intros vars b; cbn [satisfy_one_impl]; [apply reads_nofuel|].
  apply reads_bind; [apply reads_getn|]. intros n. destruct (n_body n); [apply reads_ret|]. by apply reads_first_son.
Qed.
Lemma reads_all_loop f i sons : (forall st b, reads (f st b)) -> forall st k, reads (all_loop f i st k sons).
Proof.
  intros Hf. induction sons as [|b sons IH]; intros st k; cbn [all_loop]; [apply reads_ret|].
  apply reads_bind; [apply reads_opt|]. intros _. apply reads_bind; [apply Hf|]. intros r. apply IH.
Qed.
Lemma reads_satisfy_all c v a : reads (satisfy_all c v a).
Proof.
  apply reads_bind; [apply reads_value_check|]. intros _. apply reads_bind; [|intros; apply reads_ret].
  generalize (replicate (nvars c) 0, @nil (list nat)). generalize a, 0, (depth c).
  intros b l fuel. revert b l. induction fuel as [|fuel IH]; intros b l st; cbn [satisfy_all_impl]; [apply reads_nofuel|].
  apply reads_bind; [apply reads_getn|]. intros n. destruct (n_body n).
  - destruct (negb _); [apply reads_ret|]. destruct (_ =? _); [apply reads_ret|].
    apply reads_bind; [apply reads_index|]. intros i. apply reads_bind; [apply reads_opt|]. intros d. apply reads_all_loop. intros; apply IH.
  - destruct (_ =? _); [apply reads_fail|]. apply reads_bind; [apply reads_level|]. intros lv. destruct (_ <? _).
    + apply reads_bind; [apply reads_index|]. intros j. apply reads_bind; [apply reads_opt|]. intros d. apply reads_all_loop. intros; apply IH.
    + apply reads_all_loop. intros; apply IH.
Qed.
Lemma reads_evaluate c a vals : reads (evaluate c a vals).
Proof.
  unfold evaluate. generalize (S (nvars c)), a. intros fuel. induction fuel as [|fuel IH]; intros b; cbn [evaluate_loop]; [apply reads_nofuel|].
  apply reads_bind; [apply reads_getn|]. intros n. destruct (n_body n); [apply reads_ret|].
  apply reads_bind; [apply reads_opt|]. intros k. destruct (_ && _); [apply reads_fail|]. apply reads_bind; [apply reads_opt|]. intros; apply IH.
Qed.
Lemma reads_to_vector c a : reads (to_vector c a).
Proof.
  unfold to_vector. destruct (_ =? _).
  - apply reads_bind; [apply reads_getn|]. intros n. destruct (n_body n); [apply reads_ret|apply reads_fail].
  - generalize (replicate (nvars c) 0). generalize (Z.to_nat (dom_prod (c_doms c))).
    intros fuel. induction fuel as [|fuel IH]; intros vals; cbn [to_vector_loop]; [apply reads_nofuel|].
    apply reads_bind; [apply reads_evaluate|]. intros v. apply reads_bind; [|].
    + generalize (nvars c), vals. intros l. induction l as [|l IHl]; intros vs; cbn [next_vals]; [apply reads_ret|].
      apply reads_bind; [apply reads_index|]. intros i. apply reads_bind; [apply reads_opt|]. intros w.
      destruct (_ =? _); [apply IHl|apply reads_ret].
    + intros nv. destruct (snd nv); [apply reads_ret|]. apply reads_bind; [apply IH|]. intros; apply reads_ret.
Qed.

(** a traversal whose operation may fail, made total *)
Definition total_op {T} (op : T -> positive -> M T) (acc : option T) (a : positive) : M (option T) := fun s =>
  match acc with
  | None => Ok None s
  | Some acc => match op acc a s with Ok acc' _ => Ok (Some acc') s | _ => Ok None s end
  end.

Lemma trav_post_total {T} (op : T -> positive -> M T) fuel : (forall acc a, reads (op acc a)) -> forall acc a s acc' s',
  trav_post op fuel acc a s = Ok acc' s' -> trav_post (total_op op) fuel (Some acc) a s = Ok (Some acc') s'.
Proof.
  intros Hop. induction fuel as [|fuel IH]; intros acc a s acc' s' E; [done|]. cbn [trav_post] in *.
  unfold bind at 1 in E. unfold bind at 1. destruct (toggle_mark a s) as [[] s1| |]; [|done|done].
  unfold bind at 1 in E. unfold bind at 1. destruct (getn a s1) as [n s2| |]; [|done|done].
  assert (Hlast : forall acc1 acc' t t', op acc1 a t = Ok acc' t' -> total_op op (Some acc1) a t = Ok (Some acc') t').
  { intros acc1 acc2 t t' E1. unfold total_op. rewrite E1. by rewrite (Hop _ _ _ _ _ E1). }
  unfold bind at 1 in E. unfold bind at 1. destruct (n_body n) as [v|i sons].
  - simpl in *. by apply Hlast.
  - revert acc s2 E. induction sons as [|b sons IHs]; intros acc t E; cbn [foldM] in *.
    + simpl in *. by apply Hlast.
    + unfold bind at 1 in E. unfold bind at 1.
      assert (X : forall acc1 t1, bind (marks_differ a b) (fun d : bool => if d then trav_post op fuel acc b else ret acc) t = Ok acc1 t1 ->
        bind (marks_differ a b) (fun d : bool => if d then trav_post (total_op op) fuel (Some acc) b else ret (Some acc)) t = Ok (Some acc1) t1).
      { intros acc1 t1 E1. unfold bind in *. destruct (marks_differ a b t) as [[] t2| |]; [by apply IH| |done|done].
        unfold ret in *. by simplify_eq. }
      destruct (bind (marks_differ a b) (fun d : bool => if d then trav_post op fuel acc b else ret acc) t) as [acc1 t1| |] eqn:E1; [|done|done].
      rewrite (X acc1 t1 eq_refl). apply IHs. done.
Qed.

Theorem C55_queries_restore : forall c strict opsem args ks s vars A x F a q r s',
  wf_cfg c -> history c opsem strict args ks s vars A -> ab_clean A = true ->
  ab A !! x = Some F -> vars !! x = Some a -> ask c q a s = Ok r s' -> s' = s.
Proof.
  intros c strict opsem args ks s vars A x F a q r s' Hc H Hcl HF Ha E.
  destruct (history_query _ _ _ _ _ _ _ _ _ _ Hc H HF) as (g&a'&Ha'&C&Hh&_&_&Cl&_). simplify_eq.
  assert (R : forall T (m : M T), reads m -> bind m (fun _ => ret tt) s = Ok r s' -> s' = s).
  { intros T m Hm E'. eapply (reads_bind m (fun _ => ret tt)); [exact Hm|intros; apply reads_ret|exact E']. }
  destruct q; simpl in E.
  - destruct (node_count_ok c opsem strict g s C (Cl Hcl) a Hh) as (D&_&_&E'). unfold bind in E. rewrite E' in E. unfold ret in E. by simplify_eq.
  - eapply R; [|exact E]. apply reads_gets.
  - eapply R; [|exact E]. apply reads_bind; [apply reads_gets|]. intros t. destruct (_ && _); [apply reads_fail|].
    apply reads_bind; [apply reads_opt|]. intros; apply reads_ret.
  - destruct (dependency_ok c opsem strict g s Hc C (Cl Hcl) a Hh) as (l&E'&_). unfold bind in E. rewrite E' in E. unfold ret in E. by simplify_eq.
  - unfold bind in E at 1. destruct (satisfy_count c v a s) as [z s1| |] eqn:E1; [|done|done].
    unfold ret in E. simplify_eq. unfold satisfy_count in E1.
    unfold bind in E1 at 1. destruct (value_check c v s) as [[] s2| |] eqn:E2; [|done|done].
    rewrite (reads_value_check c v s _ _ E2) in E1. clear E2 s2. unfold bind in E1 at 1.
    destruct (traverse_post c (count_op c v) ∅ a s) as [data s2| |] eqn:E2; [|done|done].
    assert (s2 = s) as ->.
    { unfold traverse_post in E2. unfold bind in E2 at 1.
      destruct (trav_post (count_op c v) (depth c) ∅ a s) as [d1 s3| |] eqn:E3; [|done|done].
      apply (trav_post_total _ _ (reads_count_op c v)) in E3.
      destruct (trav_post_root s a false (rank c g (s_heap s)) (nvars c)
        (held_uniform c opsem strict g s C (Cl Hcl) a Hh) (held_ranked c opsem strict g s C a Hh) (total_op (count_op c v))
        (fun _ _ => True)) with (acc := Some (∅ : gmap positive Z)) (fuel := depth c) as (D&acc'&E4&_&_&HD); [|done|unfold depth; lia|].
      { intros V D acc b _ _ _ _. unfold total_op. destruct acc as [acc|]; [|by exists None].
        destruct (count_op c v acc b (fs V s)); by eexists. }
      rewrite E3 in E4. simplify_eq. unfold bind in E2.
      rewrite (post_restores s a false (rank c g (s_heap s)) (nvars c)
        (held_uniform c opsem strict g s C (Cl Hcl) a Hh) (held_ranked c opsem strict g s C a Hh) D (depth c) HD ltac:(unfold depth; lia)) in E2.
      unfold ret in E2. by simplify_eq. }
    eapply (reads_bind (get_level c a)); [apply reads_level| |exact E1]. intros l. apply reads_bind; [apply reads_domain_product|].
    intros p. apply reads_opt.
  - eapply R; [|exact E]. apply reads_satisfy_one.
  - eapply R; [|exact E]. apply reads_satisfy_all.
  - eapply R; [|exact E]. apply reads_evaluate.
  - eapply R; [|exact E]. apply reads_to_vector.
  - eapply R; [|exact E]. apply reads_domain_product.
Qed.

Example C55_case : exists a s', ex_vars !! 4 = Some a /\ ask ex_cfg (QSatCount 2) a ex_st = Ok tt s' /\ s' = ex_st.
Proof.
  destruct (history_query _ _ _ _ _ _ _ _ 4 exF4 ex_wf ex_history eq_refl) as (g&a&Ha&_).
  assert (X : match ex_vars !! 4 with Some a => is_ok (ask ex_cfg (QSatCount 2) a ex_st) | None => false end = true) by (by vm_compute).
  rewrite Ha in X. apply ok_ex in X as ([]&s'&E). exists a, s'. split; [done|]. split; [done|].
  exact (C55_queries_restore ex_cfg true ex_ops ex_args ex_prog ex_st ex_vars ex_abs 4 exF4 a _ _ _ ex_wf ex_history eq_refl eq_refl Ha E).
Qed.

Print Assumptions C05_total_count.
Print Assumptions C05_index_count.
Print Assumptions C05_diagram_count.
Print Assumptions C11_satisfy_all.
Print Assumptions C09_satisfy_count.
Print Assumptions C10_satisfy_one.
Print Assumptions C19_dependency_set.
Print Assumptions C38_domain_product.
Print Assumptions C60_minimal.
Print Assumptions C55_queries_restore.
