(** * Properties of the probability queries: C45, C46, C47, C48, C51 *)

From stdpp Require Import gmap list.
From Coq Require Import ZArith Lia Ring QArith Qcanon Reals Lra.
From Flocq Require Import Core BinarySingleNaN.
From Verif Require Import Base Ops Tables NodeManager Tools Sift DiagramManager Reliability World Queries.
From Verif Require Import Heap Inv InvLemmas Prim GC Make Build Apply Api Eval VecSpec Vec WorldSpec Ctor History PropsBase Chain PropsBase2 Examples Refuted.
From Verif Require Import Trav QuerySpec QueryProof Minimal PropsQuery PropsDpld.
From Verif Require Import Prob ProbSpec Expect ProbProof CountProof ProbFloat.

Local Close Scope Q_scope.
Local Close Scope Qc_scope.
Local Close Scope R_scope.
Local Open Scope nat_scope.
Local Opaque exec run new_manager evaluate satisfy_all force_reorder.

(** the object never has the value Undefined *)
Definition defined (c : cfg) (F : asg -> Z) : Prop := forall vals, vals_ok c vals -> F (of_vals vals) <> Undef.

(** the probability that [F] has a value in [P] *)
Definition prob_of {R} (ar : arith R) (c : cfg) (ps : list (list R)) (P : Z -> bool) (F : asg -> Z) : R :=
  probability ar (c_doms c) ps (fun x => P (F (of_vals x))).

(** ** Preparation *)

Lemma states_vals c x : x ∈ states (c_doms c) <-> vals_ok c x.
Proof.
  rewrite states_elem. split.
  - intros H. pose proof (Forall2_length _ _ _ H) as Hl. split; [exact Hl|].
    intros i Hi. unfold of_vals, dom.
    destruct (lookup_lt_is_Some_2 (c_doms c) i Hi) as [d Ed]. destruct (Forall2_lookup_r _ _ _ _ _ H Ed) as (k&Ek&Hk).
    by rewrite (nth_lookup_Some _ _ _ _ Ek), (nth_lookup_Some _ _ _ _ Ed).
  - intros [Hl Hv]. apply Forall2_same_length_lookup_2; [exact Hl|]. intros i k d Ek Ed.
    assert (Hi : i < nvars c) by (by eapply lookup_lt_Some). specialize (Hv i Hi). unfold of_vals, dom in Hv.
    by rewrite (nth_lookup_Some _ _ _ _ Ek), (nth_lookup_Some _ _ _ _ Ed) in Hv.
Qed.

Section prep.
Context {R : Type} (ar : arith R) (RT : exact ar) (c : cfg).
Let RT' : ring_theory (a_zero ar) (a_one ar) (a_add ar) (a_mul ar) (a_sub ar) (a_opp ar) eq := RT.
Add Ring exact_ring : RT'.

Lemma probability_ext ps A B : (forall x, vals_ok c x -> A x = B x) -> probability ar (c_doms c) ps A = probability ar (c_doms c) ps B.
Proof.
  intros H. unfold probability. f_equal. apply map_ext_in. intros x Hx. rewrite H; [done|]. by apply states_vals, elem_of_list_In.
Qed.

(** the sure event *)
Lemma total_probability ds ps : distributions ar ds ps -> probability ar ds ps (fun _ => true) = a_one ar.
Proof.
  intros H. unfold probability. induction H as [|d row ds ps [Hl Hs] H IH]; cbn [states map].
  - unfold rsum. simpl. ring.
  - rewrite (rsum_flat ar RT). rewrite (rsum_ext ar _ (fun k => a_mul ar (nth k row (a_zero ar)) (a_one ar))).
    + rewrite <- (rsum_scale_r ar RT), <- Hl, map_nth_seq, Hs. ring.
    + intros k _. rewrite map_map. rewrite <- IH. rewrite (rsum_scale ar RT). done.
Qed.

Lemma complement ps P F : distributions ar (c_doms c) ps ->
  a_add ar (prob_of ar c ps P F) (prob_of ar c ps (fun v => negb (P v)) F) = a_one ar.
Proof.
  intros H. rewrite <- (total_probability (c_doms c) ps H). unfold prob_of, probability. rewrite (rsum_add ar RT).
  apply (rsum_ext ar). intros x _. destruct (P _); simpl; ring.
Qed.

Lemma two_state_ok ps : Forall (eq 2) (c_doms c) -> length ps = nvars c -> distributions ar (c_doms c) (two_state ar ps).
Proof.
  intros H2 Hl. apply Forall2_same_length_lookup_2; [by unfold two_state; rewrite map_length, Hl|].
  intros i d row Ed Er. unfold two_state in Er. rewrite list_lookup_fmap in Er. destruct (ps !! i) as [p|]; [|done].
  simpl in Er. injection Er as <-. rewrite Forall_lookup in H2. rewrite <- (H2 i d Ed). split; [done|]. unfold rsum. simpl. ring.
Qed.
End prep.

Section reads.
Context {R : Type} (ar : arith R) (RT : exact ar) (c : cfg).

Lemma matrix_pr ps i k t : distributions ar (c_doms c) ps -> i < nvars c -> k < dom c i -> matrix ps i k t = Ok (pr_of ar ps i k) t.
Proof.
  intros Hd Hi Hk. destruct (row_of c ar ps Hd i Hi) as (row&Er&Hl&_). unfold matrix, pr_of.
  rewrite Er, (bind_ok _ _ _ row t) by done. rewrite (nth_lookup_Some _ _ _ _ Er).
  destruct (lookup_lt_is_Some_2 row k) as [p Hp]; [lia|]. by rewrite Hp, (nth_lookup_Some _ _ _ _ Hp).
Qed.

Lemma wrapped_pr ps i k t : Forall (eq 2) (c_doms c) -> length ps = nvars c -> i < nvars c -> k < dom c i ->
  wrapped c ar ps i k t = Ok (pr_of ar (two_state ar ps) i k) t.
Proof.
  intros H2 Hl Hi Hk. destruct (lookup_lt_is_Some_2 (c_doms c) i Hi) as [d Ed]. rewrite Forall_lookup in H2.
  assert (dom c i = 2) as E2 by (unfold dom; rewrite (nth_lookup_Some _ _ _ _ Ed); symmetry; by eapply H2).
  destruct (lookup_lt_is_Some_2 ps i) as [p Hp]; [lia|]. unfold wrapped, pr_of.
  assert (Er : two_state ar ps !! i = Some [a_sub ar (a_one ar) p; p]) by (unfold two_state; by rewrite list_lookup_fmap, Hp).
  rewrite (nth_lookup_Some _ _ _ _ Er), Hp. destruct k as [|[|k]]; [| |lia]; cbn [Nat.eqb orb negb]; by rewrite andb_false_r.
Qed.
End reads.

(** a value that occurs in the diagram is a value of the function *)
Lemma reach_undef c opsem strict args ks s vars A x F g a : wf_cfg c -> history c opsem strict args ks s vars A -> ab A !! x = Some F ->
  calm c opsem strict g s -> held g (s_heap s) a -> fun_eq c F (nval c s a) -> defined c F ->
  forall y, reach (live (s_heap s)) a y -> live (s_heap s) y <> Some (Term Undef).
Proof.
  intros Hc H HF C Hh EF Hdef y Hy E. destruct (reach_path c opsem strict g s Hc C a y Hh Hy) as (rho&Hv&Hn).
  assert (Hyh : held g (s_heap s) y) by (by eapply held_reach).
  pose proof (Hn rho Hv (fun _ _ => eq_refl)) as E1.
  rewrite (nval_term c opsem strict g s C y rho Undef Hyh Hv E), <- EF in E1 by done.
  set (vals := map rho (seq 0 (nvars c))).
  assert (Ev : forall j, j < nvars c -> of_vals vals j = rho j).
  { intros j Hj. unfold of_vals, vals. rewrite (nth_indep _ 0 (rho 0)) by (rewrite map_length, seq_length; lia).
    rewrite map_nth, seq_nth by lia. done. }
  apply (Hdef vals).
  - split; [unfold vals; by rewrite map_length, seq_length|]. intros j Hj. rewrite Ev by done. by apply Hv.
  - rewrite <- E1. symmetry. apply (history_ext c opsem strict args ks s vars A x F rho _ Hc H HF Hv). intros; by rewrite Ev.
Qed.

(** the probabilities that are read, as a matrix *)
Definition reads_as {R} (ar : arith R) (c : cfg) (pr : probs) (ps : list (list R)) : Prop :=
  distributions ar (c_doms c) ps /\ forall i k t, i < nvars c -> k < dom c i -> pr i k t = Ok (pr_of ar ps i k) t.

Lemma Ev_terminal H a rho v : Ev H a rho v -> exists t, H t = Some (Term v).
Proof. induction 1; eauto. Qed.

Section general.
Context {R : Type} (ar : arith R) (RT : exact ar).
Context (c : cfg) (strict : bool) (opsem : Z -> option (Z -> Z -> Z)) (args : cargs) (ks : list call) (s : st) (vars : vars_t) (A : astate).
Context (Hc : wf_cfg c) (H : history c opsem strict args ks s vars A) (Hcl : ab_clean A = true).
Context (x : nat) (F : asg -> Z) (HF : ab A !! x = Some F) (a : positive) (Ha : vars !! x = Some a).
Context (pr : probs) (ps : list (list R)) (Hpr : reads_as ar c pr ps).

Lemma post_general sel data : Forall (fun v => (0 <= v)%Z /\ v <> Undef) sel -> defined c F ->
  exists data', ntps_post c ar sel pr a data s = Ok (prob_of ar c ps (has sel) F, data') s.
Proof.
  intros Hs Hdef. destruct (history_query _ _ _ _ _ _ _ _ _ _ Hc H HF) as (g&a'&Ha'&C&Hh&EF&_&Cl&_). simplify_eq.
  destruct Hpr as [Hd Hp]. pose proof (reach_undef _ _ _ _ _ _ _ _ _ _ _ _ Hc H HF C Hh EF Hdef) as HU.
  destruct (ntps_post_ok c opsem strict g s Hc C (Cl Hcl) ar RT ps Hd pr Hp sel a data Hh Hs HU) as (data'&E).
  exists data'. rewrite E. do 2 f_equal. apply probability_ext. intros y Hy. rewrite EF; [done|apply Hy].
Qed.

Lemma values_general P data : defined c F ->
  exists data', (let* vs := values_with P in ntps_post c ar vs pr a data) s = Ok (prob_of ar c ps P F, data') s.
Proof.
  intros Hdef. destruct (history_query _ _ _ _ _ _ _ _ _ _ Hc H HF) as (g&a'&Ha'&C&Hh&EF&_&Cl&_). simplify_eq.
  destruct (values_with_ok c opsem strict g s C P) as (vs&E&Hvs&Hhas). rewrite (bind_ok _ _ _ _ _ E).
  destruct (post_general vs data Hvs Hdef) as (data'&E'). exists data'. rewrite E'. do 2 f_equal.
  apply probability_ext. intros y Hy. pose proof (Hdef y Hy) as Hu. rewrite EF in Hu |- * by apply Hy.
  destruct (Ev_terminal _ _ _ _ (nval_Ev c opsem strict g s C a (of_vals y) Hh (proj2 Hy))) as (t&Et). by apply (Hhas t).
Qed.

Lemma level_general data : exists data', calculate_probabilities c ar pr a data s = Ok data' s /\
  (forall j, (0 <= j)%Z -> j <> Undef -> get_probability ar j data' s = Ok (prob_of ar c ps (Z.eqb j) F) s) /\
  (defined c F -> forall P, sum_with ar P data' s = Ok (prob_of ar c ps P F) s).
Proof.
  destruct (history_query _ _ _ _ _ _ _ _ _ _ Hc H HF) as (g&a'&Ha'&C&Hh&EF&_&Cl&_). simplify_eq.
  destruct Hpr as [Hd Hp].
  destruct (ntps_level_ok c opsem strict g s Hc C (Cl Hcl) ar RT ps Hd pr Hp a data Hh) as (K&data'&NK&HK&E&HS).
  assert (EW : forall P, W c g s ar ps (ind ar P) a = prob_of ar c ps P F).
  { intros P. rewrite (W_probability c opsem strict g s Hc C ar RT ps Hd P a Hh). apply probability_ext. intros y Hy.
    rewrite EF; [done|apply Hy]. }
  exists data'. split; [exact E|]. split.
  - intros j H0 Hu. rewrite <- EW. by apply (settled_probability c opsem strict g s C ar RT ps a K).
  - intros Hdef P. rewrite <- EW. apply (sum_with_ok c opsem strict g s C ar RT ps a K); try done.
    by apply (reach_undef _ _ _ _ _ _ _ _ _ _ _ _ Hc H HF C Hh EF Hdef).
Qed.
End general.

Lemma matrix_reads {R} (ar : arith R) c ps : distributions ar (c_doms c) ps -> reads_as ar c (matrix ps) ps.
Proof. intros Hd. split; [done|]. intros. by apply (matrix_pr ar c). Qed.

Lemma wrapped_reads {R} (ar : arith R) c ps : exact ar -> Forall (eq 2) (c_doms c) -> length ps = nvars c ->
  reads_as ar c (wrapped c ar ps) (two_state ar ps).
Proof. intros RT H2 Hl. split; [by apply two_state_ok|]. intros. by apply (wrapped_pr ar c). Qed.

(** ** C45 *)

Theorem C45_calculate_probability : forall R (ar : arith R) c strict opsem args ks s vars A x F a ps j data,
  exact ar -> wf_cfg c -> history c opsem strict args ks s vars A -> ab_clean A = true ->
  ab A !! x = Some F -> vars !! x = Some a -> defined c F ->
  distributions ar (c_doms c) ps -> (0 <= j)%Z -> j <> Undef ->
  exists data', calculate_probability c ar j (matrix ps) a data s
    = Ok (probability ar (c_doms c) ps (fun vals => F (of_vals vals) =? j)%Z, data') s.
Proof.
  intros R ar c strict opsem args ks s vars A x F a ps j data RT Hc H Hcl HF Ha Hdef Hd H0 Hu.
  destruct (post_general ar RT c strict opsem args ks s vars A Hc H Hcl x F HF a Ha (matrix ps) ps (matrix_reads ar c ps Hd) [j] data)
    as (data'&E); [by repeat constructor|done|].
  exists data'. unfold calculate_probability. rewrite E. do 2 f_equal. apply probability_ext. intros y _. unfold has. simpl. by rewrite orb_false_r.
Qed.

(** systems with two states: the probabilities of state 1 are given, and state 1 is asked for *)
Theorem C45_calculate_probability_bss : forall R (ar : arith R) c strict opsem args ks s vars A x F a ps data,
  exact ar -> wf_cfg c -> history c opsem strict args ks s vars A -> ab_clean A = true ->
  ab A !! x = Some F -> vars !! x = Some a -> defined c F ->
  Forall (eq 2) (c_doms c) -> length ps = nvars c ->
  exists data', calculate_probability c ar 1 (wrapped c ar ps) a data s
    = Ok (probability ar (c_doms c) (two_state ar ps) (fun vals => F (of_vals vals) =? 1)%Z, data') s.
Proof.
  intros R ar c strict opsem args ks s vars A x F a ps data RT Hc H Hcl HF Ha Hdef H2 Hl.
  destruct (post_general ar RT c strict opsem args ks s vars A Hc H Hcl x F HF a Ha (wrapped c ar ps) (two_state ar ps)
    (wrapped_reads ar c ps RT H2 Hl) [1%Z] data) as (data'&E); [by repeat constructor|done|].
  exists data'. unfold calculate_probability. rewrite E. do 2 f_equal. apply probability_ext. intros y _. unfold has. simpl. by rewrite orb_false_r.
Qed.

(** ** C46 *)

(** undefined values may occur *)
Theorem C46_calculate_probabilities : forall R (ar : arith R) c strict opsem args ks s vars A x F a ps data,
  exact ar -> wf_cfg c -> history c opsem strict args ks s vars A -> ab_clean A = true ->
  ab A !! x = Some F -> vars !! x = Some a -> distributions ar (c_doms c) ps ->
  exists data', calculate_probabilities c ar (matrix ps) a data s = Ok data' s /\
    forall j, (0 <= j)%Z -> j <> Undef ->
      get_probability ar j data' s = Ok (probability ar (c_doms c) ps (fun vals => j =? F (of_vals vals))%Z) s.
Proof.
  intros R ar c strict opsem args ks s vars A x F a ps data RT Hc H Hcl HF Ha Hd.
  destruct (level_general ar RT c strict opsem args ks s vars A Hc H Hcl x F HF a Ha (matrix ps) ps (matrix_reads ar c ps Hd) data)
    as (data'&E&H1&_). by exists data'.
Qed.

Theorem C46_calculate_probabilities_bss : forall R (ar : arith R) c strict opsem args ks s vars A x F a ps data,
  exact ar -> wf_cfg c -> history c opsem strict args ks s vars A -> ab_clean A = true ->
  ab A !! x = Some F -> vars !! x = Some a -> Forall (eq 2) (c_doms c) -> length ps = nvars c ->
  exists data', calculate_probabilities c ar (wrapped c ar ps) a data s = Ok data' s /\
    forall j, (0 <= j)%Z -> j <> Undef ->
      get_probability ar j data' s = Ok (probability ar (c_doms c) (two_state ar ps) (fun vals => j =? F (of_vals vals))%Z) s.
Proof.
  intros R ar c strict opsem args ks s vars A x F a ps data RT Hc H Hcl HF Ha H2 Hl.
  destruct (level_general ar RT c strict opsem args ks s vars A Hc H Hcl x F HF a Ha (wrapped c ar ps) (two_state ar ps)
    (wrapped_reads ar c ps RT H2 Hl) data) as (data'&E&H1&_). by exists data'.
Qed.

(** ** C47 *)

Theorem C47_calculate : forall R (ar : arith R) c strict opsem args ks s vars A x F a ps j data,
  exact ar -> wf_cfg c -> history c opsem strict args ks s vars A -> ab_clean A = true ->
  ab A !! x = Some F -> vars !! x = Some a -> defined c F -> distributions ar (c_doms c) ps ->
  exists av un data1 data2,
    calculate_availability c ar j (matrix ps) a data s = Ok (av, data1) s /\
    calculate_unavailability c ar j (matrix ps) a data1 s = Ok (un, data2) s /\
    av = probability ar (c_doms c) ps (fun vals => j <=? F (of_vals vals))%Z /\
    un = probability ar (c_doms c) ps (fun vals => F (of_vals vals) <? j)%Z /\
    a_add ar av un = a_one ar.
Proof.
  intros R ar c strict opsem args ks s vars A x F a ps j data RT Hc H Hcl HF Ha Hdef Hd.
  pose proof (values_general ar RT c strict opsem args ks s vars A Hc H Hcl x F HF a Ha (matrix ps) ps (matrix_reads ar c ps Hd)) as G.
  destruct (G (fun v => j <=? v)%Z data Hdef) as (data1&E1). destruct (G (fun v => v <? j)%Z data1 Hdef) as (data2&E2).
  eexists _, _, data1, data2. split; [exact E1|]. split; [exact E2|]. split; [done|]. split; [done|].
  rewrite <- (complement ar RT c ps (fun v => j <=? v)%Z F Hd). f_equal. apply probability_ext. intros y _. apply Z.ltb_antisym.
Qed.

Theorem C47_get : forall R (ar : arith R) c strict opsem args ks s vars A x F a ps data,
  exact ar -> wf_cfg c -> history c opsem strict args ks s vars A -> ab_clean A = true ->
  ab A !! x = Some F -> vars !! x = Some a -> defined c F -> distributions ar (c_doms c) ps ->
  exists data', calculate_probabilities c ar (matrix ps) a data s = Ok data' s /\
    get_availability_bss ar data' s = Ok (probability ar (c_doms c) ps (fun vals => 1 =? F (of_vals vals))%Z) s /\
    forall j, exists av un,
      get_availability ar j data' s = Ok av s /\ get_unavailability ar j data' s = Ok un s /\
      av = probability ar (c_doms c) ps (fun vals => j <=? F (of_vals vals))%Z /\
      un = probability ar (c_doms c) ps (fun vals => F (of_vals vals) <? j)%Z /\
      a_add ar av un = a_one ar.
Proof.
  intros R ar c strict opsem args ks s vars A x F a ps data RT Hc H Hcl HF Ha Hdef Hd.
  destruct (level_general ar RT c strict opsem args ks s vars A Hc H Hcl x F HF a Ha (matrix ps) ps (matrix_reads ar c ps Hd) data)
    as (data'&E&H1&H2). exists data'. split; [exact E|]. split; [by apply H1|].
  intros j. eexists _, _. split; [by apply (H2 Hdef)|]. split; [by apply (H2 Hdef)|]. split; [done|]. split; [done|].
  rewrite <- (complement ar RT c ps (fun v => j <=? v)%Z F Hd). f_equal. apply probability_ext. intros y _. apply Z.ltb_antisym.
Qed.

(** ** C48 *)

Lemma count_general R (ar : arith R) B c strict opsem args ks s vars A x F a j sols data :
  counts_to ar B -> wf_cfg c -> history c opsem strict args ks s vars A -> ab_clean A = true ->
  ab A !! x = Some F -> vars !! x = Some a -> value_ok c j ->
  (dom_prod (c_doms c) <= product_limit c)%Z -> (dom_prod (c_doms c) <= B)%Z -> all_solutions c F j sols ->
  domain_product c 0 (nvars c) s = Ok (dom_prod (c_doms c)) s /\
  exists data', satisfy_count_data c ar j a data s = Ok (Z.of_nat (length sols), data') s.
Proof.
  intros HC Hc H Hcl HF Ha Hj Hfit HB HS.
  destruct (history_query _ _ _ _ _ _ _ _ _ _ Hc H HF) as (g&a'&Ha'&C&Hh&EF&_&Cl&_). simplify_eq.
  destruct (all_sols_all c (s_l2i s) (nval c s a) j (order_NoDup c opsem strict g s C) (order_elem c opsem strict g s C)) as [H1 H2].
  pose proof (dom_prod_order c s (proj1 (cl_ord _ _ _ _ _ C))) as ED. rewrite ED in Hfit, HB.
  assert (EL : level_product c (s_l2i s) 0 (nvars c) = dom_prod (c_doms c)).
  { rewrite ED. unfold level_product. rewrite drop_0, take_ge; [done|].
    rewrite (pm_l2i _ _ (proj1 (cl_ord _ _ _ _ _ C))). lia. }
  split.
  - rewrite <- EL. apply (domain_product_ok c opsem s 0 (nvars c) Hc (proj1 (cl_ord _ _ _ _ _ C))); [lia|]. by rewrite EL, ED.
  - destruct (satisfy_count_data_ok c opsem strict g s Hc C (Cl Hcl) ar B HC j Hfit HB a data Hh Hj) as (data'&E).
    exists data'. rewrite E. do 2 f_equal. f_equal.
    eapply all_solutions_length; [|exact HS]. eapply all_solutions_ext; [by apply fun_eq_sym|done].
Qed.

(** the number of assignments with value [j] over the number of all assignments *)
Theorem C48_state_frequency : forall R (ar : arith R) B c strict opsem args ks s vars A x F a j sols data,
  counts_to ar B -> wf_cfg c -> history c opsem strict args ks s vars A -> ab_clean A = true ->
  ab A !! x = Some F -> vars !! x = Some a -> value_ok c j ->
  (dom_prod (c_doms c) <= product_limit c)%Z -> (dom_prod (c_doms c) <= B)%Z -> all_solutions c F j sols ->
  exists data', state_frequency c ar j a data s
    = Ok (a_div ar (a_ofZ ar (Z.of_nat (length sols))) (a_ofZ ar (dom_prod (c_doms c))), data') s.
Proof.
  intros R ar B c strict opsem args ks s vars A x F a j sols data HC Hc H Hcl HF Ha Hj Hfit HB HS.
  destruct (count_general R ar B c strict opsem args ks s vars A x F a j sols data HC Hc H Hcl HF Ha Hj Hfit HB HS) as (E1&data'&E2).
  exists data'. unfold state_frequency. rewrite (bind_ok _ _ _ _ _ E1), (bind_ok _ _ _ _ _ E2). done.
Qed.

(** the number of all assignments *)
Lemma dom_prod_states c : dom_prod (c_doms c) = Z.of_nat (length (states (c_doms c))).
Proof.
  induction (c_doms c) as [|d ds IH]; [done|]. cbn [states dom_prod fold_right]. unfold dom_prod in IH. rewrite IH.
  assert (X : forall l, length (flat_map (fun k => map (cons k) (states ds)) l) = length l * length (states ds)).
  { induction l as [|k l IHl]; simpl; [done|]. by rewrite app_length, map_length, IHl. }
  rewrite X, seq_length. lia.
Qed.

(** with doubles the result is the quotient rounded to the nearest double, provided that there are at most 2^53 assignments *)
Theorem C48_state_frequency_double : forall c strict opsem args ks s vars A x F a j sols data,
  wf_cfg c -> history c opsem strict args ks s vars A -> ab_clean A = true ->
  ab A !! x = Some F -> vars !! x = Some a -> value_ok c j ->
  (dom_prod (c_doms c) <= product_limit c)%Z -> (dom_prod (c_doms c) <= 2 ^ 53)%Z -> all_solutions c F j sols ->
  exists r data', state_frequency c b64_arith j a data s = Ok (r, data') s /\ is_finite r = true /\
    B2R r = round radix2 (SpecFloat.fexp 53 1024) ZnearestE (IZR (Z.of_nat (length sols)) / IZR (Z.of_nat (length (states (c_doms c)))))%R.
Proof.
  intros c strict opsem args ks s vars A x F a j sols data Hc H Hcl HF Ha Hj Hfit HB HS.
  destruct (C48_state_frequency b64 b64_arith (2 ^ 53) c strict opsem args ks s vars A x F a j sols data b64_counts Hc H Hcl HF Ha Hj Hfit HB HS)
    as (data'&E).
  eexists _, data'. split; [exact E|]. clear E. rewrite dom_prod_states in *.
  assert (Hn : length sols <= length (states (c_doms c))).
  { destruct HS as [ND HS]. apply submseteq_length, NoDup_submseteq; [exact ND|]. intros y Hy. apply states_vals. by apply HS in Hy as [Hy _]. }
  assert (Hp : 0 < length (states (c_doms c))).
  { destruct (states (c_doms c)) as [|y l] eqn:El; [|simpl; lia]. exfalso.
    assert (Y : replicate (nvars c) 0 ∈ states (c_doms c)) by (apply states_vals; by apply zeros_ok). rewrite El in Y. by apply elem_of_nil in Y. }
  set (n := Z.of_nat (length sols)) in *. set (N := Z.of_nat (length (states (c_doms c)))) in *.
  assert (B1 : (0 <= n <= 2 ^ 53)%Z) by lia. assert (B2 : (0 <= N <= 2 ^ 53)%Z) by lia.
  destruct (of_Z_facts n B1) as (X1&X2&X3). destruct (of_Z_facts N B2) as (Y1&Y2&Y3).
  assert (HN : (0 < IZR N)%R) by (apply IZR_lt; lia). assert (Hn0 : (0 <= IZR n)%R) by (apply IZR_le; lia).
  assert (Hle : (IZR n <= IZR N)%R) by (apply IZR_le; lia).
  pose proof (Bdiv_correct 53 1024 b64_prec b64_emax mode_NE (b64_of_Z n) (b64_of_Z N)) as G. rewrite X1, Y1 in G.
  specialize (G ltac:(apply Rgt_not_eq; exact HN)).
  assert (Q0 : (0 <= IZR n / IZR N)%R) by (apply Rmult_le_pos; [exact Hn0|left; by apply Rinv_0_lt_compat]).
  assert (Q1 : (IZR n / IZR N <= 1)%R) by (apply (Rmult_le_reg_r (IZR N)); [exact HN|]; unfold Rdiv; rewrite Rmult_assoc, Rinv_l; [lra|apply Rgt_not_eq; exact HN]).
  rewrite Rlt_bool_true in G.
  - destruct G as (G1&G2&_). rewrite X2 in G2. split; [exact G2|exact G1].
  - apply Rle_lt_trans with 1%R.
    + apply Rabs_le. split.
      * apply Rle_trans with 0%R; [lra|]. apply round_ge_generic; [typeclasses eauto..|apply generic_format_0|exact Q0].
      * apply round_le_generic; [typeclasses eauto..| |exact Q1]. apply (int_format 1). lia.
    + change 1%R with (bpow radix2 0). by apply bpow_lt.
Qed.

(** the importance of a derivative: how often, and how likely, the change of the
    variable causes the change of the value *)
Theorem C48_importance : forall R (ar : arith R) c strict opsem args ks s vars A d x F i from to t vars' s',
  exact ar -> counts_to ar (dom_prod (c_doms c)) ->
  wf_cfg c -> history c opsem strict args ks s vars A -> ab_clean A = true ->
  ab A !! x = Some F -> tval c 1 -> i < nvars c -> from < dom c i -> to < dom c i -> value_ok c 1 ->
  (dom_prod (c_doms c) <= product_limit c)%Z ->
  exec c (CDpld d (VarChange i from to) (detector t) x) vars s = Ok vars' s' ->
  exists a, vars' !! d = Some a /\
    (forall sols data,
      NoDup sols -> (forall vals, vals ∈ sols <-> vals_ok c vals /\ changes t (F (of_vals (<[i := from]> vals))) (F (of_vals (<[i := to]> vals)))) ->
      exists data', structural_importance c ar a data s'
        = Ok (a_div ar (a_ofZ ar (Z.of_nat (length sols))) (a_ofZ ar (dom_prod (c_doms c))), data') s') /\
    (forall ps data E, distributions ar (c_doms c) ps ->
      (forall vals, vals_ok c vals ->
        E vals = true <-> changes t (F (of_vals (<[i := from]> vals))) (F (of_vals (<[i := to]> vals)))) ->
      exists data', birnbaum_importance c ar (matrix ps) a data s' = Ok (probability ar (c_doms c) ps E, data') s').
Proof.
  intros R ar c strict opsem args ks s vars A d x F i from to t vars' s' RT HC Hc H Hcl HF H1 Hi Hf Ht Hv1 Hfit E.
  pose proof (S_dpld c opsem strict s d (VarChange i from to) (detector t) x F A HF H1 Hf Ht) as Sp.
  pose proof (H_call _ _ _ _ _ _ _ _ _ _ _ _ H Sp E) as H'. clear E Sp. cbn [vc_index vc_from vc_to] in H'.
  match type of H' with history _ _ _ _ _ _ _ (bindf d ?G A) => set (D := G) in * end.
  assert (HD : ab (bindf d D A) !! d = Some D) by apply lookup_insert.
  destruct (history_query _ _ _ _ _ _ _ _ _ _ Hc H' HD) as (_&a&Ha&_). exists a. split; [exact Ha|].
  assert (Ed : forall vals, vals_ok c vals ->
    D (of_vals vals) = if detector t (F (of_vals (<[i := from]> vals))) (F (of_vals (<[i := to]> vals))) then 1%Z else 0%Z).
  { intros vals Hv. unfold D. rewrite !(vals_upd c opsem strict args ks s vars A x F) by done. done. }
  split.
  - intros sols data ND HS.
    apply (C48_state_frequency R ar (dom_prod (c_doms c)) c strict opsem args _ s' vars' _ d D a 1 sols data HC Hc H' Hcl HD Ha Hv1 Hfit); [done|].
    split; [exact ND|]. intros vals. rewrite HS. unfold solution. split; intros [Hv X]; (split; [exact Hv|]); rewrite <- ?detector_spec in *.
    + by rewrite Ed, X.
    + rewrite Ed in X by done. by destruct (detector t _ _).
  - intros ps data E Hd HE.
    destruct (C45_calculate_probability R ar c strict opsem args _ s' vars' _ d D a ps 1 data RT Hc H' Hcl HD Ha) as (data'&X); try done.
    + intros vals Hv. rewrite Ed by done. by destruct (detector t _ _).
    + exists data'. unfold birnbaum_importance. rewrite X. do 2 f_equal. apply probability_ext. intros vals Hv. rewrite Ed by done.
      specialize (HE vals Hv). rewrite <- detector_spec in HE. destruct (detector t _ _), (E vals); try done.
      * discriminate (proj2 HE eq_refl).
      * discriminate (proj1 HE eq_refl).
Qed.

(** ** C62: satisfy_count of a reliability manager *)

Theorem C62_count_double : forall c strict opsem args ks s vars A x F a j sols data,
  wf_cfg c -> history c opsem strict args ks s vars A -> ab_clean A = true ->
  ab A !! x = Some F -> vars !! x = Some a -> value_ok c j ->
  (dom_prod (c_doms c) <= product_limit c)%Z -> (dom_prod (c_doms c) <= 2 ^ 53)%Z -> all_solutions c F j sols ->
  exists data', satisfy_count_data c b64_arith j a data s = Ok (Z.of_nat (length sols), data') s.
Proof.
  intros c strict opsem args ks s vars A x F a j sols data Hc H Hcl HF Ha Hj Hfit HB HS.
  apply (count_general b64 b64_arith (2 ^ 53) c strict opsem args ks s vars A x F a j sols data b64_counts Hc H Hcl HF Ha Hj Hfit HB HS).
Qed.

(** ** Exact arithmetic: the rational numbers *)

Definition q_arith : arith Qc := Arith Qc 0%Qc 1%Qc Qcplus Qcminus Qcmult Qcdiv (fun z => Q2Qc (inject_Z z))
  (fun q => chk min64 max64 (Z.quot (Qnum q) (Zpos (Qden q)))).

Lemma q_exact : exact q_arith.
Proof.
  constructor; intros; simpl; unfold a_opp; simpl; try ring.
Qed.

Lemma q_counts B : counts_to q_arith B.
Proof.
  constructor; simpl.
  - done.
  - done.
  - intros x y _ _ _. apply Qc_is_canon. simpl. rewrite !Qred_correct. by rewrite inject_Z_plus.
  - intros x y _ _ _. apply Qc_is_canon. simpl. rewrite !Qred_correct. by rewrite inject_Z_mult.
  - intros x H0 H1. assert (E : Qred (inject_Z x) = inject_Z x).
    { apply Qred_identity. simpl. apply Z.gcd_1_r. }
    rewrite E. simpl. rewrite Z.quot_1_r. unfold chk. destruct (Z.leb_spec min64 x); [|unfold min64 in *; lia].
    destruct (Z.leb_spec x max64); [done|lia].
Qed.

(** ** Non-trivial cases *)

Definition q (n : Z) (d : positive) : Qc := Q2Qc (n # d).
Definition ex_ps : list (list Qc) := [[q 1 4; q 3 4]; [q 1 2; q 1 3; q 1 6]; [q 2 5; q 3 5]].

Lemma ex_distributions : distributions q_arith (c_doms ex_cfg) ex_ps.
Proof. repeat constructor; apply Qc_is_canon; by vm_compute. Qed.

Lemma ex_defined4 : defined ex_cfg exF4.
Proof. intros vals Hv E. pose proof (exF4_range (of_vals vals) (proj2 Hv)) as X. rewrite E in X. by destruct X as [_ X]. Qed.

Lemma ex_fits : (dom_prod (c_doms ex_cfg) <= product_limit ex_cfg)%Z. Proof. by vm_compute. Qed.

Example C45_case : exists a data', ex_vars !! 4 = Some a /\
  calculate_probability ex_cfg q_arith 2 (matrix ex_ps) a ∅ ex_st = Ok (q 59 120, data') ex_st.
Proof.
  assert (V : probability q_arith (c_doms ex_cfg) ex_ps (fun vals => exF4 (of_vals vals) =? 2)%Z = q 59 120)
    by (apply Qc_is_canon; by vm_compute).
  destruct (history_query _ _ _ _ _ _ _ _ 4 exF4 ex_wf ex_history eq_refl) as (_&a&Ha&_).
  destruct (C45_calculate_probability Qc q_arith ex_cfg true ex_ops ex_args ex_prog ex_st ex_vars ex_abs 4 exF4 a ex_ps 2 ∅ q_exact ex_wf
    ex_history eq_refl eq_refl Ha ex_defined4 ex_distributions) as (data'&E); [done|done|].
  exists a, data'. split; [exact Ha|]. rewrite E, V. done.
Qed.

Example C46_case : exists a data', ex_vars !! 4 = Some a /\
  calculate_probabilities ex_cfg q_arith (matrix ex_ps) a ∅ ex_st = Ok data' ex_st /\
  get_probability q_arith 2 data' ex_st = Ok (q 59 120) ex_st /\ get_probability q_arith 5 data' ex_st = Ok (q 0 1) ex_st.
Proof.
  assert (V : probability q_arith (c_doms ex_cfg) ex_ps (fun vals => 2 =? exF4 (of_vals vals))%Z = q 59 120)
    by (apply Qc_is_canon; by vm_compute).
  assert (V5 : probability q_arith (c_doms ex_cfg) ex_ps (fun vals => 5 =? exF4 (of_vals vals))%Z = q 0 1)
    by (apply Qc_is_canon; by vm_compute).
  destruct (history_query _ _ _ _ _ _ _ _ 4 exF4 ex_wf ex_history eq_refl) as (_&a&Ha&_).
  destruct (C46_calculate_probabilities Qc q_arith ex_cfg true ex_ops ex_args ex_prog ex_st ex_vars ex_abs 4 exF4 a ex_ps ∅ q_exact ex_wf
    ex_history eq_refl eq_refl Ha ex_distributions) as (data'&E&G).
  exists a, data'. split; [exact Ha|]. split; [exact E|]. split; (rewrite G; [|done|done]); [by rewrite V|by rewrite V5].
Qed.

Example C47_case : exists a data1 data2, ex_vars !! 4 = Some a /\
  calculate_availability ex_cfg q_arith 2 (matrix ex_ps) a ∅ ex_st = Ok (q 71 120, data1) ex_st /\
  calculate_unavailability ex_cfg q_arith 2 (matrix ex_ps) a data1 ex_st = Ok (q 49 120, data2) ex_st.
Proof.
  assert (V1 : probability q_arith (c_doms ex_cfg) ex_ps (fun vals => 2 <=? exF4 (of_vals vals))%Z = q 71 120)
    by (apply Qc_is_canon; by vm_compute).
  assert (V2 : probability q_arith (c_doms ex_cfg) ex_ps (fun vals => exF4 (of_vals vals) <? 2)%Z = q 49 120)
    by (apply Qc_is_canon; by vm_compute).
  destruct (history_query _ _ _ _ _ _ _ _ 4 exF4 ex_wf ex_history eq_refl) as (_&a&Ha&_).
  destruct (C47_calculate Qc q_arith ex_cfg true ex_ops ex_args ex_prog ex_st ex_vars ex_abs 4 exF4 a ex_ps 2 ∅ q_exact ex_wf
    ex_history eq_refl eq_refl Ha ex_defined4 ex_distributions) as (av&un&data1&data2&E1&E2&Hav&Hun&_).
  rewrite V1 in Hav. rewrite V2 in Hun. subst av un. exists a, data1, data2. split; [exact Ha|]. split; [exact E1|exact E2].
Qed.

Example C47_get_case : exists a data' av un, ex_vars !! 4 = Some a /\
  calculate_probabilities ex_cfg q_arith (matrix ex_ps) a ∅ ex_st = Ok data' ex_st /\
  get_availability q_arith 3 data' ex_st = Ok av ex_st /\ get_unavailability q_arith 3 data' ex_st = Ok un ex_st /\
  av = q 1 10 /\ un = q 9 10.
Proof.
  assert (V1 : probability q_arith (c_doms ex_cfg) ex_ps (fun vals => 3 <=? exF4 (of_vals vals))%Z = q 1 10)
    by (apply Qc_is_canon; by vm_compute).
  assert (V2 : probability q_arith (c_doms ex_cfg) ex_ps (fun vals => exF4 (of_vals vals) <? 3)%Z = q 9 10)
    by (apply Qc_is_canon; by vm_compute).
  destruct (history_query _ _ _ _ _ _ _ _ 4 exF4 ex_wf ex_history eq_refl) as (_&a&Ha&_).
  destruct (C47_get Qc q_arith ex_cfg true ex_ops ex_args ex_prog ex_st ex_vars ex_abs 4 exF4 a ex_ps ∅ q_exact ex_wf
    ex_history eq_refl eq_refl Ha ex_defined4 ex_distributions) as (data'&E&_&G).
  destruct (G 3%Z) as (av&un&E1&E2&Hav&Hun&_). rewrite V1 in Hav. rewrite V2 in Hun.
  exists a, data', av, un. split; [exact Ha|]. split; [exact E|]. split; [exact E1|]. split; [exact E2|]. split; [exact Hav|exact Hun].
Qed.

(** the number of solutions, whatever the list *)
Lemma solutions_count c F v l : all_solutions c F v l -> length l = length (filter (fun vals => F (of_vals vals) = v) (states (c_doms c))).
Proof.
  intros [ND H]. apply Permutation_length, NoDup_Permutation; [exact ND|apply NoDup_filter, states_NoDup|].
  intros vals. rewrite H, elem_of_list_filter, states_vals. unfold solution. tauto.
Qed.

Lemma solutions_ex c F v : all_solutions c F v (filter (fun vals => F (of_vals vals) = v) (states (c_doms c))).
Proof.
  split; [apply NoDup_filter, states_NoDup|]. intros vals. rewrite elem_of_list_filter, states_vals. unfold solution. tauto.
Qed.

(** five of the twelve assignments *)
Example C48_case : exists a data', ex_vars !! 4 = Some a /\
  state_frequency ex_cfg q_arith 2 a ∅ ex_st = Ok (q 5 12, data') ex_st.
Proof.
  destruct (history_query _ _ _ _ _ _ _ _ 4 exF4 ex_wf ex_history eq_refl) as (_&a&Ha&_).
  destruct (C48_state_frequency Qc q_arith max64 ex_cfg true ex_ops ex_args ex_prog ex_st ex_vars ex_abs 4 exF4 a 2 _ ∅ (q_counts max64) ex_wf
    ex_history eq_refl eq_refl Ha I ex_fits ex_fits (solutions_ex ex_cfg exF4 2)) as (data'&E).
  exists a, data'. split; [exact Ha|]. rewrite E. by do 2 f_equal.
Qed.

Example C48_double_case : exists a r data', ex_vars !! 4 = Some a /\
  state_frequency ex_cfg b64_arith 2 a ∅ ex_st = Ok (r, data') ex_st /\ is_finite r = true /\
  B2R r = round radix2 (SpecFloat.fexp 53 1024) ZnearestE (5 / 12)%R.
Proof.
  assert (L5 : length (filter (fun vals => exF4 (of_vals vals) = 2%Z) (states (c_doms ex_cfg))) = 5) by (by vm_compute).
  assert (L12 : length (states (c_doms ex_cfg)) = 12) by (by vm_compute).
  destruct (history_query _ _ _ _ _ _ _ _ 4 exF4 ex_wf ex_history eq_refl) as (_&a&Ha&_).
  destruct (C48_state_frequency_double ex_cfg true ex_ops ex_args ex_prog ex_st ex_vars ex_abs 4 exF4 a 2 _ ∅ ex_wf
    ex_history eq_refl eq_refl Ha I ex_fits ltac:(by vm_compute) (solutions_ex ex_cfg exF4 2)) as (r&data'&E&Hf&Hr).
  exists a, r, data'. split; [exact Ha|]. split; [exact E|]. split; [exact Hf|]. rewrite Hr.
  rewrite L5, L12. done.
Qed.

(** the increase of x1 from 0 to 2 raises the value from below 2 to 2 or above *)
Definition ex_change (vals : list nat) : bool :=
  let v0 := exF4 (of_vals (<[1 := 0]> vals)) in let v2 := exF4 (of_vals (<[1 := 2]> vals)) in (v0 <? 2)%Z && (2 <=? v2)%Z.

Example C48_importance_case : exists vars' s' a data1 data2,
  exec ex_cfg (CDpld 9 (VarChange 1 0 2) (detector (D3Increase 2)) 4) ex_vars ex_st = Ok vars' s' /\ vars' !! 9 = Some a /\
  structural_importance ex_cfg q_arith a ∅ s' = Ok (q 3 4, data1) s' /\
  birnbaum_importance ex_cfg q_arith (matrix ex_ps) a ∅ s' = Ok (q 11 20, data2) s'.
Proof.
  assert (V1 : Qcdiv (Q2Qc (inject_Z (Z.of_nat (length (filter (fun vals => ex_change vals = true) (states (c_doms ex_cfg)))))))
    (Q2Qc (inject_Z (dom_prod (c_doms ex_cfg)))) = q 3 4) by (apply Qc_is_canon; by vm_compute).
  assert (V2 : probability q_arith (c_doms ex_cfg) ex_ps ex_change = q 11 20) by (apply Qc_is_canon; by vm_compute).
  destruct (ex_call (CDpld 9 (VarChange 1 0 2) (detector (D3Increase 2)) 4)) as (v&s&E); [by vm_compute|].
  assert (HE : forall vals, ex_change vals = true <->
    changes (D3Increase 2) (exF4 (of_vals (<[1 := 0]> vals))) (exF4 (of_vals (<[1 := 2]> vals)))).
  { intros vals. unfold ex_change. by rewrite andb_true_iff, Z.ltb_lt, Z.leb_le. }
  destruct (C48_importance Qc q_arith ex_cfg true ex_ops ex_args ex_prog ex_st ex_vars ex_abs 9 4 exF4 1 0 2 (D3Increase 2) v s
    q_exact (q_counts _) ex_wf ex_history eq_refl eq_refl ex_tval1 ltac:(vm_compute; lia) ltac:(vm_compute; lia) ltac:(vm_compute; lia) I ex_fits E)
    as (a&Ha&G1&G2).
  destruct (G1 (filter (fun vals => ex_change vals = true) (states (c_doms ex_cfg))) ∅) as (data1&E1).
  { apply NoDup_filter, states_NoDup. }
  { intros vals. rewrite elem_of_list_filter, states_vals, HE. tauto. }
  destruct (G2 ex_ps ∅ ex_change ex_distributions) as (data2&E2); [intros; apply HE|].
  exists v, s, a, data1, data2. split; [exact E|]. split; [exact Ha|]. clear E. split.
  - rewrite E1. do 2 f_equal. exact V1.
  - rewrite E2, V2. done.
Qed.

Example C62_case : exists a data', ex_vars !! 4 = Some a /\ satisfy_count_data ex_cfg b64_arith 2 a ∅ ex_st = Ok (5%Z, data') ex_st.
Proof.
  destruct (history_query _ _ _ _ _ _ _ _ 4 exF4 ex_wf ex_history eq_refl) as (_&a&Ha&_).
  destruct (C62_count_double ex_cfg true ex_ops ex_args ex_prog ex_st ex_vars ex_abs 4 exF4 a 2 _ ∅ ex_wf
    ex_history eq_refl eq_refl Ha I ex_fits ltac:(by vm_compute) (solutions_ex ex_cfg exF4 2)) as (data'&E).
  exists a, data'. split; [exact Ha|]. rewrite E. do 2 f_equal.
Qed.

(** ** Where the properties do not hold *)

(** the value of a query on an object, with some data *)
Definition asks {T} (f : positive -> M T) (vars : vars_t) (s : st) (x : nat) : res T :=
  match vars !! x with Some a => f a s | None => Err ENull end.

(** a negative state is not rejected; the table of terminals is read out of range *)
Theorem C45_negative_state_refuted : exists c p vars s,
  wf_cfg c /\ cargs_ok c true p /\ outcome c p [CVar 0 0] = Ok vars s /\
  forall R (ar : arith R) pr data, asks (fun a => calculate_probability c ar (-1) pr a data) vars s 0 = Err EOob.
Proof.
  exists cm, args3.
  destruct (outcome_ok (outcome cm args3 [CVar 0 0])
    (fun v s => v !! 0 <> None /\ s_terms s <> [])) as (vars&s&E&H1&H2); [by vm_compute|].
  exists vars, s. split; [apply cm_wf|]. split; [apply cm_args|]. split; [exact E|]. clear E. intros R ar pr data.
  unfold asks. destruct (vars !! 0) as [a|]; [|done]. unfold calculate_probability, ntps_post, terminal_nodes, gets.
  cbn [foldM]. unfold select, get_terminal_node, gets, bind. destruct (s_terms s) as [|o l]; [done|].
  destruct (Z.ltb_spec (-1) (Z.of_nat (length (o :: l)))); [|lia]. done.
Qed.

(** Undefined values: nothing sets the data of their node *)
Theorem C51_uninitialised_refuted : exists c p vars s,
  wf_cfg c /\ cargs_ok c true p /\
  outcome c p [CVar 0 0; CDpldE 1 (VarChange 0 0 1) (detector D2Increase) 0 0] = Ok vars s /\
  forall R (ar : arith R) pr, (forall i k t, exists x, pr i k t = Ok x t) ->
    asks (fun a => calculate_probability c ar 1 pr a ∅) vars s 1 = Err EUninit.
Proof.
  exists cm, args3.
  destruct (outcome_ok (outcome cm args3 [CVar 0 0; CDpldE 1 (VarChange 0 0 1) (detector D2Increase) 0 0])
    (fun v s => forall R (ar : arith R) pr, (forall i k t, exists x, pr i k t = Ok x t) ->
      asks (fun a => calculate_probability cm ar 1 pr a ∅) v s 1 = Err EUninit)) as (vars&s&E&H1).
  { vm_compute. intros R [] pr Hpr. match goal with |- context [pr ?i ?k ?t] => destruct (Hpr i k t) as [x ->] end. done. }
  exists vars, s. split; [apply cm_wf|]. split; [apply cm_args|]. split; [exact E|exact H1].
Qed.

(** the data that earlier queries have left there is used instead: x0 increases x0
    for sure when it is 0, which has the probability 1/2; the answer is 3/4 *)
Definition half3 : list (list Qc) := [[q 1 2; q 1 2]; [q 1 2; q 1 2]; [q 1 2; q 1 2]].
Lemma half3_ok : distributions q_arith (c_doms cm) half3.
Proof. repeat constructor; apply Qc_is_canon; by vm_compute. Qed.

Definition first_of {T} (r : res (T * gmap positive Qc)) : option T := match r with Ok (x, _) _ => Some x | _ => None end.
Definition is_q (r : option Qc) (x : Q) : bool := match r with Some y => Qeq_bool y x | None => false end.
Lemma is_q_eq r x : is_q r x = true -> r = Some (Q2Qc x).
Proof.
  destruct r as [y|]; [|done]. simpl. intros H. f_equal. apply Qc_is_canon. simpl. rewrite Qred_correct. by apply Qeq_bool_eq.
Qed.

Theorem C51_stale_data_refuted : exists c p vars s ps,
  wf_cfg c /\ cargs_ok c true p /\ distributions q_arith (c_doms c) ps /\
  outcome c p [CVar 0 0; CDpldE 1 (VarChange 0 0 1) (detector D2Increase) 0 0] = Ok vars s /\
  (forall vals, vals_ok c vals -> value_at c vars s 1 vals = Some (if nth 0 vals 0 =? 0 then 1%Z else Undef)) /\
  probability q_arith (c_doms c) ps (fun vals => nth 0 vals 0 =? 0) = q 1 2 /\
  first_of (asks (fun a => let* data := calculate_probabilities c q_arith (matrix ps) a ∅ in
                           calculate_probability c q_arith 1 (matrix ps) a data) vars s 1) = Some (q 3 4).
Proof.
  exists cm, args3.
  destruct (outcome_ok (outcome cm args3 [CVar 0 0; CDpldE 1 (VarChange 0 0 1) (detector D2Increase) 0 0])
    (fun v s => forallb (fun vals => bool_decide (value_at cm v s 1 vals = Some (if nth 0 vals 0 =? 0 then 1%Z else Undef))) (states (c_doms cm)) = true /\
      is_q (first_of (asks (fun a => let* data := calculate_probabilities cm q_arith (matrix half3) a ∅ in
                           calculate_probability cm q_arith 1 (matrix half3) a data) v s 1)) (3 # 4) = true)) as (vars&s&E&H1&H2); [by vm_compute|].
  exists vars, s, half3. split; [apply cm_wf|]. split; [apply cm_args|]. split; [apply half3_ok|]. split; [exact E|]. clear E. split; [|split].
  - intros vals Hv. rewrite forallb_forall in H1. specialize (H1 vals). apply bool_decide_eq_true in H1; [exact H1|].
    by apply elem_of_list_In, states_vals.
  - clear. apply Qc_is_canon. by vm_compute.
  - by apply is_q_eq.
Qed.

(** a terminal made after calculate_probabilities has no data; the answer should be 0 *)
Theorem C46_new_terminal_refuted : exists c p vars s vars' s' ps,
  wf_cfg c /\ cargs_ok c true p /\ distributions q_arith (c_doms c) ps /\
  outcome c p [CVar 0 0] = Ok vars s /\ exec c (CConst 1 2) vars s = Ok vars' s' /\
  (forall vals, vals_ok c vals -> value_at c vars s 0 vals <> Some 2%Z) /\
  match asks (fun a => calculate_probabilities c q_arith (matrix ps) a ∅) vars s 0 with
  | Ok data _ => get_probability q_arith 2 data s = Ok 0%Qc s /\ get_probability q_arith 2 data s' = Err EUninit
  | _ => False
  end.
Proof.
  exists cm, args3.
  destruct (outcome_ok (outcome cm args3 [CVar 0 0])
    (fun v s => match exec cm (CConst 1 2) v s with
      | Ok v' s' => forallb (fun vals => bool_decide (value_at cm v s 0 vals <> Some 2%Z)) (states (c_doms cm)) = true /\
         match asks (fun a => calculate_probabilities cm q_arith (matrix half3) a ∅) v s 0 with
         | Ok data _ => get_probability q_arith 2 data s = Ok 0%Qc s /\ get_probability q_arith 2 data s' = Err EUninit
         | _ => False
         end
      | _ => False end)) as (vars&s&E&H); [by vm_compute|].
  destruct (exec cm (CConst 1 2) vars s) as [vars' s'| |] eqn:E'; [|contradiction..].
  exists vars, s, vars', s', half3. destruct H as [H1 H2].
  split; [apply cm_wf|]. split; [apply cm_args|]. split; [apply half3_ok|]. split; [exact E|]. split; [exact E'|]. clear E E'. split; [|exact H2].
  intros vals Hv. rewrite forallb_forall in H1. specialize (H1 vals). apply bool_decide_eq_true in H1; [exact H1|].
  by apply elem_of_list_In, states_vals.
Qed.

(** a count in between overwrites the probabilities: x0 is 1 with probability 1/2 *)
Theorem C46_count_between_refuted : exists c p vars s ps,
  wf_cfg c /\ cargs_ok c true p /\ distributions q_arith (c_doms c) ps /\
  outcome c p [CVar 0 0] = Ok vars s /\
  first_of (asks (fun a => let* data := calculate_probabilities c q_arith (matrix ps) a ∅ in
                           let* p := get_probability q_arith 1 data in ret (p, data)) vars s 0) = Some (q 1 2) /\
  first_of (asks (fun a => let* data := calculate_probabilities c q_arith (matrix ps) a ∅ in
                           let* nd := satisfy_count_data c q_arith 1 a data in
                           let* p := get_probability q_arith 1 (snd nd) in ret (p, snd nd)) vars s 0) = Some (q 1 1).
Proof.
  exists cm, args3.
  destruct (outcome_ok (outcome cm args3 [CVar 0 0])
    (fun v s => is_q (first_of (asks (fun a => let* data := calculate_probabilities cm q_arith (matrix half3) a ∅ in
                           let* p := get_probability q_arith 1 data in ret (p, data)) v s 0)) (1 # 2) = true /\
      is_q (first_of (asks (fun a => let* data := calculate_probabilities cm q_arith (matrix half3) a ∅ in
                           let* nd := satisfy_count_data cm q_arith 1 a data in
                           let* p := get_probability q_arith 1 (snd nd) in ret (p, snd nd)) v s 0)) (1 # 1) = true))
    as (vars&s&E&H1&H2); [by vm_compute|].
  exists vars, s, half3. split; [apply cm_wf|]. split; [apply cm_args|]. split; [apply half3_ok|]. split; [exact E|]. clear E.
  split; by apply is_q_eq.
Qed.

(** rows that do not sum to one: variables that a diagram skips are not accounted for *)
Theorem C45_row_sums_needed : exists c p vars s ps,
  wf_cfg c /\ cargs_ok c true p /\ Forall2 (fun d row => length row = d) (c_doms c) ps /\
  outcome c p [CVar 0 0] = Ok vars s /\
  (forall vals, vals_ok c vals -> value_at c vars s 0 vals = Some (Z.of_nat (nth 0 vals 0))) /\
  probability q_arith (c_doms c) ps (fun vals => nth 0 vals 0 =? 1) = q 2 1 /\
  first_of (asks (fun a => calculate_probability c q_arith 1 (matrix ps) a ∅) vars s 0) = Some (q 1 2).
Proof.
  set (ps := [[q 1 2; q 1 2]; [q 1 1; q 1 1]; [q 1 1; q 1 1]]).
  exists cm, args3.
  destruct (outcome_ok (outcome cm args3 [CVar 0 0])
    (fun v s => forallb (fun vals => bool_decide (value_at cm v s 0 vals = Some (Z.of_nat (nth 0 vals 0)))) (states (c_doms cm)) = true /\
       is_q (first_of (asks (fun a => calculate_probability cm q_arith 1 (matrix ps) a ∅) v s 0)) (1 # 2) = true))
    as (vars&s&E&H1&H2); [by vm_compute|].
  exists vars, s, ps. split; [apply cm_wf|]. split; [apply cm_args|]. split; [by repeat constructor|]. split; [exact E|]. clear E. split; [|split].
  - intros vals Hv. rewrite forallb_forall in H1. specialize (H1 vals). apply bool_decide_eq_true in H1; [exact H1|].
    by apply elem_of_list_In, states_vals.
  - clear. apply Qc_is_canon. by vm_compute.
  - by apply is_q_eq.
Qed.

(** ** C62: more than 2^53 assignments

    34 variables with three values; x0 * x1 mod 3 is 0 for 5 * 3^32 assignments *)
Definition c34 : cfg := Cfg (replicate 34 3) None (fun p => N.pos p * 64)%N true false.
Definition args34 : cargs := CArgs (map Z.of_nat (seq 0 34)) 100 100 64 (replicate 34 10%Z) (fun n => n / 5)%Z (fun n => n)%Z.

Lemma c34_wf : wf_cfg c34.
Proof.
  constructor.
  - intros i Hi. change (nvars c34) with 34 in Hi. do 34 (destruct i as [|i]; [vm_compute; lia|]). lia.
  - done.
  - intros i Hi. change (nvars c34) with 34 in Hi. do 34 (destruct i as [|i]; [by vm_compute|]). lia.
Qed.

Lemma args34_ok : cargs_ok c34 true args34.
Proof.
  constructor.
  - unfold is_order. done.
  - done.
  - done.
  - done.
  - intros _. split; [done|]. simpl. intros n Hn. apply Z.div_le_lower_bound; lia.
Qed.

Definition cnt {T} (r : res (Z * T)) : option Z := match r with Ok (n, _) _ => Some n | _ => None end.

Theorem C62_count_double_refuted : exists c p vars s,
  wf_cfg c /\ cargs_ok c true p /\ (dom_prod (c_doms c) <= product_limit c)%Z /\
  outcome c p [CVar 0 0; CVar 1 1; CApply 2 (MULTIPLIES 3) 0 1] = Ok vars s /\
  count_of c 0 vars s 2 = Some (5 * 3 ^ 32)%Z /\
  cnt (asks (fun a => satisfy_count_data c b64_arith 0 a ∅) vars s 2) = Some (5 * 3 ^ 32 - 1)%Z.
Proof.
  exists c34, args34.
  destruct (outcome_ok (outcome c34 args34 [CVar 0 0; CVar 1 1; CApply 2 (MULTIPLIES 3) 0 1])
    (fun v s => count_of c34 0 v s 2 = Some (5 * 3 ^ 32)%Z /\
      cnt (asks (fun a => satisfy_count_data c34 b64_arith 0 a ∅) v s 2) = Some (5 * 3 ^ 32 - 1)%Z))
    as (vars&s&E&H1&H2); [by vm_compute|].
  exists vars, s. split; [apply c34_wf|]. split; [apply args34_ok|]. split; [by vm_compute|]. split; [exact E|]. split; [exact H1|exact H2].
Qed.

Print Assumptions C45_calculate_probability.
Print Assumptions C45_calculate_probability_bss.
Print Assumptions C46_calculate_probabilities.
Print Assumptions C46_calculate_probabilities_bss.
Print Assumptions C47_calculate.
Print Assumptions C47_get.
Print Assumptions C48_state_frequency.
Print Assumptions C48_state_frequency_double.
Print Assumptions C48_importance.
Print Assumptions C62_count_double.
Print Assumptions C62_count_double_refuted.

Print Assumptions C45_negative_state_refuted.
Print Assumptions C51_uninitialised_refuted.
Print Assumptions C51_stale_data_refuted.
Print Assumptions C46_new_terminal_refuted.
Print Assumptions C46_count_between_refuted.
Print Assumptions C45_row_sums_needed.
