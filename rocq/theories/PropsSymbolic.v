(** * Properties of distributions over time and of symbolic availability: C66, C67 *)

From stdpp Require Import gmap list.
From Coq Require Import ZArith Lia Reals Lra.
From Verif Require Import Base Ops Tables NodeManager Tools Sift DiagramManager Reliability World Queries.
From Verif Require Import Heap Inv Trav Eval Api VecSpec Vec WorldSpec WorldProof Ctor History PropsBase Chain PropsBase2 Examples Refuted.
From Verif Require Import QuerySpec QueryProof PropsQuery PropsDpld Prob ProbSpec Expect ProbProof PropsProb PropsCases.
From Verif Require Import Symbolic SymbolicProof.

Local Close Scope Q_scope.
Local Close Scope Qc_scope.
Local Close Scope R_scope.
Local Open Scope nat_scope.
Local Opaque exec run new_manager evaluate satisfy_all force_reorder.

(** ** C66 *)

(** what the entries are at time [t], whatever time was set before *)
Definition entries_at (t : R) (ds : list prob_dist) : list R := map (fun d => Symbolic.value_at (pd_dist d) t) ds.

Theorem C66_at_time : forall t ds dss,
  map to_double (at_time t ds) = entries_at t ds /\ map (map to_double) (at_time_matrix t dss) = map (entries_at t) dss.
Proof.
  assert (E : forall t ds, map to_double (at_time t ds) = entries_at t ds).
  { intros t ds. unfold at_time, entries_at. rewrite map_map. apply map_ext. intros [[] u]; reflexivity. }
  intros t ds dss. split; [apply E|]. unfold at_time_matrix. rewrite map_map. apply map_ext. intros ds'. apply E.
Qed.

(** a system with two states: the probability of state 1 at time [t] *)
Theorem C66_probability_at_time : forall c strict opsem args ks s vars A x F a t ds data,
  wf_cfg c -> history c opsem strict args ks s vars A -> ab_clean A = true ->
  ab A !! x = Some F -> vars !! x = Some a -> defined c F -> Forall (eq 2) (c_doms c) -> length ds = nvars c ->
  exists data', calculate_probability c real_arith 1 (wrapped c real_arith (map to_double (at_time t ds))) a data s
    = Ok (probability real_arith (c_doms c) (two_state real_arith (entries_at t ds)) (fun vals => F (of_vals vals) =? 1)%Z, data') s.
Proof.
  intros c strict opsem args ks s vars A x F a t ds data Hc H Hcl HF Ha Hdef H2 Hl.
  rewrite (proj1 (C66_at_time t ds [])).
  apply (C45_calculate_probability_bss R real_arith c strict opsem args ks s vars A x F a (entries_at t ds) data real_exact Hc H Hcl HF Ha Hdef H2).
  unfold entries_at. by rewrite map_length.
Qed.

(** the distributions of the states of all components, as a matrix *)
Theorem C66_availability_at_time : forall c strict opsem args ks s vars A x F a t dss j data,
  wf_cfg c -> history c opsem strict args ks s vars A -> ab_clean A = true ->
  ab A !! x = Some F -> vars !! x = Some a -> defined c F -> distributions real_arith (c_doms c) (map (entries_at t) dss) ->
  exists data', calculate_availability c real_arith j (matrix (map (map to_double) (at_time_matrix t dss))) a data s
    = Ok (probability real_arith (c_doms c) (map (entries_at t) dss) (fun vals => j <=? F (of_vals vals))%Z, data') s.
Proof.
  intros c strict opsem args ks s vars A x F a t dss j data Hc H Hcl HF Ha Hdef Hd. rewrite (proj2 (C66_at_time t [] dss)).
  destruct (C47_calculate R real_arith c strict opsem args ks s vars A x F a _ j data real_exact Hc H Hcl HF Ha Hdef Hd)
    as (av&un&data1&data2&E&_&->&_). by exists data1.
Qed.

(** the distribution functions whose densities the classes return *)
Definition exponential_cdf (rate t : R) : R := (1 - exp (- rate * t))%R.
Definition weibull_cdf (scale shape t : R) : R := (1 - exp (- Rpower (t / scale) shape))%R.

Theorem C66_exponential_density : forall rate t, derivable_pt_lim (exponential_cdf rate) t (Symbolic.value_at (Exponential rate) t).
Proof.
  intros rate t. unfold exponential_cdf. cbn [Symbolic.value_at].
  replace (rate * exp (- rate * t))%R with (0 - exp (- rate * t) * (- rate * 1))%R by ring.
  apply (derivable_pt_lim_minus (fun _ => 1%R) (fun t => exp (- rate * t)%R)); [apply derivable_pt_lim_const|].
  apply (derivable_pt_lim_comp (fun t => - rate * t)%R exp).
  - apply (derivable_pt_lim_scal (fun t => t)). apply derivable_pt_lim_id.
  - apply derivable_pt_lim_exp.
Qed.

Theorem C66_weibull_density : forall scale shape t, (0 < scale -> 0 < t -> derivable_pt_lim (weibull_cdf scale shape) t (Symbolic.value_at (Weibull scale shape) t))%R.
Proof.
  intros scale shape t Hs Ht. assert (Hp : (0 < t / scale)%R) by (by apply Rdiv_lt_0_compat).
  unfold weibull_cdf. cbn [Symbolic.value_at]. unfold rpow. destruct (Rlt_dec 0 (t / scale)) as [_|]; [|contradiction].
  set (u := (t / scale)%R) in *.
  replace (shape / scale * Rpower u (shape - 1) * exp (- Rpower u shape))%R
    with (0 - exp (- Rpower u shape) * (- (shape * Rpower u (shape - 1) * (1 * / scale))))%R by (unfold Rdiv; ring).
  apply (derivable_pt_lim_minus (fun _ => 1%R) (fun t => exp (- Rpower (t / scale) shape)%R)); [apply derivable_pt_lim_const|].
  apply (derivable_pt_lim_comp (fun t => - Rpower (t / scale) shape)%R exp); [|apply derivable_pt_lim_exp].
  apply (derivable_pt_lim_opp (fun t => Rpower (t / scale) shape)).
  apply (derivable_pt_lim_comp (fun t => t / scale)%R (fun u => Rpower u shape)).
  - replace (1 * / scale)%R with (1 * / scale + t * 0)%R by ring.
    apply (derivable_pt_lim_mult (fun t => t) (fun _ => / scale)%R); [apply derivable_pt_lim_id|apply derivable_pt_lim_const].
  - by apply derivable_pt_lim_power.
Qed.

(** when the density of the exponential distribution is a number between 0 and 1 *)
Theorem C66_exponential_range : forall rate,
  (forall t, (0 <= t)%R -> (0 <= Symbolic.value_at (Exponential rate) t <= 1)%R) <-> (0 <= rate <= 1)%R.
Proof.
  intros rate. cbn [Symbolic.value_at]. split.
  - intros H. specialize (H 0%R ltac:(lra)). rewrite Rmult_0_r, exp_0, Rmult_1_r in H. exact H.
  - intros [H0 H1] t Ht. pose proof (exp_pos (- rate * t)) as P.
    assert (exp (- rate * t) <= 1)%R.
    { rewrite <- exp_0. destruct (Rle_lt_or_eq_dec 0 (rate * t)) as [L|E]; [by apply Rmult_le_pos| |].
      - left. apply exp_increasing. lra.
      - right. f_equal. lra. }
    split; [apply Rmult_le_pos; lra|]. nra.
Qed.

(** the two classes called weibull take their arguments in different orders *)
Theorem C66_weibull_symbolic : forall scale shape t, ev t (sym_weibull shape scale) = Symbolic.value_at (Weibull scale shape) t.
Proof. intros. cbn [sym_weibull ev Symbolic.value_at]. by rewrite Rminus_0_l. Qed.

Theorem C66_exponential_symbolic : forall rate t, ev t (sym_exponential rate) = Symbolic.value_at (Exponential rate) t.
Proof. reflexivity. Qed.

Theorem C66_weibull_arguments_refuted : exists p q t, (0 < p /\ 0 < q /\ 0 < t /\ ev t (sym_weibull p q) <> Symbolic.value_at (Weibull p q) t)%R.
Proof.
  exists 2%R, 1%R, 1%R. split; [lra|]. split; [lra|]. split; [lra|].
  rewrite C66_weibull_symbolic. cbn [Symbolic.value_at]. unfold rpow.
  destruct (Rlt_dec 0 (1 / 1)) as [_|]; [|lra]. destruct (Rlt_dec 0 (1 / 2)) as [_|]; [|lra].
  replace (1 / 1)%R with 1%R by field. replace (2 - 1)%R with 1%R by ring. replace (1 - 1)%R with 0%R by ring.
  rewrite Rpower_O, !Rpower_1 by lra.
  assert (E : Rpower 1 2 = 1%R) by (unfold Rpower; by rewrite ln_1, Rmult_0_r, exp_0).
  rewrite E. intros H. pose proof (exp_ineq1_le (- (1 / 2))) as B.
  assert (D : exp (-1) = (exp (- (1 / 2)) * exp (- (1 / 2)))%R) by (rewrite <- exp_plus; f_equal; lra).
  replace (- (1))%R with (-1)%R in H by ring. rewrite D in H. set (y := exp (- (1 / 2))) in *. nra.
Qed.

(** the variable x0 *)
Definition first_F : asg -> Z := fun rho => Z.of_nat (rho 0).

(** rates above 1 give "probabilities" above 1, and the unavailability is negative: the
    variable x0 as a system, its first component with rate 2, at time 0 *)
Theorem C66_not_a_probability_refuted : exists c p s vars A a ds data',
  wf_cfg c /\ history c (ops_with 2 4 3) true p [CVar 0 0] s vars A /\ vars !! 0 = Some a /\
  ds = map new_dist [Exponential 2; Constant 1; Constant 1] /\
  calculate_probability c real_arith 1 (wrapped c real_arith (map to_double (at_time 0 ds))) a ∅ s = Ok (2%R, data') s.
Proof.
  assert (H0 : chain cm (ops_with 2 4 3) true [CVar 0 0] (no_objects args3) (bindf 0 first_F (no_objects args3))).
  { apply (Ch_cons _ _ _ _ _ _ (bindf 0 first_F (no_objects args3))); [|constructor]. intros s. apply S_var. vm_compute. lia. }
  destruct (outcome_ok (outcome cm args3 [CVar 0 0]) (fun v s => match v !! 0 with Some _ => True | None => False end)) as (vars&s&E&X); [by vm_compute|].
  unfold outcome in E. destruct (new_manager cm args3 no_state) as [[] s0| |] eqn:E0; [|discriminate E..].
  pose proof (chain_new _ _ _ _ _ _ _ _ _ _ cm_args E0 H0 E) as H. clear E E0.
  destruct (vars !! 0) as [a|] eqn:Ha; [|contradiction].
  set (ds := map new_dist [Exponential 2; Constant 1; Constant 1]).
  destruct (C66_probability_at_time cm true (ops_with 2 4 3) args3 [CVar 0 0] s vars _ 0 first_F a 0%R ds ∅ cm_wf H
    eq_refl (lookup_insert _ _ _) Ha) as (data'&E).
  - intros vals Hv. destruct (few_values vals Hv) as (x&y&z&->&?&?&?). destruct x as [|[|]]; try lia; by vm_compute.
  - by repeat constructor.
  - reflexivity.
  - exists cm, args3, s, vars, (bindf 0 first_F (no_objects args3)), a, ds, data'. split; [apply cm_wf|]. split; [exact H|]. split; [exact Ha|].
    split; [reflexivity|]. rewrite E. do 2 f_equal. clear. unfold ds, entries_at, probability, rsum, two_state, weight, states.
    cbn [map c_doms cm seq flat_map app first_F of_vals nth new_dist pd_dist Symbolic.value_at fold_right real_arith a_one a_zero a_sub a_add a_mul Z.of_nat Pos.of_succ_nat Z.eqb Pos.eqb].
    assert (E0 : forall y z, Z.eqb (first_F (of_vals [0; y; z])) 1 = false) by reflexivity.
    assert (E1 : forall y z, Z.eqb (first_F (of_vals [1; y; z])) 1 = true) by reflexivity.
    rewrite !E0, !E1, Rmult_0_r, exp_0. lra.
Qed.

(** ** C67 *)

Lemma ind_ge_eq j : ind_ge j = ind real_arith (fun v => j <=? v)%Z.
Proof. reflexivity. Qed.

(** one expression, whose value at every time is the availability at that time *)
Theorem C67_symbolic_availability : forall c strict opsem args ks s vars A x F a ps j,
  wf_cfg c -> history c opsem strict args ks s vars A -> ab_clean A = true ->
  ab A !! x = Some F -> vars !! x = Some a -> defined c F -> Forall2 (fun d row => length row = d) (c_doms c) ps ->
  exists e, symbolic_availability c j (smatrix ps) a s = Ok e s /\
    forall t, distributions real_arith (c_doms c) (ev_matrix t ps) ->
      ev t e = probability real_arith (c_doms c) (ev_matrix t ps) (fun vals => j <=? F (of_vals vals))%Z.
Proof.
  intros c strict opsem args ks s vars A x F a ps j Hc H Hcl HF Ha Hdef Hsh.
  destruct (history_query _ _ _ _ _ _ _ _ _ _ Hc H HF) as (g&a'&Ha'&C&Hh&EF&_&Cl&_). rewrite Ha in Ha'. injection Ha' as <-.
  pose proof (reach_undef _ _ _ _ _ _ _ _ _ _ _ _ Hc H HF C Hh EF Hdef) as HU.
  destruct (symbolic_ok c opsem strict g s Hc C (Cl Hcl) ps Hsh j a Hh HU) as (e&E&T). exists e. split; [exact E|]. intros t Hd.
  rewrite (T t Hd), ind_ge_eq, (W_probability c opsem strict g s Hc C real_arith real_exact (ev_matrix t ps) Hd (fun v => j <=? v)%Z a Hh).
  apply probability_ext. intros y Hy. rewrite EF; [done|apply Hy].
Qed.

(** it agrees with the availability computed from numbers *)
Theorem C67_agrees : forall c strict opsem args ks s vars A x F a ps j t data,
  wf_cfg c -> history c opsem strict args ks s vars A -> ab_clean A = true ->
  ab A !! x = Some F -> vars !! x = Some a -> defined c F -> distributions real_arith (c_doms c) (ev_matrix t ps) ->
  exists e data', symbolic_availability c j (smatrix ps) a s = Ok e s /\
    calculate_availability c real_arith j (matrix (ev_matrix t ps)) a data s = Ok (ev t e, data') s.
Proof.
  intros c strict opsem args ks s vars A x F a ps j t data Hc H Hcl HF Ha Hdef Hd.
  destruct (C67_symbolic_availability c strict opsem args ks s vars A x F a ps j Hc H Hcl HF Ha Hdef) as (e&E&T).
  - apply Forall2_same_length_lookup_2.
    + pose proof (Forall2_length _ _ _ Hd) as L. unfold ev_matrix in L. by rewrite map_length in L.
    + intros i d row Ed Er. assert (E1 : ev_matrix t ps !! i = Some (map (ev t) row)) by (unfold ev_matrix; by rewrite list_lookup_fmap, Er).
      destruct (Forall2_lookup_lr _ _ _ _ _ _ Hd Ed E1) as [L _]. by rewrite map_length in L.
  - destruct (C47_calculate R real_arith c strict opsem args ks s vars A x F a _ j data real_exact Hc H Hcl HF Ha Hdef Hd)
      as (av&un&data1&data2&E1&_&Eav&_). exists e, data1. split; [exact E|]. by rewrite (T t Hd), <- Eav.
Qed.

(** as_matrix: two states for every component, and the rows add up to 1 at all times *)
Theorem C67_as_matrix : forall c xs t, Forall (eq 2) (c_doms c) -> length xs = nvars c ->
  distributions real_arith (c_doms c) (ev_matrix t (as_matrix xs)) /\
  ev_matrix t (as_matrix xs) = two_state real_arith (map (ev t) xs).
Proof.
  intros c xs t H2 Hl.
  assert (E : ev_matrix t (as_matrix xs) = two_state real_arith (map (ev t) xs)).
  { unfold ev_matrix, as_matrix, two_state. rewrite !map_map. apply map_ext. done. }
  split; [|exact E]. rewrite E. apply two_state_ok; [apply real_exact|done|by rewrite map_length].
Qed.

(** ** Concrete cases *)

(** at most one of three components works; rates 1/2, at time 0 *)
Example C66_case : exists s vars a data', history cm (ops_with 2 4 3) true args3 [CVec 0 (bits 23)] s vars (bindf 0 fewF (no_objects args3)) /\
  vars !! 0 = Some a /\
  calculate_probability cm real_arith 1 (wrapped cm real_arith (map to_double (at_time 0
    (at_time 7 (map new_dist [Exponential (1/2); Exponential (1/2); Constant (1/4)]))))) a ∅ s = Ok ((5/8)%R, data') s.
Proof.
  destruct few_history as (s&vars&a&H&Ha&_).
  destruct (C66_probability_at_time cm true (ops_with 2 4 3) args3 [CVec 0 (bits 23)] s vars _ 0 fewF a 0
    (at_time 7 (map new_dist [Exponential (1/2); Exponential (1/2); Constant (1/4)])) ∅ cm_wf H
    eq_refl (lookup_insert _ _ _) Ha few_defined) as (data'&E); [by repeat constructor|done|].
  exists s, vars, a, data'. split; [exact H|]. split; [exact Ha|]. rewrite E. do 2 f_equal. clear.
  unfold at_time, entries_at, probability, rsum, two_state, weight, states.
  cbn [map c_doms cm seq flat_map app nth new_dist set_t pd_dist Symbolic.value_at fold_right real_arith a_one a_zero a_sub a_add a_mul].
  replace (fewF (of_vals [0; 0; 0])) with 1%Z by (by vm_compute). replace (fewF (of_vals [0; 0; 1])) with 1%Z by (by vm_compute).
  replace (fewF (of_vals [0; 1; 0])) with 1%Z by (by vm_compute). replace (fewF (of_vals [0; 1; 1])) with 0%Z by (by vm_compute).
  replace (fewF (of_vals [1; 0; 0])) with 1%Z by (by vm_compute). replace (fewF (of_vals [1; 0; 1])) with 0%Z by (by vm_compute).
  replace (fewF (of_vals [1; 1; 0])) with 0%Z by (by vm_compute). replace (fewF (of_vals [1; 1; 1])) with 0%Z by (by vm_compute).
  cbn [Z.eqb Pos.eqb]. rewrite Rmult_0_r, exp_0. lra.
Qed.

Example C66_availability_case : distributions real_arith (c_doms ex_cfg)
  (map (entries_at 5) [map new_dist [Constant (1/2); Constant (1/2)]; map new_dist [Custom (fun t => 1 / (t + 1)); Constant (1/2); Constant (1/3)];
     map new_dist [Constant (3/8); Custom (fun t => t / 8)]])%R.
Proof. repeat (constructor; [split; [done|unfold rsum; cbn; lra]|]). constructor. Qed.

Example C66_range_case : (0 <= Symbolic.value_at (Exponential (1/2)) 3 <= 1)%R.
Proof. apply C66_exponential_range; lra. Qed.

(** the expression for a system that works when at most one component does *)
Example C67_case : exists s vars a e, history cm (ops_with 2 4 3) true args3 [CVec 0 (bits 23)] s vars (bindf 0 fewF (no_objects args3)) /\
  vars !! 0 = Some a /\ symbolic_availability cm 1 (smatrix (as_matrix [sym_exponential (1/2); sym_weibull 2 1; sym_constant (1/4)])) a s = Ok e s /\
  forall t, ev t e = probability real_arith (c_doms cm) (two_state real_arith [Symbolic.value_at (Exponential (1/2)) t; Symbolic.value_at (Weibull 1 2) t; 1/4])%R
    (fun vals => 1 <=? fewF (of_vals vals))%Z.
Proof.
  destruct few_history as (s&vars&a&H&Ha&_). set (xs := [sym_exponential (1/2); sym_weibull 2 1; sym_constant (1/4)]).
  destruct (C67_symbolic_availability cm true (ops_with 2 4 3) args3 [CVec 0 (bits 23)] s vars _ 0 fewF a (as_matrix xs) 1 cm_wf H
    eq_refl (lookup_insert _ _ _) Ha few_defined) as (e&E&T); [by repeat constructor|].
  exists s, vars, a, e. split; [exact H|]. split; [exact Ha|]. split; [exact E|]. intros t.
  destruct (C67_as_matrix cm xs t) as [D M]; [by repeat constructor|done|]. rewrite (T t D), M. unfold xs. cbn [map].
  by rewrite C66_weibull_symbolic, C66_exponential_symbolic.
Qed.

Print Assumptions C66_at_time.
Print Assumptions C66_probability_at_time.
Print Assumptions C66_availability_at_time.
Print Assumptions C66_exponential_density.
Print Assumptions C66_weibull_density.
Print Assumptions C66_exponential_range.
Print Assumptions C66_weibull_symbolic.
Print Assumptions C66_exponential_symbolic.
Print Assumptions C66_weibull_arguments_refuted.
Print Assumptions C66_not_a_probability_refuted.
Print Assumptions C67_symbolic_availability.
Print Assumptions C67_agrees.
Print Assumptions C67_as_matrix.
