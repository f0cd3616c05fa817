(** * Further concrete cases: functions of Boolean components *)

From Coq Require Import QArith Qcanon.
From stdpp Require Import gmap list.
From Coq Require Import ZArith Lia.
From Verif Require Import Base Ops Tables NodeManager Tools Sift DiagramManager Reliability World.
From Verif Require Import Heap Inv Trav Eval Api Fold VecSpec Vec WorldSpec WorldProof MnfProof Ctor History PropsBase Chain PropsBase2 Examples Refuted.
From Verif Require Import QuerySpec VectorSpec PropsQuery PropsCore2 PropsDpld Prob ProbSpec PropsProb Tsl TslProof TslProof2 PropsTsl PropsFussell.

Local Close Scope Q_scope.
Local Close Scope Qc_scope.
Local Open Scope nat_scope.

(** at most one of three components works *)
Definition fewF : asg -> Z := fun rho => nth (vec_index cm [0; 1; 2] rho) (bits 23) 0%Z.

Lemma few_history : exists s vars a, history cm (ops_with 2 4 3) true args3 [CVec 0 (bits 23)] s vars (bindf 0 fewF (no_objects args3)) /\
  vars !! 0 = Some a /\ exists b s', to_mnf cm a s = Ok b s'.
Proof.
  assert (Ch : chain cm (ops_with 2 4 3) true [CVec 0 (bits 23)] (no_objects args3) (bindf 0 fewF (no_objects args3))).
  { apply (Ch_cons _ _ _ _ _ _ (bindf 0 fewF (no_objects args3))); [|constructor]. intros s.
    apply (S_vec cm (ops_with 2 4 3) true s 0 (bits 23) (no_objects args3)); [by vm_compute|].
    apply Forall_forall. intros v (k&->&_)%elem_of_list_fmap. left. split; [|done]. destruct (Z.testbit _ _); vm_compute; split; done. }
  destruct (outcome_ok (outcome cm args3 [CVec 0 (bits 23)]) (fun v s => match v !! 0 with Some a =>
    match to_mnf cm a s with Ok _ _ => True | _ => False end | None => False end)) as (vars&s&E&X); [by vm_compute|].
  unfold outcome in E. destruct (new_manager cm args3 no_state) as [[] s0| |] eqn:E0; [|discriminate E..].
  pose proof (chain_new _ _ _ _ _ _ _ _ _ _ cm_args E0 Ch E) as H. clear E E0.
  destruct (vars !! 0) as [a|] eqn:Ha; [|contradiction]. exists s, vars, a. split; [exact H|]. split; [exact Ha|].
  destruct (to_mnf cm a s) as [b s'| |]; [|contradiction..]. by exists b, s'.
Qed.

Lemma few_values vals : vals_ok cm vals -> exists x y z, vals = [x; y; z] /\ x < 2 /\ y < 2 /\ z < 2.
Proof.
  intros [L H]. change (nvars cm) with 3 in *. destruct vals as [|x [|y [|z [|? ?]]]]; try done. exists x, y, z. split; [done|].
  pose proof (H 0 ltac:(vm_compute; lia)). pose proof (H 1 ltac:(vm_compute; lia)). pose proof (H 2 ltac:(vm_compute; lia)). done.
Qed.

Example C63_closed_case : exists s vars a b s' G, history cm (ops_with 2 4 3) true args3 [CVec 0 (bits 23)] s vars (bindf 0 fewF (no_objects args3)) /\
  vars !! 0 = Some a /\ to_mnf cm a s = Ok b s' /\ computes cm s' b G /\
  (forall vals, vals_ok cm vals -> G (of_vals vals) = 1%Z <-> fewF (of_vals vals) = 1%Z) /\ fewF (of_vals [0; 1; 0]) = 1%Z /\ fewF (of_vals [0; 1; 1]) = 0%Z.
Proof.
  destruct few_history as (s&vars&a&H&Ha&b&s'&E).
  destruct (C63_to_mnf_closed cm true (ops_with 2 4 3) args3 [CVec 0 (bits 23)] s vars _ 0 fewF a b s' cm_wf H (lookup_insert _ _ _) Ha) as (G&HG&HF).
  - intros v w Hv Hw Hle. destruct (few_values v Hv) as (x&y&z&->&?&?&?). destruct (few_values w Hw) as (x'&y'&z'&->&?&?&?).
    inversion Hle as [|? ? ? ? L1 Hle1]; subst. inversion Hle1 as [|? ? ? ? L2 Hle2]; subst. inversion Hle2 as [|? ? ? ? L3 Hle3]; subst. clear Hle Hle1 Hle2 Hle3 H E.
    destruct x as [|[|]], y as [|[|]], z as [|[|]], x' as [|[|]], y' as [|[|]], z' as [|[|]]; try lia; vm_compute; congruence.
  - exact E.
  - exists s, vars, a, b, s', G. do 5 (split; [assumption|]). clear. split; by vm_compute.
Qed.

(** probabilities of the components given as a vector: 1/2, 1/3, 1/4 *)
Definition few_ps : list Qc := [q 1 2; q 1 3; q 1 4].

Lemma few_defined : defined cm fewF.
Proof. intros vals Hv. destruct (few_values vals Hv) as (x&y&z&->&?&?&?). destruct x as [|[|]], y as [|[|]], z as [|[|]]; try lia; by vm_compute. Qed.

Example C45_bss_case : exists s vars a data', history cm (ops_with 2 4 3) true args3 [CVec 0 (bits 23)] s vars (bindf 0 fewF (no_objects args3)) /\
  vars !! 0 = Some a /\ calculate_probability cm q_arith 1 (wrapped cm q_arith few_ps) a ∅ s = Ok (q 17 24, data') s.
Proof.
  assert (V : ProbSpec.probability q_arith (c_doms cm) (two_state q_arith few_ps) (fun vals => fewF (of_vals vals) =? 1)%Z = q 17 24)
    by (apply Qc_is_canon; by vm_compute).
  destruct few_history as (s&vars&a&H&Ha&_).
  destruct (C45_calculate_probability_bss Qc q_arith cm true (ops_with 2 4 3) args3 [CVec 0 (bits 23)] s vars _ 0 fewF a few_ps ∅ q_exact cm_wf H
    eq_refl (lookup_insert _ _ _) Ha few_defined) as (data'&E); [by repeat constructor|done|].
  rewrite V in E. exists s, vars, a, data'. split; [exact H|]. split; [exact Ha|exact E].
Qed.

Example C46_bss_case : exists s vars a data', history cm (ops_with 2 4 3) true args3 [CVec 0 (bits 23)] s vars (bindf 0 fewF (no_objects args3)) /\
  vars !! 0 = Some a /\ calculate_probabilities cm q_arith (wrapped cm q_arith few_ps) a ∅ s = Ok data' s /\
  get_probability q_arith 0 data' s = Ok (q 7 24) s /\ get_probability q_arith 1 data' s = Ok (q 17 24) s.
Proof.
  assert (V1 : ProbSpec.probability q_arith (c_doms cm) (two_state q_arith few_ps) (fun vals => 1 =? fewF (of_vals vals))%Z = q 17 24)
    by (apply Qc_is_canon; by vm_compute).
  assert (V0 : ProbSpec.probability q_arith (c_doms cm) (two_state q_arith few_ps) (fun vals => 0 =? fewF (of_vals vals))%Z = q 7 24)
    by (apply Qc_is_canon; by vm_compute).
  destruct few_history as (s&vars&a&H&Ha&_).
  destruct (C46_calculate_probabilities_bss Qc q_arith cm true (ops_with 2 4 3) args3 [CVec 0 (bits 23)] s vars _ 0 fewF a few_ps ∅ q_exact cm_wf H
    eq_refl (lookup_insert _ _ _) Ha) as (data'&E&G); [by repeat constructor|done|].
  pose proof (G 0%Z ltac:(lia) ltac:(discriminate)) as G0. pose proof (G 1%Z ltac:(lia) ltac:(discriminate)) as G1. clear G.
  rewrite V0 in G0. rewrite V1 in G1. exists s, vars, a, data'. split; [exact H|]. split; [exact Ha|]. split; [exact E|]. split; [exact G0|exact G1].
Qed.

(** ** The tables of the test library *)

Example C61_construct_case : exists t, make_table ts_vec (c_doms ex_cfg) = Val t.
Proof.
  apply C61_construct; [apply ts_states|discriminate|by vm_compute|vm_compute; discriminate|].
  exists 2%Z. split; [|discriminate]. apply elem_of_list_In. vm_compute. tauto.
Qed.

Example C61_dpld_e_case : exists t', Tsl.dpld_e ts_table 1 0 1 (detector (D3Increase 1)) = Val t' /\ is_table ex_cfg t' /\
  Tsl.evaluate t' [1; 0; 0] = Val 1%Z /\ Tsl.evaluate t' [1; 1; 0] = Val Undef.
Proof.
  destruct (C61_dpld_e ex_cfg tsF ts_table 1 0 1 (D3Increase 1) ts_states ts_ok ltac:(vm_compute; lia) ltac:(vm_compute; lia) ltac:(vm_compute; lia))
    as (t'&E&H&_). exists t'. split; [done|]. split; [done|]. vm_compute in E. injection E as <-. by vm_compute.
Qed.

Example C61_state_frequency_case : Tsl.state_frequency q_arith ts_table 1 = a_div q_arith (q 4 1) (q 12 1).
Proof.
  destruct (C61_satisfy ex_cfg tsF ts_table 1 ts_states ts_ok) as (l&E&H&_).
  rewrite (C61_state_frequency Qc q_arith ex_cfg tsF ts_table 1 l ts_states ts_ok H).
  assert (L : length l = 4) by (vm_compute in E; injection E as <-; done). by rewrite L.
Qed.
