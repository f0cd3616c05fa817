(** * C63: what the Fussell-Vesely importance is for coherent systems *)

From stdpp Require Import gmap list list_numbers.
From Coq Require Import ZArith Lia QArith Qcanon Ring_theory.
From Verif Require Import Base Ops Tables NodeManager Tools Sift DiagramManager Reliability World Queries.
From Verif Require Import Heap Inv InvLemmas Build Trav Eval Api Fold VecSpec Vec WorldSpec WorldProof MnfSpec MnfProof Ctor History PropsBase Chain PropsBase2 Examples Refuted.
From Verif Require Import QuerySpec QueryProof Minimal VectorSpec PropsQuery PropsCore2 PropsDpld Prob ProbSpec Expect ProbProof PropsProb Tsl TslProof TslProof2 PropsTsl PropsFussell.

Local Close Scope Q_scope.
Local Close Scope Qc_scope.
Local Open Scope nat_scope.

(** ** to_mnf *)

(** a function with the values 0 and 1 *)
Definition two_valued (c : cfg) (F : asg -> Z) : Prop := forall rho, valid c rho -> F rho = 0%Z \/ F rho = 1%Z.

(** the object's node and what the lemmas about to_mnf need of it *)
Lemma mnf_query c opsem strict args ks s vars A x F a :
  wf_cfg c -> history c opsem strict args ks s vars A -> ab A !! x = Some F -> vars !! x = Some a -> two_valued c F ->
  wp (allowed strict) (to_mnf c a) (fun b s' => exists g', calm c opsem strict g' s' /\ held g' (s_heap s') b /\
    (forall vals, vals_ok c vals -> exists v, DiagramManager.evaluate c b vals s' = Ok v s' /\ nval c s' b (of_vals vals) = v /\ (v = 0 \/ v = 1)%Z /\
      (v = 1%Z <-> closes c (ab_order A) (fun r => F r = 1%Z) (of_vals vals))) /\
    (forall y, reach (live (s_heap s')) b y -> live (s_heap s') y <> Some (Term Undef)) /\
    (ab_clean A = true -> convex c F -> clean s')) s.
Proof.
  intros Hc H HF Ha H2. destruct (history_winv _ _ _ _ _ _ _ _ Hc H) as [g W].
  destruct (wi_den_pos _ _ _ _ _ _ _ _ _ W HF) as (a'&Ha'&D&P). rewrite Ha in Ha'. injection Ha' as <-.
  pose proof (wi_calm _ _ _ _ _ _ _ W) as C.
  destruct (history_query _ _ _ _ _ _ _ _ _ _ Hc H HF) as (_&_&_&_&_&_&Ho&Cl&_).
  eapply wp_mono; [apply (to_mnf_spec c opsem strict g a s Hc C (wi_idle _ _ _ _ _ _ _ W) P)|].
  intros b s' (S&M&Mk). pose proof (as_calm _ _ _ _ _ _ _ _ S) as C'. pose proof (ext_inc_same (g_ext g) b) as Pb.
  assert (Hh : held (g_inc b g) (s_heap s') b) by (eapply ext_held; [apply C'|done]).
  exists (g_inc b g). split; [done|]. split; [done|].
  assert (Hbin : binary c (live (s_heap s)) a).
  { intros rho v Hv HE. rewrite (Ev_det _ _ _ _ _ HE (D rho Hv)). by apply H2. }
  pose proof (mo_bin _ _ _ _ _ _ _ M Hbin) as Hb.
  split_and!.
  - intros vals Hv. pose proof (nval_Ev c opsem strict _ s' C' b (of_vals vals) Hh (proj2 Hv)) as HE.
    exists (nval c s' b (of_vals vals)). split; [|split; [done|]].
    { apply (den_computes c opsem strict (g_inc b g) s' b (nval c s' b) C' Pb); [|done]. intros rho Hr.
      by apply (nval_Ev c opsem strict _ s' C' b rho Hh Hr). }
    split; [by apply (Hb (of_vals vals)); [apply Hv|]|].
    rewrite <- (drop_0 (ab_order A)), <- Ho.
    rewrite <- (closes_ext c (drop 0 (s_l2i s)) (fun t => Ev (live (s_heap s)) a t 1) (fun r => F r = 1%Z)); [|apply Hv|].
    2:{ intros r Hr. split; [intros E; by eapply Ev_det; [apply D, Hr|]|intros <-; by apply D]. }
    rewrite <- (mo_exact _ _ _ _ _ _ _ M Hbin 0 (of_vals vals)); [|lia|apply Hv].
    split; [by intros <-|]. intros E. by eapply Ev_det.
  - intros y Hy E. destruct (reach_path c opsem strict (g_inc b g) s' Hc C' b y Hh Hy) as (rho&Hv&Hn).
    assert (Hyh : held (g_inc b g) (s_heap s') y) by (by eapply held_reach).
    pose proof (Hn rho Hv (fun _ _ => eq_refl)) as E1.
    rewrite (nval_term c opsem strict (g_inc b g) s' C' y rho Undef Hyh Hv E) in E1.
    destruct (Hb rho Undef Hv) as [X|X]; [|discriminate X..].
    rewrite <- E1 at 1. by apply (nval_Ev c opsem strict _ s' C' b rho Hh Hv).
  - intros Hcl [_ Z2]. apply Mk; [|by apply Cl]. split; [done|].
    assert (EF : forall rho v, valid c rho -> Ev (live (s_heap s)) a rho v <-> v = F rho).
    { intros rho v Hv. split; [intros HE; eapply Ev_det; [exact HE|by apply D]|intros ->; by apply D]. }
    intros x0 y z Vx Vy Vz L1 L2 E1 E2. apply EF in E1, E2; [|done..]. apply EF; [done|]. symmetry.
    apply (Z2 x0 y z); try done. intros i Hi. split; [by apply L1|by apply L2].
Qed.

(** exactly which function to_mnf makes of a function with the values 0 and 1 *)
Theorem C63_to_mnf_exact : forall c strict opsem args ks s vars A x F a,
  wf_cfg c -> history c opsem strict args ks s vars A -> ab A !! x = Some F -> vars !! x = Some a -> two_valued c F ->
  match to_mnf c a s with
  | Ok b s' => forall vals, vals_ok c vals -> exists v, DiagramManager.evaluate c b vals s' = Ok v s' /\ (v = 0 \/ v = 1)%Z /\
      (v = 1%Z <-> closes c (ab_order A) (fun r => F r = 1%Z) (of_vals vals))
  | Err e => e = ERefOver \/ (strict = false /\ e = EPool)
  | Fuel => False
  end.
Proof.
  intros c strict opsem args ks s vars A x F a Hc H HF Ha H2.
  pose proof (mnf_query c opsem strict args ks s vars A x F a Hc H HF Ha H2) as X. unfold wp in X.
  destruct (to_mnf c a s) as [b s'|e|]; [|exact X..]. destruct X as (g'&_&_&X&_).
  intros vals Hv. destruct (X vals Hv) as (v&E&_&E1&E2). by exists v.
Qed.

(** ** Derivatives of coherent systems *)

Definition by_size (t : dtype) : bool := match t with D2Decrease | D2Increase => true | _ => false end.

(** all derivatives except those that only ask whether the value changes are convex *)
Theorem C63_derivatives_convex : forall c strict opsem args ks s vars A x F i from to t,
  wf_cfg c -> history c opsem strict args ks s vars A -> ab A !! x = Some F -> coherent c F ->
  i < nvars c -> from < dom c i -> to < dom c i -> by_size t = false ->
  convex c (fun rho => if detector t (F (upd rho i from)) (F (upd rho i to)) then 1%Z else 0%Z).
Proof.
  intros c strict opsem args ks s vars A x F i from to t Hc H HF Hco Hi Hf Ht Hs.
  assert (Mono : forall r r', valid c r -> valid c r' -> (forall j, j < nvars c -> r j <= r' j) -> (F r <= F r')%Z).
  { intros r r' Hr Hr' Hle. destruct (vals_of c r Hr) as [V E]. destruct (vals_of c r' Hr') as [V' E'].
    rewrite (history_ext _ _ _ _ _ _ _ _ _ F r (of_vals (map r (seq 0 (nvars c)))) Hc H HF Hr) by (intros; by rewrite E).
    rewrite (history_ext _ _ _ _ _ _ _ _ _ F r' (of_vals (map r' (seq 0 (nvars c)))) Hc H HF Hr') by (intros; by rewrite E').
    apply Hco; [done|done|]. apply Forall2_same_length_lookup_2; [by rewrite !map_length|].
    intros j k k' Hk Hk'. pose proof (lookup_lt_Some _ _ _ Hk) as Hj. rewrite (proj1 V) in Hj.
    rewrite of_vals_lookup in Hk by (by rewrite (proj1 V)). rewrite of_vals_lookup in Hk' by (by rewrite (proj1 V')).
    injection Hk as <-. injection Hk' as <-. rewrite E, E' by done. by apply Hle. }
  assert (Up : forall k r r', k < dom c i -> valid c r -> valid c r' -> (forall j, j < nvars c -> r j <= r' j) -> (F (upd r i k) <= F (upd r' i k))%Z).
  { intros k r r' Hk Hr Hr' Hle. apply Mono; [by apply valid_upd..|]. intros j Hj. unfold upd. destruct (decide (j = i)); [done|by apply Hle]. }
  split; [intros rho _; destruct (detector _ _ _); auto|]. intros r1 r2 r3 V1 V2 V3 Hle E1 E3.
  assert (L12 : forall j, j < nvars c -> r1 j <= r2 j) by (intros; by apply Hle).
  assert (L23 : forall j, j < nvars c -> r2 j <= r3 j) by (intros; by apply Hle).
  pose proof (Up from r1 r2 Hf V1 V2 L12). pose proof (Up from r2 r3 Hf V2 V3 L23).
  pose proof (Up to r1 r2 Ht V1 V2 L12). pose proof (Up to r2 r3 Ht V2 V3 L23). cbn beta in *.
  destruct (detector t (F (upd r1 i from)) (F (upd r1 i to))) eqn:D1; [|discriminate E1].
  destruct (detector t (F (upd r3 i from)) (F (upd r3 i to))) eqn:D3; [|discriminate E3].
  apply detector_spec in D1, D3. assert (D2 : changes t (F (upd r2 i from)) (F (upd r2 i to))) by (destruct t; try discriminate Hs; simpl in *; lia).
  apply detector_spec in D2. by rewrite D2.
Qed.

(** ** The importance *)

Section importance.
Context {R : Type} (ar : arith R) (RT : exact ar).

Lemma sum_lower_ok c pr ps i s : reads_as ar c pr ps -> i < nvars c -> forall k l acc, l + k <= dom c i ->
  sum_lower ar pr i l k acc s = Ok (a_add ar acc (rsum ar (take k (drop l (nth i ps []))))) s.
Proof.
  intros [Hd Hp] Hi. destruct (row_of c ar ps Hd i Hi) as (row&Er&Hl&_). rewrite (nth_lookup_Some _ _ _ _ Er).
  induction k as [|k IH]; intros l acc Hk; cbn [sum_lower].
  - rewrite take_0. unfold rsum. simpl. rewrite (Radd_comm RT), (Radd_0_l RT). done.
  - rewrite (bind_ok _ _ _ _ _ (Hp i l s Hi ltac:(lia))), IH by lia. f_equal.
    destruct (lookup_lt_is_Some_2 row l) as [p Hpl]; [lia|]. rewrite (drop_S _ _ _ Hpl). cbn [take].
    unfold pr_of. rewrite (nth_lookup_Some _ _ _ _ Er), (nth_lookup_Some _ _ _ _ Hpl). unfold rsum. simpl. by rewrite (Radd_assoc RT).
Qed.

(** the result, and the manager afterwards: as if nothing had happened *)
Lemma fussell_general c strict opsem args ks s vars A x F a pr ps U cs i data :
  wf_cfg c -> history c opsem strict args ks s vars A -> ab_clean A = true -> ab A !! x = Some F -> vars !! x = Some a ->
  convex c F -> reads_as ar c pr ps -> i < nvars c -> cs <= dom c i ->
  match fussell_vesely_importance c ar pr a U cs i data s with
  | Ok r s' => history c opsem strict args (ks ++ [CMnf x]) s' vars A /\
      exists E, (forall vals, vals_ok c vals -> E vals = true <-> closes c (ab_order A) (fun r => F r = 1%Z) (of_vals vals)) /\
        fst r = a_div ar (a_mul ar (rsum ar (take cs (nth i ps []))) (ProbSpec.probability ar (c_doms c) ps E)) U
  | Err e => e = ERefOver \/ (strict = false /\ e = EPool)
  | Fuel => False
  end.
Proof.
  intros Hc H Hcl HF Ha Hcv Hpr Hi Hcs.
  pose proof (mnf_query c opsem strict args ks s vars A x F a Hc H HF Ha (proj1 Hcv)) as X.
  assert (Sp : spec c opsem strict s (CMnf x) A A).
  { pose proof (S_mnf c opsem strict s x F A true HF (fun _ => conj Hcl Hcv)) as Y. rewrite <- Hcl in Y. by destruct A. }
  pose proof (history_safe _ _ _ _ _ _ _ _ _ _ Hc H Sp) as Y.
  pose proof (fun v s' => H_call c opsem strict args ks s vars A (CMnf x) A s' v H Sp) as HN.
  unfold fussell_vesely_importance. cbn [exec] in Y, HN. unfold deref in Y, HN. rewrite Ha in Y, HN.
  unfold wp, bind, of_opt, ret in *. destruct (to_mnf c a s) as [b s'|e|]; [|exact X..].
  destruct X as (g'&C&Hh&Hev&HU&Hk). specialize (Hk Hcl Hcv). destruct Hpr as [Hd Hp].
  destruct (ntps_post_ok c opsem strict g' s' Hc C Hk ar RT ps Hd pr Hp [1%Z] b data Hh ltac:(by repeat constructor) HU) as (data'&E).
  unfold calculate_probability. rewrite E. cbn [fst snd]. rewrite (sum_lower_ok c pr ps i s' (conj Hd Hp) Hi cs 0) by lia.
  destruct (diagram_destroy b s') as [[] s2|e|]; [|exact Y..]. split; [by apply HN|].
  exists (fun vals => (nval c s' b (of_vals vals) =? 1)%Z). split.
  - intros vals Hv. destruct (Hev vals Hv) as (v&_&<-&_&HE). by rewrite Z.eqb_eq.
  - cbn [fst]. rewrite (Radd_0_l RT), drop_0. do 2 f_equal. apply probability_ext. intros y _. unfold has. simpl. by rewrite orb_false_r.
Qed.
End importance.

(** the importance is the probability that component [i] is in a state below [cs], times
    the probability of the set that to_mnf makes, divided by the given number; the
    manager can be used afterwards as if there had been no call *)
Theorem C63_fussell_vesely : forall R (ar : arith R) c strict opsem args ks s vars A x F a ps U cs i data,
  exact ar -> wf_cfg c -> history c opsem strict args ks s vars A -> ab_clean A = true ->
  ab A !! x = Some F -> vars !! x = Some a -> convex c F ->
  distributions ar (c_doms c) ps -> i < nvars c -> cs <= dom c i ->
  match fussell_vesely_importance c ar (matrix ps) a U cs i data s with
  | Ok r s' => history c opsem strict args (ks ++ [CMnf x]) s' vars A /\
      exists E, (forall vals, vals_ok c vals -> E vals = true <-> closes c (ab_order A) (fun r => F r = 1%Z) (of_vals vals)) /\
        fst r = a_div ar (a_mul ar (rsum ar (take cs (nth i ps []))) (ProbSpec.probability ar (c_doms c) ps E)) U
  | Err e => e = ERefOver \/ (strict = false /\ e = EPool)
  | Fuel => False
  end.
Proof.
  intros R ar c strict opsem args ks s vars A x F a ps U cs i data RT Hc H Hcl HF Ha Hcv Hd Hi Hcs.
  by apply (fussell_general ar RT c strict opsem args ks s vars A x F a (matrix ps) ps U cs i data Hc H Hcl HF Ha Hcv (matrix_reads ar c ps Hd)).
Qed.


(** ** A concrete case: the system of C63_fussell_vesely_refuted *)

Definition fvV : asg -> Z := fun rho => nth (vec_index c4 [0; 1; 2; 3] rho) fv_vec 0%Z.
Definition fvD : asg -> Z := fun rho => if detector (D3Decrease 1) (fvV (upd rho 0 1)) (fvV (upd rho 0 0)) then 1%Z else 0%Z.
Definition fv_calls : list call := [CVec 0 fv_vec; CDpld 1 (VarChange 0 1 0) (detector (D3Decrease 1)) 0].
Definition fv_abs : astate := bindf 1 fvD (bindf 0 fvV (no_objects args4)).

Lemma fvV_coherent : coherent c4 fvV.
Proof.
  intros x y Hx Hy. assert (X : forallb (fun x => forallb (fun y => bool_decide (Forall2 le x y -> (fvV (of_vals x) <= fvV (of_vals y))%Z)) (states (c_doms c4))) (states (c_doms c4)) = true)
    by (by vm_compute).
  rewrite forallb_forall in X. specialize (X x). rewrite forallb_forall in X.
  apply states_vals, elem_of_list_In in Hx. apply states_vals, elem_of_list_In in Hy. exact (bool_decide_eq_true_1 _ (X Hx y Hy)).
Qed.

Lemma tval4 v : (0 <= v < 2)%Z -> tval c4 v.
Proof. intros Hv. left. split; [|done]. change Nondet with 2147483646%Z. lia. Qed.

Lemma fv_chain : chain c4 (ops_with 2 4 3) true fv_calls (no_objects args4) fv_abs.
Proof.
  apply (Ch_cons _ _ _ _ _ _ (bindf 0 fvV (no_objects args4))); [|apply (Ch_cons _ _ _ _ _ _ fv_abs); [|constructor]]; intros s.
  - apply (S_vec c4 (ops_with 2 4 3) true s 0 fv_vec (no_objects args4)); [by vm_compute|].
    apply Forall_forall. intros v Hv. apply tval4. unfold fv_vec in Hv. repeat (apply elem_of_cons in Hv as [->|Hv]; [lia|]). by apply elem_of_nil in Hv.
  - apply (S_dpld c4 (ops_with 2 4 3) true s 1 (VarChange 0 1 0) (detector (D3Decrease 1)) 0 fvV); [done|apply tval4; lia|vm_compute; lia..].
Qed.

Example C63_fussell_vesely_case : exists s vars a r s',
  history c4 (ops_with 2 4 3) true args4 fv_calls s vars fv_abs /\ vars !! 1 = Some a /\ convex c4 fvD /\
  fussell_vesely_importance c4 q_arith (matrix half4) a (q 7 16) 1 0 ∅ s = Ok r s' /\
  history c4 (ops_with 2 4 3) true args4 (fv_calls ++ [CMnf 1]) s' vars fv_abs /\ fst r = q 4 7 /\
  rsum q_arith (take 1 (nth 0 half4 [])) = q 1 2 /\
  forall E, (forall vals, vals_ok c4 vals -> E vals = true <-> closes c4 [0; 1; 2; 3] (fun r => fvD r = 1%Z) (of_vals vals)) ->
    ProbSpec.probability q_arith (c_doms c4) half4 E = q 1 2.
Proof.
  destruct (outcome_ok (outcome c4 args4 fv_calls)
    (fun v s => is_q (first_of (asks (fun a => fussell_vesely_importance c4 q_arith (matrix half4) a (q 7 16) 1 0 ∅) v s 1)) (4 # 7) = true))
    as (vars&s&E&X); [by vm_compute|].
  unfold outcome in E. destruct (new_manager c4 args4 no_state) as [[] s0| |] eqn:E0; [|discriminate E..].
  pose proof (chain_new _ _ _ _ _ _ _ _ _ _ args4_ok E0 fv_chain E) as H. clear E E0.
  unfold asks in X. destruct (vars !! 1) as [a|] eqn:Ha; [|discriminate X].
  assert (Hv : convex c4 fvD).
  { apply (C63_derivatives_convex c4 true (ops_with 2 4 3) args4 fv_calls s vars fv_abs 0 fvV 0 1 0 (D3Decrease 1) c4_wf H);
      [done|apply fvV_coherent|vm_compute; lia..|done]. }
  pose proof (C63_fussell_vesely Qc q_arith c4 true _ args4 fv_calls s vars fv_abs 1 fvD a half4 (q 7 16) 1 0 ∅
    q_exact c4_wf H eq_refl eq_refl Ha Hv half4_ok ltac:(vm_compute; lia) ltac:(vm_compute; lia)) as Y.
  destruct (fussell_vesely_importance c4 q_arith (matrix half4) a (q 7 16) 1 0 ∅ s) as [r s'| |] eqn:Ef; [|discriminate X..].
  destruct Y as [H' (E&HE&Er)]. assert (Er1 : fst r = q 4 7).
  { apply is_q_eq in X. destruct r as [r d]. simpl in X. injection X as ->. reflexivity. } clear X.
  exists s, vars, a, r, s'. split; [exact H|]. split; [exact Ha|]. split; [exact Hv|]. split; [exact Ef|]. split; [exact H'|]. split; [exact Er1|].
  split; [apply Qc_is_canon; by vm_compute|].
  intros E' HE'. rewrite Er1 in Er.
  assert (EE : ProbSpec.probability q_arith (c_doms c4) half4 E' = ProbSpec.probability q_arith (c_doms c4) half4 E).
  { unfold ProbSpec.probability. f_equal. apply map_ext_in. intros y Hy. apply elem_of_list_In, states_vals in Hy.
    assert (E' y = E y) as ->; [|done]. apply eq_true_iff_eq. rewrite HE, HE' by done. done. }
  rewrite EE. clear -Er. revert Er. generalize (ProbSpec.probability q_arith (c_doms c4) half4 E). intros p Ep.
  assert (E1 : rsum q_arith (take 1 (nth 0 half4 [])) = q 1 2) by (apply Qc_is_canon; by vm_compute). rewrite E1 in Ep.
  change (q 4 7 = Qcdiv (Qcmult (q 1 2) p) (q 7 16)) in Ep.
  transitivity (Qcdiv (Qcmult (q 4 7) (q 7 16)) (q 1 2)); [rewrite Ep; field|apply Qc_is_canon; by vm_compute].
  split; discriminate.
Qed.

(** ** The order of the variables *)

Definition args_in (o : list nat) : cargs := CArgs (map Z.of_nat o) 100 100 64 (replicate 4 10%Z) (fun n => (n / 5)%Z) (fun n => n).
Definition fv_ops : list call :=
  [CVar 10 0; CVar 11 1; CVar 12 2; CVar 13 3; CApply 20 AND 10 11; CApply 21 AND 10 12; CApply 22 AND 11 12; CApply 23 AND 12 13;
   CApply 24 OR 20 21; CApply 25 OR 22 23; CApply 0 OR 24 25; CDpld 1 (VarChange 0 1 0) (detector (D3Decrease 1)) 0].

Lemma args_in_ok o : is_order 4 (map Z.of_nat o) -> cargs_ok c4 true (args_in o).
Proof.
  intros Ho. constructor; try done. intros _. split; [done|]. simpl. intros n Hn. apply Z.div_le_lower_bound; lia.
Qed.

Definition fv_result (x : Q) (v : vars_t) (s : st) : Prop :=
  forallb (fun vals => bool_decide (value_at c4 v s 0 vals = Some (fvF (of_vals vals)))) (states (c_doms c4)) = true /\
  is_q (first_of (asks (fun a => fussell_vesely_importance c4 q_arith (matrix half4) a (q 7 16) 1 0 ∅) v s 1)) x = true.
Lemma fv_run1 : exists v s, outcome c4 (args_in [0; 1; 2; 3]) fv_ops = Ok v s /\ fv_result (4 # 7) v s.
Proof. apply outcome_ok. by vm_compute. Qed.
Lemma fv_run2 : exists v s, outcome c4 (args_in [3; 2; 1; 0]) fv_ops = Ok v s /\ fv_result (5 # 7) v s.
Proof. apply outcome_ok. by vm_compute. Qed.

(** the same calls in managers with other orders of the variables give other importances
    of the same component of the same system *)
Theorem C63_order_refuted : exists c p1 p2 ks F i cs ps U vars1 s1 vars2 s2,
  wf_cfg c /\ cargs_ok c true p1 /\ cargs_ok c true p2 /\ coherent c F /\ distributions q_arith (c_doms c) ps /\
  U = prob_of q_arith c ps (fun v => (v <? 1)%Z) F /\
  outcome c p1 (ks ++ [CDpld 1 (VarChange i cs (cs - 1)) (detector (D3Decrease 1)) 0]) = Ok vars1 s1 /\
  outcome c p2 (ks ++ [CDpld 1 (VarChange i cs (cs - 1)) (detector (D3Decrease 1)) 0]) = Ok vars2 s2 /\
  (forall vals, vals_ok c vals -> value_at c vars1 s1 0 vals = Some (F (of_vals vals)) /\ value_at c vars2 s2 0 vals = Some (F (of_vals vals))) /\
  first_of (asks (fun a => fussell_vesely_importance c q_arith (matrix ps) a U cs i ∅) vars1 s1 1) = Some (q 4 7) /\
  first_of (asks (fun a => fussell_vesely_importance c q_arith (matrix ps) a U cs i ∅) vars2 s2 1) = Some (q 5 7).
Proof.
  destruct fv_run1 as (vars1&s1&E1&H1&R1). destruct fv_run2 as (vars2&s2&E2&H2&R2).
  exists c4, (args_in [0; 1; 2; 3]), (args_in [3; 2; 1; 0]), (take 11 fv_ops), fvF, 0, 1, half4, (q 7 16), vars1, s1, vars2, s2.
  split; [apply c4_wf|]. split; [apply args_in_ok; exact (Permutation_refl (map Z.of_nat (seq 0 4)))|].
  split; [apply args_in_ok; exact (Permutation_sym (Permutation_rev (map Z.of_nat (seq 0 4))))|]. split; [apply fv_coherent|]. split; [apply half4_ok|].
  split; [symmetry; exact fv_U|]. split; [exact E1|]. split; [exact E2|]. clear E1 E2. split; [|split; by apply is_q_eq].
  clear R1 R2. intros vals Hv. apply states_vals, elem_of_list_In in Hv. rewrite forallb_forall in H1, H2.
  split; [exact (bool_decide_eq_true_1 _ (H1 vals Hv))|exact (bool_decide_eq_true_1 _ (H2 vals Hv))].
Qed.

Print Assumptions C63_to_mnf_exact.
Print Assumptions C63_derivatives_convex.
Print Assumptions C63_fussell_vesely.
Print Assumptions C63_fussell_vesely_case.
Print Assumptions C63_order_refuted.
