(** * C63: minimal normal forms and the Fussell-Vesely importance *)

From stdpp Require Import gmap list list_numbers.
From Coq Require Import ZArith Lia QArith Qcanon.
From Verif Require Import Base Ops Tables NodeManager Tools Sift DiagramManager Reliability World Queries.
From Verif Require Import Heap Inv Trav Eval Api Fold VecSpec Vec WorldSpec WorldProof MnfProof Ctor History PropsBase Chain PropsBase2 Examples Refuted.
From Verif Require Import QuerySpec VectorSpec PropsQuery PropsCore2 PropsDpld Prob ProbSpec PropsProb Tsl TslProof TslProof2 PropsTsl.

Local Close Scope Q_scope.
Local Close Scope Qc_scope.
Local Open Scope nat_scope.

(** ** to_mnf *)

(** the result contains the function, and lies within its downward closure *)
Theorem C63_to_mnf : forall c strict opsem args ks s vars A x F a,
  wf_cfg c -> history c opsem strict args ks s vars A -> ab A !! x = Some F -> vars !! x = Some a ->
  match to_mnf c a s with
  | Ok b s' => exists G, computes c s' b G /\
      (forall vals, vals_ok c vals -> F (of_vals vals) = 1%Z -> G (of_vals vals) = 1%Z) /\
      (forall vals, vals_ok c vals -> G (of_vals vals) = 1%Z ->
        exists vals', vals_ok c vals' /\ Forall2 le vals vals' /\ F (of_vals vals') = 1%Z) /\
      forall y H e, ab A !! y = Some H -> vars !! y = Some e -> computes c s' e H
  | Err e => e = ERefOver \/ (strict = false /\ e = EPool)
  | Fuel => False
  end.
Proof.
  intros c strict opsem args ks s vars A x F a Hc H HF Ha. destruct (history_winv _ _ _ _ _ _ _ _ Hc H) as [g W].
  destruct (wi_den_pos _ _ _ _ _ _ _ _ _ W HF) as (a'&Ha'&D&P). rewrite Ha in Ha'. injection Ha' as <-.
  pose proof (wi_calm _ _ _ _ _ _ _ W) as C.
  pose proof (to_mnf_spec c opsem strict g a s Hc C (wi_idle _ _ _ _ _ _ _ W) P) as X. unfold wp in X.
  destruct (to_mnf c a s) as [b s'|e|]; [|exact X..]. destruct X as (S&[Lo Up _ _ _ _]&_).
  pose proof (as_calm _ _ _ _ _ _ _ _ S) as C'. pose proof (ext_inc_same (g_ext g) b) as Pb.
  destruct (den_ex c opsem strict (g_inc b g) s' b C' Pb) as [G DG].
  exists G. split; [exact (den_computes c opsem strict (g_inc b g) s' b G C' Pb DG)|]. split; [|split].
  - intros vals Hv E. eapply Ev_det; [apply DG, Hv|]. apply Lo; [apply Hv|]. rewrite <- E. apply D, Hv.
  - intros vals Hv E. destruct (Up (of_vals vals)) as (rho&Hr&Hle&HE); [apply Hv|rewrite <- E; apply DG, Hv|].
    destruct (vals_of c rho Hr) as [Hr' Er]. exists (map rho (seq 0 (nvars c))). split_and!; [done| |].
    + apply Forall2_same_length_lookup_2; [rewrite (proj1 Hv), (proj1 Hr'); done|]. intros i k k' Hk Hk'.
      pose proof (lookup_lt_Some _ _ _ Hk) as Hi. rewrite (proj1 Hv) in Hi.
      rewrite of_vals_lookup in Hk by (by rewrite (proj1 Hv)). rewrite of_vals_lookup in Hk' by (by rewrite (proj1 Hr')).
      injection Hk as <-. injection Hk' as <-. rewrite Er by done. by apply Hle.
    + rewrite <- (history_ext _ _ _ _ _ _ _ _ _ F rho _ Hc H HF Hr) by (intros; by rewrite Er).
      eapply Ev_det; [apply D, Hr|exact HE].
  - intros y K e HK He. destruct (wi_den_pos _ _ _ _ _ _ _ _ _ W HK) as (e'&He'&De&Pe). rewrite He in He'. injection He' as <-.
    assert (0 < g_ext (g_inc b g) e) by (simpl; pose proof (ext_inc_le (g_ext g) b e); lia).
    eapply den_computes; [exact C'|done|]. intros rho Hv. apply (as_ev _ _ _ _ _ _ _ _ S); [done|done|done|]. by apply De.
Qed.

(** so it changes nothing in a function that is downward closed already *)
Theorem C63_to_mnf_closed : forall c strict opsem args ks s vars A x F a b s',
  wf_cfg c -> history c opsem strict args ks s vars A -> ab A !! x = Some F -> vars !! x = Some a ->
  (forall vals vals', vals_ok c vals -> vals_ok c vals' -> Forall2 le vals vals' -> F (of_vals vals') = 1%Z -> F (of_vals vals) = 1%Z) ->
  to_mnf c a s = Ok b s' ->
  exists G, computes c s' b G /\ forall vals, vals_ok c vals -> G (of_vals vals) = 1%Z <-> F (of_vals vals) = 1%Z.
Proof.
  intros c strict opsem args ks s vars A x F a b s' Hc H HF Ha Hd E.
  pose proof (C63_to_mnf c strict opsem args ks s vars A x F a Hc H HF Ha) as X. rewrite E in X. clear E.
  destruct X as (G&HG&Lo&Up&_). exists G. split; [exact HG|]. intros vals Hv. split; [|by apply Lo].
  intros E. destruct (Up vals Hv E) as (vals'&Hv'&Hle&E'). by apply (Hd vals vals').
Qed.

(** ** The importance *)

(** improving components never makes the system worse *)
Definition coherent (c : cfg) (F : asg -> Z) : Prop :=
  forall x y, vals_ok c x -> vals_ok c y -> Forall2 le x y -> (F (of_vals x) <= F (of_vals y))%Z.

Definition c4 : cfg := Cfg [2; 2; 2; 2] None (fun a => (Npos a * 64)%N) true false.
Definition args4 : cargs := CArgs (map Z.of_nat (seq 0 4)) 100 100 64 (replicate 4 10%Z) (fun n => (n / 5)%Z) (fun n => n).
Definition half4 : list (list Qc) := replicate 4 [q 1 2; q 1 2].

(** a coherent system of four components *)
Definition fvF : asg -> Z := fun r =>
  let on := if r 0 =? 0 then (if r 1 =? 0 then (r 2 =? 1) && (r 3 =? 1) else r 2 =? 1)
            else (if r 1 =? 0 then r 2 =? 1 else true) in
  if on then 1%Z else 0%Z.
Definition fv_vec : list Z := [0; 0; 0; 1; 0; 0; 1; 1; 0; 0; 1; 1; 1; 1; 1; 1]%Z.
Definition fv_cuts : list (list nat) := [[0; 0; 1; 0]; [0; 1; 0; 1]; [1; 0; 0; 1]].
Definition fvE (x : list nat) : bool := bool_decide (Exists (fun m => S (nth 0 m 0) = 1 /\ Forall2 le x m) fv_cuts).

Lemma c4_wf : wf_cfg c4.
Proof.
  constructor.
  - intros i Hi. do 4 (destruct i as [|i]; [vm_compute; lia|]). vm_compute in Hi. lia.
  - done.
  - intros i Hi. do 4 (destruct i as [|i]; [by vm_compute|]). vm_compute in Hi. lia.
Qed.
Lemma args4_ok : cargs_ok c4 true args4.
Proof.
  constructor.
  - unfold is_order. done.
  - done.
  - done.
  - done.
  - intros _. split; [done|]. simpl. intros n Hn. apply Z.div_le_lower_bound; lia.
Qed.
Lemma half4_ok : distributions q_arith (c_doms c4) half4.
Proof. repeat constructor; apply Qc_is_canon; by vm_compute. Qed.

Lemma fv_coherent : coherent c4 fvF.
Proof.
  intros x y Hx Hy. assert (X : forallb (fun x => forallb (fun y => bool_decide (Forall2 le x y -> (fvF (of_vals x) <= fvF (of_vals y))%Z)) (states (c_doms c4))) (states (c_doms c4)) = true)
    by (by vm_compute).
  rewrite forallb_forall in X. specialize (X x). rewrite forallb_forall in X.
  apply states_vals, elem_of_list_In in Hx. apply states_vals, elem_of_list_In in Hy. exact (bool_decide_eq_true_1 _ (X Hx y Hy)).
Qed.

(** every minimal cut that involves the first component, as defined in VectorSpec.v *)
Lemma fv_event x : vals_ok c4 x ->
  fvE x = true <-> exists m, minimal_cut c4 fvF 1 m /\ S (nth 0 m 0) = 1 /\ Forall2 le x m.
Proof.
  intros Hx. destruct (make_table fv_vec (c_doms c4)) as [t| |] eqn:Et; [|by vm_compute in Et..].
  assert (Hs : has_states c4). { intros i Hi. pose proof (wc_dom _ c4_wf i Hi). lia. }
  assert (Ht : table_of c4 fvF t) by (apply (table_of_made c4 (fun x => fvF (of_vals x))); [apply Hs| |done]; rewrite <- Et; by vm_compute).
  destruct (C61_mcvs c4 fvF t 1 0 Hs Ht ltac:(vm_compute; lia) ltac:(vm_compute; lia)) as (l&El&_&Hl).
  assert (El' : match make_table fv_vec (c_doms c4) with Val t => calculate_mcvs t 1 = Val fv_cuts | _ => False end) by (by vm_compute).
  rewrite Et, El in El'. injection El' as ->.
  unfold fvE. rewrite bool_decide_eq_true, Exists_exists. split; intros (m&Hm&X); exists m; (split; [by apply Hl|done]).
Qed.

Lemma fv_U : prob_of q_arith c4 half4 (fun v => (v <? 1)%Z) fvF = q 7 16.
Proof. apply Qc_is_canon. by vm_compute. Qed.
Lemma fv_P : ProbSpec.probability q_arith (c_doms c4) half4 fvE = q 5 16.
Proof. apply Qc_is_canon. by vm_compute. Qed.

(** fussell_vesely_importance is not the Fussell-Vesely importance, for a coherent
    system and the derivative that the library's tests use: to_mnf does not merge
    two sons that are both internal nodes *)
Theorem C63_fussell_vesely_refuted : exists c p F vec vars s ps U i cs E,
  wf_cfg c /\ cargs_ok c true p /\ distributions q_arith (c_doms c) ps /\ coherent c F /\
  outcome c p [CVec 0 vec; CDpld 1 (VarChange i cs (cs - 1)) (detector (D3Decrease 1)) 0] = Ok vars s /\
  (forall vals, vals_ok c vals -> value_at c vars s 0 vals = Some (F (of_vals vals))) /\
  U = prob_of q_arith c ps (fun v => (v <? 1)%Z) F /\
  (forall x, vals_ok c x -> E x = true <-> exists m, minimal_cut c F 1 m /\ S (nth i m 0) = cs /\ Forall2 le x m) /\
  Qcdiv (ProbSpec.probability q_arith (c_doms c) ps E) U = q 5 7 /\
  first_of (asks (fun a => fussell_vesely_importance c q_arith (matrix ps) a U cs i ∅) vars s 1) = Some (q 4 7).
Proof.
  destruct (outcome_ok (outcome c4 args4 [CVec 0 fv_vec; CDpld 1 (VarChange 0 1 0) (detector (D3Decrease 1)) 0])
    (fun v s => forallb (fun vals => bool_decide (value_at c4 v s 0 vals = Some (fvF (of_vals vals)))) (states (c_doms c4)) = true /\
      is_q (first_of (asks (fun a => fussell_vesely_importance c4 q_arith (matrix half4) a (q 7 16) 1 0 ∅) v s 1)) (4 # 7) = true))
    as (vars&s&E&H1&H2); [by vm_compute|].
  exists c4, args4, fvF, fv_vec, vars, s, half4, (q 7 16), 0, 1, fvE.
  split; [apply c4_wf|]. split; [apply args4_ok|]. split; [apply half4_ok|]. split; [apply fv_coherent|]. split; [exact E|]. clear E.
  split; [|split; [symmetry; exact fv_U|split; [apply fv_event|split]]].
  - intros vals Hv. rewrite forallb_forall in H1. specialize (H1 vals). apply bool_decide_eq_true in H1; [exact H1|].
    by apply elem_of_list_In, states_vals.
  - rewrite fv_P. clear. apply Qc_is_canon. by vm_compute.
  - clear H1. by apply is_q_eq.
Qed.

(** ** Marks *)

Definition c5 : cfg := Cfg [2; 3; 2; 2; 2] None (fun a => (Npos a * 64)%N) true false.
Definition args5 : cargs := CArgs (map Z.of_nat (seq 0 5)) 100 100 64 (replicate 5 10%Z) (fun n => (n / 5)%Z) (fun n => n).
Definition vec5 : list Z :=
  [0; 1; 0; 1; 0; 1; 0; 0; 0; 0; 0; 0; 0; 0; 0; 0; 0; 0; 0; 0; 0; 0; 0; 0;
   0; 0; 0; 1; 0; 1; 0; 0; 0; 1; 0; 1; 0; 1; 0; 1; 0; 0; 0; 0; 0; 0; 0; 0]%Z.
Definition half5 : list (list Qc) := [[q 1 2; q 1 2]; [q 1 3; q 1 3; q 1 3]; [q 1 2; q 1 2]; [q 1 2; q 1 2]; [q 1 2; q 1 2]].

Lemma c5_wf : wf_cfg c5.
Proof.
  constructor.
  - intros i Hi. do 5 (destruct i as [|i]; [vm_compute; lia|]). vm_compute in Hi. lia.
  - done.
  - intros i Hi. do 5 (destruct i as [|i]; [by vm_compute|]). vm_compute in Hi. lia.
Qed.
Lemma args5_ok : cargs_ok c5 true args5.
Proof.
  constructor.
  - unfold is_order. done.
  - done.
  - done.
  - done.
  - intros _. split; [done|]. simpl. intros n Hn. apply Z.div_le_lower_bound; lia.
Qed.
Lemma half5_ok : distributions q_arith (c_doms c5) half5.
Proof. repeat constructor; apply Qc_is_canon; by vm_compute. Qed.

(** the minimal normal form of a derivative of a system that is not coherent has
    a marked node; the traversal of calculate_probability skips it, and an
    uninitialised number is read *)
Theorem C63_marked_refuted : exists c p vec vars s ps U i cs,
  wf_cfg c /\ cargs_ok c true p /\ distributions q_arith (c_doms c) ps /\
  outcome c p [CVec 0 vec; CDpld 1 (VarChange i cs (cs - 1)) (detector (D3Decrease 1)) 0] = Ok vars s /\
  asks (fun a => calculate_probability c q_arith 1 (matrix ps) a ∅) vars s 1 <> Err EUninit /\
  asks (fun a => fussell_vesely_importance c q_arith (matrix ps) a U cs i ∅) vars s 1 = Err EUninit.
Proof.
  destruct (outcome_ok (outcome c5 args5 [CVec 0 vec5; CDpld 1 (VarChange 4 1 0) (detector (D3Decrease 1)) 0])
    (fun v s => match asks (fun a => calculate_probability c5 q_arith 1 (matrix half5) a ∅) v s 1 with Ok _ _ => True | _ => False end /\
      asks (fun a => fussell_vesely_importance c5 q_arith (matrix half5) a (q 1 2) 1 4 ∅) v s 1 = Err EUninit))
    as (vars&s&E&H1&H2); [by vm_compute|].
  exists c5, args5, vec5, vars, s, half5, (q 1 2), 4, 1.
  split; [apply c5_wf|]. split; [apply args5_ok|]. split; [apply half5_ok|]. split; [exact E|]. clear E. split; [|exact H2].
  destruct (asks _ _ _ _); [discriminate|contradiction..].
Qed.

(** ** The theorems about to_mnf apply *)

(** the function with vector 150 is 1 at [1; 0; 0] and 0 at [0; 0; 0]; the
    minimal normal form is 1 at both *)
Example C63_to_mnf_case : exists s vars a b s', history cm (ops_with 2 4 3) true args3 [CVec 0 (bits 150)] s vars (bindf 0 ts_fun (no_objects args3)) /\
  vars !! 0 = Some a /\ to_mnf cm a s = Ok b s' /\ DiagramManager.evaluate cm b [0; 0; 0] s' = Ok 1%Z s' /\ ts_fun (of_vals [0; 0; 0]) = 0%Z.
Proof.
  assert (Ch : chain cm (ops_with 2 4 3) true [CVec 0 (bits 150)] (no_objects args3) (bindf 0 ts_fun (no_objects args3))).
  { apply (Ch_cons _ _ _ _ _ _ (bindf 0 ts_fun (no_objects args3))); [|constructor]. intros s.
    apply (S_vec cm (ops_with 2 4 3) true s 0 (bits 150) (no_objects args3)); [by vm_compute|].
    apply Forall_forall. intros v (k&->&_)%elem_of_list_fmap. left. split; [|done]. destruct (Z.testbit _ _); vm_compute; split; done. }
  destruct (outcome_ok (outcome cm args3 [CVec 0 (bits 150)]) (fun v s => match v !! 0 with Some a =>
    match to_mnf cm a s with Ok b s' => match DiagramManager.evaluate cm b [0; 0; 0] s' with Ok v _ => v = 1%Z | _ => False end | _ => False end | None => False end))
    as (vars&s&E&X); [by vm_compute|].
  unfold outcome in E. destruct (new_manager cm args3 no_state) as [[] s0| |] eqn:E0; [|discriminate E..].
  pose proof (chain_new _ _ _ _ _ _ _ _ _ _ cm_args E0 Ch E) as H. clear E E0.
  destruct (vars !! 0) as [a|] eqn:Ha; [|contradiction]. exists s, vars, a.
  pose proof (C63_to_mnf cm true _ _ _ s vars _ 0 ts_fun a cm_wf H (lookup_insert _ _ _) Ha) as Y.
  destruct (to_mnf cm a s) as [b s'| |]; [|contradiction..]. exists b, s'.
  destruct Y as (G&HG&_). specialize (HG [0; 0; 0]).
  assert (V : vals_ok cm [0; 0; 0]).
  { split; [done|]. intros i Hi. do 3 (destruct i as [|i]; [vm_compute; lia|]). vm_compute in Hi. lia. }
  specialize (HG V). rewrite HG in X. split; [exact H|]. split; [exact Ha|]. split; [reflexivity|]. rewrite HG, X. split; [reflexivity|]. clear. by vm_compute.
Qed.

Print Assumptions C63_to_mnf.
Print Assumptions C63_to_mnf_closed.
Print Assumptions C63_fussell_vesely_refuted.
Print Assumptions C63_marked_refuted.
