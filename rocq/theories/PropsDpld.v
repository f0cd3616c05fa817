(** * Properties of derivatives and of minimal vectors: C43, C44, C49, C50 *)

From stdpp Require Import gmap list.
From Coq Require Import ZArith Lia.
From Verif Require Import Base Ops Tables NodeManager Tools Sift DiagramManager Reliability World.
From Verif Require Import Heap Inv InvLemmas Apply Constr Expr VecSpec Eval Fold.
From Verif Require Import OpSpec WorldSpec WorldProof Ctor History PropsBase Chain PropsBase2 Examples Refuted.
From Verif Require Import Queries QuerySpec QueryProof FromPla Mcvs VectorSpec McvsProof.

Local Open Scope nat_scope.
Local Opaque exec run new_manager evaluate satisfy_all force_reorder.

(** ** C43 *)

(** the types of derivatives, and the changes of the value they stand for *)
Inductive dtype :=
| DBasic (from to : Z)
| D1Decrease (j : Z) | D1Increase (j : Z)
| D2Decrease | D2Increase
| D3Decrease (j : Z) | D3Increase (j : Z).

Definition changes (t : dtype) (before after : Z) : Prop :=
  match t with
  | DBasic from to => before = from /\ after = to
  | D1Decrease j => before = j /\ after < j
  | D1Increase j => before = j /\ j < after
  | D2Decrease => after < before
  | D2Increase => before < after
  | D3Decrease j => j <= before /\ after < j
  | D3Increase j => before < j /\ j <= after
  end%Z.

Definition detector (t : dtype) : Z -> Z -> bool :=
  match t with
  | DBasic from to => dpld_basic from to
  | D1Decrease j => type_1_decrease j
  | D1Increase j => type_1_increase j
  | D2Decrease => type_2_decrease
  | D2Increase => type_2_increase
  | D3Decrease j => type_3_decrease j
  | D3Increase j => type_3_increase j
  end.

Lemma detector_spec t x y : detector t x y = true <-> changes t x y.
Proof.
  destruct t; simpl; unfold dpld_basic, type_1_decrease, type_1_increase, type_2_decrease, type_2_increase, type_3_decrease, type_3_increase;
    rewrite ?andb_true_iff, ?Z.eqb_eq, ?Z.ltb_lt, ?Z.leb_le; done.
Qed.

Lemma vals_upd c opsem strict args ks s vars A x F vals i k :
  wf_cfg c -> history c opsem strict args ks s vars A -> ab A !! x = Some F ->
  vals_ok c vals -> i < nvars c -> k < dom c i -> F (upd (of_vals vals) i k) = F (of_vals (<[i := k]> vals)).
Proof.
  intros Hc H HF Hv Hi Hk. eapply (history_ext c opsem strict args ks s vars A x F); try done.
  - apply upd_valid; [apply Hv|done].
  - intros j Hj. by apply (of_vals_upd c).
Qed.

Theorem C43_dpld : forall c strict opsem args ks s vars A d x F i from to t,
  wf_cfg c -> history c opsem strict args ks s vars A -> ab A !! x = Some F -> tval c 1 ->
  i < nvars c -> from < dom c i -> to < dom c i ->
  match exec c (CDpld d (VarChange i from to) (detector t) x) vars s with
  | Ok vars' s' => exists a, vars' !! d = Some a /\
      forall vals, vals_ok c vals -> exists v, evaluate c a vals s' = Ok v s' /\ (v = 0 \/ v = 1)%Z /\
        (v = 1%Z <-> changes t (F (of_vals (<[i := from]> vals))) (F (of_vals (<[i := to]> vals))))
  | Err e => e = ERefOver \/ (strict = false /\ e = EPool)
  | Fuel => False
  end.
Proof.
  intros c strict opsem args ks s vars A d x F i from to t Hc H HF H1 Hi Hf Ht.
  pose proof (S_dpld c opsem strict s d (VarChange i from to) (detector t) x F A HF H1 Hf Ht) as Sp.
  pose proof (history_safe _ _ _ _ _ _ _ _ _ _ Hc H Sp) as X.
  destruct (exec c (CDpld d (VarChange i from to) (detector t) x) vars s) as [vars' s'|e|] eqn:E; [|exact X|exact X]. clear X.
  destruct (call_value c strict opsem args ks s vars A _ _ s' vars' d _ Hc H Sp E (lookup_insert _ _ _)) as (a&Ha&V).
  exists a. split; [exact Ha|]. clear E Sp. intros vals Hv. eexists. split; [exact (V vals Hv)|]. clear V Ha. cbn beta.
  cbn [vc_index vc_from vc_to].
  rewrite !(vals_upd c opsem strict args ks s vars A x F) by done.
  rewrite <- detector_spec. destruct (detector t _ _); split; auto; by split.
Qed.

(** the increase of x1 from 0 to 2 raises x0 + ... from below 2 to 2 or above *)
Example C43_case : exists v s a, exec ex_cfg (CDpld 9 (VarChange 1 0 2) (detector (D3Increase 2)) 4) ex_vars ex_st = Ok v s /\
  v !! 9 = Some a /\ evaluate ex_cfg a [0; 1; 1] s = Ok 1%Z s /\ evaluate ex_cfg a [1; 1; 1] s = Ok 0%Z s.
Proof.
  destruct (ex_call (CDpld 9 (VarChange 1 0 2) (detector (D3Increase 2)) 4)) as (v&s&E); [by vm_compute|].
  pose proof (C43_dpld ex_cfg true ex_ops ex_args ex_prog ex_st ex_vars ex_abs 9 4 exF4 1 0 2 (D3Increase 2) ex_wf ex_history eq_refl
    (ex_tval 1 ltac:(lia)) ltac:(vm_compute; lia) ltac:(vm_compute; lia) ltac:(vm_compute; lia)) as X.
  rewrite E in X. destruct X as (a&Ha&V). exists v, s, a. split; [exact E|]. split; [exact Ha|]. clear E Ha.
  split.
  - destruct (V [0; 1; 1]) as (w&E&_&Hw).
    + split; [done|]. intros i Hi. do 3 (destruct i as [|i]; [vm_compute; lia|]). vm_compute in Hi. lia.
    + assert (w = 1%Z) as -> by (apply Hw; by vm_compute). exact E.
  - destruct (V [1; 1; 1]) as (w&E&Hw0&Hw).
    + split; [done|]. intros i Hi. do 3 (destruct i as [|i]; [vm_compute; lia|]). vm_compute in Hi. lia.
    + destruct Hw0 as [-> | ->]; [exact E|]. exfalso. destruct (proj1 Hw eq_refl) as [Y _]. vm_compute in Y. discriminate Y.
Qed.
Print Assumptions C43_dpld.

(** ** C44 *)

(** [F] does not depend on variable [i] *)
Definition independent (c : cfg) (F : asg -> Z) (i : nat) : Prop :=
  forall vals k, vals_ok c vals -> k < dom c i -> F (of_vals (<[i := k]> vals)) = F (of_vals vals).

Definition extension (from i : nat) (F : asg -> Z) (vals : list nat) : Z :=
  if decide (nth i vals 0 = from) then F (of_vals vals) else Undef.

(** as long as the variables have not been reordered *)
Theorem C44_to_dpld_e : forall c strict opsem args ks s vars A d x F i from,
  wf_cfg c -> history c opsem strict args ks s vars A -> ab A !! x = Some F -> ab_canon A = true ->
  i < nvars c -> tval c Undef -> independent c F i ->
  match exec c (CExtend d from i x) vars s with
  | Ok vars' s' => exists a, vars' !! d = Some a /\
      forall vals, vals_ok c vals -> evaluate c a vals s' = Ok (extension from i F vals) s'
  | Err e => e = ERefOver \/ (strict = false /\ e = EPool)
  | Fuel => False
  end.
Proof.
  intros c strict opsem args ks s vars A d x F i from Hc H HF Hcn Hi HU Hind.
  assert (Sp : spec c opsem strict s (CExtend d from i x) A (bindf d (fun rho => if rho i =? from then F rho else Undef) A)).
  { apply S_extend; try done. intros rho k Hv Hk.
    set (vals := map rho (seq 0 (nvars c))).
    assert (Ev : forall j, j < nvars c -> of_vals vals j = rho j).
    { intros j Hj. unfold of_vals, vals. rewrite (nth_indep _ 0 (rho 0)) by (rewrite map_length, seq_length; lia).
      rewrite map_nth, seq_nth by lia. done. }
    assert (Hok : vals_ok c vals).
    { split; [unfold vals; by rewrite map_length, seq_length|]. intros j Hj. rewrite Ev by done. by apply Hv. }
    rewrite (history_ext c opsem strict args ks s vars A x F rho (of_vals vals) Hc H HF Hv) by (intros; by rewrite Ev).
    rewrite <- (Hind vals k Hok Hk). rewrite <- (vals_upd c opsem strict args ks s vars A x F vals i k Hc H HF Hok Hi Hk).
    apply (history_ext c opsem strict args ks s vars A x F _ _ Hc H HF).
    - by apply upd_valid.
    - intros j Hj. unfold upd. destruct (decide (j = i)); [done|]. by rewrite Ev. }
  pose proof (history_safe _ _ _ _ _ _ _ _ _ _ Hc H Sp) as X.
  destruct (exec c (CExtend d from i x) vars s) as [vars' s'|e|] eqn:E; [|exact X|exact X]. clear X.
  destruct (call_value c strict opsem args ks s vars A _ _ s' vars' d _ Hc H Sp E (lookup_insert _ _ _)) as (a&Ha&V).
  exists a. split; [exact Ha|]. clear E Sp. intros vals Hv. rewrite (V vals Hv). f_equal. unfold extension, of_vals at 1.
  destruct (Nat.eqb_spec (nth i vals 0) from) as [E|E]; [by rewrite decide_True|by rewrite decide_False].
Qed.

(** [x5] is the product of x0 and x2 *)
Lemma ex_independent : independent ex_cfg exF5 1.
Proof.
  intros vals k [Hl _] _. destruct vals as [|v0 [|v1 [|v2 [|]]]]; try discriminate Hl. reflexivity.
Qed.

Example C44_case : exists v s a, exec ex_cfg (CExtend 9 2 1 5) ex_vars ex_st = Ok v s /\
  v !! 9 = Some a /\ evaluate ex_cfg a [1; 2; 1] s = Ok 1%Z s /\ evaluate ex_cfg a [1; 1; 1] s = Ok Undef s.
Proof.
  destruct (ex_call (CExtend 9 2 1 5)) as (v&s&E); [by vm_compute|].
  pose proof (C44_to_dpld_e ex_cfg true ex_ops ex_args ex_prog ex_st ex_vars ex_abs 9 5 exF5 1 2 ex_wf ex_history eq_refl
    eq_refl ltac:(vm_compute; lia) (or_intror (conj eq_refl (or_intror eq_refl))) ex_independent) as X.
  rewrite E in X. destruct X as (a&Ha&V). exists v, s, a. split; [exact E|]. split; [exact Ha|]. clear E Ha.
  split; apply V; (split; [done|]); intros i Hi; do 3 (destruct i as [|i]; [vm_compute; lia|]); vm_compute in Hi; lia.
Qed.
Print Assumptions C44_to_dpld_e.

(** the two steps together: a derivative and its extension, also after reorderings *)
Theorem C44_extended_derivative : forall c strict opsem args ks s vars A d x F i from to t,
  wf_cfg c -> history c opsem strict args ks s vars A -> ab A !! x = Some F -> tval c 1 -> tval c Undef ->
  i < nvars c -> from < dom c i -> to < dom c i ->
  match exec c (CDpldE d (VarChange i from to) (detector t) from x) vars s with
  | Ok vars' s' => exists a, vars' !! d = Some a /\
      forall vals, vals_ok c vals -> exists v, evaluate c a vals s' = Ok v s' /\
        (nth i vals 0 <> from -> v = Undef) /\
        (nth i vals 0 = from -> (v = 0 \/ v = 1)%Z /\ (v = 1%Z <-> changes t (F (of_vals vals)) (F (of_vals (<[i := to]> vals)))))
  | Err e => e = ERefOver \/ (strict = false /\ e = EPool)
  | Fuel => False
  end.
Proof.
  intros c strict opsem args ks s vars A d x F i from to t Hc H HF H1 HU Hi Hf Ht.
  pose proof (S_dplde c opsem strict s d (VarChange i from to) (detector t) from x F A HF H1 HU Hf Ht) as Sp.
  pose proof (history_safe _ _ _ _ _ _ _ _ _ _ Hc H Sp) as X.
  destruct (exec c (CDpldE d (VarChange i from to) (detector t) from x) vars s) as [vars' s'|e|] eqn:E; [|exact X|exact X]. clear X.
  destruct (call_value c strict opsem args ks s vars A _ _ s' vars' d _ Hc H Sp E (lookup_insert _ _ _)) as (a&Ha&V).
  exists a. split; [exact Ha|]. clear E Sp. intros vals Hv. eexists. split; [exact (V vals Hv)|]. clear V Ha. cbn beta.
  cbn [vc_index vc_from vc_to].
  rewrite !(vals_upd c opsem strict args ks s vars A x F) by done.
  rewrite <- detector_spec. change (of_vals vals i) with (nth i vals 0). destruct (Nat.eqb_spec (nth i vals 0) from) as [En|En]; [|by split].
  split; [done|]. intros _.
  assert (Ei : <[i := from]> vals = vals).
  { apply list_insert_id. subst from. apply (of_vals_lookup vals i). by rewrite (proj1 Hv). }
  rewrite Ei. destruct (detector t _ _); (split; [auto|by split]).
Qed.

Lemma ex_vals x y z : x < 2 -> y < 3 -> z < 2 -> vals_ok ex_cfg [x; y; z].
Proof.
  intros Hx Hy Hz. split; [done|]. intros i Hi. do 3 (destruct i as [|i]; [done|]). vm_compute in Hi. lia.
Qed.

Example C44_after_reorder_case : exists vars1 s1 vars2 s2 a,
  exec ex_cfg CReorder ex_vars ex_st = Ok vars1 s1 /\
  exec ex_cfg (CDpldE 9 (VarChange 1 0 1) (detector D2Increase) 0 4) vars1 s1 = Ok vars2 s2 /\ vars2 !! 9 = Some a /\
  evaluate ex_cfg a [0; 0; 1] s2 = Ok 1%Z s2 /\ evaluate ex_cfg a [0; 2; 1] s2 = Ok Undef s2.
Proof.
  destruct (ex_two CReorder (CDpldE 9 (VarChange 1 0 1) (detector D2Increase) 0 4)) as (vars1&s1&vars2&s2&E1&E2); [by vm_compute|].
  exists vars1, s1, vars2, s2.
  pose proof (H_call _ _ _ _ _ _ _ _ _ _ _ _ ex_history (S_reorder ex_cfg ex_ops true ex_st ex_abs) E1) as H1.
  pose proof (C44_extended_derivative ex_cfg true ex_ops ex_args _ s1 vars1 _ 9 4 exF4 1 0 1 D2Increase ex_wf H1 eq_refl
    (ex_tval 1 ltac:(lia)) (or_intror (conj eq_refl (or_intror eq_refl)))
    ltac:(vm_compute; lia) ltac:(vm_compute; lia) ltac:(vm_compute; lia)) as X.
  rewrite E2 in X. destruct X as (a&Ha&V). exists a. split; [exact E1|]. split; [exact E2|]. split; [exact Ha|]. clear E1 E2 H1 Ha.
  split.
  - destruct (V [0; 0; 1] (ex_vals 0 0 1 ltac:(lia) ltac:(lia) ltac:(lia))) as (w&E&_&Hw). destruct (Hw eq_refl) as [_ Hw1].
    assert (w = 1%Z) as -> by (apply Hw1; by vm_compute). exact E.
  - destruct (V [0; 2; 1] (ex_vals 0 2 1 ltac:(lia) ltac:(lia) ltac:(lia))) as (w&E&Hw&_). rewrite Hw in E by discriminate. exact E.
Qed.
Print Assumptions C44_extended_derivative.

(** after a reordering, to_dpld_e of a derivative computed before is wrong: the
    derivative of [x2] does not depend on [x2], but the result has the value 1,
    not Undefined, at [x2 = 1] *)
Definition cm : cfg := Cfg [2; 2; 2] None (fun p => N.pos p * 64)%N true false.

Lemma cm_wf : wf_cfg cm.
Proof.
  constructor.
  - intros i Hi. do 3 (destruct i as [|i]; [vm_compute; lia|]). vm_compute in Hi. lia.
  - done.
  - intros i Hi. do 3 (destruct i as [|i]; [by vm_compute|]). vm_compute in Hi. lia.
Qed.
Lemma cm_args : cargs_ok cm true args3.
Proof. destruct (pool3_ok 100 100) as []; [lia|lia|]. by constructor. Qed.

Definition all8 : list (list nat) := [[0;0;0];[0;0;1];[0;1;0];[0;1;1];[1;0;0];[1;0;1];[1;1;0];[1;1;1]].

Theorem C44_after_reorder_refuted : exists c p f vars s i from to t vals,
  wf_cfg c /\ cargs_ok c true p /\
  outcome c p [CVec 0 f; CDpld 1 (VarChange i from to) (detector t) 0; CReorder; CExtend 2 from i 1] = Ok vars s /\
  vals_ok c vals /\ nth i vals 0 <> from /\
  value_at c vars s 2 vals = Some 1%Z.
Proof.
  exists cm, args3, (bits 2).
  destruct (outcome_ok (outcome cm args3 [CVec 0 (bits 2); CDpld 1 (VarChange 2 0 1) (detector D2Increase) 0; CReorder; CExtend 2 0 2 1])
    (fun v s => value_at cm v s 2 [0; 0; 1] = Some 1%Z)) as (vars&s&E&H); [by vm_compute|].
  exists vars, s, 2, 0, 1, D2Increase, [0; 0; 1].
  split; [apply cm_wf|]. split; [apply cm_args|]. split; [exact E|]. split; [|split; [discriminate|exact H]].
  split; [done|]. intros i Hi. do 3 (destruct i as [|i]; [vm_compute; lia|]). vm_compute in Hi. lia.
Qed.

(** a manager with a fixed domain in a build with assertions stops in the
    assertion of make_terminal_node *)
Theorem C44_fixed_domain_refuted : exists c p,
  wf_cfg c /\ cargs_ok c true p /\ c_fixed c = Some 2%Z /\ c_dbg c = true /\
  outcome c p [CVar 0 0; CDpldE 1 (VarChange 0 0 1) (detector D2Increase) 0 0] = Err EAssert.
Proof.
  exists c3, args3. split; [apply c3_wf|]. split; [by apply pool3_ok|]. split; [done|]. split; [done|]. by vm_compute.
Qed.

(** ** C49, C50 *)

Lemma no_changes c i : i < nvars c -> 2 <= dom c i -> mcvs_changes c <> [] /\ mpvs_changes c <> [].
Proof.
  intros Hi Hd. split; intros E.
  - assert (X : VarChange i 0 1 ∈ mcvs_changes c) by (apply mcvs_changes_elem; simpl; lia). rewrite E in X. by apply elem_of_nil in X.
  - assert (X : VarChange i 1 0 ∈ mpvs_changes c) by (apply mpvs_changes_elem; simpl; lia). rewrite E in X. by apply elem_of_nil in X.
Qed.

(** the vectors found; afterwards the objects are what they were *)
Definition lists_exactly (c : cfg) (strict : bool) (opsem : Z -> option (Z -> Z -> Z)) (args : cargs) (ks : list call) (A : astate)
  (P : list nat -> Prop) (r : res (list (list nat) * vars_t)) : Prop :=
  match r with
  | Ok (out, vars') s' =>
      NoDup out /\ (forall vals, vals ∈ out <-> P vals) /\
      exists ks' A', history c opsem strict args (ks ++ ks') s' vars' A' /\
        ab_order A' = ab_order A /\ ab_canon A' = ab_canon A /\ ab_cache A' = ab_cache A /\ ab_clean A' = ab_clean A /\
        forall d, ab A' !! d = ab A !! d
  | Err e => e = ERefOver \/ (strict = false /\ e = EPool)
  | Fuel => False
  end.

Theorem C49_mcvs : forall c strict b p m args ks s vars A x F j t,
  wf_cfg c -> history c (ops_with b p m) strict args ks s vars A -> ab_cache A = true ->
  ab A !! x = Some F -> x < t -> (forall d, t <= d -> ab A !! d = None) ->
  tval c 1 -> tval c Undef -> (exists i, i < nvars c /\ 2 <= dom c i) ->
  lists_exactly c strict (ops_with b p m) args ks A (minimal_cut c F j) (mcvs c j x t vars s).
Proof.
  intros c strict b p m args ks s vars A x F j t Hc H Hca HF Hx Hfree H1 HU (i&Hi&Hd).
  pose proof (vectors_g_spec c strict b p m args ks s vars A x F (type_3_increase j) (mcvs_changes c) t Hc H Hca HF Hx Hfree H1 HU
    (proj1 (no_changes c i Hi Hd))) as X. unfold lists_exactly, mcvs, mcvs_g.
  destruct (vectors_g c (mcvs_changes c) (type_3_increase j) x t vars s) as [[out vars'] s'|e|]; [|apply X|apply X].
  1: destruct X as (ND&HE&R).
  2: split; [exact ND|]; split; [|exact R]; intros vals; rewrite HE; apply edge_cut.
  all: apply Forall_forall; intros vc Hvc; apply mcvs_changes_elem in Hvc; lia.
Qed.

Theorem C50_mpvs_g : forall c strict b p m args ks s vars A x F j t,
  wf_cfg c -> history c (ops_with b p m) strict args ks s vars A -> ab_cache A = true ->
  ab A !! x = Some F -> x < t -> (forall d, t <= d -> ab A !! d = None) ->
  tval c 1 -> tval c Undef -> (exists i, i < nvars c /\ 2 <= dom c i) ->
  lists_exactly c strict (ops_with b p m) args ks A (minimal_path c F j) (mpvs_g c j x t vars s).
Proof.
  intros c strict b p m args ks s vars A x F j t Hc H Hca HF Hx Hfree H1 HU (i&Hi&Hd).
  pose proof (vectors_g_spec c strict b p m args ks s vars A x F (type_3_decrease j) (mpvs_changes c) t Hc H Hca HF Hx Hfree H1 HU
    (proj2 (no_changes c i Hi Hd))) as X. unfold lists_exactly, mpvs_g.
  destruct (vectors_g c (mpvs_changes c) (type_3_decrease j) x t vars s) as [[out vars'] s'|e|]; [|apply X|apply X].
  1: destruct X as (ND&HE&R).
  2: split; [exact ND|]; split; [|exact R]; intros vals; rewrite HE; apply edge_path.
  all: apply Forall_forall; intros vc Hvc; apply mpvs_changes_elem in Hvc; lia.
Qed.

Lemma ex_free d : 8 <= d -> ab ex_abs !! d = None.
Proof.
  intros H.
  change (ab ex_abs) with (<[1 := exF1]> (<[7 := exF6]> (delete 1 (<[6 := exF6]> (<[5 := exF5]> (<[4 := exF4]> (<[3 := exF3]>
    (<[2 := exV 2]> (<[1 := exV 1]> (<[0 := exV 0]> (∅ : gmap nat (asg -> Z)))))))))))).
  rewrite !lookup_insert_ne, lookup_delete_ne, !lookup_insert_ne by lia. apply lookup_empty.
Qed.

Definition mvs_of {T} (r : res (list (list nat) * T)) : option (list (list nat)) :=
  match r with Ok (out, _) _ => Some out | _ => None end.

Lemma mvs_of_Some {T} (r : res (list (list nat) * T)) out : mvs_of r = Some out -> exists v s, r = Ok (out, v) s.
Proof. destruct r as [[o v] s| |]; simpl; try discriminate. intros E. injection E as ->. by exists v, s. Qed.

Lemma ex_lt48 : 4 < 8. Proof. lia. Qed.
Lemma ex_tval1 : tval ex_cfg 1. Proof. apply ex_tval. lia. Qed.
Lemma ex_tvalU : tval ex_cfg Undef. Proof. by right; split; [|right]. Qed.
Lemma ex_dom2 : exists i, i < nvars ex_cfg /\ 2 <= dom ex_cfg i. Proof. exists 0. vm_compute. lia. Qed.

(** max(x0, x1) + x2 mod 4 at least 2 *)
Example C49_case : exists v s, mcvs ex_cfg 2 4 8 ex_vars ex_st = Ok ([[1; 1; 0]; [0; 0; 1]], v) s /\
  minimal_cut ex_cfg exF4 2 [0; 0; 1] /\ ~ minimal_cut ex_cfg exF4 2 [1; 0; 0].
Proof.
  destruct (mvs_of_Some (mcvs ex_cfg 2 4 8 ex_vars ex_st) [[1; 1; 0]; [0; 0; 1]]) as (v&s&E); [by vm_compute|].
  pose proof (C49_mcvs ex_cfg true 2 4 3 ex_args ex_prog ex_st ex_vars ex_abs 4 exF4 2 8 ex_wf ex_history eq_refl eq_refl
    ex_lt48 ex_free ex_tval1 ex_tvalU ex_dom2) as X.
  rewrite E in X. destruct X as (_&X&_). exists v, s. split; [exact E|]. clear E. split.
  - apply X. set_solver.
  - intros Y. apply X in Y. set_solver.
Qed.

Example C50_g_case : exists v s, mpvs_g ex_cfg 2 4 8 ex_vars ex_st = Ok ([[0; 2; 0]; [0; 1; 1]; [1; 0; 1]], v) s /\
  minimal_path ex_cfg exF4 2 [0; 1; 1].
Proof.
  destruct (mvs_of_Some (mpvs_g ex_cfg 2 4 8 ex_vars ex_st) [[0; 2; 0]; [0; 1; 1]; [1; 0; 1]]) as (v&s&E); [by vm_compute|].
  pose proof (C50_mpvs_g ex_cfg true 2 4 3 ex_args ex_prog ex_st ex_vars ex_abs 4 exF4 2 8 ex_wf ex_history eq_refl eq_refl
    ex_lt48 ex_free ex_tval1 ex_tvalU ex_dom2) as X.
  rewrite E in X. destruct X as (_&X&_). exists v, s. split; [exact E|]. clear E. apply X. set_solver.
Qed.

(** mpvs itself returns the cut vectors *)
Theorem C50_mpvs_refuted : exists c strict b p m args ks s vars A x F j t out vars' s' vals,
  wf_cfg c /\ history c (ops_with b p m) strict args ks s vars A /\ ab_cache A = true /\ ab A !! x = Some F /\
  x < t /\ (forall d, t <= d -> ab A !! d = None) /\
  mpvs c j x t vars s = Ok (out, vars') s' /\
  vals ∈ out /\ ~ minimal_path c F j vals.
Proof.
  destruct C49_case as (v&s&E&_). exists ex_cfg, true, 2%Z, 4%Z, 3%Z, ex_args, ex_prog, ex_st, ex_vars, ex_abs, 4, exF4, 2%Z, 8.
  eexists _, v, s, [0; 0; 1]. split; [apply ex_wf|]. split; [apply ex_history|]. split; [done|]. split; [done|]. split; [lia|].
  split; [apply ex_free|]. split; [exact E|]. clear E. split; [set_solver|]. intros (_&Y&_). vm_compute in Y. by destruct Y.
Qed.

Print Assumptions C49_mcvs.
Print Assumptions C50_mpvs_g.
Print Assumptions C50_mpvs_refuted.

Print Assumptions C44_after_reorder_refuted.
Print Assumptions C44_fixed_domain_refuted.
