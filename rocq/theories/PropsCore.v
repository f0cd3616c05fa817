(** * Properties of the operations that create and compare diagrams

    Objects of the program are names; [computes c s a F] says that evaluate on
    the diagram with root [a] returns [F] of every valid assignment and leaves
    the manager as it is (History.v).  [history] is defined in WorldSpec.v. *)

From stdpp Require Import gmap list.
From Coq Require Import ZArith Lia.
From Verif Require Import Base Ops Tables NodeManager Tools Sift DiagramManager World.
From Verif Require Import Heap Inv GC Build Apply Constr Expr VecSpec Vec Eval Fold.
From Verif Require Import OpSpec OpProof WorldSpec WorldProof Ctor History PropsBase Chain Examples.

Local Open Scope nat_scope.
Local Opaque exec.

(** ** C01 *)
Theorem C01_apply_pointwise : forall c strict b p m args ks s vars A d o x y F G vars' s',
  wf_cfg c -> history c (ops_with b p m) strict args ks s vars A -> ab_cache A = true ->
  op_allowed b p m (plain_op c o) -> (c_trap c = true -> op_arith o = false) ->
  ab A !! x = Some F -> ab A !! y = Some G ->
  (forall rho, valid c rho -> op_applicable c o (F rho) (G rho)) ->
  exec c (CApply d o x y) vars s = Ok vars' s' ->
  exists a, vars' !! d = Some a /\ computes c s' a (fun rho => op_math o (F rho) (G rho)).
Proof.
  intros c strict b p m args ks s vars A d o x y F G vars' s' Hc H Hca Hop Ht HF HG Ha E.
  destruct (call_value c strict (ops_with b p m) args ks s vars A (CApply d o x y)
    (bindf d (fun rho => op_fun (apply_op c o) (F rho) (G rho)) A) s' vars' d
    (fun rho => op_fun (apply_op c o) (F rho) (G rho)) Hc H) as (a&Hd&V); [|done| |].
  - apply S_apply; try done; [by apply op_allowed_known|]. intros rho Hv.
    apply op_applicable_good; auto.
  - simpl. by rewrite lookup_insert.
  - exists a. split; [done|]. eapply computes_ext; [|exact V]. intros rho Hv. cbn beta.
    apply op_applicable_fun. auto.
Qed.

Example C01_case : exists vars' s' a, exec ex_cfg (CApply 9 MAX 4 6) ex_vars ex_st = Ok vars' s' /\
  vars' !! 9 = Some a /\ computes ex_cfg s' a (fun rho => Z.max (exF4 rho) (exF6 rho)).
Proof.
  destruct (ex_call (CApply 9 MAX 4 6)) as (v&s&E); [by vm_compute|].
  destruct (C01_apply_pointwise ex_cfg true 2 4 3 ex_args ex_prog ex_st ex_vars ex_abs 9 MAX 4 6 exF4 exF6 v s
    ex_wf ex_history eq_refl) as (a&Ha&V); [done|done|reflexivity|reflexivity| |exact E|ex3 v s a].
  intros rho Hv. pose proof (exF4_range rho Hv). pose proof (exF6_range rho). split.
  - simpl. unfold ordinary. change Nondet with 2147483646%Z. lia.
  - apply ex_tval. simpl. lia.
Qed.


(** ** C02 *)
Theorem C02_equals_exact : forall c strict opsem args ks s vars A x y a b,
  wf_cfg c -> history c opsem strict args ks s vars A -> ab_canon A = true ->
  vars !! x = Some a -> vars !! y = Some b ->
  equals vars x y = true <-> same_values c s a b.
Proof. intros. by eapply history_equals. Qed.

(** objects 6 and 7 have the same root, 4 and 6 have different ones *)
Example C02_case : exists a b, ex_vars !! 4 = Some a /\ ex_vars !! 6 = Some b /\
  equals ex_vars 6 7 = true /\ ~ same_values ex_cfg ex_st a b.
Proof.
  destruct (history_value _ _ _ _ _ _ _ _ 4 exF4 ex_wf ex_history eq_refl) as (a&Ha&_).
  destruct (history_value _ _ _ _ _ _ _ _ 6 exF6 ex_wf ex_history eq_refl) as (b&Hb&_).
  exists a, b. split; [done|]. split; [done|]. split; [by vm_compute|].
  rewrite <- (C02_equals_exact ex_cfg true ex_ops ex_args ex_prog ex_st ex_vars ex_abs 4 6 a b ex_wf ex_history eq_refl Ha Hb).
  by vm_compute.
Qed.


(** ** C03 *)
Theorem C03_live_diagrams_kept : forall c strict opsem args ks s vars A k A' s' vars' d F,
  wf_cfg c -> history c opsem strict args ks s vars A -> spec c opsem strict s k A A' ->
  exec c k vars s = Ok vars' s' -> d ∉ touched k -> ab A !! d = Some F ->
  exists a a', vars !! d = Some a /\ vars' !! d = Some a' /\ computes c s a F /\ computes c s' a' F.
Proof. intros. by eapply history_kept. Qed.

(** the garbage collector runs during this call *)
Example C03_case : exists vars' s' a, exec ex_cfg (CVec 9 (rev ex_vec)) ex_vars ex_st = Ok vars' s' /\
  vars' !! 4 = Some a /\ computes ex_cfg s' a exF4.
Proof.
  destruct (ex_call (CVec 9 (rev ex_vec))) as (v&s&E); [by vm_compute|].
  destruct (C03_live_diagrams_kept ex_cfg true ex_ops ex_args ex_prog ex_st ex_vars ex_abs (CVec 9 (rev ex_vec))
    (bindf 9 (fun rho => nth (vec_index ex_cfg [2; 0; 1] rho) (rev ex_vec) 0%Z) ex_abs) s v 4 exF4
    ex_wf ex_history) as (a&a'&_&Ha&_&V); [|exact E|clear; set_solver|reflexivity|ex3 v s a'].
  apply S_vec; [by vm_compute|]. unfold ex_vec. simpl. repeat (constructor; [apply ex_tval; lia|]). constructor.
Qed.


(** every call that is made as described succeeds; the only errors are a
    reference count that does not fit and, unless [strict], an exhausted pool *)
Theorem C03_calls_succeed : forall c strict opsem args ks s vars A k A',
  wf_cfg c -> history c opsem strict args ks s vars A -> spec c opsem strict s k A A' ->
  match exec c k vars s with
  | Ok _ _ => True
  | Err e => e = ERefOver \/ (strict = false /\ e = EPool)
  | Fuel => False
  end.
Proof. intros. by eapply history_safe. Qed.

Example C03_succeed_case : spec ex_cfg ex_ops true ex_st (CTransform 8 Z.abs 4) ex_abs (bindf 8 (fun rho => Z.abs (exF4 rho)) ex_abs)
  /\ is_ok (exec ex_cfg (CTransform 8 Z.abs 4) ex_vars ex_st) = true.
Proof.
  split; [|by vm_compute]. apply (S_transform ex_cfg ex_ops true ex_st 8 Z.abs 4 exF4); [done|].
  intros rho Hv. pose proof (exF4_range rho Hv). apply ex_tval. lia.
Qed.


(** ** C04 *)
Theorem C04_force_gc_complete : forall c strict opsem args ks s vars A s' vars',
  wf_cfg c -> history c opsem strict args ks s vars A -> exec c CGc vars s = Ok vars' s' ->
  vars' = vars /\
  (forall a, in_use s vars a -> live (s_heap s') a = live (s_heap s) a) /\
  (forall a, in_use s' vars a <-> in_use s vars a) /\
  (ab_clean A = true -> forall a, live (s_heap s') a <> None <-> in_use s vars a).
Proof. intros. by eapply history_gc. Qed.

(** resetting object 4 makes nodes unused, which force_gc then removes *)
Example C04_case : exists v1 s1 v2 s2, exec ex_cfg (CReset 4) ex_vars ex_st = Ok v1 s1 /\
  exec ex_cfg CGc v1 s1 = Ok v2 s2 /\ (s_count s2 < s_count s1)%Z /\
  forall a, live (s_heap s2) a <> None <-> in_use s1 v1 a.
Proof.
  destruct (ex_two (CReset 4) CGc) as (v1&s1&v2&s2&E1&E2); [by vm_compute|]. exists v1, s1, v2, s2.
  split; [done|]. split; [done|]. split.
  - assert (X : match run ex_cfg [CReset 4] ex_vars ex_st, run ex_cfg [CReset 4; CGc] ex_vars ex_st with
      Ok _ s1, Ok _ s2 => (s_count s2 <? s_count s1)%Z | _, _ => false end = true) by (by vm_compute).
    cbn [run] in X. unfold bind, ret in X. rewrite E1, E2 in X. by apply Z.ltb_lt.
  - eapply (C04_force_gc_complete ex_cfg true ex_ops ex_args (ex_prog ++ [CReset 4]) s1 v1 _ s2 v2 ex_wf); [|done|].
    + econstructor; [exact ex_history|apply S_reset|done].
    + done.
Qed.


(** ** C07 *)
Theorem C07_from_vector : forall c strict opsem args ks s vars A d vs vars' s',
  wf_cfg c -> history c opsem strict args ks s vars A ->
  length vs = prodl c (ab_order A) -> Forall (tval c) vs ->
  exec c (CVec d vs) vars s = Ok vars' s' ->
  exists a, vars' !! d = Some a /\
    computes c s' a (fun rho => nth (vec_index c (ab_order A) rho) vs 0%Z).
Proof.
  intros c strict opsem args ks s vars A d vs vars' s' Hc H L T E.
  eapply (call_value c strict opsem args ks s vars A (CVec d vs)); try done; [by constructor|].
  simpl. by rewrite lookup_insert.
Qed.

Example C07_case : exists v s a, exec ex_cfg (CVec 9 (rev ex_vec)) ex_vars ex_st = Ok v s /\
  v !! 9 = Some a /\ evaluate ex_cfg a [1; 2; 0] s = Ok 0%Z s /\ evaluate ex_cfg a [0; 1; 1] s = Ok 1%Z s.
Proof.
  destruct (ex_call (CVec 9 (rev ex_vec))) as (v&s&E); [by vm_compute|].
  destruct (C07_from_vector ex_cfg true ex_ops ex_args ex_prog ex_st ex_vars ex_abs 9 (rev ex_vec) v s
    ex_wf ex_history) as (a&Ha&V); [by vm_compute| |done|].
  { unfold ex_vec. simpl. repeat (constructor; [apply ex_tval; lia|]). constructor. }
  exists v, s, a. split; [done|]. split; [done|].
  split; rewrite V; try reflexivity; (split; [done|]); intros i Hi;
    do 3 (destruct i as [|i]; [vm_compute; lia|]); vm_compute in Hi; lia.
Qed.


(** ** C12 *)
Theorem C12_cofactor : forall c strict opsem args ks s vars A d x i k F vars' s',
  wf_cfg c -> history c opsem strict args ks s vars A -> ab A !! x = Some F -> k < dom c i ->
  exec c (CCofactor d x i k) vars s = Ok vars' s' ->
  exists a, vars' !! d = Some a /\ computes c s' a (fun rho => F (fun j => if decide (j = i) then k else rho j)).
Proof.
  intros c strict opsem args ks s vars A d x i k F vars' s' Hc H HF Hk E.
  eapply (call_value c strict opsem args ks s vars A (CCofactor d x i k)); try done; [by constructor|].
  simpl. by rewrite lookup_insert.
Qed.

Example C12_case : exists v s a, exec ex_cfg (CCofactor 9 6 0 1) ex_vars ex_st = Ok v s /\
  v !! 9 = Some a /\ computes ex_cfg s a (fun rho => exF6 (fun j => if decide (j = 0) then 1 else rho j)).
Proof.
  destruct (ex_call (CCofactor 9 6 0 1)) as (v&s&E); [by vm_compute|].
  destruct (C12_cofactor ex_cfg true ex_ops ex_args ex_prog ex_st ex_vars ex_abs 9 6 0 1 exF6 v s
    ex_wf ex_history) as (a&Ha&V); [done|vm_compute; lia|done|]. ex3 v s a.
Qed.


(** ** C13 *)
Theorem C13_cofactors : forall c strict opsem args ks s vars A d x vs F vars' s',
  wf_cfg c -> history c opsem strict args ks s vars A -> ab A !! x = Some F ->
  NoDup (map fst vs) -> Forall (fun q => snd q < dom c (fst q)) vs ->
  exec c (CCofactors d x vs) vars s = Ok vars' s' ->
  exists a, vars' !! d = Some a /\
    computes c s' a (fun rho => F (fun j => match list_to_map (M := gmap nat nat) vs !! j with Some k => k | None => rho j end)).
Proof.
  intros c strict opsem args ks s vars A d x vs F vars' s' Hc H HF Hnd Hk E.
  assert (Ef : forall j, list_to_map (M := gmap nat nat) vs !! j = find_var j vs).
  { clear. intros j. induction vs as [|[i k] vs IH]; [by rewrite list_to_map_nil, lookup_empty|].
    rewrite list_to_map_cons. unfold find_var in *. simpl. destruct (Nat.eqb_spec i j) as [->|Hne].
    - by rewrite lookup_insert.
    - rewrite lookup_insert_ne by done. apply IH. }
  destruct (call_value c strict opsem args ks s vars A (CCofactors d x vs) (bindf d (fun rho => F (updl rho vs)) A)
    s' vars' d (fun rho => F (updl rho vs)) Hc H) as (a&Hd&V); [by constructor|done|simpl; by rewrite lookup_insert|].
  exists a. split; [done|]. intros vals Hv. rewrite (V vals Hv). f_equal.
  eapply (history_ext c opsem strict args ks s vars A x F); try done.
  - intros i Hi. unfold updl. destruct (find_var i vs) as [k|] eqn:Ek; [|by apply Hv].
    apply find_var_In in Ek. rewrite Forall_forall in Hk. by apply (Hk (i, k)).
  - intros i Hi. unfold updl. by rewrite Ef.
Qed.

Example C13_case : exists v s a, exec ex_cfg (CCofactors 9 6 [(1, 2); (2, 1)]) ex_vars ex_st = Ok v s /\
  v !! 9 = Some a /\ evaluate ex_cfg a [1; 0; 0] s = Ok 7%Z s.
Proof.
  destruct (ex_call (CCofactors 9 6 [(1, 2); (2, 1)])) as (v&s&E); [by vm_compute|].
  destruct (C13_cofactors ex_cfg true ex_ops ex_args ex_prog ex_st ex_vars ex_abs 9 6 [(1, 2); (2, 1)] exF6 v s
    ex_wf ex_history) as (a&Ha&V); [done| | |done|].
  - clear. repeat constructor; set_solver.
  - repeat constructor; vm_compute; lia.
  - exists v, s, a. split; [done|]. split; [done|]. rewrite V; [reflexivity|]. split; [done|]. intros i Hi.
    do 3 (destruct i as [|i]; [vm_compute; lia|]); vm_compute in Hi; lia.
Qed.


(** ** C14 *)
Theorem C14_transform : forall c strict opsem args ks s vars A d f x F vars' s',
  wf_cfg c -> history c opsem strict args ks s vars A -> ab A !! x = Some F ->
  (forall rho, valid c rho -> tval c (f (F rho))) ->
  exec c (CTransform d f x) vars s = Ok vars' s' ->
  exists a, vars' !! d = Some a /\ computes c s' a (fun rho => f (F rho)).
Proof.
  intros c strict opsem args ks s vars A d f x F vars' s' Hc H HF Ht E.
  eapply (call_value c strict opsem args ks s vars A (CTransform d f x)); try done; [by constructor|].
  simpl. by rewrite lookup_insert.
Qed.

Example C14_case : exists v s a, exec ex_cfg (CTransform 9 (fun x => x * x)%Z 6) ex_vars ex_st = Ok v s /\
  v !! 9 = Some a /\ computes ex_cfg s a (fun rho => exF6 rho * exF6 rho)%Z.
Proof.
  destruct (ex_call (CTransform 9 (fun x => x * x)%Z 6)) as (v&s&E); [by vm_compute|].
  destruct (C14_transform ex_cfg true ex_ops ex_args ex_prog ex_st ex_vars ex_abs 9 (fun x => x * x)%Z 6 exF6 v s
    ex_wf ex_history) as (a&Ha&V); [done| |done|ex3 v s a].
  intros rho Hv. pose proof (exF6_range rho). apply ex_tval. nia.
Qed.


(** negate twice is equal to the original *)
Theorem C14_negate_involutive : forall c strict opsem args ks s vars A d e x F v1 s1 v2 s2,
  wf_cfg c -> history c opsem strict args ks s vars A -> ab_canon A = true -> ab A !! x = Some F ->
  (forall rho, valid c rho -> bit (F rho)) -> tval c 1 -> x <> d -> x <> e ->
  exec c (CTransform d (fun v => 1 - v)%Z x) vars s = Ok v1 s1 ->
  exec c (CTransform e (fun v => 1 - v)%Z d) v1 s1 = Ok v2 s2 ->
  equals v2 e x = true.
Proof.
  intros c strict opsem args ks s vars A d e x F v1 s1 v2 s2 Hc H Hcn HF Hb T Hxd Hxe E1 E2.
  assert (T0 : tval c 0).
  { destruct T as [[T1 T2]|[T _]]; [|done]. left. split; [lia|]. destruct (c_fixed c); [lia|done]. }
  set (N := fun F : asg -> Z => fun rho => (1 - F rho)%Z).
  assert (H1 : history c opsem strict args (ks ++ [CTransform d (fun v => 1 - v)%Z x]) s1 v1 (bindf d (N F) A)).
  { econstructor; [exact H| |exact E1]. apply S_transform; [done|]. intros rho Hv.
    destruct (Hb rho Hv) as [-> | ->]; done. }
  assert (H2 : history c opsem strict args ((ks ++ [CTransform d (fun v => 1 - v)%Z x]) ++ [CTransform e (fun v => 1 - v)%Z d])
     s2 v2 (bindf e (N (N F)) (bindf d (N F) A))).
  { econstructor; [exact H1| |exact E2]. apply S_transform; [simpl; by rewrite lookup_insert|]. intros rho Hv.
    unfold N. destruct (Hb rho Hv) as [-> | ->]; done. }
  destruct (history_value c opsem strict args _ s2 v2 _ e (N (N F)) Hc H2) as (a&Ha&Va); [simpl; by rewrite lookup_insert|].
  destruct (history_value c opsem strict args _ s2 v2 _ x F Hc H2) as (b&Hb'&Vb).
  { simpl. by rewrite !lookup_insert_ne. }
  eapply (history_equals c opsem strict args _ s2 v2 _ e x a b Hc H2); try done.
  intros vals Hv. rewrite (Va vals Hv), (Vb vals Hv). f_equal. unfold N. lia.
Qed.

Example C14_negate_case : exists v1 s1 v2 s2, exec ex_cfg (CTransform 8 (fun v => 1 - v)%Z 5) ex_vars ex_st = Ok v1 s1 /\
  exec ex_cfg (CTransform 9 (fun v => 1 - v)%Z 8) v1 s1 = Ok v2 s2 /\ equals v2 9 5 = true /\ equals v2 8 5 = false.
Proof.
  destruct (ex_two (CTransform 8 (fun v => 1 - v)%Z 5) (CTransform 9 (fun v => 1 - v)%Z 8)) as (v1&s1&v2&s2&E1&E2); [by vm_compute|].
  exists v1, s1, v2, s2. split; [done|]. split; [done|]. split.
  - eapply (C14_negate_involutive ex_cfg true ex_ops ex_args ex_prog ex_st ex_vars ex_abs 8 9 5 exF5 v1 s1 v2 s2 ex_wf ex_history);
      [reflexivity|reflexivity|apply exF5_bit|apply ex_tval; lia|lia|lia|exact E1|exact E2].
  - assert (X : match run ex_cfg [CTransform 8 (fun v => 1 - v)%Z 5; CTransform 9 (fun v => 1 - v)%Z 8] ex_vars ex_st with
      Ok v _ => equals v 8 5 | _ => true end = false) by (by vm_compute).
    cbn [run] in X. unfold bind, ret in X. by rewrite E1, E2 in X.
Qed.


(** ** C15: reduce is transform with the identity (diagram_manager.hpp:1869-1874) *)
Theorem C15_reduce_identity : forall c strict opsem args ks s vars A d x F v1 s1,
  wf_cfg c -> history c opsem strict args ks s vars A -> ab_canon A = true -> ab A !! x = Some F ->
  x <> d ->
  exec c (CTransform d (fun v => v) x) vars s = Ok v1 s1 ->
  equals v1 d x = true.
Proof.
  intros c strict opsem args ks s vars A d x F v1 s1 Hc H Hcn HF Hxd E1.
  assert (H1 : history c opsem strict args (ks ++ [CTransform d (fun v => v) x]) s1 v1 (bindf d (fun rho => F rho) A)).
  { econstructor; [exact H| |exact E1]. apply (S_transform c opsem strict s d (fun v => v) x F A); [done|].
    intros rho Hv. by eapply history_tval. }
  destruct (history_value c opsem strict args _ s1 v1 _ d (fun rho => F rho) Hc H1) as (a&Ha&Va); [simpl; by rewrite lookup_insert|].
  destruct (history_value c opsem strict args _ s1 v1 _ x F Hc H1) as (b&Hb'&Vb).
  { simpl. by rewrite lookup_insert_ne. }
  eapply (history_equals c opsem strict args _ s1 v1 _ d x a b Hc H1); try done.
  intros vals Hv. by rewrite (Va vals Hv), (Vb vals Hv).
Qed.

Example C15_case : exists v s, exec ex_cfg (CTransform 9 (fun v => v) 6) ex_vars ex_st = Ok v s /\ equals v 9 6 = true.
Proof.
  destruct (ex_call (CTransform 9 (fun v => v) 6)) as (v&s&E); [by vm_compute|]. exists v, s. split; [done|].
  eapply (C15_reduce_identity ex_cfg true ex_ops ex_args ex_prog ex_st ex_vars ex_abs 9 6 exF6 v s ex_wf ex_history); [reflexivity|reflexivity|lia|exact E].
Qed.


(** ** C17 *)
Theorem C17_from_expression_tree : forall c strict opsem args ks s vars A d e vars' s',
  wf_cfg c -> history c opsem strict args ks s vars A -> xok c e ->
  exec c (CExpr d e) vars s = Ok vars' s' ->
  exists a, vars' !! d = Some a /\ computes c s' a (xeval e).
Proof.
  intros c strict opsem args ks s vars A d e vars' s' Hc H Hx E.
  eapply (call_value c strict opsem args ks s vars A (CExpr d e)); try done; [by constructor|].
  simpl. by rewrite lookup_insert.
Qed.

Example C17_case : exists v s a,
  exec ex_cfg (CExpr 9 (XOp Z.max (XOp Z.mul (XVar 0) (XVar 1)) (XOp Z.add (XVar 2) (XConst 1)))) ex_vars ex_st = Ok v s /\
  v !! 9 = Some a /\
  computes ex_cfg s a (fun rho => Z.max (Z.of_nat (rho 0) * Z.of_nat (rho 1)) (Z.of_nat (rho 2) + 1)).
Proof.
  destruct (ex_call (CExpr 9 (XOp Z.max (XOp Z.mul (XVar 0) (XVar 1)) (XOp Z.add (XVar 2) (XConst 1))))) as (v&s&E); [by vm_compute|].
  destruct (C17_from_expression_tree ex_cfg true ex_ops ex_args ex_prog ex_st ex_vars ex_abs 9
    (XOp Z.max (XOp Z.mul (XVar 0) (XVar 1)) (XOp Z.add (XVar 2) (XConst 1))) v s
    ex_wf ex_history) as (a&Ha&V); [|exact E|ex3 v s a].
  clear. assert (T : forall i, i < 3 -> xok ex_cfg (XVar i)) by (intros i Hi; exact Hi).
  split; [split; [apply T; lia|split; [apply T; lia|]]|split; [split; [apply T; lia|split; [apply ex_tval; lia|]]|]];
    intros rho Hv; cbn [xeval]; ex_values rho Hv; apply ex_tval; vm_compute; done.
Qed.


(** ** C58 *)
Theorem C58_constant : forall c strict opsem args ks s vars A d v vars' s',
  wf_cfg c -> history c opsem strict args ks s vars A -> tval c v ->
  exec c (CConst d v) vars s = Ok vars' s' ->
  exists a, vars' !! d = Some a /\ computes c s' a (fun _ => v).
Proof.
  intros c strict opsem args ks s vars A d v vars' s' Hc H Hx E.
  eapply (call_value c strict opsem args ks s vars A (CConst d v)); try done; [by constructor|].
  simpl. by rewrite lookup_insert.
Qed.

Example C58_constant_case : exists v s a, exec ex_cfg (CConst 9 5) ex_vars ex_st = Ok v s /\
  v !! 9 = Some a /\ computes ex_cfg s a (fun _ => 5%Z).
Proof.
  destruct (ex_call (CConst 9 5)) as (v&s&E); [by vm_compute|].
  destruct (C58_constant ex_cfg true ex_ops ex_args ex_prog ex_st ex_vars ex_abs 9 5 v s ex_wf ex_history) as (a&Ha&V);
    [apply ex_tval; lia|exact E|ex3 v s a].
Qed.


Theorem C58_variable : forall c strict opsem args ks s vars A d i vars' s',
  wf_cfg c -> history c opsem strict args ks s vars A -> i < nvars c ->
  exec c (CVar d i) vars s = Ok vars' s' ->
  exists a, vars' !! d = Some a /\ computes c s' a (fun rho => Z.of_nat (rho i)).
Proof.
  intros c strict opsem args ks s vars A d i vars' s' Hc H Hx E.
  eapply (call_value c strict opsem args ks s vars A (CVar d i)); try done; [by constructor|].
  simpl. by rewrite lookup_insert.
Qed.

Example C58_variable_case : exists v s a, exec ex_cfg (CVar 9 1) ex_vars ex_st = Ok v s /\
  v !! 9 = Some a /\ computes ex_cfg s a (fun rho => Z.of_nat (rho 1)).
Proof.
  destruct (ex_call (CVar 9 1)) as (v&s&E); [by vm_compute|].
  destruct (C58_variable ex_cfg true ex_ops ex_args ex_prog ex_st ex_vars ex_abs 9 1 v s ex_wf ex_history) as (a&Ha&V);
    [vm_compute; lia|exact E|ex3 v s a].
Qed.


Theorem C58_variable_not : forall c strict opsem args ks s vars A d i vars' s',
  wf_cfg c -> history c opsem strict args ks s vars A -> i < nvars c -> dom c i = 2 ->
  exec c (CVarNot d i) vars s = Ok vars' s' ->
  exists a, vars' !! d = Some a /\ computes c s' a (fun rho => 1 - Z.of_nat (rho i))%Z.
Proof.
  intros c strict opsem args ks s vars A d i vars' s' Hc H Hx H2 E.
  eapply (call_value c strict opsem args ks s vars A (CVarNot d i)); try done; [by constructor|].
  simpl. by rewrite lookup_insert.
Qed.

Example C58_variable_not_case : exists v s a, exec ex_cfg (CVarNot 9 2) ex_vars ex_st = Ok v s /\
  v !! 9 = Some a /\ computes ex_cfg s a (fun rho => 1 - Z.of_nat (rho 2%nat))%Z.
Proof.
  destruct (ex_call (CVarNot 9 2)) as (v&s&E); [by vm_compute|].
  destruct (C58_variable_not ex_cfg true ex_ops ex_args ex_prog ex_st ex_vars ex_abs 9 2 v s ex_wf ex_history) as (a&Ha&V);
    [vm_compute; lia|reflexivity|exact E|ex3 v s a].
Qed.


(** repeated calls return equal diagrams *)
Theorem C58_repeated_equal : forall c strict opsem args ks s vars A d e k1 k2 F v1 s1 v2 s2,
  wf_cfg c -> history c opsem strict args ks s vars A -> ab_canon A = true -> d <> e ->
  (exists v, k1 = CConst d v /\ k2 = CConst e v /\ F = (fun _ => v)) \/
  (exists i, k1 = CVar d i /\ k2 = CVar e i /\ F = (fun rho => Z.of_nat (rho i))) \/
  (exists i, k1 = CVarNot d i /\ k2 = CVarNot e i /\ F = (fun rho => 1 - Z.of_nat (rho i))%Z) ->
  spec c opsem strict s k1 A (bindf d F A) ->
  exec c k1 vars s = Ok v1 s1 -> exec c k2 v1 s1 = Ok v2 s2 ->
  equals v2 d e = true.
Proof.
  intros c strict opsem args ks s vars A d e k1 k2 F v1 s1 v2 s2 Hc H Hcn Hde Hk S1 E1 E2.
  assert (H1 : history c opsem strict args (ks ++ [k1]) s1 v1 (bindf d F A)) by (by econstructor).
  assert (S2 : spec c opsem strict s1 k2 (bindf d F A) (bindf e F (bindf d F A))).
  { destruct Hk as [(v&->&->&->)|[(i&->&->&->)|(i&->&->&->)]]; inversion S1; subst; by constructor. }
  assert (H2 : history c opsem strict args ((ks ++ [k1]) ++ [k2]) s2 v2 (bindf e F (bindf d F A))) by (by econstructor).
  destruct (history_value c opsem strict args _ s2 v2 _ d F Hc H2) as (a&Ha&Va).
  { simpl. rewrite lookup_insert_ne by done. by rewrite lookup_insert. }
  destruct (history_value c opsem strict args _ s2 v2 _ e F Hc H2) as (b&Hb&Vb); [simpl; by rewrite lookup_insert|].
  eapply (history_equals c opsem strict args _ s2 v2 _ d e a b Hc H2); try done.
  intros vals Hv. by rewrite (Va vals Hv), (Vb vals Hv).
Qed.

Example C58_repeated_case : exists v1 s1 v2 s2, exec ex_cfg (CVar 8 1) ex_vars ex_st = Ok v1 s1 /\
  exec ex_cfg (CVar 9 1) v1 s1 = Ok v2 s2 /\ equals v2 8 9 = true.
Proof.
  destruct (ex_two (CVar 8 1) (CVar 9 1)) as (v1&s1&v2&s2&E1&E2); [by vm_compute|].
  exists v1, s1, v2, s2. split; [done|]. split; [done|].
  eapply (C58_repeated_equal ex_cfg true ex_ops ex_args ex_prog ex_st ex_vars ex_abs 8 9 (CVar 8 1) (CVar 9 1) (exV 1)
    v1 s1 v2 s2 ex_wf ex_history); [reflexivity|lia| | |exact E1|exact E2].
  - right. left. exists 1. split; [reflexivity|split; reflexivity].
  - apply S_var. vm_compute. lia.
Qed.

Print Assumptions C01_apply_pointwise.
Print Assumptions C02_equals_exact.
Print Assumptions C03_live_diagrams_kept.
Print Assumptions C03_calls_succeed.
Print Assumptions C04_force_gc_complete.
Print Assumptions C07_from_vector.
Print Assumptions C12_cofactor.
Print Assumptions C13_cofactors.
Print Assumptions C14_transform.
Print Assumptions C14_negate_involutive.
Print Assumptions C15_reduce_identity.
Print Assumptions C17_from_expression_tree.
Print Assumptions C58_constant.
Print Assumptions C58_variable.
Print Assumptions C58_variable_not.
Print Assumptions C58_repeated_equal.
