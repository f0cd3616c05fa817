(** * Automatic reordering: the invariant of programs that use it *)

From stdpp Require Import gmap list.
From Coq Require Import ZArith Lia.
From Verif Require Import Base Ops Tables NodeManager Tools Sift DiagramManager Reliability World.
From Verif Require Import Heap Inv InvLemmas Prim GC Make Build Canon Apply Api Deferred Constr Expr.
From Verif Require Import VecSpec Vec Eval Fold WorldSpec SwapVar SiftProof WorldProof Ctor History AutoSim AutoSpec.

Local Open Scope nat_scope.

(** ** Computations that do not look at the mode *)

Definition mode_free {A} (m : M A) : Prop := forall s,
  m (quieted s) = match m s with Ok a s' => Ok a (quieted s') | Err e => Err e | Fuel => Fuel end.

Lemma mf_ret {A} (a : A) : mode_free (ret a).
Proof. done. Qed.
Lemma mf_of_opt {A} e (o : option A) : mode_free (of_opt e o).
Proof. by destruct o. Qed.
Lemma mf_bind {A B} (m : M A) (k : A -> M B) : mode_free m -> (forall a, mode_free (k a)) -> mode_free (bind m k).
Proof. intros Hm Hk s. unfold bind. rewrite Hm. destruct (m s); try done. by rewrite Hk. Qed.
Lemma mf_gets {A} (f : st -> A) : (forall s, f (quieted s) = f s) -> mode_free (gets f).
Proof. intros H s. unfold gets. by rewrite H. Qed.
Lemma mf_modify (f : st -> st) : (forall s, f (quieted s) = quieted (f s)) -> mode_free (modify f).
Proof. intros H s. unfold modify. by rewrite H. Qed.
Lemma mf_read {A} e (F : st -> option A) : (forall s, F (quieted s) = F s) -> mode_free (fun s => of_opt e (F s) s).
Proof. intros H s. rewrite H. by destruct (F s). Qed.
Lemma mf_fail {A} e : mode_free (@fail A e).
Proof. done. Qed.
Lemma mf_mapM_ {A} (f : A -> M unit) l : (forall a, mode_free (f a)) -> mode_free (mapM_ f l).
Proof. intros H. induction l; simpl; [apply mf_ret|]. apply mf_bind; auto. Qed.

Create HintDb mf.
Ltac mf_step :=
  first
  [ solve [auto with mf]
  | apply mf_ret | apply mf_fail | apply mf_of_opt
  | apply mf_bind; [|intros ?]
  | apply mf_gets; intros; reflexivity
  | apply mf_modify; intros; reflexivity
  | apply mf_mapM_; intros ?
  | apply mf_read; intros; reflexivity
  | match goal with |- mode_free (match ?x with _ => _ end) => destruct x end ].
Ltac mf_tac := repeat mf_step.

Section auto.
Context (c : cfg) (opsem : Z -> option (Z -> Z -> Z)) (strict : bool).
Notation WF := (WF c opsem strict).
Notation allowed := (allowed strict).
Notation calm := (calm c opsem strict).
Notation anew := (anew c opsem strict).
Notation den := (den c).
Notation winv := (winv c opsem strict).
Notation spec := (spec c opsem strict).
Notation ahistory := (ahistory c opsem strict).

Lemma mf_getn a : mode_free (getn a).
Proof. intros s. unfold getn. simpl. destruct (s_heap s !! a) as [n|]; [|done]. by destruct (n_used n). Qed.
Hint Resolve mf_getn : mf.
Lemma mf_modn a f : mode_free (modn a f).
Proof. unfold modn. mf_tac. Qed.
Hint Resolve mf_modn : mf.
Lemma mf_inc_ref a : mode_free (inc_ref a).
Proof. unfold inc_ref. mf_tac. Qed.
Lemma mf_dec_ref a : mode_free (dec_ref a).
Proof. unfold dec_ref. mf_tac. Qed.
Lemma mf_set_mark b a : mode_free (set_mark b a).
Proof. unfold set_mark. mf_tac. Qed.
Hint Resolve mf_inc_ref mf_dec_ref mf_set_mark : mf.
Lemma mf_delete a : mode_free (delete_node c a).
Proof. unfold delete_node. mf_tac. Qed.
Lemma mf_index_at l : mode_free (index_at l).
Proof. unfold index_at. mf_tac. Qed.
Hint Resolve mf_delete mf_index_at : mf.
Lemma mf_gc_node i b a : mode_free (gc_node c i b a).
Proof. unfold gc_node, get_int. mf_tac. Qed.
Hint Resolve mf_gc_node : mf.
Lemma mf_gc_level l : mode_free (gc_level c l).
Proof. unfold gc_level. mf_tac. Qed.
Lemma mf_gc_slot_t k : mode_free (gc_slot c s_terms set_terms k).
Proof. unfold gc_slot. mf_tac. Qed.
Lemma mf_gc_slot_s k : mode_free (gc_slot c s_specs set_specs k).
Proof. unfold gc_slot. mf_tac. Qed.
Hint Resolve mf_gc_level mf_gc_slot_t mf_gc_slot_s : mf.
Lemma mf_gc : mode_free (force_gc c).
Proof. unfold force_gc, collect_garbage. mf_tac. Qed.
Hint Resolve mf_gc : mf.
Lemma mf_drop o : mode_free (drop_handle o).
Proof. unfold drop_handle, diagram_destroy. mf_tac. Qed.
Hint Resolve mf_drop : mf.
Lemma mf_put vars d a : mode_free (put vars d a).
Proof. unfold put. mf_tac. Qed.
Hint Resolve mf_put : mf.

Lemma wp_mode_free {A} ok (m : M A) Q s : mode_free m ->
  wp ok m Q (quieted s) -> wp ok m (fun a s' => Q a (quieted s')) s.
Proof. intros Hm H. unfold wp in *. rewrite Hm in H. by destruct (m s). Qed.

(** ** The mode is not part of the invariant of the manager *)

Lemma calm_quieted g s : calm g s -> calm g (quieted s).
Proof. intros [W Hq [P O]]. constructor; [by destruct W|done|split; [by destruct P|done]]. Qed.
Lemma quieted_calm g s : calm g (quieted s) -> calm g s.
Proof. intros [W Hq [P O]]. constructor; [by destruct W|done|split; [by destruct P|done]]. Qed.
Lemma quieted_idle s : idle (quieted s).
Proof. done. Qed.
Lemma quieted_id s : s_auto s = false -> s_defer s = false -> quieted s = s.
Proof. destruct s. simpl. by intros -> ->. Qed.

Lemma settle_winv g s vars k A : winv g (quieted s) vars A -> winv g (quieted s) vars (settle k s A).
Proof. intros W. destruct k; try done; destruct W; constructor; done. Qed.

(** a new diagram is stored *)
Lemma new_auto g s vars A d m R F :
  winv g (quieted s) vars A ->
  wp allowed m (anew true g s R) s -> (forall rho, valid c rho -> R rho (F rho)) ->
  wp allowed (let* a := m in put vars d a) (fun vars' s' => exists g', winv g' (quieted s') vars' (bindf d F A)) s.
Proof.
  intros W Hm HR. apply wp_bind. eapply wp_mono; [exact Hm|]. intros a s1 [A1 HE].
  apply (wp_mode_free allowed (put vars d a) (fun vars' s' => exists g', winv g' s' vars' (bindf d F A))); [apply mf_put|].
  eapply wp_mono; [apply (put_spec c opsem strict g (quieted s) (quieted s1) vars A d a F true W)|].
  - apply calm_quieted, A1.
  - intros b G Hb D. change (den s b G) in D. change (den s1 b G).
    eapply (den_kept c opsem strict); [exact A1|done|by apply ext_inc_pos|done].
  - intros _. by apply A1.
  - done.
  - intros rho Hv. apply HE; auto.
  - intros vars' s' H. exact H.
Qed.

Lemma deferred_auto g s vars A d m R F :
  winv g (quieted s) vars A ->
  wp allowed m (anew_deferred c opsem strict g s R) s -> (forall rho, valid c rho -> R rho (F rho)) ->
  wp allowed (let* a := m in put vars d a) (fun vars' s' => exists g',
    winv g' (quieted s') vars' (settle CReorder s' (bindf d F A))) s.
Proof.
  intros W Hm HR. apply wp_bind. eapply wp_mono; [exact Hm|]. intros a s1 (s2&[A1 HE]&D).
  assert (Hsame : s1 = s2 -> wp allowed (put vars d a) (fun vars' s' => exists g',
    winv g' (quieted s') vars' (settle CReorder s' (bindf d F A))) s1).
  { intros ->. pose proof (new_auto g s vars A d (fun _ => Ok a s2) R F W) as X. unfold wp at 1 in X.
    assert (Y := X ltac:(by constructor) HR). unfold bind, wp in Y. unfold wp. destruct (put vars d a s2); try done.
    destruct Y as [g' Y]. exists g'. by apply settle_winv. }
  destruct D as [D|D]; [by apply Hsame|]. unfold after_deferred in D. destruct (s_defer s2); [|by apply Hsame].
  destruct D as (g'&D).
  set (g2 := g_set_ext (g_ext g) g').
  set (A2 := AState (ab A) (s_l2i s1) false (ab_cache A) (ab_clean A)).
  assert (X : wp allowed (put vars d a) (fun vars' s' => exists g', winv g' (quieted s') vars' (bindf d F A2)) s1).
  { apply (wp_mode_free allowed (put vars d a) (fun vars' s' => exists g', winv g' s' vars' (bindf d F A2))); [apply mf_put|].
    apply (put_gen c opsem strict g2); try done.
    - apply calm_quieted. apply (calm_ext c opsem strict (ext_inc (g_ext g) a) g'); [|apply D].
      intros b. by rewrite (ds_ext _ _ _ _ _ _ _ D).
    - apply W.
    - intros x G HG. destruct (wi_den_pos _ _ _ _ _ _ _ x G W HG) as (b&Hb&Db&Pb). exists b. split; [done|].
      intros rho Hv. apply (ds_funs _ _ _ _ _ _ _ D); [by apply ext_inc_pos|done|].
      eapply (den_kept c opsem strict); [exact A1|done|by apply ext_inc_pos|exact Db|done].
    - intros _. apply (ds_cm _ _ _ _ _ _ _ D).
    - intros Hcl. apply (ds_clean _ _ _ _ _ _ _ D). apply A1; [done|]. by apply W.
    - intros rho Hv. apply (ds_funs _ _ _ _ _ _ _ D); [apply ext_inc_same|done|]. apply HE; auto. }
  eapply wp_mono; [exact X|]. intros vars' s' [g3 W3]. exists g3.
  assert (settle CReorder s' (bindf d F A) = bindf d F A2) as ->; [|done].
  unfold settle, bindf, set_ab. simpl. f_equal. apply (wi_order _ _ _ _ _ _ _ W3).
Qed.

(** ** Calls that are right in every mode *)

Lemma handle_first_spec g s vars k A A' :
  wf_cfg c -> winv g (quieted s) vars A -> handle_first k -> spec s k A A' ->
  wp allowed (exec c k vars) (fun vars' s' => exists g', winv g' (quieted s') vars' (settle k s' A')) s.
Proof.
  intros Hc W HF S. pose proof (quieted_calm _ _ (wi_calm _ _ _ _ _ _ _ W)) as C.
  assert (Hor : s_l2i s = ab_order A) by apply (wi_order _ _ _ _ _ _ _ W).
  assert (Hfree : mode_free (exec c k vars) -> spec (quieted s) k A A' ->
    wp allowed (exec c k vars) (fun vars' s' => exists g', winv g' (quieted s') vars' (settle k s' A')) s).
  { intros Hm S'. pose proof (wp_mode_free allowed (exec c k vars) (fun vars' s' => exists g', winv g' s' vars' A') s Hm
      (exec_spec c opsem strict g (quieted s) vars k A A' Hc W S')) as X.
    eapply wp_mono; [exact X|]. intros vars' s' [g' W']. exists g'. by apply settle_winv. }
  assert (Hderef : forall x F (B : Type) (k : positive -> M B) (Q : B -> st -> Prop), ab A !! x = Some F ->
    (forall a, vars !! x = Some a -> den s a F -> 0 < g_ext g a -> wp allowed (k a) Q s) ->
    wp allowed (let* a := deref vars x in k a) Q s).
  { intros x F B k0 Q HFx H. destruct (wi_den_pos _ _ _ _ _ _ _ x F W HFx) as (a&Ha&D&P).
    apply wp_bind. unfold deref. eapply wp_of_opt; [exact Ha|]. by apply H. }
  inversion S; subst; try done; cbn [settle].
  - eapply new_auto; [done|by apply constant_spec|done].
  - eapply new_auto; [done|by apply variable_spec|done].
  - eapply new_auto; [done|by apply variable_not_spec|done].
  - rewrite <- Hor in *. eapply new_auto; [done|by apply from_vector_spec|]. intros rho Hv. cbn beta.
    destruct (nth_lookup_or_length vs (vec_index c (s_l2i s) rho) 0%Z) as [E|E]; [done|].
    pose proof (vec_index_lt c (s_l2i s) rho) as Hlt. rewrite H in E.
    enough (vec_index c (s_l2i s) rho < prodl c (s_l2i s)) by lia. apply Hlt. intros i Hi. apply Hv.
    by apply (perm_elem c s i (ord_perm _ _ _ (cl_ord _ _ _ _ _ C))).
  - eapply Hderef; [exact H|]. intros l Hl Dl Pl. eapply deferred_auto; [done| |].
    + by apply (get_cofactor_gen c opsem strict i k0 g).
    + intros rho Hv. apply Dl. by apply valid_upd.
  - eapply Hderef; [exact H|]. intros l Hl Dl Pl. eapply deferred_auto; [done| |].
    + by apply (get_cofactors_gen c opsem strict vs g).
    + intros rho Hv. apply Dl. intros i Hi. unfold updl. destruct (find_var i vs) as [k|] eqn:Ek; [|auto].
      apply find_var_In in Ek. rewrite Forall_forall in H0. by apply (H0 (i, k)).
  - apply Hfree; [|by constructor]. unfold exec, deref, diagram_copy. mf_tac.
  - apply Hfree; [|by constructor]. unfold exec. cbv zeta. mf_tac.
  - apply Hfree; [|by constructor]. unfold exec. mf_tac.
  - apply Hfree; [|by constructor]. unfold exec. mf_tac.
  - apply Hfree; [|by constructor]. unfold exec. mf_tac.
  - apply Hfree; [|by constructor]. unfold exec, clear_cache, cache_clear. mf_tac.
  - apply Hfree; [|by constructor]. unfold exec. mf_tac.
  - apply Hfree; [|by constructor]. unfold exec. mf_tac.
  - apply wp_bind, wp_modify, wp_ret. by exists g.
  - (* reorder *)
    assert (SF : sifting c opsem strict g s) by (constructor; apply C).
    unfold exec, force_reorder. apply wp_bind.
    eapply wp_mono; [by apply (sift_variables_gen c opsem strict g s)|]. intros [] s' (g'&s1&V&->). apply wp_ret.
    exists g'. constructor; simpl; try done.
    + apply calm_quieted. destruct (vs_ord _ _ _ _ _ _ _ V) as [P' O'].
      constructor; [apply WF_set_defer, V|apply V|split; [by destruct P'|done]].
    + rewrite (vs_ext _ _ _ _ _ _ _ V). apply W.
    + intros d F HFd. destruct (wi_den_pos _ _ _ _ _ _ _ d F W HFd) as (a&Ha&D&P). exists a. split; [done|].
      intros rho Hv. apply (vs_funs _ _ _ _ _ _ _ V); auto.
    + intros Hcl d Hd. apply (vs_marks _ _ _ _ _ _ _ V) in Hd. by eapply (wi_clean _ _ _ _ _ _ _ W Hcl).
Qed.

(** ** Histories *)

Lemma ahistory_winv p ks s vars A : wf_cfg c -> ahistory p ks s vars A -> exists g, winv g (quieted s) vars A.
Proof.
  intros Hc. induction 1 as [s0 s P H|ks s vars A b s' vars' H [g W] E|ks s vars A k A' s' vars' H [g W] Hk S E
    |ks s vars A k A' s' vars' H [g W] S E Hd Hp].
  - destruct (new_winv c opsem strict p s0 s P H) as [g W]. exists g.
    rewrite quieted_id; [done|apply (wi_idle _ _ _ _ _ _ _ W)..].
  - unfold exec, bind, modify, ret in E. assert (s' = set_auto b s) as -> by congruence. assert (vars' = vars) as -> by congruence.
    by exists g.
  - pose proof (handle_first_spec g s vars k A A' Hc W Hk S) as X. unfold wp in X. by rewrite E in X.
  - destruct (s_auto s) eqn:Ha.
    + assert (Hno : (forall b, k <> CAuto b) -> exists g, winv g (quieted s') vars' A').
      { intros Hk. pose proof (exec_spec c opsem strict g (quieted s) vars k A A' Hc W S) as X. unfold wp in X.
        destruct (sim_exec c k vars Hk s vars' s' E Ha) as (_&_&Hs).
        destruct (Hs Hd (Hp eq_refl)) as [_ E']. by rewrite E' in X. }
      destruct k; try (by apply Hno; intros ?).
      inversion S; subst. unfold exec, bind, modify, ret in E.
      assert (s' = set_auto false s) as -> by congruence. assert (vars' = vars) as -> by congruence. by exists g.
    + assert (Hq : quieted s = s) by (by apply quieted_id). rewrite Hq in *.
      pose proof (exec_spec c opsem strict g s vars k A A' Hc W S) as X. unfold wp in X. rewrite E in X.
      destruct X as [g' W']. exists g'. rewrite quieted_id; [done|apply (wi_idle _ _ _ _ _ _ _ W')..].
Qed.

Lemma ahistory_value p ks s vars A d F : wf_cfg c -> ahistory p ks s vars A -> ab A !! d = Some F ->
  exists a, vars !! d = Some a /\ computes c s a F.
Proof.
  intros Hc H HF. destruct (ahistory_winv _ _ _ _ _ Hc H) as [g W].
  destruct (wi_den_pos _ _ _ _ _ _ _ _ _ W HF) as (a&Ha&D&P). exists a. split; [done|].
  eapply (den_computes c opsem strict); [apply quieted_calm, W|done|done].
Qed.

Lemma ahistory_equals p ks s vars A x y a b : wf_cfg c -> ahistory p ks s vars A -> ab_canon A = true ->
  vars !! x = Some a -> vars !! y = Some b -> equals vars x y = true <-> same_values c s a b.
Proof.
  intros Hc H Hcn Hx Hy. destruct (ahistory_winv _ _ _ _ _ Hc H) as [g W].
  unfold equals. rewrite bool_decide_eq_true, Hx, Hy.
  rewrite <- (calm_equals c opsem strict g s a b Hc (quieted_calm _ _ (wi_calm _ _ _ _ _ _ _ W)) (wi_canon _ _ _ _ _ _ _ W Hcn)
    (wi_pos _ _ _ _ _ _ _ _ _ W Hx) (wi_pos _ _ _ _ _ _ _ _ _ W Hy)).
  split; congruence.
Qed.

Lemma ahistory_safe p ks s vars A k A' : wf_cfg c -> ahistory p ks s vars A -> handle_first k -> spec s k A A' ->
  match exec c k vars s with
  | Ok _ _ => True
  | Err e => e = ERefOver \/ (strict = false /\ e = EPool)
  | Fuel => False
  end.
Proof.
  intros Hc H Hk S. destruct (ahistory_winv _ _ _ _ _ Hc H) as [g W].
  pose proof (handle_first_spec g s vars k A A' Hc W Hk S) as X. unfold wp in X.
  by destruct (exec c k vars s).
Qed.

(** ** apply, if the handle were taken first *)

Definition apply_repaired (o : opc) (l r : positive) : M positive :=
  let* a := apply_impl c (S (nvars c)) (apply_op c o) l r in
  let* _ := diagram_of a in
  let* _ := run_deferred c in
  ret a.

Lemma apply_repaired_spec g o l r s :
  let o' := apply_op c o in
  wf_cfg c -> calm g s -> g_cm g = CValid -> opsem (op_id o') = Some (op_fun o') ->
  0 < g_ext g l -> 0 < g_ext g r ->
  (forall rho x y, valid c rho -> Ev (live (s_heap s)) l rho x -> Ev (live (s_heap s)) r rho y ->
     good_op c o' x y) ->
  wp allowed (apply_repaired o l r) (anew_deferred c opsem strict g s (lifted (live (s_heap s)) (op_fun o') l r)) s.
Proof.
  intros o' Hc C Hcm Hop Hl Hr Hg. unfold apply_repaired. apply wp_bind. eapply wp_mono.
  { apply (apply_impl_spec c opsem strict o' Hc Hop (S (nvars c)) g l r s); try done; try apply C.
    - by eapply ext_held; [apply C|].
    - by eapply ext_held; [apply C|].
    - lia. }
  intros a s1 B. apply wp_bind. eapply new_handle_of; [done|exact B|]. intros s2 A. by apply anew_run_deferred.
Qed.

Lemma ahistory_apply_repaired p ks s vars A o x y d F G :
  wf_cfg c -> ahistory p ks s vars A -> ab_cache A = true -> op_known c opsem o ->
  ab A !! x = Some F -> ab A !! y = Some G ->
  (forall rho, valid c rho -> good_op c (apply_op c o) (F rho) (G rho)) ->
  match (let* l := deref vars x in let* r := deref vars y in let* a := apply_repaired o l r in put vars d a) s with
  | Ok vars' s' => exists g', winv g' (quieted s') vars'
      (settle CReorder s' (bindf d (fun rho => op_fun (apply_op c o) (F rho) (G rho)) A))
  | Err e => e = ERefOver \/ (strict = false /\ e = EPool)
  | Fuel => False
  end.
Proof.
  intros Hc H Hca Ho HF HG Hg. destruct (ahistory_winv _ _ _ _ _ Hc H) as [g W].
  pose proof (quieted_calm _ _ (wi_calm _ _ _ _ _ _ _ W)) as C.
  destruct (wi_den_pos _ _ _ _ _ _ _ _ _ W HF) as (a&Ha&Da&Pa). destruct (wi_den_pos _ _ _ _ _ _ _ _ _ W HG) as (b&Hb&Db&Pb).
  assert (Dxy : forall q K rho v, den (quieted s) q K -> valid c rho -> Ev (live (s_heap s)) q rho v -> v = K rho).
  { intros q K rho v D Hv HE. eapply Ev_det; [exact HE|by apply D]. }
  assert (X : wp allowed (let* l := deref vars x in let* r := deref vars y in let* a := apply_repaired o l r in put vars d a)
    (fun vars' s' => exists g', winv g' (quieted s') vars'
      (settle CReorder s' (bindf d (fun rho => op_fun (apply_op c o) (F rho) (G rho)) A))) s).
  { apply wp_bind. unfold deref. eapply wp_of_opt; [exact Ha|]. apply wp_bind. eapply wp_of_opt; [exact Hb|].
    eapply deferred_auto; [exact W| |].
    - apply (apply_repaired_spec g o a b s); try done; [by apply W|].
      intros rho u v Hv Hu Hv'. rewrite (Dxy a F rho u), (Dxy b G rho v) by done. auto.
    - intros rho Hv. exists (F rho), (G rho). split; [by apply Da|]. split; [by apply Db|done]. }
  unfold wp in X. by destruct ((let* l := _ in _) s).
Qed.

End auto.
