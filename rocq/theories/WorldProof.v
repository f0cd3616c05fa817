(** * The manager refines the specification of client programs *)

From stdpp Require Import gmap list.
From Coq Require Import ZArith Lia.
From Verif Require Import Base Ops Tables NodeManager Tools Sift DiagramManager Reliability World.
From Verif Require Import Heap Inv InvLemmas Prim TabLemmas GC Make Build Canon Apply Api Constr Expr.
From Verif Require Import VecSpec Vec Eval Fold WorldSpec SwapVar SiftProof DpldProof MnfProof.
From Verif Require Import QuerySpec QueryProof Minimal.

Local Open Scope nat_scope.

(** ** Number of objects that refer to a node *)

Definition hcount (vars : vars_t) (a : positive) : nat :=
  map_fold (fun _ b n => (if decide (b = a) then 1 else 0) + n) 0 vars.

Lemma hcount_empty a : hcount ∅ a = 0.
Proof. unfold hcount. by rewrite map_fold_empty. Qed.

Lemma hcount_new vars d b a : vars !! d = None ->
  hcount (<[d:=b]> vars) a = (if decide (b = a) then 1 else 0) + hcount vars a.
Proof. intros H. unfold hcount. rewrite map_fold_insert_L; [done| |done]. intros. lia. Qed.

Lemma hcount_delete vars d b a : vars !! d = Some b ->
  hcount vars a = (if decide (b = a) then 1 else 0) + hcount (delete d vars) a.
Proof.
  intros H. rewrite <- (insert_delete vars d b H) at 1. apply hcount_new. apply lookup_delete.
Qed.

Lemma hcount_insert vars d b a :
  hcount (<[d:=b]> vars) a = (if decide (b = a) then 1 else 0) + hcount (delete d vars) a.
Proof. rewrite <- insert_delete_insert. apply hcount_new. apply lookup_delete. Qed.

Lemma hcount_pos vars d a : vars !! d = Some a -> 0 < hcount vars a.
Proof. intros H. rewrite (hcount_delete vars d a a H), decide_True by done. lia. Qed.

Section world.
Context (c : cfg) (opsem : Z -> option (Z -> Z -> Z)) (strict : bool).
Notation allowed := (allowed strict).
Notation calm := (calm c opsem strict).
Notation astep := (astep c opsem strict).
Notation anew := (anew c opsem strict).
Notation fstep := (fstep c opsem strict).
Notation den := (den c).

(** ** The invariant of program states *)
Record winv (g : ghost) (s : st) (vars : vars_t) (A : astate) : Prop := {
  wi_calm : calm g s;
  wi_ext : forall a, g_ext g a = hcount vars a;
  wi_den : forall d F, ab A !! d = Some F -> exists a, vars !! d = Some a /\ den s a F;
  wi_order : s_l2i s = ab_order A;
  wi_canon : ab_canon A = true -> g_cn g = true;
  wi_cache : ab_cache A = true -> g_cm g = CValid;
  wi_clean : ab_clean A = true -> clean s;
  wi_idle : idle s
}.

Lemma wi_pos g s vars A d a : winv g s vars A -> vars !! d = Some a -> 0 < g_ext g a.
Proof. intros W H. rewrite (wi_ext _ _ _ _ W). by eapply hcount_pos. Qed.

(** functions survive as long as some object refers to them *)
Lemma wi_den_pos g s vars A d F : winv g s vars A -> ab A !! d = Some F ->
  exists a, vars !! d = Some a /\ den s a F /\ 0 < g_ext g a.
Proof.
  intros W H. destruct (wi_den _ _ _ _ W d F H) as (a&Ha&D). exists a. split_and!; try done.
  by eapply wi_pos.
Qed.

(** the ghost ranks determine the order *)
Lemma ord_l2i g g' s s' : ord c g s -> ord c g' s' -> g_lv g' = g_lv g -> s_l2i s' = s_l2i s.
Proof.
  assert (X : forall g g' s s' l i, ord c g s -> ord c g' s' -> g_lv g' = g_lv g ->
    s_l2i s !! l = Some i -> s_l2i s' !! l = Some i).
  { intros h h' t t' l i [P O] [P' O'] E H. pose proof (perm_l2i_lt c t l i P H) as Hi.
    apply (pm_inv _ _ P) in H. apply (pm_inv _ _ P'). rewrite (O' i Hi), E. by rewrite <- (O i Hi). }
  intros O O' E. apply list_eq. intros l.
  destruct (s_l2i s !! l) as [i|] eqn:H; [exact (X g g' s s' l i O O' E H)|].
  destruct (s_l2i s' !! l) as [i|] eqn:H'; [|done]. pose proof (X g' g s' s l i O' O (eq_sym E) H'). congruence.
Qed.

(** after giving up the reference of [d] and storing [a] there *)
Lemma put_gen g s vars A d a F :
  calm (g_inc a g) s -> (forall b, g_ext g b = hcount vars b) ->
  (forall x G, ab A !! x = Some G -> exists b, vars !! x = Some b /\ den s b G) ->
  s_l2i s = ab_order A ->
  (ab_canon A = true -> g_cn g = true) -> (ab_cache A = true -> g_cm g = CValid) ->
  (ab_clean A = true -> clean s) -> idle s -> den s a F ->
  wp allowed (put vars d a) (fun vars' s' => exists g', winv g' s' vars' (bindf d F A)) s.
Proof.
  intros C Hext HA Hor Hcn Hcm Hcl Hau D. unfold put. apply wp_bind.
  assert (Hfin : forall s' g', calm g' s' -> g_lv g' = g_lv g -> g_cn g' = g_cn g -> g_cm g' = g_cm g ->
    (forall b, g_ext g' b = hcount (<[d:=a]> vars) b) ->
    (forall b G, 0 < g_ext (g_inc a g) b -> 0 < g_ext g' b -> den s b G -> den s' b G) ->
    (clean s -> clean s') -> mode_kept s s' -> winv g' s' (<[d:=a]> vars) (bindf d F A)).
  { intros s' g' C' E0 E1 E2 He K' Hcl' Hau'. constructor; simpl; try done.
    - intros x G HG. destruct (decide (x = d)) as [->|Hne].
      + rewrite lookup_insert in HG. rewrite lookup_insert. simplify_eq. exists a. split; [done|].
        apply K'; [apply ext_inc_same| |done]. rewrite He. eapply hcount_pos, lookup_insert.
      + rewrite lookup_insert_ne in HG by done. rewrite lookup_insert_ne by done. destruct (HA x G HG) as (b&Hb&Db).
        exists b. split; [done|]. apply K'; [| |done].
        * apply ext_inc_pos. rewrite Hext. by eapply hcount_pos.
        * rewrite He. eapply (hcount_pos _ x). by rewrite lookup_insert_ne.
    - rewrite <- Hor. apply (ord_l2i (g_inc a g) g'); [apply C|apply C'|done].
    - by rewrite E1.
    - by rewrite E2.
    - auto.
    - by eapply mode_idle. }
  destruct (vars !! d) as [b|] eqn:Hd; simpl drop_handle.
  - eapply wp_mono.
    { apply (destroy_spec c opsem strict allowed (g_inc a g) b s C). apply ext_inc_pos.
      rewrite Hext. by eapply hcount_pos. }
    intros [] s' A1. apply wp_ret. exists (g_dec b (g_inc a g)). apply Hfin; try done.
    + apply A1.
    + intros x. simpl. unfold ext_dec, ext_inc. rewrite hcount_insert, !Hext.
      rewrite (hcount_delete vars d b x Hd). repeat destruct (decide _); subst; try done; lia.
    + intros x G H1 H2. by eapply den_kept.
    + by apply A1.
    + apply A1.
  - apply wp_ret. exists (g_inc a g). apply Hfin; try done.
    intros x. simpl. unfold ext_inc. rewrite hcount_insert, !Hext.
    rewrite delete_notin by done. repeat destruct (decide _); subst; try done; lia.
Qed.

Lemma put_spec g s0 s vars A d a F (fl : bool) :
  winv g s0 vars A -> calm (g_inc a g) s ->
  (forall b G, 0 < g_ext g b -> den s0 b G -> den s b G) ->
  (fl = true -> clean s0 -> clean s) -> mode_kept s0 s -> den s a F ->
  wp allowed (put vars d a) (fun vars' s' => exists g',
    winv g' s' vars' (AState (<[d := F]> (ab A)) (ab_order A) (ab_canon A) (ab_cache A) (if fl then ab_clean A else false))) s.
Proof.
  intros W C K Hcl Hau D.
  apply (put_gen g s vars (AState (ab A) (ab_order A) (ab_canon A) (ab_cache A) (if fl then ab_clean A else false)) d a F);
    try apply W; try done.
  - intros x G HG. destruct (wi_den_pos _ _ _ _ x G W HG) as (b&Hb&Db&Pb). eauto.
  - simpl. rewrite <- (wi_order _ _ _ _ W). apply (ord_l2i g (g_inc a g)); [apply W|apply C|done].
  - simpl. intros Hfl. destruct fl; [|done]. apply Hcl; [done|]. by apply W.
  - eapply mode_idle; [exact Hau|apply W].
Qed.

(** a call that creates a diagram and stores it *)
Lemma new_spec g s vars A d m R F :
  winv g s vars A ->
  wp allowed m (anew true g s R) s -> (forall rho, valid c rho -> R rho (F rho)) ->
  wp allowed (let* a := m in put vars d a) (fun vars' s' => exists g', winv g' s' vars' (bindf d F A)) s.
Proof.
  intros W Hm HR. apply wp_bind. eapply wp_mono; [exact Hm|]. intros a s1 [A1 HE].
  eapply wp_mono; [apply (put_spec g s s1 vars A d a F true W)|].
  - apply A1.
  - intros b G Hb D. eapply den_kept; [exact A1|done|by apply ext_inc_pos|done].
  - intros _. by apply A1.
  - apply A1.
  - intros rho Hv. apply HE; auto.
  - intros vars' s' H. exact H.
Qed.

Lemma deref_spec g s vars A x F (B : Type) (k : positive -> M B) (Q : B -> st -> Prop) :
  winv g s vars A -> ab A !! x = Some F ->
  (forall a, vars !! x = Some a -> den s a F -> 0 < g_ext g a -> wp allowed (k a) Q s) ->
  wp allowed (let* a := deref vars x in k a) Q s.
Proof.
  intros W HF H. destruct (wi_den_pos _ _ _ _ x F W HF) as (a&Ha&D&P).
  apply wp_bind. unfold deref. eapply wp_of_opt; [exact Ha|]. by apply H.
Qed.

Lemma derefs_spec g s vars A xs Fs (B : Type) (k : list positive -> M B) (Q : B -> st -> Prop) :
  winv g s vars A -> funs A xs Fs ->
  (forall l, Forall2 (fun x a => vars !! x = Some a) xs l -> Forall2 (den s) l Fs ->
     Forall (fun a => 0 < g_ext g a) l -> wp allowed (k l) Q s) ->
  wp allowed (let* l := mapM (deref vars) xs in k l) Q s.
Proof.
  intros W HF. revert B k Q. induction HF as [|x F xs Fs HF _ IH]; intros B k Q H.
  - apply wp_bind, wp_ret. by apply H.
  - apply wp_bind. simpl. eapply deref_spec; [exact W|exact HF|]. intros a Ha D P.
    apply IH. intros l H1 H2 H3. apply wp_ret. apply H; by constructor.
Qed.

Lemma den_Ev s a F rho v : den s a F -> valid c rho -> Ev (live (s_heap s)) a rho v -> v = F rho.
Proof. intros D Hv H. eapply Ev_det; [exact H|by apply D]. Qed.

(** every referenced diagram has a function *)
Lemma den_ex g s a : calm g s -> 0 < g_ext g a -> exists F, den s a F.
Proof.
  intros C Ha. exists (fun rho => match evaluate c a (map rho (seq 0 (nvars c))) s with Ok v _ => v | _ => 0%Z end).
  intros rho Hv. set (vals := map rho (seq 0 (nvars c))).
  assert (E : forall i, i < nvars c -> of_vals vals i = rho i).
  { intros i Hi. unfold of_vals, vals. rewrite (nth_indep _ 0 (rho 0)) by (rewrite map_length, seq_length; lia).
    rewrite map_nth, seq_nth by lia. done. }
  assert (Hok : vals_ok c vals).
  { split; [unfold vals; by rewrite map_length, seq_length|]. intros i Hi. rewrite E by done. auto. }
  pose proof (evaluate_spec c opsem strict (fun _ => False) g s vals a C Hok Ha) as H. unfold wp in H.
  destruct (evaluate c a vals s); try done. destruct H as [_ H].
  apply (Ev_same_vals c opsem strict g s a (of_vals vals)); try done; [apply C|].
  eapply ext_held; [apply C|done].
Qed.

(** forgetting the function of some objects *)
Lemma winv_sub g s vars A A' :
  winv g s vars A -> ab A' ⊆ ab A -> ab_order A' = ab_order A -> ab_canon A' = ab_canon A -> ab_cache A' = ab_cache A ->
  ab_clean A' = ab_clean A -> winv g s vars A'.
Proof.
  intros [] Hs E0 E1 E2 E3. constructor; try done; rewrite ?E0, ?E1, ?E2, ?E3; try done.
  intros d F HF. apply wi_den0. by eapply lookup_weaken.
Qed.

(** giving up an object *)
Lemma drop_spec g s vars A d :
  winv g s vars A ->
  wp allowed (let* _ := drop_handle (vars !! d) in ret (delete d vars))
    (fun vars' s' => exists g', winv g' s' vars' (set_ab (delete d (ab A)) A)) s.
Proof.
  intros W. pose proof (wi_calm _ _ _ _ W) as C. apply wp_bind.
  destruct (vars !! d) as [b|] eqn:Hd; simpl drop_handle.
  - eapply wp_mono; [apply (destroy_spec c opsem strict allowed g b s C); by eapply wi_pos|].
    intros [] s' A1. apply wp_ret. exists (g_dec b g).
    assert (He : forall a, g_ext (g_dec b g) a = hcount (delete d vars) a).
    { intros x. simpl. unfold ext_dec. rewrite (wi_ext _ _ _ _ W), (hcount_delete vars d b x Hd).
      repeat destruct (decide _); subst; try done; lia. }
    constructor; simpl; try apply W; try done.
    + apply A1.
    + intros x F HF. apply lookup_delete_Some in HF as [Hne HF].
      destruct (wi_den_pos _ _ _ _ x F W HF) as (a&Ha&D&P). exists a. rewrite lookup_delete_ne by done.
      split; [done|]. eapply den_kept; [exact A1|done| |done]. rewrite He.
      eapply (hcount_pos _ x). by rewrite lookup_delete_ne.
    + rewrite <- (wi_order _ _ _ _ W). apply (ord_l2i g (g_dec b g)); [apply C|apply A1|done].
    + intros Hcl. apply A1; [done|]. by apply W.
    + eapply mode_idle; [apply A1|apply W].
  - apply wp_ret. exists g. rewrite delete_notin by done. eapply winv_sub; [exact W| |done..].
    apply delete_subseteq.
Qed.

(** ** Objects of a range *)

Fixpoint del_vars (xs : list nat) (vars : vars_t) : vars_t :=
  match xs with [] => vars | x :: xs => del_vars xs (delete x vars) end.

Lemma del_vars_other xs vars x : x ∉ xs -> del_vars xs vars !! x = vars !! x.
Proof.
  revert vars. induction xs as [|y xs IH]; intros vars H; [done|]. simpl. rewrite IH by set_solver.
  apply lookup_delete_ne. set_solver.
Qed.

Lemma hcount_range xs l vars a : NoDup xs -> Forall2 (fun x b => vars !! x = Some b) xs l ->
  hcount vars a = hcount (del_vars xs vars) a + acount (map Some l) a.
Proof.
  intros Hnd H. revert vars H. revert l. induction Hnd as [|x xs Hx Hnd IH]; intros l vars H.
  - inversion H; subst. simpl. lia.
  - inversion H as [|? b ? l' Hb Hl]; subst. simpl. rewrite (hcount_delete vars x b a Hb).
    rewrite (IH l' (delete x vars)).
    + repeat destruct (decide _); simplify_eq; lia.
    + clear -Hl Hx. induction Hl as [|y b ys l Hy Hl IH]; constructor; [|apply IH; set_solver].
      rewrite lookup_delete_ne by set_solver. done.
Qed.

Lemma set_opts_count xs arr vars a : NoDup xs -> length arr = length xs ->
  hcount (set_opts vars xs arr) a = hcount (del_vars xs vars) a + acount arr a.
Proof.
  intros Hnd. revert arr vars. induction Hnd as [|x xs Hx Hnd IH]; intros arr vars Hl;
    destruct arr as [|o arr]; try done; simpl; try lia.
  rewrite IH by (simpl in Hl; lia).
  assert (E : hcount (del_vars xs (set_opt vars x o)) a
     = hcount (del_vars xs (delete x vars)) a + (if decide (o = Some a) then 1 else 0)).
  { clear -Hx. revert vars. induction xs as [|y xs IH]; intros vars; simpl.
    - destruct o as [b|]; simpl.
      + rewrite hcount_insert. repeat destruct (decide _); simplify_eq; lia.
      + destruct (decide (None = Some a)); [done|lia].
    - assert (delete y (set_opt vars x o) = set_opt (delete y vars) x o) as ->.
      { assert (y <> x) by set_solver. destruct o; simpl; [by apply delete_insert_ne|by rewrite delete_commute]. }
      rewrite IH by set_solver. by rewrite (delete_commute vars y x). }
  rewrite E. lia.
Qed.

Lemma set_opts_other xs arr vars x : x ∉ xs -> set_opts vars xs arr !! x = vars !! x.
Proof.
  revert arr vars. induction xs as [|y xs IH]; intros arr vars H; [done|]. destruct arr as [|o arr]; [done|].
  simpl. rewrite IH by set_solver. assert (y <> x) by set_solver.
  destruct o; simpl; [by apply lookup_insert_ne|by apply lookup_delete_ne].
Qed.

Lemma del_list_lookup xs m x F : del_list xs m !! x = Some F -> x ∉ xs /\ m !! x = Some F.
Proof.
  induction xs as [|y xs IH]; simpl; [set_solver|]. intros H.
  apply lookup_delete_Some in H as [Hne H]. destruct (IH H). set_solver.
Qed.

(** ** Setters *)

Lemma calm_same g s s' :
  calm g s -> WF c opsem strict g s' -> s_l2i s' = s_l2i s -> s_i2l s' = s_i2l s ->
  calm g s'.
Proof.
  intros [W Hq [P O]] W' E1 E2. constructor; try congruence.
  split; [by eapply perm_same|]. by rewrite E2.
Qed.

(** ** Every call *)

Lemma tval_0_1 : tval c 1 -> tval c 0.
Proof.
  intros [H|[H _]]; [|unfold Undef in H; lia]. left. unfold Nondet in *. destruct (c_fixed c); lia.
Qed.

Lemma dom_pos_lt i k : k < dom c i -> i < nvars c.
Proof.
  intros H. destruct (Nat.lt_ge_cases i (nvars c)); [done|].
  unfold dom in H. rewrite nth_overflow in H by done. lia.
Qed.

Lemma nval_fun g s a F rho : calm g s -> 0 < g_ext g a -> den s a F -> valid c rho -> nval c s a rho = F rho.
Proof.
  intros C Ha D Hv. apply (Ev_nval c opsem strict g s C); [eapply ext_held; [apply C|done]|done|by apply D].
Qed.

Lemma exec_spec g s vars k A A' :
  wf_cfg c -> winv g s vars A -> spec c opsem strict s k A A' ->
  wp allowed (exec c k vars) (fun vars' s' => exists g', winv g' s' vars' A') s.
Proof.
  intros Hc W S. pose proof (wi_calm _ _ _ _ W) as C. pose proof (wi_order _ _ _ _ W) as Hor.
  pose proof (wi_idle _ _ _ _ W) as Hau.
  inversion S; subst; unfold exec.
  - eapply new_spec; [done|by apply constant_spec|done].
  - eapply new_spec; [done|by apply variable_spec|done].
  - eapply new_spec; [done|by apply variable_not_spec|done].
  - rewrite <- Hor in *. eapply new_spec; [done|by apply from_vector_spec|]. intros rho Hv. cbn beta.
    destruct (nth_lookup_or_length vs (vec_index c (s_l2i s) rho) 0%Z) as [E|E]; [done|].
    pose proof (vec_index_lt c (s_l2i s) rho) as Hlt. rewrite H in E.
    enough (vec_index c (s_l2i s) rho < prodl c (s_l2i s)) by lia. apply Hlt. intros i Hi. apply Hv.
    by apply (perm_elem c s i (ord_perm _ _ _ (cl_ord _ _ _ _ _ C))).
  - apply wp_bind. eapply wp_mono; [by apply (from_expression_tree_spec c opsem strict g)|].
    intros a s1 [A1 HE]. eapply wp_mono; [apply (put_spec g s s1 vars A d a (xeval e) false W)|].
    + apply A1.
    + intros b G Hb D. eapply den_kept; [exact A1|done|by apply ext_inc_pos|done].
    + done.
    + apply A1.
    + intros rho Hv. by apply HE.
    + intros vars' s' H'. exact H'.
  - eapply deref_spec; [exact W|exact H1|]. intros l Hl Dl Pl.
    eapply deref_spec; [exact W|exact H2|]. intros r Hr Dr Pr.
    eapply new_spec; [done| |].
    + apply (apply_spec c opsem strict g); try done; [by apply W|].
      intros rho x0 y0 Hv Hx Hy. rewrite (den_Ev s l F rho x0 Dl Hv Hx), (den_Ev s r G rho y0 Dr Hv Hy). auto.
    + intros rho Hv. exists (F rho), (G rho). auto.
  - eapply derefs_spec; [exact W|exact H1|]. intros l Hl HD HP.
    inversion HD; subst. apply wp_bind. eapply wp_mono.
    { apply (left_fold_spec c opsem strict o _ _ F Fs g s); try done. by apply W. }
    intros a s1 [F1 D1]. eapply wp_mono; [apply (put_spec g s s1 vars A d a
      (fun rho => fold_left (op_fun (apply_op c o)) (map (fun G => G rho) Fs) (F rho)) true W)|].
    + apply F1.
    + intros b G. by apply F1.
    + intros _. by apply F1.
    + apply F1.
    + exact D1.
    + intros vars' s' H'. exact H'.
  - eapply derefs_spec; [exact W|exact H3|]. intros l Hl HD HP.
    set (g0 := g_set_ext (hcount (del_vars xs vars)) g).
    assert (He : forall a, g_ext (g_arr g0 (map Some l)) a = g_ext g a).
    { intros a. simpl. rewrite (wi_ext _ _ _ _ W). symmetry. by apply hcount_range. }
    assert (C0 : calm (g_arr g0 (map Some l)) s) by (by apply (calm_ext c opsem strict (g_ext (g_arr g0 (map Some l))) g s)).
    apply wp_bind. eapply wp_mono.
    { apply (tree_fold_spec c opsem strict o Fs (map Some l) g0 s); try done.
      - by apply W.
      - clear -HD. induction HD; constructor; eauto.
      - destruct Hl; done. }
    intros [r arr] s1 (F1&L1&F'&D1&HF'). simpl fst in *. simpl snd in *.
    assert (Hlen : length arr = length xs).
    { rewrite L1, map_length. symmetry. by eapply Forall2_length. }
    apply (put_gen (g_set_ext (hcount (set_opts vars xs arr)) g) s1 _ (set_ab (del_list xs (ab A)) A)); simpl; try apply W.
    + apply (calm_ext c opsem strict (ext_inc (hcount (set_opts vars xs arr)) r) (g_arr g0 (Some r :: arr))); [|apply F1].
      intros a. simpl. unfold ext_inc. rewrite set_opts_count by done.
      repeat destruct (decide _); simplify_eq; lia.
    + done.
    + intros x G HG. apply del_list_lookup in HG as [Hx HG].
      destruct (wi_den _ _ _ _ W x G HG) as (b&Hb&Db). exists b. rewrite set_opts_other by done. split; [done|].
      apply F1; [|done]. simpl. eapply (hcount_pos _ x). by rewrite del_vars_other.
    + rewrite <- Hor. apply (ord_l2i g (g_arr g0 (Some r :: arr))); [apply C|apply F1|done].
    + intros Hcl. apply F1. by apply W.
    + eapply mode_idle; [apply F1|done].
    + intros rho Hv. rewrite (HF' rho). simpl. by apply D1.
  - eapply deref_spec; [exact W|exact H|]. intros l Hl Dl Pl. eapply new_spec; [done| |].
    + apply (transform_spec c opsem strict f g); try done.
      intros rho v Hv Hx. rewrite (den_Ev s l F rho v Dl Hv Hx). auto.
    + intros rho Hv. exists (F rho). auto.
  - eapply deref_spec; [exact W|exact H|]. intros l Hl Dl Pl. eapply new_spec; [done| |].
    + by apply (get_cofactor_spec c opsem strict i k0 g).
    + intros rho Hv. apply Dl. by apply valid_upd.
  - eapply deref_spec; [exact W|exact H|]. intros l Hl Dl Pl. eapply new_spec; [done| |].
    + by apply (get_cofactors_spec c opsem strict vs g).
    + intros rho Hv. apply Dl. intros i Hi. unfold updl. destruct (find_var i vs) as [k|] eqn:Ek; [|auto].
      apply find_var_In in Ek. rewrite Forall_forall in H0. by apply (H0 (i, k)).
  - eapply deref_spec; [exact W|exact H|]. intros l Hl Dl Pl.
    apply wp_bind. eapply wp_mono; [by apply (copy_spec c opsem strict g l s)|].
    intros [] s1 [A1 HE]. eapply wp_mono; [apply (put_spec g s s1 vars A d l F true W)|].
    + apply A1.
    + intros b G Hb D. eapply den_kept; [exact A1|done|by apply ext_inc_pos|done].
    + intros _. by apply A1.
    + apply A1.
    + intros rho Hv. apply HE. by apply Dl.
    + intros vars' s' H'. exact H'.
  - (* move *)
    destruct (vars !! x) as [a|] eqn:Hx.
    + set (g0 := g_set_ext (hcount (delete x vars)) g).
      assert (Hgen : forall A1 F, (forall y G, ab A1 !! y = Some G -> y <> x /\ ab A !! y = Some G) ->
         ab_order A1 = ab_order A -> ab_canon A1 = ab_canon A -> ab_cache A1 = ab_cache A ->
         ab_clean A1 = ab_clean A -> den s a F ->
         wp allowed (put (delete x vars) d a) (fun vars' s' => exists g', winv g' s' vars' (bindf d F A1)) s).
      { intros A1 F HA E0 E1 E2 E3 D. apply (put_gen g0); simpl; rewrite ?E0, ?E1, ?E2, ?E3; try apply W; try done.
        - apply (calm_ext c opsem strict (ext_inc (hcount (delete x vars)) a) g); [|done].
          intros b. unfold ext_inc. rewrite (wi_ext _ _ _ _ W), (hcount_delete vars x a b Hx).
          repeat destruct (decide _); subst; try done; lia.
        - intros y G HG. destruct (HA y G HG) as [Hne HG']. destruct (wi_den _ _ _ _ W y G HG') as (b&Hb&Db).
          exists b. by rewrite lookup_delete_ne. }
      destruct (ab A !! x) as [F|] eqn:HF.
      * destruct (wi_den _ _ _ _ W x F HF) as (b&Hb&Db). simplify_eq.
        eapply wp_mono; [apply (Hgen (set_ab (delete x (ab A)) A) F); try done|intros vars' s' H'; exact H'].
        intros y G HG. simpl in HG. apply lookup_delete_Some in HG as [? ?]. done.
      * destruct (den_ex g s a C) as [F HF']; [by eapply wi_pos|].
        eapply wp_mono; [apply (Hgen (set_ab (delete x (ab A)) A) F); try done|].
        -- intros y G HG. simpl in HG. apply lookup_delete_Some in HG as [? ?]. done.
        -- intros vars' s' [g' W']. exists g'. eapply winv_sub; [exact W'| |done..]. simpl.
           rewrite <- (delete_insert_delete (delete x (ab A)) d F). apply delete_subseteq.
    + assert (E : ab A !! x = None).
      { destruct (ab A !! x) as [F|] eqn:HF; [|done]. destruct (wi_den _ _ _ _ W x F HF) as (?&?&_). congruence. }
      rewrite E. simpl. rewrite (delete_notin vars x), (delete_notin (ab A) x) by done. by apply (drop_spec g).
  - (* swap *)
    apply wp_ret. exists g.
    assert (Hlk : forall (T : Type) (m : gmap nat T) (so : gmap nat T -> nat -> option T -> gmap nat T),
      (forall m d o y, so m d o !! y = if decide (y = d) then o else m !! y) ->
      forall y, so (so m d (m !! x)) x (m !! d) !! y
        = m !! (if decide (y = x) then d else if decide (y = d) then x else y)).
    { intros T m so Hso y. rewrite !Hso. repeat destruct (decide _); subst; done. }
    assert (L1 : forall m d o y, set_opt m d o !! y = if decide (y = d) then o else m !! y).
    { intros m d0 o y. destruct o; simpl; destruct (decide (y = d0)) as [->|];
        by rewrite ?lookup_insert, ?lookup_delete, ?lookup_insert_ne, ?lookup_delete_ne. }
    assert (L2 : forall m d o y, set_fun m d o !! y = if decide (y = d) then o else m !! y).
    { intros m d0 o y. destruct o; simpl; destruct (decide (y = d0)) as [->|];
        by rewrite ?lookup_insert, ?lookup_delete, ?lookup_insert_ne, ?lookup_delete_ne. }
    pose proof (Hlk _ vars set_opt L1) as V. pose proof (Hlk _ (ab A) set_fun L2) as VA.
    constructor; simpl; try apply W.
    + intros a. rewrite (wi_ext _ _ _ _ W).
      assert (Hso : forall m d o b, hcount (set_opt m d o) b
         = (if decide (o = Some b) then 1 else 0) + hcount (delete d m) b).
      { intros m d0 o b. destruct o; simpl; [rewrite hcount_insert|]; repeat destruct (decide _); simplify_eq; try done; lia. }
      assert (Hdel : forall m d b, hcount m b
         = (if decide (m !! d = Some b) then 1 else 0) + hcount (delete d m) b).
      { intros m d0 b. destruct (m !! d0) as [e|] eqn:E.
        - rewrite (hcount_delete m d0 e b E). repeat destruct (decide _); simplify_eq; try done; lia.
        - rewrite (delete_notin m d0) by done. repeat destruct (decide _); simplify_eq; try done; lia. }
      rewrite Hso. destruct (decide (x = d)) as [->|Hne].
      * rewrite (Hdel vars d). f_equal. f_equal. destruct (vars !! d) eqn:E; simpl.
        -- by rewrite delete_insert_delete.
        -- by rewrite delete_idemp.
      * assert (delete x (set_opt vars d (vars !! x)) = set_opt (delete x vars) d (vars !! x)) as ->.
        { destruct (vars !! x); simpl; [by apply delete_insert_ne|by rewrite delete_commute]. }
        rewrite Hso. rewrite (Hdel vars x a), (Hdel (delete x vars) d a).
        rewrite lookup_delete_ne by done. lia.
    + intros y F HF. rewrite VA in HF. rewrite V. by apply W.
  - by apply (drop_spec g).
  - (* gc *)
    apply wp_bind. eapply wp_mono.
    { apply (force_gc_spec c opsem strict allowed g s); [apply C|apply C|]. eapply ord_perm, C. }
    intros [] s' (W'&R&So&Ed&_). apply wp_ret. exists g. pose proof (mode_same_order _ _ So) as Hmo. destruct So as (E1&E2&_&_&E3&_).
    constructor; try apply W.
    + by eapply calm_same.
    + intros d F HF. destruct (wi_den_pos _ _ _ _ d F W HF) as (a&Ha&D&P). exists a. split; [done|].
      intros rho Hv. eapply keeps_Ev; [apply R|eapply ext_held; [apply C|done]|by apply D].
    + by rewrite E1.
    + intros Hcl d Hd. apply (g2_marked _ _ _ R) in Hd. by eapply (wi_clean _ _ _ _ W Hcl).
    + by eapply mode_idle.
  - (* clear_cache *)
    apply wp_bind. unfold clear_cache, cache_clear. apply wp_modify. apply wp_ret.
    exists (g_set_cm CValid g).
    assert (W' : WF c opsem strict (g_set_cm CValid g) (set_cache (cache_cleared (s_cache s)) s)).
    { destruct (cl_wf _ _ _ _ _ C). constructor; try done. destruct wf_cache as (Hc1&Hc2&_).
      split_and!; [done|simpl; by rewrite replicate_length|]. simpl. intros k e He.
      apply lookup_replicate in He as [? ?]. done. }
    constructor; simpl; try apply W; try done.
    destruct C as [_ Hq [P O]]. constructor; try done. split; [by destruct P|done].
  - apply wp_bind, wp_modify, wp_ret. exists g. constructor; try apply W.
    destruct C as [WF0 Hq [P O]]. constructor; try done; [by destruct WF0|]. split; [by destruct P|done].
  - apply wp_bind, wp_modify, wp_ret. exists g. constructor; try apply W.
    destruct C as [WF0 Hq [P O]]. constructor; try done; [|split; [by destruct P|done]].
    destruct WF0. constructor; try done. intros Hs. destruct (wf_strict Hs) as [? _]. split; [done|]. by apply H.
  - apply wp_bind, wp_modify, wp_ret. exists g. constructor; try apply W; [|by destruct Hau].
    destruct C as [WF0 Hq [P O]]. constructor; try done; [by destruct WF0|split; [by destruct P|done]].
  - (* reorder *)
    assert (Hdom : forall i, i < nvars c -> 0 < dom c i) by (intros i Hi; apply (wc_dom _ Hc i Hi)).
    assert (SF : sifting c opsem strict g s) by (constructor; apply C).
    pose proof (sift_variables_spec c opsem strict Hdom g s SF (proj1 Hau) (proj2 Hau)) as V.
    apply wp_bind. unfold force_reorder, wp in *. destruct (sift_variables c s) as [[] s'|e|]; try done.
    destruct V as (g'&V). exists g'.
    constructor; simpl; try done.
    + constructor; apply V.
    + rewrite (vs_ext _ _ _ _ _ _ _ V). apply W.
    + intros d F HF. destruct (wi_den_pos _ _ _ _ d F W HF) as (a&Ha&D&P). exists a. split; [done|].
      intros rho Hv. apply V; auto.
    + intros Hcl d Hd. apply (vs_marks _ _ _ _ _ _ _ V) in Hd. by eapply (wi_clean _ _ _ _ W Hcl).
    + split; [rewrite (vs_auto _ _ _ _ _ _ _ V)|rewrite (vs_defer _ _ _ _ _ _ _ V)]; apply Hau.
  - (* dpld *)
    eapply deref_spec; [exact W|eassumption|]. intros l Hl Dl Pl.
    eapply new_spec; [done| |].
    + eapply wp_mono; [apply (dpld_spec_avoids c opsem strict vc f g l s); try done; by apply tval_0_1|].
      intros a s1 [HA _]. exact HA.
    + intros rho Hv. apply (derived_fun c opsem strict g s vc f l F); try done. apply C.
  - (* to_dpld_e *)
    eapply deref_spec; [exact W|eassumption|]. intros l Hl Dl Pl.
    eapply new_spec; [done| |].
    + apply (to_dpld_e_spec c opsem strict from i g l s); try done.
      intros b j sons Hb Lb ->. assert (Hh : held g (s_heap s) l) by (eapply ext_held; [apply C|done]).
      assert (Hes : essential_var c (nval c s l) i).
      { apply (occurs_essential c opsem strict g s Hc C); [by apply W|done|]. eauto. }
      destruct Hes as (_&rho&k&k'&Hv&Hk&Hk'&Hne). apply Hne.
      rewrite !(nval_fun g s l F) by (try done; by apply valid_upd).
      match goal with H : forall rho k, valid c rho -> _ |- _ => rewrite !H by done end. done.
    + intros rho Hv. unfold extended. destruct (Nat.eqb_spec (rho i) from); [left|by right]. split; [done|]. by apply Dl.
  - (* dpld, to_dpld_e *)
    assert (Hi : vc_index vc < nvars c) by (eapply dom_pos_lt; eassumption).
    eapply deref_spec; [exact W|eassumption|]. intros l Hl Dl Pl.
    eapply new_spec; [done| |].
    + apply (dpld_e_spec c opsem strict vc f from g l s); try done. by apply tval_0_1.
    + intros rho Hv. unfold derived_e. destruct (Nat.eqb_spec (rho (vc_index vc)) from); [left|by right]. split; [done|].
      apply (derived_fun c opsem strict g s vc f l F); try done. apply C.
  - (* the diagram of fussell_vesely_importance *)
    eapply deref_spec; [exact W|eassumption|]. intros l Hl Dl Pl.
    apply wp_bind. eapply wp_mono; [by apply (to_mnf_spec c opsem strict g l s)|]. intros b s1 (A1&_&Mk).
    pose proof (as_calm _ _ _ _ _ _ _ _ A1) as C1.
    apply wp_bind. eapply wp_mono.
    { apply (destroy_spec c opsem strict allowed (g_inc b g) b s1 C1). apply ext_inc_same. }
    intros [] s2 A2. apply wp_ret.
    assert (Hext : forall a, g_ext g a = g_ext (g_dec b (g_inc b g)) a).
    { intros a. simpl. unfold ext_dec, ext_inc. repeat destruct (decide _); subst; try done; lia. }
    pose proof (as_calm _ _ _ _ _ _ _ _ A2) as C2. exists (g_dec b (g_inc b g)).
    constructor; simpl; try apply W; try done.
    + intros a. specialize (Hext a). simpl in Hext. rewrite <- Hext. apply W.
    + intros d G HG. destruct (wi_den_pos _ _ _ _ d G W HG) as (a&Ha&D&P). exists a. split; [done|].
      assert (0 < g_ext (g_inc b g) a) by (simpl; pose proof (ext_inc_le (g_ext g) b a); lia).
      intros rho Hv. apply (as_ev _ _ _ _ _ _ _ _ A2); [done|by rewrite <- Hext|done|].
      apply (as_ev _ _ _ _ _ _ _ _ A1); [done|done|done|]. by apply D.
    + rewrite <- Hor. apply (ord_l2i g (g_dec b (g_inc b g))); [apply C|apply C2|done].
    + intros Hfl. match goal with H : _ = true -> _ /\ _ |- _ => destruct (H Hfl) as [Hcl [Z1 Z2]] end.
      apply (as_clean _ _ _ _ _ _ _ _ A2); [done|]. apply Mk; [|by apply (wi_clean _ _ _ _ W)].
      assert (EF : forall rho v, valid c rho -> Ev (live (s_heap s)) l rho v <-> v = F rho).
      { intros rho v Hv. split; [intros HE; eapply Ev_det; [exact HE|by apply Dl]|intros ->; by apply Dl]. }
      split.
      * intros rho v Hv HE. apply EF in HE; [|done]. subst v. by apply Z1.
      * intros x0 y z Vx Vy Vz L1 L2 E1 E2. apply EF in E1, E2; [|done..]. apply EF; [done|]. symmetry.
        apply (Z2 x0 y z); try done. intros i Hi. split; [by apply L1|by apply L2].
    + eapply mode_idle; [apply A2|]. eapply mode_idle; [apply A1|done].
Qed.

End world.
