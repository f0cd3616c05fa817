(** * Diagrams as keys: proofs *)

From stdpp Require Import gmap list.
From Coq Require Import ZArith Lia.
From Verif Require Import Base Ops Tables NodeManager DiagramManager World.
From Verif Require Import Heap Inv InvLemmas Eval VecSpec WorldSpec WorldProof QuerySpec History QueryProof PropsQuery Keys KeysSpec.

Local Open Scope nat_scope.
Local Arguments bind _ _ _ _ /.
Local Arguments ret _ _ /.
Local Arguments slot_for : simpl never.

(** ** Objects that a call does not assign *)

Lemma put_vars vars d a s vars' s' : put vars d a s = Ok vars' s' -> vars' = <[d := a]> vars.
Proof. unfold put, bind, ret. destruct (drop_handle (vars !! d) s); congruence. Qed.

Lemma set_opt_ne vars d o x : x <> d -> set_opt vars d o !! x = vars !! x.
Proof. intros H. destruct o; simpl; [by rewrite lookup_insert_ne|by rewrite lookup_delete_ne]. Qed.

Lemma set_opts_ne x : forall xs vars arr, x ∉ xs -> set_opts vars xs arr !! x = vars !! x.
Proof.
  induction xs as [|y xs IH]; intros vars [|o arr] H; simpl; try done. rewrite IH by set_solver. apply set_opt_ne. set_solver.
Qed.

Lemma exec_untouched c k vars s vars' s' x : exec c k vars s = Ok vars' s' -> x ∉ touched k -> vars' !! x = vars !! x.
Proof.
  assert (P : forall v d a s v' s', put v d a s = Ok v' s' -> x ≠ d -> v' !! x = v !! x).
  { intros v d a t v' t' E Hd. apply put_vars in E as ->. by rewrite lookup_insert_ne. }
  intros E Hx. destruct k; cbn [touched] in Hx; unfold exec, bind, ret in E;
    repeat match type of E with
    | (match ?m with _ => _ end) _ = _ => destruct m eqn:?; try discriminate
    | match ?m with _ => _ end = _ => destruct m eqn:?; try discriminate
    end;
    try (eapply P; [exact E|set_solver]);
    try (injection E as <- <-; try done; rewrite ?lookup_delete_ne by set_solver; done).
  - apply P in E; [|set_solver]. rewrite E. apply set_opts_ne. set_solver.
  - apply P in E; [|set_solver]. rewrite E. apply lookup_delete_ne. set_solver.
  - injection E as <- <-. rewrite !set_opt_ne by set_solver. done.
Qed.

(** ** Buckets *)

Definition bok (bs : list (list entry)) : Prop :=
  0 < length bs /\ forall i l e, bs !! i = Some l -> e ∈ l -> i = slot_for (length bs) (e_hash e).

Lemma slot_for_lt n h : 0 < n -> slot_for n h < n.
Proof. intros H. unfold slot_for. pose proof (N.mod_lt h (N.of_nat n)). lia. Qed.

Lemma concat_alter (e : entry) : forall i bs, i < length bs -> concat (alter (cons e) i bs) ≡ₚ e :: concat bs.
Proof.
  induction i as [|i IH]; intros [|b bs] H; simpl in *; try lia; [done|].
  change (b ++ concat (alter (cons e) i bs) ≡ₚ e :: b ++ concat bs).
  rewrite IH by lia. by rewrite Permutation_middle.
Qed.

Lemma add_entry_ok bs e : bok bs -> bok (add_entry bs e) /\ concat (add_entry bs e) ≡ₚ e :: concat bs /\
  length (add_entry bs e) = length bs.
Proof.
  intros [L S]. unfold add_entry. split; [|split].
  - split; [by rewrite alter_length|]. rewrite alter_length. intros i l e' Hl He.
    destruct (decide (i = slot_for (length bs) (e_hash e))) as [->|Hne].
    + rewrite list_lookup_alter in Hl. destruct (bs !! slot_for (length bs) (e_hash e)) as [l0|] eqn:E; [|done].
      simpl in Hl. injection Hl as <-. apply elem_of_cons in He as [->|He]; [done|]. by eapply S.
    + rewrite list_lookup_alter_ne in Hl by done. by eapply S.
  - by apply concat_alter, slot_for_lt.
  - apply alter_length.
Qed.

Lemma add_entries_ok : forall es bs, bok bs -> bok (fold_left add_entry es bs) /\
  concat (fold_left add_entry es bs) ≡ₚ es ++ concat bs.
Proof.
  induction es as [|e es IH]; intros bs B; simpl; [done|]. destruct (add_entry_ok bs e B) as (B'&P&_).
  destruct (IH _ B') as [B2 P2]. split; [done|]. rewrite P2, P. by rewrite Permutation_middle.
Qed.

Lemma new_bok n : bok (replicate (S n) []) /\ concat (replicate (S n) ([] : list entry)) = [].
Proof.
  split; [split|].
  - rewrite replicate_length. lia.
  - intros i l e Hl He. apply lookup_replicate in Hl as [-> _]. by apply elem_of_nil in He.
  - induction (S n) as [|k IH]; simpl; [done|apply IH].
Qed.

Lemma concat_filter (p : entry -> bool) bs : concat (map (List.filter p) bs) = List.filter p (concat bs).
Proof. induction bs as [|b bs IH]; simpl; [done|]. by rewrite IH, List.filter_app. Qed.

Lemma elem_filter (p : entry -> bool) l e : e ∈ List.filter p l <-> e ∈ l /\ p e = true.
Proof. rewrite !elem_of_list_In. apply List.filter_In. Qed.

Lemma filter_ok (p : entry -> bool) bs : bok bs -> bok (map (List.filter p) bs).
Proof.
  intros [L S]. split; rewrite map_length; [done|]. intros i l e Hl He.
  change (map (List.filter p) bs) with (List.filter p <$> bs) in Hl. rewrite list_lookup_fmap in Hl.
  destruct (bs !! i) as [l0|] eqn:E; [|done]. simpl in Hl. injection Hl as <-. apply elem_filter in He as [He _]. by eapply S.
Qed.

Lemma elem_concat (bs : list (list entry)) e : e ∈ concat bs <-> exists i l, bs !! i = Some l /\ e ∈ l.
Proof.
  rewrite elem_of_list_In, in_concat. split.
  - intros (l&Hl&He). apply elem_of_list_In, elem_of_list_lookup in Hl as [i Hi]. exists i, l. split; [done|]. by apply elem_of_list_In.
  - intros (i&l&Hl&He). exists l. split; [apply elem_of_list_In; by eapply elem_of_list_lookup_2|by apply elem_of_list_In].
Qed.

(** ** The invariant *)

Section inv.
Context (c : cfg) (base : nat).

Record kinv (vars : vars_t) (A : astate) (m : umap) (fm : funmap) : Prop := {
  k_buckets : bok (um_buckets m);
  k_base : base <= um_next m;
  k_ent : forall e, e ∈ entries m -> base <= e_key e < um_next m /\
    exists a, vars !! e_key e = Some a /\ e_hash e = ptr_hash c a;
  k_names : NoDup (map e_key (entries m));
  k_inj : forall e e', e ∈ entries m -> e' ∈ entries m -> vars !! e_key e = vars !! e_key e' -> e = e';
  k_to : forall e, e ∈ entries m -> exists F, ab A !! e_key e = Some F /\ (F, e_val e) ∈ fm;
  k_from : forall F v, (F, v) ∈ fm -> exists e, e ∈ entries m /\ ab A !! e_key e = Some F /\ e_val e = v
}.

Lemma find_ok vars A m fm x a e : kinv vars A m fm -> vars !! x = Some a ->
  um_find c vars m x = Some e <-> e ∈ entries m /\ vars !! e_key e = Some a.
Proof.
  intros K Hx. destruct (k_buckets _ _ _ _ K) as [L S]. unfold um_find, hash_obj. rewrite Hx.
  pose proof (slot_for_lt _ (ptr_hash c a) L) as Hi. apply lookup_lt_is_Some in Hi as [l Hl]. rewrite Hl. split.
  - intros F. apply List.find_some in F as [He Hm]. unfold matches, equals in Hm.
    apply andb_true_iff in Hm as [_ Hm]. apply bool_decide_eq_true in Hm. rewrite Hm. split; [|done].
    apply elem_concat. eexists _, _. split; [exact Hl|]. by apply elem_of_list_In.
  - intros [He Hk]. pose proof He as He'. apply elem_concat in He' as (i&l'&Hl'&He').
    destruct (k_ent _ _ _ _ K e He) as (_&a'&Ha'&Hh). rewrite Hk in Ha'. injection Ha' as <-.
    assert (i = slot_for (length (um_buckets m)) (ptr_hash c a)) as -> by (rewrite <- Hh; by eapply S).
    rewrite Hl in Hl'. injection Hl' as <-.
    destruct (List.find (matches vars x (ptr_hash c a)) l) as [e'|] eqn:F.
    + f_equal. apply List.find_some in F as [Hi Hm]. unfold matches, equals in Hm.
      apply andb_true_iff in Hm as [_ Hm]. apply bool_decide_eq_true in Hm.
      apply (k_inj _ _ _ _ K); [apply elem_concat; eexists _, _; split; [exact Hl|by apply elem_of_list_In]|done|].
      congruence.
    + exfalso. apply List.find_none with (x := e) in F; [|by apply elem_of_list_In].
      unfold matches, equals in F. rewrite Hh, N.eqb_refl in F. simpl in F.
      apply bool_decide_eq_false in F. congruence.
Qed.

End inv.

Section main.
Context (c : cfg) (opsem : Z -> option (Z -> Z -> Z)) (strict : bool).
Notation history := (history c opsem strict).
Notation uhist := (uhist c opsem strict).

Lemma roots_eq p ks s vars A x y F G : wf_cfg c -> history p ks s vars A -> ab_canon A = true ->
  ab A !! x = Some F -> ab A !! y = Some G -> vars !! x = vars !! y <-> fun_eq c F G.
Proof.
  intros Hc H Hcn HF HG.
  destruct (history_query c opsem strict p ks s vars A x F Hc H HF) as (g&a&Ha&C&Hh&EF&_).
  destruct (history_query c opsem strict p ks s vars A y G Hc H HG) as (g'&b&Hb&_&_&EG&_).
  split.
  - intros E. rewrite Ha, Hb in E. injection E as <-. intros rho Hv. by rewrite (EF rho Hv), (EG rho Hv).
  - intros E. destruct (history_value _ _ _ _ _ _ _ _ x F Hc H HF) as (a'&Ha'&Va).
    destruct (history_value _ _ _ _ _ _ _ _ y G Hc H HG) as (b'&Hb'&Vb).
    assert (X : equals vars x y = true).
    { apply (history_equals c opsem strict p ks s vars A x y a' b' Hc H Hcn Ha' Hb').
      intros vals Hv. rewrite (Va vals Hv), (Vb vals Hv). f_equal. apply E, Hv. }
    unfold equals in X. by apply bool_decide_eq_true in X.
Qed.

Lemma object_some p ks s vars A x F : wf_cfg c -> history p ks s vars A -> ab A !! x = Some F -> exists a, vars !! x = Some a.
Proof. intros Hc H HF. destruct (history_value _ _ _ _ _ _ _ _ x F Hc H HF) as (a&Ha&_). eauto. Qed.

(** an element for the function of [x] is found, and nothing else *)
Lemma find_known base p ks s vars A m fm x F : wf_cfg c -> history p ks s vars A -> kinv c base vars A m fm ->
  ab_canon A = true -> ab A !! x = Some F ->
  forall v, (exists e, um_find c vars m x = Some e /\ e_val e = v) <-> maps_to c fm F v.
Proof.
  intros Hc H K Hcn HF v. destruct (object_some _ _ _ _ _ _ _ Hc H HF) as [a Ha]. split.
  - intros (e&E&<-). apply (find_ok _ _ _ _ _ _ _ _ _ K Ha) in E as [He Hk].
    destruct (k_to _ _ _ _ _ _ K e He) as (G&HG&HI). exists G. split; [done|].
    apply (roots_eq p ks s vars A x (e_key e) F G Hc H Hcn HF HG). congruence.
  - intros (G&HI&HE). destruct (k_from _ _ _ _ _ _ K G v HI) as (e&He&HG&Hv). exists e. split; [|done].
    apply (find_ok _ _ _ _ _ _ _ _ _ K Ha). split; [done|]. rewrite <- Ha. symmetry.
    by apply (roots_eq p ks s vars A x (e_key e) F G Hc H Hcn HF HG).
Qed.

Lemma kinv_calls base vars vars' A A' m fm : kinv c base vars A m fm ->
  (forall d, base <= d -> vars' !! d = vars !! d) -> (forall d, base <= d -> ab A' !! d = ab A !! d) ->
  kinv c base vars' A' m fm.
Proof.
  intros [B Bs En Nm Ij To Fr] Hv Ha. constructor; try done.
  - intros e He. destruct (En e He) as (L&a&E1&E2). split; [done|]. exists a. rewrite Hv by lia. done.
  - intros e e' He He'. destruct (En e He) as (L&_), (En e' He') as (L'&_). rewrite !Hv by lia. auto.
  - intros e He. destruct (En e He) as (L&_). rewrite Ha by lia. auto.
  - intros F v HI. destruct (Fr F v HI) as (e&He&HF&Ev). destruct (En e He) as (L&_). exists e. rewrite Ha by lia. done.
Qed.

Theorem uhist_inv p base n us s vars m A fm : wf_cfg c -> uhist p base n us s vars m A fm ->
  (exists ks, history p ks s vars A) /\ kinv c base vars A m fm.
Proof.
  intros Hc. induction 1 as [ks s vars A H|us s vars m A fm k A' s' vars' m' H IH S T E
    |us s vars m A fm x v F s' vars' m' H IH Hcn HF Kn E|us s vars m A fm x v F s' vars' m' H IH Hcn HF Kn E
    |us s vars m A fm x F s' vars' m' fm' H IH Hcn HF Hfm E|us s vars m A fm k s' vars' m' H IH E].
  - split; [by exists ks|]. destruct (new_bok n) as [B Cn].
    assert (En : entries (um_new base n) = []) by (apply Cn).
    constructor; rewrite ?En; try done; try (by intros ? ?%elem_of_nil); try (by intros ? ? ?%elem_of_nil); by constructor.
  - destruct IH as [[ks Hk] K]. cbn [u_exec] in E. unfold bind, ret in E.
    destruct (exec c k vars s) as [v1 s1| |] eqn:E1; try done. injection E as <- <- <-.
    split; [exists (ks ++ [k]); by econstructor|].
    assert (T' : forall d, base <= d -> d ∉ touched k).
    { intros d Hd Hi. rewrite Forall_forall in T. apply T in Hi. lia. }
    eapply kinv_calls; [exact K| |].
    + intros d Hd. eapply exec_untouched; [exact E1|auto].
    + intros d Hd. eapply spec_untouched; [exact S|auto].
  - destruct IH as [[ks Hk] K]. destruct Kn as [w Kn].
    apply (find_known base p ks s vars A m fm x F Hc Hk K Hcn HF w) in Kn as (e&Ef&_).
    cbn [u_exec] in E. unfold bind in E. rewrite Ef in E. injection E as <- <- <-. eauto.
  - destruct IH as [[ks Hk] K]. cbn [u_exec] in E. unfold bind in E. destruct (um_find c vars m x) as [e|] eqn:Ef.
    { exfalso. apply Kn. exists (e_val e). apply (find_known base p ks s vars A m fm x F Hc Hk K Hcn HF). eauto. }
    destruct (exec c (CCopy (um_next m) x) vars s) as [v1 s1| |] eqn:E1; try done.
    injection E as <- <- <-.
    assert (Hk' : history p (ks ++ [CCopy (um_next m) x]) s1 v1 (bindf (um_next m) F A)).
    { eapply H_call; [exact Hk|by apply S_copy|exact E1]. }
    split; [eauto|]. destruct (object_some _ _ _ _ _ _ _ Hc Hk HF) as [a Ha].
    assert (Hv1 : v1 !! um_next m = Some a /\ forall d, d <> um_next m -> v1 !! d = vars !! d).
    { split; [|intros d Hd; eapply exec_untouched; [exact E1|set_solver]].
      unfold exec, bind, deref, of_opt in E1. rewrite Ha in E1. unfold ret at 1 in E1. destruct (diagram_copy a s); try done. apply put_vars in E1 as ->.
      by rewrite lookup_insert. }
    destruct Hv1 as [Hn Ho]. set (e0 := Ent (um_next m) (hash_obj c vars x) v).
    destruct (add_entry_ok (um_buckets m) e0 (k_buckets _ _ _ _ _ _ K)) as (B&P&_).
    assert (EE : forall e, e ∈ entries (UMap (add_entry (um_buckets m) e0) (S (um_next m))) <-> e = e0 \/ e ∈ entries m).
    { intros e. unfold entries. simpl. by rewrite P, elem_of_cons. }
    assert (Hold : forall e, e ∈ entries m -> e_key e <> um_next m).
    { intros e He. destruct (k_ent _ _ _ _ _ _ K e He) as [? _]. lia. }
    pose proof (k_base _ _ _ _ _ _ K) as Hb.
    constructor.
    + exact B.
    + simpl. lia.
    + intros e [->|He]%EE; simpl.
      * split; [lia|]. exists a. split; [done|]. unfold hash_obj. by rewrite Ha.
      * destruct (k_ent _ _ _ _ _ _ K e He) as (L&a'&E2&E3). split; [lia|]. exists a'. by rewrite Ho by auto.
    + unfold entries. simpl. rewrite P. simpl. constructor; [|apply K].
      intros Hi. apply elem_of_list_fmap in Hi as (e&E2&He). by apply (Hold e He).
    + assert (X : forall e, e ∈ entries m -> v1 !! e_key e = v1 !! um_next m -> False).
      { intros e He Eq. rewrite (Ho _ (Hold e He)), Hn in Eq.
        assert (um_find c vars m x = Some e) by (by apply (find_ok c base vars A m fm x a e K Ha)). congruence. }
      intros e e' [->|He]%EE [->|He']%EE Eq; [done| | |].
      * exfalso. by apply (X e' He').
      * exfalso. by apply (X e He).
      * apply (k_inj _ _ _ _ _ _ K); [done|done|]. rewrite !Ho in Eq by auto. done.
    + intros e [->|He]%EE; simpl.
      * exists F. rewrite lookup_insert. split; [done|left].
      * destruct (k_to _ _ _ _ _ _ K e He) as (G&HG&HI). exists G. rewrite lookup_insert_ne by (apply not_eq_sym; auto).
        split; [done|by right].
    + intros G w [[= -> ->]|HI]%elem_of_cons.
      * exists e0. split; [apply EE; by left|]. simpl. by rewrite lookup_insert.
      * destruct (k_from _ _ _ _ _ _ K G w HI) as (e&He&HG&Hv). exists e. split; [apply EE; by right|]. simpl.
        rewrite lookup_insert_ne by (apply not_eq_sym; auto). done.
  - destruct IH as [[ks Hk] K]. destruct (object_some _ _ _ _ _ _ _ Hc Hk HF) as [a Ha].
    cbn [u_exec] in E. unfold bind in E. destruct (um_find c vars m x) as [e0|] eqn:Ef.
    + destruct (exec c (CReset (e_key e0)) vars s) as [v1 s1| |] eqn:E1; try done.
      injection E as <- <- <-. split.
      { exists (ks ++ [CReset (e_key e0)]). eapply H_call; [exact Hk|apply S_reset|exact E1]. }
      apply (find_ok c base vars A m fm x a e0 K Ha) in Ef as [He0 Hk0].
      destruct (k_to _ _ _ _ _ _ K e0 He0) as (G0&HG0&HI0).
      assert (FG0 : fun_eq c F G0) by (apply (roots_eq p ks s vars A x (e_key e0) F G0 Hc Hk Hcn HF HG0); congruence).
      assert (Ho : forall d, d <> e_key e0 -> v1 !! d = vars !! d)
        by (intros d Hd; eapply exec_untouched; [exact E1|set_solver]).
      set (q := fun e' => negb (e_key e' =? e_key e0)).
      assert (EE : forall e, e ∈ entries (UMap (map (List.filter q) (um_buckets m)) (um_next m)) <->
        e ∈ entries m /\ e_key e <> e_key e0).
      { intros e. unfold entries. simpl. rewrite concat_filter, elem_filter. unfold q.
        rewrite negb_true_iff, Nat.eqb_neq. done. }
      constructor.
      * by apply filter_ok, K.
      * apply K.
      * intros e [He Hne]%EE. destruct (k_ent _ _ _ _ _ _ K e He) as (L&a'&E2&E3). split; [done|]. exists a'. by rewrite Ho.
      * unfold entries. simpl. rewrite concat_filter. pose proof (k_names _ _ _ _ _ _ K) as N. unfold entries in N.
        revert N. generalize (concat (um_buckets m)). intros l. induction l as [|e l IHl]; simpl; [done|].
        intros [N1 N2]%NoDup_cons. destruct (q e); simpl; [|auto]. constructor; [|auto]. intros Hi. apply N1.
        apply elem_of_list_fmap in Hi as (e'&->&He'). apply elem_filter in He' as [He' _]. apply elem_of_list_fmap. eauto.
      * intros e e' [He Hne]%EE [He' Hne']%EE Eq. apply (k_inj _ _ _ _ _ _ K); [done|done|]. by rewrite !Ho in Eq.
      * intros e [He Hne]%EE. destruct (k_to _ _ _ _ _ _ K e He) as (G&HG&HI). exists G.
        simpl. rewrite lookup_delete_ne by (by apply not_eq_sym). split; [done|]. apply Hfm. split; [done|]. intros FG.
        apply Hne. f_equal. apply (k_inj _ _ _ _ _ _ K); [done|done|]. rewrite Hk0, <- Ha. symmetry.
        by apply (roots_eq p ks s vars A x (e_key e) F G Hc Hk Hcn HF HG).
      * intros G w [HI HN]%Hfm. destruct (k_from _ _ _ _ _ _ K G w HI) as (e&He&HG&Hv). exists e.
        assert (Hne : e_key e <> e_key e0).
        { intros Eq. apply HN. rewrite Eq, HG0 in HG. injection HG as <-. done. }
        split; [by apply EE|]. simpl. by rewrite lookup_delete_ne by (by apply not_eq_sym).
    + injection E as <- <- <-. split; [by exists ks|]. destruct K as [B Bs En Nm Ij To Fr].
      assert (X : forall G v, (G, v) ∈ fm' <-> (G, v) ∈ fm).
      { intros G w. rewrite Hfm. split; [by intros [? _]|]. intros HI. split; [done|]. intros FG.
        assert (K : kinv c base vars A m fm) by (by constructor).
        assert (maps_to c fm F w) as M by (by exists G).
        apply (find_known base p ks s vars A m fm x F Hc Hk K Hcn HF w) in M as (e&Ee&_). congruence. }
      constructor; try done.
      * intros e He. destruct (To e He) as (G&HG&HI). exists G. by rewrite X.
      * intros G w HI. rewrite X in HI. by apply Fr.
  - destruct IH as [[ks Hk] K]. injection E as <- <- <-. split; [by exists ks|].
    destruct (new_bok k) as [B0 C0]. destruct (add_entries_ok (entries m) _ B0) as [B P].
    rewrite C0, app_nil_r in P. destruct K as [_ Bs En Nm Ij To Fr].
    assert (EE : forall e, e ∈ entries (um_rehash m k) <-> e ∈ entries m) by (intros e; unfold entries at 1; simpl; by rewrite P).
    constructor; try done.
    + intros e He. apply En. by apply EE.
    + unfold entries at 1. simpl. rewrite P. done.
    + intros e e' He He'. apply Ij; by apply EE.
    + intros e He. apply To. by apply EE.
    + intros F v HI. destruct (Fr F v HI) as (e&He&R). exists e. split; [by apply EE|done].
Qed.

End main.
