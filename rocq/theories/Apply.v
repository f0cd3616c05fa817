(** * apply *)

From stdpp Require Import gmap list.
From Coq Require Import ZArith Lia.
From Verif Require Import Base Ops Tables NodeManager Tools Sift DiagramManager.
From Verif Require Import Heap Inv InvLemmas Prim TabLemmas GC Make Build.

Local Open Scope nat_scope.

(** what the operator must satisfy on the values of the operands: both are
    ordinary values, the result can be stored, and a short-circuit answer (one
    or both arguments not known yet) agrees with the answer for the values *)
Definition good_op (c : cfg) (o : opc) (x y : Z) : Prop :=
  x <> Nondet /\ y <> Nondet /\ tval c (op_fun o x y) /\
  (op_fun o Nondet y <> Nondet -> op_fun o Nondet y = op_fun o x y) /\
  (op_fun o x Nondet <> Nondet -> op_fun o x Nondet = op_fun o x y) /\
  (op_fun o Nondet Nondet <> Nondet -> op_fun o Nondet Nondet = op_fun o x y) /\
  (c_trap c = true -> op_ovf o x y = false /\ op_ovf o Nondet y = false /\
     op_ovf o x Nondet = false /\ op_ovf o Nondet Nondet = false).

Lemma op_comm_ok o x y : op_comm o = true -> op_fun o x y = op_fun o y x.
Proof.
  intros H. destruct o; simpl in *; try discriminate;
    rewrite ?(Z.min_comm y x), ?(Z.max_comm y x), ?(Z.lor_comm y x), ?(Z.lxor_comm y x),
      ?(Z.add_comm y x), ?(Z.mul_comm y x), ?(Z.eqb_sym y x); try reflexivity.
  by rewrite orb_comm.
Qed.

Lemma tval_not_Nondet c v : tval c v -> v <> Nondet.
Proof. unfold tval, Undef, Nondet. lia. Qed.

Section apply.
Context (c : cfg) (opsem : Z -> option (Z -> Z -> Z)) (strict : bool).
Notation rank := (rank c).
Notation WF := (WF c opsem strict).
Notation sstep := (sstep c opsem strict).
Notation bstep := (bstep c opsem strict).
Notation allowed := (allowed strict).

(** the pointwise combination of two nodes *)
Definition lifted (L : positive -> option body) (f : Z -> Z -> Z) (l r : positive) : asg -> Z -> Prop :=
  fun rho v => exists x y, Ev L l rho x /\ Ev L r rho y /\ v = f x y.

Lemma cache_find_spec ok g o l r s :
  WF g s -> quiet g -> g_cm g = CValid -> opsem (op_id o) = Some (op_fun o) ->
  wp ok (cache_find c (op_id o) (op_comm o) l r) (fun res s' =>
    match res with
    | Some a => bstep g s s' (Nat.min (rank g (s_heap s) l) (rank g (s_heap s) r)) a
                  (lifted (live (s_heap s)) (op_fun o) l r)
    | None => s' = s
    end) s.
Proof.
  intros W [Hdy Hfl] Hcm Hop. unfold cache_find.
  destruct (order_args c (op_comm o) l r) as [l' r'] eqn:Eo.
  assert (Hswap : (l' = l /\ r' = r) \/ (l' = r /\ r' = l /\ op_comm o = true)).
  { unfold order_args in Eo. destruct (op_comm o); simpl in Eo; [destruct (_ <? _)%N|]; simplify_eq; auto. }
  apply wp_bind, wp_gets. unfold cache_lookup.
  destruct (a_ents (s_cache s) !! _) as [[e|]|] eqn:Ee; try (by apply wp_ret).
  destruct ((e_op e =? op_id o)%Z && bool_decide (e_l e = l') && bool_decide (e_r e = r')) eqn:Et;
    [|by apply wp_ret].
  apply andb_true_iff in Et as [[Et1%Z.eqb_eq Et2%bool_decide_eq_true]%andb_true_iff Et3%bool_decide_eq_true].
  destruct (wf_cache _ _ _ _ _ W) as (_&_&Hc). rewrite Hcm in Hc.
  destruct (Hc _ _ Ee) as (Hl&Hr&Hres&Hrk&Hev). rewrite Et2, Et3 in *.
  apply wp_bind. apply (wp_mark c opsem strict g); [done|done|by rewrite Hdy; set_solver|].
  intros h1 s1 S1 M1 R1 Mk. apply wp_ret. constructor.
  - done.
  - by apply root_held.
  - simpl s_heap; rewrite (rank_ext c g (s_heap s) h1) by (apply hrel_live; by apply mrel_hrel).
    destruct Hswap as [[-> ->]|(->&->&_)]; lia.
  - intros rho v Hv (x&y&Hx&Hy&->).
    eapply Ev_ext; [intros b; apply hrel_live; by apply mrel_hrel|].
    specialize (Hev (op_fun o)). rewrite Et1 in Hev. specialize (Hev Hop rho).
    destruct Hswap as [[-> ->]|(->&->&Hcomm)]; [by apply Hev|].
    rewrite op_comm_ok by done. by apply Hev.
  - intros d Hd. by apply Mk.
  - intros d x. simpl. rewrite (hrel_live (s_heap s)); [by left|by apply mrel_hrel].
Qed.

Lemma cache_put_spec ok g o l r s0 s k a :
  WF g s0 -> g_cm g = CValid -> opsem (op_id o) = Some (op_fun o) ->
  held g (s_heap s0) l -> held g (s_heap s0) r ->
  Nat.min (rank g (s_heap s0) l) (rank g (s_heap s0) r) <= k -> g_dy g = [] ->
  bstep g s0 s k a (lifted (live (s_heap s0)) (op_fun o) l r) ->
  wp ok (let* _ := cache_put c (op_id o) (op_comm o) a l r in ret a)
    (fun a s' => bstep g s0 s' k a (lifted (live (s_heap s0)) (op_fun o) l r)) s.
Proof.
  intros W Hcm Hop Hl Hr Hrk Hdy B. unfold cache_put.
  destruct (order_args c (op_comm o) l r) as [l' r'] eqn:Eo.
  assert (Hswap : (l' = l /\ r' = r) \/ (l' = r /\ r' = l /\ op_comm o = true)).
  { unfold order_args in Eo. destruct (op_comm o); simpl in Eo; [destruct (_ <? _)%N|]; simplify_eq; auto. }
  apply wp_bind, wp_modify, wp_ret.
  pose proof (bs_step _ _ _ _ _ _ _ _ _ B) as S. pose proof (ss_keeps _ _ _ _ _ _ S) as K.
  pose proof (ss_wf _ _ _ _ _ _ S) as W1.
  pose proof (bs_held _ _ _ _ _ _ _ _ _ B) as Ha. pose proof (bs_rank _ _ _ _ _ _ _ _ _ B) as Hra.
  destruct (K l Hl) as [Hl1 _]. destruct (K r Hr) as [Hr1 _].
  eapply bstep_after; [exact B| |by auto|done].
  constructor; [|apply keeps_refl|by repeat split|by apply grown_same].
  apply WF_set_cache; [done|].
  destruct (cache_insert_fields c (s_cache s) (op_id o) a l' r') as (F1&F2&F3).
  destruct (wf_cache _ _ _ _ _ W1) as (C1&C2&C3). rewrite Hcm in C3.
  split_and!; [by rewrite F1|by rewrite F1, F2|]. rewrite Hcm.
  intros j e He. destruct (F3 j e He) as [He'| ->]; [by eapply C3|]. simpl.
  pose proof (keeps_rank c g _ _ _ K Hl) as El. pose proof (keeps_rank c g _ _ _ K Hr) as Er.
  split_and!.
  - destruct Hswap as [[-> _]|(->&_&_)]; by eapply held_live.
  - destruct Hswap as [[_ ->]|(_&->&_)]; by eapply held_live.
  - by eapply held_live.
  - simpl. destruct Hswap as [[-> ->]|(->&->&_)]; lia.
  - simpl. intros f Hf rho x y Hv Hx Hy. assert (f = op_fun o) as -> by congruence.
    apply (bs_ev _ _ _ _ _ _ _ _ _ B); [done|].
    destruct Hswap as [[-> ->]|(->&->&Hcomm)].
    + exists x, y. split_and!; [by eapply keeps_Ev_inv..|done].
    + exists y, x. split_and!; [by eapply keeps_Ev_inv..|by apply op_comm_ok].
Qed.

Lemma term_val_spec c' g s a n rho x :
  valid c' rho -> s_heap s !! a = Some n -> n_used n = true -> Ev (live (s_heap s)) a rho x ->
  WF g s ->
  (term_val n = x /\ rank g (s_heap s) a = nvars c) \/
  (term_val n = Nondet /\ exists i sons, live (s_heap s) a = Some (Int i sons)).
Proof.
  intros Hv Hn U Hx W. pose proof (live_of _ _ _ Hn U) as L. unfold term_val.
  destruct (n_body n) as [v|i sons] eqn:E; [|right; eauto].
  left. inversion Hx; simplify_eq. split; [done|].
  destruct (wf_node _ _ _ _ _ W a _ L) as [_ Hfl].
  unfold Inv.rank. rewrite decide_False by done. by rewrite L.
Qed.

Lemma apply_impl_spec o (Hc : wf_cfg c) (Hop : opsem (op_id o) = Some (op_fun o)) fuel :
  forall g l r s,
  WF g s -> quiet g -> g_cm g = CValid -> ord c g s ->
  held g (s_heap s) l -> held g (s_heap s) r ->
  (forall rho x y, valid c rho -> Ev (live (s_heap s)) l rho x -> Ev (live (s_heap s)) r rho y ->
     good_op c o x y) ->
  nvars c - Nat.min (rank g (s_heap s) l) (rank g (s_heap s) r) < fuel ->
  wp allowed (apply_impl c fuel o l r) (fun a s' =>
    bstep g s s' (Nat.min (rank g (s_heap s) l) (rank g (s_heap s) r)) a
      (lifted (live (s_heap s)) (op_fun o) l r)) s.
Proof.
  induction fuel as [|fuel IH]; intros g l r s W Hq Hcm O Hl Hr Hgood Hf; [lia|].
  cbn [apply_impl]. apply wp_bind. eapply wp_mono; [by apply (cache_find_spec allowed g o l r s)|].
  intros [a|] s1 H1; [by apply wp_ret|]. subst s1.
  destruct (held_live _ _ _ _ _ _ W Hl) as [Ll Ld]. destruct (held_live _ _ _ _ _ _ W Hr) as [Lr Lrd].
  apply live_not_None in Ll as (ln&Hln&Uln). apply live_not_None in Lr as (rn&Hrn&Urn).
  apply wp_bind. eapply wp_getn; [done..|]. apply wp_bind. eapply wp_getn; [done..|].
  pose proof (live_of _ _ _ Hln Uln) as Ll. pose proof (live_of _ _ _ Hrn Urn) as Lr.
  (* values at some assignment *)
  assert (Hany : forall rho, valid c rho -> exists x y, Ev (live (s_heap s)) l rho x /\
     Ev (live (s_heap s)) r rho y /\ good_op c o x y).
  { intros rho Hv. destruct (Ev_total _ _ _ g s l rho W) as (x&Hx&_); [by rewrite Ll|done|done|].
    destruct (Ev_total _ _ _ g s r rho W) as (y&Hy&_); [by rewrite Lr|done|done|]. exists x, y. split_and!; eauto. }
  assert (Hval : op_fun o (term_val ln) (term_val rn) <> Nondet -> forall rho x y, valid c rho ->
    Ev (live (s_heap s)) l rho x -> Ev (live (s_heap s)) r rho y ->
    op_fun o (term_val ln) (term_val rn) = op_fun o x y).
  { intros Hn rho x y Hv Hx Hy. destruct (Hgood rho x y Hv Hx Hy) as (_&_&_&G1&G2&G3&_).
    destruct (term_val_spec c g s l ln rho x Hv Hln Uln Hx W) as [[E1 _]|[E1 _]];
    destruct (term_val_spec c g s r rn rho y Hv Hrn Urn Hy W) as [[E2 _]|[E2 _]];
      rewrite E1, E2 in *; auto. }
  unfold run_op. destruct (Hany (fun _ => 0) (valid_ex c Hc)) as (x0&y0&Hx0&Hy0&G0).
  assert (Ht : c_trap c && op_ovf o (term_val ln) (term_val rn) = false).
  { destruct (c_trap c) eqn:Et; [|done]. simpl.
    destruct G0 as (_&_&_&_&_&_&Hov). destruct (Hov Et) as (O1&O2&O3&O4).
    destruct (term_val_spec c g s l ln _ x0 (valid_ex c Hc) Hln Uln Hx0 W) as [[E1 _]|[E1 _]];
    destruct (term_val_spec c g s r rn _ y0 (valid_ex c Hc) Hrn Urn Hy0 W) as [[E2 _]|[E2 _]];
      rewrite E1, E2; auto. }
  rewrite Ht. apply wp_bind, wp_ret.
  pose proof (rank_le _ _ _ g s l W) as Rl. pose proof (rank_le _ _ _ g s r W) as Rr.
  rewrite Ll in Rl. rewrite Lr in Rr. specialize (Rl ltac:(done)). specialize (Rr ltac:(done)).
  destruct (op_fun o (term_val ln) (term_val rn) =? Nondet)%Z eqn:Ev0; simpl.
  - (* recursion *)
    apply Z.eqb_eq in Ev0.
    apply wp_bind. apply (get_level_spec c opsem strict allowed g); try done; [by rewrite Ll|].
    apply wp_bind. apply (get_level_spec c opsem strict allowed g); try done; [by rewrite Lr|].
    set (top := Nat.min (rank g (s_heap s) l) (rank g (s_heap s) r)) in *.
    assert (Htop : top < nvars c).
    { destruct (term_val_spec c g s l ln _ x0 (valid_ex c Hc) Hln Uln Hx0 W) as [[E1 _]|[E1 (i&sons&E)]].
      2:{ destruct (wf_node _ _ _ _ _ W l _ E) as (_&_&?&_). lia. }
      destruct (term_val_spec c g s r rn _ y0 (valid_ex c Hc) Hrn Urn Hy0 W) as [[E2 _]|[E2 (i&sons&E)]].
      2:{ destruct (wf_node _ _ _ _ _ W r _ E) as (_&_&?&_). lia. }
      exfalso. rewrite E1, E2 in Ev0. destruct G0 as (_&_&Ht0&_). by eapply tval_not_Nondet. }
    destruct (perm_l2i_ex c s top (ord_perm _ _ _ O) Htop) as (i&Hi&Hin).
    apply wp_bind. eapply wp_index_at; [done|].
    assert (Elv : g_lv g i = top).
    { pose proof (proj2 O i Hin) as E. apply (pm_inv _ _ (ord_perm _ _ _ O)) in Hi. congruence. }
    set (F := fun k rho v => rho i = k /\ lifted (live (s_heap s)) (op_fun o) l r rho v).
    apply wp_bind. eapply wp_mono.
    { apply (wp_mapM allowed _ (fun acc s1 => bres c opsem strict g s s1 (g_lv g i) acc F)).
      2:{ by apply bres_nil. }
      intros k k' acc s1 Hk Hacc B.
      apply lookup_seq in Hk as [-> Hk]. simpl.
      pose proof (br_step _ _ _ _ _ _ _ _ _ B) as S.
      apply wp_bind. rewrite <- Elv at 1.
      apply (descend_spec c opsem strict allowed g s s1 l i k); try done; [lia|].
      intros l' Hl' Hrl' Ul Dl _. apply wp_bind. rewrite <- Elv at 1.
      apply (descend_spec c opsem strict allowed g s s1 r i k); try done; [lia|].
      intros r' Hr' Hrr' Ur Dr _.
      pose proof (ss_keeps _ _ _ _ _ _ S) as K.
      pose proof (keeps_rank c g _ _ _ K Hl') as El. pose proof (keeps_rank c g _ _ _ K Hr') as Er.
      eapply wp_mono.
      { apply (IH g l' r' s1); try done; [apply S|by eapply ord_sstep|by apply K|by apply K| |].
        - intros rho x y Hv Hx Hy.
          apply (Hgood (upd rho i k)); [by apply valid_upd| |].
          + apply Ul. by eapply keeps_Ev_inv.
          + apply Ur. by eapply keeps_Ev_inv.
        - rewrite El, Er. lia. }
      intros a s2 B2. eapply bres_snoc; [exact B|]. eapply bstep_weaken; [exact B2|lia|].
      intros rho v Hv [Hrho (x&y&Hx&Hy&->)]. rewrite Hacc in Hrho.
      exists x, y. split_and!; [eapply keeps_Ev; eauto..|done]. }
    intros acc s1 [B Hlen]. rewrite seq_length in Hlen.
    pose proof (br_step _ _ _ _ _ _ _ _ _ B) as S.
    apply wp_bind. eapply wp_mono.
    { apply (bres_make c opsem strict g s s1 i acc F); try done. by eapply ord_sstep. }
    intros a s2 [B2 _]. apply (cache_put_spec allowed g o l r s s2 top a); try done; [by destruct Hq|].
    eapply bstep_weaken; [exact B2|lia|]. intros rho v Hv Hlft. by split.
  - (* terminal *)
    apply Z.eqb_neq in Ev0. apply wp_bind. eapply wp_mono.
    { apply (bstep_terminal c opsem strict g s); try done.
      rewrite (Hval Ev0 (fun _ => 0) x0 y0); [apply G0|by apply valid_ex|done|done]. }
    intros a s1 B. apply (cache_put_spec allowed g o l r s s1 (Nat.min (rank g (s_heap s) l) (rank g (s_heap s) r)) a); try done; [by destruct Hq|].
    eapply bstep_weaken; [exact B|lia|]. intros rho v Hv (x&y&Hx&Hy&->). symmetry. by eapply Hval.
Qed.

End apply.
