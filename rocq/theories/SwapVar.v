(** * Swapping two adjacent variables *)

From stdpp Require Import gmap list.
From Coq Require Import ZArith Lia.
From Verif Require Import Base Ops Tables NodeManager Tools Sift.
From Verif Require Import Heap Inv InvLemmas Prim TabLemmas GC Make Build SwapProof SwapNode.

Local Open Scope nat_scope.

Section swap.
Context (c : cfg) (opsem : Z -> option (Z -> Z -> Z)) (strict : bool).
Notation rank := (rank c).
Notation WF := (WF c opsem strict).
Notation mid := (mid c opsem strict).
Notation nstep := (nstep c opsem strict).
Notation allowed := (allowed strict).

(** ** All the nodes of a table *)

(** effect on the diagrams that are referenced *)
Record rstep (g : ghost) (s s' : st) : Prop := {
  rs_same : same_order s s';
  rs_funs : forall r rho v, 0 < g_ext g r \/ r ∈ g_fl g -> valid c rho ->
    Ev (live (s_heap s)) r rho v -> Ev (live (s_heap s')) r rho v;
  rs_marks : forall d, marked (s_heap s') d -> marked (s_heap s) d
}.

Lemma rstep_refl g s : rstep g s s.
Proof. constructor; [apply same_order_refl|auto|auto]. Qed.
Lemma rstep_trans g s1 s2 s3 : rstep g s1 s2 -> rstep g s2 s3 -> rstep g s1 s3.
Proof. intros [] []. constructor; [by eapply same_order_trans|eauto|eauto]. Qed.

Lemma mid_same x y l g s s' : mid x y l g s -> WF g s' -> same_order s s' -> mid x y l g s'.
Proof.
  intros [] W O. pose proof (perm_same_order c s s' O md_perm). destruct O as (E1&E2&_).
  constructor; try done; rewrite ?E1, ?E2; done.
Qed.

Lemma swap_nodes_spec x y l g : 0 < dom c x -> 0 < dom c y -> forall todo s,
  mid x y l g s -> NoDup todo -> (forall a, a ∈ todo -> a ∈ g_fl g /\ sep x (s_heap s) a) ->
  (forall a, a ∈ g_fl g -> a ∉ todo -> sep y (s_heap s) a) ->
  wp allowed (mapM_ (swap_node_with_next c) todo) (fun _ s' =>
    mid x y l g s' /\ rstep g s s' /\ forall a, a ∈ g_fl g -> sep y (s_heap s') a) s.
Proof.
  intros Hdx Hdy. induction todo as [|a todo IH]; intros s Hm Hnd Htodo Hdone; simpl.
  - apply wp_ret. split_and!; [done|apply rstep_refl|]. intros a Ha. apply Hdone; [done|]. set_solver.
  - apply wp_bind. inversion Hnd as [|? ? Hna Hnd']; subst.
    destruct (Htodo a) as [Hfa Hsa]; [set_solver|].
    eapply wp_mono; [by apply (swap_node_spec c opsem strict x y l g s a)|].
    intros _ s1 [[W1 O1 T1 F1 M1] Hya].
    assert (Hsep : forall z b, b ∈ g_fl g -> b <> a -> sep z (s_heap s) b -> sep z (s_heap s1) b).
    { intros z b Hb Hba (sons&Hs&Hd). destruct (T1 b Hb Hba) as [E1 E2]. exists sons.
      split; [by rewrite E1|]. intros d ss Hds. rewrite (E2 z sons d Hs Hds). eauto. }
    eapply wp_mono.
    + apply IH; try done.
      * by eapply mid_same.
      * intros b Hb. destruct (Htodo b) as [Hfb Hsb]; [set_solver|]. split; [done|]. apply Hsep; [done| |done].
        by intros ->.
      * intros b Hb Hnb. destruct (decide (b = a)) as [->|Hne]; [done|]. apply Hsep; [done|done|].
        apply Hdone; [done|]. set_solver.
    + intros _ s2 (Hm2&R2&Hall). split_and!; try done. eapply rstep_trans; [|exact R2]. by constructor.
Qed.

(** ** The swap *)

(** reordering keeps an empty cache empty, nothing else is known about the cache *)
Definition weak_cm (m : cmode) : cmode := match m with CEmpty => CEmpty | _ => CNone end.

Lemma weak_cm_idem m : weak_cm (weak_cm m) = weak_cm m.
Proof. by destruct m. Qed.
Lemma weak_cm_ne m : weak_cm m <> CValid.
Proof. by destruct m. Qed.

Lemma cache_ok_weak g g' h h' ac :
  g_cm g' = weak_cm (g_cm g) -> cache_ok c opsem g h ac -> cache_ok c opsem g' h' ac.
Proof. intros E (H1&H2&H3). split_and!; [done|done|]. rewrite E. by destruct (g_cm g). Qed.


Record vstep (g g' : ghost) (s s' : st) : Prop := {
  vs_wf : WF g' s';
  vs_quiet : quiet g';
  vs_ext : g_ext g' = g_ext g;
  vs_ord : ord c g' s';
  vs_cm : g_cm g' = weak_cm (g_cm g);
  vs_cn : g_cn g' = false;
  vs_funs : forall r rho v, 0 < g_ext g r -> valid c rho ->
    Ev (live (s_heap s)) r rho v -> Ev (live (s_heap s')) r rho v;
  vs_marks : forall d, marked (s_heap s') d -> marked (s_heap s) d;
  vs_gcthr : s_gcthr s' = s_gcthr s;
  vs_cratio : s_cratio s' = s_cratio s;
  vs_auto : s_auto s' = s_auto s;
  vs_defer : s_auto s = false -> s_defer s' = s_defer s
}.

Lemma vstep_trans g1 g2 g3 s1 s2 s3 : vstep g1 g2 s1 s2 -> vstep g2 g3 s2 s3 -> vstep g1 g3 s1 s3.
Proof.
  intros A B. pose proof (vs_ext _ _ _ _ A) as E. destruct A, B. constructor; try done; try congruence.
  - rewrite vs_cm1, vs_cm0. apply weak_cm_idem.
  - intros r rho v Hr Hv H. apply vs_funs1; [by rewrite E|done|]. by apply vs_funs0.
  - auto.
  - intros Hau. rewrite vs_defer1, vs_defer0; congruence.
Qed.

(** forgetting what reordering does not maintain *)
Definition g_weak (g : ghost) : ghost := Ghost (g_ext g) (g_dy g) (g_fl g) (g_flr g) (g_lv g) (weak_cm (g_cm g)) false.

Lemma WF_weak g s : WF g s -> WF (g_weak g) s.
Proof.
  intros []. constructor; simpl; try done. by apply (cache_ok_weak g _ (s_heap s)).
Qed.

Lemma vstep_refl g s : WF g s -> quiet g -> ord c g s -> vstep g (g_weak g) s s.
Proof. intros W Hq O. constructor; try done. by apply WF_weak. Qed.

Lemma swap_variable_spec g s x y l :
  WF g s -> quiet g -> ord c g s -> s_i2l s !! x = Some l -> s_l2i s !! (S l) = Some y ->
  (forall i, i < nvars c -> 0 < dom c i) ->
  wp allowed (swap_variable_with_next c x) (fun _ s' => exists g', vstep g g' s s' /\
    s_l2i s' = <[l := y]> (<[S l := x]> (s_l2i s)) /\
    s_i2l s' = alter S x (alter Nat.pred y (s_i2l s))) s.
Proof.
  intros W [Hdy Hfl] [P O] Hx Hy Hdom.
  pose proof (WF_weak g s W) as W0.
  assert (Hyl : s_i2l s !! y = Some (S l)) by (by apply (pm_inv _ _ P)).
  assert (Hxl : s_l2i s !! l = Some x) by (by apply (pm_inv _ _ P)).
  pose proof (perm_l2i_lt c s l x P Hxl) as Hxn. pose proof (perm_l2i_lt c s (S l) y P Hy) as Hyn.
  pose proof (perm_i2l_lt c s (S l) y P Hyl) as Hln.
  assert (Hxy : x <> y) by (intros ->; rewrite Hx in Hyl; simplify_eq; lia).
  assert (Lx : g_lv g x = l) by (specialize (O x Hxn); congruence).
  assert (Ly : g_lv g y = S l) by (specialize (O y Hyn); congruence).
  assert (Lz : forall z, z < nvars c -> z <> x -> z <> y -> g_lv g z <> l /\ g_lv g z <> S l).
  { intros z Hz Hzx Hzy. specialize (O z Hz). apply (pm_inv _ _ P) in O.
    split; intros E; rewrite E in O; congruence. }
  unfold swap_variable_with_next. apply wp_bind. eapply wp_level_of_index; [exact Hx|].
  apply wp_bind. eapply wp_index_at; [exact Hy|]. apply wp_bind.
  destruct (lookup_lt_is_Some_2 (s_tabs s) x) as [tmp Htmp]; [by rewrite (wf_ntabs _ _ _ _ _ W)|].
  destruct (lookup_lt_is_Some_2 (s_tabs s) y) as [ty Hty]; [by rewrite (wf_ntabs _ _ _ _ _ W)|].
  eapply wp_of_opt; [exact Htmp|]. apply wp_bind, wp_modify.
  set (s1 := set_tabs (alter tab_clear x (s_tabs s)) s).
  set (fl := tab_nodes tmp).
  pose proof (wf_tab _ _ _ _ _ W0 x tmp Htmp) as Ttmp. apply tab_ok_tabP in Ttmp as [PT ST].
  assert (Hflx : forall a, a ∈ fl <-> exists sons, live (s_heap s) a = Some (Int x sons)).
  { intros a. unfold fl, tab_nodes. rewrite (tabP_elem _ _ _ a PT). unfold inTab. simpl. rewrite Hfl.
    split; [by intros [_ ?]|]. intros H. split; [set_solver|done]. }
  assert (Hflnd : NoDup fl) by (by eapply tabP_NoDup).
  set (lv1 := fun z => if decide (z = x) then S l else g_lv g z).
  set (gm := Ghost (g_ext g) [] fl l lv1 (weak_cm (g_cm g)) false).
  assert (Hrk : forall d, rank gm (s_heap s) d = rank (g_weak g) (s_heap s) d).
  { intros d. unfold Inv.rank. simpl. rewrite Hfl, (decide_False (P:=d ∈ [])) by set_solver.
    destruct (decide (d ∈ fl)) as [Hd|Hd].
    - apply Hflx in Hd as [sons ->]. by rewrite Lx.
    - destruct (live (s_heap s) d) as [[v|z ss]|] eqn:E; try done. unfold lv1.
      destruct (decide (z = x)) as [->|]; [|done]. contradiction Hd. apply Hflx. eauto. }
  assert (W1 : WF gm s1).
  { destruct W0. simpl in *. constructor; simpl; try done.
    - intros d b Hb. specialize (wf_node d b Hb). destruct b as [v|z ss]; simpl in *.
      + split; [apply wf_node|]. intros Hd. apply Hflx in Hd as [? ?]. congruence.
      + rewrite Hrk. destruct wf_node as (?&?&?&Hs). split_and!; try done. intros _ e He.
        rewrite Hrk. apply Hs; [rewrite Hdy; set_solver|done].
    - intros a Ha. apply Hflx in Ha as [? ?]. eauto.
    - intros z Hz. unfold lv1. destruct (decide (z = x)); [lia|]. by apply wf_lv.
    - by rewrite alter_length.
    - intros z t Ht. apply tab_ok_tabP. destruct (decide (z = x)) as [->|Hne].
      + rewrite list_lookup_alter, Htmp in Ht. simpl in Ht. injection Ht as <-.
        specialize (wf_tab x tmp Htmp) as (Hcap&_).
        split; [|unfold tab_clear; rewrite tlen_empty; done].
        eapply tabP_ext; [| |apply (tabP_empty (keyh c (s_heap s)) (t_cap tmp) 0%Z Hcap)]; [|done].
        intros d. split; [done|]. intros [Hd Hs]. apply Hd, Hflx. done.
      + rewrite list_lookup_alter_ne in Ht by done. specialize (wf_tab z t Ht). apply tab_ok_tabP in wf_tab as [T1 T2].
        split; [|done]. eapply tabP_ext; [| |exact T1]; [|done]. intros d. unfold inTab. simpl. rewrite Hfl.
        split.
        * intros [_ (ss&Hs)]. split; [|eauto]. intros Hd. apply Hflx in Hd as [? ?]. congruence.
        * intros [_ (ss&Hs)]. split; [set_solver|eauto].
    - intros d n Hd U _. rewrite (wf_refs d n Hd U) by (rewrite Hdy; set_solver). by rewrite Hdy.
    - intros d Hd. split; [by apply wf_ext|set_solver].
    - set_solver.
    - apply (cache_ok_weak (g_weak g) gm (s_heap s)); [simpl; by rewrite weak_cm_idem|done]. }
  assert (Hm1 : mid x y l gm s1).
  { constructor; simpl; try done.
    - apply weak_cm_ne.
    - unfold lv1. by rewrite decide_True.
    - unfold lv1. rewrite decide_False by congruence. done.
    - intros z Hz Hzx Hzy. unfold lv1. rewrite decide_False by done. by apply Lz.
    - by eapply perm_same; [| |exact P]. }
  apply wp_bind. eapply wp_mono.
  { apply (swap_nodes_spec x y l gm); [by apply Hdom|by apply Hdom|exact Hm1|exact Hflnd| |].
    - intros a Ha. split; [exact Ha|]. apply Hflx in Ha as [sons Hs]. exists sons. split; [exact Hs|].
      intros d ss Hd Hds. change (live (s_heap s) d = Some (Int x ss)) in Hds.
      destruct (wf_son _ _ _ _ _ a x sons d W Hs) as (_&Hr&_); [rewrite Hdy; set_solver|done|].
      unfold Inv.rank in Hr. rewrite Hfl, !decide_False, Hs, Hds in Hr by set_solver. lia.
    - intros a Ha Hn. contradiction. }
  intros _ s2 (Hm2&[O2 F2 M2]&Hall). destruct Hm2 as [W2 _ _ _ _ _ _ _ _ _ _ _ P2 I2 L2].
  destruct (lookup_lt_is_Some_2 (s_tabs s2) y) as [ty2 Hty2]; [by rewrite (wf_ntabs _ _ _ _ _ W2)|].
  apply wp_bind, wp_modify, wp_bind. eapply wp_of_opt; [simpl; rewrite list_lookup_alter_ne by done; exact Hty2|].
  apply wp_bind, wp_modify, wp_modify.
  set (s3 := set_l2i _ _).
  set (lv2 := fun z => if decide (z = y) then l else if decide (z = x) then S l else g_lv g z).
  set (gf := Ghost (g_ext g) [] [] 0 lv2 (weak_cm (g_cm g)) false).
  assert (Hh3 : s_heap s3 = s_heap s2) by done.
  assert (Hfy : forall a, a ∈ fl -> exists ss, live (s_heap s2) a = Some (Int y ss)).
  { intros a Ha. destruct (Hall a Ha) as (ss&Hs&_). eauto. }
  assert (Hrf : forall d, rank gf (s_heap s2) d =
    match live (s_heap s2) d with Some (Int z _) => lv2 z | _ => nvars c end).
  { intros d. unfold Inv.rank. rewrite decide_False by (simpl; set_solver). done. }
  assert (Hrm : forall d, rank gm (s_heap s2) d =
    if decide (d ∈ fl) then l else match live (s_heap s2) d with Some (Int z _) => lv1 z | _ => nvars c end) by done.
  assert (Hle : forall d, rank gf (s_heap s2) d <= rank gm (s_heap s2) d).
  { intros d. rewrite Hrf, Hrm. destruct (decide (d ∈ fl)) as [Hd|Hd].
    - destruct (Hfy d Hd) as [ss ->]. unfold lv2. by rewrite decide_True.
    - destruct (live (s_heap s2) d) as [[v|z ss]|]; try done. unfold lv2, lv1.
      destruct (decide (z = y)) as [->|]; [|destruct (decide (z = x)); done].
      rewrite decide_False by congruence. lia. }
  assert (W3 : WF gf s3).
  { destruct W2. simpl in *. constructor; rewrite ?Hh3; simpl; try done.
    - intros d b Hb. specialize (wf_node d b Hb). destruct b as [v|z ss]; simpl in *.
      + split; [apply wf_node|]. set_solver.
      + destruct wf_node as (Hz&Hlen&Hr&Hs). split_and!; try done; [specialize (Hle d); lia|].
        intros _ e He. destruct (Hs ltac:(set_solver) e He) as [Hle1 Hre]. split; [done|].
        destruct (decide (rank gf (s_heap s2) e = rank gm (s_heap s2) e)) as [->|Hne].
        { specialize (Hle d). lia. }
        (* a node labelled y that was not floating *)
        assert (Hey : e ∉ fl /\ exists es, live (s_heap s2) e = Some (Int y es)).
        { rewrite Hrf, Hrm in Hne. destruct (decide (e ∈ fl)) as [He'|He'].
          - destruct (Hfy e He') as [es Es]. rewrite Es in Hne. unfold lv2 in Hne. by rewrite decide_True in Hne.
          - split; [done|]. destruct (live (s_heap s2) e) as [[v|w es]|]; try done. unfold lv1, lv2 in Hne.
            destruct (decide (w = y)) as [->|]; [eauto|]. destruct (decide (w = x)); done. }
        destruct Hey as (Hefl&es&Hes).
        assert (Ere : rank gm (s_heap s2) e = S l).
        { rewrite Hrm, decide_False, Hes by done. unfold lv1. rewrite decide_False by congruence. done. }
        assert (Erf : rank gf (s_heap s2) e = l).
        { rewrite Hrf, Hes. unfold lv2. by rewrite decide_True. }
        rewrite Ere in Hre. rewrite Erf.
        destruct (decide (d ∈ fl)) as [Hd|Hd].
        { destruct (Hall d Hd) as (ds&Hds&Hno). rewrite Hb in Hds. injection Hds as -> ->. by destruct (Hno e es He). }
        rewrite Hrm, decide_False, Hb in Hre by done. rewrite Hrf, Hb. unfold lv1, lv2 in *.
        destruct (decide (z = y)) as [->|Hzy].
        { rewrite decide_False in Hre by congruence. lia. }
        destruct (decide (z = x)); [lia|]. destruct (Lz z); lia.
    - set_solver.
    - intros z Hz. unfold lv2. specialize (wf_lv z Hz). unfold lv1 in wf_lv.
      destruct (decide (z = y)); [lia|]. destruct (decide (z = x)); lia.
    - by rewrite !alter_length.
    - intros z t Ht. apply tab_ok_tabP.
      assert (Hin : forall w d, w <> y -> inTab gm (s_heap s2) w d <-> inTab gf (s_heap s2) w d).
      { intros w d Hw. unfold inTab. simpl. split; intros [_ (ss&Hs)]; (split; [|eauto]); [set_solver|].
        intros Hd. destruct (Hfy d Hd) as [? ?]. congruence. }
      destruct (decide (z = y)) as [->|Hzy].
      + rewrite list_lookup_alter in Ht. rewrite list_lookup_alter_ne in Ht by done.
        destruct (s_tabs s2 !! y) as [t2|] eqn:Et2; [|done]. simpl in Ht. injection Ht as <-.
        specialize (wf_tab y t2 Et2). apply tab_ok_tabP in wf_tab as [T1 T2].
        destruct (tab_merge_ok c (s_heap s2) (inTab gm (s_heap s2) y) (fun d => d ∈ fl) t2 tmp T1 Hflnd) as (H1&H2&H3).
        { done. }
        { intros a Ha [Hn _]. simpl in Hn. contradiction. }
        split; [|rewrite H2, H3, T2, ST; lia].
        eapply tabP_ext; [| |exact H1]; [|done]. intros d. unfold inTab. simpl. split.
        * intros [[_ ?]|Hd]; (split; [set_solver|done || by apply Hfy]).
        * intros [_ Hs]. destruct (decide (d ∈ fl)); [by right|by left].
      + rewrite list_lookup_alter_ne in Ht by done. destruct (decide (z = x)) as [->|Hzx].
        * rewrite list_lookup_alter in Ht. destruct (s_tabs s2 !! x) as [t2|] eqn:Et2; [|done]. simpl in Ht. injection Ht as <-.
          specialize (wf_tab x t2 Et2). apply tab_ok_tabP in wf_tab as [T1 T2].
          destruct (tab_adjust_ok c (s_heap s2) _ t2 T1) as (H1&H2&H3). split; [|by rewrite H2, H3].
          eapply tabP_ext; [| |exact H1]; [|done]. intros d. by apply Hin.
        * rewrite list_lookup_alter_ne in Ht by done. specialize (wf_tab z t Ht). apply tab_ok_tabP in wf_tab as [T1 T2].
          split; [|done]. eapply tabP_ext; [| |exact T1]; [|done]. intros d. by apply Hin.
    - set_solver.
    - apply (cache_ok_weak gm gf (s_heap s2)); [simpl; by rewrite weak_cm_idem|done]. }
  assert (E2 : s_l2i s2 = s_l2i s /\ s_i2l s2 = s_i2l s) by (destruct O2 as (?&?&_); done).
  destruct E2 as [El Ei].
  assert (El3 : s_l2i s3 = <[l := y]> (<[S l := x]> (s_l2i s))) by (simpl; by rewrite El).
  assert (Ei3 : s_i2l s3 = alter S x (alter Nat.pred y (s_i2l s))) by (simpl; by rewrite Ei).
  exists gf. split; [|done]. constructor; try done.
  - (* the order *)
    assert (Hi3 : forall i, s_i2l s3 !! i = if decide (i = x) then Some (S l) else if decide (i = y) then Some l else s_i2l s !! i).
    { intros i. rewrite Ei3. destruct (decide (i = x)) as [->|Hix].
      - rewrite list_lookup_alter, list_lookup_alter_ne, Hx by congruence. done.
      - rewrite list_lookup_alter_ne by done. destruct (decide (i = y)) as [->|].
        + rewrite list_lookup_alter, Hyl. done.
        + by rewrite list_lookup_alter_ne. }
    assert (Hlll : S l < length (s_l2i s)) by (by rewrite (pm_l2i _ _ P)).
    assert (Hl3 : forall j, s_l2i s3 !! j = if decide (j = l) then Some y else if decide (j = S l) then Some x else s_l2i s !! j).
    { intros j. rewrite El3. destruct (decide (j = l)) as [->|].
      - rewrite list_lookup_insert; [done|]. rewrite insert_length. lia.
      - rewrite list_lookup_insert_ne by done. destruct (decide (j = S l)) as [->|].
        + by rewrite list_lookup_insert.
        + by rewrite list_lookup_insert_ne. }
    split; [constructor|].
    + rewrite El3, !insert_length. apply P.
    + rewrite Ei3, !alter_length. apply P.
    + intros j i. rewrite Hi3, Hl3. pose proof (pm_inv _ _ P j i) as X. pose proof (pm_inv _ _ P l i) as Xl.
      pose proof (pm_inv _ _ P (S l) i) as Xs. pose proof (pm_inv _ _ P j x) as Xx. pose proof (pm_inv _ _ P j y) as Xy.
      destruct (decide (j = l)) as [->|Hj1], (decide (i = x)) as [->|Hi1].
      * split; intros E; simplify_eq. lia.
      * destruct (decide (i = y)) as [->|Hi2]; [done|]. split; intros E; simplify_eq.
        apply X in E. congruence.
      * destruct (decide (j = S l)) as [->|Hj2]; [done|]. split; intros E; simplify_eq.
        apply X in E. congruence.
      * destruct (decide (j = S l)) as [->|Hj2], (decide (i = y)) as [->|Hi2].
        -- split; intros E; simplify_eq.
        -- split; intros E; simplify_eq. apply X in E. congruence.
        -- split; intros E; simplify_eq. apply X in E. congruence.
        -- exact X.
    + intros i Hi. rewrite Hi3. simpl. unfold lv2. destruct (decide (i = x)) as [->|].
      * rewrite decide_False by done. done.
      * destruct (decide (i = y)); [done|]. by apply O.
  - intros r rho v Hr Hv HE. rewrite Hh3. apply F2; [by left|done|exact HE].
  - apply O2.
  - apply O2.
  - apply O2.
  - intros Ha. by apply O2.
Qed.

End swap.
