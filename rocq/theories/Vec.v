(** * from_vector, evaluate, to_vector *)

From stdpp Require Import gmap list.
From Coq Require Import ZArith Lia.
From Verif Require Import Base Ops Tables NodeManager Tools Sift DiagramManager.
From Verif Require Import Heap Inv InvLemmas Prim TabLemmas GC Make Build Apply Api VecSpec.

Local Open Scope nat_scope.

Lemma perm_l2i_NoDup c s : perm_ok c s -> NoDup (s_l2i s).
Proof.
  intros P. apply NoDup_alt. intros i j x Hi Hj.
  apply (pm_inv _ _ P) in Hi, Hj. congruence.
Qed.

Lemma perm_elem c s i : perm_ok c s -> i ∈ s_l2i s <-> i < nvars c.
Proof.
  intros P. split.
  - intros [l Hl]%elem_of_list_lookup. by eapply perm_l2i_lt.
  - intros Hi. destruct (perm_i2l_ex c s i P Hi) as (l&Hl&_). apply (pm_inv _ _ P) in Hl.
    by eapply elem_of_list_lookup_2.
Qed.

Lemma perm_seq c s : perm_ok c s -> s_l2i s ≡ₚ seq 0 (nvars c).
Proof.
  intros P. apply NoDup_Permutation; [by eapply perm_l2i_NoDup|apply NoDup_seq|].
  intros i. rewrite (perm_elem c s i P), elem_of_seq. lia.
Qed.

Lemma dom_prod_seq c l pre :
  c_doms c = pre ++ l -> dom_prod l = Z.of_nat (prodl c (seq (length pre) (length l))).
Proof.
  revert pre. induction l as [|d l IH]; intros pre E; [done|].
  cbn [length seq prodl]. rewrite Nat2Z.inj_mul.
  replace (S (length pre)) with (length (pre ++ [d])) by (rewrite app_length; simpl; lia).
  rewrite <- IH by (by rewrite <- app_assoc). unfold dom. rewrite E, app_nth2, Nat.sub_diag by lia. done.
Qed.

Lemma dom_prod_order c s : perm_ok c s -> dom_prod (c_doms c) = Z.of_nat (prodl c (s_l2i s)).
Proof.
  intros P. rewrite (prodl_perm c _ _ (perm_seq c s P)). by apply (dom_prod_seq c (c_doms c) []).
Qed.

Section vec.
Context (c : cfg) (opsem : Z -> option (Z -> Z -> Z)) (strict : bool).
Notation rank := (rank c).
Notation WF := (WF c opsem strict).
Notation sstep := (sstep c opsem strict).
Notation bstep := (bstep c opsem strict).
Notation bres := (bres c opsem strict).
Notation allowed := (allowed strict).
Notation calm := (calm c opsem strict).
Notation anew := (anew c opsem strict).

(** ** from_vector *)

Section fromvec.
Context (g : ghost) (s0 : st) (vs : list Z).
Context (Hc : wf_cfg c) (C : calm g s0).
Notation order := (s_l2i s0).

(** size of the block below level [l] *)
Definition blk (l : nat) : nat := prodl c (drop l order).

(** the values of the block that starts at [off] *)
Definition seg (l off : nat) : asg -> Z -> Prop :=
  fun rho v => vs !! (off + vec_index c (drop l order) rho) = Some v.

(** a frame of the stack *)
Definition frame_ok (s : st) (a : positive) (l off : nat) : Prop :=
  held g (s_heap s) a /\ l <= rank g (s_heap s) a /\
  forall rho v, valid c rho -> seg l off rho v -> Ev (live (s_heap s)) a rho v.

Lemma frame_ok_step s s' a l off : sstep g s s' -> frame_ok s a l off -> frame_ok s' a l off.
Proof.
  intros S (H1&H2&H3). pose proof (ss_keeps _ _ _ _ _ _ S) as K.
  split_and!; [by apply K|by rewrite (keeps_rank c g _ _ _ K H1)|]. intros. eapply keeps_Ev; eauto.
Qed.

(** frames of level [l], the last one on top (head) *)
Inductive run_ok (s : st) (l : nat) : list (positive * nat) -> nat -> nat -> Prop :=
| run_nil off : run_ok s l [] off off
| run_cons a fs off off' : run_ok s l fs off off' -> frame_ok s a l off' ->
    run_ok s l ((a, l) :: fs) off (off' + blk l).

(** stack after shrinking: below level [S l] fewer frames than the domain of level [l] *)
Inductive stack_ok (s : st) : nat -> list (positive * nat) -> nat -> Prop :=
| stack_0 : stack_ok s 0 [] 0
| stack_S l i fs st off off' :
    stack_ok s l st off -> order !! l = Some i -> length fs < dom c i ->
    run_ok s (S l) fs off off' -> stack_ok s (S l) (fs ++ st) off'.

Lemma run_len s l fs off off' : run_ok s l fs off off' -> off' = off + length fs * blk l.
Proof. induction 1; simpl; lia. Qed.

Lemma run_step s s' l fs off off' : sstep g s s' -> run_ok s l fs off off' -> run_ok s' l fs off off'.
Proof. intros S. induction 1; econstructor; eauto using frame_ok_step. Qed.

Lemma stack_step s s' l st off : sstep g s s' -> stack_ok s l st off -> stack_ok s' l st off.
Proof. intros S. induction 1; econstructor; eauto using run_step. Qed.

Lemma blk_S l i : order !! l = Some i -> blk l = dom c i * blk (S l).
Proof. intros H. unfold blk. by rewrite (drop_S order i l H). Qed.

Lemma stack_bound s l st off : stack_ok s l st off -> off + blk l <= blk 0.
Proof.
  induction 1 as [|l i fs st off off' _ IH Hi Hk Hr]; [lia|].
  rewrite (run_len _ _ _ _ _ Hr). rewrite (blk_S l i Hi) in IH. nia.
Qed.

Lemma stack_levels s l st off : stack_ok s l st off -> forall p, p ∈ st -> snd p <= l.
Proof.
  induction 1 as [|l i fs st off off' _ IH Hi Hk Hr]; intros p Hp; [set_solver|].
  apply elem_of_app in Hp as [Hp|Hp]; [|specialize (IH p Hp); lia].
  clear -Hr Hp. induction Hr; [set_solver|]. apply elem_of_cons in Hp as [->|Hp]; [simpl; lia|auto].
Qed.

Lemma run_length_run s l fs st off off' l' off2 :
  run_ok s (S l) fs off off' -> stack_ok s l st off2 -> l' = S l ->
  run_length l' (fs ++ st) = length fs.
Proof.
  intros H Hs ->. induction H as [off|a fs off off' _ IH]; simpl.
  - destruct st as [|[a l'] st']; [done|]. simpl.
    pose proof (stack_levels _ _ _ _ Hs (a, l') ltac:(set_solver)) as Hl. simpl in Hl.
    destruct (Nat.eqb_spec l' (S l)); [lia|done].
  - rewrite Nat.eqb_refl. by rewrite IH.
Qed.

Lemma stack_raise s l m st off : stack_ok s l st off -> l <= m -> m < nvars c -> stack_ok s m st off.
Proof.
  intros H Hlm. induction Hlm as [|m Hlm IH]; intros Hm; [done|].
  destruct (perm_l2i_ex c s0 m (ord_perm _ _ _ (cl_ord _ _ _ _ _ C)) ltac:(lia)) as (i&Hi&Hin).
  apply (stack_S s m i [] st off off); [apply IH; lia|done|apply (wc_dom _ Hc i Hin)|constructor].
Qed.

Lemma run_lookup s l fs off off' k a :
  run_ok s l fs off off' -> map fst (rev fs) !! k = Some a -> frame_ok s a l (off + k * blk l).
Proof.
  intros H. revert k a. induction H as [off|a fs off off' Hr IH Hf]; intros k b Hk; [done|].
  simpl in Hk. rewrite map_app in Hk. apply lookup_app_Some in Hk as [Hk|[Hk1 Hk2]]; [by apply IH|].
  simpl in Hk2. apply list_lookup_singleton_Some in Hk2 as [Hk2 <-].
  rewrite map_length, rev_length in *. rewrite (run_len _ _ _ _ _ Hr) in Hf.
  by replace k with (length fs) by lia.
Qed.

Lemma run_held s l fs off off' e : run_ok s l fs off off' -> e ∈ map fst fs -> held g (s_heap s) e.
Proof.
  induction 1 as [|a fs off off' _ IH Hf]; simpl; [set_solver|].
  intros [->|He]%elem_of_cons; [apply Hf|auto].
Qed.

Lemma stack_held s l st off e : stack_ok s l st off -> e ∈ map fst st -> held g (s_heap s) e.
Proof.
  induction 1 as [|l i fs st off off' _ IH _ _ Hr]; simpl; [set_solver|].
  rewrite map_app. intros [He|He]%elem_of_app; [by eapply run_held|auto].
Qed.

(** the marks and the nodes that are there beyond those of [s0] belong to the stack *)
Definition stack_marks (s : st) (st : list (positive * nat)) : Prop :=
  (forall d, marked (s_heap s) d -> marked (s_heap s0) d \/ d ∈ map fst st) /\
  (forall d x, live (s_heap s) d = Some x ->
     live (s_heap s0) d = Some x \/ exists e, e ∈ map fst st /\ reach (live (s_heap s)) e d).

Lemma shrink_spec fuel : forall l st off a s,
  l < fuel -> l < nvars c -> sstep g s0 s -> stack_ok s l st off -> frame_ok s a l off ->
  stack_marks s ((a, l) :: st) ->
  wp allowed (shrink_stack c fuel ((a, l) :: st)) (fun st' s' =>
    sstep g s0 s' /\ stack_marks s' st' /\
    ((exists a', st' = [(a', 0)] /\ off + blk l = blk 0 /\ frame_ok s' a' 0 0) \/
     stack_ok s' (nvars c - 1) st' (off + blk l))) s.
Proof.
  induction fuel as [|fuel IH]; intros l st off a s Hfuel Hl SS Hs Hf [Hm HN]; [lia|].
  cbn [shrink_stack]. destruct l as [|l].
  - apply wp_ret. inversion Hs; subst. split_and!; try done. left. exists a. done.
  - inversion Hs as [|l' i fs st0 off0 off' Hs0 Hi Hk Hr]; subst.
    assert (Hr1 : run_ok s (S l) ((a, S l) :: fs) off0 (off + blk (S l))) by (by constructor).
    change ((a, S l) :: fs ++ st0) with (((a, S l) :: fs) ++ st0) in *.
    set (F := (a, S l) :: fs) in *.
    rewrite (run_length_run s l F st0 off0 _ (S l) off0 Hr1 Hs0 eq_refl).
    destruct (ss_same _ _ _ _ _ _ SS) as (E1&_).
    apply wp_bind. eapply wp_index_at; [by rewrite E1|].
    destruct (Nat.ltb_spec (length F) (dom c i)) as [Hlt|Hge].
    { apply wp_ret. split_and!; try done. right.
      apply (stack_raise s (S l)); [|lia|lia]. by eapply stack_S. }
    assert (HlF : length F = dom c i) by (simpl in *; lia).
    rewrite <- HlF, take_app, drop_app. rewrite <- map_rev.
    set (sons := map fst (rev F)).
    assert (Hsl : length sons = dom c i) by (unfold sons; rewrite map_length, rev_length; done).
    assert (Hin : i < nvars c) by (eapply perm_l2i_lt; [apply (ord_perm _ _ _ (cl_ord _ _ _ _ _ C))|done]).
    assert (Elv : g_lv g i = l).
    { destruct (cl_ord _ _ _ _ _ C) as [P O]. pose proof (O i Hin) as E.
      apply (pm_inv _ _ P) in Hi. congruence. }
    assert (Hfr : forall k d, sons !! k = Some d -> frame_ok s d (S l) (off0 + k * blk (S l))).
    { intros k d Hkd. by eapply run_lookup. }
    pose proof (cl_quiet _ _ _ _ _ C) as Hq. pose proof Hq as [Hdy Hfl].
    apply wp_bind. eapply wp_mono.
    { apply (make_internal_node_spec c opsem strict g i sons s); try done.
      - apply SS.
      - eapply ord_perm, ord_sstep; [exact SS|apply C].
      - apply (wc_dom _ Hc i Hin).
      - intros d Hd. apply elem_of_list_lookup in Hd as [k Hk']. destruct (Hfr k d Hk') as (?&?&_).
        split; [done|lia]. }
    intros b s1 [S1 R Hh Hrk Mk Nw]. pose proof (ss_keeps _ _ _ _ _ _ S1) as K1.
    assert (Hfb : frame_ok s1 b l off0).
    { split_and!; [done|lia|]. intros rho v Hv Hseg.
      assert (Hri : rho i < dom c i) by auto.
      destruct (lookup_lt_is_Some_2 sons (rho i)) as [d Hd]; [lia|].
      destruct (Hfr _ _ Hd) as (Hhd&_&Hev).
      eapply repr_Ev; [done|done|]. eapply keeps_Ev; [done|done|]. apply Hev; [done|].
      unfold seg in *. rewrite (drop_S order i l Hi) in Hseg. simpl in Hseg. fold (blk (S l)) in Hseg.
      rewrite <- Hseg. f_equal. unfold blk. lia. }
    assert (Hlen : off + blk (S l) = off0 + blk l).
    { rewrite (run_len _ _ _ _ _ Hr1), HlF, (blk_S l i Hi). done. }
    rewrite Hlen. apply IH; [lia|lia|by eapply sstep_trans|by eapply stack_step|done|].
    assert (HsF : forall d, d ∈ map fst F -> d ∈ sons).
    { intros d Hd. unfold sons. rewrite map_rev. apply elem_of_list_In, in_rev. rewrite rev_involutive.
      by apply elem_of_list_In. }
    split.
    { intros d Hd. destruct (Mk d Hd) as [[Hd' Hns]| ->]; [|right; set_solver].
      destruct (Hm d Hd') as [?|Hin']; [by left|]. right.
      rewrite map_app in Hin'. apply elem_of_app in Hin' as [Hin'|Hin'].
      - exfalso. by apply Hns, HsF.
      - simpl. set_solver. }
    intros d x Hx. destruct (Nw d x Hx) as [Hx'| ->]; [|right; exists b; split; [set_solver|constructor]].
    destruct (HN d x Hx') as [?|(e&He&Hre)]; [by left|]. right.
    rewrite map_app in He. apply elem_of_app in He as [He|He].
    + apply HsF in He. apply elem_of_list_lookup in He as [k Hk']. destruct (Hfr k e Hk') as (Hhe&_).
      assert (reach (live (s_heap s1)) e d) by (by eapply keeps_reach). exists b. split; [set_solver|].
      apply elem_of_list_lookup_2 in Hk'. destruct R as [[_ Lr]|[_ Hall]]; [|by rewrite <- (Hall e Hk')].
      eapply reach_trans; [by eapply reach_son|done].
    + exists e. split; [simpl; set_solver|]. eapply keeps_reach; [done| |done].
      by eapply stack_held.
Qed.

Lemma loop_spec lasti fuel : forall n ws st s,
  nvars c <> 0 -> order !! (nvars c - 1) = Some lasti -> length ws < fuel ->
  vs = take n vs ++ ws -> n <= length vs -> length vs = blk 0 -> Forall (tval c) ws ->
  sstep g s0 s -> stack_marks s st ->
  ((exists a', st = [(a', 0)] /\ n = blk 0 /\ frame_ok s a' 0 0) \/
     stack_ok s (nvars c - 1) st n) ->
  wp allowed (from_vector_loop c fuel lasti ws st) (fun st' s' =>
    sstep g s0 s' /\ stack_marks s' st' /\ exists a', st' = [(a', 0)] /\ frame_ok s' a' 0 0) s.
Proof.
  induction fuel as [|fuel IH]; intros n ws st s Hn0 Hlast Hfuel Hvs Hnl Hlen Htv SS [Hm HN] Hst; [lia|].
  assert (0 < dom c lasti /\ lasti < nvars c) as [Hd Hin].
  { assert (lasti < nvars c) by (eapply perm_l2i_lt; [apply (ord_perm _ _ _ (cl_ord _ _ _ _ _ C))|done]).
    split; [|done]. by apply (wc_dom _ Hc). }
  assert (Hblast : blk (nvars c - 1) = dom c lasti).
  { rewrite (blk_S _ lasti Hlast). unfold blk. rewrite drop_ge; [simpl; lia|].
    rewrite (pm_l2i _ _ (ord_perm _ _ _ (cl_ord _ _ _ _ _ C))). lia. }
  assert (Hwn : length ws = blk 0 - n).
  { assert (length vs = length (take n vs ++ ws)) as E by (by rewrite <- Hvs).
    rewrite app_length, take_length in E. lia. }
  destruct ws as [|w ws].
  { cbn [from_vector_loop]. apply wp_ret. split_and!; try done.
    destruct Hst as [(a'&?&?&?)|Hst]; [by exists a'|].
    exfalso. pose proof (stack_bound _ _ _ _ Hst). simpl in *. lia. }
  destruct Hst as [(a'&?&?&?)|Hst]; [simpl in *; lia|].
  pose proof (stack_bound _ _ _ _ Hst) as Hb. rewrite Hblast in Hb.
  set (ws0 := w :: ws) in *. cbn [from_vector_loop]. change (from_vector_loop c (S fuel) lasti ws0 st) with
    (if (length ws0 <? dom c lasti)%nat then @fail (list (positive * nat)) EOob else
          let* sons := mapM (make_terminal_node c) (take (dom c lasti) ws0) in
          let* a := make_internal_node c lasti sons in
          let* stack := shrink_stack c (S (nvars c)) ((a, nvars c - 1)%nat :: st) in
          from_vector_loop c fuel lasti (drop (dom c lasti) ws0) stack).
  destruct (Nat.ltb_spec (length ws0) (dom c lasti)); [lia|].
  apply wp_bind.
  eapply wp_mono.
  { apply (wp_mapM allowed _ (fun acc s1 => bres g s s1 (g_lv g lasti) acc
       (fun k _ v => take (dom c lasti) ws0 !! k = Some v))).
    2:{ by apply bres_nil, SS. }
    intros k v acc s1 Hk Hacc B.
    pose proof (br_step _ _ _ _ _ _ _ _ _ B) as S1.
    eapply wp_mono.
    { apply (bstep_terminal c opsem strict g s1 v); [apply C| |apply S1|].
      - eapply ord_sstep; [exact S1|]. eapply ord_sstep; [exact SS|]. apply C.
      - rewrite Forall_forall in Htv. apply Htv.
        apply elem_of_list_lookup_2 in Hk. eapply elem_of_take in Hk as (j&Hj&_).
        by eapply elem_of_list_lookup_2. }
    intros a s2 B2. eapply bres_snoc; [exact B|]. eapply bstep_weaken; [exact B2| |].
    - pose proof (wf_lv _ _ _ _ _ (cl_wf _ _ _ _ _ C) lasti Hin). lia.
    - intros rho v' Hv E. rewrite Hacc in E. congruence. }
  intros acc s1 [B Hacc]. rewrite take_length in Hacc.
  pose proof (br_step _ _ _ _ _ _ _ _ _ B) as S1.
  assert (S01 : sstep g s0 s1) by (by eapply sstep_trans).
  apply wp_bind. eapply wp_mono.
  { eapply (bres_make c opsem strict g s s1 lasti acc); [apply C|done| |done|lia|exact B].
    eapply ord_sstep; [exact S01|apply C]. }
  intros a s2 [B2 S2].
  assert (S02 : sstep g s0 s2) by (by eapply sstep_trans).
  assert (S12 : sstep g s s2) by apply B2.
  assert (Elv : g_lv g lasti = nvars c - 1).
  { destruct (cl_ord _ _ _ _ _ C) as [P O]. pose proof (O lasti Hin) as E.
    apply (pm_inv _ _ P) in Hlast. congruence. }
  apply wp_bind. eapply wp_mono.
  { apply (shrink_spec (S (nvars c)) (nvars c - 1) st n a s2); [lia|lia|done| | |].
    - by eapply stack_step.
    - split; [exact (bs_held _ _ _ _ _ _ _ _ _ B2)|split; [rewrite <- Elv; exact (bs_rank _ _ _ _ _ _ _ _ _ B2)|]].
      intros rho v Hv Hseg. apply (bs_ev _ _ _ _ _ _ _ _ _ B2); [done|]. cbn beta.
      assert (Hr : rho lasti < dom c lasti) by auto.
      rewrite lookup_take by done. unfold seg in Hseg.
      rewrite (drop_S order lasti _ Hlast), drop_ge in Hseg.
      2:{ rewrite (pm_l2i _ _ (ord_perm _ _ _ (cl_ord _ _ _ _ _ C))). lia. }
      simpl in Hseg. rewrite Hvs, lookup_app_r in Hseg by (rewrite take_length; lia).
      rewrite take_length in Hseg. rewrite <- Hseg. f_equal. lia.
    - split.
      { intros d Hd0. destruct (bs_marks _ _ _ _ _ _ _ _ _ B2 d Hd0) as [Hd0'| ->]; [|right; set_solver].
        destruct (Hm d Hd0'); [by left|right; set_solver]. }
      intros d x Hx. destruct (bs_new _ _ _ _ _ _ _ _ _ B2 d x Hx) as [Hx'|Hra]; [|right; exists a; set_solver].
      destruct (HN d x Hx') as [|(e&He&Hre)]; [by left|]. right. exists e. split; [set_solver|].
      eapply keeps_reach; [apply S12| |done]. by eapply stack_held. }
  intros st' s3 (S3&Hm3&Hst3). rewrite Hblast in Hst3.
  apply (IH (n + dom c lasti)); try done.
  - rewrite drop_length. simpl in *. lia.
  - rewrite Hvs at 1. rewrite <- (take_drop (dom c lasti) ws0) at 1.
    rewrite app_assoc. f_equal. rewrite Hvs at 2. rewrite take_app_ge by (rewrite take_length; lia).
    rewrite take_length. f_equal. f_equal. lia.
  - lia.
  - by apply Forall_drop.
Qed.

Lemma from_vector_impl_spec :
  length vs = prodl c order -> Forall (tval c) vs ->
  wp allowed (from_vector_impl c vs) (fun r s' => bstep g s0 s' 0 r
    (fun rho v => vs !! vec_index c order rho = Some v)) s0.
Proof.
  intros Hlen Htv. unfold from_vector_impl.
  pose proof (ord_perm _ _ _ (cl_ord _ _ _ _ _ C)) as P.
  destruct (Nat.eqb_spec (nvars c) 0) as [Hn|Hn].
  - assert (order = []) as Eo by (apply nil_length_inv; rewrite (pm_l2i _ _ P); done).
    rewrite Eo in *. simpl in Hlen. rewrite Hlen. simpl. rewrite andb_false_r.
    destruct vs as [|v [|]]; simpl in Hlen; try lia. simpl.
    apply wp_bind, wp_ret. eapply wp_mono.
    { apply (bstep_terminal c opsem strict g s0 v); try apply C. by inversion Htv. }
    intros r s' B. eapply bstep_weaken; [exact B|lia|]. intros rho w Hv [=]. done.
  - destruct (perm_l2i_ex c s0 (nvars c - 1) P ltac:(lia)) as (lasti&Hlast&Hin).
    apply wp_bind. eapply wp_index_at; [done|].
    rewrite (dom_prod_order c s0 P), <- Hlen, Z.eqb_refl. simpl. rewrite andb_false_r.
    apply wp_bind. eapply wp_mono.
    { apply (loop_spec lasti (S (length vs)) 0 vs [] s0); try done.
      - lia.
      - lia.
      - apply sstep_refl, C.
      - split; [intros d Hd|intros d x Hx]; by left.
      - right. apply (stack_raise s0 0); [constructor|lia|lia]. }
    intros st s1 (S1&[Hm HN]&a&->&Hh&Hr&HE). simpl. rewrite andb_false_r.
    apply wp_bind, wp_ret. apply wp_ret. simpl. constructor.
    1: done. 1: done. 1: lia.
    + intros rho v Hv HF. apply HE; [done|]. unfold seg. by rewrite drop_0.
    + intros d Hd. destruct (Hm d Hd) as [?|Hd']; [by left|]. right. simpl in Hd'. set_solver.
    + intros d x Hx. destruct (HN d x Hx) as [?|(e&He&Hre)]; [by left|]. right. simpl in He.
      by apply elem_of_list_singleton in He as ->.
Qed.

End fromvec.

Lemma from_vector_spec g vs s :
  wf_cfg c -> calm g s -> length vs = prodl c (s_l2i s) -> Forall (tval c) vs ->
  wp allowed (from_vector c vs) (anew true g s (fun rho v => vs !! vec_index c (s_l2i s) rho = Some v)) s.
Proof.
  intros Hc C Hlen Htv. unfold from_vector, with_handle. apply wp_bind.
  eapply wp_mono; [by apply (from_vector_impl_spec g s vs)|].
  intros r s1 B. eapply new_handle_spec; [done|exact B].
Qed.

End vec.
