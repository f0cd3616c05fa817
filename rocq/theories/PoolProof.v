(** * The node pool: invariant *)

From stdpp Require Import gmap list list_numbers.
From Coq Require Import ZArith Lia.
From Verif Require Import Links Pool PoolSpec.

(** cells of the chunks: all of them behind the current chunk, [off] in the current one *)
Definition cells_of (id n : nat) : list (nat * nat) := (fun o => (id, o)) <$> seq 0 n.
Definition rest_cells (l : list (nat * nat)) : list (nat * nat) := concat ((fun x => cells_of (fst x) (snd x)) <$> l).

Fixpoint shape (main extra : nat) (l : list (nat * nat)) : Prop :=
  match l with
  | [] => True
  | x :: l => fst x = length l /\ snd x = (match l with [] => main | _ => extra end) /\ shape main extra l
  end.

Record pinv (main extra : nat) (p : lpool) (A : apool) : Prop := {
  pi_main : q_main p = main;
  pi_extra : q_extra p = extra;
  pi_chunks : exists n off rest, q_chunks p = (length rest, n) :: rest /\ q_next p = (length rest, off) /\ off <= n /\
      shape main extra ((length rest, n) :: rest) /\
      (forall cl, is_Some (q_cells p !! cl) <-> cl ∈ cells_of (length rest) off ++ rest_cells rest) /\
      ap_total A = n + length (rest_cells rest) /\
      q_avail p = Z.of_nat (length (q_free p) + (n - off));
  pi_free : NoDup (q_free p) /\ forall cl, cl ∈ q_free p -> is_Some (q_cells p !! cl);
  pi_live : forall cl o, ap_live A !! cl = Some o <-> q_cells p !! cl = Some o /\ cl ∉ q_free p;
  pi_ever : forall cl, cl ∈ ap_ever A <-> is_Some (q_cells p !! cl);
  pi_arrays : forall a, a ∈ q_arrays p <-> a ∈ ap_hand A \/ exists cl, q_cells p !! cl = Some (OInner a);
  pi_hand : forall a cl, a ∈ ap_hand A -> q_cells p !! cl <> Some (OInner a);
  pi_own : forall a cl cl', q_cells p !! cl = Some (OInner a) -> q_cells p !! cl' = Some (OInner a) -> cl = cl';
  pi_fresh : forall a, a ∈ q_arrays p -> a < q_fresh p
}.

Lemma cells_of_elem id n cl : cl ∈ cells_of id n <-> fst cl = id /\ snd cl < n.
Proof.
  unfold cells_of. rewrite elem_of_list_fmap. destruct cl as [i o]. simpl. split.
  - intros (x&[= -> ->]&Hx). apply elem_of_seq in Hx. lia.
  - intros [-> H]. exists o. split; [done|]. apply elem_of_seq. lia.
Qed.
Lemma cells_of_length id n : length (cells_of id n) = n.
Proof. unfold cells_of. by rewrite fmap_length, seq_length. Qed.
Lemma cells_of_nodup id n : NoDup (cells_of id n).
Proof. unfold cells_of. apply NoDup_fmap_2; [by intros ? ? [= ->]|apply NoDup_seq]. Qed.

Lemma rest_id main extra l : shape main extra l -> forall cl, cl ∈ rest_cells l -> fst cl < length l.
Proof.
  induction l as [|x l IH]; intros S cl Hc; [by apply elem_of_nil in Hc|]. destruct S as (Hi&_&S).
  unfold rest_cells in Hc. simpl in Hc. apply elem_of_app in Hc as [Hc|Hc].
  - apply cells_of_elem in Hc as [-> _]. simpl. lia.
  - specialize (IH S cl Hc). simpl. lia.
Qed.
Lemma all_nodup main extra rest off n : shape main extra ((length rest, n) :: rest) -> NoDup (cells_of (length rest) off ++ rest_cells rest).
Proof.
  intros (_&_&S). revert S off. induction rest as [|x l IH]; intros S off.
  - rewrite app_nil_r. apply cells_of_nodup.
  - destruct x as [i m]. pose proof S as S0. destruct S as (Hi&_&S). simpl in Hi. subst i. apply NoDup_app. split_and!.
    + apply cells_of_nodup.
    + intros cl Hc Hr. apply cells_of_elem in Hc as [Hc _]. pose proof (rest_id _ _ _ S0 cl Hr). lia.
    + apply (IH S m).
Qed.

Section inv.
Context (main extra : nat).

Lemma inv_size p A : pinv main extra p A -> exists n off rest, q_chunks p = (length rest, n) :: rest /\ q_next p = (length rest, off) /\ off <= n /\
  shape main extra ((length rest, n) :: rest) /\ q_avail p = Z.of_nat (length (q_free p) + (n - off)) /\ ap_total A = n + length (rest_cells rest) /\
  size (ap_live A) + length (q_free p) = off + length (rest_cells rest) /\ size (ap_ever A) = off + length (rest_cells rest).
Proof.
  intros I. destruct (pi_chunks _ _ _ _ I) as (n&off&rest&E1&E2&L&S&D&T&Av). exists n, off, rest. split_and!; try done.
  - destruct (pi_free _ _ _ _ I) as [ND Hf].
    assert (E : (dom (ap_live A) ∪ list_to_set (q_free p) : gset (nat * nat)) = list_to_set (cells_of (length rest) off ++ rest_cells rest)).
    { apply set_eq. intros cl. rewrite elem_of_union, elem_of_dom, !elem_of_list_to_set, <- D. split.
      - intros [[o Ho]|Hc]; [|by apply Hf]. apply (pi_live _ _ _ _ I) in Ho as [-> _]. eauto.
      - intros [o Ho]. destruct (decide (cl ∈ q_free p)); [by right|left]. exists o. by apply (pi_live _ _ _ _ I). }
    apply (f_equal size) in E. rewrite size_union, size_dom, size_list_to_set, size_list_to_set, app_length, cells_of_length in E; [done| |done|].
    + by eapply all_nodup.
    + intros cl Hc Hf'. apply elem_of_list_to_set in Hf'. apply elem_of_dom in Hc as [o Ho]. by apply (pi_live _ _ _ _ I) in Ho as [_ Ho].
  - assert (E : ap_ever A = list_to_set (cells_of (length rest) off ++ rest_cells rest)).
    { apply set_eq. intros cl. by rewrite elem_of_list_to_set, <- D, (pi_ever _ _ _ _ I). }
    rewrite E, size_list_to_set, app_length, cells_of_length; [done|]. by eapply all_nodup.
Qed.

(** ** Destructors *)

Notation mem := (gmap (nat * nat) obj * gset nat)%type.

Fixpoint destruct_all (l : list (nat * nat)) (m : mem) : lout mem :=
  match l with
  | [] => LVal m
  | cl :: l => let! m := destruct_cell cl m in destruct_all l m
  end.

Lemma destruct_all_app l1 l2 m : destruct_all (l1 ++ l2) m = lbind (destruct_all l1 m) (destruct_all l2).
Proof. revert m. induction l1 as [|cl l IH]; intros m; simpl; [done|]. destruct (destruct_cell cl m); simpl; [apply IH|done..]. Qed.

Lemma destruct_cells_all id count : forall from m, destruct_cells id from count m = destruct_all ((fun o => (id, o)) <$> seq from count) m.
Proof. induction count as [|n IH]; intros from m; simpl; [done|]. destruct (destruct_cell (id, from) m); simpl; [apply IH|done..]. Qed.

Lemma dealloc_rest_all l : forall m, shape main extra l -> dealloc_rest main extra l m = destruct_all (rest_cells l) m.
Proof.
  induction l as [|[id n] l IH]; intros m S; [done|]. destruct S as (_&Hn&S). simpl in Hn.
  change (rest_cells ((id, n) :: l)) with (cells_of id n ++ rest_cells l). rewrite destruct_all_app.
  simpl. rewrite destruct_cells_all. rewrite <- Hn. unfold cells_of.
  destruct (destruct_all _ m); simpl; [by apply IH|done..].
Qed.

Lemma destruct_ok (cl : nat * nat) (m : mem) : (forall a, (exists d, fst m !! d = Some (OInner a)) -> a ∈ snd m) -> is_Some (fst m !! cl) ->
  exists m', destruct_cell cl m = LVal m' /\ fst m' = delete cl (fst m) /\
    (forall a, a ∈ snd m' <-> a ∈ snd m /\ fst m !! cl <> Some (OInner a)).
Proof.
  intros H [o Ho]. unfold destruct_cell. rewrite Ho. destruct o as [|a].
  - eexists. split; [done|]. split; [done|]. simpl. intros a. split; [|tauto]. intros; split; done.
  - unfold free_array. rewrite decide_True by eauto. simpl. eexists. split; [done|]. split; [done|]. simpl. intros b. set_solver.
Qed.

Lemma destruct_all_ok l : forall (m : mem), NoDup l -> (forall cl, cl ∈ l -> is_Some (fst m !! cl)) ->
  (forall a, (exists d, fst m !! d = Some (OInner a)) -> a ∈ snd m) ->
  (forall a cl cl', fst m !! cl = Some (OInner a) -> fst m !! cl' = Some (OInner a) -> cl = cl') ->
  exists m', destruct_all l m = LVal m' /\ (forall cl o, fst m' !! cl = Some o <-> fst m !! cl = Some o /\ cl ∉ l) /\
    (forall a, a ∈ snd m' <-> a ∈ snd m /\ forall cl, cl ∈ l -> fst m !! cl <> Some (OInner a)).
Proof.
  induction l as [|cl l IH]; intros m ND D Ha Ho; simpl.
  - exists m. split; [done|]. split; [set_solver|]. set_solver.
  - inversion ND as [|? ? Hn ND']; subst. destruct (destruct_ok cl m Ha) as (m1&E1&C1&A1); [apply D; left|].
    rewrite E1. cbn [lbind].
    destruct (IH m1 ND') as (m'&E&C&A).
    + intros d Hd. rewrite C1, lookup_delete_ne by congruence. apply D. by right.
    + intros a (d&Hd). rewrite C1 in Hd. apply lookup_delete_Some in Hd as [Hd Hd']. apply A1. split; [eauto|].
      intros Hc. apply Hd. by eapply Ho.
    + intros a d d'. rewrite C1. intros [_ H1]%lookup_delete_Some [_ H2]%lookup_delete_Some. by eapply Ho.
    + exists m'. split; [done|]. split.
      * intros d o. rewrite C, C1, lookup_delete_Some, not_elem_of_cons. naive_solver.
      * intros a. rewrite A, A1, C1. split.
        -- intros [[H1 H2] H3]. split; [done|]. intros d Hd. apply elem_of_cons in Hd as [->|Hd]; [done|].
           specialize (H3 d Hd). rewrite lookup_delete_ne in H3 by congruence. done.
        -- intros [H1 H2]. split; [split; [done|apply H2; left]|]. intros d Hd Hx. apply lookup_delete_Some in Hx as [_ Hx].
           eapply H2; [right; exact Hd|exact Hx].
Qed.

(** the destructor destroys every object once; only the arrays in the hands of the
    program are left *)
Lemma end_ok p A : pinv main extra p A -> exists m, q_end p = LVal m /\ fst m = ∅ /\ snd m = ap_hand A.
Proof.
  intros I. destruct (pi_chunks _ _ _ _ I) as (n&off&rest&E1&E2&L&S&D&T&Av).
  assert (E : q_end p = destruct_all (cells_of (length rest) off ++ rest_cells rest) (q_cells p, q_arrays p)).
  { unfold q_end. rewrite E1, E2, (pi_main _ _ _ _ I), (pi_extra _ _ _ _ I). cbn [snd]. rewrite destruct_all_app, destruct_cells_all.
    unfold cells_of. destruct (destruct_all _ _); simpl; [|done..]. apply dealloc_rest_all. apply S. }
  destruct (destruct_all_ok (cells_of (length rest) off ++ rest_cells rest) (q_cells p, q_arrays p)) as (m&Em&C&Ar).
  - by eapply all_nodup.
  - intros cl Hc. by apply D.
  - intros a Ha. apply (pi_arrays _ _ _ _ I). by right.
  - apply (pi_own _ _ _ _ I).
  - exists m. rewrite E. split; [done|]. split.
    + apply map_empty. intros cl. destruct (fst m !! cl) as [o|] eqn:Ec; [|done]. apply C in Ec as [Ec Hn]. destruct Hn. apply D. eauto.
    + apply set_eq. intros a. rewrite Ar. simpl. split.
      * intros [H1 H2]. apply (pi_arrays _ _ _ _ I) in H1 as [H1|(cl&Hc)]; [done|]. exfalso. apply (H2 cl); [|done]. apply D. eauto.
      * intros Ha. split; [apply (pi_arrays _ _ _ _ I); by left|]. intros cl _. by apply (pi_hand _ _ _ _ I).
Qed.

(** ** Calls *)

Lemma new_pinv : pinv main extra (q_new main extra) (APool ∅ ∅ main ∅).
Proof.
  constructor; simpl; try done.
  - exists main, 0, []. split_and!; try done; simpl; try lia. intros cl. rewrite lookup_empty. split; [by intros []|]. intros H. by apply elem_of_nil in H.
  - split; [constructor|]. intros cl Hc. by apply elem_of_nil in Hc.
  - intros cl o. rewrite !lookup_empty. split; [done|]. by intros [? _].
  - intros cl. rewrite lookup_empty. split; [set_solver|by intros []].
  - intros a. split; [set_solver|]. intros [?|(cl&Hc)]; [set_solver|done].
Qed.

Lemma p_step p A k : pinv main extra p A -> p_allows A k ->
  exists p' r A', q_exec k p = LVal (p', r) /\ p_effect extra A k r A' /\ pinv main extra p' A'.
Proof.
  intros I Hp. destruct (pi_free _ _ _ _ I) as [ND Hf]. destruct k as [|a|o|cl|cl a|]; simpl in Hp.
  - (* PArray *)
    eexists _, _, _. split; [done|]. split.
    { exists (q_fresh p). split_and!; [done| | |done].
      - intros Ha. assert (H : q_fresh p ∈ q_arrays p) by (apply (pi_arrays _ _ _ _ I); by left). apply (pi_fresh _ _ _ _ I) in H. lia.
      - intros cl Hc. apply (pi_live _ _ _ _ I) in Hc as [Hc _].
        assert (H : q_fresh p ∈ q_arrays p) by (apply (pi_arrays _ _ _ _ I); eauto). apply (pi_fresh _ _ _ _ I) in H. lia. }
    destruct I. constructor; simpl; try done.
    + intros a. rewrite elem_of_union, pi_arrays0. set_solver.
    + intros a cl Ha Hc. apply elem_of_union in Ha as [Ha|Ha]; [|by eapply pi_hand0].
      apply elem_of_singleton in Ha as ->. assert (H : q_fresh p ∈ q_arrays p) by (apply pi_arrays0; eauto). apply pi_fresh0 in H. lia.
    + intros a Ha. apply elem_of_union in Ha as [Ha|Ha]; [apply elem_of_singleton in Ha; lia|]. apply pi_fresh0 in Ha. lia.
  - (* PDelArray *)
    assert (Ha : a ∈ q_arrays p) by (apply (pi_arrays _ _ _ _ I); by left).
    simpl. unfold free_array. rewrite decide_True by done. cbn [lbind]. eexists _, _, _. split; [done|]. split; [done|].
    destruct I. constructor; simpl; try done.
    + intros b. rewrite !elem_of_difference, pi_arrays0, elem_of_singleton. split; [tauto|].
      intros [?|(cl&Hc)]; [tauto|]. split; [eauto|]. intros ->. by eapply pi_hand0.
    + intros b cl Hb. apply pi_hand0. set_solver.
    + intros b Hb. apply pi_fresh0. set_solver.
  - (* PCreate *)
    assert (Hsz : size (ap_live A) < ap_total A) by (destruct o; tauto).
    assert (Hao : forall a, o = OInner a -> a ∈ ap_hand A) by (intros a ->; tauto). clear Hp.
    destruct (inv_size p A I) as (n&off&rest&E1&E2&L&S&Av&T&Sl&Se).
    assert (HD : exists n off rest, q_chunks p = (length rest, n) :: rest /\ q_next p = (length rest, off) /\
      (forall cl, is_Some (q_cells p !! cl) <-> cl ∈ cells_of (length rest) off ++ rest_cells rest)).
    { destruct (pi_chunks _ _ _ _ I) as (n'&off'&rest'&F1&F2&_&_&D&_). eauto 10. }
    destruct HD as (n'&off'&rest'&F1&F2&D). rewrite E1 in F1. injection F1 as _ <- <-. rewrite E2 in F2. injection F2 as <-.
    unfold q_exec. assert (Hav : (q_avail p <=? 0)%Z = false) by (apply Z.leb_gt; lia). rewrite Hav.
    (* what both cases share *)
    assert (K : forall cl p' m, ap_live A !! cl = None -> fst m !! cl = None -> (forall d, d <> cl -> fst m !! d = q_cells p !! d) ->
      (forall a, a ∈ snd m <-> a ∈ q_arrays p /\ q_cells p !! cl <> Some (OInner a)) ->
      q_main p' = main -> q_extra p' = extra -> q_cells p' = <[cl := o]> (fst m) -> q_arrays p' = snd m -> q_fresh p' = q_fresh p ->
      NoDup (q_free p') -> (forall d, d ∈ q_free p' <-> d ∈ q_free p /\ d <> cl) ->
      (exists n off rest, q_chunks p' = (length rest, n) :: rest /\ q_next p' = (length rest, off) /\ off <= n /\
        shape main extra ((length rest, n) :: rest) /\
        (forall cl, is_Some (q_cells p' !! cl) <-> cl ∈ cells_of (length rest) off ++ rest_cells rest) /\
        ap_total A = n + length (rest_cells rest) /\
        q_avail p' = Z.of_nat (length (q_free p') + (n - off))) ->
      pinv main extra p' (APool (<[cl := o]> (ap_live A)) (taken o (ap_hand A)) (ap_total A) ({[cl]} ∪ ap_ever A))).
    { intros cl p' m Hl Hm Hm' Har Q1 Q2 Q3 Q4 Q5 Q6 Q7 Q8.
      assert (Cd : forall d x, d <> cl -> q_cells p' !! d = Some x <-> q_cells p !! d = Some x).
      { intros d x Hd. rewrite Q3, lookup_insert_ne by done. by rewrite Hm'. }
      assert (Cc : q_cells p' !! cl = Some o) by (rewrite Q3; apply lookup_insert).
      constructor; cbn [ap_live ap_hand ap_total ap_ever]; try done.
      - split; [done|]. intros d Hd. apply Q7 in Hd as [Hd Hne]. destruct (Hf d Hd) as [x Hx]. exists x. by apply Cd.
      - intros d x. destruct (decide (d = cl)) as [->|Hd].
        + rewrite lookup_insert, Cc, Q7. split; [|tauto]. intros; split; [done|]. tauto.
        + rewrite lookup_insert_ne by done. rewrite (pi_live _ _ _ _ I), Q7, Cd by done. tauto.
      - intros d. rewrite elem_of_union, elem_of_singleton, (pi_ever _ _ _ _ I). destruct (decide (d = cl)) as [->|Hd].
        + rewrite Cc. split; eauto.
        + split.
          * intros [?|[x Hx]]; [done|]. exists x. by apply Cd.
          * intros [x Hx]. right. exists x. by apply Cd.
      - intros a. rewrite Q4, Har, (pi_arrays _ _ _ _ I). split.
        + intros [[Hh|(d&Hd)] Hn].
          * destruct o as [|b]; [by left|]. destruct (decide (a = b)) as [->|Hab]; [right; eauto|left]. simpl. set_solver.
          * right. exists d. apply Cd; [|done]. congruence.
        + intros [Hh|(d&Hd)].
          * assert (Hh' : a ∈ ap_hand A) by (destruct o; simpl in Hh; set_solver). split; [by left|]. by apply (pi_hand _ _ _ _ I).
          * destruct (decide (d = cl)) as [->|Hne].
            -- rewrite Cc in Hd. injection Hd as Hd. specialize (Hao a Hd). split; [by left|]. by apply (pi_hand _ _ _ _ I).
            -- apply Cd in Hd; [|done]. split; [right; eauto|]. intros Hc. apply Hne. by eapply (pi_own _ _ _ _ I).
      - intros a d Ha. assert (Hh' : a ∈ ap_hand A) by (destruct o; simpl in Ha; set_solver).
        destruct (decide (d = cl)) as [->|Hne].
        + rewrite Cc. intros [= Ho]. subst o. simpl in Ha. set_solver.
        + rewrite Cd by done. by apply (pi_hand _ _ _ _ I).
      - intros a d d' H1 H2. destruct (decide (d = cl)) as [->|Hd], (decide (d' = cl)) as [->|Hd']; [done| | |].
        + apply Cd in H2; [|done]. rewrite Cc in H1. injection H1 as H1. by destruct (pi_hand _ _ _ _ I a d' (Hao a H1)).
        + apply Cd in H1; [|done]. rewrite Cc in H2. injection H2 as H2. by destruct (pi_hand _ _ _ _ I a d (Hao a H2)).
        + apply Cd in H1, H2; [|done..]. by eapply (pi_own _ _ _ _ I).
      - intros a. rewrite Q4, Q5, Har. intros [Ha _]. by eapply (pi_fresh _ _ _ _ I). }
    destruct (q_free p) as [|cl fr] eqn:Ef.
    + assert (Hlt : off < n) by (simpl in *; lia).
      assert (Hcs : chunk_size p (fst (q_next p)) = n).
      { unfold chunk_size. rewrite E1, E2. simpl. by rewrite Nat.eqb_refl. }
      rewrite Hcs, decide_True by (rewrite E2; done). rewrite E2. cbn [fst snd].
      assert (Hnc : q_cells p !! (length rest, off) = None).
      { destruct (q_cells p !! (length rest, off)) as [x|] eqn:Ex; [|done]. exfalso.
        assert (H : is_Some (q_cells p !! (length rest, off))) by (rewrite Ex; eauto). apply D in H. apply elem_of_app in H as [H|H].
        - apply cells_of_elem in H as [_ H]. simpl in H. lia.
        - apply (rest_id main extra) in H; [simpl in H; lia|]. apply S. }
      assert (Hlv : ap_live A !! (length rest, off) = None).
      { destruct (ap_live A !! (length rest, off)) as [x|] eqn:Ex; [|done]. apply (pi_live _ _ _ _ I) in Ex as [Ex _]. congruence. }
      eexists _, _, _. split; [reflexivity|]. split; [exists (length rest, off); done|].
      apply (K (length rest, off) _ (q_cells p, q_arrays p)); simpl; try done.
      * intros a. split; [|tauto]. intros; split; [done|]. congruence.
      * apply I.
      * apply I.
      * intros d. split; [intros H; by apply elem_of_nil in H|intros [H _]; by apply elem_of_nil in H].
      * exists n, (Datatypes.S off), rest. split; [done|]. split; [done|]. split; [lia|]. split; [exact S|]. split; [|split; [done|cbn [q_avail length]; rewrite Av; cbn [length]; lia]].
        intros d. rewrite elem_of_app, cells_of_elem. destruct (decide (d = (length rest, off))) as [->|Hd].
        -- rewrite lookup_insert. simpl. split; [|eauto]. intros _. left. lia.
        -- rewrite lookup_insert_ne by done. rewrite D, elem_of_app, cells_of_elem. destruct d as [i x]. simpl.
           assert (i <> length rest \/ x <> off) by (destruct (decide (i = length rest)); [right; congruence|by left]). split; intros [?|?]; auto; left; lia.
    + destruct (Hf cl) as [x Hx]; [left|]. inversion ND as [|? ? Hnf NDf]; subst.
      destruct (destruct_ok cl (q_cells p, q_arrays p)) as (m&Em&Cm&Am).
      { intros a Ha. apply (pi_arrays _ _ _ _ I). by right. }
      { simpl. eauto. }
      rewrite Em. cbn [lbind]. simpl in Cm, Am.
      assert (Hlv : ap_live A !! cl = None).
      { destruct (ap_live A !! cl) as [y|] eqn:Ey; [|done]. apply (pi_live _ _ _ _ I) in Ey as [_ Ey]. rewrite Ef in Ey. destruct Ey. left. }
      eexists _, _, _. split; [reflexivity|]. split; [exists cl; done|].
      apply (K cl _ m); simpl; try done.
      * rewrite Cm. apply lookup_delete.
      * intros d Hd. rewrite Cm. by apply lookup_delete_ne.
      * apply I.
      * apply I.
      * intros d. rewrite elem_of_cons. split; [intros Hd; split; [by right|congruence]|]. intros [[?|?] ?]; done.
      * exists n, off, rest. split; [done|]. split; [done|]. split; [lia|]. split; [exact S|]. split; [|split; [done|]].
        -- intros d. rewrite <- D. destruct (decide (d = cl)) as [->|Hd]; [rewrite lookup_insert; split; eauto|].
           rewrite lookup_insert_ne, Cm, lookup_delete_ne by done. done.
        -- simpl in Av. lia.
  - (* PRelease *)
    destruct Hp as [o Ho]. pose proof Ho as Ho'. apply (pi_live _ _ _ _ I) in Ho' as [Hc Hn].
    eexists _, _, _. split; [reflexivity|]. split; [done|].
    constructor; simpl; try apply I.
    + destruct (pi_chunks _ _ _ _ I) as (n&off&rest&E1&E2&L&S&D&T&Av). exists n, off, rest. split; [done|]. split; [done|]. split; [done|]. split; [exact S|]. split; [done|]. split; [done|]. simpl. lia.
    + split; [by constructor|]. intros d Hd. apply elem_of_cons in Hd as [->|Hd]; [eauto|by apply Hf].
    + intros d x. rewrite lookup_delete_Some, (pi_live _ _ _ _ I), not_elem_of_cons. naive_solver.
  - (* PSetSons *)
    destruct Hp as [Ha (old&Ho)]. apply (pi_live _ _ _ _ I) in Ho as [Hc Hn]. simpl. rewrite Hc.
    assert (Hold : old ∈ q_arrays p) by (apply (pi_arrays _ _ _ _ I); eauto).
    assert (Hne : old <> a) by (intros ->; by eapply (pi_hand _ _ _ _ I)).
    unfold free_array. rewrite decide_True by done. cbn [lbind]. eexists _, _, _. split; [reflexivity|]. split; [done|].
    assert (Hd : forall d b, d <> cl -> q_cells p !! d = Some (OInner b) -> b <> a /\ b <> old).
    { intros d b Hd Hb. split; intros ->; [by eapply (pi_hand _ _ _ _ I)|]. apply Hd. by eapply (pi_own _ _ _ _ I). }
    constructor; simpl; try apply I.
    + destruct (pi_chunks _ _ _ _ I) as (n&off&rest&E1&E2&L&S&D&T&Av). exists n, off, rest. split; [done|]. split; [done|]. split; [done|]. split; [exact S|]. split; [|split; done].
      intros d. rewrite <- D. destruct (decide (d = cl)) as [->|?]; [rewrite lookup_insert, Hc; split; eauto|by rewrite lookup_insert_ne].
    + split; [done|]. intros d Hd'. rewrite lookup_insert_ne by congruence. by apply Hf.
    + intros d x. destruct (decide (d = cl)) as [->|?]; [rewrite !lookup_insert; tauto|]. rewrite !lookup_insert_ne by done. apply I.
    + intros d. rewrite (pi_ever _ _ _ _ I). destruct (decide (d = cl)) as [->|?]; [rewrite lookup_insert, Hc; split; eauto|by rewrite lookup_insert_ne].
    + intros b. rewrite !elem_of_difference, !elem_of_singleton, (pi_arrays _ _ _ _ I). split.
      * intros [[Hb|(d&Hb)] Hbo].
        -- destruct (decide (b = a)) as [->|?]; [right; exists cl; by rewrite lookup_insert|left; done].
        -- right. exists d. rewrite lookup_insert_ne; [done|]. intros <-. congruence.
      * intros [[Hb Hba]|(d&Hb)].
        -- split; [by left|]. intros ->. by eapply (pi_hand _ _ _ _ I).
        -- destruct (decide (d = cl)) as [->|?].
           ++ rewrite lookup_insert in Hb. injection Hb as <-. split; [by left|done].
           ++ rewrite lookup_insert_ne in Hb by done. split; [right; eauto|]. by eapply Hd.
    + intros b d Hb. apply elem_of_difference in Hb as [Hb Hba]. destruct (decide (d = cl)) as [->|?].
      * rewrite lookup_insert. intros [= ->]. set_solver.
      * rewrite lookup_insert_ne by done. by apply (pi_hand _ _ _ _ I).
    + intros b d d' H1 H2. destruct (decide (d = cl)) as [->|Hx], (decide (d' = cl)) as [->|Hy]; [done| | |].
      * rewrite lookup_insert in H1. rewrite lookup_insert_ne in H2 by done. injection H1 as <-. by destruct (Hd _ _ Hy H2).
      * rewrite lookup_insert in H2. rewrite lookup_insert_ne in H1 by done. injection H2 as <-. by destruct (Hd _ _ Hx H1).
      * rewrite lookup_insert_ne in H1 by done. rewrite lookup_insert_ne in H2 by done. by eapply (pi_own _ _ _ _ I).
    + intros b Hb. apply (pi_fresh _ _ _ _ I). set_solver.
  - (* PGrow *)
    destruct (inv_size p A I) as (n&off&rest&E1&E2&L&S&Av&T&Sl&Se). rewrite Hp in Se. assert (off = n) as -> by lia.
    eexists _, _, _. split; [reflexivity|]. split; [done|]. constructor; simpl; try apply I.
    destruct (pi_chunks _ _ _ _ I) as (n'&off'&rest'&F1&F2&_&_&D&_). rewrite E1 in F1. injection F1 as _ <- <-. rewrite E2 in F2. injection F2 as <-.
    exists (q_extra p), 0, (q_chunks p). split; [done|]. split; [done|]. split; [lia|]. split; [|split; [|split]].
    + rewrite E1. rewrite (pi_extra _ _ _ _ I). simpl. split; [done|]. split; [done|]. apply S.
    + intros cl. rewrite D, E1. unfold rest_cells. simpl. done.
    + rewrite E1, T, (pi_extra _ _ _ _ I). change (rest_cells ((length rest, n) :: rest)) with (cells_of (length rest) n ++ rest_cells rest).
      rewrite app_length, cells_of_length. lia.
    + rewrite Av. lia.
Qed.

Lemma pool_program_pinv ks p A : pool_program main extra ks p A -> pinv main extra p A.
Proof.
  induction 1 as [|ks p A k p' r A' _ I Hp E Ef]; [apply new_pinv|].
  destruct (p_step p A k I Hp) as (p2&r2&A2&E2&Ef2&I2). rewrite E in E2. injection E2 as <- <-.
  assert (A' = A2) as ->; [|done].
  destruct k; simpl in Ef, Ef2; try congruence.
  - destruct Ef as (a&Ea&_&_&->), Ef2 as (b&Eb&_&_&->). congruence.
  - destruct Ef as (a&Ea&_&->), Ef2 as (b&Eb&_&->). congruence.
Qed.

End inv.
