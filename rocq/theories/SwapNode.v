(** * Rewriting one node when two adjacent variables are swapped *)

From stdpp Require Import gmap list.
From Coq Require Import ZArith Lia.
From Verif Require Import Base Ops Tables NodeManager Tools Sift.
From Verif Require Import Heap Inv InvLemmas Prim TabLemmas GC Make SwapProof.

Local Open Scope nat_scope.

Lemma mapM_opt_spec {A B} (f : A -> option B) (l : list A) :
  (forall a, a ∈ l -> f a <> None) ->
  exists l', mapM_opt f l = Some l' /\ Forall2 (fun a b => f a = Some b) l l'.
Proof.
  induction l as [|a l IH]; intros H; simpl; [eauto|].
  destruct (f a) as [b|] eqn:E; [|exfalso; by eapply (H a); [set_solver|]].
  destruct IH as (l'&->&F); [intros; apply H; set_solver|]. eauto 10.
Qed.

(** adopting the new sons *)
Lemma wp_adopt (ok : err -> Prop) l (Q : unit -> st -> Prop) s :
  ok ERefOver -> (forall a, a ∈ l -> live (s_heap s) a <> None) ->
  (forall h', hrel (s_heap s) h' ->
     (forall d n n', s_heap s !! d = Some n -> h' !! d = Some n' ->
        N.to_nat (n_refs n') = N.to_nat (n_refs n) + count_occ Pos.eq_dec l d) ->
     (forall d, marked h' d <-> marked (s_heap s) d /\ d ∉ l) -> Q tt (set_heap h' s)) ->
  wp ok (mapM_ (fun b => let* _ := inc_ref b in set_mark false b) l) Q s.
Proof.
  intros Hok. revert s Q. induction l as [|a l IH]; intros s Q Hl HQ; simpl.
  - apply wp_ret. rewrite <- (set_heap_id s). apply HQ; [apply hrel_refl| |].
    + intros; simplify_eq. simpl. lia.
    + set_solver.
  - apply wp_bind, wp_bind. destruct (proj1 (live_not_None (s_heap s) a)) as (n&Hn&U); [apply Hl; set_solver|].
    eapply wp_inc_ref; [exact Hok|exact Hn|exact U|].
    set (h1 := <[a := rf (n_refs n + 1) n]> (s_heap s)).
    assert (R1 : rrel (s_heap s) h1) by (by apply rrel_insert).
    apply wp_set_mark; [by rewrite (hrel_live (s_heap s)) by (by apply rrel_hrel); apply live_not_None; eauto|].
    intros m Hm Um. cbn [s_heap set_heap] in *. 
    assert (M1 : mrel h1 (<[a:=mk false m]> h1)) by (by apply mrel_insert).
    assert (E1 : m = rf (n_refs n + 1) n) by (unfold h1 in Hm; rewrite lookup_insert in Hm; congruence).
    assert (H1 : hrel (s_heap s) (<[a:=mk false m]> h1)).
    { eapply hrel_trans; [by apply rrel_hrel|by apply mrel_hrel]. }
    rewrite set_heap_set_heap. apply IH; cbn [s_heap set_heap].
    + intros d Hd. rewrite (hrel_live (s_heap s)) by done. apply Hl. set_solver.
    + intros h' Hr Hc HM. rewrite set_heap_set_heap. apply HQ.
      * by eapply hrel_trans.
      * intros d k k' Hk Hk'. rewrite count_occ_cons_eq. destruct (decide (d = a)) as [->|Hne].
        -- rewrite (Hc a (mk false m) k'); [|apply lookup_insert|done]. subst m. simpl.
           assert (k = n) by congruence. subst. lia.
        -- rewrite (Hc d k k'); [lia| |done]. unfold h1. by rewrite !lookup_insert_ne.
      * intros d. rewrite HM. rewrite (marked_mk h1 a m false d Hm Um).
        destruct (decide (d = a)) as [->|Hne]; [set_solver|]. rewrite (rrel_marked _ _ d R1). set_solver.
Qed.

Section swap.
Context (c : cfg) (opsem : Z -> option (Z -> Z -> Z)) (strict : bool).
Notation rank := (rank c).
Notation WF := (WF c opsem strict).
Notation sstep := (sstep c opsem strict).
Notation istep := (istep c opsem strict).
Notation allowed := (allowed strict).

(** ** Replacing the body of a floating node *)

Lemma WF_rewire g s a x y old outer m r h' :
  WF g s -> g_dy g = [] -> g_cm g <> CValid -> g_cn g = false ->
  a ∈ g_fl g -> live (s_heap s) a = Some (Int x old) ->
  y < nvars c -> length outer = dom c y ->
  (forall d, d ∈ outer -> live (s_heap s) d <> None /\ g_flr g < rank g (s_heap s) d) ->
  hrel (<[a := Node (Int y outer) m true r]> (s_heap s)) h' ->
  (forall d n n', s_heap s !! d = Some n -> h' !! d = Some n' ->
     N.to_nat (n_refs n') = N.to_nat (n_refs n) + count_occ Pos.eq_dec outer d) ->
  WF (g_set_ext (ext_plus (g_ext g) old) g) (set_heap h' s).
Proof.
  intros W Hdy Hcm Hcn Hfl Ha Hy Hlen Hout Hh Hrefs.
  set (h0 := <[a := Node (Int y outer) m true r]> (s_heap s)) in *.
  pose proof Ha as Ha'. apply live_Some in Ha' as (n&Hn&U&B).
  assert (HL : forall d, live h' d = if decide (d = a) then Some (Int y outer) else live (s_heap s) d).
  { intros d. rewrite (hrel_live h0) by done. unfold h0. by rewrite live_insert. }
  assert (HLn : forall d, live h' d = None <-> live (s_heap s) d = None).
  { intros d. rewrite HL. destruct (decide (d = a)) as [->|]; [|done]. rewrite Ha. done. }
  assert (Hrk : forall e d, rank (g_set_ext e g) h' d = rank g (s_heap s) d).
  { intros e d. unfold Inv.rank. simpl. destruct (decide (d ∈ g_fl g)); [done|].
    rewrite HL, decide_False by (by intros ->). done. }
  assert (Hra : rank g (s_heap s) a = g_flr g) by (unfold Inv.rank; by rewrite decide_True).
  assert (Hed : forall d, edges [] h' d + count_occ Pos.eq_dec old d =
                          edges [] (s_heap s) d + count_occ Pos.eq_dec outer d).
  { intros d. rewrite (hrel_edges _ h0) by done. unfold edges, h0.
    pose proof (hsum_update (fun b n => if n_used n && negb (bool_decide (b ∈ [])) then cnt d n else 0)
                  (s_heap s) a n (Node (Int y outer) m true r) Hn) as X.
    cbn beta in X. rewrite U in X. unfold cnt at 2 4 in X. rewrite B in X. simpl in X. exact X. }
  assert (Hnl : nlive h' = nlive (s_heap s)).
  { rewrite (hrel_nlive h0) by done. unfold nlive, h0.
    pose proof (hsum_update (fun _ n => if n_used n then 1 else 0) (s_heap s) a n (Node (Int y outer) m true r) Hn) as X.
    cbn beta in X. rewrite U in X. simpl in X. lia. }
  assert (Hlk : forall d n', h' !! d = Some n' -> exists n0, s_heap s !! d = Some n0 /\ n_used n' = n_used n0).
  { intros d n' Hd. destruct (hrel_lookup _ _ _ _ Hh Hd) as (n0&H0&_&Hu). unfold h0 in H0.
    destruct (decide (d = a)) as [->|Hne].
    - rewrite lookup_insert in H0. simplify_eq. exists n. split; [done|]. rewrite Hu. simpl. congruence.
    - rewrite lookup_insert_ne in H0 by done. eauto. }
  assert (Hlk' : forall d n0, s_heap s !! d = Some n0 -> exists n', h' !! d = Some n' /\ n_used n' = n_used n0).
  { intros d n0 Hd. destruct (decide (d = a)) as [->|Hne].
    - destruct (hrel_lookup_l h0 h' a (Node (Int y outer) m true r) Hh) as (n'&?&_&Hu); [unfold h0; by rewrite lookup_insert|].
      exists n'. split; [done|]. rewrite Hu. simplify_eq. simpl. congruence.
    - destruct (hrel_lookup_l h0 h' d n0 Hh) as (n'&?&_&Hu); [unfold h0; by rewrite lookup_insert_ne|]. eauto. }
  destruct W. constructor; simpl; try done.
  - intros d b Hb. rewrite HL in Hb. destruct (decide (d = a)) as [->|Hne].
    + injection Hb as <-. simpl. rewrite Hrk, Hra. specialize (wf_node a _ Ha). simpl in wf_node.
      rewrite Hra in wf_node. split_and!; try done; [by apply wf_node|].
      intros _ d Hd. rewrite HLn, Hrk. auto.
    + specialize (wf_node d b Hb). destruct b as [v|i sons]; [done|]. simpl in *. rewrite Hrk.
      destruct wf_node as (?&?&?&Hs). split_and!; try done. intros Hd e He. rewrite HLn, Hrk. auto.
  - intros d Hd. rewrite HL. destruct (decide (d = a)); eauto.
  - intros i t Ht. specialize (wf_tab i t Ht). destruct wf_tab as (?&?&Hb&?). split_and!; try done.
    intros b chain Hc. destruct (Hb b chain Hc) as [? Hin]. split; [done|]. intros d. rewrite Hin. simpl.
    split; intros [Hd Hs]; (split; [done|]); rewrite HL, decide_False in * by (by intros ->); done.
  - intros k d Hk. rewrite HL, decide_False; [eauto|]. intros ->. apply wf_term1 in Hk as [? ?]. congruence.
  - intros d v Hd. rewrite HL in Hd. destruct (decide (d = a)); [done|]. eauto.
  - intros k d Hk. rewrite HL, decide_False; [eauto|]. intros ->. apply wf_spec1 in Hk as [? ?]. congruence.
  - intros d Hd. rewrite HL in Hd. destruct (decide (d = a)); [done|]. eauto.
  - intros d n' Hd Ud _. destruct (Hlk d n' Hd) as (n0&H0&Hu). rewrite (Hrefs d n0 n' H0 Hd).
    rewrite (wf_refs d n0 H0); [|congruence|rewrite Hdy; set_solver]. rewrite Hdy. unfold ext_plus. specialize (Hed d). lia.
  - intros d Hd. rewrite HLn, Hdy. split; [|set_solver]. unfold ext_plus in Hd.
    destruct (decide (d ∈ old)) as [Hin|Hnin].
    + specialize (wf_node a _ Ha) as (_&_&_&Hs). apply Hs; [rewrite Hdy; set_solver|done].
    + assert (count_occ Pos.eq_dec old d = 0) by (apply count_occ_not_In; by rewrite <- elem_of_list_In).
      apply wf_ext. lia.
  - intros d Hd. rewrite Hdy in Hd. set_solver.
  - destruct wf_pool. constructor; try done.
    + intros d Hd. destruct (po_free d Hd) as (n0&H0&?). destruct (Hlk' d n0 H0) as (n'&?&?). exists n'. split; [done|congruence].
    + intros d n' Hd Ud. destruct (Hlk d n' Hd) as (n0&H0&?). apply (po_used d n0); congruence.
    + intros d n' Hd. destruct (Hlk d n' Hd) as (n0&H0&?). eauto.
    + by rewrite Hnl.
  - by rewrite Hnl.
  - destruct wf_cache as (?&?&?). split_and!; try done. simpl. by destruct (g_cm g).
  - intros E. congruence.
Qed.

(** ** Cofactor rows *)

Definition row (h : gmap positive node) (y : nat) (d : positive) : list positive :=
  match live h d with
  | Some (Int j sons) => if (j =? y)%nat then sons else replicate (dom c y) d
  | _ => replicate (dom c y) d
  end.

Lemma rows_spec ok y old (Q : list (list positive) -> st -> Prop) s :
  (forall d, d ∈ old -> live (s_heap s) d <> None) ->
  Q (map (row (s_heap s) y) old) s ->
  wp ok (mapM (cofactor_row y (dom c y)) old) Q s.
Proof.
  revert Q. induction old as [|d old IH]; intros Q Hl HQ; simpl; [by apply wp_ret|].
  assert (Hd : live (s_heap s) d <> None) by (apply Hl; set_solver).
  apply wp_bind. eapply (wp_mono _ _ (fun r s' => r = row (s_heap s) y d /\ s' = s)).
  - unfold cofactor_row. apply wp_bind. destruct (live (s_heap s) d) as [b|] eqn:E; [|done].
    eapply wp_getn_live; [exact E|]. intros n _ _ ->. unfold row. rewrite E.
    destruct b as [v|j sons]; [by apply wp_ret|]. destruct (j =? y); by apply wp_ret.
  - intros r s' [-> ->]. apply wp_bind. apply IH; [intros; apply Hl; set_solver|]. by apply wp_ret.
Qed.

(** ** The new sons *)

Definition inner_of (rows : list (list positive)) (k : nat) : option (list positive) :=
  mapM_opt (fun row : list positive => row !! k) rows.

Definition made (g : ghost) (s : st) (x : nat) (rows : list (list positive)) (k : nat) (r : positive) : Prop :=
  exists inner, inner_of rows k = Some inner /\ repr (s_heap s) x inner r /\ held g (s_heap s) r /\
    g_lv g x <= rank g (s_heap s) r.

Lemma made_step g s s' x rows k r : sstep g s s' -> made g s x rows k r -> made g s' x rows k r.
Proof.
  intros [W K _] (inner&Hi&Hr&Hh&Hrk). destruct (K r Hh) as [Hh' E].
  exists inner. split_and!; try done.
  - unfold repr in *. by rewrite E.
  - by rewrite (rank_ext c g (s_heap s)).
Qed.

Lemma outers_spec g x rows ks : forall s,
  WF g s -> g_dy g = [] -> g_cn g = false -> perm_ok c s -> x < nvars c -> 0 < dom c x ->
  (forall k, k ∈ ks -> exists inner, inner_of rows k = Some inner /\ length inner = dom c x /\
     forall e, e ∈ inner -> held g (s_heap s) e /\ g_lv g x < rank g (s_heap s) e) ->
  wp allowed (mapM (fun k =>
      let* inner := of_opt EOob (mapM_opt (fun row : list positive => row !! k) rows) in
      make_internal_node c x inner) ks)
    (fun outer s' => sstep g s s' /\ Forall2 (made g s' x rows) ks outer /\
       forall d, marked (s_heap s') d -> marked (s_heap s) d \/ d ∈ outer) s.
Proof.
  induction ks as [|k ks IH]; intros s W Hdy Hcn P Hx Hd Hks; simpl.
  - apply wp_ret. split; [by apply sstep_refl|]. split; [constructor|auto].
  - apply wp_bind. destruct (Hks k) as (inner&Hin&Hlen&Hsons); [set_solver|].
    apply wp_bind. eapply wp_of_opt; [exact Hin|].
    eapply wp_mono; [apply (make_internal_node_spec c opsem strict g x inner s); try done; congruence|].
    intros r s1 [S1 R1 H1 K1 M1]. apply wp_bind. eapply wp_mono.
    { apply (IH s1); try done.
      - apply S1.
      - eapply perm_same_order; [apply S1|done].
      - intros k' Hk'. destruct (Hks k') as (inner'&?&?&Hs'); [set_solver|]. exists inner'. split_and!; try done.
        intros e He. destruct (Hs' e He) as [Hh Hr]. destruct (ss_keeps _ _ _ _ _ _ S1 e Hh) as [? E].
        split; [done|]. by rewrite (rank_ext c g (s_heap s)). }
    intros outer s2 (S2&F2&M2). apply wp_ret. split; [by eapply sstep_trans|]. split.
    + constructor; [|done]. eapply made_step; [exact S2|]. exists inner. done.
    + intros d Hm. rewrite elem_of_cons. destruct (M2 d Hm) as [Hm1|]; [|auto].
      destruct (M1 d Hm1) as [[? _]|]; auto.
Qed.

(** ** Values *)

Lemma Ev_rewire (L1 L2 : positive -> option body) a x y old outer rho d v :
  (forall e, e <> a -> L2 e = L1 e) -> L1 a = Some (Int x old) -> L2 a = Some (Int y outer) ->
  a ∉ old ->
  (forall e j, old !! rho x = Some e -> j = rho y ->
     exists r e', outer !! j = Some r /\
       (match L1 e with
        | Some (Int z sons) => if z =? y then sons !! j else Some e
        | _ => Some e end = Some e') /\ r <> a /\
       (e' = r \/ exists inner, L1 r = Some (Int x inner) /\ inner !! rho x = Some e')) ->
  Ev L1 d rho v -> Ev L2 d rho v.
Proof.
  intros HL Ha Ha2 Hna Hk H. induction H as [d rho v H|d rho i sons b v H Hb _ IH].
  - apply Ev_term. rewrite HL; [done|]. congruence.
  - specialize (IH Hk). destruct (decide (d = a)) as [->|Hne].
    + rewrite H in Ha. injection Ha as -> ->.
      assert (Hba : b <> a) by (intros ->; by apply Hna; eapply elem_of_list_lookup_2).
      destruct (Hk b (rho y) Hb eq_refl) as (r&e'&Hr&He'&Hra&Hcase).
      assert (Ee : Ev L2 e' rho v).
      { destruct (L1 b) as [[w|z ss]|] eqn:Eb.
        - by injection He' as <-.
        - destruct (Nat.eqb_spec z y) as [->|Hz].
          + inversion IH as [? ? ? E|? ? ? ? ? ? E Hj Hv]; subst; rewrite HL, Eb in E by done; [done|].
            injection E as <- <-. congruence.
          + by injection He' as <-.
        - by injection He' as <-. }
      eapply Ev_int; [exact Ha2|exact Hr|]. destruct Hcase as [<-|(inner&Hi&Hj)]; [done|].
      eapply Ev_int; [rewrite HL by done; exact Hi|exact Hj|done].
    + eapply Ev_int; [|exact Hb|exact IH]. by rewrite HL.
Qed.

(** ** The swap of one node *)

Record mid (x y l : nat) (g : ghost) (s : st) : Prop := {
  md_wf : WF g s;
  md_dy : g_dy g = [];
  md_cm : g_cm g <> CValid;
  md_cn : g_cn g = false;
  md_flr : g_flr g = l;
  md_l : S l < nvars c;
  md_x : x < nvars c;
  md_y : y < nvars c;
  md_xy : x <> y;
  md_lvx : g_lv g x = S l;
  md_lvy : g_lv g y = S l;
  md_lv : forall z, z < nvars c -> z <> x -> z <> y -> g_lv g z <> l /\ g_lv g z <> S l;
  md_perm : perm_ok c s;
  md_i2l : s_i2l s !! x = Some l;
  md_l2i : s_l2i s !! (S l) = Some y
}.

(** a floating node labelled [z] without sons labelled [z] *)
Definition sep (z : nat) (h : gmap positive node) (a : positive) : Prop :=
  exists sons, live h a = Some (Int z sons) /\ forall d ss, d ∈ sons -> live h d <> Some (Int z ss).

Record nstep (g : ghost) (s s' : st) (a : positive) : Prop := {
  ns_wf : WF g s';
  ns_same : same_order s s';
  ns_others : forall b, b ∈ g_fl g -> b <> a -> live (s_heap s') b = live (s_heap s) b /\
    forall i sons d, live (s_heap s) b = Some (Int i sons) -> d ∈ sons -> live (s_heap s') d = live (s_heap s) d;
  ns_funs : forall r rho v, 0 < g_ext g r \/ r ∈ g_fl g -> valid c rho ->
    Ev (live (s_heap s)) r rho v -> Ev (live (s_heap s')) r rho v;
  ns_marks : forall d, marked (s_heap s') d -> marked (s_heap s) d
}.

Lemma swap_node_spec x y l g s a :
  mid x y l g s -> 0 < dom c x -> 0 < dom c y -> a ∈ g_fl g -> sep x (s_heap s) a ->
  wp allowed (swap_node_with_next c a) (fun _ s' => nstep g s s' a /\ sep y (s_heap s') a) s.
Proof.
  intros [W Hdy Hcm Hcn Hflr Hl Hx Hy Hxy Hlvx Hlvy Hlv P Hi2l Hl2i] Hdx Hdomy Hfl (old&Ha&Hsep).
  unfold swap_node_with_next. apply wp_bind. eapply wp_get_int; [exact Ha|]. cbn iota beta.
  apply wp_bind. eapply wp_level_of_index; [exact Hi2l|]. apply wp_bind. eapply wp_index_at; [exact Hl2i|].
  cbn zeta. apply wp_bind.
  assert (Hra : rank g (s_heap s) a = l) by (unfold Inv.rank; by rewrite decide_True).
  assert (Hnd : forall d, d ∉ g_dy g) by (intros d; rewrite Hdy; set_solver).
  assert (Hson : forall d, d ∈ old -> live (s_heap s) d <> None /\ l < rank g (s_heap s) d).
  { intros d Hd. destruct (wf_son _ _ _ _ _ a x old d W Ha (Hnd a) Hd) as (?&?&_). rewrite Hra in *. auto. }
  assert (Hlen : length old = dom c x).
  { by destruct (wf_node _ _ _ _ _ W a _ Ha) as (_&?&_&_). }
  (* labels of deep nodes *)
  assert (Hdeep : forall g0 h d z ss, g_fl g0 = g_fl g -> g_lv g0 = g_lv g -> g_flr g0 = l -> S l < rank g0 h d ->
    live h d = Some (Int z ss) -> z <> x /\ z <> y).
  { intros g0 h d z ss E1 E2 E3 Hr Hz. unfold Inv.rank in Hr. rewrite E1, E2, E3 in Hr.
    destruct (decide (d ∈ g_fl g)); [lia|]. rewrite Hz in Hr. split; intros ->; lia. }
  assert (Hha : held g (s_heap s) a) by (by apply (fl_held c opsem strict)).
  apply rows_spec; [intros d Hd; by apply Hson|].
  set (rows := map (row (s_heap s) y) old).
  (* the elements of the rows *)
  assert (Hrow : forall d, d ∈ old -> length (row (s_heap s) y d) = dom c y /\
    forall e, e ∈ row (s_heap s) y d -> held g (s_heap s) e /\ S l < rank g (s_heap s) e).
  { intros d Hd. destruct (Hson d Hd) as [Hld Hrd].
    assert (Hhd : held g (s_heap s) d) by (by eapply held_son).
    assert (Hdfl : d ∉ g_fl g) by (intros X; unfold Inv.rank in Hrd; rewrite decide_True in Hrd by done; lia).
    destruct (live (s_heap s) d) as [[w|z ss]|] eqn:E; [| |done].
    - unfold row. rewrite E, replicate_length. split; [done|]. intros e [-> _]%elem_of_replicate. split; [done|].
      unfold Inv.rank. by rewrite decide_False, E.
    - destruct (wf_node _ _ _ _ _ W d _ E) as (Hz&Hlz&_&_). unfold row. rewrite E.
      destruct (Nat.eqb_spec z y) as [->|Hzy].
      + split; [done|]. intros e He. split; [by eapply held_son|].
        destruct (wf_son _ _ _ _ _ d y ss e W E (Hnd d) He) as (_&Hre&_).
        assert (rank g (s_heap s) d = S l) as R by (unfold Inv.rank; by rewrite decide_False, E).
        lia.
      + rewrite replicate_length. split; [done|]. intros e [-> _]%elem_of_replicate. split; [done|].
        assert (z <> x) by (intros ->; by eapply Hsep).
        unfold Inv.rank in *. rewrite decide_False, E in * by done. destruct (Hlv z); lia. }
  assert (Hinner : forall k, k < dom c y -> exists inner, inner_of rows k = Some inner /\
     Forall2 (fun d e => row (s_heap s) y d !! k = Some e) old inner).
  { intros k Hk. destruct (mapM_opt_spec (fun row : list positive => row !! k) rows) as (inner&E&F).
    - unfold rows. intros rw (d&->&Hd)%elem_of_list_fmap. destruct (Hrow d Hd) as [El _].
      apply not_eq_None_Some, lookup_lt_is_Some_2. by rewrite El.
    - exists inner. split; [done|]. unfold rows in F. by apply Forall2_fmap_l in F. }
  assert (Hinner2 : forall k inner, Forall2 (fun d e => row (s_heap s) y d !! k = Some e) old inner ->
     length inner = dom c x /\ forall e, e ∈ inner -> held g (s_heap s) e /\ S l < rank g (s_heap s) e).
  { intros k inner F. split; [by rewrite <- Hlen, (Forall2_length _ _ _ F)|]. intros e He.
    apply elem_of_list_lookup_1 in He as [j Hj]. destruct (Forall2_lookup_r _ _ _ _ _ F Hj) as (d&Hd&Hde).
    apply (Hrow d); by eapply elem_of_list_lookup_2. }
  apply wp_bind. eapply wp_mono.
  { apply (outers_spec g x rows (seq 0 (dom c y)) s); try done. intros k Hk. apply elem_of_seq in Hk.
    destruct (Hinner k) as (inner&E&F); [lia|]. exists inner. destruct (Hinner2 k inner F) as [H1 H2].
    split; [done|]. split; [done|]. intros e He. rewrite Hlvx. auto. }
  intros outer s1 (S1&F1&M1). destruct S1 as [W1 K1 O1].
  assert (Ha1 : live (s_heap s1) a = Some (Int x old)) by (rewrite (proj2 (K1 a Hha)); exact Ha).
  assert (Hlo : length outer = dom c y) by (rewrite <- (Forall2_length _ _ _ F1); apply seq_length).
  assert (Hsame1 : forall d, d ∈ old -> live (s_heap s1) d = live (s_heap s) d).
  { intros d Hd. apply K1. by eapply held_son. }
  assert (Hout : forall k r, outer !! k = Some r -> k < dom c y /\ held g (s_heap s1) r /\ S l <= rank g (s_heap s1) r /\
    exists inner, Forall2 (fun d e => row (s_heap s) y d !! k = Some e) old inner /\ repr (s_heap s1) x inner r).
  { intros k r Hk. destruct (Forall2_lookup_r _ _ _ _ _ F1 Hk) as (k'&Hk'&(inner&E&R&Hh&Hr)).
    apply lookup_seq in Hk' as [-> Hk']. simpl in *. rewrite Hlvx in Hr. split_and!; try done.
    exists inner. split; [|done]. destruct (Hinner k Hk') as (inner'&E'&F'). rewrite E in E'. by simplify_eq. }
  assert (Hina : forall r, r ∈ outer -> held g (s_heap s1) r /\ S l <= rank g (s_heap s1) r).
  { intros r Hr. apply elem_of_list_lookup_1 in Hr as [k Hk]. destruct (Hout k r Hk) as (_&?&?&_). auto. }
  assert (Hra1 : rank g (s_heap s1) a = l) by (unfold Inv.rank; by rewrite decide_True).
  assert (Hane : a ∉ outer) by (intros X; destruct (Hina a X); lia).
  assert (Haold : a ∉ old) by (intros X; destruct (Hson a X); lia).
  pose proof Ha1 as Ha1'. apply live_Some in Ha1' as (n&Hn&U&B).
  apply wp_bind. unfold modn. apply wp_bind. eapply wp_getn; [exact Hn|exact U|]. apply wp_modify.
  set (h0 := <[a := _]> (s_heap s1)).
  assert (HL0 : forall d, live h0 d = if decide (d = a) then Some (Int y outer) else live (s_heap s1) d).
  { intros d. unfold h0. rewrite live_insert. simpl. by rewrite U. }
  apply wp_bind. apply wp_adopt; [by left| |].
  { intros d Hd. cbn [s_heap set_heap]. rewrite HL0. destruct (decide (d = a)); [done|].
    destruct (Hina d Hd) as [Hh _]. by apply (held_live _ _ _ _ _ _ W1) in Hh as [? _]. }
  cbn [s_heap set_heap]. intros h2 Hh2 Hr2 HM2. rewrite set_heap_set_heap.
  assert (HL2 : forall d, live h2 d = if decide (d = a) then Some (Int y outer) else live (s_heap s1) d).
  { intros d. rewrite (hrel_live h0) by done. apply HL0. }
  assert (W2 : WF (g_set_ext (ext_plus (g_ext g) old) g) (set_heap h2 s1)).
  { apply (WF_rewire g s1 a x y old outer (n_mark n) (n_refs n) h2); try done.
    - intros d Hd. destruct (Hina d Hd) as [Hh Hr]. split; [by apply (held_live _ _ _ _ _ _ W1) in Hh as [? _]|lia].
    - unfold h0 in Hh2. rewrite U in Hh2. exact Hh2.
    - intros d m m' Hm Hm'. destruct (decide (d = a)) as [->|Hne].
      + rewrite (Hr2 a _ m' (lookup_insert _ _ _) Hm'). simpl. assert (m = n) by congruence. by subst.
      + apply Hr2; [|done]. unfold h0. by rewrite lookup_insert_ne. }
  set (g2 := g_set_ext (ext_plus (g_ext g) old) g) in *. set (s2 := set_heap h2 s1) in *.
  assert (Hrk2 : forall d, rank g2 h2 d = rank g (s_heap s1) d).
  { intros d. unfold Inv.rank. simpl. destruct (decide (d ∈ g_fl g)); [done|].
    rewrite HL2, decide_False; [done|]. by intros ->. }
  (* below the new node *)
  assert (Hbelow : forall d k e, d ∈ old -> row (s_heap s) y d !! k = Some e -> reach (live h2) a e).
  { intros d k e Hd He. destruct (Hrow d Hd) as [Hlr _].
    assert (k < length outer) as Hk by (rewrite Hlo, <- Hlr; by eapply lookup_lt_Some).
    apply lookup_lt_is_Some_2 in Hk as [r Hk]. destruct (Hout k r Hk) as (_&_&_&inner&F&R).
    apply elem_of_list_lookup_1 in Hd as [j Hj]. destruct (Forall2_lookup_l _ _ _ _ _ F Hj) as (e'&Hj'&He').
    assert (e' = e) by congruence. subst e'.
    apply (reach_step _ a r e y outer); [by rewrite HL2, decide_True|by eapply elem_of_list_lookup_2|].
    destruct R as [[_ R]|[_ R]].
    - eapply reach_son; [|by eapply elem_of_list_lookup_2]. rewrite HL2, decide_False; [exact R|].
      intros ->. by apply Hane; eapply elem_of_list_lookup_2.
    - rewrite (R e) by (by eapply elem_of_list_lookup_2). constructor. }
  eapply wp_mono.
  { apply (dec_list_spec c opsem strict allowed (S (nvars c)) (dec_try_spec c opsem strict allowed (S (nvars c)))
             old g2 s2 (g_ext g) W2); [exact Hcm|done|].
    intros d Hd. destruct (Hson d Hd) as [Hld Hrd].
    assert (Hda : d <> a) by (by intros ->).
    assert (Hd2 : live h2 d = live (s_heap s) d) by (rewrite HL2, decide_False by done; by apply Hsame1).
    split_and!.
    - intros t v Ht Htv. cbn [s_heap set_heap] in *. exists a. split; [done|].
      change (s_heap s2) with h2 in *.
      destruct (live (s_heap s) d) as [[w|z ss]|] eqn:E; [| |done].
      + eapply reach_trans; [|exact Ht]. apply (Hbelow d 0 d Hd). unfold row. rewrite E. by apply lookup_replicate.
      + destruct (Nat.eqb_spec z y) as [->|Hzy].
        * apply reach_inv in Ht as [<-|(i'&ss'&e&Hi'&He&Het)]; [congruence|].
          rewrite Hd2 in Hi'. injection Hi' as <- <-. apply elem_of_list_lookup_1 in He as [k Hk].
          eapply reach_trans; [|exact Het]. apply (Hbelow d k e Hd). unfold row. rewrite E, Nat.eqb_refl. done.
        * eapply reach_trans; [|exact Ht]. apply (Hbelow d 0 d Hd). unfold row. rewrite E.
          rewrite (proj2 (Nat.eqb_neq _ _) Hzy). by apply lookup_replicate.
    - intros _. change (s_heap s2) with h2. rewrite Hrk2. simpl. rewrite Hflr.
      rewrite (rank_ext c g (s_heap s)); [done|]. by apply Hsame1.
    - change (s_heap s2) with h2. lia. }
  intros _ s3 (W3&G3&_).
  replace (g_set_ext (g_ext g) g2) with g in W3, G3 by (by destruct g).
  assert (Hroot2 : forall r, live (s_heap s1) r <> None -> 0 < g_ext g r \/ r ∈ g_fl g -> held g h2 r).
  { intros r Hr Hr0. apply root_held. split; [|split; [apply Hnd|auto]]. rewrite HL2. by destruct (decide (r = a)). }
  split; [constructor|].
  - exact W3.
  - eapply same_order_trans; [exact O1|]. change (same_order s2 s3). by eapply gcrel_same_order.
  - intros b Hb Hba.
    assert (Hhb : held g (s_heap s) b) by (by apply (fl_held c opsem strict)).
    assert (Eb1 : live (s_heap s1) b = live (s_heap s) b) by (by apply K1).
    assert (Eb2 : live h2 b = live (s_heap s) b) by (by rewrite HL2, decide_False).
    assert (Hlb : live (s_heap s1) b <> None) by (rewrite Eb1; destruct (wf_fl _ _ _ _ _ W b Hb) as (?&?&->); done).
    assert (Hhb2 : held g h2 b) by (apply Hroot2; auto).
    split.
    + rewrite <- Eb2. by apply (gr_keeps _ _ _ G3).
    + intros i ss d Hbs Hd.
      assert (Hbr : rank g (s_heap s) b = l) by (unfold Inv.rank; by rewrite decide_True).
      destruct (wf_son _ _ _ _ _ b i ss d W Hbs (Hnd b) Hd) as (_&Hrd&_). rewrite Hbr in Hrd.
      assert (Hda : d <> a) by (intros ->; lia).
      assert (Ed2 : live h2 d = live (s_heap s) d).
      { rewrite HL2, decide_False by done. apply K1. by eapply held_son. }
      rewrite <- Ed2. apply (gr_keeps _ _ _ G3). change (s_heap s2) with h2. eapply held_son; [exact Hhb2| |exact Hd].
      by rewrite Eb2.
  - intros r rho v Hr Hv HE.
    assert (Hhr : held g (s_heap s) r).
    { destruct Hr as [Hr|Hr]; [by apply (ext_held c opsem strict)|by apply (fl_held c opsem strict)]. }
    assert (HE1 : Ev (live (s_heap s1)) r rho v) by (by eapply keeps_Ev).
    eapply keeps_Ev; [apply G3| |].
    + change (s_heap s2) with h2. apply Hroot2; [|done]. rewrite (proj2 (K1 r Hhr)).
      by apply (held_live _ _ _ _ _ _ W) in Hhr as [? _].
    + change (s_heap s2) with h2.
      eapply (Ev_rewire (live (s_heap s1)) (live h2) a x y old outer); [| exact Ha1| |exact Haold| |exact HE1].
      * intros e He. by rewrite HL2, decide_False.
      * by rewrite HL2, decide_True.
      * intros e j He ->. specialize (Hv y Hy).
        assert (rho y < length outer) as Hk by (by rewrite Hlo).
        apply lookup_lt_is_Some_2 in Hk as [q Hk]. destruct (Hout _ q Hk) as (_&_&_&inner&F&R).
        destruct (Forall2_lookup_l _ _ _ _ _ F He) as (e'&Hj'&He').
        assert (Heo : e ∈ old) by (by eapply elem_of_list_lookup_2).
        exists q, e'. split_and!.
        -- exact Hk.
        -- rewrite (Hsame1 e Heo). unfold row in He'.
           destruct (live (s_heap s) e) as [[w|z ss]|]; [| |];
             try (apply lookup_replicate in He' as [-> _]; done).
           destruct (z =? y); [done|]. apply lookup_replicate in He' as [-> _]. done.
        -- intros ->. by apply Hane; eapply elem_of_list_lookup_2.
        -- destruct R as [[_ R]|[_ R]]; [right; eauto|left]. apply R. by eapply elem_of_list_lookup_2.
  - intros d Hd. apply (gr_marked _ _ _ G3) in Hd. change (s_heap s2) with h2 in Hd. apply HM2 in Hd as [Hd Hdo].
    assert (marked (s_heap s1) d) as Hd1.
    { destruct (decide (d = a)) as [->|Hne].
      - destruct Hd as (m&Hm&Um&Mm). unfold h0 in Hm. rewrite lookup_insert in Hm. injection Hm as <-.
        exists n. done.
      - unfold h0 in Hd. by apply marked_insert_ne in Hd. }
    destruct (M1 d Hd1); [done|]. by contradiction Hdo.
  - (* the sons of the rewritten node *)
    assert (Hha2 : held g h2 a) by (apply Hroot2; [congruence|auto]).
    assert (Ea2 : live h2 a = Some (Int y outer)) by (by rewrite HL2, decide_True).
    exists outer. split.
    + rewrite (proj2 (gr_keeps _ _ _ G3 a Hha2)). exact Ea2.
    + intros d ss Hd Hds. assert (Hda : d <> a) by (by intros ->).
      assert (Hhd2 : held g h2 d) by (by eapply held_son).
      rewrite (proj2 (gr_keeps _ _ _ G3 d Hhd2)) in Hds. change (s_heap s2) with h2 in Hds.
      rewrite HL2, decide_False in Hds by done.
      apply elem_of_list_lookup_1 in Hd as [k Hk]. destruct (Hout k d Hk) as (Hky&_&Hrd&inner&F&R).
      destruct R as [[_ R]|[_ R]]; [congruence|].
      (* a redundant result is one of the inner nodes *)
      destruct (Hinner2 k inner F) as [Hli Hie].
      assert (exists e, e ∈ inner) as [e He].
      { destruct inner as [|e inner]; [simpl in Hli; lia|]. exists e. set_solver. }
      pose proof (R e He) as ->. destruct (Hie d He) as [Hhe Hre].
      rewrite (proj2 (K1 d Hhe)) in Hds.
      destruct (Hdeep g (s_heap s) d y ss) as [_ X]; try done.
Qed.

End swap.
