(** * Nodes and subfunctions, variables and dependence *)

From stdpp Require Import gmap list.
From Coq Require Import ZArith Lia Sorted.
From Verif Require Import Base Ops Tables NodeManager Tools Sift DiagramManager Queries.
From Verif Require Import Heap Inv InvLemmas Prim GC Make Build Canon Apply Api VecSpec Vec Eval Trav QuerySpec QueryProof.

Local Open Scope nat_scope.

Lemma Forall2_choice {A B} (R : A -> B -> Prop) l : (forall x, x ∈ l -> exists y, R x y) -> exists k, Forall2 R l k.
Proof.
  induction l as [|x l IH]; intros H; [by exists []|].
  destruct (H x ltac:(set_solver)) as [y Hy]. destruct IH as [k Hk]; [intros; apply H; set_solver|].
  exists (y :: k). by constructor.
Qed.

Lemma not_const_two (l : list positive) : adj_eq l = false -> exists j k x y, l !! j = Some x /\ l !! k = Some y /\ x <> y.
Proof.
  induction l as [|x [|y l] IH]; [done|done|]. cbn [adj_eq]. intros H. destruct (decide (x = y)) as [->|Hne].
  - rewrite bool_decide_eq_true_2 in H by done. destruct (IH H) as (j&k&u&w&Hj&Hk&Huw). exists (S j), (S k), u, w. done.
  - exists 0, 1, x, y. done.
Qed.

(** ** Descent in an ordered diagram *)
Section ordered.
Context (c : cfg) (order : list nat) (HN : NoDup order) (Hel : forall i, i ∈ order <-> i < nvars c).
Context (L : positive -> option body) (rt : positive) (F : asg -> Z) (OD : ordered_diagram c order L rt F).

(** nothing above level [l] is tested at or below [y] *)
Definition low (l : nat) (y : positive) : Prop := forall i sons, L y = Some (Int i sons) -> exists k, order !! k = Some i /\ l <= k.

Lemma low_reach l y z : reach L rt y -> low l y -> reach L y z -> low l z.
Proof.
  intros Hy Hl H. revert Hy Hl. induction H as [y|y x z i sons E Hx _ IH]; intros Hy Hl; [done|].
  apply IH; [eapply reach_trans; [exact Hy|by eapply reach_son]|].
  intros j ss Ej. destruct (od_int _ _ _ _ _ OD y i sons Hy E) as (_&_&Ho).
  destruct (Ho x j ss Hx Ej) as (k&k'&Hk&Hk'&Hlt). destruct (Hl i sons E) as (k2&Hk2&?).
  pose proof (proj1 (NoDup_alt _) HN _ _ _ Hk Hk2). subst k2. exists k'. split; [done|lia].
Qed.

Lemma descend_ordered l rho : l <= nvars c -> valid c rho ->
  exists y, reach L rt y /\ low l y /\
    forall sigma, valid c sigma -> (forall i, i ∈ take l order -> sigma i = rho i) -> Ev L y sigma (F sigma).
Proof.
  intros Hl Hv. induction l as [|l IH].
  - exists rt. split_and!; [constructor| |intros sigma Hs _; by apply (od_den _ _ _ _ _ OD)].
    intros i sons E. destruct (od_int _ _ _ _ _ OD rt i sons ltac:(constructor) E) as (Hi&_).
    apply Hel, elem_of_list_lookup in Hi as (k&Hk). exists k. split; [done|lia].
  - destruct IH as (y&Hy&Hlow&HE); [lia|].
    destruct (L y) as [[v|i sons]|] eqn:Ey.
    + exists y. split_and!; [done| |].
      * intros i sons E. congruence.
      * intros sigma Hs Hag. apply HE; [done|]. intros i (j&Hj&?)%elem_of_take. apply Hag. apply elem_of_take. exists j. split; [done|lia].
    + destruct (Hlow i sons Ey) as (k&Hk&Hlk).
      destruct (od_int _ _ _ _ _ OD y i sons Hy Ey) as (Hi&Hsl&Ho).
      destruct (decide (k = l)) as [->|Hne].
      * destruct (lookup_lt_is_Some_2 sons (rho i)) as [z Hz]; [rewrite Hsl; by apply Hv|].
        assert (Hzs : z ∈ sons) by (by eapply elem_of_list_lookup_2).
        exists z. split_and!.
        -- eapply reach_trans; [exact Hy|by eapply reach_son].
        -- intros j ss Ej. destruct (Ho z j ss Hzs Ej) as (k1&k2&Hk1&Hk2&Hlt).
           pose proof (proj1 (NoDup_alt _) HN _ _ _ Hk Hk1). subst k1. exists k2. split; [done|lia].
        -- intros sigma Hs Hag. assert (Hsi : sigma i = rho i) by (apply Hag, elem_of_take; exists l; split; [done|lia]).
           assert (HEy : Ev L y sigma (F sigma)).
           { apply HE; [done|]. intros j (m&Hm&?)%elem_of_take. apply Hag. apply elem_of_take. exists m. split; [done|lia]. }
           inversion HEy as [|? ? ? ? ? ? E1 E2 E3]; simplify_eq. rewrite Hsi in E2. by simplify_eq.
      * exists y. split_and!; [done| |].
        -- intros j ss Ej. rewrite Ey in Ej. simplify_eq. exists k. split; [done|lia].
        -- intros sigma Hs Hag. apply HE; [done|]. intros j (m&Hm&?)%elem_of_take. apply Hag. apply elem_of_take. exists m. split; [done|lia].
    + exists y. split_and!; [done| |].
      * intros i sons E. congruence.
      * intros sigma Hs Hag. apply HE; [done|]. intros i (j&Hj&?)%elem_of_take. apply Hag. apply elem_of_take. exists j. split; [done|lia].
Qed.

(** every subfunction is the function of a node *)
Lemma subfun_node l rho : l <= nvars c -> valid c rho ->
  exists y, reach L rt y /\ forall sigma, valid c sigma -> Ev L y sigma (restrict order l rho F sigma).
Proof.
  intros Hl Hv. destruct (descend_ordered l rho Hl Hv) as (y&Hy&Hlow&HE). exists y. split; [done|]. intros sigma Hs.
  set (mix := fun i => if bool_decide (i ∈ take l order) then rho i else sigma i).
  assert (Hm : valid c mix) by (intros i Hi; unfold mix; case_bool_decide; [by apply Hv|by apply Hs]).
  apply (Ev_vars L y mix).
  - intros z i sons Hz Ez. destruct (low_reach l y z Hy Hlow Hz i sons Ez) as (k&Hk&Hlk). unfold mix.
    rewrite bool_decide_eq_false_2; [done|]. intros (j&Hj&?)%elem_of_take.
    pose proof (proj1 (NoDup_alt _) HN _ _ _ Hk Hj). lia.
  - apply HE; [done|]. intros i Hi. unfold mix. by rewrite bool_decide_eq_true_2.
Qed.

(** an ordered diagram has a node for every subfunction *)
Lemma ordered_size Gs (D : list positive) : subfunctions c order F Gs -> (forall y, reach L rt y -> y ∈ D) -> length Gs <= length D.
Proof.
  intros SF HD.
  destruct (Forall2_choice (fun G y => reach L rt y /\ forall sigma, valid c sigma -> Ev L y sigma (G sigma)) Gs) as [ys Hys].
  { intros G HG. apply elem_of_list_In in HG. destruct (sf_sound _ _ _ _ SF G HG) as (l&rho&Hl&Hv&E).
    destruct (subfun_node l rho Hl Hv) as (y&Hy&HE). exists y. split; [done|]. intros sigma Hs. rewrite E by done. auto. }
  rewrite (Forall2_length _ _ _ Hys). apply submseteq_length, NoDup_submseteq.
  - apply NoDup_alt. intros j k y Hj Hk.
    destruct (Forall2_lookup_r _ _ _ _ _ Hys Hj) as (G&HG&_&EG).
    destruct (Forall2_lookup_r _ _ _ _ _ Hys Hk) as (H&HH&_&EH).
    apply (sf_distinct _ _ _ _ SF j k G H HG HH). intros rho Hv. eapply Ev_det; [by apply EG|by apply EH].
  - intros y Hy. apply elem_of_list_lookup in Hy as (j&Hj). apply HD.
    by destruct (Forall2_lookup_r _ _ _ _ _ Hys Hj) as (G&HG&Hr&_).
Qed.
End ordered.

Section minimal.
Context (c : cfg) (opsem : Z -> option (Z -> Z -> Z)) (strict : bool).
Context (g : ghost) (s : st) (Hc : wf_cfg c) (C : calm c opsem strict g s).
Notation L := (live (s_heap s)).
Notation order := (s_l2i s).
Notation rk := (rank c g (s_heap s)).
Notation held := (held g (s_heap s)).
Notation nval := (nval c s).

Lemma held_ordered a F : held a -> (forall rho, valid c rho -> Ev L a rho (F rho)) -> ordered_diagram c order L a F.
Proof.
  intros Ha HF. constructor; [|done]. intros x i sons Hx E.
  assert (Hxh : held x) by (by eapply held_reach).
  destruct (int_facts c opsem strict g s C x i sons Hxh E) as (Hi&Hl&_&Ho&Hs).
  split_and!; try done. intros y j ss Hy Ey. destruct (Hs y Hy) as [Hyh Hr].
  destruct (int_facts c opsem strict g s C y j ss Hyh Ey) as (_&_&_&Ho'&_). exists (rk x), (rk y). split_and!; try done. lia.
Qed.

(** every node is the subfunction of a path that leads to it *)
Lemma reach_path a y : held a -> reach L a y -> exists rho, valid c rho /\
  forall sigma, valid c sigma -> (forall i, i ∈ take (rk y) order -> sigma i = rho i) -> nval a sigma = nval y sigma.
Proof.
  intros Ha H. revert Ha. induction H as [a|a b y i sons E Hb H IH]; intros Ha.
  - exists (fun _ => 0). split; [|done]. intros i Hi. by apply (wc_dom _ Hc).
  - destruct (int_facts c opsem strict g s C a i sons Ha E) as (Hi&Hsl&Hr&Ho&Hs). destruct (Hs b Hb) as [Hbh Hbr].
    destruct (IH Hbh) as (rho&Hv&HE). destruct (reach_rank c opsem strict g s C b y Hbh H) as [Hyh Hry].
    apply elem_of_list_lookup in Hb as (k&Hk).
    assert (Hkd : k < dom c i) by (rewrite <- Hsl; by eapply lookup_lt_Some).
    assert (Hnot : forall l, rk a < l -> i ∉ drop l order).
    { intros l Hl Hin. apply elem_of_list_lookup in Hin as (j&Hj). rewrite lookup_drop in Hj.
      pose proof (proj1 (NoDup_alt _) (order_NoDup c opsem strict g s C) _ _ _ Ho Hj). lia. }
    exists (upd rho i k). split; [by apply upd_valid|]. intros sigma Hsg Hag.
    assert (Hsi : sigma i = k).
    { rewrite Hag; [apply upd_same|]. apply elem_of_take. exists (rk a). split; [done|lia]. }
    assert (Hsv : valid c (upd sigma i (rho i))) by (apply upd_valid; [done|by apply Hv]).
    rewrite (nval_int c opsem strict g s C a sigma i sons b Ha Hsg E) by (by rewrite Hsi).
    rewrite (nval_depends c opsem strict g s C b (rk b) Hbh ltac:(lia) sigma (upd sigma i (rho i)) Hsg Hsv).
    2: { intros j Hj. rewrite upd_other; [done|]. intros ->. by apply (Hnot (rk b)); [lia|]. }
    rewrite HE; [|done|].
    + apply (nval_depends c opsem strict g s C y (rk y) Hyh ltac:(lia)); try done.
      intros j Hj. rewrite upd_other; [done|]. intros ->. by apply (Hnot (rk y)); [lia|].
    + intros j Hj. destruct (decide (j = i)) as [->|Hne]; [apply upd_same|]. rewrite upd_other by done.
      rewrite Hag by done. by apply upd_other.
Qed.

(** functions of two nodes are equal or there is an assignment that shows the difference *)
Lemma nval_differ a b : held a -> held b ->
  fun_eq c (nval a) (nval b) \/ exists rho, valid c rho /\ nval a rho <> nval b rho.
Proof.
  intros Ha Hb.
  destruct (all_sols_all c order (fun _ => 0%Z) 0%Z (order_NoDup c opsem strict g s C) (order_elem c opsem strict g s C)) as [[_ Hall] _].
  set (l := all_sols c order (replicate (nvars c) 0) (fun _ => 0%Z) 0%Z) in *.
  destruct (decide (Forall (fun vals => nval a (of_vals vals) = nval b (of_vals vals)) l)) as [HF|HF].
  - left. intros rho Hv. destruct (vals_of_asg c rho Hv) as [Hok E].
    rewrite Forall_forall in HF. specialize (HF _ (proj2 (Hall _) (conj Hok eq_refl))).
    rewrite (nval_depends_all c opsem strict g s C a Ha rho (of_vals (map rho (seq 0 (nvars c)))) Hv ltac:(apply Hok)).
    2: { intros j Hj%elem_of_seq. rewrite E by lia. done. }
    rewrite HF. apply (nval_depends_all c opsem strict g s C b Hb); [apply Hok|done|].
    intros j Hj%elem_of_seq. rewrite E by lia. done.
  - right. apply not_Forall_Exists in HF; [|solve_decision]. apply Exists_exists in HF as (vals&Hin&Hne).
    apply Hall in Hin as [[_ Hv] _]. exists (of_vals vals). done.
Qed.

(** no redundant node and no two nodes with the same function below [a] *)
Definition tight (a : positive) : Prop :=
  (forall x y, reach L a x -> reach L a y -> fun_eq c (nval x) (nval y) -> x = y) /\
  forall x i sons, reach L a x -> L x = Some (Int i sons) -> adj_eq sons = false.

Lemma nodes_subfunctions_in a D : tight a -> held a -> NoDup D -> (forall x, x ∈ D <-> reach L a x) ->
  subfunctions c order (nval a) (map nval D).
Proof.
  intros T Ha ND HD. constructor.
  - intros G HG. apply in_map_iff in HG as (x&<-&Hx). apply elem_of_list_In, HD in Hx.
    destruct (reach_path a x Ha Hx) as (rho&Hv&HE). destruct (reach_rank c opsem strict g s C a x Ha Hx) as [Hxh _].
    exists (rk x), rho. split_and!; [by apply (held_rank c opsem strict g s C)|done|].
    intros sigma Hs. unfold restrict. set (mix := fun i => if bool_decide (i ∈ take (rk x) order) then rho i else sigma i).
    assert (Hm : valid c mix) by (intros i Hi; unfold mix; case_bool_decide; [by apply Hv|by apply Hs]).
    change (nval x sigma = nval a mix). rewrite HE; [|done|].
    + apply (nval_depends c opsem strict g s C x (rk x) Hxh ltac:(lia)); try done.
      intros j Hj. unfold mix. rewrite bool_decide_eq_false_2; [done|].
      intros (k&Hk&?)%elem_of_take. apply elem_of_list_lookup in Hj as (m&Hm'). rewrite lookup_drop in Hm'.
      pose proof (proj1 (NoDup_alt _) (order_NoDup c opsem strict g s C) _ _ _ Hk Hm'). lia.
    + intros i Hi. unfold mix. by rewrite bool_decide_eq_true_2.
  - intros l rho Hl Hv.
    destruct (subfun_node c order (order_NoDup c opsem strict g s C) (order_elem c opsem strict g s C) L a (nval a)
      (held_ordered a (nval a) Ha (fun rho Hr => nval_Ev c opsem strict g s C a rho Ha Hr)) l rho Hl Hv) as (y&Hy&HE).
    exists (nval y). split; [apply in_map, elem_of_list_In; by apply HD|].
    intros sigma Hs. apply (Ev_nval c opsem strict g s C); [by eapply held_reach|done|auto].
  - intros j k G H. rewrite !list_lookup_fmap. intros Hj Hk E.
    destruct (D !! j) as [x|] eqn:Ex; [|done]. destruct (D !! k) as [y|] eqn:Ey; [|done]. simpl in *. simplify_eq.
    assert (x = y) as <-.
    { apply T; [| |done]; apply HD; by eapply elem_of_list_lookup_2. }
    by eapply (proj1 (NoDup_alt _) ND).
Qed.

(** a variable occurs iff the function depends on it *)
Lemma occurs_essential_in a i : tight a -> held a ->
  (exists x sons, reach L a x /\ L x = Some (Int i sons)) <-> essential_var c (nval a) i.
Proof.
  intros T Ha. split.
  - intros (x&sons&Hx&E). assert (Hxh : held x) by (by eapply held_reach).
    destruct (int_facts c opsem strict g s C x i sons Hxh E) as (Hi&Hsl&Hr&Ho&Hs).
    destruct (not_const_two sons (proj2 T x i sons Hx E)) as (k&k'&d&e&Hd&He&Hne).
    destruct (Hs d ltac:(by eapply elem_of_list_lookup_2)) as [Hdh Hdr].
    destruct (Hs e ltac:(by eapply elem_of_list_lookup_2)) as [Heh Her].
    assert (Hk : k < dom c i) by (rewrite <- Hsl; by eapply lookup_lt_Some).
    assert (Hk' : k' < dom c i) by (rewrite <- Hsl; by eapply lookup_lt_Some).
    destruct (nval_differ d e Hdh Heh) as [HF|(rho&Hv&Hdiff)]; [|].
    { destruct Hne. apply T; [| |done]; (eapply reach_trans; [exact Hx|]); eapply reach_son; try exact E; by eapply elem_of_list_lookup_2. }
    destruct (reach_path a x Ha Hx) as (pth&Hpv&HE).
    set (mix := fun i => if bool_decide (i ∈ take (rk x) order) then pth i else rho i).
    assert (Hm : valid c mix) by (intros j Hj; unfold mix; case_bool_decide; [by apply Hpv|by apply Hv]).
    assert (Hin : i ∉ take (rk x) order).
    { intros (j&Hj&?)%elem_of_take. pose proof (proj1 (NoDup_alt _) (order_NoDup c opsem strict g s C) _ _ _ Ho Hj). lia. }
    assert (Hval : forall m f, sons !! m = Some f -> m < dom c i -> held f -> rk x < rk f -> nval a (upd mix i m) = nval f rho).
    { intros m f Hf Hmd Hfh Hfr. assert (Hu : valid c (upd mix i m)) by (by apply upd_valid).
      rewrite HE; [|done|].
      - rewrite (nval_int c opsem strict g s C x _ i sons f Hxh Hu E) by (by rewrite upd_same).
        apply (nval_depends c opsem strict g s C f (rk f) Hfh ltac:(lia)); try done.
        intros j Hj. apply elem_of_list_lookup in Hj as (q&Hq). rewrite lookup_drop in Hq.
        rewrite upd_other.
        + unfold mix. rewrite bool_decide_eq_false_2; [done|]. intros (p&Hp&?)%elem_of_take.
          pose proof (proj1 (NoDup_alt _) (order_NoDup c opsem strict g s C) _ _ _ Hp Hq). lia.
        + intros ->. pose proof (proj1 (NoDup_alt _) (order_NoDup c opsem strict g s C) _ _ _ Ho Hq). lia.
      - intros j Hj. rewrite upd_other by (intros ->; done). unfold mix. by rewrite bool_decide_eq_true_2. }
    split; [done|]. exists mix, k, k'. split_and!; try done.
    rewrite (Hval k d), (Hval k' e); try done; lia.
  - intros (Hi&rho&k&k'&Hv&Hk&Hk'&Hne).
    (* the diagram is finite: search for the variable *)
    assert (Hdec : forall (l : list positive) fuel, (forall x, x ∈ l -> held x /\ nvars c - rk x < fuel) ->
      (exists x sons, (exists y, y ∈ l /\ reach L y x) /\ L x = Some (Int i sons)) \/
      (forall x sons y, y ∈ l -> reach L y x -> L x <> Some (Int i sons))).
    { intros l fuel. revert l. induction fuel as [|fuel IH]; intros l Hl.
      - right. intros x sons y Hy. destruct (Hl y Hy). lia.
      - induction l as [|y l IHl]; [right; intros x sons y Hy; by apply elem_of_nil in Hy|].
        destruct IHl as [(x&sons&(z&Hz&Hr)&E)|Hno]; [intros; apply Hl; set_solver|left; exists x, sons; split; [exists z; set_solver|done]|].
        destruct (Hl y ltac:(set_solver)) as [Hyh Hyf]. destruct (held_body c opsem strict g s C y Hyh) as [b Eb].
        destruct b as [w|j sons].
        + right. intros x ss z [->|Hz]%elem_of_cons Hr; [|by apply (Hno x ss z)].
          apply reach_inv in Hr as [->|(?&?&?&E&_)]; congruence.
        + destruct (decide (j = i)) as [->|Hj].
          * left. exists y, sons. split; [exists y; split; [set_solver|constructor]|done].
          * destruct (int_facts c opsem strict g s C y j sons Hyh Eb) as (_&_&_&_&Hs).
            destruct (IH sons) as [(x&ss&(z&Hz&Hr)&E)|Hno'].
            { intros z Hz. destruct (Hs z Hz) as [Hzh Hzr]. split; [done|lia]. }
            -- left. exists x, ss. split; [|done]. exists y. split; [set_solver|]. by eapply reach_step.
            -- right. intros x ss z [->|Hz]%elem_of_cons Hr; [|by apply (Hno x ss z)].
               apply reach_inv in Hr as [->|(j'&sons'&z&E&Hz&Hr)]; [congruence|]. rewrite Eb in E. simplify_eq.
               by apply (Hno' x ss z). }
    destruct (Hdec [a] (S (nvars c))) as [(x&sons&(y&Hy&Hr)&E)|Hno].
    { intros x ->%elem_of_list_singleton. split; [done|lia]. }
    + apply elem_of_list_singleton in Hy as ->. by exists x, sons.
    + destruct Hne. apply (Ev_nval c opsem strict g s C a (upd rho i k) (nval a (upd rho i k')) Ha ltac:(by apply upd_valid)).
      apply (Ev_vars L a (upd rho i k')).
      * intros x j ss Hx E. destruct (decide (j = i)) as [->|Hj]; [by destruct (Hno x ss a); [set_solver|..]|].
        by rewrite !upd_other.
      * apply (nval_Ev c opsem strict g s C a _ Ha). by apply upd_valid.
Qed.
Context (Hcn : g_cn g = true).

Lemma nval_canon a b : held a -> held b -> fun_eq c (nval a) (nval b) -> a = b.
Proof.
  intros Ha Hb H. apply (canonical c opsem strict g s Hc (cl_wf _ _ _ _ _ C) (cl_quiet _ _ _ _ _ C) (cl_ord _ _ _ _ _ C) Hcn).
  - apply (held_live c opsem strict g s a (cl_wf _ _ _ _ _ C) Ha).
  - apply (held_live c opsem strict g s b (cl_wf _ _ _ _ _ C) Hb).
  - intros rho v Hv HE. apply (Ev_nval c opsem strict g s C b rho v Hb Hv). rewrite <- H by done.
    by apply (Ev_nval c opsem strict g s C a rho v Ha Hv).
Qed.

Lemma canon_tight a : held a -> tight a.
Proof.
  intros Ha. split.
  - intros x y Hx Hy. apply nval_canon; by eapply held_reach.
  - intros x i sons _ E. destruct (wf_canon _ _ _ _ _ (cl_wf _ _ _ _ _ C) Hcn) as [_ C2]. by eapply C2.
Qed.

Lemma nodes_subfunctions a D : held a -> NoDup D -> (forall x, x ∈ D <-> reach L a x) ->
  subfunctions c order (nval a) (map nval D).
Proof. intros Ha. apply nodes_subfunctions_in; [by apply canon_tight|done]. Qed.

(** a variable occurs iff the function depends on it *)
Lemma occurs_essential a i : held a ->
  (exists x sons, reach L a x /\ L x = Some (Int i sons)) <-> essential_var c (nval a) i.
Proof. intros Ha. apply occurs_essential_in; [by apply canon_tight|done]. Qed.
End minimal.
