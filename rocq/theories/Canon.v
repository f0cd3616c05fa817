(** * Canonicity: live nodes with the same function are the same node *)

From stdpp Require Import gmap list.
From Coq Require Import ZArith Lia.
From Verif Require Import Base Ops Tables NodeManager Heap Inv InvLemmas Prim TabLemmas GC Make Build.

Local Open Scope nat_scope.

Lemma adj_eq_const l b : (forall x, x ∈ l -> x = b) -> adj_eq l = true.
Proof.
  induction l as [|x [|y l] IH]; intros H; [done|done|].
  cbn [adj_eq]. apply andb_true_iff. split.
  - apply bool_decide_eq_true. rewrite (H x), (H y); set_solver.
  - apply IH. intros z Hz. apply H. set_solver.
Qed.

Section canon.
Context (c : cfg) (opsem : Z -> option (Z -> Z -> Z)) (strict : bool).
Notation rank := (rank c).
Notation WF := (WF c opsem strict).

Definition same_fun (s : st) (a b : positive) : Prop :=
  forall rho v, valid c rho -> Ev (live (s_heap s)) a rho v -> Ev (live (s_heap s)) b rho v.

Lemma same_fun_sym g s a b :
  WF g s -> quiet g -> live (s_heap s) a <> None -> same_fun s a b -> same_fun s b a.
Proof.
  intros W [Hdy _] Ha H rho v Hv Hb.
  destruct (Ev_total _ _ _ g s a rho W Ha) as (w&Hw&_); [by rewrite Hdy; set_solver|done|].
  rewrite (Ev_det _ _ _ _ _ Hb (H rho w Hv Hw)). done.
Qed.

(** the son of a node with the function of a deeper node *)
Lemma same_fun_son g s a b i sons k d :
  WF g s -> quiet g -> live (s_heap s) a = Some (Int i sons) -> live (s_heap s) b <> None ->
  sons !! k = Some d -> g_lv g i < rank g (s_heap s) b -> same_fun s b a -> same_fun s b d.
Proof.
  intros W Hq La Lb Hk Hr H rho v Hv Hb. pose proof Hq as [Hdy _].
  destruct (wf_node _ _ _ _ _ W a _ La) as (Hi&Hlen&_&_).
  assert (Hin : d ∈ sons) by (by eapply elem_of_list_lookup_2).
  destruct (wf_son _ _ _ _ _ _ _ _ d W La ltac:(rewrite Hdy; set_solver) Hin) as (Ld&Hrd&_).
  rewrite (rank_int c g _ _ _ _ Hq La) in Hrd.
  assert (Hkd : k < dom c i) by (rewrite <- Hlen; by eapply lookup_lt_Some).
  apply (Ev_deeper c opsem strict g s d rho i k v W Hq Ld Hi Hrd).
  assert (HA : Ev (live (s_heap s)) a (upd rho i k) v).
  { apply H; [by apply valid_upd|]. by apply (Ev_deeper c opsem strict g s b rho i k v W Hq Lb Hi Hr). }
  inversion HA; simplify_eq. rewrite upd_same in *. simplify_eq. done.
Qed.

(** nodes of a set that is closed under sons, holds no redundant node and no two
    nodes with the same variable and sons *)
Lemma canonical_in g s (X : positive -> Prop) : wf_cfg c -> WF g s -> quiet g -> ord c g s ->
  (forall a, X a -> live (s_heap s) a <> None) ->
  (forall a i sons d, X a -> live (s_heap s) a = Some (Int i sons) -> d ∈ sons -> X d) ->
  (forall a a' i sons, X a -> X a' -> live (s_heap s) a = Some (Int i sons) ->
     live (s_heap s) a' = Some (Int i sons) -> a = a') ->
  (forall a i sons, X a -> live (s_heap s) a = Some (Int i sons) -> adj_eq sons = false) ->
  forall a b, X a -> X b -> same_fun s a b -> a = b.
Proof.
  intros Hc W Hq O XL XS C1 C2 a b. pose proof Hq as [Hdy _].
  remember (nvars c - rank g (s_heap s) a + (nvars c - rank g (s_heap s) b)) as m eqn:Em.
  revert a b Em. induction m as [m IH] using lt_wf_ind. intros a b Em Xa Xb H.
  pose proof (XL a Xa) as La. pose proof (XL b Xb) as Lb.
  pose proof (rank_le _ _ _ g s a W La) as Ra. pose proof (rank_le _ _ _ g s b W Lb) as Rb.
  pose proof (same_fun_sym g s a b W Hq La H) as H'.
  (* a node strictly above another one is redundant *)
  assert (Hred : forall a b, m = nvars c - rank g (s_heap s) a + (nvars c - rank g (s_heap s) b) ->
    X a -> X b ->
    same_fun s b a -> rank g (s_heap s) a < rank g (s_heap s) b -> False).
  { clear a b Em Xa Xb La Lb H H' Ra Rb. intros a b Em Xa Xb H Hlt.
    pose proof (XL a Xa) as La. pose proof (XL b Xb) as Lb.
    pose proof (rank_le _ _ _ g s b W Lb) as Rb.
    destruct (live (s_heap s) a) as [[v|i sons]|] eqn:E; [| |done].
    { rewrite (rank_term c g _ _ _ Hq E) in Hlt. lia. }
    pose proof (C2 a i sons Xa E) as Hadj. enough (adj_eq sons = true) by congruence.
    apply (adj_eq_const sons b). intros d Hd.
    apply elem_of_list_lookup in Hd as [k Hk].
    assert (Hin : d ∈ sons) by (by eapply elem_of_list_lookup_2).
    destruct (wf_son _ _ _ _ _ _ _ _ d W E ltac:(rewrite Hdy; set_solver) Hin) as (Ld&Hrd&_).
    pose proof (rank_le _ _ _ g s d W Ld) as Rd.
    symmetry. eapply (IH (nvars c - rank g (s_heap s) b + (nvars c - rank g (s_heap s) d))); [lia|done|done|exact (XS a i sons d Xa E Hin)|].
    eapply same_fun_son; try done. by rewrite <- (rank_int c g _ _ _ _ Hq E). }
  destruct (Nat.lt_trichotomy (rank g (s_heap s) a) (rank g (s_heap s) b)) as [Hlt|[Heq|Hlt]].
  - exfalso. by eapply (Hred a b).
  - destruct (live (s_heap s) a) as [[v|i sons]|] eqn:Ea; [| |done];
    destruct (live (s_heap s) b) as [[w|j sons']|] eqn:Eb; [| |done| | |done].
    + assert (v = w) as <-.
      { pose proof (H (fun _ => 0) v (valid_ex c Hc) (Ev_term _ _ _ _ Ea)) as HE.
        inversion HE; congruence. }
      destruct (decide (v = Undef)) as [->|Hne].
      * pose proof (wf_spec2 _ _ _ _ _ W a Ea). pose proof (wf_spec2 _ _ _ _ _ W b Eb). congruence.
      * pose proof (wf_term2 _ _ _ _ _ W a v Ea Hne). pose proof (wf_term2 _ _ _ _ _ W b v Eb Hne). congruence.
    + destruct (wf_node _ _ _ _ _ W b _ Eb) as (?&_&?&_). rewrite (rank_term c g _ _ _ Hq Ea) in Heq. lia.
    + destruct (wf_node _ _ _ _ _ W a _ Ea) as (?&_&?&_). rewrite (rank_term c g _ _ _ Hq Eb) in Heq. lia.
    + destruct (wf_node _ _ _ _ _ W a _ Ea) as (Hi&Hlen&_&_).
      destruct (wf_node _ _ _ _ _ W b _ Eb) as (Hj&Hlen'&_&_).
      pose proof Heq as Heq'.
      rewrite (rank_int c g _ _ _ _ Hq Ea), (rank_int c g _ _ _ _ Hq Eb) in Heq'.
      assert (j = i) as -> by (symmetry; eapply ord_inj; eauto).
      assert (sons = sons') as <-; [|by eapply (C1 a b i sons)].
      apply list_eq. intros k. destruct (sons !! k) as [d|] eqn:Ed.
      2:{ symmetry. apply lookup_ge_None. apply lookup_ge_None in Ed. lia. }
      destruct (lookup_lt_is_Some_2 sons' k) as [d' Ed'].
      { rewrite Hlen', <- Hlen. by eapply lookup_lt_Some. }
      rewrite Ed'. f_equal.
      assert (Hin : d ∈ sons) by (by eapply elem_of_list_lookup_2).
      assert (Hin' : d' ∈ sons') by (by eapply elem_of_list_lookup_2).
      destruct (wf_son _ _ _ _ _ _ _ _ d W Ea ltac:(rewrite Hdy; set_solver) Hin) as (Ld&Hrd&_).
      destruct (wf_son _ _ _ _ _ _ _ _ d' W Eb ltac:(rewrite Hdy; set_solver) Hin') as (Ld'&Hrd'&_).
      pose proof (rank_le _ _ _ g s d W Ld). pose proof (rank_le _ _ _ g s d' W Ld').
      eapply (IH (nvars c - rank g (s_heap s) d + (nvars c - rank g (s_heap s) d'))); [lia|done|by apply (XS a i sons)|by apply (XS b i sons')|].
      intros rho v Hv Hd.
      rewrite (rank_int c g _ _ _ _ Hq Ea) in Hrd. rewrite (rank_int c g _ _ _ _ Hq Eb) in Hrd'.
      apply (Ev_deeper c opsem strict g s d' rho i k v W Hq Ld' Hi Hrd').
      assert (HB : Ev (live (s_heap s)) b (upd rho i k) v).
      { apply H. - apply valid_upd; [done|]. rewrite <- Hlen. by eapply lookup_lt_Some.
        - eapply Ev_int; [done|by rewrite upd_same|].
          by apply (Ev_deeper c opsem strict g s d rho i k v W Hq Ld Hi Hrd). }
      inversion HB; simplify_eq. rewrite upd_same in *. simplify_eq. done.
  - exfalso. eapply (Hred b a); try done. rewrite Em. lia.
Qed.

Lemma canonical g s : wf_cfg c -> WF g s -> quiet g -> ord c g s -> g_cn g = true ->
  forall a b, live (s_heap s) a <> None -> live (s_heap s) b <> None -> same_fun s a b -> a = b.
Proof.
  intros Hc W Hq O Hcn. destruct (wf_canon _ _ _ _ _ W Hcn) as [C1 C2].
  apply (canonical_in g s (fun a => live (s_heap s) a <> None)); try done; [|naive_solver..].
  intros a i sons d _ La Hd. destruct Hq as [Hdy _].
  destruct (wf_son _ _ _ _ _ _ _ _ d W La ltac:(rewrite Hdy; set_solver) Hd) as (?&_). done.
Qed.

End canon.
