(** * from_expression_tree *)

From stdpp Require Import gmap list.
From Coq Require Import ZArith Lia.
From Verif Require Import Base Ops Tables NodeManager Tools Sift DiagramManager.
From Verif Require Import Heap Inv InvLemmas Prim TabLemmas GC Make Build Apply Api Constr.

Local Open Scope nat_scope.

(** value of an expression tree *)
Fixpoint xeval (e : expr) (rho : asg) : Z :=
  match e with
  | XConst v => v
  | XVar i => Z.of_nat (rho i)
  | XOp f x y => f (xeval x rho) (xeval y rho)
  end.

Section xok.
Context (c : cfg).

(** the tree mentions existing variables and produces values that can be stored *)
Fixpoint xok (e : expr) : Prop :=
  match e with
  | XConst v => tval c v
  | XVar i => i < nvars c
  | XOp f x y => xok x /\ xok y /\
      forall rho, valid c rho -> tval c (f (xeval x rho) (xeval y rho))
  end.
End xok.

Section expr.
Context (c : cfg) (opsem : Z -> option (Z -> Z -> Z)) (strict : bool).
Notation rank := (rank c).
Notation WF := (WF c opsem strict).
Notation sstep := (sstep c opsem strict).
Notation bstep := (bstep c opsem strict).
Notation bres := (bres c opsem strict).
Notation allowed := (allowed strict).
Notation calm := (calm c opsem strict).
Notation anew := (anew c opsem strict).
Notation lstep := (lstep c opsem strict).

Lemma Ev_tval g s a rho v : WF g s -> Ev (live (s_heap s)) a rho v -> tval c v.
Proof.
  intros W H. induction H as [a rho v Ha|]; [|done].
  by apply (wf_node _ _ _ _ _ W a _ Ha).
Qed.

Definition pc_ok (g : ghost) (s0 s : st) (f : Z -> Z -> Z) (m : packcache) : Prop :=
  forall k l r res, m !! k = Some (l, r, res) ->
    held g (s_heap s) res /\
    Nat.min (rank g (s_heap s0) l) (rank g (s_heap s0) r) <= rank g (s_heap s) res /\
    forall rho v, valid c rho -> lifted (live (s_heap s0)) f l r rho v -> Ev (live (s_heap s)) res rho v.

Lemma pc_ok_step g s0 s s' f m : sstep g s s' -> pc_ok g s0 s f m -> pc_ok g s0 s' f m.
Proof.
  intros S H k l r res Hm. destruct (H k l r res Hm) as (H1&H2&H3). pose proof (ss_keeps _ _ _ _ _ _ S) as K.
  split_and!; [by apply K|by rewrite (keeps_rank c g _ _ _ K H1)|].
  intros. eapply keeps_Ev; eauto.
Qed.

Lemma pc_ok_insert g s0 s s1 f m k l r res :
  pc_ok g s0 s1 f m ->
  bstep g s s1 (Nat.min (rank g (s_heap s0) l) (rank g (s_heap s0) r)) res (lifted (live (s_heap s0)) f l r) ->
  pc_ok g s0 s1 f (<[k := (l, r, res)]> m).
Proof.
  unfold pc_ok, packcache in *. intros H [A B D E _] k' l' r' res'. destruct (decide (k' = k)) as [->|Hne].
  - rewrite lookup_insert. intros; simplify_eq. auto.
  - rewrite lookup_insert_ne by done. apply H.
Qed.

Lemma apply_n_impl_spec f g s0 fuel :
  wf_cfg c -> WF g s0 -> quiet g -> ord c g s0 ->
  forall l r m s, sstep g s0 s -> held g (s_heap s0) l -> held g (s_heap s0) r ->
  (forall rho x y, valid c rho -> Ev (live (s_heap s0)) l rho x -> Ev (live (s_heap s0)) r rho y ->
     tval c (f x y)) ->
  pc_ok g s0 s f m ->
  nvars c - Nat.min (rank g (s_heap s0) l) (rank g (s_heap s0) r) < fuel ->
  wp allowed (apply_n_impl c fuel (lift_op f) m (l, r)) (fun ma s2 =>
    bstep g s s2 (Nat.min (rank g (s_heap s0) l) (rank g (s_heap s0) r)) (snd ma)
      (lifted (live (s_heap s0)) f l r) /\ pc_ok g s0 s2 f (fst ma)) s.
Proof.
  intros Hc W0 Hq O. induction fuel as [|fuel IH]; intros l r m s S Hl Hr Hgood Hm Hf; [lia|].
  cbn [apply_n_impl]. unfold pack_lookup.
  pose proof (ss_wf _ _ _ _ _ _ S) as W. pose proof (ss_keeps _ _ _ _ _ _ S) as K.
  assert (Hhit : forall l' r' a, m !! pack_slot c l r = Some (l', r', a) -> l' = l -> r' = r ->
    bstep g s s (Nat.min (rank g (s_heap s0) l) (rank g (s_heap s0) r)) a (lifted (live (s_heap s0)) f l r)).
  { intros l' r' a E -> ->. destruct (Hm _ _ _ _ E) as (?&?&?). by apply bstep_same. }
  destruct (match m !! pack_slot c l r with Some _ => _ | None => _ end) as [a|] eqn:Elk.
  { destruct (m !! pack_slot c l r) as [[[l' r'] a']|] eqn:E; [|done].
    destruct (bool_decide (l' = l) && bool_decide (r' = r)) eqn:Eb; [|done]. simplify_eq.
    apply andb_true_iff in Eb as [?%bool_decide_eq_true ?%bool_decide_eq_true].
    apply wp_ret. simpl. split; [by eapply Hhit|done]. }
  clear Elk Hhit.
  destruct (held_live _ _ _ _ _ _ W0 Hl) as [Ll Ld]. destruct (held_live _ _ _ _ _ _ W0 Hr) as [Lr Lrd].
  destruct (K l Hl) as [Hl1 El1]. destruct (K r Hr) as [Hr1 Er1].
  destruct (held_live _ _ _ _ _ _ W Hl1) as [Ll1 _]. destruct (held_live _ _ _ _ _ _ W Hr1) as [Lr1 _].
  pose proof Ll1 as Ll1'. pose proof Lr1 as Lr1'.
  apply live_not_None in Ll1 as (ln&Hln&Uln). apply live_not_None in Lr1 as (rn&Hrn&Urn).
  apply wp_bind. eapply wp_getn; [done..|]. apply wp_bind. eapply wp_getn; [done..|].
  pose proof (live_of _ _ _ Hln Uln) as El2. pose proof (live_of _ _ _ Hrn Urn) as Er2.
  rewrite El1 in El2. rewrite Er1 in Er2.
  pose proof (rank_le _ _ _ g s0 l W0 Ll) as Rl. pose proof (rank_le _ _ _ g s0 r W0 Lr) as Rr.
  set (top := Nat.min (rank g (s_heap s0) l) (rank g (s_heap s0) r)) in *.
  match goal with |- wp _ (let* ma := ?e in _) _ _ => set (body := e) end.
  assert (HB : wp allowed body (fun ma s2 =>
     bstep g s s2 top (snd ma) (lifted (live (s_heap s0)) f l r) /\ pc_ok g s0 s2 f (fst ma)) s).
  2:{ apply wp_bind. eapply wp_mono; [exact HB|]. intros [m1 a] s1 [B Hm1]. simpl in *.
      apply wp_ret. simpl. split; [done|]. by eapply pc_ok_insert. }
  unfold body. clear body.
  assert (Hterm : forall x y, live (s_heap s0) l = Some (Term x) -> live (s_heap s0) r = Some (Term y) ->
     tval c (f x y)).
  { intros x y Hx Hy. apply (Hgood (fun _ => 0)); [by apply valid_ex|by apply Ev_term|by apply Ev_term]. }
  assert (Hcase : (exists x y, live (s_heap s0) l = Some (Term x) /\ live (s_heap s0) r = Some (Term y) /\
       lift_op f (term_val ln) (term_val rn) = f x y /\ f x y <> Nondet) \/
     (lift_op f (term_val ln) (term_val rn) = Nondet /\ top < nvars c)).
  { unfold lift_op, term_val. destruct (n_body ln) as [x|i sons] eqn:Bl.
    - destruct (wf_node _ _ _ _ _ W0 l _ El2) as [Tx _].
      rewrite (proj2 (Z.eqb_neq x Nondet)) by (by eapply tval_not_Nondet). simpl.
      destruct (n_body rn) as [y|i sons] eqn:Br.
      + destruct (wf_node _ _ _ _ _ W0 r _ Er2) as [Ty _].
        rewrite (proj2 (Z.eqb_neq y Nondet)) by (by eapply tval_not_Nondet).
        left. exists x, y. split_and!; try done. eapply tval_not_Nondet. by apply Hterm.
      + right. split; [done|]. destruct (wf_node _ _ _ _ _ W0 r _ Er2) as (_&_&?&_). lia.
    - right. split; [done|]. destruct (wf_node _ _ _ _ _ W0 l _ El2) as (_&_&?&_). lia. }
  destruct Hcase as [(x&y&Hx&Hy&Ev0&Hn)|[Ev0 Htop]]; rewrite Ev0.
  - rewrite (proj2 (Z.eqb_neq _ _) Hn). simpl. apply wp_bind. eapply wp_mono.
    { apply (bstep_terminal c opsem strict g s); try done; [by eapply ord_sstep|by apply Hterm]. }
    intros a s1 B. apply wp_ret. simpl. split; [|eapply pc_ok_step; [apply B|done]].
    eapply bstep_weaken; [exact B|lia|]. intros rho v Hv (x'&y'&Hx'&Hy'&->).
    inversion Hx'; inversion Hy'; congruence.
  - simpl.
    apply wp_bind. apply (get_level_spec c opsem strict allowed g); try done; [by eapply ord_sstep|].
    apply wp_bind. apply (get_level_spec c opsem strict allowed g); try done; [by eapply ord_sstep|].
    rewrite (keeps_rank c g _ _ _ K Hl), (keeps_rank c g _ _ _ K Hr). fold top.
    destruct (perm_l2i_ex c s0 top (ord_perm _ _ _ O) Htop) as (i&Hi&Hin).
    apply wp_bind. eapply wp_index_at.
    { destruct (ss_same _ _ _ _ _ _ S) as (->&_). done. }
    assert (Elv : g_lv g i = top).
    { pose proof (proj2 O i Hin) as E. apply (pm_inv _ _ (ord_perm _ _ _ O)) in Hi. congruence. }
    set (F := fun k rho v => rho i = k /\ lifted (live (s_heap s0)) f l r rho v).
    apply wp_bind. eapply wp_mono.
    { apply (wp_mapMs allowed _ (fun m acc s1 => bres g s s1 (g_lv g i) acc F /\ pc_ok g s0 s1 f m)).
      2:{ split; [by apply bres_nil|done]. }
      intros k k' m1 acc s1 Hk Hacc [B Hm1].
      apply lookup_seq in Hk as [-> Hk]. simpl.
      assert (S1 : sstep g s0 s1) by (eapply sstep_trans; [exact S|apply B]).
      apply wp_bind. rewrite <- Elv at 1.
      apply (descend_spec c opsem strict allowed g s0 s1 l i k); try done; [lia|].
      intros l' Hl' Hrl' Ul Dl _. apply wp_bind. rewrite <- Elv at 1.
      apply (descend_spec c opsem strict allowed g s0 s1 r i k); try done; [lia|].
      intros r' Hr' Hrr' Ur Dr _.
      eapply wp_mono.
      { apply (IH l' r' m1 s1); try done; [|lia].
        intros rho x y Hv Hx Hy.
        apply (Hgood (upd rho i k)); [by apply valid_upd|by apply Ul|by apply Ur]. }
      intros [m2 a] s2 [B2 Hm2]. simpl in *. split; [|done]. eapply bres_snoc; [exact B|].
      eapply bstep_weaken; [exact B2|lia|].
      intros rho v Hv [Hrho (x&y&Hx&Hy&->)]. rewrite Hacc in Hrho.
      exists x, y. split_and!; auto. }
    intros [m1 acc] s1 [[B Hm1] Hlen]. simpl in *. rewrite seq_length in Hlen.
    pose proof (br_step _ _ _ _ _ _ _ _ _ B) as S1.
    apply wp_bind. eapply wp_mono.
    { eapply (bres_make c opsem strict g s s1 i acc F); try done.
      eapply ord_sstep; [|exact O]. by eapply sstep_trans. }
    intros a s2 [B2 S2]. apply wp_ret. simpl. split; [|by eapply pc_ok_step].
    eapply bstep_weaken; [exact B2|lia|]. intros rho v Hv Hlft. by split.
Qed.

Lemma from_expression_impl_spec g e :
  wf_cfg c -> xok c e -> forall s, calm g s ->
  wp allowed (from_expression_impl c e) (fun r s' => lstep g s s' r (fun rho v => v = xeval e rho)) s.
Proof.
  intros Hc. induction e as [v|i|f x IHx y IHy]; intros Hok s C; simpl in Hok.
  - cbn [from_expression_impl]. eapply wp_mono; [apply (bstep_terminal c opsem strict g s v); try done; apply C|].
    intros r s' B. eapply bstep_lstep. exact B.
  - cbn [from_expression_impl]. eapply wp_mono.
    { apply (variable_impl_spec c opsem strict g s s i); try done. apply sstep_refl, C. }
    intros r s' B. eapply bstep_lstep. exact B.
  - destruct Hok as (Hx&Hy&Hf). cbn [from_expression_impl].
    apply wp_bind. eapply wp_mono; [by apply (IHx Hx s)|]. intros l s1 [S1 H1 E1].
    pose proof (calm_sstep _ _ _ _ _ _ C S1) as C1.
    apply wp_bind. eapply wp_mono; [by apply (IHy Hy s1)|]. intros r s2 [S2 H2 E2].
    pose proof (calm_sstep _ _ _ _ _ _ C1 S2) as C2.
    pose proof (ss_keeps _ _ _ _ _ _ S2) as K2.
    assert (El : forall rho x', valid c rho -> Ev (live (s_heap s2)) l rho x' -> x' = xeval x rho).
    { intros rho x' Hv Hx'. eapply Ev_det; [exact Hx'|]. eapply keeps_Ev; [done|done|]. by apply E1. }
    assert (Er : forall rho y', valid c rho -> Ev (live (s_heap s2)) r rho y' -> y' = xeval y rho).
    { intros rho y' Hv Hy'. eapply Ev_det; [exact Hy'|]. by apply E2. }
    apply wp_bind. eapply wp_mono.
    { apply (apply_n_impl_spec f g s2 (S (nvars c))); try done; try apply C2.
      - apply sstep_refl, C2.
      - by apply K2.
      - intros rho x' y' Hv Hx' Hy'. rewrite (El rho x' Hv Hx'), (Er rho y' Hv Hy'). by apply Hf.
      - lia. }
    intros [m a] s3 [B _]. apply wp_ret. simpl in *. constructor.
    + eapply sstep_trans; [exact S1|]. eapply sstep_trans; [exact S2|exact (bs_step _ _ _ _ _ _ _ _ _ B)].
    + exact (bs_held _ _ _ _ _ _ _ _ _ B).
    + intros rho v Hv ->. apply (bs_ev _ _ _ _ _ _ _ _ _ B); [done|].
      exists (xeval x rho), (xeval y rho). split_and!; [|by apply E2|done].
      eapply keeps_Ev; [done|done|]. by apply E1.
Qed.

Lemma from_expression_tree_spec g e s :
  wf_cfg c -> xok c e -> calm g s -> idle s ->
  wp allowed (from_expression_tree c e) (anew false g s (fun rho v => v = xeval e rho)) s.
Proof.
  intros Hc Hok C Hm. unfold from_expression_tree. apply wp_bind.
  eapply wp_mono; [by apply from_expression_impl_spec|]. intros r s1 L.
  apply run_deferred_calm.
  { by apply (mode_idle s s1); [apply mode_same_order, L|]. }
  apply wp_bind. eapply new_handle_gen; [done|exact L|]. intros s2 A _. by apply wp_ret.
Qed.

End expr.
