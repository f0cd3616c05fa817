(** * symbolic_availability computes an expression for the availability *)

From stdpp Require Import gmap list.
From Coq Require Import ZArith Lia Reals Lra Ring.
From Verif Require Import Base NodeManager Heap Inv InvLemmas Prim GC Build Canon Api Eval VecSpec Queries Trav TravLevel QuerySpec
  QueryProof Minimal WorldSpec Prob ProbSpec Expect.
From Verif Require Import Symbolic ProbProof.

Local Close Scope R_scope.
Local Open Scope nat_scope.

Lemma real_exact : exact real_arith.
Proof. unfold exact, a_opp. simpl. constructor; intros; simpl; ring. Qed.

(** the matrix at a time *)
Definition ev_matrix (t : R) (ps : list (list sx)) : list (list R) := map (map (ev t)) ps.

Section proof.
Context (c : cfg) (opsem : Z -> option (Z -> Z -> Z)) (strict : bool).
Context (g : ghost) (s : st) (Hc : wf_cfg c) (C : calm c opsem strict g s) (Cl : clean s).
Context (ps : list (list sx)) (Hsh : Forall2 (fun d row => length row = d) (c_doms c) ps).
Notation L := (live (s_heap s)).
Notation rk := (rank c g (s_heap s)).
Notation held := (held g (s_heap s)).
Notation dist_at t := (distributions real_arith (c_doms c) (ev_matrix t ps)).
Notation W t := (W c g s real_arith (ev_matrix t ps)).

(** [x] is an expression for the expected value of [gf] at node [a] *)
Definition tells (gf : Z -> R) (x : sx) (a : positive) : Prop := forall t, dist_at t -> ev t x = W t gf a.

Lemma smatrix_at i k u : i < nvars c -> k < dom c i -> exists x, smatrix ps i k u = Ok x u /\ forall t, ev t x = pr_of real_arith (ev_matrix t ps) i k.
Proof.
  intros Hi Hk. destruct (lookup_lt_is_Some_2 (c_doms c) i Hi) as [d Ed]. destruct (Forall2_lookup_l _ _ _ _ _ Hsh Ed) as (row&Er&Hl).
  unfold dom in Hk. rewrite (nth_lookup_Some _ _ _ _ Ed) in Hk. destruct (lookup_lt_is_Some_2 row k) as [x Hx]; [lia|].
  exists x. split; [unfold smatrix; rewrite Er, (bind_ok _ _ _ row u) by done; by rewrite Hx|]. intros t. unfold pr_of, ev_matrix.
  assert (E1 : (map (map (ev t)) ps) !! i = Some (map (ev t) row)) by (by rewrite list_lookup_fmap, Er).
  assert (E2 : (map (ev t) row) !! k = Some (ev t x)) by (by rewrite list_lookup_fmap, Hx).
  by rewrite (nth_lookup_Some _ _ _ _ E1), (nth_lookup_Some _ _ _ _ E2).
Qed.

Lemma sym_op_ok gf root V D m a :
  held root -> reach L root a -> a ∉ D -> sons_in s a D ->
  (forall x v, L x = Some (Term v) -> v <> Undef -> exists e, m !! x = Some e /\ forall t, ev t e = gf v) ->
  (forall x, reach L root x -> L x <> Some (Term Undef)) ->
  (forall x, (exists i sons, L x = Some (Int i sons)) -> x ∉ D -> m !! x = None) ->
  (forall x, x ∈ D -> exists e, m !! x = Some e /\ tells gf e x) ->
  exists m', sym_op c (smatrix ps) m a (fs V s) = Ok m' (fs V s) /\
    (forall x v, L x = Some (Term v) -> v <> Undef -> exists e, m' !! x = Some e /\ forall t, ev t e = gf v) /\
    (forall x, (exists i sons, L x = Some (Int i sons)) -> x ∉ D ++ [a] -> m' !! x = None) /\
    (forall x, x ∈ D ++ [a] -> exists e, m' !! x = Some e /\ tells gf e x).
Proof.
  intros Hroot Hra HaD Hs Ht Hnu Hfresh HD. assert (Ha : held a) by (by eapply held_reach).
  unfold sym_op. destruct (getn_at c opsem strict g s C a V Ha) as (n&G&E). rewrite (bind_ok _ _ _ _ _ G).
  destruct (n_body n) as [v|i sons] eqn:Eb.
  - exists m. split; [done|]. split; [done|]. split; [intros x Hx Hn; apply Hfresh; [done|set_solver]|].
    intros x [Hx| ->%elem_of_list_singleton]%elem_of_app; [auto|].
    destruct (Ht a v E) as (e&Ee&He); [intros ->; by apply (Hnu a)|]. exists e. split; [done|]. intros t Hd.
    rewrite (W_term c opsem strict g s Hc C real_arith real_exact (ev_matrix t ps) Hd gf a v Ha E). apply He.
  - assert (Hm : m !! a = None) by (apply Hfresh; eauto).
    destruct (int_facts c opsem strict g s C a i sons Ha E) as (Hi&Hl&Hlt&Ho&Hsf).
    rewrite Hm, bool_decide_false by (by intros [? ?]). rewrite andb_false_r.
    rewrite (dom_lookup c i Hi), (bind_ok _ _ _ (dom c i) (fs V s)) by done.
    destruct (foldM_inv (sym_son (smatrix ps) a i) (fun j m' =>
        (forall x, x <> a -> m' !! x = m !! x) /\
        exists e, m' !! a = Some e /\ forall t, dist_at t ->
          ev t e = rsum real_arith (map (fun k => a_mul real_arith (pr_of real_arith (ev_matrix t ps) i k) (W t gf (nth k sons 1%positive))) (seq O j)))
      (fs V s) (seq O (dom c i)) O (<[a := XConst 0]> m)) as (m'&E'&H1&e&He1&He2).
    + split; [intros x Hx; by rewrite lookup_insert_ne|]. exists (XConst 0). by rewrite lookup_insert.
    + intros k x acc Hx (H1&e&He1&He2). apply lookup_seq in Hx as [-> Hk]. cbn [Nat.add] in *.
      destruct (lookup_lt_is_Some_2 sons k) as [y Hy]; [lia|].
      assert (Hin : y ∈ sons) by (by eapply elem_of_list_lookup_2).
      assert (HyD : y ∈ D) by (by apply (Hs i sons y E)).
      assert (Hya : y <> a) by (intros ->; done).
      unfold sym_son.
      rewrite (bind_ok _ _ _ _ _ (son_at c opsem strict g s C a i sons k y V Ha E Hy)).
      destruct (HD y HyD) as (ey&Ey&Hey). rewrite H1, Ey by done. rewrite (bind_ok _ _ _ ey (fs V s)) by done.
      destruct (smatrix_at i k (fs V s) Hi Hk) as (p&Ep&Hp). rewrite (bind_ok _ _ _ _ _ Ep).
      rewrite He1, (bind_ok _ _ _ e (fs V s)) by done. eexists. split; [done|]. split.
      * intros x Hx. rewrite lookup_insert_ne by done. by apply H1.
      * exists (XAdd e (XMul ey p)). split; [by rewrite lookup_insert|]. intros t Hd.
        rewrite (rsum_snoc real_arith real_exact), (nth_lookup_Some _ _ _ _ Hy). cbn [ev]. rewrite (He2 t Hd), (Hey t Hd), Hp.
        cbn [a_add a_mul real_arith]. ring.
    + rewrite seq_length in He2. cbn [Nat.add] in He2. exists m'. split; [done|]. split; [|split].
      * intros x v Hx Hv. rewrite H1; [by apply Ht|]. intros ->. congruence.
      * intros x Hx Hn. rewrite H1 by set_solver. apply Hfresh; [done|set_solver].
      * intros x Hx. destruct (decide (x = a)) as [->|Hne].
        -- exists e. split; [done|]. intros t Hd. rewrite (He2 t Hd).
           by rewrite (W_int c opsem strict g s Hc C real_arith real_exact (ev_matrix t ps) Hd gf a i sons Ha E).
        -- rewrite H1 by done. apply HD. set_solver.
Qed.

Definition ind_ge (j v : Z) : R := if (j <=? v)%Z then 1%R else 0%R.

Lemma terminals_ok j l : forall m, NoDup l -> (forall a, a ∈ l -> m !! a = None) -> (forall a, a ∈ l -> exists v, L a = Some (Term v)) ->
  exists m', foldM (sym_terminal j) m l s = Ok m' s /\
    (forall a v, a ∈ l -> L a = Some (Term v) -> m' !! a = Some (XConst (ind_ge j v))) /\ (forall a, a ∉ l -> m' !! a = m !! a).
Proof.
  induction l as [|b l IH]; intros m ND Hm Ht; cbn [foldM].
  - exists m. split; [done|]. split; [|done]. intros a v Ha. by apply elem_of_nil in Ha.
  - apply NoDup_cons in ND as [Hb ND]. destruct (Ht b) as (w&Ew); [by left|].
    set (m1 := <[b := XConst (ind_ge j w)]> m). rewrite (bind_ok _ _ _ m1 s).
    2:{ unfold sym_terminal. rewrite (bind_ok _ _ _ _ _ (node_value_ok s b w Ew)), (Hm b) by left. done. }
    destruct (IH m1 ND) as (m'&E'&H1&H2).
    + intros a Ha. unfold m1. rewrite lookup_insert_ne by (intros ->; done). apply Hm. by right.
    + intros a Ha. apply Ht. by right.
    + exists m'. split; [done|]. split.
      * intros a v Ha Ea. apply elem_of_cons in Ha as [->|Ha]; [|by apply H1]. rewrite H2 by done. unfold m1. rewrite lookup_insert.
        rewrite Ew in Ea. by injection Ea as ->.
      * intros a Ha. rewrite H2 by set_solver. unfold m1. apply lookup_insert_ne. set_solver.
Qed.

Lemma symbolic_ok j a : held a -> (forall x, reach L a x -> L x <> Some (Term Undef)) ->
  exists e, symbolic_availability c j (smatrix ps) a s = Ok e s /\ tells (ind_ge j) e a.
Proof.
  intros Ha Hnu. unfold symbolic_availability, terminal_nodes. rewrite (bind_ok _ _ _ (ts s) s) by done.
  destruct (terminals_ok j (ts s) ∅) as (m&E&H1&H2).
  { by eapply ts_NoDup. }
  { done. }
  { intros x Hx. destruct (ts_term c opsem strict g s C x Hx) as (v&Ev&_). eauto. }
  rewrite (bind_ok _ _ _ _ _ E).
  destruct (traverse_post_spec s a false rk (nvars c) (held_uniform c opsem strict g s C Cl a Ha) (held_ranked c opsem strict g s C a Ha)
    c (sym_op c (smatrix ps)) (fun D m =>
      (forall x v, L x = Some (Term v) -> v <> Undef -> exists e, m !! x = Some e /\ forall t, ev t e = ind_ge j v) /\
      (forall x, (exists i sons, L x = Some (Int i sons)) -> x ∉ D -> m !! x = None) /\
      (forall x, x ∈ D -> exists e, m !! x = Some e /\ tells (ind_ge j) e x)) ltac:(lia) m) as (D&m'&E2&(_&_&H5)&_&HD).
  - intros V D acc x Hx HxD Hs (G1&G2&G3).
    destruct (sym_op_ok (ind_ge j) a V D acc x Ha Hx HxD Hs G1 Hnu G2 G3) as (acc'&E'&G'). by exists acc'.
  - split; [|split].
    + intros x v Hx Hv. exists (XConst (ind_ge j v)). split; [|done]. apply H1; [|done]. by eapply term_in.
    + intros x (i&sons&Ei) _. rewrite H2; [done|]. intros Hx. destruct (ts_term c opsem strict g s C x Hx) as (v&Ev&_). congruence.
    + intros x Hx. by apply elem_of_nil in Hx.
  - rewrite (bind_ok _ _ _ _ _ E2). destruct (H5 a) as (e&Ee&He); [apply HD; constructor|]. rewrite Ee. by exists e.
Qed.
End proof.
