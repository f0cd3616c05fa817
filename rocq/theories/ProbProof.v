(** * The probability queries compute probabilities (exact arithmetic) *)

From stdpp Require Import gmap list.
From Coq Require Import ZArith Lia Ring.
From Verif Require Import Base NodeManager Heap Inv InvLemmas Prim GC Build Canon Api Eval VecSpec Queries Trav TravLevel QuerySpec
  QueryProof Minimal WorldSpec Prob ProbSpec Expect.

Local Open Scope nat_scope.

Section support.
Context {R : Type} (ar : arith R) (RT : exact ar).
Let RT' : ring_theory (a_zero ar) (a_one ar) (a_add ar) (a_mul ar) (a_sub ar) (a_opp ar) eq := RT.
Add Ring exact_ring : RT'.

Lemma rsum_perm l l' : l ≡ₚ l' -> rsum ar l = rsum ar l'.
Proof. unfold rsum. induction 1; simpl; try congruence. ring. Qed.

Lemma rsum_filter {A} (f : A -> R) (P : A -> Prop) `{!forall x, Decision (P x)} l :
  (forall x, x ∈ l -> ~ P x -> f x = a_zero ar) -> rsum ar (map f l) = rsum ar (map f (filter P l)).
Proof.
  induction l as [|x l IH]; intros Hz; [done|]. rewrite filter_cons. case_decide as Hp.
  - unfold rsum in *. simpl. f_equal. apply IH. intros y Hy. apply Hz. by constructor.
  - unfold rsum in *. simpl. rewrite (Hz x) by (done || constructor). rewrite IH; [ring|]. intros y Hy. apply Hz. by constructor.
Qed.

(** sums over two lists outside of whose intersection the terms vanish *)
Lemma rsum_support (f : positive -> R) l l' : NoDup l -> NoDup l' ->
  (forall x, x ∈ l -> x ∉ l' -> f x = a_zero ar) -> (forall x, x ∈ l' -> x ∉ l -> f x = a_zero ar) ->
  rsum ar (map f l) = rsum ar (map f l').
Proof.
  intros N1 N2 H1 H2. rewrite (rsum_filter f (fun x => x ∈ l')) by auto.
  rewrite (rsum_filter f (fun x => x ∈ l) l') by auto. apply rsum_perm. apply Permutation_map.
  apply NoDup_Permutation; [by apply NoDup_filter..|]. intros x. rewrite !elem_of_list_filter. tauto.
Qed.
End support.

Section proof.
Context (c : cfg) (opsem : Z -> option (Z -> Z -> Z)) (strict : bool).
Context (g : ghost) (s : st) (Hc : wf_cfg c) (C : calm c opsem strict g s) (Cl : clean s).
Context {R : Type} (ar : arith R) (RT : exact ar).
Context (ps : list (list R)) (Hd : distributions ar (c_doms c) ps).
Context (pr : probs) (Hpr : forall i k t, i < nvars c -> k < dom c i -> pr i k t = Ok (pr_of ar ps i k) t).
Notation h := (s_heap s).
Notation L := (live (s_heap s)).
Notation order := (s_l2i s).
Notation rk := (rank c g (s_heap s)).
Notation held := (held g (s_heap s)).
Notation nval := (nval c s).
Notation "0" := (a_zero ar).
Notation "1" := (a_one ar).
Notation "x + y" := (a_add ar x y).
Notation "x * y" := (a_mul ar x y).
Let RT' : ring_theory 0 1 (a_add ar) (a_mul ar) (a_sub ar) (a_opp ar) eq := RT.
Add Ring exact_ring : RT'.

Local Lemma Wf : WF c opsem strict g s. Proof. apply C. Qed.
Local Lemma r0 : valid c (fun _ => O). Proof. intros i Hi. by apply (wc_dom _ Hc). Qed.

Notation Ex := (Ex c ar ps).

(** the expectation of gf(f) for the function f of a node *)
Definition W (gf : Z -> R) (x : positive) : R := Ex gf (drop (rk x) order) (nval x) (fun _ => O).

Lemma W_level gf x l rho : held x -> l <= rk x -> valid c rho -> Ex gf (drop l order) (nval x) rho = W gf x.
Proof.
  intros Hx Hl Hv.
  assert (E : drop l order = take (rk x - l) (drop l order) ++ drop (rk x) order).
  { rewrite <- (take_drop (rk x - l) (drop l order)) at 1. f_equal. rewrite drop_drop. f_equal. lia. }
  rewrite E, (Ex_skip c ar RT ps Hd); [|done|by apply (nval_depends c opsem strict g s C x (rk x))|].
  - unfold W. apply (Ex_ext c ar RT ps Hd); [done|apply r0|]. intros tau tau' Ht Ht' _ _ H.
    by apply (nval_depends c opsem strict g s C x (rk x) Hx).
  - intros i Hi. apply (drop_elem c opsem strict g s C l). rewrite <- (take_drop (rk x - l) (drop l order)).
    apply elem_of_app. by left.
Qed.

Lemma W_term gf x v : held x -> L x = Some (Term v) -> W gf x = gf v.
Proof.
  intros Hx E. rewrite <- (W_level gf x (rk x) (fun _ => O)); [|done|done|apply r0].
  assert (rk x = nvars c) as -> by (by apply (rank_term c g h x v (cl_quiet _ _ _ _ _ C))).
  rewrite drop_ge by (by rewrite (pm_l2i _ _ (ord_perm _ _ _ (cl_ord _ _ _ _ _ C)))).
  cbn [Expect.Ex]. f_equal. by apply (nval_term c opsem strict g s C x); [|apply r0|].
Qed.

Lemma W_int gf x i sons : held x -> L x = Some (Int i sons) ->
  W gf x = rsum ar (map (fun k => pr_of ar ps i k * W gf (nth k sons 1%positive)) (seq O (dom c i))).
Proof.
  intros Hx E. destruct (int_facts c opsem strict g s C x i sons Hx E) as (Hi&Hl&Hlt&Ho&Hs).
  unfold W at 1. rewrite (drop_S _ _ _ Ho). cbn [Expect.Ex]. apply rsum_ext. intros k Hk. apply elem_of_seq in Hk. f_equal.
  destruct (lookup_lt_is_Some_2 sons k) as [y Hy]; [lia|]. rewrite (nth_lookup_Some _ _ _ _ Hy).
  destruct (Hs y) as [Hyh Hyr]; [by eapply elem_of_list_lookup_2|].
  assert (Hv : valid c (upd (fun _ => O) i k)) by (apply upd_valid; [apply r0|lia]).
  rewrite <- (W_level gf y (S (rk x)) (upd (fun _ => O) i k)); [|done|lia|done].
  apply (Ex_ext c ar RT ps Hd); [done..|]. intros tau tau' Ht Ht' H1 H2 H3.
  rewrite (nval_int c opsem strict g s C x tau i sons y); [|done|done|done|].
  - apply (nval_depends c opsem strict g s C y (S (rk x)) Hyh); [lia|done|done|]. done.
  - rewrite H1, upd_same; [done|]. by apply (take_drop_notin c opsem strict g s C).
Qed.

Lemma W_root gf a : held a -> W gf a = Ex gf order (nval a) (fun _ => O).
Proof. intros Ha. rewrite <- (W_level gf a O (fun _ => O)); [by rewrite drop_0|done|lia|apply r0]. Qed.

Lemma order_seq : order ≡ₚ seq O (nvars c).
Proof.
  apply NoDup_Permutation; [by eapply order_NoDup|apply NoDup_seq|]. intros i.
  rewrite (order_elem c opsem strict g s C), elem_of_seq. lia.
Qed.

Lemma W_probability P a : held a ->
  W (ind ar P) a = probability ar (c_doms c) ps (fun x => P (nval a (of_vals x))).
Proof.
  intros Ha. rewrite W_root by done. apply (Ex_probability c ar RT ps Hd); [apply order_seq|apply r0|].
  by apply (nval_depends_all c opsem strict g s C).
Qed.

(** ** Access to the nodes *)

Lemma son_at a i sons k y V : held a -> L a = Some (Int i sons) -> sons !! k = Some y ->
  get_son a k (fs V s) = Ok y (fs V s).
Proof.
  intros Ha E Hy. destruct (getn_at c opsem strict g s C a V Ha) as (n&G&En). unfold get_son, get_int.
  rewrite (bind_ok _ _ _ (i, sons) (fs V s)); [simpl; by rewrite Hy|]. rewrite (bind_ok _ _ _ _ _ G).
  rewrite E in En. injection En as <-. done.
Qed.

Lemma foldM_inv {A B} (f : A -> B -> M A) (Q : nat -> A -> Prop) t l : forall j acc, Q j acc ->
  (forall k x acc, l !! k = Some x -> Q (j + k)%nat acc -> exists acc', f acc x t = Ok acc' t /\ Q (S (j + k)) acc') ->
  exists acc', foldM f acc l t = Ok acc' t /\ Q (j + length l)%nat acc'.
Proof.
  induction l as [|x l IH]; intros j acc HQ H; cbn [foldM length].
  - exists acc. by rewrite Nat.add_0_r.
  - destruct (H O x acc eq_refl) as (acc1&E1&Q1); [by rewrite Nat.add_0_r|]. rewrite Nat.add_0_r in Q1.
    rewrite (bind_ok _ _ _ _ _ E1). destruct (IH (S j) acc1 Q1) as (acc'&E&Q').
    + intros k y acc0 Hy Hq. destruct (H (S k) y acc0 Hy) as (acc2&E2&Q2).
      * by replace (j + S k)%nat with (S j + k)%nat by lia.
      * exists acc2. split; [done|]. by replace (S (S j + k)) with (S (j + S k)) by lia.
    + exists acc'. split; [done|]. by replace (j + S (length l))%nat with (S j + length l)%nat by lia.
Qed.

Lemma rsum_snoc (f : nat -> R) j : rsum ar (map f (seq O (S j))) = rsum ar (map f (seq O j)) + f j.
Proof. rewrite seq_S, map_app, (rsum_app ar RT). f_equal. unfold rsum. simpl. ring. Qed.

(** ** Terminal nodes *)

Definition ts : list positive := omap id (s_terms s).

Lemma ts_elem a : a ∈ ts <-> exists k, s_terms s !! k = Some (Some a).
Proof.
  unfold ts. rewrite elem_of_list_omap. split.
  - intros (o&Ho&E). simpl in E. subst o. by apply elem_of_list_lookup.
  - intros (k&Hk). exists (Some a). split; [by eapply elem_of_list_lookup_2|done].
Qed.

Lemma ts_term a : a ∈ ts -> exists v, L a = Some (Term v) /\ v <> Undef /\ (0 <= v)%Z.
Proof.
  rewrite ts_elem. intros (k&Hk). destruct (wf_term1 _ _ _ _ _ Wf k a Hk) as [E Hu]. exists (Z.of_nat k). split_and!; [done|done|lia].
Qed.

Lemma ts_NoDup : NoDup ts.
Proof.
  assert (G : forall l : list (option positive), (forall j k a, l !! j = Some (Some a) -> l !! k = Some (Some a) -> j = k) -> NoDup (omap id l)).
  { induction l as [|[a|] l IH]; intros H; simpl; [constructor| |].
    - constructor.
      + rewrite elem_of_list_omap. intros (o&Ho&Eo). simpl in Eo. subst o. apply elem_of_list_lookup in Ho as (k&Hk).
        by specialize (H O (S k) a eq_refl Hk).
      + apply IH. intros j k b Hj Hk. by injection (H (S j) (S k) b Hj Hk).
    - apply IH. intros j k b Hj Hk. by injection (H (S j) (S k) b Hj Hk). }
  apply G. intros j k a Hj Hk. destruct (wf_term1 _ _ _ _ _ Wf j a Hj) as [E1 _].
  destruct (wf_term1 _ _ _ _ _ Wf k a Hk) as [E2 _]. rewrite E1 in E2. injection E2 as E2. lia.
Qed.

Lemma term_in a v : L a = Some (Term v) -> v <> Undef -> a ∈ ts.
Proof. intros E Hu. apply ts_elem. exists (Z.to_nat v). by apply (wf_term2 _ _ _ _ _ Wf). Qed.

Lemma get_terminal_ok v : (0 <= v)%Z -> v <> Undef -> exists o, get_terminal_node v s = Ok o s /\
  match o with Some a => L a = Some (Term v) /\ a ∈ ts | None => forall a, L a <> Some (Term v) end.
Proof.
  intros H0 Hu. unfold get_terminal_node. rewrite (bind_ok _ _ _ (s_terms s) s) by done.
  destruct (Z.ltb_spec v (Z.of_nat (length (s_terms s)))) as [Hlt|Hge].
  - destruct (Z.ltb_spec v 0); [lia|]. destruct (lookup_lt_is_Some_2 (s_terms s) (Z.to_nat v)) as [o Ho]; [lia|].
    rewrite Ho. exists o. split; [done|]. destruct o as [a|].
    + destruct (wf_term1 _ _ _ _ _ Wf _ a Ho) as [E _]. rewrite Z2Nat.id in E by lia. split; [done|]. apply ts_elem. eauto.
    + intros a E. pose proof (wf_term2 _ _ _ _ _ Wf a v E Hu) as E2. rewrite Ho in E2. discriminate.
  - exists None. split; [done|]. intros a E. pose proof (wf_term2 _ _ _ _ _ Wf a v E Hu) as E2.
    apply lookup_lt_Some in E2. lia.
Qed.

Lemma set_all_lookup (v : R) l : forall data a, set_all v data l !! a = if bool_decide (a ∈ l) then Some v else data !! a.
Proof.
  unfold set_all. induction l as [|b l IH]; intros data a; simpl; [done|]. rewrite IH.
  destruct (bool_decide_reflect (a ∈ l)) as [Hin|Hn].
  - rewrite bool_decide_eq_true_2; [done|set_solver].
  - destruct (decide (a = b)) as [->|Hne].
    + rewrite bool_decide_eq_true_2 by set_solver. by rewrite lookup_insert.
    + rewrite bool_decide_eq_false_2 by set_solver. by rewrite lookup_insert_ne.
Qed.

Definition has (sel : list Z) (v : Z) : bool := existsb (Z.eqb v) sel.

Lemma select_ok sel : forall data, Forall (fun v => (0 <= v)%Z /\ v <> Undef) sel ->
  exists data', foldM (select ar) data sel s = Ok data' s /\
    (forall a v, L a = Some (Term v) -> v <> Undef -> data' !! a = if has sel v then Some 1 else data !! a).
Proof.
  induction sel as [|v sel IH]; intros data Hsel; cbn [foldM]; [by exists data|].
  inversion Hsel as [|? ? [H0 Hu] Hsel']; subst. destruct (get_terminal_ok v H0 Hu) as (o&E&Ho).
  set (data1 := match o with Some a => <[a := 1]> data | None => data end).
  rewrite (bind_ok _ _ _ data1 s).
  2:{ unfold select. by rewrite (bind_ok _ _ _ _ _ E). }
  destruct (IH data1 Hsel') as (data'&E'&H'). exists data'. split; [done|]. intros a w Ea Hw. rewrite (H' a w Ea Hw).
  cbn [has existsb]. fold (has sel w). destruct (has sel w); [by rewrite orb_true_r|]. rewrite orb_false_r.
  unfold data1. destruct o as [b|].
  - destruct Ho as [Eb Hb]. destruct (decide (a = b)) as [->|Hne].
    + rewrite Eb in Ea. injection Ea as ->. rewrite Z.eqb_refl. by rewrite lookup_insert.
    + rewrite lookup_insert_ne by done. destruct (Z.eqb_spec w v) as [->|]; [|done]. exfalso. apply Hne.
      pose proof (wf_term2 _ _ _ _ _ Wf a v Ea Hu) as E1. pose proof (wf_term2 _ _ _ _ _ Wf b v Eb Hu) as E2. congruence.
  - destruct (Z.eqb_spec w v) as [->|]; [|done]. by destruct (Ho a).
Qed.

(** ** The traversal from the terminals: calculate_ntps_post_impl *)

Lemma post_op_ok gf root V D data a :
  (forall x v, reach L root x -> L x = Some (Term v) -> data !! x = Some (gf v)) ->
  held root -> reach L root a -> a ∉ D -> sons_in s a D -> (forall x, x ∈ D -> data !! x = Some (W gf x)) ->
  exists data', post_op c ar pr data a (fs V s) = Ok data' (fs V s) /\
    (forall x v, reach L root x -> L x = Some (Term v) -> data' !! x = Some (gf v)) /\
    (forall x, x ∈ D ++ [a] -> data' !! x = Some (W gf x)).
Proof.
  intros Ht Hroot Hra HaD Hs HD. assert (Ha : held a) by (by eapply held_reach).
  unfold post_op. destruct (getn_at c opsem strict g s C a V Ha) as (n&G&E). rewrite (bind_ok _ _ _ _ _ G).
  destruct (n_body n) as [v|i sons] eqn:Eb.
  - exists data. split_and!; [done|done|]. intros x [Hx| ->%elem_of_list_singleton]%elem_of_app; [auto|].
    rewrite (W_term gf a v Ha E). by apply Ht.
  - destruct (int_facts c opsem strict g s C a i sons Ha E) as (Hi&Hl&Hlt&Ho&Hsf).
    rewrite (dom_lookup c i Hi), (bind_ok _ _ _ (dom c i) (fs V s)) by done.
    destruct (foldM_inv (post_son ar pr a i) (fun j data' =>
        (forall x, x <> a -> data' !! x = data !! x) /\
        data' !! a = Some (rsum ar (map (fun k => pr_of ar ps i k * W gf (nth k sons 1%positive)) (seq O j))))
      (fs V s) (seq O (dom c i)) O (<[a := 0]> data)) as (data'&E'&H1&H2).
    + split; [intros x Hx; by rewrite lookup_insert_ne|by rewrite lookup_insert].
    + intros k x acc Hx (H1&H2). apply lookup_seq in Hx as [-> Hk]. cbn [Nat.add] in *.
      destruct (lookup_lt_is_Some_2 sons k) as [y Hy]; [lia|].
      assert (Hin : y ∈ sons) by (by eapply elem_of_list_lookup_2).
      assert (HyD : y ∈ D) by (by apply (Hs i sons y E)).
      assert (Hya : y <> a) by (intros ->; done).
      unfold post_son. rewrite (bind_ok _ _ _ _ _ (son_at a i sons k y V Ha E Hy)).
      unfold rd. rewrite H1, (HD y HyD) by done. rewrite (bind_ok _ _ _ (W gf y) (fs V s)) by done.
      rewrite (bind_ok _ _ _ _ _ (Hpr i k (fs V s) Hi Hk)).
      rewrite H2, (bind_ok _ _ _ (rsum ar (map (fun k => pr_of ar ps i k * W gf (nth k sons 1%positive)) (seq O k))) (fs V s)) by done.
      eexists. split; [done|]. split.
      * intros x Hx. rewrite lookup_insert_ne by done. by apply H1.
      * rewrite lookup_insert, rsum_snoc, (nth_lookup_Some _ _ _ _ Hy). do 2 f_equal. ring.
    + rewrite seq_length in H2. simpl in H2. rewrite <- (W_int gf a i sons Ha E) in H2. exists data'. split_and!; [done| |].
      * intros x v Hx Ex. rewrite H1; [by apply Ht|]. intros ->. congruence.
      * intros x Hx. destruct (decide (x = a)) as [->|Hne]; [done|]. rewrite H1 by done. apply HD. set_solver.
Qed.

Lemma ntps_post_ok sel a data : held a -> Forall (fun v => (0 <= v)%Z /\ v <> Undef) sel ->
  (forall x, reach L a x -> L x <> Some (Term Undef)) ->
  exists data', ntps_post c ar sel pr a data s
    = Ok (probability ar (c_doms c) ps (fun x => has sel (nval a (of_vals x))), data') s.
Proof.
  intros Ha Hsel Hns. unfold ntps_post. unfold terminal_nodes. rewrite (bind_ok _ _ _ ts s) by done.
  destruct (select_ok sel (set_all 0 data ts) Hsel) as (data1&E1&H1). rewrite (bind_ok _ _ _ _ _ E1).
  assert (H1' : forall x v, reach L a x -> L x = Some (Term v) -> data1 !! x = Some (ind ar (has sel) v)).
  { intros x v Hx E. assert (Hu : v <> Undef) by (intros ->; by apply (Hns x)). rewrite (H1 x v E Hu), set_all_lookup.
    rewrite bool_decide_eq_true_2 by (by eapply term_in). unfold ind. by destruct (has sel v). }
  destruct (traverse_post_spec s a false rk (nvars c) (held_uniform c opsem strict g s C Cl a Ha) (held_ranked c opsem strict g s C a Ha)
    c (post_op c ar pr) (fun D data => (forall x v, reach L a x -> L x = Some (Term v) -> data !! x = Some (ind ar (has sel) v)) /\
      (forall x, x ∈ D -> data !! x = Some (W (ind ar (has sel)) x))) ltac:(lia) data1) as (D&data2&E2&(H2&H3)&_&HD).
  - intros V D acc x Hx HxD Hs (G1&G2).
    destruct (post_op_ok (ind ar (has sel)) a V D acc x G1 Ha Hx HxD Hs G2) as (acc'&E'&G1'&G2'). by exists acc'.
  - split; [done|]. intros x Hx. by apply elem_of_nil in Hx.
  - rewrite (bind_ok _ _ _ _ _ E2). unfold rd. rewrite (H3 a ltac:(apply HD; constructor)).
    rewrite (bind_ok _ _ _ (W (ind ar (has sel)) a) s) by done. exists data2. by rewrite W_probability.
Qed.
(** ** The traversal from the root: calculate_ntps_level_impl *)

Section level.
Context (root : positive) (K : list positive) (Hroot : held root) (NK : NoDup K) (HK : forall x, x ∈ K <-> reach L root x).

Definition dat (data : gmap positive R) (x : positive) : R := default 0 (data !! x).

(** visited internal nodes have passed their probability on *)
Definition spent (D : list positive) (x : positive) : bool :=
  match L x with Some (Int _ _) => bool_decide (x ∈ D) | _ => false end.

Definition flow (D : list positive) (data : gmap positive R) (gf : Z -> R) : R :=
  rsum ar (map (fun x => if spent D x then 0 else dat data x * W gf x) K).

Record lstate (D : list positive) (data : gmap positive R) : Prop := {
  ls_init : forall x, x ∈ K -> is_Some (data !! x);
  ls_other : forall t, t ∈ ts -> t ∉ K -> data !! t = Some 0;
  ls_flow : forall gf, flow D data gf = W gf root
}.

Lemma level_op_ok V D data a : reach L root a -> a ∉ D -> (forall x, x ∈ D -> rk x <= rk a) -> lstate D data ->
  exists data', level_op c ar pr data a (fs V s) = Ok data' (fs V s) /\ lstate (D ++ [a]) data'.
Proof.
  intros Hra HaD Hrk H. assert (Ha : held a) by (by eapply held_reach).
  assert (HaK : a ∈ K) by (by apply HK).
  unfold level_op. destruct (getn_at c opsem strict g s C a V Ha) as (n&G&E). rewrite (bind_ok _ _ _ _ _ G).
  destruct (n_body n) as [v|i sons] eqn:Eb.
  - exists data. split; [done|]. constructor; [apply H|apply H|]. intros gf. rewrite <- (ls_flow _ _ H gf). unfold flow.
    apply rsum_ext. intros x Hx. assert (spent (D ++ [a]) x = spent D x) as ->; [|done]. unfold spent.
    destruct (L x) as [[w|j ss]|] eqn:Ex; try done. apply bool_decide_ext. rewrite elem_of_app, elem_of_list_singleton.
    split; [intros [?| ->]; [done|congruence]|by left].
  - destruct (int_facts c opsem strict g s C a i sons Ha E) as (Hi&Hl&Hlt&Ho&Hsf).
    rewrite (dom_lookup c i Hi), (bind_ok _ _ _ (dom c i) (fs V s)) by done.
    destruct (ls_init _ _ H a HaK) as [da Eda].
    destruct (foldM_inv (level_son ar pr a i) (fun j data' =>
        (forall x, x ∈ K -> is_Some (data' !! x)) /\
        (forall t, t ∈ ts -> t ∉ K -> data' !! t = Some 0) /\
        data' !! a = Some da /\
        (forall gf, flow (D ++ [a]) data' gf + da * W gf a =
          W gf root + da * rsum ar (map (fun k => pr_of ar ps i k * W gf (nth k sons 1%positive)) (seq O j))))
      (fs V s) (seq O (dom c i)) O data) as (data'&E'&H1&H2&H3&H4).
    + split_and!; [apply H|apply H|done|]. intros gf. rewrite <- (ls_flow _ _ H gf). unfold flow.
      rewrite (rsum_change ar RT (fun x => if spent D x then 0 else dat data x * W gf x)
        (fun x => if spent (D ++ [a]) x then 0 else dat data x * W gf x) K a NK HaK).
      * change (rsum ar (map _ (seq O O))) with 0.
        assert (spent D a = false) as -> by (unfold spent; rewrite E; by apply bool_decide_eq_false_2).
        assert (spent (D ++ [a]) a = true) as -> by (unfold spent; rewrite E; apply bool_decide_eq_true_2; set_solver).
        assert (dat data a = da) as -> by (unfold dat; by rewrite Eda). ring.
      * intros x Hx. assert (spent (D ++ [a]) x = spent D x) as ->; [|done]. unfold spent.
        destruct (L x) as [[w|j ss]|]; try done. apply bool_decide_ext. set_solver.
    + intros k x acc Hx (H1&H2&H3&H4). apply lookup_seq in Hx as [-> Hk]. cbn [Nat.add] in *.
      destruct (lookup_lt_is_Some_2 sons k) as [y Hy]; [lia|].
      assert (Hin : y ∈ sons) by (by eapply elem_of_list_lookup_2).
      destruct (Hsf y Hin) as [Hyh Hyr].
      assert (Hya : y <> a) by (intros ->; lia).
      assert (HyK : y ∈ K) by (apply HK; eapply reach_trans; [exact Hra|by eapply reach_son]).
      assert (HyD : y ∉ D ++ [a]).
      { intros [Hd'| ->%elem_of_list_singleton]%elem_of_app; [|done]. specialize (Hrk y Hd'). lia. }
      destruct (H1 y HyK) as [dy Edy].
      unfold level_son. rewrite (bind_ok _ _ _ _ _ (son_at a i sons k y V Ha E Hy)).
      unfold rd. rewrite Edy, H3. rewrite (bind_ok _ _ _ dy (fs V s)) by done. rewrite (bind_ok _ _ _ da (fs V s)) by done.
      rewrite (bind_ok _ _ _ _ _ (Hpr i k (fs V s) Hi Hk)).
      eexists. split; [done|]. split_and!.
      * intros x Hx. destruct (decide (x = y)) as [->|]; [rewrite lookup_insert|rewrite lookup_insert_ne by done]; eauto.
      * intros t Ht HtK. rewrite lookup_insert_ne by (intros ->; done). auto.
      * by rewrite lookup_insert_ne.
      * intros gf. rewrite rsum_snoc, (nth_lookup_Some _ _ _ _ Hy). specialize (H4 gf). unfold flow in *.
        rewrite (rsum_change ar RT (fun x => if spent (D ++ [a]) x then 0 else dat (<[y := dy + da * pr_of ar ps i k]> acc) x * W gf x)
          (fun x => if spent (D ++ [a]) x then 0 else dat acc x * W gf x) K y NK HyK).
        -- assert (spent (D ++ [a]) y = false) as ->.
           { unfold spent. destruct (L y) as [[w|j ss]|]; try done. by apply bool_decide_eq_false_2. }
           assert (dat (<[y := dy + da * pr_of ar ps i k]> acc) y = dy + da * pr_of ar ps i k) as -> by (unfold dat; by rewrite lookup_insert).
           assert (dat acc y = dy) as -> by (unfold dat; by rewrite Edy).
           match type of H4 with ?l = ?r => transitivity (l + da * (pr_of ar ps i k * W gf y)); [ring|rewrite H4; ring] end.
        -- intros x Hx. unfold dat. by rewrite lookup_insert_ne.
    + exists data'. split; [done|]. constructor; [done|done|]. intros gf. specialize (H4 gf).
      rewrite seq_length in H4. cbn [Nat.add] in H4. rewrite <- (W_int gf a i sons Ha E) in H4.
      transitivity (a_sub ar (flow (D ++ [a]) data' gf + da * W gf a) (da * W gf a)); [ring|]. rewrite H4. ring.
Qed.

(** what is known about the data after calculate_probabilities *)
Record settled (data : gmap positive R) : Prop := {
  st_init : forall x, x ∈ K \/ x ∈ ts -> is_Some (data !! x);
  st_other : forall t, t ∈ ts -> t ∉ K -> data !! t = Some 0;
  st_sum : forall gf, rsum ar (map (fun x => match L x with Some (Term v) => dat data x * gf v | _ => 0 end) K) = W gf root
}.

Lemma lstate_settled D data : (forall x, x ∈ K -> x ∈ D) -> lstate D data -> settled data.
Proof.
  intros HD H. constructor.
  - intros x [Hx|Hx]; [by apply H|]. destruct (decide (x ∈ K)); [by apply H|]. rewrite (ls_other _ _ H) by done. eauto.
  - apply H.
  - intros gf. rewrite <- (ls_flow _ _ H gf). unfold flow. apply rsum_ext. intros x Hx. unfold spent.
    assert (Hxh : held x) by (eapply held_reach; [exact Hroot|by apply HK]).
    destruct (held_body c opsem strict g s C x Hxh) as [[v|i sons] E]; rewrite E.
    + by rewrite (W_term gf x v Hxh E).
    + by rewrite bool_decide_eq_true_2 by auto.
Qed.

Lemma start_flow data : (forall x, x ∈ K -> x <> root -> data !! x = Some 0) -> data !! root = Some 1 ->
  forall gf, flow [] data gf = W gf root.
Proof.
  intros H0 H1 gf. assert (HrK : root ∈ K) by (apply HK; constructor). unfold flow.
  rewrite (rsum_support ar RT _ K [root] NK (NoDup_singleton root)).
  - unfold rsum. simpl. assert (spent [] root = false) as ->.
    { unfold spent. by destruct (L root) as [[]|]. }
    unfold dat. rewrite H1. simpl. ring.
  - intros x Hx Hn. unfold dat. rewrite (H0 x Hx) by set_solver. destruct (spent [] x); [done|]. simpl. ring.
  - intros x ->%elem_of_list_singleton Hn. done.
Qed.
End level.

Lemma ntps_level_ok a data : held a -> exists K data', NoDup K /\ (forall x, x ∈ K <-> reach L a x) /\
  ntps_level c ar pr a data s = Ok data' s /\ settled a K data'.
Proof.
  intros Ha. unfold ntps_level.
  destruct (traverse_pre_spec s a false rk (nvars c) (held_uniform c opsem strict g s C Cl a Ha) (held_ranked c opsem strict g s C a Ha)
    c (fun (data : gmap positive R) b => ret (<[b := 0]> data)) (fun D data => forall x, x ∈ D -> data !! x = Some 0) ltac:(lia) data)
    as (K&data1&E1&H1&NK&HK).
  - intros V D acc x _ _ Hacc. eexists. split; [done|]. intros y [Hy| ->%elem_of_list_singleton]%elem_of_app.
    + destruct (decide (y = x)) as [->|]; [by rewrite lookup_insert|]. rewrite lookup_insert_ne by done. auto.
    + by rewrite lookup_insert.
  - intros x Hx. by apply elem_of_nil in Hx.
  - rewrite (bind_ok _ _ _ _ _ E1). unfold terminal_nodes. rewrite (bind_ok _ _ _ ts s) by done.
    set (data2 := <[a := 1]> (set_all 0 data1 ts)).
    destruct (traverse_level_spec s a false rk c (held_uniform c opsem strict g s C Cl a Ha) (held_ranked c opsem strict g s C a Ha)
      (held_rank c opsem strict g s C a Ha)) with (op := level_op c ar pr) (P := lstate a K) (acc := data2)
      as (D&data3&E3&H3&ND&HD).
    + intros V x Hx. apply (level_at c opsem strict g s C). by eapply held_reach.
    + intros V D acc x Hx HxD _ Hrk Hl. by apply level_op_ok.
    + assert (G : forall x, x ∈ K \/ x ∈ ts -> x <> a -> data2 !! x = Some 0).
      { intros x Hx Hne. unfold data2. rewrite lookup_insert_ne by done. rewrite set_all_lookup.
        destruct (bool_decide_reflect (x ∈ ts)) as [|Hn]; [done|]. apply H1. by destruct Hx. }
      constructor.
      * intros x Hx. destruct (decide (x = a)) as [->|Hne]; [unfold data2; rewrite lookup_insert; eauto|]. rewrite G; eauto.
      * intros t Ht HtK. apply G; [by right|]. intros ->. apply HtK, HK. constructor.
      * apply start_flow; [exact Ha|exact NK|exact HK| |unfold data2; by rewrite lookup_insert]. intros x Hx. apply G. by left.
    + exists K, data3. split; [exact NK|]. split; [exact HK|]. split; [exact E3|].
      eapply lstate_settled; [exact Ha|exact HK| |exact H3]. intros x Hx. by apply HD, HK.
Qed.

(** ** The getters *)

Lemma settled_probability a K data j : held a -> NoDup K -> (forall x, x ∈ K <-> reach L a x) -> settled a K data ->
  (0 <= j)%Z -> j <> Undef ->
  get_probability ar j data s = Ok (W (ind ar (Z.eqb j)) a) s.
Proof.
  intros Ha NK HK H H0 Hu. unfold get_probability. destruct (get_terminal_ok j H0 Hu) as (o&E&Ho). rewrite (bind_ok _ _ _ _ _ E).
  rewrite <- (st_sum _ _ _ H (ind ar (Z.eqb j))).
  destruct o as [t|].
  - destruct Ho as [Et Ht]. destruct (st_init _ _ _ H t (or_intror Ht)) as [d Ed]. unfold rd. rewrite Ed.
    rewrite (rsum_support ar RT _ K [t] NK (NoDup_singleton t)).
    + unfold rsum. simpl. rewrite Et. unfold ind, dat. rewrite Ed, Z.eqb_refl. simpl. unfold ret. f_equal. ring.
    + intros x Hx Hn. destruct (L x) as [[v|i sons]|] eqn:Ex; try done. unfold ind.
      destruct (Z.eqb_spec j v) as [<-|]; [|ring]. exfalso. apply Hn, elem_of_list_singleton.
      pose proof (wf_term2 _ _ _ _ _ Wf x j Ex Hu) as E1. pose proof (wf_term2 _ _ _ _ _ Wf t j Et Hu) as E2. congruence.
    + intros x ->%elem_of_list_singleton Hn. rewrite Et. unfold dat. rewrite (st_other _ _ _ H t Ht Hn). simpl. ring.
  - unfold ret. f_equal. symmetry. apply (rsum_zero ar RT). intros x Hx. destruct (L x) as [[v|i sons]|] eqn:Ex; try done.
    unfold ind. destruct (Z.eqb_spec j v) as [<-|]; [by destruct (Ho x)|]. ring.
Qed.

Lemma node_value_ok t v : L t = Some (Term v) -> node_value t s = Ok v s.
Proof.
  intros E. unfold node_value. unfold live in E. destruct (h !! t) as [n|] eqn:En; [|done]. destruct (n_used n) eqn:U; [|done].
  injection E as Eb. rewrite (bind_ok _ _ _ n s); [by rewrite Eb|]. unfold getn. by rewrite En, U.
Qed.

Lemma sum_with_ok a K data P : held a -> NoDup K -> (forall x, x ∈ K <-> reach L a x) -> settled a K data ->
  (forall x, reach L a x -> L x <> Some (Term Undef)) ->
  sum_with ar P data s = Ok (W (ind ar P) a) s.
Proof.
  intros Ha NK HK H Hns. unfold sum_with, terminal_nodes. rewrite (bind_ok _ _ _ ts s) by done.
  set (f := fun x => match L x with Some (Term v) => dat data x * ind ar P v | _ => 0 end).
  assert (G : forall l r, (forall t, t ∈ l -> t ∈ ts) -> foldM (fun r a =>
    let* v := node_value a in
    if P v then let* x := rd data a in ret (r + x) else ret r) r l s = Ok (r + rsum ar (map f l)) s).
  { induction l as [|t l IH]; intros r Hl; cbn [foldM map].
    - unfold rsum, ret. simpl. f_equal. ring.
    - assert (Ht : t ∈ ts) by (apply Hl; constructor). destruct (ts_term t Ht) as (v&Et&Hu&H0).
      destruct (st_init _ _ _ H t (or_intror Ht)) as [d Ed].
      rewrite (bind_ok _ _ _ (r + f t) s).
      + rewrite IH by (intros x Hx; apply Hl; by constructor). f_equal. unfold rsum. simpl. ring.
      + rewrite (bind_ok _ _ _ _ _ (node_value_ok t v Et)). unfold f. rewrite Et. unfold ind, dat, rd. rewrite Ed. cbn [default from_option id].
        destruct (P v); unfold ret, bind; simpl; f_equal; ring. }
  rewrite G by done. f_equal. rewrite <- (st_sum _ _ _ H (ind ar P)). fold f.
  rewrite (rsum_support ar RT f ts K ts_NoDup NK); [ring| |].
  - intros t Ht Hn. destruct (ts_term t Ht) as (v&Et&_). unfold f, dat. rewrite Et, (st_other _ _ _ H t Ht Hn). simpl. ring.
  - intros x Hx Hn. unfold f. destruct (L x) as [[v|i sons]|] eqn:Ex; try done. exfalso. apply Hn. apply (term_in x v Ex).
    intros ->. apply (Hns x); [by apply HK|done].
Qed.

Lemma values_with_ok P : exists vs, values_with P s = Ok vs s /\ Forall (fun v => (0 <= v)%Z /\ v <> Undef) vs /\
  forall x v, L x = Some (Term v) -> v <> Undef -> has vs v = P v.
Proof.
  unfold values_with, terminal_nodes. rewrite (bind_ok _ _ _ ts s) by done.
  assert (G : forall l vs, (forall t, t ∈ l -> t ∈ ts) -> Forall (fun v => (0 <= v)%Z /\ v <> Undef) vs ->
    exists vs', foldM (fun vs a => let* v := node_value a in ret (if P v then vs ++ [v] else vs)) vs l s = Ok vs' s /\
      Forall (fun v => (0 <= v)%Z /\ v <> Undef) vs' /\
      forall v, v ∈ vs' <-> v ∈ vs \/ P v = true /\ exists t, t ∈ l /\ L t = Some (Term v)).
  { induction l as [|t l IH]; intros vs Hl Hvs; cbn [foldM].
    - exists vs. split_and!; [done|done|]. intros v. split; [by left|]. intros [|(_&t&Ht&_)]; [done|by apply elem_of_nil in Ht].
    - assert (Ht : t ∈ ts) by (apply Hl; constructor). destruct (ts_term t Ht) as (v&Et&Hu&H0).
      set (vs1 := if P v then vs ++ [v] else vs).
      rewrite (bind_ok _ _ _ vs1 s); [|by rewrite (bind_ok _ _ _ _ _ (node_value_ok t v Et))].
      destruct (IH vs1) as (vs'&E'&F'&H'); [intros x Hx; apply Hl; by constructor| |].
      { unfold vs1. destruct (P v); [|done]. apply Forall_app. split; [done|]. by constructor. }
      exists vs'. split_and!; [done|done|]. intros w. rewrite H'. unfold vs1. split.
      + intros [Hw|(Hp&x&Hx&Ex)]; [|right; split; [done|]; exists x; split; [by constructor|done]].
        destruct (P v) eqn:Pv; [|by left]. apply elem_of_app in Hw as [|Hw]; [by left|].
        apply elem_of_list_singleton in Hw as ->. right. split; [done|]. exists t. split; [constructor|done].
      + intros [Hw|(Hp&x&Hx&Ex)].
        * left. destruct (P v); [|done]. apply elem_of_app. by left.
        * apply elem_of_cons in Hx as [->|Hx]; [|right; eauto]. rewrite Et in Ex. injection Ex as ->. rewrite Hp. left.
          apply elem_of_app. right. constructor. }
  destruct (G ts []) as (vs&E&Fv&Hv); [done|constructor|]. exists vs. split_and!; [done|done|]. intros x v Ex Hu.
  assert (Hh : has vs v = true <-> v ∈ vs).
  { unfold has. rewrite existsb_exists. split.
    - intros (w&Hw&Ew). apply Z.eqb_eq in Ew as ->. by apply elem_of_list_In.
    - intros Hin. exists v. split; [by apply elem_of_list_In|apply Z.eqb_refl]. }
  apply eq_true_iff_eq. rewrite Hh, Hv. split.
  - intros [Hx|(Hp&_)]; [by apply elem_of_nil in Hx|done].
  - intros Hp. right. split; [done|]. exists x. split; [by eapply term_in|done].
Qed.
End proof.
