(** * The enumeration of the domain and the expressions of the tests: proofs *)

From stdpp Require Import gmap list list_numbers.
From Coq Require Import ZArith Lia.
From Verif Require Import Base Tools DiagramManager.
From Verif Require Import Heap Inv Eval Expr VecSpec.
From Verif Require Import Prob Tsl TslIter.

Local Open Scope nat_scope.

(** ** One step of the iterator *)

Section iter.
Context (c : cfg).
Notation doms := (c_doms c).
Notation W l vals := (vec_index c l (of_vals vals)).

Lemma dom_lookup i : i < nvars c -> doms !! i = Some (dom c i).
Proof. intros H. unfold dom. destruct (nth_lookup_or_length doms i 0); [done|unfold nvars in *; lia]. Qed.

Lemma of_vals_insert vals i v j : i < length vals -> of_vals (<[i := v]> vals) j = if decide (j = i) then v else of_vals vals j.
Proof.
  intros H. unfold of_vals. rewrite !nth_lookup. case_decide as E.
  - subst. by rewrite list_lookup_insert.
  - by rewrite list_lookup_insert_ne.
Qed.

Lemma vals_ok_insert vals i v : vals_ok c vals -> i < nvars c -> v < dom c i -> vals_ok c (<[i := v]> vals).
Proof.
  intros [L V] Hi Hv. split; [by rewrite insert_length|]. intros j Hj.
  rewrite of_vals_insert by lia. case_decide; [by subst|by apply V].
Qed.

(** [idx]: least significant variable first *)
Lemma bump_ok idx : forall vals ov, NoDup idx -> (forall i, i ∈ idx -> i < nvars c) -> vals_ok c vals ->
  exists vals' ov', bump doms idx vals ov = Val (vals', ov') /\ vals_ok c vals' /\
    (forall j, j ∉ idx -> of_vals vals' j = of_vals vals j) /\
    (idx <> [] \/ ov = false ->
      (ov' = false -> idx <> [] -> W (rev idx) vals' = S (W (rev idx) vals)) /\
      (ov' = true -> S (W (rev idx) vals) = prodl c (rev idx)) ).
Proof.
  induction idx as [|i idx IH]; intros vals ov ND Hb Hv.
  { exists vals, ov. split_and!; try done. }
  apply NoDup_cons in ND as [Hni ND]. assert (Hi : i < nvars c) by (apply Hb; by left). destruct Hv as [L V] eqn:E; clear E.
  cbn [bump]. rewrite (of_vals_lookup vals i) by lia. cbn [o_get obind]. rewrite (dom_lookup i Hi). cbn [o_get obind].
  pose proof (V i Hi) as Vi. cbn [rev]. destruct (Nat.eqb_spec (S (of_vals vals i)) (dom c i)) as [E|E].
  - destruct (IH (<[i := 0]> vals) true ND ltac:(intros; apply Hb; by right)) as (vals'&ov'&Eb&Ho&Hf&Hc).
    { apply vals_ok_insert; [done|done|lia]. }
    exists vals', ov'. split; [done|]. split; [done|].
    assert (H0 : of_vals vals' i = 0).
    { rewrite Hf by done. rewrite of_vals_insert by lia. by rewrite decide_True. }
    assert (HW : W (rev idx) (<[i := 0]> vals) = W (rev idx) vals).
    { apply vec_index_ext. intros j Hj. rewrite of_vals_insert by lia. case_decide; [|done]. subst.
      exfalso. apply Hni. apply elem_of_list_In, in_rev, elem_of_list_In. done. }
    split.
    { intros j Hj. apply not_elem_of_cons in Hj as [Hji Hj]. rewrite Hf by done. rewrite of_vals_insert by lia. by rewrite decide_False. }
    intros _. rewrite !vec_index_snoc, prodl_app. cbn [prodl].
    destruct idx as [|k idx].
    + cbn [bump] in Eb. injection Eb as <- <-. split; [done|]. intros _. simpl. lia.
    + destruct Hc as [C1 C2]; [by left|]. rewrite HW in C1, C2. rewrite H0. split.
      * intros F _. rewrite C1 by done. nia.
      * intros T. specialize (C2 T). nia.
  - exists (<[i := S (of_vals vals i)]> vals), false. split; [done|]. split; [apply vals_ok_insert; [done|done|lia]|].
    split. { intros j Hj. apply not_elem_of_cons in Hj as [Hji Hj]. rewrite of_vals_insert by lia. by rewrite decide_False. }
    intros _. split; [|done]. intros _ _. rewrite !vec_index_snoc. rewrite of_vals_insert by lia. rewrite decide_True by done.
    rewrite (vec_index_ext c (rev idx) _ (of_vals vals)); [lia|]. intros j Hj. rewrite of_vals_insert by lia.
    case_decide; [|done]. subst. exfalso. apply Hni. apply elem_of_list_In, in_rev, elem_of_list_In. done.
Qed.

(** ** The whole enumeration *)

Context (order : list nat) (Hperm : order ≡ₚ seq 0 (nvars c)) (Hn : nvars c <> 0).

Lemma order_nd : NoDup order.
Proof. rewrite Hperm. apply NoDup_seq. Qed.

Lemma order_in i : i ∈ order <-> i < nvars c.
Proof. rewrite Hperm, elem_of_seq. lia. Qed.

Lemma vals_inj x y : vals_ok c x -> vals_ok c y -> W order x = W order y -> x = y.
Proof.
  intros Hx Hy E. apply list_eq. intros i. destruct (decide (i < nvars c)) as [Hi|Hi].
  - rewrite !of_vals_lookup by (destruct Hx, Hy; lia). f_equal.
    apply (vec_index_inj c order); try done; try (by apply order_in); intros j Hj; [apply Hx|apply Hy]; by apply order_in.
  - rewrite !lookup_ge_None_2; [done| |]; destruct Hx, Hy; lia.
Qed.

Lemma next_ok vals : vals_ok c vals ->
  (S (W order vals) < prodl c order /\ exists vals', next (DIter doms (rev order) vals) = Val (DIter doms (rev order) vals') /\
     vals_ok c vals' /\ W order vals' = S (W order vals)) \/
  (S (W order vals) = prodl c order /\ next (DIter doms (rev order) vals) = Val end_iter).
Proof.
  intros Hv. destruct (bump_ok (rev order) vals false) as (vals'&ov'&Eb&Ho&_&Hc).
  - apply NoDup_ListNoDup, NoDup_rev, NoDup_ListNoDup, order_nd.
  - intros i Hi. apply order_in. apply elem_of_list_In, in_rev, elem_of_list_In. done.
  - done.
  - destruct Hc as [C1 C2]; [by right|]. rewrite rev_involutive in C1, C2. unfold next. cbn [di_doms di_idx di_vals]. rewrite Eb. cbn [obind].
    assert (Hne : rev order <> []).
    { intros E. apply (f_equal (@length nat)) in E. rewrite rev_length, Hperm, seq_length in E. simpl in E. lia. }
    destruct ov'.
    + right. split; [by apply C2|done].
    + left. specialize (C1 eq_refl Hne). split.
      * rewrite <- C1. apply vec_index_lt. intros i Hi. apply Ho. by apply order_in.
      * by exists vals'.
Qed.

Lemma collect_ok {A} (f : list nat -> out A) (g : list nat -> A) :
  (forall vals, vals_ok c vals -> f vals = Val (g vals)) ->
  forall fuel vals, vals_ok c vals -> prodl c order - W order vals < fuel ->
  exists xs, collect fuel f (DIter doms (rev order) vals) = Val (map g xs) /\
    length xs = prodl c order - W order vals /\
    forall k x, xs !! k = Some x -> vals_ok c x /\ W order x = W order vals + k.
Proof.
  intros Hf. induction fuel as [|fuel IH]; intros vals Hv HF; [lia|].
  cbn [collect].
  assert (Ee : at_end (DIter doms (rev order) vals) = false).
  { unfold at_end. cbn [di_vals]. destruct vals as [|v vals]; [|done]. destruct Hv as [L _]. simpl in L. lia. }
  rewrite Ee. cbn [di_vals]. rewrite (Hf _ Hv). cbn [obind].
  assert (Hlt : W order vals < prodl c order). { apply vec_index_lt. intros i Hi. apply Hv. by apply order_in. }
  destruct (next_ok vals Hv) as [(Hb&vals'&En&Hv'&Ew)|(Hb&En)]; rewrite En; cbn [obind].
  - destruct (IH vals' Hv' ltac:(lia)) as (xs&Ec&L&H). rewrite Ec. cbn [obind]. exists (vals :: xs). split; [done|].
    split; [simpl; lia|]. intros [|k] x Hk; cbn in Hk.
    + injection Hk as <-. split; [done|lia].
    + destruct (H k x Hk). split; [done|lia].
  - destruct fuel as [|fuel]; [lia|]. cbn [collect at_end end_iter di_vals obind]. exists [vals]. split; [done|]. split; [simpl; lia|].
    intros [|k] x Hk; [|done]. cbn in Hk. injection Hk as <-. split; [done|lia].
Qed.

Lemma zeros_ok : (forall i, i < nvars c -> 1 <= dom c i) -> vals_ok c (replicate (nvars c) 0) /\ W order (replicate (nvars c) 0) = 0.
Proof.
  intros Hd. assert (E : forall i, of_vals (replicate (nvars c) 0) i = 0).
  { intros i. unfold of_vals. rewrite nth_lookup. destruct (replicate (nvars c) 0 !! i) eqn:E; [|done]. apply lookup_replicate in E as [-> _]. done. }
  split.
  - split; [apply replicate_length|]. intros i Hi. rewrite E. specialize (Hd i Hi). lia.
  - rewrite (vec_index_ext c order _ (fun _ => 0)) by (intros; apply E). clear. induction order as [|i l IH]; simpl; [done|]. lia.
Qed.

Lemma all_ok {A} (f : list nat -> out A) (g : list nat -> A) fuel :
  (forall i, i < nvars c -> 1 <= dom c i) -> (forall vals, vals_ok c vals -> f vals = Val (g vals)) -> prodl c order < fuel ->
  exists xs it, ordered_iter doms order = Val it /\ collect fuel f it = Val (map g xs) /\
    forall k x, xs !! k = Some x <-> vals_ok c x /\ W order x = k.
Proof.
  intros Hd Hf HF. destruct (zeros_ok Hd) as [Z0 W0].
  destruct (collect_ok f g Hf fuel _ Z0 ltac:(lia)) as (xs&Ec&L&H). rewrite W0 in L, H.
  exists xs, (DIter doms (rev order) (replicate (nvars c) 0)). split_and!; [|done|].
  - unfold ordered_iter, make_iter, free_indices. cbn [map]. do 2 f_equal. f_equal. clear. induction order as [|i l IH]; [done|].
    rewrite filter_cons_True by set_solver. by f_equal.
  - intros k x. split; [apply H|]. intros [Hx E]. subst k.
    assert (Hl : W order x < length xs). { rewrite L, Nat.sub_0_r. apply vec_index_lt. intros i Hi. apply Hx. by apply order_in. }
    destruct (lookup_lt_is_Some_2 _ _ Hl) as [y Hy]. destruct (H _ _ Hy) as [Hy1 Hy2]. rewrite Hy. f_equal. by apply vals_inj.
Qed.
End iter.

(** ** Trees *)

(** the variables at the leaves from left to right *)
Fixpoint leaves (e : tree) : list nat :=
  match e with
  | TVar i => [i]
  | TConst _ => []
  | TOp _ l r => leaves l ++ leaves r
  end.

Fixpoint no_const (e : tree) : Prop :=
  match e with
  | TVar _ => True
  | TConst _ => False
  | TOp _ l r => no_const l /\ no_const r
  end.

Lemma eval_tree_ok c e vals : vals_ok c vals -> (forall i, i ∈ leaves e -> i < nvars c) ->
  eval_tree e vals = Val (xeval (as_expr e) (of_vals vals)).
Proof.
  intros Hv. induction e as [i|v|o l IHl r IHr]; intros Hb; cbn [eval_tree as_expr xeval].
  - rewrite (of_vals_lookup vals i); [done|]. destruct Hv as [-> _]. apply Hb. by left.
  - done.
  - rewrite IHl, IHr; [done| |]; intros i Hi; apply Hb; simpl; apply elem_of_app; auto.
Qed.

Lemma grow_ok draw : (forall p, (2 <= ch_denom (draw p) <= 10)%Z) ->
  forall n fuel path i, 1 <= n -> n <= fuel -> (Z.of_nat n <= max32)%Z ->
  exists e, grow fuel draw path (Z.of_nat n) i = Val (e, i + n) /\ no_const e /\ leaves e ≡ₚ seq i n.
Proof.
  intros Hd n. induction (lt_wf n) as [n _ IH]. intros fuel path i H1 HF HM. destruct fuel as [|fuel]; [lia|]. cbn [grow].
  destruct (Z.eqb_spec (Z.of_nat n) 1) as [E|E].
  { assert (n = 1) as -> by lia. exists (TVar i). split; [do 2 f_equal; lia|]. split; done. }
  specialize (Hd path) as Hp. set (den := ch_denom (draw path)) in *.
  set (lz := Z.max 1 (Z.quot (Z.of_nat n) den)).
  assert (Hq : (0 <= Z.quot (Z.of_nat n) den <= Z.of_nat n - 1)%Z).
  { rewrite Z.quot_div_nonneg by lia. split; [apply Z.div_pos; lia|].
    assert (Z.of_nat n / den < Z.of_nat n)%Z by (apply Z.div_lt; lia). lia. }
  set (a := Z.to_nat lz). set (b := n - a).
  assert (Ha : lz = Z.of_nat a) by (unfold a, lz in *; lia).
  assert (Hab : 1 <= a /\ 1 <= b /\ a + b = n) by (unfold b; unfold lz in Ha; lia).
  assert (Hb : (Z.of_nat n - lz = Z.of_nat b)%Z) by lia. rewrite Hb.
  assert (Ei : int32 (Z.of_nat b) = Val (Z.of_nat b)).
  { unfold int32. destruct (Z.leb_spec (Z.of_nat b) max32); [|lia]. destruct (Z.leb_spec (- max32 - 1) (Z.of_nat b)); [done|]. unfold max32 in *; lia. }
  rewrite Ei. cbn [obind]. rewrite Ha. destruct (ch_left_first (draw path)).
  - destruct (IH a ltac:(lia) fuel (true :: path) i ltac:(lia) ltac:(lia) ltac:(lia)) as (l&El&Nl&Ll). rewrite El. cbn [obind fst snd].
    destruct (IH b ltac:(lia) fuel (false :: path) (i + a) ltac:(lia) ltac:(lia) ltac:(lia)) as (r&Er&Nr&Lr). rewrite Er. cbn [obind fst snd].
    eexists. split; [do 2 f_equal; lia|]. split; [by split|]. cbn [leaves]. rewrite Ll, Lr. rewrite <- seq_app. by replace (a + b) with n by lia.
  - destruct (IH b ltac:(lia) fuel (false :: path) i ltac:(lia) ltac:(lia) ltac:(lia)) as (r&Er&Nr&Lr). rewrite Er. cbn [obind fst snd].
    destruct (IH a ltac:(lia) fuel (true :: path) (i + b) ltac:(lia) ltac:(lia) ltac:(lia)) as (l&El&Nl&Ll). rewrite El. cbn [obind fst snd].
    eexists. split; [do 2 f_equal; lia|]. split; [by split|]. cbn [leaves]. rewrite Ll, Lr.
    rewrite Permutation_app_comm, <- seq_app. by replace (b + a) with n by lia.
Qed.

(** the value of a tree without constants lies between 0 and the largest value of a variable *)
Lemma node_eval_cases o x y : node_eval o x y = x \/ node_eval o x y = y.
Proof. destruct o; cbn; destruct (x <? y)%Z; auto. Qed.

Lemma node_eval_min x y : node_eval OMin x y = Z.min x y.
Proof. cbn. destruct (Z.ltb_spec x y); lia. Qed.

Lemma node_eval_max x y : node_eval OMax x y = Z.max x y.
Proof. cbn. destruct (Z.ltb_spec x y); lia. Qed.

Lemma tree_value e rho : no_const e -> exists i, i ∈ leaves e /\ xeval (as_expr e) rho = Z.of_nat (rho i).
Proof.
  induction e as [i|v|o l IHl r IHr]; intros Hc; cbn [as_expr xeval leaves].
  - exists i. split; [by left|done].
  - done.
  - destruct Hc as [Cl Cr]. destruct (node_eval_cases o (xeval (as_expr l) rho) (xeval (as_expr r) rho)) as [->| ->].
    + destruct (IHl Cl) as (i&Hi&E). exists i. split; [|done]. apply elem_of_app; auto.
    + destruct (IHr Cr) as (i&Hi&E). exists i. split; [|done]. apply elem_of_app; auto.
Qed.

Lemma tree_monotone e rho rho' : (forall i, rho i <= rho' i) -> (xeval (as_expr e) rho <= xeval (as_expr e) rho')%Z.
Proof.
  intros H. induction e as [i|v|o l IHl r IHr]; cbn [as_expr xeval]; [specialize (H i); lia|lia|].
  destruct o; rewrite ?node_eval_min, ?node_eval_max; lia.
Qed.

Lemma tree_xok c e : no_const e -> (forall i, i ∈ leaves e -> i < nvars c) ->
  (forall i, i < nvars c -> forall v, v < dom c i -> tval c (Z.of_nat v)) -> xok c (as_expr e).
Proof.
  intros Hc Hb Hd. induction e as [i|v|o l IHl r IHr]; cbn [as_expr xok].
  - apply Hb. by left.
  - done.
  - destruct Hc as [Cl Cr]. split_and!.
    + apply IHl; [done|]. intros i Hi. apply Hb. simpl. apply elem_of_app; auto.
    + apply IHr; [done|]. intros i Hi. apply Hb. simpl. apply elem_of_app; auto.
    + intros rho Hv. destruct (tree_value (TOp o l r) rho) as (i&Hi&E); [done|]. cbn [as_expr xeval] in E. rewrite E.
      apply (Hd i); [by apply Hb|]. apply Hv. by apply Hb.
Qed.

(** ** Terms *)

Lemma eval_term_ok c vals term : vals_ok c vals -> (forall i, i ∈ term -> i < nvars c) ->
  forall m, o_fold (fun m x => let? v := o_get EOob (vals !! x) in Val (if (Z.of_nat v <? m)%Z then Z.of_nat v else m)) m term
  = Val (foldr Z.min m (map (fun i => Z.of_nat (of_vals vals i)) term)).
Proof.
  intros Hv. induction term as [|i term IH]; intros Hb m; [done|]. cbn [o_fold].
  rewrite (of_vals_lookup vals i) by (destruct Hv as [-> _]; apply Hb; by left). cbn [o_get obind].
  rewrite IH by (intros; apply Hb; by right). f_equal. cbn [map foldr].
  set (x := Z.of_nat (of_vals vals i)). clearbody x. clear. induction (map _ term) as [|y l IHl]; cbn [foldr].
  - destruct (Z.ltb_spec x m); lia.
  - rewrite IHl. lia.
Qed.

(** ** The value of a minmax expression *)

Lemma foldr_min_fold l : forall m x, foldr Z.min m (x :: l) = Z.min m (fold_left Z.min l x).
Proof.
  induction l as [|y l IH]; intros m x; cbn [foldr fold_left]; [lia|].
  rewrite <- IH. cbn [foldr]. lia.
Qed.

Lemma eval_minmax_ok c vals e : vals_ok c vals -> Forall (fun t => forall i, i ∈ t -> i < nvars c) e ->
  eval_minmax e vals = Val (foldr Z.max min32 (map (fun t => foldr Z.min max32 (map (fun i => Z.of_nat (of_vals vals i)) t)) e)).
Proof.
  intros Hv H. unfold eval_minmax. generalize min32 as m. induction H as [|t e Ht He IH]; intros m; [done|]. cbn [o_fold].
  unfold eval_term at 1. rewrite (eval_term_ok c vals t Hv Ht). cbn [obind]. rewrite IH. f_equal. cbn [map foldr].
  set (x := foldr Z.min max32 _). clearbody x. clear. induction (map _ e) as [|y l IHl]; cbn [foldr].
  - destruct (Z.ltb_spec m x); lia.
  - rewrite IHl. lia.
Qed.
