(** * evaluate and to_vector *)

From stdpp Require Import gmap list.
From Coq Require Import ZArith Lia ArithRing.
From Verif Require Import Base Ops Tables NodeManager Tools Sift DiagramManager.
From Verif Require Import Heap Inv InvLemmas Prim TabLemmas GC Make Build Apply Api VecSpec Vec.

Local Open Scope nat_scope.

(** the assignment given by a list of values *)
Definition of_vals (vals : list nat) : asg := fun i => nth i vals 0.

Definition vals_ok (c : cfg) (vals : list nat) : Prop :=
  length vals = nvars c /\ valid c (of_vals vals).

Lemma of_vals_lookup vals i : i < length vals -> vals !! i = Some (of_vals vals i).
Proof. intros. unfold of_vals. destruct (nth_lookup_or_length vals i 0); [done|lia]. Qed.

Section eval.
Context (c : cfg) (opsem : Z -> option (Z -> Z -> Z)) (strict : bool).
Notation rank := (rank c).
Notation WF := (WF c opsem strict).
Notation calm := (calm c opsem strict).

Lemma Ev_same_vals g s a rho rho' v :
  WF g s -> held g (s_heap s) a -> (forall i, i < nvars c -> rho i = rho' i) ->
  Ev (live (s_heap s)) a rho v -> Ev (live (s_heap s)) a rho' v.
Proof.
  intros W Ha E. apply Ev_vars. intros b i sons Hr L.
  destruct (wf_node _ _ _ _ _ W b _ L) as (Hi&_). symmetry. by apply E.
Qed.

(** the value the traversal arrives at; the manager is not changed *)
Lemma evaluate_loop_spec (ok : err -> Prop) g s vals fuel : WF g s -> quiet g ->
  vals_ok c vals -> forall a, held g (s_heap s) a -> nvars c - rank g (s_heap s) a < fuel ->
  wp ok (evaluate_loop c fuel vals a)
    (fun v s' => s' = s /\ Ev (live (s_heap s)) a (of_vals vals) v) s.
Proof.
  intros W Hq [Hlen Hv]. induction fuel as [|fuel IH]; intros a Ha Hf; [lia|]. cbn [evaluate_loop].
  destruct (held_live _ _ _ _ _ _ W Ha) as [Hl Hd].
  apply wp_bind. destruct (live (s_heap s) a) as [[v|i sons]|] eqn:La; [| |done].
  - eapply wp_getn_live; [done|]. intros n _ _ ->. apply wp_ret. split; [done|]. by apply Ev_term.
  - eapply wp_getn_live; [done|]. intros n _ _ ->.
    destruct (wf_node _ _ _ _ _ W a _ La) as (Hi&Hsl&Hrk&_).
    pose proof (Hv i Hi) as Hvi.
    apply wp_bind. eapply wp_of_opt; [apply of_vals_lookup; lia|].
    destruct (Nat.leb_spec (dom c i) (of_vals vals i)); [lia|]. rewrite andb_false_r.
    destruct (lookup_lt_is_Some_2 sons (of_vals vals i)) as [b Hb]; [lia|].
    assert (Hin : b ∈ sons) by (by eapply elem_of_list_lookup_2).
    apply wp_bind. eapply wp_of_opt; [done|].
    destruct (wf_son _ _ _ _ _ _ _ _ b W La Hd Hin) as (_&Hr&_).
    eapply wp_mono; [apply IH; [by eapply held_son|lia]|].
    intros v s' [-> HE]. split; [done|]. by eapply Ev_int.
Qed.

Lemma evaluate_held (ok : err -> Prop) g s vals a : WF g s -> quiet g -> vals_ok c vals -> held g (s_heap s) a ->
  wp ok (evaluate c a vals) (fun v s' => s' = s /\ Ev (live (s_heap s)) a (of_vals vals) v) s.
Proof. intros. apply (evaluate_loop_spec ok g); try done. lia. Qed.

Lemma evaluate_spec (ok : err -> Prop) g s vals a : calm g s -> vals_ok c vals -> 0 < g_ext g a ->
  wp ok (evaluate c a vals) (fun v s' => s' = s /\ Ev (live (s_heap s)) a (of_vals vals) v) s.
Proof.
  intros C Hv Ha. apply (evaluate_held ok g); try done; [apply C|apply C|]. eapply ext_held; [apply C|done].
Qed.

(** every held diagram is a total function *)
Lemma Ev_total g s a rho : WF g s -> quiet g -> held g (s_heap s) a -> valid c rho ->
  exists v, Ev (live (s_heap s)) a rho v.
Proof.
  intros W Hq Ha Hv. set (vals := map rho (seq 0 (nvars c))).
  assert (E : forall i, i < nvars c -> of_vals vals i = rho i).
  { intros i Hi. unfold of_vals, vals. rewrite (nth_indep _ 0 (rho 0)) by (rewrite map_length, seq_length; lia).
    rewrite map_nth, seq_nth by lia. done. }
  assert (Hok : vals_ok c vals).
  { split; [unfold vals; by rewrite map_length, seq_length|]. intros i Hi. rewrite E by done. auto. }
  pose proof (evaluate_held (fun _ => False) g s vals a W Hq Hok Ha) as H. unfold wp in H.
  destruct (evaluate c a vals s); try done. destruct H as [_ H]. eexists.
  by apply (Ev_same_vals g s a (of_vals vals)).
Qed.

(** ** to_vector *)

Lemma nth_insert (l : list nat) i x j : i < length l -> nth j (<[i:=x]> l) 0 = if decide (j = i) then x else nth j l 0.
Proof.
  intros Hi. destruct (decide (j = i)) as [->|Hne].
  - apply nth_lookup_Some. by apply list_lookup_insert.
  - rewrite !nth_lookup, list_lookup_insert_ne by done. done.
Qed.

Lemma vals_ok_insert vals i x : vals_ok c vals -> i < nvars c -> x < dom c i -> vals_ok c (<[i:=x]> vals).
Proof.
  intros [Hl Hv] Hi Hx. split; [by rewrite insert_length|]. intros j Hj. unfold of_vals.
  rewrite nth_insert by lia. destruct (decide (j = i)) as [->|]; [done|]. by apply Hv.
Qed.

Lemma next_vals_spec (ok : err -> Prop) g s L : wf_cfg c -> ord c g s -> L <= nvars c -> forall vals, vals_ok c vals ->
  wp ok (next_vals c L vals) (fun r s' => s' = s /\
    if snd r then S (vec_index c (take L (s_l2i s)) (of_vals vals)) = prodl c (take L (s_l2i s))
    else vals_ok c (fst r) /\
         vec_index c (take L (s_l2i s)) (of_vals (fst r)) = S (vec_index c (take L (s_l2i s)) (of_vals vals)) /\
         forall i, i ∉ take L (s_l2i s) -> of_vals (fst r) i = of_vals vals i) s.
Proof.
  intros Hc O. pose proof (ord_perm _ _ _ O) as P. induction L as [|L IH]; intros HL vals Hok; cbn [next_vals].
  - apply wp_ret. split; [done|]. simpl. done.
  - destruct (perm_l2i_ex c s L P ltac:(lia)) as (i&Hi&Hin).
    pose proof Hok as [Hlen Hv]. pose proof (Hv i Hin) as Hvi.
    assert (Hni : i ∉ take L (s_l2i s)).
    { intros (j&Hj&?)%elem_of_take. pose proof (perm_l2i_NoDup c s P) as ND.
      pose proof (proj1 (NoDup_alt _) ND j L i Hj Hi). lia. }
    rewrite !(take_S_r _ _ _ Hi).
    apply wp_bind. eapply wp_index_at; [done|].
    apply wp_bind. eapply wp_of_opt; [apply of_vals_lookup; lia|].
    destruct (Nat.eqb_spec (S (of_vals vals i)) (dom c i)) as [E|E].
    + assert (Eidx : forall j, j ∈ take L (s_l2i s) -> of_vals (<[i:=0]> vals) j = of_vals vals j).
      { intros j Hj. unfold of_vals. rewrite nth_insert, decide_False by (lia || set_solver). done. }
      eapply wp_mono; [apply IH; [lia|apply vals_ok_insert; try done; lia]|].
      intros [vals' last] s' [-> H]. split; [done|]. simpl in *.
      rewrite (vec_index_ext c (take L (s_l2i s)) _ (of_vals vals) Eidx) in H.
      destruct last; [rewrite vec_index_snoc, prodl_app, <- H; cbn [prodl]; rewrite <- E; ring|]. destruct H as (H1&H2&H3). split_and!; [done| |].
      * assert (E0 : of_vals (<[i:=0]> vals) i = 0).
        { unfold of_vals. rewrite nth_insert, decide_True by (done || lia). done. }
        rewrite !vec_index_snoc, H2, (H3 i Hni), E0, <- E. ring.
      * intros j Hj. rewrite H3 by set_solver. unfold of_vals. rewrite nth_insert, decide_False by (lia || set_solver). done.
    + apply wp_ret. split; [done|]. simpl. split_and!; [apply vals_ok_insert; try done; lia| |].
      * assert (E0 : of_vals (<[i:=S (of_vals vals i)]> vals) i = S (of_vals vals i)).
        { unfold of_vals at 1. rewrite nth_insert, decide_True by (done || lia). done. }
        rewrite !vec_index_snoc, E0. rewrite (vec_index_ext c (take L (s_l2i s)) _ (of_vals vals)); [lia|].
        intros j Hj. unfold of_vals. rewrite nth_insert, decide_False by (lia || set_solver). done.
      * intros j Hj. unfold of_vals. rewrite nth_insert, decide_False by (lia || set_solver). done.
Qed.

(** [vs] holds the value of [a] at the position of every assignment *)
Definition vector_of (s : st) (a : positive) (vs : list Z) : Prop :=
  length vs = prodl c (s_l2i s) /\
  forall rho v, valid c rho -> vs !! vec_index c (s_l2i s) rho = Some v <-> Ev (live (s_heap s)) a rho v.

Lemma to_vector_loop_spec (ok : err -> Prop) g s a fuel : wf_cfg c -> calm g s -> held g (s_heap s) a ->
  forall vals, vals_ok c vals -> prodl c (s_l2i s) <= vec_index c (s_l2i s) (of_vals vals) + fuel ->
  wp ok (to_vector_loop c fuel a vals) (fun vs s' => s' = s /\
    vec_index c (s_l2i s) (of_vals vals) + length vs = prodl c (s_l2i s) /\
    forall k rho, valid c rho -> vec_index c (s_l2i s) rho = vec_index c (s_l2i s) (of_vals vals) + k ->
      exists v, vs !! k = Some v /\ Ev (live (s_heap s)) a rho v) s.
Proof.
  intros Hc C Ha. pose proof (ord_perm _ _ _ (cl_ord _ _ _ _ _ C)) as P.
  assert (Htk : take (nvars c) (s_l2i s) = s_l2i s) by (apply take_ge; rewrite (pm_l2i _ _ P); lia).
  induction fuel as [|fuel IH]; intros vals Hok Hfuel; cbn [to_vector_loop].
  { pose proof (vec_index_lt c (s_l2i s) (of_vals vals)) as Hlt. exfalso.
    enough (vec_index c (s_l2i s) (of_vals vals) < prodl c (s_l2i s)) by lia. apply Hlt.
    intros i Hi. apply (perm_elem c s i P) in Hi. by apply Hok. }
  apply wp_bind. eapply wp_mono; [apply (evaluate_held ok g); try done; apply C|].
  intros v s' [-> HE].
  assert (H0 : forall rho, valid c rho -> vec_index c (s_l2i s) rho = vec_index c (s_l2i s) (of_vals vals) ->
     Ev (live (s_heap s)) a rho v).
  { intros rho Hv E. eapply Ev_same_vals; [apply C|done| |exact HE]. intros i Hi.
    apply (vec_index_inj c (s_l2i s)); [| |done|by apply (perm_elem c s i P)].
    - intros j Hj. apply Hok. by apply (perm_elem c s j P).
    - intros j Hj. apply Hv. by apply (perm_elem c s j P). }
  apply wp_bind. eapply wp_mono; [apply (next_vals_spec ok g s (nvars c)); try done; apply C|].
  intros [vals' last] s' [-> H]. simpl in H |- *. rewrite Htk in H. destruct last.
  - apply wp_ret. split_and!; [done|simpl; lia|]. intros k rho Hv E.
    assert (vec_index c (s_l2i s) rho < prodl c (s_l2i s)).
    { apply vec_index_lt. intros j Hj. apply Hv. by apply (perm_elem c s j P). }
    assert (k = 0) as -> by lia. exists v. split; [done|]. apply H0; [done|lia].
  - destruct H as (H1&H2&_). apply wp_bind. eapply wp_mono; [apply IH; [done|lia]|].
    intros vs s' (->&Hl&Hvs). apply wp_ret. split_and!; [done|simpl; lia|].
    intros k rho Hv E. destruct k as [|k].
    + exists v. split; [done|]. apply H0; [done|lia].
    + destruct (Hvs k rho Hv) as (w&Hw&HE2); [lia|]. exists w. done.
Qed.

Lemma to_vector_spec (ok : err -> Prop) g s a : wf_cfg c -> calm g s -> 0 < g_ext g a ->
  wp ok (to_vector c a) (fun vs s' => s' = s /\ vector_of s a vs) s.
Proof.
  intros Hc C Hx. pose proof (ext_held c opsem strict g s a (cl_wf _ _ _ _ _ C) Hx) as Ha.
  pose proof (ord_perm _ _ _ (cl_ord _ _ _ _ _ C)) as P. unfold to_vector.
  assert (Hfin : forall vs, length vs = prodl c (s_l2i s) ->
    (forall rho, valid c rho -> exists v, vs !! vec_index c (s_l2i s) rho = Some v /\ Ev (live (s_heap s)) a rho v) ->
    vector_of s a vs).
  { intros vs Hl H. split; [done|]. intros rho v Hv. destruct (H rho Hv) as (w&Hw&HE).
    split; [intros E; congruence|]. intros E. rewrite Hw. f_equal. by eapply Ev_det. }
  destruct (Nat.eqb_spec (nvars c) 0) as [Hn|Hn].
  - assert (s_l2i s = []) as Eo by (apply nil_length_inv; rewrite (pm_l2i _ _ P); done).
    destruct (held_live _ _ _ _ _ _ (cl_wf _ _ _ _ _ C) Ha) as [Hl _].
    apply wp_bind. destruct (live (s_heap s) a) as [[v|i sons]|] eqn:La; [| |done].
    + eapply wp_getn_live; [done|]. intros n _ _ ->. apply wp_ret. split; [done|].
      apply Hfin; rewrite Eo; [done|]. intros rho Hv. exists v. split; [done|]. by apply Ev_term.
    + destruct (wf_node _ _ _ _ _ (cl_wf _ _ _ _ _ C) a _ La) as (?&_). lia.
  - assert (Hd0 : forall i, i < nvars c -> of_vals (replicate (nvars c) 0) i = 0).
    { intros i Hi. unfold of_vals. apply nth_lookup_Some. by apply lookup_replicate_2. }
    assert (Hok : vals_ok c (replicate (nvars c) 0)).
    { split; [apply replicate_length|]. intros i Hi. rewrite Hd0 by done. by apply (wc_dom _ Hc). }
    assert (Hz : vec_index c (s_l2i s) (of_vals (replicate (nvars c) 0)) = 0).
    { assert (Hall : forall i, i ∈ s_l2i s -> i < nvars c) by (intros i; apply (perm_elem c s i P)).
      clear -Hall Hd0. induction (s_l2i s) as [|i l IH]; simpl; [done|].
      rewrite (Hd0 i) by (apply Hall; set_solver). rewrite IH; [done|]. intros j Hj. apply Hall. set_solver. }
    eapply wp_mono.
    { apply (to_vector_loop_spec ok g s a); try done. rewrite Hz, (dom_prod_order c s P). lia. }
    intros vs s' (->&Hl&H). split; [done|]. rewrite Hz in *. apply Hfin; [lia|].
    intros rho Hv. destruct (H (vec_index c (s_l2i s) rho) rho Hv eq_refl) as (v&?&?). eauto.
Qed.

End eval.
