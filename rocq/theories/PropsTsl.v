(** * C61: the truth tables of the test library *)

From stdpp Require Import gmap list list_numbers.
From Coq Require Import ZArith Lia QArith Qcanon.
From Verif Require Import Base Ops Tables NodeManager Tools Sift DiagramManager Reliability World Queries.
From Verif Require Import Heap Inv Eval VecSpec Vec WorldSpec Ctor History PropsBase Chain PropsBase2 Examples Refuted.
From Verif Require Import QuerySpec VectorSpec PropsQuery PropsCore2 PropsDpld Prob ProbSpec PropsProb Tsl TslProof TslProof2.

Local Close Scope Q_scope.
Local Close Scope Qc_scope.
Local Open Scope nat_scope.

(** the object [t] was made by the constructor, for the domains of [c] *)
Definition is_table (c : cfg) (t : table) : Prop := exists vec, make_table vec (c_doms c) = Val t.

(** [t] is a truth table of the function F *)
Definition table_of (c : cfg) (F : asg -> Z) (t : table) : Prop :=
  is_table c t /\ forall vals, vals_ok c vals -> Tsl.evaluate t vals = Val (F (of_vals vals)).

Definition has_states (c : cfg) : Prop := forall i, i < nvars c -> 1 <= dom c i.

(** ** Auxiliary facts *)

Lemma has_states_all c : has_states c -> Forall (fun d => 1 <= d) (c_doms c).
Proof.
  intros H. apply Forall_lookup. intros i d Hd. pose proof (lookup_lt_Some _ _ _ Hd). specialize (H i ltac:(done)).
  unfold dom in H. by rewrite (nth_lookup_Some _ _ _ _ Hd) in H.
Qed.

Lemma range_vals c x : in_range x (c_doms c) <-> vals_ok c x.
Proof. unfold in_range. by rewrite <- states_elem, states_vals. Qed.

Lemma dom_lookup c i : i < nvars c -> c_doms c !! i = Some (dom c i).
Proof. intros H. unfold dom, nvars in *. destruct (lookup_lt_is_Some_2 (c_doms c) i H) as [d Hd]. by rewrite (nth_lookup_Some _ _ _ _ Hd). Qed.

Lemma int32_inv z y : int32 z = Val y -> y = z /\ (z <= max32)%Z.
Proof. unfold int32. destruct (Z.leb_spec z max32); cbn [andb]; [|done]. destruct (_ <=? _)%Z; [|done]. by intros [= ->]. Qed.

Lemma domain_size_inv : forall ds acc p, o_fold (fun p d => int32 (p * Z.of_nat d)) acc ds = Val p ->
  p = (acc * Z.of_nat (prodn ds))%Z /\ (ds <> [] -> (p <= max32)%Z).
Proof.
  induction ds as [|d ds IH]; intros acc p; cbn [o_fold prodn]; [intros [= <-]; split; [lia|done]|].
  destruct (int32 (acc * Z.of_nat d)) as [y|e|] eqn:E; cbn [obind]; try done. apply int32_inv in E as [-> B].
  intros H. destruct (IH _ _ H) as [-> Hm]. split; [lia|]. intros _. destruct ds; [cbn in *; lia|by apply Hm].
Qed.

(** what the constructor guarantees *)
Lemma table_inv c vec t : has_states c -> make_table vec (c_doms c) = Val t ->
  small (c_doms c) /\ length vec = prodn (c_doms c) /\
  represents (c_doms c) (fun x => nth (pos (c_doms c) x) vec 0%Z) t /\ t_vec t = vec /\
  t_max t <> Undef /\ t_max t ∈ vec /\ forall v, v ∈ vec -> v <> Undef -> (v <= t_max t)%Z.
Proof.
  intros Hs%has_states_all. unfold make_table. destruct (max_value vec) as [m|e|] eqn:Em; cbn [obind]; try done.
  destruct (domain_size_int (c_doms c)) as [p|e|] eqn:Ep; cbn [obind]; try done.
  destruct (Z.eqb_spec (Z.of_nat (length vec)) p) as [El|]; cbn [negb]; [|done].
  destruct (Nat.eqb_spec (length (c_doms c)) 0) as [|En]; [done|].
  assert (Ne : c_doms c <> []) by (by intros E0; rewrite E0 in En). unfold domain_size_int in Ep.
  apply domain_size_inv in Ep as [Ep Bp]. specialize (Bp Ne).
  assert (L : length vec = prodn (c_doms c)) by lia.
  destruct (offsets (c_doms c)) as [offs|e|] eqn:Eo; cbn [obind]; try done. intros [= <-]. cbn [t_vec t_max].
  assert (X : exists v, v ∈ vec /\ v <> Undef).
  { unfold max_value in Em. destruct (filter (fun v => v <> Undef) vec) as [|v l] eqn:E; [done|].
    assert (Hv : v ∈ filter (fun v => v <> Undef) vec) by (rewrite E; by left). apply elem_of_list_filter in Hv as [? ?]. by exists v. }
  destruct (max_value_ok vec X) as (m'&Em'&Hm). rewrite Em in Em'. injection Em' as <-. destruct Hm as (M1&M2&M3).
  split; [split_and!; [done|done|lia]|]. split; [done|]. split; [|by split_and!].
  split; cbn [t_dom t_vec t_off]; [done|by apply vec_function|done].
Qed.

Lemma table_of_rep c F t : has_states c -> table_of c F t ->
  small (c_doms c) /\ represents (c_doms c) (fun x => F (of_vals x)) t /\ t_max t <> Undef /\
  (exists vals, vals_ok c vals /\ F (of_vals vals) = t_max t) /\
  forall vals, vals_ok c vals -> F (of_vals vals) <> Undef -> (F (of_vals vals) <= t_max t)%Z.
Proof.
  intros Hs [[vec E] H]. destruct (table_inv c vec t Hs E) as (S&L&R&Ev&M1&M2&M3).
  assert (Hg : forall x, in_range x (c_doms c) -> nth (pos (c_doms c) x) vec 0%Z = F (of_vals x)).
  { intros x Hx. pose proof (H x (proj1 (range_vals c x) Hx)) as Hx'. rewrite (evaluate_ok _ _ t x S R Hx) in Hx'. by injection Hx' as <-. }
  assert (Hvec : vec = map (fun x => F (of_vals x)) (states (c_doms c))).
  { rewrite (vec_function (c_doms c) vec L) at 1. apply map_ext_in. intros x Hx. apply Hg. apply states_elem. by apply elem_of_list_In. }
  split; [exact S|]. split_and!.
  - destruct R as [D V O]. split; [done|by rewrite Ev, <- Hvec|done].
  - done.
  - rewrite Hvec in M2. apply elem_of_list_fmap in M2 as (x&->&Hx). exists x. split; [by apply states_vals|done].
  - intros vals Hv Hn. apply M3; [|done]. rewrite Hvec. apply elem_of_list_fmap. exists vals. split; [done|]. by apply states_vals.
Qed.

Lemma table_of_made c (g : list nat -> Z) F t : has_states c -> make_table (map g (states (c_doms c))) (c_doms c) = Val t ->
  (forall vals, vals_ok c vals -> g vals = F (of_vals vals)) -> table_of c F t.
Proof.
  intros Hs E Hg. split; [by eexists|]. intros vals Hv. destruct (table_inv c _ t Hs E) as (S&L&R&Ev&_).
  rewrite (evaluate_ok _ _ t vals S R) by (by apply range_vals). f_equal.
  apply range_vals in Hv as Hr. rewrite <- Hg by done.
  apply nth_lookup_Some. rewrite list_lookup_fmap, (states_pos _ _ Hr). done.
Qed.

(** ** Construction and evaluation *)

(** the constructor accepts every vector of the right length with a value other
    than Undefined, as long as the length is an int *)
Theorem C61_construct : forall c vec, has_states c -> nvars c <> 0 ->
  Z.of_nat (length vec) = dom_prod (c_doms c) -> (Z.of_nat (length vec) <= max32)%Z ->
  (exists v, v ∈ vec /\ v <> Undef) -> exists t, make_table vec (c_doms c) = Val t.
Proof.
  intros c vec Hs Hn L B (v&Hv&Hu). rewrite dom_prod_states, states_length in L.
  assert (S : small (c_doms c)).
  { split_and!; [intros E; unfold nvars in Hn; by rewrite E in Hn|by apply has_states_all|lia]. }
  rewrite (vec_function (c_doms c) vec) by lia.
  destruct (make_table_ok (c_doms c) (fun x => nth (pos (c_doms c) x) vec 0%Z) S) as (t&E&_); [|by exists t].
  apply elem_of_list_lookup in Hv as [k Hk]. pose proof (lookup_lt_Some _ _ _ Hk).
  destruct (pos_surj (c_doms c) k ltac:(lia)) as (x&Hx&<-). exists x. split; [done|]. by rewrite (nth_lookup_Some _ _ _ _ Hk).
Qed.

(** a table without a defined value: std::ranges::max of an empty range *)
Theorem C61_construct_refuted : exists c vec, has_states c /\ nvars c <> 0 /\
  Z.of_nat (length vec) = dom_prod (c_doms c) /\ make_table vec (c_doms c) = Bad EOob.
Proof.
  exists cm, (replicate 8 Undef). split_and!; [|done|done|by vm_compute].
  intros [|[|[|i]]] Hi; vm_compute; try lia. vm_compute in Hi. lia.
Qed.

(** the assignments and the positions of the vector correspond to each other *)
Theorem C61_index : forall c vec t, has_states c -> make_table vec (c_doms c) = Val t ->
  (forall vals, vals_ok c vals -> exists k v, to_index t vals = Val (Z.of_nat k) /\ vec !! k = Some v /\ Tsl.evaluate t vals = Val v) /\
  (forall vals vals' k, vals_ok c vals -> vals_ok c vals' -> to_index t vals = Val k -> to_index t vals' = Val k -> vals = vals') /\
  (forall k, k < length vec -> exists vals, vals_ok c vals /\ to_index t vals = Val (Z.of_nat k)).
Proof.
  intros c vec t Hs E. destruct (table_inv c vec t Hs E) as (S&L&R&Ev&_). split_and!.
  - intros vals Hv%range_vals. exists (pos (c_doms c) vals), (nth (pos (c_doms c) vals) vec 0%Z).
    split_and!; [by eapply to_index_ok| |by apply (evaluate_ok _ _ t vals S R)].
    destruct (lookup_lt_is_Some_2 vec (pos (c_doms c) vals)) as [v Hv']; [rewrite L; by apply pos_lt|].
    by rewrite (nth_lookup_Some _ _ _ _ Hv').
  - intros vals vals' k Hv%range_vals Hv'%range_vals E1 E2. rewrite (to_index_ok _ _ t vals S R Hv) in E1. rewrite (to_index_ok _ _ t vals' S R Hv') in E2.
    apply (pos_inj (c_doms c)); [done|done|]. injection E1 as <-. injection E2 as E2. lia.
  - intros k Hk. rewrite L in Hk. destruct (pos_surj _ _ Hk) as (x&Hx&<-). exists x. split; [by apply range_vals|by eapply to_index_ok].
Qed.

Theorem C61_satisfy : forall c F t v, has_states c -> table_of c F t ->
  exists l, Tsl.satisfy_all t v = Val l /\ all_solutions c F v l /\ Tsl.satisfy_count t v = Z.of_nat (length l) /\
    Tsl.domain_size t = dom_prod (c_doms c).
Proof.
  intros c F t v Hs Ht. destruct (table_of_rep c F t Hs Ht) as (S&R&_). eexists. split; [by eapply satisfy_all_ok|].
  split; [apply solutions_ex|]. split; [by eapply satisfy_count_ok|].
  unfold Tsl.domain_size. by rewrite (rp_vec _ _ _ R), map_length, dom_prod_states.
Qed.

(** ** Derivatives *)

Lemma nth_dom c vals i : vals_ok c vals -> i < nvars c -> exists k, vals !! i = Some k /\ nth i vals 0 = k /\ k < dom c i.
Proof.
  intros [L V] Hi. destruct (lookup_lt_is_Some_2 vals i ltac:(lia)) as [k Hk]. exists k. split_and!; [done|by apply nth_lookup_Some|].
  specialize (V i Hi). unfold of_vals in V. by rewrite (nth_lookup_Some _ _ _ _ Hk) in V.
Qed.

Theorem C61_dpld : forall c F t i from to ty, has_states c -> table_of c F t ->
  i < nvars c -> from < dom c i -> to < dom c i ->
  exists t', Tsl.dpld t i from to (detector ty) = Val t' /\ is_table c t' /\
    forall vals, vals_ok c vals -> exists v, Tsl.evaluate t' vals = Val v /\ (v = 0 \/ v = 1)%Z /\
      (v = 1%Z <-> changes ty (F (of_vals (<[i := from]> vals))) (F (of_vals (<[i := to]> vals)))).
Proof.
  intros c F t i from to ty Hs Ht Hi Hf Hto. destruct (table_of_rep c F t Hs Ht) as (S&R&_).
  destruct (dpld_ok _ _ t i from to (detector ty) (dom c i) S R (dom_lookup c i Hi) Hf Hto) as (t'&E&R'&Em).
  exists t'. split; [done|]. split; [by eexists|]. intros vals Hv%range_vals.
  eexists. split; [by apply (evaluate_ok _ _ t' vals S R')|]. unfold derivative. rewrite <- detector_spec.
  destruct (detector ty _ _); split; auto; by split.
Qed.

Theorem C61_dpld_e : forall c F t i from to ty, has_states c -> table_of c F t ->
  i < nvars c -> from < dom c i -> to < dom c i ->
  exists t', Tsl.dpld_e t i from to (detector ty) = Val t' /\ is_table c t' /\
    forall vals, vals_ok c vals -> exists v, Tsl.evaluate t' vals = Val v /\
      (nth i vals 0 <> from -> v = Undef) /\
      (nth i vals 0 = from -> (v = 0 \/ v = 1)%Z /\ (v = 1%Z <-> changes ty (F (of_vals vals)) (F (of_vals (<[i := to]> vals))))).
Proof.
  intros c F t i from to ty Hs Ht Hi Hf Hto. destruct (table_of_rep c F t Hs Ht) as (S&R&_).
  destruct (dpld_e_ok _ _ t i from to (detector ty) (dom c i) S R (dom_lookup c i Hi) Hf Hto) as (t'&E&R'&Em).
  exists t'. split; [done|]. split; [by eexists|]. intros vals Hv%range_vals.
  eexists. split; [by apply (evaluate_ok _ _ t' vals S R')|]. unfold derivative_e. rewrite <- detector_spec.
  destruct (decide (nth i vals 0 = from)) as [En|En]; [|by split].
  destruct (detector ty _ _); (split; [done|]; intros _; split; auto; by split).
Qed.

(** ** Minimal cut and path vectors *)

Lemma alter_insert {A} (f : A -> A) i k (x : list A) : x !! i = Some k -> alter f i x = <[i := f k]> x.
Proof. revert i. induction x as [|a x IH]; intros [|i] H; simpl in *; try done; [by simplify_eq|]. f_equal. by apply IH. Qed.

Theorem C61_mcvs : forall c F t j i, has_states c -> table_of c F t -> i < nvars c -> 2 <= dom c i ->
  exists l, calculate_mcvs t j = Val l /\ NoDup l /\ forall vals, vals ∈ l <-> minimal_cut c F j vals.
Proof.
  intros c F t j i Hs Ht Hi Hd. destruct (table_of_rep c F t Hs Ht) as (S&R&_). unfold calculate_mcvs. rewrite (rp_dom _ _ _ R).
  destruct (vectors_ok _ _ t (increase j) (up_changes (c_doms c)) S R) as (l&E&ND&Hl).
  { apply Forall_forall. intros [[k from] to] (d&Hk&Hf&->)%up_elem. exists d. cbn [fst snd]. split_and!; [done|lia|lia]. }
  { intros E0. assert (X : (i, 0, 1) ∈ up_changes (c_doms c)) by (apply up_elem; exists (dom c i); split_and!; [by apply dom_lookup|lia|done]).
    rewrite E0 in X. by apply elem_of_nil in X. }
  exists l. split; [done|]. split; [done|]. intros vals. rewrite Hl, range_vals.
  assert (Hin : vals_ok c vals -> forall k e, k < nvars c -> vals !! k = Some e -> (k, e, Datatypes.S e) ∈ up_changes (c_doms c) <-> Datatypes.S e < dom c k).
  { intros Hv k e Hk He. rewrite up_elem, (dom_lookup c k Hk). split; [intros (d&[= <-]&?&_); done|]. intros. by exists (dom c k). }
  unfold minimal_cut. split.
  - intros (Hv&(k&from&to&Hc&En)&Hall). split; [done|]. apply up_elem in Hc as Hc'. destruct Hc' as (d&Hk&Hf&->).
    assert (Hk' : k < nvars c) by (by apply lookup_lt_Some in Hk).
    rewrite (dom_lookup c k Hk') in Hk. injection Hk as <-.
    pose proof (Hall _ _ _ Hc En) as H1. unfold increase in H1. apply andb_true_iff in H1 as [H1 _]. apply Z.ltb_lt in H1. split_and!; [done| |].
    + exists k. rewrite En. by split.
    + intros k2 Hk2 Hs2. destruct (nth_dom c vals k2 Hv Hk2) as (e&He&En2&_). rewrite En2 in Hs2.
      assert (Hc2 : (k2, e, Datatypes.S e) ∈ up_changes (c_doms c)) by (by apply Hin). pose proof (Hall _ _ _ Hc2 En2) as H2. unfold increase in H2.
      apply andb_true_iff in H2 as [_ H2]. apply Z.leb_le in H2. by rewrite (alter_insert _ _ e _ He).
  - intros (Hv&Hj&(k&Hk&Hsk)&Hall). split; [done|]. split.
    + destruct (nth_dom c vals k Hv Hk) as (e&He&En&_). rewrite En in Hsk. exists k, e, (Datatypes.S e). split; [by apply Hin|done].
    + intros k2 from to (d&Hk2&Hf&->)%up_elem En. assert (Hk2' : k2 < nvars c) by (by apply lookup_lt_Some in Hk2).
      rewrite (dom_lookup c k2 Hk2') in Hk2. injection Hk2 as <-. destruct (nth_dom c vals k2 Hv Hk2') as (e&He&En2&_).
      rewrite En2 in En. subst from. unfold increase. apply andb_true_iff. split; [by apply Z.ltb_lt|]. apply Z.leb_le.
      rewrite <- (alter_insert _ _ e _ He). apply Hall; [done|]. by rewrite En2.
Qed.

Theorem C61_mpvs : forall c F t j i, has_states c -> table_of c F t -> i < nvars c -> 2 <= dom c i ->
  exists l, calculate_mpvs t j = Val l /\ NoDup l /\ forall vals, vals ∈ l <-> minimal_path c F j vals.
Proof.
  intros c F t j i Hs Ht Hi Hd. destruct (table_of_rep c F t Hs Ht) as (S&R&_). unfold calculate_mpvs. rewrite (rp_dom _ _ _ R).
  destruct (vectors_ok _ _ t (decrease j) (down_changes (c_doms c)) S R) as (l&E&ND&Hl).
  { apply Forall_forall. intros [[k from] to] (d&Hk&Hf&->)%down_elem. exists d. cbn [fst snd]. split_and!; [done|lia|lia]. }
  { intros E0. assert (X : (i, 1, 0) ∈ down_changes (c_doms c)) by (apply down_elem; exists (dom c i); split_and!; [by apply dom_lookup|lia|lia|done]).
    rewrite E0 in X. by apply elem_of_nil in X. }
  exists l. split; [done|]. split; [done|]. intros vals. rewrite Hl, range_vals.
  assert (Hin : vals_ok c vals -> forall k e, k < nvars c -> vals !! k = Some e -> (k, e, pred e) ∈ down_changes (c_doms c) <-> 0 < e).
  { intros Hv k e Hk He. rewrite down_elem, (dom_lookup c k Hk). destruct (nth_dom c vals k Hv Hk) as (e'&He'&_&Hlt). simplify_eq.
    split; [intros (d&[= <-]&?&_); lia|]. intros. exists (dom c k). split_and!; [done|lia|lia|done]. }
  unfold minimal_path. split.
  - intros (Hv&(k&from&to&Hc&En)&Hall). split; [done|]. apply down_elem in Hc as Hc'. destruct Hc' as (d&Hk&Hf&->).
    assert (Hk' : k < nvars c) by (by apply lookup_lt_Some in Hk).
    pose proof (Hall _ _ _ Hc En) as H1. unfold decrease in H1. apply andb_true_iff in H1 as [H1 _]. apply Z.leb_le in H1. split_and!; [done| |].
    + exists k. rewrite En. split; [done|lia].
    + intros k2 Hk2 Hs2. destruct (nth_dom c vals k2 Hv Hk2) as (e&He&En2&_). rewrite En2 in Hs2.
      assert (Hc2 : (k2, e, pred e) ∈ down_changes (c_doms c)) by (by apply Hin). pose proof (Hall _ _ _ Hc2 En2) as H2. unfold decrease in H2.
      apply andb_true_iff in H2 as [_ H2]. apply Z.ltb_lt in H2. by rewrite (alter_insert _ _ e _ He).
  - intros (Hv&Hj&(k&Hk&Hsk)&Hall). split; [done|]. split.
    + destruct (nth_dom c vals k Hv Hk) as (e&He&En&_). rewrite En in Hsk. exists k, e, (pred e). split; [by apply Hin|done].
    + intros k2 from to (d&Hk2&Hf&->)%down_elem En. assert (Hk2' : k2 < nvars c) by (by apply lookup_lt_Some in Hk2).
      destruct (nth_dom c vals k2 Hv Hk2') as (e&He&En2&_).
      rewrite En2 in En. subst from. unfold decrease. apply andb_true_iff. split; [by apply Z.leb_le|]. apply Z.ltb_lt.
      rewrite <- (alter_insert _ _ e _ He). apply Hall; [done|]. rewrite En2. lia.
Qed.

(** components with a single state only: front() of an empty vector *)
Theorem C61_mcvs_refuted : exists c F t, has_states c /\ table_of c F t /\ calculate_mcvs t 1 = Bad EOob /\ calculate_mpvs t 1 = Bad EOob.
Proof.
  set (c := Cfg [1] None (fun _ => 0%N) false false).
  destruct (make_table [0%Z] (c_doms c)) as [t|e|] eqn:E; [|by vm_compute in E|by vm_compute in E].
  exists c, (fun _ => 0%Z), t. split_and!.
  - intros [|i] Hi; [done|]. vm_compute in Hi. lia.
  - split; [by eexists|]. intros vals [L Hv]. vm_compute in L. destruct vals as [|k [|? ?]]; try done.
    specialize (Hv 0 ltac:(vm_compute; lia)). vm_compute in Hv. assert (k = 0) as -> by lia. vm_compute in E. injection E as <-. by vm_compute.
  - vm_compute in E. injection E as <-. by vm_compute.
  - vm_compute in E. injection E as <-. by vm_compute.
Qed.

(** ** Probabilities *)

Theorem C61_probability : forall R (ar : arith R) c F t ps j, exact ar -> has_states c -> table_of c F t -> distributions ar (c_doms c) ps ->
  Tsl.probability ar t ps j = Val (prob_of ar c ps (fun v => (v =? j)%Z) F).
Proof. intros R ar c F t ps j RT Hs Ht D. destruct (table_of_rep c F t Hs Ht) as (S&Rp&_). by apply (probability_ok ar RT). Qed.

Theorem C61_probability_bss : forall R (ar : arith R) c F t ps, exact ar -> has_states c -> table_of c F t ->
  (forall i, i < nvars c -> dom c i <= 2) -> length ps = nvars c ->
  probability_bss ar t ps = Val (prob_of ar c (two_state ar ps) (fun v => (v =? 1)%Z) F).
Proof.
  intros R ar c F t ps RT Hs Ht Hd L. destruct (table_of_rep c F t Hs Ht) as (S&Rp&_). apply (probability_bss_ok ar RT); [done|done| |done].
  apply Forall_lookup. intros i d Hi. pose proof (lookup_lt_Some _ _ _ Hi) as Hn. specialize (Hd i Hn). rewrite (dom_lookup c i Hn) in Hi. by injection Hi as <-.
Qed.

(** the sums run over the states 0, 1, ..: exact for functions with such values *)
Theorem C61_availability : forall R (ar : arith R) c F t ps j, exact ar -> has_states c -> table_of c F t -> distributions ar (c_doms c) ps ->
  (forall vals, vals_ok c vals -> (0 <= F (of_vals vals) < Undef)%Z) ->
  Tsl.availability ar t ps j = Val (prob_of ar c ps (fun v => (j <=? v)%Z) F) /\
  Tsl.unavailability ar t ps j = Val (prob_of ar c ps (fun v => (v <? j)%Z) F).
Proof.
  intros R ar c F t ps j RT Hs Ht D HF. destruct (table_of_rep c F t Hs Ht) as (S&Rp&Hm&(xm&Hxm&Exm)&Hmax).
  pose proof (HF xm Hxm) as Bm. split.
  - rewrite (availability_ok ar RT (c_doms c) (fun x => F (of_vals x))); [|done..| |lia].
    + f_equal. apply prob_ext. intros x Hx%range_vals. specialize (HF x Hx). rewrite (proj2 (Z.eqb_neq _ _)) by lia. by rewrite andb_true_r.
    + intros x Hx%range_vals Hu. by apply Hmax.
  - rewrite (unavailability_ok ar RT (c_doms c) (fun x => F (of_vals x))) by done.
    f_equal. apply prob_ext. intros x Hx%range_vals. specialize (HF x Hx). by rewrite (proj2 (Z.leb_le _ _)) by lia.
Qed.

Theorem C61_state_frequency : forall R (ar : arith R) c F t j sols, has_states c -> table_of c F t -> all_solutions c F j sols ->
  Tsl.state_frequency ar t j = a_div ar (a_ofZ ar (Z.of_nat (length sols))) (a_ofZ ar (dom_prod (c_doms c))).
Proof.
  intros R ar c F t j sols Hs Ht HS. destruct (C61_satisfy c F t j Hs Ht) as (l&_&Hl&Ec&Ed). unfold Tsl.state_frequency.
  rewrite Ec, Ed. do 3 f_equal. by eapply all_solutions_length.
Qed.

(** *** structural importance: for tables that do not depend on the variable,
    such as derivatives, the integer divisions are exact *)

Lemma flat_length {A B} (f : A -> list B) d l : (forall y, y ∈ l -> length (f y) = d) -> length (flat_map f l) = length l * d.
Proof.
  induction l as [|y l IH]; intros H; [done|]. cbn [flat_map length]. rewrite app_length, (H y) by left.
  rewrite IH by (intros z Hz; apply H; by right). lia.
Qed.

Lemma flat_NoDup {A B} (f : A -> list B) l : NoDup l -> (forall y, y ∈ l -> NoDup (f y)) ->
  (forall y z b, y ∈ l -> z ∈ l -> b ∈ f y -> b ∈ f z -> y = z) -> NoDup (flat_map f l).
Proof.
  induction l as [|y l IH]; intros ND Hf Hd; cbn [flat_map]; [constructor|]. apply NoDup_cons in ND as [Ny ND].
  apply NoDup_app. split_and!; [apply Hf; by left| |].
  - intros b Hb Hin. apply elem_of_list_In, in_flat_map in Hin as (z&Hz&Hbz). apply elem_of_list_In in Hz, Hbz.
    assert (y = z) as ->; [|done]. eapply Hd; [left|by right|exact Hb|exact Hbz].
  - apply IH; [done|intros; apply Hf; by right|]. intros a z b Ha Hz. apply Hd; by right.
Qed.

Lemma independent_count c (F : asg -> Z) i v : i < nvars c -> 1 <= dom c i ->
  (forall vals k, vals_ok c vals -> k < dom c i -> F (of_vals (<[i := k]> vals)) = F (of_vals vals)) ->
  length (filter (fun x => F (of_vals x) = v) (states (c_doms c)))
  = length (filter (fun x => nth i x 0 = 0) (filter (fun x => F (of_vals x) = v) (states (c_doms c)))) * dom c i.
Proof.
  intros Hi Hd HF. set (l := filter (fun x => F (of_vals x) = v) (states (c_doms c))).
  assert (Hl : forall x, x ∈ l <-> vals_ok c x /\ F (of_vals x) = v).
  { intros x. unfold l. rewrite elem_of_list_filter, states_vals. tauto. }
  assert (Hins : forall x k, vals_ok c x -> k < dom c i -> vals_ok c (<[i := k]> x)).
  { intros x k Hx Hk. apply range_vals. eapply in_range_insert; [by apply range_vals|by apply dom_lookup|done]. }
  rewrite <- (flat_length (fun y => map (fun k => <[i := k]> y) (seq 0 (dom c i)))) by (intros; by rewrite map_length, seq_length).
  apply Permutation_length, NoDup_Permutation; [apply NoDup_filter, states_NoDup| |].
  - apply flat_NoDup; [apply NoDup_filter, NoDup_filter, states_NoDup| |].
    + intros y (_&Hy%Hl)%elem_of_list_filter. destruct Hy as [Hy _]. destruct (nth_dom c y i Hy Hi) as (e&He&_).
      apply lookup_lt_Some in He. apply NoDup_fmap_2; [|apply NoDup_seq].
      intros a b E. apply (f_equal (fun z => z !! i)) in E. rewrite !list_lookup_insert in E by done. by simplify_eq.
    + intros y z b (Ey&Hy%Hl)%elem_of_list_filter (Ez&Hz%Hl)%elem_of_list_filter (a&->&_)%elem_of_list_fmap (a'&E&_)%elem_of_list_fmap.
      destruct (nth_dom c y i (proj1 Hy) Hi) as (e&He&Ee&_). destruct (nth_dom c z i (proj1 Hz) Hi) as (e'&He'&Ee'&_).
      assert (e = 0) as -> by lia. assert (e' = 0) as -> by lia.
      apply (f_equal (fun w => <[i := 0]> w)) in E. rewrite !list_insert_insert, !list_insert_id in E by done. done.
  - intros x. rewrite Hl, elem_of_list_In, in_flat_map. split.
    + intros [Hx Ex]. destruct (nth_dom c x i Hx Hi) as (e&He&Ee&Hlt). exists (<[i := 0]> x). split.
      * apply elem_of_list_In, elem_of_list_filter. split.
        -- apply nth_lookup_Some. rewrite list_lookup_insert; [done|]. by apply lookup_lt_Some in He.
        -- apply Hl. split; [apply Hins; [done|lia]|]. by rewrite HF.
      * apply elem_of_list_In, elem_of_list_fmap. exists e. split; [|apply elem_of_seq; lia]. rewrite list_insert_insert. symmetry. by apply list_insert_id.
    + intros (y&Hy&Hx). apply elem_of_list_In, elem_of_list_filter in Hy as [_ [Hy Ey]%Hl]. apply elem_of_list_In, elem_of_list_fmap in Hx as (k&->&Hk).
      apply elem_of_seq in Hk. split; [apply Hins; [done|lia]|]. rewrite HF by (try done; lia). done.
Qed.

Theorem C61_structural_importance : forall R (ar : arith R) c F t i sols, has_states c -> table_of c F t -> i < nvars c ->
  (forall vals k, vals_ok c vals -> k < dom c i -> F (of_vals (<[i := k]> vals)) = F (of_vals vals)) -> all_solutions c F 1 sols ->
  exists n m, Tsl.structural_importance ar t i = Val (a_div ar (a_ofZ ar n) (a_ofZ ar m)) /\
    (n * Z.of_nat (dom c i) = Z.of_nat (length sols))%Z /\ (m * Z.of_nat (dom c i) = dom_prod (c_doms c))%Z.
Proof.
  intros R ar c F t i sols Hs Ht Hi HF HS. destruct (table_of_rep c F t Hs Ht) as (S&Rp&_).
  unfold Tsl.structural_importance. rewrite (rp_dom _ _ _ Rp), (dom_lookup c i Hi). cbn [o_get obind].
  pose proof (Hs i Hi) as Hd. destruct (Nat.eqb_spec (dom c i) 0); [lia|].
  eexists _, _. split; [done|]. rewrite prodn_fold, Z.mul_1_l.
  rewrite (satisfy_count_ok _ _ t 1 Rp). rewrite (independent_count c F i 1 Hi Hd HF).
  rewrite (solutions_count c F 1 sols HS), (independent_count c F i 1 Hi Hd HF). rewrite dom_prod_states, states_length.
  assert (Hp : exists p, prodn (c_doms c) = p * dom c i).
  { exists (prodn (take i (c_doms c)) * prodn (drop (Datatypes.S i) (c_doms c))).
    rewrite <- (take_drop_middle _ _ _ (dom_lookup c i Hi)) at 1. rewrite prodn_app. cbn [prodn]. lia. }
  destruct Hp as [p Hp]. rewrite Hp. rewrite !Nat2Z.inj_mul, !Z.quot_mul by lia. lia.
Qed.

(** ** Fussell-Vesely importance: the probability of being at or below a minimal
    cut vector in which the component has just left the state, given that the system is below [j] *)
Theorem C61_fussell_vesely : forall R (ar : arith R) c F t ps i st j (E : list nat -> bool), exact ar -> has_states c -> table_of c F t ->
  distributions ar (c_doms c) ps -> i < nvars c -> 2 <= dom c i ->
  (forall vals, vals_ok c vals -> (0 <= F (of_vals vals))%Z) ->
  (forall x, vals_ok c x -> E x = true <-> exists m, minimal_cut c F j m /\ Datatypes.S (nth i m 0) = st /\ Forall2 le x m) ->
  fussell_vesely ar t ps i (Z.of_nat st) j = Val (a_div ar (ProbSpec.probability ar (c_doms c) ps E) (prob_of ar c ps (fun v => (v <? j)%Z) F)).
Proof.
  intros R ar c F t ps i st j E RT Hs Ht D Hi Hd HF HE. destruct (table_of_rep c F t Hs Ht) as (S&Rp&_).
  destruct (C61_mcvs c F t j i Hs Ht Hi Hd) as (l&El&ND&Hl).
  rewrite (fussell_vesely_ok ar RT (c_doms c) (fun x => F (of_vals x)) t ps i (Z.of_nat st) j l S Rp D Hi El).
  2:{ intros m [Hm _]%Hl. by apply range_vals. }
  f_equal. f_equal.
  - apply prob_ext. intros x Hx%range_vals. apply eq_iff_eq_true. rewrite bool_decide_eq_true, (HE x Hx), Exists_exists. split.
    + intros (m&Hm&En&Hle). exists m. split_and!; [by apply Hl|lia|done].
    + intros (m&Hm&En&Hle). exists m. split_and!; [by apply Hl|lia|done].
  - apply prob_ext. intros x Hx%range_vals. by rewrite (proj2 (Z.leb_le _ _) (HF x Hx)).
Qed.

(** ** The library and the truth tables *)

Lemma vec_index_pos c rho vals : length vals = nvars c -> (forall i, i < nvars c -> rho i = nth i vals 0) ->
  vec_index c (seq 0 (nvars c)) rho = pos (c_doms c) vals.
Proof.
  intros L H.
  assert (G : forall m i, i + m = nvars c -> vec_index c (seq i m) rho = pos (drop i (c_doms c)) (drop i vals) /\ prodl c (seq i m) = prodn (drop i (c_doms c))).
  { induction m as [|m IH]; intros i Hi; cbn [seq vec_index prodl].
    - rewrite !drop_ge by (unfold nvars in *; lia). done.
    - destruct (IH (Datatypes.S i) ltac:(lia)) as [I1 I2]. rewrite I1, I2.
      destruct (lookup_lt_is_Some_2 vals i ltac:(lia)) as [k Hk].
      rewrite (drop_S _ _ _ (dom_lookup c i ltac:(lia))), (drop_S _ _ _ Hk). cbn [pos prodn].
      rewrite H by lia. by rewrite (nth_lookup_Some _ _ _ _ Hk). }
  destruct (G (nvars c) 0 eq_refl) as [G1 _]. by rewrite !drop_0 in G1.
Qed.

(** the vector of a diagram in the natural order of the variables makes the truth
    table of its function, so all of the above applies to it *)
Theorem C61_agrees : forall c strict opsem args ks s vars A d F a,
  wf_cfg c -> history c opsem strict args ks s vars A -> ab A !! d = Some F -> vars !! d = Some a ->
  ab_order A = seq 0 (nvars c) -> nvars c <> 0 -> (dom_prod (c_doms c) <= max32)%Z -> (exists vals, vals_ok c vals /\ F (of_vals vals) <> Undef) ->
  exists vs t, to_vector c a s = Ok vs s /\ make_table vs (c_doms c) = Val t /\ table_of c F t.
Proof.
  intros c strict opsem args ks s vars A d F a Hc H HF Ha Ho Hn Hb (x0&Hx0&Hu).
  assert (Hs : has_states c) by (intros i Hi; by apply (wc_dom _ Hc)).
  destruct (C08_to_vector _ _ _ _ _ _ _ _ _ _ Hc H Ha) as (vs&Ev&L&Hvs). rewrite Ho in *.
  destruct (history_value _ _ _ _ _ _ _ _ _ _ Hc H HF) as (a0&Ha0&VF). rewrite Ha in Ha0. injection Ha0 as <-.
  assert (Hpos : forall vals, vals_ok c vals -> vs !! pos (c_doms c) vals = Some (F (of_vals vals))).
  { intros vals Hv. destruct (Hvs vals Hv) as (v&Hk&E). rewrite (VF vals Hv) in E. injection E as <-.
    rewrite (vec_index_pos c (of_vals vals) vals) in Hk; [done|apply Hv|done]. }
  assert (Lv : length vs = prodn (c_doms c)).
  { rewrite L. assert (G : forall m i, i + m = nvars c -> prodl c (seq i m) = prodn (drop i (c_doms c))).
    { induction m as [|m IH]; intros i Hi; cbn [seq prodl]; [by rewrite drop_ge by (unfold nvars in *; lia)|].
      rewrite (IH (Datatypes.S i)) by lia. by rewrite (drop_S _ _ _ (dom_lookup c i ltac:(lia))). }
    rewrite (G (nvars c) 0 eq_refl). by rewrite drop_0. }
  rewrite dom_prod_states, states_length in Hb.
  destruct (C61_construct c vs Hs Hn) as (t&Et).
  { by rewrite dom_prod_states, states_length, Lv. } { by rewrite Lv. }
  { exists (F (of_vals x0)). split; [|done]. eapply elem_of_list_lookup_2. by apply Hpos. }
  exists vs, t. split; [done|]. split; [done|]. split; [by exists vs|]. intros vals Hv.
  destruct (table_inv c vs t Hs Et) as (S&_&Rp&_). rewrite (evaluate_ok _ _ t vals S Rp) by (by apply range_vals).
  by rewrite (nth_lookup_Some _ _ _ _ (Hpos vals Hv)).
Qed.

(** ** Cases *)

(** three components with 2, 3 and 2 states; a system with the states 0, 1 and 2 *)
Definition tsF (rho : asg) : Z := Z.min 2 (Z.max 0 (Z.of_nat (rho 0 + rho 1 + rho 2) - 1)).
Definition ts_vec : list Z := map (fun x => tsF (of_vals x)) (states [2; 3; 2]).
Definition ts_table : table := match make_table ts_vec [2; 3; 2] with Val t => t | _ => Table [] [] [] 0 end.

Lemma ts_make : make_table ts_vec (c_doms ex_cfg) = Val ts_table.
Proof. by vm_compute. Qed.

Lemma ts_states : has_states ex_cfg.
Proof. intros i Hi. by apply (wc_dom _ ex_wf). Qed.

Lemma ts_ok : table_of ex_cfg tsF ts_table.
Proof. apply (table_of_made ex_cfg (fun x => tsF (of_vals x))); [apply ts_states|apply ts_make|done]. Qed.

Lemma ts_defined vals : vals_ok ex_cfg vals -> (0 <= tsF (of_vals vals) < Undef)%Z.
Proof. intros _. unfold tsF, Undef. lia. Qed.

Example C61_index_case : Tsl.evaluate ts_table [1; 2; 0] = Val 2%Z /\ to_index ts_table [1; 2; 0] = Val 10%Z /\
  exists vals, vals_ok ex_cfg vals /\ to_index ts_table vals = Val 7%Z.
Proof.
  split; [by vm_compute|]. split; [by vm_compute|].
  destruct (C61_index ex_cfg ts_vec ts_table ts_states ts_make) as (_&_&H). apply (H 7). vm_compute. lia.
Qed.

Example C61_satisfy_case : exists l, Tsl.satisfy_all ts_table 1 = Val l /\ all_solutions ex_cfg tsF 1 l /\ Tsl.satisfy_count ts_table 1 = 4%Z /\ [0; 2; 0] ∈ l.
Proof.
  destruct (C61_satisfy ex_cfg tsF ts_table 1 ts_states ts_ok) as (l&E&H&_). exists l. split_and!; [done|done|by vm_compute|].
  apply H. split; [|by vm_compute]. split; [done|]. intros i Hi. do 3 (destruct i as [|i]; [vm_compute; lia|]). vm_compute in Hi. lia.
Qed.

Example C61_dpld_case : exists t', Tsl.dpld ts_table 1 0 1 (detector (D3Increase 1)) = Val t' /\ is_table ex_cfg t' /\
  Tsl.evaluate t' [1; 2; 0] = Val 1%Z /\ Tsl.evaluate t' [1; 2; 1] = Val 0%Z.
Proof.
  destruct (C61_dpld ex_cfg tsF ts_table 1 0 1 (D3Increase 1) ts_states ts_ok ltac:(vm_compute; lia) ltac:(vm_compute; lia) ltac:(vm_compute; lia))
    as (t'&E&H&_). exists t'. split; [done|]. split; [done|]. vm_compute in E. injection E as <-. by vm_compute.
Qed.

Example C61_mcvs_case : calculate_mcvs ts_table 1 = Val [[0; 0; 1]; [0; 1; 0]; [1; 0; 0]] /\
  minimal_cut ex_cfg tsF 1 [0; 1; 0].
Proof.
  destruct (C61_mcvs ex_cfg tsF ts_table 1 0 ts_states ts_ok ltac:(vm_compute; lia) ltac:(vm_compute; lia)) as (l&E&_&H).
  assert (E' : calculate_mcvs ts_table 1 = Val [[0; 0; 1]; [0; 1; 0]; [1; 0; 0]]) by (by vm_compute). split; [done|].
  rewrite E' in E. injection E as <-. apply H. right. left.
Qed.

Example C61_mpvs_case : calculate_mpvs ts_table 2 = Val [[0; 2; 1]; [1; 1; 1]; [1; 2; 0]] /\ minimal_path ex_cfg tsF 2 [1; 1; 1].
Proof.
  destruct (C61_mpvs ex_cfg tsF ts_table 2 0 ts_states ts_ok ltac:(vm_compute; lia) ltac:(vm_compute; lia)) as (l&E&_&H).
  assert (E' : calculate_mpvs ts_table 2 = Val [[0; 2; 1]; [1; 1; 1]; [1; 2; 0]]) by (by vm_compute). split; [done|].
  rewrite E' in E. injection E as <-. apply H. right. left.
Qed.

Example C61_probability_case : Tsl.probability q_arith ts_table ex_ps 1 = Val (q 47 120) /\
  Tsl.availability q_arith ts_table ex_ps 1 = Val (q 83 120) /\ Tsl.unavailability q_arith ts_table ex_ps 1 = Val (q 37 120).
Proof.
  assert (V1 : prob_of q_arith ex_cfg ex_ps (fun v => (v =? 1)%Z) tsF = q 47 120) by (apply Qc_is_canon; by vm_compute).
  assert (V2 : prob_of q_arith ex_cfg ex_ps (fun v => (1 <=? v)%Z) tsF = q 83 120) by (apply Qc_is_canon; by vm_compute).
  assert (V3 : prob_of q_arith ex_cfg ex_ps (fun v => (v <? 1)%Z) tsF = q 37 120) by (apply Qc_is_canon; by vm_compute).
  destruct (C61_availability Qc q_arith ex_cfg tsF ts_table ex_ps 1 q_exact ts_states ts_ok ex_distributions ts_defined) as [E1 E2].
  rewrite (C61_probability Qc q_arith ex_cfg tsF ts_table ex_ps 1 q_exact ts_states ts_ok ex_distributions), E1, E2, V1, V2, V3. tauto.
Qed.

Example C61_structural_case : exists t' n m, Tsl.dpld ts_table 1 0 1 (detector (D3Increase 1)) = Val t' /\
  Tsl.structural_importance q_arith t' 1 = Val (a_div q_arith (a_ofZ q_arith n) (a_ofZ q_arith m)) /\ (n = 2 /\ m = 4)%Z.
Proof.
  set (D := fun rho => derivative (fun x => tsF (of_vals x)) 1 0 1 (detector (D3Increase 1)) [rho 0; rho 1; rho 2]).
  destruct (Tsl.dpld ts_table 1 0 1 (detector (D3Increase 1))) as [t'| |] eqn:E; [|by vm_compute in E|by vm_compute in E].
  assert (Ht : table_of ex_cfg D t').
  { apply (table_of_made ex_cfg (fun x => D (of_vals x))); [apply ts_states| |done]. rewrite <- E. by vm_compute. }
  destruct (C61_structural_importance Qc q_arith ex_cfg D t' 1 _ ts_states Ht ltac:(vm_compute; lia)
    ltac:(intros vals k [L _] _; vm_compute in L; destruct vals as [|? [|? [|? [|? ?]]]]; done) (solutions_ex ex_cfg D 1)) as (n&m&En&H1&H2).
  exists t', n, m. split; [done|]. split; [done|]. clear En E.
  assert (L1 : length (filter (fun vals => D (of_vals vals) = 1%Z) (states (c_doms ex_cfg))) = 6) by (by vm_compute).
  rewrite L1 in H1. change (Z.of_nat (dom ex_cfg 1)) with 3%Z in *. change (dom_prod (c_doms ex_cfg)) with 12%Z in H2. lia.
Qed.

Example C61_fussell_case : fussell_vesely q_arith ts_table ex_ps 1 1 1 = Val (q 33 37).
Proof.
  set (E := fun x : list nat => bool_decide (x = [0; 0; 0]) || bool_decide (x = [0; 0; 1]) || bool_decide (x = [1; 0; 0])).
  assert (V : Qcdiv (ProbSpec.probability q_arith (c_doms ex_cfg) ex_ps E) (prob_of q_arith ex_cfg ex_ps (fun v => (v <? 1)%Z) tsF) = q 33 37)
    by (apply Qc_is_canon; by vm_compute).
  pose proof (C61_fussell_vesely Qc q_arith ex_cfg tsF ts_table ex_ps 1 1 1 E q_exact ts_states ts_ok ex_distributions
    ltac:(vm_compute; lia) ltac:(vm_compute; lia) (fun vals Hv => proj1 (ts_defined vals Hv))) as X.
  change (Z.of_nat 1) with 1%Z in X. rewrite X; [by rewrite <- V|]. clear X V.
  destruct (C61_mcvs ex_cfg tsF ts_table 1 0 ts_states ts_ok ltac:(vm_compute; lia) ltac:(vm_compute; lia)) as (l&El&_&Hl).
  assert (El' : calculate_mcvs ts_table 1 = Val [[0; 0; 1]; [0; 1; 0]; [1; 0; 0]]) by (by vm_compute).
  rewrite El' in El. injection El as <-. clear El'. intros x Hx. unfold E. rewrite !orb_true_iff, !bool_decide_eq_true. split.
  - intros [[->| ->]| ->]; [exists [1; 0; 0]|exists [0; 0; 1]|exists [1; 0; 0]]; (split_and!; [apply Hl; set_solver|done|repeat constructor; lia]).
  - intros (m&Hm%Hl&Hn&Hle). assert (Hm' : m = [0; 0; 1] \/ m = [1; 0; 0]).
    { apply elem_of_cons in Hm as [->|Hm]; [tauto|]. apply elem_of_cons in Hm as [->|Hm]; [done|]. apply elem_of_list_singleton in Hm as ->. tauto. }
    clear Hm Hn Hl. destruct Hm' as [->| ->]; inversion Hle as [|a ? x1 ? Ha H1]; subst; inversion H1 as [|b ? x2 ? Hb H2]; subst;
      inversion H2 as [|e ? x3 ? He H3]; subst; inversion H3; subst.
    + assert (a = 0) as -> by lia. assert (b = 0) as -> by lia. destruct e as [|[|e]]; [tauto|tauto|lia].
    + assert (b = 0) as -> by lia. assert (e = 0) as -> by lia. destruct a as [|[|a]]; [tauto|tauto|lia].
Qed.

(** the theorem about the library and the tables applies to a diagram made from a vector *)
Definition ts_fun : asg -> Z := fun rho => nth (vec_index cm [0; 1; 2] rho) (bits 150) 0%Z.

Lemma ts_history : exists s vars a, history cm (ops_with 2 4 3) true args3 [CVec 0 (bits 150)] s vars (bindf 0 ts_fun (no_objects args3)) /\
  vars !! 0 = Some a.
Proof.
  assert (Ch : chain cm (ops_with 2 4 3) true [CVec 0 (bits 150)] (no_objects args3) (bindf 0 ts_fun (no_objects args3))).
  { apply (Ch_cons _ _ _ _ _ _ (bindf 0 ts_fun (no_objects args3))); [|constructor]. intros s.
    apply (S_vec cm (ops_with 2 4 3) true s 0 (bits 150) (no_objects args3)); [by vm_compute|].
    apply Forall_forall. intros v (k&->&_)%elem_of_list_fmap. left. split; [|done]. destruct (Z.testbit _ _); vm_compute; split; done. }
  destruct (outcome_ok (outcome cm args3 [CVec 0 (bits 150)]) (fun v s => True)) as (vars&s&E&_); [by vm_compute|].
  unfold outcome in E. destruct (new_manager cm args3 no_state) as [[] s0| |] eqn:E0; [|discriminate E..].
  pose proof (chain_new _ _ _ _ _ _ _ _ _ _ cm_args E0 Ch E) as H. clear E E0.
  destruct (history_value _ _ _ _ _ _ _ _ 0 ts_fun cm_wf H (lookup_insert _ _ _)) as (a&Ha&_). exists s, vars, a. split; [exact H|exact Ha].
Qed.

Example C61_agrees_case : exists s vars a vs t, history cm (ops_with 2 4 3) true args3 [CVec 0 (bits 150)] s vars (bindf 0 ts_fun (no_objects args3)) /\
  vars !! 0 = Some a /\ to_vector cm a s = Ok vs s /\ make_table vs (c_doms cm) = Val t /\ table_of cm ts_fun t.
Proof.
  destruct ts_history as (s&vars&a&H&Ha).
  destruct (C61_agrees cm true (ops_with 2 4 3) args3 [CVec 0 (bits 150)] s vars _ 0 ts_fun a cm_wf H (lookup_insert _ _ _) Ha eq_refl
    ltac:(discriminate) ltac:(by vm_compute)) as (vs&t&E1&E2&E3).
  { exists [0; 0; 0]. split; [|by vm_compute]. split; [done|]. intros i Hi. do 3 (destruct i as [|i]; [vm_compute; lia|]). vm_compute in Hi. lia. }
  exists s, vars, a, vs, t. split; [exact H|]. split; [exact Ha|]. split; [exact E1|]. by split.
Qed.

Print Assumptions C61_index.
Print Assumptions C61_dpld.
Print Assumptions C61_mcvs.
Print Assumptions C61_mpvs.
Print Assumptions C61_availability.
Print Assumptions C61_structural_importance.
Print Assumptions C61_fussell_vesely.
Print Assumptions C61_agrees.

Print Assumptions C61_construct.
Print Assumptions C61_construct_refuted.
Print Assumptions C61_satisfy.
Print Assumptions C61_dpld_e.
Print Assumptions C61_mcvs_refuted.
Print Assumptions C61_probability.
Print Assumptions C61_probability_bss.
Print Assumptions C61_state_frequency.
