(** * Truth tables of libtsl: proofs *)

From stdpp Require Import list list_numbers.
From Coq Require Import ZArith Lia.
From Verif Require Import Base Tools Prob ProbSpec Tsl.

Local Open Scope nat_scope.

(** ** Positions of vectors *)

Definition in_range (x ds : list nat) : Prop := Forall2 (fun k d => k < d) x ds.

Fixpoint prodn (ds : list nat) : nat := match ds with [] => 1 | d :: ds => d * prodn ds end.

(** the first component is the most significant digit *)
Fixpoint pos (ds x : list nat) : nat :=
  match ds, x with
  | _ :: ds, k :: x => k * prodn ds + pos ds x
  | _, _ => 0
  end.

Lemma prodn_app a b : prodn (a ++ b) = prodn a * prodn b.
Proof. induction a as [|d a IH]; simpl; [lia|]. rewrite IH. lia. Qed.

Lemma prodn_pos ds : Forall (fun d => 1 <= d) ds -> 1 <= prodn ds.
Proof. induction 1; simpl; lia. Qed.

Lemma flat_seq_length (ds : list nat) l : length (flat_map (fun k => map (cons k) (states ds)) l) = length l * length (states ds).
Proof. induction l as [|k l IH]; simpl; [done|]. rewrite app_length, map_length, IH. lia. Qed.

Lemma states_length ds : length (states ds) = prodn ds.
Proof. induction ds as [|d ds IH]; [done|]. cbn [states prodn]. by rewrite flat_seq_length, seq_length, IH. Qed.

Lemma in_range_length x ds : in_range x ds -> length x = length ds.
Proof. apply Forall2_length. Qed.

Lemma pos_lt ds x : in_range x ds -> pos ds x < prodn ds.
Proof. intros H. induction H as [|k d x ds Hk H IH]; simpl; [lia|]. nia. Qed.

Lemma flat_lookup ds y r : states ds !! r = Some y -> forall d st k, st <= k < st + d ->
  flat_map (fun k => map (cons k) (states ds)) (seq st d) !! ((k - st) * prodn ds + r) = Some (k :: y).
Proof.
  intros Hr. pose proof (lookup_lt_Some _ _ _ Hr) as L. rewrite states_length in L.
  induction d as [|d IH]; intros st k Hk; [lia|]. cbn [seq flat_map].
  destruct (decide (k = st)) as [->|Ne].
  - rewrite lookup_app_l by (rewrite map_length, states_length; lia). rewrite Nat.sub_diag. cbn [Nat.mul Nat.add].
    rewrite list_lookup_fmap, Hr. done.
  - rewrite lookup_app_r by (rewrite map_length, states_length; nia). rewrite map_length, states_length.
    replace ((k - st) * prodn ds + r - prodn ds) with ((k - S st) * prodn ds + r) by nia. apply IH. lia.
Qed.

Lemma states_pos ds x : in_range x ds -> states ds !! pos ds x = Some x.
Proof.
  intros H. induction H as [|k d x ds Hk H IH]; [done|]. cbn [states pos].
  pose proof (flat_lookup ds x _ IH d 0 k ltac:(lia)) as X. by rewrite Nat.sub_0_r in X.
Qed.

(** the list of the vectors and the positions are inverse to each other *)
Lemma states_lookup ds k x : states ds !! k = Some x <-> in_range x ds /\ pos ds x = k.
Proof.
  split.
  - intros H. assert (X : in_range x ds) by (apply states_elem; by eapply elem_of_list_lookup_2). split; [done|].
    eapply NoDup_lookup; [apply states_NoDup|by apply states_pos|done].
  - intros [H <-]. by apply states_pos.
Qed.

Lemma pos_inj ds x y : in_range x ds -> in_range y ds -> pos ds x = pos ds y -> x = y.
Proof. intros Hx Hy E. apply states_pos in Hx, Hy. rewrite E in Hx. congruence. Qed.

Lemma pos_surj ds k : k < prodn ds -> exists x, in_range x ds /\ pos ds x = k.
Proof.
  intros H. rewrite <- states_length in H. destruct (lookup_lt_is_Some_2 _ _ H) as [x Hx]. exists x. by apply states_lookup.
Qed.

Lemma pos_snoc ds d x k : length ds = length x -> pos (ds ++ [d]) (x ++ [k]) = pos ds x * d + k.
Proof.
  revert x. induction ds as [|e ds IH]; intros [|y x] L; simpl in *; try lia.
  rewrite IH by lia. rewrite prodn_app. simpl. nia.
Qed.

Lemma in_range_insert x ds i k d : in_range x ds -> ds !! i = Some d -> k < d -> in_range (<[i := k]> x) ds.
Proof.
  intros H Hi Hk. revert i Hi. induction H as [|k0 d0 x ds Hk0 H IH]; intros i Hi; [done|].
  destruct i as [|i]; simpl in *; [simplify_eq; by constructor|]. constructor; [done|]. by apply IH.
Qed.

Lemma in_range_lookup x ds i k : in_range x ds -> x !! i = Some k -> exists d, ds !! i = Some d /\ k < d.
Proof. intros H Hx. destruct (Forall2_lookup_l _ _ _ _ _ H Hx) as (d&?&?). eauto. Qed.

Lemma zeros_range ds : Forall (fun d => 1 <= d) ds -> in_range (replicate (length ds) 0) ds.
Proof. induction 1; simpl; constructor; [lia|done]. Qed.

(** ** The odometer *)

Lemma zeros_pos ds : pos ds (replicate (length ds) 0) = 0.
Proof. induction ds as [|d ds IH]; [done|]. cbn. done. Qed.

Lemma advance_app : forall n pre dpre post dpost, length pre = n -> in_range pre dpre ->
  exists pre' b, advance (dpre ++ dpost) n (pre ++ post) = Val (pre' ++ post, b) /\ length pre' = n /\
    if b then S (pos dpre pre) = prodn dpre else in_range pre' dpre /\ pos dpre pre' = S (pos dpre pre).
Proof.
  induction n as [|n IH]; intros pre dpre post dpost L H.
  - destruct pre; [|done]. inversion H; subst. exists [], true. by split_and!.
  - destruct (Forall2_length _ _ _ H). 
    destruct pre as [|k pre _] using rev_ind; [done|]. rewrite app_length in L. simpl in L.
    destruct dpre as [|d dpre _] using rev_ind; [inversion H; by destruct pre|].
    assert (Lp : length pre = n) by lia.
    assert (Ld : length dpre = n) by (apply Forall2_length in H; rewrite !app_length in H; simpl in H; lia).
    apply Forall2_app_inv in H as [H Hk]; [|by rewrite Lp, Ld].
    assert (Hkd : k < d) by (by inversion Hk).
    cbn [advance]. rewrite <- !app_assoc.
    change ([k] ++ post) with (k :: post). change ([d] ++ dpost) with (d :: dpost).
    rewrite (list_lookup_middle pre) by lia. rewrite (list_lookup_middle dpre) by lia. cbn [o_get obind].
    destruct (Nat.eqb_spec (S k) d) as [Ek|Ek].
    + replace (<[n := 0]> (pre ++ k :: post)) with (pre ++ 0 :: post)
        by (rewrite <- Lp, <- (Nat.add_0_r (length pre)); by rewrite insert_app_r).
      destruct (IH pre dpre (0 :: post) (d :: dpost) Lp H) as (pre'&b&E&L'&Hb).
      exists (pre' ++ [0]), b. rewrite E, <- app_assoc. split_and!; [done|rewrite app_length; simpl; lia|].
      destruct b.
      * rewrite pos_snoc by lia. rewrite prodn_app. simpl. nia.
      * destruct Hb as [Hr Hp]. split; [apply Forall2_app; [done|by constructor; [lia|]]|].
        rewrite !pos_snoc by lia. nia.
    + replace (<[n := S k]> (pre ++ k :: post)) with (pre ++ S k :: post)
        by (rewrite <- Lp, <- (Nat.add_0_r (length pre)); by rewrite insert_app_r).
      exists (pre ++ [S k]), false. rewrite <- app_assoc. split_and!; [done|rewrite app_length; simpl; lia| |].
      * apply Forall2_app; [done|by constructor; [lia|]].
      * rewrite !pos_snoc by lia. lia.
Qed.

Lemma advance_ok ds x : in_range x ds -> exists x' b, advance ds (length ds) x = Val (x', b) /\
  if b then S (pos ds x) = prodn ds else in_range x' ds /\ pos ds x' = S (pos ds x).
Proof.
  intros H. destruct (advance_app (length ds) x ds [] [] (Forall2_length _ _ _ H) H) as (x'&b&E&_&Hb).
  rewrite !app_nil_r in E. by exists x', b.
Qed.

Lemma each_loop_ok {A} ds vec (f : A -> Z -> list nat -> out A) : length vec = prodn ds ->
  forall fuel x k acc, in_range x ds -> pos ds x = k -> length vec - k < fuel ->
  each_loop fuel (length ds) vec ds f acc x k = o_fold (fun acc p => f acc (fst p) (snd p)) acc (drop k (zip vec (states ds))).
Proof.
  intros L. induction fuel as [|fuel IH]; intros x k acc Hx Hk Hf; [lia|].
  cbn [each_loop]. pose proof (pos_lt _ _ Hx) as B.
  destruct (lookup_lt_is_Some_2 vec k ltac:(lia)) as [v Hv]. rewrite Hv. cbn [o_get obind].
  assert (HS : states ds !! k = Some x) by (by apply states_lookup).
  assert (HZ : zip vec (states ds) !! k = Some (v, x)) by (rewrite lookup_zip_with, Hv; simpl; by rewrite HS).
  rewrite (drop_S _ _ _ HZ). cbn [o_fold fst snd].
  destruct (f acc v x) as [acc'|e|]; [|done|done]. cbn [obind].
  destruct (advance_ok ds x Hx) as (x'&b&E&Hb). rewrite E. cbn [obind]. destruct b.
  - rewrite drop_ge; [done|]. rewrite zip_with_length, states_length. lia.
  - destruct Hb as [Hr Hp]. apply IH; [done|lia|lia].
Qed.

(** ** Tables that represent a function *)

Record represents (ds : list nat) (g : list nat -> Z) (t : table) : Prop := {
  rp_dom : t_dom t = ds;
  rp_vec : t_vec t = map g (states ds);
  rp_off : offsets ds = Val (t_off t)
}.

Definition small (ds : list nat) : Prop := ds <> [] /\ Forall (fun d => 1 <= d) ds /\ (Z.of_nat (prodn ds) <= max32)%Z.

Lemma zip_map {A B} (g : A -> B) l : zip (map g l) l = map (fun x => (g x, x)) l.
Proof. induction l as [|x l IH]; simpl; [done|]. by rewrite IH. Qed.

Lemma o_fold_map {A B C} (f : C -> B -> out C) (h : A -> B) l acc : o_fold f acc (map h l) = o_fold (fun acc x => f acc (h x)) acc l.
Proof. revert acc. induction l as [|x l IH]; intros acc; simpl; [done|]. destruct (f acc (h x)); simpl; auto. Qed.

(** the loop calls its function once for every vector, in order *)
Lemma for_each_ok {A} ds g t (f : A -> Z -> list nat -> out A) acc : small ds -> represents ds g t ->
  domain_for_each t f acc = o_fold (fun acc x => f acc (g x) x) acc (states ds).
Proof.
  intros (Ne&P&B) [Hd Hv Ho]. unfold domain_for_each, var_count. rewrite Hd, Hv.
  rewrite (each_loop_ok ds); [|by rewrite map_length, states_length|by apply zeros_range|apply zeros_pos|lia].
  rewrite drop_0, zip_map, o_fold_map. done.
Qed.

(** *** to_index *)

Lemma int32_ok z : (0 <= z <= max32)%Z -> int32 z = Val z.
Proof. intros H. unfold int32. rewrite (proj2 (Z.leb_le z max32)), (proj2 (Z.leb_le (- max32 - 1) z)); [done| |]; unfold max32 in *; lia. Qed.

(** the offset of a component is the number of vectors of the components behind it *)
Lemma offsets_ok ds : Forall (fun d => 1 <= d) ds -> (Z.of_nat (prodn ds) <= max32)%Z ->
  exists offs, offsets ds = Val offs /\ length offs = length ds /\
    forall i, i < length ds -> offs !! i = Some (Z.of_nat (prodn (drop (S i) ds))).
Proof.
  induction ds as [|e ds IH]; intros P B; [exists []; split_and!; [done|done|intros i Hi; simpl in Hi; lia]|].
  inversion P as [|? ? P1 P2]; subst. cbn [prodn] in B. pose proof (prodn_pos _ P2) as Q.
  destruct ds as [|d ds].
  { exists [1%Z]. cbn. split_and!; [done|done|]. intros [|i] Hi; [done|lia]. }
  destruct IH as (offs&E&L&H); [done|nia|].
  exists (Z.of_nat (prodn (d :: ds)) :: offs).
  assert (H0 : head offs = Some (Z.of_nat (prodn ds))).
  { specialize (H 0 ltac:(simpl; lia)). destruct offs; [done|]. by injection H as ->. }
  cbn [offsets]. cbn [offsets] in E. rewrite E. cbn [obind]. rewrite H0. cbn [o_get obind].
  rewrite int32_ok by (cbn [prodn] in *; nia). cbn [obind]. split_and!.
  - cbn [prodn]. do 2 f_equal. lia.
  - simpl in *. lia.
  - intros [|i] Hi; [done|]. cbn [lookup list_lookup drop]. apply H. simpl in *. lia.
Qed.

Lemma pos_drop ds x i k : in_range x ds -> x !! i = Some k ->
  pos (drop i ds) (drop i x) = k * prodn (drop (S i) ds) + pos (drop (S i) ds) (drop (S i) x).
Proof.
  intros H Hx. destruct (in_range_lookup _ _ _ _ H Hx) as (d&Hd&_).
  rewrite (drop_S ds d i Hd), (drop_S x k i Hx). done.
Qed.

Lemma pos_drop_le ds x i : in_range x ds -> pos (drop i ds) (drop i x) <= pos ds x.
Proof.
  intros H. revert i. induction H as [|k d x ds Hk H IH]; intros [|i]; try done. cbn [drop pos]. specialize (IH i). lia.
Qed.

Lemma to_index_ok ds g t x : small ds -> represents ds g t -> in_range x ds -> to_index t x = Val (Z.of_nat (pos ds x)).
Proof.
  intros (Ne&P&B) [Hd Hv Ho] Hx. unfold to_index, var_count. rewrite Hd.
  pose proof (in_range_length _ _ Hx) as L. destruct (Nat.eqb_spec (length x) (length ds)) as [_|]; [|done]. cbn [negb].
  destruct (offsets_ok ds P B) as (offs&E&Lo&Hoffs). rewrite Ho in E. injection E as E. rewrite E.
  pose proof (pos_lt _ _ Hx) as Lt.
  assert (G : forall m i acc, i + m = length ds -> (acc + Z.of_nat (pos (drop i ds) (drop i x)) = Z.of_nat (pos ds x))%Z -> (0 <= acc)%Z ->
    o_fold (fun index i => let? v := o_get EOob (x !! i) in let? o := o_get EOob (offs !! i) in
      let? y := int32 (Z.of_nat v * o) in int32 (index + y)) acc (seq i m) = Val (Z.of_nat (pos ds x))).
  { induction m as [|m IH]; intros i acc Hi Hacc Hge.
    - cbn. rewrite (drop_ge ds), (drop_ge x) in Hacc by lia. cbn in Hacc. f_equal. lia.
    - cbn [seq o_fold]. destruct (lookup_lt_is_Some_2 x i ltac:(lia)) as [k Hk]. rewrite Hk. cbn [o_get obind].
      rewrite (Hoffs i) by lia. cbn [o_get obind]. rewrite (pos_drop ds x i k Hx Hk) in Hacc.
      rewrite int32_ok by nia. cbn [obind]. rewrite int32_ok by nia. cbn [obind]. apply IH; nia. }
  apply (G (length ds) 0); [done|by rewrite !drop_0|done].
Qed.

Lemma at_pos {A} ds (g : list nat -> A) x : in_range x ds -> at_index (map g (states ds)) (Z.of_nat (pos ds x)) = Val (g x).
Proof.
  intros Hx. unfold at_index. destruct (Z.ltb_spec (Z.of_nat (pos ds x)) 0); [lia|]. rewrite Nat2Z.id.
  by rewrite list_lookup_fmap, (states_pos _ _ Hx).
Qed.

Lemma evaluate_ok ds g t x : small ds -> represents ds g t -> in_range x ds -> evaluate t x = Val (g x).
Proof.
  intros S Hr Hx. unfold evaluate. rewrite (to_index_ok ds g) by done. cbn [obind]. destruct Hr as [Hd Hv Ho].
  rewrite Hv. by apply at_pos.
Qed.

(** *** Construction *)

Lemma domain_size_ok ds : Forall (fun d => 1 <= d) ds -> (Z.of_nat (prodn ds) <= max32)%Z ->
  domain_size_int ds = Val (Z.of_nat (prodn ds)).
Proof.
  intros P B. unfold domain_size_int.
  assert (G : forall ds acc, Forall (fun d => 1 <= d) ds -> 1 <= acc -> (Z.of_nat (acc * prodn ds) <= max32)%Z ->
    o_fold (fun p d => int32 (p * Z.of_nat d)) (Z.of_nat acc) ds = Val (Z.of_nat (acc * prodn ds))).
  { clear. induction ds as [|d ds IH]; intros acc P Ha B; cbn [o_fold prodn].
    - by rewrite Nat.mul_1_r.
    - inversion P as [|? ? P1 P2]; subst. pose proof (prodn_pos _ P2). cbn [prodn] in B.
      rewrite int32_ok by nia. cbn [obind]. replace (Z.of_nat acc * Z.of_nat d)%Z with (Z.of_nat (acc * d)) by lia.
      rewrite IH; [|done|nia|by rewrite <- Nat.mul_assoc]. by rewrite Nat.mul_assoc. }
  specialize (G ds 1 P ltac:(lia)). rewrite Nat.mul_1_l in G. by apply G.
Qed.

Lemma max_value_ok vec : (exists v, v ∈ vec /\ v <> Undef) ->
  exists m, max_value vec = Val m /\ m ∈ vec /\ m <> Undef /\ forall v, v ∈ vec -> v <> Undef -> (v <= m)%Z.
Proof.
  intros (v0&Hv0&Hn). unfold max_value. destruct (filter (fun v => v <> Undef) vec) as [|v l] eqn:E.
  { exfalso. assert (X : v0 ∈ filter (fun v => v <> Undef) vec) by (by apply elem_of_list_filter). rewrite E in X. by apply elem_of_nil in X. }
  exists (fold_left Z.max l v). split; [done|].
  assert (G : forall l v, fold_left Z.max l v ∈ v :: l /\ forall w, w ∈ v :: l -> (w <= fold_left Z.max l v)%Z).
  { clear. induction l as [|x l IH]; intros v; cbn [fold_left].
    - split; [by left|]. intros w Hw. apply elem_of_list_singleton in Hw as ->. lia.
    - destruct (IH (Z.max v x)) as [I1 I2]. split.
      + apply elem_of_cons in I1 as [->|I1]; [|by right; right]. destruct (Z.max_spec v x) as [[_ ->]|[_ ->]]; [right; left|left].
      + intros w [->|[->|Hw]%elem_of_cons]%elem_of_cons.
        * specialize (I2 (Z.max v x) ltac:(left)). lia.
        * specialize (I2 (Z.max v x) ltac:(left)). lia.
        * apply I2. by right. }
  destruct (G l v) as [G1 G2]. rewrite <- E in G1. apply elem_of_list_filter in G1 as [G1 G1']. split_and!; [done|done|].
  intros w Hw Hwn. apply G2. rewrite <- E. by apply elem_of_list_filter.
Qed.

Lemma make_table_ok ds g : small ds -> (exists x, in_range x ds /\ g x <> Undef) ->
  exists t, make_table (map g (states ds)) ds = Val t /\ represents ds g t /\
    (exists x, in_range x ds /\ g x = t_max t) /\ t_max t <> Undef /\
    forall x, in_range x ds -> g x <> Undef -> (g x <= t_max t)%Z.
Proof.
  intros (Ne&P&B) (x0&Hx0&Hn). unfold make_table.
  destruct (max_value_ok (map g (states ds))) as (m&E&Hm&Hmn&Hmax).
  { exists (g x0). split; [|done]. apply elem_of_list_fmap. exists x0. split; [done|]. by apply states_elem. }
  rewrite E. cbn [obind]. rewrite (domain_size_ok ds P B). cbn [obind]. rewrite map_length, states_length, Z.eqb_refl. cbn [negb].
  destruct ds as [|d ds]; [done|]. cbn [length Nat.eqb].
  destruct (offsets_ok (d :: ds) P B) as (offs&Eo&_&_). rewrite Eo. cbn [obind].
  eexists. split; [reflexivity|]. split_and!; [by split| |exact Hmn|].
  - apply elem_of_list_fmap in Hm as (x&->&Hx). exists x. split; [by apply states_elem|done].
  - intros x Hx Hgx. apply Hmax; [|done]. apply elem_of_list_fmap. exists x. split; [done|]. by apply states_elem.
Qed.

(** a table holds some function, and the constructor accepts nothing else *)
Lemma vec_function ds (vec : list Z) : length vec = prodn ds -> vec = map (fun x => nth (pos ds x) vec 0%Z) (states ds).
Proof.
  intros L. apply list_eq. intros k. destruct (decide (k < prodn ds)) as [Hk|Hk].
  - destruct (pos_surj ds k Hk) as (x&Hx&<-). rewrite list_lookup_fmap, (states_pos _ _ Hx). cbn.
    destruct (lookup_lt_is_Some_2 vec (pos ds x) ltac:(lia)) as [v Hv]. by rewrite Hv, (nth_lookup_Some _ _ _ _ Hv).
  - rewrite !lookup_ge_None_2; [done| |]; [rewrite map_length, states_length|]; lia.
Qed.

(** *** Counting *)

Lemma satisfy_count_fold l v acc : fold_left (fun r x => r + (if x =? v then 1 else 0))%Z l acc = (acc + Z.of_nat (length (filter (fun x => x = v) l)))%Z.
Proof.
  revert acc. induction l as [|x l IH]; intros acc; cbn [fold_left]; [cbn; lia|]. rewrite IH, filter_cons.
  destruct (Z.eqb_spec x v) as [->|Hn]; [rewrite decide_True by done; cbn [length]; lia|rewrite decide_False by done; lia].
Qed.

Lemma filter_map {A B} (g : A -> B) (P : B -> Prop) `{!forall x, Decision (P x)} l :
  filter P (map g l) = map g (filter (fun x => P (g x)) l).
Proof. induction l as [|x l IH]; [done|]. cbn [map]. rewrite !filter_cons, IH. by destruct (decide (P (g x))). Qed.

Lemma satisfy_count_ok ds g t v : represents ds g t -> satisfy_count t v = Z.of_nat (length (filter (fun x => g x = v) (states ds))).
Proof. intros [Hd Hv Ho]. unfold satisfy_count. by rewrite Hv, satisfy_count_fold, filter_map, map_length. Qed.

Lemma satisfy_all_ok ds g t v : small ds -> represents ds g t -> satisfy_all t v = Val (filter (fun x => g x = v) (states ds)).
Proof.
  intros S Hr. unfold satisfy_all. rewrite (for_each_ok ds g) by done.
  assert (G : forall l acc, o_fold (fun elems x => Val (if (g x =? v)%Z then elems ++ [x] else elems)) acc l = Val (acc ++ filter (fun x => g x = v) l)).
  { clear. induction l as [|x l IH]; intros acc; cbn [o_fold]; [by rewrite app_nil_r|]. cbn [obind]. rewrite IH, filter_cons.
    destruct (Z.eqb_spec (g x) v) as [E|E]; [rewrite decide_True by done; by rewrite <- app_assoc|by rewrite decide_False]. }
  apply G.
Qed.

(** *** Derivatives *)

Lemma map_insert_pos {A} ds (r : list nat -> A) y v : in_range y ds ->
  <[pos ds y := v]> (map r (states ds)) = map (fun z => if decide (z = y) then v else r z) (states ds).
Proof.
  intros Hy. apply list_eq. intros k. pose proof (pos_lt _ _ Hy) as B.
  destruct (decide (k = pos ds y)) as [->|Ne].
  - rewrite list_lookup_insert by (rewrite map_length, states_length; lia).
    rewrite list_lookup_fmap, (states_pos _ _ Hy). cbn. by rewrite decide_True.
  - rewrite list_lookup_insert_ne by done. rewrite !list_lookup_fmap. destruct (states ds !! k) as [z|] eqn:E; [|done].
    cbn. rewrite decide_False; [done|]. intros ->. apply states_lookup in E as [_ E]. done.
Qed.

Lemma o_set_ok {A} (l : list A) i x : i < length l -> o_set l i x = Val (<[i := x]> l).
Proof. intros H. unfold o_set. by apply Nat.ltb_lt in H as ->. Qed.

Lemma insert_from (x : list nat) (i from : nat) : x !! i = Some from -> <[i := from]> x = x.
Proof. apply list_insert_id. Qed.

(** the loop over the values of the variable *)
Lemma dpld_inner ds g t i (r : list nat -> Z) x to der d : small ds -> represents ds g t -> in_range x ds -> ds !! i = Some d -> forall n, n <= d ->
  o_fold (fun result value => let? tmp := o_set (<[i := to]> x) i value in let? index := to_index t tmp in
    if (index <? 0)%Z then Bad EOob else o_set result (Z.to_nat index) der) (map r (states ds)) (seq (d - n) n)
  = Val (map (fun y => if decide (y ∈ map (fun k => <[i := k]> x) (seq (d - n) n)) then der else r y) (states ds)).
Proof.
  intros S Hr Hx Hi. intros n. revert r. induction n as [|n IH]; intros r Hn.
  - cbn [seq o_fold map]. apply (f_equal Val), map_ext. intros y. rewrite decide_False; [done|]. apply not_elem_of_nil.
  - cbn [seq o_fold]. pose proof (lookup_lt_Some _ _ _ Hi) as Li. pose proof (in_range_length _ _ Hx) as Lx.
    rewrite o_set_ok by (rewrite insert_length; lia). cbn [obind]. rewrite list_insert_insert.
    set (k := d - Datatypes.S n) in *.
    assert (Hk : in_range (<[i := k]> x) ds) by (eapply in_range_insert; [done|done|unfold k; lia]).
    rewrite (to_index_ok ds g) by done. cbn [obind]. destruct (Z.ltb_spec (Z.of_nat (pos ds (<[i:=k]> x))) 0); [lia|].
    rewrite Nat2Z.id, o_set_ok by (rewrite map_length, states_length; by apply pos_lt). cbn [obind].
    rewrite (map_insert_pos ds r _ der Hk). replace (Datatypes.S k) with (d - n) by (unfold k; lia).
    rewrite IH by lia. f_equal. apply map_ext. intros y. cbn [map].
    destruct (decide (y ∈ map (fun k0 => <[i:=k0]> x) (seq (d - n) n))) as [Hy|N1].
    + rewrite decide_True; [done|]. by right.
    + destruct (decide (y = <[i:=k]> x)) as [->|N2]; [rewrite decide_True; [done|by left]|].
      rewrite decide_False; [done|]. by intros [|]%elem_of_cons.
Qed.

(** the derivative of a function, as a function of the whole vector *)
Definition derivative (g : list nat -> Z) (i from to : nat) (change : Z -> Z -> bool) (y : list nat) : Z :=
  if change (g (<[i := from]> y)) (g (<[i := to]> y)) then 1%Z else 0%Z.

(** and its extended variant *)
Definition derivative_e (g : list nat -> Z) (i from to : nat) (change : Z -> Z -> bool) (y : list nat) : Z :=
  if decide (nth i y 0 = from) then (if change (g y) (g (<[i := to]> y)) then 1%Z else 0%Z) else Undef.

Lemma dpld_loop ds g t i from to (change : Z -> Z -> bool) d : small ds -> represents ds g t -> ds !! i = Some d -> from < d -> to < d ->
  forall l past, (forall x, x ∈ l -> in_range x ds) ->
  o_fold (fun result x => dpld_step t i from to change result (g x) x)
    (map (fun y : list nat => if decide (<[i := from]> (y : list nat) ∈ past) then derivative g i from to change y else 0%Z) (states ds)) l
  = Val (map (fun y : list nat => if decide (<[i := from]> (y : list nat) ∈ past ++ l) then derivative g i from to change y else 0%Z) (states ds)).
Proof.
  intros S Hr Hi Hf Ht. induction l as [|x l IH]; intros past Hl; cbn [o_fold]; [by rewrite app_nil_r|].
  assert (Hx : in_range x ds) by (apply Hl; by left). pose proof (in_range_length _ _ Hx) as Lx. pose proof (lookup_lt_Some _ _ _ Hi) as Li.
  destruct (lookup_lt_is_Some_2 x i ltac:(lia)) as [e He]. unfold dpld_step at 1. rewrite He. cbn [o_get obind].
  replace (past ++ x :: l) with ((past ++ [x]) ++ l) by (by rewrite <- app_assoc).
  assert (Hl' : forall y, y ∈ l -> in_range y ds) by (intros y Hy; apply Hl; by right).
  destruct (Nat.eqb_spec e from) as [->|Ne]; cbn [negb].
  - rewrite o_set_ok by lia. cbn [obind]. rewrite (evaluate_ok ds g) by (try done; by eapply in_range_insert).
    cbn [obind]. rewrite (rp_dom _ _ _ Hr), Hi. cbn [o_get obind].
    pose proof (dpld_inner ds g t i (fun y => if decide (<[i := from]> y ∈ past) then derivative g i from to change y else 0%Z) x to
      (if change (g x) (g (<[i:=to]> x)) then 1%Z else 0%Z) d S Hr Hx Hi d ltac:(lia)) as X. rewrite Nat.sub_diag in X.
    match goal with |- obind ?a _ = _ => replace a with (Val (map
      (fun y => if decide (y ∈ map (fun k => <[i:=k]> x) (seq 0 d)) then if change (g x) (g (<[i:=to]> x)) then 1%Z else 0%Z
        else if decide (<[i:=from]> y ∈ past) then derivative g i from to change y else 0%Z) (states ds))) by (symmetry; exact X) end.
    cbn [obind]. rewrite <- (IH (past ++ [x]) Hl'). f_equal. apply map_ext_in. intros y Hy.
    assert (Hyr : in_range y ds) by (by apply states_elem, elem_of_list_In).
    pose proof (in_range_length _ _ Hyr) as Ly. destruct (lookup_lt_is_Some_2 y i ltac:(lia)) as [k Hk].
    destruct (decide (y ∈ map (fun k0 => <[i:=k0]> x) (seq 0 d))) as [(k0&->&Hk0)%elem_of_list_fmap|N].
    + unfold derivative. rewrite !list_insert_insert, (insert_from x i from He).
      rewrite decide_True; [done|]. apply elem_of_app. right. by apply elem_of_list_singleton.
    + destruct (decide (<[i:=from]> y ∈ past)) as [Hp|Hp].
      * rewrite decide_True; [done|]. apply elem_of_app. by left.
      * rewrite decide_False; [done|]. intros [|Hs%elem_of_list_singleton]%elem_of_app; [done|]. apply N. apply elem_of_list_fmap. exists k.
        split; [rewrite <- Hs, list_insert_insert; symmetry; by apply list_insert_id|].
        destruct (in_range_lookup _ _ _ _ Hyr Hk) as (d'&Hd'&?). simplify_eq. apply elem_of_seq. lia.
  - cbn [obind]. rewrite <- (IH (past ++ [x]) Hl'). f_equal. apply map_ext_in. intros y Hy.
    assert (Hyr : in_range y ds) by (by apply states_elem, elem_of_list_In).
    destruct (decide (<[i:=from]> y ∈ past)) as [Hp|Hp].
    + rewrite decide_True; [done|]. apply elem_of_app. by left.
    + rewrite decide_False; [done|]. intros [|Hs%elem_of_list_singleton]%elem_of_app; [done|].
      subst x. rewrite list_lookup_insert in He by (rewrite insert_length in Lx; lia). congruence.
Qed.

Lemma dpld_ok ds g t i from to change d : small ds -> represents ds g t -> ds !! i = Some d -> from < d -> to < d ->
  exists t', dpld t i from to change = Val t' /\ represents ds (derivative g i from to change) t' /\
    make_table (map (derivative g i from to change) (states ds)) ds = Val t'.
Proof.
  intros S Hr Hi Hf Ht. unfold dpld. rewrite (for_each_ok ds g) by done. rewrite (rp_dom _ _ _ Hr), (rp_vec _ _ _ Hr), map_length.
  pose proof (dpld_loop ds g t i from to change d S Hr Hi Hf Ht (states ds) [] ltac:(intros x Hx; by apply states_elem)) as X.
  replace (replicate (length (states ds)) 0%Z) with
    (map (fun y => if decide (<[i := from]> y ∈ @nil (list nat)) then derivative g i from to change y else 0%Z) (states ds)).
  2:{ generalize (states ds). intros l. induction l as [|y l IHl]; [done|]. cbn [map length replicate]. rewrite IHl. f_equal. }
  rewrite X. cbn [obind].
  assert (E : map (fun y => if decide (<[i := from]> y ∈ [] ++ states ds) then derivative g i from to change y else 0%Z) (states ds)
     = map (derivative g i from to change) (states ds)).
  { apply map_ext_in. intros y Hy. rewrite decide_True; [done|]. cbn [app]. apply states_elem. eapply in_range_insert; [|done|done].
    by apply states_elem, elem_of_list_In. }
  rewrite E. destruct (make_table_ok ds (derivative g i from to change) S) as (t'&Et&Hr'&_).
  { exists (replicate (length ds) 0). split; [apply zeros_range; apply S|]. unfold derivative. by destruct (change _ _). }
  by exists t'.
Qed.

Lemma dpld_e_ok ds g t i from to change d : small ds -> represents ds g t -> ds !! i = Some d -> from < d -> to < d ->
  exists t', dpld_e t i from to change = Val t' /\ represents ds (derivative_e g i from to change) t' /\
    make_table (map (derivative_e g i from to change) (states ds)) ds = Val t'.
Proof.
  intros S Hr Hi Hf Ht. unfold dpld_e. rewrite (for_each_ok ds g) by done. rewrite (rp_dom _ _ _ Hr), (rp_vec _ _ _ Hr), map_length.
  pose proof (lookup_lt_Some _ _ _ Hi) as Li.
  assert (G : forall l past, (forall x, x ∈ l -> in_range x ds) ->
    o_fold (fun st (x : list nat) => let (result, index) := st : list Z * nat in
      let? e := o_get EOob (x !! i) in
      if negb (e =? from)%nat then let? result := o_set result index Undef in Val (result, Datatypes.S index)
      else let? tmp := o_set x i to in let? f_to := evaluate t tmp in
        let? result := o_set result index (if change (g x) f_to then 1%Z else 0%Z) in Val (result, Datatypes.S index))
      (map (derivative_e g i from to change) past ++ replicate (length l) 0%Z, length past) l
    = Val (map (derivative_e g i from to change) (past ++ l), length (past ++ l))).
  { induction l as [|x l IH]; intros past Hl; cbn [o_fold length replicate]; [by rewrite !app_nil_r|].
    assert (Hx : in_range x ds) by (apply Hl; by left). pose proof (in_range_length _ _ Hx) as Lx.
    destruct (lookup_lt_is_Some_2 x i ltac:(lia)) as [e He]. rewrite He. cbn [o_get obind].
    assert (Hl' : forall y, y ∈ l -> in_range y ds) by (intros y Hy; apply Hl; by right).
    assert (St : forall v, derivative_e g i from to change x = v ->
      <[length past := v]> (map (derivative_e g i from to change) past ++ 0%Z :: replicate (length l) 0%Z)
      = map (derivative_e g i from to change) (past ++ [x]) ++ replicate (length l) 0%Z).
    { intros v <-. replace (length past) with (length (map (derivative_e g i from to change) past) + 0) by (rewrite map_length; lia).
      rewrite insert_app_r. cbn. by rewrite map_app, <- app_assoc. }
    assert (Hb : length past < length (map (derivative_e g i from to change) past ++ 0%Z :: replicate (length l) 0%Z))
      by (rewrite app_length, map_length; simpl; lia).
    replace (past ++ x :: l) with ((past ++ [x]) ++ l) by (by rewrite <- app_assoc).
    replace (Datatypes.S (length past)) with (length (past ++ [x])) by (rewrite app_length; simpl; lia).
    destruct (Nat.eqb_spec e from) as [->|Ne]; cbn [negb].
    - rewrite o_set_ok by lia. cbn [obind]. rewrite (evaluate_ok ds g) by (try done; by eapply in_range_insert).
      cbn [obind]. rewrite o_set_ok by done. cbn [obind]. rewrite St; [by apply IH|].
      unfold derivative_e. rewrite decide_True; [done|]. by apply nth_lookup_Some.
    - rewrite o_set_ok by done. cbn [obind]. rewrite St; [by apply IH|].
      unfold derivative_e. rewrite decide_False; [done|]. rewrite (nth_lookup_Some _ _ _ _ He). done. }
  specialize (G (states ds) [] ltac:(intros x Hx; by apply states_elem)). cbn [map app length] in G.
  match type of G with ?a = _ => match goal with |- context [obind ?b _] => change b with a end end.
  rewrite G. cbn [obind fst].
  destruct (make_table_ok ds (derivative_e g i from to change) S) as (t'&Et&Hr'&_); [|by exists t'].
  pose proof (zeros_range ds ltac:(apply S)) as Z0. exists (<[i := from]> (replicate (length ds) 0)).
  split; [by eapply in_range_insert|]. unfold derivative_e. rewrite decide_True.
  - by destruct (change _ _).
  - apply nth_lookup_Some. apply list_lookup_insert. by rewrite replicate_length.
Qed.
