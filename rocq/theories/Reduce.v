(** * What reduce gives back after a reordering

    After a reordering a unique table may hold several nodes with the same sons.
    [find] returns the first one in its chain, which stays the first one as long
    as the table keeps its capacity. *)

From stdpp Require Import gmap list.
From Coq Require Import ZArith Lia.
From Verif Require Import Base Ops Tables NodeManager Tools Sift DiagramManager.
From Verif Require Import Heap Inv InvLemmas Prim TabLemmas GC Make Build Apply Api Deferred Constr Canon.

Local Open Scope nat_scope.

Definition caps (s : st) : list N := map t_cap (s_tabs s).

(** ** Tables that only lose nodes *)

Record thin_tab (h h' : gmap positive node) (t t' : utab) : Prop := {
  tt_cap : t_cap t' = t_cap t;
  tt_sub : Forall2 (fun ch' ch => sublist ch' ch) (t_buckets t') (t_buckets t);
  tt_sons : forall a, a ∈ tab_nodes t' -> sons_of h' a = sons_of h a
}.

Definition thin (s s' : st) : Prop :=
  Forall2 (fun t' t => thin_tab (s_heap s) (s_heap s') t t') (s_tabs s') (s_tabs s).

Lemma sublist_elem {A} (l l' : list A) x : sublist l l' -> x ∈ l -> x ∈ l'.
Proof. intros H. induction H; intros Hx; set_solver. Qed.

Lemma thin_tab_elem h h' t t' a : thin_tab h h' t t' -> a ∈ tab_nodes t' -> a ∈ tab_nodes t.
Proof.
  intros [_ H _]. unfold tab_nodes. induction H as [|x y l k Hs H IH]; simpl; [done|].
  rewrite !elem_of_app. intros [Hx|Hx]; [left; by eapply sublist_elem|right; auto].
Qed.

Lemma thin_tab_id h h' t : (forall a, a ∈ tab_nodes t -> sons_of h' a = sons_of h a) -> thin_tab h h' t t.
Proof. intros H. constructor; [done| |done]. apply Forall2_same_length_lookup_2; [done|]. intros i x y Hx Hy. rewrite Hx in Hy. by simplify_eq. Qed.

Lemma thin_tab_trans h1 h2 h3 t1 t2 t3 :
  thin_tab h1 h2 t1 t2 -> thin_tab h2 h3 t2 t3 -> thin_tab h1 h3 t1 t3.
Proof.
  intros A B. pose proof A as [A1 A2 A3]. pose proof B as [B1 B2 B3]. constructor; [congruence| |].
  - eapply Forall2_transitive; [|exact B2|exact A2]. intros x y z Hxy Hyz. by transitivity y.
  - intros a Ha. rewrite B3, A3; [done| |done]. by eapply thin_tab_elem.
Qed.

Lemma Forall2_diag {A} (R : A -> A -> Prop) l : (forall x, x ∈ l -> R x x) -> Forall2 R l l.
Proof. induction l; intros H; constructor; [apply H; set_solver|apply IHl; intros; apply H; set_solver]. Qed.

(** the tables are the same, and so are the sons of their nodes *)
Lemma thin_same s s' : s_tabs s' = s_tabs s ->
  (forall t a, t ∈ s_tabs s -> a ∈ tab_nodes t -> sons_of (s_heap s') a = sons_of (s_heap s) a) -> thin s s'.
Proof. intros E H. unfold thin. rewrite E. apply Forall2_diag. intros t Ht. apply thin_tab_id. eauto. Qed.

Lemma thin_refl s : thin s s.
Proof. by apply thin_same. Qed.

Lemma thin_trans s1 s2 s3 : thin s1 s2 -> thin s2 s3 -> thin s1 s3.
Proof.
  intros A B. unfold thin in *. eapply Forall2_transitive; [|exact B|exact A].
  intros x y z Hxy Hyz. exact (thin_tab_trans _ _ _ _ _ _ Hyz Hxy).
Qed.

Lemma thin_caps s s' : thin s s' -> caps s' = caps s.
Proof.
  unfold thin, caps. induction 1 as [|t' t l l' H _ IH]; simpl; [done|]. f_equal; [apply H|done].
Qed.

(** ** Actions under which the tables only lose nodes *)

Definition thins {A} (m : M A) : Prop := forall s x s', m s = Ok x s' -> thin s s'.

Lemma thins_ret {A} (x : A) : thins (ret x).
Proof. intros s y s' H. injection H as <- <-. apply thin_refl. Qed.
Lemma thins_fail {A} e : thins (@fail A e).
Proof. intros s y s' H. discriminate. Qed.
Lemma thins_of_opt {A} e (o : option A) : thins (of_opt e o).
Proof. destruct o; [apply thins_ret|apply thins_fail]. Qed.
Lemma thins_gets {A} (f : st -> A) : thins (gets f).
Proof. intros s y s' H. injection H as <- <-. apply thin_refl. Qed.
Lemma thins_read {A} e (f : st -> option A) : thins (fun s => of_opt e (f s) s).
Proof. intros s y s' H. by apply (thins_of_opt e (f s) s y s'). Qed.
Lemma thins_bind {A B} (m : M A) (k : A -> M B) : thins m -> (forall x, thins (k x)) -> thins (let* x := m in k x).
Proof.
  intros Hm Hk s y s' H. unfold bind in H. destruct (m s) as [x s1| |] eqn:E; [|discriminate..].
  eapply thin_trans; [by eapply Hm|by eapply Hk].
Qed.
Lemma thins_mapM {A} (f : A -> M unit) l : (forall x, thins (f x)) -> thins (mapM_ f l).
Proof. intros H. induction l; simpl; [apply thins_ret|]. by apply thins_bind. Qed.
Lemma thins_modify f : (forall s, s_tabs (f s) = s_tabs s) -> (forall s, s_heap (f s) = s_heap s) -> thins (modify f).
Proof. intros H1 H2 s x s' H. injection H as <- <-. apply thin_same; [done|]. intros. by rewrite H2. Qed.

Lemma sons_of_hrel h h' : (forall a n n', h !! a = Some n -> h' !! a = Some n' -> n_body n' = n_body n) ->
  (forall a, h !! a = None <-> h' !! a = None) -> forall a, sons_of h' a = sons_of h a.
Proof.
  intros H1 H2 a. unfold sons_of. destruct (h !! a) as [n|] eqn:E.
  - destruct (h' !! a) as [n'|] eqn:E'; [by rewrite (H1 a n n')|]. apply H2 in E'. congruence.
  - by rewrite (proj1 (H2 a) E).
Qed.

Lemma sons_of_insert h a n n' : h !! a = Some n -> n_body n' = n_body n -> forall b, sons_of (<[a := n']> h) b = sons_of h b.
Proof.
  intros Ha Hb b. unfold sons_of. destruct (decide (b = a)) as [->|Hne].
  - by rewrite lookup_insert, Ha, Hb.
  - by rewrite lookup_insert_ne.
Qed.

Lemma getn_run a s n s' : getn a s = Ok n s' -> s' = s /\ s_heap s !! a = Some n.
Proof.
  unfold getn. destruct (s_heap s !! a) as [m|]; [|discriminate]. destruct (n_used m); [|discriminate].
  intros E. by injection E as -> ->.
Qed.

Lemma thins_getn a : thins (getn a).
Proof. intros s n s' H. destruct (getn_run _ _ _ _ H) as [-> _]. apply thin_refl. Qed.

(** actions that leave the tables and the sons alone *)
Definition still {A} (m : M A) : Prop := forall s x s', m s = Ok x s' ->
  s_tabs s' = s_tabs s /\ (forall a, sons_of (s_heap s') a = sons_of (s_heap s) a) /\
  forall a, live (s_heap s') a = live (s_heap s) a.

Lemma still_thins {A} (m : M A) : still m -> thins m.
Proof. intros H s x s' E. destruct (H s x s' E) as (E1&E2&_). apply thin_same; [done|]. intros t a _ _. apply E2. Qed.
Lemma still_ret {A} (x : A) : still (ret x).
Proof. intros s y s' H. injection H as <- <-. done. Qed.
Lemma still_bind {A B} (m : M A) (k : A -> M B) : still m -> (forall x, still (k x)) -> still (let* x := m in k x).
Proof.
  intros Hm Hk s y s' H. unfold bind in H. destruct (m s) as [x s1| |] eqn:E; [|discriminate..].
  destruct (Hm _ _ _ E) as (A1&A2&A3). destruct (Hk x _ _ _ H) as (B1&B2&B3). split_and!; [congruence|..]; intros a; [by rewrite B2|by rewrite B3].
Qed.
Lemma still_mapM {A} (f : A -> M unit) l : (forall x, still (f x)) -> still (mapM_ f l).
Proof. intros H. induction l; simpl; [apply still_ret|]. by apply still_bind. Qed.

(** an update of one node that keeps its body, after having read it *)
Lemma still_upd a (k : node -> M unit) :
  (forall n s x s', s_heap s !! a = Some n -> k n s = Ok x s' ->
     s_tabs s' = s_tabs s /\ exists n', n_body n' = n_body n /\ n_used n' = n_used n /\ s_heap s' = <[a := n']> (s_heap s)) ->
  still (let* n := getn a in k n).
Proof.
  intros H s x s' E. unfold bind in E. destruct (getn a s) as [n s1| |] eqn:G; [|discriminate..].
  destruct (getn_run _ _ _ _ G) as [-> Ha]. destruct (H n s x s' Ha E) as (E1&n'&E2&E2'&E3).
  split; [done|]. split; intros b; rewrite E3; [by eapply sons_of_insert|].
  rewrite live_insert. destruct (decide (b = a)) as [->|]; [|done]. unfold live. by rewrite Ha, E2, E2'.
Qed.

Lemma still_modn a f : (forall n, n_body (f n) = n_body n) -> (forall n, n_used (f n) = n_used n) -> still (modn a f).
Proof.
  intros Hf Hu. apply still_upd. intros n s x s' Ha E. injection E as <- <-. split; [done|]. exists (f n). by split_and!.
Qed.
Lemma still_set_mark b a : still (set_mark b a).
Proof. by apply still_modn. Qed.
Lemma still_inc_ref a : still (inc_ref a).
Proof.
  apply still_upd. intros n s x s' Ha E. destruct (_ <? _)%N; [|discriminate]. injection E as <- <-. split; [done|].
  eexists. split_and!; [| |reflexivity]; done.
Qed.
Lemma still_dec_ref a : still (dec_ref a).
Proof.
  apply still_upd. intros n s x s' Ha E. destruct (_ =? _)%N; [discriminate|]. injection E as <- <-. split; [done|].
  eexists. split_and!; [| |reflexivity]; done.
Qed.

Section reduce.
Context (c : cfg).

Lemma thins_delete_node a : thins (delete_node c a).
Proof.
  intros s x s' E. unfold delete_node, bind in E. destruct (getn a s) as [n s1| |] eqn:G; [|discriminate..].
  destruct (getn_run _ _ _ _ G) as [-> Ha]. destruct (_ && _); [discriminate|]. injection E as <- <-.
  apply thin_same; [done|]. intros t b _ _. simpl. by eapply sons_of_insert.
Qed.

Lemma remove1_sublist a l l' : remove1 a l = Some l' -> sublist l' l.
Proof.
  revert l'. induction l as [|b l IH]; intros l' H; simpl in H; [done|].
  destruct (decide (b = a)); [injection H as ->; by constructor|].
  destruct (remove1 a l) as [k|]; [|done]. injection H as <-. constructor. by apply IH.
Qed.

Lemma tab_erase_thin h t b a t' : tab_erase_at t b a = Some t' -> thin_tab h h t t'.
Proof.
  unfold tab_erase_at. destruct (t_buckets t !! b) as [ch|] eqn:Eb; [|done].
  destruct (remove1 a ch) as [ch'|] eqn:Er; [|done]. intros E. injection E as <-.
  constructor; simpl; [done| |done].
  apply Forall2_same_length_lookup_2; [by rewrite insert_length|].
  intros i x y Hx Hy. destruct (decide (i = b)) as [->|Hne].
  - rewrite list_lookup_insert in Hx by (by eapply lookup_lt_Some). simplify_eq. by eapply remove1_sublist.
  - rewrite list_lookup_insert_ne in Hx by done. by simplify_eq.
Qed.

Lemma thins_get_int a : thins (get_int a).
Proof.
  unfold get_int. apply thins_bind; [apply thins_getn|]. intros n. destruct (n_body n); [apply thins_fail|apply thins_ret].
Qed.

Lemma thins_gc_node i b a : thins (gc_node c i b a).
Proof.
  unfold gc_node. apply thins_bind; [apply thins_getn|]. intros n. destruct (can_be_gced n); [|apply thins_ret].
  apply thins_bind; [apply thins_get_int|]. intros is. apply thins_bind; [apply thins_mapM; intros; apply still_thins, still_dec_ref|].
  intros _ s x s' E. unfold bind in E. destruct (s_tabs s !! i) as [t|] eqn:Et; simpl in E; [|discriminate].
  unfold of_opt in E. destruct (tab_erase_at t b a) as [t'|] eqn:Ee; simpl in E; [|discriminate].
  eapply thin_trans; [|eapply thins_delete_node; exact E].
  unfold thin. simpl. apply Forall2_same_length_lookup_2; [by rewrite insert_length|].
  intros j x0 y Hx Hy. destruct (decide (j = i)) as [->|Hne].
  - rewrite list_lookup_insert in Hx by (by eapply lookup_lt_Some). simplify_eq. by eapply tab_erase_thin.
  - rewrite list_lookup_insert_ne in Hx by done. simplify_eq. by apply thin_tab_id.
Qed.

Lemma thins_index_at l : thins (index_at l).
Proof. apply thins_read. Qed.

Lemma thins_gc_slot get set k : (forall l s, s_tabs (set l s) = s_tabs s) -> (forall l s, s_heap (set l s) = s_heap s) ->
  thins (gc_slot c get set k).
Proof.
  intros H1 H2. unfold gc_slot. apply thins_bind; [apply thins_gets|]. intros [[a|]|]; try apply thins_ret.
  apply thins_bind; [apply thins_getn|]. intros n. destruct (can_be_gced n); [|apply thins_ret].
  apply thins_bind; [apply thins_delete_node|]. intros _. by apply thins_modify.
Qed.

Lemma thins_collect_garbage : thins (collect_garbage c).
Proof.
  unfold collect_garbage. apply thins_bind.
  { apply thins_mapM. intros l. unfold gc_level. apply thins_bind; [apply thins_index_at|]. intros i.
    apply thins_bind; [apply thins_read|]. intros t. apply thins_mapM. intros bc. apply thins_mapM. intros a. apply thins_gc_node. }
  intros _. apply thins_bind; [apply thins_gets|]. intros nt. apply thins_bind.
  { apply thins_mapM. intros k. by apply thins_gc_slot. }
  intros _. apply thins_bind; [apply thins_gets|]. intros ns. apply thins_mapM. intros k. by apply thins_gc_slot.
Qed.

Lemma thins_force_gc : thins (force_gc c).
Proof. apply thins_bind; [apply thins_collect_garbage|]. intros _. by apply thins_modify. Qed.

Lemma thins_grow : thins grow.
Proof. by apply thins_modify. Qed.

Lemma thins_ensure_available : thins (ensure_available c).
Proof.
  unfold ensure_available. apply thins_bind; [apply thins_gets|]. intros auto. apply thins_bind; [apply thins_gets|]. intros avail.
  destruct auto, (avail =? 0)%Z; try apply thins_ret.
  - apply thins_bind; [apply thins_grow|]. intros _. by apply thins_modify.
  - apply thins_bind; [apply thins_gets|]. intros thr. apply thins_bind; [apply thins_force_gc|]. intros _.
    apply thins_bind; [apply thins_gets|]. intros av. destruct (av <? thr)%Z; [apply thins_grow|apply thins_ret].
Qed.

(** ** Tables that may also grow: as long as no capacity changes they only lose nodes *)

Definition cle (s s' : st) : Prop := Forall2 N.le (caps s) (caps s').

Definition tmove (s s' : st) : Prop := cle s s' /\ (caps s' = caps s -> thin s s').

Lemma cle_refl s : cle s s.
Proof. apply Forall2_diag. intros. lia. Qed.
Lemma cle_eq s s' : caps s' = caps s -> cle s s'.
Proof. unfold cle. intros ->. apply cle_refl. Qed.
Lemma cle_trans s1 s2 s3 : cle s1 s2 -> cle s2 s3 -> cle s1 s3.
Proof. unfold cle. intros A B. eapply Forall2_transitive; [|exact A|exact B]. intros x y z. lia. Qed.
Lemma cle_squeeze s1 s2 s3 : cle s1 s2 -> cle s2 s3 -> caps s3 = caps s1 -> caps s2 = caps s1 /\ caps s3 = caps s2.
Proof.
  unfold cle. intros A B E. rewrite E in *. assert (caps s2 = caps s1) as ->; [|done].
  clear -A B. revert A B. generalize (caps s1), (caps s2). intros l k A. induction A; intros B; inversion B; subst; [done|].
  f_equal; [lia|auto].
Qed.

Lemma thin_tmove s s' : thin s s' -> tmove s s'.
Proof. intros H. split; [|done]. apply cle_eq. by apply thin_caps. Qed.

Lemma tmove_trans s1 s2 s3 : tmove s1 s2 -> tmove s2 s3 -> tmove s1 s3.
Proof.
  intros [A1 A2] [B1 B2]. split; [by eapply cle_trans|]. intros E.
  destruct (cle_squeeze _ _ _ A1 B1 E) as [E1 E2]. eapply thin_trans; auto.
Qed.

Lemma tab_adjust_cap h t : (t_cap t <= t_cap (tab_adjust c h t))%N /\ (t_cap (tab_adjust c h t) = t_cap t -> tab_adjust c h t = t).
Proof.
  unfold tab_adjust. destruct (_ <? _)%Z eqn:E; [|split; [lia|done]]. apply Z.ltb_lt in E.
  assert (t_cap (tab_rehash c h t (Z.to_N (get_gte_capacity (4 * t_size t / 3)))) = Z.to_N (get_gte_capacity (4 * t_size t / 3))) as Ec.
  { unfold tab_rehash. by destruct (insert_all_fields c h (UTab (t_size t) (Z.to_N (get_gte_capacity (4 * t_size t / 3))) (empty_buckets (Z.to_N (get_gte_capacity (4 * t_size t / 3))))) (concat (t_buckets t))) as [? ?]. }
  rewrite Ec. split; [lia|]. intros E'. lia.
Qed.

Lemma adjust_tmove s x s' : adjust_if_needed c s = Ok x s' -> tmove s s'.
Proof.
  unfold adjust_if_needed, bind, gets, modify. destruct (_ <=? _)%Z; intros E; injection E as <- <-; [|by apply thin_tmove, thin_refl].
  unfold tmove, cle, caps. simpl. rewrite map_map. split.
  - apply Forall2_same_length_lookup_2; [by rewrite !map_length|]. intros i x y Hx Hy.
    rewrite list_lookup_fmap in Hx, Hy. destruct (s_tabs s !! i) as [t|]; simplify_eq/=. apply tab_adjust_cap.
  - intros E. apply thin_same; [|done]. simpl. revert E. generalize (s_tabs s). intros l. induction l as [|t l IH]; intros E; simpl in *; [done|].
    injection E as E1 E2. f_equal; [by apply tab_adjust_cap|auto].
Qed.

(** ** The first node of its chain with its sons *)

Definition lead (s : st) (a : positive) : Prop :=
  exists i sons t, live (s_heap s) a = Some (Int i sons) /\ s_tabs s !! i = Some t /\
    tab_find c (s_heap s) t sons = Some a.

Lemma find_sublist {A} (f f' : A -> bool) l' l a :
  sublist l' l -> NoDup l -> List.find f l = Some a -> a ∈ l' -> (forall x, x ∈ l' -> f' x = f x) ->
  List.find f' l' = Some a.
Proof.
  intros H. induction H as [|x l' l H IH|x l' l H IH]; intros Hn Hf Ha He; simpl in *.
  - set_solver.
  - rewrite He by set_solver. inversion Hn; subst. destruct (f x) eqn:E; [done|].
    apply elem_of_cons in Ha as [->|Ha]; [|apply IH; set_solver].
    apply List.find_some in Hf as [_ Hf]. congruence.
  - inversion Hn as [|? ? Hx Hn']; subst. destruct (f x) eqn:E.
    + simplify_eq. exfalso. apply Hx. by eapply sublist_elem.
    + by apply IH.
Qed.

Lemma thin_lookup s s' i t : thin s s' -> s_tabs s !! i = Some t ->
  exists t', s_tabs s' !! i = Some t' /\ thin_tab (s_heap s) (s_heap s') t t'.
Proof.
  intros H Ht. destruct (Forall2_lookup_r _ _ _ _ _ H Ht) as (t'&Ht'&R). eauto.
Qed.

Lemma thin_bucket h h' t t' b ch' : thin_tab h h' t t' -> t_buckets t' !! b = Some ch' ->
  exists ch, t_buckets t !! b = Some ch /\ sublist ch' ch /\ forall a, a ∈ ch' -> sons_of h' a = sons_of h a.
Proof.
  intros [_ H2 H3] Hb. destruct (Forall2_lookup_l _ _ _ _ _ H2 Hb) as (ch&Hch&Hs). exists ch. split; [done|]. split; [done|].
  intros a Ha. apply H3. unfold tab_nodes. apply elem_of_concat. eauto.
Qed.

Lemma find_thin g h h' i t t' sons a :
  tab_ok c g h i t -> thin_tab h h' t t' -> tab_find c h t sons = Some a -> a ∈ tab_nodes t' ->
  tab_find c h' t' sons = Some a.
Proof.
  intros T Th F Ha. unfold tab_nodes in Ha. apply elem_of_concat in Ha as (b&ch'&Hb&Ha).
  destruct (thin_bucket _ _ _ _ _ _ Th Hb) as (ch&Hch&Hsub&Hs).
  unfold tab_find in *. destruct T as (Hcap&Hl&T&_).
  destruct (lookup_lt_is_Some_2 (t_buckets t) (bucket_of t (node_hash c sons))) as [ch0 Hch0].
  { rewrite Hl. by apply bucket_lt. }
  rewrite (nth_lookup_Some _ _ _ _ Hch0) in F.
  destruct (List.find_some _ _ F) as [Hin Heq]. apply elem_of_list_In in Hin.
  assert (b = bucket_of t (node_hash c sons)) as ->.
  { destruct (T _ _ Hch) as [_ T1]. destruct (T _ _ Hch0) as [_ T2].
    pose proof (proj1 (T1 a) (sublist_elem _ _ _ Hsub Ha)) as (_&s1&L1&E1).
    pose proof (proj1 (T2 a) Hin) as (_&s2&L2&E2). congruence. }
  assert (bucket_of t' (node_hash c sons) = bucket_of t (node_hash c sons)) as ->.
  { unfold bucket_of. by rewrite (tt_cap _ _ _ _ Th). }
  rewrite (nth_lookup_Some _ _ _ _ Hb). simplify_eq. destruct (T _ _ Hch) as [Hnd _].
  eapply find_sublist; [exact Hsub|exact Hnd|exact F|exact Ha|].
  intros x Hx. unfold node_equals. by rewrite Hs.
Qed.

Lemma find_ext h h' t sons : (forall a, sons_of h' a = sons_of h a) -> tab_find c h' t sons = tab_find c h t sons.
Proof.
  intros H. unfold tab_find. induction (nth _ _ _) as [|x l IH]; simpl; [done|].
  unfold node_equals at 1 3. rewrite H, IH. done.
Qed.

Lemma find_insert_other h t x hash sons : sons_of h x <> sons ->
  tab_find c h (tab_insert t x hash) sons = tab_find c h t sons.
Proof.
  intros Hne. unfold tab_find, tab_insert, tab_insert_impl, bucket_of. simpl.
  set (k := N.to_nat (node_hash c sons mod t_cap t)). set (j := N.to_nat (hash mod t_cap t)).
  destruct (decide (j = k)) as [->|Hjk].
  - destruct (t_buckets t !! k) as [ch|] eqn:E.
    + rewrite (nth_lookup_Some (alter _ _ _) k [] (x :: ch)) by (by rewrite list_lookup_alter, E).
      rewrite (nth_lookup_Some _ _ _ _ E). simpl. unfold node_equals at 1. by rewrite bool_decide_eq_false_2.
    + rewrite !nth_lookup, list_lookup_alter, E. done.
  - rewrite !nth_lookup, list_lookup_alter_ne by done. done.
Qed.

Lemma find_insert_same h t x sons : (0 < t_cap t)%N -> length (t_buckets t) = N.to_nat (t_cap t) -> sons_of h x = sons ->
  tab_find c h (tab_insert t x (node_hash c sons)) sons = Some x.
Proof.
  intros Hc Hl Hs. unfold tab_find, tab_insert, tab_insert_impl. simpl.
  destruct (lookup_lt_is_Some_2 (t_buckets t) (bucket_of t (node_hash c sons))) as [ch Hch].
  { rewrite Hl. by apply bucket_lt. }
  assert (forall sz b, bucket_of (UTab sz (t_cap t) b) (node_hash c sons) = bucket_of t (node_hash c sons)) as -> by done.
  rewrite (nth_lookup_Some (alter _ _ _) _ [] (x :: ch)) by (by rewrite list_lookup_alter, Hch).
  simpl. unfold node_equals. by rewrite bool_decide_eq_true_2.
Qed.

Context (opsem : Z -> option (Z -> Z -> Z)) (strict : bool).
Notation rank := (rank c).
Notation WF := (WF c opsem strict).
Notation sstep := (sstep c opsem strict).
Notation mstep := (mstep c opsem strict).
Notation bstep := (bstep c opsem strict).
Notation bres := (bres c opsem strict).
Notation allowed := (allowed strict).

Lemma wp_run {A} ok (m : M A) (Q P : A -> st -> Prop) s :
  wp ok m Q s -> (forall x s', m s = Ok x s' -> Q x s' -> P x s') -> wp ok m P s.
Proof. unfold wp. destruct (m s); auto. Qed.

Lemma in_table g s i a sons t : WF g s -> g_fl g = [] -> live (s_heap s) a = Some (Int i sons) -> s_tabs s !! i = Some t ->
  a ∈ tab_nodes t.
Proof.
  intros W Hfl La Ht. pose proof (wf_tab _ _ _ _ _ W i t Ht) as (Hcap&Hl&T&_).
  destruct (lookup_lt_is_Some_2 (t_buckets t) (bucket_of t (node_hash c sons))) as [ch Hch].
  { rewrite Hl. by apply bucket_lt. }
  unfold tab_nodes. apply elem_of_concat. exists (bucket_of t (node_hash c sons)), ch. split; [done|]. apply (T _ _ Hch). rewrite Hfl. split; [set_solver|]. eauto.
Qed.

Lemma table_live g s i a t : WF g s -> s_tabs s !! i = Some t -> a ∈ tab_nodes t -> live (s_heap s) a <> None.
Proof.
  intros W Ht Ha. pose proof (wf_tab _ _ _ _ _ W i t Ht) as (Hcap&Hl&T&_).
  unfold tab_nodes in Ha. apply elem_of_concat in Ha as (b&ch&Hb&Ha). apply (T _ _ Hb) in Ha as (_&sons&L&_). by rewrite L.
Qed.

(** the first node of its chain stays the first one when the table only loses other nodes *)
Lemma thin_lead g s s' a : WF g s -> WF g s' -> g_fl g = [] -> thin s s' ->
  live (s_heap s') a = live (s_heap s) a -> lead s a -> lead s' a.
Proof.
  intros W W' Hfl Th L (i&sons&t&La&Ht&F). destruct (thin_lookup _ _ _ _ Th Ht) as (t'&Ht'&R).
  exists i, sons, t'. split; [congruence|]. split; [done|].
  eapply find_thin; [by apply (wf_tab _ _ _ _ _ W)|done|done|]. apply (in_table g s' i a sons t' W' Hfl); [congruence|done].
Qed.

(** [lstep]: no table shrinks, and if none grows the held first nodes stay first *)
Definition lstep (g : ghost) (s s' : st) : Prop :=
  cle s s' /\ (caps s' = caps s -> forall b, held g (s_heap s) b -> lead s b -> lead s' b).

Lemma lstep_refl g s : lstep g s s.
Proof. split; [apply cle_refl|done]. Qed.

Lemma lstep_trans g s1 s2 s3 : keeps g (s_heap s1) (s_heap s2) -> lstep g s1 s2 -> lstep g s2 s3 -> lstep g s1 s3.
Proof.
  intros K [A1 A2] [B1 B2]. split; [by eapply cle_trans|]. intros E b Hb Hl.
  destruct (cle_squeeze _ _ _ A1 B1 E) as [E1 E2]. apply B2; [done|by apply K|]. by apply A2.
Qed.

Lemma tmove_lstep g s s' : WF g s -> g_fl g = [] -> sstep g s s' -> tmove s s' -> lstep g s s'.
Proof.
  intros W Hfl S [A B]. split; [done|]. intros E b Hb Hl.
  eapply thin_lead; [exact W|apply S|done|auto|by apply (ss_keeps _ _ _ _ _ _ S)|done].
Qed.

Lemma make_new_run g b s a s1 : WF g s -> g_dy g = [] -> perm_ok c s -> make_new_node c b s = Ok a s1 ->
  exists s0 p', tmove s s0 /\ gstep c opsem strict g s s0 /\ live (s_heap s0) a = None /\
    s1 = set_pool p' (set_heap (<[a := Node b false true 0]> (s_heap s0)) (set_count (s_count s0 + 1) s0)).
Proof.
  intros W Hdy P E. unfold make_new_node, bind in E.
  destruct (ensure_available c s) as [[] s2| |] eqn:E2; [|discriminate..].
  destruct (adjust_if_needed c s2) as [[] s3| |] eqn:E3; [|discriminate..].
  pose proof (ensure_available_spec c opsem strict (fun _ => False) g s W Hdy P) as H2. unfold wp in H2. rewrite E2 in H2. destruct H2 as [G2 _].
  pose proof (adjust_if_needed_spec c opsem strict (fun _ => False) g s2 (gs_wf _ _ _ _ _ _ G2)) as H3. unfold wp in H3. rewrite E3 in H3. destruct H3 as (G3&_&_).
  unfold create_node in E. destruct (pool_create (s_pool s3)) as [[a' p']|] eqn:Ep; [|discriminate].
  destruct (pool_create_spec _ _ _ _ b (wf_pool _ _ _ _ _ (gs_wf _ _ _ _ _ _ G3)) Ep) as (Hn&_).
  exists s3, p'. injection E as <- <-. split_and!; [|by eapply gstep_trans|done|done].
  eapply tmove_trans; [apply thin_tmove; by eapply thins_ensure_available|by eapply adjust_tmove].
Qed.

Lemma sons_of_new h a n b : b <> a -> sons_of (<[a := n]> h) b = sons_of h b.
Proof. intros Hne. unfold sons_of. by rewrite lookup_insert_ne. Qed.

(** a new node in the heap that is in no table *)
Lemma thin_new g s a b p' : WF g s -> live (s_heap s) a = None ->
  thin s (set_pool p' (set_heap (<[a := Node b false true 0]> (s_heap s)) (set_count (s_count s + 1) s))).
Proof.
  intros W Ha. apply thin_same; [done|]. intros t x Ht Hx. simpl. apply sons_of_new.
  intros ->. apply elem_of_list_lookup in Ht as [i Ht]. by apply (table_live g s i a t W Ht).
Qed.

Lemma make_internal_lead g i sons s r s' :
  WF g s -> quiet g -> perm_ok c s -> adj_eq sons = false ->
  make_internal_node c i sons s = Ok r s' -> mstep g s s' r (Int i sons) ->
  lstep g s s' /\ (caps s' = caps s -> lead s' r).
Proof.
  intros W [Hdy Hfl] P Hadj E Ms. pose proof (ms_step _ _ _ _ _ _ _ _ Ms) as S.
  pose proof (ms_live _ _ _ _ _ _ _ _ Ms) as Lr.
  pose proof (ss_wf _ _ _ _ _ _ S) as W'. pose proof (ss_keeps _ _ _ _ _ _ S) as K.
  unfold make_internal_node in E. rewrite Hadj in E. unfold bind at 1 in E.
  destruct (s_tabs s !! i) as [t|] eqn:Ht; [|discriminate].
  pose proof (wf_tab _ _ _ _ _ W i t Ht) as T.
  destruct (tab_find c (s_heap s) t sons) as [a|] eqn:F.
  - assert (Hst : still (let* _ := mapM_ (set_mark false) sons in let* _ := set_mark true a in ret a)).
    { apply still_bind; [apply still_mapM; intros; apply still_set_mark|]. intros _.
      apply still_bind; [apply still_set_mark|]. intros _. apply still_ret. }
    pose proof (still_thins _ Hst _ _ _ E) as Th.
    assert (r = a) as ->.
    { unfold bind in E. destruct (mapM_ _ _ s) as [? s2| |]; [|discriminate..]. destruct (set_mark true a s2); [|discriminate..].
      injection E as <- _. done. }
    split; [apply tmove_lstep; auto using thin_tmove|]. intros _.
    destruct (tab_find_Some _ _ _ _ _ _ _ T F) as [La _].
    eapply thin_lead; [exact W|exact W'|done|exact Th|congruence|]. exists i, sons, t. done.
  - unfold bind at 1 in E. destruct (make_new_node c (Int i sons) s) as [a s1| |] eqn:E1; [|discriminate..].
    destruct (make_new_run g _ _ _ _ W Hdy P E1) as (s0&p'&T0&G0&Ha&Es1).
    pose proof (gs_wf _ _ _ _ _ _ G0) as W0.
    assert (T1 : tmove s s1).
    { eapply tmove_trans; [exact T0|]. apply thin_tmove. rewrite Es1. by eapply thin_new. }
    unfold bind at 1, modify in E.
    set (s2 := set_tabs (alter (fun t => tab_insert t a (node_hash c sons)) i (s_tabs s1)) s1) in E.
    assert (Hst : still (let* _ := mapM_ inc_ref sons in let* _ := mapM_ (set_mark false) sons in let* _ := set_mark true a in ret a)).
    { apply still_bind; [apply still_mapM; intros; apply still_inc_ref|]. intros _.
      apply still_bind; [apply still_mapM; intros; apply still_set_mark|]. intros _.
      apply still_bind; [apply still_set_mark|]. intros _. apply still_ret. }
    destruct (Hst _ _ _ E) as (E2&Es&_).
    assert (r = a) as ->.
    { unfold bind in E. destruct (mapM_ inc_ref _ s2) as [? s3| |]; [|discriminate..].
      destruct (mapM_ (set_mark false) _ s3) as [? s4| |]; [|discriminate..].
      destruct (set_mark true a s4); [|discriminate..]. injection E as <- _. done. }
    assert (Ec : caps s' = caps s1).
    { unfold caps. rewrite E2. unfold s2. simpl. apply list_eq. intros j. rewrite !list_lookup_fmap.
      destruct (decide (j = i)) as [->|Hne]; [rewrite list_lookup_alter; by destruct (s_tabs s1 !! i)|by rewrite list_lookup_alter_ne]. }
    assert (C1 : cle s s').
    { eapply cle_trans; [apply T1|]. by apply cle_eq. }
    assert (Hthin : caps s' = caps s -> thin s s1).
    { intros Eq. apply T1. congruence. }
    assert (Hh2 : forall x, sons_of (s_heap s') x = sons_of (s_heap s1) x) by exact Es.
    assert (Hsa : sons_of (s_heap s') a = sons) by (by eapply live_sons_of).
    assert (Hlead : caps s' = caps s -> lead s' a).
    { intros Eq. destruct (thin_lookup _ _ _ _ (Hthin Eq) Ht) as (t1&Ht1&R1).
      exists i, sons, (tab_insert t1 a (node_hash c sons)). split; [done|]. split.
      { rewrite E2. unfold s2. simpl. by rewrite list_lookup_alter, Ht1. }
      pose proof T as (Hcap&Hlen&_).
      apply find_insert_same; [by rewrite (tt_cap _ _ _ _ R1)| |done].
      rewrite (tt_cap _ _ _ _ R1), <- Hlen. by eapply Forall2_length, R1. }
    split; [|exact Hlead]. split; [exact C1|]. intros Eq b Hb (j&sb&tj&Lb&Htj&Fb).
    destruct (thin_lookup _ _ _ _ (Hthin Eq) Htj) as (t1&Ht1&R1).
    assert (Lb' : live (s_heap s') b = Some (Int j sb)) by (rewrite (proj2 (K b Hb)); done).
    assert (Hne : b <> a).
    { intros ->. destruct (g2_keeps _ _ _ (gs_rel _ _ _ _ _ _ G0) a Hb) as [_ L0]. congruence. }
    assert (Hin1 : b ∈ tab_nodes t1).
    { assert (Ht0 : s_tabs s0 !! j = Some t1) by (rewrite Es1 in Ht1; exact Ht1).
      eapply (in_table g s0); [exact W0|done| |exact Ht0].
      rewrite (proj2 (g2_keeps _ _ _ (gs_rel _ _ _ _ _ _ G0) b Hb)). done. }
    pose proof (find_thin g _ _ j tj t1 sb b (wf_tab _ _ _ _ _ W j tj Htj) R1 Fb Hin1) as F1.
    destruct (decide (j = i)) as [->|Hji].
    + exists i, sb, (tab_insert t1 a (node_hash c sons)). split; [done|]. split.
      { rewrite E2. unfold s2. simpl. by rewrite list_lookup_alter, Ht1. }
      assert (Hsb : sons_of (s_heap s') a <> sb).
      { rewrite Hsa. intros <-. simplify_eq. }
      rewrite find_insert_other by done. by rewrite (find_ext (s_heap s1)).
    + exists j, sb, t1. split; [done|]. split.
      { rewrite E2. unfold s2. simpl. by rewrite list_lookup_alter_ne by done. }
      by rewrite (find_ext (s_heap s1)).
Qed.

(** terminals *)
Lemma new_tmove g b (k : positive -> M positive) s r s' :
  WF g s -> g_dy g = [] -> perm_ok c s -> (forall a, thins (k a)) ->
  (let* a := make_new_node c b in k a) s = Ok r s' -> tmove s s'.
Proof.
  intros W Hdy P Hk E. unfold bind in E. destruct (make_new_node c b s) as [a s1| |] eqn:E1; [|discriminate..].
  destruct (make_new_run g _ _ _ _ W Hdy P E1) as (s0&p'&T0&G0&Ha&Es1).
  eapply tmove_trans; [exact T0|]. apply thin_tmove. eapply thin_trans; [|by eapply Hk].
  rewrite Es1. eapply thin_new; [apply G0|done].
Qed.

Lemma terminal_tmove g v s r s' : WF g s -> g_dy g = [] -> perm_ok c s ->
  make_terminal_node c v s = Ok r s' -> tmove s s'.
Proof.
  intros W Hdy P E. unfold make_terminal_node in E. destruct (_ && _); [discriminate|].
  assert (Hmark : forall a, thins (let* _ := set_mark true a in ret a)).
  { intros a. apply thins_bind; [apply still_thins, still_set_mark|]. intros _. apply thins_ret. }
  destruct (is_special v).
  - unfold make_special_node in E. unfold bind at 1, modify in E.
    set (s1 := match s_specs s with [] => set_specs [None] s | _ => s end) in E.
    assert (W1 : WF g s1).
    { unfold s1. destruct (s_specs s) eqn:Es; [|done]. apply WF_resize_specs; [|done].
      intros k d. rewrite Es. split; [|by destruct k]. destruct k as [|[|k]]; done. }
    assert (T1 : thin s s1) by (unfold s1; destruct (s_specs s); by apply thin_same).
    assert (P1 : perm_ok c s1) by (unfold s1; destruct (s_specs s); by apply (perm_same c s)).
    unfold bind at 1, gets in E. eapply tmove_trans; [by apply thin_tmove|].
    destruct (s_specs s1 !! 0) as [[a|]|]; [apply thin_tmove; by eapply Hmark|..];
    (eapply (new_tmove g); [exact W1|done|done| |exact E]; intros a; apply thins_bind; [by apply thins_modify|]; intros _; apply Hmark).
  - destruct (v <? 0)%Z eqn:Ev; [discriminate|]. unfold bind at 1, modify in E.
    set (s1 := if (Z.of_nat (length (s_terms s)) <=? v)%Z then _ else s) in E.
    assert (W1 : WF g s1).
    { unfold s1. destruct (_ <=? _)%Z; [|done]. apply WF_resize_terms; [|done].
      intros j d. rewrite lookup_app_Some. split.
      - intros [?|[_ H]]; [done|]. apply lookup_replicate in H as [? _]. done.
      - by left. }
    assert (T1 : thin s s1) by (unfold s1; destruct (_ <=? _)%Z; by apply thin_same).
    assert (P1 : perm_ok c s1) by (unfold s1; destruct (_ <=? _)%Z; by apply (perm_same c s)).
    unfold bind at 1, gets in E. eapply tmove_trans; [by apply thin_tmove|].
    destruct (s_terms s1 !! Z.to_nat v) as [[a|]|]; [apply thin_tmove; by eapply Hmark|..];
    (eapply (new_tmove g); [exact W1|done|done| |exact E]; intros a; apply thins_bind; [by apply thins_modify|]; intros _; apply Hmark).
Qed.

(** ** Reduced diagrams *)

(** below [a] there is no redundant node, and every node is the first of its chain *)
Definition reduced (s : st) (a : positive) : Prop :=
  forall b i sons, reach (live (s_heap s)) a b -> live (s_heap s) b = Some (Int i sons) ->
    adj_eq sons = false /\ lead s b.

Lemma keeps_reach_inv g h h' a b : keeps g h h' -> held g h a -> reach (live h') a b -> reach (live h) a b /\ held g h b.
Proof.
  intros K Ha H. induction H as [a|a b d i sons La Hb H IH]; [split; [constructor|done]|].
  rewrite (proj2 (K a Ha)) in La. destruct IH as [IH1 IH2]; [by eapply held_son|]. split; [|done]. econstructor; eauto.
Qed.

Lemma reduced_step g s s' a : keeps g (s_heap s) (s_heap s') -> lstep g s s' -> caps s' = caps s ->
  held g (s_heap s) a -> reduced s a -> reduced s' a.
Proof.
  intros K [_ L] E Ha R b i sons Hb Lb. destruct (keeps_reach_inv _ _ _ _ _ K Ha Hb) as [Hb' Hh].
  rewrite (proj2 (K b Hh)) in Lb. destruct (R b i sons Hb' Lb) as [R1 R2]. split; [done|]. by apply L.
Qed.

Lemma reduced_term s a v : live (s_heap s) a = Some (Term v) -> reduced s a.
Proof. intros La b i sons Hb Lb. apply reach_inv in Hb as [<-|(?&?&?&?&_)]; congruence. Qed.

Lemma reduced_node s a i sons : live (s_heap s) a = Some (Int i sons) -> adj_eq sons = false -> lead s a ->
  (forall d, d ∈ sons -> reduced s d) -> reduced s a.
Proof.
  intros La Hadj Hl Hs b j sb Hb Lb. apply reach_inv in Hb as [<-|(i'&sons'&d&La'&Hd&Hb)].
  - simplify_eq. done.
  - simplify_eq. by apply (Hs d Hd b j sb).
Qed.

(** two reduced diagrams with the same function are the same node *)
Lemma reduced_canonical g s a b : wf_cfg c -> WF g s -> quiet g -> ord c g s ->
  held g (s_heap s) a -> held g (s_heap s) b -> reduced s a -> reduced s b -> same_fun c s a b -> a = b.
Proof.
  intros Hc W Hq O Ha Hb Ra Rb H.
  apply (canonical_in c opsem strict g s (fun x => held g (s_heap s) x /\ reduced s x) Hc W Hq O); try done.
  - intros x [Hx _]. by eapply held_live.
  - intros x i sons d [Hx Rx] Lx Hd. split; [by eapply held_son|]. intros y j sy Hy Ly. apply (Rx y j sy); [|done].
    econstructor; eauto.
  - intros x x' i sons [_ Rx] [_ Rx'] Lx Lx'.
    destruct (Rx x i sons (reach_refl _ _) Lx) as [_ (j&sj&tj&L1&T1&F1)].
    destruct (Rx' x' i sons (reach_refl _ _) Lx') as [_ (k&sk&tk&L2&T2&F2)].
    simplify_eq. congruence.
  - intros x i sons [_ Rx] Lx. by destruct (Rx x i sons (reach_refl _ _) Lx).
Qed.

(** ** transform gives reduced diagrams *)

(** as long as no table has grown since [s0], the diagrams [l] and the memoised
    ones are reduced *)
Definition red_ok (s0 s : st) (l : list positive) (m : memo) : Prop :=
  cle s0 s /\ (caps s = caps s0 -> (forall d, d ∈ l -> reduced s d) /\ forall a b, m !! a = Some b -> reduced s b).

Lemma red_ok_step g s0 s s' F l m : keeps g (s_heap s) (s_heap s') -> lstep g s s' ->
  (forall d, d ∈ l -> held g (s_heap s) d) -> memo_ok c g s0 s F m -> red_ok s0 s l m -> red_ok s0 s' l m.
Proof.
  intros K L Hl Hm [C R]. pose proof L as [L1 _]. split; [by eapply cle_trans|]. intros E.
  destruct (cle_squeeze _ _ _ C L1 E) as [E1 E2]. destruct (R E1) as [R1 R2]. split.
  - intros d Hd. by eapply reduced_step; eauto.
  - intros a b Hab. eapply reduced_step; eauto. by apply (Hm a b Hab).
Qed.

Lemma transform_impl_red f g s0 fuel :
  wf_cfg c -> WF g s0 -> quiet g -> ord c g s0 ->
  forall a m s, sstep g s0 s -> held g (s_heap s0) a ->
  (forall rho x, valid c rho -> Ev (live (s_heap s0)) a rho x -> tval c (f x)) ->
  memo_ok c g s0 s (mapped (live (s_heap s0)) f) m -> red_ok s0 s [] m ->
  nvars c - rank g (s_heap s0) a < fuel ->
  wp allowed (transform_impl c fuel f m a) (fun mb s2 =>
    bstep g s s2 (rank g (s_heap s0) a) (snd mb) (mapped (live (s_heap s0)) f a) /\
    memo_ok c g s0 s2 (mapped (live (s_heap s0)) f) (fst mb) /\
    lstep g s s2 /\ red_ok s0 s2 [snd mb] (fst mb)) s.
Proof.
  intros Hc W0 Hq O. induction fuel as [|fuel IH]; intros a m s S Ha Hf Hm Hr Hfuel; [lia|].
  eapply wp_run; [by apply (transform_impl_spec c opsem strict f g s0 (Datatypes.S fuel) Hc W0 Hq O a m s)|].
  intros [m' b] s2 Erun [B Hm']. split; [done|]. split; [done|]. cbn [fst snd] in *.
  revert Erun B Hm'.
  enough (HH : wp allowed (transform_impl c (Datatypes.S fuel) f m a)
     (fun mb s2 => lstep g s s2 /\ red_ok s0 s2 [snd mb] (fst mb)) s).
  { intros E _ _. unfold wp in HH. rewrite E in HH. exact HH. }
  clear m' b s2. cbn [transform_impl]. pose proof (ss_wf _ _ _ _ _ _ S) as W.
  pose proof (ss_keeps _ _ _ _ _ _ S) as K. pose proof Hq as [Hdy Hfl].
  destruct (m !! a) as [b|] eqn:Em.
  { apply wp_ret. cbn [fst snd]. split; [apply lstep_refl|]. destruct Hr as [C R]. split; [done|]. intros E.
    destruct (R E) as [_ R2]. split; [|done]. intros d Hd%elem_of_list_singleton. subst. by eapply R2. }
  destruct (held_live _ _ _ _ _ _ W0 Ha) as [Hl Hd]. destruct (K a Ha) as [Ha1 La1].
  apply wp_bind. destruct (live (s_heap s0) a) as [[v|i sons]|] eqn:La; [| |done].
  - eapply wp_getn_live; [done|]. intros n _ _ ->. apply wp_bind.
    assert (O1 : ord c g s) by (by eapply ord_sstep).
    eapply wp_run.
    { apply (make_terminal_node_spec c opsem strict g (f v) s); try done; [by eapply ord_perm|].
      apply (Hf (fun _ => 0)); [by apply valid_ex|by apply Ev_term]. }
    intros b s1 E Ms. apply wp_ret. cbn [fst snd].
    assert (L : lstep g s s1).
    { apply tmove_lstep; [done|done|apply Ms|]. apply (terminal_tmove g (f v) s b s1 W Hdy); [by eapply ord_perm|exact E]. }
    split; [exact L|].
    pose proof (red_ok_step g s0 s s1 _ [] m ltac:(apply Ms) L ltac:(set_solver) Hm Hr) as [C R].
    split; [done|]. intros Ec. destruct (R Ec) as [_ R2]. split; [|done].
    intros d Hd'%elem_of_list_singleton. subst. exact (reduced_term s1 b (f v) (ms_live _ _ _ _ _ _ _ _ Ms)).
  - eapply wp_getn_live; [done|]. intros n _ _ ->.
    destruct (wf_node _ _ _ _ _ W0 a _ La) as (Hi&Hlen&Hra&_).
    set (G := fun k rho v => exists d, sons !! k = Some d /\ mapped (live (s_heap s0)) f d rho v).
    apply wp_bind. eapply wp_mono.
    { apply (wp_mapMs allowed (transform_impl c fuel f) (fun m acc s1 => bres g s s1 (g_lv g i) acc G /\
        memo_ok c g s0 s1 (mapped (live (s_heap s0)) f) m /\ lstep g s s1 /\ red_ok s0 s1 acc m)).
      2:{ split_and!; [by apply bres_nil|done|apply lstep_refl|done]. }
      intros k d m1 acc s1 Hk Hacc (B&Hm1&L1&R1).
      assert (Hin : d ∈ sons) by (by eapply elem_of_list_lookup_2).
      destruct (wf_son _ _ _ _ _ _ _ _ d W0 La ltac:(rewrite Hdy; set_solver) Hin) as (_&Hrd&_).
      pose proof (br_step _ _ _ _ _ _ _ _ _ B) as S1.
      eapply wp_mono.
      { apply IH; try done; [by eapply sstep_trans|by eapply held_son| | |lia].
        - intros rho x Hv Hx. apply (Hf (upd rho i k)).
          + apply valid_upd; [done|]. rewrite <- Hlen. by eapply lookup_lt_Some.
          + eapply Ev_int; [done|by rewrite upd_same|].
            apply (Ev_deeper c opsem strict g s0); try done; [eapply held_live; [done|by eapply held_son]|].
            by rewrite <- (rank_int c g _ _ _ _ Hq La).
        - destruct R1 as [C1 R1]. split; [done|]. intros Ec. split; [set_solver|]. by apply R1. }
      intros [m2 b] s2 (B2&Hm2&L2&R2). cbn [fst snd] in *.
      pose proof (ss_keeps _ _ _ _ _ _ (bs_step _ _ _ _ _ _ _ _ _ B2)) as K2.
      split_and!; [|done| |].
      - eapply bres_snoc; [exact B|]. rewrite (rank_int c g _ _ _ _ Hq La) in Hrd.
        eapply bstep_weaken; [exact B2|lia|]. intros rho v Hv (d'&Hd'&HF). rewrite Hacc in Hd'. congruence.
      - eapply lstep_trans; [apply S1|done|done].
      - pose proof (red_ok_step g s0 s1 s2 _ acc m1 K2 L2 (fun x Hx => proj1 (br_held _ _ _ _ _ _ _ _ _ B x Hx)) Hm1 R1) as [C3 R3].
        destruct R2 as [C2 R2]. split; [done|]. intros Ec. destruct (R2 Ec) as [Q1 Q2]. destruct (R3 Ec) as [Q3 _].
        split; [|done]. intros x [Hx|Hx]%elem_of_app; auto. }
    intros [m1 acc] s1 [(B&Hm1&L1&R1) Hacc]. cbn [fst snd] in *. apply wp_bind.
    pose proof (br_step _ _ _ _ _ _ _ _ _ B) as S1. pose proof (ss_wf _ _ _ _ _ _ S1) as W1.
    assert (O1 : ord c g s1) by (eapply ord_sstep; [|exact O]; by eapply sstep_trans).
    assert (HM : wp allowed (make_internal_node c i acc) (fun b s2 => lstep g s1 s2 /\ sstep g s1 s2 /\ held g (s_heap s2) b /\
        ((adj_eq acc = true /\ s2 = s1 /\ b ∈ acc) \/
         (adj_eq acc = false /\ live (s_heap s2) b = Some (Int i acc) /\ (caps s2 = caps s1 -> lead s2 b)))) s1).
    { destruct (adj_eq acc) eqn:Hadj.
      - unfold make_internal_node. rewrite Hadj. pose proof (wc_dom _ Hc i Hi). destruct acc as [|r acc]; [simpl in *; lia|].
        apply wp_ret. split_and!; [apply lstep_refl|by apply sstep_refl|apply (br_held _ _ _ _ _ _ _ _ _ B); set_solver|].
        left. split_and!; [done|done|set_solver].
      - eapply wp_run.
        { apply (make_internal_spec c opsem strict g i acc s1); try done; [by eapply ord_perm|lia|].
          intros d Hd'. apply (br_held _ _ _ _ _ _ _ _ _ B d Hd'). }
        intros b s2 E Ms. destruct (make_internal_lead g i acc s1 b s2 W1 Hq ltac:(by eapply ord_perm) Hadj E Ms) as [L2 Hlead].
        split_and!; [done|apply Ms|apply root_held, Ms|]. right. split_and!; [done|apply Ms|done]. }
    eapply wp_mono; [exact HM|]. intros b s2 (L2&S2&Hb&Hcase). apply wp_ret. cbn [fst snd].
    split; [eapply lstep_trans; [apply S1|done|done]|].
    pose proof (red_ok_step g s0 s1 s2 _ acc m1 ltac:(apply S2) L2 (fun x Hx => proj1 (br_held _ _ _ _ _ _ _ _ _ B x Hx)) Hm1 R1) as [C3 R3].
    split; [done|]. intros Ec. destruct (R3 Ec) as [Q1 Q2].
    assert (Rb : reduced s2 b).
    { destruct Hcase as [(_&_&Hin)|(Hadj&Lb&Hlead)]; [by apply Q1|].
      eapply reduced_node; [exact Lb|done| |done]. apply Hlead.
      destruct R1 as [C1 _]. destruct L2 as [C2 _]. by destruct (cle_squeeze _ _ _ C1 C2 Ec). }
    split; [intros d Hd'%elem_of_list_singleton; by subst|].
    intros x y Hxy. destruct (decide (x = a)) as [->|Hne].
    + unfold memo in *. rewrite lookup_insert in Hxy. by simplify_eq.
    + unfold memo in *. rewrite lookup_insert_ne in Hxy by done. by apply (Q2 x).
Qed.

End reduce.
