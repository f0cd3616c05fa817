(** * Construction of diagrams: results of recursive constructions, loops over
    the sons *)

From stdpp Require Import gmap list.
From Coq Require Import ZArith Lia.
From Verif Require Import Base Ops Tables NodeManager Heap Inv InvLemmas Prim TabLemmas GC Make.

Local Open Scope nat_scope.

Lemma wp_mapM {A B} ok (f : A -> M B) (I : list B -> st -> Prop) l :
  (forall k x acc s, l !! k = Some x -> length acc = k -> I acc s ->
     wp ok (f x) (fun y s' => I (acc ++ [y]) s') s) ->
  forall s, I [] s -> wp ok (mapM f l) (fun ys s' => I ys s' /\ length ys = length l) s.
Proof.
  intros Hf. cut (forall pre suf acc s, l = pre ++ suf -> length acc = length pre -> I acc s ->
    wp ok (mapM f suf) (fun ys s' => I (acc ++ ys) s' /\ length ys = length suf) s).
  { intros H s Hs. by apply (H [] l []). }
  intros pre suf. revert pre. induction suf as [|x suf IH]; intros pre acc s E Hl HI; simpl.
  - apply wp_ret. by rewrite app_nil_r.
  - apply wp_bind. eapply wp_mono.
    { apply (Hf (length pre) x acc); [|done|done]. rewrite E. by apply list_lookup_middle. }
    intros y s1 H1. apply wp_bind. eapply wp_mono.
    { apply (IH (pre ++ [x]) (acc ++ [y])); [by rewrite <- app_assoc|rewrite !app_length; simpl; lia|done]. }
    intros ys s2 [H2 L2]. apply wp_ret. rewrite <- app_assoc in H2. split; [done|simpl; lia].
Qed.

Lemma wp_mapMs {A B S} ok (f : S -> A -> M (S * B)) (I : S -> list B -> st -> Prop) l :
  (forall k x m acc s, l !! k = Some x -> length acc = k -> I m acc s ->
     wp ok (f m x) (fun my s' => I (fst my) (acc ++ [snd my]) s') s) ->
  forall m s, I m [] s ->
  wp ok (mapMs f m l) (fun mys s' => I (fst mys) (snd mys) s' /\ length (snd mys) = length l) s.
Proof.
  intros Hf. cut (forall pre suf m acc s, l = pre ++ suf -> length acc = length pre -> I m acc s ->
    wp ok (mapMs f m suf) (fun mys s' => I (fst mys) (acc ++ snd mys) s' /\ length (snd mys) = length suf) s).
  { intros H m s Hs. by apply (H [] l m []). }
  intros pre suf. revert pre. induction suf as [|x suf IH]; intros pre m acc s E Hl HI; simpl.
  - apply wp_ret. by rewrite app_nil_r.
  - apply wp_bind. eapply wp_mono.
    { apply (Hf (length pre) x m acc); [|done|done]. rewrite E. by apply list_lookup_middle. }
    intros [m1 y] s1 H1. apply wp_bind. eapply wp_mono.
    { apply (IH (pre ++ [x]) m1 (acc ++ [y])); [by rewrite <- app_assoc|rewrite !app_length; simpl; lia|done]. }
    intros [m2 ys] s2 [H2 L2]. apply wp_ret. simpl in *. rewrite <- app_assoc in H2. split; [done|lia].
Qed.

Definition quiet (g : ghost) : Prop := g_dy g = [] /\ g_fl g = [].

Section build.
Context (c : cfg) (opsem : Z -> option (Z -> Z -> Z)) (strict : bool).
Notation rank := (rank c).
Notation WF := (WF c opsem strict).
Notation sstep := (sstep c opsem strict).
Notation allowed := (allowed strict).

(** the result [r] of a construction that realises the relation [F] and has
    rank at least [k] *)
Record bstep (g : ghost) (s s' : st) (k : nat) (r : positive) (F : asg -> Z -> Prop) : Prop := {
  bs_step : sstep g s s';
  bs_held : held g (s_heap s') r;
  bs_rank : k <= rank g (s_heap s') r;
  bs_ev : forall rho v, valid c rho -> F rho v -> Ev (live (s_heap s')) r rho v;
  bs_marks : forall d, marked (s_heap s') d -> marked (s_heap s) d \/ d = r;
  bs_new : forall d x, live (s_heap s') d = Some x ->
    live (s_heap s) d = Some x \/ reach (live (s_heap s')) r d
}.

Lemma bstep_weaken g s s' k k' r (F F' : asg -> Z -> Prop) :
  bstep g s s' k r F -> k' <= k -> (forall rho v, valid c rho -> F' rho v -> F rho v) ->
  bstep g s s' k' r F'.
Proof. intros [] Hk HF. constructor; auto. lia. Qed.

(** later steps that add no marks *)
Lemma bstep_after g s s1 s2 k r F :
  bstep g s s1 k r F -> sstep g s1 s2 ->
  (forall d, marked (s_heap s2) d -> marked (s_heap s1) d \/ d = r) ->
  (forall d x, live (s_heap s2) d = Some x -> live (s_heap s1) d = Some x) -> bstep g s s2 k r F.
Proof.
  intros [A B C D E N] S HM HN. pose proof (ss_keeps _ _ _ _ _ _ S) as K. constructor.
  - by eapply sstep_trans.
  - by apply K.
  - by rewrite (keeps_rank c g _ _ _ K B).
  - intros. eapply keeps_Ev; eauto.
  - intros d Hd. destruct (HM d Hd); auto.
  - intros d x Hx. destruct (N d x (HN d x Hx)); [by left|]. right. by eapply keeps_reach.
Qed.

(** results collected in a loop over the sons *)
Record bres (g : ghost) (s0 s : st) (top : nat) (acc : list positive) (F : nat -> asg -> Z -> Prop) : Prop := {
  br_step : sstep g s0 s;
  br_held : forall d, d ∈ acc -> held g (s_heap s) d /\ top < rank g (s_heap s) d;
  br_ev : forall k d rho v, acc !! k = Some d -> valid c rho -> F k rho v -> Ev (live (s_heap s)) d rho v;
  br_marks : forall d, marked (s_heap s) d -> marked (s_heap s0) d \/ d ∈ acc;
  br_new : forall d x, live (s_heap s) d = Some x ->
    live (s_heap s0) d = Some x \/ exists e, e ∈ acc /\ reach (live (s_heap s)) e d
}.

Lemma bres_nil g s top F : WF g s -> bres g s s top [] F.
Proof. intros. constructor; try (by apply sstep_refl); try set_solver; try (intros; naive_solver). Qed.

Lemma bres_snoc g s0 s s' top acc F r :
  bres g s0 s top acc F -> bstep g s s' (S top) r (F (length acc)) -> bres g s0 s' top (acc ++ [r]) F.
Proof.
  intros [A B C D N] [A' B' C' D' E' N']. pose proof (ss_keeps _ _ _ _ _ _ A') as K. constructor.
  - by eapply sstep_trans.
  - intros d [Hd|Hd%elem_of_list_singleton]%elem_of_app.
    + destruct (B d Hd) as [Hh Hr]. split; [by apply K|]. by rewrite (keeps_rank c g _ _ _ K Hh).
    + subst. split; [done|lia].
  - intros k d rho v Hk Hv HF. apply lookup_app_Some in Hk as [Hk|[Hk1 Hk2]].
    + eapply keeps_Ev; eauto. apply B. by eapply elem_of_list_lookup_2.
    + apply list_lookup_singleton_Some in Hk2 as [Hk2 <-]. apply D'; [done|].
      by replace (length acc) with k by lia.
  - intros d Hd. destruct (E' d Hd) as [Hm| ->]; [|right; set_solver].
    destruct (D d Hm); [auto|right; set_solver].
  - intros d x Hx. destruct (N' d x Hx) as [Hx'|Hr]; [|right; exists r; set_solver].
    destruct (N d x Hx') as [|(e&He&Hr)]; [by left|]. right. exists e. split; [set_solver|].
    eapply keeps_reach; [done|by apply B|done].
Qed.

Lemma ord_perm g s : ord c g s -> perm_ok c s.
Proof. by intros []. Qed.

Lemma ord_sstep g s s' : sstep g s s' -> ord c g s -> ord c g s'.
Proof.
  intros S [P O]. destruct (ss_same _ _ _ _ _ _ S) as (E1&E2&_). split.
  - by eapply perm_same.
  - intros. rewrite E2. auto.
Qed.

Lemma ord_inj g s i j : ord c g s -> i < nvars c -> j < nvars c -> g_lv g i = g_lv g j -> i = j.
Proof.
  intros [P O] Hi Hj E. pose proof (O i Hi) as Ei. pose proof (O j Hj) as Ej. rewrite E in Ei.
  apply (pm_inv _ _ P) in Ei. apply (pm_inv _ _ P) in Ej. congruence.
Qed.

Lemma bres_make g s0 s i acc F :
  quiet g -> wf_cfg c -> ord c g s -> i < nvars c -> length acc = dom c i ->
  bres g s0 s (g_lv g i) acc F ->
  wp allowed (make_internal_node c i acc)
    (fun r s' => bstep g s0 s' (g_lv g i) r (fun rho v => F (rho i) rho v) /\ sstep g s s') s.
Proof.
  intros [Hdy Hfl] Hc O Hi Hl [A B C D N]. pose proof (wc_dom _ Hc i Hi) as Hd.
  eapply wp_mono.
  { apply (make_internal_node_spec c opsem strict g i acc s); try done; [apply A|by eapply ord_perm]. }
  intros r s' [S R Hh Hr Mk Nw]. pose proof (ss_keeps _ _ _ _ _ _ S) as K.
  split; [|done]. constructor; try done.
  - by eapply sstep_trans.
  - intros rho v Hv HF. destruct (lookup_lt_is_Some_2 acc (rho i)) as [d Hd']; [rewrite Hl; auto|].
    eapply repr_Ev; [done|done|]. eapply keeps_Ev; [done|apply B; by eapply elem_of_list_lookup_2|].
    by eapply C.
  - intros d Hm. destruct (Mk d Hm) as [[Hm' Hn]| ->]; [|by right].
    destruct (D d Hm'); [by left|done].
  - intros d x Hx. destruct (Nw d x Hx) as [Hx'| ->]; [|right; constructor].
    destruct (N d x Hx') as [|(e&He&Hre)]; [by left|]. right.
    assert (reach (live (s_heap s')) e d) by (eapply keeps_reach; [done|by apply B|done]).
    destruct R as [[_ Lr]|[_ Hall]]; [|by rewrite <- (Hall e He)].
    eapply reach_trans; [by eapply reach_son|done].
Qed.

(** a terminal *)
Lemma bstep_terminal g s v :
  quiet g -> ord c g s -> WF g s -> tval c v ->
  wp allowed (make_terminal_node c v) (fun r s' => bstep g s s' (nvars c) r (fun _ w => w = v)) s.
Proof.
  intros [Hdy Hfl] O W Hv. eapply wp_mono.
  { apply (make_terminal_node_spec c opsem strict g v s); try done. by eapply ord_perm. }
  intros r s' [S L Hn R Mk Nw]. constructor; try done.
  - by apply root_held.
  - unfold Inv.rank. rewrite decide_False by done. by rewrite L.
  - intros rho w _ ->. by apply Ev_term.
  - intros d Hd. apply Mk in Hd as [[? _]|?]; auto.
  - intros d x Hx. destruct (Nw d x Hx) as [| ->]; [by left|right; constructor].
Qed.

(** a node that exists already *)
Lemma bstep_same g s r k (F : asg -> Z -> Prop) :
  WF g s -> held g (s_heap s) r -> k <= rank g (s_heap s) r ->
  (forall rho v, valid c rho -> F rho v -> Ev (live (s_heap s)) r rho v) -> bstep g s s k r F.
Proof. intros. constructor; auto. by apply sstep_refl. Qed.

(** evaluation below a level does not look at the variables above *)
Lemma Ev_deeper g s a rho i k v :
  WF g s -> quiet g -> live (s_heap s) a <> None -> i < nvars c -> g_lv g i < rank g (s_heap s) a ->
  Ev (live (s_heap s)) a rho v <-> Ev (live (s_heap s)) a (upd rho i k) v.
Proof.
  intros W [Hdy Hfl] Ha Hi Hr.
  assert (H : forall b j sons, reach (live (s_heap s)) a b -> live (s_heap s) b = Some (Int j sons) -> j <> i).
  { intros b j sons Hb Hl ->.
    destruct (wf_reach _ _ _ g s a b W Ha) as (_&_&Hlt); [rewrite Hdy; set_solver|done|].
    assert (rank g (s_heap s) b = g_lv g i) as E.
    { unfold Inv.rank. rewrite Hfl, decide_False by set_solver. by rewrite Hl. }
    destruct Hlt as [->|]; lia. }
  split; apply Ev_vars; intros b j sons Hb Hl; specialize (H b j sons Hb Hl); by rewrite upd_other.
Qed.

Lemma valid_upd rho i k : valid c rho -> k < dom c i -> valid c (upd rho i k).
Proof.
  intros H Hk j Hj. unfold upd. destruct (decide (j = i)) as [->|]; auto.
Qed.

Lemma valid_ex : wf_cfg c -> valid c (fun _ => 0).
Proof. intros Hc i Hi. apply (wc_dom _ Hc i Hi). Qed.

Lemma rank_int g h a i sons : quiet g -> live h a = Some (Int i sons) -> rank g h a = g_lv g i.
Proof. intros [_ Hfl] E. unfold Inv.rank. rewrite Hfl, decide_False by set_solver. by rewrite E. Qed.
Lemma rank_term g h a v : quiet g -> live h a = Some (Term v) -> rank g h a = nvars c.
Proof. intros [_ Hfl] E. unfold Inv.rank. rewrite Hfl, decide_False by set_solver. by rewrite E. Qed.

Lemma get_level_spec ok g s a (Q : nat -> st -> Prop) :
  WF g s -> quiet g -> ord c g s -> live (s_heap s) a <> None ->
  Q (rank g (s_heap s) a) s -> wp ok (get_level c a) Q s.
Proof.
  intros W Hq O Ha HQ. unfold get_level. apply wp_bind.
  destruct (live (s_heap s) a) as [[v|i sons]|] eqn:E; [| |done].
  - eapply wp_getn_live; [done|]. intros n _ _ ->. apply wp_ret. by rewrite <- (rank_term g _ _ _ Hq E).
  - eapply wp_getn_live; [done|]. intros n _ _ ->. destruct (wf_node _ _ _ _ _ W a _ E) as (Hi&_).
    eapply wp_level_of_index; [by apply O|]. by rewrite <- (rank_int g _ _ _ _ Hq E).
Qed.

(** the two choices of a descent at level [top], index [i]: a son or the node itself *)
Lemma descend_spec ok g s0 s a i k (Q : positive -> st -> Prop) :
  WF g s0 -> quiet g -> ord c g s0 -> i < nvars c -> k < dom c i ->
  held g (s_heap s0) a -> g_lv g i <= rank g (s_heap s0) a ->
  sstep g s0 s ->
  (forall a', held g (s_heap s0) a' -> g_lv g i < rank g (s_heap s0) a' ->
     (forall rho v, Ev (live (s_heap s0)) a' rho v -> Ev (live (s_heap s0)) a (upd rho i k) v) ->
     (forall rho v, rho i = k -> Ev (live (s_heap s0)) a rho v -> Ev (live (s_heap s0)) a' rho v) ->
     reach (live (s_heap s0)) a a' ->
     Q a' s) ->
  wp ok (if rank g (s_heap s0) a =? g_lv g i then get_son a k else ret a) Q s.
Proof.
  intros W Hq O Hi Hk Hh Hr S HQ. pose proof (ss_keeps _ _ _ _ _ _ S) as K.
  destruct (held_live _ _ _ _ _ _ W Hh) as [Hl Hdy].
  destruct (Nat.eqb_spec (rank g (s_heap s0) a) (g_lv g i)) as [E|E].
  - destruct (live (s_heap s0) a) as [[v|j sons]|] eqn:L; [| |done].
    { rewrite (rank_term g _ _ _ Hq L) in E. pose proof (wf_lv _ _ _ _ _ W i Hi). lia. }
    destruct (wf_node _ _ _ _ _ W a _ L) as (Hj&Hlen&_&_).
    rewrite (rank_int g _ _ _ _ Hq L) in E.
    assert (j = i) as -> by (eapply ord_inj; eauto).
    destruct (lookup_lt_is_Some_2 sons k) as [d Hd]; [lia|].
    assert (d ∈ sons) as Hin by (by eapply elem_of_list_lookup_2).
    destruct (wf_son _ _ _ _ _ _ _ _ d W L Hdy Hin) as (Hld&Hrd&_).
    rewrite (rank_int g _ _ _ _ Hq L) in Hrd.
    eapply wp_get_son; [rewrite (proj2 (K a Hh)); exact L|exact Hd|]. apply HQ; try done.
    + by eapply held_son.
    + intros rho v Hv. eapply Ev_int; [done|by rewrite upd_same|]. apply (Ev_deeper g s0); auto.
    + intros rho v Hrho Hv. inversion Hv; simplify_eq. congruence.
    + by eapply reach_son.
  - apply wp_ret. apply HQ; try done; [lia| |constructor].
    intros rho v Hv. apply (Ev_deeper g s0); auto. lia.
Qed.

End build.
