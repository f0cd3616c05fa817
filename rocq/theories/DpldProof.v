(** * dpld and to_dpld_e *)

From stdpp Require Import gmap list.
From Coq Require Import ZArith Lia.
From Verif Require Import Base Ops Tables NodeManager Tools Sift DiagramManager Reliability.
From Verif Require Import Heap Inv InvLemmas Prim TabLemmas GC Make Build Apply Api Constr Expr.

Local Open Scope nat_scope.

Definition b2z (b : bool) : Z := if b then 1%Z else 0%Z.

(** no node labelled [x] is reachable from [a] *)
Definition avoids (L : positive -> option body) (x : nat) (a : positive) : Prop :=
  forall b j sons, reach L a b -> L b = Some (Int j sons) -> j <> x.

(** the node itself is not labelled [x] *)
Definition nolab (L : positive -> option body) (x : nat) (a : positive) : Prop :=
  forall sons, L a <> Some (Int x sons).

Lemma avoids_nolab L x a : avoids L x a -> nolab L x a.
Proof. intros H sons E. by apply (H a x sons (reach_refl _ _)). Qed.

Lemma avoids_reach L x a b : avoids L x a -> reach L a b -> avoids L x b.
Proof. intros H R d j sons Rd. apply H. by eapply reach_trans. Qed.

Lemma avoids_agree L L' x a : (forall b, reach L a b -> L' b = L b) -> avoids L x a -> avoids L' x a.
Proof.
  intros Hag H b j sons R. assert (R' : reach L a b).
  { clear H. induction R as [a|a b d i ss Ha Hb _ IH]; [constructor|].
    assert (E : L a = Some (Int i ss)) by (rewrite <- Hag; [done|constructor]).
    eapply reach_step; [exact E|exact Hb|]. apply IH. intros e He. apply Hag. by eapply reach_step. }
  rewrite Hag by done. by apply H.
Qed.

Lemma avoids_keeps g h h' x a : keeps g h h' -> held g h a -> avoids (live h) x a -> avoids (live h') x a.
Proof. intros K Ha. apply avoids_agree. intros b Hb. apply K. by eapply held_reach. Qed.

Lemma avoids_term L x a v : L a = Some (Term v) -> avoids L x a.
Proof.
  intros E b j sons R Eb. apply reach_inv in R as [->|(i&ss&d&Ed&_)]; congruence.
Qed.

Lemma avoids_repr h x i sons r :
  repr h i sons r -> sons <> [] -> i <> x -> (forall d, d ∈ sons -> avoids (live h) x d) ->
  avoids (live h) x r.
Proof.
  intros [[_ Hr]|[_ Hr]] Hn Hi Hs.
  - intros b j ss R Eb. apply reach_inv in R as [<-|(k&ss'&d&Ed&Hd&R)]; [congruence|].
    rewrite Hr in Ed. simplify_eq. by apply (Hs d Hd b j ss).
  - destruct sons as [|d sons]; [done|]. rewrite <- (Hr d) by set_solver. apply Hs. set_solver.
Qed.

(** evaluation does not look at an avoided variable *)
Lemma avoids_Ev L x a rho k v : avoids L x a -> Ev L a rho v <-> Ev L a (upd rho x k) v.
Proof.
  intros H. split; apply Ev_vars; intros b i sons Hb Lb; specialize (H b i sons Hb Lb); by rewrite upd_other.
Qed.

Section dpld.
Context (c : cfg) (opsem : Z -> option (Z -> Z -> Z)) (strict : bool).
Notation rank := (rank c).
Notation WF := (WF c opsem strict).
Notation sstep := (sstep c opsem strict).
Notation bstep := (bstep c opsem strict).
Notation bres := (bres c opsem strict).
Notation allowed := (allowed strict).
Notation calm := (calm c opsem strict).
Notation anew := (anew c opsem strict).
Notation lstep := (lstep c opsem strict).

(** [bres_make] that also bounds what the result reaches *)
Lemma bres_make_avoids g s0 s i acc F x :
  quiet g -> wf_cfg c -> ord c g s -> i < nvars c -> length acc = dom c i ->
  bres g s0 s (g_lv g i) acc F -> i <> x -> (forall d, d ∈ acc -> avoids (live (s_heap s)) x d) ->
  wp allowed (make_internal_node c i acc)
    (fun r s' => (bstep g s0 s' (g_lv g i) r (fun rho v => F (rho i) rho v) /\ sstep g s s') /\
       avoids (live (s_heap s')) x r) s.
Proof.
  intros Hq Hc O Hi Hl B Hx Hav. pose proof (wc_dom _ Hc i Hi) as Hd.
  assert (HR : wp allowed (make_internal_node c i acc) (fun r s' => avoids (live (s_heap s')) x r) s).
  { destruct Hq as [Hdy Hfl]. eapply wp_mono.
    { pose proof B as [A1 B1 C1 D1].
      apply (make_internal_node_spec c opsem strict g i acc s); try done; [apply A1|by eapply ord_perm]. }
    intros r s' [S R Hh Hr Mk]. eapply avoids_repr; [exact R| |done|].
    - intros ->. simpl in Hl. lia.
    - intros d Hin. eapply avoids_keeps; [apply S|by apply (br_held _ _ _ _ _ _ _ _ _ B)|by apply Hav]. }
  pose proof (bres_make c opsem strict g s0 s i acc F Hq Hc O Hi Hl B) as HB.
  unfold wp in *. destruct (make_internal_node c i acc s); naive_solver.
Qed.

(** ** dpld *)

(** value of the derivative at the pair of nodes *)
Definition derived (L : positive -> option body) (vc : var_change) (f : Z -> Z -> bool) (l r : positive)
  : asg -> Z -> Prop :=
  fun rho v => exists x y, Ev L l (upd rho (vc_index vc) (vc_from vc)) x /\
    Ev L r (upd rho (vc_index vc) (vc_to vc)) y /\ v = b2z (f x y).

Definition dc_ok (g : ghost) (s0 s : st) (vc : var_change) (f : Z -> Z -> bool) (m : dcache) : Prop :=
  forall l r res, m !! (l, r) = Some res ->
    held g (s_heap s) res /\
    Nat.min (rank g (s_heap s0) l) (rank g (s_heap s0) r) <= rank g (s_heap s) res /\
    avoids (live (s_heap s)) (vc_index vc) res /\
    forall rho v, valid c rho -> derived (live (s_heap s0)) vc f l r rho v -> Ev (live (s_heap s)) res rho v.

Lemma dc_ok_step g s0 s s' vc f m : sstep g s s' -> dc_ok g s0 s vc f m -> dc_ok g s0 s' vc f m.
Proof.
  intros S H l r res Hm. destruct (H l r res Hm) as (H1&H2&H3&H4). pose proof (ss_keeps _ _ _ _ _ _ S) as K.
  split_and!; [by apply K|by rewrite (keeps_rank c g _ _ _ K H1)|by eapply avoids_keeps|].
  intros. eapply keeps_Ev; eauto.
Qed.

Lemma dc_ok_insert g s0 s s1 vc f m l r res :
  dc_ok g s0 s1 vc f m ->
  bstep g s s1 (Nat.min (rank g (s_heap s0) l) (rank g (s_heap s0) r)) res (derived (live (s_heap s0)) vc f l r) ->
  avoids (live (s_heap s1)) (vc_index vc) res ->
  dc_ok g s0 s1 vc f (<[(l, r) := res]> m).
Proof.
  unfold dc_ok, dcache in *. intros H [A B D E _] Hav l' r' res'.
  destruct (decide ((l', r') = (l, r))) as [Heq|Hne].
  - rewrite Heq, lookup_insert. intros; simplify_eq. auto.
  - rewrite lookup_insert_ne by done. apply H.
Qed.

(** the two choices of a descent that steps over the variable of the change *)
Lemma descend_skip_spec g s0 s a i k x xv (Q : positive -> st -> Prop) :
  WF g s0 -> quiet g -> ord c g s0 -> i < nvars c -> k < dom c i -> i <> x -> xv < dom c x ->
  held g (s_heap s0) a -> g_lv g i <= rank g (s_heap s0) a -> nolab (live (s_heap s0)) x a ->
  sstep g s0 s ->
  (forall a', held g (s_heap s0) a' -> g_lv g i < rank g (s_heap s0) a' -> nolab (live (s_heap s0)) x a' ->
     (forall rho v, rho i = k -> Ev (live (s_heap s0)) a (upd rho x xv) v ->
        Ev (live (s_heap s0)) a' (upd rho x xv) v) ->
     Q a' s) ->
  wp allowed (if rank g (s_heap s0) a =? g_lv g i then son_skip x xv a k else ret a) Q s.
Proof.
  intros W Hq O Hi Hk Hx Hxv Hh Hr Hnl S HQ. pose proof (ss_keeps _ _ _ _ _ _ S) as K.
  destruct (held_live _ _ _ _ _ _ W Hh) as [Hl Hdy].
  destruct (Nat.eqb_spec (rank g (s_heap s0) a) (g_lv g i)) as [E|E].
  2:{ apply wp_ret. apply HQ; try done. lia. }
  destruct (live (s_heap s0) a) as [[v|j sons]|] eqn:L; [| |done].
  { rewrite (rank_term c g _ _ _ Hq L) in E. pose proof (wf_lv _ _ _ _ _ W i Hi). lia. }
  destruct (wf_node _ _ _ _ _ W a _ L) as (Hj&Hlen&_&_).
  rewrite (rank_int c g _ _ _ _ Hq L) in E.
  assert (j = i) as -> by (eapply ord_inj; eauto).
  destruct (lookup_lt_is_Some_2 sons k) as [d Hd]; [lia|].
  assert (d ∈ sons) as Hin by (by eapply elem_of_list_lookup_2).
  destruct (held_son_all c opsem strict g s0 a i sons d W Hq Hh L Hin) as [Hdh Hrd].
  rewrite (rank_int c g _ _ _ _ Hq L) in Hrd.
  unfold son_skip. apply wp_bind. eapply wp_get_son; [rewrite (proj2 (K a Hh)); exact L|exact Hd|].
  assert (Hson : forall rho v, rho i = k -> Ev (live (s_heap s0)) a (upd rho x xv) v ->
    Ev (live (s_heap s0)) d (upd rho x xv) v).
  { intros rho v Hrho Hv. inversion Hv; simplify_eq. rewrite upd_other in * by done. congruence. }
  destruct (held_live _ _ _ _ _ _ W Hdh) as [Hld _].
  apply wp_bind. destruct (live (s_heap s0) d) as [[v|j ss]|] eqn:Ld; [| |done].
  { eapply wp_getn_live; [rewrite (proj2 (K d Hdh)); exact Ld|]. intros n _ _ ->. apply wp_ret.
    apply HQ; try done. intros ss. by rewrite Ld. }
  eapply wp_getn_live; [rewrite (proj2 (K d Hdh)); exact Ld|]. intros n _ _ ->.
  destruct (Nat.eqb_spec j x) as [->|Hjx].
  2:{ apply wp_ret. apply HQ; try done. intros ss'. rewrite Ld. congruence. }
  destruct (wf_node _ _ _ _ _ W d _ Ld) as (Hx'&Hlen'&_&_).
  destruct (lookup_lt_is_Some_2 ss xv) as [e He]; [lia|].
  assert (e ∈ ss) as Hine by (by eapply elem_of_list_lookup_2).
  destruct (held_son_all c opsem strict g s0 d x ss e W Hq Hdh Ld Hine) as [Heh Hre].
  eapply wp_get_son; [rewrite (proj2 (K d Hdh)); exact Ld|exact He|].
  apply HQ; try done.
  - lia.
  - intros ss' Le. rewrite (rank_int c g _ _ _ _ Hq Ld), (rank_int c g _ _ _ _ Hq Le) in Hre. lia.
  - intros rho v Hrho Hv. apply (Hson rho v Hrho) in Hv. inversion Hv; simplify_eq.
    rewrite upd_same in *. simplify_eq. done.
Qed.

Lemma dpld_impl_spec vc f g s0 fuel :
  wf_cfg c -> WF g s0 -> quiet g -> ord c g s0 -> tval c 0 -> tval c 1 ->
  vc_from vc < dom c (vc_index vc) -> vc_to vc < dom c (vc_index vc) ->
  forall l r m s, sstep g s0 s -> held g (s_heap s0) l -> held g (s_heap s0) r ->
  nolab (live (s_heap s0)) (vc_index vc) l -> nolab (live (s_heap s0)) (vc_index vc) r ->
  dc_ok g s0 s vc f m ->
  nvars c - Nat.min (rank g (s_heap s0) l) (rank g (s_heap s0) r) < fuel ->
  wp allowed (dpld_impl c fuel vc f m (l, r)) (fun ma s2 =>
    (bstep g s s2 (Nat.min (rank g (s_heap s0) l) (rank g (s_heap s0) r)) (snd ma)
      (derived (live (s_heap s0)) vc f l r) /\ avoids (live (s_heap s2)) (vc_index vc) (snd ma)) /\
    dc_ok g s0 s2 vc f (fst ma)) s.
Proof.
  intros Hc W0 Hq O T0 T1 Hfrom Hto. induction fuel as [|fuel IH]; intros l r m s S Hl Hr Nl Nr Hm Hf; [lia|].
  cbn [dpld_impl].
  pose proof (ss_wf _ _ _ _ _ _ S) as W. pose proof (ss_keeps _ _ _ _ _ _ S) as K.
  destruct (m !! (l, r)) as [a|] eqn:Em.
  { apply wp_ret. simpl. destruct (Hm _ _ _ Em) as (?&?&?&?). split; [|done]. split; [|done]. by apply bstep_same. }
  destruct (held_live _ _ _ _ _ _ W0 Hl) as [Ll Ld]. destruct (held_live _ _ _ _ _ _ W0 Hr) as [Lr Lrd].
  destruct (K l Hl) as [Hl1 El1]. destruct (K r Hr) as [Hr1 Er1].
  destruct (held_live _ _ _ _ _ _ W Hl1) as [Ll1 _]. destruct (held_live _ _ _ _ _ _ W Hr1) as [Lr1 _].
  pose proof Ll1 as Ll1'. pose proof Lr1 as Lr1'.
  apply live_not_None in Ll1 as (ln&Hln&Uln). apply live_not_None in Lr1 as (rn&Hrn&Urn).
  apply wp_bind. eapply wp_getn; [done..|]. apply wp_bind. eapply wp_getn; [done..|].
  pose proof (live_of _ _ _ Hln Uln) as El2. pose proof (live_of _ _ _ Hrn Urn) as Er2.
  rewrite El1 in El2. rewrite Er1 in Er2.
  pose proof (rank_le _ _ _ g s0 l W0 Ll) as Rl. pose proof (rank_le _ _ _ g s0 r W0 Lr) as Rr.
  set (top := Nat.min (rank g (s_heap s0) l) (rank g (s_heap s0) r)) in *.
  match goal with |- wp _ (let* ma := ?e in _) _ _ => set (body := e) end.
  assert (HB : wp allowed body (fun ma s2 =>
     (bstep g s s2 top (snd ma) (derived (live (s_heap s0)) vc f l r) /\
       avoids (live (s_heap s2)) (vc_index vc) (snd ma)) /\ dc_ok g s0 s2 vc f (fst ma)) s).
  2:{ apply wp_bind. eapply wp_mono; [exact HB|]. intros [m1 a] s1 [[B Hav] Hm1]. simpl in *.
      apply wp_ret. simpl. split; [done|]. by eapply dc_ok_insert. }
  unfold body. clear body.
  assert (Hterm : forall x y, n_body ln = Term x -> n_body rn = Term y ->
    wp allowed (let* a := make_terminal_node c (if f x y then 1 else 0) in ret (m, a)) (fun ma s2 =>
     (bstep g s s2 top (snd ma) (derived (live (s_heap s0)) vc f l r) /\
       avoids (live (s_heap s2)) (vc_index vc) (snd ma)) /\ dc_ok g s0 s2 vc f (fst ma)) s).
  { intros x y Bl Br. rewrite Bl in El2. rewrite Br in Er2. apply wp_bind.
    assert (Tv : tval c (if f x y then 1 else 0)) by (by destruct (f x y)).
    assert (O1 : ord c g s) by (by eapply ord_sstep).
    assert (HT : wp allowed (make_terminal_node c (if f x y then 1 else 0))
      (fun a s' => avoids (live (s_heap s')) (vc_index vc) a) s).
    { eapply wp_mono.
      { destruct Hq. apply (make_terminal_node_spec c opsem strict g _ s); try done. by eapply ord_perm. }
      intros a s' [S' L' _ _ _]. by eapply avoids_term. }
    pose proof (bstep_terminal c opsem strict g s (if f x y then 1 else 0) Hq O1 W Tv) as HT2.
    unfold wp in *. destruct (make_terminal_node _ _ s) as [a s1|e|]; [|naive_solver..].
    simpl. split; [split; [|exact HT]|eapply dc_ok_step; [apply HT2|done]].
    eapply bstep_weaken; [exact HT2|lia|]. intros rho v Hv (x'&y'&Hx'&Hy'&->).
    inversion Hx'; inversion Hy'; simplify_eq; try congruence; done. }
  assert (Hint : top < nvars c ->
    wp allowed (let* ll := get_level c l in
                let* rl := get_level c r in
                let top := Nat.min ll rl in
                let* i := index_at top in
                let* ms := mapMs (fun m k =>
                  let* l' := (if (ll =? top)%nat then son_skip (vc_index vc) (vc_from vc) l k else ret l) in
                  let* r' := (if (rl =? top)%nat then son_skip (vc_index vc) (vc_to vc) r k else ret r) in
                  dpld_impl c fuel vc f m (l', r')) m (seq 0 (dom c i)) in
                let* a := make_internal_node c i (snd ms) in
                ret (fst ms, a)) (fun ma s2 =>
     (bstep g s s2 top (snd ma) (derived (live (s_heap s0)) vc f l r) /\
       avoids (live (s_heap s2)) (vc_index vc) (snd ma)) /\ dc_ok g s0 s2 vc f (fst ma)) s).
  { intros Htop. clear Hterm.
    apply wp_bind. apply (get_level_spec c opsem strict allowed g); try done; [by eapply ord_sstep|].
    apply wp_bind. apply (get_level_spec c opsem strict allowed g); try done; [by eapply ord_sstep|].
    rewrite (keeps_rank c g _ _ _ K Hl), (keeps_rank c g _ _ _ K Hr). cbv zeta. fold top.
    destruct (perm_l2i_ex c s0 top (ord_perm _ _ _ O) Htop) as (i&Hi&Hin).
    apply wp_bind. eapply wp_index_at.
    { destruct (ss_same _ _ _ _ _ _ S) as (->&_). done. }
    assert (Elv : g_lv g i = top).
    { pose proof (proj2 O i Hin) as E. apply (pm_inv _ _ (ord_perm _ _ _ O)) in Hi. congruence. }
    assert (Hix : i <> vc_index vc).
    { intros Ex.
      assert (HH : forall a, held g (s_heap s0) a -> rank g (s_heap s0) a = top ->
        nolab (live (s_heap s0)) (vc_index vc) a -> False).
      { intros a Ha Ra Na. destruct (held_live _ _ _ _ _ _ W0 Ha) as [La _].
        destruct (live (s_heap s0) a) as [[v|j ss]|] eqn:E; [| |done].
        - rewrite (rank_term c g _ _ _ Hq E) in Ra. lia.
        - rewrite (rank_int c g _ _ _ _ Hq E) in Ra.
          destruct (wf_node _ _ _ _ _ W0 a _ E) as (Hj&_).
          assert (j = i) as -> by (eapply ord_inj; eauto; lia). subst i. by apply (Na ss). }
      destruct (Nat.min_spec (rank g (s_heap s0) l) (rank g (s_heap s0) r)) as [[_ E]|[_ E]];
        [by apply (HH l)|by apply (HH r)]. }
    set (F := fun k rho v => rho i = k /\ derived (live (s_heap s0)) vc f l r rho v).
    apply wp_bind. eapply wp_mono.
    { apply (wp_mapMs allowed _ (fun m acc s1 => (bres g s s1 (g_lv g i) acc F /\
        forall d, d ∈ acc -> avoids (live (s_heap s1)) (vc_index vc) d) /\ dc_ok g s0 s1 vc f m)).
      2:{ split; [split; [by apply bres_nil|set_solver]|done]. }
      intros k k' m1 acc s1 Hk Hacc [[B Hav] Hm1].
      apply lookup_seq in Hk as [-> Hk]. simpl.
      assert (S1 : sstep g s0 s1) by (eapply sstep_trans; [exact S|apply B]).
      apply wp_bind. rewrite <- Elv at 1.
      apply (descend_skip_spec g s0 s1 l i k); try done; [lia|].
      intros l' Hl' Hrl' Nl' Dl. apply wp_bind. rewrite <- Elv at 1.
      apply (descend_skip_spec g s0 s1 r i k); try done; [lia|].
      intros r' Hr' Hrr' Nr' Dr.
      eapply wp_mono.
      { apply (IH l' r' m1 s1); try done. lia. }
      intros [m2 a] s2 [[B2 Hav2] Hm2]. simpl in *. split; [|done]. split.
      - eapply bres_snoc; [exact B|].
        eapply bstep_weaken; [exact B2|lia|].
        intros rho v Hv [Hrho (x&y&Hx&Hy&->)]. rewrite Hacc in Hrho.
        exists x, y. split_and!; auto.
      - intros d [Hd|Hd%elem_of_list_singleton]%elem_of_app; [|by subst].
        eapply avoids_keeps; [apply (bs_step _ _ _ _ _ _ _ _ _ B2)|by apply (br_held _ _ _ _ _ _ _ _ _ B)|by apply Hav]. }
    intros [m1 acc] s1 [[[B Hav] Hm1] Hlen]. simpl in *. rewrite seq_length in Hlen.
    pose proof (br_step _ _ _ _ _ _ _ _ _ B) as S1.
    apply wp_bind. eapply wp_mono.
    { eapply (bres_make_avoids g s s1 i acc F); try done.
      eapply ord_sstep; [|exact O]. by eapply sstep_trans. }
    intros a s2 [[B2 S2] Hav2]. apply wp_ret. simpl. split; [|by eapply dc_ok_step]. split; [|done].
    eapply bstep_weaken; [exact B2|lia|]. intros rho v Hv Hlft. by split. }
  destruct (n_body ln) as [x|i sons] eqn:Bl.
  - destruct (n_body rn) as [y|j sons'] eqn:Br; [by apply Hterm|].
    apply Hint. destruct (wf_node _ _ _ _ _ W0 r _ Er2) as (_&_&?&_). lia.
  - apply Hint. destruct (wf_node _ _ _ _ _ W0 l _ El2) as (_&_&?&_). lia.
Qed.

Lemma dc_ok_empty g s0 s vc f : dc_ok g s0 s vc f ∅.
Proof. intros l r res. unfold dcache. rewrite lookup_empty. done. Qed.

(** the nodes the recursion starts with *)
Lemma dpld_roots_spec vc f g a s (Q : positive * positive -> st -> Prop) :
  calm g s -> 0 < g_ext g a ->
  vc_from vc < dom c (vc_index vc) -> vc_to vc < dom c (vc_index vc) ->
  (forall l r, held g (s_heap s) l -> held g (s_heap s) r ->
     nolab (live (s_heap s)) (vc_index vc) l -> nolab (live (s_heap s)) (vc_index vc) r ->
     (forall rho v, derived (live (s_heap s)) vc f a a rho v -> derived (live (s_heap s)) vc f l r rho v) ->
     Q (l, r) s) ->
  wp allowed (dpld_roots vc a) Q s.
Proof.
  intros C Ha Hfrom Hto HQ. unfold dpld_roots. pose proof (cl_wf _ _ _ _ _ C) as W.
  pose proof (cl_quiet _ _ _ _ _ C) as Hq.
  pose proof (ext_held c opsem strict g s a W Ha) as Hh.
  destruct (held_live _ _ _ _ _ _ W Hh) as [Hl Hd]. apply wp_bind.
  destruct (live (s_heap s) a) as [[v|i sons]|] eqn:La; [| |done].
  { eapply wp_getn_live; [done|]. intros n _ _ ->. apply wp_ret. apply HQ; try done; intros ss; by rewrite La. }
  eapply wp_getn_live; [done|]. intros n _ _ ->.
  destruct (Nat.eqb_spec i (vc_index vc)) as [->|Hne].
  2:{ apply wp_ret. apply HQ; try done; intros ss; rewrite La; congruence. }
  destruct (wf_node _ _ _ _ _ W a _ La) as (Hi&Hlen&_&_).
  destruct (lookup_lt_is_Some_2 sons (vc_from vc)) as [l Hl']; [lia|].
  destruct (lookup_lt_is_Some_2 sons (vc_to vc)) as [r Hr']; [lia|].
  assert (Hn : forall d, d ∈ sons -> held g (s_heap s) d /\ nolab (live (s_heap s)) (vc_index vc) d).
  { intros d Hin. destruct (held_son_all c opsem strict g s a _ sons d W Hq Hh La Hin) as [Hdh Hrd]. split; [done|].
    intros ss Ed. rewrite (rank_int c g _ _ _ _ Hq La), (rank_int c g _ _ _ _ Hq Ed) in Hrd. lia. }
  apply wp_bind. eapply wp_get_son; [done|done|]. apply wp_bind. eapply wp_get_son; [done|done|]. apply wp_ret.
  destruct (Hn l ltac:(by eapply elem_of_list_lookup_2)). destruct (Hn r ltac:(by eapply elem_of_list_lookup_2)).
  apply HQ; try done. intros rho v (x&y&Hx&Hy&->). exists x, y.
  inversion Hx; inversion Hy; simplify_eq. rewrite !upd_same in *. simplify_eq. done.
Qed.

Lemma dpld_spec_avoids vc f g a s :
  wf_cfg c -> calm g s -> idle s -> 0 < g_ext g a -> tval c 0 -> tval c 1 ->
  vc_from vc < dom c (vc_index vc) -> vc_to vc < dom c (vc_index vc) ->
  wp allowed (dpld c vc f a) (fun r s' => anew true g s (derived (live (s_heap s)) vc f a a) r s' /\
    avoids (live (s_heap s')) (vc_index vc) r) s.
Proof.
  intros Hc C Hm Ha T0 T1 Hfrom Hto. unfold dpld. apply wp_bind.
  apply (dpld_roots_spec vc f g); try done. intros l r Hl Hr Nl Nr HD. cbn [snd].
  apply wp_bind. eapply wp_mono.
  { apply (dpld_impl_spec vc f g s (S (nvars c))); try done; try apply C.
    - apply sstep_refl, C.
    - lia. }
  intros [m b] s1 [[B Hav] _]. simpl in *. apply run_deferred_calm; [by eapply calm_defer_bstep|].
  apply wp_bind.
  assert (B' : bstep g s s1 (Nat.min (rank g (s_heap s) l) (rank g (s_heap s) r)) b
    (derived (live (s_heap s)) vc f a a)) by (eapply bstep_weaken; [exact B|done|auto]).
  assert (HA : wp allowed (diagram_of b) (fun _ s' => avoids (live (s_heap s')) (vc_index vc) b) s1).
  { apply (diagram_of_spec c opsem strict allowed g); [by left|apply (bs_step _ _ _ _ _ _ _ _ _ B)|apply C| |].
    { eapply held_live; [apply (bs_step _ _ _ _ _ _ _ _ _ B)|apply (bs_held _ _ _ _ _ _ _ _ _ B)]. }
    intros h' H _ _. simpl. eapply avoids_agree; [|exact Hav]. intros; by apply hrel_live. }
  pose proof (new_handle_of c opsem strict g s s1 _ b _ (fun _ s' => anew true g s (derived (live (s_heap s)) vc f a a) b s')
    C B' (fun s2 H => H)) as HN.
  unfold wp in *. destruct (diagram_of b s1); naive_solver.
Qed.

Lemma derived_fun g s vc f a F :
  (forall rho, valid c rho -> Ev (live (s_heap s)) a rho (F rho)) ->
  vc_from vc < dom c (vc_index vc) -> vc_to vc < dom c (vc_index vc) -> WF g s ->
  forall rho, valid c rho -> derived (live (s_heap s)) vc f a a rho
    (b2z (f (F (upd rho (vc_index vc) (vc_from vc))) (F (upd rho (vc_index vc) (vc_to vc))))).
Proof.
  intros HF Hfrom Hto W rho Hv. eexists _, _. split_and!; [apply HF|apply HF|done]; by apply valid_upd.
Qed.

(** ** to_dpld_e *)

Definition extended (L : positive -> option body) (from x : nat) (a : positive) : asg -> Z -> Prop :=
  fun rho v => (rho x = from /\ Ev L a rho v) \/ (rho x <> from /\ v = Undef).

(** [s0]: where the node [a] comes from *)
Lemma extend_at_spec from x g s0 s a :
  wf_cfg c -> WF g s0 -> quiet g -> ord c g s0 -> sstep g s0 s -> tval c Undef -> x < nvars c ->
  held g (s_heap s0) a -> g_lv g x < rank g (s_heap s0) a ->
  wp allowed (extend_at c from x a)
    (fun r s' => bstep g s s' (g_lv g x) r (extended (live (s_heap s0)) from x a)) s.
Proof.
  intros Hc W0 Hq O S T Hx Ha Hr. unfold extend_at. pose proof (ss_wf _ _ _ _ _ _ S) as W.
  set (F := fun k rho v => (k = from /\ Ev (live (s_heap s0)) a rho v) \/ (k <> from /\ v = Undef)).
  apply wp_bind. eapply wp_mono.
  { apply (wp_mapM allowed _ (fun acc s1 => bres g s s1 (g_lv g x) acc F)).
    2:{ by apply bres_nil. }
    intros k k' acc s1 Hk Hacc B. apply lookup_seq in Hk as [-> Hk]. simpl.
    pose proof (br_step _ _ _ _ _ _ _ _ _ B) as S1.
    assert (S2 : sstep g s0 s1) by (by eapply sstep_trans).
    pose proof (ss_keeps _ _ _ _ _ _ S2) as K.
    destruct (Nat.eqb_spec k from) as [->|Hne].
    - apply wp_ret. eapply bres_snoc; [exact B|]. apply bstep_same; [apply S2|by apply K| |].
      + rewrite (keeps_rank c g _ _ _ K Ha). lia.
      + intros rho v Hv [[_ HE]|[? _]]; [|lia]. by eapply keeps_Ev.
    - eapply wp_mono.
      { apply (bstep_terminal c opsem strict g s1 Undef); [done|by eapply ord_sstep|apply S2|done]. }
      intros b s2 B2. eapply bres_snoc; [exact B|]. eapply bstep_weaken; [exact B2| |].
      + pose proof (wf_lv _ _ _ _ _ W0 x Hx). lia.
      + intros rho v Hv [[? _]|[_ HE]]; [lia|done]. }
  intros acc s1 [B Hlen]. rewrite seq_length in Hlen.
  eapply wp_mono.
  { eapply (bres_make c opsem strict g s s1 x acc F); try done.
    eapply ord_sstep; [|exact O]. eapply sstep_trans; [exact S|apply B]. }
  intros r s2 [B2 _]. eapply bstep_weaken; [exact B2|done|]. intros rho v Hv HE. exact HE.
Qed.

Lemma to_dpld_e_impl_spec from x g s0 fuel :
  wf_cfg c -> WF g s0 -> quiet g -> ord c g s0 -> tval c Undef -> x < nvars c ->
  forall a m s, sstep g s0 s -> held g (s_heap s0) a -> rank g (s_heap s0) a < g_lv g x ->
  avoids (live (s_heap s0)) x a ->
  memo_ok c g s0 s (extended (live (s_heap s0)) from x) m ->
  nvars c - rank g (s_heap s0) a < fuel ->
  wp allowed (to_dpld_e_impl c fuel from x m a) (fun mb s2 =>
    bstep g s s2 (rank g (s_heap s0) a) (snd mb) (extended (live (s_heap s0)) from x a) /\
    memo_ok c g s0 s2 (extended (live (s_heap s0)) from x) (fst mb)) s.
Proof.
  intros Hc W0 Hq O T Hx. induction fuel as [|fuel IH]; intros a m s S Ha Hr Hav Hm Hfuel; [lia|].
  cbn [to_dpld_e_impl]. pose proof (ss_wf _ _ _ _ _ _ S) as W.
  pose proof (ss_keeps _ _ _ _ _ _ S) as K. pose proof (wf_lv _ _ _ _ _ W0 x Hx) as Hlx.
  destruct (held_live _ _ _ _ _ _ W0 Ha) as [Hl Hd]. destruct (K a Ha) as [Ha1 La1].
  apply wp_bind. destruct (live (s_heap s0) a) as [[v|i sons]|] eqn:La; [| |done].
  { rewrite (rank_term c g _ _ _ Hq La) in Hr. lia. }
  eapply wp_getn_live; [done|]. intros n _ _ ->.
  destruct (m !! a) as [b|] eqn:Em.
  { apply wp_ret. simpl. split; [|done]. destruct (Hm a b Em) as (?&?&?). by apply bstep_same. }
  destruct (wf_node _ _ _ _ _ W0 a _ La) as (Hi&Hlen&Hlt&_).
  assert (O1 : ord c g s) by (by eapply ord_sstep).
  apply wp_bind. eapply wp_level_of_index; [by apply O1|].
  apply wp_bind. apply (get_level_spec c opsem strict allowed g); try done; [by rewrite La1|].
  rewrite (keeps_rank c g _ _ _ K Ha). rewrite (rank_int c g _ _ _ _ Hq La) in *.
  apply wp_bind. eapply wp_index_at; [by apply (pm_inv _ _ (ord_perm _ _ _ O1)), O1|].
  match goal with |- wp _ (let* ms := mapMs ?f m sons in _) _ _ => set (ff := f) end.
  eapply (wp_ext allowed _ (let* mb := (let* ms := mapMs ff m sons in
              let* b := make_internal_node c i (snd ms) in ret (fst ms, b)) in
              ret (<[a := snd mb]> (fst mb), snd mb))).
  { unfold bind. destruct (mapMs _ m sons s); try done. destruct (make_internal_node _ _ _ _); done. }
  apply wp_bind. eapply wp_mono.
  { apply (rebuild_gen c opsem strict g s0 s (extended (live (s_heap s0)) from x)
      (extended (live (s_heap s0)) from x) a i sons m ff Hc W0 Hq O S Ha La Hm).
    intros m1 d s1 Hin S1 Hm1 Hd1 Hr1. rewrite (rank_int c g _ _ _ _ Hq La) in *.
    pose proof (ss_keeps _ _ _ _ _ _ S1) as K1. destruct (held_live _ _ _ _ _ _ W0 Hd1) as [Ld _].
    unfold ff. apply wp_bind. apply (get_level_spec c opsem strict allowed g); try done;
      [apply S1|by eapply ord_sstep|by rewrite (proj2 (K1 d Hd1))|].
    rewrite (keeps_rank c g _ _ _ K1 Hd1).
    assert (Hav' : avoids (live (s_heap s0)) x d) by (eapply avoids_reach; [done|by eapply reach_son]).
    destruct (Nat.ltb_spec (g_lv g i) (g_lv g x)) as [_|]; [|lia].
    destruct (Nat.ltb_spec (g_lv g x) (rank g (s_heap s0) d)) as [Hlt2|Hge]; cbn [andb].
    - apply wp_bind. eapply wp_mono; [by apply (extend_at_spec from x g s0 s1 d)|].
      intros b s2 B. apply wp_ret. simpl. split; [|eapply memo_ok_step; [apply B|done]].
      eapply bstep_weaken; [exact B|lia|done].
    - assert (Hne : rank g (s_heap s0) d <> g_lv g x).
      { intros E. destruct (live (s_heap s0) d) as [[v|j ss]|] eqn:Ed; [| |done].
        - rewrite (rank_term c g _ _ _ Hq Ed) in E. lia.
        - rewrite (rank_int c g _ _ _ _ Hq Ed) in E. destruct (wf_node _ _ _ _ _ W0 d _ Ed) as (Hj&_).
          apply (Hav' d j ss (reach_refl _ _) Ed). by eapply ord_inj. }
      eapply wp_mono; [apply IH; try done; lia|].
      intros [m2 b] s2 [B Hm2]. simpl in *. split; [|done]. eapply bstep_weaken; [exact B|lia|done]. }
  intros [m1 b] s1 [B Hm1]. simpl in *. apply wp_ret. simpl.
  rewrite (rank_int c g _ _ _ _ Hq La) in B.
  assert (B' : bstep g s s1 (g_lv g i) b (extended (live (s_heap s0)) from x a)).
  { eapply bstep_weaken; [exact B|done|]. intros rho w Hv HF.
    pose proof (Hv i Hi) as Hri. destruct (lookup_lt_is_Some_2 sons (rho i)) as [d Hd']; [lia|].
    exists d. split; [done|]. destruct HF as [[? HE]|[? ->]]; [left|by right]. split; [done|].
    inversion HE; simplify_eq. done. }
  split; [done|]. eapply memo_ok_insert_b; [done|]. by rewrite (rank_int c g _ _ _ _ Hq La).
Qed.

Lemma to_dpld_e_spec from x g a s :
  wf_cfg c -> calm g s -> idle s -> 0 < g_ext g a -> tval c Undef -> x < nvars c ->
  avoids (live (s_heap s)) x a ->
  wp allowed (to_dpld_e c from x a) (anew true g s (extended (live (s_heap s)) from x a)) s.
Proof.
  intros Hc C Hm Ha T Hx Hav. unfold to_dpld_e. pose proof (cl_wf _ _ _ _ _ C) as W.
  pose proof (cl_quiet _ _ _ _ _ C) as Hq. pose proof (cl_ord _ _ _ _ _ C) as O.
  pose proof (ext_held c opsem strict g s a W Ha) as Hh.
  destruct (held_live _ _ _ _ _ _ W Hh) as [Hl Hd].
  pose proof (sstep_refl c opsem strict g s W) as S0.
  apply wp_bind. apply (get_level_spec c opsem strict allowed g); try done.
  apply wp_bind. eapply wp_level_of_index; [by apply O|].
  destruct (Nat.ltb_spec (g_lv g x) (rank g (s_heap s) a)) as [Hlt|Hge].
  - apply wp_bind. eapply wp_mono; [by apply (extend_at_spec from x g s s a)|].
    intros b s1 B. eapply new_handle_spec; [done|exact B].
  - assert (Hne : rank g (s_heap s) a <> g_lv g x).
    { intros E. destruct (live (s_heap s) a) as [[v|j ss]|] eqn:Ed; [| |done].
      - rewrite (rank_term c g _ _ _ Hq Ed) in E. pose proof (wf_lv _ _ _ _ _ W x Hx). lia.
      - rewrite (rank_int c g _ _ _ _ Hq Ed) in E. destruct (wf_node _ _ _ _ _ W a _ Ed) as (Hj&_).
        apply (Hav a j ss (reach_refl _ _) Ed). by eapply ord_inj. }
    apply wp_bind. eapply wp_mono.
    { apply (to_dpld_e_impl_spec from x g s (Datatypes.S (nvars c))); try done; try lia. }
    intros [m b] s1 [B _]. simpl in *. apply run_deferred_calm; [by eapply calm_defer_bstep|].
    by eapply new_handle_spec.
Qed.

(** ** The two together *)

Lemma WF_ext_eq g s e : WF g s -> (forall a, e a = g_ext g a) -> WF (g_set_ext e g) s.
Proof. intros [] He. constructor; try done; simpl; intros; rewrite He in *; eauto. Qed.

Lemma calm_ext_eq g s e : calm g s -> (forall a, e a = g_ext g a) -> calm (g_set_ext e g) s.
Proof. intros [] He. constructor; try done. by apply WF_ext_eq. Qed.

Definition derived_e (L : positive -> option body) (vc : var_change) (f : Z -> Z -> bool) (from : nat) (a : positive)
  : asg -> Z -> Prop :=
  fun rho v => (rho (vc_index vc) = from /\ derived L vc f a a rho v) \/ (rho (vc_index vc) <> from /\ v = Undef).

Lemma dpld_e_spec vc f from g a s :
  wf_cfg c -> calm g s -> idle s -> 0 < g_ext g a -> tval c 0 -> tval c 1 -> tval c Undef ->
  vc_index vc < nvars c -> vc_from vc < dom c (vc_index vc) -> vc_to vc < dom c (vc_index vc) ->
  wp allowed (dpld_e c vc f from a) (anew true g s (derived_e (live (s_heap s)) vc f from a)) s.
Proof.
  intros Hc C Hm Ha T0 T1 T Hx Hfrom Hto. unfold dpld_e. apply wp_bind.
  eapply wp_mono; [by apply (dpld_spec_avoids vc f g a s)|]. intros d s1 [[A1 E1] Hav].
  pose proof (as_calm _ _ _ _ _ _ _ _ A1) as C1.
  apply wp_bind. eapply wp_mono.
  { apply (to_dpld_e_spec from (vc_index vc) (g_inc d g) d s1); try done; [by eapply mode_idle; [apply A1|]|apply ext_inc_same]. }
  intros e s2 [A2 E2]. pose proof (as_calm _ _ _ _ _ _ _ _ A2) as C2.
  apply wp_bind. eapply wp_mono.
  { apply (destroy_spec c opsem strict allowed (g_inc e (g_inc d g)) d s2 C2).
    simpl. eapply Nat.lt_le_trans; [|apply ext_inc_le]. apply ext_inc_same. }
  intros [] s3 A3. apply wp_ret.
  assert (Hext : forall b, g_ext (g_inc e g) b = g_ext (g_dec d (g_inc e (g_inc d g))) b).
  { intros b. simpl. unfold ext_dec, ext_inc. repeat destruct (decide _); subst; try done; lia. }
  assert (Hpos : forall b, 0 < g_ext g b -> 0 < g_ext (g_dec d (g_inc e (g_inc d g))) b).
  { intros b Hb. rewrite <- Hext. simpl. pose proof (ext_inc_le (g_ext g) e b). lia. }
  constructor; [constructor|].
  - exact (calm_ext_eq _ s3 _ (as_calm _ _ _ _ _ _ _ _ A3) Hext).
  - intros b Hb _ rho v Hv HE.
    assert (Hb1 : 0 < g_ext (g_inc d g) b) by (simpl; pose proof (ext_inc_le (g_ext g) d b); lia).
    assert (Hb2 : 0 < g_ext (g_inc e (g_inc d g)) b) by (simpl; pose proof (ext_inc_le (ext_inc (g_ext g) d) e b); simpl in *; lia).
    apply (as_ev _ _ _ _ _ _ _ _ A3); [done|by apply Hpos|done|].
    apply (as_ev _ _ _ _ _ _ _ _ A2); [done|done|done|].
    by apply (as_ev _ _ _ _ _ _ _ _ A1).
  - intros _ Hcl. apply A3; [done|]. apply A2; [done|]. by apply A1.
  - eapply mode_trans; [|apply A3]. eapply mode_trans; [apply A1|apply A2].
  - intros rho v Hv HF. apply (as_ev _ _ _ _ _ _ _ _ A3); [apply ext_inc_same| |done|].
    { rewrite <- Hext. apply ext_inc_same. }
    apply E2; [done|]. destruct HF as [[Hr HD]|[Hr ->]]; [left; split; [done|]; by apply E1|by right].
Qed.

End dpld.
