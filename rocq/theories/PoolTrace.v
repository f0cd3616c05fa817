(** * The manager as a program that uses the node pool

    Whatever the manager does is a sequence of calls of the pool that its
    specification allows.  The cells of Pool.v are places in chunks; [f] says where
    the numbered cells of the manager are. *)

From stdpp Require Import gmap list.
From Coq Require Import ZArith Lia.
From Verif Require Import Base Ops Tables NodeManager Sift World WorldSpec Keeps Links Pool PoolSpec PoolProof PropsPool.

Local Open Scope nat_scope.

(** the object in the cell of a node *)
Definition holds (A : apool) (cl : nat * nat) (b : body) : Prop :=
  match b with Term _ => ap_live A !! cl = Some OLeaf | Int _ _ => exists arr, ap_live A !! cl = Some (OInner arr) end.

Record pm (s : st) (p : lpool) (A : apool) (f : gmap positive (nat * nat)) : Prop := {
  pm_free : Forall2 (fun a cl => f !! a = Some cl) (p_free (s_pool s)) (q_free p);
  pm_avail : p_avail (s_pool s) = q_avail p;
  pm_left : exists n off rest, q_chunks p = (length rest, n) :: rest /\ q_next p = (length rest, off) /\ off <= n /\
    p_left (s_pool s) = N.of_nat (n - off);
  pm_size : Z.to_nat (p_extra (s_pool s)) = q_extra p /\ (0 <= p_extra (s_pool s))%Z;
  pm_inj : forall a a' cl, f !! a = Some cl -> f !! a' = Some cl -> a = a';
  pm_cell : forall cl, is_Some (q_cells p !! cl) <-> exists a, f !! a = Some cl;
  pm_used : forall a b, look (s_heap s) a = Some (b, true) -> exists cl, f !! a = Some cl /\ holds A cl b;
  pm_unused : forall a cl, f !! a = Some cl -> (forall b, look (s_heap s) a <> Some (b, true)) -> ap_live A !! cl = None;
  pm_next : forall a, is_Some (f !! a) -> (a < p_next (s_pool s))%positive
}.

Section pool.
Context (main extra : nat) (ks0 : list pop).

Definition pstands (s : st) : Prop := exists ks p A f, pool_program main extra ks p A /\ ks0 `prefix_of` ks /\ ap_hand A = ∅ /\ pm s p A f.

Lemma pstands_akin s s' : akin s s' -> pstands s -> pstands s'.
Proof.
  intros [E1 E2] (ks&p&A&f&P&Hp&Hh&[]). exists ks, p, A, f. split; [done|]. split; [done|]. split; [done|]. constructor; rewrite ?E1; try done.
  - intros a b. rewrite E2. auto.
  - intros a cl Ha Hb. apply (pm_unused0 a cl Ha). intros b. by rewrite <- E2.
Qed.

Lemma program_call ks p A k : pool_program main extra ks p A -> p_allows A k ->
  exists p' r A', q_exec k p = LVal (p', r) /\ p_effect extra A k r A' /\ pool_program main extra (ks ++ [k]) p' A' /\ pinv main extra p A /\ pinv main extra p' A'.
Proof.
  intros P H. destruct (C64_calls _ _ _ _ _ _ P H) as (p'&r&A'&E&F&P'). exists p', r, A'.
  split_and!; try done; by eapply pool_program_pinv.
Qed.

Lemma pstands_alike s s' : alike s s' -> pstands s -> pstands s'.
Proof. intros [H _]. by apply pstands_akin. Qed.

(** *** delete_node *)
Lemma pool_delete c a : kept pstands (delete_node c a).
Proof.
  intros s x s' E (ks&p&A&f&P&Hp&Hh&T). unfold delete_node, bind in E. destruct (getn a s) as [n s1| |] eqn:G; [|discriminate..].
  destruct (getn_look _ _ _ _ G) as (->&Hn&U). destruct (_ && _); [discriminate|]. injection E as <- <-.
  assert (Hl : look (s_heap s) a = Some (n_body n, true)) by (unfold look; rewrite Hn; simpl; by rewrite U).
  destruct (pm_used _ _ _ _ T _ _ Hl) as (cl&Hcl&Ho).
  assert (Hlive : is_Some (ap_live A !! cl)) by (unfold holds in Ho; destruct (n_body n); [rewrite Ho; eauto|destruct Ho as [? ->]; eauto]).
  destruct (program_call _ _ _ (PRelease cl) P Hlive) as (p'&r&A'&E&F&P'&_&_). simpl in E, F. injection E as <- <-. subst A'.
  eexists _, _, _, f. split; [exact P'|]. split; [by apply prefix_app_r|]. split; [exact Hh|]. destruct T. constructor; simpl; try done.
  - by constructor.
  - by rewrite pm_avail0.
  - intros d b Hd. rewrite look_insert in Hd. destruct (decide (d = a)) as [->|Hne]; [done|].
    destruct (pm_used0 d b Hd) as (cd&Hcd&Hb). exists cd. split; [done|].
    assert (cd <> cl) by (intros ->; apply Hne; by eapply pm_inj0). unfold holds in *. simpl. by rewrite !lookup_delete_ne by done.
  - intros d cd Hd Hb. destruct (decide (d = a)) as [->|Hne].
    + rewrite Hcl in Hd. injection Hd as <-. by rewrite lookup_delete.
    + assert (cd <> cl) by (intros ->; apply Hne; by eapply pm_inj0). rewrite lookup_delete_ne by done. apply (pm_unused0 d cd Hd).
      intros b. specialize (Hb b). rewrite look_insert, decide_False in Hb by done. done.
Qed.

(** *** grow *)
Lemma pool_left c k : kept (fun s => p_left (s_pool s) = k) (force_gc c).
Proof.
  apply kp_force_gc.
  - intros s s' [[-> _] _]. done.
  - intros a s x s' E. unfold delete_node, bind in E. destruct (getn a s) as [n s1| |] eqn:G; [|discriminate..].
    destruct (getn_look _ _ _ _ G) as (->&_). destruct (_ && _); [discriminate|]. injection E as <- <-. done.
Qed.

Lemma pool_grow_ok s : p_left (s_pool s) = 0%N -> pstands s -> pstands (set_pool (pool_grow (s_pool s)) s).
Proof.
  intros HL (ks&p&A&f&P&Hp&Hh&T). pose proof (pool_program_pinv _ _ _ _ _ P) as I.
  assert (Hg : p_allows A PGrow).
  { simpl. destruct (inv_size _ _ _ _ I) as (n&off&rest&E1&E2&Ho&_&Av&Tt&_&Se). destruct (pm_left _ _ _ _ T) as (n'&off'&rest'&F1&F2&_&F4).
    rewrite E1 in F1. injection F1 as _ <- <-. rewrite E2 in F2. injection F2 as <-. lia. }
  destruct (program_call _ _ _ PGrow P Hg) as (p'&r&A'&E&F&P'&_&_). simpl in E, F. injection E as <- <-. subst A'.
  eexists _, _, _, f. split; [exact P'|]. split; [by apply prefix_app_r|]. split; [exact Hh|]. destruct T as [? ? ? [? ?] ? ? ? ? ?]. constructor; simpl; try done.
  - rewrite pm_avail0. f_equal. lia.
  - exists (q_extra p), 0, (q_chunks p). split_and!; [done..|lia|]. rewrite Nat.sub_0_r. lia.
  - intros a Ha. apply pm_next0 in Ha. rewrite HL. done.
Qed.

Lemma pool_ensure c : kept pstands (ensure_available c).
Proof.
  assert (L0 : forall s, pstands s -> p_avail (s_pool s) = 0%Z -> p_left (s_pool s) = 0%N).
  { intros s (ks&p&A&f&P&Hp&Hh&T) H0. pose proof (pool_program_pinv _ _ _ _ _ P) as I. rewrite (pm_avail _ _ _ _ T) in H0.
    destruct (inv_size _ _ _ _ I) as (n&off&rest&E1&E2&Ho&_&Av&_). destruct (pm_left _ _ _ _ T) as (n'&off'&rest'&F1&F2&_&F4).
    rewrite E1 in F1. injection F1 as _ <- <-. rewrite E2 in F2. injection F2 as <-. lia. }
  intros s x s' E H. unfold ensure_available, bind at 1, gets at 1 in E. unfold bind at 1, gets at 1 in E.
  destruct (s_auto s).
  - destruct (p_avail (s_pool s) =? 0)%Z eqn:E0; [|by injection E as <- <-]. apply Z.eqb_eq in E0. pose proof (L0 s H E0) as HL.
    unfold bind, grow, modify in E. injection E as <- <-. eapply pstands_akin; [|by apply pool_grow_ok]. done.
  - destruct (p_avail (s_pool s) =? 0)%Z eqn:E0; [|by injection E as <- <-]. apply Z.eqb_eq in E0. pose proof (L0 s H E0) as HL.
    unfold bind at 1, gets at 1 in E. unfold bind at 1 in E. destruct (force_gc c s) as [y s1| |] eqn:Eg; [|discriminate..].
    pose proof (pool_left c 0%N _ _ _ Eg HL) as HL1.
    assert (H1 : pstands s1) by (by eapply (kp_force_gc c pstands pstands_alike (pool_delete c))).
    unfold bind, gets in E. destruct (_ <? _)%Z; [|by injection E as <- <-]. unfold grow, modify in E. injection E as <- <-.
    by apply pool_grow_ok.
Qed.

(** *** create_node *)
Definition makes (o : obj) (b : body) : Prop := match b, o with Term _, OLeaf => True | Int _ _, OInner _ => True | _, _ => False end.

Lemma pool_create_step s p A f ks o b x s' : pool_program main extra ks p A -> ks0 `prefix_of` ks -> pm s p A f -> p_allows A (PCreate o) -> makes o b ->
  taken o (ap_hand A) = ∅ -> create_node b s = Ok x s' -> pstands s'.
Proof.
  intros P Hp T Ho Hm Ht E. unfold create_node in E. destruct (program_call _ _ _ (PCreate o) P Ho) as (p'&r&A'&Eq&F&P'&I&I').
  unfold pool_create in E. destruct (p_avail (s_pool s) <=? 0)%Z eqn:Eav; [discriminate|]. cbn [q_exec] in Eq.
  rewrite (pm_avail _ _ _ _ T) in Eav. rewrite Eav in Eq. cbn [p_effect] in F. destruct F as (cl&Er&Hnone&EA).
  assert (G : forall (f' : gmap positive (nat * nat)) left next, Forall2 (fun a cl => f' !! a = Some cl) (tail (p_free (s_pool s))) (q_free p') ->
    (forall a, a <> x -> f' !! a = f !! a) -> f' !! x = Some cl ->
    (forall a, f !! a = Some cl -> a = x) -> (forall c', f !! x = Some c' -> c' = cl) ->
    (forall c', is_Some (q_cells p' !! c') <-> c' = cl \/ is_Some (q_cells p !! c')) ->
    q_avail p' = (q_avail p - 1)%Z -> q_extra p' = q_extra p ->
    (exists n off rest, q_chunks p' = (length rest, n) :: rest /\ q_next p' = (length rest, off) /\ off <= n /\ left = N.of_nat (n - off)) ->
    (x < next)%positive -> (p_next (s_pool s) <= next)%positive ->
    s' = set_pool (Pool (tail (p_free (s_pool s))) next left (p_main (s_pool s)) (p_extra (s_pool s)) (p_avail (s_pool s) - 1))
      (set_heap (<[x := Node b false true 0]> (s_heap s)) (set_count (s_count s + 1) s)) -> pstands s').
  { clear E. intros f' left next G1 G2 G3 G4 G4' G5 G6 G7 G8 G9 G10 ->. eexists _, p', A', f'. split; [exact P'|]. split; [by apply prefix_app_r|]. subst A'. split; [exact Ht|].
    destruct T. constructor; simpl; try done.
    - by rewrite G6, pm_avail0.
    - by rewrite G7.
    - intros a a' c' H1 H2. destruct (decide (a = x)) as [->|Na]; destruct (decide (a' = x)) as [->|Na']; [done| | |].
      + rewrite G3 in H1. injection H1 as <-. rewrite G2 in H2 by done. symmetry. by apply G4.
      + rewrite G3 in H2. injection H2 as <-. rewrite G2 in H1 by done. by apply G4.
      + rewrite G2 in H1, H2 by done. by eapply pm_inj0.
    - intros c'. rewrite G5. split.
      + intros [->|H]; [by exists x|]. apply pm_cell0 in H as [a Ha]. destruct (decide (a = x)) as [->|Na].
        * exists x. by rewrite (G4' c' Ha).
        * exists a. by rewrite G2.
      + intros [a Ha]. destruct (decide (a = x)) as [->|Na]; [left; congruence|right]. apply pm_cell0. exists a. by rewrite <- G2.
    - intros a b'. rewrite look_insert. destruct (decide (a = x)) as [->|Na].
      + simpl. intros [= <-]. exists cl. split; [done|]. unfold makes in Hm. unfold holds. simpl. destruct b, o; try done; rewrite lookup_insert; eauto.
      + intros Ha. destruct (pm_used0 _ _ Ha) as (ca&Hca&Hb). exists ca. rewrite G2 by done. split; [done|].
        assert (ca <> cl) by (intros ->; apply Na, G4, Hca). unfold holds in *. simpl. by rewrite !lookup_insert_ne by done.
    - intros a ca Ha Hb. destruct (decide (a = x)) as [->|Na].
      + exfalso. apply (Hb b). by rewrite look_insert, decide_True.
      + rewrite G2 in Ha by done. assert (ca <> cl) by (intros ->; apply Na, G4, Ha). rewrite lookup_insert_ne by done.
        apply (pm_unused0 a ca Ha). intros b'. specialize (Hb b'). by rewrite look_insert, decide_False in Hb.
    - intros a Ha. destruct (decide (a = x)) as [->|Na]; [done|]. rewrite G2 in Ha by done. apply pm_next0 in Ha. lia. }
  destruct (pm_left _ _ _ _ T) as (n&off&rest&L1&L2&L3&L4). pose proof (pm_free _ _ _ _ T) as Hf.
  destruct (p_free (s_pool s)) as [|a fr] eqn:Efr.
  - apply Forall2_nil_inv_l in Hf. rewrite Hf in Eq. rewrite L2 in Eq. cbn [fst snd] in Eq. destruct (decide _) as [Hlt|]; [|discriminate]. injection Eq as <- <-.
    injection Er as <-. destruct (p_left (s_pool s)) as [|q] eqn:El; [discriminate|]. injection E as <- <-.
    assert (Hnf : f !! p_next (s_pool s) = None).
    { destruct (f !! p_next (s_pool s)) eqn:Ef; [|done]. exfalso. apply (Pos.lt_irrefl (p_next (s_pool s))). apply (pm_next _ _ _ _ T). eauto. }
    assert (Hnc : q_cells p !! (length rest, off) = None).
    { destruct (q_cells p !! (length rest, off)) eqn:Ec; [|done]. exfalso.
      destruct (pi_chunks _ _ _ _ I) as (n2&off2&rest2&C1&C2&_&C4&C5&_). rewrite L1 in C1. injection C1 as _ <- <-. rewrite L2 in C2. injection C2 as <-.
      assert (Hin : (length rest, off) ∈ cells_of (length rest) off ++ rest_cells rest) by (apply C5; eauto).
      apply elem_of_app in Hin as [Hin|Hin]; [apply cells_of_elem in Hin; simpl in Hin; lia|].
      destruct C4 as (_&_&C4). pose proof (rest_id _ _ _ C4 _ Hin). simpl in *. lia. }
    apply (G (<[p_next (s_pool s) := (length rest, off)]> f) (N.pred (N.pos q)) (Pos.succ (p_next (s_pool s)))); simpl.
    + done.
    + intros a Ha. by rewrite lookup_insert_ne.
    + by rewrite lookup_insert.
    + intros a Ha. exfalso. assert (Hs : is_Some (q_cells p !! (length rest, off))) by (apply (pm_cell _ _ _ _ T); eauto). rewrite Hnc in Hs. by destruct Hs.
    + intros c' Hc. by rewrite Hnf in Hc.
    + intros c'. rewrite lookup_insert_is_Some. destruct (decide (c' = (length rest, off))); naive_solver.
    + done.
    + done.
    + exists n, (S off), rest. split_and!; [done..| |lia]. assert (n - off <> 0) by lia. lia.
    + lia.
    + lia.
    + done.
  - apply Forall2_cons_inv_l in Hf as (cf&frq&Hcf&Hfr&Efq). rewrite Efq in Eq. injection E as <- <-.
    destruct (destruct_cell cf _) as [m| |] eqn:Ed; [|discriminate..]. simpl in Eq. injection Eq as <- <-. injection Er as <-.
    assert (Em : fst m = delete cf (q_cells p) /\ is_Some (q_cells p !! cf)).
    { unfold destruct_cell in Ed. cbn [fst snd] in Ed. destruct (q_cells p !! cf) as [[|arr]|] eqn:Ec; [| |discriminate].
      - injection Ed as <-. split; [done|eauto].
      - destruct (free_array arr _); [|discriminate..]. injection Ed as <-. split; [done|eauto]. }
    destruct Em as [Em Hcell].
    apply (G f (p_left (s_pool s)) (p_next (s_pool s))); simpl; try done.
    + intros d Hd. by eapply (pm_inj _ _ _ _ T).
    + intros c' Hc. congruence.
    + intros c'. rewrite Em, lookup_insert_is_Some, lookup_delete_is_Some. destruct (decide (c' = cf)); naive_solver.
    + by exists n, off, rest.
    + apply (pm_next _ _ _ _ T). eauto.
Qed.

Lemma pool_room ks p A s f : pool_program main extra ks p A -> pm s p A f -> (p_avail (s_pool s) <=? 0)%Z = false -> size (ap_live A) < ap_total A.
Proof. intros P T H. apply Z.leb_gt in H. pose proof (C64_available _ _ _ _ _ P). rewrite (pm_avail _ _ _ _ T) in H. lia. Qed.

Lemma pool_term v : kept pstands (create_node (Term v)).
Proof.
  intros s x s' E (ks&p&A&f&P&Hp&Hh&T). pose proof E as E0. unfold create_node, pool_create in E0.
  destruct (p_avail (s_pool s) <=? 0)%Z eqn:Eav; [discriminate|]. 
  apply (pool_create_step s p A f ks OLeaf (Term v) x s'); try done. simpl. by eapply pool_room.
Qed.

(** the array of the sons, made just before the node *)
Lemma pool_array s ks p A f : pool_program main extra ks p A -> pm s p A f -> ap_hand A = ∅ ->
  exists p' A' arr, pool_program main extra (ks ++ [PArray]) p' A' /\ pm s p' A' f /\ ap_hand A' = {[arr]} /\
    ap_live A' = ap_live A /\ ap_total A' = ap_total A /\ q_avail p' = q_avail p.
Proof.
  intros P T Hh. destruct (program_call _ _ _ PArray P I) as (p'&r&A'&E&F&P'&_&_). destruct F as (arr&Er&_&_&EA). simpl in E. injection E as <- <-.
  injection Er as <-. subst A'. eexists _, _, (q_fresh p). split; [exact P'|]. split; [|simpl; rewrite Hh, (right_id_L ∅ (∪)); done].
  destruct T. constructor; try done.
Qed.

Lemma pool_int i sons : kept pstands (create_node (Int i sons)).
Proof.
  intros s x s' E (ks&p&A&f&P&Hp&Hh&T). pose proof E as E0. unfold create_node, pool_create in E0.
  destruct (p_avail (s_pool s) <=? 0)%Z eqn:Eav; [discriminate|].
  destruct (pool_array s ks p A f P T Hh) as (p1&A1&arr&P1&T1&H1&_).
  eapply (pool_create_step s p1 A1 f _ (OInner arr) (Int i sons) x s'); try done.
  - by apply prefix_app_r.
  - simpl. rewrite H1. split; [by eapply pool_room|set_solver].
  - simpl. rewrite H1. set_solver.
Qed.

(** *** set_sons in swap_node_with_next *)
Lemma not_term c a i sons : kept (fun s => forall v, look (s_heap s) a <> Some (Term v, true)) (make_internal_node c i sons).
Proof.
  assert (HI0 : forall s s', akin s s' -> (forall v, look (s_heap s) a <> Some (Term v, true)) -> forall v, look (s_heap s') a <> Some (Term v, true)).
  { intros s s' [_ E] H v. rewrite E. apply H. }
  assert (HI : forall s s', alike s s' -> (forall v, look (s_heap s) a <> Some (Term v, true)) -> forall v, look (s_heap s') a <> Some (Term v, true)).
  { intros s s' [E _]. by apply HI0. }
  assert (Hd : forall b, kept (fun s => forall v, look (s_heap s) a <> Some (Term v, true)) (delete_node c b)).
  { intros b s x s' E H. unfold delete_node, bind in E. destruct (getn b s) as [n s1| |] eqn:G; [|discriminate..].
    destruct (getn_look _ _ _ _ G) as (->&_). destruct (_ && _); [discriminate|]. injection E as <- <-. intros v. simpl. rewrite look_insert.
    destruct (decide (a = b)); [by simpl|apply H]. }
  apply kp_make_internal; [done|]. intros j l. apply kp_new; [by apply kp_adjust| |].
  - intros s x s' E H. unfold ensure_available, bind at 1, gets at 1 in E. unfold bind at 1, gets at 1 in E.
    destruct (s_auto s).
    + destruct (p_avail (s_pool s) =? 0)%Z eqn:E0; [|by injection E as <- <-]. unfold bind, grow, modify in E. by injection E as <- <-.
    + destruct (p_avail (s_pool s) =? 0)%Z eqn:E0; [|by injection E as <- <-].
      unfold bind at 1, gets at 1 in E. unfold bind at 1 in E. destruct (force_gc c s) as [y s1| |] eqn:Eg; [|discriminate..].
      pose proof (kp_force_gc c _ HI Hd _ _ _ Eg H) as H1.
      unfold bind, gets in E. destruct (_ <? _)%Z; [|by injection E as <- <-]. unfold grow, modify in E. by injection E as <- <-.
  - intros s x s' E H. unfold create_node in E. destruct (pool_create (s_pool s)) as [[b q]|]; [|discriminate]. injection E as <- <-.
    intros v. simpl. rewrite look_insert. destruct (decide _); [done|apply H].
Qed.

Lemma kept_mapM {A B} (J : st -> Prop) (g : A -> M B) l : (forall a, kept J (g a)) -> kept J (mapM g l).
Proof. intros H. by apply kp_mapM. Qed.

Lemma pool_swap c a : kept pstands (swap_node_with_next c a).
Proof.
  assert (Hmi : forall i l, kept pstands (make_internal_node c i l)).
  { intros i l. apply kp_make_internal; [apply pstands_alike|intros; apply kp_new; [apply kp_adjust, pstands_akin|apply pool_ensure|apply pool_int]]. }
  intros s x s' E H. unfold swap_node_with_next in E. unfold bind at 1 in E. destruct (get_int a s) as [[i old] s1| |] eqn:Ei; [|discriminate..].
  assert (s1 = s /\ look (s_heap s) a = Some (Int i old, true)) as [-> Ha].
  { unfold get_int, bind in Ei. destruct (getn a s) as [n s2| |] eqn:G; [|discriminate..]. destruct (getn_look _ _ _ _ G) as (->&Hn&U).
    destruct (n_body n) eqn:Eb; [discriminate|]. injection Ei as <- <- <-. split; [done|]. unfold look. rewrite Hn. simpl. by rewrite Eb, U. }
  unfold bind at 1 in E. destruct (level_of_index i s) as [level s1| |] eqn:El; [|discriminate..].
  unfold bind at 1 in E. destruct (index_at (S level) s1) as [next s2| |] eqn:En; [|discriminate..]. cbv zeta in E.
  assert (s2 = s) as ->.
  { unfold level_of_index in El. unfold index_at in En. destruct (s_i2l s !! i); [|discriminate]. injection El as <- <-.
    destruct (s_l2i s !! _); [|discriminate]. by injection En. }
  unfold bind at 1 in E. destruct (mapM _ old s) as [rows s3| |] eqn:Er; [|discriminate..].
  unfold bind at 1 in E. destruct (mapM _ _ s3) as [outer s4| |] eqn:Eo; [|discriminate..].
  set (J := fun s => pstands s /\ forall v, look (s_heap s) a <> Some (Term v, true)).
  assert (HJ : J s) by (split; [done|intros v; by rewrite Ha]).
  assert (J3 : J s3).
  { eapply (kept_mapM J); [|exact Er|exact HJ]. intros son t y t' F. unfold cofactor_row, bind in F. destruct (getn son t) as [n t1| |] eqn:G; [|discriminate..].
    destruct (getn_look _ _ _ _ G) as (->&_). destruct (n_body n); [by injection F as <- <-|]. destruct (_ =? _); by injection F as <- <-. }
  assert (J4 : J s4).
  { eapply (kept_mapM J); [|exact Eo|exact J3]. intros k t y t' F [F1 F2]. unfold bind in F. destruct (of_opt _ _ t) as [inner t1| |] eqn:G; [|discriminate..].
    assert (t1 = t) as -> by (unfold of_opt in G; destruct (mapM_opt _ _); [by injection G|discriminate]).
    split; [by eapply (Hmi i inner)|by eapply (not_term c a i inner)]. }
  clear HJ J3 Eo Er. destruct J4 as [H4 N4]. unfold bind at 1 in E. destruct (modn a _ s4) as [u s5| |] eqn:Em; [|discriminate..].
  assert (H5 : pstands s5).
  { unfold modn, bind in Em. destruct (getn a s4) as [n s6| |] eqn:G; [|discriminate..]. destruct (getn_look _ _ _ _ G) as (->&Hn&U). injection Em as _ <-.
    destruct (n_body n) as [v|i' l'] eqn:Eb; [exfalso; apply (N4 v); unfold look; rewrite Hn; simpl; by rewrite Eb, U|].
    destruct H4 as (ks&p&A&f&P&Hp&Hh&T). destruct (pool_array s4 ks p A f P T Hh) as (p1&A1&arr&P1&T1&H1&_).
    destruct (pm_used _ _ _ _ T1 a (Int i' l')) as (cl&Hcl&oldarr&Hl); [unfold look; rewrite Hn; simpl; by rewrite Eb, U|].
    assert (Hal : p_allows A1 (PSetSons cl arr)) by (split; [rewrite H1; set_solver|eauto]).
    destruct (program_call _ _ _ _ P1 Hal) as (p2&r&A2&Eq&F&P2&I1&_). simpl in F. cbn [q_exec] in Eq.
    destruct (q_cells p1 !! cl) as [[|arr0]|] eqn:Ec; [discriminate| |discriminate]. destruct (free_array arr0 _) as [arrays| |]; [|discriminate..].
    injection Eq as <- <-. eexists _, _, A2, f. split; [exact P2|]. split; [by apply prefix_app_r, prefix_app_r|]. subst A2. split; [simpl; rewrite H1; set_solver|].
    destruct T1. constructor; simpl; try done.
    - intros c'. rewrite lookup_insert_is_Some. rewrite <- pm_cell0. split; [|destruct (decide (cl = c')) as [->|]; [by left|right; done]].
      intros [<-|[_ ?]]; [rewrite Ec; eauto|done].
    - intros d b. rewrite look_insert. destruct (decide (d = a)) as [->|Nd].
      + simpl. rewrite U. intros [= <-]. exists cl. split; [done|]. unfold holds. simpl. rewrite lookup_insert. eauto.
      + intros Hd. destruct (pm_used0 _ _ Hd) as (cd&Hcd&Hb). exists cd. split; [done|].
        assert (cd <> cl) by (intros ->; apply Nd; by eapply pm_inj0). unfold holds in *. simpl. by rewrite !lookup_insert_ne by done.
    - intros d cd Hd Hb. destruct (decide (d = a)) as [->|Nd].
      + exfalso. apply (Hb (Int next outer)). rewrite look_insert, decide_True by done. simpl. by rewrite U.
      + assert (cd <> cl) by (intros ->; apply Nd; by eapply pm_inj0). rewrite lookup_insert_ne by done. apply (pm_unused0 d cd Hd).
        intros b. specialize (Hb b). by rewrite look_insert, decide_False in Hb. }
  clear H4 N4 Em. revert E H5. apply kp_bind.
  - apply kp_mapM_. intros b. apply kp_bind; [by apply kp_inc_ref, pstands_alike|intros _; by apply kp_set_mark, pstands_alike].
  - intros _. apply kp_mapM_. intros b. apply kp_dec_ref_try_gc; [apply pstands_alike|apply pool_delete].
Qed.

Theorem pool_run c ks vars : kept pstands (run c ks vars).
Proof.
  apply kp_run; [apply pstands_alike|apply pool_delete
    |intros; apply kp_new; [apply kp_adjust, pstands_akin|apply pool_ensure|apply pool_int]
    |intros; apply kp_new; [apply kp_adjust, pstands_akin|apply pool_ensure|apply pool_term]|apply pool_swap|].
  apply Forall_true. intros k. destruct k; try done. intros s x s' E. injection E as <- <-. by apply pstands_akin.
Qed.

End pool.

Lemma pool_new_manager c p s0 s : (0 <= ca_main p)%Z -> (0 <= ca_extra p)%Z -> new_manager c p s0 = Ok tt s ->
  pstands (Z.to_nat (ca_main p)) (Z.to_nat (ca_extra p)) [] s.
Proof.
  intros Hm He. unfold new_manager, construct. intros E. destruct (_ && _); [done|]. destruct (if c_dbg c then _ else _) as [[]|]; try done.
  destruct (fill_levels _ _ _); [|done]. injection E as <-. eexists _, _, _, ∅. split; [apply PP_new|]. split; [apply prefix_nil|]. split; [done|].
  constructor; simpl; try done.
  - by rewrite Z2Nat.id.
  - exists (Z.to_nat (ca_main p)), 0, []. split_and!; [done..|lia|]. rewrite Nat.sub_0_r. lia.
  - intros cl. rewrite lookup_empty. split; [by intros [? ?]|intros [a Ha]; by rewrite lookup_empty in Ha].
  - intros a [? Ha]. by rewrite lookup_empty in Ha.
Qed.

