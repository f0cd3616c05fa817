(** * The counted constructions *)

From stdpp Require Import gmap list.
From Coq Require Import ZArith Lia.
From Verif Require Import Base Ops Tables NodeManager Tools Sift DiagramManager Calls.
From Verif Require Import Heap Inv InvLemmas Prim TabLemmas GC Make Build Apply Api Deferred Constr.

Local Open Scope nat_scope.

(** ** Without the counter they are the functions of the model *)

Definition uncount {X} (r : res (memo * nat * X)) : res (memo * X) :=
  match r with Ok (m, _, x) s => Ok (m, x) s | Err e => Err e | Fuel => Fuel end.

Lemma uncount_map {A B} (f' : memo * nat -> A -> M (memo * nat * B)) (f : memo -> A -> M (memo * B)) l :
  (forall mk a s, uncount (f' mk a s) = f (fst mk) a s) ->
  forall mk s, uncount (mapMs f' mk l s) = mapMs f (fst mk) l s.
Proof.
  intros H. induction l as [|a l IH]; intros mk s; [by destruct mk|]. cbn [mapMs]. unfold bind. rewrite <- H.
  destruct (f' mk a s) as [[[m k] b] s1| |]; [|done|done]. cbn [uncount fst snd]. specialize (IH (m, k) s1). cbn [fst] in IH. rewrite <- IH.
  by destruct (mapMs f' (m, k) l s1) as [[[? ?] ?]| |].
Qed.

Lemma transform_uncount c f fuel : forall mk a s, uncount (transform_calls c fuel f mk a s) = transform_impl c fuel f (fst mk) a s.
Proof.
  induction fuel as [|fuel IH]; intros mk a s; [done|]. cbn [transform_calls transform_impl]. destruct (fst mk !! a); [done|].
  unfold bind. destruct (getn a s) as [n s1| |]; [|done|done]. destruct (n_body n) as [v|i sons].
  - by destruct (make_terminal_node c (f v) s1).
  - pose proof (uncount_map _ _ sons IH (fst mk, S (snd mk)) s1) as X. cbn [fst] in X. rewrite <- X. destruct (mapMs _ _ sons s1) as [[[m k] bs] s2| |]; [|done|done].
    cbn [uncount fst snd]. by destruct (make_internal_node c i bs s2).
Qed.

Lemma cofactor_uncount c vi vv fuel : forall mk a s, uncount (cofactor_calls c fuel vi vv mk a s) = cofactor_impl c fuel vi vv (fst mk) a s.
Proof.
  induction fuel as [|fuel IH]; intros mk a s; [done|]. cbn [cofactor_calls cofactor_impl]. destruct (fst mk !! a); [done|].
  unfold bind. destruct (getn a s) as [n s1| |]; [|done|done]. destruct (n_body n) as [v|i sons]; [done|].
  destruct (i =? vi); [by destruct (of_opt EOob (sons !! vv) s1)|].
  pose proof (uncount_map _ _ sons IH (fst mk, S (snd mk)) s1) as X. cbn [fst] in X. rewrite <- X. destruct (mapMs _ _ sons s1) as [[[m k] bs] s2| |]; [|done|done].
  cbn [uncount fst snd]. by destruct (make_internal_node c i bs s2).
Qed.

Lemma cofactors_uncount c vars fuel : forall todo mk a s,
  uncount (cofactors_calls c fuel vars todo mk a s) = cofactors_impl c fuel vars todo (fst mk) a s.
Proof.
  induction fuel as [|fuel IH]; intros todo mk a s; [done|]. cbn [cofactors_calls cofactors_impl].
  destruct (todo =? 0); [done|]. destruct (fst mk !! a); [done|].
  unfold bind. destruct (getn a s) as [n s1| |]; [|done|done]. destruct (n_body n) as [v|i sons]; [done|].
  destruct (find_var i vars) as [k|].
  - destruct (of_opt EOob (sons !! k) s1) as [d s2| |]; [|done|done].
    pose proof (IH (todo - 1) (fst mk, S (snd mk)) d s2) as X. cbn [fst] in X. rewrite <- X.
    by destruct (cofactors_calls c fuel vars (todo - 1) (fst mk, S (snd mk)) d s2) as [[[? ?] ?]| |].
  - pose proof (uncount_map _ _ sons (IH todo) (fst mk, S (snd mk)) s1) as X. cbn [fst] in X. rewrite <- X. destruct (mapMs _ _ sons s1) as [[[m k] bs] s2| |]; [|done|done].
    cbn [uncount fst snd]. by destruct (make_internal_node c i bs s2).
Qed.

(** ** Every node is expanded once *)

Section log.
Context (L : positive -> option body).

Definition inner (x : positive) : Prop := exists i sons, L x = Some (Int i sons).

(** [log] lists the nodes entered into the table, which satisfy [P] *)
Record logged (P : positive -> Prop) (m m' : memo) (log : list positive) : Prop := {
  lg_nodup : NoDup log;
  lg_old : forall x, is_Some (m !! x) -> is_Some (m' !! x) /\ x ∉ log;
  lg_new : forall x, x ∈ log -> is_Some (m' !! x) /\ P x /\ inner x;
  lg_all : forall x, is_Some (m' !! x) -> is_Some (m !! x) \/ x ∈ log }.

Lemma logged_nil P m : logged P m m [].
Proof.
  constructor; [constructor| | |]; [|set_solver|by left]. intros x Hx. split; [done|set_solver].
Qed.

Lemma logged_weaken (P Q : positive -> Prop) m m' log : (forall x, P x -> Q x) -> logged P m m' log -> logged Q m m' log.
Proof. intros PQ [H1 H2 H3 H4]. constructor; try done. intros x Hx. destruct (H3 x Hx) as (?&?&?). auto. Qed.

Lemma logged_trans P m m1 m2 l1 l2 : logged P m m1 l1 -> logged P m1 m2 l2 -> logged P m m2 (l1 ++ l2).
Proof.
  intros [A1 A2 A3 A4] [B1 B2 B3 B4]. constructor.
  - apply NoDup_app. split; [done|]. split; [|done]. intros x Hx. apply B2. by apply A3.
  - intros x Hx. destruct (A2 x Hx) as [H1 H1']. destruct (B2 x H1) as [H2 H2']. split; [done|]. rewrite elem_of_app. tauto.
  - intros x [Hx|Hx]%elem_of_app; [|by apply B3]. destruct (A3 x Hx) as (?&?&?). split; [by apply B2|done].
  - intros x Hx. rewrite elem_of_app. destruct (B4 x Hx) as [H|H]; [destruct (A4 x H)|]; auto.
Qed.

Lemma logged_insert (P Q : positive -> Prop) m m' log a b :
  m !! a = None -> ~ P a -> (forall x, P x -> Q x) -> Q a -> inner a ->
  logged P m m' log -> logged Q m (<[a := b]> m') (a :: log).
Proof.
  intros Ha HP PQ Qa Ia [H1 H2 H3 H4]. assert (Na : a ∉ log) by (intros X; by destruct (H3 a X) as (_&?&_)).
  constructor; unfold memo in *.
  - by constructor.
  - intros x Hx. destruct (H2 x Hx) as [Hx1 Hx2]. assert (x <> a) by (intros ->; rewrite Ha in Hx; by destruct Hx).
    rewrite lookup_insert_ne by done. split; [done|]. rewrite elem_of_cons. tauto.
  - intros x [->|Hx]%elem_of_cons; [rewrite lookup_insert; eauto|]. destruct (H3 x Hx) as (X1&X2&X3).
    split; [|auto]. destruct (decide (x = a)) as [->|]; [rewrite lookup_insert; eauto|by rewrite lookup_insert_ne].
  - intros x Hx. destruct (decide (x = a)) as [->|]; [right; by left|]. rewrite lookup_insert_ne in Hx by done.
    destruct (H4 x Hx); [by left|right; by right].
Qed.

Context (w : positive -> nat).
Definition total (log : list positive) : nat := list_sum (map w log).

Lemma total_app l l' : total (l ++ l') = total l + total l'.
Proof. unfold total. by rewrite map_app, list_sum_app. Qed.

(** a run of a counted function over the sons; [Q] holds of the table and each son afterwards *)
Lemma mapMs_logged (P : positive -> Prop) (I : memo -> st -> Prop) (Q : memo -> positive -> Prop)
    (f : memo * nat -> positive -> M (memo * nat * positive)) sons :
  (forall m m' d, (forall x, is_Some (m !! x) -> is_Some (m' !! x)) -> Q m d -> Q m' d) ->
  (forall d m k m' k' b s s', d ∈ sons -> I m s -> f (m, k) d s = Ok (m', k', b) s' ->
     I m' s' /\ Q m' d /\ exists log, logged P m m' log /\ k' = k + 1 + total log) ->
  forall m k m' k' bs s s', I m s -> mapMs f (m, k) sons s = Ok (m', k', bs) s' ->
  I m' s' /\ (forall d, d ∈ sons -> Q m' d) /\ exists log, logged P m m' log /\ k' = k + length sons + total log.
Proof.
  intros QM. induction sons as [|d sons IH]; intros H m k m' k' bs s s' HI E.
  - injection E as -> -> <- ->. split; [done|]. split; [set_solver|]. exists []. split; [apply logged_nil|]. cbn. lia.
  - cbn [mapMs] in E. unfold bind in E. destruct (f (m, k) d s) as [[[m1 k1] b] s1| |] eqn:E1; [|done|done]. cbn [fst] in E.
    destruct (mapMs f (m1, k1) sons s1) as [[[m2 k2] bs2] s2| |] eqn:E2; [|done|done]. cbn [fst snd ret] in E. unfold ret in E.
    injection E as -> -> _ ->.
    destruct (H d m k m1 k1 b s s1 ltac:(by left) HI E1) as (HI1&HQ1&l1&G1&K1).
    destruct (IH ltac:(intros; eapply H; [by right|done|done]) m1 k1 m' k' bs2 s1 s' HI1 E2) as (HI2&HQ2&l2&G2&K2).
    split; [done|]. split.
    + intros x [->|Hx]%elem_of_cons; [|by apply HQ2]. eapply QM; [|exact HQ1]. intros y Hy. by apply G2.
    + exists (l1 ++ l2). split; [by eapply logged_trans|]. rewrite total_app. cbn [length]. lia.
Qed.
End log.

(** the number of sons *)
Definition width (L : positive -> option body) (x : positive) : nat :=
  match L x with Some (Int _ sons) => length sons | _ => 0 end.
(** the sons that get_cofactors visits *)
Definition kept_width (L : positive -> option body) (vars : list (nat * nat)) (x : positive) : nat :=
  match L x with
  | Some (Int i sons) => match find_var i vars with Some _ => 1 | None => length sons end
  | _ => 0
  end.

Section runs.
Context (c : cfg) (opsem : Z -> option (Z -> Z -> Z)) (strict : bool).
Context (g : ghost) (s0 : st).
Notation rank := (rank c).
Notation sstep := (sstep c opsem strict).
Notation L := (live (s_heap s0)).
Context (Hc : wf_cfg c) (W0 : WF c opsem strict g s0) (Hq : quiet g) (O : ord c g s0).

Lemma held_reach_rank a x : held g (s_heap s0) a -> reach L a x -> held g (s_heap s0) x /\ rank g (s_heap s0) a <= rank g (s_heap s0) x.
Proof using W0 Hq.
  intros Ha R. induction R as [|a b x i sons La Hb _ IH]; [done|].
  destruct (held_son_all c opsem strict g s0 a i sons b W0 Hq Ha La Hb) as [Hhb Hr]. destruct (IH Hhb). split; [done|lia].
Qed.

Lemma below a i sons : held g (s_heap s0) a -> L a = Some (Int i sons) -> ~ exists d, d ∈ sons /\ reach L d a.
Proof using W0 Hq.
  intros Ha La (d&Hd&R). destruct (held_son_all c opsem strict g s0 a i sons d W0 Hq Ha La Hd) as [Hhd Hr].
  destruct (held_reach_rank d a Hhd R). lia.
Qed.

Lemma getn_body s a n s1 : sstep g s0 s -> held g (s_heap s0) a -> getn a s = Ok n s1 -> s1 = s /\ L a = Some (n_body n).
Proof using W0.
  intros S Ha E. destruct (ss_keeps _ _ _ _ _ _ S a Ha) as [_ La].
  destruct (held_live _ _ _ _ _ _ W0 Ha) as [Hl _].
  assert (X : wp (fun _ => False) (getn a) (fun n s1 => s1 = s /\ L a = Some (n_body n)) s).
  { destruct (live (s_heap s0) a) as [bd|] eqn:El; [|done]. eapply wp_getn_live; [exact La|]. intros n' _ _ ->. done. }
  unfold wp in X. by rewrite E in X.
Qed.

Definition full (m : memo) (a : positive) : Prop := forall x, reach L a x -> inner L x -> is_Some (m !! x).
Definition closed (m : memo) : Prop := forall y, is_Some (m !! y) -> full m y.

Lemma full_mono m m' d : (forall x, is_Some (m !! x) -> is_Some (m' !! x)) -> full m d -> full m' d.
Proof using. intros H F x R I. by apply H, F. Qed.

Lemma term_full m a v : L a = Some (Term v) -> full m a.
Proof using. intros La x R (i&sons&E). inversion R; simplify_eq. Qed.

Lemma closed_insert m a b i sons : L a = Some (Int i sons) -> closed m -> (forall d, d ∈ sons -> full m d) ->
  closed (<[a := b]> m) /\ full (<[a := b]> m) a.
Proof using.
  intros La Cm Hs. assert (Mo : forall x, is_Some (m !! x) -> is_Some ((<[a := b]> m : memo) !! x)).
  { unfold memo in *. intros x Hx. destruct (decide (x = a)) as [->|]; [rewrite lookup_insert; eauto|by rewrite lookup_insert_ne]. }
  assert (Fa : full (<[a := b]> m) a).
  { intros x R I. inversion R as [|? d ? ? ? La' Hd R']; simplify_eq.
    - unfold memo in *. rewrite lookup_insert. eauto.
    - apply Mo. by eapply Hs. }
  split; [|done]. intros y Hy. destruct (decide (y = a)) as [->|Hne]; [done|]. eapply full_mono; [exact Mo|]. apply Cm.
  unfold memo in *. by rewrite lookup_insert_ne in Hy.
Qed.

(** ** transform *)
Lemma transform_logged f fuel : forall a m k m' k' b s s', sstep g s0 s -> held g (s_heap s0) a ->
  (forall rho x, valid c rho -> Ev L a rho x -> tval c (f x)) ->
  memo_ok c g s0 s (mapped L f) m -> closed m -> nvars c - rank g (s_heap s0) a < fuel ->
  transform_calls c fuel f (m, k) a s = Ok (m', k', b) s' ->
  (sstep g s0 s' /\ memo_ok c g s0 s' (mapped L f) m') /\ (closed m' /\ full m' a) /\
  exists log, logged L (reach L a) m m' log /\ k' = k + 1 + total (width L) log.
Proof using Hc W0 Hq O.
  induction fuel as [|fuel IH]; intros a m k m' k' b s s' S Ha Hf Hm Cm Hfuel E; [lia|].
  split.
  { pose proof (transform_impl_spec c opsem strict f g s0 (Datatypes.S fuel) Hc W0 Hq O a m s S Ha Hf Hm Hfuel) as X.
    unfold wp in X. pose proof (transform_uncount c f (Datatypes.S fuel) (m, k) a s) as U. rewrite E in U. cbn [uncount fst] in U. rewrite <- U in X.
    destruct X as [B Hm']. cbn [snd fst] in *. split; [|done]. eapply sstep_trans; [exact S|apply B]. }
  cbn [transform_calls fst snd] in E. destruct (m !! a) as [b'|] eqn:Em.
  { injection E as -> <- _ _. split; [split; [done|apply Cm; eauto]|]. exists []. split; [apply logged_nil|]. cbn. lia. }
  unfold bind in E. destruct (getn a s) as [n s1| |] eqn:En; [|done|done].
  destruct (getn_body s a n s1 S Ha En) as [-> La]. destruct (n_body n) as [v|i sons].
  { destruct (make_terminal_node c (f v) s) as [b' s2| |]; [|done|done]. injection E as -> <- _ _.
    split; [split; [done|by eapply term_full]|]. exists []. split; [apply logged_nil|]. cbn. lia. }
  destruct (mapMs (transform_calls c fuel f) (m, Datatypes.S k) sons s) as [[[m1 k1] bs] s2| |] eqn:E1; [|done|done]. cbn [fst snd] in E.
  destruct (make_internal_node c i bs s2) as [b' s3| |]; [|done|done]. injection E as <- <- _ _.
  destruct (wf_node _ _ _ _ _ W0 a _ La) as (Hi&Hlen&Hra&_).
  destruct (mapMs_logged L (width L) (fun x => exists d, d ∈ sons /\ reach L d x)
    (fun m s => sstep g s0 s /\ memo_ok c g s0 s (mapped L f) m /\ closed m) full (transform_calls c fuel f) sons)
    with (m := m) (k := Datatypes.S k) (m' := m1) (k' := k1) (bs := bs) (s := s) (s' := s2) as ((_&_&Cm1)&Fs&log&G&K); [| |done|exact E1|].
  - apply full_mono.
  - intros d m2 k2 m3 k3 b3 t t' Hd (St&Hmt&Cmt) Et.
    destruct (held_son_all c opsem strict g s0 a i sons d W0 Hq Ha La Hd) as [Hhd Hrd].
    destruct (IH d m2 k2 m3 k3 b3 t t' St Hhd) as ([X1 X2]&[X3 X4]&log&G&K); try done.
    + intros rho x Hv Hx. pose proof Hd as Hin. apply elem_of_list_lookup in Hin as [j Hj]. apply (Hf (upd rho i j)).
      * apply valid_upd; [done|]. rewrite <- Hlen. by eapply lookup_lt_Some.
      * eapply Ev_int; [done|by rewrite upd_same|].
        apply (Ev_deeper c opsem strict g s0); try done; [by eapply held_live|].
        by rewrite <- (rank_int c g _ _ _ _ Hq La).
    + lia.
    + split; [done|]. split; [done|]. exists log. split; [|done]. eapply logged_weaken; [|exact G]. intros x Hx. by exists d.
  - destruct (closed_insert m1 a b' i sons La Cm1 Fs) as [Y1 Y2]. split; [done|]. exists (a :: log). split.
    + apply (logged_insert L (fun x => exists d, d ∈ sons /\ reach L d x)); [done| | | | |exact G].
      * exact (below a i sons Ha La).
      * intros x (d&Hd&R). by eapply reach_step.
      * apply reach_refl.
      * by exists i, sons.
    + unfold total in *. cbn [map list_sum fold_right]. change (fold_right Nat.add 0) with list_sum. unfold width at 1. rewrite La. lia.
Qed.

(** ** get_cofactor *)
Lemma cofactor_logged vi vv fuel : vv < dom c vi -> forall a m k m' k' b s s', sstep g s0 s -> held g (s_heap s0) a ->
  memo_ok c g s0 s (cofactored L vi vv) m -> nvars c - rank g (s_heap s0) a < fuel ->
  cofactor_calls c fuel vi vv (m, k) a s = Ok (m', k', b) s' ->
  (sstep g s0 s' /\ memo_ok c g s0 s' (cofactored L vi vv) m') /\
  exists log, logged L (reach L a) m m' log /\ k' = k + 1 + total (width L) log.
Proof using Hc W0 Hq O.
  intros Hvv. induction fuel as [|fuel IH]; intros a m k m' k' b s s' S Ha Hm Hfuel E; [lia|].
  split.
  { pose proof (cofactor_impl_spec c opsem strict vi vv g s0 (Datatypes.S fuel) Hc W0 Hq O Hvv a m s S Ha Hm Hfuel) as X.
    unfold wp in X. pose proof (cofactor_uncount c vi vv (Datatypes.S fuel) (m, k) a s) as U. rewrite E in U. cbn [uncount fst] in U. rewrite <- U in X.
    destruct X as [B Hm']. cbn [snd fst] in *. split; [|done]. eapply sstep_trans; [exact S|apply B]. }
  cbn [cofactor_calls fst snd] in E. destruct (m !! a) as [b'|] eqn:Em.
  { injection E as -> <- _ _. exists []. split; [apply logged_nil|]. cbn. lia. }
  unfold bind in E. destruct (getn a s) as [n s1| |] eqn:En; [|done|done].
  destruct (getn_body s a n s1 S Ha En) as [-> La]. destruct (n_body n) as [v|i sons].
  { injection E as -> <- _ _. exists []. split; [apply logged_nil|]. cbn. lia. }
  destruct (i =? vi).
  { destruct (of_opt EOob (sons !! vv) s) as [b' s2| |]; [|done|done]. injection E as -> <- _ _. exists []. split; [apply logged_nil|]. cbn. lia. }
  destruct (mapMs (cofactor_calls c fuel vi vv) (m, Datatypes.S k) sons s) as [[[m1 k1] bs] s2| |] eqn:E1; [|done|done]. cbn [fst snd] in E.
  destruct (make_internal_node c i bs s2) as [b' s3| |]; [|done|done]. injection E as <- <- _ _.
  destruct (wf_node _ _ _ _ _ W0 a _ La) as (Hi&Hlen&Hra&_).
  destruct (mapMs_logged L (width L) (fun x => exists d, d ∈ sons /\ reach L d x)
    (fun m s => sstep g s0 s /\ memo_ok c g s0 s (cofactored L vi vv) m) (fun _ _ => True) (cofactor_calls c fuel vi vv) sons)
    with (m := m) (k := Datatypes.S k) (m' := m1) (k' := k1) (bs := bs) (s := s) (s' := s2) as (_&_&log&G&K); [done| |done|exact E1|].
  - intros d m2 k2 m3 k3 b3 t t' Hd (St&Hmt) Et.
    destruct (held_son_all c opsem strict g s0 a i sons d W0 Hq Ha La Hd) as [Hhd Hrd].
    destruct (IH d m2 k2 m3 k3 b3 t t' St Hhd) as (X&log&G&K); try done; [lia|].
    split; [done|]. split; [done|]. exists log. split; [|done]. eapply logged_weaken; [|exact G]. intros x Hx. by exists d.
  - exists (a :: log). split.
    + apply (logged_insert L (fun x => exists d, d ∈ sons /\ reach L d x)); [done| | | | |exact G].
      * exact (below a i sons Ha La).
      * intros x (d&Hd&R). by eapply reach_step.
      * apply reach_refl.
      * by exists i, sons.
    + unfold total in *. cbn [map list_sum fold_right]. change (fold_right Nat.add 0) with list_sum. unfold width at 1. rewrite La. lia.
Qed.

(** ** get_cofactors *)
Lemma cofactors_logged vars fuel : Forall (fun p => snd p < dom c (fst p)) vars ->
  forall todo a m k m' k' b s s', sstep g s0 s -> held g (s_heap s0) a ->
  memo_ok c g s0 s (cofactoredl L vars) m -> pending g vars (rank g (s_heap s0) a) <= todo -> nvars c - rank g (s_heap s0) a < fuel ->
  cofactors_calls c fuel vars todo (m, k) a s = Ok (m', k', b) s' ->
  (sstep g s0 s' /\ memo_ok c g s0 s' (cofactoredl L vars) m') /\
  exists log, logged L (reach L a) m m' log /\ k' = k + 1 + total (kept_width L vars) log.
Proof using Hc W0 Hq O.
  intros Hvars. induction fuel as [|fuel IH]; intros todo a m k m' k' b s s' S Ha Hm Hp Hfuel E; [lia|].
  split.
  { pose proof (cofactors_impl_spec c opsem strict vars g s0 (Datatypes.S fuel) Hc W0 Hq O Hvars todo a m s S Ha Hm Hp Hfuel) as X.
    unfold wp in X. pose proof (cofactors_uncount c vars (Datatypes.S fuel) todo (m, k) a s) as U. rewrite E in U. cbn [uncount fst] in U. rewrite <- U in X.
    destruct X as [B Hm']. cbn [snd fst] in *. split; [|done]. eapply sstep_trans; [exact S|apply B]. }
  cbn [cofactors_calls fst snd] in E. destruct (todo =? 0).
  { injection E as -> <- _ _. exists []. split; [apply logged_nil|]. cbn. lia. }
  destruct (m !! a) as [b'|] eqn:Em.
  { injection E as -> <- _ _. exists []. split; [apply logged_nil|]. cbn. lia. }
  unfold bind in E. destruct (getn a s) as [n s1| |] eqn:En; [|done|done].
  destruct (getn_body s a n s1 S Ha En) as [-> La]. destruct (n_body n) as [v|i sons].
  { injection E as -> <- _ _. exists []. split; [apply logged_nil|]. cbn. lia. }
  destruct (wf_node _ _ _ _ _ W0 a _ La) as (Hi&Hlen&Hra&_).
  assert (Add : forall m1 b' log k1 n, logged L (fun x => exists d, d ∈ sons /\ reach L d x) m m1 log ->
    k1 = Datatypes.S k + n + total (kept_width L vars) log -> kept_width L vars a = n ->
    exists log', logged L (reach L a) m (<[a := b']> m1) log' /\ k1 = k + 1 + total (kept_width L vars) log').
  { intros m1 b' log k1 n' G K Kw. exists (a :: log). split.
    - apply (logged_insert L (fun x => exists d, d ∈ sons /\ reach L d x)); [done| | | | |exact G].
      + exact (below a i sons Ha La).
      + intros x (d&Hd&R). by eapply reach_step.
      + apply reach_refl.
      + by exists i, sons.
    - unfold total in *. cbn [map list_sum fold_right]. change (fold_right Nat.add 0) with list_sum. rewrite Kw. lia. }
  assert (Kw : kept_width L vars a = match find_var i vars with Some _ => 1 | None => length sons end) by (unfold kept_width; by rewrite La).
  destruct (find_var i vars) as [j|] eqn:Ef.
  - pose proof (find_var_In _ _ _ Ef) as Hin. rewrite Forall_forall in Hvars. pose proof (Hvars _ Hin) as Hj. simpl in Hj.
    destruct (lookup_lt_is_Some_2 sons j) as [d Hd']; [lia|]. rewrite Hd' in E. cbn [of_opt] in E. unfold ret at 1 in E.
    assert (Hd : d ∈ sons) by (by eapply elem_of_list_lookup_2).
    destruct (held_son_all c opsem strict g s0 a i sons d W0 Hq Ha La Hd) as [Hhd Hrd].
    pose proof Hrd as Hrd'. rewrite (rank_int c g _ _ _ _ Hq La) in Hrd', Hp.
    pose proof (pending_step g vars i j _ Ef Hrd') as Hps.
    destruct (cofactors_calls c fuel vars (todo - 1) (m, Datatypes.S k) d s) as [[[m1 k1] b1] s2| |] eqn:E1; [|done|done].
    cbn [fst snd] in E. injection E as <- <- _ _.
    destruct (IH (todo - 1) d m (Datatypes.S k) m1 k1 b1 s s2 S Hhd Hm ltac:(lia) ltac:(lia) E1) as (_&log&G&K).
    eapply (Add m1 b1 log k1 1); [|lia|done]. eapply logged_weaken; [|exact G]. intros x Hx. by exists d.
  - destruct (mapMs (cofactors_calls c fuel vars todo) (m, Datatypes.S k) sons s) as [[[m1 k1] bs] s2| |] eqn:E1; [|done|done]. cbn [fst snd] in E.
    destruct (make_internal_node c i bs s2) as [b' s3| |]; [|done|done]. injection E as <- <- _ _.
    destruct (mapMs_logged L (kept_width L vars) (fun x => exists d, d ∈ sons /\ reach L d x)
      (fun m s => sstep g s0 s /\ memo_ok c g s0 s (cofactoredl L vars) m) (fun _ _ => True) (cofactors_calls c fuel vars todo) sons)
      with (m := m) (k := Datatypes.S k) (m' := m1) (k' := k1) (bs := bs) (s := s) (s' := s2) as (_&_&log&G&K); [done| |done|exact E1|].
    + intros d m2 k2 m3 k3 b3 t t' Hd (St&Hmt) Et.
      destruct (held_son_all c opsem strict g s0 a i sons d W0 Hq Ha La Hd) as [Hhd Hrd].
      pose proof (pending_mono g vars (rank g (s_heap s0) a) (rank g (s_heap s0) d)).
      destruct (IH todo d m2 k2 m3 k3 b3 t t' St Hhd) as (X&log&G&K); try done; [lia|lia|].
      split; [done|]. split; [done|]. exists log. split; [|done]. eapply logged_weaken; [|exact G]. intros x Hx. by exists d.
    + by eapply (Add m1 b' log k1 (length sons)).
Qed.
End runs.

(** ** The calls of the library *)

Definition forget_calls {X} (r : res (X * nat)) : res X :=
  match r with Ok x s => Ok (fst x) s | Err e => Err e | Fuel => Fuel end.

Lemma transform_forget c f a s : forget_calls (transform_counted c f a s) = transform c f a s.
Proof.
  unfold transform_counted, transform, bind. pose proof (transform_uncount c f (S (nvars c)) (∅, 0) a s) as X. cbn [fst] in X. rewrite <- X.
  destruct (transform_calls c (S (nvars c)) f (∅, 0) a s) as [[[m k] b] s1| |]; [|done|done]. cbn [uncount fst snd].
  destruct (run_deferred c s1); [|done|done]. by destruct (diagram_of b _).
Qed.

Lemma cofactor_forget c a vi vv s : forget_calls (get_cofactor_counted c a vi vv s) = get_cofactor c a vi vv s.
Proof.
  unfold get_cofactor_counted, get_cofactor, bind. destruct (getn a s) as [n s0| |]; [|done|done]. destruct (n_body n) as [v|i sons].
  { by destruct (diagram_copy a s0). }
  destruct (i =? vi).
  { destruct (of_opt EOob (sons !! vv) s0) as [b s1| |]; [|done|done]. by destruct (diagram_of b s1). }
  pose proof (cofactor_uncount c vi vv (S (nvars c)) (∅, 0) a s0) as X. cbn [fst] in X. rewrite <- X.
  destruct (cofactor_calls c (S (nvars c)) vi vv (∅, 0) a s0) as [[[m k] b] s1| |]; [|done|done]. cbn [uncount fst snd].
  destruct (diagram_of b s1) as [u s2| |]; [|done|done]. by destruct (run_deferred c s2).
Qed.

Lemma cofactors_forget c a vars s : forget_calls (get_cofactors_counted c a vars s) = get_cofactors c a vars s.
Proof.
  unfold get_cofactors_counted, get_cofactors, bind. destruct (getn a s) as [n s0| |]; [|done|done]. destruct (n_body n) as [v|i sons].
  { by destruct (diagram_copy a s0). }
  assert (Y : forall rt s1, forget_calls (match cofactors_calls c (S (nvars c)) vars (snd rt) (∅, 0) (fst rt) s1 with
      Ok r s2 => match diagram_of (snd r) s2 with Ok _ s3 => match run_deferred c s3 with Ok _ s4 => ret (snd r, snd (fst r)) s4
        | Err e => Err e | Fuel => Fuel end | Err e => Err e | Fuel => Fuel end | Err e => Err e | Fuel => Fuel end)
    = match cofactors_impl c (S (nvars c)) vars (snd rt) ∅ (fst rt) s1 with
      Ok r s2 => match diagram_of (snd r) s2 with Ok _ s3 => match run_deferred c s3 with Ok _ s4 => ret (snd r) s4
        | Err e => Err e | Fuel => Fuel end | Err e => Err e | Fuel => Fuel end | Err e => Err e | Fuel => Fuel end).
  { intros rt s1. pose proof (cofactors_uncount c vars (S (nvars c)) (snd rt) (∅, 0) (fst rt) s1) as X. cbn [fst] in X. rewrite <- X.
    destruct (cofactors_calls c (S (nvars c)) vars (snd rt) (∅, 0) (fst rt) s1) as [[[m k] b] s2| |]; [|done|done]. cbn [uncount fst snd].
    destruct (diagram_of b s2) as [u s3| |]; [|done|done]. by destruct (run_deferred c s3). }
  destruct (find_var i vars) as [k|].
  - destruct (of_opt EOob (sons !! k) s0) as [d s1| |]; [|done|done]. apply (Y (d, length vars - 1) s1).
  - apply (Y (a, length vars) s0).
Qed.
