(** * traverse_level visits every reachable node once, level by level *)

From stdpp Require Import gmap list.
From Coq Require Import ZArith Lia.
From Verif Require Import Base NodeManager Queries Heap Trav.

Local Open Scope nat_scope.

Section level.
Context (s : st) (root : positive) (mk : bool) (rk : positive -> nat) (c : cfg).
Notation L := (live (s_heap s)).
Notation reachable := (reach L root).
Notation N := (nvars c).
Context (Hu : uniform s root mk) (Hr : ranked s root rk N) (Hroot : rk root <= N).
Context (Hlev : forall V a, reachable a -> get_level c a (fs V s) = Ok (rk a) (fs V s)).
Context {T : Type} (op : T -> positive -> M T) (P : list positive -> T -> Prop).
(** when a node is visited, all reachable nodes of smaller levels have been
    visited and no nodes of greater levels *)
Context (Hop : forall V D acc a, reachable a -> a ∉ D -> (forall x, reachable x -> rk x < rk a -> x ∈ D) ->
    (forall x, x ∈ D -> rk x <= rk a) -> P D acc ->
  exists acc', op acc a (fs V s) = Ok acc' (fs V s) /\ P (D ++ [a]) acc').

(** [D]: visited nodes, [V]: marked nodes, [bs]: the buckets *)
Record linv (D : list positive) (bs : list (list positive)) (V : gset positive) : Prop := {
  li_nodup : NoDup D;
  li_D : forall x, x ∈ D -> x ∈ V;
  li_V : forall x, x ∈ V -> reachable x /\ (x ∈ D \/ exists b, bs !! rk x = Some b /\ x ∈ b);
  li_b : forall j b x, bs !! j = Some b -> x ∈ b -> rk x = j /\ x ∈ V;
  li_bn : forall j b, bs !! j = Some b -> NoDup b;
  li_root : root ∈ V;
  li_len : length bs = S N
}.

Lemma linv_push D bs V b y : linv D bs V -> reachable y -> y ∉ V -> bs !! rk y = Some b ->
  linv D (<[rk y := b ++ [y]]> bs) ({[y]} ∪ V).
Proof.
  intros H Hy HV Hb. pose proof (lookup_lt_Some _ _ _ Hb) as Hlt. constructor.
  - exact (li_nodup _ _ _ H).
  - intros x Hx. apply elem_of_union. right. by apply (li_D _ _ _ H).
  - intros x [->%elem_of_singleton|Hx]%elem_of_union.
    + split; [done|]. right. exists (b ++ [y]). rewrite list_lookup_insert by done. split; [done|set_solver].
    + destruct (li_V _ _ _ H x Hx) as [Hx1 Hx2]. split; [done|]. destruct Hx2 as [Hx2|(b'&Hb'&Hx2)]; [by left|]. right.
      destruct (decide (rk x = rk y)) as [E|Hne].
      * rewrite E in *. rewrite list_lookup_insert by done. eexists. split; [done|]. simplify_eq. set_solver.
      * rewrite list_lookup_insert_ne by done. by exists b'.
  - intros j b' x Hb' Hx. destruct (decide (j = rk y)) as [->|Hne].
    + rewrite list_lookup_insert in Hb' by done. simplify_eq. apply elem_of_app in Hx as [Hx| ->%elem_of_list_singleton].
      * destruct (li_b _ _ _ H _ _ _ Hb Hx). split; [done|set_solver].
      * split; [done|set_solver].
    + rewrite list_lookup_insert_ne in Hb' by done. destruct (li_b _ _ _ H _ _ _ Hb' Hx). split; [done|set_solver].
  - intros j b' Hb'. destruct (decide (j = rk y)) as [->|Hne].
    + rewrite list_lookup_insert in Hb' by done. simplify_eq. apply NoDup_app. split_and!; [by eapply (li_bn _ _ _ H)| |apply NoDup_singleton].
      intros x Hx ->%elem_of_list_singleton. apply HV. by eapply (li_b _ _ _ H).
    + rewrite list_lookup_insert_ne in Hb' by done. by eapply (li_bn _ _ _ H).
  - apply elem_of_union. right. exact (li_root _ _ _ H).
  - rewrite insert_length. exact (li_len _ _ _ H).
Qed.

(** the sons of one node *)
Lemma push_sons D a i sons : reachable a -> L a = Some (Int i sons) -> a ∈ D -> forall rest bs V,
  (forall y, y ∈ rest -> y ∈ sons) -> linv D bs V ->
  exists bs' V', foldM (fun bs b => let* d := marks_differ b a in
      if d : bool then let* l := get_level c b in let* bs := push_at bs l b in let* _ := toggle_mark b in ret bs else ret bs)
      bs rest (fs V s) = Ok bs' (fs V' s) /\
    linv D bs' V' /\ (forall x, x ∈ V -> x ∈ V') /\ (forall y, y ∈ rest -> y ∈ V') /\
    (forall j, j <= rk a -> bs' !! j = bs !! j).
Proof.
  intros Ha La HaD. induction rest as [|y rest IH]; intros bs V Hsub H; cbn [foldM].
  - exists bs, V. split_and!; try done. intros y Hy. by apply elem_of_nil in Hy.
  - assert (Hy : y ∈ sons) by (apply Hsub; constructor).
    assert (Hry : reachable y) by (eapply reach_trans; [exact Ha|by eapply reach_son]).
    destruct (Hr a i sons y Ha La Hy) as [Hrk Hrk'].
    assert (Hone : exists bs1 V1, bind (marks_differ y a) (fun d : bool =>
        if d then let* l := get_level c y in let* bs := push_at bs l y in let* _ := toggle_mark y in ret bs else ret bs)
        (fs V s) = Ok bs1 (fs V1 s) /\ linv D bs1 V1 /\ (forall x, x ∈ V -> x ∈ V1) /\ y ∈ V1 /\
        (forall j, j <= rk a -> bs1 !! j = bs !! j)).
    { rewrite (bind_ok _ _ _ _ _ (differ_fs' s root mk Hu V a y Ha Hry (li_D _ _ _ H a HaD))).
      case_bool_decide as Hin; simpl; [by exists bs, V|].
      rewrite (bind_ok _ _ _ _ _ (Hlev V y Hry)).
      destruct (lookup_lt_is_Some_2 bs (rk y)) as [b Hb]; [rewrite (li_len _ _ _ H); lia|].
      unfold push_at. rewrite Hb. unfold of_opt. rewrite (bind_ok _ _ _ (<[rk y := b ++ [y]]> bs) (fs V s)) by done.
      rewrite (bind_ok _ _ _ _ _ (toggle_fs s root mk Hu V y Hry Hin)).
      exists (<[rk y := b ++ [y]]> bs), ({[y]} ∪ V). split_and!; [done|by apply linv_push|set_solver|set_solver|].
      intros j Hj. rewrite list_lookup_insert_ne by lia. done. }
    destruct Hone as (bs1&V1&E1&H1&HV1&Hy1&Hj1). rewrite (bind_ok _ _ _ _ _ E1).
    destruct (IH bs1 V1) as (bs2&V2&E2&H2&HV2&Hy2&Hj2); [intros z Hz; apply Hsub; by constructor|done|].
    exists bs2, V2. split_and!; [done|done|auto| |].
    + intros z [->|Hz]%elem_of_cons; auto.
    + intros j Hj. rewrite Hj2, Hj1 by done. done.
Qed.

Lemma linv_visit D bs V b a : linv D bs V -> bs !! rk a = Some b -> a ∈ b -> a ∉ D -> linv (D ++ [a]) bs V.
Proof.
  intros H Hb Ha HD. constructor;
    [| | |exact (li_b _ _ _ H)|exact (li_bn _ _ _ H)|exact (li_root _ _ _ H)|exact (li_len _ _ _ H)].
  - apply NoDup_app. split_and!; [exact (li_nodup _ _ _ H)| |apply NoDup_singleton]. intros x Hx ->%elem_of_list_singleton. done.
  - intros x [Hx| ->%elem_of_list_singleton]%elem_of_app; [by apply (li_D _ _ _ H)|]. by eapply (li_b _ _ _ H).
  - intros x Hx. destruct (li_V _ _ _ H x Hx) as [Hx1 Hx2]. split; [done|]. destruct Hx2; [left; set_solver|by right].
Qed.

(** the sons of the visited nodes are marked *)
Definition closed_under (D : list positive) (V : gset positive) : Prop :=
  forall x i sons y, x ∈ D -> L x = Some (Int i sons) -> y ∈ sons -> y ∈ V.

Lemma visit_bucket l b : forall rest done D bs V acc, b = done ++ rest ->
  linv D bs V -> closed_under D V -> bs !! l = Some b -> P D acc ->
  (forall x, reachable x -> rk x < l -> x ∈ D) ->
  (forall x, x ∈ D -> rk x < l \/ x ∈ done) -> (forall x, x ∈ done -> x ∈ D) ->
  exists D' bs' V' acc', foldM (level_visit c op) (bs, acc) rest (fs V s) = Ok (bs', acc') (fs V' s) /\
    linv D' bs' V' /\ closed_under D' V' /\ P D' acc' /\
    (forall x, x ∈ D' -> rk x < l \/ x ∈ b) /\ (forall x, x ∈ D -> x ∈ D') /\ (forall x, x ∈ b -> x ∈ D').
Proof.
  induction rest as [|a rest IH]; intros dn D bs V acc Eb H Hcl Hb HP Hlow HD Hdn; cbn [foldM].
  - rewrite app_nil_r in Eb. subst dn. exists D, bs, V, acc. split_and!; done.
  - assert (Hab : a ∈ b) by (subst b; set_solver).
    destruct (li_b _ _ _ H _ _ _ Hb Hab) as [Hka HaV]. destruct (li_V _ _ _ H a HaV) as [Ha _].
    pose proof (li_bn _ _ _ H _ _ Hb) as NDb. rewrite Eb in NDb. apply NoDup_app in NDb as (_&NDb&NDr).
    assert (HaD : a ∉ D).
    { intros Hin. destruct (HD a Hin) as [|Hin']; [lia|]. apply (NDb a Hin'). constructor. }
    destruct (Hop V D acc a Ha HaD) as (acc1&E1&HP1); [by rewrite Hka| |done|].
    { intros x Hx. destruct (HD x Hx) as [|Hxd]; [lia|]. destruct (li_b _ _ _ H _ _ x Hb); [subst b; set_solver|lia]. }
    assert (Hv : linv (D ++ [a]) bs V) by (eapply linv_visit; [done|by rewrite Hka|done|done]).
    destruct (body_fs s root mk Hu V a Ha) as (n&E2&La).
    assert (Hstep : exists bs1 V1, level_visit c op (bs, acc) a (fs V s) = Ok (bs1, acc1) (fs V1 s) /\
        linv (D ++ [a]) bs1 V1 /\ closed_under (D ++ [a]) V1 /\ bs1 !! l = Some b).
    { unfold level_visit. cbn [fst snd]. rewrite (bind_ok _ _ _ _ _ E1), (bind_ok _ _ _ _ _ E2). destruct (n_body n) as [v|i sons].
      - exists bs, V. split_and!; try done. intros x i sons y [Hx| ->%elem_of_list_singleton]%elem_of_app Lx Hy; [by eapply Hcl|].
        rewrite La in Lx. discriminate.
      - destruct (push_sons (D ++ [a]) a i sons Ha La ltac:(set_solver) sons bs V) as (bs1&V1&E3&H1&HV1&Hy1&Hj1); [done|done|].
        rewrite (bind_ok _ _ _ _ _ E3). exists bs1, V1. split_and!; [done|done| |rewrite Hj1 by lia; done].
        intros x j ss y [Hx| ->%elem_of_list_singleton]%elem_of_app Lx Hy.
        + apply HV1. by eapply Hcl.
        + rewrite La in Lx. simplify_eq. auto. }
    destruct Hstep as (bs1&V1&E3&H1&Hcl1&Hb1). rewrite (bind_ok _ _ _ _ _ E3).
    destruct (IH (dn ++ [a]) (D ++ [a]) bs1 V1 acc1) as (D'&bs'&V'&acc'&E4&H'&Hcl'&HP'&HD'&Hsub&Hall); try done.
    { subst b. by rewrite <- app_assoc. }
    { intros x Hx Hl. apply elem_of_app. left. auto. }
    { intros x [Hx| ->%elem_of_list_singleton]%elem_of_app; [|right; set_solver].
      destruct (HD x Hx); [by left|right; set_solver]. }
    { intros x [Hx| ->%elem_of_list_singleton]%elem_of_app; apply elem_of_app; [left; auto|right; constructor]. }
    exists D', bs', V', acc'. split_and!; try done. intros x Hx. apply Hsub. set_solver.
Qed.

Lemma reachable_parent x : reachable x -> x = root \/ exists p i sons, reachable p /\ L p = Some (Int i sons) /\ x ∈ sons.
Proof.
  intros H. assert (G : forall y, reach L y x -> reachable y -> x = y \/ exists p i sons, reachable p /\ L p = Some (Int i sons) /\ x ∈ sons).
  { clear H. intros y. induction 1 as [y|y z x i sons Ly Hz Hx IH]; intros Hy; [by left|]. right.
    destruct IH as [->|?]; [|by exists y, i, sons|done].
    eapply reach_trans; [exact Hy|by eapply reach_son]. }
  by apply (G root); [|constructor].
Qed.

Lemma reach_root_rank x : reachable x -> x = root \/ rk root < rk x.
Proof.
  intros H. assert (G : forall y, reach L y x -> reachable y -> x = y \/ rk y < rk x).
  { clear H. intros y. induction 1 as [y|y z x i sons Ly Hz Hx IH]; intros Hy; [by left|]. right.
    destruct (Hr y i sons z Hy Ly Hz). destruct IH as [->|?]; [|lia|lia].
    eapply reach_trans; [exact Hy|by eapply reach_son]. }
  apply (G root); [done|constructor].
Qed.

Lemma trav_levels_spec k : forall l D bs V acc, l + k = S N ->
  linv D bs V -> closed_under D V -> P D acc ->
  (forall x, reachable x -> rk x < l -> x ∈ D) -> (forall x, x ∈ D -> rk x < l) ->
  exists D' acc' V', trav_levels c op k l (bs, acc) (fs V s) = Ok acc' (fs V' s) /\ P D' acc' /\ NoDup D' /\
    (forall x, x ∈ D' <-> reachable x) /\ (forall x, x ∈ V' <-> reachable x).
Proof.
  induction k as [|k IH]; intros l D bs V acc Hk H Hcl HP Hlow HD; cbn [trav_levels].
  - assert (HR : forall x, x ∈ D <-> reachable x).
    { intros x. split; [intros Hx; by apply (li_V _ _ _ H), (li_D _ _ _ H)|]. intros Hx. apply Hlow; [done|].
      destruct (reachable_parent x Hx) as [->|(p&i&sons&Hp&Lp&Hxs)]; [lia|]. destruct (Hr p i sons x Hp Lp Hxs). lia. }
    exists D, acc, V. split_and!; [done|done|exact (li_nodup _ _ _ H)|done|]. intros x. split; [intros Hx; by apply (li_V _ _ _ H)|].
    intros Hx. by apply (li_D _ _ _ H), HR.
  - destruct (lookup_lt_is_Some_2 bs l) as [b Hb]; [rewrite (li_len _ _ _ H); lia|]. cbn [fst]. rewrite Hb.
    rewrite (bind_ok _ _ _ b (fs V s)) by done.
    destruct (visit_bucket l b b [] D bs V acc) as (D1&bs1&V1&acc1&E1&H1&Hcl1&HP1&HD1&Hsub1&Hall1); try done.
    { intros x Hx. left. auto. } { intros x Hx. by apply elem_of_nil in Hx. }
    rewrite (bind_ok _ _ _ _ _ E1).
    eapply IH; [lia|exact H1|exact Hcl1|exact HP1| |].
    + intros x Hx Hl. destruct (decide (rk x < l)) as [Hlt|Hge]; [auto|]. assert (Ex : rk x = l) by lia.
      assert (HxV : x ∈ V).
      { destruct (reachable_parent x Hx) as [->|(p&i&sons&Hp&Lp&Hxs)]; [exact (li_root _ _ _ H)|].
        destruct (Hr p i sons x Hp Lp Hxs). eapply Hcl; [|exact Lp|exact Hxs]. apply Hlow; [done|lia]. }
      destruct (li_V _ _ _ H x HxV) as [_ [HxD|(b'&Hb'&Hxb)]]; [auto|]. rewrite Ex, Hb in Hb'. simplify_eq. auto.
    + intros x Hx. destruct (HD1 x Hx) as [|Hxb]; [lia|]. destruct (li_b _ _ _ H _ _ _ Hb Hxb). lia.
Qed.

Lemma traverse_level_spec acc : P [] acc ->
  exists D acc', traverse_level c op acc root s = Ok acc' s /\ P D acc' /\ NoDup D /\ forall x, x ∈ D <-> reachable x.
Proof.
  intros HP. unfold traverse_level.
  assert (Hrr : reachable root) by constructor.
  pose proof (Hlev ∅ root Hrr) as E0. rewrite fs_empty in E0. rewrite (bind_ok _ _ _ _ _ E0).
  unfold push_at. rewrite lookup_replicate_2 by lia. unfold of_opt. rewrite (bind_ok _ _ _ (<[rk root := [] ++ [root]]> (replicate (S N) [])) s) by done.
  pose proof (toggle_fs s root mk Hu ∅ root Hrr ltac:(set_solver)) as E1. rewrite fs_empty in E1. rewrite (bind_ok _ _ _ _ _ E1).
  destruct (trav_levels_spec (S N - rk root) (rk root) [] (<[rk root := [] ++ [root]]> (replicate (S N) [])) ({[root]} ∪ ∅) acc)
    as (D&acc'&V'&E2&HP'&ND&HD&HV); try done.
  - lia.
  - constructor.
    + constructor.
    + intros x Hx. by apply elem_of_nil in Hx.
    + intros x Hx. assert (x = root) as -> by set_solver. split; [done|]. right. exists [root].
      rewrite list_lookup_insert by (rewrite replicate_length; lia). split; [done|constructor].
    + intros j b x Hb Hx. destruct (decide (j = rk root)) as [->|Hne].
      * rewrite list_lookup_insert in Hb by (rewrite replicate_length; lia). simplify_eq.
        apply elem_of_list_singleton in Hx as ->. split; [done|set_solver].
      * rewrite list_lookup_insert_ne in Hb by done. apply lookup_replicate in Hb as [-> _]. by apply elem_of_nil in Hx.
    + intros j b Hb. destruct (decide (j = rk root)) as [->|Hne].
      * rewrite list_lookup_insert in Hb by (rewrite replicate_length; lia). simplify_eq. apply NoDup_singleton.
      * rewrite list_lookup_insert_ne in Hb by done. apply lookup_replicate in Hb as [-> _]. constructor.
    + set_solver.
    + by rewrite insert_length, replicate_length.
  - intros x i sons y Hx. by apply elem_of_nil in Hx.
  - intros x Hx Hl. destruct (reach_root_rank x Hx) as [->|]; lia.
  - intros x Hx. by apply elem_of_nil in Hx.
  - rewrite (bind_ok _ _ _ _ _ E2).
    assert (EV : V' = list_to_set D) by (apply set_eq; intros x; rewrite elem_of_list_to_set, HD; apply HV). rewrite EV.
    rewrite (bind_ok _ _ _ _ _ (pre_restores s root mk rk N Hu Hr D (depth c) HD ltac:(unfold depth; lia))).
    by exists D, acc'.
Qed.
End level.
