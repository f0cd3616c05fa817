(** * transform, cofactors, expression trees *)

From stdpp Require Import gmap list.
From Coq Require Import ZArith Lia.
From Verif Require Import Base Ops Tables NodeManager Tools Sift DiagramManager.
From Verif Require Import Heap Inv InvLemmas Prim TabLemmas GC Make Build Apply Api Deferred.

Local Open Scope nat_scope.

(** [rho] with the first match of each variable *)
Definition updl (rho : asg) (vars : list (nat * nat)) : asg :=
  fun i => match find_var i vars with Some k => k | None => rho i end.

Section constr.
Context (c : cfg) (opsem : Z -> option (Z -> Z -> Z)) (strict : bool).
Notation rank := (rank c).
Notation WF := (WF c opsem strict).
Notation sstep := (sstep c opsem strict).
Notation bstep := (bstep c opsem strict).
Notation bres := (bres c opsem strict).
Notation allowed := (allowed strict).
Notation calm := (calm c opsem strict).
Notation anew := (anew c opsem strict).

(** memoised results realise [F] of their argument *)
Definition memo_ok (g : ghost) (s0 s : st) (F : positive -> asg -> Z -> Prop) (m : memo) : Prop :=
  forall a b, m !! a = Some b ->
    held g (s_heap s) b /\ rank g (s_heap s0) a <= rank g (s_heap s) b /\
    forall rho v, valid c rho -> F a rho v -> Ev (live (s_heap s)) b rho v.

Lemma memo_ok_step g s0 s s' F m : sstep g s s' -> memo_ok g s0 s F m -> memo_ok g s0 s' F m.
Proof.
  intros S H a b Hm. destruct (H a b Hm) as (H1&H2&H3). pose proof (ss_keeps _ _ _ _ _ _ S) as K.
  split_and!; [by apply K|by rewrite (keeps_rank c g _ _ _ K H1)|].
  intros. eapply keeps_Ev; eauto.
Qed.

Lemma memo_ok_insert g s0 s F m a b :
  memo_ok g s0 s F m -> held g (s_heap s) b -> rank g (s_heap s0) a <= rank g (s_heap s) b ->
  (forall rho v, valid c rho -> F a rho v -> Ev (live (s_heap s)) b rho v) ->
  memo_ok g s0 s F (<[a := b]> m).
Proof.
  unfold memo_ok, memo in *. intros H H1 H2 H3 a' b'. destruct (decide (a' = a)) as [->|Hne].
  - rewrite lookup_insert. intros; simplify_eq. auto.
  - rewrite lookup_insert_ne by done. apply H.
Qed.

Lemma memo_ok_insert_b g s0 s s1 F m a b :
  memo_ok g s0 s1 F m -> bstep g s s1 (rank g (s_heap s0) a) b (F a) ->
  memo_ok g s0 s1 F (<[a := b]> m).
Proof. intros H []. by apply memo_ok_insert. Qed.

(** the common part: rebuild a node from the results for its sons *)
Lemma rebuild_gen g s0 s F G a i sons m (f : memo -> positive -> M (memo * positive)) :
  wf_cfg c -> WF g s0 -> quiet g -> ord c g s0 -> sstep g s0 s ->
  held g (s_heap s0) a -> live (s_heap s0) a = Some (Int i sons) ->
  memo_ok g s0 s F m ->
  (forall m d s1, d ∈ sons -> sstep g s0 s1 -> memo_ok g s0 s1 F m ->
     held g (s_heap s0) d -> rank g (s_heap s0) a < rank g (s_heap s0) d ->
     wp allowed (f m d) (fun mb s2 => bstep g s1 s2 (S (rank g (s_heap s0) a)) (snd mb) (G d) /\
        memo_ok g s0 s2 F (fst mb)) s1) ->
  wp allowed (let* ms := mapMs f m sons in
              let* b := make_internal_node c i (snd ms) in ret (fst ms, b))
    (fun mb s2 => bstep g s s2 (rank g (s_heap s0) a) (snd mb)
         (fun rho v => exists d, sons !! rho i = Some d /\ G d rho v) /\
       memo_ok g s0 s2 F (fst mb)) s.
Proof.
  intros Hc W0 Hq O S Ha La Hm Hf. pose proof (ss_wf _ _ _ _ _ _ S) as W.
  destruct (wf_node _ _ _ _ _ W0 a _ La) as (Hi&Hlen&_&_).
  set (H := fun k rho v => exists d, sons !! k = Some d /\ G d rho v).
  apply wp_bind. eapply wp_mono.
  { apply (wp_mapMs allowed f (fun m acc s1 => bres g s s1 (g_lv g i) acc H /\ memo_ok g s0 s1 F m)).
    2:{ split; [by apply bres_nil|done]. }
    intros k d m1 acc s1 Hk Hacc [B Hm1].
    assert (Hd : d ∈ sons) by (by eapply elem_of_list_lookup_2).
    pose proof Hq as [Hdy _].
    destruct (wf_son _ _ _ _ _ _ _ _ d W0 La ltac:(rewrite Hdy; set_solver) Hd) as (_&Hr&_).
    pose proof (br_step _ _ _ _ _ _ _ _ _ B) as S1.
    eapply wp_mono.
    { apply Hf; try done; [by eapply sstep_trans|by eapply held_son]. }
    intros [m2 b] s2 [B2 Hm2]. simpl in *. split; [|done]. eapply bres_snoc; [exact B|].
    rewrite (rank_int c g _ _ _ _ Hq La) in B2.
    eapply bstep_weaken; [exact B2|lia|]. intros rho v Hv (d'&Hd'&HF). rewrite Hacc in Hd'.
    congruence. }
  intros [m1 acc] s1 [[B Hm1] Hacc]. simpl in *. apply wp_bind.
  pose proof (br_step _ _ _ _ _ _ _ _ _ B) as S1.
  eapply wp_mono.
  { eapply (bres_make c opsem strict g s s1 i acc); [done|done| |done|lia|exact B].
    eapply ord_sstep; [|exact O]. by eapply sstep_trans. }
  intros b s2 [B2 S2]. apply wp_ret. simpl. rewrite (rank_int c g _ _ _ _ Hq La). split; [exact B2|].
  by eapply memo_ok_step.
Qed.

Lemma rebuild_spec g s0 s F a i sons m (f : memo -> positive -> M (memo * positive)) :
  wf_cfg c -> WF g s0 -> quiet g -> ord c g s0 -> sstep g s0 s ->
  held g (s_heap s0) a -> live (s_heap s0) a = Some (Int i sons) ->
  memo_ok g s0 s F m ->
  (forall m d s1, d ∈ sons -> sstep g s0 s1 -> memo_ok g s0 s1 F m ->
     held g (s_heap s0) d -> rank g (s_heap s0) a < rank g (s_heap s0) d ->
     wp allowed (f m d) (fun mb s2 => bstep g s1 s2 (rank g (s_heap s0) d) (snd mb) (F d) /\
        memo_ok g s0 s2 F (fst mb)) s1) ->
  wp allowed (let* ms := mapMs f m sons in
              let* b := make_internal_node c i (snd ms) in ret (fst ms, b))
    (fun mb s2 => bstep g s s2 (rank g (s_heap s0) a) (snd mb)
         (fun rho v => exists d, sons !! rho i = Some d /\ F d rho v) /\
       memo_ok g s0 s2 F (fst mb)) s.
Proof.
  intros Hc W0 Hq O S Ha La Hm Hf. apply (rebuild_gen g s0 s F F); try done.
  intros m1 d s1 Hd S1 Hm1 Hhd Hr. eapply wp_mono; [by apply Hf|]. intros mb s2 [B Hm2].
  split; [|done]. eapply bstep_weaken; [exact B|lia|done].
Qed.

(** ** transform *)

Definition mapped (L : positive -> option body) (f : Z -> Z) (a : positive) : asg -> Z -> Prop :=
  fun rho v => exists x, Ev L a rho x /\ v = f x.

Lemma held_son_all g s a i sons d :
  WF g s -> quiet g -> held g (s_heap s) a -> live (s_heap s) a = Some (Int i sons) -> d ∈ sons ->
  held g (s_heap s) d /\ rank g (s_heap s) a < rank g (s_heap s) d.
Proof.
  intros W [Hdy _] Ha La Hd.
  destruct (wf_son _ _ _ _ _ _ _ _ d W La ltac:(rewrite Hdy; set_solver) Hd) as (_&Hr&_).
  split; [by eapply held_son|done].
Qed.

Lemma transform_impl_spec f g s0 fuel :
  wf_cfg c -> WF g s0 -> quiet g -> ord c g s0 ->
  forall a m s, sstep g s0 s -> held g (s_heap s0) a ->
  (forall rho x, valid c rho -> Ev (live (s_heap s0)) a rho x -> tval c (f x)) ->
  memo_ok g s0 s (mapped (live (s_heap s0)) f) m ->
  nvars c - rank g (s_heap s0) a < fuel ->
  wp allowed (transform_impl c fuel f m a) (fun mb s2 =>
    bstep g s s2 (rank g (s_heap s0) a) (snd mb) (mapped (live (s_heap s0)) f a) /\
    memo_ok g s0 s2 (mapped (live (s_heap s0)) f) (fst mb)) s.
Proof.
  intros Hc W0 Hq O. induction fuel as [|fuel IH]; intros a m s S Ha Hf Hm Hfuel; [lia|].
  cbn [transform_impl]. pose proof (ss_wf _ _ _ _ _ _ S) as W.
  pose proof (ss_keeps _ _ _ _ _ _ S) as K.
  destruct (m !! a) as [b|] eqn:Em.
  { apply wp_ret. simpl. split; [|done]. destruct (Hm a b Em) as (?&?&?). by apply bstep_same. }
  destruct (held_live _ _ _ _ _ _ W0 Ha) as [Hl Hd]. destruct (K a Ha) as [Ha1 La1].
  apply wp_bind. destruct (live (s_heap s0) a) as [[v|i sons]|] eqn:La; [| |done].
  - eapply wp_getn_live; [done|]. intros n _ _ ->. apply wp_bind.
    eapply wp_mono.
    { apply (bstep_terminal c opsem strict g s (f v)); try done; [by eapply ord_sstep|].
      apply (Hf (fun _ => 0)); [by apply valid_ex|by apply Ev_term]. }
    intros b s1 B. apply wp_ret. simpl. split; [|eapply memo_ok_step; [apply B|done]].
    eapply bstep_weaken; [exact B| |].
    + rewrite (rank_term c g _ _ _ Hq La). done.
    + intros rho w Hv (x&Hx&->). inversion Hx; congruence.
  - eapply wp_getn_live; [done|]. intros n _ _ ->.
    pose proof (rebuild_spec g s0 s (mapped (live (s_heap s0)) f) a i sons m (transform_impl c fuel f)
      Hc W0 Hq O S Ha La Hm) as RB.
    eapply (wp_ext allowed _ (let* mb := (let* ms := mapMs (transform_impl c fuel f) m sons in
              let* b := make_internal_node c i (snd ms) in ret (fst ms, b)) in
              ret (<[a := snd mb]> (fst mb), snd mb))).
    { unfold bind. destruct (mapMs _ m sons s); try done. destruct (make_internal_node _ _ _ _); done. }
    apply wp_bind. eapply wp_mono; [apply RB|].
    { intros m1 d s1 Hin S1 Hm1 Hd1 Hr. destruct (wf_node _ _ _ _ _ W0 a _ La) as (_&_&?&_).
      apply IH; try done; [|lia]. intros rho x Hv Hx.
      apply elem_of_list_lookup in Hin as [k Hk].
      destruct (wf_node _ _ _ _ _ W0 a _ La) as (Hi&Hlen&_&_).
      apply (Hf (upd rho i k)).
      - apply valid_upd; [done|]. rewrite <- Hlen. by eapply lookup_lt_Some.
      - eapply Ev_int; [done|by rewrite upd_same|].
        apply (Ev_deeper c opsem strict g s0); try done; [by eapply held_live|].
        by rewrite <- (rank_int c g _ _ _ _ Hq La). }
    intros [m1 b] s1 [B Hm1]. simpl in *. apply wp_ret. simpl.
    assert (B' : bstep g s s1 (rank g (s_heap s0) a) b (mapped (live (s_heap s0)) f a)).
    { eapply bstep_weaken; [exact B|done|]. intros rho w Hv (x&Hx&->).
      inversion Hx as [|? ? ? ? d ? La' Hsd Hd']; simplify_eq. exists d. split; [done|]. by exists x. }
    split; [done|]. by eapply memo_ok_insert_b.
Qed.

Lemma memo_ok_empty g s0 s F : memo_ok g s0 s F ∅.
Proof. intros a b. unfold memo. rewrite lookup_empty. done. Qed.

Lemma transform_spec f g a s :
  wf_cfg c -> calm g s -> idle s -> 0 < g_ext g a ->
  (forall rho x, valid c rho -> Ev (live (s_heap s)) a rho x -> tval c (f x)) ->
  wp allowed (transform c f a) (anew true g s (mapped (live (s_heap s)) f a)) s.
Proof.
  intros Hc C Hm Ha Hf. unfold transform. apply wp_bind. eapply wp_mono.
  { apply (transform_impl_spec f g s (S (nvars c))); try done; try apply C.
    - apply sstep_refl, C.
    - eapply ext_held; [apply C|done].
    - lia. }
  intros [m b] s1 [B _]. simpl in *. apply run_deferred_calm; [by eapply calm_defer_bstep|].
  by eapply new_handle_spec.
Qed.

(** ** Cofactor by one variable *)

Definition cofactored (L : positive -> option body) (vi vv : nat) (a : positive) : asg -> Z -> Prop :=
  fun rho v => Ev L a (upd rho vi vv) v.

Lemma cofactor_impl_spec vi vv g s0 fuel :
  wf_cfg c -> WF g s0 -> quiet g -> ord c g s0 -> vv < dom c vi ->
  forall a m s, sstep g s0 s -> held g (s_heap s0) a ->
  memo_ok g s0 s (cofactored (live (s_heap s0)) vi vv) m ->
  nvars c - rank g (s_heap s0) a < fuel ->
  wp allowed (cofactor_impl c fuel vi vv m a) (fun mb s2 =>
    bstep g s s2 (rank g (s_heap s0) a) (snd mb) (cofactored (live (s_heap s0)) vi vv a) /\
    memo_ok g s0 s2 (cofactored (live (s_heap s0)) vi vv) (fst mb)) s.
Proof.
  intros Hc W0 Hq O Hf. induction fuel as [|fuel IH]; intros a m s S Ha Hm Hfuel; [lia|].
  cbn [cofactor_impl]. pose proof (ss_wf _ _ _ _ _ _ S) as W.
  pose proof (ss_keeps _ _ _ _ _ _ S) as K.
  destruct (m !! a) as [b|] eqn:Em.
  { apply wp_ret. simpl. split; [|done]. destruct (Hm a b Em) as (?&?&?). by apply bstep_same. }
  destruct (held_live _ _ _ _ _ _ W0 Ha) as [Hl Hd]. destruct (K a Ha) as [Ha1 La1].
  apply wp_bind. destruct (live (s_heap s0) a) as [[v|i sons]|] eqn:La; [| |done].
  - eapply wp_getn_live; [done|]. intros n _ _ ->. apply wp_ret. simpl. split; [|done].
    apply bstep_same; try done.
    + by rewrite (keeps_rank c g _ _ _ K Ha).
    + intros rho w Hv Hx. eapply keeps_Ev; [done|done|]. inversion Hx; simplify_eq. by apply Ev_term.
  - eapply wp_getn_live; [done|]. intros n _ _ ->.
    destruct (wf_node _ _ _ _ _ W0 a _ La) as (Hi&Hlen&_&_).
    destruct (Nat.eqb_spec i vi) as [->|Hne].
    { destruct (lookup_lt_is_Some_2 sons vv) as [d Hd']; [lia|].
      apply wp_bind. eapply wp_of_opt; [done|]. apply wp_ret. simpl. split; [|done].
      assert (Hin : d ∈ sons) by (by eapply elem_of_list_lookup_2).
      destruct (held_son_all g s0 a vi sons d W0 Hq Ha La Hin) as [Hhd Hrd].
      apply bstep_same; [done|by apply K| |].
      - rewrite (keeps_rank c g _ _ _ K Hhd). lia.
      - intros rho w Hv Hx. eapply keeps_Ev; [done|done|].
        rewrite (rank_int c g _ _ _ _ Hq La) in Hrd.
        apply (Ev_deeper c opsem strict g s0 d rho vi vv w W0 Hq); try done; [by eapply held_live|].
        inversion Hx; simplify_eq. rewrite upd_same in *. simplify_eq. done. }
    pose proof (rebuild_spec g s0 s (cofactored (live (s_heap s0)) vi vv) a i sons m (cofactor_impl c fuel vi vv)
      Hc W0 Hq O S Ha La Hm) as RB.
    eapply (wp_ext allowed _ (let* mb := (let* ms := mapMs (cofactor_impl c fuel vi vv) m sons in
              let* b := make_internal_node c i (snd ms) in ret (fst ms, b)) in
              ret (<[a := snd mb]> (fst mb), snd mb))).
    { unfold bind. destruct (mapMs _ m sons s); try done. destruct (make_internal_node _ _ _ _); done. }
    apply wp_bind. eapply wp_mono; [apply RB|].
    { intros m1 d s1 Hin S1 Hm1 Hd1 Hr. destruct (wf_node _ _ _ _ _ W0 a _ La) as (_&_&?&_).
      apply IH; try done. lia. }
    intros [m1 b] s1 [B Hm1]. simpl in *. apply wp_ret. simpl.
    assert (B' : bstep g s s1 (rank g (s_heap s0) a) b (cofactored (live (s_heap s0)) vi vv a)).
    { eapply bstep_weaken; [exact B|done|]. intros rho w Hv Hx.
      inversion Hx as [|? ? ? ? d ? La' Hsd Hd']; simplify_eq. rewrite upd_other in Hsd by done.
      exists d. split; done. }
    split; [done|]. by eapply memo_ok_insert_b.
Qed.

(** a new handle, after which a deferred reordering may have taken place *)
Definition anew_deferred (g : ghost) (s : st) (F : asg -> Z -> Prop) (b : positive) (s' : st) : Prop :=
  exists s2, anew true g s F b s2 /\ (s' = s2 \/ after_deferred c opsem strict (g_inc b g) s2 s').

Lemma anew_deferred_idle g s F b s' : idle s -> anew_deferred g s F b s' -> anew true g s F b s'.
Proof.
  intros Hm (s2&A&[->|D]); [done|]. unfold after_deferred in D.
  rewrite (anew_defer c opsem strict true g s F b s2 A Hm) in D. by rewrite D.
Qed.

Lemma anew_run_deferred g s F b s2 :
  wf_cfg c -> anew true g s F b s2 ->
  wp allowed (let* _ := run_deferred c in ret b) (anew_deferred g s F) s2.
Proof.
  intros Hc A. apply wp_bind. eapply wp_mono; [apply (run_deferred_spec c opsem strict (g_inc b g) s2 Hc); apply A|].
  intros [] s3 D. apply wp_ret. exists s2. auto.
Qed.

Lemma wp_anew_deferred g s F m :
  wp allowed m (anew true g s F) s -> wp allowed m (anew_deferred g s F) s.
Proof. intros H. eapply wp_mono; [exact H|]. intros b s2 A. exists s2. auto. Qed.

(** get_cofactor and get_cofactors on a terminal copy the handle *)
Lemma copy_new_spec g s a (F : asg -> Z -> Prop) :
  calm g s -> 0 < g_ext g a ->
  (forall rho v, valid c rho -> F rho v -> Ev (live (s_heap s)) a rho v) ->
  wp allowed (let* _ := diagram_copy a in ret a) (anew true g s F) s.
Proof.
  intros C Ha HF. apply wp_bind. eapply wp_mono; [by apply (copy_spec c opsem strict g a s)|].
  intros _ s1 [A E]. apply wp_ret. constructor; [done|]. intros rho v Hv HF'. apply E. auto.
Qed.

Lemma get_cofactor_gen vi vv g a s :
  wf_cfg c -> calm g s -> 0 < g_ext g a -> vv < dom c vi ->
  wp allowed (get_cofactor c a vi vv) (anew_deferred g s (cofactored (live (s_heap s)) vi vv a)) s.
Proof.
  intros Hc C Ha Hvv. unfold get_cofactor. pose proof (cl_wf _ _ _ _ _ C) as W.
  pose proof (cl_quiet _ _ _ _ _ C) as Hq.
  pose proof (ext_held c opsem strict g s a W Ha) as Hh.
  destruct (held_live _ _ _ _ _ _ W Hh) as [Hl Hd]. apply wp_bind.
  destruct (live (s_heap s) a) as [[v|i sons]|] eqn:La; [| |done].
  - eapply wp_getn_live; [done|]. intros n _ _ ->. apply wp_anew_deferred, copy_new_spec; try done.
    intros rho w Hv Hx. inversion Hx; simplify_eq. by apply Ev_term.
  - eapply wp_getn_live; [done|]. intros n _ _ ->.
    destruct (wf_node _ _ _ _ _ W a _ La) as (Hi&Hlen&_&_).
    destruct (Nat.eqb_spec i vi) as [->|Hne].
    { destruct (lookup_lt_is_Some_2 sons vv) as [d Hd']; [lia|].
      apply wp_bind. eapply wp_of_opt; [done|].
      assert (Hin : d ∈ sons) by (by eapply elem_of_list_lookup_2).
      destruct (held_son_all g s a vi sons d W Hq Hh La Hin) as [Hhd Hrd].
      apply wp_anew_deferred. eapply new_handle_spec; [done|].
      apply (bstep_same c opsem strict g s d 0); [done|done|lia|].
      intros rho w Hv Hx.
      rewrite (rank_int c g _ _ _ _ Hq La) in Hrd.
      apply (Ev_deeper c opsem strict g s d rho vi vv w W Hq); try done; [by eapply held_live|].
      inversion Hx; simplify_eq. rewrite upd_same in *. simplify_eq. done. }
    apply wp_bind. eapply wp_mono.
    { apply (cofactor_impl_spec vi vv g s (S (nvars c))); try done; try apply C; try (by apply sstep_refl); lia. }
    intros [m b] s1 [B _]. simpl in *. apply wp_bind. eapply new_handle_of; [done|exact B|].
    intros s2 A. by apply anew_run_deferred.
Qed.

Lemma get_cofactor_spec vi vv g a s :
  wf_cfg c -> calm g s -> idle s -> 0 < g_ext g a -> vv < dom c vi ->
  wp allowed (get_cofactor c a vi vv) (anew true g s (cofactored (live (s_heap s)) vi vv a)) s.
Proof.
  intros Hc C Hm Ha Hvv. eapply wp_mono; [by apply (get_cofactor_gen vi vv g a s)|].
  intros b s' D. by apply anew_deferred_idle.
Qed.

(** ** Cofactor by several variables *)

Definition cofactoredl (L : positive -> option body) (vars : list (nat * nat)) (a : positive)
  : asg -> Z -> Prop :=
  fun rho v => Ev L a (updl rho vars) v.

(** entries of [vars] at or below [r] *)
Definition pending (g : ghost) (vars : list (nat * nat)) (r : nat) : nat :=
  length (List.filter (fun p => r <=? g_lv g (fst p)) vars).

Lemma pending_mono g vars r r' : r <= r' -> pending g vars r' <= pending g vars r.
Proof.
  intros H. unfold pending. induction vars as [|p vars IH]; simpl; [done|].
  destruct (Nat.leb_spec r' (g_lv g (fst p))); destruct (Nat.leb_spec r (g_lv g (fst p))); simpl; lia.
Qed.

Lemma find_var_In i k vars : find_var i vars = Some k -> (i, k) ∈ vars.
Proof.
  unfold find_var. destruct (List.find _ vars) as [[j x]|] eqn:E; [|done]. intros [= <-].
  apply find_some in E as [E1 E2]. simpl in *. apply Nat.eqb_eq in E2 as ->. by apply elem_of_list_In.
Qed.

Lemma pending_step g vars i k r : find_var i vars = Some k -> g_lv g i < r ->
  S (pending g vars r) <= pending g vars (g_lv g i).
Proof.
  intros Hf Hr. apply find_var_In in Hf. unfold pending.
  induction vars as [|p vars IH]; [set_solver|]. simpl.
  apply elem_of_cons in Hf as [<-|Hf].
  - simpl. destruct (Nat.leb_spec r (g_lv g i)); [lia|]. destruct (Nat.leb_spec (g_lv g i) (g_lv g i)); [|lia].
    simpl. pose proof (pending_mono g vars (g_lv g i) r ltac:(lia)). unfold pending in *. lia.
  - specialize (IH Hf).
    destruct (Nat.leb_spec r (g_lv g (fst p))); destruct (Nat.leb_spec (g_lv g i) (g_lv g (fst p))); simpl; lia.
Qed.

Lemma pending_zero g vars r i k : pending g vars r = 0 -> find_var i vars = Some k -> g_lv g i < r.
Proof.
  intros H Hf. apply find_var_In in Hf. unfold pending in H.
  destruct (Nat.lt_ge_cases (g_lv g i) r); [done|].
  assert (In (i, k) (List.filter (fun p => r <=? g_lv g (fst p)) vars)) as Hin.
  { apply filter_In. split; [by apply elem_of_list_In|]. simpl. by apply Nat.leb_le. }
  destruct (List.filter _ vars); [done|simpl in H; lia].
Qed.

(** nothing of [vars] occurs below: the assignment does not matter *)
Lemma pending_Ev g s vars a rho v :
  WF g s -> quiet g -> live (s_heap s) a <> None -> pending g vars (rank g (s_heap s) a) = 0 ->
  Ev (live (s_heap s)) a (updl rho vars) v -> Ev (live (s_heap s)) a rho v.
Proof.
  intros W Hq La Hp. apply Ev_vars. intros b i sons Hb Lb. unfold updl.
  destruct (find_var i vars) as [k|] eqn:Ef; [|done]. exfalso.
  pose proof (pending_zero g vars _ i k Hp Ef) as Hlt. pose proof Hq as [Hdy _].
  destruct (wf_reach _ _ _ g s a b W La) as (_&_&Hr); [rewrite Hdy; set_solver|done|].
  pose proof (rank_int c g _ _ _ _ Hq Lb). destruct Hr as [->|]; lia.
Qed.

Lemma cofactors_impl_spec vars g s0 fuel :
  wf_cfg c -> WF g s0 -> quiet g -> ord c g s0 -> Forall (fun p => snd p < dom c (fst p)) vars ->
  forall todo a m s, sstep g s0 s -> held g (s_heap s0) a ->
  memo_ok g s0 s (cofactoredl (live (s_heap s0)) vars) m ->
  pending g vars (rank g (s_heap s0) a) <= todo ->
  nvars c - rank g (s_heap s0) a < fuel ->
  wp allowed (cofactors_impl c fuel vars todo m a) (fun mb s2 =>
    bstep g s s2 (rank g (s_heap s0) a) (snd mb) (cofactoredl (live (s_heap s0)) vars a) /\
    memo_ok g s0 s2 (cofactoredl (live (s_heap s0)) vars) (fst mb)) s.
Proof.
  intros Hc W0 Hq O Hf. induction fuel as [|fuel IH]; intros todo a m s S Ha Hm Hp Hfuel; [lia|].
  cbn [cofactors_impl]. pose proof (ss_wf _ _ _ _ _ _ S) as W.
  pose proof (ss_keeps _ _ _ _ _ _ S) as K.
  destruct (held_live _ _ _ _ _ _ W0 Ha) as [Hl Hd]. destruct (K a Ha) as [Ha1 La1].
  assert (Hsame : (forall rho v, valid c rho -> cofactoredl (live (s_heap s0)) vars a rho v ->
      Ev (live (s_heap s0)) a rho v) ->
     bstep g s s (rank g (s_heap s0) a) a (cofactoredl (live (s_heap s0)) vars a)).
  { intros HE. apply bstep_same; try done.
    - by rewrite (keeps_rank c g _ _ _ K Ha).
    - intros. eapply keeps_Ev; eauto. }
  destruct (Nat.eqb_spec todo 0) as [->|Htodo].
  { apply wp_ret. simpl. split; [|done]. apply Hsame. intros rho v Hv Hx.
    eapply pending_Ev; try done. lia. }
  destruct (m !! a) as [b|] eqn:Em.
  { apply wp_ret. simpl. split; [|done]. destruct (Hm a b Em) as (?&?&?). by apply bstep_same. }
  apply wp_bind. destruct (live (s_heap s0) a) as [[v|i sons]|] eqn:La; [| |done].
  - eapply wp_getn_live; [done|]. intros n _ _ ->. apply wp_ret. simpl. split; [|done].
    apply Hsame. intros rho w Hv Hx. inversion Hx; simplify_eq. by apply Ev_term.
  - eapply wp_getn_live; [done|]. intros n _ _ ->.
    destruct (wf_node _ _ _ _ _ W0 a _ La) as (Hi&Hlen&_&_).
    apply wp_bind.
    match goal with |- wp _ _ ?Q _ => apply (wp_mono _ _ (fun mb s2 =>
       bstep g s s2 (rank g (s_heap s0) a) (snd mb) (cofactoredl (live (s_heap s0)) vars a) /\
       memo_ok g s0 s2 (cofactoredl (live (s_heap s0)) vars) (fst mb)) Q) end.
    2:{ intros [m1 b] s1 [B Hm1]. apply wp_ret. simpl in *. split; [done|].
        by eapply memo_ok_insert_b. }
    destruct (find_var i vars) as [k|] eqn:Ef.
    + pose proof (find_var_In _ _ _ Ef) as Hin. rewrite Forall_forall in Hf.
      pose proof (Hf _ Hin) as Hk. simpl in Hk.
      destruct (lookup_lt_is_Some_2 sons k) as [d Hd']; [lia|].
      apply wp_bind. eapply wp_of_opt; [done|].
      assert (Hind : d ∈ sons) by (by eapply elem_of_list_lookup_2).
      destruct (held_son_all g s0 a i sons d W0 Hq Ha La Hind) as [Hhd Hrd].
      pose proof Hrd as Hrd'. rewrite (rank_int c g _ _ _ _ Hq La) in Hrd', Hp.
      pose proof (pending_step g vars i k _ Ef Hrd') as Hps.
      destruct (wf_node _ _ _ _ _ W0 a _ La) as (_&_&?&_).
      eapply wp_mono; [apply IH; try done; lia|].
      intros [m1 b] s1 [B Hm1]. simpl in *. split; [|done].
      eapply bstep_weaken; [exact B|lia|]. intros rho w Hv Hx.
      unfold cofactoredl in *. inversion Hx as [|? ? ? ? d' ? La' Hsd Hd2]; simplify_eq.
      unfold updl at 1 in Hsd. rewrite Ef in Hsd. simplify_eq. done.
    + eapply wp_mono.
      { apply (rebuild_spec g s0 s (cofactoredl (live (s_heap s0)) vars) a i sons m
          (cofactors_impl c fuel vars todo) Hc W0 Hq O S Ha La Hm).
        intros m1 d s1 Hin S1 Hm1 Hd1 Hr. destruct (wf_node _ _ _ _ _ W0 a _ La) as (_&_&?&_).
        apply IH; try done; [|lia].
        pose proof (pending_mono g vars (rank g (s_heap s0) a) (rank g (s_heap s0) d)). lia. }
      intros [m1 b] s1 [B Hm1]. simpl in *. split; [|done].
      eapply bstep_weaken; [exact B|done|]. intros rho w Hv Hx.
      unfold cofactoredl in *. inversion Hx as [|? ? ? ? d' ? La' Hsd Hd2]; simplify_eq.
      unfold updl at 1 in Hsd. rewrite Ef in Hsd. eauto.
Qed.

Lemma get_cofactors_gen vars g a s :
  wf_cfg c -> calm g s -> 0 < g_ext g a -> Forall (fun p => snd p < dom c (fst p)) vars ->
  wp allowed (get_cofactors c a vars) (anew_deferred g s (cofactoredl (live (s_heap s)) vars a)) s.
Proof.
  intros Hc C Ha Hvars. unfold get_cofactors. pose proof (cl_wf _ _ _ _ _ C) as W.
  pose proof (cl_quiet _ _ _ _ _ C) as Hq.
  pose proof (ext_held c opsem strict g s a W Ha) as Hh.
  destruct (held_live _ _ _ _ _ _ W Hh) as [Hl Hd]. apply wp_bind.
  destruct (live (s_heap s) a) as [[v|i sons]|] eqn:La; [| |done].
  - eapply wp_getn_live; [done|]. intros n _ _ ->. apply wp_anew_deferred, copy_new_spec; try done.
    intros rho w Hv Hx. inversion Hx; simplify_eq. by apply Ev_term.
  - eapply wp_getn_live; [done|]. intros n _ _ ->.
    destruct (wf_node _ _ _ _ _ W a _ La) as (Hi&Hlen&_&_).
    assert (Hgo : forall root todo, held g (s_heap s) root ->
      pending g vars (rank g (s_heap s) root) <= todo ->
      (forall rho v, cofactoredl (live (s_heap s)) vars a rho v ->
         cofactoredl (live (s_heap s)) vars root rho v) ->
      wp allowed (let* mb := cofactors_impl c (S (nvars c)) vars todo ∅ root in
        let* _ := diagram_of (snd mb) in let* _ := run_deferred c in ret (snd mb))
        (anew_deferred g s (cofactoredl (live (s_heap s)) vars a)) s).
    { intros root todo Hr Hp HF. apply wp_bind. eapply wp_mono.
      { apply (cofactors_impl_spec vars g s (S (nvars c))); try done; try apply C; try (by apply sstep_refl); lia. }
      intros [m b] s1 [B _]. simpl in *. apply wp_bind.
      eapply (new_handle_of c opsem strict g s s1 _ b (cofactoredl (live (s_heap s)) vars a));
        [done|eapply bstep_weaken; [exact B|done|by auto]|].
      intros s2 A. by apply anew_run_deferred. }
    assert (Hlen' : forall r, pending g vars r <= length vars).
    { intros r. unfold pending. clear. induction vars as [|p l IH]; simpl; [done|]. destruct (_ <=? _); simpl; lia. }
    apply wp_bind. destruct (find_var i vars) as [k|] eqn:Ef.
    + pose proof (find_var_In _ _ _ Ef) as Hin. rewrite Forall_forall in Hvars.
      pose proof (Hvars _ Hin) as Hk. simpl in Hk.
      destruct (lookup_lt_is_Some_2 sons k) as [d Hd']; [lia|].
      apply wp_bind. eapply wp_of_opt; [done|]. apply wp_ret. simpl.
      assert (Hind : d ∈ sons) by (by eapply elem_of_list_lookup_2).
      destruct (held_son_all g s a i sons d W Hq Hh La Hind) as [Hhd Hrd].
      apply Hgo; [done| |].
      * rewrite (rank_int c g _ _ _ _ Hq La) in Hrd.
        pose proof (pending_step g vars i k _ Ef Hrd). pose proof (Hlen' (g_lv g i)). lia.
      * intros rho w Hx. unfold cofactoredl in *. inversion Hx as [|? ? ? ? d' ? La' Hsd Hd2]; simplify_eq.
        unfold updl at 1 in Hsd. rewrite Ef in Hsd. simplify_eq. done.
    + apply wp_ret. simpl. by apply Hgo.
Qed.

Lemma get_cofactors_spec vars g a s :
  wf_cfg c -> calm g s -> idle s -> 0 < g_ext g a -> Forall (fun p => snd p < dom c (fst p)) vars ->
  wp allowed (get_cofactors c a vars) (anew true g s (cofactoredl (live (s_heap s)) vars a)) s.
Proof.
  intros Hc C Hm Ha Hvars. eapply wp_mono; [by apply (get_cofactors_gen vars g a s)|].
  intros b s' D. by apply anew_deferred_idle.
Qed.

End constr.
