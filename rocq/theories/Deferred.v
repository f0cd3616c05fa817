(** * Deferred reordering: run_deferred in a state with pending work *)

From stdpp Require Import gmap list.
From Coq Require Import ZArith Lia.
From Verif Require Import Base Ops Tables NodeManager Tools Sift DiagramManager.
From Verif Require Import Heap Inv InvLemmas Prim TabLemmas GC Make Build Apply Api.
From Verif Require Import SwapProof SwapNode SwapVar SiftProof.

Local Open Scope nat_scope.

Section deferred.
Context (c : cfg) (opsem : Z -> option (Z -> Z -> Z)) (strict : bool).
Notation WF := (WF c opsem strict).
Notation allowed := (allowed strict).
Notation calm := (calm c opsem strict).

(** what a deferred reordering does to the diagrams that have a handle *)
Record dstep (g g' : ghost) (s s' : st) : Prop := {
  ds_calm : calm g' s';
  ds_ext : g_ext g' = g_ext g;
  ds_funs : forall r rho v, 0 < g_ext g r -> valid c rho ->
    Ev (live (s_heap s)) r rho v -> Ev (live (s_heap s')) r rho v;
  ds_clean : clean s -> clean s';
  ds_cm : g_cm g' = CValid;
  ds_empty : forall k e, a_ents (s_cache s') !! k <> Some (Some e);
  ds_auto : s_auto s' = s_auto s;
  ds_defer : s_defer s' = false
}.

Definition after_deferred (g : ghost) (s s' : st) : Prop :=
  if s_defer s then exists g', dstep g g' s s' else s' = s.

Lemma WF_set_defer g s b : WF g s -> WF g (set_defer b s).
Proof. intros W. by destruct W. Qed.

Lemma WF_cleared g s : WF g s -> WF (g_set_cm CEmpty g) (set_cache (cache_cleared (s_cache s)) s).
Proof.
  intros W. destruct W. constructor; try done. destruct wf_cache as (Hc1&Hc2&_).
  split_and!; [done|simpl; by rewrite replicate_length|]. simpl. intros k e He.
  apply lookup_replicate in He as [? ?]. done.
Qed.

Lemma WF_empty_valid g s : WF g s -> g_cm g = CEmpty -> WF (g_set_cm CValid g) s.
Proof.
  intros W E. destruct W. constructor; try done. destruct wf_cache as (Hc1&Hc2&Hc3). rewrite E in Hc3.
  split_and!; [done|done|]. simpl. intros k e He. by destruct (Hc3 k e).
Qed.

Lemma sift_variables_gen g s :
  wf_cfg c -> sifting c opsem strict g s ->
  wp allowed (sift_variables c) (fun _ s' => exists g' s1, vstep c opsem strict g g' s s1 /\ s' = set_defer false s1) s.
Proof.
  intros Hc SF. assert (Hdom : forall i, i < nvars c -> 0 < dom c i) by (intros i Hi; apply (wc_dom _ Hc i Hi)).
  unfold sift_variables. apply wp_bind.
  eapply wp_mono; [apply determine_sift_order_spec; apply (wf_ntabs _ _ _ _ _ (sf_wf _ _ _ _ _ SF))|].
  intros l s' (->&P&_). apply wp_bind. eapply wp_mono.
  { apply (place_variables_spec c opsem strict Hdom l g s SF). intros p Hp. rewrite P in Hp.
    apply elem_of_list_fmap in Hp as (i&->&Hi). apply elem_of_seq in Hi. simpl. lia. }
  intros _ s1 (g1&V1). apply wp_modify. eauto.
Qed.

Lemma run_deferred_spec g s : wf_cfg c -> calm g s ->
  wp allowed (run_deferred c) (fun _ s' => after_deferred g s s') s.
Proof.
  intros Hc C. unfold run_deferred, after_deferred. apply wp_bind, wp_gets.
  destruct (s_defer s) eqn:Ed; [|by apply wp_ret].
  pose proof (cl_quiet _ _ _ _ _ C) as Hq. pose proof (cl_ord _ _ _ _ _ C) as O.
  assert (W0 : WF (g_set_cm CNone g) s) by (apply WF_set_cm; [apply C|by left]).
  apply wp_bind. eapply wp_mono.
  { apply (collect_garbage_spec c opsem strict allowed (g_set_cm CNone g) s W0); [done|apply Hq|by eapply ord_perm]. }
  intros [] s1 (W1&G1&_). apply wp_bind. unfold cache_clear. apply wp_modify.
  pose proof (WF_cleared _ _ W1) as W2. set (s2 := set_cache _ s1) in *.
  change (WF (g_set_cm CEmpty g) s2) in W2. set (g2 := g_set_cm CEmpty g) in *.
  assert (O2 : ord c g2 s2).
  { destruct O as [P O]. split; [by apply (perm_same c s); [apply (gr_l2i _ _ _ G1)|apply (gr_i2l _ _ _ G1)|]|].
    simpl. by rewrite (gr_i2l _ _ _ G1). }
  assert (SF : sifting c opsem strict g2 s2) by (by constructor).
  eapply wp_mono; [by apply (sift_variables_gen g2 s2)|]. intros [] s' (g'&s3&V&->).
  pose proof (vs_cm _ _ _ _ _ _ _ V) as Ecm. simpl in Ecm.
  exists (g_set_cm CValid g'). constructor; simpl.
  - constructor.
    + apply WF_set_defer, WF_empty_valid; [apply V|done].
    + apply V.
    + destruct (vs_ord _ _ _ _ _ _ _ V) as [P' O']. split; [by destruct P'|done].
  - apply (vs_ext _ _ _ _ _ _ _ V).
  - intros r rho v Hr Hv HE. apply (vs_funs _ _ _ _ _ _ _ V); [done|done|]. simpl.
    eapply keeps_Ev; [apply (gr_keeps _ _ _ G1)| |exact HE]. eapply ext_held; [exact W0|done].
  - intros Hcl d Hd. apply (vs_marks _ _ _ _ _ _ _ V) in Hd. simpl in Hd.
    apply (gr_marked _ _ _ G1) in Hd. by eapply Hcl.
  - done.
  - intros k e He. pose proof (wf_cache _ _ _ _ _ (vs_wf _ _ _ _ _ _ _ V)) as (_&_&Hem).
    rewrite Ecm in Hem. by eapply Hem.
  - rewrite (vs_auto _ _ _ _ _ _ _ V). simpl. apply (gr_auto _ _ _ G1).
  - done.
Qed.

End deferred.
