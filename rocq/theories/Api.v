(** * Operations as seen by the client: handles, constants, variables, apply *)

From stdpp Require Import gmap list.
From Coq Require Import ZArith Lia.
From Verif Require Import Base Ops Tables NodeManager Tools Sift DiagramManager.
From Verif Require Import Heap Inv InvLemmas Prim TabLemmas GC Make Build Apply.

Local Open Scope nat_scope.

Definition clean (s : st) : Prop := forall d, ~ marked (s_heap s) d.

Definition g_inc (r : positive) (g : ghost) : ghost := g_set_ext (ext_inc (g_ext g) r) g.

Definition ext_dec (e : positive -> nat) (a : positive) : positive -> nat :=
  fun b => if decide (b = a) then e b - 1 else e b.
Definition g_dec (r : positive) (g : ghost) : ghost := g_set_ext (ext_dec (g_ext g) r) g.

Lemma quiet_inc r g : quiet g -> quiet (g_inc r g).
Proof. done. Qed.
Lemma quiet_dec r g : quiet g -> quiet (g_dec r g).
Proof. done. Qed.
Lemma ext_inc_same e r : 0 < ext_inc e r r.
Proof. unfold ext_inc. rewrite decide_True by done. lia. Qed.
Lemma ext_inc_le e r a : e a <= ext_inc e r a.
Proof. unfold ext_inc. destruct (decide _); lia. Qed.

Section api.
Context (c : cfg) (opsem : Z -> option (Z -> Z -> Z)) (strict : bool).
Notation rank := (rank c).
Notation WF := (WF c opsem strict).
Notation sstep := (sstep c opsem strict).
Notation bstep := (bstep c opsem strict).
Notation allowed := (allowed strict).

(** no deferred reordering is pending and none can become pending *)
Definition idle (s : st) : Prop := s_auto s = false /\ s_defer s = false.

Definition mode_kept (s s' : st) : Prop :=
  s_auto s' = s_auto s /\ (s_auto s = false -> s_defer s' = s_defer s).

Lemma mode_refl s : mode_kept s s.
Proof. done. Qed.
Lemma mode_trans s s1 s2 : mode_kept s s1 -> mode_kept s1 s2 -> mode_kept s s2.
Proof. intros [A1 D1] [A2 D2]. split; [congruence|]. intros H. rewrite D2, D1; congruence. Qed.
Lemma mode_idle s s' : mode_kept s s' -> idle s -> idle s'.
Proof. intros [A D] [Ha Hd]. split; [congruence|]. rewrite D; done. Qed.
Lemma mode_same_order s s' : same_order s s' -> mode_kept s s'.
Proof. by intros (_&_&_&_&?&?). Qed.

(** the state between two calls of a client *)
Record calm (g : ghost) (s : st) : Prop := {
  cl_wf : WF g s;
  cl_quiet : quiet g;
  cl_ord : ord c g s
}.

(** the functions of the handles that exist before and after *)
Definition funs_kept (g g' : ghost) (s s' : st) : Prop :=
  forall r, 0 < g_ext g r -> 0 < g_ext g' r -> forall rho v, valid c rho ->
    Ev (live (s_heap s)) r rho v -> Ev (live (s_heap s')) r rho v.

(** [k]: the operation leaves no marks behind *)
Record astep (k : bool) (g g' : ghost) (s s' : st) : Prop := {
  as_calm : calm g' s';
  as_ev : funs_kept g g' s s';
  as_clean : k = true -> clean s -> clean s';
  as_mode : mode_kept s s'
}.

Lemma ext_held g s r : WF g s -> 0 < g_ext g r -> held g (s_heap s) r.
Proof.
  intros W H. apply root_held. destruct (wf_ext _ _ _ _ _ W r H). split_and!; auto.
Qed.

Lemma calm_sstep g s s' : calm g s -> sstep g s s' -> calm g s'.
Proof.
  intros [W Hq O] S. constructor; try done.
  - apply S.
  - by eapply ord_sstep.
Qed.

Lemma astep_sstep k g s s' :
  calm g s -> sstep g s s' -> (k = true -> clean s -> clean s') -> astep k g g s s'.
Proof.
  intros C S Hm. constructor; [by eapply calm_sstep| |done|apply mode_same_order, S].
  intros r Hr _ rho v Hv. eapply keeps_Ev; [apply S|]. eapply ext_held; [apply C|done].
Qed.

Lemma WF_inc g s h' r :
  WF g s -> quiet g -> live (s_heap s) r <> None -> hrel (s_heap s) h' ->
  (forall d n n', s_heap s !! d = Some n -> h' !! d = Some n' ->
     N.to_nat (n_refs n') = N.to_nat (n_refs n) + if decide (d = r) then 1 else 0) ->
  WF (g_inc r g) (set_heap h' s).
Proof.
  intros W [Hdy Hfl] Hl H Hr. unfold g_inc. apply WF_hrel; try done.
  - intros a n' Ha U Hn. destruct (hrel_lookup _ _ _ _ H Ha) as (n&Hn'&E1&E2).
    rewrite (Hr a n n' Hn' Ha). rewrite (wf_refs _ _ _ _ _ W a n Hn'); [|congruence|done].
    unfold ext_inc. destruct (decide (a = r)); lia.
  - intros a n n' Ha. rewrite Hdy in Ha. set_solver.
  - intros a Ha. rewrite Hdy. split; [|set_solver]. unfold ext_inc in Ha.
    destruct (decide (a = r)) as [->|]; [done|]. by apply (wf_ext _ _ _ _ _ W).
Qed.

Lemma diagram_of_spec (ok : err -> Prop) g r s (Q : unit -> st -> Prop) :
  ok ERefOver -> WF g s -> quiet g -> live (s_heap s) r <> None ->
  (forall h', hrel (s_heap s) h' -> WF (g_inc r g) (set_heap h' s) ->
     (forall d, marked h' d <-> marked (s_heap s) d /\ d <> r) -> Q tt (set_heap h' s)) ->
  wp ok (diagram_of r) Q s.
Proof.
  intros Hok W Hq Hl HQ. unfold diagram_of. pose proof Hl as Hl0.
  apply live_not_None in Hl as (n&Hn&U).
  apply wp_bind. eapply wp_inc_ref; [done..|].
  set (h1 := <[r := rf (n_refs n + 1) n]> (s_heap s)).
  assert (R1 : rrel (s_heap s) h1) by (by apply rrel_insert).
  assert (L1 : live h1 r <> None) by (rewrite (hrel_live (s_heap s)); [done|by apply rrel_hrel]).
  apply wp_set_mark; [done|]. simpl. intros n1 Hn1 U1.
  rewrite set_heap_set_heap.
  assert (M1 : mrel h1 (<[r := mk false n1]> h1)) by (by apply mrel_insert).
  assert (H2 : hrel (s_heap s) (<[r := mk false n1]> h1)).
  { eapply hrel_trans; [by apply rrel_hrel|by apply mrel_hrel]. }
  apply HQ; [done| |].
  - apply WF_inc; try done. intros d m m' Hm Hm'.
    destruct (decide (d = r)) as [->|Hne].
    + rewrite lookup_insert in Hm'. unfold h1 in Hn1. rewrite lookup_insert in Hn1.
      simplify_eq. simpl. lia.
    + unfold h1 in Hm'. rewrite !lookup_insert_ne in Hm' by done. simplify_eq. lia.
  - intros d. rewrite marked_mk by done. destruct (decide (d = r)) as [->|Hne]; [naive_solver|].
    rewrite (rrel_marked _ _ _ R1). naive_solver.
Qed.

Lemma diagram_copy_spec (ok : err -> Prop) g r s (Q : unit -> st -> Prop) :
  ok ERefOver -> WF g s -> quiet g -> live (s_heap s) r <> None ->
  (forall h', hrel (s_heap s) h' -> WF (g_inc r g) (set_heap h' s) ->
     (forall d, marked h' d <-> marked (s_heap s) d) -> Q tt (set_heap h' s)) ->
  wp ok (diagram_copy r) Q s.
Proof.
  intros Hok W Hq Hl HQ. unfold diagram_copy. pose proof Hl as Hl0.
  apply live_not_None in Hl as (n&Hn&U).
  eapply wp_inc_ref; [done..|].
  set (h1 := <[r := rf (n_refs n + 1) n]> (s_heap s)).
  assert (R1 : rrel (s_heap s) h1) by (by apply rrel_insert).
  apply HQ; [by apply rrel_hrel| |].
  - apply WF_inc; try done; [by apply rrel_hrel|]. intros d m m' Hm Hm'.
    destruct (decide (d = r)) as [->|Hne].
    + unfold h1 in Hm'. rewrite lookup_insert in Hm'. simplify_eq. simpl. lia.
    + unfold h1 in Hm'. rewrite lookup_insert_ne in Hm' by done. simplify_eq. lia.
  - intros d. by apply rrel_marked.
Qed.

Lemma diagram_destroy_spec ok g r s (Q : unit -> st -> Prop) :
  WF g s -> quiet g -> 0 < g_ext g r ->
  (forall h', hrel (s_heap s) h' -> WF (g_dec r g) (set_heap h' s) ->
     (forall d, marked h' d <-> marked (s_heap s) d) -> Q tt (set_heap h' s)) ->
  wp ok (diagram_destroy r) Q s.
Proof.
  intros W [Hdy Hfl] Hr HQ. unfold diagram_destroy.
  destruct (wf_ext _ _ _ _ _ W r Hr) as [Hl _]. apply live_not_None in Hl as (n&Hn&U).
  pose proof (wf_refs _ _ _ _ _ W r n Hn U ltac:(rewrite Hdy; set_solver)) as Href.
  eapply wp_dec_ref; [done|done|intros E; rewrite E in Href; simpl in Href; lia|].
  set (h1 := <[r := rf (n_refs n - 1) n]> (s_heap s)).
  assert (R1 : rrel (s_heap s) h1) by (by apply rrel_insert).
  apply HQ; [by apply rrel_hrel| |].
  - unfold g_dec. apply WF_hrel; try done; [by apply rrel_hrel| | |].
    + intros a n' Ha U' Hn'. unfold ext_dec. unfold h1 in Ha. destruct (decide (a = r)) as [->|Hne].
      * rewrite lookup_insert in Ha. simplify_eq. simpl. lia.
      * rewrite lookup_insert_ne in Ha by done. by apply (wf_refs _ _ _ _ _ W).
    + intros a m m' Ha. rewrite Hdy in Ha. set_solver.
    + intros a Ha. apply (wf_ext _ _ _ _ _ W). unfold ext_dec in Ha. destruct (decide _); lia.
  - intros d. by apply rrel_marked.
Qed.

(** an operation returned a new handle [r] for the function [F] *)
Record anew (k : bool) (g : ghost) (s : st) (F : asg -> Z -> Prop) (r : positive) (s' : st) : Prop := {
  an_step : astep k g (g_inc r g) s s';
  an_ev : forall rho v, valid c rho -> F rho v -> Ev (live (s_heap s')) r rho v
}.

Lemma allowed_over : allowed ERefOver.
Proof. by left. Qed.

Lemma calm_set_heap g g' s h' :
  calm g s -> quiet g' -> g_lv g' = g_lv g -> WF g' (set_heap h' s) -> calm g' (set_heap h' s).
Proof.
  intros [W Hq O] Hq' Hlv W'. constructor; try done.
  destruct O as [P O]. split; [by destruct P|]. simpl. by rewrite Hlv.
Qed.

(** [bstep] without the bound on the marks *)
Record lstep (g : ghost) (s s' : st) (r : positive) (F : asg -> Z -> Prop) : Prop := {
  ls_step : sstep g s s';
  ls_held : held g (s_heap s') r;
  ls_ev : forall rho v, valid c rho -> F rho v -> Ev (live (s_heap s')) r rho v
}.

Lemma new_handle_gen g s s1 r F (Q : unit -> st -> Prop) :
  calm g s -> lstep g s s1 r F ->
  (forall s2, anew false g s F r s2 ->
     (forall d, marked (s_heap s2) d <-> marked (s_heap s1) d /\ d <> r) -> Q tt s2) ->
  wp allowed (diagram_of r) Q s1.
Proof.
  intros C [S Hh HE] HQ. pose proof (ss_wf _ _ _ _ _ _ S) as W1.
  pose proof (cl_quiet _ _ C) as Hq.
  apply (diagram_of_spec allowed g); try done; [by left|by eapply held_live|].
  intros h' H W2 Mk. apply HQ; [|done].
  constructor; [constructor|].
  - constructor; try done; simpl.
    pose proof (ord_sstep _ _ _ _ _ _ S (cl_ord _ _ C)) as [P O]. split; [by destruct P|done].
  - intros a Ha _ rho v Hv HE'. simpl.
    eapply Ev_ext; [intros b; by apply hrel_live|]. eapply keeps_Ev; [apply S| |done].
    eapply ext_held; [apply C|done].
  - done.
  - apply (mode_same_order s s1), S.
  - intros rho v Hv HF. simpl. eapply Ev_ext; [intros b; by apply hrel_live|]. by apply HE.
Qed.

Lemma bstep_lstep g s s1 k r F : bstep g s s1 k r F -> lstep g s s1 r F.
Proof. intros []. by constructor. Qed.

Lemma new_handle_of g s s1 k r F (Q : unit -> st -> Prop) :
  calm g s -> bstep g s s1 k r F -> (forall s2, anew true g s F r s2 -> Q tt s2) ->
  wp allowed (diagram_of r) Q s1.
Proof.
  intros C B HQ. eapply new_handle_gen; [done|by eapply bstep_lstep|].
  intros s2 [[A1 A2 _ A3] A4] Mk. apply HQ. constructor; [constructor|]; try done.
  intros _ Hcl d Hd. apply Mk in Hd as [Hd Hne].
  destruct (bs_marks _ _ _ _ _ _ _ _ _ B d Hd); [|done]. by eapply Hcl.
Qed.

Lemma new_handle_spec g s s1 k r F :
  calm g s -> bstep g s s1 k r F ->
  wp allowed (let* _ := diagram_of r in ret r) (anew true g s F) s1.
Proof. intros C B. apply wp_bind. eapply new_handle_of; [done|done|]. intros s2 A. by apply wp_ret. Qed.

Lemma run_deferred_calm {A} ok s (k : M A) (Q : A -> st -> Prop) :
  s_defer s = false -> wp ok k Q s -> wp ok (let* _ := run_deferred c in k) Q s.
Proof.
  intros Hd H. apply wp_bind. unfold run_deferred. apply wp_bind, wp_gets. rewrite Hd. by apply wp_ret.
Qed.

Lemma calm_defer_bstep g s s1 k r F : calm g s -> idle s -> bstep g s s1 k r F -> s_defer s1 = false.
Proof.
  intros C Hm B. by apply (mode_idle s s1); [apply mode_same_order, B|].
Qed.

Lemma anew_defer k g s F r s' : anew k g s F r s' -> idle s -> s_defer s' = false.
Proof.
  intros [A _] Hm. by apply (mode_idle s s'); [apply A|].
Qed.

(** ** Copy and destruction of handles *)

Lemma copy_spec g r s :
  calm g s -> 0 < g_ext g r ->
  wp allowed (diagram_copy r) (fun _ s' => astep true g (g_inc r g) s s' /\
     forall rho v, Ev (live (s_heap s)) r rho v <-> Ev (live (s_heap s')) r rho v) s.
Proof.
  intros C Hr. apply (diagram_copy_spec allowed g); [by left|apply C|apply C| |].
  - by apply (wf_ext _ _ _ _ _ (cl_wf _ _ C)).
  - intros h' H W Mk.
    assert (L : forall b, live h' b = live (s_heap s) b) by (intros; by apply hrel_live).
    split; [constructor|].
    + eapply calm_set_heap; try done; by destruct (cl_quiet _ _ C).
    + intros a _ _ rho v _. by apply Ev_ext.
    + intros _ Hcl d Hd. apply Mk in Hd. by eapply Hcl.
    + done.
    + intros rho v. split; by apply Ev_ext.
Qed.

Lemma destroy_spec ok g r s :
  calm g s -> 0 < g_ext g r ->
  wp ok (diagram_destroy r) (fun _ s' => astep true g (g_dec r g) s s') s.
Proof.
  intros C Hr. apply (diagram_destroy_spec ok g); [apply C|apply C|done|].
  intros h' H W Mk. constructor.
  - eapply calm_set_heap; try done; by destruct (cl_quiet _ _ C).
  - intros a _ _ rho v _. apply Ev_ext. intros; by apply hrel_live.
  - intros _ Hcl d Hd. apply Mk in Hd. by eapply Hcl.
  - done.
Qed.

(** ** Constants and variables *)

Lemma constant_spec g v s :
  calm g s -> tval c v ->
  wp allowed (constant c v) (anew true g s (fun _ w => w = v)) s.
Proof.
  intros C Hv. unfold constant, with_handle. apply wp_bind.
  eapply wp_mono; [apply (bstep_terminal c opsem strict g s v); try done; apply C|].
  intros a s1 B. eapply new_handle_spec; [done|exact B].
Qed.

Lemma terminals_loop g s0 s top l :
  wf_cfg c -> calm g s0 -> sstep g s0 s -> (forall d, marked (s_heap s) d -> marked (s_heap s0) d) ->
  (forall d x, live (s_heap s) d = Some x -> live (s_heap s0) d = Some x) ->
  top < nvars c -> Forall (tval c) l ->
  wp allowed (mapM (make_terminal_node c) l)
    (fun acc s' => bres c opsem strict g s0 s' top acc (fun k _ w => l !! k = Some w) /\ length acc = length l) s.
Proof.
  intros Hc C S HM HN Ht Hl.
  apply (wp_mapM allowed _ (fun acc s1 => bres c opsem strict g s0 s1 top acc (fun k _ w => l !! k = Some w))).
  - intros k v acc s1 Hk Hacc B. pose proof (br_step _ _ _ _ _ _ _ _ _ B) as S1.
    eapply wp_mono.
    { apply (bstep_terminal c opsem strict g s1 v); [apply C|eapply ord_sstep; [done|apply C]|apply S1|].
      by eapply Forall_lookup_1. }
    intros a s2 B2. eapply bres_snoc; [eassumption|].
    eapply bstep_weaken; [exact B2|lia|].
    intros rho w Hv E. rewrite Hacc in E. congruence.
  - constructor; try done; try set_solver.
Qed.

Lemma mapM_fmap {A B D} (f : B -> M D) (h : A -> B) l s : mapM f (map h l) s = mapM (fun x => f (h x)) l s.
Proof.
  revert s. induction l as [|a l IH]; intros s; [done|]. simpl. unfold bind.
  destruct (f (h a) s); try done. by rewrite IH.
Qed.

Lemma wp_ext {A} ok (m m' : M A) Q s : m s = m' s -> wp ok m' Q s -> wp ok m Q s.
Proof. unfold wp. by intros ->. Qed.

Lemma variable_impl_spec g s0 s i :
  wf_cfg c -> calm g s0 -> sstep g s0 s ->
  (forall d, marked (s_heap s) d -> marked (s_heap s0) d) ->
  (forall d x, live (s_heap s) d = Some x -> live (s_heap s0) d = Some x) -> i < nvars c ->
  wp allowed (variable_impl c i)
    (fun r s' => bstep g s0 s' (g_lv g i) r (fun rho v => v = Z.of_nat (rho i))) s.
Proof.
  intros Hc C S HM HN Hi. unfold variable_impl. destruct (Nat.leb_spec (nvars c) i); [lia|].
  apply wp_bind. eapply (wp_ext allowed _ (mapM (make_terminal_node c) (map Z.of_nat (seq 0 (dom c i))))).
  { symmetry. apply mapM_fmap. }
  eapply wp_mono.
  { apply (terminals_loop g s0 s (g_lv g i)); try done.
    - by apply (wf_lv _ _ _ _ _ (cl_wf _ _ C)).
    - apply Forall_forall. intros v Hv. apply elem_of_list_fmap in Hv as (k&->&Hk).
      apply elem_of_seq in Hk. left. pose proof (wc_dom_small _ Hc i Hi).
      destruct (c_fixed c) as [m|] eqn:Em; [|lia]. pose proof (wc_fixed _ Hc m Em i Hi). lia. }
  intros acc s1 [B Hlen]. rewrite fmap_length, seq_length in Hlen.
  eapply wp_mono.
  { eapply (bres_make c opsem strict g s0 s1 i acc); [apply C|done| |done|done|exact B].
    eapply ord_sstep; [apply B|apply C]. }
  intros r s2 [B2 _]. eapply bstep_weaken; [exact B2|done|]. intros rho v Hv ->.
  pose proof (Hv i Hi). cbn beta. rewrite list_lookup_fmap, lookup_seq_lt by done. done.
Qed.

Lemma variable_spec g i s :
  wf_cfg c -> calm g s -> i < nvars c ->
  wp allowed (variable c i) (anew true g s (fun rho v => v = Z.of_nat (rho i))) s.
Proof.
  intros Hc C Hi. unfold variable, with_handle. apply wp_bind. eapply wp_mono.
  { apply (variable_impl_spec g s s i); try done. apply sstep_refl, C. }
  intros a s1 B. eapply new_handle_spec; [done|exact B].
Qed.

Lemma variable_not_spec g i s :
  wf_cfg c -> calm g s -> i < nvars c -> dom c i = 2 ->
  wp allowed (variable_not c i) (anew true g s (fun rho v => v = (1 - Z.of_nat (rho i))%Z)) s.
Proof.
  intros Hc C Hi Hd2. unfold variable_not, with_handle. apply wp_bind.
  assert (Ht : Forall (tval c) [1%Z; 0%Z]).
  { assert (forall v, (0 <= v < 2)%Z -> tval c v).
    { intros v Hv. left. unfold Nondet. destruct (c_fixed c) as [m|] eqn:Em; [|lia].
      pose proof (wc_fixed _ Hc m Em i Hi). lia. }
    constructor; [apply H; lia|]. constructor; [apply H; lia|done]. }
  pose proof (terminals_loop g s s (g_lv g i) [1%Z; 0%Z] Hc C (sstep_refl _ _ _ _ _ (cl_wf _ _ C))
    ltac:(auto) ltac:(auto) (wf_lv _ _ _ _ _ (cl_wf _ _ C) i Hi) Ht) as T.
  eapply (wp_ext allowed _ (let* l := mapM (make_terminal_node c) [1%Z; 0%Z] in make_internal_node c i l)).
  { simpl. unfold bind. destruct (make_terminal_node c 1 s); try done.
    destruct (make_terminal_node c 0 s0); done. }
  apply wp_bind. eapply wp_mono; [exact T|]. intros acc s1 [B Hlen].
  eapply wp_mono.
  { eapply (bres_make c opsem strict g s s1 i acc); [apply C|done| |done| |exact B].
    - eapply ord_sstep; [apply B|apply C].
    - rewrite Hlen. done. }
  intros r s2 [B2 _]. eapply new_handle_spec; [done|]. eapply bstep_weaken; [exact B2|done|].
  intros rho v Hv ->. pose proof (Hv i Hi) as Hr. rewrite Hd2 in Hr. cbn beta.
  destruct (rho i) as [|[|k]]; simpl; [done|done|lia].
Qed.

(** ** apply *)

Lemma apply_spec g o l r s :
  let o' := apply_op c o in
  wf_cfg c -> calm g s -> idle s -> g_cm g = CValid -> opsem (op_id o') = Some (op_fun o') ->
  0 < g_ext g l -> 0 < g_ext g r ->
  (forall rho x y, valid c rho -> Ev (live (s_heap s)) l rho x -> Ev (live (s_heap s)) r rho y ->
     good_op c o' x y) ->
  wp allowed (apply c o l r) (anew true g s (lifted (live (s_heap s)) (op_fun o') l r)) s.
Proof.
  intros o' Hc C Hm Hcm Hop Hl Hr Hg. unfold apply. apply wp_bind. eapply wp_mono.
  { apply (apply_impl_spec c opsem strict o' Hc Hop (S (nvars c)) g l r s); try done; try apply C.
    - by eapply ext_held; [apply C|].
    - by eapply ext_held; [apply C|].
    - lia. }
  intros a s1 B. apply run_deferred_calm; [eapply calm_defer_bstep; [done|done|exact B]|].
  eapply new_handle_spec; [done|exact B].
Qed.

End api.
