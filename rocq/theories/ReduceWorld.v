(** * Programs that call reduce to compare diagrams *)

From stdpp Require Import gmap list.
From Coq Require Import ZArith Lia.
From Verif Require Import Base Ops Tables NodeManager Tools Sift DiagramManager World.
From Verif Require Import Heap Inv InvLemmas Prim TabLemmas GC Make Build Apply Api Deferred Constr Canon Reduce.
From Verif Require Import Eval Fold Trav QuerySpec QueryProof Minimal WorldSpec WorldProof History.

Local Open Scope nat_scope.

(** [d = m.reduce(x)] for every pair of the list, in this order *)
Definition reduce_calls (l : list (nat * nat)) : list call :=
  map (fun p => CTransform (fst p) (fun v => v) (snd p)) l.

Section world.
Context (c : cfg) (opsem : Z -> option (Z -> Z -> Z)) (strict : bool).
Notation WF := (WF c opsem strict).
Notation calm := (calm c opsem strict).
Notation winv := (winv c opsem strict).
Notation spec := (spec c opsem strict).
Notation history := (history c opsem strict).
Notation den := (den c).
Notation lead := (lead c).
Notation reduced := (reduced c).

(** ** Steps that change neither tables nor nodes *)

Lemma lead_same s s' a : s_tabs s' = s_tabs s -> (forall b, sons_of (s_heap s') b = sons_of (s_heap s) b) ->
  (forall b, live (s_heap s') b = live (s_heap s) b) -> lead s a -> lead s' a.
Proof.
  intros E Es El (i&sons&t&La&Ht&Hf). exists i, sons, t. rewrite El, E. split_and!; try done.
  by rewrite (find_ext c (s_heap s)).
Qed.

Lemma reduced_same s s' a : s_tabs s' = s_tabs s -> (forall b, sons_of (s_heap s') b = sons_of (s_heap s) b) ->
  (forall b, live (s_heap s') b = live (s_heap s) b) -> reduced s a -> reduced s' a.
Proof.
  intros E Es El R b i sons Hb Lb. rewrite El in Lb.
  assert (Hb' : reach (live (s_heap s)) a b).
  { clear -Hb El. induction Hb as [|a b d i sons La Hd _ IH]; [constructor|]. rewrite El in La. econstructor; eauto. }
  destruct (R b i sons Hb' Lb) as [R1 R2]. split; [done|]. by eapply lead_same.
Qed.

Lemma still_diagram_of a : still (diagram_of a).
Proof. unfold diagram_of. apply still_bind; [apply still_inc_ref|]. intros _. apply still_set_mark. Qed.

Lemma still_drop o : still (drop_handle o).
Proof. destruct o; [apply still_dec_ref|apply still_ret]. Qed.

(** the values of a diagram are values of the manager *)
Lemma den_tval g s a F : calm g s -> 0 < g_ext g a -> den s a F -> forall rho, valid c rho -> tval c (F rho).
Proof.
  intros C Ha D rho Hv. pose proof (cl_wf _ _ _ _ _ C) as W. pose proof (cl_quiet _ _ _ _ _ C) as [Hdy _].
  destruct (InvLemmas.Ev_total c opsem strict g s a rho W) as (v&Hev&Ht); try done.
  - by apply (wf_ext _ _ _ _ _ W a Ha).
  - rewrite Hdy. set_solver.
  - by rewrite (Ev_det _ _ _ _ _ (D rho Hv) Hev).
Qed.

(** ** One call *)

Lemma transform_step g s vars A d f x F vars' s' :
  wf_cfg c -> winv g s vars A -> ab A !! x = Some F -> (forall rho, valid c rho -> tval c (f (F rho))) ->
  exec c (CTransform d f x) vars s = Ok vars' s' ->
  exists b, vars' = <[d := b]> vars /\ cle s s' /\
    (caps s' = caps s -> reduced s' b /\ forall y e, vars !! y = Some e -> reduced s e -> reduced s' e).
Proof.
  intros Hc W HF Hf E. pose proof (wi_calm _ _ _ _ _ _ _ W) as C. pose proof (cl_wf _ _ _ _ _ C) as WF0.
  destruct (wi_den_pos c opsem strict g s vars A x F W HF) as (a&Hx&D&Pa).
  assert (HfE : forall rho v, valid c rho -> Ev (live (s_heap s)) a rho v -> tval c (f v)).
  { intros rho v Hv Hev. rewrite (Ev_det _ _ _ _ _ Hev (D rho Hv)). by apply Hf. }
  cbn [exec] in E. unfold deref in E. rewrite Hx in E. unfold bind at 1 in E. cbn [of_opt ret] in E.
  unfold bind at 1, transform in E. unfold bind at 1 in E.
  pose proof (transform_impl_red c opsem strict f g s (S (nvars c)) Hc WF0 (cl_quiet _ _ _ _ _ C) (cl_ord _ _ _ _ _ C)
    a ∅ s (sstep_refl c opsem strict g s WF0) (Api.ext_held c opsem strict g s a WF0 Pa) HfE (memo_ok_empty c g s s _)) as X.
  assert (RO : red_ok c s s [] ∅).
  { split; [apply cle_refl|]. intros _. split; [set_solver|]. intros a1 b1. unfold memo. rewrite lookup_empty. done. }
  specialize (X RO ltac:(lia)).
  unfold wp in X. destruct (transform_impl c (S (nvars c)) f ∅ a s) as [[m b] s1| |] eqn:E1; [|discriminate..].
  destruct X as (B&_&L&[Cl R]). cbn [fst snd] in *.
  pose proof (calm_defer_bstep c opsem strict _ _ _ _ _ _ C (wi_idle _ _ _ _ _ _ _ W) B) as Hd.
  unfold bind at 1, run_deferred in E. unfold bind at 1, gets in E. rewrite Hd in E. cbn [ret] in E.
  unfold bind at 1 in E. destruct (diagram_of b s1) as [u s2| |] eqn:E2; [|discriminate..]. cbn [ret] in E.
  unfold put, bind in E. destruct (drop_handle (vars !! d) s2) as [u3 s3| |] eqn:E3; [|discriminate..].
  injection E as E4 E5. symmetry in E4, E5. subst vars' s'.
  destruct (still_diagram_of b _ _ _ E2) as (T2&S2&L2). destruct (still_drop _ _ _ _ E3) as (T3&S3&L3).
  assert (Hcap : caps s3 = caps s1) by (unfold caps; congruence).
  assert (Hsame : forall e, reduced s1 e -> reduced s3 e).
  { intros e He. eapply (reduced_same s2); [done..|]. by eapply (reduced_same s1). }
  exists b. split; [done|]. split; [eapply cle_trans; [exact Cl|by apply cle_eq]|].
  intros Hcs. rewrite Hcap in Hcs. destruct (R Hcs) as [R1 _]. split; [apply Hsame, R1; set_solver|].
  intros y e Hy He. apply Hsame. eapply (reduced_step c g s); [apply B|exact L|done| |done].
  apply (Api.ext_held c opsem strict); [done|]. by eapply wi_pos.
Qed.

(** ** A row of calls *)

Lemma reduce_row p l : wf_cfg c -> forall ks s vars A s' vars',
  history p ks s vars A -> NoDup (map fst l) ->
  (forall q, q ∈ l -> (exists F, ab A !! snd q = Some F) /\ snd q ∉ map fst l) ->
  run c (reduce_calls l) vars s = Ok vars' s' ->
  exists A', history p (ks ++ reduce_calls l) s' vars' A' /\ cle s s' /\
    (forall y, y ∉ map fst l -> ab A' !! y = ab A !! y /\ vars' !! y = vars !! y) /\
    (forall q, q ∈ l -> ab A' !! fst q = ab A !! snd q) /\
    (caps s' = caps s ->
      (forall q, q ∈ l -> exists b, vars' !! fst q = Some b /\ reduced s' b) /\
      forall y e, y ∉ map fst l -> vars !! y = Some e -> reduced s e -> reduced s' e).
Proof.
  intros Hc. induction l as [|[d x] l IH]; intros ks s vars A s' vars' H ND Hx E.
  { cbn in E. injection E as E1 E2. subst vars' s'.
    exists A. rewrite app_nil_r. split_and!; [done|apply cle_refl|done|set_solver|].
    intros _. split; [set_solver|done]. }
  cbn [map] in ND. apply NoDup_cons in ND as [Hd ND]. cbn [fst] in *.
  destruct (Hx (d, x) ltac:(set_solver)) as [[F HF] Hnx]. cbn [fst snd map] in HF, Hnx.
  destruct (history_winv c opsem strict p ks s vars A Hc H) as [g W].
  cbn [reduce_calls map fst snd run] in E. unfold bind in E.
  destruct (exec c (CTransform d (fun v => v) x) vars s) as [vars1 s1| |] eqn:E1; [|discriminate..].
  assert (Ht : forall rho, valid c rho -> tval c (F rho)).
  { destruct (wi_den_pos c opsem strict g s vars A x F W HF) as (a&_&D&Pa). exact (den_tval g s a F (wi_calm _ _ _ _ _ _ _ W) Pa D). }
  destruct (transform_step g s vars A d (fun v => v) x F vars1 s1 Hc W HF Ht E1) as (b&->&C1&R1).
  assert (H1 : history p (ks ++ [CTransform d (fun v => v) x]) s1 (<[d := b]> vars) (bindf d F A)).
  { eapply H_call; [exact H| |exact E1]. by apply (S_transform c opsem strict s d (fun v => v) x F A). }
  assert (Hx1 : forall q, q ∈ l -> (exists G, ab (bindf d F A) !! snd q = Some G) /\ snd q ∉ map fst l).
  { intros q Hq. destruct (Hx q ltac:(set_solver)) as [[G HG] Hnq]. cbn [map fst] in Hnq. split; [|set_solver].
    exists G. cbn. rewrite lookup_insert_ne; [done|]. intros ->. set_solver. }
  destruct (IH _ s1 (<[d := b]> vars) _ s' vars' H1 ND Hx1 E) as (A'&H2&C2&O2&F2&R2).
  exists A'. split_and!.
  - cbn [reduce_calls map fst snd]. rewrite (cons_middle _ ks). rewrite app_assoc. exact H2.
  - by eapply cle_trans.
  - intros y Hy. cbn [map fst] in Hy. destruct (O2 y) as [-> ->]; [set_solver|].
    cbn. rewrite !lookup_insert_ne by set_solver. done.
  - intros q [->|Hq]%elem_of_cons.
    + cbn [fst snd]. destruct (O2 d Hd) as [-> _]. cbn. by rewrite lookup_insert, HF.
    + rewrite F2 by done. cbn. rewrite lookup_insert_ne; [done|]. intros Hq'.
      destruct (Hx q ltac:(set_solver)) as [_ Hn]. cbn [map fst] in Hn. set_solver.
  - intros Ec. destruct (cle_squeeze _ _ _ C1 C2 Ec) as [Ec1 Ec2].
    destruct (R1 Ec1) as [R1a R1b]. destruct (R2 Ec2) as [R2a R2b]. split.
    + intros q [->|Hq]%elem_of_cons; [|by apply R2a]. cbn [fst]. exists b. destruct (O2 d Hd) as [_ ->].
      split; [apply lookup_insert|]. apply (R2b d b Hd); [apply lookup_insert|done].
    + intros y e Hy He Re. cbn [map fst] in Hy. apply (R2b y e); [set_solver| |by eapply R1b].
      rewrite lookup_insert_ne by set_solver. done.
Qed.

(** ** Comparison of reduced diagrams *)

Lemma reduced_equal g s vars A d e a b F G : wf_cfg c -> winv g s vars A -> ab A !! d = Some F -> ab A !! e = Some G ->
  vars !! d = Some a -> vars !! e = Some b -> reduced s a -> reduced s b ->
  equals vars d e = true <-> forall rho, valid c rho -> F rho = G rho.
Proof.
  intros Hc W HF HG Hd He Ra Rb. pose proof (wi_calm _ _ _ _ _ _ _ W) as C. pose proof (cl_wf _ _ _ _ _ C) as WF0.
  destruct (wi_den_pos c opsem strict g s vars A d F W HF) as (a'&Hd'&DF&Pa). assert (a' = a) as -> by congruence.
  destruct (wi_den_pos c opsem strict g s vars A e G W HG) as (b'&He'&DG&Pb). assert (b' = b) as -> by congruence.
  unfold equals. rewrite bool_decide_eq_true, Hd, He. split.
  - intros Eq rho Hv. assert (a = b) as -> by congruence. eapply Ev_det; [by apply DF|by apply DG].
  - intros Eq. f_equal. eapply (reduced_canonical c opsem strict g s); try done; try apply C;
      try by apply (Api.ext_held c opsem strict).
    intros rho v Hv Hev. rewrite (Ev_det _ _ _ _ _ Hev (DF rho Hv)), Eq by done. by apply DG.
Qed.

(** ** Size of reduced diagrams *)

Lemma reduced_tight g s a : wf_cfg c -> calm g s -> held g (s_heap s) a -> reduced s a -> tight c s a.
Proof.
  intros Hc C Ha R.
  assert (Rr : forall x, reach (live (s_heap s)) a x -> reduced s x).
  { intros x Hx b i sons Hb Lb. apply (R b i sons); [|done]. by eapply reach_trans. }
  split.
  - intros x y Hx Hy E. assert (Hhx := held_reach g _ a x Ha Hx). assert (Hhy := held_reach g _ a y Ha Hy).
    apply (reduced_canonical c opsem strict g s x y); try done; try apply C; try by apply Rr.
    intros rho v Hv Hev. apply (Ev_nval c opsem strict g s C y rho v Hhy Hv). rewrite <- E by done.
    by apply (Ev_nval c opsem strict g s C x rho v Hhx Hv).
  - intros x i sons Hx Lx. by destruct (R x i sons Hx Lx).
Qed.

End world.
