(** * Rounding errors of probabilities computed in double: C68 *)

From stdpp Require Import gmap list.
From Coq Require Import ZArith Lia Reals Lra.
From Flocq Require Import Core BinarySingleNaN.
From Verif Require Import Base Ops Tables NodeManager Tools Sift DiagramManager Reliability World Queries.
From Verif Require Import Heap Inv Trav Eval Api VecSpec Vec WorldSpec WorldProof Ctor History PropsBase Chain PropsBase2 Examples Refuted.
From Verif Require Import QuerySpec QueryProof PropsQuery PropsDpld Prob ProbSpec Expect ProbProof ProbFloat PropsProb PropsCases.
From Verif Require Import Sizes SizesProof Symbolic SymbolicProof RoundProof LevelRound.

Local Close Scope Q_scope.
Local Close Scope Qc_scope.
Local Close Scope R_scope.
Local Open Scope nat_scope.
Local Opaque exec run new_manager evaluate satisfy_all force_reorder.

(** doubles that differ from the numbers meant by at most [eps] *)
Definition about (eps : R) (x : b64) (r : R) : Prop := is_finite x = true /\ (Rabs (B2R x - r) <= eps)%R.

(** probabilities of the states of all components *)
Definition true_probs (ds : list nat) (ps : list (list R)) : Prop :=
  distributions real_arith ds ps /\ Forall (Forall (fun p => (0 <= p)%R)) ps.

(** the allowed error: two roundings and two deviations for every state of every component *)
Definition tolerance (ds : list nat) (eps : R) : R := (2 * (/ 2 ^ 53 + eps) * INR (sum_list ds))%R.

(** the traversal from the root rounds twice at every arc of the diagram; a diagram with [n]
    nodes has at most n * (largest domain) arcs *)
Definition level_tolerance (ds : list nat) (n : nat) (eps : R) : R := (2 * (/ 2 ^ 53 + eps) * INR (n * list_max ds))%R.
(** the getters of availabilities add up the terminals *)
Definition sum_tolerance (ds : list nat) (n : nat) (eps : R) : R := (level_tolerance ds n eps + / 2 ^ 53 * INR n)%R.

Lemma u53_eq : u53 = (/ 2 ^ 53)%R.
Proof. unfold u53. change (bpow radix2 (-53)) with (/ IZR (2 ^ 53))%R. by rewrite (pow_IZR 2 53). Qed.

Lemma matrix_about c eps ps xs : true_probs (c_doms c) ps -> Forall2 (Forall2 (about eps)) xs ps ->
  forall i k t, i < nvars c -> k < dom c i ->
    exists x : b64, matrix xs i k t = Ok x t /\ is_finite x = true /\ (Rabs (B2R x - pr_of real_arith ps i k) <= eps)%R.
Proof.
  intros [Hd _] Hx i k t Hi Hk. destruct (row_of c real_arith ps Hd i Hi) as (row&Er&Hl&_).
  destruct (Forall2_lookup_r _ _ _ _ _ Hx Er) as (xrow&Ex&Hrow).
  destruct (lookup_lt_is_Some_2 row k) as [p Hp]; [lia|].
  destruct (Forall2_lookup_r _ _ _ _ _ Hrow Hp) as (x&Ek&Fx&Nx). exists x.
  unfold matrix, pr_of. rewrite Ex, (bind_ok _ _ _ xrow t) by done. rewrite Ek. split; [done|]. split; [done|].
  by rewrite (nth_lookup_Some _ _ _ _ Er), (nth_lookup_Some _ _ _ _ Hp).
Qed.

Lemma probs_nonneg c ps : true_probs (c_doms c) ps -> forall i k, i < nvars c -> k < dom c i -> (0 <= pr_of real_arith ps i k)%R.
Proof.
  intros [Hd Hn] i k Hi Hk. destruct (row_of c real_arith ps Hd i Hi) as (row&Er&Hl&_). destruct (lookup_lt_is_Some_2 row k) as [p Hp]; [lia|].
  unfold pr_of. rewrite (nth_lookup_Some _ _ _ _ Er), (nth_lookup_Some _ _ _ _ Hp).
  rewrite Forall_lookup in Hn. specialize (Hn i row Er). rewrite Forall_lookup in Hn. by apply (Hn k).
Qed.

Section general.
Context (c : cfg) (strict : bool) (opsem : Z -> option (Z -> Z -> Z)) (args : cargs) (ks : list call) (s : st) (vars : vars_t) (A : astate).
Context (Hc : wf_cfg c) (H : history c opsem strict args ks s vars A) (Hcl : ab_clean A = true).
Context (x : nat) (F : asg -> Z) (HF : ab A !! x = Some F) (a : positive) (Ha : vars !! x = Some a) (Hdef : defined c F).
Context (ps : list (list R)) (Hps : true_probs (c_doms c) ps) (eps : R) (Heps : (0 <= eps)%R) (Hsm : (tolerance (c_doms c) eps <= 1)%R).
Context (pr : probs) (Hpr : forall i k t, i < nvars c -> k < dom c i ->
  exists x : b64, pr i k t = Ok x t /\ is_finite x = true /\ (Rabs (B2R x - pr_of real_arith ps i k) <= eps)%R).

Lemma post_round sel data : Forall (fun v => (0 <= v)%Z /\ v <> Undef) sel ->
  exists r data', ntps_post c b64_arith sel pr a data s = Ok (r, data') s /\
    about (tolerance (c_doms c) eps) r (prob_of real_arith c ps (has sel) F).
Proof.
  intros Hs. destruct (history_query _ _ _ _ _ _ _ _ _ _ Hc H HF) as (g&a'&Ha'&C&Hh&EF&_&Cl&_). rewrite Ha in Ha'. injection Ha' as <-.
  pose proof (reach_undef _ _ _ _ _ _ _ _ _ _ _ _ Hc H HF C Hh EF Hdef) as HU.
  destruct (ntps_post_near c opsem strict g s Hc C (Cl Hcl) ps (proj1 Hps) (probs_nonneg c ps Hps) pr eps Hpr Heps) with (sel := sel) (a := a) (data := data)
    as (r&data'&E&Fr&Nr); [|done|done|done|].
  - unfold err_at. rewrite (states_from_all c opsem strict g s C), u53_eq. exact Hsm.
  - exists r, data'. split; [exact E|]. split; [exact Fr|]. rewrite u53_eq in Nr.
    assert (X : prob_of real_arith c ps (has sel) F = probability real_arith (c_doms c) ps (fun x => has sel (nval c s a (of_vals x)))).
    { apply probability_ext. intros y Hy. rewrite EF; [done|apply Hy]. }
    rewrite X. exact Nr.
Qed.

Lemma values_round P data : exists r data', (let* vs := values_with P in ntps_post c b64_arith vs pr a data) s = Ok (r, data') s /\
  about (tolerance (c_doms c) eps) r (prob_of real_arith c ps P F).
Proof.
  destruct (history_query _ _ _ _ _ _ _ _ _ _ Hc H HF) as (g&a'&Ha'&C&Hh&EF&_&Cl&_). rewrite Ha in Ha'. injection Ha' as <-.
  destruct (values_with_ok c opsem strict g s C P) as (vs&E&Hvs&Hhas). rewrite (bind_ok _ _ _ _ _ E).
  destruct (post_round vs data Hvs) as (r&data'&E'&N). exists r, data'. split; [exact E'|].
  assert (X : prob_of real_arith c ps P F = prob_of real_arith c ps (has vs) F).
  { apply probability_ext. intros y Hy. pose proof (Hdef y Hy) as Hu. rewrite EF in Hu |- * by apply Hy.
    destruct (Ev_terminal _ _ _ _ (nval_Ev c opsem strict g s C a (of_vals y) Hh (proj2 Hy))) as (t&Et). symmetry. by apply (Hhas t). }
  rewrite X. exact N.
Qed.
End general.

Section level.
Context (c : cfg) (strict : bool) (opsem : Z -> option (Z -> Z -> Z)) (args : cargs) (ks : list call) (s : st) (vars : vars_t) (A : astate).
Context (Hc : wf_cfg c) (H : history c opsem strict args ks s vars A) (Hcl : ab_clean A = true).
Context (x : nat) (F : asg -> Z) (HF : ab A !! x = Some F) (a : positive) (Ha : vars !! x = Some a).
Context (ps : list (list R)) (Hps : true_probs (c_doms c) ps) (eps : R) (Heps : (0 <= eps)%R).
Context (pr : probs) (Hpr : forall i k t, i < nvars c -> k < dom c i ->
  exists x : b64, pr i k t = Ok x t /\ is_finite x = true /\ (Rabs (B2R x - pr_of real_arith ps i k) <= eps)%R).

Lemma level_round n data : diagram_node_count c a s = Ok (Z.of_nat n) s -> (level_tolerance (c_doms c) n eps <= 1)%R ->
  exists data', calculate_probabilities c b64_arith pr a data s = Ok data' s /\
    (forall j, (0 <= j)%Z -> j <> Undef -> exists r, get_probability b64_arith j data' s = Ok r s /\
      about (level_tolerance (c_doms c) n eps) r (prob_of real_arith c ps (Z.eqb j) F)) /\
    (defined c F -> (sum_tolerance (c_doms c) n eps <= 1)%R -> forall P, exists r, sum_with b64_arith P data' s = Ok r s /\
      about (sum_tolerance (c_doms c) n eps) r (prob_of real_arith c ps P F)).
Proof.
  intros En Ht. destruct (history_query _ _ _ _ _ _ _ _ _ _ Hc H HF) as (g&a'&Ha'&C&Hh&EF&_&Cl&_). rewrite Ha in Ha'. injection Ha' as <-.
  destruct (node_count_ok c opsem strict g s C (Cl Hcl) a Hh) as (K0&NK0&HK0&En'). rewrite En' in En.
  assert (length K0 = n) as <- by (apply Nat2Z.inj; congruence). clear En En'.
  pose proof (arcs_bound c opsem strict g s C a K0 Hh (conj NK0 HK0)) as Hb. pose proof u53_pos as U.
  assert (Hb' : (2 * (u53 + eps) * INR (arcs s K0) <= level_tolerance (c_doms c) (length K0) eps)%R).
  { unfold level_tolerance. rewrite <- u53_eq. apply Rmult_le_compat_l; [lra|]. by apply le_INR. }
  destruct (ntps_level_near c opsem strict g s Hc C (Cl Hcl) ps (proj1 Hps) (probs_nonneg c ps Hps) pr eps Hpr Heps a K0 data Hh (conj NK0 HK0))
    as (K&data'&HK&E&HS); [lra|].
  pose proof (nodes_of_perm s a K0 K (conj NK0 HK0) HK) as Pm. rewrite (arcs_perm s _ _ Pm) in Hb'.
  assert (EW : forall P, W c g s real_arith ps (ind real_arith P) a = prob_of real_arith c ps P F).
  { intros P. rewrite (W_probability c opsem strict g s Hc C real_arith real_exact ps (proj1 Hps) P a Hh). apply probability_ext. intros y Hy.
    rewrite EF; [done|apply Hy]. }
  exists data'. split; [exact E|]. split.
  - intros j H0 Hu. destruct (near_probability c opsem strict g s C ps eps a K data' j HK HS H0 Hu) as (r&Er&Fr&Nr). exists r. split; [exact Er|].
    split; [exact Fr|]. rewrite <- EW. lra.
  - intros Hdef Hs P.
    assert (Es : (2 * (u53 + eps) * INR (arcs s K) + u53 * INR (length K) <= sum_tolerance (c_doms c) (length K0) eps)%R).
    { unfold sum_tolerance. rewrite <- u53_eq, (Permutation_length Pm). rewrite (Permutation_length Pm) in Hb'. lra. }
    destruct (near_sum_with c opsem strict g s Hc C (Cl Hcl) ps (proj1 Hps) (probs_nonneg c ps Hps) pr eps Hpr Heps a K data' P HK HS) as (r&Er&Fr&Nr).
    + by apply (reach_undef _ _ _ _ _ _ _ _ _ _ _ _ Hc H HF C Hh EF Hdef).
    + lra.
    + exists r. split; [exact Er|]. split; [exact Fr|]. rewrite <- EW. lra.
Qed.
End level.

(** ** C68 *)

Theorem C68_calculate_probability : forall c strict opsem args ks s vars A x F a ps xs eps j data,
  wf_cfg c -> history c opsem strict args ks s vars A -> ab_clean A = true ->
  ab A !! x = Some F -> vars !! x = Some a -> defined c F ->
  true_probs (c_doms c) ps -> Forall2 (Forall2 (about eps)) xs ps -> (0 <= eps)%R -> (tolerance (c_doms c) eps <= 1)%R ->
  (0 <= j)%Z -> j <> Undef ->
  exists r data', calculate_probability c b64_arith j (matrix xs) a data s = Ok (r, data') s /\
    about (tolerance (c_doms c) eps) r (probability real_arith (c_doms c) ps (fun vals => F (of_vals vals) =? j)%Z).
Proof.
  intros c strict opsem args ks s vars A x F a ps xs eps j data Hc H Hcl HF Ha Hdef Hps Hxs Heps Hsm H0 Hu.
  destruct (post_round c strict opsem args ks s vars A Hc H Hcl x F HF a Ha Hdef ps Hps eps Heps Hsm (matrix xs) (matrix_about c eps ps xs Hps Hxs) [j] data)
    as (r&data'&E&N); [by repeat constructor|].
  exists r, data'. split; [exact E|].
  assert (X : probability real_arith (c_doms c) ps (fun vals => F (of_vals vals) =? j)%Z = prob_of real_arith c ps (has [j]) F).
  { apply probability_ext. intros y _. unfold has. simpl. by rewrite orb_false_r. }
  rewrite X. exact N.
Qed.

Theorem C68_calculate_availability : forall c strict opsem args ks s vars A x F a ps xs eps j data,
  wf_cfg c -> history c opsem strict args ks s vars A -> ab_clean A = true ->
  ab A !! x = Some F -> vars !! x = Some a -> defined c F ->
  true_probs (c_doms c) ps -> Forall2 (Forall2 (about eps)) xs ps -> (0 <= eps)%R -> (tolerance (c_doms c) eps <= 1)%R ->
  exists av un data1 data2,
    calculate_availability c b64_arith j (matrix xs) a data s = Ok (av, data1) s /\
    calculate_unavailability c b64_arith j (matrix xs) a data1 s = Ok (un, data2) s /\
    about (tolerance (c_doms c) eps) av (probability real_arith (c_doms c) ps (fun vals => j <=? F (of_vals vals))%Z) /\
    about (tolerance (c_doms c) eps) un (probability real_arith (c_doms c) ps (fun vals => F (of_vals vals) <? j)%Z) /\
    (Rabs (B2R av + B2R un - 1) <= 2 * tolerance (c_doms c) eps)%R.
Proof.
  intros c strict opsem args ks s vars A x F a ps xs eps j data Hc H Hcl HF Ha Hdef Hps Hxs Heps Hsm.
  pose proof (values_round c strict opsem args ks s vars A Hc H Hcl x F HF a Ha Hdef ps Hps eps Heps Hsm (matrix xs) (matrix_about c eps ps xs Hps Hxs)) as G.
  destruct (G (fun v => j <=? v)%Z data) as (av&data1&E1&N1). destruct (G (fun v => v <? j)%Z data1) as (un&data2&E2&N2).
  exists av, un, data1, data2. split; [exact E1|]. split; [exact E2|]. split; [exact N1|]. split; [exact N2|].
  pose proof (complement real_arith real_exact c ps (fun v => j <=? v)%Z F (proj1 Hps)) as S. cbn [a_add a_one real_arith] in S.
  assert (X : prob_of real_arith c ps (fun v => negb (j <=? v)%Z) F = prob_of real_arith c ps (fun v => v <? j)%Z F).
  { apply probability_ext. intros y _. by rewrite Z.ltb_antisym. }
  rewrite X in S. destruct N1 as [_ N1], N2 as [_ N2]. apply Rabs_le_inv in N1, N2. apply Rabs_le. lra.
Qed.

(** systems with two states, given by the probabilities of state 1; 1 - p is rounded as well *)
Lemma two_state_probs c qs : Forall (eq 2) (c_doms c) -> length qs = nvars c -> Forall (fun q => (0 <= q <= 1)%R) qs ->
  true_probs (c_doms c) (two_state real_arith qs).
Proof.
  intros H2 Hl Hq. split; [apply two_state_ok; [apply real_exact|done..]|]. unfold two_state. apply Forall_forall. intros row (q&->&Hin)%elem_of_list_fmap.
  rewrite Forall_forall in Hq. specialize (Hq q Hin). cbn. constructor; [lra|]. constructor; [lra|]. constructor.
Qed.

Lemma wrapped_about c eps qs xs : Forall (eq 2) (c_doms c) -> length qs = nvars c -> Forall (fun q => (0 <= q <= 1)%R) qs -> Forall2 (about eps) xs qs ->
  (eps <= 1)%R -> forall i k t, i < nvars c -> k < dom c i ->
    exists x : b64, wrapped c b64_arith xs i k t = Ok x t /\ is_finite x = true /\
      (Rabs (B2R x - pr_of real_arith (two_state real_arith qs) i k) <= eps + / 2 ^ 53)%R.
Proof.
  intros H2 Hl Hq Hxs B i k t Hi Hk. pose proof u53_pos as U. rewrite u53_eq in U.
  destruct (lookup_lt_is_Some_2 (c_doms c) i Hi) as [d Ed]. rewrite Forall_lookup in H2.
  assert (dom c i = 2) as E2 by (unfold dom; rewrite (nth_lookup_Some _ _ _ _ Ed); symmetry; by eapply H2).
  destruct (lookup_lt_is_Some_2 qs i) as [q Hqi]; [lia|]. destruct (Forall2_lookup_r _ _ _ _ _ Hxs Hqi) as (y&Ey&Fy&Ny).
  rewrite Forall_lookup in Hq. specialize (Hq i q Hqi). unfold wrapped. rewrite Ey.
  assert (Er : two_state real_arith qs !! i = Some [(1 - q)%R; q]) by (unfold two_state; by rewrite list_lookup_fmap, Hqi).
  unfold pr_of. rewrite (nth_lookup_Some _ _ _ _ Er).
  destruct k as [|[|k]]; [| |lia]; cbn [Nat.eqb orb negb]; rewrite andb_false_r, (bind_ok _ _ _ y t) by done.
  - exists (a_sub b64_arith (a_one b64_arith) y). split; [done|].
    pose proof (Rabs_le_inv _ _ Ny) as Ny'.
    assert (M : (Rabs (1 - B2R y) <= 2)%R) by (apply Rabs_le; lra).
    destruct (sub_is Bone y 1 (B2R y) one_is) as [Fs Es]; [by split|by apply two_small|]. split; [exact Fs|].
    pose proof (rnd_abs _ M) as R1. rewrite <- Es, u53_eq in R1. apply Rabs_le_inv in R1. cbn [nth]. apply Rabs_le.
    change (a_sub b64_arith (a_one b64_arith) y) with (sub64 Bone y). lra.
  - exists y. split; [done|]. split; [done|]. cbn [nth]. lra.
Qed.

(** a tolerance up to 1 is only reached by deviations up to 1 *)
Lemma eps_small eps n : (0 <= eps)%R -> 1 <= n -> (2 * (/ 2 ^ 53 + (eps + / 2 ^ 53)) * INR n <= 1)%R -> (eps <= 1)%R.
Proof.
  intros He Hn Hs. pose proof u53_pos as U. rewrite u53_eq in U. apply (le_INR 1) in Hn.
  assert (2 * (/ 2 ^ 53 + (eps + / 2 ^ 53)) * 1 <= 2 * (/ 2 ^ 53 + (eps + / 2 ^ 53)) * INR n)%R by (apply Rmult_le_compat_l; [lra|exact Hn]). lra.
Qed.

Theorem C68_calculate_probability_bss : forall c strict opsem args ks s vars A x F a qs xs eps data,
  wf_cfg c -> history c opsem strict args ks s vars A -> ab_clean A = true ->
  ab A !! x = Some F -> vars !! x = Some a -> defined c F ->
  Forall (eq 2) (c_doms c) -> length qs = nvars c -> Forall (fun q => (0 <= q <= 1)%R) qs -> Forall2 (about eps) xs qs ->
  (0 <= eps)%R -> (tolerance (c_doms c) (eps + / 2 ^ 53) <= 1)%R ->
  exists r data', calculate_probability c b64_arith 1 (wrapped c b64_arith xs) a data s = Ok (r, data') s /\
    about (tolerance (c_doms c) (eps + / 2 ^ 53)) r (probability real_arith (c_doms c) (two_state real_arith qs) (fun vals => F (of_vals vals) =? 1)%Z).
Proof.
  intros c strict opsem args ks s vars A x F a qs xs eps data Hc H Hcl HF Ha Hdef H2 Hl Hq Hxs Heps Hsm.
  pose proof u53_pos as U. rewrite u53_eq in U. pose proof (two_state_probs c qs H2 Hl Hq) as Hps.
  destruct (post_round c strict opsem args ks s vars A Hc H Hcl x F HF a Ha Hdef _ Hps (eps + / 2 ^ 53)%R ltac:(lra) Hsm (wrapped c b64_arith xs)) with (sel := [1%Z]) (data := data)
    as (r&data'&E&N).
  - intros i k t Hi Hk. apply wrapped_about; try done. apply (eps_small eps (sum_list (c_doms c))); [done| |exact Hsm].
    destruct (lookup_lt_is_Some_2 (c_doms c) i Hi) as [d Ed]. rewrite Forall_lookup in H2. pose proof (H2 i d Ed) as <-.
    apply elem_of_list_lookup_2, elem_of_list_split in Ed as (l1&l2&->). rewrite sum_list_with_app. simpl. lia.
  - by repeat constructor.
  - exists r, data'. split; [exact E|].
    assert (X : probability real_arith (c_doms c) (two_state real_arith qs) (fun vals => F (of_vals vals) =? 1)%Z = prob_of real_arith c (two_state real_arith qs) (has [1%Z]) F).
    { apply probability_ext. intros y _. unfold has. simpl. by rewrite orb_false_r. }
    rewrite X. exact N.
Qed.

(** calculate_probabilities and its getters: the error grows with the size of the diagram *)
Theorem C68_calculate_probabilities : forall c strict opsem args ks s vars A x F a ps xs eps n data,
  wf_cfg c -> history c opsem strict args ks s vars A -> ab_clean A = true ->
  ab A !! x = Some F -> vars !! x = Some a ->
  true_probs (c_doms c) ps -> Forall2 (Forall2 (about eps)) xs ps -> (0 <= eps)%R ->
  diagram_node_count c a s = Ok (Z.of_nat n) s -> (level_tolerance (c_doms c) n eps <= 1)%R ->
  exists data', calculate_probabilities c b64_arith (matrix xs) a data s = Ok data' s /\
    forall j, (0 <= j)%Z -> j <> Undef -> exists r, get_probability b64_arith j data' s = Ok r s /\
      about (level_tolerance (c_doms c) n eps) r (probability real_arith (c_doms c) ps (fun vals => j =? F (of_vals vals))%Z).
Proof.
  intros c strict opsem args ks s vars A x F a ps xs eps n data Hc H Hcl HF Ha Hps Hxs Heps Hn Ht.
  destruct (level_round c strict opsem args ks s vars A Hc H Hcl x F HF a Ha ps Hps eps Heps (matrix xs) (matrix_about c eps ps xs Hps Hxs) n data Hn Ht)
    as (data'&E&G&_). by exists data'.
Qed.

Theorem C68_calculate_probabilities_bss : forall c strict opsem args ks s vars A x F a qs xs eps n data,
  wf_cfg c -> history c opsem strict args ks s vars A -> ab_clean A = true ->
  ab A !! x = Some F -> vars !! x = Some a ->
  Forall (eq 2) (c_doms c) -> length qs = nvars c -> Forall (fun q => (0 <= q <= 1)%R) qs -> Forall2 (about eps) xs qs -> (0 <= eps)%R ->
  diagram_node_count c a s = Ok (Z.of_nat n) s -> (level_tolerance (c_doms c) n (eps + / 2 ^ 53) <= 1)%R ->
  exists data', calculate_probabilities c b64_arith (wrapped c b64_arith xs) a data s = Ok data' s /\
    forall j, (0 <= j)%Z -> j <> Undef -> exists r, get_probability b64_arith j data' s = Ok r s /\
      about (level_tolerance (c_doms c) n (eps + / 2 ^ 53)) r (probability real_arith (c_doms c) (two_state real_arith qs) (fun vals => j =? F (of_vals vals))%Z).
Proof.
  intros c strict opsem args ks s vars A x F a qs xs eps n data Hc H Hcl HF Ha H2 Hl Hq Hxs Heps Hn Ht.
  pose proof u53_pos as U. rewrite u53_eq in U. pose proof (two_state_probs c qs H2 Hl Hq) as Hps.
  destruct (history_query _ _ _ _ _ _ _ _ _ _ Hc H HF) as (g&a'&Ha'&C&Hh&EF&_&Cl&_). rewrite Ha in Ha'. injection Ha' as <-.
  destruct (node_count_ok c opsem strict g s C (Cl Hcl) a Hh) as (K0&NK0&HK0&En').
  assert (Hn1 : 1 <= n).
  { rewrite Hn in En'. assert (Z.of_nat n = Z.of_nat (length K0)) as X by congruence. apply Nat2Z.inj in X as ->.
    assert (a ∈ K0) as Hin by (apply HK0; constructor). destruct K0; [by apply elem_of_nil in Hin|simpl; lia]. }
  destruct (level_round c strict opsem args ks s vars A Hc H Hcl x F HF a Ha _ Hps (eps + / 2 ^ 53)%R ltac:(lra) (wrapped c b64_arith xs)) with (n := n) (data := data)
    as (data'&E&G&_); [|done|done|by exists data'].
  intros i k t Hi Hk. apply wrapped_about; try done. apply (eps_small eps (n * list_max (c_doms c))); [done| |exact Ht].
  destruct (lookup_lt_is_Some_2 (c_doms c) i Hi) as [d Ed]. rewrite Forall_lookup in H2. pose proof (H2 i d Ed) as <-.
  pose proof (proj1 (list_max_le (c_doms c) (list_max (c_doms c))) (le_n _)) as M. rewrite List.Forall_forall in M.
  specialize (M 2 (proj1 (elem_of_list_In _ _) (elem_of_list_lookup_2 _ _ _ Ed))). nia.
Qed.

Theorem C68_get_availability : forall c strict opsem args ks s vars A x F a ps xs eps n data,
  wf_cfg c -> history c opsem strict args ks s vars A -> ab_clean A = true ->
  ab A !! x = Some F -> vars !! x = Some a -> defined c F ->
  true_probs (c_doms c) ps -> Forall2 (Forall2 (about eps)) xs ps -> (0 <= eps)%R ->
  diagram_node_count c a s = Ok (Z.of_nat n) s -> (sum_tolerance (c_doms c) n eps <= 1)%R ->
  exists data', calculate_probabilities c b64_arith (matrix xs) a data s = Ok data' s /\
    forall j, exists av un,
      get_availability b64_arith j data' s = Ok av s /\ get_unavailability b64_arith j data' s = Ok un s /\
      about (sum_tolerance (c_doms c) n eps) av (probability real_arith (c_doms c) ps (fun vals => j <=? F (of_vals vals))%Z) /\
      about (sum_tolerance (c_doms c) n eps) un (probability real_arith (c_doms c) ps (fun vals => F (of_vals vals) <? j)%Z) /\
      (Rabs (B2R av + B2R un - 1) <= 2 * sum_tolerance (c_doms c) n eps)%R.
Proof.
  intros c strict opsem args ks s vars A x F a ps xs eps n data Hc H Hcl HF Ha Hdef Hps Hxs Heps Hn Ht.
  assert (Hl : (level_tolerance (c_doms c) n eps <= 1)%R).
  { eapply Rle_trans; [|exact Ht]. unfold sum_tolerance. pose proof u53_pos as U. rewrite u53_eq in U.
    assert (0 <= / 2 ^ 53 * INR n)%R by (apply Rmult_le_pos; [lra|apply pos_INR]). lra. }
  destruct (level_round c strict opsem args ks s vars A Hc H Hcl x F HF a Ha ps Hps eps Heps (matrix xs) (matrix_about c eps ps xs Hps Hxs) n data Hn Hl)
    as (data'&E&_&G). exists data'. split; [exact E|]. intros j.
  destruct (G Hdef Ht (fun v => j <=? v)%Z) as (av&E1&N1). destruct (G Hdef Ht (fun v => v <? j)%Z) as (un&E2&N2).
  exists av, un. split; [exact E1|]. split; [exact E2|]. split; [exact N1|]. split; [exact N2|].
  pose proof (complement real_arith real_exact c ps (fun v => j <=? v)%Z F (proj1 Hps)) as S. cbn [a_add a_one real_arith] in S.
  assert (X : prob_of real_arith c ps (fun v => negb (j <=? v)%Z) F = prob_of real_arith c ps (fun v => v <? j)%Z F).
  { apply probability_ext. intros y _. by rewrite Z.ltb_antisym. }
  rewrite X in S. destruct N1 as [_ N1], N2 as [_ N2]. apply Rabs_le_inv in N1, N2. apply Rabs_le. lra.
Qed.

(** ** Concrete cases *)

Lemma half_is : is (literal 1 2) (1 / 2).
Proof.
  split; [by vm_compute|].
  assert (E : B2SF (literal 1 2) = SpecFloat.S754_finite false 4503599627370496 (-53)) by (by vm_compute).
  rewrite <- SF2R_B2SF, E. unfold SF2R, F2R. simpl. lra.
Qed.

(** at most one of three components works, each with probability 1/2: the result is
    within 2^-48 of 1/2 *)
Example C68_case : exists s vars a r data', history cm (ops_with 2 4 3) true args3 [CVec 0 (bits 23)] s vars (bindf 0 fewF (no_objects args3)) /\
  vars !! 0 = Some a /\
  calculate_probability cm b64_arith 1 (matrix (replicate 3 (replicate 2 (literal 1 2)))) a ∅ s = Ok (r, data') s /\
  about (12 / 2 ^ 53) r (1 / 2).
Proof.
  destruct few_history as (s&vars&a&H&Ha&_).
  assert (B : about 0 (literal 1 2) (1 / 2)%R).
  { destruct half_is as [Fh Eh]. split; [done|]. rewrite Eh. replace (1 / 2 - 1 / 2)%R with 0%R by ring. rewrite Rabs_R0. lra. }
  assert (T : tolerance (c_doms cm) 0 = (12 / 2 ^ 53)%R) by (unfold tolerance; cbn [c_doms cm sum_list sum_list_with]; simpl INR; lra).
  destruct (C68_calculate_probability cm true (ops_with 2 4 3) args3 [CVec 0 (bits 23)] s vars _ 0 fewF a
    (replicate 3 (replicate 2 (1 / 2)%R)) (replicate 3 (replicate 2 (literal 1 2))) 0 1 ∅ cm_wf H eq_refl (lookup_insert _ _ _) Ha few_defined)
    as (r&data'&E&N).
  - split; [repeat (constructor; [split; [done|unfold rsum; cbn; lra]|]); constructor|].
    repeat (constructor; [repeat (constructor; [lra|]); constructor|]). constructor.
  - repeat (constructor; [repeat (constructor; [exact B|]); constructor|]). constructor.
  - lra.
  - rewrite T. assert (12 <= 2 ^ 53)%R by (rewrite (pow_IZR 2 53); apply IZR_le; lia).
    apply Rmult_le_reg_r with (2 ^ 53)%R; [lra|]. unfold Rdiv. rewrite Rmult_assoc, Rinv_l by lra. lra.
  - lia.
  - done.
  - exists s, vars, a, r, data'. split; [exact H|]. split; [exact Ha|]. split; [exact E|]. rewrite <- T.
    assert (X : probability real_arith (c_doms cm) (replicate 3 (replicate 2 (1 / 2)%R)) (fun vals => fewF (of_vals vals) =? 1)%Z = (1 / 2)%R).
    { clear. unfold probability, rsum, weight, states.
      cbn [map c_doms cm seq flat_map app nth replicate fold_right real_arith a_one a_zero a_sub a_add a_mul].
      replace (fewF (of_vals [0; 0; 0])) with 1%Z by (by vm_compute). replace (fewF (of_vals [0; 0; 1])) with 1%Z by (by vm_compute).
      replace (fewF (of_vals [0; 1; 0])) with 1%Z by (by vm_compute). replace (fewF (of_vals [0; 1; 1])) with 0%Z by (by vm_compute).
      replace (fewF (of_vals [1; 0; 0])) with 1%Z by (by vm_compute). replace (fewF (of_vals [1; 0; 1])) with 0%Z by (by vm_compute).
      replace (fewF (of_vals [1; 1; 0])) with 0%Z by (by vm_compute). replace (fewF (of_vals [1; 1; 1])) with 0%Z by (by vm_compute).
      cbn [Z.eqb Pos.eqb]. lra. }
    rewrite X in N. exact N.
Qed.

Lemma few_counted : exists s vars a, history cm (ops_with 2 4 3) true args3 [CVec 0 (bits 23)] s vars (bindf 0 fewF (no_objects args3)) /\
  vars !! 0 = Some a /\ diagram_node_count cm a s = Ok (Z.of_nat 6) s.
Proof.
  assert (Ch : chain cm (ops_with 2 4 3) true [CVec 0 (bits 23)] (no_objects args3) (bindf 0 fewF (no_objects args3))).
  { apply (Ch_cons _ _ _ _ _ _ (bindf 0 fewF (no_objects args3))); [|constructor]. intros s.
    apply (S_vec cm (ops_with 2 4 3) true s 0 (bits 23) (no_objects args3)); [by vm_compute|].
    apply Forall_forall. intros v (k&->&_)%elem_of_list_fmap. left. split; [|done]. destruct (Z.testbit _ _); vm_compute; split; done. }
  destruct (outcome_ok (outcome cm args3 [CVec 0 (bits 23)]) (fun v s => match v !! 0 with Some a =>
    match diagram_node_count cm a s with Ok k _ => (k =? 6)%Z = true | _ => False end | None => False end)) as (vars&s&E&X); [by vm_compute|].
  unfold outcome in E. destruct (new_manager cm args3 no_state) as [[] s0| |] eqn:E0; [|discriminate E..].
  pose proof (chain_new _ _ _ _ _ _ _ _ _ _ cm_args E0 Ch E) as H. clear E E0.
  destruct (vars !! 0) as [a|] eqn:Ha; [|contradiction]. exists s, vars, a. split; [exact H|]. split; [exact Ha|].
  destruct (history_query _ _ _ _ _ _ _ _ 0 fewF cm_wf H (lookup_insert _ _ _)) as (g&a'&Ha'&C&Hh&_&_&Cl&_).
  assert (a' = a) as -> by congruence. destruct (node_count_ok cm (ops_with 2 4 3) true g s C (Cl eq_refl) a Hh) as (D&_&_&EN).
  rewrite EN in X |- *. by apply Z.eqb_eq in X as ->.
Qed.

(** the same system, all states at once: within 24 * 2^-53 *)
Example C68_level_case : exists s vars a data', history cm (ops_with 2 4 3) true args3 [CVec 0 (bits 23)] s vars (bindf 0 fewF (no_objects args3)) /\
  vars !! 0 = Some a /\
  calculate_probabilities cm b64_arith (matrix (replicate 3 (replicate 2 (literal 1 2)))) a ∅ s = Ok data' s /\
  exists r, get_probability b64_arith 1 data' s = Ok r s /\
    about (24 / 2 ^ 53) r (probability real_arith (c_doms cm) (replicate 3 (replicate 2 (1 / 2)%R)) (fun vals => 1 =? fewF (of_vals vals))%Z).
Proof.
  destruct few_counted as (s&vars&a&H&Ha&Hn).
  assert (B : about 0 (literal 1 2) (1 / 2)%R).
  { destruct half_is as [Fh Eh]. split; [done|]. rewrite Eh. replace (1 / 2 - 1 / 2)%R with 0%R by ring. rewrite Rabs_R0. lra. }
  assert (T : level_tolerance (c_doms cm) 6 0 = (24 / 2 ^ 53)%R) by (unfold level_tolerance; cbn [c_doms cm list_max Nat.max fold_right Nat.mul Nat.add]; simpl INR; lra).
  destruct (C68_calculate_probabilities cm true (ops_with 2 4 3) args3 [CVec 0 (bits 23)] s vars _ 0 fewF a
    (replicate 3 (replicate 2 (1 / 2)%R)) (replicate 3 (replicate 2 (literal 1 2))) 0 6 ∅ cm_wf H eq_refl (lookup_insert _ _ _) Ha)
    as (data'&E&G).
  - split; [repeat (constructor; [split; [done|unfold rsum; cbn; lra]|]); constructor|].
    repeat (constructor; [repeat (constructor; [lra|]); constructor|]). constructor.
  - repeat (constructor; [repeat (constructor; [exact B|]); constructor|]). constructor.
  - lra.
  - exact Hn.
  - rewrite T. assert (24 <= 2 ^ 53)%R by (rewrite (pow_IZR 2 53); apply IZR_le; lia).
    apply Rmult_le_reg_r with (2 ^ 53)%R; [lra|]. unfold Rdiv. rewrite Rmult_assoc, Rinv_l by lra. lra.
  - exists s, vars, a, data'. split; [exact H|]. split; [exact Ha|]. split; [exact E|]. rewrite <- T. by apply G.
Qed.

(** a thousand components with three states each, given by doubles within 2^-53 of the
    probabilities: the error is below 10^-11 *)
Example C68_tolerance_case : (tolerance (replicate 1000 3%nat) (/ 2 ^ 53) <= / 10 ^ 11)%R.
Proof.
  assert (E : sum_list (replicate 1000 3) = 3000) by (by vm_compute). unfold tolerance. rewrite E.
  replace (INR 3000) with 3000%R by (rewrite INR_IZR_INZ; f_equal; by vm_compute).
  rewrite (pow_IZR 2 53), (pow_IZR 10 11). change (Z.of_nat 53) with 53%Z. change (Z.of_nat 11) with 11%Z. apply Rmult_le_reg_r with (IZR (2 ^ 53)); [apply (IZR_lt 0); lia|].
  assert (P : (0 < IZR (2 ^ 53))%R) by (apply (IZR_lt 0); lia).
  replace (2 * (/ IZR (2 ^ 53) + / IZR (2 ^ 53)) * 3000 * IZR (2 ^ 53))%R with 12000%R by (field; lra).
  assert (Q : (12000 * IZR (10 ^ 11) <= IZR (2 ^ 53))%R) by (rewrite <- mult_IZR; apply IZR_le; lia).
  assert (P' : (0 < IZR (10 ^ 11))%R) by (apply (IZR_lt 0); lia).
  apply Rmult_le_reg_r with (IZR (10 ^ 11)); [lra|]. replace (/ IZR (10 ^ 11) * IZR (2 ^ 53) * IZR (10 ^ 11))%R with (IZR (2 ^ 53)) by (field; lra). exact Q.
Qed.

Print Assumptions C68_calculate_probability.
Print Assumptions C68_calculate_availability.
Print Assumptions C68_calculate_probability_bss.
Print Assumptions C68_calculate_probabilities.
Print Assumptions C68_get_availability.
Print Assumptions C68_calculate_probabilities_bss.
