(** * Minimal cut and path vectors: proofs *)

From stdpp Require Import gmap list.
From Coq Require Import ZArith Lia.
From Verif Require Import Base Ops Tables NodeManager Tools Sift DiagramManager Reliability World.
From Verif Require Import Heap Inv InvLemmas Prim GC Make Build Apply Api Constr Expr VecSpec Vec Eval Fold.
From Verif Require Import OpSpec OpProof WorldSpec WorldProof Ctor History PropsBase Chain PropsBase2.
From Verif Require Import Queries QuerySpec QueryProof PropsQuery FromPla Mcvs VectorSpec.

Local Open Scope nat_scope.
Local Opaque exec run new_manager evaluate satisfy_all.

(** values of extended derivatives *)
Definition tern (v : Z) : Prop := bit v \/ v = Undef.

Lemma tern_min x y : tern x -> tern y -> op_math PI_CONJ x y = Z.min x y.
Proof. intros [[-> | ->]| ->] [[-> | ->]| ->]; done. Qed.

Lemma tern_closed c : tval c 1 -> tval c Undef -> op_closed c PI_CONJ tern.
Proof.
  intros H1 HU x y Hx Hy. rewrite tern_min by done.
  assert (X : tern (Z.min x y)) by (unfold Z.min; by destruct (x ?= y)%Z).
  split; [|done]. split.
  - simpl. destruct Hx as [[-> | ->]| ->], Hy as [[-> | ->]| ->]; split; try (by right); by left.
  - rewrite tern_min by done. destruct X as [[-> | ->]| ->]; [by apply tval_0_1|done|done].
Qed.

Lemma min_fold l : forall v, (fold_left Z.min l v <= v)%Z /\ (forall w, w ∈ l -> (fold_left Z.min l v <= w)%Z) /\
  (fold_left Z.min l v = v \/ fold_left Z.min l v ∈ l).
Proof.
  induction l as [|w l IH]; intros v; simpl.
  - split_and!; [lia|intros w Hw; by apply elem_of_nil in Hw|by left].
  - destruct (IH (Z.min v w)) as (H1&H2&H3). split_and!.
    + lia.
    + intros u Hu. apply elem_of_cons in Hu as [->|]; [lia|auto].
    + destruct H3 as [E|]; [|right; by constructor]. rewrite E. destruct (Z.min_spec v w) as [[_ ->]|[_ ->]]; [by left|right; constructor].
Qed.

Lemma min_fold_1 v l : tern v -> Forall tern l ->
  fold_left Z.min l v = 1%Z <-> (1%Z ∈ v :: l) /\ (forall w, w ∈ v :: l -> w <> 0%Z).
Proof.
  intros Hv Hl. destruct (min_fold l v) as (H1&H2&H3).
  assert (Hle : forall w, w ∈ v :: l -> (fold_left Z.min l v <= w)%Z).
  { intros w Hw. apply elem_of_cons in Hw as [->|]; auto. }
  assert (Hin : fold_left Z.min l v ∈ v :: l).
  { destruct H3 as [->|]; [constructor|by constructor]. }
  assert (Ht : Forall tern (v :: l)) by by constructor. rewrite Forall_forall in Ht.
  split.
  - intros E. rewrite E in *. split; [done|]. intros w Hw. specialize (Hle w Hw). lia.
  - intros [Ho Hn]. specialize (Hle _ Ho). specialize (Hn _ Hin). specialize (Ht _ Hin).
    destruct Ht as [[|]|E]; [done|done|]. rewrite E in Hle. by vm_compute in Hle.
Qed.

Lemma del_list_lookup xs (mm : gmap nat (asg -> Z)) x : del_list xs mm !! x = if decide (x ∈ xs) then None else mm !! x.
Proof.
  induction xs as [|y xs IH]; [|change (del_list (y :: xs) mm) with (delete y (del_list xs mm))].
  - simpl. destruct (decide (x ∈ [])) as [H|]; [by apply elem_of_nil in H|done].
  - destruct (decide (x = y)) as [->|N].
    + rewrite lookup_delete. destruct (decide (y ∈ y :: xs)) as [|H]; [done|]. destruct H. constructor.
    + rewrite lookup_delete_ne by done. rewrite IH.
      destruct (decide (x ∈ xs)), (decide (x ∈ y :: xs)) as [H|H]; try done.
      * destruct H. by constructor.
      * apply elem_of_cons in H as [|]; done.
Qed.

Definition edgeF (F : asg -> Z) (f : Z -> Z -> bool) (vc : var_change) (rho : asg) : Z :=
  if rho (vc_index vc) =? vc_from vc then
    if f (F (upd rho (vc_index vc) (vc_from vc))) (F (upd rho (vc_index vc) (vc_to vc))) then 1%Z else 0%Z
  else Undef.

Lemma edgeF_tern F f vc rho : tern (edgeF F f vc rho).
Proof. unfold edgeF, tern, bit. destruct (_ =? _); [|by right]. destruct (f _ _); auto. Qed.

Section chain.
Context (c : cfg) (b p m : Z) (strict : bool).
Context (H1 : tval c 1) (HU : tval c Undef).
Notation chain := (chain c (ops_with b p m) strict).

Lemma derivatives_step F f x vcs :
  Forall (fun vc => vc_from vc < dom c (vc_index vc) /\ vc_to vc < dom c (vc_index vc)) vcs ->
  forall t A, ab A !! x = Some F -> x < t ->
  exists B, chain (derivative_calls f x t vcs) A B /\
    ab_order B = ab_order A /\ ab_canon B = ab_canon A /\ ab_cache B = ab_cache A /\ ab_clean B = ab_clean A /\
    (forall y, y ∉ seq t (length vcs) -> ab B !! y = ab A !! y) /\
    funs B (seq t (length vcs)) (map (edgeF F f) vcs).
Proof.
  induction 1 as [|vc vcs [Hf Ht] H IH]; intros t A HF Hx; simpl.
  - exists A. split_and!; try done; constructor.
  - destruct (IH (S t) (bindf t (edgeF F f vc) A)) as (B&Ch&E1&E2&E3&E4&Hs&HFs); [|lia|].
    { simpl. rewrite lookup_insert_ne by lia. done. }
    exists B. split_and!; try done.
    + econstructor; [|exact Ch]. intros s. apply S_dplde; done.
    + intros y Hy. apply not_elem_of_cons in Hy as [Hy1 Hy2]. rewrite Hs by done. simpl. by rewrite lookup_insert_ne.
    + constructor; [|done]. rewrite Hs; [apply lookup_insert|]. rewrite elem_of_seq. lia.
Qed.

Lemma conj_step d xs Fs A : ab_cache A = true -> xs <> [] -> NoDup xs -> funs A xs Fs -> Forall (fun F => forall rho, tern (F rho)) Fs ->
  exists G, chain [CTree d PI_CONJ xs] A (bindf d G (set_ab (del_list xs (ab A)) A)) /\
    forall rho, valid c rho -> G rho = match map (fun F => F rho) Fs with [] => 0%Z | v :: vs => fold_left Z.min vs v end.
Proof.
  intros Hca Hne Hnd HF Hb. destruct HF as [|x F xs Fs Hx HF]; [done|].
  pose proof (tern_closed c H1 HU) as HV.
  assert (Hall : forall rho, valid c rho -> Forall tern (map (fun G => G rho) (F :: Fs))).
  { intros rho Hv. rewrite Forall_map. eapply Forall_impl; [exact Hb|]. intros G HG. by apply HG. }
  assert (Ho : op_known c (ops_with b p m) PI_CONJ) by by apply op_allowed_known.
  eexists. split.
  - apply chain_one. intros s. apply (S_tree _ _ _ s d PI_CONJ (x :: xs) (F :: Fs)); [done|done|done|done|by constructor|].
    intros rho Hv. eapply closed_rounds_good; [exact HV|done|by apply Hall].
  - intros rho Hv. cbn beta. specialize (Hall rho Hv). rewrite (balanced_on tern _ (op_math PI_CONJ)).
    + simpl map. inversion Hall; subst. rewrite (balanced_assoc_on tern (op_math PI_CONJ)); try done.
      * apply (fold_on tern); try done; [by intros; apply tern_min|]. intros y z Hy Hz. rewrite <- tern_min by done. by apply HV.
      * intros y z Hy Hz. by apply HV.
      * intros y z w Hy Hz Hw. rewrite !tern_min; try done; try apply HV; try done. apply eq_sym, Z.min_assoc.
    + intros y z Hy Hz. apply op_applicable_fun. by apply HV.
    + intros y z Hy Hz. by apply HV.
    + done.
Qed.
End chain.

(** a solution of the conjunction *)
Definition edge_vector (c : cfg) (F : asg -> Z) (f : Z -> Z -> bool) (vcs : list var_change) (vals : list nat) : Prop :=
  vals_ok c vals /\
  (exists vc, vc ∈ vcs /\ of_vals vals (vc_index vc) = vc_from vc) /\
  (forall vc, vc ∈ vcs -> of_vals vals (vc_index vc) = vc_from vc ->
    f (F (of_vals vals)) (F (of_vals (<[vc_index vc := vc_to vc]> vals))) = true).

Lemma of_vals_upd c vals i k j : vals_ok c vals -> i < nvars c -> j < nvars c ->
  upd (of_vals vals) i k j = of_vals (<[i := k]> vals) j.
Proof.
  intros [Hl Hv] Hi Hj. unfold of_vals, upd. rewrite nth_insert by lia. by destruct (decide (i = j)), (decide (j = i)).
Qed.

Lemma and_iff_compat_l_dep (P Q R : Prop) : (P -> (Q <-> R)) -> (P /\ Q <-> P /\ R).
Proof. tauto. Qed.

Theorem vectors_g_spec c strict b p m args ks s vars A x F f vcs t :
  wf_cfg c -> history c (ops_with b p m) strict args ks s vars A -> ab_cache A = true ->
  ab A !! x = Some F -> x < t -> (forall d, t <= d -> ab A !! d = None) -> tval c 1 -> tval c Undef -> vcs <> [] ->
  Forall (fun vc => vc_index vc < nvars c /\ vc_from vc < dom c (vc_index vc) /\ vc_to vc < dom c (vc_index vc)) vcs ->
  match vectors_g c vcs f x t vars s with
  | Ok (out, vars') s' =>
      NoDup out /\ (forall vals, vals ∈ out <-> edge_vector c F f vcs vals) /\
      exists ks' A', history c (ops_with b p m) strict args (ks ++ ks') s' vars' A' /\
        ab_order A' = ab_order A /\ ab_canon A' = ab_canon A /\ ab_cache A' = ab_cache A /\ ab_clean A' = ab_clean A /\
        forall d, ab A' !! d = ab A !! d
  | Err e => e = ERefOver \/ (strict = false /\ e = EPool)
  | Fuel => False
  end.
Proof.
  intros Hc H Hca HF Hx Hfree H1 HU Hne Hok. unfold vectors_g. set (n := length vcs).
  destruct (derivatives_step c b p m strict H1 HU F f x vcs) with (t := t) (A := A) as (B1&C1&E1&E2&E3&E4&Hs&HFs); try done.
  { eapply Forall_impl; [exact Hok|]. intros vc Hvc. apply Hvc. }
  fold n in Hs, HFs.
  destruct (conj_step c b p m strict H1 HU (t + n) (seq t n) (map (edgeF F f) vcs) B1) as (G&C2&HG); try done.
  { congruence. } { unfold n. by destruct vcs. } { apply NoDup_ListNoDup, seq_NoDup. }
  { rewrite Forall_map. apply Forall_true. intros vc rho. apply edgeF_tern. }
  set (B2 := bindf (t + n) G (set_ab (del_list (seq t n) (ab B1)) B1)) in *.
  pose proof (run_chain c (ops_with b p m) strict args Hc _ ks s vars A B2 H (chain_app _ _ _ _ _ _ _ _ _ _ C1 C2)) as X.
  unfold bind at 1. destruct (run c (derivative_calls f x t vcs ++ _) vars s) as [vars1 s1|e|]; [|exact X|exact X].
  assert (HG2 : ab B2 !! (t + n) = Some G) by (simpl; apply lookup_insert).
  destruct (C11_satisfy_all c strict (ops_with b p m) args _ s1 vars1 B2 (t + n) G 1%Z Hc X HG2) as (a&sols&Ha&Es&[ND HS]&_).
  { clear - H1. unfold value_ok. destruct (c_fixed c) eqn:E; [|done]. destruct H1 as [[_ Hf]|[Hf _]]; [|by vm_compute in Hf]. rewrite E in Hf. try (right; lia); lia. }
  unfold deref. rewrite Ha. unfold of_opt, bind at 1, ret at 1. unfold bind at 1. rewrite Es.
  destruct (resets_step c b p m strict (t + n :: seq t n) B2) as (B3&C3&F1&F2&F3&F4&R1&R2).
  pose proof (run_chain c (ops_with b p m) strict args Hc _ _ s1 vars1 B2 B3 X C3) as Y. unfold bind.
  change (CReset (t + n) :: map CReset (seq t n)) with (map CReset (t + n :: seq t n)).
  destruct (run c (map CReset (t + n :: seq t n)) vars1 s1) as [vars2 s2|e|]; [|exact Y|exact Y].
  unfold ret. split; [exact ND|]. split.
  - intros vals. rewrite HS. unfold solution, edge_vector. apply and_iff_compat_l_dep. intros Hvo.
    assert (K : G (of_vals vals) = 1%Z <-> (exists vc, vc ∈ vcs /\ edgeF F f vc (of_vals vals) = 1%Z) /\
      (forall vc, vc ∈ vcs -> edgeF F f vc (of_vals vals) <> 0%Z)).
    { rewrite HG by apply Hvo. clear - Hne. destruct vcs as [|vc0 vcs']; [done|]. cbn [map]. rewrite min_fold_1.
      2:{ apply edgeF_tern. }
      2:{ rewrite map_map, Forall_map. apply Forall_true. intros vc. apply edgeF_tern. }
      rewrite map_map.
      change (edgeF F f vc0 (of_vals vals) :: map (fun vc => edgeF F f vc (of_vals vals)) vcs')
        with (map (fun vc => edgeF F f vc (of_vals vals)) (vc0 :: vcs')).
      rewrite elem_of_list_fmap. split; intros [(vc&Hvc&Hvc') Hall].
      - split; [by exists vc|]. intros vc' Hin. apply Hall. apply elem_of_list_fmap. by exists vc'.
      - split; [by exists vc|]. intros w Hw. apply elem_of_list_fmap in Hw as (vc'&->&Hin). by apply Hall. }
    assert (EQ : forall vc, vc ∈ vcs -> of_vals vals (vc_index vc) = vc_from vc ->
      edgeF F f vc (of_vals vals) =
        if f (F (of_vals vals)) (F (of_vals (<[vc_index vc := vc_to vc]> vals))) then 1%Z else 0%Z).
    { intros vc Hin Heq. rewrite Forall_forall in Hok. destruct (Hok vc Hin) as (Hi&Hf&Ht).
      unfold edgeF. rewrite Heq, Nat.eqb_refl.
      rewrite (history_ext c _ strict args ks s vars A x F (upd (of_vals vals) (vc_index vc) (vc_from vc)) (of_vals vals) Hc H HF).
      rewrite (history_ext c _ strict args ks s vars A x F (upd (of_vals vals) (vc_index vc) (vc_to vc)) (of_vals (<[vc_index vc:=vc_to vc]> vals)) Hc H HF).
      - done.
      - apply upd_valid; [apply Hvo|done].
      - intros i Hi'. by apply (of_vals_upd c).
      - apply upd_valid; [apply Hvo|done].
      - intros i Hi'. unfold upd. destruct (decide (i = vc_index vc)) as [->|]; done. }
    assert (NE : forall vc, of_vals vals (vc_index vc) <> vc_from vc -> edgeF F f vc (of_vals vals) = Undef).
    { intros vc Hn. unfold edgeF. destruct (Nat.eqb_spec (of_vals vals (vc_index vc)) (vc_from vc)); done. }
    rewrite K. split.
    + intros [(vc&Hin&Hone) Hall]. split.
      * exists vc. split; [done|]. destruct (decide (of_vals vals (vc_index vc) = vc_from vc)) as [|Hn]; [done|].
        rewrite (NE vc Hn) in Hone. discriminate Hone.
      * intros vc' Hin' Heq. specialize (Hall vc' Hin'). rewrite (EQ vc' Hin' Heq) in Hall. by destruct (f _ _).
    + intros [(vc&Hin&Heq) Hall]. split.
      * exists vc. split; [done|]. by rewrite (EQ vc Hin Heq), Hall.
      * intros vc' Hin'. destruct (decide (of_vals vals (vc_index vc') = vc_from vc')) as [Heq'|Hn].
        -- by rewrite (EQ vc' Hin' Heq'), Hall.
        -- by rewrite NE.
  - exists (derivative_calls f x t vcs ++ [CTree (t + n) PI_CONJ (seq t n)] ++ map CReset (t + n :: seq t n)), B3.
    split; [by rewrite !app_assoc in *|]. split_and!; try (simpl in *; congruence).
    intros d. destruct (decide (d ∈ t + n :: seq t n)) as [Hi|Hi].
    + rewrite R1 by done. symmetry. apply Hfree. apply elem_of_cons in Hi as [->|Hi]; [lia|]. apply elem_of_seq in Hi. lia.
    + rewrite R2 by done. apply not_elem_of_cons in Hi as [Hd Hi]. simpl. rewrite lookup_insert_ne by done.
      rewrite del_list_lookup, decide_False by done. by apply Hs.
Qed.

Lemma mcvs_changes_elem c vc : vc ∈ mcvs_changes c <->
  vc_index vc < nvars c /\ S (vc_from vc) < dom c (vc_index vc) /\ vc_to vc = S (vc_from vc).
Proof.
  unfold mcvs_changes. rewrite elem_of_list_In, in_flat_map. split.
  - intros (i&Hi&Hk). apply in_map_iff in Hk as (k&<-&Hk). apply in_seq in Hi, Hk. simpl. lia.
  - destruct vc as [i k k']. simpl. intros (Hi&Hk&->). exists i. split; [apply in_seq; lia|]. apply in_map_iff.
    exists k. split; [f_equal; lia|]. apply in_seq. lia.
Qed.
Lemma mpvs_changes_elem c vc : vc ∈ mpvs_changes c <->
  vc_index vc < nvars c /\ 0 < vc_from vc < dom c (vc_index vc) /\ vc_to vc = pred (vc_from vc).
Proof.
  unfold mpvs_changes. rewrite elem_of_list_In, in_flat_map. split.
  - intros (i&Hi&Hk). apply in_map_iff in Hk as (k&<-&Hk). apply in_seq in Hi, Hk. simpl. lia.
  - destruct vc as [i k k']. simpl. intros (Hi&Hk&->). exists i. split; [apply in_seq; lia|]. apply in_map_iff.
    exists k. split; [f_equal; lia|]. apply in_seq. lia.
Qed.

Lemma alter_vals (g : nat -> nat) i vals : alter g i vals = <[i := g (nth i vals 0)]> vals.
Proof. revert i. induction vals as [|v vals IH]; intros [|i]; simpl; try done. f_equal. apply IH. Qed.

Lemma edge_cut c F j vals : edge_vector c F (type_3_increase j) (mcvs_changes c) vals <-> minimal_cut c F j vals.
Proof.
  unfold edge_vector, minimal_cut. apply and_iff_compat_l. split.
  - intros [(vc&Hin&Heq) Hall]. pose proof (Hall vc Hin Heq) as HT. unfold type_3_increase in HT.
    apply andb_true_iff in HT as [HT _]. apply Z.ltb_lt in HT. apply mcvs_changes_elem in Hin as (Hi&Hf&_). split; [done|]. split.
    + exists (vc_index vc). unfold of_vals in Heq. by rewrite Heq.
    + intros i Hi' Hlt. rewrite alter_vals.
      specialize (Hall (VarChange i (nth i vals 0) (S (nth i vals 0)))). unfold type_3_increase in Hall. simpl in Hall.
      assert (Hin : VarChange i (nth i vals 0) (S (nth i vals 0)) ∈ mcvs_changes c) by by apply mcvs_changes_elem.
      specialize (Hall Hin eq_refl).
      apply andb_true_iff in Hall as [_ Hall]. by apply Z.leb_le.
  - intros (Hlow&(i&Hi&Hlt)&Hall). split.
    + exists (VarChange i (nth i vals 0) (S (nth i vals 0))). split; [|done]. by apply mcvs_changes_elem.
    + intros vc Hin Heq. apply mcvs_changes_elem in Hin as (Hi'&Hf&Ht). unfold of_vals in Heq.
      unfold type_3_increase. apply andb_true_iff. split; [by apply Z.ltb_lt|]. apply Z.leb_le.
      specialize (Hall (vc_index vc) Hi'). rewrite alter_vals, Heq in Hall. rewrite Ht. by apply Hall.
Qed.

Lemma edge_path c F j vals : edge_vector c F (type_3_decrease j) (mpvs_changes c) vals <-> minimal_path c F j vals.
Proof.
  unfold edge_vector, minimal_path. split.
  - intros (Hvo&(vc&Hin&Heq)&Hall). split; [done|]. pose proof (Hall vc Hin Heq) as HT. unfold type_3_decrease in HT.
    apply andb_true_iff in HT as [HT _]. apply Z.leb_le in HT. apply mpvs_changes_elem in Hin as (Hi&Hf&_). split; [done|]. split.
    + exists (vc_index vc). unfold of_vals in Heq. rewrite Heq. split; [done|lia].
    + intros i Hi' Hlt. rewrite alter_vals.
      specialize (Hall (VarChange i (nth i vals 0) (pred (nth i vals 0)))). unfold type_3_decrease in Hall. simpl in Hall.
      assert (Hin : VarChange i (nth i vals 0) (pred (nth i vals 0)) ∈ mpvs_changes c).
      { apply mpvs_changes_elem. split; [done|]. split; [|done]. split; [done|]. by apply (proj2 Hvo). }
      specialize (Hall Hin eq_refl).
      apply andb_true_iff in Hall as [_ Hall]. by apply Z.ltb_lt.
  - intros (Hvo&Hlow&(i&Hi&Hlt)&Hall). split; [done|]. split.
    + exists (VarChange i (nth i vals 0) (pred (nth i vals 0))). split; [|done]. apply mpvs_changes_elem.
      split; [done|]. split; [|done]. split; [done|]. by apply (proj2 Hvo).
    + intros vc Hin Heq. apply mpvs_changes_elem in Hin as (Hi'&Hf&Ht). unfold of_vals in Heq.
      unfold type_3_decrease. apply andb_true_iff. split; [by apply Z.leb_le|]. apply Z.ltb_lt.
      specialize (Hall (vc_index vc) Hi'). rewrite alter_vals, Heq in Hall. rewrite Ht. apply Hall. lia.
Qed.
