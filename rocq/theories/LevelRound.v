(** * Rounding errors of the traversal from the root *)

From stdpp Require Import gmap list.
From Coq Require Import ZArith Lia Reals Lra Psatz.
From Flocq Require Import Core BinarySingleNaN.
From Verif Require Import Base NodeManager Heap Inv InvLemmas Prim GC Build Canon Api Eval VecSpec Queries Trav TravLevel QuerySpec
  QueryProof Minimal WorldSpec Prob ProbSpec Expect.
From Verif Require Import ProbProof ProbFloat Sizes SizesProof Symbolic SymbolicProof RoundProof.

Local Open Scope R_scope.

(** one son: [T] bounds the mass that is on its way *)
Lemma spread_error (dy da p : b64) P rest T eps :
  is_finite dy = true -> is_finite da = true -> is_finite p = true ->
  Rabs (B2R p - P) <= eps -> 0 <= P <= rest -> rest <= 1 -> Rabs (B2R da) <= 1 + T -> Rabs (B2R dy) + Rabs (B2R da) * rest <= 1 + T ->
  0 <= T -> T + 2 * (u53 + eps) <= 1 ->
  is_finite (a_add b64_arith dy (a_mul b64_arith da p)) = true /\
  Rabs (B2R (a_add b64_arith dy (a_mul b64_arith da p)) - (B2R dy + B2R da * P)) <= 2 * (u53 + eps).
Proof.
  intros Fy Fa Fp Hp HP Hr Ha Hy HT Ht. pose proof u53_pos as Hu.
  assert (He : 0 <= eps) by (eapply Rle_trans; [apply Rabs_pos|exact Hp]).
  pose proof (Rabs_pos (B2R da)) as Hda. pose proof (Rabs_pos (B2R dy)) as Hdy.
  assert (D : Rabs (B2R da * B2R p - B2R da * P) <= 2 * eps).
  { replace (B2R da * B2R p - B2R da * P) with (B2R da * (B2R p - P)) by ring. rewrite Rabs_mult.
    apply Rmult_le_compat; try apply Rabs_pos; [lra|done]. }
  assert (E1 : Rabs (B2R da * P) <= Rabs (B2R da) * rest).
  { rewrite Rabs_mult, (Rabs_pos_eq P) by lra. apply Rmult_le_compat_l; lra. }
  assert (E2 : Rabs (B2R da) * rest <= 1 + T).
  { eapply Rle_trans; [|exact Ha]. rewrite <- (Rmult_1_r (Rabs (B2R da))) at 2. apply Rmult_le_compat_l; lra. }
  apply Rabs_le_inv in D. pose proof (Rabs_le_inv _ _ E1) as E1'.
  assert (M2 : Rabs (B2R da * B2R p) <= 2) by (apply Rabs_le; lra).
  destruct (mul_is da p (B2R da) (B2R p)) as [Fm Em]; [by split|by split|by apply two_small|].
  pose proof (rnd_abs _ M2) as R1. rewrite <- Em in R1. apply Rabs_le_inv in R1.
  change (mul64 da p) with (a_mul b64_arith da p) in *. set (m := a_mul b64_arith da p) in *.
  pose proof (Rabs_le_inv _ _ (Rle_refl (Rabs (B2R dy)))) as Hy'.
  assert (M3 : Rabs (B2R dy + B2R m) <= 2) by (apply Rabs_le; lra).
  destruct (add_is dy m (B2R dy) (B2R m)) as [Fs Es]; [by split|by split|by apply two_small|].
  pose proof (rnd_abs _ M3) as R2. rewrite <- Es in R2. apply Rabs_le_inv in R2.
  change (Bplus mode_NE dy m) with (a_add b64_arith dy m) in *. split; [exact Fs|]. apply Rabs_le. lra.
Qed.

Lemma rsum_pos {A} (f : A -> R) l : (forall x, x ∈ l -> 0 <= f x) -> 0 <= rsum real_arith (map f l).
Proof.
  unfold rsum. induction l as [|x l IH]; intros H; cbn; [lra|].
  pose proof (H x ltac:(left)). specialize (IH ltac:(intros y Hy; apply H; by right)). cbn in *. lra.
Qed.

Lemma rsum_member {A} (f : A -> R) l x : (forall y, y ∈ l -> 0 <= f y) -> x ∈ l -> f x <= rsum real_arith (map f l).
Proof.
  induction l as [|y l IH]; intros H Hx; [by apply elem_of_nil in Hx|].
  change (rsum real_arith (map f (y :: l))) with (f y + rsum real_arith (map f l)).
  assert (Hl : 0 <= rsum real_arith (map f l)) by (apply rsum_pos; intros z Hz; apply H; by right).
  apply elem_of_cons in Hx as [->|Hx]; [lra|]. pose proof (H y ltac:(left)).
  specialize (IH ltac:(intros z Hz; apply H; by right) Hx). lra.
Qed.

Local Close Scope R_scope.
Local Open Scope nat_scope.

Section proof.
Context (c : cfg) (opsem : Z -> option (Z -> Z -> Z)) (strict : bool).
Context (g : ghost) (s : st) (Hc : wf_cfg c) (C : calm c opsem strict g s) (Cl : clean s).
Context (ps : list (list R)) (Hd : distributions real_arith (c_doms c) ps).
Notation P := (pr_of real_arith ps).
Context (Hnn : forall i k, i < nvars c -> k < dom c i -> (0 <= P i k)%R).
Context (pr : probs) (eps : R) (Hpr : forall i k t, i < nvars c -> k < dom c i ->
  exists x : b64, pr i k t = Ok x t /\ is_finite x = true /\ (Rabs (B2R x - P i k) <= eps)%R).
Context (Heps : (0 <= eps)%R).
Notation L := (live (s_heap s)).
Notation order := (s_l2i s).
Notation rk := (rank c g (s_heap s)).
Notation held := (held g (s_heap s)).
Notation W := (W c g s real_arith ps).
Notation eta := (2 * (u53 + eps))%R.

Definition unit_fun (gf : Z -> R) : Prop := forall v, (0 <= gf v <= 1)%R.

Lemma Ex_unit gf os : unit_fun gf -> (forall i, i ∈ os -> i < nvars c) -> forall F rho, (0 <= Ex c real_arith ps gf os F rho <= 1)%R.
Proof.
  intros Hg. induction os as [|i os IH]; intros Hos F rho; cbn [Ex]; [apply Hg|].
  assert (Hi : i < nvars c) by (apply Hos; left).
  change 1%R with (a_one real_arith). rewrite <- (row_sum c real_arith ps Hd i Hi). apply rsum_bounds.
  intros k Hk%elem_of_seq. cbn [a_mul real_arith]. pose proof (Hnn i k Hi ltac:(lia)).
  destruct (IH ltac:(intros j Hj; apply Hos; by right) F (upd rho i k)) as [I1 I2].
  split; [by apply Rmult_le_pos|]. rewrite <- (Rmult_1_r (P i k)) at 2. by apply Rmult_le_compat_l.
Qed.

Lemma W_unit gf x : unit_fun gf -> (0 <= W gf x <= 1)%R.
Proof.
  intros Hg. unfold ProbProof.W. apply Ex_unit; [done|]. intros i Hi.
  assert (i ∈ order) as Ho by (rewrite <- (take_drop (rk x) order); apply elem_of_app; by right).
  rewrite (order_seq c opsem strict g s C) in Ho. apply elem_of_seq in Ho. lia.
Qed.

(** the sum of the probabilities of the first [j] states *)
Definition Pm (i j : nat) : R := rsum real_arith (map (P i) (seq 0 j)).
Lemma Pm_S i j : Pm i (S j) = (Pm i j + P i j)%R.
Proof. unfold Pm. by rewrite (rsum_snoc real_arith real_exact). Qed.
Lemma Pm_bounds i j : i < nvars c -> j <= dom c i -> (0 <= Pm i j <= 1)%R.
Proof.
  intros Hi Hj. split.
  - apply rsum_pos. intros k Hk%elem_of_seq. apply Hnn; [done|lia].
  - change 1%R with (a_one real_arith). rewrite <- (row_sum c real_arith ps Hd i Hi). fold (Pm i (dom c i)).
    assert (X : forall k m, m + k = dom c i -> (Pm i m <= Pm i (dom c i))%R).
    { induction k as [|k IH]; intros m Hm; [replace (dom c i) with m by lia; lra|].
      eapply Rle_trans; [|apply (IH (S m)); lia]. rewrite Pm_S. pose proof (Hnn i m Hi ltac:(lia)). lra. }
    apply (X (dom c i - j)). lia.
Qed.

(** the number of arcs that leave the nodes of a list *)
Definition deg (x : positive) : nat := match L x with Some (Int _ sons) => length sons | _ => 0 end.
Definition arcs (D : list positive) : nat := sum_list_with deg D.
Lemma arcs_snoc D a : arcs (D ++ [a]) = arcs D + deg a.
Proof. unfold arcs. rewrite sum_list_with_app. simpl. lia. Qed.
Lemma arcs_sub D K : NoDup D -> (forall x, x ∈ D -> x ∈ K) -> arcs D <= arcs K.
Proof.
  intros ND H. destruct (submseteq_Permutation D K) as [k Hk]; [by apply NoDup_submseteq|].
  assert (E : forall l l', l ≡ₚ l' -> arcs l = arcs l') by (unfold arcs; induction 1; simpl; lia).
  rewrite (E _ _ Hk). unfold arcs. rewrite sum_list_with_app. lia.
Qed.

Section level.
Context (root : positive) (K : list positive) (Hroot : held root) (NK : NoDup K) (HK : forall x, x ∈ K <-> reach L root x).
Context (Hsmall : (eta * INR (arcs K) <= 1)%R).

Definition datr (data : gmap positive b64) (x : positive) : R := match (data !! x : option b64) with Some y => B2R y | None => 0 end.

Definition flow (D : list positive) (data : gmap positive b64) (gf : Z -> R) : R :=
  rsum real_arith (map (fun x => if spent s D x then 0 else datr data x * W gf x)%R K).
Definition mass (D : list positive) (data : gmap positive b64) : R :=
  rsum real_arith (map (fun x => if spent s D x then 0 else Rabs (datr data x))%R K).

Record lstate (D : list positive) (data : gmap positive b64) : Prop := {
  ls_nodup : NoDup D;
  ls_sub : forall x, x ∈ D -> x ∈ K;
  ls_init : forall x, x ∈ K -> exists y : b64, data !! x = Some y /\ is_finite y = true;
  ls_other : forall t, t ∈ ts s -> t ∉ K -> data !! t = Some (a_zero b64_arith);
  ls_flow : forall gf, unit_fun gf -> (Rabs (flow D data gf - W gf root) <= eta * INR (arcs D))%R;
  ls_mass : (mass D data <= 1 + eta * INR (arcs D))%R
}.

Lemma spent_term D a v : L a = Some (Term v) -> forall x, spent s (D ++ [a]) x = spent s D x.
Proof.
  intros E x. unfold spent. destruct (L x) as [[w|j ss]|] eqn:Ex; try done. apply bool_decide_ext. rewrite elem_of_app, elem_of_list_singleton.
  split; [intros [?| ->]; [done|congruence]|by left].
Qed.
Lemma spent_other D a x : x <> a -> spent s (D ++ [a]) x = spent s D x.
Proof. intros Hx. unfold spent. destruct (L x) as [[w|j ss]|]; try done. apply bool_decide_ext. set_solver. Qed.

Lemma mass_member D data x : x ∈ K -> spent s D x = false -> (Rabs (datr data x) <= mass D data)%R.
Proof.
  intros Hx Hs. unfold mass.
  pose proof (rsum_member (fun x => if spent s D x then 0 else Rabs (datr data x))%R K x) as G. cbn beta in G. rewrite Hs in G. apply G; [|done].
  intros y _. destruct (spent s D y); [lra|apply Rabs_pos].
Qed.

Lemma level_near V D data a : reach L root a -> a ∉ D -> (forall x, x ∈ D -> rk x <= rk a) -> lstate D data ->
  exists data', level_op c b64_arith pr data a (fs V s) = Ok data' (fs V s) /\ lstate (D ++ [a]) data'.
Proof.
  intros Hra HaD Hrk H. assert (Ha : held a) by (by eapply held_reach).
  assert (HaK : a ∈ K) by (by apply HK). pose proof u53_pos as U.
  assert (ND' : NoDup (D ++ [a])) by (apply NoDup_app; split; [apply H|split; [set_solver|apply NoDup_singleton]]).
  assert (Hsub' : forall x, x ∈ D ++ [a] -> x ∈ K) by (intros x [Hx| ->%elem_of_list_singleton]%elem_of_app; [by apply (ls_sub _ _ H)|done]).
  unfold level_op. destruct (getn_at c opsem strict g s C a V Ha) as (n&G&E). rewrite (bind_ok _ _ _ _ _ G).
  destruct (n_body n) as [v|i sons] eqn:Eb.
  - exists data. split; [done|].
    assert (A0 : arcs (D ++ [a]) = arcs D) by (rewrite arcs_snoc; unfold deg; rewrite E; lia).
    constructor; [done|done|apply H|apply H| |]; rewrite A0.
    + intros gf Hg. assert (flow (D ++ [a]) data gf = flow D data gf) as ->; [|by apply H]. unfold flow.
      apply rsum_ext. intros x Hx. by rewrite (spent_term D a v E).
    + assert (mass (D ++ [a]) data = mass D data) as ->; [|apply H]. unfold mass.
      apply rsum_ext. intros x Hx. by rewrite (spent_term D a v E).
  - destruct (int_facts c opsem strict g s C a i sons Ha E) as (Hi&Hl&Hlt&Ho&Hsf).
    rewrite (dom_lookup c i Hi), (bind_ok _ _ _ (dom c i) (fs V s)) by done.
    destruct (ls_init _ _ H a HaK) as (da&Eda&Fda).
    assert (Ad : arcs (D ++ [a]) = arcs D + dom c i) by (rewrite arcs_snoc; unfold deg; rewrite E; lia).
    pose proof (arcs_sub _ _ ND' Hsub') as Hak. rewrite Ad in Hak.
    assert (Sa : spent s D a = false) by (unfold spent; rewrite E; by apply bool_decide_eq_false_2).
    assert (Sa' : spent s (D ++ [a]) a = true) by (unfold spent; rewrite E; apply bool_decide_eq_true_2; set_solver).
    assert (Dda : datr data a = B2R da) by (unfold datr; rewrite Eda; reflexivity).
    set (Sm gf j := rsum real_arith (map (fun k => a_mul real_arith (P i k) (W gf (nth k sons 1%positive))) (seq O j))).
    assert (Hsm : forall j, j <= dom c i -> (eta * INR (arcs D + j) <= 1)%R).
    { intros j Hj. eapply Rle_trans; [|exact Hsmall]. apply Rmult_le_compat_l; [lra|]. apply le_INR. lia. }
    assert (Hda : (Rabs (B2R da) <= 1 + eta * INR (arcs D))%R).
    { rewrite <- Dda. eapply Rle_trans; [by apply (mass_member D)|apply H]. }
    destruct (foldM_inv (level_son b64_arith pr a i) (fun j data' =>
        (forall x, x ∈ K -> exists y : b64, data' !! x = Some y /\ is_finite y = true) /\
        (forall t, t ∈ ts s -> t ∉ K -> data' !! t = Some (a_zero b64_arith)) /\
        data' !! a = Some da /\
        (j <= dom c i -> (mass (D ++ [a]) data' + Rabs (B2R da) * (1 - Pm i j) <= 1 + eta * INR (arcs D + j))%R) /\
        (j <= dom c i -> forall gf, unit_fun gf -> (Rabs (flow (D ++ [a]) data' gf + B2R da * (W gf a - Sm gf j) - W gf root) <= eta * INR (arcs D + j))%R))
      (fs V s) (seq O (dom c i)) O data) as (data'&E'&H1&H2&H3&H4&H5).
    + split; [apply H|]. split; [apply H|]. split; [done|]. rewrite Nat.add_0_r. split.
      * intros _. eapply Rle_trans; [|apply H]. unfold mass.
        rewrite (rsum_change real_arith real_exact (fun x => if spent s D x then 0 else Rabs (datr data x))%R
          (fun x => if spent s (D ++ [a]) x then 0 else Rabs (datr data x))%R K a NK HaK).
        -- rewrite Sa, Sa', Dda. unfold Pm. cbn [seq map rsum fold_right real_arith a_zero a_add a_sub]. lra.
        -- intros x Hx. by rewrite spent_other.
      * intros _ gf Hg. eapply Rle_trans; [|by apply H]. right. f_equal. f_equal. unfold flow.
        rewrite (rsum_change real_arith real_exact (fun x => if spent s D x then 0 else datr data x * W gf x)%R
          (fun x => if spent s (D ++ [a]) x then 0 else datr data x * W gf x)%R K a NK HaK).
        -- rewrite Sa, Sa', Dda. unfold Sm. cbn [seq map rsum fold_right real_arith a_zero a_add a_sub]. ring.
        -- intros x Hx. by rewrite spent_other.
    + intros k x acc Hx (H1&H2&H3&H4&H5). apply lookup_seq in Hx as [-> Hk]. cbn [Nat.add] in *.
      specialize (H4 ltac:(lia)). specialize (H5 ltac:(lia)).
      destruct (lookup_lt_is_Some_2 sons k) as [y Hy]; [lia|].
      assert (Hin : y ∈ sons) by (by eapply elem_of_list_lookup_2).
      destruct (Hsf y Hin) as [Hyh Hyr].
      assert (Hya : y <> a) by (intros ->; lia).
      assert (HyK : y ∈ K) by (apply HK; eapply reach_trans; [exact Hra|by eapply reach_son]).
      assert (HyD : y ∉ D ++ [a]).
      { intros [Hd'| ->%elem_of_list_singleton]%elem_of_app; [|done]. specialize (Hrk y Hd'). lia. }
      assert (Sy : spent s (D ++ [a]) y = false).
      { unfold spent. destruct (L y) as [[w|j ss]|]; try done. by apply bool_decide_eq_false_2. }
      destruct (H1 y HyK) as (dy&Edy&Fdy).
      assert (Ddy : datr acc y = B2R dy) by (unfold datr; by rewrite Edy).
      destruct (Hpr i k (fs V s) Hi Hk) as (p&Ep&Fp&Np).
      unfold level_son. rewrite (bind_ok _ _ _ _ _ (son_at c opsem strict g s C a i sons k y V Ha E Hy)).
      unfold rd. rewrite Edy, H3. rewrite (bind_ok _ _ _ dy (fs V s)) by done. rewrite (bind_ok _ _ _ da (fs V s)) by done.
      rewrite (bind_ok _ _ _ _ _ Ep).
      pose proof (Hnn i k Hi Hk) as P0. pose proof (Pm_bounds i (S k) Hi Hk) as B1. pose proof (Pm_bounds i k Hi ltac:(lia)) as B0. rewrite Pm_S in B1.
      pose proof (Hsm (S k) Hk) as Q. rewrite Nat.add_succ_r, S_INR in Q.
      assert (T0 : (0 <= eta * INR (arcs D + k))%R) by (apply Rmult_le_pos; [lra|apply pos_INR]).
      assert (T1 : (eta * INR (arcs D) <= eta * INR (arcs D + k))%R) by (apply Rmult_le_compat_l; [lra|apply le_INR; lia]).
      pose proof (mass_member (D ++ [a]) acc y HyK Sy) as My. rewrite Ddy in My.
      destruct (spread_error dy da p (P i k) (1 - Pm i k) (eta * INR (arcs D + k)) eps) as [Fn Nn]; try done; try lra.
      set (new := a_add b64_arith dy (a_mul b64_arith da p)) in *.
      assert (Dn : datr (<[y := new]> acc) y = B2R new) by (unfold datr; by rewrite lookup_insert).
      assert (Do : forall x, x <> y -> datr (<[y := new]> acc) x = datr acc x) by (intros x Hx; unfold datr; by rewrite lookup_insert_ne).
      eexists. split; [done|]. split; [|split; [|split; [|split]]].
      * intros x Hx. destruct (decide (x = y)) as [->|]; [rewrite lookup_insert|rewrite lookup_insert_ne by done]; eauto.
      * intros t Ht HtK. rewrite lookup_insert_ne by (intros ->; done). auto.
      * by rewrite lookup_insert_ne.
      * intros _. rewrite Nat.add_succ_r, S_INR, Pm_S.
        assert (ME : mass (D ++ [a]) (<[y := new]> acc) = (mass (D ++ [a]) acc + (Rabs (B2R new) - Rabs (B2R dy)))%R).
        { unfold mass. rewrite (rsum_change real_arith real_exact (fun x => if spent s (D ++ [a]) x then 0 else Rabs (datr (<[y := new]> acc) x))%R
            (fun x => if spent s (D ++ [a]) x then 0 else Rabs (datr acc x))%R K y NK HyK).
          - rewrite Sy, Dn, Ddy. done.
          - intros x Hx. by rewrite Do. }
        rewrite ME.
        assert (TR : (Rabs (B2R new) <= eta + (Rabs (B2R dy) + Rabs (B2R da) * P i k))%R).
        { replace (B2R new) with ((B2R new - (B2R dy + B2R da * P i k)) + (B2R dy + B2R da * P i k))%R by ring.
          eapply Rle_trans; [apply Rabs_triang|]. apply Rplus_le_compat; [exact Nn|]. eapply Rle_trans; [apply Rabs_triang|].
          rewrite Rabs_mult, (Rabs_pos_eq (P i k)) by done. lra. }
        lra.
      * intros _ gf Hg. specialize (H5 gf Hg). rewrite Nat.add_succ_r, S_INR.
        assert (ES : Sm gf (S k) = (Sm gf k + P i k * W gf y)%R).
        { unfold Sm. rewrite (rsum_snoc real_arith real_exact), (nth_lookup_Some _ _ _ _ Hy). done. }
        assert (FE : flow (D ++ [a]) (<[y := new]> acc) gf = (flow (D ++ [a]) acc gf + (B2R new - B2R dy) * W gf y)%R).
        { unfold flow. rewrite (rsum_change real_arith real_exact (fun x => if spent s (D ++ [a]) x then 0 else datr (<[y := new]> acc) x * W gf x)%R
            (fun x => if spent s (D ++ [a]) x then 0 else datr acc x * W gf x)%R K y NK HyK).
          - rewrite Sy, Dn, Ddy. cbn [a_add a_sub real_arith]. ring.
          - intros x Hx. by rewrite Do. }
        rewrite ES, FE. pose proof (W_unit gf y Hg) as [W0 W1].
        match goal with |- (Rabs ?t <= _)%R => replace t with
          ((flow (D ++ [a]) acc gf + B2R da * (W gf a - Sm gf k) - W gf root) + (B2R new - (B2R dy + B2R da * P i k)) * W gf y)%R by ring end.
        eapply Rle_trans; [apply Rabs_triang|]. rewrite Rmult_plus_distr_l. apply Rplus_le_compat; [exact H5|].
        rewrite Rabs_mult, (Rabs_pos_eq (W gf y)) by done. apply Rmult_le_compat; [apply Rabs_pos|done|exact Nn|done].
    + rewrite seq_length in H4, H5. cbn [Nat.add] in H4, H5. specialize (H4 (le_n _)). specialize (H5 (le_n _)).
      exists data'. split; [done|]. constructor; [done|done|done|done| |]; rewrite Ad.
      * intros gf Hg. specialize (H5 gf Hg). unfold Sm in H5. rewrite <- (W_int c opsem strict g s Hc C real_arith real_exact ps Hd gf a i sons Ha E) in H5.
        eapply Rle_trans; [|exact H5]. right. f_equal. ring.
      * eapply Rle_trans; [|exact H4]. unfold Pm. rewrite (row_sum c real_arith ps Hd i Hi). cbn [a_one real_arith]. lra.
Qed.

(** what is known about the data after calculate_probabilities *)
Definition at_terms (f : positive -> Z -> R) : R :=
  rsum real_arith (map (fun x => match L x with Some (Term v) => f x v | _ => 0%R end) K).
Record settled (data : gmap positive b64) : Prop := {
  st_init : forall x, x ∈ K \/ x ∈ ts s -> exists y : b64, data !! x = Some y /\ is_finite y = true;
  st_other : forall t, t ∈ ts s -> t ∉ K -> data !! t = Some (a_zero b64_arith);
  st_sum : forall gf, unit_fun gf -> (Rabs (at_terms (fun x v => datr data x * gf v)%R - W gf root) <= eta * INR (arcs K))%R;
  st_mass : (at_terms (fun x _ => Rabs (datr data x)) <= 1 + eta * INR (arcs K))%R
}.

Lemma lstate_settled D data : (forall x, x ∈ K -> x ∈ D) -> lstate D data -> settled data.
Proof.
  intros HD H.
  assert (Hle : (eta * INR (arcs D) <= eta * INR (arcs K))%R).
  { pose proof u53_pos. apply Rmult_le_compat_l; [lra|]. apply le_INR, arcs_sub; apply H. }
  assert (Hb : forall x, x ∈ K -> (exists v, L x = Some (Term v) /\ spent s D x = false /\ forall gf, W gf x = gf v) \/
    (exists i sons, L x = Some (Int i sons) /\ spent s D x = true)).
  { intros x Hx. assert (Hxh : held x) by (eapply held_reach; [exact Hroot|by apply HK]). unfold spent.
    destruct (held_body c opsem strict g s C x Hxh) as [[v|i sons] E]; rewrite E.
    - left. exists v. split; [done|]. split; [done|]. intros gf. by apply (W_term c opsem strict g s Hc C real_arith real_exact ps Hd).
    - right. exists i, sons. split; [done|]. apply bool_decide_eq_true_2. auto. }
  constructor.
  - intros x Hx. destruct (decide (x ∈ K)) as [Hk|Hk]; [by apply H|]. destruct Hx as [|Hx]; [done|]. rewrite (ls_other _ _ H) by done. by eexists.
  - apply H.
  - intros gf Hg. eapply Rle_trans; [|exact Hle]. eapply Rle_trans; [|apply (ls_flow _ _ H gf Hg)]. right. do 2 f_equal. unfold at_terms, flow.
    apply rsum_ext. intros x Hx. destruct (Hb x Hx) as [(v&->&->&->)|(i&sons&->&->)]; done.
  - eapply Rle_trans; [|apply Rplus_le_compat_l, Hle]. eapply Rle_trans; [|apply (ls_mass _ _ H)]. right. unfold at_terms, mass.
    apply rsum_ext. intros x Hx. destruct (Hb x Hx) as [(v&->&->&_)|(i&sons&->&->)]; done.
Qed.

Lemma start_lstate data : (forall x, x ∈ K \/ x ∈ ts s -> x <> root -> data !! x = Some (a_zero b64_arith)) -> data !! root = Some (a_one b64_arith) ->
  lstate [] data.
Proof.
  intros H0 H1. assert (HrK : root ∈ K) by (apply HK; constructor).
  assert (Dr : datr data root = 1%R) by (unfold datr; rewrite H1; apply Bone_correct).
  assert (D0 : forall x, x ∈ K -> x <> root -> datr data x = 0%R) by (intros x Hx Hn; unfold datr; by rewrite (H0 x (or_introl Hx) Hn)).
  assert (Sr : forall x, spent s [] x = false).
  { intros x. unfold spent. destruct (L x) as [[]|]; try done. }
  constructor.
  - constructor.
  - intros x Hx. by apply elem_of_nil in Hx.
  - intros x Hx. destruct (decide (x = root)) as [->|Hne]; [exists (a_one b64_arith); split; [done|apply is_finite_Bone]|].
    exists (a_zero b64_arith). split; [|done]. apply H0; [by left|done].
  - intros t Ht Hn. apply H0; [by right|]. intros ->. done.
  - intros gf _. assert (flow [] data gf = W gf root) as ->.
    { unfold flow. rewrite (rsum_support real_arith real_exact _ K [root] NK (NoDup_singleton root)).
      - unfold rsum. cbn [map fold_right a_add a_zero real_arith]. rewrite Sr, Dr. ring.
      - intros x Hx Hn. rewrite Sr, D0; [cbn; ring|done|]. intros ->. apply Hn. constructor.
      - intros x ->%elem_of_list_singleton Hn. done. }
    replace (W gf root - W gf root)%R with 0%R by ring. rewrite Rabs_R0. cbn. lra.
  - assert (mass [] data = 1%R) as ->.
    { unfold mass. rewrite (rsum_support real_arith real_exact _ K [root] NK (NoDup_singleton root)).
      - unfold rsum. cbn [map fold_right a_add a_zero real_arith]. rewrite Sr, Dr, Rabs_R1. ring.
      - intros x Hx Hn. rewrite Sr, D0, Rabs_R0; [done|done|]. intros ->. apply Hn. constructor.
      - intros x ->%elem_of_list_singleton Hn. done. }
    cbn. lra.
Qed.
End level.

Lemma arcs_perm l l' : l ≡ₚ l' -> arcs l = arcs l'.
Proof. unfold arcs. induction 1; simpl; lia. Qed.

(** the nodes of the diagram of [a] *)
Definition nodes_of (a : positive) (K : list positive) : Prop := NoDup K /\ forall x, x ∈ K <-> reach L a x.
Lemma nodes_of_perm a K K' : nodes_of a K -> nodes_of a K' -> K ≡ₚ K'.
Proof. intros [N H] [N' H']. apply NoDup_Permutation; [done|done|]. intros x. by rewrite H, H'. Qed.

Lemma ntps_level_near a K0 data : held a -> nodes_of a K0 -> (eta * INR (arcs K0) <= 1)%R -> exists K data', nodes_of a K /\
  ntps_level c b64_arith pr a data s = Ok data' s /\ settled a K data'.
Proof.
  intros Ha HK0 Hsm. unfold ntps_level.
  destruct (traverse_pre_spec s a false rk (nvars c) (held_uniform c opsem strict g s C Cl a Ha) (held_ranked c opsem strict g s C a Ha)
    c (fun (data : gmap positive b64) b => ret (<[b := a_zero b64_arith]> data)) (fun D data => forall x, x ∈ D -> data !! x = Some (a_zero b64_arith)) ltac:(lia) data)
    as (K&data1&E1&H1&NK&HK).
  - intros V D acc x _ _ Hacc. eexists. split; [done|]. intros y [Hy| ->%elem_of_list_singleton]%elem_of_app.
    + destruct (decide (y = x)) as [->|]; [by rewrite lookup_insert|]. rewrite lookup_insert_ne by done. auto.
    + by rewrite lookup_insert.
  - intros x Hx. by apply elem_of_nil in Hx.
  - rewrite (bind_ok _ _ _ _ _ E1). unfold terminal_nodes. rewrite (bind_ok _ _ _ (ts s) s) by done.
    rewrite (arcs_perm _ _ (nodes_of_perm a K0 K HK0 (conj NK HK))) in Hsm.
    set (data2 := <[a := a_one b64_arith]> (set_all (a_zero b64_arith) data1 (ts s))).
    destruct (traverse_level_spec s a false rk c (held_uniform c opsem strict g s C Cl a Ha) (held_ranked c opsem strict g s C a Ha)
      (held_rank c opsem strict g s C a Ha)) with (op := level_op c b64_arith pr) (P := lstate a K) (acc := data2)
      as (D&data3&E3&H3&ND&HD).
    + intros V x Hx. apply (level_at c opsem strict g s C). by eapply held_reach.
    + intros V D acc x Hx HxD _ Hrk Hl. by apply level_near.
    + assert (G : forall x, x ∈ K \/ x ∈ ts s -> x <> a -> data2 !! x = Some (a_zero b64_arith)).
      { intros x Hx Hne. unfold data2. rewrite lookup_insert_ne by done. rewrite set_all_at.
        destruct (bool_decide_reflect (x ∈ ts s)) as [|Hn]; [done|]. apply H1. by destruct Hx. }
      apply start_lstate; [exact NK|exact HK|exact G|unfold data2; by rewrite lookup_insert].
    + exists K, data3. split; [by split|]. split; [exact E3|].
      eapply lstate_settled; [exact Ha|exact HK| |exact H3]. intros x Hx. by apply HD, HK.
Qed.

Lemma ind_unit P : unit_fun (ind real_arith P).
Proof. intros v. unfold ind. destruct (P v); cbn; lra. Qed.

(** ** The getters *)

Lemma near_probability a K data j : nodes_of a K -> settled a K data -> (0 <= j)%Z -> j <> Undef ->
  exists r, get_probability b64_arith j data s = Ok r s /\ is_finite r = true /\
    (Rabs (B2R r - W (ind real_arith (Z.eqb j)) a) <= eta * INR (arcs K))%R.
Proof.
  intros [NK HK] H H0 Hu. unfold get_probability. destruct (get_terminal_ok c opsem strict g s C j H0 Hu) as (o&E&Ho). rewrite (bind_ok _ _ _ _ _ E).
  pose proof (st_sum _ _ _ H _ (ind_unit (Z.eqb j))) as N. unfold at_terms in N.
  destruct o as [t|].
  - destruct Ho as [Et Ht]. destruct (st_init _ _ _ H t (or_intror Ht)) as (d&Ed&Fd). unfold rd. rewrite Ed. exists d. split; [done|]. split; [done|].
    assert (Dt : datr data t = B2R d) by (unfold datr; rewrite Ed; reflexivity). rewrite <- Dt.
    rewrite (rsum_support real_arith real_exact _ K [t] NK (NoDup_singleton t)) in N.
    + unfold rsum in N. cbn [map fold_right a_add a_zero real_arith] in N. rewrite Et in N. unfold ind at 1 in N. rewrite Z.eqb_refl in N.
      cbn [a_one real_arith] in N. rewrite Rmult_1_r, Rplus_0_r in N. exact N.
    + intros x Hx Hn. destruct (L x) as [[v|i sons]|] eqn:Ex; try done. unfold ind.
      destruct (Z.eqb_spec j v) as [<-|]; [|cbn; ring]. exfalso. apply Hn, elem_of_list_singleton.
      pose proof (wf_term2 _ _ _ _ _ (cl_wf _ _ _ _ _ C) x j Ex Hu) as E1. pose proof (wf_term2 _ _ _ _ _ (cl_wf _ _ _ _ _ C) t j Et Hu) as E2. congruence.
    + intros x ->%elem_of_list_singleton Hn. rewrite Et, Dt. rewrite (st_other _ _ _ H t Ht Hn) in Ed. injection Ed as <-. cbn. ring.
  - exists (a_zero b64_arith). split; [done|]. split; [done|]. eapply Rle_trans; [|exact N]. right. do 2 f_equal. symmetry. cbn [B2R a_zero b64_arith].
    apply (rsum_zero real_arith real_exact). intros x Hx. destruct (L x) as [[v|i sons]|] eqn:Ex; try done.
    unfold ind. destruct (Z.eqb_spec j v) as [<-|]; [by destruct (Ho x)|]. cbn. ring.
Qed.

(** adding the data of the terminals of a list *)
Lemma near_sum_with a K data Q : nodes_of a K -> settled a K data -> (forall x, reach L a x -> L x <> Some (Term Undef)) ->
  (eta * INR (arcs K) + u53 * INR (length K) <= 1)%R ->
  exists r, sum_with b64_arith Q data s = Ok r s /\ is_finite r = true /\
    (Rabs (B2R r - W (ind real_arith Q) a) <= eta * INR (arcs K) + u53 * INR (length K))%R.
Proof.
  intros [NK HK] H Hns Hsm. unfold sum_with, terminal_nodes. rewrite (bind_ok _ _ _ (ts s) s) by done. pose proof u53_pos as U.
  set (f := fun x => match L x with Some (Term v) => (datr data x * ind real_arith Q v)%R | _ => 0%R end).
  set (F := fun x => match L x with Some (Term v) => Rabs (datr data x) | _ => 0%R end).
  assert (F0 : forall x, (0 <= F x)%R) by (intros x; unfold F; destruct (L x) as [[]|]; try lra; apply Rabs_pos).
  assert (fF : forall x, (Rabs (f x) <= F x)%R).
  { intros x. unfold f, F. destruct (L x) as [[v|i sons]|]; try (rewrite Rabs_R0; lra). rewrite Rabs_mult.
    pose proof (ind_unit Q v) as [I0 I1]. rewrite (Rabs_pos_eq (ind real_arith Q v)) by done. rewrite <- Rmult_1_r. apply Rmult_le_compat_l; [apply Rabs_pos|done]. }
  assert (fFl : forall l, (Rabs (rsum real_arith (map f l)) <= rsum real_arith (map F l))%R).
  { induction l as [|x l IH]; unfold rsum in *; cbn [map fold_right real_arith a_zero a_add] in *; [rewrite Rabs_R0; lra|].
    eapply Rle_trans; [apply Rabs_triang|]. apply Rplus_le_compat; [apply fF|exact IH]. }
  assert (SF : forall g' : positive -> R, (forall t, t ∈ ts s -> t ∉ K -> g' t = 0%R) -> (forall x, (forall v, L x <> Some (Term v)) -> g' x = 0%R) ->
    rsum real_arith (map g' (ts s)) = rsum real_arith (map g' K)).
  { intros g' G1 G2. apply (rsum_support real_arith real_exact g' (ts s) K (ts_NoDup c opsem strict g s C) NK); [done|].
    intros x Hx Hn. apply G2. intros v Ex. apply Hn. apply (term_in c opsem strict g s C x v Ex). intros ->. apply (Hns x); [by apply HK|done]. }
  assert (Z0 : forall t, t ∈ ts s -> t ∉ K -> datr data t = 0%R) by (intros t Ht Hn; unfold datr; by rewrite (st_other _ _ _ H t Ht Hn)).
  assert (TF : (rsum real_arith (map F (ts s)) <= 1 + eta * INR (arcs K))%R).
  { rewrite SF; [apply (st_mass _ _ _ H)| |].
    - intros t Ht Hn. unfold F. destruct (L t) as [[v|i sons]|]; try done. by rewrite (Z0 t Ht Hn), Rabs_R0.
    - intros x Hx. unfold F. destruct (L x) as [[v|i sons]|]; try done. by destruct (Hx v). }
  set (cnt := fun l => length (filter (fun x => x ∈ K) l)).
  assert (G : forall l done_ r, ts s = done_ ++ l -> is_finite r = true -> (Rabs (B2R r - rsum real_arith (map f done_)) <= u53 * INR (cnt done_))%R ->
    exists r', foldM (fun r a =>
      let* v := node_value a in
      if Q v then let* x := rd data a in ret (a_add b64_arith r x) else ret r) r l s = Ok r' s /\ is_finite r' = true /\
      (Rabs (B2R r' - rsum real_arith (map f (done_ ++ l))) <= u53 * INR (cnt (done_ ++ l)))%R).
  { induction l as [|t l IH]; intros dn r El Fr Nr; cbn [foldM].
    - rewrite app_nil_r. exists r. done.
    - assert (Ht : t ∈ ts s) by (rewrite El; set_solver). destruct (ts_term c opsem strict g s C t Ht) as (v&Et&Hu&H0).
      destruct (st_init _ _ _ H t (or_intror Ht)) as (d&Ed&Fd).
      assert (Dt : datr data t = B2R d) by (unfold datr; rewrite Ed; reflexivity).
      assert (Es : rsum real_arith (map f (dn ++ [t])) = (rsum real_arith (map f dn) + f t)%R).
      { rewrite map_app, (rsum_app real_arith real_exact). unfold rsum at 2. cbn. ring. }
      assert (Ec : cnt (dn ++ [t]) = cnt dn + (if decide (t ∈ K) then 1 else 0)).
      { unfold cnt. rewrite filter_app, app_length. f_equal. rewrite filter_cons, filter_nil. by destruct (decide (t ∈ K)). }
      assert (Hcn : cnt dn <= length K).
      { unfold cnt. apply submseteq_length, NoDup_submseteq.
        - apply NoDup_filter. pose proof (ts_NoDup c opsem strict g s C) as N. rewrite El in N. by apply NoDup_app in N as [N _].
        - intros x [Hx _]%elem_of_list_filter. done. }
      assert (ST : exists r1, (let* v := node_value t in if Q v then let* x := rd data t in ret (a_add b64_arith r x) else ret r) s = Ok r1 s /\
        is_finite r1 = true /\ (Rabs (B2R r1 - rsum real_arith (map f (dn ++ [t]))) <= u53 * INR (cnt (dn ++ [t])))%R).
      { rewrite (bind_ok _ _ _ _ _ (node_value_ok s t v Et)), Es, Ec, plus_INR. unfold f at 2. rewrite Et. unfold ind. destruct (Q v).
        - unfold rd. rewrite Ed, (bind_ok _ _ _ d s) by done. eexists. split; [done|]. cbn [a_one real_arith]. rewrite Rmult_1_r, Dt.
          assert (Rb : (Rabs (rsum real_arith (map f dn)) + Rabs (B2R d) <= 1 + eta * INR (arcs K))%R).
          { eapply Rle_trans; [|exact TF]. rewrite El, map_app, (rsum_app real_arith real_exact). cbn [a_add real_arith map].
            change (rsum real_arith (F t :: map F l)) with (F t + rsum real_arith (map F l))%R.
            assert (0 <= rsum real_arith (map F l))%R by (apply rsum_pos; intros; apply F0).
            assert (F t = Rabs (B2R d)) as -> by (unfold F; by rewrite Et, Dt). pose proof (fFl dn). lra. }
          assert (Hc1 : (u53 * INR (cnt dn) <= u53 * INR (length K))%R) by (apply Rmult_le_compat_l; [lra|by apply le_INR]).
          pose proof (Rabs_le_inv _ _ Nr) as Nr'. pose proof (Rabs_le_inv _ _ (Rle_refl (Rabs (rsum real_arith (map f dn))))) as R1.
          pose proof (Rabs_le_inv _ _ (Rle_refl (Rabs (B2R d)))) as R2.
          assert (M : (Rabs (B2R r + B2R d) <= 2)%R) by (apply Rabs_le; lra).
          destruct (add_is r d (B2R r) (B2R d)) as [Fs Eq]; [by split|by split|by apply two_small|].
          change (Bplus mode_NE r d) with (a_add b64_arith r d) in *. split; [exact Fs|].
          destruct (decide (t ∈ K)) as [HtK|HtK]; cbn [INR].
          + pose proof (rnd_abs _ M) as R3. rewrite <- Eq in R3. apply Rabs_le_inv in R3. apply Rabs_le. lra.
          + assert (B2R d = 0%R) as Zd by (rewrite <- Dt; by apply Z0). rewrite Zd, Rplus_0_r in Eq.
            rewrite round_generic in Eq; [|apply valid_rnd_round_mode|apply generic_format_B2R]. rewrite Eq, Zd, Rplus_0_r, Rplus_0_r. exact Nr.
        - exists r. split; [done|]. split; [done|]. cbn [a_zero real_arith]. rewrite Rmult_0_r, Rplus_0_r. eapply Rle_trans; [exact Nr|].
          apply Rmult_le_compat_l; [lra|]. destruct (decide (t ∈ K)); cbn [INR]; lra. }
      destruct ST as (r1&E1&F1&N1). rewrite (bind_ok _ _ _ _ _ E1).
      destruct (IH (dn ++ [t]) r1) as (r'&E'&F'&N'); [by rewrite <- app_assoc|done|done|]. exists r'. split; [exact E'|]. split; [exact F'|].
      by rewrite <- app_assoc in N'. }
  destruct (G (ts s) [] (a_zero b64_arith)) as (r&E&Fr&Nr); [done|done|unfold rsum; cbn; rewrite Rminus_0_r, Rabs_R0; lra|].
  exists r. split; [exact E|]. split; [exact Fr|]. cbn [app] in Nr.
  assert (Sf : rsum real_arith (map f (ts s)) = at_terms K (fun x v => datr data x * ind real_arith Q v)%R).
  { rewrite SF; [done| |].
    - intros t Ht Hn. unfold f. destruct (L t) as [[v|i sons]|]; try done. rewrite (Z0 t Ht Hn). ring.
    - intros x Hx. unfold f. destruct (L x) as [[v|i sons]|]; try done. by destruct (Hx v). }
  pose proof (st_sum _ _ _ H _ (ind_unit Q)) as N2. rewrite <- Sf in N2.
  assert (Hcn : cnt (ts s) <= length K).
  { unfold cnt. apply submseteq_length, NoDup_submseteq; [apply NoDup_filter, (ts_NoDup c opsem strict g s C)|]. intros x [Hx _]%elem_of_list_filter. done. }
  assert (Hc1 : (u53 * INR (cnt (ts s)) <= u53 * INR (length K))%R) by (apply Rmult_le_compat_l; [lra|by apply le_INR]).
  apply Rabs_le_inv in Nr, N2. apply Rabs_le. lra.
Qed.

Lemma arcs_bound a K : held a -> nodes_of a K -> arcs K <= length K * list_max (c_doms c).
Proof.
  intros Ha [NK HK]. assert (H : forall x, x ∈ K -> deg x <= list_max (c_doms c)).
  { intros x Hx. assert (Hxh : held x) by (eapply held_reach; [exact Ha|by apply HK]). unfold deg.
    destruct (L x) as [[w|i sons]|] eqn:E; [lia| |lia]. destruct (int_facts c opsem strict g s C x i sons Hxh E) as (Hi&Hl&_).
    rewrite Hl. destruct (lookup_lt_is_Some_2 (c_doms c) i Hi) as [d Ed]. unfold dom. rewrite (nth_lookup_Some _ _ _ _ Ed).
    pose proof (proj1 (list_max_le (c_doms c) (list_max (c_doms c))) (le_n _)) as M. rewrite List.Forall_forall in M. apply M.
    apply elem_of_list_In. by eapply elem_of_list_lookup_2. }
  clear NK HK. unfold arcs. induction K as [|x K IH]; [simpl; lia|]. cbn [sum_list_with length].
  specialize (IH ltac:(intros y Hy; apply H; by right)). specialize (H x ltac:(left)). lia.
Qed.
End proof.
