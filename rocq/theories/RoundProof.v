(** * Rounding errors of the probability queries *)

From stdpp Require Import gmap list.
From Coq Require Import ZArith Lia Reals Lra Psatz.
From Flocq Require Import Core BinarySingleNaN.
From Verif Require Import Base NodeManager Heap Inv InvLemmas Prim GC Build Canon Api Eval VecSpec Queries Trav TravLevel QuerySpec
  QueryProof Minimal WorldSpec Prob ProbSpec Expect.
From Verif Require Import ProbProof ProbFloat Sizes SizesProof Symbolic SymbolicProof.

Local Open Scope R_scope.

(** half a unit in the last place of numbers between 1 and 2 *)
Definition u53 : R := bpow radix2 (-53).

Lemma u53_pos : 0 < u53. Proof. apply bpow_gt_0. Qed.

Lemma rnd_abs x : Rabs x <= 2 -> Rabs (rnd x - x) <= u53.
Proof.
  intros H. destruct (Req_dec (Rabs x) 2) as [E|Hne].
  - assert (X : rnd x = x).
    { apply round_generic; [apply valid_rnd_round_mode|]. assert (G : generic_format radix2 fexp64 (IZR 2)) by (apply int_format; lia).
      destruct (Rle_dec 0 x) as [Hx|Hx].
      - rewrite Rabs_pos_eq in E by done. by rewrite E.
      - rewrite Rabs_left in E by lra. replace x with (- IZR 2)%R by lra. by apply generic_format_opp. }
    rewrite X. replace (x - x) with 0 by ring. rewrite Rabs_R0. left. apply u53_pos.
  - assert (Hv : Valid_exp fexp64) by (apply fexp_correct; reflexivity).
    pose proof (error_le_half_ulp radix2 fexp64 (fun z => negb (Z.even z)) x) as G.
    eapply Rle_trans; [exact G|]. unfold u53.
    assert (U : ulp radix2 fexp64 x <= bpow radix2 (-52)).
    { destruct (Req_dec x 0) as [->|Hx].
      - eapply Rle_trans; [apply (ulp_le_pos radix2 fexp64 0 1); lra|]. change 1%R with (bpow radix2 0). rewrite ulp_bpow.
        apply bpow_le. vm_compute. discriminate.
      - rewrite ulp_neq_0 by done. apply bpow_le. unfold cexp.
        assert (M : (mag radix2 x <= 1)%Z).
        { apply mag_le_bpow; [done|]. change (bpow radix2 1) with 2. lra. }
        unfold SpecFloat.fexp, SpecFloat.emin. lia. }
    change (bpow radix2 (-52)) with (/ IZR (2 ^ 52)) in U. change (bpow radix2 (-53)) with (/ IZR (2 ^ 53)).
    assert (E : / IZR (2 ^ 53) = / 2 * / IZR (2 ^ 52)).
    { change (2 ^ 53)%Z with (2 * 2 ^ 52)%Z. by rewrite mult_IZR, Rinv_mult. }
    rewrite E. lra.
Qed.

Lemma two_small x : Rabs x <= 2 -> Rabs x <= bpow radix2 100.
Proof. intros H. eapply Rle_trans; [exact H|]. change (bpow radix2 100) with (IZR (2 ^ 100)). apply IZR_le. lia. Qed.

Lemma add_is x y r s : is x r -> is y s -> Rabs (r + s) <= bpow radix2 100 -> is (Bplus mode_NE x y) (rnd (r + s)).
Proof.
  intros [Fx <-] [Fy <-] H. pose proof (Bplus_correct 53 1024 b64_prec b64_emax mode_NE x y Fx Fy) as G.
  rewrite rnd_small in G by exact H. destruct G as (G1&G2&_). split; [exact G2|exact G1].
Qed.

(** one step of the sum *)
Lemma step_error (acc v p : b64) S W P A e eps :
  is_finite acc = true -> is_finite v = true -> is_finite p = true ->
  Rabs (B2R acc - S) <= A -> Rabs (B2R v - W) <= e -> Rabs (B2R p - P) <= eps ->
  0 <= S -> 0 <= P -> 0 <= W <= 1 -> S + P * W <= 1 -> A + 2 * (u53 + eps) + P * e <= 1 -> e <= 1 ->
  is_finite (a_add b64_arith acc (a_mul b64_arith v p)) = true /\
  Rabs (B2R (a_add b64_arith acc (a_mul b64_arith v p)) - (S + P * W)) <= A + 2 * (u53 + eps) + P * e.
Proof.
  intros Fa Fv Fp Ha Hv Hp HS HP HW HSW Ht He. pose proof u53_pos as Hu.
  assert (0 <= A) by (eapply Rle_trans; [apply Rabs_pos|exact Ha]).
  assert (0 <= e) by (eapply Rle_trans; [apply Rabs_pos|exact Hv]).
  assert (0 <= eps) by (eapply Rle_trans; [apply Rabs_pos|exact Hp]).
  assert (0 <= P * e) by (by apply Rmult_le_pos). assert (0 <= P * W) by (apply Rmult_le_pos; lra).
  assert (D : Rabs (B2R v * B2R p - P * W) <= 2 * eps + P * e).
  { replace (B2R v * B2R p - P * W) with (B2R v * (B2R p - P) + P * (B2R v - W)) by ring.
    eapply Rle_trans; [apply Rabs_triang|]. rewrite !Rabs_mult, (Rabs_pos_eq P) by done. apply Rplus_le_compat.
    - apply Rmult_le_compat; try apply Rabs_pos; [|done]. apply Rabs_le_inv in Hv. apply Rabs_le. lra.
    - by apply Rmult_le_compat_l. }
  pose proof (Rabs_le_inv _ _ D) as D'. pose proof (Rabs_le_inv _ _ Ha) as Ha'.
  assert (M2 : Rabs (B2R v * B2R p) <= 2) by (apply Rabs_le; lra).
  destruct (mul_is v p (B2R v) (B2R p)) as [Fm Em]; [by split|by split|by apply two_small|].
  pose proof (rnd_abs _ M2) as R1. rewrite <- Em in R1. apply Rabs_le_inv in R1.
  change (mul64 v p) with (a_mul b64_arith v p) in *. set (m := a_mul b64_arith v p) in *.
  assert (M3 : Rabs (B2R acc + B2R m) <= 2) by (apply Rabs_le; lra).
  destruct (add_is acc m (B2R acc) (B2R m)) as [Fs Es]; [by split|by split|by apply two_small|].
  pose proof (rnd_abs _ M3) as R2. rewrite <- Es in R2. apply Rabs_le_inv in R2.
  change (Bplus mode_NE acc m) with (a_add b64_arith acc m) in *. split; [exact Fs|]. apply Rabs_le. lra.
Qed.

Local Close Scope R_scope.
Local Open Scope nat_scope.

Lemma set_all_at {R} (v : R) l : forall data a, set_all v data l !! a = if bool_decide (a ∈ l) then Some v else data !! a.
Proof.
  unfold set_all. induction l as [|b l IH]; intros data a; simpl; [done|]. rewrite IH.
  destruct (bool_decide_reflect (a ∈ l)) as [Hin|Hn].
  - rewrite bool_decide_eq_true_2; [done|by right].
  - destruct (decide (a = b)) as [->|Hne].
    + rewrite bool_decide_eq_true_2 by left. by rewrite lookup_insert.
    + rewrite bool_decide_eq_false_2 by (intros [?|?]%elem_of_cons; done). by rewrite lookup_insert_ne.
Qed.

(** sums of nonnegative terms *)
Lemma rsum_bounds (f g : nat -> R) l : (forall k, k ∈ l -> (0 <= f k <= g k)%R) ->
  (0 <= rsum real_arith (map f l) <= rsum real_arith (map g l))%R.
Proof.
  unfold rsum. induction l as [|k l IH]; intros H; cbn; [lra|]. destruct (H k) as [H1 H2]; [left|].
  destruct IH as [I1 I2]; [intros j Hj; apply H; by right|]. cbn in *. lra.
Qed.

Section proof.
Context (c : cfg) (opsem : Z -> option (Z -> Z -> Z)) (strict : bool).
Context (g : ghost) (s : st) (Hc : wf_cfg c) (C : calm c opsem strict g s) (Cl : clean s).
Context (ps : list (list R)) (Hd : distributions real_arith (c_doms c) ps).
Notation P := (pr_of real_arith ps).
Context (Hnn : forall i k, i < nvars c -> k < dom c i -> (0 <= P i k)%R).
Context (pr : probs) (eps : R) (Hpr : forall i k t, i < nvars c -> k < dom c i ->
  exists x : b64, pr i k t = Ok x t /\ is_finite x = true /\ (Rabs (B2R x - P i k) <= eps)%R).
Notation L := (live (s_heap s)).
Notation order := (s_l2i s).
Notation rk := (rank c g (s_heap s)).
Notation held := (held g (s_heap s)).
Notation W := (W c g s real_arith ps).

(** the number of states of the components on the levels from [l] on *)
Definition states_from (l : nat) : nat := sum_list_with (dom c) (drop l order).

Lemma states_from_le l m : l <= m -> states_from m <= states_from l.
Proof.
  intros H. unfold states_from. replace m with (l + (m - l)) by lia. rewrite <- drop_drop.
  rewrite <- (take_drop (m - l) (drop l order)) at 2. rewrite sum_list_with_app. lia.
Qed.

Lemma states_from_all : states_from 0 = sum_list (c_doms c).
Proof.
  unfold states_from. rewrite drop_0.
  assert (E : forall l l', l ≡ₚ l' -> sum_list_with (dom c) l = sum_list_with (dom c) l') by (induction 1; simpl; lia).
  rewrite (E _ _ (order_seq c opsem strict g s C)). unfold dom, nvars. clear.
  assert (G : forall (ds : list nat) f n, (forall k, k < length ds -> f (n + k) = nth k ds 0) ->
    sum_list_with f (seq n (length ds)) = sum_list ds).
  { induction ds as [|d ds IH]; intros f n H; [done|]. cbn [length seq sum_list_with]. rewrite (IH f (S n)).
    - specialize (H 0 ltac:(simpl; lia)). rewrite Nat.add_0_r in H. by rewrite H.
    - intros k Hk. replace (S n + k) with (n + S k) by lia. rewrite H by (simpl; lia). done. }
  apply (G _ _ 0). done.
Qed.

(** the error allowed below level [l] *)
Definition err_at (l : nat) : R := (2 * (u53 + eps) * INR (states_from l))%R.
Context (Heps : (0 <= eps)%R) (Hsmall : (err_at 0 <= 1)%R).

Lemma err_le l m : l <= m -> (0 <= err_at m <= err_at l)%R.
Proof.
  intros H. unfold err_at. pose proof u53_pos. split.
  - apply Rmult_le_pos; [lra|apply pos_INR].
  - apply Rmult_le_compat_l; [lra|]. apply le_INR. by apply states_from_le.
Qed.

(** [x] is near the expected value at node [a] *)
Definition near (gf : Z -> R) (x : b64) (a : positive) : Prop :=
  is_finite x = true /\ (Rabs (B2R x - W gf a) <= err_at (rk a))%R /\ (0 <= W gf a <= 1)%R.

Lemma post_near gf root V D data a :
  (forall v, (0 <= gf v <= 1)%R) ->
  (forall x v, reach L root x -> L x = Some (Term v) -> exists y : b64, data !! x = Some y /\ is_finite y = true /\ B2R y = gf v) ->
  held root -> reach L root a -> a ∉ D -> sons_in s a D -> (forall x, x ∈ D -> exists y : b64, data !! x = Some y /\ near gf y x) ->
  exists data', post_op c b64_arith pr data a (fs V s) = Ok data' (fs V s) /\
    (forall x v, reach L root x -> L x = Some (Term v) -> exists y : b64, data' !! x = Some y /\ is_finite y = true /\ B2R y = gf v) /\
    (forall x, x ∈ D ++ [a] -> exists y : b64, data' !! x = Some y /\ near gf y x).
Proof.
  intros Hgf Ht Hroot Hra HaD Hs HD. assert (Ha : held a) by (by eapply held_reach).
  unfold post_op. destruct (getn_at c opsem strict g s C a V Ha) as (n&G&E). rewrite (bind_ok _ _ _ _ _ G).
  destruct (n_body n) as [v|i sons] eqn:Eb.
  - exists data. split; [done|]. split; [done|]. intros x [Hx| ->%elem_of_list_singleton]%elem_of_app; [auto|].
    destruct (Ht a v Hra E) as (y&Ey&Fy&Vy). exists y. split; [done|]. unfold near.
    rewrite (W_term c opsem strict g s Hc C real_arith real_exact ps Hd gf a v Ha E), Vy.
    split; [done|]. split; [|apply Hgf]. replace (gf v - gf v)%R with 0%R by ring. rewrite Rabs_R0. apply (err_le _ _ (le_n _)).
  - destruct (int_facts c opsem strict g s C a i sons Ha E) as (Hi&Hl&Hlt&Ho&Hsf).
    rewrite (dom_lookup c i Hi), (bind_ok _ _ _ (dom c i) (fs V s)) by done.
    set (e := err_at (S (rk a))).
    assert (Ee : (err_at (rk a) = 2 * (u53 + eps) * INR (dom c i) + e)%R).
    { unfold e, err_at, states_from. rewrite (drop_S _ _ _ Ho). cbn [sum_list_with]. rewrite plus_INR. ring. }
    assert (He0 : (0 <= e)%R) by apply (err_le _ _ (le_n _)).
    assert (He1 : (e <= 1)%R) by (eapply Rle_trans; [apply (err_le 0 (S (rk a))); lia|done]).
    assert (Htot : (err_at (rk a) <= 1)%R) by (eapply Rle_trans; [apply (err_le 0 (rk a)); lia|done]).
    assert (Hsons : forall k, k < dom c i -> exists y, sons !! k = Some y /\ y ∈ D /\ y <> a /\ (0 <= W gf (nth k sons 1%positive) <= 1)%R /\
      exists x : b64, data !! y = Some x /\ is_finite x = true /\ (Rabs (B2R x - W gf (nth k sons 1%positive)) <= e)%R).
    { intros k Hk. destruct (lookup_lt_is_Some_2 sons k) as [y Hy]; [lia|]. exists y. split; [done|].
      assert (Hin : y ∈ sons) by (by eapply elem_of_list_lookup_2).
      assert (HyD : y ∈ D) by (by apply (Hs i sons y E)).
      destruct (Hsf y Hin) as [Hyh Hyr]. destruct (HD y HyD) as (x&Ex&Fx&Nx&Wx). rewrite (nth_lookup_Some _ _ _ _ Hy).
      split; [done|]. split; [intros ->; done|]. split; [done|]. exists x. split; [done|]. split; [done|].
      eapply Rle_trans; [exact Nx|]. apply err_le. lia. }
    set (Sm j := rsum real_arith (map (fun k => a_mul real_arith (P i k) (W gf (nth k sons 1%positive))) (seq O j))).
    set (Pm j := rsum real_arith (map (P i) (seq O j))).
    assert (HPm : forall j, j <= dom c i -> (0 <= Sm j <= Pm j)%R /\ (Pm j <= 1)%R).
    { intros j Hj. split.
      - apply rsum_bounds. intros k Hk%elem_of_seq. cbn. assert (k < dom c i) by lia. pose proof (Hnn i k Hi ltac:(done)).
        destruct (Hsons k ltac:(done)) as (_&_&_&_&W1&_). split; [apply Rmult_le_pos; lra|].
        rewrite <- (Rmult_1_r (P i k)) at 2. apply Rmult_le_compat_l; lra.
      - change 1%R with (a_one real_arith). rewrite <- (row_sum c real_arith ps Hd i Hi). fold (Pm (dom c i)). unfold Pm.
        assert (X : forall m k, m + k = dom c i -> (rsum real_arith (map (P i) (seq 0 m)) <= rsum real_arith (map (P i) (seq 0 (dom c i))))%R).
        { intros m k. revert m. induction k as [|k IH]; intros m Hm; [replace (dom c i) with m by lia; lra|].
          eapply Rle_trans; [|apply (IH (S m)); lia]. rewrite (rsum_snoc real_arith real_exact). cbn [a_add real_arith].
          pose proof (Hnn i m Hi ltac:(lia)). lra. }
        apply (X j (dom c i - j)). lia. }
    destruct (foldM_inv (post_son b64_arith pr a i) (fun j data' =>
        (forall x, x <> a -> data' !! x = data !! x) /\
        (j <= dom c i -> exists acc : b64, data' !! a = Some acc /\ is_finite acc = true /\
          (Rabs (B2R acc - Sm j) <= 2 * (u53 + eps) * INR j + e * Pm j)%R))
      (fs V s) (seq O (dom c i)) O (<[a := a_zero b64_arith]> data)) as (data'&E'&H1&H2).
    + split; [intros x Hx; by rewrite lookup_insert_ne|]. intros _. exists (a_zero b64_arith). rewrite lookup_insert. split; [done|]. split; [done|].
      unfold Sm, Pm, rsum. cbn. rewrite Rminus_0_r, Rabs_R0. lra.
    + intros k x acc Hx (H1&H2). apply lookup_seq in Hx as [-> Hk]. cbn [Nat.add] in *.
      destruct (H2 ltac:(lia)) as (old&Eo&Fo&No).
      destruct (Hsons k Hk) as (y&Hy&HyD&Hya&W1&v&Ev&Fv&Nv).
      unfold post_son.
      rewrite (bind_ok _ _ _ _ _ (son_at c opsem strict g s C a i sons k y V Ha E Hy)).
      unfold rd. rewrite (H1 y Hya), Ev. rewrite (bind_ok _ _ _ v (fs V s)) by done.
      destruct (Hpr i k (fs V s) Hi Hk) as (p&Ep&Fp&Np). rewrite (bind_ok _ _ _ _ _ Ep).
      rewrite Eo, (bind_ok _ _ _ old (fs V s)) by done. eexists. split; [done|]. split.
      * intros x Hx. rewrite lookup_insert_ne by done. by apply H1.
      * intros _. eexists. rewrite lookup_insert. split; [done|].
        destruct (HPm k ltac:(lia)) as [[S1 S2] S3]. destruct (HPm (S k) ltac:(lia)) as [[T1 T2] T3].
        assert (ES : Sm (S k) = (Sm k + P i k * W gf (nth k sons 1%positive))%R) by (unfold Sm; by rewrite (rsum_snoc real_arith real_exact)).
        assert (EP : Pm (S k) = (Pm k + P i k)%R) by (unfold Pm; by rewrite (rsum_snoc real_arith real_exact)).
        pose proof (Hnn i k Hi Hk) as P0. pose proof u53_pos as U.
        assert (K : (INR k + 1 <= INR (dom c i))%R) by (rewrite <- S_INR; apply le_INR; lia).
        assert (K' : (2 * (u53 + eps) * (INR k + 1) <= 2 * (u53 + eps) * INR (dom c i))%R) by (apply Rmult_le_compat_l; lra).
        assert (Q : (e * (Pm k + P i k) <= e)%R) by (rewrite <- EP; rewrite <- (Rmult_1_r e) at 2; by apply Rmult_le_compat_l).
        destruct (step_error old v p (Sm k) (W gf (nth k sons 1%positive)) (P i k) (2 * (u53 + eps) * INR k + e * Pm k) e eps) as [F N];
          [exact Fo|exact Fv|exact Fp|exact No|exact Nv|exact Np|exact S1|exact P0|exact W1|rewrite <- ES; lra|lra|exact He1|].
        rewrite ES, EP, S_INR. split; [exact F|]. eapply Rle_trans; [exact N|]. lra.
    + rewrite seq_length in H2. cbn [Nat.add] in H2. destruct (H2 (le_n _)) as (acc&Ea&Fa&Na). exists data'. split; [done|]. split.
      * intros x v Hx Ex. rewrite H1; [by apply Ht|]. intros ->. congruence.
      * intros x Hx. destruct (decide (x = a)) as [->|Hne]; [|rewrite H1 by done; apply HD; set_solver].
        exists acc. split; [done|]. unfold near. rewrite (W_int c opsem strict g s Hc C real_arith real_exact ps Hd gf a i sons Ha E).
        fold (Sm (dom c i)). destruct (HPm (dom c i) (le_n _)) as [[S1 S2] S3]. split; [done|]. split; [|lra].
        eapply Rle_trans; [exact Na|]. rewrite Ee. assert (e * Pm (dom c i) <= e * 1)%R by (by apply Rmult_le_compat_l). lra.
Qed.

Lemma ntps_post_near sel a data : held a -> Forall (fun v => (0 <= v)%Z /\ v <> Undef) sel ->
  (forall x, reach L a x -> L x <> Some (Term Undef)) ->
  exists r data', ntps_post c b64_arith sel pr a data s = Ok (r, data') s /\ is_finite r = true /\
    (Rabs (B2R r - probability real_arith (c_doms c) ps (fun x => has sel (nval c s a (of_vals x)))) <= 2 * (u53 + eps) * INR (sum_list (c_doms c)))%R.
Proof.
  intros Ha Hsel Hns. unfold ntps_post. unfold terminal_nodes. rewrite (bind_ok _ _ _ (ts s) s) by done.
  destruct (select_ok c opsem strict g s C b64_arith sel (set_all (a_zero b64_arith) data (ts s)) Hsel) as (data1&E1&H1). rewrite (bind_ok _ _ _ _ _ E1).
  set (gf := ind real_arith (has sel)).
  assert (H1' : forall x v, reach L a x -> L x = Some (Term v) -> exists y : b64, data1 !! x = Some y /\ is_finite y = true /\ B2R y = gf v).
  { intros x v Hx E. assert (Hu : v <> Undef) by (intros ->; by apply (Hns x)). rewrite (H1 x v E Hu), set_all_at.
    rewrite bool_decide_eq_true_2 by (by eapply term_in). unfold gf, ind. destruct (has sel v); eexists; (split; [done|]); split; try done.
    apply Bone_correct. }
  assert (Hgf : forall v, (0 <= gf v <= 1)%R) by (intros v; unfold gf, ind; destruct (has sel v); cbn; lra).
  destruct (traverse_post_spec s a false rk (nvars c) (held_uniform c opsem strict g s C Cl a Ha) (held_ranked c opsem strict g s C a Ha)
    c (post_op c b64_arith pr) (fun D data =>
      (forall x v, reach L a x -> L x = Some (Term v) -> exists y : b64, data !! x = Some y /\ is_finite y = true /\ B2R y = gf v) /\
      (forall x, x ∈ D -> exists y : b64, data !! x = Some y /\ near gf y x)) ltac:(lia) data1) as (D&data2&E2&(H2&H3)&_&HD).
  - intros V D acc x Hx HxD Hs (G1&G2).
    destruct (post_near gf a V D acc x Hgf G1 Ha Hx HxD Hs G2) as (acc'&E'&G'). by exists acc'.
  - split; [done|]. intros x Hx. by apply elem_of_nil in Hx.
  - rewrite (bind_ok _ _ _ _ _ E2). unfold rd. destruct (H3 a ltac:(apply HD; constructor)) as (r&Er&Fr&Nr&_). rewrite Er.
    rewrite (bind_ok _ _ _ r s) by done. exists r, data2. split; [done|]. split; [done|].
    unfold gf in Nr. rewrite (W_probability c opsem strict g s Hc C real_arith real_exact ps Hd (has sel) a Ha) in Nr.
    eapply Rle_trans; [exact Nr|]. rewrite <- states_from_all. fold (err_at 0). apply err_le. lia.
Qed.
End proof.
