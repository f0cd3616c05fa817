(** * The sizes computed in double are those wanted up to rounding *)

From Coq Require Import ZArith Reals Lia Lra Psatz List.
From Flocq Require Import Core BinarySingleNaN Relative.
From Verif Require Import Base Tools ProbFloat Sizes.
Import ListNotations.

Local Open Scope R_scope.

(** a finite double with real value [r] *)
Definition is (x : b64) (r : R) : Prop := is_finite x = true /\ B2R x = r.

Lemma rnd_le a b : a <= b -> rnd a <= rnd b.
Proof. intros H. apply round_le; [apply fexp_correct; reflexivity|apply valid_rnd_round_mode|exact H]. Qed.

Lemma rnd_0 : rnd 0 = 0.
Proof. apply round_0. apply valid_rnd_round_mode. Qed.

Lemma rnd_pos a : 0 <= a -> 0 <= rnd a.
Proof. intros H. rewrite <- rnd_0. now apply rnd_le. Qed.

Lemma rnd_format x : rnd (B2R (prec := 53) (emax := 1024) x) = B2R x.
Proof. apply round_generic; [apply valid_rnd_round_mode|]. apply generic_format_B2R. Qed.

(** everything below 2^100 is far from overflow *)
Lemma rnd_small a : Rabs a <= bpow radix2 100 -> Rlt_bool (Rabs (rnd a)) (bpow radix2 1024) = true.
Proof.
  intros H. apply Rlt_bool_true. apply Rle_lt_trans with (bpow radix2 100); [|now apply bpow_lt].
  apply abs_round_le_generic; [apply fexp_correct; reflexivity|apply valid_rnd_round_mode| |exact H].
  apply generic_format_bpow. vm_compute. discriminate.
Qed.

Lemma mul_is x y r s : is x r -> is y s -> Rabs (r * s) <= bpow radix2 100 -> is (mul64 x y) (rnd (r * s)).
Proof.
  intros [Fx <-] [Fy <-] H. pose proof (Bmult_correct 53 1024 b64_prec b64_emax mode_NE x y) as G.
  rewrite rnd_small in G by exact H. destruct G as (G1&G2&_). split; [|exact G1]. unfold mul64. now rewrite G2, Fx, Fy.
Qed.

Lemma div_is x y r s : is x r -> is y s -> s <> 0 -> Rabs (r / s) <= bpow radix2 100 -> is (div64 x y) (rnd (r / s)).
Proof.
  intros [Fx <-] [Fy <-] Hs H. pose proof (Bdiv_correct 53 1024 b64_prec b64_emax mode_NE x y Hs) as G.
  rewrite rnd_small in G by exact H. destruct G as (G1&G2&_). split; [|exact G1]. unfold div64. now rewrite G2.
Qed.

Lemma sub_is x y r s : is x r -> is y s -> Rabs (r - s) <= bpow radix2 100 -> is (sub64 x y) (rnd (r - s)).
Proof.
  intros [Fx <-] [Fy <-] H. pose proof (Bminus_correct 53 1024 b64_prec b64_emax mode_NE x y Fx Fy) as G.
  rewrite rnd_small in G by exact H. destruct G as (G1&G2&_). split; [exact G2|exact G1].
Qed.

Lemma big z : (Z.abs z <= 2 ^ 100)%Z -> Rabs (IZR z) <= bpow radix2 100.
Proof. intros H. rewrite <- abs_IZR. change (bpow radix2 100) with (IZR (2 ^ 100)). now apply IZR_le. Qed.

Lemma of_Z_is z : (Z.abs z <= 2 ^ 100)%Z -> is (b64_of_Z z) (rnd (IZR z)).
Proof.
  intros H. unfold b64_of_Z. pose proof (binary_normalize_correct 53 1024 b64_prec b64_emax mode_NE z 0 false) as G. cbv zeta in G.
  assert (E : F2R (Float radix2 z 0) = IZR z) by (unfold F2R; simpl; lra). rewrite E in G.
  rewrite rnd_small in G by (now apply big). destruct G as (G1&G2&_). split; [exact G2|exact G1].
Qed.

(** a rounding error of one part in 1000 is more than enough *)
Lemma rnd_near a : a = 0 \/ / 2 ^ 60 <= a -> (1 - / 1000) * a <= rnd a <= (1 + / 1000) * a.
Proof.
  intros [->|Ha].
  - rewrite rnd_0. lra.
  - pose proof (relative_error_N_FLT radix2 (SpecFloat.emin 53 1024) 53 eq_refl (fun x => negb (Z.even x)) a) as G.
    assert (X : bpow radix2 (-60) = / 2 ^ 60) by (simpl; lra).
    assert (Y : 0 < / 2 ^ 60) by (rewrite <- X; apply bpow_gt_0).
    assert (Hb : bpow radix2 (SpecFloat.emin 53 1024 + 53 - 1) <= Rabs a).
    { rewrite Rabs_pos_eq by lra. apply Rle_trans with (bpow radix2 (-60)); [|lra]. apply bpow_le. unfold SpecFloat.emin. lia. }
    specialize (G Hb). rewrite (Rabs_pos_eq a) in G by lra.
    assert (W : / 2 * bpow radix2 (-53 + 1) <= / 1000).
    { change (bpow radix2 (-53 + 1)) with (/ IZR (2 ^ 52)). assert (1000 <= IZR (2 ^ 52)) by (apply IZR_le; lia).
      assert (/ IZR (2 ^ 52) <= / 1000) by (apply Rinv_le; lra). lra. }
    assert (Z : Rabs (rnd a - a) <= / 1000 * a).
    { eapply Rle_trans; [exact G|]. apply Rmult_le_compat_r; [lra|exact W]. }
    apply Rabs_le_inv in Z. lra.
Qed.

Lemma bound_inv k : 1 <= k -> / 2 ^ 60 <= k. Proof. intros H. assert (/ 2 ^ 60 <= 1) by (rewrite <- Rinv_1; apply Rinv_le; [lra|]; rewrite <- (pow1 60); apply pow_incr; lra). lra. Qed.

Lemma trunc_int64 x r : is x r -> 0 <= r <= IZR (2 ^ 62) -> b64_to_int64 x = Some (Zfloor r).
Proof.
  intros [F E] H. unfold b64_to_int64. rewrite F. assert (T : Btrunc x = Zfloor r).
  { apply eq_IZR. rewrite (Btrunc_correct 53 1024 b64_emax), E. rewrite round_FIX_IZR. f_equal. now apply Ztrunc_floor. }
  rewrite T. assert (0 <= Zfloor r <= 2 ^ 62)%Z.
  { split; [apply Zfloor_lub; apply H|]. rewrite <- (Zfloor_IZR (2 ^ 62)). now apply Zfloor_le. }
  unfold chk. change min64 with (- 2 ^ 63)%Z. change max64 with (2 ^ 63 - 1)%Z.
  destruct (Z.leb_spec (- 2 ^ 63) (Zfloor r)), (Z.leb_spec (Zfloor r) (2 ^ 63 - 1)); simpl; reflexivity || lia.
Qed.

Lemma trunc_int32 x r : is x r -> 0 <= r <= IZR (2 ^ 30) * 1.9 -> b64_to_int32 x = Some (Zfloor r).
Proof.
  intros [F E] H. unfold b64_to_int32. rewrite F. assert (T : Btrunc x = Zfloor r).
  { apply eq_IZR. rewrite (Btrunc_correct 53 1024 b64_emax), E. rewrite round_FIX_IZR. f_equal. now apply Ztrunc_floor. }
  rewrite T. assert (0 <= Zfloor r <= 2 ^ 31 - 1)%Z.
  { split; [apply Zfloor_lub; apply H|]. rewrite <- (Zfloor_IZR (2 ^ 31 - 1)). apply Zfloor_le.
    change (2 ^ 31 - 1)%Z with 2147483647%Z. change (2 ^ 30)%Z with 1073741824%Z in H. lra. }
  unfold chk. change min32 with (- 2 ^ 31)%Z. change max32 with (2 ^ 31 - 1)%Z.
  destruct (Z.leb_spec (- 2 ^ 31) (Zfloor r)), (Z.leb_spec (Zfloor r) (2 ^ 31 - 1)); simpl; reflexivity || lia.
Qed.

Lemma small z : (0 <= z <= 2 ^ 53)%Z -> is (b64_of_Z z) (IZR z).
Proof. intros H. destruct (of_Z_facts z H) as (A&B&_). now split. Qed.

Lemma one_is : is Bone 1.
Proof. split; [reflexivity|]. apply Bone_correct. Qed.

Lemma literal_is n d : (1 <= n <= 1000)%Z -> (1 <= d <= 1000)%Z -> is (literal n d) (rnd (IZR n / IZR d)).
Proof.
  intros Hn Hd. assert (1 <= IZR n <= 1000) by (split; apply IZR_le; lia). assert (1 <= IZR d <= 1000) by (split; apply IZR_le; lia).
  apply div_is; [apply small; lia|apply small; lia|lra|].
  assert (0 <= IZR n / IZR d <= 1000).
  { split; [apply Rle_mult_inv_pos; lra|]. apply Rle_trans with (1000 / 1); [|lra]. unfold Rdiv. apply Rmult_le_compat; try lra.
    - left. apply Rinv_0_lt_compat. lra. - apply Rinv_le; lra. }
  rewrite Rabs_pos_eq by lra. apply Rle_trans with 1000; [lra|]. change (bpow radix2 100) with (IZR (2 ^ 100)). apply IZR_le. lia.
Qed.

Lemma rnd_opp a : rnd (- a) = - rnd a.
Proof. apply round_NE_opp. Qed.

Lemma le_pow a k : a <= IZR k -> - IZR k <= a -> (k <= 2 ^ 100)%Z -> Rabs a <= bpow radix2 100.
Proof.
  intros H1 H2 Hk. apply Rabs_le. change (bpow radix2 100) with (IZR (2 ^ 100)). apply IZR_le in Hk. lra.
Qed.

Lemma tiny a : / IZR (2 ^ 60) <= a -> / 2 ^ 60 <= a.
Proof. intros H. rewrite (pow_IZR 2 60). exact H. Qed.

Lemma t200 : / 2 ^ 60 <= 1 / 200.
Proof.
  apply tiny. assert (IZR 200 <= IZR (2 ^ 60)) by (apply IZR_le; lia).
  assert (/ IZR (2 ^ 60) <= / 200) by (apply Rinv_le; lra). lra.
Qed.

Section bounds.
Context (V P : Z) (HV : (2 <= V <= 2 ^ 31 - 1)%Z) (HP : (0 <= P <= 2 ^ 62)%Z).

Notation n := (IZR (V - 1)).

Lemma n_range : 1 <= n <= IZR (2 ^ 31).
Proof. split; apply IZR_le; lia. Qed.

Lemma n_is : is (sub64 (b64_of_Z V) Bone) n.
Proof.
  pose proof n_range. assert (E : rnd (IZR V - 1) = n).
  { rewrite <- (minus_IZR V 1). apply int_rnd. lia. }
  rewrite <- E. apply sub_is; [apply small; lia|apply one_is|]. rewrite <- (minus_IZR V 1). apply big. lia.
Qed.

Lemma c_is : exists c, is (peak_position V) c /\ 0.7 * n <= c <= 0.72 * n.
Proof.
  pose proof n_range as Hn. pose proof (literal_is 71 100 ltac:(lia) ltac:(lia)) as L.
  assert (T : / 2 ^ 60 <= 71 / 100) by (pose proof t200 as T; lra). pose proof (rnd_near (71 / 100) (or_intror T)) as R.
  set (l := rnd (71 / 100)) in *. assert (R1 : 0.709 <= l <= 0.711) by lra.
  assert (B1 : 0.709 * n <= l * n <= 0.711 * n) by (split; apply Rmult_le_compat_r; lra).
  assert (/ 2 ^ 60 <= 1 / 2) by (pose proof t200; lra).
  assert (T1 : / 2 ^ 60 <= l * n) by lra. pose proof (rnd_near (l * n) (or_intror T1)) as R2.
  exists (rnd (l * n)). split; [|lra].
  apply mul_is; [exact L|apply n_is|]. apply le_pow with (2 ^ 31)%Z; [lra| |lia]. assert (0 <= IZR (2 ^ 31)) by (apply IZR_le; lia). lra.
Qed.

Lemma fc_is : exists f, is (peak_count P) f /\ 0 <= f <= 0.051 * IZR P /\ (f = 0 \/ 0.04 <= f).
Proof.
  assert (Hp : 0 <= IZR P <= IZR (2 ^ 62)) by (split; apply IZR_le; lia).
  pose proof (literal_is 5 100 ltac:(lia) ltac:(lia)) as L.
  assert (X : / 2 ^ 60 <= 1 / 200) by apply t200.
  assert (T2 : / 2 ^ 60 <= 5 / 100) by lra. pose proof (rnd_near (5 / 100) (or_intror T2)) as R. set (l := rnd (5 / 100)) in *.
  assert (R1 : 0.0499 <= l <= 0.0501) by lra.
  assert (D : P = 0%Z \/ (1 <= P)%Z) by lia.
  assert (D' : IZR P = 0 \/ 1 <= IZR P) by (destruct D as [->|D]; [now left|right; now apply IZR_le]).
  pose proof (rnd_near (IZR P) ltac:(lra)) as R2. set (p := rnd (IZR P)) in *.
  assert (B : 0.0499 * p <= l * p <= 0.0501 * p) by (split; apply Rmult_le_compat_r; lra).
  pose proof (rnd_near (l * p) ltac:(lra)) as R3.
  exists (rnd (l * p)). split; [|lra]. apply mul_is; [exact L|apply of_Z_is; lia|].
  apply le_pow with (2 ^ 62)%Z; [lra| |lia]. lra.
Qed.

(** the value rounded before the conversion, in the first and in the second loop *)
Definition v1 (f c : R) (i : Z) : R := rnd (rnd (f * IZR i) / c).
Definition w (f e : R) (i : Z) : R := rnd (rnd (f * IZR i) / e).
Definition v2 (f e : R) (i : Z) : R := rnd (w f e (V - 1) - w f e i).

Context (f c : R) (Hf : is (peak_count P) f) (Hc : is (peak_position V) c).
Context (Bc : 0.7 * n <= c <= 0.72 * n) (Bf : 0 <= f <= 0.051 * IZR P) (Zf : f = 0 \/ 0.04 <= f).

Notation e := (rnd (n - c)).

Lemma e_range : 0.27 * n <= e <= 0.31 * n.
Proof.
  pose proof n_range. assert (/ 2 ^ 60 <= 1 / 200) by apply t200.
  assert (T3 : / 2 ^ 60 <= n - c) by lra. pose proof (rnd_near (n - c) (or_intror T3)). lra.
Qed.

Lemma d_is : is (sub64 (peak_position V) (sub64 (b64_of_Z V) Bone)) (- e).
Proof.
  pose proof n_range. rewrite <- rnd_opp. replace (- (n - c)) with (c - n) by lra. apply sub_is; [exact Hc|apply n_is|].
  apply le_pow with (2 ^ 31)%Z; [lra|lra|lia].
Qed.

Lemma f_max : 0 <= f <= IZR (2 ^ 62).
Proof. assert (0 <= IZR P <= IZR (2 ^ 62)) by (split; apply IZR_le; lia). lra. Qed.

(** products and quotients by a number comparable to n *)
Lemma prod_range i : (0 <= i <= V - 1)%Z -> 0.999 * (f * IZR i) <= rnd (f * IZR i) <= 1.001 * (f * IZR i).
Proof.
  intros Hi. assert (/ 2 ^ 60 <= 1 / 200) by apply t200.
  assert (D : f * IZR i = 0 \/ / 2 ^ 60 <= f * IZR i).
  { destruct (Z.eq_dec i 0) as [->|Hne]; [left; lra|]. destruct Zf as [->|Zf']; [left; lra|]. right.
    assert (1 <= IZR i) by (apply IZR_le; lia). nra. }
  pose proof (rnd_near _ D). lra.
Qed.

Lemma prod_is i : (0 <= i <= V - 1)%Z -> is (mul64 (peak_count P) (b64_of_Z i)) (rnd (f * IZR i)).
Proof.
  intros Hi. assert (0 <= IZR i <= IZR (2 ^ 31)) by (split; apply IZR_le; lia). pose proof f_max.
  apply mul_is; [exact Hf|apply small; lia|]. apply le_pow with (2 ^ 62 * 2 ^ 31)%Z; [| |lia]; rewrite mult_IZR; nra.
Qed.

Lemma quot_range i g : (0 <= i <= V - 1)%Z -> 0.2 * n <= g <= n ->
  0.997 * (f * IZR i / g) <= rnd (rnd (f * IZR i) / g) <= 1.003 * (f * IZR i / g) /\ 0 <= f * IZR i / g <= 5 * f.
Proof.
  intros Hi Hg. pose proof n_range as Hn. pose proof (prod_range i Hi) as R. assert (Ii : 0 <= IZR i <= n) by (split; apply IZR_le; lia).
  set (a := rnd (f * IZR i)) in *. assert (G0 : 0 < / g) by (apply Rinv_0_lt_compat; lra).
  assert (Q : 0 <= f * IZR i / g <= 5 * f).
  { split; [apply Rmult_le_pos; [apply Rmult_le_pos; lra|lra]|]. apply Rmult_le_reg_r with g; [lra|]. unfold Rdiv. rewrite Rmult_assoc, Rinv_l by lra. nra. }
  split; [|exact Q].
  assert (A : 0.999 * (f * IZR i / g) <= a / g <= 1.001 * (f * IZR i / g)).
  { unfold Rdiv. split; [replace (0.999 * (f * IZR i * / g)) with (0.999 * (f * IZR i) * / g) by ring|replace (1.001 * (f * IZR i * / g)) with (1.001 * (f * IZR i) * / g) by ring];
      apply Rmult_le_compat_r; lra. }
  assert (D : a / g = 0 \/ / 2 ^ 60 <= a / g).
  { destruct (Z.eq_dec i 0) as [->|Hne]; [left; lra|]. destruct Zf as [Z0|Zf']; [left; rewrite Z0 in A; lra|]. right.
    assert (1 <= IZR i) by (apply IZR_le; lia). assert (0.03 <= a) by nra.
    apply tiny. apply Rle_trans with (0.03 * / IZR (2 ^ 31)).
    - change (2 ^ 60)%Z with (2 ^ 29 * 2 ^ 31)%Z. rewrite mult_IZR, Rinv_mult. apply Rmult_le_compat_r; [left; apply Rinv_0_lt_compat; apply IZR_lt; lia|].
      assert (IZR 100 <= IZR (2 ^ 29)) by (apply IZR_le; lia). assert (/ IZR (2 ^ 29) <= / 100) by (apply Rinv_le; lra). lra.
    - unfold Rdiv. apply Rmult_le_compat; [lra|left; apply Rinv_0_lt_compat; apply IZR_lt; lia|lra|apply Rinv_le; lra]. }
  pose proof (rnd_near _ D). lra.
Qed.

Lemma size_before_is i : (0 <= i)%Z -> IZR i <= c -> size_before V P i = Some (Zfloor (v1 f c i)) /\ 0 <= v1 f c i <= 0.06 * IZR P.
Proof.
  intros H0 Hi. pose proof n_range as Hn. pose proof f_max as Hm. assert (Hi' : (0 <= i <= V - 1)%Z) by (split; [exact H0|apply le_IZR; lra]).
  destruct (quot_range i c Hi' ltac:(lra)) as [R [Q0 Q1]].
  assert (Qc : f * IZR i / c <= f).
  { apply Rmult_le_reg_r with c; [lra|]. unfold Rdiv. rewrite Rmult_assoc, Rinv_l by lra. nra. }
  assert (IZR P <= IZR (2 ^ 62)) by (apply IZR_le; lia).
  assert (V1 : 0 <= v1 f c i <= 0.06 * IZR P) by (unfold v1; lra). split; [|exact V1].
  apply trunc_int64; [|lra]. unfold v1. apply div_is; [now apply prod_is|exact Hc|lra|].
  pose proof (prod_range i Hi') as Rp. assert (G0 : 0 < / c) by (apply Rinv_0_lt_compat; lra).
  assert (0 <= rnd (f * IZR i) / c <= 1.001 * (f * IZR i / c)).
  { split; [apply Rmult_le_pos; [|lra]; assert (0 <= IZR i) by (apply IZR_le; lia); nra|]. unfold Rdiv. rewrite <- Rmult_assoc. apply Rmult_le_compat_r; lra. }
  apply le_pow with (2 ^ 63)%Z; [| |lia]; change (2 ^ 63)%Z with (2 * 2 ^ 62)%Z; rewrite mult_IZR; lra.
Qed.

Lemma w_is i : (0 <= i <= V - 1)%Z ->
  is (div64 (mul64 (peak_count P) (b64_of_Z i)) (sub64 (peak_position V) (sub64 (b64_of_Z V) Bone))) (- w f e i).
Proof.
  intros Hi. pose proof n_range as Hn. pose proof f_max as Hm. pose proof e_range as He. unfold w. rewrite <- rnd_opp.
  replace (- (rnd (f * IZR i) / e)) with (rnd (f * IZR i) / - e) by (field; lra).
  apply div_is; [now apply prod_is|apply d_is|lra|]. pose proof (prod_range i Hi) as Rp.
  destruct (quot_range i e Hi ltac:(lra)) as [_ [Q0 Q1]]. replace (rnd (f * IZR i) / - e) with (- (rnd (f * IZR i) / e)) by (field; lra). rewrite Rabs_Ropp.
  assert (G0 : 0 < / e) by (apply Rinv_0_lt_compat; lra).
  assert (0 <= rnd (f * IZR i) / e <= 1.001 * (f * IZR i / e)).
  { split; [apply Rmult_le_pos; [|lra]; assert (0 <= IZR i) by (apply IZR_le; lia); nra|]. unfold Rdiv. rewrite <- Rmult_assoc. apply Rmult_le_compat_r; lra. }
  apply le_pow with (2 ^ 65)%Z; [| |lia]; change (2 ^ 65)%Z with (8 * 2 ^ 62)%Z; rewrite mult_IZR; lra.
Qed.

Lemma mul_mono g i j : 0 < g -> (i <= j)%Z -> rnd (rnd (f * IZR i) / g) <= rnd (rnd (f * IZR j) / g).
Proof.
  intros Hg Hij. apply IZR_le in Hij. apply rnd_le. unfold Rdiv. apply Rmult_le_compat_r; [left; now apply Rinv_0_lt_compat|].
  apply rnd_le. apply Rmult_le_compat_l; lra.
Qed.

Lemma size_after_is i : (i <= V - 1)%Z -> c <= IZR i -> size_after V P i = Some (Zfloor (v2 f e i)) /\ 0 <= v2 f e i <= 0.1 * IZR P.
Proof.
  intros H1 Hi. pose proof n_range as Hn. pose proof f_max as Hm. pose proof e_range as He. assert (Hi' : (0 <= i <= V - 1)%Z) by (split; [apply le_IZR; lra|exact H1]).
  destruct (quot_range i e Hi' ltac:(lra)) as [R [Q0 Q1]]. destruct (quot_range (V - 1) e ltac:(lia) ltac:(lra)) as [S [T0 T1]].
  fold (w f e i) in R. fold (w f e (V - 1)) in S.
  assert (M : w f e i <= w f e (V - 1)) by (apply mul_mono; [lra|lia]).
  assert (/ 2 ^ 60 <= 1 / 200) by apply t200.
  assert (Ed : f * n / e - f * IZR i / e <= 1.002 * f).
  { assert (E1 : (1 - / 1000) * (n - c) <= e) by (apply rnd_near; right; lra).
    apply Rmult_le_reg_r with e; [lra|]. replace ((f * n / e - f * IZR i / e) * e) with (f * (n - IZR i)) by (field; lra). nra. }
  assert (D : 0 <= w f e (V - 1) - w f e i <= 1.04 * f) by lra.
  assert (IZR P <= IZR (2 ^ 62)) by (apply IZR_le; lia).
  assert (V2 : 0 <= v2 f e i <= 0.1 * IZR P).
  { split; [apply rnd_pos; lra|]. unfold v2.
    apply Rle_trans with (1.7 * f); [|lra]. destruct Zf as [Z0|Zf'].
    - assert (E0 : w f e (V - 1) - w f e i = 0) by lra. rewrite E0, rnd_0. lra.
    - apply Rle_trans with (rnd (1.04 * f)); [now apply rnd_le|].
      assert (G : / 2 ^ 60 <= 1.04 * f) by lra. pose proof (rnd_near _ (or_intror G)). lra. }
  split; [|exact V2]. apply trunc_int64; [|lra]. unfold v2.
  replace (w f e (V - 1) - w f e i) with (- w f e i - - w f e (V - 1)) by lra.
  apply sub_is; [now apply w_is| |apply le_pow with (2 ^ 63)%Z; [| |lia]; change (2 ^ 63)%Z with (2 * 2 ^ 62)%Z; rewrite mult_IZR; lra].
  pose proof (w_is (V - 1) ltac:(lia)) as W. destruct n_is as [N1 N2].
  assert (X : is (mul64 (peak_count P) (sub64 (b64_of_Z V) Bone)) (rnd (f * n))).
  { apply mul_is; [exact Hf|apply n_is|]. apply le_pow with (2 ^ 62 * 2 ^ 31)%Z; [| |lia]; rewrite mult_IZR; nra. }
  unfold w. rewrite <- rnd_opp. replace (- (rnd (f * n) / e)) with (rnd (f * n) / - e) by (field; lra).
  apply div_is; [exact X|apply d_is|lra|]. pose proof (prod_range (V - 1) ltac:(lia)) as Rp.
  replace (rnd (f * n) / - e) with (- (rnd (f * n) / e)) by (field; lra). rewrite Rabs_Ropp.
  assert (G0 : 0 < / e) by (apply Rinv_0_lt_compat; lra).
  assert (0 <= rnd (f * n) / e <= 1.001 * (f * n / e)).
  { split; [apply Rmult_le_pos; [|lra]; nra|]. unfold Rdiv. rewrite <- Rmult_assoc. apply Rmult_le_compat_r; lra. }
  apply le_pow with (2 ^ 65)%Z; [| |lia]; change (2 ^ 65)%Z with (8 * 2 ^ 62)%Z; rewrite mult_IZR; lra.
Qed.

Lemma v1_mono i j : (i <= j)%Z -> (Zfloor (v1 f c i) <= Zfloor (v1 f c j))%Z.
Proof. intros H. pose proof n_range. apply Zfloor_le. apply mul_mono; [lra|exact H]. Qed.

Lemma v2_anti i j : (i <= j)%Z -> (Zfloor (v2 f e j) <= Zfloor (v2 f e i))%Z.
Proof.
  intros H. pose proof n_range. pose proof e_range. apply Zfloor_le. apply rnd_le.
  assert (w f e i <= w f e j) by (apply mul_mono; [lra|exact H]). lra.
Qed.

Lemma v1_first : Zfloor (v1 f c 0) = 0%Z.
Proof. unfold v1. rewrite Rmult_0_r, rnd_0. unfold Rdiv. rewrite Rmult_0_l, rnd_0. apply (Zfloor_IZR 0). Qed.

Lemma v2_last : Zfloor (v2 f e (V - 1)) = 0%Z.
Proof. unfold v2. rewrite Rminus_diag_eq by reflexivity. rewrite rnd_0. apply (Zfloor_IZR 0). Qed.

End bounds.

(** ** The lists *)

Local Open Scope Z_scope.

Lemma add_tables_ok V mixed f g k i :
  (forall j, i <= j < i + Z.of_nat k -> f j = Some (g j)) -> i + Z.of_nat k <= V ->
  add_tables V mixed f k i = Some (map (fun j => g (i + Z.of_nat j)) (seq 0 k)).
Proof.
  revert i. induction k as [|k IH]; intros i Hf Hi; [reflexivity|]. cbn [add_tables].
  rewrite (Hf i) by lia. replace (V <=? i) with false by (symmetry; apply Z.leb_gt; lia). rewrite Bool.andb_false_r.
  rewrite IH by (try intros; try apply Hf; lia). cbn [seq map]. rewrite Z.add_0_r, <- seq_shift, map_map. do 2 f_equal.
  apply map_ext. intros j. f_equal. lia.
Qed.

Lemma Zfloor_range r z : (0 <= r <= 0.1 * IZR z)%R -> 0 <= 10 * Zfloor r <= z.
Proof.
  intros H. split; [assert (0 <= Zfloor r) by (apply Zfloor_lub; lra); lia|]. apply le_IZR. rewrite mult_IZR.
  pose proof (Zfloor_lb r). lra.
Qed.

(** the peak [m] and the two slopes [a], [b] *)
Theorem table_sizes_ok V P mixed : 2 <= V <= 2 ^ 31 - 1 -> 0 <= P <= 2 ^ 62 ->
  exists m a b, 0 <= m < V - 1 /\
    table_sizes V P mixed = Some (map (fun j => a (Z.of_nat j)) (seq 0 (Z.to_nat (m + 1))) ++
                                  map (fun j => b (m + 1 + Z.of_nat j)) (seq 0 (Z.to_nat (V - (m + 1))))) /\
    (forall j, 0 <= j <= m -> 0 <= 10 * a j <= P) /\ (forall j, m < j < V -> 0 <= 10 * b j <= P) /\
    (forall i j, i <= j -> a i <= a j) /\ (forall i j, i <= j -> b j <= b i) /\ a 0 = 0 /\ b (V - 1) = 0.
Proof.
  intros HV HP. destruct (c_is V HV) as (c&Hc&Bc). destruct (fc_is P HP) as (f&Hf&Bf&Zf). pose proof (n_range V HV) as Hn.
  assert (Pp : (0 <= IZR P)%R) by (apply IZR_le; lia).
  assert (M : 0 <= Zfloor c < V - 1).
  { split; [apply Zfloor_lub; lra|]. apply lt_IZR. pose proof (Zfloor_lb c). lra. }
  exists (Zfloor c), (fun j => Zfloor (v1 f c j)), (fun j => Zfloor (v2 V f (rnd (IZR (V - 1) - c)) j)).
  split; [exact M|].
  assert (A : forall j, 0 <= j <= Zfloor c -> (0 <= j)%Z /\ (IZR j <= c)%R).
  { intros j Hj. split; [lia|]. pose proof (Zfloor_lb c). assert (IZR j <= IZR (Zfloor c))%R by (apply IZR_le; lia). lra. }
  assert (B : forall j, Zfloor c < j -> (c <= IZR j)%R).
  { intros j Hj. pose proof (Zfloor_ub c). assert (IZR (Zfloor c + 1) <= IZR j)%R by (apply IZR_le; lia). rewrite plus_IZR in *. lra. }
  split; [|split; [|split; [|split; [|split; [|split]]]]].
  - unfold table_sizes. rewrite (trunc_int32 _ c Hc).
    + rewrite (add_tables_ok V mixed (size_before V P) (fun j => Zfloor (v1 f c j))).
      * rewrite (add_tables_ok V mixed (size_after V P) (fun j => Zfloor (v2 V f (rnd (IZR (V - 1) - c)) j))); [reflexivity| |lia].
        intros j Hj. apply (size_after_is V P HV HP f c); try assumption; [lia|]. apply B. lia.
      * intros j Hj. destruct (A j ltac:(lia)). now apply (size_before_is V P HV HP f c).
      * lia.
    + change (2 ^ 31)%Z with 2147483648%Z in Hn. change (2 ^ 30)%Z with 1073741824%Z. lra.
  - intros j Hj. apply Zfloor_range. destruct (A j Hj) as [A1 A2]. destruct (size_before_is V P HV HP f c Hf Hc Bc Bf Zf j A1 A2) as [_ X]. lra.
  - intros j Hj. apply Zfloor_range. destruct (size_after_is V P HV HP f c Hf Hc Bc Bf Zf j ltac:(lia) (B j ltac:(lia))) as [_ X]. lra.
  - intros i j Hij. now apply (v1_mono V P HV f c).
  - intros i j Hij. now apply (v2_anti V P HV f c).
  - apply v1_first.
  - apply v2_last.
Qed.

(** ** The thresholds *)

Lemma rnd_pow k : 0 <= k <= 100 -> rnd (bpow radix2 k) = bpow radix2 k.
Proof.
  intros H. apply round_generic; [apply valid_rnd_round_mode|]. apply generic_format_bpow. unfold SpecFloat.fexp, SpecFloat.emin. lia.
Qed.

Lemma threshold_defined (r : b64) n : is_finite r = true -> (0 <= B2R r <= 1)%R -> 0 <= n <= 2 ^ 62 ->
  exists z, grow_threshold r n = Some z /\ 0 <= z /\ ((1 <= B2R r * rnd (IZR n))%R -> 1 <= z).
Proof.
  intros F R Hn. assert (N : (0 <= IZR n <= IZR (2 ^ 62))%R) by (split; apply IZR_le; lia).
  assert (X : (0 <= rnd (IZR n))%R) by (apply rnd_pos; lra).
  assert (Z : (rnd (IZR n) <= IZR (2 ^ 62))%R).
  { change (IZR (2 ^ 62)) with (bpow radix2 62). rewrite <- (rnd_pow 62) by lia. apply rnd_le. apply N. }
  assert (W : (0 <= B2R r * rnd (IZR n) <= IZR (2 ^ 62))%R) by (split; nra).
  assert (Y : is (mul64 r (b64_of_Z n)) (rnd (B2R r * rnd (IZR n)))).
  { apply mul_is; [now split|apply of_Z_is; lia|]. apply le_pow with (2 ^ 62); [lra|lra|lia]. }
  assert (U : (0 <= rnd (B2R r * rnd (IZR n)) <= IZR (2 ^ 62))%R).
  { split; [apply rnd_pos; lra|]. change (IZR (2 ^ 62)) with (bpow radix2 62). rewrite <- (rnd_pow 62) by lia. apply rnd_le. apply W. }
  exists (Zfloor (rnd (B2R r * rnd (IZR n)))).
  split; [apply trunc_int64; [exact Y|exact U]|]. split; [apply Zfloor_lub; lra|].
  intros H1. apply Zfloor_lub. rewrite <- (int_rnd 1) by lia. now apply rnd_le.
Qed.

Lemma rnd_int_ge n k : 0 <= k <= 2 ^ 53 -> k <= n -> (IZR k <= rnd (IZR n))%R.
Proof. intros Hk H. rewrite <- (int_rnd k) by exact Hk. apply rnd_le. now apply IZR_le. Qed.

(** 0.20 is rounded up *)
Lemma gc_ratio_range : is_finite gc_ratio = true /\ (0.2 <= B2R gc_ratio <= 1)%R.
Proof.
  assert (E : B2SF gc_ratio = SpecFloat.S754_finite false 7205759403792794 (-55)) by (vm_compute; reflexivity).
  split; [rewrite <- is_finite_SF_B2SF, E; reflexivity|]. rewrite <- SF2R_B2SF, E. unfold SF2R, F2R. simpl. lra.
Qed.
