(** * The type double: IEEE 754 binary64, rounding to nearest even

    The definitions of Flocq.  Arithmetic on double is assumed to be IEEE
    arithmetic evaluated in double (FLT_EVAL_METHOD = 0, no -ffast-math). *)

From Coq Require Import ZArith Reals Lia Lra.
From Flocq Require Import Core BinarySingleNaN.
From Verif Require Import Base Tools Prob CountProof.

Local Open Scope Z_scope.

Definition b64 := binary_float 53 1024.
#[export] Instance b64_prec : Prec_gt_0 53. Proof. reflexivity. Qed.
#[export] Instance b64_emax : Prec_lt_emax 53 1024. Proof. reflexivity. Qed.

(** static_cast<double>(z) *)
Definition b64_of_Z (z : Z) : b64 := binary_normalize 53 1024 b64_prec b64_emax mode_NE z 0 false.

(** static_cast<int64>(x): truncation, undefined unless the result is an int64 *)
Definition b64_to_int64 (x : b64) : option Z := if is_finite x then chk min64 max64 (Btrunc x) else None.

Definition b64_arith : arith b64 :=
  Arith b64 (B754_zero false) Bone (Bplus mode_NE) (Bminus mode_NE) (Bmult mode_NE) (Bdiv mode_NE) b64_of_Z b64_to_int64.

(** ** Natural numbers up to 2^53 are represented *)

Notation fexp64 := (SpecFloat.fexp 53 1024).
Notation rnd := (round radix2 fexp64 (round_mode mode_NE)).

Lemma int_format z : 0 <= z <= 2 ^ 53 -> generic_format radix2 fexp64 (IZR z).
Proof.
  intros H. apply generic_format_FLT. destruct (Z.eq_dec z (2 ^ 53)) as [->|Hne].
  - apply (FLT_spec radix2 _ 53 _ (Float radix2 1 53)).
    + unfold F2R. simpl. lra.
    + reflexivity.
    + unfold SpecFloat.emin. simpl. lia.
  - apply (FLT_spec radix2 _ 53 _ (Float radix2 z 0)).
    + unfold F2R. simpl. lra.
    + change (Z.abs z < 2 ^ 53). lia.
    + unfold SpecFloat.emin. simpl. lia.
Qed.

Lemma int_rnd z : 0 <= z <= 2 ^ 53 -> rnd (IZR z) = IZR z.
Proof. intros H. apply round_generic; [apply valid_rnd_round_mode|now apply int_format]. Qed.

Lemma int_small z : 0 <= z <= 2 ^ 53 -> Rlt_bool (Rabs (rnd (IZR z))) (bpow radix2 1024) = true.
Proof.
  intros H. rewrite int_rnd by exact H. apply Rlt_bool_true. rewrite Rabs_pos_eq by (apply (IZR_le 0); lia).
  apply Rle_lt_trans with (IZR (2 ^ 53)); [apply IZR_le; lia|].
  rewrite <- IZR_Zpower by lia. apply IZR_lt. reflexivity.
Qed.

Lemma of_Z_facts z : 0 <= z <= 2 ^ 53 -> B2R (b64_of_Z z) = IZR z /\ is_finite (b64_of_Z z) = true /\ Bsign (b64_of_Z z) = false.
Proof.
  intros H. unfold b64_of_Z. pose proof (binary_normalize_correct 53 1024 b64_prec b64_emax mode_NE z 0 false) as G. cbv zeta in G.
  assert (E : F2R (Float radix2 z 0) = IZR z) by (unfold F2R; simpl; lra). rewrite E in G.
  rewrite int_small in G by exact H. destruct G as (G1&G2&G3). rewrite G1, G2, G3, int_rnd by exact H. split; [reflexivity|]. split; [reflexivity|].
  destruct (Rcompare_spec (IZR z) 0) as [Hlt| |]; try reflexivity. apply (lt_IZR z 0) in Hlt. lia.
Qed.

(** counting with doubles is exact up to 2^53 *)
Theorem b64_counts : counts_to b64_arith (2 ^ 53).
Proof.
  constructor; simpl.
  - reflexivity.
  - assert (H1 : 0 <= 1 <= 2 ^ 53) by lia. destruct (of_Z_facts 1 H1) as (G1&G2&G3).
    apply B2R_Bsign_inj; [exact G2|apply is_finite_Bone|now rewrite Bone_correct, <- G1|now rewrite Bsign_Bone, <- G3].
  - intros x y Hx Hy Hs. destruct (of_Z_facts x ltac:(lia)) as (X1&X2&X3). destruct (of_Z_facts y ltac:(lia)) as (Y1&Y2&Y3).
    destruct (of_Z_facts (x + y) ltac:(lia)) as (S1&S2&S3).
    pose proof (Bplus_correct 53 1024 b64_prec b64_emax mode_NE (b64_of_Z x) (b64_of_Z y) X2 Y2) as G.
    rewrite X1, Y1, <- plus_IZR, int_small, int_rnd in G by lia. destruct G as (G1&G2&G3).
    apply B2R_Bsign_inj; [exact G2|exact S2|congruence|]. rewrite G3, S3, X3, Y3.
    destruct (Rcompare_spec (IZR (x + y)) 0) as [Hlt| |]; try reflexivity. apply (lt_IZR _ 0) in Hlt. lia.
  - intros x y Hx Hy Hs. destruct (of_Z_facts x ltac:(lia)) as (X1&X2&X3). destruct (of_Z_facts y ltac:(lia)) as (Y1&Y2&Y3).
    assert (Hm : 0 <= x * y <= 2 ^ 53) by (split; [apply Z.mul_nonneg_nonneg; lia|exact Hs]).
    destruct (of_Z_facts (x * y) Hm) as (S1&S2&S3).
    pose proof (Bmult_correct 53 1024 b64_prec b64_emax mode_NE (b64_of_Z x) (b64_of_Z y)) as G.
    rewrite X1, Y1, <- mult_IZR, int_small, int_rnd in G by exact Hm. destruct G as (G1&G2&G3). rewrite X2, Y2 in G2. simpl in G2.
    apply B2R_Bsign_inj; [exact G2|exact S2|congruence|]. rewrite G3, S3, X3, Y3; [reflexivity|].
    now destruct (Bmult mode_NE (b64_of_Z x) (b64_of_Z y)).
  - intros x Hx H64. destruct (of_Z_facts x Hx) as (X1&X2&X3). unfold b64_to_int64. rewrite X2.
    assert (E : Btrunc (b64_of_Z x) = x).
    { apply eq_IZR. rewrite (Btrunc_correct 53 1024 b64_emax), X1. apply round_generic; [apply valid_rnd_ZR|].
      apply generic_format_FIX. apply (FIX_spec radix2 0 _ (Float radix2 x 0)); [unfold F2R; simpl; lra|reflexivity]. }
    rewrite E. unfold chk. assert (H0 : (min64 <=? x) = true) by (apply Z.leb_le; unfold min64; lia).
    rewrite H0. apply Z.leb_le in H64. now rewrite H64.
Qed.
