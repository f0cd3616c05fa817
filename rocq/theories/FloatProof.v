(** * Floating point: size / 0.75 truncated, hash_tables.hpp:543-547

    static_cast<int64>(static_cast<double>(size_) / LOAD_THRESHOLD) in IEEE 754
    binary64 with rounding to nearest even.  Both operands are exact. *)

From Coq Require Import ZArith Reals Lia Lra Psatz.
From Flocq Require Import Core.

Local Open Scope R_scope.

(** binary64: 53 bits of precision, least exponent -1074 *)
Definition dexp : Z -> Z := FLT_exp (-1074) 53.
Definition double (x : R) : R := round radix2 dexp ZnearestE x.

(** the code's expression; a cast to an integer truncates *)
Definition approx_capacity (size : Z) : Z := Ztrunc (double (double (IZR size) / double (3 / 4))).

Lemma quarter_format (z : Z) : (Z.abs z < 2 ^ 53)%Z -> generic_format radix2 dexp (IZR z / 4).
Proof.
  intros H. apply generic_format_FLT.
  apply (FLT_spec radix2 (-1074) 53 _ (Float radix2 z (-2))); simpl; [unfold F2R; simpl; lra|exact H|lia].
Qed.

Lemma double_quarter z : (Z.abs z < 2 ^ 53)%Z -> double (IZR z / 4) = IZR z / 4.
Proof. intros H. apply round_generic; [apply valid_rnd_N|]. now apply quarter_format. Qed.

Lemma double_int z : (Z.abs z < 2 ^ 51)%Z -> double (IZR z) = IZR z.
Proof.
  intros H. replace (IZR z) with (IZR (4 * z) / 4) by (rewrite mult_IZR; lra).
  apply double_quarter. lia.
Qed.

Lemma approx_capacity_exact size : (0 <= size < 2 ^ 50)%Z -> approx_capacity size = (4 * size / 3)%Z.
Proof.
  intros H. unfold approx_capacity. rewrite double_int by lia.
  replace (double (3 / 4)) with (3 / 4) by (symmetry; apply (double_quarter 3); lia).
  set (x := IZR size / (3 / 4)). set (k := (4 * size / 3)%Z).
  assert (Hk : (3 * k <= 4 * size <= 3 * k + 2)%Z).
  { unfold k. pose proof (Z.div_mod (4 * size) 3). pose proof (Z.mod_pos_bound (4 * size) 3). lia. }
  assert (Hk0 : (0 <= k < 2 ^ 51)%Z) by lia.
  assert (Hx : IZR k <= x <= IZR (4 * k + 3) / 4).
  { unfold x. destruct Hk as [Ha Hb]. apply IZR_le in Ha, Hb.
    rewrite ?plus_IZR, ?mult_IZR in *. lra. }
  assert (M : forall a b, a <= b -> double a <= double b).
  { intros a b Hab. apply round_le; [apply FLT_exp_valid; unfold Prec_gt_0; lia|apply valid_rnd_N|exact Hab]. }
  assert (L : IZR k <= double x).
  { rewrite <- (double_int k) by lia. now apply M. }
  assert (U : double x <= IZR (4 * k + 3) / 4).
  { rewrite <- (double_quarter (4 * k + 3)) by lia. now apply M. }
  rewrite Ztrunc_floor.
  - apply Zfloor_imp. split; [exact L|]. rewrite plus_IZR. rewrite plus_IZR, mult_IZR in U. lra.
  - apply Rle_trans with (IZR k); [|exact L]. apply IZR_le. lia.
Qed.
