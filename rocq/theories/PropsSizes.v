(** * C65: the sizes the constructor computes in double *)

From stdpp Require Import gmap list.
From Coq Require Import ZArith Lia Reals Lra.
From Flocq Require Import Core BinarySingleNaN.
From Verif Require Import Base Tools NodeManager World WorldSpec ProbFloat Sizes SizesProof Inv History.

Local Open Scope Z_scope.

(** rises up to position [k], falls from there on *)
Definition rises_then_falls (l : list Z) : Prop :=
  exists k, (forall i j x y, (i <= j < k)%nat -> l !! i = Some x -> l !! j = Some y -> x <= y) /\
            (forall i j x y, (k <= i <= j)%nat -> l !! i = Some x -> l !! j = Some y -> y <= x).

(** One table for each variable, no conversion is undefined, no size is negative or
    above a tenth of the pool, the first and the last are 0. *)
Theorem C65_table_sizes V P mixed : 2 <= V <= 2 ^ 31 - 1 -> 0 <= P <= 2 ^ 62 ->
  exists l, table_sizes V P mixed = Some l /\ Z.of_nat (length l) = V /\ Forall (fun s => 0 <= 10 * s <= P) l /\
    l !! 0%nat = Some 0 /\ last l = Some 0 /\ rises_then_falls l.
Proof.
  intros HV HP. destruct (table_sizes_ok V P mixed HV HP) as (m&a&b&Hm&E&Ra&Rb&Ma&Mb&A0&B0).
  set (x := Z.to_nat (m + 1)) in *. set (y := Z.to_nat (V - (m + 1))) in *.
  assert (Lx : forall i, (i < x)%nat -> (map (fun j => a (Z.of_nat j)) (seq 0 x)) !! i = Some (a (Z.of_nat i))).
  { intros i Hi. change (map ?f ?l) with (f <$> l). rewrite list_lookup_fmap, lookup_seq_lt by lia. done. }
  assert (Ly : forall i, (i < y)%nat -> (map (fun j => b (m + 1 + Z.of_nat j)) (seq 0 y)) !! i = Some (b (m + 1 + Z.of_nat i))).
  { intros i Hi. change (map ?f ?l) with (f <$> l). rewrite list_lookup_fmap, lookup_seq_lt by lia. done. }
  assert (N1 : length (map (fun j => a (Z.of_nat j)) (seq 0 x)) = x) by (rewrite map_length, seq_length; done).
  assert (N2 : length (map (fun j => b (m + 1 + Z.of_nat j)) (seq 0 y)) = y) by (rewrite map_length, seq_length; done).
  eexists. split; [exact E|]. split; [rewrite app_length, N1, N2; lia|]. split; [|split; [|split]].
  - apply Forall_app. split; apply Forall_forall; intros s Hs; apply elem_of_list_In, in_map_iff in Hs; destruct Hs as (j&<-&Hj);
      apply in_seq in Hj; [apply Ra|apply Rb]; lia.
  - rewrite lookup_app_l by lia. rewrite Lx by lia. by rewrite <- A0.
  - rewrite last_lookup, app_length, N1, N2, lookup_app_r by lia. rewrite N1, Ly by lia. rewrite <- B0. do 2 f_equal. lia.
  - exists x. split; intros i j u v Hij Hu Hv.
    + rewrite lookup_app_l, Lx in Hu by lia. rewrite lookup_app_l, Lx in Hv by lia. injection Hu as <-. injection Hv as <-. apply Ma. lia.
    + assert (Hj : (j < x + y)%nat) by (apply lookup_lt_Some in Hv; rewrite app_length in Hv; lia).
      rewrite lookup_app_r, N1, Ly in Hu by lia. rewrite lookup_app_r, N1, Ly in Hv by lia. injection Hu as <-. injection Hv as <-. apply Mb. lia.
Qed.

(** The threshold of a collection is defined for every ratio set_gc_ratio accepts;
    with at least one collectable share it is at least 1. *)
Theorem C65_thresholds r n : is_finite r = true -> (0 <= B2R r <= 1)%R -> 0 <= n <= 2 ^ 62 ->
  exists z, grow_threshold r n = Some z /\ 0 <= z /\ (forall k, 0 <= k <= 2 ^ 53 -> k <= n -> (1 <= B2R r * IZR k)%R -> 1 <= z).
Proof.
  intros F R Hn. destruct (threshold_defined r n F R Hn) as (z&E&H0&H1). exists z. split; [done|]. split; [done|].
  intros k Hk Hkn H. apply H1. apply Rle_trans with (B2R r * IZR k)%R; [done|]. apply Rmult_le_compat_l; [lra|]. by apply rnd_int_ge.
Qed.

Lemma cache_size_ok P : 0 <= P <= 2 ^ 62 -> exists z, cache_size P = Some z /\ 0 <= z.
Proof.
  intros HP. assert (E : B2SF (literal 1 1) = SpecFloat.S754_finite false 4503599627370496 (-52)) by (vm_compute; reflexivity).
  destruct (threshold_defined (literal 1 1) P) as (z&Ez&H0&_); [|rewrite <- SF2R_B2SF, E; unfold SF2R, F2R; simpl; lra|done|by exists z].
  rewrite <- is_finite_SF_B2SF, E. done.
Qed.

(** The constructor of every manager class, called with the size of the main pool only,
    builds a manager from arguments that satisfy the hypotheses of the theorems about
    histories, if there are two variables or more and the pool has five nodes or more. *)
Theorem C65_default_manager c order P : wf_cfg c -> 2 <= Z.of_nat (nvars c) <= 2 ^ 31 - 1 -> 5 <= P <= 2 ^ 62 -> is_order (nvars c) order ->
  exists p, cargs_ok c true p /\ ca_order p = order /\ ca_main p = P /\ ca_extra p = P / 2 /\
    forall s0, construct_sized c order P (default_extra P) s0 = new_manager c p s0.
Proof.
  intros Hc HV HP HO. set (mixed := match c_fixed c with None => true | Some _ => false end).
  destruct (C65_table_sizes (Z.of_nat (nvars c)) P mixed HV ltac:(lia)) as (l&El&Ll&Fl&_).
  destruct (cache_size_ok P ltac:(lia)) as (cc&Ec&Hcc).
  exists (CArgs order P (default_extra P) cc l (by_ratio gc_ratio) (by_ratio (literal 1 1))).
  assert (X : default_extra P = P / 2) by (unfold default_extra; apply Z.quot_div_nonneg; lia).
  split; [|split; [done|split; [done|split; [exact X|]]]].
  - constructor; cbn [ca_order ca_main ca_extra ca_caps ca_gcthr]; [done|lia|lia|rewrite X; apply Z.div_pos; lia|].
    intros _. split; [rewrite X; apply Z.div_le_lower_bound; lia|]. intros n Hn. unfold by_ratio.
    destruct (Z.ltb_spec (2 ^ 62) n); [lia|]. destruct gc_ratio_range as [F R].
    destruct (C65_thresholds gc_ratio n F ltac:(lra) ltac:(lia)) as (z&E&_&Hz). rewrite E. apply (Hz 5); [lia|lia|lra].
  - intros s0. unfold construct_sized, new_manager. cbv zeta. fold mixed. by rewrite Ec, El.
Qed.

(** so it succeeds and starts a history *)
Theorem C65_default_history c opsem order P s0 : wf_cfg c -> 2 <= Z.of_nat (nvars c) <= 2 ^ 31 - 1 -> 5 <= P <= 2 ^ 62 -> is_order (nvars c) order ->
  exists p s, construct_sized c order P (default_extra P) s0 = Ok tt s /\ history c opsem true p [] s ∅ (no_objects p).
Proof.
  intros Hc HV HP HO. destruct (C65_default_manager c order P Hc HV HP HO) as (p&Op&_&_&_&E).
  destruct (new_safe c true p s0 Op) as [s Es]. exists p, s. rewrite E. split; [done|]. by eapply H_new.
Qed.

(** A manager with one variable: 0.0 / 0.0 is converted to an integer. *)
Theorem C65_one_variable_refuted P mixed : table_sizes 1 P mixed = None.
Proof.
  unfold table_sizes, size_before. set (q := peak_count P). clearbody q.
  assert (E : B2SF (peak_position 1) = SpecFloat.S754_zero false) by (vm_compute; reflexivity).
  assert (Ez : B2SF (b64_of_Z 0) = SpecFloat.S754_zero false) by (vm_compute; reflexivity).
  set (x := peak_position 1) in *. clearbody x. destruct x as [[]| | |]; try discriminate E.
  change (b64_to_int32 (B754_zero false)) with (Some 0). cbn [Z.add Z.to_nat Pos.to_nat].
  change (Z.to_nat 1) with 1%nat. cbn [add_tables].
  set (y := b64_of_Z 0) in *. clearbody y. destruct y as [[]| | |]; try discriminate Ez. by destruct q.
Qed.

(** A manager of mixed domains without variables reads domains_[0]; one of a fixed domain
    gets a table for no variable. *)
Theorem C65_no_variable_refuted : exists P,
  table_sizes 0 P true = None /\ table_sizes 0 P false = Some [0].
Proof. exists 1000. by vm_compute. Qed.

(** The largest pool size converts to 2^63, which is no int64. *)
Theorem C65_largest_pool_refuted : cache_size max64 = None.
Proof. by vm_compute. Qed.

(** The sizes of ten tables, by computation *)
Example C65_table_sizes_case : table_sizes 10 10000 false = Some [0; 78; 156; 234; 312; 391; 469; 383; 191; 0].
Proof. by vm_compute. Qed.

Example C65_thresholds_case : map (grow_threshold gc_ratio) [4; 5; 9; 10; 1000; 2 ^ 62] = [Some 0; Some 1; Some 1; Some 2; Some 200; Some (922337203685477632)].
Proof. vm_compute. reflexivity. Qed.

Print Assumptions C65_table_sizes.
Print Assumptions C65_thresholds.
Print Assumptions C65_default_manager.
Print Assumptions C65_default_history.
Print Assumptions C65_one_variable_refuted.
Print Assumptions C65_no_variable_refuted.
Print Assumptions C65_largest_pool_refuted.
