(** * Lemmas about PLA files *)

From stdpp Require Import list sets.
From Coq Require Import ZArith Lia Ascii.
From Verif Require Import Pla PlaSpec.

Local Open Scope Z_scope.

(** ** bool_cube *)

Record cube_ok (n : nat) (b : bool_cube) : Prop := {
  ck_size : bc_size b = Z.of_nat n;
  ck_len : length (bc_values b) = (n / 4 + 1)%nat
}.

Lemma quot4 i : 0 <= i -> Z.quot i 4 = i / 4.
Proof. intros. apply Z.quot_div_nonneg; lia. Qed.
Lemma rem4 i : 0 <= i -> Z.rem i 4 = i mod 4.
Proof. intros. apply Z.rem_mod_nonneg; lia. Qed.

Lemma new_cube_ok n : cube_ok n (new_cube (Z.of_nat n)).
Proof.
  constructor; [done|]. unfold new_cube. cbn [bc_values]. rewrite replicate_length, quot4 by lia.
  assert (n / 4 = Z.to_nat (Z.of_nat n / 4))%nat.
  { rewrite <- (Nat2Z.id (n / 4)). f_equal. by rewrite Nat2Z.inj_div. }
  pose proof (Z.div_pos (Z.of_nat n) 4 ltac:(lia) ltac:(lia)). rewrite H. lia.
Qed.

Lemma cube_index n (b : bool_cube) i : cube_ok n b -> 0 <= i < Z.of_nat n ->
  (0 <=? i / 4) && (i / 4 <? Z.of_nat (length (bc_values b))) = true /\
  exists y, bc_values b !! Z.to_nat (i / 4) = Some y.
Proof.
  intros [Hs Hl] Hi. pose proof (Z.div_pos i 4 ltac:(lia) ltac:(lia)).
  assert (i / 4 < Z.of_nat (length (bc_values b))).
  { rewrite Hl, Nat2Z.inj_add, Nat2Z.inj_div.
    pose proof (Z.div_le_mono i (Z.of_nat n) 4 ltac:(lia) ltac:(lia)). lia. }
  split; [lia|]. apply lookup_lt_is_Some. lia.
Qed.

Definition legal (v : Z) : Prop := v = 0 \/ v = 1 \/ v = 3.

Lemma cube_set_ok n b i v : cube_ok n b -> 0 <= i < Z.of_nat n -> legal v ->
  exists b', cube_set b i v = Some b' /\ cube_ok n b' /\
    forall j, 0 <= j < Z.of_nat n -> cube_get b' j = if j =? i then Some v else cube_get b j.
Proof.
  intros H Hi Hv. pose proof H as [Hs Hl]. destruct (cube_index n b i H Hi) as (E&y&Ey).
  unfold cube_set. rewrite quot4, rem4, E, Ey by lia. unfold DontCare.
  assert (((v =? 0) || (v =? 1) || (v =? 3)) = true) as -> by (unfold legal in Hv; lia).
  assert (Z.land v 3 = v) as -> by (by destruct Hv as [->|[->| ->]]).
  simpl. eexists. split; [reflexivity|]. split.
  - constructor; simpl; [done|]. by rewrite insert_length.
  - intros j Hj. destruct (cube_index n b j H Hj) as (E'&y'&Ey').
    unfold cube_get. simpl. rewrite quot4, rem4, insert_length, E' by lia.
    pose proof (Z.mod_pos_bound i 4 ltac:(lia)). pose proof (Z.mod_pos_bound j 4 ltac:(lia)).
    pose proof (Z.div_mod i 4 ltac:(lia)). pose proof (Z.div_mod j 4 ltac:(lia)).
    pose proof (Z.div_pos i 4 ltac:(lia) ltac:(lia)). pose proof (Z.div_pos j 4 ltac:(lia) ltac:(lia)).
    destruct (decide (i / 4 = j / 4)) as [Eq|Ne].
    + rewrite <- Eq, list_lookup_insert by lia. rewrite Eq, Ey' in *. injection Ey as ->.
      destruct (Z.eqb_spec j i) as [->|Nij].
      * assert (i mod 4 = 0 \/ i mod 4 = 1 \/ i mod 4 = 2 \/ i mod 4 = 3) as [->|[->|[->| ->]]] by lia; done.
      * assert (i mod 4 <> j mod 4) by lia.
        assert (i mod 4 = 0 \/ i mod 4 = 1 \/ i mod 4 = 2 \/ i mod 4 = 3) as [X|[X|[X|X]]] by lia;
        assert (j mod 4 = 0 \/ j mod 4 = 1 \/ j mod 4 = 2 \/ j mod 4 = 3) as [Y|[Y|[Y|Y]]] by lia;
        rewrite X, Y in *; try done; lia.
    + rewrite list_lookup_insert_ne by lia. destruct (Z.eqb_spec j i) as [->|Nij]; [lia|]. done.
Qed.

Lemma new_cube_get n j : 0 <= j < Z.of_nat n -> cube_get (new_cube (Z.of_nat n)) j = Some 0.
Proof.
  intros Hj. destruct (cube_index n _ j (new_cube_ok n) Hj) as (E&y&Ey).
  unfold cube_get. rewrite quot4, rem4, E, Ey by lia. simpl in Ey. apply lookup_replicate in Ey as [-> _].
  pose proof (Z.mod_pos_bound j 4 ltac:(lia)).
  assert (j mod 4 = 0 \/ j mod 4 = 1 \/ j mod 4 = 2 \/ j mod 4 = 3) as [->|[->|[->| ->]]] by lia; done.
Qed.

(** the numbers that stand for the values of a cube *)
Definition code (v : option bool) : Z := match v with Some true => 1 | Some false => 0 | None => 3 end.

(** the object represents the list of values *)
Record cube_is (b : bool_cube) (cs : list (option bool)) : Prop := {
  ci_size : bc_size b = Z.of_nat (length cs);
  ci_get : forall i v, cs !! i = Some v -> cube_get b (Z.of_nat i) = Some (code v)
}.

(** ** Characters *)

Lemma isspace_spec x : isspace x = true <-> is_space x.
Proof.
  split.
  - destruct x as [[][][][][][][][]]; try discriminate; intros _; unfold is_space; tauto.
  - by intros [->|[->|[->|[->|[->| ->]]]]].
Qed.
Lemma isspace_false x : isspace x = false <-> ~ is_space x.
Proof. rewrite <- isspace_spec. by destruct (isspace x). Qed.

Lemma skip_app w r : blank w -> unspaced r -> skip_spaces (w ++ r) = r.
Proof.
  induction 1 as [|x w Hx Hw IH]; intros Hr; simpl.
  - destruct r as [|y r]; [done|]. simpl in *. by rewrite (proj2 (isspace_false y) Hr).
  - rewrite (proj2 (isspace_spec x) Hx). auto.
Qed.
Lemma skip_split t : exists w, t = w ++ skip_spaces t /\ blank w /\ unspaced (skip_spaces t).
Proof.
  induction t as [|x t (w&E&Hw&Hu)]; simpl; [by exists []; repeat constructor|].
  destruct (isspace x) eqn:X.
  - exists (x :: w). simpl. rewrite <- E. split_and!; [done|constructor; [by apply isspace_spec|done]|done].
  - exists []. split_and!; [done|constructor|]. simpl. by apply isspace_false.
Qed.
Lemma word_app w r : solid w -> spaced r -> word (w ++ r) = w /\ after_word (w ++ r) = r.
Proof.
  induction 1 as [|x w Hx Hw IH]; intros Hr; simpl.
  - destruct r as [|y r]; [done|]. simpl in *. by rewrite (proj2 (isspace_spec y) Hr).
  - rewrite (proj2 (isspace_false x) Hx). destruct (IH Hr) as [-> ->]. done.
Qed.
Lemma word_split t : t = word t ++ after_word t /\ solid (word t) /\ spaced (after_word t).
Proof.
  induction t as [|x t (E&Hw&Hs)]; simpl; [by repeat constructor|]. destruct (isspace x) eqn:X; simpl.
  - split_and!; [done|constructor|by apply isspace_spec].
  - rewrite <- E. split_and!; [done|constructor; [by apply isspace_false|done]|done].
Qed.

Lemma blank_unspaced w r : blank w -> unspaced (w ++ r) -> w = [].
Proof. destruct 1; [done|]. by simpl. Qed.
Lemma blank_skip t : blank t <-> skip_spaces t = [].
Proof.
  split.
  - intros H. rewrite <- (app_nil_r t). by apply skip_app.
  - intros H. destruct (skip_split t) as (w&E&Hw&_). by rewrite E, H, app_nil_r.
Qed.
Lemma skip_cons t x r : skip_spaces t = x :: r <-> exists w, t = w ++ x :: r /\ blank w /\ ~ is_space x.
Proof.
  split.
  - intros H. destruct (skip_split t) as (w&E&Hw&Hu). rewrite H in E, Hu. by exists w.
  - intros (w&->&Hw&Hx). by apply skip_app.
Qed.
Lemma blank_rev w : blank w -> blank (rev w).
Proof. unfold blank. intros H. rewrite Forall_forall in *. intros x Hx. apply H. apply elem_of_list_In. apply in_rev. by apply elem_of_list_In. Qed.

Lemma trim_app v w : blank w -> unspaced (rev v) -> trim_end (v ++ w) = v.
Proof.
  intros Hw Hv. unfold trim_end. rewrite rev_app_distr, skip_app; [|by apply blank_rev|done]. apply rev_involutive.
Qed.
Lemma trim_split v : exists w, v = trim_end v ++ w /\ blank w /\ unspaced (rev (trim_end v)).
Proof.
  unfold trim_end. destruct (skip_split (rev v)) as (w&E&Hw&Hu). exists (rev w). split_and!.
  - rewrite <- rev_app_distr, <- E. by rewrite rev_involutive.
  - by apply blank_rev.
  - by rewrite rev_involutive.
Qed.

(** ** Lines *)


Lemma getlines_app l : line_feed ∉ l -> forall acc t,
  getlines (l ++ line_feed :: t) acc = let (ls, b) := getlines t [] in ((rev acc ++ l) :: ls, b).
Proof.
  induction l as [|x l IH]; intros Hl acc t.
  - simpl. change newline with line_feed. destruct (ascii_dec line_feed line_feed); [|done]. by rewrite app_nil_r.
  - apply not_elem_of_cons in Hl as [Hx Hl].
    simpl. change newline with line_feed. destruct (ascii_dec x line_feed) as [->|]; [done|].
    rewrite IH by done. simpl. destruct (getlines t []). by rewrite <- app_assoc.
Qed.
Lemma getlines_last l : line_feed ∉ l -> forall acc, (acc <> [] \/ l <> []) ->
  getlines l acc = ([rev acc ++ l], false).
Proof.
  induction l as [|x l IH]; intros Hl acc H.
  - simpl. destruct acc; [by destruct H|]. by rewrite app_nil_r.
  - apply not_elem_of_cons in Hl as [Hx Hl].
    simpl. change newline with line_feed. destruct (ascii_dec x line_feed) as [->|]; [done|].
    rewrite IH by (done || by left). simpl. by rewrite <- app_assoc.
Qed.
Lemma getlines_unlines ls t : Forall (fun l => line_feed ∉ l) ls ->
  getlines (unlines ls ++ t) [] = let (ls', b) := getlines t [] in (ls ++ ls', b).
Proof.
  induction 1 as [|l ls Hl _ IH]; simpl; [by destruct (getlines t [])|].
  unfold unlines in *. simpl. rewrite <- !app_assoc. simpl. rewrite getlines_app by done. rewrite IH.
  by destruct (getlines t []).
Qed.
Lemma getlines_spec t ls b : lines_of t ls b <-> getlines t [] = (ls, b).
Proof.
  split.
  - intros [F H]. destruct b.
    + rewrite H, <- (app_nil_r (unlines ls)), getlines_unlines by done. simpl. by rewrite app_nil_r.
    + destruct H as (ls'&l&->&Hl&->). apply Forall_app in F as [F1 F2]. inversion F2; subst.
      rewrite getlines_unlines by done. rewrite getlines_last by auto. done.
  - assert (G : forall t acc ls b, line_feed ∉ acc -> getlines t acc = (ls, b) -> lines_of (rev acc ++ t) ls b).
    { clear. induction t as [|x t IH]; intros acc ls b Ha E; simpl in E.
      - destruct acc as [|y acc]; simplify_eq; [by split|]. split.
        + constructor; [|done]. intros X. apply Ha. apply elem_of_list_In. apply in_rev. by apply elem_of_list_In.
        + exists [], (rev (y :: acc)). split_and!; [done| |by rewrite app_nil_r]. intros X. apply (f_equal length) in X.
          rewrite rev_length in X. done.
      - change newline with line_feed in E. destruct (ascii_dec x line_feed) as [->|Hx].
        + destruct (getlines t []) as [ls' b'] eqn:E'. simplify_eq. destruct (IH [] ls' b (not_elem_of_nil _) E') as [F H].
          simpl in H. split.
          * constructor; [|done]. intros X. apply Ha. apply elem_of_list_In. apply in_rev. by apply elem_of_list_In.
          * destruct b.
            -- rewrite H. unfold unlines. simpl. by rewrite <- app_assoc.
            -- destruct H as (l1&l&->&Hl&->). exists (rev acc :: l1), l. split_and!; [done|done|].
               unfold unlines. simpl. by rewrite <- !app_assoc.
        + apply IH in E; [|apply not_elem_of_cons; split; [congruence|done]]. simpl in E. by rewrite <- app_assoc in E. }
    apply G. apply not_elem_of_nil.
Qed.

(** ** Numbers *)

Lemma digit_spec x d : digit x = Some d <-> exists n : nat, d = Z.of_nat n /\ (n < 10)%nat /\ x = digit_char n.
Proof.
  split.
  - unfold digit. intros H. case_match eqn:E; [|done]. simplify_eq.
    exists (N.to_nat (N_of_ascii x) - 48)%nat. split_and!; [lia|lia|]. unfold digit_char.
    replace (48 + _)%nat with (N.to_nat (N_of_ascii x)) by lia. fold (nat_of_ascii x). by rewrite ascii_nat_embedding.
  - intros (n&->&Hn&->). do 10 (destruct n as [|n]; [done|]). lia.
Qed.

Lemma digits_app ds : Forall (fun d => (d < 10)%nat) ds -> forall acc,
  digits acc (map digit_char ds) = Some (acc * 10 ^ Z.of_nat (length ds) + decimal ds).
Proof.
  induction 1 as [|d ds Hd _ IH]; intros acc; cbn [map digits length decimal].
  - f_equal. change (10 ^ Z.of_nat 0) with 1. lia.
  - assert (digit (digit_char d) = Some (Z.of_nat d)) as -> by (apply digit_spec; eauto).
    rewrite IH. f_equal. rewrite Nat2Z.inj_succ, Z.pow_succ_r by lia. ring.
Qed.
Lemma digits_inv t : forall acc v, digits acc t = Some v ->
  exists ds, Forall (fun d => (d < 10)%nat) ds /\ t = map digit_char ds.
Proof.
  induction t as [|x t IH]; intros acc v H; simpl in H; [by exists []|].
  destruct (digit x) as [d|] eqn:D; [|done]. apply digit_spec in D as (n&->&Hn&->).
  destruct (IH _ _ H) as (ds&F&->). exists (n :: ds). split; [by constructor|done].
Qed.

Lemma digit_minus d : (d < 10)%nat -> digit_char d <> "-"%char.
Proof. intros H. do 10 (destruct d as [|d]; [done|]). lia. Qed.

Lemma parse_spec lo hi t v : parse lo hi t = Some v <-> numeral t v /\ lo <= v <= hi.
Proof.
  assert (X : forall w, numeral t w <-> match t with
     | [] => None
     | x :: r => if ascii_dec x "-"%char then match r with [] => None | _ => option_map Z.opp (digits 0 r) end
                 else digits 0 t end = Some w).
  { intros w. split.
    - intros (ds&Hne&F&[[-> ->]|[-> ->]]).
      + destruct ds as [|d ds]; [done|]. cbn [map]. destruct (ascii_dec (digit_char d) "-"%char) as [E|_].
        { inversion F; subst. by apply digit_minus in E. }
        change (digit_char d :: map digit_char ds) with (map digit_char (d :: ds)).
        rewrite digits_app by done. f_equal.
      + destruct (ascii_dec _ _); [|done]. rewrite digits_app by done.
        destruct ds as [|d ds]; [done|]. reflexivity.
    - destruct t as [|x r]; [done|]. destruct (ascii_dec x "-"%char) as [->|Hx].
      + destruct r as [|y r]; [done|]. intros H. destruct (digits 0 (y :: r)) as [u|] eqn:D; [|done].
        destruct (digits_inv _ _ _ D) as (ds&F&E). exists ds. split_and!; [by destruct ds|done|].
        right. rewrite E in D. rewrite digits_app in D by done. simplify_eq. simpl in H. simplify_eq.
        rewrite E. split; [done|]. lia.
      + intros D. destruct (digits_inv _ _ _ D) as (ds&F&E). exists ds. split_and!; [by destruct ds|done|].
        left. rewrite E in D. rewrite digits_app in D by done. simplify_eq. split; [done|]. lia. }
  unfold parse. revert X. generalize (match t with
     | [] => None
     | x :: r => if ascii_dec x "-"%char then match r with [] => None | _ => option_map Z.opp (digits 0 r) end
                 else digits 0 t end). intros u X. destruct u as [w|].
  - assert (Hw : numeral t w) by by apply X. split.
    + intros H. case_match eqn:C; [|done]. simplify_eq. split; [done|lia].
    + intros [H R]. apply X in H. simplify_eq.
      assert ((lo <=? v) && (v <=? hi) = true) as -> by lia. done.
  - split; [done|]. intros [H _]. apply X in H. congruence.
Qed.

(** ** The header *)

Fixpoint first_val (k : list ascii) (os : options) : option (list ascii) :=
  match os with
  | [] => None
  | (k', v) :: os => if text_dec k' k then Some v else first_val k os
  end.

Lemma given_spec k os v : given k os v <-> first_val k os = Some v.
Proof.
  split.
  - induction 1 as [|k' v' v os Hk H IH]; simpl; [by destruct (text_dec k k)|]. by destruct (text_dec k' k).
  - induction os as [|[k' v'] os IH]; simpl; [done|]. destruct (text_dec k' k) as [->|Hk]; intros H; [simplify_eq; constructor|].
    constructor; auto.
Qed.
Lemma not_given_spec k os : not_given k os <-> first_val k os = None.
Proof.
  split.
  - induction os as [|[k' v'] os IH]; simpl; [done|]. intros H. destruct (text_dec k' k) as [->|Hk].
    + exfalso. apply (H v'). constructor.
    + apply IH. intros v Hv. apply (H v). by constructor.
  - induction os as [|[k' v'] os IH]; simpl; intros H v Hv; [by apply elem_of_nil in Hv|].
    destruct (text_dec k' k) as [->|Hk]; [done|]. apply elem_of_cons in Hv as [Hv|Hv]; [by simplify_eq|]. by eapply IH.
Qed.

Definition opt_or {X} (a b : option X) : option X := match a with Some _ => a | None => b end.

Lemma opt_find_emplace k k' v o : opt_find k (opt_emplace k' v o) = opt_or (opt_find k o) (if text_dec k' k then Some v else None).
Proof.
  unfold opt_emplace. destruct (opt_find k' o) as [w|] eqn:E.
  - destruct (text_dec k' k) as [Q|Q]; [rewrite Q in E; by rewrite E|]. by destruct (opt_find k o).
  - simpl. destruct (text_dec k k') as [Q|N]; destruct (text_dec k' k) as [Q'|N'].
    + rewrite Q, E. done.
    + congruence.
    + congruence.
    + by destruct (opt_find k o).
Qed.

Lemma dot_solid : ~ is_space ".".
Proof. intros H. by apply isspace_spec in H. Qed.
Lemma hash_solid : ~ is_space "#".
Proof. intros H. by apply isspace_spec in H. Qed.

Lemma option_line_read l k v : option_line l k v ->
  exists r, skip_spaces l = "."%char :: r /\ word ("."%char :: r) = k /\
    trim_end (match after_word ("."%char :: r) with [] => [] | _ :: r => skip_spaces r end) = v.
Proof.
  intros (w1&w2&w3&k'&->&Ek&H1&Hk&H2&H3&Hv&Hv'&Hne&He).
  exists (k' ++ w2 ++ v ++ w3). rewrite app_comm_cons, <- Ek.
  assert (Hs : spaced (w2 ++ v ++ w3)).
  { destruct w2 as [|x w2]; [|by inversion H2]. destruct v as [|y v]; [|by destruct Hne]. by rewrite He. }
  destruct (word_app k (w2 ++ v ++ w3) Hk Hs) as [-> ->].
  assert (skip_spaces (w1 ++ k ++ w2 ++ v ++ w3) = k ++ w2 ++ v ++ w3) as ->.
  { apply skip_app; [done|]. rewrite Ek. simpl. apply dot_solid. }
  split_and!; [done|done|]. destruct v as [|y v].
  - rewrite (He eq_refl). rewrite !app_nil_r. destruct w2 as [|x w2]; [done|]. inversion H2; subst.
    by rewrite (proj1 (blank_skip w2)).
  - destruct w2 as [|x w2]; [by destruct Hne|]. inversion H2; subst. simpl app at 1. cbn iota.
    change (skip_spaces (w2 ++ (y :: v) ++ w3)) with (skip_spaces (w2 ++ ((y :: v) ++ w3))).
    rewrite skip_app; [|done|done]. by apply (trim_app (y :: v)).
Qed.

Lemma option_line_of l r : skip_spaces l = "."%char :: r ->
  option_line l (word ("."%char :: r)) (trim_end (match after_word ("."%char :: r) with [] => [] | _ :: r => skip_spaces r end)).
Proof.
  intros H. apply skip_cons in H as (w1&->&H1&_). set (f := "."%char :: r).
  destruct (word_split f) as (E&Hw&Hs). destruct (after_word f) as [|x a] eqn:Ea.
  - exists w1, [], [], (word r). rewrite !app_nil_r in *. change (trim_end []) with (@nil ascii). simpl app at 2.
    split; [by f_equal|]. split_and!; try done; constructor.
  - destruct (skip_split a) as (w2&E2&H2&Hu). set (b := skip_spaces a) in *.
    destruct (trim_split b) as (w3&E3&H3&Hr).
    destruct (trim_end b) as [|y v] eqn:Ev.
    + exists w1, (x :: w2 ++ w3), [], (word r). rewrite app_nil_r. simpl in E3.
      assert (w3 = []) as -> by (apply (blank_unspaced _ []); [done|by rewrite app_nil_r, <- E3]).
      rewrite app_nil_r.
      split; [rewrite E at 1; rewrite E2, E3; simpl; by rewrite ?app_nil_r|].
      split_and!; try done; by constructor.
    + exists w1, (x :: w2), w3, (word r).
      split; [rewrite E at 1; rewrite E2, E3; done|].
      split_and!; try done; try (constructor; done).
      rewrite E3 in Hu. exact Hu.
Qed.

Lemma header_line_spec l o o' : header_line l o = Some o' <->
  (blank l /\ o' = o) \/ (comment_line l /\ o' = o) \/ exists k v, option_line l k v /\ o' = opt_emplace k v o.
Proof.
  unfold header_line. split.
  - destruct (skip_spaces l) as [|x r] eqn:E.
    + intros [= <-]. left. split; [by apply blank_skip|done].
    + destruct (ascii_dec x "#"%char) as [->|N1].
      { intros [= <-]. right. left. split; [|done]. apply skip_cons in E as (w&->&Hw&_). by exists w, r. }
      destruct (ascii_dec x "."%char) as [->|N2]; [|done].
      intros [= <-]. right. right. eexists _, _. split; [by apply option_line_of|done].
  - intros [[H ->]|[[(w&r&->&Hw) ->]|(k&v&H&->)]].
    + by rewrite (proj1 (blank_skip l)).
    + rewrite skip_app; [done|done|apply hash_solid].
    + destruct (option_line_read l k v H) as (r&->&E1&E2). destruct (ascii_dec _ _); [done|].
      destruct (ascii_dec _ _); [|done]. by rewrite E1, E2.
Qed.

Lemma spells_solid x v : spells x v -> ~ is_space x /\ x <> "."%char /\ x <> "#"%char.
Proof.
  intros H. split; [intros X; apply isspace_spec in X|]; destruct v as [[]|]; simpl in H;
    (destruct H as [->| ->] || subst x); done.
Qed.

Lemma spells_solid_all t cs : Forall2 spells t cs -> solid t.
Proof. induction 1; constructor; [by eapply spells_solid|done]. Qed.

Lemma cube_line_read l cs fs : cube_line l cs fs -> exists x t1 s t2,
  skip_spaces l = x :: t1 ++ s /\ x <> "."%char /\ x <> "#"%char /\ word (x :: t1 ++ s) = x :: t1 /\
  after_word (x :: t1 ++ s) = s /\ s <> [] /\ word (skip_spaces (tail s)) = t2 /\
  Forall2 spells (x :: t1) cs /\ Forall2 spells t2 fs.
Proof.
  intros (w1&t1&w2&t2&r&->&H1&H2&Hne&Hs&He&Ht&F1&F2). destruct t1 as [|x t1]; [done|].
  exists x, t1, (w2 ++ t2 ++ r), t2. pose proof (spells_solid_all _ _ F1) as S1. pose proof (spells_solid_all _ _ F2) as S2.
  inversion F1 as [|? y ? ? Hx]; subst. destruct (spells_solid _ _ Hx) as (A&B&C).
  assert (Hsp : spaced (w2 ++ t2 ++ r)) by (destruct w2; [done|by inversion H2]).
  destruct (word_app (x :: t1) _ S1 Hsp) as [E1 E2]. simpl app in E1, E2.
  split_and!; try done.
  - by apply skip_app.
  - by destruct w2.
  - destruct w2 as [|z w2]; [done|]. inversion H2; subst. simpl. rewrite skip_app; [|done|].
    + by apply word_app.
    + destruct t2 as [|u t2]; [by rewrite He|]. simpl. by inversion S2.
Qed.

Lemma cube_line_of l x f t1 cs fs : skip_spaces l = x :: f -> word (x :: f) = t1 -> after_word (x :: f) <> [] ->
  Forall2 spells t1 cs -> Forall2 spells (word (skip_spaces (tail (after_word (x :: f))))) fs -> cube_line l cs fs.
Proof.
  intros E1 E2 Hne F1 F2. apply skip_cons in E1 as (w1&->&H1&Hx).
  destruct (word_split (x :: f)) as (E&Hw&Hs). rewrite E2 in *. destruct (after_word (x :: f)) as [|z s] eqn:Ea; [done|].
  simpl tail in F2. destruct (skip_split s) as (w2&E3&H2&Hu). destruct (word_split (skip_spaces s)) as (E4&H4&H5).
  exists w1, t1, (z :: w2), (word (skip_spaces s)), (after_word (skip_spaces s)). split_and!; try done.
  - rewrite E. f_equal. f_equal. simpl. f_equal. rewrite E3 at 1. by rewrite E4 at 1.
  - by constructor.
  - intros E5. rewrite E5 in E4. simpl in E4. destruct (after_word (skip_spaces s)) as [|u r] eqn:Eu; [done|].
    rewrite E4 in Hu. simpl in Hu, H5. done.
  - intros ->. simpl in E. rewrite <- E in Hs. simpl in Hs. done.
Qed.

Lemma cube_line_header l cs fs o : cube_line l cs fs -> header_line l o = None.
Proof.
  intros H. destruct (cube_line_read _ _ _ H) as (x&t1&s&t2&E&A&B&_). unfold header_line. rewrite E.
  destruct (ascii_dec x "#"%char); [done|]. by destruct (ascii_dec x "."%char).
Qed.

(** the table of options after the options [os] were found one after the other *)
Definition table_of (o o' : options) (os : options) : Prop :=
  forall k, opt_find k o' = opt_or (opt_find k o) (first_val k os).

Lemma table_cons k v o o' os : table_of (opt_emplace k v o) o' os -> table_of o o' ((k, v) :: os).
Proof.
  intros H k'. rewrite H, opt_find_emplace. simpl. destruct (opt_find k' o); simpl; [done|].
  by destruct (text_dec k k').
Qed.

Lemma last_cons' {X} (x : X) l : last (x :: l) = Some (default x (last l)).
Proof. rewrite last_cons. by destruct (last l). Qed.

Lemma read_options_of h os : header h os -> forall d erased line o, starts_with_cube d ->
  exists o', table_of o o' os /\
    read_options (h ++ d) erased line o =
      match d with
      | [] => (o', if erased then [] else default line (last h), [])
      | l :: d => (o', l, d)
      end.
Proof.
  assert (N : forall o, table_of o o []) by (intros o k; by destruct (opt_find k o)).
  induction 1 as [|l h os Hl H IH|l h os Hl H IH|l h k v os Hl H IH]; intros d erased line o Hd; simpl.
  - exists o. split; [done|]. destruct d as [|l d]; [done|]. destruct Hd as (cs&fs&Hl). simpl.
    by rewrite (cube_line_header l cs fs o Hl).
  - rewrite (proj2 (header_line_spec l o o)) by auto. destruct (IH d erased l o Hd) as (o'&T&E).
    exists o'. split; [done|]. rewrite E. destruct d; [|done]. by rewrite last_cons'.
  - rewrite (proj2 (header_line_spec l o o)) by auto. destruct (IH d erased l o Hd) as (o'&T&E).
    exists o'. split; [done|]. rewrite E. destruct d; [|done]. by rewrite last_cons'.
  - rewrite (proj2 (header_line_spec l o (opt_emplace k v o))) by (right; right; eauto).
    destruct (IH d erased l (opt_emplace k v o) Hd) as (o'&T&E).
    exists o'. split; [by apply table_cons|]. rewrite E. destruct d; [|done]. by rewrite last_cons'.
Qed.

Lemma read_options_inv ls : forall erased line o o' line' rest,
  read_options ls erased line o = (o', line', rest) ->
  exists h os, header h os /\ table_of o o' os /\
    ((ls = h /\ rest = [] /\ line' = if erased then [] else default line (last h)) \/
     (ls = h ++ line' :: rest /\ forall o, header_line line' o = None)).
Proof.
  assert (N : forall o, table_of o o []) by (intros o k; by destruct (opt_find k o)).
  induction ls as [|l ls IH]; intros erased line o o' line' rest E; simpl in E.
  - simplify_eq. exists [], []. split_and!; [constructor|done|]. by left.
  - destruct (header_line l o) as [o1|] eqn:H.
    + destruct (IH _ _ _ _ _ _ E) as (h&os&Hh&T&D).
      apply header_line_spec in H as [[Hl ->]|[[Hl ->]|(k&v&Hl&->)]].
      * exists (l :: h), os. split_and!; [by constructor|done|]. destruct D as [(->&->&->)|[-> D]]; [left|by right].
        by rewrite last_cons'.
      * exists (l :: h), os. split_and!; [by constructor|done|]. destruct D as [(->&->&->)|[-> D]]; [left|by right].
        by rewrite last_cons'.
      * exists (l :: h), ((k, v) :: os). split_and!; [by constructor|by apply table_cons|].
        destruct D as [(->&->&->)|[-> D]]; [left|by right]. by rewrite last_cons'.
    + simplify_eq. exists [], []. split_and!; [constructor|done|]. right. split; [done|]. intros o2.
      revert H. unfold header_line. destruct (skip_spaces line'); [done|]. destruct (ascii_dec _ _); [done|].
      by destruct (ascii_dec _ _).
Qed.

(** ** Cubes *)

Lemma trit_spec x v : trit x = Some v <-> exists o, spells x o /\ v = code o.
Proof.
  unfold trit. split.
  - intros H. destruct (ascii_dec x "0"%char) as [->|]; [simplify_eq; by exists (Some false)|].
    destruct (ascii_dec x "1"%char) as [->|]; [simplify_eq; by exists (Some true)|].
    destruct (ascii_dec x "~"%char) as [->|]; [simplify_eq; exists None; simpl; auto|].
    destruct (ascii_dec x "-"%char) as [->|]; [simplify_eq; exists None; simpl; auto|]. done.
  - intros ([[]|]&H&->); simpl in H; [by subst|by subst|]. by destruct H as [->| ->].
Qed.

Lemma code_legal v : legal (code v).
Proof. unfold legal. destruct v as [[]|]; simpl; auto. Qed.

Lemma read_cube_spec n t : forall i b, cube_ok n b -> 0 <= i -> i + Z.of_nat (length t) <= Z.of_nat n ->
  (exists cs b', Forall2 spells t cs /\ read_cube i t b = LOk b' /\ cube_ok n b' /\
     forall j, 0 <= j < Z.of_nat n ->
       cube_get b' j = if (i <=? j) && (j <? i + Z.of_nat (length t))
                       then option_map code (cs !! Z.to_nat (j - i)) else cube_get b j) \/
  (read_cube i t b = LNone /\ forall cs, ~ Forall2 spells t cs).
Proof.
  induction t as [|x t IH]; intros i b Hb Hi Hn.
  - left. exists [], b. split_and!; [constructor|done|done|]. intros j Hj. change (Z.of_nat (length [])) with 0. rewrite Z.add_0_r.
    destruct (Z.leb_spec i j), (Z.ltb_spec j i); cbn [andb]; [lia|done..].
  - cbn [length] in *. rewrite Nat2Z.inj_succ in *. cbn [read_cube]. destruct (trit x) as [v|] eqn:Ev.
    + apply trit_spec in Ev as (o&Ho&->).
      destruct (cube_set_ok n b i (code o) Hb ltac:(lia) (code_legal o)) as (b1&E1&Hb1&G1). rewrite E1.
      destruct (IH (i + 1) b1 Hb1 ltac:(lia) ltac:(lia)) as [(cs&b'&F&E&Hb'&G)|[E F]]; [left|right].
      * exists (o :: cs), b'. split_and!; [by constructor|done|done|]. intros j Hj. rewrite G by done.
        destruct (Z.eq_dec j i) as [->|Nj].
        -- destruct (Z.leb_spec (i + 1) i); [lia|]. cbn [andb]. rewrite G1, Z.eqb_refl by lia.
           destruct (Z.leb_spec i i); [|lia]. destruct (Z.ltb_spec i (i + Z.succ (Z.of_nat (length t)))); [|lia].
           cbn [andb]. by rewrite Z.sub_diag.
        -- destruct (Z.leb_spec i j), (Z.leb_spec (i + 1) j); try lia; cbn [andb].
           2:{ rewrite G1 by done. by destruct (Z.eqb_spec j i). }
           destruct (Z.ltb_spec j (i + Z.succ (Z.of_nat (length t)))), (Z.ltb_spec j (i + 1 + Z.of_nat (length t))); try lia.
           ++ replace (Z.to_nat (j - i)) with (S (Z.to_nat (j - (i + 1)))) by lia. done.
           ++ rewrite G1 by done. by destruct (Z.eqb_spec j i).
      * split; [done|]. intros cs Hcs. inversion Hcs; subst. by eapply F.
    + right. split; [done|]. intros cs Hcs. inversion Hcs as [|? o ? ? Ho]; subst.
      assert (trit x = Some (code o)) by (apply trit_spec; eauto). congruence.
Qed.

Lemma read_new_cube t : 
  (exists cs b, Forall2 spells t cs /\ read_cube 0 t (new_cube (Z.of_nat (length t))) = LOk b /\ cube_is b cs) \/
  (read_cube 0 t (new_cube (Z.of_nat (length t))) = LNone /\ forall cs, ~ Forall2 spells t cs).
Proof.
  destruct (read_cube_spec (length t) t 0 _ (new_cube_ok (length t)) ltac:(lia) ltac:(lia))
    as [(cs&b&F&E&[Hs _]&G)|H]; [left|by right].
  exists cs, b. split_and!; [done|done|]. pose proof (Forall2_length _ _ _ F) as L.
  constructor; [by rewrite <- L|]. intros i v Hv.
  assert (i < length cs)%nat by by eapply lookup_lt_Some.
  rewrite G by lia. destruct (Z.leb_spec 0 (Z.of_nat i)); [|lia].
  destruct (Z.ltb_spec (Z.of_nat i) (0 + Z.of_nat (length t))); [|lia]. cbn [andb].
  by rewrite Z.sub_0_r, Nat2Z.id, Hv.
Qed.

Lemma spells_fun t cs cs' : Forall2 spells t cs -> Forall2 spells t cs' -> cs = cs'.
Proof.
  intros H. revert cs'. induction H as [|x o t cs Hx H IH]; intros cs' H'; inversion H' as [|? o' ? ? Ho]; subst; [done|].
  f_equal; [|auto]. destruct o as [[]|], o' as [[]|]; simpl in *; try done;
    repeat match goal with H : _ \/ _ |- _ => destruct H end; subst; done.
Qed.

(** the object of a line represents the values *)
Definition line_is (x : pla_line) (p : list (option bool) * list (option bool)) : Prop :=
  cube_is (pl_cube x) (fst p) /\ cube_is (pl_fvals x) (snd p).

Lemma read_data_line_spec nv nf l :
  match read_data_line nv nf l with
  | RSkip => blank l
  | REnd => dot_line l
  | RLine x => exists cs fs, cube_line l cs fs /\ Z.of_nat (length cs) = nv /\ Z.of_nat (length fs) = nf /\ line_is x (cs, fs)
  | RNone => True
  | RCrash => False
  end.
Proof.
  unfold read_data_line. destruct (skip_spaces l) as [|x f] eqn:E; [by apply blank_skip|].
  destruct (ascii_dec x "."%char) as [->|Nx].
  { apply skip_cons in E as (w&->&Hw&_). by exists w, f. }
  destruct (after_word (x :: f)) as [|z s] eqn:Ea; [done|].
  destruct ((Z.of_nat (length (word (x :: f))) =? nv) && _) eqn:C; [|done].
  assert (C1 : Z.of_nat (length (word (x :: f))) = nv) by lia.
  assert (C2 : Z.of_nat (length (word (skip_spaces s))) = nf) by lia. clear C. rewrite <- C1, <- C2.
  destruct (read_new_cube (word (x :: f))) as [(cs&b&F&->&Hb)|[-> _]]; [|done].
  destruct (read_new_cube (word (skip_spaces s))) as [(fs&b'&F'&->&Hb')|[-> _]]; [|done].
  exists cs, fs. split_and!.
  - eapply cube_line_of; [exact E|reflexivity|by rewrite Ea|done|]. by rewrite Ea.
  - by rewrite (Forall2_length _ _ _ F).
  - by rewrite (Forall2_length _ _ _ F').
  - by split.
Qed.

Lemma read_blank nv nf l : blank l -> read_data_line nv nf l = RSkip.
Proof. intros H. unfold read_data_line. by rewrite (proj1 (blank_skip l)). Qed.
Lemma read_dot nv nf l : dot_line l -> read_data_line nv nf l = REnd.
Proof. intros (w&r&->&Hw). unfold read_data_line. rewrite skip_app; [done|done|apply dot_solid]. Qed.
Lemma read_cube_line l cs fs : cube_line l cs fs ->
  exists x, read_data_line (Z.of_nat (length cs)) (Z.of_nat (length fs)) l = RLine x /\ line_is x (cs, fs).
Proof.
  intros H. destruct (cube_line_read _ _ _ H) as (x&t1&s&t2&E&A&B&E1&E2&Hs&E3&F1&F2).
  unfold read_data_line. rewrite E. destruct (ascii_dec x "."%char); [done|]. rewrite E1, E2.
  destruct s as [|z s]; [done|]. simpl tail in E3. rewrite E3.
  rewrite <- (Forall2_length _ _ _ F1), <- (Forall2_length _ _ _ F2), !Z.eqb_refl. cbn [andb].
  destruct (read_new_cube (x :: t1)) as [(cs'&b&F&->&Hb)|[_ N]]; [|by destruct (N cs)].
  destruct (read_new_cube t2) as [(fs'&b'&F'&->&Hb')|[_ N]]; [|by destruct (N fs)].
  rewrite (spells_fun _ _ _ F1 F), (spells_fun _ _ _ F2 F'). eexists. split; [done|]. by split.
Qed.

Lemma read_data_of nv nf ls cs : body nv nf ls cs ->
  exists xs, read_data nv nf ls = LOk xs /\ Forall2 line_is xs cs.
Proof.
  induction 1 as [|l ls Hl|l ls cs Hl H (xs&E&F)|l ls c f cs Hl Hc Hf H (xs&E&F)]; simpl.
  - by exists [].
  - rewrite read_dot by done. by exists [].
  - rewrite read_blank by done. eauto.
  - subst. destruct (read_cube_line _ _ _ Hl) as (x&->&Hx). rewrite E. exists (x :: xs). split; [done|]. by constructor.
Qed.
Lemma read_data_inv nv nf ls :
  match read_data nv nf ls with
  | LOk xs => exists cs, body nv nf ls cs /\ Forall2 line_is xs cs
  | LNone => True
  | LCrash => False
  end.
Proof.
  induction ls as [|l ls IH]; simpl.
  - exists []. by repeat constructor.
  - pose proof (read_data_line_spec nv nf l) as H. destruct (read_data_line nv nf l) as [| |x| |]; try done.
    + destruct (read_data nv nf ls) as [xs| |]; try done. destruct IH as (cs&B&F). exists cs. split; [by constructor|done].
    + exists []. split; [by constructor|constructor].
    + destruct (read_data nv nf ls) as [xs| |]; try done. destruct IH as (cs&B&F).
      destruct H as (c&f&Hl&Hc&Hf&Hx). exists ((c, f) :: cs). split; by constructor.
Qed.

(** ** Words *)

Lemma skip_length t : (length (skip_spaces t) <= length t)%nat.
Proof. induction t as [|x t IH]; simpl; [done|]. destruct (isspace x); simpl; lia. Qed.

Lemma to_words_loop_spec fuel : forall t, (length t <= fuel)%nat -> words t (to_words_loop fuel t).
Proof.
  induction fuel as [|fuel IH]; intros t Ht.
  - destruct t; [|simpl in Ht; lia]. repeat constructor.
  - destruct t as [|x t]; [repeat constructor|]. cbn [to_words_loop].
    set (u := x :: t) in *. destruct (skip_split u) as (s&Es&Hs&Hu). set (v := skip_spaces u) in *.
    destruct (word_split v) as (Ev&Hw&Ha). destruct (word v) as [|y w] eqn:Ew.
    + assert (v = []) as V. { destruct v as [|z v']; [done|]. simpl in Ew, Hu. by rewrite (proj2 (isspace_false z) Hu) in Ew. }
      rewrite V. simpl after_word. 
      assert (words [] (to_words_loop fuel [])) as X by (apply IH; simpl; lia).
      assert (to_words_loop fuel [] = []) as -> by by destruct fuel.
      constructor. by rewrite Es, V, app_nil_r.
    + assert (Q : u = s ++ (y :: w) ++ after_word v) by (rewrite <- Ev; exact Es).
      pose proof (f_equal length Q) as L. rewrite !app_length in L. cbn [length] in L.
      rewrite Q at 1. constructor; [done|done|done|done|]. apply IH. lia.
Qed.
Lemma to_words_spec t : words t (to_words t).
Proof. by apply to_words_loop_spec. Qed.

Lemma words_fun t ws ws' : words t ws -> words t ws' -> ws = ws'.
Proof.
  intros H. revert ws'.
  assert (X : forall s w r, blank s -> solid w -> w <> [] -> spaced r ->
    skip_spaces (s ++ w ++ r) = w ++ r /\ word (w ++ r) = w /\ after_word (w ++ r) = r).
  { intros s w r Hs Hw Hn Hr. destruct (word_app w r Hw Hr). split_and!; [|done|done]. apply skip_app; [done|].
    destruct w; [done|]. by inversion Hw. }
  induction H as [t Ht|s w r ws Hs Hw Hn Hr H IH]; intros ws' H'.
  - inversion H' as [|s w r ws Hs Hw Hn Hr H]; subst; [done|]. destruct (X s w r Hs Hw Hn Hr) as (E&_).
    rewrite (proj1 (blank_skip _) Ht) in E. by destruct w.
  - destruct (X s w r Hs Hw Hn Hr) as (E1&E2&E3). inversion H' as [t Ht|s' w' r' ws2 Hs' Hw' Hn' Hr' H2]; subst.
    + rewrite (proj1 (blank_skip _) Ht) in E1. by destruct w.
    + destruct (X s' w' r' Hs' Hw' Hn' Hr') as (E1'&E2'&E3').
      assert (Q : w ++ r = w' ++ r') by congruence. rewrite <- Q in E2', E3'.
      assert (w = w') as <- by congruence. assert (r = r') as <- by congruence. f_equal. by apply IH.
Qed.

(** ** load_file *)

(** the object returned describes the file *)
Record file_is (f : pla_file) (os : options) (cubes : list (list (option bool) * list (option bool))) : Prop := {
  fi_lines : Forall2 line_is (pf_lines f) cubes;
  fi_ilb : labels ["."; "i"; "l"; "b"]%char os (pf_ilb f);
  fi_ob : labels ["."; "o"; "b"]%char os (pf_ob f)
}.

Lemma labels_of k o os : table_of [] o os -> labels k os (to_words (default [] (opt_find k o))).
Proof.
  intros T. rewrite T. simpl. destruct (first_val k os) as [v|] eqn:E; simpl.
  - left. exists v. split; [by apply given_spec|apply to_words_spec].
  - right. split; [by apply not_given_spec|done].
Qed.

Lemma reserve_arg v : to_uint32 (to_int32 v) = v mod 2 ^ 32.
Proof.
  unfold to_uint32, to_int32. rewrite <- Zminus_mod_idemp_r. rewrite Zminus_mod_idemp_r.
  rewrite Zminus_mod, Z.mod_mod, <- Zminus_mod by done. f_equal. lia.
Qed.

Lemma number_of k lo hi o os n : table_of [] o os -> number k lo hi os n ->
  exists t, opt_find k o = Some t /\ parse lo hi t = Some n.
Proof.
  intros T (t&G&N&R). exists t. split; [rewrite T; simpl; by apply given_spec|]. by apply parse_spec.
Qed.

Lemma load_of (mem : Z -> bool) t os nv nf np cubes : pla_text t os nv nf np cubes ->
  if mem (np mod 2 ^ 32) then exists f, load_file mem t = Loaded f /\ file_is f os cubes
  else load_file mem t = Thrown.
Proof.
  intros (h&d&b&Hl&Hh&Hd&Hb&Hc&Ni&No&Np). unfold load_file. apply getlines_spec in Hl as ->.
  destruct (read_options_of h os Hh d b [] [] Hd) as (o&T&E). rewrite E.
  destruct (number_of _ _ _ _ _ _ T Ni) as (ti&Fi&Pi). destruct (number_of _ _ _ _ _ _ T No) as (to&Fo&Po).
  destruct (number_of _ _ _ _ _ _ T Np) as (tp&Fp&Pp).
  set (line := match d with [] => if b then [] else default [] (last h) | l :: _ => l end).
  set (rest := match d with [] => [] | _ :: d => d end).
  assert (HB : exists xs, read_data nv nf (line :: rest) = LOk xs /\ Forall2 line_is xs cubes).
  { destruct d as [|l d]; [|by apply read_data_of]. inversion Hb; subst. exists []. split; [|constructor].
    unfold line, rest. destruct b; [done|]. destruct (Hc eq_refl) as [|Hn]; [done|].
    destruct (last h) as [l|] eqn:El; [|done]. simpl. specialize (Hn l eq_refl).
    assert (Hin : l ∈ h) by by apply last_Some_elem_of.
    clear -Hh Hin Hn. induction Hh as [|l' h os Hl H IH|l' h os Hl H IH|l' h k v os Hl H IH].
    - by apply elem_of_nil in Hin.
    - apply elem_of_cons in Hin as [->|Hin]; [|auto]. by rewrite read_blank.
    - apply elem_of_cons in Hin as [->|Hin]; [done|auto].
    - apply elem_of_cons in Hin as [->|Hin]; [|auto].
      destruct Hl as (w1&w2&w3&k'&->&->&H1&_). rewrite read_dot; [done|]. eexists w1, _. by split. }
  destruct HB as (xs&EB&FB).
  assert (RO : read_options (h ++ d) b [] [] = (o, line, rest)) by (rewrite E; by destruct d).
  rewrite <- E, RO. change key_i with ["."; "i"]%char. change key_o with ["."; "o"]%char. change key_p with ["."; "p"]%char.
  rewrite Fi, Fo, Fp. unfold parse_int32, parse_int64. rewrite Pi, Po, Pp. cbn [option_map]. rewrite reserve_arg.
  destruct (mem (np mod 2 ^ 32)); [|done]. rewrite EB. eexists. split; [done|]. constructor; simpl; [done| |];
    by apply labels_of.
Qed.

Lemma load_inv mem t :
  match load_file mem t with
  | Loaded f => exists os nv nf np cubes, pla_text t os nv nf np cubes /\ mem (np mod 2 ^ 32) = true /\ file_is f os cubes
  | Crashed => False
  | _ => True
  end.
Proof.
  unfold load_file. destruct (getlines t []) as [ls b] eqn:El. apply getlines_spec in El.
  destruct (read_options ls b [] []) as [[o line] rest] eqn:E.
  destruct (read_options_inv _ _ _ _ _ _ _ E) as (h&os&Hh&T&D).
  assert (Nm : forall k lo hi tx n, opt_find k o = Some tx -> parse lo hi tx = Some n -> number k lo hi os n).
  { intros k lo hi tx n F P. rewrite T in F. simpl in F. apply given_spec in F. apply parse_spec in P as [P R]. by exists tx. }
  destruct (opt_find key_i o) as [ti|] eqn:Fi; [|done]. destruct (opt_find key_o o) as [to|] eqn:Fo; [|done].
  destruct (opt_find key_p o) as [tp|] eqn:Fp; [|done]. unfold parse_int32, parse_int64.
  destruct (parse _ _ ti) as [nv|] eqn:Pi; [|done]. destruct (parse _ _ to) as [nf|] eqn:Po; [|done].
  destruct (parse _ _ tp) as [np|] eqn:Pp; [|done]. cbn [option_map]. rewrite reserve_arg.
  destruct (mem (np mod 2 ^ 32)) eqn:M; [|done].
  pose proof (read_data_inv nv nf (line :: rest)) as X. destruct (read_data nv nf (line :: rest)) as [xs| |] eqn:ER; try done.
  destruct X as (cubes&B&F). exists os, nv, nf, np, cubes. split_and!; [|done|constructor; simpl; [done| |]; by apply labels_of].
  destruct D as [(->&->&->)|[-> Hn]].
  - (* no cube *)
    assert (HL : cubes = [] /\ (b = true \/ forall l, last h = Some l -> ~ comment_line l)).
    { destruct b.
      { inversion B as [| |? ? ? ? B'|? ? ? ? ? Hl]; subst; [by destruct H as (w&r&?&?); destruct w| |].
        - inversion B'; subst. auto.
        - destruct Hl as (w1&t1&w2&t2&r&Eq&_&_&_&_&_&Ht&_). by destruct w1, t1. }
      destruct (last h) as [l|] eqn:EL.
      2:{ simpl in B. inversion B as [| |? ? ? ? B'|? ? ? ? ? Hl]; subst; [by destruct H as (w&r&?&?); destruct w| |].
          - inversion B'; subst. split; [done|]. by right.
          - destruct Hl as (w1&t1&w2&t2&r&Eq&_&_&_&_&_&Ht&_). by destruct w1, t1. }
      simpl in B, ER. assert (Hin : l ∈ h) by by apply last_Some_elem_of.
      assert (Hk : blank l \/ comment_line l \/ exists k v, option_line l k v).
      { clear -Hh Hin. induction Hh; [by apply elem_of_nil in Hin| | |];
          (apply elem_of_cons in Hin as [->|Hin]; [|by auto]); eauto. }
      assert (NC : forall cs fs, ~ cube_line l cs fs).
      { intros cs fs HC. pose proof (cube_line_header l cs fs [] HC) as HN.
        destruct Hk as [K|[K|(k&v&K)]].
        - rewrite (proj2 (header_line_spec l [] [])) in HN by auto. done.
        - rewrite (proj2 (header_line_spec l [] [])) in HN by auto. done.
        - rewrite (proj2 (header_line_spec l [] (opt_emplace k v []))) in HN by (right; right; eauto). done. }
      inversion B as [|? ? HD|? ? ? HBl B'|? ? ? ? ? Hl]; subst.
      - split; [done|]. right. intros l' [= <-] (w&r&E1&E2). destruct HD as (w'&r'&E3&E4).
        assert (skip_spaces l = "#"%char :: r) by (rewrite E1; apply skip_app; [done|apply hash_solid]).
        assert (skip_spaces l = "."%char :: r') by (rewrite E3; apply skip_app; [done|apply dot_solid]). congruence.
      - inversion B'; subst. split; [done|]. right. intros l' [= <-] (w&r&E1&E2).
        assert (skip_spaces l = "#"%char :: r) by (rewrite E1; apply skip_app; [done|apply hash_solid]).
        apply blank_skip in HBl. congruence.
      - by destruct (NC _ _ Hl). }
    destruct HL as [-> HL]. exists h, [], b. rewrite app_nil_r. split_and!; try done; try constructor; eauto.
  - exists h, (line :: rest), b. split_and!; try done; eauto.
    simpl. inversion B as [|? ? HD|? ? ? HBl B'|? ? c f ? Hl]; subst.
    + destruct HD as (w&r&E1&E2). specialize (Hn []). unfold header_line in Hn.
      rewrite E1, skip_app in Hn; [|done|apply dot_solid]. done.
    + specialize (Hn []). rewrite (proj2 (header_line_spec line [] [])) in Hn by auto. done.
    + eauto.
Qed.
