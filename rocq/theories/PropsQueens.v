(** * C78: the example of the n queens is right for every n *)

From stdpp Require Import gmap list.
From Coq Require Import ZArith Lia.
From Verif Require Import Base Ops Tables NodeManager Tools Sift DiagramManager World Queries.
From Verif Require Import Heap Inv InvLemmas GC Api Apply Constr Expr VecSpec Eval Fold.
From Verif Require Import OpSpec WorldSpec WorldProof Ctor History PropsBase Chain PropsBase2 PropsCore.
From Verif Require Import QuerySpec QueryProof PropsQuery Examples Refuted.
From Verif Require Import Queens QueensSpec QueensProof QueensCount Trav Minimal CountSkip.

Local Open Scope nat_scope.

Lemma bdd_dom c i : wf_cfg c -> c_fixed c = Some 2%Z -> i < nvars c -> dom c i = 2.
Proof. intros Hc Hb Hi. pose proof (wc_fixed c Hc 2%Z Hb i Hi). lia. Qed.

Lemma queens_solutions c n F k : wf_cfg c -> c_fixed c = Some 2%Z -> nvars c = n * n ->
  (forall rho, valid c rho -> F rho = 1%Z <-> placement n (board n rho)) -> placements n k ->
  exists sols, all_solutions c F 1 sols /\ length sols = k.
Proof.
  intros Hc Hb Hn HF (l&ND&Hl&Hk).
  assert (Hok : forall vals, vals_ok c vals <-> length vals = n * n /\ forall i, i < n * n -> of_vals vals i < 2).
  { intros vals. unfold vals_ok, valid. rewrite Hn. split; (intros [H1 H2]; split; [done|]); intros i Hi; specialize (H2 i Hi);
      rewrite (bdd_dom c i Hc Hb) in * by lia; done. }
  exists (map (enc n) l). split; [split|].
  - clear Hk. assert (Hl' : forall qs, qs ∈ l -> columns n qs) by (intros qs; apply Hl). clear Hl.
    induction l as [|qs l IH]; [constructor|]. apply NoDup_cons in ND as [N1 N2]. apply NoDup_cons. split.
    + intros He. apply elem_of_list_fmap in He as (qs'&E&Hq). apply enc_inj in E; [by subst| |]; apply Hl'; [constructor|by constructor].
    + apply IH; [done|]. intros q Hq. apply Hl'. by constructor.
  - intros vals. rewrite elem_of_list_fmap. unfold solution. split.
    + intros (qs&->&Hq). apply Hl in Hq. assert (V : vals_ok c (enc n qs)).
      { apply Hok. split; [apply enc_length|]. intros i Hi. rewrite enc_of_vals by done. unfold square. destruct (decide _); lia. }
      split; [done|]. apply HF; [apply V|]. by apply enc_placement.
    + intros [V E]. apply HF in E; [|apply V]. exists (dec n (of_vals vals)). apply Hok in V as [V1 V2]. split.
      * symmetry. by apply enc_dec.
      * apply Hl. by apply dec_columns.
  - by rewrite map_length.
Qed.

(** ** Counting on 64 variables *)

(** In a BDD manager with at most 64 variables the number of solutions is right whenever it
    fits, except for constants on exactly 64 variables.
    (C09 asks that 2 ^ variables fits, which holds up to 62 variables.) *)
Theorem C78_count_64 : forall c opsem strict args ks s vars A x F v sols,
  c_fixed c = Some 2%Z -> wf_cfg c -> nvars c <= 64 -> history c opsem strict args ks s vars A ->
  ab_clean A = true -> ab A !! x = Some F -> value_ok c v -> all_solutions c F v sols ->
  (Z.of_nat (length sols) <= max64)%Z ->
  (nvars c <= 63 \/ exists rho sigma, valid c rho /\ valid c sigma /\ F rho <> F sigma) ->
  exists a, vars !! x = Some a /\ satisfy_count c v a s = Ok (Z.of_nat (length sols)) s.
Proof.
  intros c opsem strict args ks s vars A x F v sols Hb Hc H64 H Hcl HF Hv HS Hfit Hnc.
  destruct (history_query _ _ _ _ _ _ _ _ _ _ Hc H HF) as (g&a&Ha&C&Hh&EF&Ho&Cl&_). exists a. split; [done|].
  pose proof (order_NoDup c opsem strict g s C) as ND. pose proof (order_elem c opsem strict g s C) as Hel.
  assert (E : length sols = ways c (s_l2i s) (nval c s a) v (fun _ => 0)).
  { destruct (all_sols_all c (s_l2i s) (nval c s a) v ND Hel) as [H1 _].
    rewrite (all_solutions_length c (nval c s a) v sols _ (all_solutions_ext c F (nval c s a) v sols EF HS) H1).
    rewrite ways_sols; [|done|by apply zeros_ok|intros i; apply Hel|by apply (nval_depends_all c opsem strict g s C)].
    apply ways_ext; [by apply zeros_ok|intros i Hi; by apply (wc_dom _ Hc)|]. intros tau tau' Ht Ht' _ _ Hag.
    apply (nval_depends_all c opsem strict g s C a Hh); [done|done|]. intros j Hj. apply Hag, Hel. apply elem_of_seq in Hj. lia. }
  rewrite E. pose proof (held_rank c opsem strict g s C a Hh) as Hra.
  apply (satisfy_count_short c opsem strict g s Hc C (Cl Hcl) Hb v a Hh); [| |by rewrite <- E|done].
  - intros y Hy (i&sons&z&Ey&Hz&Hl). assert (Hyh : held g (s_heap s) y) by by eapply held_reach.
    destruct (int_facts c opsem strict g s C y i sons Hyh Ey) as (_&_&_&_&Hs). destruct (Hs z Hz). lia.
  - destruct Hnc as [Hn|(rho&sigma&Hr&Hsg&Hne)]; [lia|]. destruct (decide (rank c g (s_heap s) a < 64)) as [|Hge]; [done|].
    destruct Hne. rewrite !EF by done. apply (nval_depends c opsem strict g s C a (nvars c) Hh ltac:(lia)); [done|done|].
    intros j Hj. rewrite drop_ge in Hj; [by apply elem_of_nil in Hj|].
    rewrite (pm_l2i _ _ (proj1 (cl_ord _ _ _ _ _ C))). done.
Qed.

(** ** The number of placements *)

(** all placements by enumeration; hence there always is a number of placements *)
Fixpoint words (n k : nat) : list (list nat) :=
  match k with O => [[]] | S k => concat (map (fun d => map (cons d) (words n k)) (seq 0 n)) end.
Definition attacksb (i j i' j' : nat) : bool :=
  negb ((i =? i') && (j =? j')) && ((i =? i') || (j =? j') || (i + j =? i' + j') || (i + j' =? i' + j)).
Definition peaceful (n : nat) (qs : list nat) : bool :=
  forallb (fun i => forallb (fun i' => negb (attacksb i (nth i qs 0) i' (nth i' qs 0))) (seq 0 n)) (seq 0 n).

Lemma attacksb_spec i j i' j' : attacksb i j i' j' = true <-> attacks i j i' j'.
Proof.
  unfold attacksb, attacks. rewrite andb_true_iff, negb_true_iff, andb_false_iff, !orb_true_iff, !Nat.eqb_neq, !Nat.eqb_eq. lia.
Qed.

Lemma words_elem n k qs : qs ∈ words n k <-> length qs = k /\ forall q, q ∈ qs -> q < n.
Proof.
  revert qs. induction k as [|k IH]; intros qs; cbn [words].
  - rewrite elem_of_list_singleton. split; [intros ->; split; [done|]; intros q Hq; by apply elem_of_nil in Hq|].
    intros [Hq _]. by apply nil_length_inv.
  - rewrite elem_of_list_In, in_concat. split.
    + intros (ws&Hw&Hin). apply in_map_iff in Hw as (d&<-&Hd). apply in_map_iff in Hin as (q&<-&Hq).
      apply elem_of_list_In, IH in Hq as [Hq1 Hq2]. apply in_seq in Hd. simpl. split; [lia|]. intros x [->|Hx]%elem_of_cons; [lia|auto].
    + intros [Hk Hb]. destruct qs as [|d qs]; [done|]. exists (map (cons d) (words n k)). split.
      * apply in_map_iff. exists d. split; [done|]. apply in_seq. specialize (Hb d ltac:(constructor)). lia.
      * apply in_map_iff. exists qs. split; [done|]. apply elem_of_list_In, IH. simpl in Hk. split; [lia|].
        intros q Hq. apply Hb. by constructor.
Qed.

Lemma words_NoDup n k : NoDup (words n k).
Proof.
  induction k as [|k IH]; cbn [words]; [apply NoDup_singleton|].
  assert (Hs : NoDup (seq 0 n)) by apply NoDup_ListNoDup, seq_NoDup. revert Hs. generalize (seq 0 n). intros ds ND.
  induction ds as [|d ds IHd]; simpl; [constructor|]. apply NoDup_cons in ND as [N1 N2]. apply NoDup_app. split_and!.
  - apply NoDup_ListNoDup, FinFun.Injective_map_NoDup; [by intros x y [=]|by apply NoDup_ListNoDup].
  - intros qs Hq Hq'. apply elem_of_list_fmap in Hq as (q&->&_). apply elem_of_list_In, in_concat in Hq' as (ws&Hw&Hin).
    apply in_map_iff in Hw as (e&<-&He). apply in_map_iff in Hin as (q'&[= -> _]&_). by apply N1, elem_of_list_In.
  - by apply IHd.
Qed.

Lemma peaceful_columns n qs : length qs = n -> (forall q, q ∈ qs -> q < n) -> peaceful n qs = true <-> columns n qs.
Proof.
  intros Hl Hb. unfold peaceful. rewrite forallb_forall. split.
  - intros H. split; [done|]. split; [intros i j Hi; apply Hb; by eapply elem_of_list_lookup_2|].
    intros i i' j j' Hi Hi' At. specialize (H i). rewrite forallb_forall in H. pose proof (lookup_lt_Some _ _ _ Hi). pose proof (lookup_lt_Some _ _ _ Hi').
    specialize (H ltac:(apply in_seq; lia) i' ltac:(apply in_seq; lia)). apply negb_true_iff in H.
    rewrite (nth_lookup_Some _ _ 0 _ Hi), (nth_lookup_Some _ _ 0 _ Hi') in H. apply attacksb_spec in At. congruence.
  - intros (_&_&Ha) i Hi. apply forallb_forall. intros i' Hi'. apply in_seq in Hi, Hi'. apply negb_true_iff.
    destruct (attacksb _ _ _ _) eqn:E; [|done]. apply attacksb_spec in E. exfalso. eapply Ha; [| |exact E]; apply of_vals_lookup; lia.
Qed.

Lemma placements_words n : placements n (length (List.filter (peaceful n) (words n n))).
Proof.
  exists (List.filter (peaceful n) (words n n)). split_and!; [| |done].
  - apply NoDup_ListNoDup, List.NoDup_filter, NoDup_ListNoDup, words_NoDup.
  - intros qs. rewrite elem_of_list_In, filter_In, <- elem_of_list_In, words_elem. split.
    + intros [[H1 H2] H3]. by apply peaceful_columns.
    + intros H. assert (H1 := proj1 H). assert (H2 : forall q, q ∈ qs -> q < n).
      { intros q (i&Hi)%elem_of_list_lookup. by eapply (proj1 (proj2 H)). }
      split; [done|]. by apply peaceful_columns.
Qed.

(** ** The program *)

Lemma words_length n k : Z.of_nat (length (words n k)) = (Z.of_nat n ^ Z.of_nat k)%Z.
Proof.
  induction k as [|k IH]; [done|]. cbn [words].
  assert (X : forall ds, length (concat (map (fun d => map (cons d) (words n k)) ds)) = length ds * length (words n k)).
  { induction ds as [|d ds IHd]; [done|]. cbn [map concat]. rewrite app_length, map_length, IHd. done. }
  rewrite X, seq_length, Nat2Z.inj_mul, IH. replace (Z.of_nat (S k)) with (1 + Z.of_nat k)%Z by lia. rewrite Z.pow_add_r by lia. f_equal. by rewrite Z.pow_1_r.
Qed.

Lemma placements_le n k : placements n k -> (Z.of_nat k <= Z.of_nat n ^ Z.of_nat n)%Z.
Proof.
  intros (l&ND&Hl&<-). rewrite <- words_length. apply Nat2Z.inj_le, submseteq_length, NoDup_submseteq; [done|].
  intros qs Hq. apply Hl in Hq as (H1&H2&_). apply words_elem. split; [done|]. intros q (i&Hi)%elem_of_list_lookup. by eapply H2.
Qed.

Theorem C78_queens : forall c b p m strict args ks s vars A n rc rg,
  c_fixed c = Some 2%Z -> wf_cfg c -> nvars c = n * n ->
  history c (ops_with b p m) strict args ks s vars A -> ab_cache A = true -> ab_clean A = true ->
  (strict = true -> forall k, (p_main (s_pool s) <= k)%Z -> (1 <= rg k)%Z) ->
  match run c (queens n rc rg) vars s with
  | Ok vars' s' => exists a, vars' !! result n = Some a /\
      (forall vals, vals_ok c vals -> exists v, evaluate c a vals s' = Ok v s' /\ (v = 0%Z \/ v = 1%Z) /\
         (v = 1%Z <-> placement n (fun i j => nth (i * n + j) vals 0 = 1))) /\
      (n <= 8 -> forall k, placements n k -> satisfy_count c 1 a s' = Ok (Z.of_nat k) s')
  | Err e => e = ERefOver \/ (strict = false /\ e = EPool)
  | Fuel => False
  end.
Proof.
  intros c b p m strict args ks s vars A n rc rg Hb Hc Hn H Hca Hcl Hg.
  unfold queens. cbn [run].
  assert (E1 : exec c (CCacheRatio rc) vars s = Ok vars (set_cratio rc s)) by reflexivity.
  assert (E2 : exec c (CGcRatio rg) vars (set_cratio rc s) = Ok vars (set_gcthr rg (set_cratio rc s))) by reflexivity.
  unfold bind. rewrite E1, E2.
  pose proof (H_call _ _ _ _ _ _ _ _ _ _ _ _ H (S_cratio c (ops_with b p m) strict s rc A) E1) as H1.
  pose proof (H_call _ _ _ _ _ _ _ _ _ _ _ _ H1 (S_gcratio c (ops_with b p m) strict (set_cratio rc s) rg A Hg) E2) as H2.
  destruct (queens_chain c b p m strict Hb Hc n Hn A Hca Hcl) as (B&F&Ch&HcB&HF&HV).
  pose proof (run_chain c (ops_with b p m) strict args Hc _ _ _ _ A B H2 Ch) as X.
  destruct (run c (queens_calls n) vars _) as [vars' s'|e|]; [|exact X|exact X].
  destruct (history_value _ _ _ _ _ _ _ _ _ _ Hc X HF) as (a&Ha&W). exists a. split; [done|]. split.
  - intros vals Hv. exists (F (of_vals vals)). split; [by apply W|]. destruct (HV (of_vals vals) (proj2 Hv)) as [HV1 HV2].
    split; [done|]. exact HV2.
  - intros H8 k Hk. destruct (queens_solutions c n F k Hc Hb Hn) as (sols&HS&<-); [by intros rho Hr; apply HV|done|].
    destruct (C78_count_64 c (ops_with b p m) strict args _ s' vars' B (result n) F 1%Z sols Hb Hc ltac:(nia) X HcB HF) as (a'&Ha'&E); [|done| | |].
    + unfold value_ok. rewrite Hb. right. lia.
    + pose proof (placements_le n _ Hk) as Hle. etransitivity; [exact Hle|].
      transitivity (8 ^ 8)%Z; [|by vm_compute]. transitivity (8 ^ Z.of_nat n)%Z; [apply Z.pow_le_mono_l; lia|apply Z.pow_le_mono_r; lia].
    + destruct (decide (n <= 7)) as [H7|H7]; [left; nia|right]. assert (n = 8) as -> by lia.
      assert (Hvb : forall rho, valid c rho <-> forall i, i < 64 -> rho i < 2).
      { intros rho. unfold valid. rewrite Hn. change (8 * 8) with 64. split; intros V i Hi; specialize (V i Hi); rewrite (bdd_dom c i Hc Hb) in * by lia; done. }
      assert (Q : columns 8 [0; 4; 7; 5; 2; 6; 1; 3]).
      { apply peaceful_columns; [done| |by vm_compute]. intros q Hq. apply elem_of_list_In in Hq. simpl in Hq. lia. }
      exists (of_vals (enc 8 [0; 4; 7; 5; 2; 6; 1; 3])), (fun _ => 0).
      assert (V1 : valid c (of_vals (enc 8 [0; 4; 7; 5; 2; 6; 1; 3]))).
      { apply Hvb. intros i Hi. rewrite enc_of_vals by done. unfold square. destruct (decide _); lia. }
      assert (V2 : valid c (fun _ => 0)) by (apply Hvb; lia). split; [done|]. split; [done|].
      destruct (HV _ V1) as [_ P1]. destruct (HV _ V2) as [_ P2]. rewrite (proj2 P1) by by apply enc_placement.
      intros Y. symmetry in Y. apply P2 in Y as [_ Y]. destruct (Y 0 ltac:(lia)) as (j&_&Z). unfold board in Z. lia.
    + by assert (a' = a) as -> by congruence.
Qed.

(** ** Counting on many variables *)

(** In a BDD manager with more than 64 variables: when the values of the first [l] variables
    of the order are those of [rho], and [k] for the next one, then F is [w], it is not always
    [w] otherwise, and 64 variables or more follow.  Then counting is undefined,
    whatever the number of solutions is. *)
Theorem C78_count_undefined : forall c opsem strict args ks s vars A x F v l i k w rho sigma,
  c_fixed c = Some 2%Z -> wf_cfg c -> history c opsem strict args ks s vars A ->
  ab_clean A = true -> ab_canon A = true -> ab A !! x = Some F -> value_ok c v ->
  ab_order A !! l = Some i -> 64 <= nvars c - S l -> k < 2 -> valid c rho ->
  (forall tau, valid c tau -> (forall j, j ∈ take l (ab_order A) -> tau j = rho j) -> tau i = k -> F tau = w) ->
  valid c sigma -> (forall j, j ∈ take l (ab_order A) -> sigma j = rho j) -> F sigma <> w ->
  exists a, vars !! x = Some a /\ satisfy_count c v a s = Err EOverflow.
Proof.
  intros c opsem strict args ks s vars A x F v l i k w rho sigma Hb Hc H Hcl Hcn HF Hv Ho Hfar Hk Hr Hconst Hs Hag Hne.
  destruct (history_query _ _ _ _ _ _ _ _ _ _ Hc H HF) as (g&a&Ha&C&Hh&EF&Eo&Cl&Cn). exists a. split; [done|].
  rewrite <- Eo in *.
  destruct (decided_long c opsem strict g s Hc C (Cn Hcn) a l i k w rho sigma Hh Ho Hfar) as (y&Hy&Hl); [| | |done|done| |].
  - rewrite (bdd_dom c i Hc Hb); [done|]. apply (order_elem c opsem strict g s C). by eapply elem_of_list_lookup_2.
  - done.
  - intros tau Ht Hta Hti. rewrite <- EF by done. by apply Hconst.
  - by rewrite <- EF.
  - by eapply (count_overflow c opsem strict g s C (Cl Hcl) Hb v a y).
Qed.

Lemma spec_order c opsem strict s k A A' : spec c opsem strict s k A A' -> not_reorder k = true -> ab_order A' = ab_order A.
Proof. intros H. destruct H; simpl; done. Qed.

Lemma chain_order c opsem strict ks A A' : chain c opsem strict ks A A' ->
  Forall (fun k => not_reorder k = true) ks -> ab_order A' = ab_order A.
Proof.
  induction 1 as [A|k ks A A1 A2 Sp Ch IH]; intros Hr; [done|]. inversion Hr; subst.
  rewrite IH by done. by eapply spec_order; [apply (Sp no_state)|].
Qed.

Lemma Forall_concat {T} (P : T -> Prop) (ls : list (list T)) : Forall (Forall P) ls -> Forall P (concat ls).
Proof. induction 1; simpl; [constructor|]. by apply Forall_app. Qed.

Lemma queens_no_reorder n : Forall (fun k => not_reorder k = true) (queens_calls n).
Proof.
  unfold queens_calls. repeat (apply Forall_app; split).
  - apply Forall_fmap, Forall_true. done.
  - by repeat constructor.
  - apply Forall_concat, Forall_fmap, Forall_true. intros [cell others]. unfold clause_calls. cbn [fst snd].
    repeat (apply Forall_app; split); try (by repeat constructor).
    apply Forall_concat, Forall_fmap, Forall_true. intros x. by repeat constructor.
  - apply Forall_concat. unfold loop. apply Forall_fmap, Forall_true. intros i. unfold place_calls, loop.
    repeat (apply Forall_app; split); try (by repeat constructor). apply Forall_fmap, Forall_true. done.
Qed.

Lemma last_head (l : list (list nat)) : l <> [] ->
  exists qs, qs ∈ l /\ forall q, q ∈ l -> nth 0 q 0 <= nth 0 qs 0.
Proof.
  induction l as [|q l IH]; [done|]. intros _. destruct l as [|q' l].
  - exists q. split; [constructor|]. intros p Hp. by apply elem_of_list_singleton in Hp as ->.
  - destruct IH as (qs&Hq&Hm); [done|]. destruct (le_lt_dec (nth 0 q 0) (nth 0 qs 0)) as [Hle|Hlt].
    + exists qs. split; [by constructor|]. intros p [->|Hp]%elem_of_cons; [done|auto].
    + exists q. split; [constructor|]. intros p [->|Hp]%elem_of_cons; [done|]. specialize (Hm p Hp). lia.
Qed.

(** From nine queens on the count that the example prints is undefined whenever there is a placement. *)
Theorem C78_queens_count_undefined : forall c b p m strict args ks s vars A n rc rg k,
  c_fixed c = Some 2%Z -> wf_cfg c -> nvars c = n * n ->
  history c (ops_with b p m) strict args ks s vars A -> ab_cache A = true -> ab_clean A = true ->
  ab_canon A = true -> ab_order A = seq 0 (n * n) ->
  (strict = true -> forall k, (p_main (s_pool s) <= k)%Z -> (1 <= rg k)%Z) ->
  9 <= n -> placements n k -> 1 <= k ->
  match run c (queens n rc rg) vars s with
  | Ok vars' s' => exists a, vars' !! result n = Some a /\ satisfy_count c 1 a s' = Err EOverflow
  | Err e => e = ERefOver \/ (strict = false /\ e = EPool)
  | Fuel => False
  end.
Proof.
  intros c b p m strict args ks s vars A n rc rg k Hb Hc Hn H Hca Hcl Hcn Hor Hg H9 (l&ND&Hl&Hlk) Hk.
  unfold queens. cbn [run].
  assert (E1 : exec c (CCacheRatio rc) vars s = Ok vars (set_cratio rc s)) by reflexivity.
  assert (E2 : exec c (CGcRatio rg) vars (set_cratio rc s) = Ok vars (set_gcthr rg (set_cratio rc s))) by reflexivity.
  unfold bind. rewrite E1, E2.
  pose proof (H_call _ _ _ _ _ _ _ _ _ _ _ _ H (S_cratio c (ops_with b p m) strict s rc A) E1) as H1.
  pose proof (H_call _ _ _ _ _ _ _ _ _ _ _ _ H1 (S_gcratio c (ops_with b p m) strict (set_cratio rc s) rg A Hg) E2) as H2.
  destruct (queens_chain c b p m strict Hb Hc n Hn A Hca Hcl) as (B&F&Ch&HcB&HF&HV).
  pose proof (run_chain c (ops_with b p m) strict args Hc _ _ _ _ A B H2 Ch) as X.
  destruct (run c (queens_calls n) vars _) as [vars' s'|e|]; [|exact X|exact X].
  pose proof (chain_canon _ _ _ _ _ _ Ch (queens_no_reorder n) Hcn) as HcnB.
  pose proof (chain_order _ _ _ _ _ _ Ch (queens_no_reorder n)) as HoB. rewrite Hor in HoB.
  destruct (last_head l) as (qs&Hq&Hmax); [by intros ->; simpl in Hlk; lia|].
  apply Hl in Hq. set (j := nth 0 qs 0) in *.
  assert (Hq0 : qs !! 0 = Some j).
  { destruct Hq as (Hlen&_). destruct qs as [|q0 qs]; [simpl in Hlen; lia|done]. }
  assert (Hjn : j < n) by (by eapply (proj1 (proj2 Hq))).
  assert (Hvb : forall rho, valid c rho <-> forall i, i < n * n -> rho i < 2).
  { intros rho. unfold valid. rewrite Hn. split; intros V i Hi; specialize (V i Hi); rewrite (bdd_dom c i Hc Hb) in * by lia; done. }
  assert (Hvs : valid c (of_vals (enc n qs))).
  { apply Hvb. intros i Hi. rewrite enc_of_vals by done. unfold square. destruct (decide _); lia. }
  assert (Htk : forall i, i ∈ take j (ab_order B) -> i < j).
  { intros i Hi. rewrite HoB in Hi. apply elem_of_take in Hi as (q&Hi&?). apply lookup_seq in Hi. lia. }
  apply (C78_count_undefined c (ops_with b p m) strict args (((ks ++ [CCacheRatio rc]) ++ [CGcRatio rg]) ++ queens_calls n) s' vars' B (result n) F 1%Z j j 0 0%Z (fun _ => 0) (of_vals (enc n qs))); try done.
  - unfold value_ok. rewrite Hb. right. lia.
  - rewrite HoB. apply lookup_seq. split; [done|nia].
  - rewrite Hn. nia.
  - lia.
  - apply Hvb. lia.
  - intros tau Ht Hag Htj. destruct (HV tau Ht) as [[E|E] HP]; [done|]. apply HP in E. exfalso.
    assert (Hd : dec n tau ∈ l) by by apply Hl, dec_columns. specialize (Hmax _ Hd).
    destruct (row_of_board n tau 0 E ltac:(lia)) as [Hr1 Hr2].
    assert (Eh : nth 0 (dec n tau) 0 = row_of n tau 0).
    { assert (dec n tau !! 0 = Some (row_of n tau 0)) as Y by (apply dec_lookup; split; [lia|done]). by apply nth_lookup_Some with (d := 0) in Y. }
    rewrite Eh in Hmax. unfold board in Hr2. cbn [Nat.mul Nat.add] in Hr2.
    destruct (decide (row_of n tau 0 = j)) as [Ej|Hne]; [rewrite Ej in Hr2; lia|]. rewrite Hag in Hr2; [lia|].
    rewrite HoB. apply elem_of_take. exists (row_of n tau 0). split; [apply lookup_seq; split; [done|nia]|lia].
  - intros i Hi. apply Htk in Hi. rewrite enc_of_vals by nia.
    assert (E : i = 0 * n + i) by lia. rewrite E, square_cell by lia. rewrite Hq0. destruct (decide _) as [Y|]; [|done]. injection Y. lia.
  - destruct (HV _ Hvs) as [_ HP]. rewrite (proj2 HP); [done|]. by apply enc_placement.
Qed.

(** ** Cases *)

Example C78_four : placements 4 2.
Proof. exact (placements_words 4). Qed.
Example C78_five : placements 5 10.
Proof. exact (placements_words 5). Qed.

(** there are placements of nine queens *)
Example C78_nine : exists k, placements 9 k /\ 1 <= k.
Proof.
  exists (length (List.filter (peaceful 9) (words 9 9))). pose proof (placements_words 9) as P. split; [exact P|].
  destruct P as (l&_&Hl&<-). assert (H : [0; 2; 5; 7; 1; 3; 8; 6; 4] ∈ l).
  { apply Hl. apply peaceful_columns; [done| |by vm_compute].
    intros q Hq. apply elem_of_list_In in Hq. simpl in Hq. lia. }
  destruct l; [by apply elem_of_nil in H|simpl; lia].
Qed.

(** a manager for the board of n queens and its first state *)
Definition board_cfg (n : nat) : cfg := Cfg (replicate (n * n) 2) (Some 2%Z) (fun p => N.pos p * 64)%N true false.
Definition board_args (n : nat) : cargs :=
  CArgs (map Z.of_nat (seq 0 (n * n))) 1000 1000 64 (replicate (n * n) 3%Z) (fun n => n / 5)%Z (fun n => n).

Lemma board_nvars n : nvars (board_cfg n) = n * n.
Proof. apply replicate_length. Qed.
Lemma board_dom n i : i < nvars (board_cfg n) -> dom (board_cfg n) i = 2.
Proof.
  intros Hi. rewrite board_nvars in Hi. assert (E : replicate (n * n) 2 !! i = Some 2) by by apply lookup_replicate_2.
  exact (nth_lookup_Some _ _ 0 _ E).
Qed.
Lemma board_wf n : wf_cfg (board_cfg n).
Proof.
  constructor.
  - intros i Hi. rewrite board_dom by done. lia.
  - intros m Hm i Hi. rewrite board_dom by done. by injection Hm.
  - intros i Hi. rewrite board_dom by done. by vm_compute.
Qed.
Lemma board_args_ok n : cargs_ok (board_cfg n) true (board_args n).
Proof.
  constructor.
  - rewrite board_nvars. apply Permutation_refl.
  - rewrite board_nvars. apply replicate_length.
  - done.
  - done.
  - intros _. split; [done|]. cbn. intros k Hk. apply Z.div_le_lower_bound; lia.
Qed.
Lemma board_order n : ab_order (no_objects (board_args n)) = seq 0 (n * n).
Proof.
  cbn. rewrite map_map. rewrite <- (map_id (seq 0 (n * n))) at 2. apply map_ext. intros i. apply Nat2Z.id.
Qed.

(** the hypotheses of the theorems can be met for every n *)
Example C78_hypotheses : forall n b p m, exists s,
  c_fixed (board_cfg n) = Some 2%Z /\ wf_cfg (board_cfg n) /\ nvars (board_cfg n) = n * n /\
  let A := no_objects (board_args n) in
  history (board_cfg n) (ops_with b p m) true (board_args n) [] s ∅ A /\
  ab_cache A = true /\ ab_clean A = true /\ ab_canon A = true /\ ab_order A = seq 0 (n * n).
Proof.
  intros n b p m. destruct (new_safe (board_cfg n) true (board_args n) no_state (board_args_ok n)) as [s E].
  exists s. split; [done|]. split; [apply board_wf|]. split; [apply board_nvars|]. cbv zeta. split; [|split_and!; try done; apply board_order].
  apply (H_new _ _ _ _ no_state s (board_args_ok n) E).
Qed.

(** the program for two queens: no placement *)
Definition two_queens : res vars_t := outcome (board_cfg 2) (board_args 2) (queens 2 (fun n => n) (fun n => n / 2)%Z).
Example C78_two : exists vars s, two_queens = Ok vars s /\ count_of (board_cfg 2) 1 vars s 4 = Some 0%Z.
Proof.
  destruct (outcome_ok two_queens (fun v s => count_of (board_cfg 2) 1 v s 4 = Some 0%Z)) as (v&s&E&H); [by vm_compute|].
  exists v, s. split; [exact E|exact H].
Qed.

(** the exception: a constant on 64 variables has no solutions, and counting them is undefined *)
Definition nothing : res vars_t := outcome (board_cfg 8) (board_args 8) [CConst 0 0%Z].
Theorem C78_constant_refuted : exists vars s a, nothing = Ok vars s /\ vars !! 0 = Some a /\
  satisfy_count (board_cfg 8) 1 a s = Err EOverflow.
Proof.
  destruct (outcome_ok nothing (fun v s => match v !! 0 with Some a => satisfy_count (board_cfg 8) 1 a s = Err EOverflow | None => False end))
    as (v&s&E&H); [by vm_compute|].
  destruct (v !! 0) as [a|] eqn:Ea; [|contradiction]. exists v, s, a. split; [exact E|]. split; [exact Ea|exact H].
Qed.

Print Assumptions C78_constant_refuted.
Print Assumptions C78_count_64.
Print Assumptions C78_queens.
Print Assumptions C78_count_undefined.
Print Assumptions C78_queens_count_undefined.
