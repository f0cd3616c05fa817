(** * The counted functions *)

From stdpp Require Import gmap list.
From Coq Require Import ZArith Lia.
From Verif Require Import Base Ops Tables NodeManager Tools Sift DiagramManager Queries Cost.
From Verif Require Import Heap Inv InvLemmas Prim GC Make Build Canon Apply Api VecSpec Vec Eval Trav QuerySpec QueryProof Minimal.

Local Open Scope nat_scope.

(** ** Without the counter they are the functions of the model *)

Definition forget {A B} (r : res (A * B)) : res A :=
  match r with Ok x s => Ok (fst x) s | Err e => Err e | Fuel => Fuel end.

Lemma evaluate_forget c fuel vals : forall a s, forget (evaluate_steps c fuel vals a s) = evaluate_loop c fuel vals a s.
Proof.
  induction fuel as [|fuel IH]; intros a s; [done|]. cbn [evaluate_steps evaluate_loop]. unfold bind.
  destruct (getn a s) as [n s1| |]; [|done|done]. destruct (n_body n) as [v|i sons]; [done|].
  destruct (of_opt EOob (vals !! i) s1) as [k s2| |]; [|done|done]. destruct (_ && _); [done|].
  destruct (of_opt EOob (sons !! k) s2) as [b s3| |]; [|done|done]. rewrite <- IH.
  by destruct (evaluate_steps c fuel vals b s3) as [[? ?]| |].
Qed.

Lemma one_forget fuel v : forall vars a s, forget (satisfy_one_calls fuel v vars a s) = satisfy_one_impl fuel v vars a s.
Proof.
  induction fuel as [|fuel IH]; intros vars a s; [done|]. cbn [satisfy_one_calls satisfy_one_impl]. unfold bind.
  destruct (getn a s) as [n s1| |]; [|done|done]. destruct (n_body n) as [w|i sons]; [done|].
  assert (X : forall sons k vars s, forget (first_son_calls (satisfy_one_calls fuel v) i vars k sons s)
    = first_son (satisfy_one_impl fuel v) i vars k sons s).
  { clear -IH. induction sons as [|b sons IHs]; intros k vars s; [done|]. cbn [first_son_calls first_son]. unfold bind.
    destruct (of_opt EOob (vars !! i) s) as [z s2| |]; [|done|done]. rewrite <- (IH (<[i := k]> vars) b s2).
    destruct (satisfy_one_calls fuel v (<[i:=k]> vars) b s2) as [[[w r] m] s3| |]; [|done|done]. simpl. destruct r; [done|].
    rewrite <- IHs. by destruct (first_son_calls (satisfy_one_calls fuel v) i w (S k) sons s3) as [[[? ?] ?]| |]. }
  rewrite <- X. by destruct (first_son_calls (satisfy_one_calls fuel v) i vars 0 sons s1) as [[[? ?] ?]| |].
Qed.

Lemma all_forget c fuel v : forall level st a s,
  forget (satisfy_all_calls c fuel v level st a s) = satisfy_all_impl c fuel v level st a s.
Proof.
  induction fuel as [|fuel IH]; intros level st a s; [done|]. cbn [satisfy_all_calls satisfy_all_impl]. unfold bind.
  destruct (getn a s) as [n s1| |]; [|done|done].
  assert (X : forall i sons k st s, forget (all_loop_calls (satisfy_all_calls c fuel v (S level)) i st k sons s)
    = all_loop (satisfy_all_impl c fuel v (S level)) i st k sons s).
  { clear -IH. intros i. induction sons as [|b sons IHs]; intros k st s; [done|]. cbn [all_loop_calls all_loop]. unfold bind.
    destruct (of_opt EOob (fst st !! i) s) as [z s2| |]; [|done|done]. rewrite <- (IH (S level) (<[i := k]> (fst st), snd st) b s2).
    destruct (satisfy_all_calls c fuel v (S level) (<[i:=k]> (fst st), snd st) b s2) as [[st1 m] s3| |]; [|done|done]. simpl.
    rewrite <- IHs. by destruct (all_loop_calls (satisfy_all_calls c fuel v (S level)) i st1 (S k) sons s3) as [[? ?]| |]. }
  assert (Y : forall i sons s, forget (match all_loop_calls (satisfy_all_calls c fuel v (S level)) i st 0 sons s with
      Ok r s2 => ret (fst r, S (snd r)) s2 | Err e => Err e | Fuel => Fuel end)
    = all_loop (satisfy_all_impl c fuel v (S level)) i st 0 sons s).
  { intros i sons s'. rewrite <- X. by destruct (all_loop_calls (satisfy_all_calls c fuel v (S level)) i st 0 sons s') as [[? ?]| |]. }
  destruct (n_body n) as [w|i sons].
  - destruct (negb (w =? v)%Z); [done|]. destruct (level =? nvars c); [done|].
    destruct (index_at level s1) as [j s2| |]; [|done|done]. destruct (of_opt EOob (c_doms c !! j) s2) as [d s3| |]; [|done|done].
    apply Y.
  - destruct (level =? nvars c); [done|]. destruct (get_level c a s1) as [l s2| |]; [|done|done].
    destruct (level <? l); [|apply Y].
    destruct (index_at level s2) as [j s3| |]; [|done|done]. destruct (of_opt EOob (c_doms c !! j) s3) as [d s4| |]; [|done|done].
    apply Y.
Qed.

Lemma work_forget c v : forall st a s, forget (count_work c v st a s) = count_op c v (fst st) a s.
Proof.
  intros st a s. unfold count_work, count_op, bind. destruct (getn a s) as [n s1| |]; [|done|done].
  destruct (n_body n) as [w|i sons]; [done|]. destruct (get_level c a s1) as [l s2| |]; [|done|done].
  generalize (Work (S (w_nodes (snd st))) (w_sons (snd st)) (w_product (snd st))). generalize (<[a := 0%Z]> (fst st)). clear.
  revert s2. induction sons as [|b sons IH]; intros s data w; [done|]. cbn [foldM fst snd]. unfold bind.
  destruct (get_level c b s) as [lb s2| |]; [|done|done]. destruct (domain_product c (S l) lb s2) as [d s3| |]; [|done|done].
  destruct (of_opt EOverflow (chk min64 max64 (data_at data b * d)) s3) as [x s4| |]; [|done|done].
  destruct (of_opt EOverflow (chk min64 max64 (data_at data a + x)) s4) as [y s5| |]; [|done|done]. apply IH.
Qed.

Lemma foldM_forget {A B X} (f' : A * B -> X -> M (A * B)) (f : A -> X -> M A) l :
  (forall st x s, forget (f' st x s) = f (fst st) x s) -> forall st s, forget (foldM f' st l s) = foldM f (fst st) l s.
Proof.
  intros H. induction l as [|x l IH]; intros st s; [done|]. cbn [foldM]. unfold bind. rewrite <- H.
  destruct (f' st x s) as [st1 s1| |]; [apply IH|done|done].
Qed.

Lemma trav_post_forget {A B} (op' : A * B -> positive -> M (A * B)) (op : A -> positive -> M A) fuel :
  (forall st a s, forget (op' st a s) = op (fst st) a s) ->
  forall st a s, forget (trav_post op' fuel st a s) = trav_post op fuel (fst st) a s.
Proof.
  intros H. induction fuel as [|fuel IH]; intros st a s; [done|]. cbn [trav_post]. unfold bind.
  destruct (toggle_mark a s) as [u s1| |]; [|done|done]. destruct (getn a s1) as [n s2| |]; [|done|done].
  destruct (n_body n) as [v|i sons]; [apply H|].
  rewrite <- (foldM_forget (fun acc b s => match marks_differ a b s with
    Ok d s1 => (if d then trav_post op' fuel acc b else ret acc) s1 | Err e => Err e | Fuel => Fuel end)).
  - destruct (foldM _ st sons s2) as [st1 s3| |]; [apply H|done|done].
  - intros st' b s'. destruct (marks_differ a b s') as [d s3| |]; [|done|done]. destruct d; [apply IH|done].
Qed.

Lemma count_forget c v a s : forget (satisfy_count_work c v a s) = satisfy_count c v a s.
Proof.
  unfold satisfy_count_work, satisfy_count, traverse_post, bind. destruct (value_check c v s) as [u s1| |]; [|done|done].
  change (∅ : gmap positive Z) with (fst (∅ : gmap positive Z, Work 0 0 0)) at 2. rewrite <- (trav_post_forget (count_work c v)) by apply work_forget.
  destruct (trav_post (count_work c v) (depth c) (∅, Work 0 0 0) a s1) as [r s2| |]; [cbn [forget fst snd ret]|done|done].
  unfold ret at 1 3. destruct (trav_post no_op (depth c) tt a s2) as [u' s3| |]; [cbn [forget fst snd ret]|done|done].
  destruct (get_level c a s3) as [l s4| |]; [|done|done]. destruct (domain_product c 0 l s4) as [p s5| |]; [|done|done].
  unfold ret. by destruct (of_opt EOverflow (chk min64 max64 (data_at (fst r) a * p)) s5) as [q s6| |].
Qed.

Lemma domain_product_state c from to s : match domain_product c from to s with Ok _ t => t = s | _ => True end.
Proof.
  unfold domain_product. destruct (c_fixed c) as [m|].
  - destruct (m =? 2)%Z; unfold of_opt; by destruct (_ : option Z).
  - generalize (to - from). intros k. generalize 1%Z. revert from. induction k as [|k IH]; intros from p; [done|].
    cbn [product_loop]. unfold bind, index_at. destruct (s_l2i s !! from) as [i|]; [|exact I]. cbn [of_opt ret].
    destruct (c_doms c !! i) as [d|]; [|exact I]. cbn [of_opt ret].
    destruct (chk min64 max64 (p * Z.of_nat d)) as [q|]; [|exact I]. apply IH.
Qed.

Lemma evaluate_steps_le c fuel vals : forall a s r t, evaluate_steps c fuel vals a s = Ok r t -> 1 <= snd r <= fuel.
Proof.
  induction fuel as [|fuel IH]; intros a s r t E; [done|]. cbn [evaluate_steps] in E. unfold bind in E.
  destruct (getn a s) as [n s1| |]; [|done|done]. destruct (n_body n) as [v|i sons]; [injection E as <- <-; simpl; lia|].
  destruct (of_opt EOob (vals !! i) s1) as [k s2| |]; [|done|done]. destruct (_ && _); [done|].
  destruct (of_opt EOob (sons !! k) s2) as [b s3| |]; [|done|done].
  destruct (evaluate_steps c fuel vals b s3) as [q s4| |] eqn:Eq; [|done|done]. injection E as <- <-. simpl.
  apply IH in Eq. lia.
Qed.

Section cost.
Context (c : cfg) (opsem : Z -> option (Z -> Z -> Z)) (strict : bool) (g : ghost) (s : st) (Hc : wf_cfg c) (C : calm c opsem strict g s).
Notation held := (held g (s_heap s)).
Notation rk := (rank c g (s_heap s)).
Notation order := (s_l2i s).
Notation L := (live (s_heap s)).

(** ** Functions that every variable changes *)

Definition sensitive (l : nat) (F : asg -> Z) : Prop := forall rho i, valid c rho -> i ∈ drop l order ->
  F (upd rho i 0) <> F (upd rho i 1).

Section full.
Context (H2 : forall i, i < nvars c -> dom c i = 2) (v : Z).

Lemma order_len : length order = nvars c.
Proof. apply (pm_l2i c s). apply C. Qed.

Lemma sensitive_level a l : held a -> l <= rk a -> l < nvars c -> sensitive l (nval c s a) -> rk a = l.
Proof.
  intros Ha Hl Hn HS. destruct (decide (rk a = l)) as [|Hne]; [done|]. exfalso.
  destruct (lookup_lt_is_Some_2 order l) as [i Hi]; [rewrite order_len; lia|].
  assert (Hin : i < nvars c) by (apply (order_elem c opsem strict g s C); by eapply elem_of_list_lookup_2).
  apply (HS (fun _ => 0) i).
  - intros j Hj. rewrite (H2 j Hj). lia.
  - apply elem_of_list_lookup. exists 0. by rewrite lookup_drop, Nat.add_0_r.
  - apply (nval_depends c opsem strict g s C a (S l) Ha ltac:(lia)).
    + apply upd_valid; [|rewrite H2 by done; lia]. intros j Hj. rewrite (H2 j Hj). lia.
    + apply upd_valid; [|rewrite H2 by done; lia]. intros j Hj. rewrite (H2 j Hj). lia.
    + intros j Hj. assert (j <> i). { intros ->. pose proof (order_NoDup c opsem strict g s C) as ND.
        apply elem_of_list_lookup in Hj as (m&Hm). rewrite lookup_drop in Hm. pose proof (NoDup_lookup _ _ _ _ ND Hi Hm). lia. }
      by rewrite !upd_other by done.
Qed.

(** a son computes the node's function with the variable fixed *)
Lemma son_nval a i sons k b rho : held a -> L a = Some (Int i sons) -> sons !! k = Some b -> valid c rho ->
  nval c s b rho = nval c s a (upd rho i k).
Proof.
  intros Ha E Hk Hv. destruct (int_facts c opsem strict g s C a i sons Ha E) as (Hi&Hl&Hr&Ho&Hs).
  assert (Hb : b ∈ sons) by (by eapply elem_of_list_lookup_2). destruct (Hs b Hb) as [Hbh Hbr].
  assert (Hkd : k < dom c i) by (rewrite <- Hl; by eapply lookup_lt_Some).
  rewrite (nval_int c opsem strict g s C a (upd rho i k) i sons b Ha (upd_valid c rho i k Hv Hkd) E); [|by rewrite upd_same].
  apply (nval_depends c opsem strict g s C b (S (rk a)) Hbh ltac:(lia)); [done|by apply upd_valid|].
  intros j Hj. rewrite upd_other; [done|]. intros ->. pose proof (order_NoDup c opsem strict g s C) as ND.
  apply elem_of_list_lookup in Hj as (m&Hm). rewrite lookup_drop in Hm. pose proof (NoDup_lookup _ _ _ _ ND Ho Hm). lia.
Qed.

Lemma son_sensitive a i sons k b : held a -> L a = Some (Int i sons) -> sons !! k = Some b ->
  sensitive (rk a) (nval c s a) -> sensitive (S (rk a)) (nval c s b).
Proof.
  intros Ha E Hk HS rho j Hv Hj. destruct (int_facts c opsem strict g s C a i sons Ha E) as (Hi&Hl&Hr&Ho&Hs).
  assert (Hkd : k < dom c i) by (rewrite <- Hl; by eapply lookup_lt_Some).
  assert (Hjn : j < nvars c) by (by eapply (drop_elem c opsem strict g s C)).
  assert (Hji : j <> i). { intros ->. pose proof (order_NoDup c opsem strict g s C) as ND.
    apply elem_of_list_lookup in Hj as (m&Hm). rewrite lookup_drop in Hm. pose proof (NoDup_lookup _ _ _ _ ND Ho Hm). lia. }
  assert (Hvj : forall m, m < 2 -> valid c (upd rho j m)) by (intros m Hm; apply upd_valid; [done|by rewrite H2]).
  assert (X : forall m, m < 2 -> nval c s b (upd rho j m) = nval c s a (upd (upd rho i k) j m)).
  { intros m Hm. rewrite (son_nval a i sons k b _ Ha E Hk (Hvj m Hm)).
    apply (nval_depends c opsem strict g s C a 0 Ha ltac:(lia)).
    - apply upd_valid; [by apply Hvj|done].
    - apply upd_valid; [by apply upd_valid|by rewrite H2].
    - intros x _. unfold upd. repeat case_decide; congruence. }
  rewrite !X by lia. apply HS; [by apply upd_valid|]. rewrite (drop_S _ _ _ Ho). by right.
Qed.

(** the two sons of an internal node *)
Lemma two_sons a i sons : held a -> L a = Some (Int i sons) -> exists b0 b1, sons = [b0; b1].
Proof.
  intros Ha E. destruct (int_facts c opsem strict g s C a i sons Ha E) as (Hi&Hl&_). rewrite (H2 i Hi) in Hl.
  destruct sons as [|b0 [|b1 [|]]]; try done. eauto.
Qed.

Definition paths (l : nat) : nat := 2 ^ S (nvars c - l) - 1.
Lemma paths_last : paths (nvars c) = 1.
Proof. unfold paths. by rewrite Nat.sub_diag. Qed.
Lemma paths_step l : l < nvars c -> paths l = S (paths (S l) + paths (S l)).
Proof.
  intros Hl. unfold paths. replace (nvars c - l) with (S (nvars c - S l)) by lia.
  rewrite (Nat.pow_succ_r' 2 (S (nvars c - S l))). pose proof (Nat.pow_nonzero 2 (S (nvars c - S l)) ltac:(lia)). lia.
Qed.

(** the kinds of nodes of such a function *)
Lemma sensitive_node a l : held a -> l <= rk a -> sensitive l (nval c s a) ->
  (exists w, l = nvars c /\ L a = Some (Term w)) \/
  (exists i b0 b1, l < nvars c /\ rk a = l /\ order !! l = Some i /\ i < nvars c /\ L a = Some (Int i [b0; b1]) /\
    forall k b, [b0; b1] !! k = Some b -> held b /\ S l <= rk b /\ sensitive (S l) (nval c s b) /\
      forall rho, valid c rho -> nval c s b rho = nval c s a (upd rho i k)).
Proof.
  intros Ha Hl HS. pose proof (held_rank c opsem strict g s C a Ha) as Hr.
  destruct (held_body c opsem strict g s C a Ha) as [[w|i sons] E].
  - left. exists w. split; [|done]. destruct (decide (l = nvars c)); [done|].
    pose proof (sensitive_level a l Ha Hl ltac:(lia) HS) as X. rewrite (rank_term c g _ _ w) in X; [lia|apply C|done].
  - right. destruct (int_facts c opsem strict g s C a i sons Ha E) as (Hi&_&Hrn&Ho&Hs).
    pose proof (sensitive_level a l Ha Hl ltac:(lia) HS) as X. destruct (two_sons a i sons Ha E) as (b0&b1&->).
    exists i, b0, b1. rewrite <- X. split; [done|]. split; [done|]. split; [done|]. split; [done|]. split; [done|].
    intros k b Hk. destruct (Hs b ltac:(by eapply elem_of_list_lookup_2)) as [Hb Hbr]. split; [done|]. split; [lia|]. split.
    + apply (son_sensitive a i [b0; b1] k b Ha E Hk). by rewrite X.
    + intros rho Hv. by apply (son_nval a i [b0; b1] k b rho Ha E Hk).
Qed.

(** ** satisfy_one and satisfy_all visit all paths of a function without the value *)

Definition misses (a : positive) : Prop := forall rho, valid c rho -> nval c s a rho <> v.

Lemma misses_son a i k b : i < nvars c -> k < 2 -> (forall rho, valid c rho -> nval c s b rho = nval c s a (upd rho i k)) -> misses a -> misses b.
Proof. intros Hi Hk E Hm rho Hv. rewrite E by done. apply Hm, upd_valid; [done|by rewrite H2]. Qed.

Lemma zero_valid : valid c (fun _ => 0).
Proof. intros j Hj. rewrite (H2 j Hj). lia. Qed.

Lemma one_full fuel : forall a l vars, held a -> l <= rk a -> nvars c - l < fuel -> sensitive l (nval c s a) -> misses a ->
  nvars c <= length vars ->
  exists vars', satisfy_one_calls fuel v vars a s = Ok (vars', false, paths l) s /\ length vars' = length vars.
Proof.
  induction fuel as [|fuel IH]; intros a l vars Ha Hl Hf HS Hm Hlen; [lia|]. cbn [satisfy_one_calls].
  destruct (getn_s c opsem strict g s C a Ha) as (n&G&E). rewrite (bind_ok _ _ _ _ _ G).
  destruct (sensitive_node a l Ha Hl HS) as [(w&->&E')|(i&b0&b1&Hln&Hr&Ho&Hi&E'&Hsons)]; rewrite E in E'; injection E' as E'; rewrite E' in E |- *.
  - exists vars. split; [|done]. rewrite paths_last. destruct (Z.eqb_spec w v) as [->|]; [|done].
    exfalso. apply (Hm _ zero_valid). apply (nval_term c opsem strict g s C a _ v Ha zero_valid E).
  - destruct (Hsons 0 b0 eq_refl) as (Hb0&Hr0&HS0&EN0). destruct (Hsons 1 b1 eq_refl) as (Hb1&Hr1&HS1&EN1).
    cbn [first_son_calls].
    destruct (lookup_lt_is_Some_2 vars i) as [z Hz]; [lia|]. rewrite Hz.
    destruct (IH b0 (S l) (<[i := 0]> vars) Hb0 Hr0 ltac:(lia) HS0 (misses_son a i 0 b0 Hi ltac:(lia) EN0 Hm)) as (w0&E0&L0); [by rewrite insert_length|].
    rewrite insert_length in L0. destruct (lookup_lt_is_Some_2 w0 i) as [z1 Hz1]; [lia|].
    destruct (IH b1 (S l) (<[i := 1]> w0) Hb1 Hr1 ltac:(lia) HS1 (misses_son a i 1 b1 Hi ltac:(lia) EN1 Hm)) as (w1&E1&L1); [rewrite insert_length; lia|].
    rewrite insert_length in L1. exists w1. split; [|lia]. unfold bind. unfold of_opt at 1. unfold ret at 1. rewrite E0. cbn [fst snd].
    rewrite Hz1. unfold of_opt at 1, ret at 1. rewrite E1. cbn [fst snd]. unfold ret. cbn [fst snd]. rewrite (paths_step l Hln). do 3 f_equal. lia.
Qed.

Lemma all_full fuel : forall a l vars out, held a -> l <= rk a -> nvars c - l < fuel -> sensitive l (nval c s a) -> misses a ->
  nvars c <= length vars ->
  exists vars', satisfy_all_calls c fuel v l (vars, out) a s = Ok (vars', out, paths l) s /\ length vars' = length vars.
Proof.
  induction fuel as [|fuel IH]; intros a l vars out Ha Hl Hf HS Hm Hlen; [lia|]. cbn [satisfy_all_calls].
  destruct (getn_s c opsem strict g s C a Ha) as (n&G&E). rewrite (bind_ok _ _ _ _ _ G).
  destruct (sensitive_node a l Ha Hl HS) as [(w&->&E')|(i&b0&b1&Hln&Hr&Ho&Hi&E'&Hsons)]; rewrite E in E'; injection E' as E'; rewrite E' in E |- *.
  - exists vars. split; [|done]. rewrite paths_last. destruct (Z.eqb_spec w v) as [->|]; [|done].
    exfalso. apply (Hm _ zero_valid). apply (nval_term c opsem strict g s C a _ v Ha zero_valid E).
  - destruct (Hsons 0 b0 eq_refl) as (Hb0&Hr0&HS0&EN0). destruct (Hsons 1 b1 eq_refl) as (Hb1&Hr1&HS1&EN1).
    destruct (Nat.eqb_spec l (nvars c)); [lia|]. rewrite (bind_ok _ _ _ _ _ (level_s c opsem strict g s C a Ha)), Hr, Nat.ltb_irrefl.
    cbn [all_loop_calls].
    destruct (lookup_lt_is_Some_2 vars i) as [z Hz]; [lia|]. cbn [fst snd]. rewrite Hz.
    destruct (IH b0 (S l) (<[i := 0]> vars) out Hb0 Hr0 ltac:(lia) HS0 (misses_son a i 0 b0 Hi ltac:(lia) EN0 Hm)) as (w0&E0&L0); [by rewrite insert_length|].
    rewrite insert_length in L0. destruct (lookup_lt_is_Some_2 w0 i) as [z1 Hz1]; [lia|].
    destruct (IH b1 (S l) (<[i := 1]> w0) out Hb1 Hr1 ltac:(lia) HS1 (misses_son a i 1 b1 Hi ltac:(lia) EN1 Hm)) as (w1&E1&L1); [rewrite insert_length; lia|].
    rewrite insert_length in L1. exists w1. split; [|lia]. unfold bind. unfold of_opt at 1. unfold ret at 1. rewrite E0. cbn [fst snd].
    rewrite Hz1. unfold of_opt at 1, ret at 1. rewrite E1. cbn [fst snd]. unfold ret. cbn [fst snd]. rewrite (paths_step l Hln). do 3 f_equal. lia.
Qed.
End full.

(** ** satisfy_one in a reduced diagram of a function with the values 0 and 1 *)

Section boolean.
Context (Cn : g_cn g = true) (v : Z) (Hv01 : v = 0%Z \/ v = 1%Z).

Lemma internal_not_constant a i sons : held a -> L a = Some (Int i sons) ->
  exists rho sigma, valid c rho /\ valid c sigma /\ nval c s a rho <> nval c s a sigma.
Proof.
  intros Ha E. destruct (proj1 (occurs_essential c opsem strict g s Hc C Cn a i Ha)) as (_&rho&k&k'&Hv&Hk&Hk'&Hne).
  - exists a, sons. split; [constructor|done].
  - exists (upd rho i k), (upd rho i k'). split; [by apply upd_valid|]. split; [by apply upd_valid|done].
Qed.

Definition two_valued (a : positive) : Prop := forall rho, valid c rho -> nval c s a rho = 0%Z \/ nval c s a rho = 1%Z.

Lemma two_valued_hits a i sons : held a -> L a = Some (Int i sons) -> two_valued a -> exists rho, valid c rho /\ nval c s a rho = v.
Proof.
  intros Ha E HT. destruct (internal_not_constant a i sons Ha E) as (rho&sigma&H1&H2&Hne).
  destruct (decide (nval c s a rho = v)) as [|Hn]; [by exists rho|]. exists sigma. split; [done|].
  destruct (HT rho H1), (HT sigma H2), Hv01; congruence.
Qed.

Lemma two_valued_son a i sons k b : held a -> L a = Some (Int i sons) -> sons !! k = Some b -> two_valued a -> two_valued b.
Proof.
  intros Ha E Hk HT rho Hv. rewrite (son_nval a i sons k b rho Ha E Hk Hv). apply HT.
  destruct (int_facts c opsem strict g s C a i sons Ha E) as (Hi&Hl&_). apply upd_valid; [done|]. rewrite <- Hl. by eapply lookup_lt_Some.
Qed.

(** the sizes of the domains of the levels from [l] on *)
Definition widths (l : nat) : nat := list_sum (map (dom c) (drop l order)).

Lemma widths_step l i : order !! l = Some i -> widths l = dom c i + widths (S l).
Proof. intros H. unfold widths. rewrite (drop_S _ _ _ H). done. Qed.
Lemma widths_mono l m : l <= m -> widths m <= widths l.
Proof.
  induction 1 as [|m Hm IH]; [done|]. etransitivity; [|exact IH]. destruct (order !! m) as [i|] eqn:E.
  - rewrite (widths_step m i E). lia.
  - unfold widths. apply lookup_ge_None in E. rewrite !drop_ge by lia. lia.
Qed.

Lemma one_boolean fuel : forall a vars, held a -> nvars c - rk a < fuel -> two_valued a -> vals_ok c vars ->
  exists vars' b k, satisfy_one_calls fuel v vars a s = Ok (vars', b, k) s /\ vals_ok c vars' /\
    (if b : bool then k <= S (widths (rk a)) else k = 1 /\ forall rho, valid c rho -> nval c s a rho <> v).
Proof.
  induction fuel as [|fuel IH]; intros a vars Ha Hf HT Hvars; [lia|]. cbn [satisfy_one_calls].
  destruct (getn_s c opsem strict g s C a Ha) as (n&G&E). rewrite (bind_ok _ _ _ _ _ G).
  destruct (n_body n) as [w|i sons].
  - exists vars, (w =? v)%Z, 1. split; [done|]. split; [done|]. destruct (Z.eqb_spec w v) as [->|Hne]; [lia|]. split; [done|].
    intros rho Hv. by rewrite (nval_term c opsem strict g s C a rho w Ha Hv E).
  - destruct (int_facts c opsem strict g s C a i sons Ha E) as (Hi&Hl&Hr&Ho&Hs).
    assert (X : forall rest k vars, vals_ok c vars -> drop k sons = rest -> k + length rest = dom c i ->
      exists vars' b m, first_son_calls (satisfy_one_calls fuel v) i vars k rest s = Ok (vars', b, m) s /\ vals_ok c vars' /\
        (if b : bool then m <= length rest + widths (S (rk a)) else forall x rho, x ∈ rest -> valid c rho -> nval c s x rho <> v)).
    { induction rest as [|b rest IHr]; intros k vs Hvs Hd Hk; cbn [first_son_calls].
      - exists vs, false, 0. split; [done|]. split; [done|]. intros x rho Hx. by apply elem_of_nil in Hx.
      - assert (Hbk : sons !! k = Some b) by (rewrite <- (Nat.add_0_r k), <- lookup_drop, Hd; done).
        assert (Hrest : drop (S k) sons = rest) by (rewrite (drop_S _ _ _ Hbk) in Hd; congruence).
        simpl in Hk. destruct (Hs b ltac:(by eapply elem_of_list_lookup_2)) as [Hb Hbr].
        destruct (lookup_lt_is_Some_2 vs i) as [z Hz]; [destruct Hvs as [-> _]; lia|]. rewrite Hz, (bind_ok _ _ _ z s) by done.
        assert (Hvs' : vals_ok c (<[i := k]> vs)).
        { destruct Hvs as [HL HV]. split; [by rewrite insert_length|]. intros j Hj. unfold of_vals. destruct (decide (j = i)) as [->|Hji].
          - rewrite (nth_lookup_Some _ _ _ k); [lia|]. apply list_lookup_insert. lia.
          - specialize (HV j Hj). unfold of_vals in HV. destruct (lookup_lt_is_Some_2 vs j) as [y Hy]; [lia|].
            rewrite (nth_lookup_Some vs j 0 y Hy) in HV. rewrite (nth_lookup_Some _ _ _ y); [done|]. by rewrite list_lookup_insert_ne. }
        destruct (IH b _ Hb ltac:(lia) (two_valued_son a i sons k b Ha E Hbk HT) Hvs') as (vs1&r&m&E1&Hvs1&Hr1).
        rewrite (bind_ok _ _ _ _ _ E1). cbn [fst snd]. destruct r.
        + exists vs1, true, m. split; [done|]. split; [done|]. pose proof (widths_mono (S (rk a)) (rk b) ltac:(lia)). simpl. lia.
        + destruct (IHr (S k) vs1 Hvs1 Hrest ltac:(lia)) as (vs2&r2&m2&E2&Hvs2&Hr2). rewrite (bind_ok _ _ _ _ _ E2).
          exists vs2, r2, (m + m2). split; [by destruct r2|]. split; [done|]. destruct Hr1 as [-> Hr1]. destruct r2.
          * simpl. lia.
          * intros x rho Hx Hv. apply elem_of_cons in Hx as [->|Hx]; [by apply Hr1|by apply Hr2]. }
    destruct (X sons 0 vars Hvars eq_refl) as (vs&b&m&E1&Hvs&Hb); [lia|]. rewrite (bind_ok _ _ _ _ _ E1).
    exists vs, b, (S m). split; [by destruct b|]. split; [done|]. destruct b.
    + rewrite (widths_step _ _ Ho), <- Hl. lia.
    + exfalso. destruct (two_valued_hits a i sons Ha E HT) as (rho&Hv&EV).
      destruct (lookup_lt_is_Some_2 sons (rho i)) as [y Hy]; [rewrite Hl; by apply Hv|].
      apply (Hb y rho); [by eapply elem_of_list_lookup_2|done|].
      by rewrite <- (nval_int c opsem strict g s C a rho i sons y Ha Hv E Hy).
Qed.
End boolean.

(** ** satisfy_count *)

Definition degree (x : positive) : nat := match L x with Some (Int _ sons) => length sons | _ => 0 end.
Definition skips (x : positive) : nat := match L x with
  | Some (Int _ sons) => list_sum (map (fun b => product_steps c (S (rk x)) (rk b)) sons) | _ => 0 end.

Lemma count_work_ok v V a data data' w : held a -> count_op c v data a (fs V s) = Ok data' (fs V s) ->
  count_work c v (data, w) a (fs V s)
    = Ok (data', Work (S (w_nodes w)) (w_sons w + degree a) (w_product w + skips a)) (fs V s).
Proof.
  intros Ha E0. pose proof (work_forget c v (data, w) a (fs V s)) as F. cbn [fst] in F. rewrite E0 in F.
  destruct (count_work c v (data, w) a (fs V s)) as [[d1 w1] t| |] eqn:E1; [|done|done]. injection F as -> ->. f_equal. f_equal.
  unfold count_work in E1. destruct (getn_at c opsem strict g s C a V Ha) as (n&G&E). rewrite (bind_ok _ _ _ _ _ G) in E1.
  unfold degree, skips. rewrite E. destruct (n_body n) as [z|i sons].
  - injection E1 as _ <-. simpl. f_equal; lia.
  - rewrite (bind_ok _ _ _ _ _ (level_at c opsem strict g s C a V Ha)) in E1. cbn [fst snd] in E1.
    destruct (int_facts c opsem strict g s C a i sons Ha E) as (_&_&_&_&Hs). clear E E0 G.
    assert (X : forall rest data w, (forall b, b ∈ rest -> held b) ->
      foldM (fun st b =>
        let data := fst st in
        let* lb := get_level c b in
        let* diff := domain_product c (S (rk a)) lb in
        let* x := of_opt EOverflow (chk min64 max64 (data_at data b * diff)) in
        let* y := of_opt EOverflow (chk min64 max64 (data_at data a + x)) in
        ret (<[a := y]> data, Work (w_nodes (snd st)) (S (w_sons (snd st))) (w_product (snd st) + product_steps c (S (rk a)) lb)))
        (data, w) rest (fs V s) = Ok (data', w1) (fs V s) ->
      w1 = Work (w_nodes w) (w_sons w + length rest) (w_product w + list_sum (map (fun b => product_steps c (S (rk a)) (rk b)) rest))).
    { clear E1. induction rest as [|b rest IHr]; intros dt w0 Hh E; cbn [foldM] in E.
      - injection E as _ <-. destruct w0. simpl. f_equal; lia.
      - cbn [fst snd] in E. unfold bind in E. rewrite (level_at c opsem strict g s C b V (Hh b ltac:(by left))) in E.
        destruct (domain_product c (S (rk a)) (rk b) (fs V s)) as [d t| |] eqn:ED; [|done|done].
        assert (t = fs V s) as ->.
        { pose proof (domain_product_state c (S (rk a)) (rk b) (fs V s)) as X. by rewrite ED in X. }
        destruct (chk min64 max64 (data_at dt b * d)) as [x|]; [|done]. simpl in E.
        destruct (chk min64 max64 (data_at dt a + x)) as [y|]; [|done]. simpl in E.
        apply IHr in E; [|intros; apply Hh; by right]. rewrite E. simpl. f_equal; lia. }
    apply X in E1; [|intros b Hb; by apply Hs]. rewrite E1. done.
Qed.

Lemma satisfy_count_work_ok (Cl : clean s) v a : (Z.of_nat (prodl c order) <= product_limit c)%Z -> held a -> value_ok c v ->
  exists D k, NoDup D /\ (forall x, x ∈ D <-> reach L a x) /\ satisfy_count c v a s = Ok k s /\
    satisfy_count_work c v a s = Ok (k, Work (length D) (list_sum (map degree D)) (list_sum (map skips D))) s.
Proof.
  intros Hfit Ha Hok.
  destruct (traverse_post_spec s a false rk (nvars c) (held_uniform c opsem strict g s C Cl a Ha) (held_ranked c opsem strict g s C a Ha) c
    (count_work c v) (fun D st => counted c g s v D (fst st) /\
      snd st = Work (length D) (list_sum (map degree D)) (list_sum (map skips D)))
    ltac:(lia) (∅, Work 0 0 0)) as (D&[data w]&E&[_ Hw]&ND&HD).
  - intros V D [dt w] x Hx HxD Hs [Hacc Hw]. cbn [fst snd] in *.
    destruct (count_op_ok c opsem strict g s Hc C Cl v Hfit V D dt x) as (dt'&E&Hdt); try done; [by eapply held_reach|].
    eexists. split; [apply (count_work_ok v V x dt dt' w); [by eapply held_reach|exact E]|]. split; [exact Hdt|]. cbn [snd].
    rewrite Hw. cbn [w_nodes w_sons w_product]. rewrite app_length, !map_app, !list_sum_app. simpl. f_equal; lia.
  - split; [|done]. intros x Hx. by apply elem_of_nil in Hx.
  - cbn [snd] in Hw. subst w. pose proof (count_forget c v a s) as F. rewrite (satisfy_count_ok c opsem strict g s Hc C Cl v Hfit a Ha Hok) in F |- *.
    exists D. eexists. split; [done|]. split; [done|]. split; [done|].
    unfold satisfy_count_work in *. rewrite (bind_ok _ _ _ _ _ (value_check_ok c v s Hok)) in F |- *.
    rewrite (bind_ok _ _ _ _ _ E) in F |- *. rewrite (bind_ok _ _ _ _ _ (level_s c opsem strict g s C a Ha)) in F |- *. unfold bind in *.
    destruct (domain_product c 0 (rk a) s) as [p t| |]; [|done|done].
    destruct (of_opt EOverflow (chk min64 max64 (data_at (fst (data, Work (length D) (list_sum (map degree D)) (list_sum (map skips D)))) a * p)) t) as [q t'| |]; [|done|done].
    simpl in F. injection F as -> ->. done.
Qed.

Lemma degree_le x : held x -> degree x <= list_max (c_doms c).
Proof.
  intros Hx. unfold degree. destruct (L x) as [[w|i sons]|] eqn:E; [lia| |lia].
  destruct (int_facts c opsem strict g s C x i sons Hx E) as (Hi&->&_).
  pose proof (proj1 (list_max_le (c_doms c) (list_max (c_doms c))) (Nat.le_refl _)) as HM. rewrite Forall_forall in HM. apply HM.
  apply (elem_of_list_lookup_2 _ i), dom_lookup. done.
Qed.

Lemma skips_le x : held x -> skips x <= degree x * nvars c.
Proof.
  intros Hx. unfold skips, degree. destruct (L x) as [[w|i sons]|] eqn:E; [lia| |lia]. apply list_sum_le. intros b Hb.
  destruct (int_facts c opsem strict g s C x i sons Hx E) as (_&_&_&_&Hs). apply elem_of_list_In in Hb. destruct (Hs b Hb) as [_ X].
  unfold product_steps. destruct (c_fixed c); lia.
Qed.

(** ** The conjunction has a node on every level with an arc to the bottom *)

Fixpoint triangle (m : nat) : nat := match m with O => 0 | S m => m + triangle m end.

Section conj.
Context (H2 : forall i, i < nvars c -> dom c i = 2) (Cn : g_cn g = true) (Hfix : c_fixed c = None).

Definition all_ones (l : nat) (rho : asg) : Z := if forallb (fun i => rho i =? 1) (drop l order) then 1%Z else 0%Z.

Lemma all_ones_ext l rho sigma : (forall j, j ∈ drop l order -> rho j = sigma j) -> all_ones l rho = all_ones l sigma.
Proof.
  intros H. unfold all_ones. enough (forallb (fun i => rho i =? 1) (drop l order) = forallb (fun i => sigma i =? 1) (drop l order)) as -> by done.
  induction (drop l order) as [|j r IH]; [done|]. simpl. rewrite (H j) by (by left). f_equal. apply IH. intros k Hk. apply H. by right.
Qed.

Lemma conj_chain m : forall a l, m = nvars c - l -> held a -> l <= rk a ->
  (forall rho, valid c rho -> nval c s a rho = all_ones l rho) ->
  exists K, NoDup K /\ (forall x, x ∈ K -> reach L a x /\ l <= rk x) /\ triangle m <= list_sum (map skips K).
Proof.
  induction m as [|m IH]; intros a l Hm Ha Hl HF.
  { exists []. split; [constructor|]. split; [intros x Hx; by apply elem_of_nil in Hx|done]. }
  destruct (lookup_lt_is_Some_2 order l) as [i Hi]; [rewrite order_len; lia|].
  assert (Hin : i < nvars c) by (apply (order_elem c opsem strict g s C); by eapply elem_of_list_lookup_2).
  assert (Hni : i ∉ drop (S l) order).
  { intros Hj. pose proof (order_NoDup c opsem strict g s C) as ND.
    apply elem_of_list_lookup in Hj as (k&Hk). rewrite lookup_drop in Hk. pose proof (NoDup_lookup _ _ _ _ ND Hi Hk). lia. }
  assert (Hones : valid c (fun _ => 1)) by (intros j Hj; rewrite (H2 j Hj); lia).
  assert (Hr : rk a = l).
  { destruct (decide (rk a = l)) as [|Hne]; [done|]. exfalso.
    assert (Hu : valid c (upd (fun _ => 1) i 0)) by (apply upd_valid; [done|rewrite H2 by done; lia]).
    assert (E : nval c s a (fun _ => 1) = nval c s a (upd (fun _ => 1) i 0)).
    { apply (nval_depends c opsem strict g s C a (S l) Ha ltac:(lia)); [done|done|]. intros j Hj. rewrite upd_other; [done|]. by intros ->. }
    rewrite !HF in E by done. unfold all_ones in E. rewrite (drop_S _ _ _ Hi) in E. cbn [forallb] in E. rewrite upd_same in E. simpl in E.
    replace (forallb (fun _ => true) (drop (S l) order)) with true in E; [done|].
    symmetry. clear. by induction (drop (S l) order). }
  destruct (held_body c opsem strict g s C a Ha) as [[w|i' sons] E].
  { rewrite (rank_term c g _ _ w) in Hr; [lia|apply C|done]. }
  destruct (int_facts c opsem strict g s C a i' sons Ha E) as (_&Hlen&_&Ho&Hs). rewrite Hr in Ho. assert (i' = i) as -> by congruence.
  rewrite (H2 i Hin) in Hlen. destruct sons as [|b0 [|b1 [|]]]; try done.
  destruct (Hs b0 ltac:(by left)) as [Hb0 Hr0]. destruct (Hs b1 ltac:(right; by left)) as [Hb1 Hr1].
  assert (HN : forall k b, [b0; b1] !! k = Some b -> forall rho, valid c rho -> nval c s b rho = all_ones l (upd rho i k)).
  { intros k b Hk rho Hv. rewrite (son_nval a i [b0; b1] k b rho Ha E Hk Hv). apply HF. apply upd_valid; [done|].
    rewrite (H2 i Hin). apply lookup_lt_Some in Hk. done. }
  assert (Rb0 : rk b0 = nvars c).
  { destruct (held_body c opsem strict g s C b0 Hb0) as [[w|i' sons] E0]; [apply (rank_term c g _ _ w); [apply C|done]|].
    exfalso. destruct (internal_not_constant Cn b0 i' sons Hb0 E0) as (rho&sigma&V1&V2&Hne). apply Hne.
    rewrite !(HN 0 b0) by done. unfold all_ones. rewrite (drop_S _ _ _ Hi). cbn [forallb]. by rewrite !upd_same. }
  destruct (IH b1 (S l)) as (K&ND&HK&Hsum); [lia|done|lia| |].
  { intros rho Hv. rewrite (HN 1 b1) by done. unfold all_ones at 1. rewrite (drop_S _ _ _ Hi). cbn [forallb]. rewrite upd_same. simpl.
    apply (all_ones_ext (S l)). intros j Hj. rewrite upd_other; [done|]. by intros ->. }
  exists (a :: K). split; [|split].
  - apply NoDup_cons. split; [|done]. intros Hin'. destruct (HK a Hin') as [_ X]. lia.
  - intros x Hx. apply elem_of_cons in Hx as [->|Hx]; [split; [constructor|lia]|]. destruct (HK x Hx) as [X Y]. split; [|lia].
    eapply reach_step; [exact E|right; by left|done].
  - cbn [map triangle]. change (m + triangle m <= skips a + list_sum (map skips K)).
    assert (m <= skips a); [|lia]. unfold skips. rewrite E. cbn [map]. unfold product_steps. rewrite Hfix, Rb0, Hr. simpl. lia.
Qed.
End conj.
End cost.
