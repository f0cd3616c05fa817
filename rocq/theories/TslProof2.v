(** * Truth tables of libtsl: minimal vectors and probabilities *)

From stdpp Require Import list list_numbers.
From Coq Require Import ZArith Lia Ring.
From Verif Require Import Base Tools Prob ProbSpec Tsl TslProof.

Local Open Scope nat_scope.

(** ** Minimal cut and path vectors *)

Lemma zip_with_map {A} (op : Z -> Z -> Z) (h h' : A -> Z) l : zip_with op (map h l) (map h' l) = map (fun x => op (h x) (h' x)) l.
Proof. induction l as [|x l IH]; simpl; [done|]. by rewrite IH. Qed.

Lemma apply_mutable_ok ds h h' t t' op : represents ds h t -> represents ds h' t' ->
  exists r, apply_mutable t t' op = Val r /\ represents ds (fun x => op (h x) (h' x)) r.
Proof.
  intros [D V O] [D' V' O']. unfold apply_mutable. rewrite V, V', !map_length, Nat.eqb_refl, D, D', bool_decide_true by done.
  cbn [negb]. eexists. split; [done|]. split; cbn [t_dom t_vec t_off]; [done|by rewrite zip_with_map|done].
Qed.

Lemma fold_apply_ok ds op : forall ts hs h t, represents ds h t -> Forall2 (represents ds) hs ts ->
  exists r, o_fold (fun acc d => apply_mutable acc d op) t ts = Val r /\
    represents ds (fun x => fold_left op (map (fun h' => h' x) hs) (h x)) r.
Proof.
  induction ts as [|t' ts IH]; intros hs h t Ht H.
  - apply Forall2_nil_inv_r in H as ->. by exists t.
  - apply Forall2_cons_inv_r in H as (h'&hs'&Ht'&Hts&->). cbn [o_fold map fold_left].
    destruct (apply_mutable_ok ds _ _ _ _ op Ht Ht') as (r&E&Hr). rewrite E. cbn [obind].
    destruct (IH _ _ _ Hr Hts) as (r'&E'&Hr'). exists r'. split; [done|]. done.
Qed.

(** the values of extended derivatives *)
Definition tri (v : Z) : Prop := v = 0%Z \/ v = 1%Z \/ v = Undef.

Lemma pi_conj_tri v w : tri v -> tri w -> tri (pi_conj v w) /\
  (pi_conj v w = 1%Z <-> (v <> 0 /\ w <> 0 /\ (v = 1 \/ w = 1))%Z) /\ (pi_conj v w = Undef <-> v = Undef /\ w = Undef).
Proof. unfold tri, pi_conj, Undef. intros Hv Hw. destruct Hv as [->|[-> | ->]], Hw as [->|[-> | ->]]; cbn; split_and!; lia. Qed.

Lemma pi_fold : forall vs v, Forall tri (v :: vs) ->
  fold_left pi_conj vs v = 1%Z <-> (Forall (fun w => w <> 0%Z) (v :: vs) /\ (1%Z ∈ v :: vs)).
Proof.
  induction vs as [|w vs IH]; intros v H; cbn [fold_left].
  - inversion H as [|? ? Hv _]; subst. rewrite elem_of_list_singleton, Forall_singleton.
    destruct Hv as [->|[-> | ->]]; unfold Undef; split; intros; try lia; by split.
  - inversion H as [|? ? Hv H']; subst. inversion H' as [|? ? Hw H'']; subst.
    destruct (pi_conj_tri v w Hv Hw) as (T&E1&EU). rewrite IH by (by constructor).
    rewrite !Forall_cons, !elem_of_cons. split.
    + intros [[N F] I]. assert (X : v <> 0%Z /\ w <> 0%Z).
      { destruct T as [T|[T|T]]; [done|apply E1 in T; tauto|]. apply EU in T as [-> ->]. by unfold Undef. }
      split; [tauto|]. destruct I as [I|I]; [|tauto]. symmetry in I. apply E1 in I as (_&_&[-> | ->]); tauto.
    + intros [[Nv [Nw F]] I]. split.
      * split; [|done]. intros E0. clear -E0 Hv Hw Nv Nw. revert E0. unfold pi_conj.
        destruct Hv as [->|[-> | ->]], Hw as [->|[-> | ->]]; unfold Undef; try done; cbn; lia.
      * destruct I as [<-|[<-|I]]; [left; symmetry; apply E1; tauto|left; symmetry; apply E1; tauto|by right].
Qed.

Definition dir (g : list nat -> Z) (change : Z -> Z -> bool) (ch : nat * nat * nat) : list nat -> Z :=
  derivative_e g (fst (fst ch)) (snd (fst ch)) (snd ch) change.

Definition valid_change (ds : list nat) (ch : nat * nat * nat) : Prop :=
  exists d, ds !! fst (fst ch) = Some d /\ snd (fst ch) < d /\ snd ch < d.

Lemma dplds_ok ds g t change : small ds -> represents ds g t -> forall chs acc, Forall (valid_change ds) chs ->
  exists ts, o_fold (fun ts ch => let '(i, from, to) := ch : nat * nat * nat in
      let? d := dpld_e t i from to change in Val (ts ++ [d])) acc chs = Val (acc ++ ts) /\
    Forall2 (represents ds) (map (dir g change) chs) ts.
Proof.
  intros S Hr. induction chs as [|[[i from] to] chs IH]; intros acc H.
  - exists []. rewrite app_nil_r. split; [done|constructor].
  - inversion H as [|? ? (d&Hi&Hf&Ht) H']; subst. cbn [fst snd] in *. cbn [o_fold map].
    destruct (dpld_e_ok ds g t i from to change d S Hr Hi Hf Ht) as (t'&E&Hr'&_). rewrite E. cbn [obind].
    destruct (IH (acc ++ [t']) H') as (ts&E'&Hts). exists (t' :: ts). rewrite E', <- app_assoc. split; [done|]. by constructor.
Qed.

Lemma dir_tri g change ch x : tri (dir g change ch x).
Proof. unfold dir, derivative_e, tri. destruct (decide _); [|by right; right]. destruct (change _ _); auto. Qed.

Lemma dir_one g change i from to x : dir g change (i, from, to) x = 1%Z <-> nth i x 0 = from /\ change (g x) (g (<[i := to]> x)) = true.
Proof.
  unfold dir, derivative_e. cbn [fst snd]. destruct (decide (nth i x 0 = from)) as [E|E]; [|unfold Undef; split; [done|tauto]].
  destruct (change _ _); split; try done; by intros [].
Qed.

Lemma dir_zero g change i from to x : dir g change (i, from, to) x <> 0%Z <-> (nth i x 0 = from -> change (g x) (g (<[i := to]> x)) = true).
Proof.
  unfold dir, derivative_e. cbn [fst snd]. destruct (decide (nth i x 0 = from)) as [E|E]; [|unfold Undef; split; [done|done]].
  destruct (change _ _); split; try done. by intros H%(fun H => H E).
Qed.

Lemma vectors_ok ds g t change chs : small ds -> represents ds g t -> Forall (valid_change ds) chs -> chs <> [] ->
  exists l, vectors t chs change = Val l /\ NoDup l /\
    forall x, x ∈ l <-> in_range x ds /\
      (exists i from to, (i, from, to) ∈ chs /\ nth i x 0 = from) /\
      (forall i from to, (i, from, to) ∈ chs -> nth i x 0 = from -> change (g x) (g (<[i := to]> x)) = true).
Proof.
  intros S Hr Hv Ne. unfold vectors. destruct (dplds_ok ds g t change S Hr chs [] Hv) as (ts&E&Hts).
  rewrite E. clear E. cbn [obind app]. destruct chs as [|ch chs]; [done|]. clear Ne. cbn [map] in Hts.
  inversion Hts as [|h t' hs ts' Ht Hts']; subst. clear Hts.
  destruct (fold_apply_ok ds pi_conj ts' _ _ _ Ht Hts') as (r&E&Hr'). rewrite E. cbn [obind].
  rewrite (satisfy_all_ok ds _ _ 1%Z S Hr'). eexists. split; [done|]. split; [apply NoDup_filter, states_NoDup|].
  intros x. rewrite elem_of_list_filter, states_elem. fold (in_range x ds).
  rewrite (pi_fold (map (fun h' => h' x) (map (dir g change) chs)) (dir g change ch x)).
  2:{ constructor; [apply dir_tri|]. apply Forall_forall. intros w (h&->&(q&->&_)%elem_of_list_fmap)%elem_of_list_fmap. apply dir_tri. }
  assert (EM : dir g change ch x :: map (fun h' => h' x) (map (dir g change) chs) = map (fun q => dir g change q x) (ch :: chs)).
  { cbn [map]. f_equal. rewrite map_map. done. }
  rewrite EM, Forall_map, Forall_forall, elem_of_list_fmap. split.
  - intros [[F (q&Eq&Hq)] Hx]. split; [done|]. destruct q as [[i from] to]. symmetry in Eq. apply dir_one in Eq as [Eq _]. split.
    + by exists i, from, to.
    + intros i' from' to' H' En. eapply dir_zero; [|exact En]. by apply (F (i', from', to')).
  - intros (Hx&(i&from&to&Hq&En)&F). split; [|done]. split.
    + intros [[i' from'] to'] H'. apply dir_zero. intros En'. by eapply F.
    + exists (i, from, to). split; [|done]. symmetry. apply dir_one. split; [done|]. by eapply F.
Qed.

Lemma up_elem ds i from to : (i, from, to) ∈ up_changes ds <-> exists d, ds !! i = Some d /\ S from < d /\ to = S from.
Proof.
  unfold up_changes. rewrite elem_of_list_In, in_concat. split.
  - intros (l&Hl%elem_of_list_In&Hx%elem_of_list_In). apply elem_of_lookup_imap in Hl as (k&d&->&Hd).
    apply elem_of_list_fmap in Hx as (f&Ef&Hf). injection Ef as -> -> ->. apply elem_of_seq in Hf. exists d. split_and!; [done|lia|done].
  - intros (d&Hd&Hf&->). eexists. split; [apply elem_of_list_In, elem_of_lookup_imap; by exists i, d|].
    apply elem_of_list_In, elem_of_list_fmap. exists from. split; [done|]. apply elem_of_seq. lia.
Qed.

Lemma down_elem ds i from to : (i, from, to) ∈ down_changes ds <-> exists d, ds !! i = Some d /\ 1 <= from < d /\ to = pred from.
Proof.
  unfold down_changes. rewrite elem_of_list_In, in_concat. split.
  - intros (l&Hl%elem_of_list_In&Hx%elem_of_list_In). apply elem_of_lookup_imap in Hl as (k&d&->&Hd).
    apply elem_of_list_fmap in Hx as (f&Ef&Hf). injection Ef as -> -> ->. apply elem_of_seq in Hf. exists d. split_and!; [done|lia|lia|done].
  - intros (d&Hd&Hf&->). eexists. split; [apply elem_of_list_In, elem_of_lookup_imap; by exists i, d|].
    apply elem_of_list_In, elem_of_list_fmap. exists from. split; [done|]. apply elem_of_seq. lia.
Qed.

(** ** Probabilities *)

Section prob.
Context {R : Type} (ar : arith R) (RT : exact ar).
Let RT' : ring_theory (a_zero ar) (a_one ar) (a_add ar) (a_mul ar) (a_sub ar) (a_opp ar) eq := RT.
Add Ring arring : RT'.
Notation "0" := (a_zero ar).
Notation "1" := (a_one ar).
Notation "x + y" := (a_add ar x y).
Notation "x * y" := (a_mul ar x y).

Lemma fold_total (P : list nat -> bool) (w : list nat -> R) (f : list nat -> out R) l acc :
  (forall x, x ∈ l -> P x = true -> f x = Val (w x)) ->
  o_fold (fun total x => if negb (P x) then Val total else let? p := f x in Val (total + p)) acc l
  = Val (acc + rsum ar (map (fun x => if P x then w x else 0) l)).
Proof.
  revert acc. induction l as [|x l IH]; intros acc H; cbn [o_fold map rsum fold_right].
  - f_equal. ring.
  - assert (Hl : forall y, y ∈ l -> P y = true -> f y = Val (w y)) by (intros y Hy; apply H; by right).
    destruct (P x) eqn:E; cbn [negb].
    + rewrite (H x) by (by try left). cbn [obind]. rewrite IH by done. unfold rsum. f_equal. ring.
    + cbn [obind]. rewrite IH by done. unfold rsum. f_equal. ring.
Qed.

Lemma rows ds ps x i k : distributions ar ds ps -> in_range x ds -> x !! i = Some k ->
  exists row, ps !! i = Some row /\ k < length row /\ entry ps i k = Val (nth k row 0).
Proof.
  intros D Hx Hk. destruct (in_range_lookup _ _ _ _ Hx Hk) as (d&Hd&Hkd).
  destruct (Forall2_lookup_l _ _ _ _ _ D Hd) as (row&Hrow&Hl&_). exists row. split_and!; [done|lia|].
  unfold entry. rewrite Hrow. cbn [o_get obind]. destruct (lookup_lt_is_Some_2 row k ltac:(lia)) as [p Hp].
  by rewrite Hp, (nth_lookup_Some _ _ _ _ Hp).
Qed.

Lemma weight_cons ps x i row k : ps !! i = Some row -> x !! i = Some k ->
  weight ar (drop i ps) (drop i x) = nth k row 0 * weight ar (drop (S i) ps) (drop (S i) x).
Proof. intros Hp Hx. by rewrite (drop_S ps row i Hp), (drop_S x k i Hx). Qed.

Lemma product_ok ds ps x : distributions ar ds ps -> in_range x ds ->
  o_fold (fun local i => let? e := o_get EOob (x !! i) in let? p := entry ps i e in Val (local * p)) 1 (seq 0 (length x))
  = Val (weight ar ps x).
Proof.
  intros D Hx.
  assert (G : forall m i acc, (i + m = length x)%nat ->
    o_fold (fun local i => let? e := o_get EOob (x !! i) in let? p := entry ps i e in Val (local * p)) acc (seq i m)
    = Val (acc * weight ar (drop i ps) (drop i x))).
  { induction m as [|m IH]; intros i acc Hi.
    - cbn [seq o_fold]. rewrite (drop_ge x) by lia. f_equal. destruct (drop i ps); cbn [weight]; ring.
    - cbn [seq o_fold]. destruct (lookup_lt_is_Some_2 x i ltac:(lia)) as [k Hk]. rewrite Hk. cbn [o_get obind].
      destruct (rows ds ps x i k D Hx Hk) as (row&Hrow&_&E). rewrite E. cbn [obind]. rewrite IH by lia.
      rewrite (weight_cons ps x i row k) by done. f_equal. ring. }
  rewrite (G (length x) 0%nat) by done. rewrite !drop_0. f_equal. ring.
Qed.

Lemma probability_ok ds g t ps j : small ds -> represents ds g t -> distributions ar ds ps ->
  Tsl.probability ar t ps j = Val (ProbSpec.probability ar ds ps (fun x => (g x =? j)%Z)).
Proof.
  intros S Hr D. unfold Tsl.probability. rewrite (for_each_ok ds g) by done.
  rewrite (fold_total (fun x => (g x =? j)%Z) (weight ar ps)).
  - f_equal. unfold ProbSpec.probability. ring.
  - intros x Hx%states_elem _. unfold var_count. rewrite (rp_dom _ _ _ Hr), <- (in_range_length _ _ Hx). by apply (product_ok ds).
Qed.

(** *** systems with two states *)
Lemma two_state_entry k p : (k < 2)%nat ->
  (if (k =? 1)%nat then p else a_sub ar 1 p) = nth k [a_sub ar 1 p; p] 0.
Proof. intros Hk. destruct k as [|[|k]]; [done|done|lia]. Qed.

Lemma probability_bss_ok ds g t ps : small ds -> represents ds g t -> Forall (fun d => d <= 2)%nat ds -> length ps = length ds ->
  probability_bss ar t ps = Val (ProbSpec.probability ar ds (two_state ar ps) (fun x => (g x =? 1)%Z)).
Proof.
  intros S Hr Hd L. unfold probability_bss. rewrite (for_each_ok ds g) by done.
  rewrite (fold_total (fun x => (g x =? 1)%Z) (weight ar (two_state ar ps))).
  - f_equal. unfold ProbSpec.probability. ring.
  - intros x Hx%states_elem _. fold (in_range x ds) in Hx. unfold var_count. rewrite (rp_dom _ _ _ Hr), <- (in_range_length _ _ Hx).
    pose proof (in_range_length _ _ Hx) as Lx.
    assert (G : forall m i acc, (i + m = length x)%nat ->
      o_fold (fun local i => let? e := o_get EOob (x !! i) in let? p := o_get EOob (ps !! i) in
        Val (local * (if (e =? 1)%nat then p else a_sub ar 1 p))) acc (seq i m)
      = Val (acc * weight ar (drop i (two_state ar ps)) (drop i x))).
    { induction m as [|m IH]; intros i acc Hi.
      - cbn [seq o_fold]. rewrite (drop_ge x) by lia. f_equal. destruct (drop i (two_state ar ps)); cbn [weight]; ring.
      - cbn [seq o_fold]. destruct (lookup_lt_is_Some_2 x i ltac:(lia)) as [k Hk]. rewrite Hk. cbn [o_get obind].
        destruct (lookup_lt_is_Some_2 ps i ltac:(lia)) as [p Hp]. rewrite Hp. cbn [o_get obind]. rewrite IH by lia.
        destruct (in_range_lookup _ _ _ _ Hx Hk) as (d&Hdi&Hkd).
        rewrite Forall_lookup in Hd. specialize (Hd _ _ Hdi).
        rewrite (weight_cons (two_state ar ps) x i [a_sub ar 1 p; p] k); [|by unfold two_state; rewrite list_lookup_fmap, Hp|done].
        rewrite (two_state_entry k p ltac:(lia)). f_equal. ring. }
    rewrite (G (length x) 0%nat) by done. rewrite !drop_0. f_equal. ring.
Qed.

(** *** sums of probabilities of states *)

Lemma probability_sum ds ps (P Q : list nat -> bool) : (forall x, in_range x ds -> P x = true -> Q x = true -> False) ->
  ProbSpec.probability ar ds ps P + ProbSpec.probability ar ds ps Q = ProbSpec.probability ar ds ps (fun x => P x || Q x).
Proof.
  intros H. unfold ProbSpec.probability.
  assert (G : forall l, (forall x, x ∈ l -> in_range x ds) ->
    rsum ar (map (fun x => if P x then weight ar ps x else 0) l) + rsum ar (map (fun x => if Q x then weight ar ps x else 0) l)
    = rsum ar (map (fun x => if P x || Q x then weight ar ps x else 0) l)).
  { induction l as [|x l IH]; intros Hl; cbn [map rsum fold_right]; [ring|].
    specialize (IH ltac:(intros y Hy; apply Hl; by right)). unfold rsum in *. rewrite <- IH.
    specialize (H x (Hl x ltac:(by left))). destruct (P x), (Q x); cbn [orb]; try ring. exfalso. by apply H. }
  apply G. intros x Hx. by apply states_elem.
Qed.

Lemma prob_ext ds ps (P Q : list nat -> bool) : (forall x, in_range x ds -> P x = Q x) ->
  ProbSpec.probability ar ds ps P = ProbSpec.probability ar ds ps Q.
Proof.
  intros H. unfold ProbSpec.probability. f_equal. apply map_ext_in. intros x Hx. rewrite H; [done|].
  apply states_elem. by apply elem_of_list_In.
Qed.

Lemma prob_none ds ps : ProbSpec.probability ar ds ps (fun _ => false) = 0.
Proof. unfold ProbSpec.probability. induction (states ds) as [|x l IH]; cbn [map rsum fold_right]; [done|]. unfold rsum in IH. rewrite IH. ring. Qed.

(** adding the probabilities of the states in a list without repetition *)
Lemma states_sum ds g t ps (f : nat -> Z) : small ds -> represents ds g t -> distributions ar ds ps ->
  forall l acc P, NoDup (map f l) -> (forall x k, k ∈ l -> g x = f k -> P x = false) ->
  o_fold (fun r k => let? p := Tsl.probability ar t ps (f k) in Val (r + p)) (acc + ProbSpec.probability ar ds ps P) l
  = Val (acc + ProbSpec.probability ar ds ps (fun x => P x || bool_decide (g x ∈ map f l))).
Proof.
  intros S Hr D. induction l as [|k l IH]; intros acc P ND HP.
  - cbn [o_fold map]. f_equal. f_equal. apply prob_ext. intros x _. rewrite bool_decide_false by (apply not_elem_of_nil). by rewrite orb_false_r.
  - cbn [o_fold map]. cbn [map] in ND. apply NoDup_cons in ND as [Nk ND]. rewrite (probability_ok ds g) by done. cbn [obind].
    assert (A1 : forall a b c, (a + b) + c = a + (b + c)) by (intros; ring). rewrite A1.
    rewrite (probability_sum ds ps P (fun x => (g x =? f k)%Z)).
    2:{ intros x _ Hp Hq. apply Z.eqb_eq in Hq. rewrite (HP x k) in Hp; [done|by left|done]. }
    rewrite IH; [|done|].
    + f_equal. f_equal. apply prob_ext. intros x _. rewrite <- orb_assoc. f_equal.
      destruct (Z.eqb_spec (g x) (f k)) as [E|E]; cbn [orb].
      * rewrite bool_decide_true; [done|]. rewrite E. by left.
      * apply bool_decide_ext. rewrite elem_of_cons. tauto.
    + intros x k' Hk' E'. rewrite (HP x k') by (by try right). cbn [orb]. apply Z.eqb_neq. intros E. apply Nk. rewrite <- E, E'.
      apply elem_of_list_fmap. by exists k'.
Qed.

Lemma states_sum0 ds g t ps (f : nat -> Z) l : small ds -> represents ds g t -> distributions ar ds ps -> NoDup (map f l) ->
  o_fold (fun r k => let? p := Tsl.probability ar t ps (f k) in Val (r + p)) 0 l
  = Val (ProbSpec.probability ar ds ps (fun x => bool_decide (g x ∈ map f l))).
Proof.
  intros S Hr D ND. pose proof (states_sum ds g t ps f S Hr D l 0 (fun _ => false) ND ltac:(done)) as X.
  rewrite prob_none in X. assert (Z0 : forall a, 0 + a = a) by (intros; ring). rewrite !Z0 in X. cbn [orb] in X. exact X.
Qed.

(** the states from [j] on: the value Undefined does not count *)
Lemma availability_ok ds g t ps j : small ds -> represents ds g t -> distributions ar ds ps ->
  (forall x, in_range x ds -> g x <> Undef -> (g x <= t_max t)%Z) -> (t_max t < Undef)%Z ->
  Tsl.availability ar t ps j = Val (ProbSpec.probability ar ds ps (fun x => (j <=? g x)%Z && negb (g x =? Undef)%Z)).
Proof.
  intros S Hr D Hm Hu. unfold Tsl.availability. rewrite (states_sum0 ds g t ps (fun k => (j + Z.of_nat k)%Z)); [|done..|].
  2:{ apply NoDup_fmap_2; [|apply NoDup_seq]. intros a b E. lia. }
  f_equal. apply prob_ext. intros x Hx. apply eq_iff_eq_true. rewrite bool_decide_eq_true, elem_of_list_fmap, andb_true_iff, negb_true_iff, Z.leb_le, Z.eqb_neq.
  split.
  - intros (k&E&Hk%elem_of_seq). lia.
  - intros [Hj Hn]. specialize (Hm x Hx Hn). exists (Z.to_nat (g x - j)). split; [lia|]. apply elem_of_seq. lia.
Qed.

(** the states from 0 to [j - 1] *)
Lemma unavailability_ok ds g t ps j : small ds -> represents ds g t -> distributions ar ds ps ->
  Tsl.unavailability ar t ps j = Val (ProbSpec.probability ar ds ps (fun x => (0 <=? g x)%Z && (g x <? j)%Z)).
Proof.
  intros S Hr D. unfold Tsl.unavailability. rewrite (states_sum0 ds g t ps Z.of_nat); [|done..|].
  2:{ apply NoDup_fmap_2; [|apply NoDup_ListNoDup; apply List.NoDup_rev; apply NoDup_ListNoDup, NoDup_seq]. intros a b E. lia. }
  f_equal. apply prob_ext. intros x Hx. apply eq_iff_eq_true. rewrite bool_decide_eq_true, elem_of_list_fmap, andb_true_iff, Z.leb_le, Z.ltb_lt.
  split.
  - intros (k&E&Hk). apply elem_of_list_In, in_rev, elem_of_list_In, elem_of_seq in Hk. lia.
  - intros [H0 Hj]. exists (Z.to_nat (g x)). split; [lia|]. apply elem_of_list_In. rewrite <- in_rev. apply elem_of_list_In, elem_of_seq. lia.
Qed.

(** *** Fussell-Vesely *)

Lemma compare_ok x m : length x = length m -> compare Nat.leb x m = Val (bool_decide (Forall2 le x m)).
Proof.
  intros L. unfold compare. rewrite L, Nat.eqb_refl. cbn [negb]. revert m L.
  induction x as [|a x IH]; intros [|b m] L; try done; cbn [compare_loop].
  destruct (Nat.leb_spec a b) as [E|E].
  - rewrite IH by (simpl in L; lia). f_equal. apply bool_decide_ext. split; [by constructor|by inversion 1].
  - rewrite bool_decide_false; [done|]. inversion 1. lia.
Qed.

Lemma covered_ok ds i st mcvs x : in_range x ds -> (i < length ds)%nat -> (forall m, m ∈ mcvs -> in_range m ds) ->
  covered i st mcvs x = Val (bool_decide (Exists (fun m => Z.of_nat (nth i m 0%nat) = st - 1 /\ Forall2 le x m)%Z mcvs)).
Proof.
  intros Hx Hi. induction mcvs as [|m mcvs IH]; intros Hm; cbn [covered].
  - rewrite bool_decide_false; [done|]. by intros ?%Exists_nil.
  - assert (Hmm : in_range m ds) by (apply Hm; by left). pose proof (in_range_length _ _ Hmm) as Lm. pose proof (in_range_length _ _ Hx) as Lx.
    destruct (lookup_lt_is_Some_2 m i ltac:(lia)) as [e He]. rewrite He. cbn [o_get obind]. specialize (IH ltac:(intros; apply Hm; by right)).
    assert (En : nth i m 0%nat = e) by (by apply nth_lookup_Some).
    destruct (Z.eqb_spec (Z.of_nat e) (st - 1)) as [E|E]; cbn [negb].
    + rewrite compare_ok by lia. cbn [obind]. destruct (bool_decide_reflect (Forall2 le x m)) as [F|F].
      * rewrite bool_decide_true; [done|]. left. rewrite En. done.
      * rewrite IH. f_equal. apply bool_decide_ext. rewrite Exists_cons. tauto.
    + rewrite IH. f_equal. apply bool_decide_ext. rewrite Exists_cons, En. tauto.
Qed.

Lemma fussell_vesely_ok ds g t ps i st j mcvs : small ds -> represents ds g t -> distributions ar ds ps -> (i < length ds)%nat ->
  calculate_mcvs t j = Val mcvs -> (forall m, m ∈ mcvs -> in_range m ds) ->
  fussell_vesely ar t ps i st j = Val (a_div ar
    (ProbSpec.probability ar ds ps (fun x => bool_decide (Exists (fun m => Z.of_nat (nth i m 0%nat) = st - 1 /\ Forall2 le x m)%Z mcvs)))
    (ProbSpec.probability ar ds ps (fun x => (0 <=? g x)%Z && (g x <? j)%Z))).
Proof.
  intros S Hr D Hi Em Hm. unfold fussell_vesely. rewrite Em. cbn [obind]. rewrite (for_each_ok ds g) by done.
  set (P := fun x => bool_decide (Exists (fun m => Z.of_nat (nth i m 0%nat) = st - 1 /\ Forall2 le x m)%Z mcvs)).
  assert (G : forall l acc, (forall x, x ∈ l -> in_range x ds) ->
    o_fold (fun r x => let? b := covered i st mcvs x in if negb b then Val r else let? p := vector_probability ar x ps in Val (r + p)) acc l
    = o_fold (fun total x => if negb (P x) then Val total else let? p := vector_probability ar x ps in Val (total + p)) acc l).
  { induction l as [|x l IH]; intros acc Hl; cbn [o_fold]; [done|]. rewrite (covered_ok ds) by (try done; apply Hl; by left). cbn [obind].
    fold (P x). destruct (negb (P x)); cbn [obind]; [apply IH; intros y Hy; apply Hl; by right|].
    destruct (vector_probability ar x ps); cbn [obind]; [apply IH; intros y Hy; apply Hl; by right|done|done]. }
  rewrite G by (intros x Hx; by apply states_elem).
  rewrite (fold_total P (weight ar ps)).
  - cbn [obind]. rewrite (unavailability_ok ds g) by done. cbn [obind]. f_equal. f_equal. unfold ProbSpec.probability. ring.
  - intros x Hx%states_elem _. by apply (product_ok ds).
Qed.
End prob.

(** *** Integer divisions of structural_importance *)

Lemma prodn_fold ds acc : fold_left (fun p d => p * Z.of_nat d)%Z ds acc = (acc * Z.of_nat (prodn ds))%Z.
Proof. revert acc. induction ds as [|d ds IH]; intros acc; cbn [fold_left prodn]; [lia|]. rewrite IH. lia. Qed.
