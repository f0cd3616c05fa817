(** * Sifting *)

From stdpp Require Import gmap list.
From Coq Require Import ZArith Lia.
From Verif Require Import Base Ops Tables NodeManager Tools Sift SortProof.
From Verif Require Import Heap Inv InvLemmas Prim TabLemmas GC Make Build SwapProof SwapNode SwapVar.

Local Open Scope nat_scope.

Section sift.
Context (c : cfg) (opsem : Z -> option (Z -> Z -> Z)) (strict : bool).
Notation WF := (WF c opsem strict).
Notation vstep := (vstep c opsem strict).
Notation allowed := (allowed strict).
Context (Hdom : forall i, i < nvars c -> 0 < dom c i).

Record sifting (g : ghost) (s : st) : Prop := {
  sf_wf : WF g s;
  sf_quiet : quiet g;
  sf_ord : ord c g s
}.

Lemma vstep_sifting g g' s s' : vstep g g' s s' -> sifting g' s'.
Proof. intros []. by constructor. Qed.

Lemma sifting_refl g s : sifting g s -> exists g', vstep g g' s s.
Proof. intros [W Q O]. exists (g_weak g). by apply vstep_refl. Qed.

Lemma sf_i2l g s i l : sifting g s -> s_i2l s !! i = Some l -> i < nvars c /\ l < nvars c.
Proof.
  intros [_ _ [P _]] H. split; [|by eapply perm_i2l_lt].
  rewrite <- (pm_i2l _ _ P). by eapply lookup_lt_Some.
Qed.

Lemma move_var_down_spec g s i l :
  sifting g s -> s_i2l s !! i = Some l -> S l < nvars c ->
  wp allowed (move_var_down c i) (fun _ s' => exists g', vstep g g' s s' /\ s_i2l s' !! i = Some (S l)) s.
Proof.
  intros [W Q O] Hi Hl. destruct (perm_l2i_ex c s (S l)) as (y&Hy&Hyn); [apply O|done|].
  unfold move_var_down. eapply wp_mono; [by apply (swap_variable_spec c opsem strict g s i y l)|].
  intros _ s' (g'&V&_&E). exists g'. split; [done|]. rewrite E.
  assert (i <> y).
  { intros ->. apply (pm_inv _ _ (proj1 O)) in Hy. rewrite Hi in Hy. simplify_eq. lia. }
  rewrite list_lookup_alter, list_lookup_alter_ne, Hi by done. done.
Qed.

Lemma move_var_up_spec g s i l :
  sifting g s -> s_i2l s !! i = Some (S l) ->
  wp allowed (move_var_up c i) (fun _ s' => exists g', vstep g g' s s' /\ s_i2l s' !! i = Some l) s.
Proof.
  intros SF Hi. pose proof (sf_i2l _ _ _ _ SF Hi) as [Hin Hl]. destruct SF as [W Q O].
  destruct (perm_l2i_ex c s l) as (y&Hy&Hyn); [apply O|lia|].
  unfold move_var_up. apply wp_bind. eapply wp_level_of_index; [exact Hi|].
  apply wp_bind. eapply wp_index_at; [exact Hy|].
  pose proof (proj1 (pm_inv _ _ (proj1 O) l y) Hy) as Hyl.
  eapply wp_mono; [apply (swap_variable_spec c opsem strict g s y i l); try done|].
  { by apply (pm_inv _ _ (proj1 O)). }
  intros _ s' (g'&V&_&E). exists g'. split; [done|]. rewrite E.
  assert (i <> y) by (intros ->; rewrite Hi in Hyl; simplify_eq; lia).
  rewrite list_lookup_alter_ne, list_lookup_alter, Hi by done. done.
Qed.

Lemma sift_down_loop_spec i : forall fuel g s cur best,
  sifting g s -> s_i2l s !! i = Some cur -> nvars c - 1 - cur <= fuel -> fst best < nvars c ->
  wp allowed (sift_down_loop c fuel i cur best) (fun r s' => exists g', vstep g g' s s' /\
    fst r = nvars c - 1 /\ s_i2l s' !! i = Some (fst r) /\ fst (snd r) < nvars c) s.
Proof.
  induction fuel as [|fuel IH]; intros g s cur best SF Hi Hf Hb;
    pose proof (sf_i2l _ _ _ _ SF Hi) as [Hin Hcn]; cbn [sift_down_loop];
    destruct (Nat.eqb_spec cur (nvars c - 1)) as [E|E].
  - apply wp_ret. destruct (sifting_refl g s SF) as [g' V]. exists g'. done.
  - lia.
  - apply wp_ret. destruct (sifting_refl g s SF) as [g' V]. exists g'. done.
  - apply wp_bind. eapply wp_mono; [apply (move_var_down_spec g s i cur SF Hi); lia|].
    intros _ s1 (g1&V1&Hi1). apply wp_bind. unfold note_best. apply wp_bind, wp_gets, wp_ret.
    eapply wp_mono; [apply (IH g1 s1); [by eapply vstep_sifting|done|lia|]|].
    + destruct (_ <? _)%Z; [simpl; lia|done].
    + intros r s2 (g2&V2&?). exists g2. split; [by eapply vstep_trans|done].
Qed.

Lemma sift_up_loop_spec i : forall fuel g s cur best,
  sifting g s -> s_i2l s !! i = Some cur -> cur <= fuel -> fst best < nvars c ->
  wp allowed (sift_up_loop c fuel i cur best) (fun r s' => exists g', vstep g g' s s' /\
    fst r = 0 /\ s_i2l s' !! i = Some (fst r) /\ fst (snd r) < nvars c) s.
Proof.
  induction fuel as [|fuel IH]; intros g s cur best SF Hi Hf Hb;
    pose proof (sf_i2l _ _ _ _ SF Hi) as [Hin Hcn]; cbn [sift_up_loop];
    destruct (Nat.eqb_spec cur 0) as [E|E].
  - apply wp_ret. destruct (sifting_refl g s SF) as [g' V]. exists g'. done.
  - lia.
  - apply wp_ret. destruct (sifting_refl g s SF) as [g' V]. exists g'. done.
  - destruct cur as [|cur]; [done|]. apply wp_bind.
    eapply wp_mono; [apply (move_var_up_spec g s i cur SF Hi)|].
    intros _ s1 (g1&V1&Hi1). apply wp_bind. unfold note_best. apply wp_bind, wp_gets, wp_ret.
    replace (S cur - 1) with cur by lia.
    eapply wp_mono; [apply (IH g1 s1); [by eapply vstep_sifting|done|lia|]|].
    + destruct (_ <? _)%Z; [simpl; lia|done].
    + intros r s2 (g2&V2&?). exists g2. split; [by eapply vstep_trans|done].
Qed.

Lemma restore_loop_spec i target : target < nvars c -> forall fuel g s cur,
  sifting g s -> s_i2l s !! i = Some cur -> cur <= target -> target - cur <= fuel ->
  wp allowed (restore_loop c fuel i cur target) (fun _ s' => exists g', vstep g g' s s' /\
    s_i2l s' !! i = Some target) s.
Proof.
  intros Ht. induction fuel as [|fuel IH]; intros g s cur SF Hi Hct Hf;
    cbn [restore_loop]; destruct (Nat.eqb_spec cur target) as [E|E].
  - apply wp_ret. destruct (sifting_refl g s SF) as [g' V]. exists g'. split; [done|congruence].
  - lia.
  - apply wp_ret. destruct (sifting_refl g s SF) as [g' V]. exists g'. split; [done|congruence].
  - apply wp_bind. eapply wp_mono; [apply (move_var_down_spec g s i cur SF Hi); lia|].
    intros _ s1 (g1&V1&Hi1).
    eapply wp_mono; [apply (IH g1 s1); [by eapply vstep_sifting|done|lia|lia]|].
    intros r s2 (g2&V2&?). exists g2. split; [by eapply vstep_trans|done].
Qed.

Lemma place_variable_spec g s i :
  sifting g s -> i < nvars c ->
  wp allowed (place_variable c i) (fun _ s' => exists g', vstep g g' s s') s.
Proof.
  intros SF Hi. destruct (perm_i2l_ex c s i) as (l&Hl&Hln); [apply SF|done|].
  unfold place_variable. apply wp_bind. eapply wp_level_of_index; [exact Hl|].
  apply wp_bind, wp_gets, wp_bind.
  eapply wp_mono; [apply (sift_down_loop_spec i (nvars c) g s l (l, s_count s) SF Hl); [lia|done]|].
  intros r s1 (g1&V1&Hr1&Hi1&Hb1). apply wp_bind.
  eapply wp_mono; [apply (sift_up_loop_spec i (nvars c) g1 s1 (fst r) (snd r)); [by eapply vstep_sifting|done|lia|done]|].
  intros r' s2 (g2&V2&Hr2&Hi2&Hb2).
  eapply wp_mono; [apply (restore_loop_spec i (fst (snd r')) Hb2 (nvars c) g2 s2 (fst r')); [by eapply vstep_sifting|done|lia|lia]|].
  intros _ s3 (g3&V3&_). exists g3. eapply vstep_trans; [|exact V3]. by eapply vstep_trans.
Qed.

Lemma place_variables_spec l : forall g s,
  sifting g s -> (forall p, p ∈ l -> fst p < nvars c) ->
  wp allowed (mapM_ (fun p : nat * Z => place_variable c (fst p)) l) (fun _ s' => exists g', vstep g g' s s') s.
Proof.
  induction l as [|p l IH]; intros g s SF Hl; simpl.
  - apply wp_ret. by apply sifting_refl.
  - apply wp_bind. eapply wp_mono; [apply (place_variable_spec g s (fst p) SF); apply Hl; set_solver|].
    intros _ s1 (g1&V1). eapply wp_mono.
    + apply (IH g1 s1); [by eapply vstep_sifting|]. intros; apply Hl; set_solver.
    + intros _ s2 (g2&V2). exists g2. by eapply vstep_trans.
Qed.

(** every variable is sifted once, in the order of the sizes of its table *)
Lemma determine_sift_order_spec ok s :
  length (s_tabs s) = nvars c ->
  wp ok (determine_sift_order c) (fun l s' => s' = s /\
    l ≡ₚ map (fun i => (i, match s_tabs s !! i with Some t => t_size t | None => 0%Z end)) (seq 0 (nvars c)) /\
    forall p q x y, p < q -> l !! p = Some x -> l !! q = Some y -> (snd y <= snd x)%Z) s.
Proof.
  intros Hlen. unfold wp, determine_sift_order.
  set (f := fun i => match s_tabs s !! i with Some t => Some (i, t_size t) | None => None end).
  destruct (mapM_opt_spec f (seq 0 (nvars c))) as (cs&->&F).
  { intros i Hi. apply elem_of_seq in Hi. unfold f.
    destruct (lookup_lt_is_Some_2 (s_tabs s) i) as [t ->]; [lia|done]. }
  assert (Ecs : cs = map (fun i => (i, match s_tabs s !! i with Some t => t_size t | None => 0%Z end)) (seq 0 (nvars c))).
  { clear -F. induction F as [|i x l l' Hx _ IH]; [done|]. simpl. rewrite <- IH. f_equal.
    unfold f in Hx. destruct (s_tabs s !! i); [|done]. congruence. }
  set (cmp := fun x y : nat * Z => (snd y <? snd x)%Z).
  destruct (heapsort_perm cmp cs) as (l&El&P). rewrite El. split; [done|]. split; [by rewrite P, Ecs|].
  intros p q x y Hpq Hx Hy.
  assert (WO : weak_order cmp).
  { unfold cmp. constructor; intros; repeat match goal with
      | H : (_ <? _)%Z = true |- _ => apply Z.ltb_lt in H
      | H : (_ <? _)%Z = false |- _ => apply Z.ltb_ge in H end; apply Z.ltb_ge; lia. }
  pose proof (heapsort_sorted cmp WO cs l El p q x y Hpq Hx Hy) as X. unfold cmp in X.
  apply Z.ltb_ge in X. done.
Qed.

Lemma sift_variables_spec g s :
  sifting g s -> s_auto s = false -> s_defer s = false ->
  wp allowed (sift_variables c) (fun _ s' => exists g', vstep g g' s s') s.
Proof.
  intros SF Ha Hd. unfold sift_variables. apply wp_bind.
  eapply wp_mono; [apply determine_sift_order_spec; apply (wf_ntabs _ _ _ _ _ (sf_wf _ _ SF))|].
  intros l s' (->&P&_). apply wp_bind. eapply wp_mono.
  { apply (place_variables_spec l g s SF). intros p Hp. rewrite P in Hp.
    apply elem_of_list_fmap in Hp as (i&->&Hi). apply elem_of_seq in Hi. simpl. lia. }
  intros _ s1 (g1&V1). apply wp_modify. exists g1.
  assert (E : set_defer false s1 = s1); [|by rewrite E].
  pose proof (vs_defer _ _ _ _ _ _ _ V1 Ha) as D. rewrite Hd in D. destruct s1; simpl in *. by rewrite D.
Qed.

End sift.
