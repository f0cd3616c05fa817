(** * Expectations computed variable by variable *)

From stdpp Require Import gmap list.
From Coq Require Import ZArith Lia Ring.
From Verif Require Import Base Prob Heap Inv Eval QuerySpec ProbSpec.

Local Open Scope nat_scope.

Section expect.
Context (c : cfg) {R : Type} (ar : arith R) (RT : exact ar).
Notation "0" := (a_zero ar).
Notation "1" := (a_one ar).
Notation "x + y" := (a_add ar x y).
Notation "x * y" := (a_mul ar x y).
Let RT' : ring_theory 0 1 (a_add ar) (a_mul ar) (a_sub ar) (a_opp ar) eq := RT.
Add Ring exact_ring : RT'.

Lemma rsum_ext {A} (f g : A -> R) l : (forall x, x ∈ l -> f x = g x) -> rsum ar (map f l) = rsum ar (map g l).
Proof. intros H. f_equal. apply map_ext_in. intros x Hx. by apply H, elem_of_list_In. Qed.

Lemma rsum_app l l' : rsum ar (l ++ l') = rsum ar l + rsum ar l'.
Proof. unfold rsum. induction l as [|x l IH]; simpl; [ring|]. rewrite IH. ring. Qed.

Lemma rsum_scale {A} (f : A -> R) x l : x * rsum ar (map f l) = rsum ar (map (fun a => x * f a) l).
Proof. unfold rsum. induction l as [|a l IH]; simpl; [ring|]. rewrite <- IH. ring. Qed.

Lemma rsum_scale_r {A} (f : A -> R) x l : rsum ar (map f l) * x = rsum ar (map (fun a => f a * x) l).
Proof. unfold rsum. induction l as [|a l IH]; simpl; [ring|]. rewrite <- IH. ring. Qed.

Lemma rsum_add {A} (f g : A -> R) l : rsum ar (map f l) + rsum ar (map g l) = rsum ar (map (fun a => f a + g a) l).
Proof. unfold rsum. induction l as [|a l IH]; simpl; [ring|]. rewrite <- IH. ring. Qed.

Lemma rsum_zero {A} (f : A -> R) l : (forall x, x ∈ l -> f x = 0) -> rsum ar (map f l) = 0.
Proof.
  unfold rsum. induction l as [|a l IH]; intros H; simpl; [done|]. rewrite (H a), IH; [ring| |]; intros; try apply H; set_solver.
Qed.

Lemma rsum_swap {A B} (f : A -> B -> R) l l' :
  rsum ar (map (fun a => rsum ar (map (f a) l')) l) = rsum ar (map (fun b => rsum ar (map (fun a => f a b) l)) l').
Proof.
  induction l as [|a l IH]; simpl.
  - symmetry. by apply rsum_zero.
  - change (rsum ar (?x :: ?l)) with (x + rsum ar l). rewrite IH. rewrite rsum_add. by apply rsum_ext.
Qed.

Lemma rsum_flat {A B} (f : B -> R) (h : A -> list B) l :
  rsum ar (map f (flat_map h l)) = rsum ar (map (fun a => rsum ar (map f (h a))) l).
Proof. induction l as [|a l IH]; simpl; [done|]. rewrite map_app, rsum_app, IH. done. Qed.

(** one term changes *)
Lemma rsum_change {A} (f g : A -> R) l y : NoDup l -> y ∈ l -> (forall x, x <> y -> f x = g x) ->
  rsum ar (map f l) = rsum ar (map g l) + a_sub ar (f y) (g y).
Proof.
  intros ND Hy H. induction ND as [|x l Hx ND IH]; [by apply elem_of_nil in Hy|]. simpl.
  change (rsum ar (?x :: ?l)) with (x + rsum ar l).
  apply elem_of_cons in Hy as [->|Hy].
  - rewrite (rsum_ext f g l); [ring|]. intros z Hz. apply H. intros ->. done.
  - rewrite IH by done. rewrite (H x); [ring|]. intros ->. done.
Qed.

Context (ps : list (list R)) (Hd : distributions ar (c_doms c) ps).

Definition pr_of (i k : nat) : R := nth k (nth i ps []) 0.

Lemma row_of i : i < nvars c -> exists row, ps !! i = Some row /\ length row = dom c i /\ rsum ar row = 1.
Proof.
  intros Hi. destruct (lookup_lt_is_Some_2 (c_doms c) i Hi) as [d Ed].
  destruct (Forall2_lookup_l _ _ _ _ _ Hd Ed) as (row&Er&Hl&Hs). exists row. split_and!; try done.
  rewrite Hl. unfold dom. symmetry. by apply nth_lookup_Some.
Qed.

Lemma map_nth_seq {A} (l : list A) x : map (fun k => nth k l x) (seq 0 (length l)) = l.
Proof.
  apply list_eq. intros k. rewrite list_lookup_fmap. destruct (decide (k < length l)) as [Hk|Hk].
  - rewrite lookup_seq_lt by done. simpl. destruct (nth_lookup_or_length l k x); [done|lia].
  - rewrite lookup_seq_ge by lia. simpl. symmetry. apply lookup_ge_None_2. lia.
Qed.

Lemma row_sum i : i < nvars c -> rsum ar (map (pr_of i) (seq 0 (dom c i))) = 1.
Proof.
  intros Hi. destruct (row_of i Hi) as (row&Er&Hl&Hs). unfold pr_of. rewrite (nth_lookup_Some _ _ _ _ Er), <- Hl.
  by rewrite map_nth_seq.
Qed.

(** the expectation of g(F) when the variables [os] are random and the others are as in [rho] *)
Section ex.
Context (g : Z -> R).

Fixpoint Ex (os : list nat) (F : asg -> Z) (rho : asg) : R :=
  match os with
  | [] => g (F rho)
  | i :: os => rsum ar (map (fun k => pr_of i k * Ex os F (upd rho i k)) (seq 0 (dom c i)))
  end.

Lemma Ex_ext os : forall F G rho sigma, valid c rho -> valid c sigma ->
  (forall tau tau', valid c tau -> valid c tau' -> (forall j, j ∉ os -> tau j = rho j) ->
    (forall j, j ∉ os -> tau' j = sigma j) -> (forall j, j ∈ os -> tau j = tau' j) -> F tau = G tau') ->
  Ex os F rho = Ex os G sigma.
Proof.
  induction os as [|i os IH]; intros F G rho sigma Hr Hs H; cbn [Ex].
  - rewrite (H rho sigma); try done. intros j Hj. by apply elem_of_nil in Hj.
  - apply rsum_ext. intros k Hk. apply elem_of_seq in Hk. f_equal. apply IH; [apply upd_valid; [done|lia]..|].
    intros tau tau' Ht Ht' H1 H2 H3. apply H; try done.
    + intros j Hj. apply not_elem_of_cons in Hj as [Hne Hj]. rewrite H1 by done. by apply upd_other.
    + intros j Hj. apply not_elem_of_cons in Hj as [Hne Hj]. rewrite H2 by done. by apply upd_other.
    + intros j Hj. destruct (decide (j ∈ os)) as [|Hn]; [auto|]. assert (j = i) as -> by set_solver.
      rewrite H1, H2, !upd_same by done. done.
Qed.

Lemma Ex_fun os F G rho : valid c rho -> fun_eq c F G -> depends_on c (seq O (nvars c)) G -> Ex os F rho = Ex os G rho.
Proof.
  intros Hr E Hd'. apply Ex_ext; [done..|]. intros tau tau' Ht Ht' H1 H2 H3. rewrite E by done. apply Hd'; [done..|].
  intros j _. destruct (decide (j ∈ os)); [auto|]. rewrite H1, H2 by done. done.
Qed.

Lemma Ex_skip mid : forall rest F rho, valid c rho -> depends_on c rest F -> (forall i, i ∈ mid -> i < nvars c) ->
  Ex (mid ++ rest) F rho = Ex rest F rho.
Proof.
  induction mid as [|i mid IH]; intros rest F rho Hr Hdep H1; [done|]. cbn [app Ex].
  rewrite (rsum_ext _ (fun k => pr_of i k * Ex rest F rho)).
  - rewrite <- rsum_scale_r, row_sum; [ring|]. apply H1. set_solver.
  - intros k Hk. apply elem_of_seq in Hk. assert (Hv : valid c (upd rho i k)) by (apply upd_valid; [done|lia]).
    rewrite IH; [|done|done|intros; apply H1; set_solver]. f_equal. apply Ex_ext; [done..|].
    intros tau tau' Ht Ht' _ _ H3. by apply Hdep.
Qed.

Lemma Ex_perm os os' : os ≡ₚ os' -> NoDup os -> forall F rho, valid c rho -> depends_on c (seq O (nvars c)) F ->
  Ex os F rho = Ex os' F rho.
Proof.
  induction 1 as [|i os os' Hp IH|i j os|os os1 os2 H1 IH1 H2 IH2]; intros ND F rho Hv Hdep.
  - done.
  - inversion ND; subst. cbn [Ex]. apply rsum_ext. intros k Hk. apply elem_of_seq in Hk. f_equal.
    apply IH; [done|apply upd_valid; [done|lia]|done].
  - inversion ND as [|? ? Hi ND']; subst. cbn [Ex].
    rewrite (rsum_ext _ (fun k => rsum ar (map (fun k' => pr_of i k' * (pr_of j k * Ex os F (upd (upd rho i k') j k))) (seq O (dom c i))))).
    2:{ intros k Hk. apply elem_of_seq in Hk. rewrite rsum_scale. apply rsum_ext. intros k' Hk'. apply elem_of_seq in Hk'.
        rewrite (Ex_ext os F F (upd (upd rho j k) i k') (upd (upd rho i k') j k)); [ring| | |].
        1,2: apply upd_valid; [apply upd_valid; [done|lia]|lia].
        intros tau tau' Ht Ht' G1 G2 G3. apply Hdep; [done..|]. intros x _. destruct (decide (x ∈ os)); [auto|].
        rewrite G1, G2 by done. unfold upd. repeat case_decide; subst; try done. set_solver. }
    rewrite rsum_swap. apply rsum_ext. intros k' Hk'. by rewrite <- rsum_scale.
  - rewrite IH1 by done. apply IH2; [by rewrite <- H1|done|done].
Qed.

(** the state vector [x] for the variables from [i] on *)
Definition merge (i : nat) (rho : asg) (x : list nat) : asg := fun j => if decide (j < i) then rho j else nth (j - i) x O.

Lemma merge_valid i rho x : valid c rho -> Forall2 (fun k d => k < d) x (drop i (c_doms c)) -> valid c (merge i rho x).
Proof.
  intros Hv Hx j Hj. unfold merge. case_decide; [by apply Hv|].
  assert (E : drop i (c_doms c) !! (j - i) = Some (dom c j)).
  { rewrite lookup_drop. replace (i + (j - i))%nat with j by lia.
    unfold dom. destruct (nth_lookup_or_length (c_doms c) j O); [done|]. unfold nvars in Hj. lia. }
  destruct (Forall2_lookup_r _ _ _ _ _ Hx E) as (k&Ek&Hk). by rewrite (nth_lookup_Some _ _ _ _ Ek).
Qed.

Lemma Ex_states F m : forall i rho, depends_on c (seq O (nvars c)) F -> valid c rho -> (i + m)%nat = nvars c ->
  Ex (seq i m) F rho = rsum ar (map (fun x => weight ar (drop i ps) x * g (F (merge i rho x))) (states (drop i (c_doms c)))).
Proof.
  induction m as [|m IH]; intros i rho Hdep Hv Him; cbn [seq Ex].
  - rewrite (drop_ge (c_doms c)) by (unfold nvars in Him; lia). cbn [states map rsum fold_right].
    rewrite (Hdep rho (merge i rho [])); [|done| |].
    + replace (weight ar (drop i ps) []) with 1; [unfold rsum; simpl; ring|]. by destruct (drop i ps).
    + apply merge_valid; [done|]. rewrite drop_ge by (unfold nvars in Him; lia). constructor.
    + intros j Hj. apply elem_of_seq in Hj. unfold merge. rewrite decide_True by lia. done.
  - assert (Hi : i < nvars c) by lia.
    destruct (row_of i Hi) as (row&Er&Hl&_).
    assert (Ed : drop i (c_doms c) = dom c i :: drop (S i) (c_doms c)).
    { apply drop_S. unfold dom. destruct (nth_lookup_or_length (c_doms c) i O); [done|]. unfold nvars in Hi. lia. }
    assert (Ep : drop i ps = row :: drop (S i) ps) by (by apply drop_S).
    rewrite Ed, Ep. cbn [states]. rewrite rsum_flat. apply rsum_ext. intros k Hk. apply elem_of_seq in Hk.
    rewrite IH; [|done|apply upd_valid; [done|lia]|lia]. rewrite map_map, rsum_scale. apply rsum_ext. intros y Hy.
    apply states_elem in Hy. cbn [weight].
    rewrite (Hdep (merge (S i) (upd rho i k) y) (merge i rho (k :: y))).
    + unfold pr_of. rewrite (nth_lookup_Some _ _ _ _ Er). ring.
    + apply merge_valid; [apply upd_valid; [done|lia]|done].
    + apply merge_valid; [done|]. rewrite Ed. constructor; [lia|done].
    + intros j _. unfold merge, upd. repeat case_decide; try lia; try done.
      * subst. rewrite Nat.sub_diag. done.
      * replace (j - i)%nat with (S (j - S i)) by lia. done.
Qed.
End ex.

Definition ind (P : Z -> bool) (v : Z) : R := if P v then 1 else 0.

(** the expectation of an indicator is the probability of the event *)
Lemma Ex_probability P F os rho : os ≡ₚ seq O (nvars c) -> valid c rho -> depends_on c (seq O (nvars c)) F ->
  Ex (ind P) os F rho = probability ar (c_doms c) ps (fun x => P (F (of_vals x))).
Proof.
  intros Hp Hv Hdep. rewrite (Ex_perm _ _ _ Hp); [|rewrite Hp; apply NoDup_seq|done|done].
  rewrite (Ex_states (ind P) F (nvars c) O rho) by done. unfold probability. rewrite !drop_0.
  apply rsum_ext. intros x Hx. apply states_elem in Hx.
  rewrite (Hdep (merge O rho x) (of_vals x)).
  - unfold ind. destruct (P _); ring.
  - apply merge_valid; [done|]. by rewrite drop_0.
  - intros i Hi. unfold of_vals. destruct (lookup_lt_is_Some_2 (c_doms c) i Hi) as [d Ed].
    destruct (Forall2_lookup_r _ _ _ _ _ Hx Ed) as (k&Ek&Hk). rewrite (nth_lookup_Some _ _ _ _ Ek).
    unfold dom. by rewrite (nth_lookup_Some _ _ _ _ Ed).
  - intros j _. unfold merge, of_vals. rewrite decide_False by lia. by rewrite Nat.sub_0_r.
Qed.
End expect.
