(** * left_fold and tree_fold *)

From stdpp Require Import gmap list.
From Coq Require Import ZArith Lia.
From Verif Require Import Base Ops Tables NodeManager Tools Sift DiagramManager.
From Verif Require Import Heap Inv InvLemmas Prim TabLemmas GC Make Build Apply Api Eval.

Local Open Scope nat_scope.

(** ** The combinations (specification side) *)

(** one round of pairing neighbours *)
Fixpoint pairup {A} (f : A -> A -> A) (l : list A) : list A :=
  match l with
  | x :: y :: l => f x y :: pairup f l
  | _ => l
  end.

(** balanced combination: rounds of pairing until one value is left *)
Definition balanced {A} (f : A -> A -> A) (l : list A) : option A := head (Nat.iter (length l) (pairup f) l).

(** two-step induction on lists *)
Lemma list_ind2 {A} (P : list A -> Prop) :
  P [] -> (forall x, P [x]) -> (forall x y l, P l -> P (x :: y :: l)) -> forall l, P l.
Proof.
  intros H0 H1 H2 l. assert (P l /\ forall x, P (x :: l)) as [? _]; [|done].
  induction l as [|y l [IH1 IH2]]; split; auto.
Qed.

Lemma pairup_length {A} (f : A -> A -> A) l : length (pairup f l) = (length l + 1) / 2.
Proof.
  induction l as [|x|x y l IH] using list_ind2; [done|done|]. cbn [pairup length]. rewrite IH.
  replace (S (S (length l)) + 1) with (length l + 1 + 1 * 2) by lia. rewrite Nat.div_add by lia. lia.
Qed.

Lemma pairup_lookup {A} (f : A -> A -> A) l k x y :
  l !! (2 * k) = Some x -> l !! (2 * k + 1) = Some y -> pairup f l !! k = Some (f x y).
Proof.
  revert k. induction l as [|z|z w l IH] using list_ind2; intros k Hx Hy; [done| |].
  - destruct k; [done|]. simpl in Hx. destruct (_ + _); done.
  - destruct k as [|k]; [by simpl in *; simplify_eq|]. simpl. apply IH.
    + by replace (2 * S k) with (S (S (2 * k))) in Hx by lia.
    + by replace (2 * S k + 1) with (S (S (2 * k + 1))) in Hy by lia.
Qed.

Lemma pairup_lookup_odd {A} (f : A -> A -> A) l k x :
  length l = 2 * k + 1 -> l !! (2 * k) = Some x -> pairup f l !! k = Some x.
Proof.
  revert k. induction l as [|z|z w l IH] using list_ind2; intros k Hl Hx; [done| |].
  - destruct k; [done|]. simpl in Hl. lia.
  - destruct k as [|k]; [simpl in *; lia|]. simpl. apply IH; [simpl in Hl; lia|].
    by replace (2 * S k) with (S (S (2 * k))) in Hx by lia.
Qed.

Lemma pairup_map {A B} (f : A -> A -> A) (f' : B -> B -> B) (h : A -> B) l :
  (forall x y, h (f x y) = f' (h x) (h y)) -> map h (pairup f l) = pairup f' (map h l).
Proof. intros H. induction l as [| |x y l IH] using list_ind2; [done|done|]. simpl. by rewrite H, IH. Qed.

Lemma iter_pairup_map {A B} (f : A -> A -> A) (f' : B -> B -> B) (h : A -> B) n l :
  (forall x y, h (f x y) = f' (h x) (h y)) -> map h (Nat.iter n (pairup f) l) = Nat.iter n (pairup f') (map h l).
Proof. intros H. induction n as [|n IH]; [done|]. simpl. by rewrite (pairup_map f f'), IH. Qed.

Lemma iter_pairup_one {A} (f : A -> A -> A) n x : Nat.iter n (pairup f) [x] = [x].
Proof. induction n as [|n IH]; [done|]. simpl. by rewrite IH. Qed.

Lemma iter_comm {A} (f : A -> A) n x : Nat.iter n f (f x) = f (Nat.iter n f x).
Proof. induction n as [|n IH]; [done|]. simpl. by rewrite IH. Qed.

(** any sufficient number of rounds gives the same single value *)
Lemma iter_pairup_enough {A} (f : A -> A -> A) n : forall l, length l <> 0 -> length l <= 2 ^ n ->
  exists x, forall m, Nat.iter (n + m) (pairup f) l = [x].
Proof.
  induction n as [|n IH]; intros l H0 Hn.
  - simpl in Hn. destruct l as [|x [|]]; simpl in *; try lia. exists x. intros m. apply iter_pairup_one.
  - destruct (IH (pairup f l)) as [x Hx].
    + rewrite pairup_length. intros E. apply Nat.div_small_iff in E; lia.
    + rewrite pairup_length. rewrite Nat.pow_succ_r' in Hn.
      enough ((length l + 1) / 2 < S (2 ^ n)) by lia. apply Nat.div_lt_upper_bound; lia.
    + exists x. intros m. simpl. rewrite <- iter_comm. apply Hx.
Qed.

Lemma iter_pairup_balanced {A} (f : A -> A -> A) n l : length l <> 0 -> length l <= 2 ^ n ->
  head (Nat.iter n (pairup f) l) = balanced f l.
Proof.
  intros H0 Hn. destruct (iter_pairup_enough f n l H0 Hn) as [x Hx].
  destruct (iter_pairup_enough f (length l) l H0) as [y Hy]; [apply Nat.lt_le_incl, Nat.pow_gt_lin_r; lia|].
  unfold balanced. pose proof (Hx (length l)) as E1. pose proof (Hy n) as E2.
  rewrite Nat.add_comm in E2. rewrite E1 in E2. pose proof (Hx 0) as E3. pose proof (Hy 0) as E4.
  rewrite Nat.add_0_r in E3, E4. rewrite E3, E4. by simplify_eq.
Qed.

(** for an associative function every combination is the left fold *)
Lemma fold_left_pairup {A} (f : A -> A -> A) l x :
  (forall x y z, f (f x y) z = f x (f y z)) ->
  fold_left f (pairup f l) x = fold_left f l x.
Proof.
  intros H. revert x. induction l as [|y|y z l IH] using list_ind2; intros x; [done|done|].
  simpl. by rewrite IH, H.
Qed.

Lemma balanced_assoc {A} (f : A -> A -> A) x l :
  (forall x y z, f (f x y) z = f x (f y z)) -> balanced f (x :: l) = Some (fold_left f l x).
Proof.
  intros H. unfold balanced.
  assert (G : forall n x l, exists y l', Nat.iter n (pairup f) (x :: l) = y :: l' /\ fold_left f l' y = fold_left f l x).
  { induction n as [|n IH]; intros x0 l0; [by exists x0, l0|]. simpl. rewrite <- iter_comm.
    destruct l0 as [|y l0]; [by apply IH|]. simpl. destruct (IH (f x0 y) (pairup f l0)) as (z&l'&E1&E2).
    exists z, l'. split; [done|]. by rewrite E2, fold_left_pairup. }
  destruct (G (length (x :: l)) x l) as (y&l'&E1&E2). rewrite E1. simpl.
  destruct (iter_pairup_enough f (length (x :: l)) (x :: l)) as [w Hw];
    [done|apply Nat.lt_le_incl, Nat.pow_gt_lin_r; lia|].
  specialize (Hw 0). rewrite Nat.add_0_r in Hw. rewrite Hw in E1. simplify_eq. simpl in E2. by rewrite E2.
Qed.

Section good.
Context (c : cfg).

(** values on which all the applications of the fold are defined *)
Fixpoint fold_good (o : opc) (x : Z) (l : list Z) : Prop :=
  match l with
  | [] => True
  | y :: l => good_op c o x y /\ fold_good o (op_fun o x y) l
  end.

Fixpoint pairs_good (o : opc) (l : list Z) : Prop :=
  match l with
  | x :: y :: l => good_op c o x y /\ pairs_good o l
  | _ => True
  end.

Fixpoint rounds_good (o : opc) (n : nat) (l : list Z) : Prop :=
  match n with
  | O => True
  | S n => pairs_good o l /\ rounds_good o n (pairup (op_fun o) l)
  end.

End good.

Lemma pairs_good_lookup c o l k x y :
  pairs_good c o l -> l !! (2 * k) = Some x -> l !! (2 * k + 1) = Some y -> good_op c o x y.
Proof.
  revert k. induction l as [|z|z w l IH] using list_ind2; intros k H Hx Hy; [done| |].
  - destruct k; [done|]. simpl in Hx. destruct (_ + _); done.
  - destruct H as [H1 H2]. destruct k as [|k]; [by simpl in *; simplify_eq|]. apply (IH k); [done| |].
    + by replace (2 * S k) with (S (S (2 * k))) in Hx by lia.
    + by replace (2 * S k + 1) with (S (S (2 * k + 1))) in Hy by lia.
Qed.

Section fold.
Context (c : cfg) (opsem : Z -> option (Z -> Z -> Z)) (strict : bool).
Notation rank := (rank c).
Notation WF := (WF c opsem strict).
Notation allowed := (allowed strict).
Notation calm := (calm c opsem strict).
Notation astep := (astep c opsem strict).
Notation anew := (anew c opsem strict).

(** the diagram [a] represents the function [F] *)
Definition den (s : st) (a : positive) (F : asg -> Z) : Prop :=
  forall rho, valid c rho -> Ev (live (s_heap s)) a rho (F rho).

Lemma calm_ext e g s : (forall a, e a = g_ext g a) -> calm g s -> calm (g_set_ext e g) s.
Proof.
  intros He C. pose proof C as [W Hq O]. constructor; try done.
  assert (s = set_heap (s_heap s) s) as -> by (by destruct s).
  apply WF_hrel; try done.
  - apply hrel_refl.
  - intros a n Hn U Hdy. simpl. rewrite He. by eapply wf_refs.
  - intros a n n' _ E1 E2. naive_solver.
  - intros a. rewrite He. by eapply wf_ext.
Qed.

Lemma den_kept k g g' s s' a F : astep k g g' s s' -> 0 < g_ext g a -> 0 < g_ext g' a -> den s a F -> den s' a F.
Proof. intros A H1 H2 D rho Hv. eapply as_ev; eauto. Qed.

Lemma apply_den g o l r s F G :
  let o' := apply_op c o in
  wf_cfg c -> calm g s -> idle s -> g_cm g = CValid -> opsem (op_id o') = Some (op_fun o') ->
  0 < g_ext g l -> 0 < g_ext g r -> den s l F -> den s r G ->
  (forall rho, valid c rho -> good_op c o' (F rho) (G rho)) ->
  wp allowed (apply c o l r) (fun a s' => astep true g (g_inc a g) s s' /\
    den s' a (fun rho => op_fun o' (F rho) (G rho))) s.
Proof.
  intros o' Hc C Hm Hcm Hop Hl Hr DF DG Hg. eapply wp_mono.
  { apply (apply_spec c opsem strict g o l r s); try done.
    intros rho x y Hv Hx Hy. assert (x = F rho) as -> by (eapply Ev_det; [exact Hx|by apply DF]).
    assert (y = G rho) as -> by (eapply Ev_det; [exact Hy|by apply DG]). by apply Hg. }
  intros a s' A. split; [apply A|]. intros rho Hv. eapply an_ev; [exact A|done|].
  exists (F rho), (G rho). auto.
Qed.

Lemma astep_trans k g1 g2 g3 s1 s2 s3 :
  astep k g1 g2 s1 s2 -> astep k g2 g3 s2 s3 ->
  (forall a, 0 < g_ext g1 a -> 0 < g_ext g3 a -> 0 < g_ext g2 a) -> astep k g1 g3 s1 s3.
Proof.
  intros A B H. constructor; [apply B| | |].
  - intros r H1 H3 rho v Hv HE. eapply as_ev; [exact B|auto|done|done|].
    eapply as_ev; [exact A|done|auto|done|done].
  - intros Hk Hcl. eapply as_clean; [exact B|done|]. eapply as_clean; [exact A|done|done].
  - eapply mode_trans; [apply A|apply B].
Qed.

(** change of the ghost to one with the same reference counts *)
Lemma astep_ext k g g' e s s' : (forall a, e a = g_ext g' a) ->
  astep k g g' s s' -> astep k g (g_set_ext e g') s s'.
Proof.
  intros He [A1 A2 A3 A4]. constructor; [by apply calm_ext| |done|done].
  intros r H1 H2. apply A2; [done|]. simpl in H2. by rewrite He in H2.
Qed.

(** from [s] to [s'] the diagrams referred to by [g] keep their functions *)
Record fstep (g g' : ghost) (s s' : st) : Prop := {
  fs_calm : calm g' s';
  fs_den : forall a F, 0 < g_ext g a -> den s a F -> den s' a F;
  fs_clean : clean s -> clean s';
  fs_mode : mode_kept s s'
}.

Lemma astep_fstep g g' g0 s s' :
  astep true g g' s s' -> (forall a, 0 < g_ext g0 a -> 0 < g_ext g a /\ 0 < g_ext g' a) -> fstep g0 g' s s'.
Proof.
  intros A H. constructor; [apply A| | |].
  - intros a F Ha. destruct (H a Ha). by eapply den_kept.
  - by apply A.
  - apply A.
Qed.

Lemma fstep_trans g g1 g2 s s1 s2 : fstep g g1 s s1 -> fstep g g2 s1 s2 -> fstep g g2 s s2.
Proof. intros [] []. constructor; auto. by eapply mode_trans. Qed.

(** ** left_fold *)

Lemma ext_inc_pos g a r : 0 < g_ext g a -> 0 < g_ext (g_inc r g) a.
Proof. intros H. pose proof (ext_inc_le (g_ext g) r a). simpl. lia. Qed.

Lemma left_fold_loop_spec o l :
  let o' := apply_op c o in
  wf_cfg c -> opsem (op_id o') = Some (op_fun o') ->
  forall Gs g acc F s, calm (g_inc acc g) s -> idle s -> g_cm g = CValid ->
  Forall2 (den s) l Gs -> Forall (fun a => 0 < g_ext g a) l -> den s acc F ->
  (forall rho, valid c rho -> fold_good c o' (F rho) (map (fun G => G rho) Gs)) ->
  wp allowed (left_fold_loop c o acc l) (fun r s' => fstep g (g_inc r g) s s' /\
    den s' r (fun rho => fold_left (op_fun o') (map (fun G => G rho) Gs) (F rho))) s.
Proof.
  intros o' Hc Hop. induction l as [|b l IH]; intros Gs g acc F s C Hm Hcm Hl Hx DF Hg; cbn [left_fold_loop].
  - inversion Hl; subst. apply wp_ret. split; [|done]. by constructor.
  - inversion Hl as [|? G ? Gs' HG HGs]; subst. apply Forall_cons in Hx as [Hb Hx].
    apply wp_bind. eapply wp_mono.
    { apply (apply_den (g_inc acc g) o acc b s F G); try done.
      - apply ext_inc_same.
      - by apply ext_inc_pos.
      - intros rho Hv. destruct (Hg rho Hv) as [? _]. done. }
    intros r s1 [A1 D1].
    apply wp_bind. eapply wp_mono.
    { apply (destroy_spec c opsem strict allowed (g_inc r (g_inc acc g)) acc s1); [apply A1|].
      apply ext_inc_pos, ext_inc_same. }
    intros [] s2 A2.
    assert (A3 : astep true (g_inc r (g_inc acc g)) (g_inc r g) s1 s2).
    { eapply (astep_ext _ _ _ (g_ext (g_inc r g))) in A2; [exact A2|].
      intros a. simpl. unfold ext_dec, ext_inc. repeat destruct (decide _); subst; lia. }
    assert (F13 : fstep g (g_inc r g) s s2).
    { eapply fstep_trans.
      - eapply astep_fstep; [exact A1|]. auto using ext_inc_pos.
      - eapply astep_fstep; [exact A3|]. auto using ext_inc_pos. }
    eapply wp_mono.
    { apply (IH Gs' g r (fun rho => op_fun o' (F rho) (G rho)) s2); try done.
      - apply A3.
      - eapply mode_idle; [apply F13|done].
      - clear -HGs Hx F13. induction HGs; constructor; apply Forall_cons in Hx as [? ?]; [|auto].
        by eapply fs_den.
      - eapply den_kept; [exact A3|apply ext_inc_same|apply ext_inc_same|done].
      - intros rho Hv. apply (Hg rho Hv). }
    intros r' s3 [A4 D4]. split; [|done]. by eapply fstep_trans.
Qed.

Lemma left_fold_spec o a l F Gs g s :
  let o' := apply_op c o in
  wf_cfg c -> opsem (op_id o') = Some (op_fun o') -> calm g s -> idle s -> g_cm g = CValid ->
  Forall2 (den s) (a :: l) (F :: Gs) -> Forall (fun a => 0 < g_ext g a) (a :: l) ->
  (forall rho, valid c rho -> fold_good c o' (F rho) (map (fun G => G rho) Gs)) ->
  wp allowed (left_fold c o (a :: l)) (fun r s' => fstep g (g_inc r g) s s' /\
    den s' r (fun rho => fold_left (op_fun o') (map (fun G => G rho) Gs) (F rho))) s.
Proof.
  intros o' Hc Hop C Hm Hcm HD Hx Hg. unfold left_fold. inversion HD; subst. pose proof Hx as [Ha Hl]%Forall_cons.
  apply wp_bind. eapply wp_mono; [by apply (copy_spec c opsem strict g a s)|].
  intros [] s1 [A1 HE].
  assert (F1 : fstep g (g_inc a g) s s1) by (eapply astep_fstep; [exact A1|]; auto using ext_inc_pos).
  eapply wp_mono.
  { apply (left_fold_loop_spec o l Hc Hop Gs g a F s1); try done.
    - apply A1.
    - eapply mode_idle; [apply F1|done].
    - clear -H4 Hl F1. induction H4; constructor; apply Forall_cons in Hl as [? ?]; [|auto].
      by eapply fs_den.
    - by eapply fs_den. }
  intros r s2 [F2 D2]. split; [|done]. by eapply fstep_trans.
Qed.

(** ** tree_fold *)

(** references held by an array of handles *)
Fixpoint acount (arr : list (option positive)) (a : positive) : nat :=
  match arr with
  | [] => 0
  | x :: arr => (if decide (x = Some a) then 1 else 0) + acount arr a
  end.

Lemma acount_insert arr k x y a : arr !! k = Some x ->
  acount (<[k:=y]> arr) a + (if decide (x = Some a) then 1 else 0)
  = acount arr a + (if decide (y = Some a) then 1 else 0).
Proof.
  revert k. induction arr as [|z arr IH]; intros k Hk; [done|]. destruct k as [|k]; simpl in *; simplify_eq; [lia|].
  specialize (IH k Hk). lia.
Qed.

Lemma acount_pos arr k a : arr !! k = Some (Some a) -> 0 < acount arr a.
Proof.
  revert k. induction arr as [|z arr IH]; intros k Hk; [done|]. destruct k as [|k]; simpl in *; simplify_eq.
  - rewrite decide_True by done. lia.
  - specialize (IH k Hk). lia.
Qed.

(** [base] plus what the array holds *)
Definition g_arr (g : ghost) (arr : list (option positive)) : ghost :=
  g_set_ext (fun a => g_ext g a + acount arr a) g.

Lemma g_arr_base g arr a : 0 < g_ext g a -> 0 < g_ext (g_arr g arr) a.
Proof. simpl. lia. Qed.

Lemma g_arr_slot g arr k a : arr !! k = Some (Some a) -> 0 < g_ext (g_arr g arr) a.
Proof. intros H%acount_pos. simpl. lia. Qed.

(** the slots [lo..hi) of [arr] hold the functions of the slots of [Fs] *)
Definition holds (s : st) (arr : list (option positive)) (Fs : list (asg -> Z)) (lo hi : nat) : Prop :=
  forall k F, lo <= k -> k < hi -> Fs !! k = Some F -> exists a, arr !! k = Some (Some a) /\ den s a F.

(** putting the reference [r], owned so far by the program, into slot [k] *)
Lemma put_slot_spec g arr k x r s :
  arr !! k = Some x -> calm (g_inc r (g_arr g arr)) s ->
  wp allowed (drop_handle (mjoin (arr !! k))) (fun _ s' =>
    calm (g_arr g (<[k := Some r]> arr)) s' /\ (clean s -> clean s') /\ mode_kept s s' /\
    (forall a F, den s a F -> 0 < g_ext (g_inc r (g_arr g arr)) a ->
       0 < g_ext (g_arr g (<[k := Some r]> arr)) a -> den s' a F)) s.
Proof.
  intros Hk C. rewrite Hk. pose proof (acount_insert arr k x (Some r)) as Hc. destruct x as [b|].
  - change (drop_handle (mjoin (Some (Some b)))) with (diagram_destroy b). pose proof (acount_pos arr k b Hk) as Hb.
    eapply wp_mono; [apply (destroy_spec c opsem strict allowed (g_inc r (g_arr g arr)) b s); [done|]|].
    { apply ext_inc_pos. simpl. lia. }
    intros [] s' A. eapply (astep_ext _ _ _ (g_ext (g_arr g (<[k := Some r]> arr)))) in A.
    + split_and!; [apply A|by apply A|apply A|]. intros a F D H1 H2. eapply den_kept; [exact A|done|done|done].
    + intros a. specialize (Hc a Hk). simpl. unfold ext_dec, ext_inc in *. simpl in *.
      destruct (decide (Some b = Some a)); destruct (decide (Some r = Some a)); simplify_eq;
        repeat destruct (decide _); simplify_eq; lia.
  - change (drop_handle (mjoin (Some None))) with (@ret unit tt). apply wp_ret. split_and!; [|done|done|done].
    apply (calm_ext (g_ext (g_arr g (<[k := Some r]> arr)))) in C; [exact C|].
    intros a. specialize (Hc a Hk). simpl. unfold ext_inc in *. simpl in *.
    destruct (decide (Some r = Some a)); simplify_eq; repeat destruct (decide _); simplify_eq; lia.
Qed.

Lemma tree_pairs_spec o Fs g s0 n :
  let o' := apply_op c o in
  let fF := fun F G : asg -> Z => fun rho => op_fun o' (F rho) (G rho) in
  wf_cfg c -> idle s0 -> opsem (op_id o') = Some (op_fun o') -> g_cm g = CValid ->
  (forall rho, valid c rho -> pairs_good c o' (map (fun F => F rho) Fs)) ->
  forall k arr s, n + k = length Fs / 2 -> length Fs <= length arr ->
  fstep g (g_arr g arr) s0 s ->
  holds s arr (pairup fF Fs) 0 k -> holds s arr Fs (2 * k) (length Fs) ->
  wp allowed (tree_pairs c n k o arr) (fun arr' s' =>
    fstep g (g_arr g arr') s0 s' /\ length arr' = length arr /\
    holds s' arr' (pairup fF Fs) 0 (n + k) /\ holds s' arr' Fs (2 * (n + k)) (length Fs)) s.
Proof.
  intros o' fF Hc Hm Hop Hcm Hg. induction n as [|n IH]; intros k arr s Hn Hlen FS H1 H2; cbn [tree_pairs].
  { apply wp_ret. done. }
  assert (Hk : 2 * k + 1 < length Fs).
  { pose proof (Nat.mul_div_le (length Fs) 2). lia. }
  destruct (lookup_lt_is_Some_2 Fs (2 * k)) as [F HF]; [lia|].
  destruct (lookup_lt_is_Some_2 Fs (2 * k + 1)) as [G HG]; [lia|].
  destruct (H2 (2 * k) F) as (x&Hx&Dx); [lia|lia|done|].
  destruct (H2 (2 * k + 1) G) as (y&Hy&Dy); [lia|lia|done|].
  apply wp_bind. unfold slot at 1. rewrite Hx. apply wp_ret.
  apply wp_bind. unfold slot at 1. rewrite Hy. apply wp_ret.
  apply wp_bind. eapply wp_mono.
  { apply (apply_den (g_arr g arr) o x y s F G); try done.
    - apply FS.
    - by eapply mode_idle; [apply FS|].
    - by eapply g_arr_slot.
    - by eapply g_arr_slot.
    - intros rho Hv. apply (pairs_good_lookup c o' _ k _ _ (Hg rho Hv));
        rewrite list_lookup_fmap; [by rewrite HF|by rewrite HG]. }
  intros r s1 [A1 D1].
  destruct (lookup_lt_is_Some_2 arr k) as [z Hz]; [lia|].
  apply wp_bind. eapply wp_mono; [apply (put_slot_spec g arr k z r s1 Hz); apply A1|].
  intros [] s2 (C2&Hcl&Hau&HD).
  assert (Hden : forall j a F, j <> k -> arr !! j = Some (Some a) -> den s a F -> den s2 a F).
  { intros j a F' Hne Ha D. apply HD.
    - eapply den_kept; [exact A1|by eapply g_arr_slot|apply ext_inc_pos; by eapply g_arr_slot|done].
    - apply ext_inc_pos. by eapply g_arr_slot.
    - eapply g_arr_slot. by rewrite list_lookup_insert_ne. }
  eapply wp_mono.
  { apply (IH (S k) (<[k := Some r]> arr) s2); try lia; rewrite ?insert_length; try done.
    - constructor; [done| | |].
      + intros a F' Ha D. apply HD; [| |by apply g_arr_base].
        * eapply den_kept; [exact A1|by apply g_arr_base|by apply ext_inc_pos, g_arr_base|].
          by apply (fs_den _ _ _ _ FS).
        * by apply ext_inc_pos, g_arr_base.
      + intros Hcl0. apply Hcl. apply (as_clean _ _ _ _ _ _ _ _ A1); [done|]. by apply FS.
      + eapply mode_trans; [apply FS|]. eapply mode_trans; [apply A1|done].
    - intros j F' _ Hj HF'. destruct (decide (j = k)) as [->|Hne].
      + exists r. split; [apply list_lookup_insert; lia|].
        rewrite (pairup_lookup fF Fs k F G HF HG) in HF'. simplify_eq.
        apply HD; [done|apply ext_inc_same|]. eapply g_arr_slot. apply list_lookup_insert. lia.
      + destruct (H1 j F') as (a&Ha&Da); [lia|lia|done|]. exists a.
        rewrite list_lookup_insert_ne by done. split; [done|]. by eapply Hden.
    - intros j F' Hj1 Hj2 HF'. destruct (H2 j F') as (a&Ha&Da); [lia|lia|done|]. exists a.
      rewrite list_lookup_insert_ne by lia. split; [done|]. eapply (Hden j); [lia|done|done]. }
  intros arr' s3 (B1&B2&B3&B4). replace (n + S k) with (S n + k) in * by lia.
  rewrite insert_length in B2. done.
Qed.

Lemma tree_steps_spec o g s0 steps :
  let o' := apply_op c o in
  let fF := fun F G : asg -> Z => fun rho => op_fun o' (F rho) (G rho) in
  wf_cfg c -> idle s0 -> opsem (op_id o') = Some (op_fun o') -> g_cm g = CValid ->
  forall Fs arr s,
  (forall rho, valid c rho -> rounds_good c o' steps (map (fun F => F rho) Fs)) ->
  length Fs <= length arr -> length Fs <> 0 ->
  fstep g (g_arr g arr) s0 s -> holds s arr Fs 0 (length Fs) ->
  wp allowed (tree_steps c steps o (length Fs) arr) (fun arr' s' =>
    fstep g (g_arr g arr') s0 s' /\ length arr' = length arr /\
    holds s' arr' (Nat.iter steps (pairup fF) Fs) 0 (length (Nat.iter steps (pairup fF) Fs))) s.
Proof.
  intros o' fF Hc Hm Hop Hcm. induction steps as [|steps IH]; intros Fs arr s Hg Hlen Hne FS H; cbn [tree_steps].
  { apply wp_ret. done. }
  assert (Hfp : forall rho, map (fun F => F rho) (pairup fF Fs) = pairup (op_fun o') (map (fun F => F rho) Fs)).
  { intros rho. by apply pairup_map. }
  apply wp_bind. eapply wp_mono.
  { apply (tree_pairs_spec o Fs g s0 (length Fs / 2)); try done; try lia.
    - intros rho Hv. apply (Hg rho Hv).
    - intros j F' ? Hj. lia. }
  intros arr1 s1 (FS1&L1&H1&H2). rewrite Nat.add_0_r in H1, H2.
  assert (Hcur : (if Nat.odd (length Fs) then S (length Fs / 2) else length Fs / 2) = length (pairup fF Fs)).
  { rewrite pairup_length. pose proof (Nat.div2_odd (length Fs)) as E. rewrite Nat.div2_div in E.
    destruct (Nat.odd (length Fs)); simpl Nat.b2n in E.
    - rewrite E at 2. replace (2 * (length Fs / 2) + 1 + 1) with ((length Fs / 2 + 1) * 2) by lia.
      rewrite Nat.div_mul; lia.
    - rewrite E at 2. replace (2 * (length Fs / 2) + 0 + 1) with (1 + (length Fs / 2) * 2) by lia.
      rewrite Nat.div_add by lia. simpl. lia. }
  rewrite Hcur. set (cur := length (pairup fF Fs)) in *.
  apply wp_bind.
  assert (Hodd : wp allowed (if Nat.odd (length Fs) then
           let* a := slot arr1 (2 * (cur - 1)) in
           if (2 * (cur - 1) =? cur - 1)%nat then ret arr1 else
           let* _ := drop_handle (mjoin (arr1 !! (cur - 1)%nat)) in
           ret (<[(cur - 1)%nat := Some a]> (<[(2 * (cur - 1))%nat := None]> arr1))
         else ret arr1) (fun arr2 s2 => fstep g (g_arr g arr2) s0 s2 /\ length arr2 = length arr /\
            holds s2 arr2 (pairup fF Fs) 0 cur) s1).
  { pose proof (Nat.div2_odd (length Fs)) as E. rewrite Nat.div2_div in E.
    destruct (Nat.odd (length Fs)); simpl Nat.b2n in E.
    2:{ apply wp_ret. rewrite <- Hcur. done. }
    assert (Hc1 : cur - 1 = length Fs / 2) by lia. rewrite Hc1 in *. set (h := length Fs / 2) in *.
    destruct (lookup_lt_is_Some_2 Fs (2 * h)) as [F HF]; [lia|].
    destruct (H2 (2 * h) F) as (x&Hx&Dx); [lia|lia|done|].
    pose proof (pairup_lookup_odd fF Fs h F ltac:(lia) HF) as Hpo.
    apply wp_bind. unfold slot. rewrite Hx. apply wp_ret.
    destruct (Nat.eqb_spec (2 * h) h) as [Eh|Eh].
    - apply wp_ret. split_and!; [done|done|]. intros j F' _ Hj HF'.
      destruct (decide (j < h)) as [Hj'|Hj']; [apply H1; try done; lia|].
      assert (j = h) as -> by lia. rewrite Hpo in HF'. simplify_eq. rewrite Eh in Hx. eauto.
    - destruct (lookup_lt_is_Some_2 arr1 h) as [z Hz]; [lia|].
      assert (Hz' : <[2 * h := None]> arr1 !! h = Some z) by (by rewrite list_lookup_insert_ne).
      apply wp_bind. rewrite Hz, <- Hz'. eapply wp_mono.
      { apply (put_slot_spec g (<[2 * h := None]> arr1) h z x s1 Hz').
        eapply (calm_ext (g_ext (g_inc x (g_arr g (<[2 * h := None]> arr1)))) (g_arr g arr1)); [|apply FS1].
        intros a. pose proof (acount_insert arr1 (2 * h) (Some x) None a Hx) as Ec. cbn [g_ext g_inc g_arr g_set_ext]. unfold ext_inc.
        repeat destruct (decide _); simplify_eq; lia. }
      intros [] s2 (C2&Hcl&Hau&HD). apply wp_ret. rewrite !insert_length.
      assert (Hx2 : <[h := Some x]> (<[2 * h := None]> arr1) !! h = Some (Some x)).
      { apply list_lookup_insert. rewrite insert_length. lia. }
      split_and!; [|done|].
      + constructor; [done| | |].
        * intros a F' Ha D. apply HD; [by apply (fs_den _ _ _ _ FS1)|by apply ext_inc_pos, g_arr_base|by apply g_arr_base].
        * intros Hcl0. apply Hcl. by apply FS1.
        * eapply mode_trans; [apply FS1|done].
      + intros j F' _ Hj HF'. destruct (decide (j = h)) as [->|Hne'].
        * exists x. split; [done|]. rewrite Hpo in HF'. simplify_eq.
          apply HD; [done|apply ext_inc_same|by eapply g_arr_slot].
        * destruct (H1 j F') as (a&Ha&Da); [lia|lia|done|]. exists a.
          assert (E1 : <[2 * h := None]> arr1 !! j = Some (Some a)) by (rewrite list_lookup_insert_ne by lia; done).
          assert (E2 : <[h := Some x]> (<[2 * h := None]> arr1) !! j = Some (Some a)) by (by rewrite list_lookup_insert_ne).
          split; [done|]. apply HD; [done|apply ext_inc_pos|]; by eapply g_arr_slot. }
  assert (0 < cur /\ cur <= length Fs) as [Hcb1 Hcb2].
  { unfold cur. rewrite pairup_length. split; [apply Nat.div_str_pos; lia|].
    apply Nat.div_le_upper_bound; lia. }
  eapply wp_mono; [exact Hodd|]. intros arr2 s2 (FS2&L2&H3).
  eapply wp_mono.
  { apply (IH (pairup fF Fs) arr2 s2).
    - intros rho Hv. rewrite Hfp. apply (Hg rho Hv).
    - fold cur. rewrite L2. lia.
    - fold cur. lia.
    - done.
    - done. }
  intros arr3 s3 (FS3&L3&H4). simpl Nat.iter. rewrite <- iter_comm. split_and!; [done|lia|done].
Qed.

Lemma tree_fold_spec o Fs arr g s :
  let o' := apply_op c o in
  wf_cfg c -> idle s -> opsem (op_id o') = Some (op_fun o') -> g_cm g = CValid ->
  Forall2 (fun x F => exists a, x = Some a /\ den s a F) arr Fs -> arr <> [] -> calm (g_arr g arr) s ->
  (forall rho, valid c rho -> rounds_good c o' (length Fs) (map (fun F => F rho) Fs)) ->
  wp allowed (tree_fold c o arr) (fun ra s' =>
    fstep g (g_arr g (Some (fst ra) :: snd ra)) s s' /\ length (snd ra) = length arr /\
    (exists F, den s' (fst ra) F /\
       forall rho, balanced (op_fun o') (map (fun F => F rho) Fs) = Some (F rho))) s.
Proof.
  intros o' Hc Hm Hop Hcm HD Hne C Hg. unfold tree_fold.
  pose proof (Forall2_length _ _ _ HD) as Hlen. rewrite Hlen.
  destruct (Nat.eqb_spec (length Fs) 0) as [E|E]; [exfalso; apply Hne, nil_length_inv; lia|].
  set (steps := Z.to_nat (Z.log2_up (Z.of_nat (length Fs)))).
  assert (length Fs <= 2 ^ steps /\ steps <= length Fs) as [Hst Hst2].
  { unfold steps. split.
    - apply Nat2Z.inj_le. rewrite Nat2Z.inj_pow, Z2Nat.id by apply Z.log2_up_nonneg.
      destruct (decide (length Fs = 1)) as [->|]; [done|]. apply Z.log2_up_spec. lia.
    - apply Nat2Z.inj_le. rewrite Z2Nat.id by apply Z.log2_up_nonneg. apply Z.log2_up_le_lin. lia. }
  assert (Hmono : forall n m l, n <= m -> rounds_good c o' m l -> rounds_good c o' n l).
  { induction n as [|n IHn]; intros m l Hm0 Hr; [done|]. destruct m as [|m]; [lia|].
    destruct Hr as [? ?]. split; [done|]. eapply IHn; [|done]. lia. }
  apply wp_bind. eapply wp_mono.
  { apply (tree_steps_spec o g s steps Hc Hm Hop Hcm Fs arr s); try done.
    - intros rho Hv. eapply Hmono; [|by apply Hg]. done.
    - lia.
    - intros k F _ Hk HF. destruct (Forall2_lookup_r _ _ _ _ _ HD HF) as (x&Hx&a&->&Da). eauto. }
  intros arr1 s1 (FS&L&H). set (fF := fun F G : asg -> Z => fun rho => op_fun o' (F rho) (G rho)).
  change (holds s1 arr1 (Nat.iter steps (pairup fF) Fs) 0 (length (Nat.iter steps (pairup fF) Fs))) in H.
  destruct (iter_pairup_enough fF steps Fs E Hst) as [F HF]. specialize (HF 0). rewrite Nat.add_0_r in HF.
  rewrite HF in H. destruct (H 0 F) as (a&Ha&Da); [done|simpl; lia|done|].
  apply wp_bind. unfold slot. rewrite Ha. apply wp_ret. apply wp_ret. simpl fst. simpl snd. split_and!.
  - destruct FS as [FC FD FL FA]. constructor; [|done|done|done].
    eapply (calm_ext _ (g_arr g arr1)); [|exact FC].
    intros b. destruct arr1 as [|z arr1]; [done|]. simpl in *. simplify_eq. destruct (decide (None = Some b)); [done|]. lia.
  - rewrite insert_length. congruence.
  - exists F. split; [done|]. intros rho.
    rewrite <- (iter_pairup_balanced _ steps) by (by rewrite map_length).
    rewrite <- (iter_pairup_map fF) by done. by rewrite HF.
Qed.

End fold.
