(** * Traversals visit every reachable node once and restore the marks *)

From stdpp Require Import gmap list.
From Coq Require Import ZArith Lia.
From Verif Require Import Base NodeManager Queries Heap.

Local Open Scope nat_scope.

Lemma bind_ok {A B} (m : M A) (k : A -> M B) s a s' : m s = Ok a s' -> bind m k s = k a s'.
Proof. intros E. unfold bind. by rewrite E. Qed.

(** ** Flipping the marks of a set of nodes *)

Definition flipn (n : node) : node := Node (n_body n) (negb (n_mark n)) (n_used n) (n_refs n).
Definition flip (V : gset positive) (h : gmap positive node) : gmap positive node :=
  map_imap (fun a n => Some (if bool_decide (a ∈ V) then flipn n else n)) h.
Definition fs (V : gset positive) (s : st) : st := set_heap (flip V (s_heap s)) s.

Lemma flip_lookup V h a : flip V h !! a = (if bool_decide (a ∈ V) then flipn <$> h !! a else h !! a).
Proof. unfold flip. rewrite map_lookup_imap. destruct (h !! a); simpl; by case_bool_decide. Qed.

Lemma flip_empty h : flip ∅ h = h.
Proof. apply map_eq; intros a. rewrite flip_lookup. case_bool_decide; [set_solver|done]. Qed.
Lemma flip_insert V h a n : a ∉ V -> h !! a = Some n ->
  <[a := flipn n]> (flip V h) = flip ({[a]} ∪ V) h.
Proof.
  intros Ha E. apply map_eq; intros b. rewrite flip_lookup. destruct (decide (b = a)) as [->|Hne].
  - rewrite lookup_insert, bool_decide_eq_true_2 by set_solver. by rewrite E.
  - rewrite lookup_insert_ne, flip_lookup by done. repeat case_bool_decide; set_solver.
Qed.
Lemma flip_flip V h : flip V (flip V h) = h.
Proof.
  apply map_eq; intros a. rewrite !flip_lookup. case_bool_decide; [|done].
  destruct (h !! a) as [[bd m u r]|]; [|done]. simpl. unfold flipn. simpl. by rewrite negb_involutive.
Qed.
Lemma live_flip V h a : live (flip V h) a = live h a.
Proof. unfold live. rewrite flip_lookup. case_bool_decide; [|done]. by destruct (h !! a). Qed.

Lemma set_heap_same s : set_heap (s_heap s) s = s.
Proof. by destruct s. Qed.
Lemma fs_empty s : fs ∅ s = s.
Proof. unfold fs. rewrite flip_empty. apply set_heap_same. Qed.
Lemma fs_fs V s : fs V (fs V s) = s.
Proof. unfold fs. simpl. rewrite flip_flip. by destruct s. Qed.

Section trav.
Context (s : st) (root : positive) (mk : bool) (rk : positive -> nat) (N : nat).
Notation L := (live (s_heap s)).
Notation reachable := (reach L root).

Definition uniform : Prop := forall x, reachable x -> exists n, s_heap s !! x = Some n /\ n_used n = true /\ n_mark n = mk.
Definition ranked : Prop := forall x i sons y, reachable x -> L x = Some (Int i sons) -> y ∈ sons -> rk x < rk y <= N.

Context (Hu : uniform) (Hr : ranked).

Definition sons_in (a : positive) (D : list positive) : Prop :=
  forall i sons y, L a = Some (Int i sons) -> y ∈ sons -> y ∈ D.


Lemma getn_fs V a : reachable a -> exists n, s_heap s !! a = Some n /\ n_mark n = mk /\ L a = Some (n_body n) /\
  n_used n = true /\ getn a (fs V s) = Ok (if bool_decide (a ∈ V) then flipn n else n) (fs V s).
Proof.
  intros Ha. destruct (Hu a Ha) as (n&E&U&Mk). exists n. split_and!; try done.
  - unfold live. by rewrite E, U.
  - unfold getn, fs. simpl. rewrite flip_lookup, E. case_bool_decide; simpl; by rewrite U.
Qed.

Lemma toggle_fs V a : reachable a -> a ∉ V -> toggle_mark a (fs V s) = Ok tt (fs ({[a]} ∪ V) s).
Proof.
  intros Ha Hn. destruct (getn_fs V a Ha) as (n&E&_&_&_&G). unfold toggle_mark, modn.
  rewrite (bind_ok _ _ _ _ _ G). rewrite bool_decide_eq_false_2 by done. unfold modify, fs.
  rewrite <- (flip_insert V _ a n) by done. by destruct s.
Qed.

Lemma differ_fs V a b : reachable a -> reachable b -> a ∈ V ->
  marks_differ a b (fs V s) = Ok (negb (bool_decide (b ∈ V))) (fs V s).
Proof.
  intros Ha Hb HV. destruct (getn_fs V a Ha) as (n&_&M1&_&_&G1). destruct (getn_fs V b Hb) as (m&_&M2&_&_&G2).
  unfold marks_differ. rewrite (bind_ok _ _ _ _ _ G1), (bind_ok _ _ _ _ _ G2). unfold ret. f_equal.
  rewrite bool_decide_eq_true_2 by done. simpl. rewrite M1. case_bool_decide; simpl; rewrite M2; by destruct mk.
Qed.

Lemma differ_fs' V a b : reachable a -> reachable b -> a ∈ V ->
  marks_differ b a (fs V s) = Ok (negb (bool_decide (b ∈ V))) (fs V s).
Proof.
  intros Ha Hb HV. destruct (getn_fs V a Ha) as (n&_&M1&_&_&G1). destruct (getn_fs V b Hb) as (m&_&M2&_&_&G2).
  unfold marks_differ. rewrite (bind_ok _ _ _ _ _ G2), (bind_ok _ _ _ _ _ G1). unfold ret. f_equal.
  rewrite (bool_decide_eq_true_2 (a ∈ V)) by done. simpl. rewrite M1. case_bool_decide; simpl; rewrite M2; by destruct mk.
Qed.

Lemma body_fs V a : reachable a -> exists n, getn a (fs V s) = Ok n (fs V s) /\ L a = Some (n_body n).
Proof.
  intros Ha. destruct (getn_fs V a Ha) as (n&_&_&E&_&G). eexists. split; [exact G|]. by case_bool_decide.
Qed.

(** ** Pre-order *)
Section pre.
Context {T : Type} (op : T -> positive -> M T) (P : list positive -> T -> Prop).
(** the operation reads the manager only, and not the marks *)
Context (Hop : forall V D acc a, reachable a -> a ∉ D -> P D acc ->
  exists acc', op acc a (fs V s) = Ok acc' (fs V s) /\ P (D ++ [a]) acc').

Lemma trav_pre_spec fuel : forall D acc a, reachable a -> a ∉ D -> NoDup D -> P D acc -> N - rk a < fuel ->
  exists K acc', trav_pre op fuel acc a (fs (list_to_set D) s) = Ok acc' (fs (list_to_set (D ++ K)) s) /\
    P (D ++ K) acc' /\ NoDup (D ++ K) /\ a ∈ K /\ (forall x, x ∈ K -> reach L a x) /\
    (forall x, x ∈ K -> sons_in x (D ++ K)).
Proof.
  induction fuel as [|fuel IH]; intros D acc a Ha HD ND HP Hf; [lia|]. cbn [trav_pre].
  rewrite (bind_ok _ _ _ _ _ (toggle_fs (list_to_set D) a Ha ltac:(set_solver))).
  assert (EV : {[a]} ∪ list_to_set D = (list_to_set (D ++ [a]) : gset positive)) by set_solver. rewrite EV.
  destruct (Hop (list_to_set (D ++ [a])) D acc a Ha HD HP) as (acc1&E1&HP1). rewrite (bind_ok _ _ _ _ _ E1).
  destruct (body_fs (list_to_set (D ++ [a])) a Ha) as (n&E2&La). rewrite (bind_ok _ _ _ _ _ E2).
  assert (ND1 : NoDup (D ++ [a])) by (apply NoDup_app; split_and!; [done|set_solver|by apply NoDup_singleton]).
  destruct (n_body n) as [v|i sons] eqn:Eb.
  - exists [a], acc1. split_and!; [done|done|done|set_solver| |].
    + intros x ->%elem_of_list_singleton. constructor.
    + intros x ->%elem_of_list_singleton i sons y Hx. rewrite La in Hx. discriminate.
  - assert (Hloop : forall rest, (forall y, y ∈ rest -> y ∈ sons) -> forall K acc, P (D ++ K) acc -> NoDup (D ++ K) ->
      a ∈ K -> (forall x, x ∈ K -> reach L a x) -> (forall x, x ∈ K -> x <> a -> sons_in x (D ++ K)) ->
      exists K' acc', foldM (fun acc b => let* d := marks_differ a b in if d : bool then trav_pre op fuel acc b else ret acc) acc rest
          (fs (list_to_set (D ++ K)) s) = Ok acc' (fs (list_to_set (D ++ K')) s) /\
        P (D ++ K') acc' /\ NoDup (D ++ K') /\ (forall x, x ∈ K -> x ∈ K') /\ (forall x, x ∈ K' -> reach L a x) /\
        (forall x, x ∈ K' -> x <> a -> sons_in x (D ++ K')) /\ (forall y, y ∈ rest -> y ∈ D ++ K')).
    { induction rest as [|y rest IHr]; intros Hsub K acc' HP' NDK HaK HK Hs; cbn [foldM].
      - exists K, acc'. split_and!; try done. intros y Hy. by apply elem_of_nil in Hy.
      - assert (Hy : y ∈ sons) by (apply Hsub; set_solver).
        assert (Hry : reach L a y) by (eapply reach_son; [exact La|done]).
        assert (Hry' : reachable y) by (by eapply reach_trans).
        destruct (Hr a i sons y Ha La Hy) as [Hrk Hrk'].
        assert (Hone : exists K1 acc1, bind (marks_differ a y) (fun d : bool => if d then trav_pre op fuel acc' y else ret acc')
            (fs (list_to_set (D ++ K)) s) = Ok acc1 (fs (list_to_set (D ++ K1)) s) /\
          P (D ++ K1) acc1 /\ NoDup (D ++ K1) /\ (forall x, x ∈ K -> x ∈ K1) /\ (forall x, x ∈ K1 -> reach L a x) /\
          (forall x, x ∈ K1 -> x <> a -> sons_in x (D ++ K1)) /\ y ∈ D ++ K1).
        { rewrite (bind_ok _ _ _ _ _ (differ_fs (list_to_set (D ++ K)) a y Ha Hry' ltac:(set_solver))).
          case_bool_decide as Hin; simpl.
          - exists K, acc'. split_and!; try done. by apply elem_of_list_to_set in Hin.
          - rewrite elem_of_list_to_set in Hin.
            destruct (IH (D ++ K) acc' y Hry' Hin NDK HP') as (K2&acc2&E&HP2&ND2&Hy2&Hr2&Hs2); [lia|].
            rewrite <- !app_assoc in *. exists (K ++ K2), acc2. split_and!; try done.
            + set_solver.
            + intros x [Hx|Hx]%elem_of_app; [by apply HK|]. eapply reach_trans; [exact Hry|by apply Hr2].
            + intros x [Hx|Hx]%elem_of_app Hne; [|by apply Hs2].
              intros j ss z Hz Hzs. pose proof (Hs x Hx Hne j ss z Hz Hzs). set_solver.
            + set_solver. }
        destruct Hone as (K1&acc2&E3&HP2&ND2&Hsub1&Hr1&Hs1&Hy1). rewrite (bind_ok _ _ _ _ _ E3).
        destruct (IHr ltac:(set_solver) K1 acc2 HP2 ND2 ltac:(by apply Hsub1) Hr1 Hs1) as (K3&acc3&E4&HP3&ND3&Hsub3&Hr3&Hs3&Hy3).
        exists K3, acc3. split_and!; try done; [auto|]. intros z [->|Hz]%elem_of_cons; [|auto].
        apply elem_of_app in Hy1 as [Hy1|Hy1]; apply elem_of_app; auto. }
    destruct (Hloop sons ltac:(done) [a] acc1 HP1 ND1 ltac:(set_solver)) as (K&acc2&E3&HP2&ND2&Hsub&Hr2&Hs2&Hall).
    { intros x ->%elem_of_list_singleton. constructor. }
    { intros x ->%elem_of_list_singleton. done. }
    exists K, acc2. split_and!; try done; [apply Hsub; set_solver|].
    intros x Hx. destruct (decide (x = a)) as [->|Hne]; [|by apply Hs2].
    intros j ss z Hz Hzs. rewrite La in Hz. simplify_eq. auto.
Qed.

Lemma trav_pre_root acc fuel : P [] acc -> N - rk root < fuel ->
  exists D acc', trav_pre op fuel acc root s = Ok acc' (fs (list_to_set D) s) /\ P D acc' /\ NoDup D /\
    forall x, x ∈ D <-> reachable x.
Proof.
  intros HP Hf. destruct (trav_pre_spec fuel [] acc root) as (K&acc'&E&HP'&ND&Hroot&Hre&Hs); try done;
    [constructor|set_solver|constructor|].
  rewrite list_to_set_nil, fs_empty in E. exists K, acc'. split_and!; try done. intros x. split; [apply Hre|].
  intros Hx. clear -Hx Hroot Hs.
  assert (H : forall y, reach L y x -> y ∈ K -> x ∈ K); [|by apply (H root)].
  clear Hx Hroot. intros y. induction 1 as [y|y z x i sons Hy Hz _ IH]; [done|].
  intros HK. apply IH. by apply (Hs y HK i sons z).
Qed.
End pre.

(** ** Post-order *)
Section post.
Context {T : Type} (op : T -> positive -> M T) (P : list positive -> T -> Prop).
Context (Hop : forall V D acc a, reachable a -> a ∉ D -> sons_in a D -> P D acc ->
  exists acc', op acc a (fs V s) = Ok acc' (fs V s) /\ P (D ++ [a]) acc').

(** [V]: nodes entered, [D]: nodes finished *)
Lemma trav_post_spec fuel : forall V D acc a, reachable a -> a ∉ V -> NoDup D ->
  (forall x, x ∈ D -> x ∈ V) -> (forall x, x ∈ V -> x ∈ D \/ rk x < rk a) -> P D acc -> N - rk a < fuel ->
  exists K acc', trav_post op fuel acc a (fs V s) = Ok acc' (fs (V ∪ list_to_set K) s) /\
    P (D ++ K) acc' /\ NoDup (D ++ K) /\ a ∈ K /\ (forall x, x ∈ K -> reach L a x) /\
    (forall x, x ∈ K -> sons_in x (D ++ K)).
Proof.
  induction fuel as [|fuel IH]; intros V D acc a Ha HV ND HDV HVD HP Hf; [lia|]. cbn [trav_post].
  rewrite (bind_ok _ _ _ _ _ (toggle_fs V a Ha HV)).
  destruct (body_fs ({[a]} ∪ V) a Ha) as (n&E2&La). rewrite (bind_ok _ _ _ _ _ E2).
  assert (HaD : a ∉ D) by (intros HD; by apply HV, HDV).
  destruct (n_body n) as [v|i sons] eqn:Eb.
  - rewrite (bind_ok _ _ _ acc (fs ({[a]} ∪ V) s)) by done.
    destruct (Hop ({[a]} ∪ V) D acc a Ha HaD) as (acc1&E1&HP1); [|done|].
    { intros i sons y Hx. rewrite La in Hx. discriminate. }
    exists [a], acc1. split_and!; try done.
    + rewrite E1. do 2 f_equal. set_solver.
    + apply NoDup_app; split_and!; [done|set_solver|by apply NoDup_singleton].
    + set_solver.
    + intros x ->%elem_of_list_singleton. constructor.
    + intros x ->%elem_of_list_singleton i sons y Hx. rewrite La in Hx. discriminate.
  - assert (Hloop : forall rest, (forall y, y ∈ rest -> y ∈ sons) -> forall K acc, P (D ++ K) acc -> NoDup (D ++ K) -> a ∉ K ->
      (forall x, x ∈ K -> reach L a x) -> (forall x, x ∈ K -> sons_in x (D ++ K)) ->
      exists K' acc', foldM (fun acc b => let* d := marks_differ a b in if d : bool then trav_post op fuel acc b else ret acc) acc rest
          (fs ({[a]} ∪ V ∪ list_to_set K) s) = Ok acc' (fs ({[a]} ∪ V ∪ list_to_set K') s) /\
        P (D ++ K') acc' /\ NoDup (D ++ K') /\ a ∉ K' /\ (forall x, x ∈ K -> x ∈ K') /\ (forall x, x ∈ K' -> reach L a x) /\
        (forall x, x ∈ K' -> sons_in x (D ++ K')) /\ (forall y, y ∈ rest -> y ∈ D ++ K')).
    { induction rest as [|y rest IHr]; intros Hsub K acc' HP' NDK HaK HK Hs; cbn [foldM].
      - exists K, acc'. split_and!; try done. intros y Hy. by apply elem_of_nil in Hy.
      - assert (Hy : y ∈ sons) by (apply Hsub; set_solver).
        assert (Hry : reach L a y) by (eapply reach_son; [exact La|done]).
        assert (Hry' : reachable y) by (by eapply reach_trans).
        destruct (Hr a i sons y Ha La Hy) as [Hrk Hrk'].
        assert (Hrange : forall x, reach L y x -> rk y <= rk x).
        { clear -Hry' Hr. intros x Hx. induction Hx as [y|y z x j ss Hyz Hz _ IH]; [done|].
          destruct (Hr y j ss z Hry' Hyz Hz). specialize (IH ltac:(eapply reach_trans; [exact Hry'|by eapply reach_son])). lia. }
        assert (Hone : exists K1 acc1, bind (marks_differ a y) (fun d : bool => if d then trav_post op fuel acc' y else ret acc')
            (fs ({[a]} ∪ V ∪ list_to_set K) s) = Ok acc1 (fs ({[a]} ∪ V ∪ list_to_set K1) s) /\
          P (D ++ K1) acc1 /\ NoDup (D ++ K1) /\ a ∉ K1 /\ (forall x, x ∈ K -> x ∈ K1) /\ (forall x, x ∈ K1 -> reach L a x) /\
          (forall x, x ∈ K1 -> sons_in x (D ++ K1)) /\ y ∈ D ++ K1).
        { rewrite (bind_ok _ _ _ _ _ (differ_fs ({[a]} ∪ V ∪ list_to_set K) a y Ha Hry' ltac:(set_solver))).
          case_bool_decide as Hin; simpl.
          - exists K, acc'. split_and!; try done.
            rewrite !elem_of_union, elem_of_singleton, elem_of_list_to_set in Hin. apply elem_of_app.
            destruct Hin as [[-> |Hin]|Hin]; [lia| |by right]. destruct (HVD y Hin); [by left|lia].
          - destruct (IH ({[a]} ∪ V ∪ list_to_set K) (D ++ K) acc' y Hry' Hin NDK) as (K2&acc2&E&HP2&ND2&Hy2&Hr2&Hs2); [| |done|lia|].
            { intros x [Hx|Hx]%elem_of_app; [apply HDV in Hx; set_solver|set_solver]. }
            { intros x. rewrite !elem_of_union, elem_of_singleton, elem_of_list_to_set, elem_of_app.
              intros [[-> |Hx]|Hx]; [right; lia| |by left; right]. destruct (HVD x Hx); [by left; left|right; lia]. }
            rewrite <- !app_assoc in *. exists (K ++ K2), acc2. split_and!; try done.
            + rewrite E. do 2 f_equal. set_solver.
            + rewrite elem_of_app. intros [?|Hx]; [done|]. apply Hr2, Hrange in Hx. lia.
            + set_solver.
            + intros x [Hx|Hx]%elem_of_app; [by apply HK|]. eapply reach_trans; [exact Hry|by apply Hr2].
            + intros x [Hx|Hx]%elem_of_app; [|by apply Hs2].
              intros j ss z Hz Hzs. pose proof (Hs x Hx j ss z Hz Hzs). set_solver.
            + set_solver. }
        destruct Hone as (K1&acc2&E3&HP2&ND2&Ha2&Hsub1&Hr1&Hs1&Hy1). rewrite (bind_ok _ _ _ _ _ E3).
        destruct (IHr ltac:(set_solver) K1 acc2 HP2 ND2 Ha2 Hr1 Hs1) as (K3&acc3&E4&HP3&ND3&Ha3&Hsub3&Hr3&Hs3&Hy3).
        exists K3, acc3. split_and!; try done; [auto|]. intros z [->|Hz]%elem_of_cons; [|auto].
        apply elem_of_app in Hy1 as [Hy1|Hy1]; apply elem_of_app; auto. }
    destruct (Hloop sons ltac:(done) [] acc) as (K&acc2&E3&HP2&ND2&HaK&Hsub&Hr2&Hs2&Hall);
      [by rewrite app_nil_r|by rewrite app_nil_r|set_solver|intros x Hx; by apply elem_of_nil in Hx|intros x Hx; by apply elem_of_nil in Hx|].
    rewrite list_to_set_nil, union_empty_r_L in E3. rewrite (bind_ok _ _ _ _ _ E3).
    destruct (Hop ({[a]} ∪ V ∪ list_to_set K) (D ++ K) acc2 a Ha) as (acc3&E4&HP3); [set_solver| |done|].
    { intros j ss z Hz Hzs. rewrite La in Hz. simplify_eq. auto. }
    exists (K ++ [a]), acc3. rewrite !app_assoc. split_and!; try done.
    + rewrite E4. do 2 f_equal. set_solver.
    + apply NoDup_app; split_and!; [done|set_solver|by apply NoDup_singleton].
    + set_solver.
    + intros x [Hx| ->%elem_of_list_singleton]%elem_of_app; [auto|constructor].
    + intros x [Hx| ->%elem_of_list_singleton]%elem_of_app j ss z Hz Hzs.
      * pose proof (Hs2 x Hx j ss z Hz Hzs). set_solver.
      * rewrite La in Hz. simplify_eq. specialize (Hall z Hzs). set_solver.
Qed.

Lemma trav_post_root acc fuel : P [] acc -> N - rk root < fuel ->
  exists D acc', trav_post op fuel acc root s = Ok acc' (fs (list_to_set D) s) /\ P D acc' /\ NoDup D /\
    forall x, x ∈ D <-> reachable x.
Proof.
  intros HP Hf. destruct (trav_post_spec fuel ∅ [] acc root) as (K&acc'&E&HP'&ND&Hroot&Hre&Hs); try done;
    [constructor|constructor|intros x Hx; by apply elem_of_nil in Hx|].
  rewrite fs_empty, union_empty_l_L in E. exists K, acc'. split_and!; try done. intros x. split; [apply Hre|].
  intros Hx. clear -Hx Hroot Hs.
  assert (H : forall y, reach L y x -> y ∈ K -> x ∈ K); [|by apply (H root)].
  clear Hx Hroot. intros y. induction 1 as [y|y z x i sons Hy Hz _ IH]; [done|].
  intros HK. apply IH. by apply (Hs y HK i sons z).
Qed.
End post.
End trav.

(** ** The second traversal restores the state *)
Section restore.
Context (s : st) (root : positive) (mk : bool) (rk : positive -> nat) (N : nat).
Notation L := (live (s_heap s)).
Context (Hu : uniform s root mk) (Hr : ranked s root rk N).

Lemma reach_fs D a x : reach (live (s_heap (fs D s))) a x <-> reach L a x.
Proof. split; apply reach_ext; intros; unfold fs; simpl; by rewrite live_flip. Qed.

Lemma uniform_fs D : (forall x, x ∈ D <-> reach L root x) -> uniform (fs (list_to_set D) s) root (negb mk).
Proof.
  intros HD x Hx. apply reach_fs in Hx. destruct (Hu x Hx) as (n&E&U&Mk). exists (flipn n).
  unfold fs. simpl. rewrite flip_lookup, bool_decide_eq_true_2, E by (apply elem_of_list_to_set, HD, Hx).
  simpl. by rewrite Mk.
Qed.

Lemma ranked_fs D : ranked (fs D s) root rk N.
Proof.
  intros x i sons y Hx Lx Hy. apply reach_fs in Hx. unfold fs in Lx. simpl in Lx. rewrite live_flip in Lx.
  by apply (Hr x i sons).
Qed.

Lemma list_to_set_iff (D D' : list positive) : (forall x, x ∈ D <-> x ∈ D') -> (list_to_set D : gset positive) = list_to_set D'.
Proof. intros H. apply set_eq. intros x. rewrite !elem_of_list_to_set. apply H. Qed.

Lemma pre_restores D fuel : (forall x, x ∈ D <-> reach L root x) -> N - rk root < fuel ->
  trav_pre no_op fuel tt root (fs (list_to_set D) s) = Ok tt s.
Proof.
  intros HD Hf.
  destruct (trav_pre_root (fs (list_to_set D) s) root (negb mk) rk N (uniform_fs D HD) (ranked_fs _)
    no_op (fun _ _ => True)) with (acc := tt) (fuel := fuel) as (D'&[]&E&_&_&HD'); try done; [by exists tt|].
  rewrite E. f_equal. rewrite (list_to_set_iff D' D); [by rewrite fs_fs|].
  intros x. rewrite HD', reach_fs. symmetry. apply HD.
Qed.

Lemma post_restores D fuel : (forall x, x ∈ D <-> reach L root x) -> N - rk root < fuel ->
  trav_post no_op fuel tt root (fs (list_to_set D) s) = Ok tt s.
Proof.
  intros HD Hf.
  destruct (trav_post_root (fs (list_to_set D) s) root (negb mk) rk N (uniform_fs D HD) (ranked_fs _)
    no_op (fun _ _ => True)) with (acc := tt) (fuel := fuel) as (D'&[]&E&_&_&HD'); try done; [by exists tt|].
  rewrite E. f_equal. rewrite (list_to_set_iff D' D); [by rewrite fs_fs|].
  intros x. rewrite HD', reach_fs. symmetry. apply HD.
Qed.

Context {T : Type} (c : cfg) (op : T -> positive -> M T) (P : list positive -> T -> Prop).
Context (HN : N <= nvars c).

Lemma traverse_pre_spec acc :
  (forall V D acc a, reach L root a -> a ∉ D -> P D acc ->
    exists acc', op acc a (fs V s) = Ok acc' (fs V s) /\ P (D ++ [a]) acc') ->
  P [] acc ->
  exists D acc', traverse_pre c op acc root s = Ok acc' s /\ P D acc' /\ NoDup D /\ forall x, x ∈ D <-> reach L root x.
Proof.
  intros Hop HP. unfold traverse_pre.
  destruct (trav_pre_root s root mk rk N Hu Hr op P Hop acc (depth c) HP) as (D&acc'&E&HP'&ND&HD); [unfold depth; lia|].
  rewrite (bind_ok _ _ _ _ _ E), (bind_ok _ _ _ _ _ (pre_restores D (depth c) HD ltac:(unfold depth; lia))).
  by exists D, acc'.
Qed.

Lemma traverse_post_spec acc :
  (forall V D acc a, reach L root a -> a ∉ D -> sons_in s a D -> P D acc ->
    exists acc', op acc a (fs V s) = Ok acc' (fs V s) /\ P (D ++ [a]) acc') ->
  P [] acc ->
  exists D acc', traverse_post c op acc root s = Ok acc' s /\ P D acc' /\ NoDup D /\ forall x, x ∈ D <-> reach L root x.
Proof.
  intros Hop HP. unfold traverse_post.
  destruct (trav_post_root s root mk rk N Hu Hr op P Hop acc (depth c) HP) as (D&acc'&E&HP'&ND&HD); [unfold depth; lia|].
  rewrite (bind_ok _ _ _ _ _ E), (bind_ok _ _ _ _ _ (post_restores D (depth c) HD ltac:(unfold depth; lia))).
  by exists D, acc'.
Qed.
End restore.
