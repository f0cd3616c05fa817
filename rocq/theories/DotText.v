(** * The text of a graph determines the graph *)

From stdpp Require Import strings pretty list sets.
From Coq Require Import ZArith Ascii Lia.
From Verif Require Import Base DotSpec.

Local Open Scope string_scope.
Local Open Scope list_scope.
Local Arguments String.append !_ _ / : simpl nomatch.

(** ** Characters of a string *)

Fixpoint every (p : ascii -> bool) (s : string) : bool :=
  match s with "" => true | String a s => p a && every p s end.

Lemma every_app p s t : every p (s +:+ t) = every p s && every p t.
Proof. induction s as [|a s IH]; simpl; [done|]. by rewrite IH, andb_assoc. Qed.

Lemma every_impl (p q : ascii -> bool) s : (forall a, p a = true -> q a = true) -> every p s = true -> every q s = true.
Proof.
  intros H. induction s as [|a s IH]; simpl; [done|]. intros [Ha Hs]%andb_true_iff. by rewrite (H a Ha), (IH Hs).
Qed.

Definition not_char (t a : ascii) : bool := negb (Ascii.eqb t a).
Definition free (t : ascii) (s : string) : Prop := every (not_char t) s = true.

Lemma free_app t s r : free t s -> free t r -> free t (s +:+ r).
Proof. unfold free. rewrite every_app. intros -> ->. done. Qed.

Lemma string_app_nil_r s : s +:+ "" = s.
Proof. induction s as [|a s IH]; simpl; [done|]. by f_equal. Qed.
Lemma string_app_assoc (s t r : string) : s +:+ (t +:+ r) = (s +:+ t) +:+ r.
Proof. induction s as [|a s IH]; simpl; [done|]. by f_equal. Qed.
Lemma string_app_inj_l (s t r : string) : s +:+ t = s +:+ r -> t = r.
Proof. induction s as [|a s IH]; simpl; [done|]. intros H. apply IH. by injection H. Qed.

Lemma cut t s1 s2 r1 r2 : free t s1 -> free t s2 -> s1 +:+ String t r1 = s2 +:+ String t r2 -> s1 = s2 /\ r1 = r2.
Proof.
  unfold free. revert s2. induction s1 as [|a s1 IH]; intros [|b s2]; simpl; intros H1 H2 E.
  - by injection E as ->.
  - injection E as -> _. unfold not_char in H2. by rewrite Ascii.eqb_refl in H2.
  - injection E as -> _. unfold not_char in H1. by rewrite Ascii.eqb_refl in H1.
  - injection E as -> E. apply andb_true_iff in H1 as [_ H1]. apply andb_true_iff in H2 as [_ H2].
    destruct (IH s2 H1 H2 E) as [-> ->]. done.
Qed.

(** ** Decimal numbers *)

Definition is_digit (a : ascii) : bool :=
  match a with "0" | "1" | "2" | "3" | "4" | "5" | "6" | "7" | "8" | "9" => true | _ => false end%char.
Definition is_num (a : ascii) : bool := is_digit a || Ascii.eqb a "-".

Lemma digit_char x : is_digit (pretty_N_char x) = true.
Proof. unfold pretty_N_char. by repeat case_match. Qed.

Lemma pretty_go_digits x s : every is_digit s = true -> every is_digit (pretty_N_go x s) = true.
Proof.
  revert s. induction (N.lt_wf_0 x) as [x _ IH]; intros s Hs.
  assert (x = 0 \/ 0 < x)%N as [->|?] by lia; [by rewrite pretty_N_go_0|].
  rewrite pretty_N_go_step by done. apply IH; [by apply N.div_lt|]. simpl. by rewrite digit_char, Hs.
Qed.

Lemma pretty_N_digits (x : N) : every is_digit (pretty x) = true.
Proof. unfold pretty, pretty_N. case_decide; [done|]. by apply pretty_go_digits. Qed.

Lemma pretty_go_len x s : String.length s <= String.length (pretty_N_go x s).
Proof.
  revert s. induction (N.lt_wf_0 x) as [x _ IH]; intros s.
  assert (x = 0 \/ 0 < x)%N as [->|?] by lia; [by rewrite pretty_N_go_0|].
  rewrite pretty_N_go_step by done. etrans; [|apply IH, N.div_lt; lia]. simpl. lia.
Qed.

Lemma pretty_N_nonempty (x : N) : pretty x <> "".
Proof.
  unfold pretty, pretty_N. case_decide; [done|]. rewrite pretty_N_go_step by lia. intros E.
  pose proof (pretty_go_len (x `div` 10) (String (pretty_N_char (x `mod` 10)) "")) as HL. rewrite E in HL. simpl in HL. lia.
Qed.

Lemma pretty_Z_num (x : Z) : every is_num (pretty x) = true.
Proof.
  assert (H : forall n : N, every is_num (pretty n) = true).
  { intros n. eapply every_impl; [|apply pretty_N_digits]. intros a Ha. unfold is_num. by rewrite Ha. }
  unfold pretty, pretty_Z. destruct x; [done|apply H|]. simpl. apply H.
Qed.

(** a number holds no character that is not a digit *)
Lemma N_free t (x : N) : is_digit t = false -> free t (pretty x).
Proof.
  intros Ht. eapply every_impl; [|apply pretty_N_digits]. intros a Ha. unfold not_char.
  destruct (Ascii.eqb_spec t a) as [->|]; [congruence|done].
Qed.
Lemma Z_free t (x : Z) : is_num t = false -> free t (pretty x).
Proof.
  intros Ht. eapply every_impl; [|apply pretty_Z_num]. intros a Ha. unfold not_char.
  destruct (Ascii.eqb_spec t a) as [->|]; [congruence|done].
Qed.

Lemma nat_free t (x : nat) : is_digit t = false -> free t (pretty x).
Proof. apply N_free. Qed.

(** ** Names *)

Lemma name_free t n : is_num t = false -> Ascii.eqb t "x" = false -> Ascii.eqb t "*" = false -> free t (name_text n).
Proof.
  intros Hn Hx Hs. assert (Hd : is_digit t = false) by (unfold is_num in Hn; by apply orb_false_iff in Hn as [? _]).
  destruct n as [i|v]; simpl.
  - unfold free. simpl. unfold not_char at 1. rewrite Hx. simpl. by apply nat_free.
  - case_decide; [|by apply Z_free]. unfold free, not_char. simpl. by rewrite Hs.
Qed.

Lemma name_inj n m : name_text n = name_text m -> n = m.
Proof.
  assert (Hx : forall v s, name_text (Val v) <> String "x" s).
  { intros v s. simpl. case_decide; [done|]. intros E. pose proof (pretty_Z_num v) as HL. rewrite E in HL. done. }
  assert (Hs : forall v, pretty (v : Z) <> "*").
  { intros v E. pose proof (pretty_Z_num v) as H. rewrite E in H. done. }
  destruct n as [i|v], m as [j|w]; intros E.
  - simpl in E. injection E as E. f_equal. by apply (inj pretty).
  - symmetry in E. exfalso. by eapply Hx.
  - exfalso. by eapply Hx.
  - simpl in E. repeat case_decide; subst; try done.
    + symmetry in E. by apply Hs in E.
    + by apply Hs in E.
    + f_equal. by apply (inj pretty).
Qed.

(** ** Lists of pieces *)

Lemma ended_inj t l1 l2 r1 r2 : Forall (free t) l1 -> Forall (free t) l2 -> free t r1 -> free t r2 ->
  ended t l1 +:+ r1 = ended t l2 +:+ r2 -> l1 = l2 /\ r1 = r2.
Proof.
  assert (Habs : forall s s' r, free t r -> r = s +:+ String t s' -> False).
  { intros s s' r Hr ->. unfold free in Hr. rewrite every_app in Hr. apply andb_true_iff in Hr as [_ Hr]. simpl in Hr.
    unfold not_char in Hr. by rewrite Ascii.eqb_refl in Hr. }
  intros H1. revert l2. induction H1 as [|x l1 Hx H1 IH]; intros l2 H2 Hr1 Hr2 E; destruct H2 as [|y l2 Hy H2]; simpl in E.
  - done.
  - exfalso. rewrite <- string_app_assoc in E. eapply (Habs y _ r1); done.
  - exfalso. rewrite <- string_app_assoc in E. eapply (Habs x _ r2); done.
  - rewrite <- !string_app_assoc in E. simpl in E. apply cut in E as [-> E]; [|done|done].
    destruct (IH l2 H2 Hr1 Hr2 E) as [-> ->]. done.
Qed.

Lemma spaced_ended l : l <> [] -> spaced l +:+ " " = ended " " l.
Proof.
  induction l as [|x [|y l] IH]; intros H; [done|done|].
  change (spaced (x :: y :: l)) with (x +:+ " " +:+ spaced (y :: l)).
  change (ended " " (x :: y :: l)) with (x +:+ String " " (ended " " (y :: l))).
  rewrite <- (IH ltac:(done)), <- !string_app_assoc. done.
Qed.

Lemma spaced_nil l : Forall (fun x => x <> "") l -> spaced l = "" -> l = [].
Proof. intros [|x l' Hx H]; [done|]. destruct l'; simpl; destruct x; done. Qed.

Lemma spaced_inj l1 l2 : Forall (free " ") l1 -> Forall (free " ") l2 ->
  Forall (fun x => x <> "") l1 -> Forall (fun x => x <> "") l2 -> spaced l1 = spaced l2 -> l1 = l2.
Proof.
  intros F1 F2 N1 N2 E. destruct (decide (l1 = [])) as [->|H1].
  { simpl in E. symmetry. by apply spaced_nil. }
  destruct (decide (l2 = [])) as [->|H2]; [by apply spaced_nil|].
  assert (E' : ended " " l1 +:+ "" = ended " " l2 +:+ "") by (rewrite <- !spaced_ended, E by done; done).
  by apply ended_inj in E' as [? _].
Qed.

Lemma spaced_free t l : Ascii.eqb t " " = false -> Forall (free t) l -> free t (spaced l).
Proof.
  intros Ht. induction 1 as [|x l Hx H IH]; [done|]. destruct l as [|y l]; [done|].
  change (spaced (x :: y :: l)) with (x +:+ " " +:+ spaced (y :: l)). apply free_app; [done|]. apply free_app; [|done].
  unfold free, not_char. simpl. by rewrite Ht.
Qed.

Lemma list_cut (l1 l2 : list string) r1 r2 : "" ∉ l1 -> "" ∉ l2 -> l1 ++ "" :: r1 = l2 ++ "" :: r2 -> l1 = l2 /\ r1 = r2.
Proof.
  revert l2. induction l1 as [|x l1 IH]; intros [|y l2]; simpl; intros H1 H2 E.
  - by injection E.
  - injection E as <- _. set_solver.
  - injection E as -> _. set_solver.
  - injection E as -> E. destruct (IH l2) as [-> ->]; [set_solver|set_solver|done|done].
Qed.

Lemma map_inj_on {A B} (f : A -> B) l m :
  (forall x y, x ∈ l -> y ∈ m -> f x = f y -> x = y) -> map f l = map f m -> l = m.
Proof.
  revert m. induction l as [|x l IH]; intros [|y m] H E; try done. simpl in E. injection E as Ex E.
  f_equal; [apply H; [set_solver|set_solver|done]|]. apply IH; [|done]. intros a b' Ha Hb. apply H; set_solver.
Qed.

(** ** Lines *)

Lemma label_free l : free nl (label_line l).
Proof.
  destruct l as [[x n] r]. unfold label_line. simpl.
  apply free_app; [by apply N_free|]. apply (free_app _ " [label = """); [done|].
  apply free_app; [by apply name_free|]. apply (free_app _ """, tooltip = """); [done|]. apply free_app; [by apply N_free|done].
Qed.

Lemma label_inj l m : label_line l = label_line m -> l = m.
Proof.
  destruct l as [[x n] r], m as [[y n'] r']. unfold label_line. simpl. intros E.
  apply cut in E as [Ex E]; [|by apply N_free..]. injection E as E.
  apply cut in E as [En E]; [|by apply name_free..]. injection E as E.
  apply cut in E as [Er _]; [|by apply N_free..].
  apply (inj pretty) in Ex as ->. apply (inj pretty) in Er as ->. apply name_inj in En as ->. done.
Qed.

Lemma arc_free b a : free nl (arc_line b a).
Proof.
  destruct a as [[x y] k]. unfold arc_line. simpl.
  apply free_app; [by apply N_free|]. apply (free_app _ " -> "); [done|]. apply free_app; [by apply N_free|].
  destruct b; [case_decide; done|]. apply (free_app _ " [label = "); [done|]. apply free_app; [by apply nat_free|done].
Qed.

Lemma arc_inj b a a' : (b = true -> snd a < 2 /\ snd a' < 2) -> arc_line b a = arc_line b a' -> a = a'.
Proof.
  destruct a as [[x y] k], a' as [[x' y'] k']. unfold arc_line. simpl. intros Hb E.
  apply cut in E as [Ex E]; [|by apply N_free..]. injection E as E. apply (inj pretty) in Ex as ->.
  destruct b.
  - destruct (Hb eq_refl) as [Hk Hk'].
    repeat case_decide; subst; apply cut in E as [Ey E]; try (by apply N_free); apply (inj pretty) in Ey as ->; try done.
    by assert (k = k') as -> by lia.
  - apply cut in E as [Ey E]; [|by apply N_free..]. injection E as E. apply (inj pretty) in Ey as ->.
    apply cut in E as [Ek _]; [|by apply nat_free..]. by apply (inj pretty) in Ek as ->.
Qed.

Lemma words_ok (r : list N) : Forall (fun x => free nl x /\ free " " x /\ x <> "") (map (fun x => pretty x +:+ ";") r).
Proof.
  apply Forall_map, Forall_true. intros x. split_and!.
  - apply free_app; [by apply N_free|done].
  - apply free_app; [by apply N_free|done].
  - destruct (pretty x) as [|? ?] eqn:E; [by apply pretty_N_nonempty in E|done].
Qed.
Lemma words_inj (l m : list N) : map (fun x => pretty x +:+ ";") l = map (fun x => pretty x +:+ ";") m -> l = m.
Proof.
  apply map_inj_on. intros x y _ _ E.
  apply cut in E as [E _]; [|by apply N_free..]. by apply (inj pretty).
Qed.

Lemma rank_free r : free nl (rank_line r).
Proof.
  unfold rank_line. apply (free_app _ "    { rank = same; "); [done|]. apply free_app; [|done].
  apply spaced_free; [done|]. eapply Forall_impl; [apply words_ok|]. naive_solver.
Qed.
Lemma rank_inj r r' : r <> [] -> r' <> [] -> rank_line r = rank_line r' -> r = r'.
Proof.
  intros Hr Hr' E. unfold rank_line in E. apply string_app_inj_l in E.
  change " }" with (" " +:+ "}") in E. rewrite !string_app_assoc in E.
  rewrite !spaced_ended in E by (by destruct r, r').
  apply ended_inj in E as [E _]; [by apply words_inj|..]; try done;
    (eapply Forall_impl; [apply words_ok|naive_solver]).
Qed.

Lemma squares_free (l : list N) : free nl ("    node [shape = square] " +:+ spaced (map pretty l) +:+ ";").
Proof.
  apply (free_app _ "    node [shape = square] "); [done|]. apply free_app; [|done]. apply spaced_free; [done|].
  apply Forall_map, Forall_true. intros x. by apply N_free.
Qed.
Lemma squares_inj (l m : list N) :
  "    node [shape = square] " +:+ spaced (map pretty l) +:+ ";" = "    node [shape = square] " +:+ spaced (map pretty m) +:+ ";" -> l = m.
Proof.
  intros E. apply string_app_inj_l in E. apply cut in E as [E _].
  - apply spaced_inj in E; [by apply (inj (fmap pretty)) in E|..].
    1,2: apply Forall_map, Forall_true; intros x; by apply N_free.
    1,2: apply Forall_map, Forall_true; intros x; apply pretty_N_nonempty.
  - apply spaced_free; [done|]. apply Forall_map, Forall_true. intros x. by apply N_free.
  - apply spaced_free; [done|]. apply Forall_map, Forall_true. intros x. by apply N_free.
Qed.

(** ** Sections *)

Lemma indented_free l : Forall (free nl) l -> Forall (free nl) (indented l).
Proof.
  intros H. destruct l as [|x l]; [by repeat constructor|]. unfold indented. apply Forall_map.
  eapply Forall_impl; [done|]. intros y Hy. by apply (free_app _ "    ").
Qed.
Lemma indented_ne l : "" ∉ indented l.
Proof. destruct l; unfold indented; [set_solver|]. intros (?&?&?)%elem_of_list_fmap. done. Qed.
Lemma indented_inj l m : "" ∉ l -> "" ∉ m -> indented l = indented m -> l = m.
Proof.
  assert (Inj (=) (=) (fun x : string => "    " +:+ x)) by (intros a b E; by injection E).
  intros Hl Hm E. destruct l as [|x l], m as [|y m]; unfold indented in E; [done|..].
  - exfalso. simpl in E. injection E as E _. subst. set_solver.
  - exfalso. simpl in E. injection E as E _. subst. set_solver.
  - by apply (inj (fmap _)) in E.
Qed.

Lemma label_ne l : "" ∉ map label_line l.
Proof.
  intros (x&E&_)%elem_of_list_fmap. unfold label_line in E.
  destruct (pretty (fst (fst x))) eqn:D; [by apply pretty_N_nonempty in D|done].
Qed.
Lemma arc_ne b l : "" ∉ map (arc_line b) l.
Proof.
  intros (x&E&_)%elem_of_list_fmap. unfold arc_line in E.
  destruct (pretty (fst (fst x))) eqn:D; [by apply pretty_N_nonempty in D|done].
Qed.

(** what the printer meets: no empty group, at most two sons in binary diagrams *)
Record printable (b : bool) (g : graph) : Prop := {
  pr_ranks : Forall (fun r => r <> []) (g_ranks g);
  pr_arcs : b = true -> Forall (fun a => snd a < 2) (g_arcs g)
}.

Lemma text_free b g : Forall (free nl) (
    ["digraph DD {"; "    node [shape = square] " +:+ spaced (map pretty (g_squares g)) +:+ ";"; "    node [shape = circle];"; ""]
    ++ indented (map label_line (g_labels g)) ++ [""]
    ++ indented (map (arc_line b) (g_arcs g)) ++ [""]
    ++ map rank_line (g_ranks g) ++ [""; "}"]).
Proof.
  apply Forall_app. split.
  { constructor; [done|]. constructor; [apply squares_free|]. by repeat constructor. }
  apply Forall_app. split.
  { apply indented_free, Forall_map, Forall_true, label_free. }
  apply Forall_app. split; [by repeat constructor|]. apply Forall_app. split.
  { apply indented_free, Forall_map, Forall_true, arc_free. }
  apply Forall_app. split; [by repeat constructor|]. apply Forall_app. split.
  { apply Forall_map, Forall_true, rank_free. }
  by repeat constructor.
Qed.

Lemma text_inj b g g' : printable b g -> printable b g' -> text b g = text b g' -> g = g'.
Proof.
  intros [R A] [R' A'] E. unfold text in E.
  rewrite <- (string_app_nil_r (ended nl _)) in E. rewrite <- (string_app_nil_r (ended nl (_ ++ indented (map label_line (g_labels g')) ++ _))) in E.
  apply ended_inj in E as [E _]; [|apply text_free|apply text_free|done|done].
  apply app_inj_1 in E as [Es E]; [|done]. cbn [app] in E.
  assert (Hs : g_squares g = g_squares g').
  { apply squares_inj. exact (f_equal (fun l => nth 1 l "") Es). }
  apply list_cut in E as [El E]; [|apply indented_ne..]. apply list_cut in E as [Ea E]; [|apply indented_ne..].
  assert (Hr : forall l, "" ∉ map rank_line l) by (intros l (?&?&?)%elem_of_list_fmap; done).
  apply list_cut in E as [Er _]; [|apply Hr..].
  apply indented_inj in El; [|apply label_ne..]. apply indented_inj in Ea; [|apply arc_ne..].
  apply map_inj_on in El; [|intros; by apply label_inj].
  apply map_inj_on in Ea.
  2: { intros x y Hx Hy. apply arc_inj. intros Hb. rewrite Forall_forall in A, A'. specialize (A Hb). specialize (A' Hb).
       split; [by apply A|by apply A']. }
  apply map_inj_on in Er.
  2: { intros x y Hx Hy. rewrite Forall_forall in R, R'. apply rank_inj; auto. }
  destruct g, g'. simpl in *. congruence.
Qed.
