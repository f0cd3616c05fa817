(** * to_dot_graph prints the picture of the nodes it visits *)

From stdpp Require Import gmap list strings pretty.
From Coq Require Import ZArith Lia Ascii.
From Verif Require Import Base Ops Tables NodeManager Tools Sift DiagramManager Queries Dot.
From Verif Require Import Heap Inv InvLemmas Prim GC Make Build Canon Apply Api VecSpec Vec Eval Trav QuerySpec QueryProof.
From Verif Require Import DotSpec DotText.

Local Open Scope string_scope.
Local Open Scope list_scope.
Local Open Scope nat_scope.

(** ** The text *)

Notation item := (fun x : N => pretty x +:+ ";").

Lemma output_spaced l : output_range l " " = spaced l.
Proof. induction l as [|x [|y l] IH]; [done..|]. change (output_range (x :: y :: l) " ") with (x +:+ " " +:+ output_range (y :: l) " "). by rewrite IH. Qed.

Lemma output_indented l rest : "    " +:+ output_range l (newline +:+ "    ") +:+ newline +:+ rest = ended nl (indented l) +:+ rest.
Proof.
  destruct l as [|x l]; [done|]. unfold indented. revert x. induction l as [|y l IH]; intros x.
  - cbn [output_range map ended]. rewrite <- !string_app_assoc. done.
  - change (output_range (x :: y :: l) (newline +:+ "    ")) with (x +:+ (newline +:+ "    ") +:+ output_range (y :: l) (newline +:+ "    ")).
    change (ended nl (map (fun x => "    " +:+ x) (x :: y :: l))) with
      (("    " +:+ x) +:+ String nl (ended nl (map (fun x => "    " +:+ x) (y :: l)))).
    rewrite <- !string_app_assoc. change (String nl ?a +:+ rest) with (newline +:+ (a +:+ rest)).
    rewrite <- (IH y). done.
Qed.

Lemma ended_app t l m : ended t (l ++ m) = ended t l +:+ ended t m.
Proof. induction l as [|x l IH]; [done|]. cbn [app ended]. rewrite IH, <- string_app_assoc. done. Qed.

Lemma groups_text (ranks : list (list N)) :
  dot_groups (map (map item) ranks) = ended nl (map rank_line (List.filter (fun r => negb (Nat.eqb (length r) 0)) ranks)).
Proof.
  induction ranks as [|[|x r] ranks IH]; [done|done|].
  change (dot_groups (map (map item) ((x :: r) :: ranks))) with
    ("    { rank = same; " +:+ output_range (map item (x :: r)) " " +:+ " }" +:+ newline +:+ dot_groups (map (map item) ranks)).
  cbn [List.filter length Nat.eqb negb]. cbn [map ended]. unfold rank_line at 1. rewrite IH, output_spaced, <- !string_app_assoc. done.
Qed.

Lemma output_text binary (G : list (list N)) lb ar sq :
  dot_output (Dot (map label_line lb) (map (map item) G) (map (arc_line binary) ar) (map pretty sq)) =
  text binary (Graph lb ar sq (List.filter (fun r => negb (Nat.eqb (length r) 0)) G)).
Proof.
  unfold dot_output, text. cbn [d_labels d_ranks d_arcs d_squares g_labels g_arcs g_squares g_ranks].
  rewrite groups_text, output_spaced.
  rewrite !ended_app. cbn [ended]. rewrite !output_indented.
  assert (Hn : forall x, String nl x = newline +:+ x) by done. rewrite !Hn, <- !string_app_assoc. done.
Qed.

(** ** The nodes *)
Section visit.
Context (c : cfg) (binary : bool) (s : st).
Notation L := (live (s_heap s)).
Notation ptr := (c_ptr c).

Definition refs (a : positive) : N := match s_heap s !! a with Some n => n_refs n | None => 0%N end.

Notation order := (s_l2i s).
Notation pic := (picture ptr L refs order).
Notation grp := (groups ptr L order).

(** the vectors after the nodes [D] *)
Definition seen (D : list positive) (d : dot) : Prop :=
  d = Dot (map label_line (g_labels (pic D))) (map (map item) (grp D)) (map (arc_line binary) (g_arcs (pic D))) (map pretty (g_squares (pic D))).

Lemma seen_output D d : seen D d -> dot_output d = text binary (pic D).
Proof. intros ->. apply output_text. Qed.

Lemma filter_snoc {A} (p : A -> bool) l x : List.filter p (l ++ [x]) = List.filter p l ++ (if p x then [x] else []).
Proof. rewrite List.filter_app. simpl. done. Qed.

Lemma groups_int D a i sons l : NoDup order -> order !! l = Some i -> L a = Some (Int i sons) ->
  exists r, grp D !! l = Some r /\ grp (D ++ [a]) = <[l := r ++ [ptr a]]> (grp D).
Proof.
  intros ND Hl E. exists (map ptr (List.filter (of_var L i) D)).
  assert (Hlt : l < length order) by (by eapply lookup_lt_Some).
  assert (Hg : grp D !! l = Some (map ptr (List.filter (of_var L i) D))).
  { unfold groups. rewrite lookup_app_l by (by rewrite map_length). rewrite list_lookup_fmap, Hl. done. }
  split; [done|]. unfold groups. rewrite insert_app_l by (by rewrite map_length). f_equal.
  - apply list_eq. intros k. rewrite list_lookup_fmap. destruct (decide (k = l)) as [->|Hk].
    + rewrite list_lookup_insert by (by rewrite map_length). rewrite Hl. simpl. f_equal. rewrite filter_snoc.
      unfold of_var at 2. rewrite E, Nat.eqb_refl. by rewrite map_app.
    + rewrite list_lookup_insert_ne by done. rewrite list_lookup_fmap. destruct (order !! k) as [j|] eqn:Ek; [|done]. simpl.
      rewrite filter_snoc. unfold of_var at 2. rewrite E. destruct (Nat.eqb_spec i j) as [->|_].
      * exfalso. apply Hk. by eapply NoDup_lookup.
      * by rewrite app_nil_r.
  - f_equal. unfold terminals. rewrite filter_snoc. unfold terminal at 2. rewrite E. by rewrite app_nil_r.
Qed.

Lemma groups_term D a v : L a = Some (Term v) ->
  grp D !! length order = Some (terminals ptr L D) /\ grp (D ++ [a]) = <[length order := terminals ptr L D ++ [ptr a]]> (grp D).
Proof.
  intros E. unfold groups. split.
  { rewrite lookup_app_r by (by rewrite map_length). rewrite map_length, Nat.sub_diag. done. }
  rewrite insert_app_r_alt by (by rewrite map_length). rewrite map_length, Nat.sub_diag. cbn [insert list_insert]. f_equal.
  - apply map_ext. intros i. rewrite filter_snoc. unfold of_var at 2. rewrite E. by rewrite app_nil_r.
  - f_equal. unfold terminals. rewrite filter_snoc. unfold terminal at 2. rewrite E. by rewrite map_app.
Qed.

Lemma rank_push_ok t G l r x : G !! l = Some r ->
  rank_push (map (map item) G) l (item x) t = Ok (map (map item) (<[l := r ++ [x]]> G)) t.
Proof.
  intros H. unfold rank_push. rewrite (bind_ok _ _ _ (map item r) t).
  - unfold ret. f_equal. rewrite (list_fmap_insert (map item)). by rewrite map_app.
  - by rewrite list_lookup_fmap, H.
Qed.

(** one node, in a state where the body, the count and the levels can be read *)
Lemma visit_ok t D d a n : perm_ok c s -> NoDup order ->
  s_heap s !! a = Some n -> n_used n = true -> (forall i sons, n_body n = Int i sons -> i < nvars c) ->
  (exists m, getn a t = Ok m t /\ n_body m = n_body n /\ n_refs m = n_refs n) -> s_i2l t = s_i2l s ->
  seen D d -> exists d', dot_visit c binary d a t = Ok d' t /\ seen (D ++ [a]) d'.
Proof.
  intros P ND Hn U Hi (m&G&Eb&Er) Ho ->.
  assert (E : L a = Some (n_body n)) by (unfold live; by rewrite Hn, U).
  assert (El : label_line (ptr a, name_of L a, refs a) =
    id_str c a +:+ " [label = """ +:+ make_label m +:+ """, tooltip = """ +:+ pretty (n_refs m) +:+ """];").
  { unfold label_line, id_str, make_label, name_of, refs. simpl. rewrite E, Hn, Eb, Er.
    destruct (n_body n) as [v|i sons]; [|done]. simpl. destruct (Z.eqb_spec v Undef); case_decide; done. }
  assert (Hlab : forall D, map label_line (g_labels (pic (D ++ [a]))) = map label_line (g_labels (pic D)) ++ [label_line (ptr a, name_of L a, refs a)]).
  { intros D'. simpl. by rewrite !map_app. }
  assert (Harc : forall D, g_arcs (pic (D ++ [a])) = g_arcs (pic D) ++ arcs_of ptr L a).
  { intros D'. simpl. rewrite map_app, concat_app. simpl. by rewrite app_nil_r. }
  unfold dot_visit. destruct (n_body n) as [v|i sons] eqn:Bn.
  - rewrite (bind_ok _ _ _ (nvars c) t).
    2: { unfold get_level. rewrite (bind_ok _ _ _ _ _ G), Eb. done. }
    rewrite (bind_ok _ _ _ _ _ G), Eb. cbn [d_ranks d_labels d_arcs d_squares].
    destruct (groups_term D a v E) as [Hg Hg'].
    replace (length (map (map item) (grp D)) - 1) with (length order).
    2: { unfold groups. rewrite map_length, app_length, map_length. simpl. lia. }
    rewrite (bind_ok _ _ _ _ _ (rank_push_ok t _ _ _ (ptr a) Hg)). eexists. split; [done|].
    unfold seen. rewrite Hlab, El, Harc. unfold arcs_of. rewrite E, app_nil_r, <- Hg'. f_equal.
    simpl. unfold terminals. rewrite filter_snoc. unfold terminal at 3. rewrite E. by rewrite !map_app.
  - destruct (perm_i2l_ex c s i P (Hi i sons eq_refl)) as (l&Hl'&_).
    assert (Hl : order !! l = Some i) by (by apply (pm_inv _ _ P)).
    rewrite (bind_ok _ _ _ l t).
    2: { unfold get_level. rewrite (bind_ok _ _ _ _ _ G), Eb. unfold level_of_index. by rewrite Ho, Hl'. }
    rewrite (bind_ok _ _ _ _ _ G), Eb. cbn [d_ranks d_labels d_arcs d_squares].
    destruct (groups_int D a i sons l ND Hl E) as (r&Hg&Hg').
    rewrite (bind_ok _ _ _ _ _ (rank_push_ok t _ _ _ (ptr a) Hg)). eexists. split; [done|].
    unfold seen. rewrite Hlab, El, Harc, map_app, <- Hg'. f_equal.
    + f_equal. unfold arcs_of. rewrite E. rewrite (fmap_imap _ (arc_line binary)). apply imap_ext. intros k b _. simpl.
      unfold arc_str, arc_line, id_str. simpl. destruct binary; [|done]. destruct k; done.
    + simpl. unfold terminals. rewrite filter_snoc. unfold terminal at 3. rewrite E. by rewrite app_nil_r.
Qed.
End visit.

(** ** The node visited first *)
Section first.
Context {T : Type} (op : T -> positive -> M T) (R : T -> T -> Prop).
Context (Hrefl : forall x, R x x) (Htrans : forall x y z, R x y -> R y z -> R x z).
Context (Hop : forall x a t y t', op x a t = Ok y t' -> R x y).

Lemma foldM_R {A} (f : T -> A -> M T) l : (forall x a t y t', f x a t = Ok y t' -> R x y) ->
  forall x t y t', foldM f x l t = Ok y t' -> R x y.
Proof.
  intros Hf. induction l as [|a l IH]; intros x t y t' E; cbn [foldM] in E.
  - injection E as -> _. done.
  - unfold bind in E. destruct (f x a t) as [x1 t1| |] eqn:E1; [|done|done].
    eapply Htrans; [by eapply Hf|]. by eapply IH.
Qed.

Lemma trav_pre_R fuel : forall x a t y t', trav_pre op fuel x a t = Ok y t' -> R x y /\
  exists t1 x1 t2, op x a t1 = Ok x1 t2 /\ R x1 y.
Proof.
  induction fuel as [|fuel IH]; intros x a t y t' E; cbn [trav_pre] in E; [done|].
  unfold bind at 1 in E. destruct (toggle_mark a t) as [[] t1| |]; [|done|done].
  unfold bind at 1 in E. destruct (op x a t1) as [x1 t2| |] eqn:E1; [|done|done].
  unfold bind at 1 in E. destruct (getn a t2) as [n t3| |]; [|done|done].
  assert (HR : R x1 y).
  { destruct (n_body n) as [v|i sons]; [by injection E as -> _|]. eapply foldM_R; [|exact E].
    intros z b u z' u' E'. unfold bind at 1 in E'. destruct (marks_differ a b u) as [[] u1| |]; [|by injection E' as -> _|done|done].
    by apply IH in E' as [? _]. }
  split; [|by exists t1, x1, t2]. eapply Htrans; [by eapply Hop|done].
Qed.
End first.

Lemma visit_prefix c binary d a t d' t' : dot_visit c binary d a t = Ok d' t' ->
  exists n, getn a t = Ok n t /\ d_labels d' = d_labels d ++ [id_str c a +:+ " [label = """ +:+ make_label n +:+ """, tooltip = """ +:+ pretty (n_refs n) +:+ """];"].
Proof.
  unfold dot_visit. intros E. unfold bind at 1 in E.
  assert (Hl : match get_level c a t with Ok _ t1 => t1 = t | _ => True end).
  { unfold get_level, bind, getn. destruct (s_heap t !! a) as [n|]; [|done]. destruct (n_used n); [|done].
    destruct (n_body n); [done|]. unfold level_of_index. by destruct (s_i2l t !! i). }
  destruct (get_level c a t) as [l t1| |]; [|done|done]. subst t1.
  unfold bind at 1 in E.
  assert (Hg : match getn a t with Ok _ t1 => t1 = t | _ => True end).
  { unfold getn. destruct (s_heap t !! a) as [n|]; [|done]. by destruct (n_used n). }
  destruct (getn a t) as [n t1| |] eqn:G; [|done|done]. subst t1. exists n. split; [done|].
  assert (Hp : forall r k x u, match rank_push r k x u with Ok _ _ => True | _ => True end) by (intros; by destruct (rank_push _ _ _ _)).
  destruct (n_body n); unfold bind at 1 in E; destruct (rank_push _ _ _ t) as [r u| |]; try done; injection E as <- _; done.
Qed.

Section graph.
Context (c : cfg) (opsem : Z -> option (Z -> Z -> Z)) (strict : bool) (binary : bool).
Context (g : ghost) (s : st) (C : calm c opsem strict g s).
Notation L := (live (s_heap s)).
Notation ptr := (c_ptr c).
Notation order := (s_l2i s).
Notation pic := (picture ptr L (refs s) order).
Notation held := (held g (s_heap s)).
Notation rk := (rank c g (s_heap s)).

Local Lemma Pm' : perm_ok c s. Proof. apply C. Qed.
Local Lemma ND' : NoDup order. Proof. eapply perm_l2i_NoDup, Pm'. Qed.

Lemma start_seen : seen c binary s [] (dot_start c).
Proof.
  unfold seen, dot_start. f_equal. unfold groups.
  assert (E : forall l : list nat, map (map item) (map (fun i => map ptr (List.filter (of_var L i) [])) l ++ [terminals ptr L []]) = replicate (1 + length l) []).
  { induction l as [|i l IH]; [done|]. cbn [map app]. rewrite IH. done. }
  rewrite E, (pm_l2i _ _ Pm'). done.
Qed.

Lemma to_dot_ok (Cl : clean s) a : held a -> exists D, NoDup D /\ (forall x, x ∈ D <-> reach L a x) /\
  head (map ptr D) = Some (ptr a) /\
  to_dot_graph c binary a s = Ok (text binary (pic D)) s.
Proof.
  intros Ha. unfold to_dot_graph.
  destruct (traverse_pre_spec s a false rk (nvars c) (held_uniform c opsem strict g s C Cl a Ha) (held_ranked c opsem strict g s C a Ha) c
    (dot_visit c binary) (fun D d => seen c binary s D d) ltac:(lia) (dot_start c)) as (D&d&E&HP&ND&HD).
  - intros V D d x Hx _ HP. assert (Hxh : held x) by (by eapply held_reach).
    destruct (held_uniform c opsem strict g s C Cl a Ha x Hx) as (n&En&U&_).
    destruct (getn_fs s a false (held_uniform c opsem strict g s C Cl a Ha) V x Hx) as (n'&En'&_&Ex&_&G).
    rewrite En in En'. injection En' as <-.
    eapply (visit_ok c binary s (fs V s) D d x n); [apply Pm'|apply ND'|done|done| | |done|done].
    + intros i sons Eb. rewrite Eb in Ex. by destruct (int_facts c opsem strict g s C x i sons Hxh Ex) as (?&_).
    + eexists. split; [exact G|]. by case_bool_decide.
  - apply start_seen.
  - exists D. split; [done|]. split; [done|]. rewrite (bind_ok _ _ _ _ _ E). unfold ret. rewrite (seen_output _ _ _ _ _ HP).
    split; [|done].
    (* the first label *)
    unfold traverse_pre in E. unfold bind at 1 in E.
    destruct (trav_pre (dot_visit c binary) (depth c) (dot_start c) a s) as [d0 s0| |] eqn:E0; [|done|done].
    unfold bind in E. destruct (trav_pre no_op (depth c) tt a s0) as [u s1| |]; [|done|done]. injection E as -> _.
    destruct (trav_pre_R (dot_visit c binary) (fun x y => exists z, d_labels y = d_labels x ++ z)) with (fuel := depth c) (x := dot_start c) (a := a) (t := s) (y := d) (t' := s0)
      as (_&t1&x1&t2&E1&z&Hz); [| | |done|].
    + intros x. exists []. by rewrite app_nil_r.
    + intros x y w [l1 ->] [l2 ->]. exists (l1 ++ l2). by rewrite app_assoc.
    + intros x b t y t' Hv. destruct (visit_prefix _ _ _ _ _ _ _ Hv) as (n&_&->). eauto.
    + destruct (visit_prefix _ _ _ _ _ _ _ E1) as (n&_&E2). rewrite E2 in Hz. simpl in Hz. rewrite HP in Hz. simpl in Hz.
      destruct D as [|b D]; [done|]. cbn [map] in Hz. injection Hz as Hz _. simpl. f_equal. apply (inj pretty).
      unfold label_line in Hz. simpl in Hz. apply cut in Hz as [Hz _]; [done|by apply N_free..].
Qed.

(** ** Reading values *)
Section reading.
Context (D : list positive) (Hinj : forall a b, ptr a = ptr b -> a = b).
Context (Hsub : forall a i sons b, a ∈ D -> L a = Some (Int i sons) -> b ∈ sons -> b ∈ D).
Context (Hlive : forall a, a ∈ D -> L a <> None).

Lemma label_of x n r : (x, n, r) ∈ g_labels (pic D) -> exists a, a ∈ D /\ x = ptr a /\ n = name_of L a.
Proof. intros (a&E&Ha)%elem_of_list_fmap. injection E as -> -> _. by exists a. Qed.

Lemma arc_of x y k : (x, y, k) ∈ g_arcs (pic D) <-> exists a i sons b, a ∈ D /\ L a = Some (Int i sons) /\ sons !! k = Some b /\ x = ptr a /\ y = ptr b.
Proof.
  simpl. rewrite elem_of_list_In, in_concat. split.
  - intros (l&Hl&Hin). apply elem_of_list_In in Hin. apply elem_of_list_In, elem_of_list_fmap in Hl as (a&->&Ha).
    unfold arcs_of in Hin. destruct (L a) as [[v|i sons]|] eqn:E; [by apply elem_of_nil in Hin| |by apply elem_of_nil in Hin].
    apply elem_of_lookup_imap in Hin as (j&b&Eq&Hb). injection Eq as -> -> ->. exists a, i, sons, b. done.
  - intros (a&i&sons&b&Ha&E&Hb&->&->). exists (arcs_of ptr L a). split.
    + apply elem_of_list_In, elem_of_list_fmap. by exists a.
    + apply elem_of_list_In. unfold arcs_of. rewrite E. apply elem_of_lookup_imap. by exists k, b.
Qed.

Lemma Ev_reads a rho v : a ∈ D -> Ev L a rho v -> reads (pic D) rho (ptr a) v.
Proof.
  intros Ha H. induction H as [a rho v E|a rho i sons b v E Hb H IH].
  - apply (reads_val _ _ _ _ (refs s a)). apply elem_of_list_fmap. exists a. split; [|done]. unfold name_of. by rewrite E.
  - eapply (reads_var _ _ _ i (refs s a) (ptr b)).
    + apply elem_of_list_fmap. exists a. split; [|done]. unfold name_of. by rewrite E.
    + apply arc_of. by exists a, i, sons, b.
    + apply IH. eapply Hsub; [done..|]. by eapply elem_of_list_lookup_2.
Qed.

Lemma reads_Ev x rho v : reads (pic D) rho x v -> forall a, a ∈ D -> x = ptr a -> Ev L a rho v.
Proof.
  induction 1 as [x v n Hl|x i n y v Hl Harc H IH]; intros a Ha ->.
  - apply label_of in Hl as (a'&Ha'&Ep&En). apply Hinj in Ep as <-. unfold name_of in En.
    destruct (L a) as [[w|i sons]|] eqn:E; [|done|by destruct (Hlive a Ha)]. injection En as ->. by apply Ev_term.
  - apply label_of in Hl as (a'&Ha'&Ep&En). apply Hinj in Ep as <-.
    apply arc_of in Harc as (a2&j&sons&b&_&E&Hb&Ep&->). apply Hinj in Ep as <-.
    unfold name_of in En. rewrite E in En. injection En as ->.
    eapply Ev_int; [done|done|]. apply IH; [|done]. eapply Hsub; [done..|]. by eapply elem_of_list_lookup_2.
Qed.
End reading.

Lemma pic_printable D : (forall a, a ∈ D -> L a <> None) -> (binary = true -> forall i, dom c i <= 2) -> printable binary (pic D).
Proof.
  intros Hl Hb. constructor.
  - apply Forall_forall. simpl. intros r Hr. apply elem_of_list_In, List.filter_In in Hr as [_ Hr]. by destruct r.
  - intros E. apply Forall_forall. intros [[x y] k] Ha. simpl. apply arc_of in Ha as (a&i&sons&b&_&Ea&Hs&_).
    destruct (wf_node _ _ _ _ _ (cl_wf _ _ _ _ _ C) a _ Ea) as (_&Hlen&_). apply lookup_lt_Some in Hs.
    specialize (Hb E i). lia.
Qed.

(** ** The nodes of the manager *)

Lemma concat_NoDup (bs : list (list positive)) : (forall b chain, bs !! b = Some chain -> NoDup chain) ->
  (forall b b' chain chain' a, bs !! b = Some chain -> bs !! b' = Some chain' -> a ∈ chain -> a ∈ chain' -> b = b') ->
  NoDup (concat bs).
Proof.
  induction bs as [|chain bs IH]; intros H1 H2; simpl; [constructor|]. apply NoDup_app. split_and!.
  - by apply (H1 0).
  - intros a Ha Hin. apply elem_of_list_In, in_concat in Hin as (ch&Hch&Hin).
    apply elem_of_list_In, elem_of_list_lookup in Hch as (b&Hbb). apply elem_of_list_In in Hin.
    pose proof (H2 0 (S b) chain ch a eq_refl Hbb Ha Hin). lia.
  - apply IH.
    + intros b ch Hch. by apply (H1 (S b)).
    + intros b b' ch ch' a E1 E2 I1 I2. pose proof (H2 (S b) (S b') ch ch' a E1 E2 I1 I2). lia.
Qed.

Lemma table_nodes i t : s_tabs s !! i = Some t -> NoDup (concat (t_buckets t)) /\
  forall a, a ∈ concat (t_buckets t) <-> exists sons, L a = Some (Int i sons).
Proof.
  intros Ht. pose proof (cl_wf _ _ _ _ _ C) as Wf. destruct (cl_quiet _ _ _ _ _ C) as [_ Hfl].
  destruct (wf_tab _ _ _ _ _ Wf i t Ht) as (Hcap&Hlen&Hb&_). split.
  - apply concat_NoDup.
    + intros b chain E. by apply (Hb b chain E).
    + intros b b' chain chain' a E1 E2 I1 I2. apply (Hb b chain E1) in I1 as (_&ss&L1&B1).
      apply (Hb b' chain' E2) in I2 as (_&ss'&L2&B2). congruence.
  - intros a. split.
    + intros Ha. apply elem_of_list_In, in_concat in Ha as (ch&Hch&Hin).
      apply elem_of_list_In, elem_of_list_lookup in Hch as (b&Hbb). apply elem_of_list_In in Hin.
      apply (Hb b ch Hbb) in Hin as (_&sons&E&_). by exists sons.
    + intros (sons&E). apply elem_of_list_In, in_concat.
      destruct (lookup_lt_is_Some_2 (t_buckets t) (bucket_of t (node_hash c sons))) as [ch Hch].
      { rewrite Hlen. unfold bucket_of. pose proof (N.mod_upper_bound (node_hash c sons) (t_cap t) ltac:(lia)). lia. }
      exists ch. split; [apply elem_of_list_In; by eapply elem_of_list_lookup_2|].
      apply elem_of_list_In. apply (Hb _ ch Hch). split; [rewrite Hfl; set_solver|]. by exists sons.
Qed.

Lemma omap_id_elem (l : list (option positive)) a : a ∈ omap id l <-> exists k : nat, l !! k = Some (Some a).
Proof.
  rewrite elem_of_list_omap. split.
  - intros (o&Ho&Eo). unfold id in Eo. subst o. by apply elem_of_list_lookup in Ho.
  - intros (k&Hk). exists (Some a). split; [by eapply elem_of_list_lookup_2|done].
Qed.
Lemma omap_id_NoDup (l : list (option positive)) : (forall k k' a, l !! k = Some (Some a) -> l !! k' = Some (Some a) -> k = k') -> NoDup (omap id l).
Proof.
  induction l as [|[a|] l IH]; intros H; simpl; [constructor| |].
  - constructor.
    + intros (k&Hk)%omap_id_elem. by pose proof (H 0 (S k) a eq_refl Hk).
    + apply IH. intros k k' b E E'. pose proof (H (S k) (S k') b E E'). lia.
  - apply IH. intros k k' b E E'. pose proof (H (S k) (S k') b E E'). lia.
Qed.

Lemma all_nodes_ok : exists D, all_nodes s = Ok D s /\ NoDup D /\ forall a, a ∈ D <-> L a <> None /\ L a <> Some (Term Undef).
Proof.
  pose proof (cl_wf _ _ _ _ _ C) as Wf. unfold all_nodes. eexists. split; [done|].
  assert (Hint : forall a, a ∈ concat (map (fun t => concat (t_buckets t)) (s_tabs s)) <-> exists i sons, L a = Some (Int i sons)).
  { intros a. rewrite elem_of_list_In, in_concat. split.
    - intros (l&Hl&Hin). apply elem_of_list_In, elem_of_list_fmap in Hl as (t&->&Ht). apply elem_of_list_lookup in Ht as (i&Ht).
      apply elem_of_list_In, (table_nodes i t Ht) in Hin as (sons&E). by exists i, sons.
    - intros (i&sons&E). destruct (wf_node _ _ _ _ _ Wf a _ E) as (Hi&_).
      destruct (lookup_lt_is_Some_2 (s_tabs s) i) as [t Ht]; [by rewrite (wf_ntabs _ _ _ _ _ Wf)|].
      exists (concat (t_buckets t)). split; [apply elem_of_list_In, elem_of_list_fmap; exists t; split; [done|by eapply elem_of_list_lookup_2]|].
      apply elem_of_list_In, (table_nodes i t Ht). by exists sons. }
  split.
  - apply NoDup_app. split_and!.
    + apply concat_NoDup.
      * intros i ch E. rewrite list_lookup_fmap in E. destruct (s_tabs s !! i) as [t|] eqn:Ht; [|done]. injection E as <-.
        by apply (table_nodes i t Ht).
      * intros i j ch ch' a E E' I I'. rewrite list_lookup_fmap in E, E'.
        destruct (s_tabs s !! i) as [t|] eqn:Ht; [|done]. injection E as <-.
        destruct (s_tabs s !! j) as [t'|] eqn:Ht'; [|done]. injection E' as <-.
        apply (table_nodes i t Ht) in I as (ss&E1). apply (table_nodes j t' Ht') in I' as (ss'&E2). congruence.
    + intros a Ha Ht. apply Hint in Ha as (i&sons&E). apply omap_id_elem in Ht as (k&Hk).
      destruct (wf_term1 _ _ _ _ _ Wf k a Hk) as [E' _]. congruence.
    + apply omap_id_NoDup. intros k k' a E E'. destruct (wf_term1 _ _ _ _ _ Wf k a E) as [E1 _].
      destruct (wf_term1 _ _ _ _ _ Wf k' a E') as [E2 _]. rewrite E1 in E2. injection E2 as E2. lia.
  - intros a. rewrite elem_of_app, Hint, omap_id_elem. split.
    + intros [(i&sons&E)|(k&Hk)]; [by rewrite E|]. destruct (wf_term1 _ _ _ _ _ Wf k a Hk) as [E Hu]. rewrite E. split; [done|]. congruence.
    + intros [Hl Hu]. destruct (L a) as [[v|i sons]|] eqn:E; [|by left; exists i, sons|done].
      right. exists (Z.to_nat v). apply (wf_term2 _ _ _ _ _ Wf a v E). congruence.
Qed.

Lemma to_dot_all_ok : exists D, NoDup D /\ (forall a, a ∈ D <-> L a <> None /\ L a <> Some (Term Undef)) /\
  to_dot_graph_all c binary s = Ok (text binary (pic D)) s.
Proof.
  pose proof (cl_wf _ _ _ _ _ C) as Wf.
  destruct all_nodes_ok as (D&E&ND&HD). exists D. split; [done|]. split; [done|]. unfold to_dot_graph_all.
  rewrite (bind_ok _ _ _ _ _ E).
  assert (X : forall l K d, seen c binary s K d -> (forall a, a ∈ l -> L a <> None) ->
    exists d', foldM (dot_visit c binary) d l s = Ok d' s /\ seen c binary s (K ++ l) d').
  { induction l as [|a l IH]; intros K d HK Hl; [exists d; by rewrite app_nil_r|]. cbn [foldM].
    assert (Ha : L a <> None) by (apply Hl; set_solver). unfold live in Ha.
    destruct (s_heap s !! a) as [n|] eqn:En; [|done]. destruct (n_used n) eqn:U; [|done].
    destruct (visit_ok c binary s s K d a n) as (d'&Ed&HK'); [apply Pm'|apply ND'|done|done| | |done|done|].
    - intros i sons Eb. assert (El : L a = Some (Int i sons)) by (unfold live; by rewrite En, U, Eb).
      by destruct (wf_node _ _ _ _ _ Wf a _ El) as (?&_).
    - exists n. split; [|done]. unfold getn. by rewrite En, U.
    - rewrite (bind_ok _ _ _ _ _ Ed). destruct (IH (K ++ [a]) d' HK') as (d2&E2&H2); [set_solver|].
      exists d2. split; [done|]. by rewrite <- app_assoc in H2. }
  destruct (X D [] (dot_start c) start_seen) as (d'&Ed&Hd); [intros a Ha; by apply HD|].
  rewrite (bind_ok _ _ _ _ _ Ed). unfold ret. by rewrite (seen_output _ _ _ _ _ Hd).
Qed.
End graph.
