(** * Properties of to_dot_graph *)

From stdpp Require Import gmap list strings pretty.
From Coq Require Import ZArith Lia Ascii.
From Verif Require Import Base Ops Tables NodeManager Tools Sift DiagramManager World Queries Dot.
From Verif Require Import Heap Inv InvLemmas Prim GC Make Build Apply Api Constr Expr VecSpec Vec Eval Fold.
From Verif Require Import OpSpec OpProof WorldSpec WorldProof Ctor History PropsBase Chain PropsBase2 PropsCore Examples.
From Verif Require Import Trav QuerySpec QueryProof PropsQuery Refuted PropsDpld DotSpec DotText DotProof.

Local Open Scope string_scope.
Local Open Scope list_scope.
Local Open Scope nat_scope.
Local Opaque exec run new_manager.

(** the graph of the nodes [D] of the manager [s] *)
Definition drawing (c : cfg) (s : st) (A : astate) (D : list positive) : graph :=
  picture (c_ptr c) (live (s_heap s)) (fun a => match s_heap s !! a with Some n => n_refs n | None => 0%N end) (ab_order A) D.

(** ** C69 *)

(** The text is that of the picture of the nodes of the diagram, each drawn
    once, the root first, and the manager is not changed. *)
Theorem C69_diagram : forall c strict opsem args ks s vars A x F a binary,
  wf_cfg c -> history c opsem strict args ks s vars A -> ab_clean A = true -> ab A !! x = Some F -> vars !! x = Some a ->
  exists D, NoDup D /\ (forall b, b ∈ D <-> reach (live (s_heap s)) a b) /\ head (map (c_ptr c) D) = Some (c_ptr c a) /\
    to_dot_graph c binary a s = Ok (text binary (drawing c s A D)) s.
Proof.
  intros c strict opsem args ks s vars A x F a binary Hc H Hcl HF Ha.
  destruct (history_query _ _ _ _ _ _ _ _ _ _ Hc H HF) as (g&a'&Ha'&C&Hh&_&Ho&Cl&_). simplify_eq.
  destruct (to_dot_ok c opsem strict binary g s C (Cl Hcl) a Hh) as (D&ND&HD&Hhd&E). exists D.
  unfold drawing. rewrite <- Ho. done.
Qed.

(** A graph with this text read from its first node gives the function. *)
Theorem C69_function : forall c strict opsem args ks s vars A x F a binary,
  wf_cfg c -> history c opsem strict args ks s vars A -> ab_clean A = true -> ab A !! x = Some F -> vars !! x = Some a ->
  (forall p q, c_ptr c p = c_ptr c q -> p = q) -> (binary = true -> forall i, dom c i <= 2) ->
  exists t, to_dot_graph c binary a s = Ok t s /\
    (exists G, printable binary G /\ text binary G = t) /\
    forall G, printable binary G -> text binary G = t ->
      exists r n k l, g_labels G = (r, n, k) :: l /\ forall rho v, valid c rho -> reads G rho r v <-> v = F rho.
Proof.
  intros c strict opsem args ks s vars A x F a binary Hc H Hcl HF Ha Hinj Hb.
  destruct (C69_diagram _ _ _ _ _ _ _ _ _ _ _ binary Hc H Hcl HF Ha) as (D&ND&HD&Hhd&E).
  destruct (history_query _ _ _ _ _ _ _ _ _ _ Hc H HF) as (g&a'&Ha'&C&Hh&HFv&Ho&Cl&_). simplify_eq.
  assert (Hlive : forall b, b ∈ D -> live (s_heap s) b <> None).
  { intros b Hbb. apply HD in Hbb. destruct (held_body c opsem strict g s C b (held_reach _ _ _ _ Hh Hbb)) as [y Ey]. by rewrite Ey. }
  assert (P : printable binary (drawing c s A D)).
  { unfold drawing. rewrite <- Ho. by apply (pic_printable c opsem strict binary g s C). }
  eexists. split; [exact E|]. split; [by eexists|].
  intros G PG ET. apply text_inj in ET as ->; [|done|done].
  destruct D as [|b D]; [done|]. simpl in Hhd. injection Hhd as Hhd. apply Hinj in Hhd as ->.
  unfold drawing, picture. cbn [g_labels map]. do 4 eexists. split; [done|]. intros rho v Hv.
  assert (HaD : a ∈ a :: D) by set_solver.
  assert (Hsub : forall y i sons z, y ∈ a :: D -> live (s_heap s) y = Some (Int i sons) -> z ∈ sons -> z ∈ a :: D).
  { intros y i sons z Hy Ey Hz. apply HD. apply HD in Hy. eapply reach_trans; [done|]. eapply reach_step; [done..|]. apply reach_refl. }
  split.
  - intros Hr. assert (Ev (live (s_heap s)) a rho v) as HE.
    { rewrite <- Ho in Hr. by apply (reads_Ev c s (a :: D) Hinj Hsub Hlive _ _ _ Hr). }
    rewrite HFv by done. symmetry. by apply (Ev_nval c opsem strict g s C).
  - intros ->. rewrite HFv by done. rewrite <- Ho. apply (Ev_reads c s (a :: D) Hsub); [done|]. by apply (nval_Ev c opsem strict g s C).
Qed.

(** Diagrams with the same text have the same function, in whatever managers they are. *)
Theorem C69_same_text : forall c c' strict strict' opsem opsem' args args' ks ks' s s' vars vars' A A' x x' F F' a a' binary t,
  wf_cfg c -> wf_cfg c' -> c_doms c = c_doms c' ->
  history c opsem strict args ks s vars A -> history c' opsem' strict' args' ks' s' vars' A' ->
  ab_clean A = true -> ab_clean A' = true -> ab A !! x = Some F -> ab A' !! x' = Some F' -> vars !! x = Some a -> vars' !! x' = Some a' ->
  (forall p q, c_ptr c p = c_ptr c q -> p = q) -> (forall p q, c_ptr c' p = c_ptr c' q -> p = q) ->
  (binary = true -> forall i, dom c i <= 2) ->
  to_dot_graph c binary a s = Ok t s -> to_dot_graph c' binary a' s' = Ok t s' -> fun_eq c F F'.
Proof.
  intros c c' strict strict' opsem opsem' args args' ks ks' s s' vars vars' A A' x x' F F' a a' binary t
    Hc Hc' Hd H H' Hcl Hcl' HF HF' Ha Ha' Hi Hi' Hb E E' rho Hv.
  assert (Hb' : binary = true -> forall i, dom c' i <= 2) by (intros B i; unfold dom; rewrite <- Hd; by apply Hb).
  destruct (C69_function _ _ _ _ _ _ _ _ _ _ _ binary Hc H Hcl HF Ha Hi Hb) as (u&Eu&(G&PG&TG)&X).
  destruct (C69_function _ _ _ _ _ _ _ _ _ _ _ binary Hc' H' Hcl' HF' Ha' Hi' Hb') as (u'&Eu'&_&X').
  rewrite E in Eu. injection Eu as <-. rewrite E' in Eu'. injection Eu' as <-.
  destruct (X G PG TG) as (r&n&k&l&El&Y). destruct (X' G PG TG) as (r'&n'&k'&l'&El'&Y'). rewrite El in El'. injection El' as <- <- <- <-.
  assert (Hv' : valid c' rho).
  { intros i Hin. unfold dom. rewrite <- Hd. apply Hv. unfold nvars in *. by rewrite Hd. }
  apply (Y' rho (F rho) Hv'). by apply Y.
Qed.

(** The text for the whole manager draws every node in use once, save the
    terminal node of undefined values. *)
Theorem C69_manager : forall c strict opsem args ks s vars A binary,
  wf_cfg c -> history c opsem strict args ks s vars A ->
  exists D, NoDup D /\ (forall b, b ∈ D <-> live (s_heap s) b <> None /\ live (s_heap s) b <> Some (Term Undef)) /\
    to_dot_graph_all c binary s = Ok (text binary (drawing c s A D)) s.
Proof.
  intros c strict opsem args ks s vars A binary Hc H. destruct (history_winv _ _ _ _ _ _ _ _ Hc H) as [g W].
  pose proof (wi_calm _ _ _ _ _ _ _ W) as C.
  destruct (to_dot_all_ok c opsem strict binary g s C) as (D&ND&HD&E). exists D. unfold drawing.
  assert (Ho : s_l2i s = ab_order A) by apply W. rewrite <- Ho. done.
Qed.

(** undefined unless the first component works; then whether the second or third does *)
Definition partialV : list Z := [Undef; Undef; Undef; Undef; 0; 1; 1; 1]%Z.
Definition partialF : asg -> Z := fun rho => nth (vec_index cm [0; 1; 2] rho) partialV 0%Z.

Definition partial_text : string :=
"digraph DD {
    node [shape = square] 64 128 192;
    node [shape = circle];

    384 [label = ""x0"", tooltip = ""1""];
    64 [label = ""*"", tooltip = ""1""];
    320 [label = ""x1"", tooltip = ""1""];
    256 [label = ""x2"", tooltip = ""1""];
    128 [label = ""0"", tooltip = ""1""];
    192 [label = ""1"", tooltip = ""2""];

    384 -> 64 [style = dashed];
    384 -> 320 [style = solid];
    320 -> 256 [style = dashed];
    320 -> 192 [style = solid];
    256 -> 128 [style = dashed];
    256 -> 192 [style = solid];

    { rank = same; 384; }
    { rank = same; 320; }
    { rank = same; 256; }
    { rank = same; 64; 128; 192; }

}
".

Lemma cm_ptr_inj p q : c_ptr cm p = c_ptr cm q -> p = q.
Proof. simpl. lia. Qed.
Lemma cm_binary : true = true -> forall i, dom cm i <= 2.
Proof. intros _ i. do 3 (destruct i as [|i]; [vm_compute; lia|]). vm_compute. destruct i; lia. Qed.

Lemma partial_history : exists s vars a b t, history cm (ops_with 2 4 3) true args3 [CVec 0 partialV] s vars (bindf 0 partialF (no_objects args3)) /\
  vars !! 0 = Some a /\ live (s_heap s) a = Some (Int 0 [b; t]) /\ live (s_heap s) b = Some (Term Undef) /\ to_dot_graph cm true a s = Ok partial_text s.
Proof.
  assert (Ch : chain cm (ops_with 2 4 3) true [CVec 0 partialV] (no_objects args3) (bindf 0 partialF (no_objects args3))).
  { apply (Ch_cons _ _ _ _ _ _ (bindf 0 partialF (no_objects args3))); [|constructor]. intros s.
    apply (S_vec cm (ops_with 2 4 3) true s 0 partialV (no_objects args3)); [by vm_compute|].
    repeat (constructor; [first [right; split; [reflexivity|right; reflexivity]|left; split; [split; [by vm_compute|by vm_compute]|done]]|]). constructor. }
  destruct (outcome_ok (outcome cm args3 [CVec 0 partialV]) (fun v s => match v !! 0 with Some a =>
    match live (s_heap s) a with Some (Int 0 [b; _]) => live (s_heap s) b = Some (Term Undef) /\ (match to_dot_graph cm true a s with Ok t _ => t = partial_text | _ => False end) | _ => False end | None => False end)) as (vars&s&E&X); [by vm_compute|].
  unfold outcome in E. destruct (new_manager cm args3 no_state) as [[] s0| |] eqn:E0; [|discriminate E..].
  pose proof (chain_new _ _ _ _ _ _ _ _ _ _ cm_args E0 Ch E) as H. clear E E0.
  destruct (vars !! 0) as [a|] eqn:Ha; [|contradiction].
  destruct (live (s_heap s) a) as [[v|[|i] [|b [|t [|? ?]]]]|] eqn:La; try contradiction.
  destruct X as [Lb X]. exists s, vars, a, b, t. split; [exact H|]. split; [done|]. split; [done|]. split; [exact Lb|].
  destruct (C69_diagram _ _ _ _ _ _ _ _ 0 partialF a true cm_wf H eq_refl (lookup_insert _ _ _) Ha) as (D&_&_&_&E).
  rewrite E in X |- *. by rewrite X.
Qed.

(** In the text for the whole manager an arc can lead to a node that is not drawn. *)
Theorem C69_manager_undefined_refuted : exists s vars A D x y k,
  history cm (ops_with 2 4 3) true args3 [CVec 0 partialV] s vars A /\
  to_dot_graph_all cm true s = Ok (text true (drawing cm s A D)) s /\
  (x, y, k) ∈ g_arcs (drawing cm s A D) /\ forall n r, (y, n, r) ∉ g_labels (drawing cm s A D).
Proof.
  destruct partial_history as (s&vars&a&b&t&H&Ha&La&Lb&_).
  destruct (C69_manager _ _ _ _ _ _ _ _ true cm_wf H) as (D&ND&HD&E).
  exists s, vars, (bindf 0 partialF (no_objects args3)), D, (c_ptr cm a), (c_ptr cm b), 0. split; [done|]. split; [done|]. split.
  - apply arc_of. exists a, 0, [b; t], b. split; [|done]. apply HD. rewrite La. done.
  - intros n r Hin. apply elem_of_list_fmap in Hin as (b'&Eb&Hb'). injection Eb as Eb _ _. apply HD in Hb' as [_ Hb'].
    apply Hb'. rewrite <- Lb. f_equal. lia.
Qed.

(** the text of this diagram; a graph with this text gives the values of the function *)
Example C69_case : exists s vars a, history cm (ops_with 2 4 3) true args3 [CVec 0 partialV] s vars (bindf 0 partialF (no_objects args3)) /\
  vars !! 0 = Some a /\ to_dot_graph cm true a s = Ok partial_text s /\
  (exists G, printable true G /\ text true G = partial_text) /\
  forall G, printable true G -> text true G = partial_text -> exists r n k l, g_labels G = (r, n, k) :: l /\
    reads G (of_vals [0; 1; 1]) r Undef /\ reads G (of_vals [1; 0; 0]) r 0%Z /\ ~ reads G (of_vals [1; 0; 1]) r 0%Z.
Proof.
  destruct partial_history as (s&vars&a&b&t&H&Ha&_&_&E).
  destruct (C69_function cm true _ _ _ _ _ _ 0 partialF a true cm_wf H eq_refl (lookup_insert _ _ _) Ha cm_ptr_inj cm_binary) as (tx&E'&N&X).
  rewrite E in E'. injection E' as <-. exists s, vars, a. split; [done|]. split; [done|]. split; [done|]. split; [done|].
  intros G P T. destruct (X G P T) as (r&n&k&l&El&Y).
  assert (Hv : forall x y z, x < 2 -> y < 2 -> z < 2 -> valid cm (of_vals [x; y; z])).
  { intros x y z ? ? ? i Hi. do 3 (destruct i as [|i]; [done|]). vm_compute in Hi. lia. }
  exists r, n, k, l. split; [done|]. split; [|split].
  - apply (Y (of_vals [0; 1; 1]) Undef); [apply Hv; lia|by vm_compute].
  - apply (Y (of_vals [1; 0; 0]) 0%Z); [apply Hv; lia|by vm_compute].
  - intros R. apply (Y (of_vals [1; 0; 1]) 0%Z) in R; [by vm_compute in R|apply Hv; lia].
Qed.

Print Assumptions C69_diagram.
Print Assumptions C69_function.
Print Assumptions C69_same_text.
Print Assumptions C69_manager.
Print Assumptions C69_manager_undefined_refuted.
