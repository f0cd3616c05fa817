(** * The largest diagrams (C84) *)

From stdpp Require Import gmap list.
From Coq Require Import ZArith Lia.
From Verif Require Import Base Ops Tables NodeManager Tools Sift DiagramManager World Queries Reliability.
From Verif Require Import Heap Inv InvLemmas Prim GC Make Build Apply Api Constr Expr VecSpec Vec Eval Fold.
From Verif Require Import OpSpec OpProof WorldSpec WorldProof Ctor History PropsBase Chain PropsBase2 PropsCore Examples.
From Verif Require Import Trav QuerySpec QueryProof Minimal PropsQuery PropsBound.

Local Open Scope nat_scope.
Local Opaque exec run new_manager.

(** ** Specification: the number of nodes of the complete tree, leaves included *)
Fixpoint tree_size (ds : list nat) : nat :=
  match ds with
  | [] => 1
  | d :: ds => 1 + d * tree_size ds
  end.

(** ** Proofs *)

(** paths from the root of the tree *)
Fixpoint paths (ds : list nat) : list (list nat) :=
  match ds with
  | [] => [[]]
  | d :: ds => [] :: flat_map (fun j => map (cons j) (paths ds)) (seq 0 d)
  end.

Lemma paths_length ds : length (paths ds) = tree_size ds.
Proof.
  induction ds as [|d ds IH]; [done|]. cbn [paths tree_size length]. rewrite <- IH. f_equal. generalize 0.
  induction d as [|d IHd]; intros k; [done|]. cbn [seq flat_map]. rewrite app_length, map_length, IHd. lia.
Qed.

Lemma paths_elem (rho : asg) ds : forall vs l, Forall2 (fun v d => rho v < d) vs ds -> map rho (take l vs) ∈ paths ds.
Proof.
  induction ds as [|d ds IH]; intros vs l H; inversion H as [|v ? vs' ? Hv H']; subst.
  - rewrite take_nil. by left.
  - destruct l as [|l]; [by left|]. cbn [take map paths]. right. apply elem_of_list_In, in_flat_map. exists (rho v). split; [apply in_seq; lia|].
    apply in_map, elem_of_list_In. by apply IH.
Qed.

(** ** Theorem *)

(** No diagram has more nodes than the complete tree over the domains in the order of the variables. *)
Theorem C84_tree : forall c strict opsem args ks s vars A x F,
  wf_cfg c -> history c opsem strict args ks s vars A -> ab_canon A = true -> ab_clean A = true -> ab A !! x = Some F ->
  exists a N, vars !! x = Some a /\ diagram_node_count c a s = Ok (Z.of_nat N) s /\ N <= tree_size (map (dom c) (ab_order A)).
Proof.
  intros c strict opsem args ks s vars A x F Hc H Hcn Hcl HF.
  destruct (C60_minimal _ _ _ _ _ _ _ _ _ _ Hc H Hcn Hcl HF) as (a&Gs&Ha&SF&EN&_). exists a, (length Gs). split; [done|]. split; [done|].
  destruct (history_query _ _ _ _ _ _ _ _ _ _ Hc H HF) as (g&b&_&C&_&_&Ho&_).
  assert (OE : forall i, i ∈ ab_order A -> i < nvars c) by (intros i; rewrite <- Ho; apply (order_elem c opsem strict g s C)).
  assert (OL : length (ab_order A) = nvars c).
  { rewrite <- Ho, <- (seq_length (nvars c) 0). apply Permutation_length. apply NoDup_Permutation; [by eapply order_NoDup|apply NoDup_seq|].
    intros i. rewrite (order_elem c opsem strict g s C), elem_of_seq. lia. }
  rewrite <- paths_length.
  apply (labelled c Gs (fun G p => exists l rho, l <= nvars c /\ valid c rho /\ p = map rho (take l (ab_order A)) /\ fun_eq c G (restrict (ab_order A) l rho F))).
  - apply SF.
  - intros G HG. destruct (sf_sound _ _ _ _ SF G HG) as (l&rho&Hl&Hr&E). exists (map rho (take l (ab_order A))), l, rho. done.
  - intros G p (l&rho&Hl&Hr&->&_). apply paths_elem. apply Forall2_fmap_r. apply Forall_Forall2_diag, Forall_forall.
    intros i Hi. by apply Hr, OE.
  - intros G G' p (l&rho&Hl&Hr&->&E) (l'&rho'&Hl'&Hr'&Ep&E').
    assert (l = l') as <-.
    { pose proof (f_equal length Ep) as X. rewrite !map_length, !take_length, OL in X. lia. }
    assert (Ag : forall i, i ∈ take l (ab_order A) -> rho i = rho' i).
    { intros i Hi. apply elem_of_list_lookup in Hi as (j&Hj). pose proof (f_equal (fun q => q !! j) Ep) as X. cbn in X.
      rewrite !list_lookup_fmap, Hj in X. cbn in X. congruence. }
    intros sigma Hs. rewrite E, E' by done. unfold restrict.
    apply (history_ext _ _ _ _ _ _ _ _ _ _ Hc H HF).
    + intros i Hi. case_bool_decide; [by apply Hr|by apply Hs].
    + intros i Hi. case_bool_decide; [by apply Hr'|by apply Hs].
    + intros i. case_bool_decide; [by apply Ag|done].
Qed.

(** domains 2, 2, 3 along the order x2, x0, x1: the tree has 19 nodes, object 4 has 11; a function
    with 12 different values attains the bound *)
Example C84_tree_case : exists v s a b N, exec ex_cfg (CVec 9 [0; 1; 2; 3; 4; 5; 6; 7; 8; 9; 10; 11]%Z) ex_vars ex_st = Ok v s /\
  v !! 4 = Some a /\ v !! 9 = Some b /\ tree_size (map (dom ex_cfg) (ab_order ex_abs)) = 19 /\
  diagram_node_count ex_cfg a s = Ok (Z.of_nat N) s /\ N <= 19 /\ diagram_node_count ex_cfg b s = Ok 19%Z s.
Proof.
  set (vs := [0; 1; 2; 3; 4; 5; 6; 7; 8; 9; 10; 11]%Z).
  destruct (ok_ex (exec ex_cfg (CVec 9 vs) ex_vars ex_st)) as (v&s&E); [by vm_compute|].
  assert (S9 : spec ex_cfg ex_ops true ex_st (CVec 9 vs) ex_abs (bindf 9 (fun rho => nth (vec_index ex_cfg (ab_order ex_abs) rho) vs 0%Z) ex_abs)).
  { apply S_vec; [by vm_compute|]. unfold vs. repeat (constructor; [apply ex_tval; lia|]). constructor. }
  pose proof (H_call _ _ _ _ _ _ _ _ _ _ _ _ ex_history S9 E) as H.
  destruct (C84_tree _ _ _ _ _ _ _ _ 4 exF4 ex_wf H eq_refl eq_refl eq_refl) as (a&N&Ha&EN&HN).
  destruct (C60_minimal _ _ _ _ _ _ _ _ 9 _ ex_wf H eq_refl eq_refl eq_refl) as (b&Gs&Hb&_&EG&_).
  exists v, s, a, b, N. split; [exact E|]. split; [exact Ha|]. split; [exact Hb|]. split; [by vm_compute|]. split; [exact EN|]. split; [exact HN|].
  assert (X : match exec ex_cfg (CVec 9 vs) ex_vars ex_st with Ok v s =>
    match v !! 9 with Some b => match diagram_node_count ex_cfg b s with Ok m _ => (m =? 19)%Z | _ => false end | None => false end
    | _ => false end = true) by (by vm_compute).
  rewrite E, Hb, EG in X. apply Z.eqb_eq in X. rewrite X in EG. exact EG.
Qed.

Print Assumptions C84_tree.
