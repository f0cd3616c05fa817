(** * The sizes of results

    The number of nodes of a diagram is the number of subfunctions of its function
    ([C60_minimal]), so functions computed from other functions have bounded
    diagrams, whatever calls construct them. *)

From stdpp Require Import gmap list.
From Coq Require Import ZArith Lia.
From Verif Require Import Base Ops Tables NodeManager Tools Sift DiagramManager World Queries Reliability.
From Verif Require Import Heap Inv InvLemmas Prim GC Make Build Apply Api Constr Expr VecSpec Vec Eval Fold.
From Verif Require Import OpSpec OpProof WorldSpec WorldProof Ctor History PropsBase Chain PropsBase2 PropsCore Examples.
From Verif Require Import Trav QuerySpec QueryProof Minimal PropsQuery.

Local Open Scope nat_scope.
Local Opaque exec run new_manager.

(** all lists with a number below each bound *)
Fixpoint tuples (ns : list nat) : list (list nat) :=
  match ns with
  | [] => [[]]
  | n :: ns => flat_map (fun j => map (cons j) (tuples ns)) (seq 0 n)
  end.
Definition product (ns : list nat) : nat := fold_right Nat.mul 1 ns.

Lemma tuples_length ns : length (tuples ns) = product ns.
Proof.
  induction ns as [|n ns IH]; [done|]. cbn [tuples product fold_right]. fold (product ns). rewrite <- IH. generalize 0.
  induction n as [|n IHn]; intros k; [done|]. cbn [seq flat_map]. rewrite app_length, map_length, IHn. lia.
Qed.

Lemma tuples_elem js ns : Forall2 (fun j n => j < n) js ns -> js ∈ tuples ns.
Proof.
  induction 1 as [|j n js ns Hj _ IH]; [by left|]. cbn [tuples]. apply elem_of_list_In, in_flat_map. exists j. split.
  - apply in_seq. lia.
  - apply in_map. by apply elem_of_list_In.
Qed.

Section subs.
Context (c : cfg) (order : list nat).

(** distinct functions with distinct labels *)
Lemma labelled {X} Gs (R : (asg -> Z) -> X -> Prop) (D : list X) :
  (forall j k G H, Gs !! j = Some G -> Gs !! k = Some H -> fun_eq c G H -> j = k) ->
  (forall G, In G Gs -> exists x, R G x) -> (forall G x, R G x -> x ∈ D) -> (forall G H x, R G x -> R H x -> fun_eq c G H) ->
  length Gs <= length D.
Proof.
  intros HD He HI HR. destruct (Forall2_choice R Gs) as [xs Hxs].
  { intros G HG. by apply He, elem_of_list_In. }
  rewrite (Forall2_length _ _ _ Hxs). apply submseteq_length, NoDup_submseteq.
  - apply NoDup_alt. intros j k x Hj Hk.
    destruct (Forall2_lookup_r _ _ _ _ _ Hxs Hj) as (G&HG&RG). destruct (Forall2_lookup_r _ _ _ _ _ Hxs Hk) as (H&HH&RH).
    eapply HD; [exact HG|exact HH|]. by eapply HR.
  - intros x Hx. apply elem_of_list_lookup in Hx as (j&Hj). destruct (Forall2_lookup_r _ _ _ _ _ Hxs Hj) as (G&_&RG). by eapply HI.
Qed.

(** a function computed point by point from functions with some variables fixed *)
Lemma combined_size (h : list Z -> Z) H Hs (ps : list ((asg -> Z) * list (nat * nat))) Gss :
  subfunctions c order H Hs ->
  Forall2 (fun p Gs => subfunctions c order (fst p) Gs) ps Gss ->
  Forall (fun p => Forall (fun q => snd q < dom c (fst q)) (snd p) /\
    forall rho sigma, valid c rho -> valid c sigma -> (forall i, rho i = sigma i) -> fst p rho = fst p sigma) ps ->
  (forall rho, valid c rho -> H rho = h (map (fun p => fst p (updl rho (snd p))) ps)) ->
  length Hs <= product (map length Gss).
Proof.
  intros SH SF HP E. rewrite <- tuples_length.
  assert (V : forall vs rho, Forall (fun q => snd q < dom c (fst q)) vs -> valid c rho -> valid c (updl rho vs)).
  { intros vs rho Hvs Hr i Hi. unfold updl. destruct (find_var i vs) as [k|] eqn:Ef; [|by apply Hr].
    apply find_var_In in Ef. rewrite Forall_forall in Hvs. exact (Hvs _ Ef). }
  apply (labelled Hs (fun G js => Forall2 (fun j Gs => j < length Gs) js Gss /\
    exists Ks, Forall2 (fun K jg => snd jg !! fst jg = Some K) Ks (zip js Gss) /\
      fun_eq c G (fun sigma => h (zip_with (fun K (p : (asg -> Z) * list (nat * nat)) => K (updl sigma (snd p))) Ks ps)))).
  - apply SH.
  - intros G HG. destruct (sf_sound _ _ _ _ SH G HG) as (l&rho&Hl&Hr&EG).
    assert (X : exists js Ks, Forall2 (fun j Gs => j < length Gs) js Gss /\
      Forall2 (fun K jg => snd jg !! fst jg = Some K) Ks (zip js Gss) /\
      Forall2 (fun K p => fun_eq c K (restrict order l (updl rho (snd p)) (fst p))) Ks ps).
    { clear -SF Hl Hr HP V. induction SF as [|p Gs ps Gss S1 _ IH]; [exists [], []; cbn; split; [constructor|split; constructor]|].
      inversion HP as [|? ? [Hvs _] HP']; subst. destruct (IH HP') as (js&Ks&H1&H2&H3).
      destruct (sf_complete _ _ _ _ S1 l (updl rho (snd p)) Hl (V _ _ Hvs Hr)) as (K&HK&EK).
      apply elem_of_list_In, elem_of_list_lookup in HK as (j&Hj). exists (j :: js), (K :: Ks).
      split; [constructor; [by eapply lookup_lt_Some|done]|]. split; [cbn; by constructor|by constructor]. }
    destruct X as (js&Ks&H1&H2&H3). exists js. split; [done|]. exists Ks. split; [done|]. intros sigma Hs'. rewrite EG by done.
    assert (Vm : forall r t, valid c r -> valid c t -> valid c (fun i => if bool_decide (i ∈ take l order) then r i else t i)).
    { intros r t Vr Vt i Hi. case_bool_decide; [by apply Vr|by apply Vt]. }
    unfold restrict. rewrite E by by apply Vm. f_equal. clear -H3 Hs' Hr HP V Vm.
    induction H3 as [|K p Ks ps EK _ IH]; [done|]. inversion HP as [|? ? [Hvs Ext] HP']; subst.
    cbn [map zip_with]. rewrite (IH HP'). f_equal. rewrite EK by by apply V. unfold restrict.
    apply Ext; [by apply V, Vm|apply Vm; by apply V|]. intros i. unfold updl. case_bool_decide; destruct (find_var i (snd p)); done.
  - intros G js [H1 _]. apply tuples_elem. clear -H1. induction H1; by constructor.
  - intros G G' js (_&Ks&H2&E1) (_&Ks'&H2'&E2).
    assert (Ks = Ks') as <-.
    { clear -H2 H2'. revert Ks' H2'. induction H2 as [|K jg Ks l EK _ IH]; intros Ks' H2'; inversion H2'; subst; [done|]. f_equal; [congruence|auto]. }
    intros rho Hr. by rewrite E1, E2.
Qed.
End subs.

Lemma history_ext c opsem strict args ks s vars A x F :
  wf_cfg c -> history c opsem strict args ks s vars A -> ab A !! x = Some F ->
  forall rho sigma, valid c rho -> valid c sigma -> (forall i, rho i = sigma i) -> F rho = F sigma.
Proof.
  intros Hc Hi HF. destruct (history_query _ _ _ _ _ _ _ _ _ _ Hc Hi HF) as (g&b&Hb&C&Hh&EQ&_).
  intros rho sigma Hr Hs' Eq. rewrite !EQ by done. apply (Ev_nval c opsem strict g s C b rho _ Hh Hr).
  eapply Ev_vars; [|by apply (nval_Ev c opsem strict g s C b sigma)]. intros y i sons _ _. apply Eq.
Qed.

(** a function computed from arguments with some of their variables fixed has at most the product
    of the numbers of nodes of the arguments *)
Theorem C84_combined : forall c strict opsem args ks s vars A z H xs ps (h : list Z -> Z),
  wf_cfg c -> history c opsem strict args ks s vars A -> ab_canon A = true -> ab_clean A = true ->
  ab A !! z = Some H -> Forall2 (fun x p => ab A !! x = Some (fst p)) xs ps ->
  Forall (fun p => Forall (fun q => snd q < dom c (fst q)) (snd p)) ps ->
  (forall rho, valid c rho -> H rho = h (map (fun p => fst p (updl rho (snd p))) ps)) ->
  exists a N Ns, vars !! z = Some a /\ diagram_node_count c a s = Ok (Z.of_nat N) s /\
    Forall2 (fun x n => exists b, vars !! x = Some b /\ diagram_node_count c b s = Ok (Z.of_nat n) s) xs Ns /\
    N <= product Ns.
Proof.
  intros c strict opsem args ks s vars A z H xs ps h Hc Hi Hcn Hcl HH HF HV E.
  destruct (C60_minimal _ _ _ _ _ _ _ _ _ _ Hc Hi Hcn Hcl HH) as (a&Hs&Ha&SH&EN&_).
  assert (X : exists Gss, Forall2 (fun p Gs => subfunctions c (ab_order A) (fst p) Gs) ps Gss /\
    Forall (fun p => Forall (fun q => snd q < dom c (fst q)) (snd p) /\
      forall rho sigma, valid c rho -> valid c sigma -> (forall i, rho i = sigma i) -> fst p rho = fst p sigma) ps /\
    Forall2 (fun x n => exists b, vars !! x = Some b /\ diagram_node_count c b s = Ok (Z.of_nat n) s) xs (map length Gss)).
  { clear -Hc Hi Hcn Hcl HF HV. induction HF as [|x p xs ps HF _ IH]; [exists []; split; [constructor|split; constructor]|].
    inversion HV as [|? ? HV1 HV2]; subst. destruct (IH HV2) as (Gss&S1&S2&S3).
    destruct (C60_minimal _ _ _ _ _ _ _ _ _ _ Hc Hi Hcn Hcl HF) as (b&Gs&Hb&SF&EN&_).
    exists (Gs :: Gss). split; [by constructor|]. split; [constructor; [|done]; split; [done|by eapply history_ext]|].
    cbn [map]. constructor; [|done]. by exists b. }
  destruct X as (Gss&SF&HP&EL). exists a, (length Hs), (map length Gss). split; [done|]. split; [done|]. split; [done|].
  by eapply combined_size.
Qed.

(** a pointwise combination *)
Theorem C84_pointwise : forall c strict opsem args ks s vars A z H xs Fs (h : list Z -> Z),
  wf_cfg c -> history c opsem strict args ks s vars A -> ab_canon A = true -> ab_clean A = true ->
  ab A !! z = Some H -> Forall2 (fun x F => ab A !! x = Some F) xs Fs ->
  (forall rho, valid c rho -> H rho = h (map (fun F => F rho) Fs)) ->
  exists a N Ns, vars !! z = Some a /\ diagram_node_count c a s = Ok (Z.of_nat N) s /\
    Forall2 (fun x n => exists b, vars !! x = Some b /\ diagram_node_count c b s = Ok (Z.of_nat n) s) xs Ns /\
    N <= product Ns.
Proof.
  intros c strict opsem args ks s vars A z H xs Fs h Hc Hi Hcn Hcl HH HF E.
  apply (C84_combined c strict opsem args ks s vars A z H xs (map (fun F => (F, [])) Fs) h); try done.
  - clear -HF. induction HF; constructor; done.
  - clear. induction Fs; constructor; [constructor|done].
  - intros rho Hr. rewrite E by done. rewrite map_map. done.
Qed.

(** fixing variables makes no diagram larger *)
Theorem C84_cofactor : forall c strict opsem args ks s vars A z H x F vs,
  wf_cfg c -> history c opsem strict args ks s vars A -> ab_canon A = true -> ab_clean A = true ->
  ab A !! z = Some H -> ab A !! x = Some F -> Forall (fun p => snd p < dom c (fst p)) vs ->
  (forall rho, valid c rho -> H rho = F (updl rho vs)) ->
  exists a b N n, vars !! z = Some a /\ diagram_node_count c a s = Ok (Z.of_nat N) s /\
    vars !! x = Some b /\ diagram_node_count c b s = Ok (Z.of_nat n) s /\ N <= n.
Proof.
  intros c strict opsem args ks s vars A z H x F vs Hc Hi Hcn Hcl HH HF Hvs E.
  destruct (C84_combined c strict opsem args ks s vars A z H [x] [(F, vs)]
    (fun us => match us with [u] => u | _ => 0%Z end) Hc Hi Hcn Hcl HH) as (a&N&Ns&Ha&EN&EL&HN); [by repeat constructor|by repeat constructor|done|].
  inversion EL as [|? n ? l (b&Hb&En) EL2]; subst. inversion EL2; subst.
  exists a, b, N, n. split_and!; try done. unfold product in HN. cbn [fold_right] in HN. lia.
Qed.

(** a derivative has at most the square of the number of nodes: its value depends on the values of the
    function for two values of the variable *)
Theorem C84_derivative : forall c strict opsem args ks s vars A z H x F i u v (f : Z -> Z -> Z),
  wf_cfg c -> history c opsem strict args ks s vars A -> ab_canon A = true -> ab_clean A = true ->
  ab A !! z = Some H -> ab A !! x = Some F -> u < dom c i -> v < dom c i ->
  (forall rho, valid c rho -> H rho = f (F (upd rho i u)) (F (upd rho i v))) ->
  exists a b N n, vars !! z = Some a /\ diagram_node_count c a s = Ok (Z.of_nat N) s /\
    vars !! x = Some b /\ diagram_node_count c b s = Ok (Z.of_nat n) s /\ N <= n * n.
Proof.
  intros c strict opsem args ks s vars A z H x F i u v f Hc Hi Hcn Hcl HH HF Hu Hv E.
  assert (U : forall w rho, w < dom c i -> valid c rho -> F (upd rho i w) = F (updl rho [(i, w)])).
  { intros w rho Hw Hr. assert (V : valid c (upd rho i w)) by by apply valid_upd.
    assert (X : forall j, upd rho i w j = updl rho [(i, w)] j).
    { intros j. unfold updl, find_var, List.find. cbn [fst snd]. destruct (Nat.eqb_spec i j) as [->|]; [by rewrite upd_same|by rewrite upd_other]. }
    apply (history_ext _ _ _ _ _ _ _ _ _ _ Hc Hi HF); [done| |done]. intros j Hj. rewrite <- X. by apply V. }
  destruct (C84_combined c strict opsem args ks s vars A z H [x; x] [(F, [(i, u)]); (F, [(i, v)])]
    (fun us => match us with [a; b] => f a b | _ => 0%Z end) Hc Hi Hcn Hcl HH) as (a&N&Ns&Ha&EN&EL&HN).
  - by repeat constructor.
  - by repeat constructor.
  - intros rho Hr. rewrite E by done. cbn [map fst snd]. by rewrite !U.
  - inversion EL as [|? n ? l (b&Hb&En) EL2]; subst. inversion EL2 as [|? m ? l2 (d&Hd&Em) EL3]; subst. inversion EL3; subst.
    assert (d = b) as -> by congruence. rewrite En in Em. injection Em as Em. assert (m = n) as -> by lia.
    exists a, b, N, n. split_and!; try done. unfold product in HN. cbn [fold_right] in HN. lia.
Qed.

(** apply *)
Theorem C84_apply : forall c strict opsem args ks s vars A z H x F y G op,
  wf_cfg c -> history c opsem strict args ks s vars A -> ab_canon A = true -> ab_clean A = true ->
  ab A !! z = Some H -> ab A !! x = Some F -> ab A !! y = Some G ->
  (forall rho, valid c rho -> H rho = op (F rho) (G rho)) ->
  exists a b d N n m, vars !! z = Some a /\ diagram_node_count c a s = Ok (Z.of_nat N) s /\
    vars !! x = Some b /\ diagram_node_count c b s = Ok (Z.of_nat n) s /\
    vars !! y = Some d /\ diagram_node_count c d s = Ok (Z.of_nat m) s /\ N <= n * m.
Proof.
  intros c strict opsem args ks s vars A z H x F y G op Hc Hi Hcn Hcl HH HF HG E.
  destruct (C84_pointwise c strict opsem args ks s vars A z H [x; y] [F; G]
    (fun vs => match vs with [u; v] => op u v | _ => 0%Z end) Hc Hi Hcn Hcl HH) as (a&N&Ns&Ha&EN&EL&HN); [by repeat constructor|done|].
  inversion EL as [|? n ? l (b&Hb&En) EL2]; subst. inversion EL2 as [|? m ? l2 (d&Hd&Em) EL3]; subst. inversion EL3; subst.
  exists a, b, d, N, n, m. split_and!; try done. unfold product in HN. cbn [fold_right] in HN. lia.
Qed.

(** transform, and transform by an injection, such as negate *)
Theorem C84_transform : forall c strict opsem args ks s vars A z H x F f,
  wf_cfg c -> history c opsem strict args ks s vars A -> ab_canon A = true -> ab_clean A = true ->
  ab A !! z = Some H -> ab A !! x = Some F -> (forall rho, valid c rho -> H rho = f (F rho)) ->
  exists a b N n, vars !! z = Some a /\ diagram_node_count c a s = Ok (Z.of_nat N) s /\
    vars !! x = Some b /\ diagram_node_count c b s = Ok (Z.of_nat n) s /\ N <= n /\
    forall f', (forall rho, valid c rho -> f' (f (F rho)) = F rho) -> N = n.
Proof.
  assert (X : forall c strict opsem args ks s vars A z H x F f,
    wf_cfg c -> history c opsem strict args ks s vars A -> ab_canon A = true -> ab_clean A = true ->
    ab A !! z = Some H -> ab A !! x = Some F -> (forall rho, valid c rho -> H rho = f (F rho)) ->
    exists a b N n, vars !! z = Some a /\ diagram_node_count c a s = Ok (Z.of_nat N) s /\
      vars !! x = Some b /\ diagram_node_count c b s = Ok (Z.of_nat n) s /\ N <= n).
  { intros c strict opsem args ks s vars A z H x F f Hc Hi Hcn Hcl HH HF E.
    destruct (C84_pointwise c strict opsem args ks s vars A z H [x] [F]
      (fun vs => match vs with [u] => f u | _ => 0%Z end) Hc Hi Hcn Hcl HH) as (a&N&Ns&Ha&EN&EL&HN); [by repeat constructor|done|].
    inversion EL as [|? n ? l (b&Hb&En) EL2]; subst. inversion EL2; subst.
    exists a, b, N, n. split_and!; try done. unfold product in HN. cbn [fold_right] in HN. lia. }
  intros c strict opsem args ks s vars A z H x F f Hc Hi Hcn Hcl HH HF E.
  destruct (X _ _ _ _ _ _ _ _ _ _ _ _ _ Hc Hi Hcn Hcl HH HF E) as (a&b&N&n&Ha&EN&Hb&En&HN).
  exists a, b, N, n. split_and!; try done. intros f' Ef.
  destruct (X _ _ _ _ _ _ _ _ _ _ _ _ f' Hc Hi Hcn Hcl HF HH) as (b'&a'&n'&N'&Hb'&En'&Ha'&EN'&HN').
  { intros rho Hr. by rewrite E, Ef. }
  assert (a' = a) as -> by congruence. assert (b' = b) as -> by congruence. rewrite EN in EN'. rewrite En in En'.
  injection EN' as EN'. injection En' as En'. lia.
Qed.

(** ** A case: three more calls after those of [Examples] *)

Definition bd_calls : list call := [CTransform 8 (fun v => v + 1)%Z 6; CCofactor 9 6 0 1; CDpld 10 (VarChange 2 0 1) Z.ltb 6].
Definition bd_run : res vars_t := run ex_cfg bd_calls ex_vars ex_st.
Definition bd_vars : vars_t := match bd_run with Ok v _ => v | _ => ∅ end.
Definition bd_st : st := match bd_run with Ok _ s => s | _ => no_state end.
Definition bdF8 : asg -> Z := fun rho => (exF6 rho + 1)%Z.
Definition bdF9 : asg -> Z := fun rho => exF6 (upd rho 0 1).
Definition bdF10 : asg -> Z := fun rho => if Z.ltb (exF6 (upd rho 2 0)) (exF6 (upd rho 2 1)) then 1%Z else 0%Z.
Definition bd_abs9 : astate := bindf 9 bdF9 (bindf 8 bdF8 ex_abs).
Definition bd_abs : astate := bindf 10 bdF10 bd_abs9.

Lemma bd_range rho : (0 <= exF6 rho <= 7)%Z.
Proof.
  unfold exF6. generalize (vec_index ex_cfg [2; 0; 1] rho). intros n. unfold ex_vec.
  do 12 (destruct n as [|n]; [cbn [nth]; lia|]). destruct n; cbn [nth]; lia.
Qed.

Lemma bd_chain : chain ex_cfg ex_ops true bd_calls ex_abs bd_abs.
Proof.
  apply (Ch_cons _ _ _ _ _ _ (bindf 8 bdF8 ex_abs)).
  { intros s. apply (S_transform _ _ _ s 8 (fun v => v + 1)%Z 6 exF6); [done|]. intros rho _. left.
    pose proof (bd_range rho). change Nondet with 2147483646%Z. split; [lia|done]. }
  apply (Ch_cons _ _ _ _ _ _ bd_abs9).
  { intros s. apply (S_cofactor _ _ _ s 9 6 0 1 exF6); [done|]. vm_compute. lia. }
  apply (Ch_cons _ _ _ _ _ _ bd_abs).
  { intros s. apply (S_dpld _ _ _ s 10 (VarChange 2 0 1) Z.ltb 6 exF6); [done| |vm_compute; lia|vm_compute; lia]. by left. }
  constructor.
Qed.

Lemma bd_history : history ex_cfg ex_ops true ex_args (ex_prog ++ bd_calls) bd_st bd_vars bd_abs.
Proof.
  eapply chain_history; [apply ex_history|apply bd_chain|]. unfold bd_vars, bd_st.
  assert (X : match bd_run with Ok _ _ => true | _ => false end = true) by (by vm_compute).
  unfold bd_run in *. destruct (run ex_cfg bd_calls ex_vars ex_st) as [v s| |]; [done|done|done].
Qed.

(** the numbers of nodes of the objects: 10 for object 6 and its transform, 7 for the cofactor, 4 for the derivative, 11 for
    object 4, the sum of the objects 3 and 2 with 6 and 3 nodes *)
Definition bd_size (x : nat) : option Z :=
  match bd_vars !! x with
  | Some a => match diagram_node_count ex_cfg a bd_st with Ok n _ => Some n | _ => None end
  | None => None
  end.
Example C84_sizes_case : map bd_size [6; 8; 9; 10; 4; 3; 2] = [Some 10; Some 10; Some 7; Some 4; Some 11; Some 6; Some 3]%Z.
Proof. vm_compute. done. Qed.

Example C84_transform_case : exists a b N n, bd_vars !! 8 = Some a /\ diagram_node_count ex_cfg a bd_st = Ok (Z.of_nat N) bd_st /\
  bd_vars !! 6 = Some b /\ diagram_node_count ex_cfg b bd_st = Ok (Z.of_nat n) bd_st /\ N <= n /\
  forall f', (forall rho, valid ex_cfg rho -> f' (exF6 rho + 1)%Z = exF6 rho) -> N = n.
Proof.
  exact (C84_transform _ _ _ _ _ _ _ _ 8 bdF8 6 exF6 (fun v => v + 1)%Z ex_wf bd_history eq_refl eq_refl eq_refl eq_refl
    (fun rho _ => eq_refl)).
Qed.

Example C84_cofactor_case : exists a b N n, bd_vars !! 9 = Some a /\ diagram_node_count ex_cfg a bd_st = Ok (Z.of_nat N) bd_st /\
  bd_vars !! 6 = Some b /\ diagram_node_count ex_cfg b bd_st = Ok (Z.of_nat n) bd_st /\ N <= n.
Proof.
  apply (C84_cofactor _ _ _ _ _ _ _ _ 9 bdF9 6 exF6 [(0, 1)] ex_wf bd_history eq_refl eq_refl eq_refl eq_refl).
  - constructor; [vm_compute; lia|constructor].
  - intros rho Hr. reflexivity.
Qed.

Example C84_derivative_case : exists a b N n, bd_vars !! 10 = Some a /\ diagram_node_count ex_cfg a bd_st = Ok (Z.of_nat N) bd_st /\
  bd_vars !! 6 = Some b /\ diagram_node_count ex_cfg b bd_st = Ok (Z.of_nat n) bd_st /\ N <= n * n.
Proof.
  apply (C84_derivative _ _ _ _ _ _ _ _ 10 bdF10 6 exF6 2 0 1 (fun p q => if Z.ltb p q then 1 else 0)%Z ex_wf bd_history eq_refl eq_refl
    eq_refl eq_refl).
  - vm_compute. lia.
  - vm_compute. lia.
  - intros rho _. reflexivity.
Qed.

Example C84_apply_case : exists a b d N n m, bd_vars !! 4 = Some a /\ diagram_node_count ex_cfg a bd_st = Ok (Z.of_nat N) bd_st /\
  bd_vars !! 3 = Some b /\ diagram_node_count ex_cfg b bd_st = Ok (Z.of_nat n) bd_st /\
  bd_vars !! 2 = Some d /\ diagram_node_count ex_cfg d bd_st = Ok (Z.of_nat m) bd_st /\ N <= n * m.
Proof.
  exact (C84_apply _ _ _ _ _ _ _ _ 4 exF4 3 exF3 2 (exV 2) (op_fun (PLUS 4)) ex_wf bd_history eq_refl eq_refl eq_refl eq_refl eq_refl
    (fun rho _ => eq_refl)).
Qed.

Example C84_pointwise_case : exists a N Ns, bd_vars !! 1 = Some a /\ diagram_node_count ex_cfg a bd_st = Ok (Z.of_nat N) bd_st /\
  Forall2 (fun x n => exists b, bd_vars !! x = Some b /\ diagram_node_count ex_cfg b bd_st = Ok (Z.of_nat n) bd_st) [5; 3; 2] Ns /\
  N <= product Ns.
Proof.
  apply (C84_pointwise _ _ _ _ _ _ _ _ 1 exF1 [5; 3; 2] [exF5; exF3; exV 2]
    (fun vs => match vs with [u; v; w] => op_fun LESS u (op_fun (PLUS 4) v w) | _ => 0%Z end) ex_wf bd_history eq_refl eq_refl eq_refl).
  - repeat constructor.
  - intros rho _. reflexivity.
Qed.

Print Assumptions C84_combined.
Print Assumptions C84_pointwise.
Print Assumptions C84_derivative.
Print Assumptions C84_apply.
Print Assumptions C84_transform.
Print Assumptions C84_cofactor.
