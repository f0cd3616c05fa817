(** * Properties of PLA files *)

From Coq Require Import String.
From stdpp Require Import gmap list.
From Coq Require Import ZArith Lia Ascii.
From Verif Require Import Base Ops Tables NodeManager Tools Sift DiagramManager World.
From Verif Require Import Heap Inv InvLemmas Apply Constr Expr VecSpec Eval Fold.
From Verif Require Import OpSpec WorldSpec WorldProof Ctor History PropsBase Chain PropsBase2 PropsCore Examples Refuted.
From Verif Require Import Pla PlaSpec PlaProof FromPla.

Local Open Scope Z_scope.
Local Opaque exec run new_manager evaluate.

(** ** C39 *)

Fixpoint cube_sets (b : bool_cube) (ks : list (Z * Z)) : option bool_cube :=
  match ks with
  | [] => Some b
  | (i, v) :: ks => match cube_set b i v with Some b => cube_sets b ks | None => None end
  end.

(** the value assigned last, initially 0 *)
Fixpoint last_assigned (i : Z) (ks : list (Z * Z)) (v : Z) : Z :=
  match ks with
  | [] => v
  | (j, w) :: ks => last_assigned i ks (if Z.eq_dec i j then w else v)
  end.

Theorem C39_bool_cube : forall size ks, 0 <= size ->
  Forall (fun p => 0 <= fst p < size /\ (snd p = 0 \/ snd p = 1 \/ snd p = 3)) ks ->
  exists b, cube_sets (new_cube size) ks = Some b /\ bc_size b = size /\
    forall i, 0 <= i < size -> cube_get b i = Some (last_assigned i ks 0).
Proof.
  intros size ks Hs F. set (n := Z.to_nat size). assert (En : size = Z.of_nat n) by lia. rewrite En in *. clearbody n. clear size En.
  assert (G : forall ks b f, Forall (fun p => 0 <= fst p < Z.of_nat n /\ (snd p = 0 \/ snd p = 1 \/ snd p = 3)) ks ->
    cube_ok n b -> (forall i, 0 <= i < Z.of_nat n -> cube_get b i = Some (f i)) ->
    exists b', cube_sets b ks = Some b' /\ bc_size b' = Z.of_nat n /\
      forall i, 0 <= i < Z.of_nat n -> cube_get b' i = Some (last_assigned i ks (f i))).
  { clear. induction ks as [|[i v] ks IH]; intros b f F Hb Hf; simpl.
    - exists b. split; [done|]. split; [apply Hb|done].
    - inversion F as [|? ? [Hi Hv] F']; subst. simpl in Hi, Hv.
      destruct (cube_set_ok n b i v Hb Hi Hv) as (b1&->&Hb1&G1).
      apply (IH b1 (fun j => if Z.eq_dec j i then v else f j)); [done|done|]. intros j Hj. rewrite G1 by done.
      destruct (Z.eqb_spec j i), (Z.eq_dec j i); try done. by apply Hf. }
  apply (G ks (new_cube (Z.of_nat n)) (fun _ => 0)); [done|apply new_cube_ok|apply new_cube_get].
Qed.

Example C39_case : exists b, cube_sets (new_cube 6) [(0, 1); (5, 3); (4, 1); (0, 3); (4, 0)] = Some b /\ bc_size b = 6 /\
  map (cube_get b) [0; 1; 2; 3; 4; 5] = [Some 3; Some 0; Some 0; Some 0; Some 0; Some 3].
Proof.
  destruct (C39_bool_cube 6 [(0, 1); (5, 3); (4, 1); (0, 3); (4, 0)]) as (b&E&Hs&G).
  - lia.
  - repeat (constructor; [simpl; lia|]); constructor.
  - exists b. split; [done|]. split; [done|]. simpl. by rewrite !G by lia.
Qed.

(** ** C42: the texts accepted, and what is loaded *)

(** [file_is f os cubes]: the entries of the loaded lines are those of [cubes],
    and the labels are the words of the options .ilb and .ob *)
Theorem C42_accepts : forall (mem : Z -> bool) t os nv nf np cubes,
  pla_text t os nv nf np cubes ->
  if mem (np mod 2 ^ 32) then exists f, load_file mem t = Loaded f /\ file_is f os cubes
  else load_file mem t = Thrown.
Proof. exact load_of. Qed.

Theorem C42_rejects_others : forall (mem : Z -> bool) t f, load_file mem t = Loaded f ->
  exists os nv nf np cubes, pla_text t os nv nf np cubes /\ mem (np mod 2 ^ 32) = true /\ file_is f os cubes.
Proof. intros mem t f E. pose proof (load_inv mem t) as H. by rewrite E in H. Qed.

Theorem C42_no_crash : forall (mem : Z -> bool) t, load_file mem t <> Crashed.
Proof. intros mem t E. pose proof (load_inv mem t) as H. by rewrite E in H. Qed.

(** a file with a comment, labels, spaces, both signs for don't care and text after .e *)
Definition nl : string := String "010"%char EmptyString.
Definition sample : list ascii := list_ascii_of_string
  ("# two functions" ++ nl ++ ".i 3" ++ nl ++ " .o  2 " ++ nl ++ ".ilb a b  c" ++ nl ++ ".p 3" ++ nl ++
   "01-  10" ++ nl ++ nl ++ "~~1 11" ++ nl ++ "1-0 0-" ++ nl ++ ".e" ++ nl ++ "rest" ++ nl).
Definition sample_cubes : list (list (option bool) * list (option bool)) :=
  [([Some false; Some true; None], [Some true; Some false]);
   ([None; None; Some true], [Some true; Some true]);
   ([Some true; None; Some false], [Some false; None])].

Definition plenty (n : Z) : bool := n <? 1000000.

Definition lits (s : string) := list_ascii_of_string s.
Ltac chars := repeat constructor; unfold is_space; vm_compute; intuition discriminate.
Ltac blanks := repeat (constructor; [unfold is_space; vm_compute; tauto|]); constructor.

Example sample_text : pla_text sample [(lits ".i", lits "3"); (lits ".o", lits "2"); (lits ".ilb", lits "a b  c"); (lits ".p", lits "3")]
  3 2 3 sample_cubes.
Proof.
  set (ls1 := map lits ["# two functions"; ".i 3"; " .o  2 "; ".ilb a b  c"; ".p 3"]%string).
  set (ls2 := map lits ["01-  10"; ""; "~~1 11"; "1-0 0-"; ".e"; "rest"]%string).
  exists ls1, ls2, true. split_and!.
  - apply getlines_spec. by vm_compute.
  - unfold ls1. simpl map. apply Hd_comment; [exists [], (lits " two functions"); split; [done|constructor]|].
    apply Hd_option; [exists [], (lits " "), [], (lits "i"); split_and!; try done; try (by blanks); chars|].
    apply Hd_option; [exists (lits " "), (lits "  "), (lits " "), (lits "o"); split_and!; try done; try (by blanks); chars|].
    apply Hd_option; [exists [], (lits " "), [], (lits "ilb"); split_and!; try done; try (by blanks); chars|].
    apply Hd_option; [exists [], (lits " "), [], (lits "p"); split_and!; try done; try (by blanks); chars|].
    constructor.
  - unfold ls2. simpl. exists [Some false; Some true; None], [Some true; Some false].
    exists [], (lits "01-"), (lits "  "), (lits "10"), []. split_and!; try done; try (by blanks); repeat constructor; simpl; auto.
  - unfold ls2, sample_cubes. simpl map.
    apply Bd_cube; [|done|done|].
    { exists [], (lits "01-"), (lits "  "), (lits "10"), []. split_and!; try done; try (by blanks); repeat constructor; simpl; auto. }
    apply Bd_blank; [constructor|].
    apply Bd_cube; [|done|done|].
    { exists [], (lits "~~1"), (lits " "), (lits "11"), []. split_and!; try done; try (by blanks); repeat constructor; simpl; auto. }
    apply Bd_cube; [|done|done|].
    { exists [], (lits "1-0"), (lits " "), (lits "0-"), []. split_and!; try done; try (by blanks); repeat constructor; simpl; auto. }
    apply Bd_dot. exists [], (lits "e"). split; [done|constructor].
  - done.
  - exists (lits "3"). split_and!; [constructor| |lia|lia]. exists [3%nat]. split_and!; [done|repeat constructor|by left].
  - exists (lits "2"). split_and!; [|exists [2%nat]; split_and!; [done|repeat constructor|by left]|lia|lia].
    apply Gv_later; [done|]. apply Gv_here.
  - exists (lits "3"). split_and!; [|exists [3%nat]; split_and!; [done|repeat constructor|by left]|lia|lia].
    repeat (apply Gv_later; [done|]). apply Gv_here.
Qed.

Example C42_case : exists f, load_file plenty sample = Loaded f /\ length (pf_lines f) = 3%nat /\
  pf_ilb f = [lits "a"; lits "b"; lits "c"] /\ pf_ob f = [] /\
  map (fun l => map (fun i => cube_get (pl_cube l) i) [0; 1; 2]) (pf_lines f) =
    [[Some 0; Some 1; Some 3]; [Some 3; Some 3; Some 1]; [Some 1; Some 3; Some 0]].
Proof.
  pose proof (C42_accepts plenty sample _ _ _ _ _ sample_text) as H. vm_compute in H.
  destruct H as (f&E&_). injection E as <-. eexists. split; [by vm_compute|]. by vm_compute.
Qed.

(** Malformed texts that are accepted: a wrong number of lines, and superfluous words *)
Theorem C42_malformed_refuted : exists t1 f1 t2 f2,
  load_file plenty t1 = Loaded f1 /\ length (pf_lines f1) = 1%nat /\
  t1 = lits (".i 1" ++ nl ++ ".o 1" ++ nl ++ ".p 7" ++ nl ++ "1 1" ++ nl) /\
  load_file plenty t2 = Loaded f2 /\ length (pf_lines f2) = 1%nat /\
  t2 = lits (".i 1" ++ nl ++ ".o 1" ++ nl ++ ".p 1" ++ nl ++ "1 1 junk 0" ++ nl).
Proof.
  eexists _, _, _, _.
  split; [|split; [|split; [reflexivity|split; [|split; [|reflexivity]]]]]; vm_compute; reflexivity.
Qed.

(** A negative number of lines: the memory for 2^32 - 1 lines is requested. *)
Theorem C42_negative_count_refuted :
  load_file plenty (lits (".i 1" ++ nl ++ ".o 1" ++ nl ++ ".p -1" ++ nl ++ "1 1" ++ nl)) = Thrown.
Proof. by vm_compute. Qed.

(** Cubes before .e are required: without any, .e counts as an option and the text after it is read. *)
Theorem C42_end_marker_refuted : exists f,
  load_file plenty (lits (".i 1" ++ nl ++ ".o 1" ++ nl ++ ".p 0" ++ nl ++ ".e" ++ nl ++ "1 1" ++ nl)) = Loaded f /\
  length (pf_lines f) = 1%nat.
Proof. eexists. split; by vm_compute. Qed.

(** ** C40 *)

(** the cubes fit the manager, and those used have a literal *)
Definition usable (c : cfg) (nf : nat) (q : list (option bool) * list (option bool)) : Prop :=
  (length (fst q) <= nvars c)%nat /\ length (snd q) = nf /\
  (Some true ∈ snd q -> exists b, Some b ∈ fst q).

Theorem C40_from_pla : forall c strict b p m args ks s vars A tree o f cubes nf,
  wf_cfg c -> c_fixed c = Some 2 -> history c (ops_with b p m) strict args ks s vars A -> ab_cache A = true ->
  Forall2 line_is (pf_lines f) cubes -> cubes <> [] -> Forall (usable c nf) cubes ->
  exists calls, from_pla_calls tree o f = Some calls /\
  match run c calls vars s with
  | Ok vars' s' => exists A', history c (ops_with b p m) strict args (ks ++ calls) s' vars' A' /\
      (* the results *)
      (forall fi, (fi < nf)%nat -> exists a, vars' !! (o + fi)%nat = Some a /\ computes c s' a (sum_of_products cubes fi)) /\
      (* other objects *)
      (forall d F, (d < o)%nat -> ab A !! d = Some F -> exists a, vars' !! d = Some a /\ computes c s' a F) /\
      (* nothing else is left *)
      ((forall d, (o <= d)%nat -> ab A !! d = None) -> forall d, (o + nf <= d)%nat -> ab A' !! d = None)
  | Err e => e = ERefOver \/ (strict = false /\ e = EPool)
  | Fuel => False
  end.
Proof.
  intros c strict b p m args ks s vars A tree o f cubes nf Hc Hb H Hca HL Hne HU.
  assert (Hls : pf_lines f <> []). { intros E. rewrite E in HL. inversion HL; subst. done. }
  assert (Hfc : function_count f = Some (Z.of_nat nf)).
  { unfold function_count. destruct HL as [|l [cs fs] ls cubes' [_ Hl2] _]; [done|]. simpl.
    inversion HU as [|? ? (_&Hn&_)]; subst. simpl in *. by rewrite (ci_size _ _ Hl2). }
  destruct (functions_step c b p m strict Hb Hc tree o (o + nf) (o + nf + length (pf_lines f)) (pf_lines f) cubes (seq 0 nf))
    with (A := A) as (calls&B&E&Ch&St&HF); try done.
  - intros fi Hfi. apply elem_of_seq in Hfi. apply Forall_forall. intros q Hq. rewrite Forall_forall in HU.
    destruct (HU q Hq) as (U1&U2&U3). split_and!; [done|lia|]. intros Ht. destruct (U3 (elem_of_list_lookup_2 _ _ _ Ht)) as [b' Hb'].
    by exists b'.
  - intros fi Hfi. apply elem_of_seq in Hfi. lia.
  - apply NoDup_ListNoDup, seq_NoDup.
  - exists calls. split; [unfold from_pla_calls; by rewrite Hfc, Nat2Z.id|].
    pose proof (run_chain c (ops_with b p m) strict args Hc calls ks s vars A B H Ch) as X.
    destruct (run c calls vars s) as [vars' s'|e|]; [|exact X|exact X]. exists B. split; [exact X|].
    split; [|split].
    + intros fi Hfi. destruct (HF fi) as (F&HFi&HV); [apply elem_of_seq; lia|].
      destruct (history_value _ _ _ _ _ _ _ _ _ _ Hc X HFi) as (a&Ha&W). exists a. split; [done|].
      eapply computes_ext; [|exact W]. done.
    + intros d F Hd HFd. apply (history_value _ _ _ _ _ _ _ _ _ _ Hc X). rewrite (sp_same _ _ _ _ St); [done|lia|].
      intros (fi&_&->). lia.
    + intros Hfree d Hd. destruct (sp_old _ _ _ _ St d) as [->|]; [|apply Hfree; lia|done].
      intros (fi&Hfi&->). apply elem_of_seq in Hfi. lia.
Qed.

Lemma body_fits nv nf ls cubes : body nv nf ls cubes ->
  Forall (fun q => Z.of_nat (length (fst q)) = nv /\ Z.of_nat (length (snd q)) = nf) cubes.
Proof. induction 1; [constructor|constructor|done|constructor; auto]. Qed.

(** from the text to the diagrams *)
Theorem C40_text_to_diagrams : forall c strict b p m args ks s vars A tree o mem t os nv nf np cubes,
  wf_cfg c -> c_fixed c = Some 2 -> history c (ops_with b p m) strict args ks s vars A -> ab_cache A = true ->
  pla_text t os nv nf np cubes -> mem (np mod 2 ^ 32) = true -> cubes <> [] -> nv <= Z.of_nat (nvars c) ->
  Forall (fun q => Some true ∈ snd q -> exists b, Some b ∈ fst q) cubes ->
  exists f calls, load_file mem t = Loaded f /\ from_pla_calls tree o f = Some calls /\
  match run c calls vars s with
  | Ok vars' s' => forall fi, Z.of_nat fi < nf -> exists a, vars' !! (o + fi)%nat = Some a /\ computes c s' a (sum_of_products cubes fi)
  | Err e => e = ERefOver \/ (strict = false /\ e = EPool)
  | Fuel => False
  end.
Proof.
  intros c strict b p m args ks s vars A tree o mem t os nv nf np cubes Hc Hb H Hca HT Hm Hne Hnv HU.
  pose proof (C42_accepts mem t os nv nf np cubes HT) as X. rewrite Hm in X. destruct X as (f&Ef&Hf).
  destruct HT as (h&d&tm&_&_&_&HB&_). pose proof (body_fits _ _ _ _ HB) as HS.
  destruct (C40_from_pla c strict b p m args ks s vars A tree o f cubes (Z.to_nat nf) Hc Hb H Hca (fi_lines _ _ _ Hf) Hne) as (calls&Ec&X).
  - rewrite Forall_forall in HU, HS |- *. intros q Hq. destruct (HS q Hq) as [L1 L2]. split_and!; [lia|lia|by apply HU].
  - exists f, calls. split; [done|]. split; [done|]. destruct (run c calls vars s) as [vars' s'|e|]; [|exact X|exact X].
    destruct X as (A'&_&X&_). intros fi Hfi. apply X. lia.
Qed.

(** the sample file, on a manager with three variables *)
Definition sop_values (f : pla_file) (tree : bool) : option (list (list Z)) :=
  match from_pla_calls tree 0 f with
  | None => None
  | Some ks =>
      match new_manager c3 args3 no_state with
      | Ok _ s =>
          match run c3 ks ∅ s with
          | Ok vars s =>
              Some (map (fun d => map (fun vals =>
                match vars !! d with
                | Some a => match evaluate c3 a vals s with Ok v _ => v | _ => -1 end
                | None => -2
                end) [[0; 0; 0]; [0; 0; 1]; [0; 1; 0]; [0; 1; 1]; [1; 0; 0]; [1; 0; 1]; [1; 1; 0]; [1; 1; 1]]%nat) [0; 1]%nat)
          | _ => None
          end
      | _ => None
      end
  end.

Lemma sample_usable : Forall (usable c3 2) sample_cubes.
Proof.
  unfold sample_cubes. apply Forall_cons. split; [|apply Forall_cons; split; [|apply Forall_cons; split; [|constructor]]];
    (split; [simpl; vm_compute; lia|]); (split; [done|]); intros _; simpl.
  - exists false. constructor.
  - exists true. do 2 constructor. constructor.
  - exists true. constructor.
Qed.

Definition points : list (list nat) :=
  [[0; 0; 0]; [0; 0; 1]; [0; 1; 0]; [0; 1; 1]; [1; 0; 0]; [1; 0; 1]; [1; 1; 0]; [1; 1; 1]]%nat.

Example C40_values : exists f, load_file plenty sample = Loaded f /\
  sop_values f false = Some [[0; 1; 1; 1; 0; 1; 0; 1]; [0; 1; 0; 1; 0; 1; 0; 1]] /\
  sop_values f true = Some [[0; 1; 1; 1; 0; 1; 0; 1]; [0; 1; 0; 1; 0; 1; 0; 1]] /\
  map (fun fi => map (fun vals => sum_of_products sample_cubes fi (of_vals vals)) points) [0; 1]%nat =
    [[0; 1; 1; 1; 0; 1; 0; 1]; [0; 1; 0; 1; 0; 1; 0; 1]].
Proof. eexists. split; [by vm_compute|]. split; [by vm_compute|]. split; by vm_compute. Qed.

Example C40_case : exists f calls s vars' s', load_file plenty sample = Loaded f /\ from_pla_calls true 0 f = Some calls /\
  new_manager c3 args3 no_state = Ok tt s /\ run c3 calls ∅ s = Ok vars' s' /\
  forall fi, Z.of_nat fi < 2 -> exists a, vars' !! fi = Some a /\ computes c3 s' a (sum_of_products sample_cubes fi).
Proof.
  assert (V : match load_file plenty sample with Loaded f => match from_pla_calls true 0 f with
    Some ks => match new_manager c3 args3 no_state with Ok _ s => is_ok (run c3 ks ∅ s) | _ => false end | None => false end | _ => false end = true) by by vm_compute.
  destruct (new_manager c3 args3 no_state) as [[] s| |] eqn:En.
  2,3: by destruct (load_file plenty sample); [destruct (from_pla_calls true 0 f)|..].
  pose proof (H_new c3 (ops_with 2 2 2) true args3 no_state s (pool3_ok 100 100 ltac:(lia) ltac:(lia)) En) as H0.
  destruct (C40_text_to_diagrams c3 true 2 2 2 args3 [] s ∅ _ true 0 plenty sample _ 3 2 3 sample_cubes c3_wf eq_refl H0 eq_refl
    sample_text eq_refl) as (f&calls&Ef&Ec&X); [done|vm_compute; discriminate| |].
  { eapply Forall_impl; [exact sample_usable|]. intros q (_&_&Q). exact Q. }
  rewrite Ef, Ec in V. exists f, calls, s. destruct (run c3 calls ∅ s) as [vars' s'|e|] eqn:R; [|discriminate V..].
  exists vars', s'. split; [exact Ef|]. split; [exact Ec|]. split; [reflexivity|]. split; [reflexivity|]. exact X.
Qed.

(** ** C41: a cube without literals is folded over an empty range *)
Theorem C41_no_literal_refuted : exists f calls s,
  load_file plenty (lits (".i 3" ++ nl ++ ".o 1" ++ nl ++ ".p 1" ++ nl ++ "--- 1" ++ nl ++ ".e" ++ nl)) = Loaded f /\
  from_pla_calls false 0 f = Some calls /\
  new_manager c3 args3 no_state = Ok tt s /\ run c3 calls ∅ s = Err EOob.
Proof.
  eexists _, _, _. split; [vm_compute; reflexivity|]. split; [vm_compute; reflexivity|].
  split; [vm_compute; reflexivity|]. vm_compute. reflexivity.
Qed.

(** the same for every file with such a cube, whatever the state of the manager *)
Theorem C41_empty_product : forall c d t vars s, run c (product_calls d t []) vars s = Err EOob.
Proof. Local Transparent run exec. intros. reflexivity. Local Opaque run exec. Qed.

Lemma no_literal_calls cs : (forall b, Some b ∉ cs) -> forall i, lits_from i cs = [].
Proof.
  induction cs as [|[b|] cs IH]; intros H i; simpl; [done| |].
  - exfalso. apply (H b). constructor.
  - apply IH. intros b Hb. apply (H b). by constructor.
Qed.

Theorem C41_no_literal : forall b cs, cube_is b cs -> (forall x, Some x ∉ cs) ->
  exists lits, literals b = Some lits /\
    forall c d t vars s, run c (product_calls d t lits) vars s = Err EOob.
Proof.
  intros b cs Hb Hn. exists []. split; [by rewrite (literals_spec _ _ Hb), no_literal_calls|]. apply C41_empty_product.
Qed.

(** get_function_count of a file without cubes *)
Theorem C41_no_cubes_refuted : exists f,
  load_file plenty (lits (".i 3" ++ nl ++ ".o 1" ++ nl ++ ".p 0" ++ nl ++ ".e" ++ nl)) = Loaded f /\
  function_count f = None /\ from_pla_calls false 0 f = None.
Proof. eexists. split; [by vm_compute|]. by vm_compute. Qed.

Example C41_case : exists b lits, cube_sets (new_cube 3) [(0, 3); (1, 3); (2, 3)] = Some b /\ literals b = Some lits /\
  forall c d t vars s, run c (product_calls d t lits) vars s = Err EOob.
Proof.
  destruct (cube_sets (new_cube 3) [(0, 3); (1, 3); (2, 3)]) as [b|] eqn:E; [|by vm_compute in E].
  destruct (C41_no_literal b [None; None; None]) as (lits&El&H).
  - vm_compute in E. injection E as <-. constructor; [done|]. intros i v Hi.
    do 3 (destruct i as [|i]; [injection Hi as <-; by vm_compute|]). done.
  - intros x H. set_solver.
  - exists b, lits. done.
Qed.

Print Assumptions C39_bool_cube.
Print Assumptions C40_from_pla.
Print Assumptions C40_text_to_diagrams.
Print Assumptions C41_no_literal_refuted.
Print Assumptions C41_no_literal.
Print Assumptions C41_no_cubes_refuted.
Print Assumptions C42_accepts.
Print Assumptions C42_rejects_others.
Print Assumptions C42_no_crash.
Print Assumptions C42_malformed_refuted.
Print Assumptions C42_negative_count_refuted.
Print Assumptions C42_end_marker_refuted.
