(** * Specifications for the queries: counting, enumeration, subfunctions *)

From stdpp Require Import gmap list.
From Coq Require Import ZArith Lia Sorted.
From Verif Require Import Base Heap Inv VecSpec Eval.

Local Open Scope nat_scope.

Section spec.
Context (c : cfg).

(** ** What the queries should return *)

(** [vals] is a solution of F = v *)
Definition solution (F : asg -> Z) (v : Z) (vals : list nat) : Prop :=
  vals_ok c vals /\ F (of_vals vals) = v.

(** a list of all solutions without repetition *)
Definition all_solutions (F : asg -> Z) (v : Z) (sols : list (list nat)) : Prop :=
  NoDup sols /\ forall vals, vals ∈ sols <-> solution F v vals.

(** the variable [i] has influence on F *)
Definition essential_var (F : asg -> Z) (i : nat) : Prop :=
  i < nvars c /\ exists rho k k', valid c rho /\ k < dom c i /\ k' < dom c i /\ F (upd rho i k) <> F (upd rho i k').

Definition fun_eq (F G : asg -> Z) : Prop := forall rho, valid c rho -> F rho = G rho.

(** F with the first [l] variables of the order fixed as in [rho] *)
Definition restrict (order : list nat) (l : nat) (rho : asg) (F : asg -> Z) : asg -> Z :=
  fun sigma => F (fun i => if bool_decide (i ∈ take l order) then rho i else sigma i).

(** [Gs] lists the subfunctions of F, each once up to equality of functions *)
Record subfunctions (order : list nat) (F : asg -> Z) (Gs : list (asg -> Z)) : Prop := {
  sf_sound : forall G, In G Gs -> exists l rho, l <= nvars c /\ valid c rho /\ fun_eq G (restrict order l rho F);
  sf_complete : forall l rho, l <= nvars c -> valid c rho -> exists G, In G Gs /\ fun_eq G (restrict order l rho F);
  sf_distinct : forall j k G H, Gs !! j = Some G -> Gs !! k = Some H -> fun_eq G H -> j = k
}.

(** an ordered decision diagram for F, independent of the manager: nodes are
    given by [L], the levels of the variables by their positions in the order *)
Record ordered_diagram (order : list nat) (L : positive -> option body) (root : positive) (F : asg -> Z) : Prop := {
  od_int : forall x i sons, reach L root x -> L x = Some (Int i sons) ->
    i < nvars c /\ length sons = dom c i /\
    forall y j ss, y ∈ sons -> L y = Some (Int j ss) ->
      exists l l', order !! l = Some i /\ order !! l' = Some j /\ l < l';
  od_den : forall rho, valid c rho -> Ev L root rho (F rho)
}.

(** ** Enumeration in the order of the levels *)

Fixpoint all_sols (os : list nat) (vars : list nat) (F : asg -> Z) (v : Z) : list (list nat) :=
  match os with
  | [] => if (F (of_vals vars) =? v)%Z then [vars] else []
  | i :: os => flat_map (fun k => all_sols os (<[i := k]> vars) F v) (seq 0 (dom c i))
  end.

Definition agree_off (os : list nat) (vars vals : list nat) : Prop :=
  length vals = length vars /\ forall j, j ∉ os -> vals !! j = vars !! j.

Lemma all_sols_elem os : NoDup os -> forall vars F v vals,
  (forall i, i ∈ os -> i < length vars) ->
  vals ∈ all_sols os vars F v <->
  agree_off os vars vals /\ (forall i, i ∈ os -> of_vals vals i < dom c i) /\ F (of_vals vals) = v.
Proof.
  induction 1 as [|i os Hi ND IH]; intros vars F v vals Hlen; cbn [all_sols].
  - destruct (Z.eqb_spec (F (of_vals vars)) v) as [E|E].
    + rewrite elem_of_list_singleton. split.
      * intros ->. split_and!; [by split|set_solver|done].
      * intros ([Hl Ha]&_&_). apply list_eq. intros j. by apply Ha, not_elem_of_nil.
    + split; [by intros ?%elem_of_nil|]. intros ([Hl Ha]&_&Hv). exfalso. apply E. rewrite <- Hv. f_equal.
      f_equal. symmetry. apply list_eq. intros j. by apply Ha, not_elem_of_nil.
  - rewrite elem_of_list_In, in_flat_map. split.
    + intros (k&Hk&Hin). apply elem_of_list_In in Hin. apply IH in Hin; [|intros j Hj; rewrite insert_length; apply Hlen; set_solver].
      apply in_seq in Hk. destruct Hin as ([Hl Ha]&Hd&Hv). rewrite insert_length in Hl.
      assert (E : of_vals vals i = k).
      { pose proof (Ha i Hi) as E. rewrite list_lookup_insert in E by (apply Hlen; set_solver).
        unfold of_vals. by apply nth_lookup_Some. }
      split_and!; [split; [done|]| |done].
      * intros j Hj. apply not_elem_of_cons in Hj as [Hne Hj]. rewrite Ha by done. by apply list_lookup_insert_ne.
      * intros j [->|Hj]%elem_of_cons; [lia|auto].
    + intros ([Hl Ha]&Hd&Hv). exists (of_vals vals i). split; [apply in_seq; specialize (Hd i ltac:(set_solver)); lia|].
      apply elem_of_list_In. apply IH; [intros j Hj; rewrite insert_length; apply Hlen; set_solver|].
      split_and!; [split| |done].
      * by rewrite insert_length.
      * intros j Hj. destruct (decide (j = i)) as [->|Hne].
        -- rewrite list_lookup_insert by (apply Hlen; set_solver). apply of_vals_lookup. rewrite Hl. apply Hlen. set_solver.
        -- rewrite list_lookup_insert_ne by done. apply Ha. set_solver.
      * intros j Hj. apply Hd. set_solver.
Qed.

(** increasing positions in the truth vector *)
Definition before (os : list nat) (x y : list nat) : Prop :=
  vec_index c os (of_vals x) < vec_index c os (of_vals y).

Lemma StronglySorted_app {A} (R : A -> A -> Prop) l1 l2 :
  StronglySorted R l1 -> StronglySorted R l2 -> (forall x y, x ∈ l1 -> y ∈ l2 -> R x y) -> StronglySorted R (l1 ++ l2).
Proof.
  induction 1 as [|x l1 H1 IH F1]; intros H2 Hx; simpl; [done|]. constructor.
  - apply IH; [done|]. intros. apply Hx; set_solver.
  - apply Forall_app. split; [done|]. apply Forall_forall. intros y Hy. apply Hx; set_solver.
Qed.

Lemma all_sols_sorted os : NoDup os -> forall vars F v, (forall i, i ∈ os -> i < length vars) ->
  StronglySorted (before os) (all_sols os vars F v).
Proof.
  induction 1 as [|i os Hi ND IH]; intros vars F v Hlen; cbn [all_sols].
  - destruct (Z.eqb _ _); repeat constructor.
  - assert (Hk : forall k x, x ∈ all_sols os (<[i:=k]> vars) F v ->
      of_vals x i = k /\ vec_index c os (of_vals x) < prodl c os).
    { intros k x Hx. apply all_sols_elem in Hx; [|done|intros j Hj; rewrite insert_length; apply Hlen; set_solver].
      destruct Hx as ([Hl Ha]&Hd&_). split; [|by apply vec_index_lt].
      pose proof (Ha i Hi) as E. rewrite list_lookup_insert in E by (apply Hlen; set_solver).
      unfold of_vals. by apply nth_lookup_Some. }
    generalize (dom c i) as d. intros d. generalize 0 as st. induction d as [|d IHd]; intros st; simpl; [constructor|].
    apply StronglySorted_app; [| |].
    + specialize (IH (<[i:=st]> vars) F v ltac:(intros j Hj; rewrite insert_length; apply Hlen; set_solver)).
      revert IH. generalize (fun x => Hk st x). generalize (all_sols os (<[i:=st]> vars) F v).
      intros l Hl IH. induction IH as [|x l IH IH' Fx]; constructor.
      * apply IH'. intros y Hy. apply Hl. set_solver.
      * apply Forall_forall. intros y Hy. rewrite Forall_forall in Fx. specialize (Fx y Hy).
        destruct (Hl x ltac:(set_solver)) as [Ex _]. destruct (Hl y ltac:(set_solver)) as [Ey _].
        unfold before in *. cbn [vec_index]. rewrite Ex, Ey. lia.
    + apply IHd.
    + intros x y Hx Hy. apply elem_of_list_In, in_flat_map in Hy as (k&Hkin&Hy). apply in_seq in Hkin.
      apply elem_of_list_In in Hy. destruct (Hk st x Hx) as [Ex Bx]. destruct (Hk k y Hy) as [Ey By].
      unfold before. cbn [vec_index]. rewrite Ex, Ey. nia.
Qed.

Lemma sorted_NoDup os l : StronglySorted (before os) l -> NoDup l.
Proof.
  induction 1 as [|x l H IH Fx]; constructor; [|done]. intros Hx. rewrite Forall_forall in Fx.
  specialize (Fx x Hx). unfold before in Fx. lia.
Qed.

Lemma all_sols_ext os : forall vars F G v,
  (forall i, i ∈ os -> i < length vars) ->
  (forall vals, length vals = length vars -> (forall j, j ∉ os -> vals !! j = vars !! j) ->
     (forall i, i ∈ os -> of_vals vals i < dom c i) -> F (of_vals vals) = G (of_vals vals)) ->
  all_sols os vars F v = all_sols os vars G v.
Proof.
  induction os as [|i os IH]; intros vars F G v Hlen H; cbn [all_sols].
  - rewrite (H vars); [done|done|done|set_solver].
  - rewrite !flat_map_concat_map. f_equal. apply map_ext_in. intros k Hk. apply in_seq in Hk. apply IH.
    + intros j Hj. rewrite insert_length. apply Hlen. set_solver.
    + intros vals Hl Ha Hd. rewrite insert_length in Hl. apply H; [done| |].
      * intros j Hj. apply not_elem_of_cons in Hj as [Hne Hj]. rewrite Ha by done. by apply list_lookup_insert_ne.
      * intros j Hj. destruct (decide (j ∈ os)) as [|Hn]; [auto|].
        assert (j = i) as -> by set_solver. pose proof (Ha i Hn) as E.
        rewrite list_lookup_insert in E by (apply Hlen; set_solver).
        rewrite (nth_lookup_Some _ _ 0 _ E : of_vals vals i = k). lia.
Qed.

(** the entries at the positions [os] do not matter *)
Lemma all_sols_vars os : forall vars vars' F v,
  (forall i, i ∈ os -> i < length vars) ->
  length vars' = length vars -> (forall j, j ∉ os -> vars' !! j = vars !! j) ->
  all_sols os vars' F v = all_sols os vars F v.
Proof.
  induction os as [|i os IH]; intros vars vars' F v Hlen Hl H; cbn [all_sols].
  - assert (vars' = vars) as -> by (apply list_eq; intros j; apply H, not_elem_of_nil). done.
  - rewrite !flat_map_concat_map. f_equal. apply map_ext_in. intros k Hk. apply IH.
    + intros j Hj. rewrite insert_length. apply Hlen. set_solver.
    + by rewrite !insert_length.
    + intros j Hj. destruct (decide (j = i)) as [->|Hne].
      * rewrite !list_lookup_insert by (rewrite ?Hl; apply Hlen; set_solver). done.
      * rewrite !list_lookup_insert_ne by done. apply H. set_solver.
Qed.

Lemma all_sols_none os : forall vars v w, v <> w -> all_sols os vars (fun _ => w) v = [].
Proof.
  intros vars v w Hne. revert vars. induction os as [|i os IH]; intros vars; cbn [all_sols].
  - destruct (Z.eqb_spec w v); [congruence|done].
  - rewrite flat_map_concat_map. induction (seq 0 (dom c i)) as [|k l IHl]; simpl; [done|]. by rewrite IH, IHl.
Qed.

(** ** Counting *)

Definition b2n (b : bool) : nat := if b then 1 else 0.

Fixpoint ways (os : list nat) (F : asg -> Z) (v : Z) (rho : asg) : nat :=
  match os with
  | [] => b2n (F rho =? v)%Z
  | i :: os => list_sum (map (fun k => ways os F v (upd rho i k)) (seq 0 (dom c i)))
  end.

(** F depends on the variables in [vs] only *)
Definition depends_on (vs : list nat) (F : asg -> Z) : Prop :=
  forall rho sigma, valid c rho -> valid c sigma -> (forall j, j ∈ vs -> rho j = sigma j) -> F rho = F sigma.

Lemma list_sum_ext {A} (f g : A -> nat) l : (forall x, In x l -> f x = g x) -> list_sum (map f l) = list_sum (map g l).
Proof. intros H. f_equal. by apply map_ext_in. Qed.

Lemma list_sum_const {A} (f : A -> nat) n l : (forall x, In x l -> f x = n) -> list_sum (map f l) = length l * n.
Proof.
  induction l as [|x l IH]; intros H; simpl; [done|]. rewrite (H x) by (by left). rewrite IH; [lia|]. intros; apply H; by right.
Qed.

Lemma list_sum_le {A} (f : A -> nat) n l : (forall x, In x l -> f x <= n) -> list_sum (map f l) <= length l * n.
Proof.
  induction l as [|x l IH]; intros H; simpl; [lia|]. pose proof (H x ltac:(by left)).
  specialize (IH ltac:(intros; apply H; by right)). lia.
Qed.

Lemma upd_valid rho i k : valid c rho -> k < dom c i -> valid c (upd rho i k).
Proof. intros Hv Hk j Hj. unfold upd. case_decide; [by subst|auto]. Qed.

(** the two functions agree where only the variables [os] are changed *)
Lemma ways_ext os : forall F G v rho sigma, valid c rho -> valid c sigma ->
  (forall tau tau', valid c tau -> valid c tau' -> (forall j, j ∉ os -> tau j = rho j) ->
    (forall j, j ∉ os -> tau' j = sigma j) -> (forall j, j ∈ os -> tau j = tau' j) -> F tau = G tau') ->
  ways os F v rho = ways os G v sigma.
Proof.
  induction os as [|i os IH]; intros F G v rho sigma Hr Hs H; cbn [ways].
  - rewrite (H rho sigma); try done. intros j Hj. by apply elem_of_nil in Hj.
  - apply list_sum_ext. intros k Hk. apply in_seq in Hk. apply IH; [apply upd_valid; [done|lia]..|].
    intros tau tau' Ht Ht' H1 H2 H3. apply H; try done.
    + intros j Hj. apply not_elem_of_cons in Hj as [Hne Hj]. rewrite H1 by done. by apply upd_other.
    + intros j Hj. apply not_elem_of_cons in Hj as [Hne Hj]. rewrite H2 by done. by apply upd_other.
    + intros j Hj. destruct (decide (j ∈ os)) as [|Hn]; [auto|]. assert (j = i) as -> by set_solver.
      rewrite H1, H2, !upd_same by done. done.
Qed.

Lemma ways_skip mid : forall rest F v rho, valid c rho -> depends_on rest F -> (forall i, i ∈ mid -> 1 <= dom c i) ->
  ways (mid ++ rest) F v rho = prodl c mid * ways rest F v rho.
Proof.
  induction mid as [|i mid IH]; intros rest F v rho Hr Hd H1; [cbn; lia|]. cbn [app ways prodl].
  rewrite (list_sum_const _ (prodl c mid * ways rest F v rho)); [rewrite seq_length; lia|].
  intros k Hk. apply in_seq in Hk. assert (Hv : valid c (upd rho i k)) by (apply upd_valid; [done|lia]).
  rewrite IH; [|done|done|intros; apply H1; set_solver]. f_equal. apply ways_ext; [done..|].
  intros tau tau' Ht Ht' _ _ H3. by apply Hd.
Qed.

Lemma ways_le os F v : forall rho, ways os F v rho <= prodl c os.
Proof.
  induction os as [|i os IH]; intros rho; cbn [ways prodl].
  - unfold b2n. destruct (_ =? _)%Z; lia.
  - etransitivity; [apply (list_sum_le _ (prodl c os))|]; [intros; apply IH|]. by rewrite seq_length.
Qed.

Lemma ways_sols os : forall vars F v, NoDup os -> vals_ok c vars -> (forall i, i ∈ os -> i < nvars c) ->
  depends_on (seq 0 (nvars c)) F -> length (all_sols os vars F v) = ways os F v (of_vals vars).
Proof.
  induction os as [|i os IH]; intros vars F v ND Hv Hlt Hdep; cbn [all_sols ways].
  - by destruct (_ =? _)%Z.
  - inversion ND as [|?? Hi ND']; subst. destruct Hv as [Hl Hv].
    assert (Hi' : i < nvars c) by (apply Hlt; set_solver).
    assert (H : forall l, (forall k, In k l -> k < dom c i) ->
      length (flat_map (fun k => all_sols os (<[i:=k]> vars) F v) l)
      = list_sum (map (fun k => ways os F v (upd (of_vals vars) i k)) l)).
    { induction l as [|k l IHl]; intros Hk; simpl; [done|]. rewrite app_length, IHl by (intros; apply Hk; by right). f_equal.
      specialize (Hk k ltac:(by left)). rewrite IH; [|done| |intros; apply Hlt; set_solver|done].
      - apply ways_ext; [|by apply upd_valid|].
        + intros j Hj. unfold of_vals. rewrite nth_insert by lia. case_decide; [by subst|]. by apply Hv.
        + intros tau tau' Ht Ht' H1 H2 H3. apply Hdep; [done..|]. intros j Hj. destruct (decide (j ∈ os)); [auto|].
          rewrite H1, H2 by done. unfold of_vals, upd. rewrite nth_insert by lia. done.
      - split; [by rewrite insert_length|]. intros j Hj. unfold of_vals. rewrite nth_insert by lia.
        case_decide; [by subst|]. by apply Hv. }
    apply H. intros k Hk. apply in_seq in Hk. lia.
Qed.

Lemma of_vals_ext vals vals' : length vals = length vals' -> (forall i, i < length vals -> of_vals vals i = of_vals vals' i) -> vals = vals'.
Proof.
  intros Hl H. apply list_eq. intros i. destruct (decide (i < length vals)) as [Hi|Hi].
  - rewrite !of_vals_lookup by lia. f_equal. by apply H.
  - rewrite !lookup_ge_None_2 by lia. done.
Qed.

(** all lists of solutions have the same length *)
Lemma all_solutions_length F v l l' : all_solutions F v l -> all_solutions F v l' -> length l = length l'.
Proof.
  intros [N1 E1] [N2 E2]. apply Permutation_length. apply NoDup_Permutation; [done..|].
  intros x. rewrite E1, E2. done.
Qed.

Lemma all_sols_all order F v : NoDup order -> (forall i, i ∈ order <-> i < nvars c) ->
  all_solutions F v (all_sols order (replicate (nvars c) 0) F v) /\
  StronglySorted (before order) (all_sols order (replicate (nvars c) 0) F v).
Proof.
  intros ND He. assert (Hl : forall i, i ∈ order -> i < length (replicate (nvars c) 0)) by (intros i; rewrite replicate_length; apply He).
  pose proof (all_sols_sorted order ND (replicate (nvars c) 0) F v Hl) as HS. split; [|done]. split; [by eapply sorted_NoDup|].
  intros vals. rewrite all_sols_elem by done. unfold solution, vals_ok, agree_off, valid. rewrite replicate_length. split.
  - intros ([H1 _]&H2&H3). split; [split; [done|]|done]. intros i Hi. by apply H2, He.
  - intros ([H1 H2]&H3). split_and!; [done| | |done].
    + intros j Hj. rewrite !lookup_ge_None_2; [done|rewrite replicate_length|].
      all: apply Nat.nlt_ge; intros Hlt; apply Hj, He; lia.
    + intros i Hi. by apply H2, He.
Qed.

End spec.
