(** * satisfy_one and satisfy_all into arrays *)

From stdpp Require Import gmap list.
From Coq Require Import ZArith Lia Sorted.
From Verif Require Import Base Ops Tables NodeManager Tools Sift DiagramManager World Queries Arrays.
From Verif Require Import Heap Inv InvLemmas Prim GC Make Build Apply Api Constr Expr VecSpec Vec Eval Fold.
From Verif Require Import OpSpec OpProof WorldSpec WorldProof Ctor History PropsBase Chain PropsBase2 PropsCore Examples.
From Verif Require Import Trav QuerySpec QueryProof PropsQuery.

Local Open Scope nat_scope.
Local Opaque exec run new_manager.

(** ** The assignments made do not depend on the content *)

Definition write (l : list nat) (w : nat * nat) : list nat := <[fst w := snd w]> l.
Definition writes (ws : list (nat * nat)) (l : list nat) : list nat := foldl write l ws.

Lemma writes_length ws : forall l, length (writes ws l) = length l.
Proof. induction ws as [|w ws IH]; intros l; simpl; [done|]. rewrite IH. unfold write. by rewrite insert_length. Qed.
Lemma writes_app ws ws' l : writes (ws ++ ws') l = writes ws' (writes ws l).
Proof. unfold writes. by rewrite foldl_app. Qed.
Lemma writes_other ws x : forall l, x ∉ map fst ws -> writes ws l !! x = l !! x.
Proof.
  induction ws as [|[i k] ws IH]; intros l Hx; simpl in *; [done|]. rewrite IH by set_solver. unfold write. simpl.
  apply list_lookup_insert_ne. set_solver.
Qed.
Lemma writes_same ws x : forall l l', length l = length l' -> x ∈ map fst ws -> writes ws l !! x = writes ws l' !! x.
Proof.
  induction ws as [|[i k] ws IH]; intros l l' HL Hx; simpl in *; [by apply elem_of_nil in Hx|].
  destruct (decide (x ∈ map fst ws)) as [Hin|Hni].
  - apply IH; [unfold write; by rewrite !insert_length|done].
  - apply elem_of_cons in Hx as [->|?]; [|done]. rewrite !writes_other by done. unfold write. simpl.
    destruct (decide (i < length l)); [by rewrite !list_lookup_insert by lia|].
    rewrite !list_insert_ge by lia. by rewrite !lookup_ge_None_2 by lia.
Qed.

Section arrays.
Context (c : cfg) (opsem : Z -> option (Z -> Z -> Z)) (strict : bool) (g : ghost) (s : st) (Hc : wf_cfg c) (C : calm c opsem strict g s).
Context (v : Z).
Notation held := (held g (s_heap s)).
Notation rk := (rank c g (s_heap s)).
Notation order := (s_l2i s).

Lemma one_writes fuel : forall a, held a -> nvars c - rk a < fuel ->
  exists ws b, forall l, nvars c <= length l -> satisfy_one_impl fuel v l a s = Ok (writes ws l, b) s.
Proof.
  induction fuel as [|fuel IH]; intros a Ha Hf; [lia|]. cbn [satisfy_one_impl].
  destruct (getn_s c opsem strict g s C a Ha) as (n&G&E). destruct (n_body n) as [w|i sons] eqn:Bn.
  - exists [], (w =? v)%Z. intros l Hl. rewrite (bind_ok _ _ _ _ _ G), Bn. done.
  - destruct (int_facts c opsem strict g s C a i sons Ha E) as (Hi&_&_&_&Hs).
    assert (X : forall rest k, (forall b, b ∈ rest -> b ∈ sons) -> exists ws b, forall l, nvars c <= length l ->
      first_son (satisfy_one_impl fuel v) i l k rest s = Ok (writes ws l, b) s).
    { induction rest as [|b rest IHr]; intros k Hsub.
      - exists [], false. done.
      - destruct (Hs b) as [Hb Hbr]; [apply Hsub; set_solver|]. destruct (IH b Hb ltac:(lia)) as (ws&r&Hw).
        destruct (IHr (S k) ltac:(intros y Hy; apply Hsub; set_solver)) as (ws'&r'&Hw').
        exists ((i, k) :: ws ++ (if r then [] else ws')), (if r then true else r'). intros l Hl. cbn [first_son].
        destruct (lookup_lt_is_Some_2 l i) as [z Hz]; [lia|]. rewrite Hz, (bind_ok _ _ _ z s) by done.
        assert (Hl' : nvars c <= length (<[i:=k]> l)) by (by rewrite insert_length).
        rewrite (bind_ok _ _ _ _ _ (Hw (<[i := k]> l) Hl')). cbn [snd fst].
        change (writes ((i, k) :: ws ++ (if r then [] else ws')) l) with (writes (ws ++ (if r then [] else ws')) (<[i := k]> l)).
        rewrite writes_app. destruct r; [done|]. apply Hw'. by rewrite writes_length. }
    destruct (X sons 0 (fun b Hb => Hb)) as (ws&b&Hw). exists ws, b. intros l Hl.
    rewrite (bind_ok _ _ _ _ _ G), Bn. by apply Hw.
Qed.

(** contents that agree on the variables of the levels before [level] *)
Definition agree (level : nat) (l l' : list nat) : Prop :=
  length l = nvars c /\ length l' = nvars c /\ forall x, x ∈ take level order -> l !! x = l' !! x.

Lemma agree_all l l' : agree (nvars c) l l' -> l = l'.
Proof.
  intros (H1&H2&H3). apply list_eq. intros x. destruct (decide (x < nvars c)); [|by rewrite !lookup_ge_None_2 by lia].
  apply H3. rewrite firstn_all2; [|rewrite (pm_l2i c s); [done|apply C]]. by apply (order_elem c opsem strict g s C).
Qed.
Lemma agree_write level i k l l' : order !! level = Some i -> agree level l l' -> agree (S level) (<[i := k]> l) (<[i := k]> l').
Proof.
  intros Ho (H1&H2&H3). split; [by rewrite insert_length|]. split; [by rewrite insert_length|]. intros x Hx.
  assert (Hi : i < nvars c) by (apply (order_elem c opsem strict g s C); by eapply elem_of_list_lookup_2).
  destruct (decide (x = i)) as [->|Hne]; [by rewrite !list_lookup_insert by lia|].
  rewrite !list_lookup_insert_ne by done. apply H3. rewrite (take_S_r _ _ _ Ho) in Hx. set_solver.
Qed.
Lemma agree_mono level l l' : agree (S level) l l' -> agree level l l'.
Proof.
  intros (H1&H2&H3). split; [done|]. split; [done|]. intros x Hx. apply H3.
  apply elem_of_take in Hx as (j&Hj&?). apply elem_of_take. exists j. split; [done|lia].
Qed.

Lemma all_same fuel : forall level l l' out a w out' t, agree level l l' -> level <= nvars c -> held a -> level <= rk a ->
  satisfy_all_impl c fuel v level (l, out) a s = Ok (w, out') t ->
  t = s /\ exists w', satisfy_all_impl c fuel v level (l', out) a s = Ok (w', out') s /\ agree level w w'.
Proof.
  induction fuel as [|fuel IH]; intros level l l' out a w out' t Hag Hlv Ha Hrk E; [done|]. cbn [satisfy_all_impl] in *.
  destruct (getn_s c opsem strict g s C a Ha) as (n&G&La). rewrite (bind_ok _ _ _ _ _ G) in E. rewrite (bind_ok _ _ _ _ _ G).
  assert (X : forall i rest k l l' out w out' t, order !! level = Some i -> agree level l l' ->
    (forall b, b ∈ rest -> held b /\ S level <= rk b) -> S level <= nvars c ->
    all_loop (satisfy_all_impl c fuel v (S level)) i (l, out) k rest s = Ok (w, out') t ->
    t = s /\ exists w', all_loop (satisfy_all_impl c fuel v (S level)) i (l', out) k rest s = Ok (w', out') s /\ agree level w w').
  { intros i rest. induction rest as [|b rest IHr]; intros k m m' o w0 o' t0 Hoi Hm Hh Hle E0; cbn [all_loop] in *.
    - injection E0 as <- <- <-. split; [done|]. by exists m'.
    - assert (Hi : i < nvars c) by (apply (order_elem c opsem strict g s C); by eapply elem_of_list_lookup_2).
      destruct Hm as (M1&M2&M3). assert (Hm : agree level m m') by done. cbn [fst snd] in *.
      destruct (lookup_lt_is_Some_2 m i) as [z Hz]; [lia|]. destruct (lookup_lt_is_Some_2 m' i) as [z' Hz']; [lia|].
      rewrite Hz in E0. rewrite (bind_ok _ _ _ z s) in E0 by done. rewrite Hz'. rewrite (bind_ok _ _ _ z' s) by done.
      unfold bind in E0. destruct (satisfy_all_impl c fuel v (S level) (<[i:=k]> m, o) b s) as [[m1 o1] t1| |] eqn:E1; [|done|done].
      destruct (Hh b ltac:(set_solver)) as [Hb Hbr].
      destruct (IH (S level) _ (<[i:=k]> m') o b m1 o1 t1 (agree_write level i k m m' Hoi Hm) Hle Hb Hbr E1) as (->&m1'&E1'&Hm1).
      rewrite (bind_ok _ _ _ _ _ E1'). apply (IHr (S k) m1 m1' o1 w0 o' t0 Hoi); [by apply agree_mono|intros y Hy; apply Hh; set_solver|done|done]. }
  assert (Hoi : level <> nvars c -> exists i, order !! level = Some i /\ i < nvars c).
  { intros Hne. apply (perm_l2i_ex c s level); [apply C|lia]. }
  destruct (n_body n) as [z|i sons] eqn:Bn.
  - destruct (negb (z =? v)%Z); [injection E as <- <- <-; split; [done|by exists l']|].
    destruct (Nat.eqb_spec level (nvars c)) as [->|Hne].
    + injection E as <- <- <-. split; [done|]. exists l'. cbn [fst snd]. rewrite (agree_all _ _ Hag). split; [done|].
      destruct Hag as (H1&H2&_). split; [done|]. by split.
    + destruct (Hoi Hne) as (j&Hj&Hjn). rewrite (bind_ok _ _ _ j s) in E by (unfold index_at; by rewrite Hj). rewrite (bind_ok _ _ _ j s) by (unfold index_at; by rewrite Hj).
      rewrite (dom_lookup c j Hjn) in E. rewrite (dom_lookup c j Hjn). rewrite (bind_ok _ _ _ (dom c j) s) in E by done. rewrite (bind_ok _ _ _ (dom c j) s) by done.
      apply (X j (replicate (dom c j) a) 0 l l' out w out' t Hj Hag); [|lia|done].
      intros b Hb. apply elem_of_replicate in Hb as [-> _]. split; [done|].
      rewrite (rank_term c g _ _ z); [lia|apply C|done].
  - destruct (int_facts c opsem strict g s C a i sons Ha La) as (Hi&_&Hr&Hor&Hs).
    destruct (Nat.eqb_spec level (nvars c)) as [->|Hne]; [lia|].
    pose proof (level_s c opsem strict g s C a Ha) as Hlev. rewrite (bind_ok _ _ _ _ _ Hlev) in E. rewrite (bind_ok _ _ _ _ _ Hlev).
    destruct (Nat.ltb_spec level (rk a)) as [Hlt|Hge].
    + destruct (Hoi Hne) as (j&Hj&Hjn). rewrite (bind_ok _ _ _ j s) in E by (unfold index_at; by rewrite Hj). rewrite (bind_ok _ _ _ j s) by (unfold index_at; by rewrite Hj).
      rewrite (dom_lookup c j Hjn) in E. rewrite (dom_lookup c j Hjn). rewrite (bind_ok _ _ _ (dom c j) s) in E by done. rewrite (bind_ok _ _ _ (dom c j) s) by done.
      apply (X j (replicate (dom c j) a) 0 l l' out w out' t Hj Hag); [|lia|done].
      intros b Hb. apply elem_of_replicate in Hb as [-> _]. split; [done|lia].
    + assert (level = rk a) as -> by lia.
      apply (X i sons 0 l l' out w out' t Hor Hag); [|lia|done].
      intros b Hb. destruct (Hs b Hb) as [Hbh ?]. split; [done|lia].
Qed.
End arrays.

(** ** Writing through an iterator that nobody advances *)

Definition put (p : nat) (buffer : list (list nat)) (out : list (list nat)) : list (list nat) :=
  foldl (fun b x => <[p := x]> b) buffer out.

Lemma put_length p out : forall buffer, length (put p buffer out) = length buffer.
Proof. induction out as [|x out IH]; intros b; simpl; [done|]. by rewrite IH, insert_length. Qed.
Lemma put_last p out : forall buffer, p < length buffer ->
  put p buffer out = match last out with Some x => <[p := x]> buffer | None => buffer end.
Proof.
  induction out as [|x out IH]; intros b Hp; simpl; [done|].
  change (put p (<[p := x]> b) out = match last (x :: out) with Some x => <[p:=x]> b | None => b end).
  rewrite IH by (by rewrite insert_length). destruct out as [|y out]; [done|].
  change (last (x :: y :: out)) with (last (y :: out)). destruct (last (y :: out)) eqn:E.
  - by rewrite list_insert_insert.
  - by apply last_None in E.
Qed.

Lemma buffer_sim c v p buffer fuel : p < length buffer -> forall level l out a s w out' t,
  satisfy_all_impl c fuel v level (l, out) a s = Ok (w, out') t ->
  satisfy_all_buffer c fuel v p level (l, put p buffer out) a s = Ok (w, put p buffer out') t.
Proof.
  intros Hp. induction fuel as [|fuel IH]; intros level l out a s w out' t E; [done|].
  assert (X : forall i rest k l out s w out' t,
    all_loop (satisfy_all_impl c fuel v (S level)) i (l, out) k rest s = Ok (w, out') t ->
    all_loop (satisfy_all_buffer c fuel v p (S level)) i (l, put p buffer out) k rest s = Ok (w, put p buffer out') t).
  { intros i rest. induction rest as [|b rest IHr]; intros k m o s0 w0 o' t0 E0; cbn [all_loop] in *.
    - injection E0 as <- <- <-. done.
    - cbn [fst snd] in *. unfold bind in *. destruct (of_opt EOob (m !! i) s0) as [z s1| |]; [|done|done].
      destruct (satisfy_all_impl c fuel v (S level) (<[i:=k]> m, o) b s1) as [[m1 o1] t1| |] eqn:E1; [|done|done].
      rewrite (IH _ _ _ _ _ _ _ _ E1). by apply IHr. }
  cbn [satisfy_all_impl satisfy_all_buffer] in *. unfold bind in *. destruct (getn a s) as [n s1| |]; [|done|done].
  destruct (n_body n) as [z|i sons].
  - destruct (negb (z =? v)%Z); [by injection E as <- <- <-|]. destruct (level =? nvars c).
    + injection E as <- <- <-. cbn [fst snd]. destruct (lookup_lt_is_Some_2 (put p buffer out) p) as [y Hy]; [by rewrite put_length|].
      rewrite Hy. simpl. unfold put. by rewrite foldl_app.
    + destruct (index_at level s1) as [j s2| |]; [|done|done]. destruct (of_opt EOob (c_doms c !! j) s2) as [d s3| |]; [|done|done].
      by apply X.
  - destruct (level =? nvars c); [done|]. destruct (get_level c a s1) as [lv s2| |]; [|done|done]. destruct (level <? lv); [|by apply X].
    destruct (index_at level s2) as [j s3| |]; [|done|done]. destruct (of_opt EOob (c_doms c !! j) s3) as [d s4| |]; [|done|done].
    by apply X.
Qed.

Lemma ok_val {A} (x y : A) (s t : st) : Ok x s = Ok y t -> x = y.
Proof. intros E. by injection E. Qed.

(** ** C10 with arrays *)

(** [W] are the variables that satisfy_one assigned. The other elements keep
    the content the array had, whatever it was, and every assignment with the
    values found for [W] is a solution. *)
Theorem C10_array : forall c strict opsem args ks s vars A x F v,
  wf_cfg c -> history c opsem strict args ks s vars A -> ab A !! x = Some F -> value_ok c v ->
  exists a (W : list nat), vars !! x = Some a /\ (forall i, i ∈ W -> i < nvars c) /\
  forall content, length content = nvars c -> exists r, satisfy_one_array c content v a s = Ok r s /\
    match r with
    | Some vals => length vals = nvars c /\ (forall i, i ∉ W -> vals !! i = content !! i) /\
        (forall i, i ∈ W -> exists k, vals !! i = Some k /\ k < dom c i) /\
        (forall sol, vals_ok c sol -> (forall i, i ∈ W -> sol !! i = vals !! i) -> F (of_vals sol) = v)
    | None => forall vals, ~ solution c F v vals
    end.
Proof.
  intros c strict opsem args ks s vars A x F v Hc H HF Hv.
  destruct (history_query _ _ _ _ _ _ _ _ _ _ Hc H HF) as (g&a&Ha&C&Hh&EF&_).
  destruct (one_writes c opsem strict g s Hc C v (depth c) a Hh) as (ws&b&Hw); [unfold depth; lia|].
  assert (Hok : forall l, vals_ok c l -> vals_ok c (writes ws l) /\
    if b then nval c s a (of_vals (writes ws l)) = v else forall rho, valid c rho -> nval c s a rho <> v).
  { intros l Hl. destruct (satisfy_one_impl_ok c opsem strict g s Hc C v (depth c) l a Hh) as (l'&b'&E&H1&_&H2); [unfold depth; lia|done|].
    rewrite Hw in E by (destruct Hl as [-> _]; lia). injection E as <- <-. split; [exact H1|exact H2]. }
  assert (HW : forall i, i ∈ map fst ws -> i < nvars c -> forall l, length l = nvars c -> exists k, writes ws l !! i = Some k /\ k < dom c i).
  { intros i Hi Hin l Hl. destruct (Hok (replicate (nvars c) 0) (zeros_ok c Hc)) as [[L1 L2] _].
    destruct (lookup_lt_is_Some_2 (writes ws (replicate (nvars c) 0)) i) as [k Hk]; [lia|]. exists k. split.
    - rewrite <- Hk. apply writes_same; [by rewrite replicate_length|done].
    - specialize (L2 i Hin). unfold of_vals in L2. by rewrite (nth_lookup_Some _ _ _ _ Hk) in L2. }
  exists a, (filter (fun i => i < nvars c) (map fst ws)). split; [done|]. split; [intros i Hi; by apply elem_of_list_filter in Hi as [? _]|].
  intros content Hl. exists (if b then Some (writes ws content) else None). split.
  { unfold satisfy_one_array. rewrite (bind_ok _ _ _ _ _ (value_check_ok c v s Hv)), (bind_ok _ _ _ _ _ (Hw content ltac:(lia))). by destruct b. }
  destruct b.
  - split; [by rewrite writes_length|]. split; [|split].
    + intros i Hi. destruct (decide (i < nvars c)) as [Hin|Hni]; [|by rewrite !lookup_ge_None_2 by (rewrite ?writes_length; lia)].
      apply writes_other. intros Hi'. apply Hi. by apply elem_of_list_filter.
    + intros i Hi. apply elem_of_list_filter in Hi as [Hin Hi]. by apply HW.
    + intros sol Hsol Hag. assert (writes ws sol = sol) as E.
      { apply list_eq. intros i. destruct (decide (i < nvars c)) as [Hin|Hni]; [|by rewrite !lookup_ge_None_2 by (rewrite ?writes_length, (proj1 Hsol); lia)].
        destruct (decide (i ∈ map fst ws)) as [Hi|Hi]; [|by apply writes_other].
        rewrite (Hag i) by (by apply elem_of_list_filter). apply writes_same; [rewrite (proj1 Hsol); lia|done]. }
      destruct (Hok sol Hsol) as [_ Hs]. rewrite E in Hs. rewrite EF; [done|apply Hsol].
  - intros vals [Hvals HE]. destruct (Hok vals Hvals) as [_ Hn]. apply (Hn (of_vals vals)); [apply Hvals|].
    rewrite <- EF; [done|apply Hvals].
Qed.

(** x0 AND x2 with a third variable: its element is what was there, so the
    array returned need not be an assignment at all *)
Theorem C10_array_refuted : exists c opsem args ks s vars A x F a,
  wf_cfg c /\ history c opsem true args ks s vars A /\ ab A !! x = Some F /\ vars !! x = Some a /\ value_ok c 1 /\
  (exists vals, solution c F 1 vals) /\
  forall junk, exists vals, satisfy_one_array c (replicate (nvars c) junk) 1 a s = Ok (Some vals) s /\
    vals = [1; junk; 1] /\ (3 <= junk -> ~ vals_ok c vals).
Proof.
  exists ex_cfg, ex_ops, ex_args, ex_prog, ex_st, ex_vars, ex_abs, 5, exF5.
  destruct (history_query _ _ _ _ _ _ _ _ _ _ ex_wf ex_history (eq_refl : ab ex_abs !! 5 = Some exF5)) as (g&a&Ha&_). exists a.
  split; [apply ex_wf|]. split; [apply ex_history|]. split; [done|]. split; [done|]. split; [done|]. split.
  - destruct C11_case as (_&_&_&[_ HS]). exists [1; 0; 1]. apply HS. apply elem_of_list_here.
  - intros junk. destruct (C10_array ex_cfg true ex_ops ex_args ex_prog ex_st ex_vars ex_abs 5 exF5 1 ex_wf ex_history eq_refl I)
      as (a'&W&Ha'&HW&X). rewrite Ha in Ha'. injection Ha' as <-.
    destruct (X (replicate (nvars ex_cfg) junk)) as (r&E&Hr); [by rewrite replicate_length|].
    assert (Y : match ex_vars !! 5 with Some a => match satisfy_one_array ex_cfg (replicate (nvars ex_cfg) junk) 1 a ex_st with
      Ok r _ => r | _ => None end | None => None end = Some [1; junk; 1]) by (by vm_compute).
    rewrite Ha, E in Y. rewrite Y in E. eexists. split; [exact E|]. split; [done|]. intros Hj [_ HV]. specialize (HV 1 ltac:(vm_compute; lia)).
    unfold of_vals in HV. vm_compute in HV. lia.
Qed.

(** ** C11 with arrays: every element is assigned before a solution is written *)
Theorem C11_array : forall c strict opsem args ks s vars A x F v content,
  wf_cfg c -> history c opsem strict args ks s vars A -> ab A !! x = Some F -> value_ok c v -> length content = nvars c ->
  exists a sols, vars !! x = Some a /\ satisfy_all_array c content v a s = Ok sols s /\
    all_solutions c F v sols /\ StronglySorted (before c (ab_order A)) sols.
Proof.
  intros c strict opsem args ks s vars A x F v content Hc H HF Hv Hl.
  destruct (C11_satisfy_all _ _ _ _ _ _ _ _ _ _ _ Hc H HF Hv) as (a&sols&Ha&E&HS&HO).
  destruct (history_query _ _ _ _ _ _ _ _ _ _ Hc H HF) as (g&a'&Ha'&C&Hh&_). rewrite Ha in Ha'. injection Ha' as <-.
  exists a, sols. split; [done|]. split; [|done]. unfold satisfy_all, satisfy_all_array in *.
  rewrite (bind_ok _ _ _ _ _ (value_check_ok c v s Hv)) in E. rewrite (bind_ok _ _ _ _ _ (value_check_ok c v s Hv)).
  unfold bind in E. destruct (satisfy_all_impl c (depth c) v 0 (replicate (nvars c) 0, []) a s) as [[w out] t| |] eqn:E1; [|done|done].
  injection E as <- ->. destruct (all_same c opsem strict g s Hc C v (depth c) 0 (replicate (nvars c) 0) content [] a w out s) as (_&w'&E2&_);
    [|lia|done|lia|done|].
  - split; [by rewrite replicate_length|]. split; [done|]. intros i Hi. by apply elem_of_nil in Hi.
  - by rewrite (bind_ok _ _ _ _ _ E2).
Qed.

Example C11_array_case : exists a, ex_vars !! 6 = Some a /\
  satisfy_all_array ex_cfg [7; 9; 8] 2 a ex_st = Ok [[0; 2; 0]; [1; 2; 0]; [0; 2; 1]] ex_st.
Proof.
  destruct (C11_array ex_cfg true ex_ops ex_args ex_prog ex_st ex_vars ex_abs 6 exF6 2 [7; 9; 8] ex_wf ex_history eq_refl I eq_refl)
    as (a&sols&Ha&E&_).
  assert (X : match ex_vars !! 6 with Some a => match satisfy_all_array ex_cfg [7; 9; 8] 2 a ex_st with
    Ok l _ => bool_decide (l = [[0; 2; 0]; [1; 2; 0]; [0; 2; 1]]) | _ => false end | None => false end = true) by (by vm_compute).
  rewrite Ha, E in X. apply bool_decide_eq_true in X. exists a. split; [done|]. by rewrite <- X.
Qed.

(** ** C11 with iterators: only the last solution is left in the first place *)
Theorem C11_iterator : forall c strict opsem args ks s vars A x F v buffer,
  wf_cfg c -> history c opsem strict args ks s vars A -> ab A !! x = Some F -> value_ok c v -> 0 < length buffer ->
  exists a sols, vars !! x = Some a /\ all_solutions c F v sols /\ StronglySorted (before c (ab_order A)) sols /\
    satisfy_all_g c buffer v a s = Ok (match last sols with Some l => <[0 := l]> buffer | None => buffer end) s.
Proof.
  intros c strict opsem args ks s vars A x F v buffer Hc H HF Hv Hb.
  destruct (C11_satisfy_all _ _ _ _ _ _ _ _ _ _ _ Hc H HF Hv) as (a&sols&Ha&E&HS&HO). exists a, sols. split; [done|]. split; [done|]. split; [done|].
  unfold satisfy_all, satisfy_all_g in *.
  rewrite (bind_ok _ _ _ _ _ (value_check_ok c v s Hv)) in E. rewrite (bind_ok _ _ _ _ _ (value_check_ok c v s Hv)).
  unfold bind in E. destruct (satisfy_all_impl c (depth c) v 0 (replicate (nvars c) 0, []) a s) as [[w out] t| |] eqn:E1; [|done|done].
  injection E as <- ->. pose proof (buffer_sim c v 0 buffer (depth c) Hb _ _ _ _ _ _ _ _ E1) as E2.
  change (put 0 buffer []) with buffer in E2. rewrite (bind_ok _ _ _ _ _ E2). cbn [snd]. by rewrite put_last.
Qed.

(** three solutions, a buffer of three elements, one solution in it *)
Theorem C11_iterator_refuted : exists c opsem args ks s vars A x F v a sols buffer,
  wf_cfg c /\ history c opsem true args ks s vars A /\ ab A !! x = Some F /\ vars !! x = Some a /\ value_ok c v /\
  all_solutions c F v sols /\ length buffer = length sols /\
  exists buffer', satisfy_all_g c buffer v a s = Ok buffer' s /\ ~ all_solutions c F v buffer'.
Proof.
  destruct (C11_iterator ex_cfg true ex_ops ex_args ex_prog ex_st ex_vars ex_abs 6 exF6 2 [[]; []; []] ex_wf ex_history eq_refl I ltac:(simpl; lia))
    as (a&sols&Ha&HS&HO&E). destruct C11_order_case as (a'&Ha'&E'&_). rewrite Ha in Ha'. injection Ha' as <-.
  exists ex_cfg, ex_ops, ex_args, ex_prog, ex_st, ex_vars, ex_abs, 6, exF6, 2%Z, a, [[0; 2; 0]; [1; 2; 0]; [0; 2; 1]], [[]; []; []].
  split; [apply ex_wf|]. split; [apply ex_history|]. split; [done|]. split; [done|]. split; [done|]. split.
  { destruct (C11_satisfy_all ex_cfg true ex_ops ex_args ex_prog ex_st ex_vars ex_abs 6 exF6 2 ex_wf ex_history eq_refl I)
      as (a1&l&Ha1&E1&HS1&_). rewrite Ha in Ha1. injection Ha1 as <-. rewrite E' in E1. apply ok_val in E1 as <-. exact HS1. }
  split; [done|]. eexists. split; [exact E|]. intros [ND _]. destruct (last sols) as [l|]; simpl in ND.
  - apply NoDup_cons in ND as [_ ND]. apply NoDup_cons in ND as [Hn _]. apply Hn. apply elem_of_list_here.
  - apply NoDup_cons in ND as [Hn _]. apply Hn. apply elem_of_list_here.
Qed.

Print Assumptions C10_array.
Print Assumptions C10_array_refuted.
Print Assumptions C11_array.
Print Assumptions C11_iterator.
Print Assumptions C11_iterator_refuted.
