(** * Operations that leave no garbage: what becomes live is part of the result

    The constructions that return one diagram (constant, variable, variable_not,
    from_vector, apply, transform, get_cofactor, dpld, to_dpld_e) make only nodes
    that the diagram they return is made of.  The sums of [Build] carry this fact;
    here it is taken to the interface and to the calls of client programs. *)

From stdpp Require Import gmap list.
From Coq Require Import ZArith Lia.
From Verif Require Import Base Ops Tables NodeManager Tools Sift DiagramManager Reliability World.
From Verif Require Import Heap Inv InvLemmas Prim TabLemmas GC Make Build Apply Api Constr Expr VecSpec Vec Fold.
From Verif Require Import Eval DpldProof QuerySpec QueryProof Minimal WorldSpec WorldProof.

Local Open Scope nat_scope.

(** the calls that construct one diagram, and the object that receives it *)
Definition built (k : call) : option nat :=
  match k with
  | CConst d _ | CVar d _ | CVarNot d _ | CVec d _ | CApply d _ _ _ | CTransform d _ _
  | CCofactor d _ _ _ | CCofactors d _ _ | CCopy d _ | CDpld d _ _ _ | CExtend d _ _ _ => Some d
  | _ => None
  end.

Lemma dec_ref_live a s u s' : dec_ref a s = Ok u s' ->
  (forall x, live (s_heap s') x = live (s_heap s) x) /\ s_count s' = s_count s /\ s_pool s' = s_pool s /\ s_gcthr s' = s_gcthr s.
Proof.
  unfold dec_ref, bind, getn. destruct (s_heap s !! a) as [n|] eqn:E; [|done]. destruct (n_used n) eqn:U; [|done].
  destruct (n_refs n =? 0)%N; [done|]. unfold modify. intros [= <- <-]. split; [|done]. intros x. simpl. rewrite live_insert. simpl. rewrite U.
  destruct (decide (x = a)) as [->|]; [|done]. unfold live. by rewrite E, U.
Qed.

Lemma put_live vars d a s vars' s' : put vars d a s = Ok vars' s' ->
  vars' = <[d := a]> vars /\ (forall x, live (s_heap s') x = live (s_heap s) x) /\ s_count s' = s_count s /\ s_pool s' = s_pool s /\ s_gcthr s' = s_gcthr s.
Proof.
  unfold put, bind, drop_handle. destruct (vars !! d) as [b|].
  - destruct (diagram_destroy b s) as [u s1| |] eqn:E; [|done|done]. intros [= <- <-].
    split; [done|]. by eapply dec_ref_live.
  - intros [= <- <-]. done.
Qed.

Lemma kept_reach_inv g h h' a b : (forall x, held g h x -> live h' x = live h x) -> held g h a ->
  reach (live h') a b -> reach (live h) a b /\ held g h b.
Proof.
  intros K Ha H. induction H as [a|a b d i sons La Hb H IH]; [split; [constructor|done]|].
  rewrite (K a Ha) in La. destruct IH as [IH1 IH2]; [by eapply held_son|]. split; [|done]. econstructor; eauto.
Qed.

Lemma kept_reach g h h' a b : (forall x, held g h x -> live h' x = live h x) -> held g h a ->
  reach (live h) a b -> reach (live h') a b.
Proof.
  intros K Ha H. induction H as [a|a b d i sons La Hb H IH]; [constructor|].
  econstructor; [by rewrite (K a Ha)|exact Hb|]. apply IH. by eapply held_son.
Qed.

(** the pool has grown only when a collection had left almost all cells to nodes in [R] *)
Definition pool_grown (s s' : st) (R : positive -> Prop) : Prop :=
  p_extra (s_pool s') = p_extra (s_pool s) /\ s_gcthr s' = s_gcthr s /\
  (cells s' = cells s \/
   exists m l, cells s' = (m + p_extra (s_pool s))%Z /\ NoDup l /\ (forall a, a ∈ l -> R a) /\
     (m - s_gcthr s m < Z.of_nat (length l))%Z).

Lemma pool_grown_impl s s' s2 (R R2 : positive -> Prop) : pool_grown s s' R -> s_count s2 = s_count s' -> s_pool s2 = s_pool s' ->
  s_gcthr s2 = s_gcthr s' -> (forall a, R a -> R2 a) -> pool_grown s s2 R2.
Proof.
  intros (X&Y&H) E1 E2 E3 HR. unfold pool_grown, cells. rewrite E1, E2, E3. split; [done|]. split; [done|]. destruct H as [H|(m&l&C&N&L&T)]; [by left|].
  right. exists m, l. split_and!; auto.
Qed.

Section nogarbage.
Context (c : cfg) (opsem : Z -> option (Z -> Z -> Z)) (strict : bool).
Notation calm := (calm c opsem strict).
Notation bstep := (bstep c opsem strict).
Notation allowed := (allowed strict).
Notation winv := (winv c opsem strict).

(** nodes that were held are as before, the other ones belong to [r] or were there *)
Record nnew (g : ghost) (s : st) (r : positive) (s' : st) : Prop := {
  nn_keep : forall a, held g (s_heap s) a -> live (s_heap s') a = live (s_heap s) a;
  nn_new : forall d x, live (s_heap s') d = Some x ->
    live (s_heap s) d = Some x \/ reach (live (s_heap s')) r d;
  nn_defer : s_defer s' = false;
  nn_grown : pool_grown s s' (fun a => held g (s_heap s) a \/ reach (live (s_heap s')) r a)
}.

Lemma bstep_grown g s s1 k r F : calm g s -> idle s -> bstep g s s1 k r F ->
  pool_grown s s1 (fun a => held g (s_heap s) a \/ reach (live (s_heap s1)) r a).
Proof.
  intros C I B. pose proof (bs_step _ _ _ _ _ _ _ _ _ B) as S.
  destruct (ss_grown _ _ _ _ _ _ S (cl_ord _ _ _ _ _ C) (proj1 I)) as [X H]. split; [done|]. split; [apply S|].
  destruct H as [H|(m&l&Cm&N&L&T)]; [by left|]. right. exists m, l. split_and!; try done.
  intros a Ha. destruct (L a Ha) as (x&(Hl&Hd&Hx)&Hr).
  assert (K : forall x, held g (s_heap s) x -> live (s_heap s1) x = live (s_heap s) x) by (intros y Hy; by apply S).
  assert (Hh : held g (s_heap s) x -> held g (s_heap s) a) by (intros Hh; by destruct (kept_reach_inv g _ _ x a K Hh Hr)).
  destruct Hx as [Hm|[Hx|Hx]].
  - destruct (bs_marks _ _ _ _ _ _ _ _ _ B x Hm) as [Hm'| ->]; [|by right]. left. apply Hh, root_held.
    split_and!; [|done|by left]. destruct Hm' as (n&Hn&U&_). unfold live. by rewrite Hn, U.
  - left. by apply Hh, (ext_held c opsem strict g s); [apply C|].
  - destruct (cl_quiet _ _ _ _ _ C) as [_ Hf]. rewrite Hf in Hx. set_solver.
Qed.

Lemma nnew_hrel g s s1 k r F h' : calm g s -> idle s -> bstep g s s1 k r F -> hrel (s_heap s1) h' ->
  nnew g s r (set_heap h' s1).
Proof.
  intros C I B H. pose proof (bs_step _ _ _ _ _ _ _ _ _ B) as S. constructor; simpl.
  - intros a Ha. rewrite (hrel_live _ _ a H). by apply S.
  - intros d x Hx. rewrite (hrel_live _ _ d H) in Hx. destruct (bs_new _ _ _ _ _ _ _ _ _ B d x Hx); [by left|right].
    eapply reach_ext; [|done]. intros; by apply hrel_live.
  - by eapply calm_defer_bstep.
  - eapply pool_grown_impl; [by eapply bstep_grown|done|done|done|]. intros a [Ha|Ha]; [by left|right].
    eapply reach_ext; [|done]. intros; by apply hrel_live.
Qed.

Lemma nnew_of g s s1 k r F : calm g s -> idle s -> bstep g s s1 k r F ->
  wp allowed (diagram_of r) (fun _ s2 => nnew g s r s2) s1.
Proof.
  intros C I B. pose proof (bs_step _ _ _ _ _ _ _ _ _ B) as S.
  apply (diagram_of_spec c opsem strict allowed g); [by left|apply S|apply C| |].
  - eapply held_live; [apply S|apply (bs_held _ _ _ _ _ _ _ _ _ B)].
  - intros h' H _ _. by eapply nnew_hrel.
Qed.

Lemma nnew_handle g s s1 k r F : calm g s -> idle s -> bstep g s s1 k r F ->
  wp allowed (let* _ := diagram_of r in ret r) (nnew g s) s1.
Proof. intros C I B. apply wp_bind. eapply wp_mono; [by eapply nnew_of|]. intros [] s2 N. by apply wp_ret. Qed.

Lemma nnew_handle_deferred g s s1 k r F : calm g s -> idle s -> bstep g s s1 k r F ->
  wp allowed (let* _ := diagram_of r in let* _ := run_deferred c in ret r) (nnew g s) s1.
Proof.
  intros C I B. apply wp_bind. eapply wp_mono; [by eapply nnew_of|]. intros [] s2 N.
  apply run_deferred_calm; [apply N|]. by apply wp_ret.
Qed.

Lemma nnew_copy g s a : calm g s -> idle s -> 0 < g_ext g a ->
  wp allowed (let* _ := diagram_copy a in ret a) (nnew g s) s.
Proof.
  intros C I Ha. apply wp_bind. apply (diagram_copy_spec c opsem strict allowed g); [by left|apply C|apply C| |].
  { by apply (wf_ext _ _ _ _ _ (cl_wf _ _ _ _ _ C)). }
  intros h' H _ _. apply wp_ret. constructor; simpl.
  - intros b _. by apply hrel_live.
  - intros d x Hx. rewrite (hrel_live _ _ d H) in Hx. by left.
  - apply I.
  - split; [done|]. split; [done|by left].
Qed.

(** ** The constructions *)

Lemma constant_new g v s : calm g s -> idle s -> tval c v -> wp allowed (constant c v) (nnew g s) s.
Proof.
  intros C I Hv. unfold constant, with_handle. apply wp_bind.
  eapply wp_mono; [apply (bstep_terminal c opsem strict g s v); try done; apply C|].
  intros a s1 B. eapply nnew_handle; [done|done|exact B].
Qed.

Lemma variable_new g i s : wf_cfg c -> calm g s -> idle s -> i < nvars c -> wp allowed (variable c i) (nnew g s) s.
Proof.
  intros Hc C I Hi. unfold variable, with_handle. apply wp_bind. eapply wp_mono.
  { apply (variable_impl_spec c opsem strict g s s i); try done. apply sstep_refl, C. }
  intros a s1 B. eapply nnew_handle; [done|done|exact B].
Qed.

Lemma variable_not_new g i s : wf_cfg c -> calm g s -> idle s -> i < nvars c -> dom c i = 2 ->
  wp allowed (variable_not c i) (nnew g s) s.
Proof.
  intros Hc C I Hi Hd2. unfold variable_not, with_handle. apply wp_bind.
  assert (Ht : Forall (tval c) [1%Z; 0%Z]).
  { assert (forall v, (0 <= v < 2)%Z -> tval c v).
    { intros v Hv. left. unfold Nondet. destruct (c_fixed c) as [m|] eqn:Em; [|lia].
      pose proof (wc_fixed _ Hc m Em i Hi). lia. }
    constructor; [apply H; lia|]. constructor; [apply H; lia|done]. }
  pose proof (terminals_loop c opsem strict g s s (g_lv g i) [1%Z; 0%Z] Hc C (sstep_refl _ _ _ _ _ (cl_wf _ _ _ _ _ C))
    ltac:(auto) ltac:(auto) (wf_lv _ _ _ _ _ (cl_wf _ _ _ _ _ C) i Hi) Ht) as T.
  eapply (wp_ext allowed _ (let* l := mapM (make_terminal_node c) [1%Z; 0%Z] in make_internal_node c i l)).
  { simpl. unfold bind. destruct (make_terminal_node c 1 s); try done.
    destruct (make_terminal_node c 0 s0); done. }
  apply wp_bind. eapply wp_mono; [exact T|]. intros acc s1 [B Hlen].
  eapply wp_mono.
  { eapply (bres_make c opsem strict g s s1 i acc); [apply C|done| |done| |exact B].
    - eapply ord_sstep; [apply B|apply C].
    - rewrite Hlen. done. }
  intros r s2 [B2 _]. eapply nnew_handle; [done|done|exact B2].
Qed.

Lemma from_vector_new g vs s : wf_cfg c -> calm g s -> idle s ->
  length vs = prodl c (s_l2i s) -> Forall (tval c) vs -> wp allowed (from_vector c vs) (nnew g s) s.
Proof.
  intros Hc C I Hlen Hvs. unfold from_vector, with_handle. apply wp_bind.
  eapply wp_mono; [by apply (from_vector_impl_spec c opsem strict g s vs Hc C)|].
  intros a s1 B. eapply nnew_handle; [done|done|exact B].
Qed.

Lemma apply_new g o l r s :
  let o' := apply_op c o in
  wf_cfg c -> calm g s -> idle s -> g_cm g = CValid -> opsem (op_id o') = Some (op_fun o') ->
  0 < g_ext g l -> 0 < g_ext g r ->
  (forall rho x y, valid c rho -> Ev (live (s_heap s)) l rho x -> Ev (live (s_heap s)) r rho y ->
     good_op c o' x y) ->
  wp allowed (apply c o l r) (nnew g s) s.
Proof.
  intros o' Hc C Hm Hcm Hop Hl Hr Hg. unfold apply. apply wp_bind. eapply wp_mono.
  { apply (apply_impl_spec c opsem strict o' Hc Hop (S (nvars c)) g l r s); try done; try apply C.
    - by eapply ext_held; [apply C|].
    - by eapply ext_held; [apply C|].
    - lia. }
  intros a s1 B. apply run_deferred_calm; [eapply calm_defer_bstep; [done|done|exact B]|].
  eapply nnew_handle; [done|done|exact B].
Qed.

Lemma transform_new f g a s :
  wf_cfg c -> calm g s -> idle s -> 0 < g_ext g a ->
  (forall rho x, valid c rho -> Ev (live (s_heap s)) a rho x -> tval c (f x)) ->
  wp allowed (transform c f a) (nnew g s) s.
Proof.
  intros Hc C Hm Ha Hf. unfold transform. apply wp_bind. eapply wp_mono.
  { apply (transform_impl_spec c opsem strict f g s (S (nvars c))); try done; try apply C.
    - apply sstep_refl, C.
    - eapply ext_held; [apply C|done].
    - lia. }
  intros [m b] s1 [B _]. simpl in *. apply run_deferred_calm; [by eapply calm_defer_bstep|].
  eapply nnew_handle; [done|done|exact B].
Qed.

Lemma get_cofactor_new vi vv g a s :
  wf_cfg c -> calm g s -> idle s -> 0 < g_ext g a -> vv < dom c vi ->
  wp allowed (get_cofactor c a vi vv) (nnew g s) s.
Proof.
  intros Hc C I Ha Hvv. unfold get_cofactor. pose proof (cl_wf _ _ _ _ _ C) as W.
  pose proof (cl_quiet _ _ _ _ _ C) as Hq.
  pose proof (ext_held c opsem strict g s a W Ha) as Hh.
  destruct (held_live _ _ _ _ _ _ W Hh) as [Hl Hd]. apply wp_bind.
  destruct (live (s_heap s) a) as [[v|i sons]|] eqn:La; [| |done].
  - eapply wp_getn_live; [done|]. intros n _ _ ->. by apply nnew_copy.
  - eapply wp_getn_live; [done|]. intros n _ _ ->.
    destruct (wf_node _ _ _ _ _ W a _ La) as (Hi&Hlen&_&_).
    destruct (Nat.eqb_spec i vi) as [->|Hne].
    { destruct (lookup_lt_is_Some_2 sons vv) as [d Hd']; [lia|].
      apply wp_bind. eapply wp_of_opt; [done|].
      assert (Hin : d ∈ sons) by (by eapply elem_of_list_lookup_2).
      destruct (held_son_all c opsem strict g s a vi sons d W Hq Hh La Hin) as [Hhd Hrd].
      eapply (nnew_handle g s s 0 d (fun _ _ => False)); [done|done|]. apply bstep_same; [done|done|lia|done]. }
    apply wp_bind. eapply wp_mono.
    { apply (cofactor_impl_spec c opsem strict vi vv g s (S (nvars c))); try done; try apply C; try (by apply sstep_refl); lia. }
    intros [m b] s1 [B _]. simpl in *. eapply nnew_handle_deferred; [done|done|exact B].
Qed.

Lemma get_cofactors_new vars g a s :
  wf_cfg c -> calm g s -> idle s -> 0 < g_ext g a -> Forall (fun p => snd p < dom c (fst p)) vars ->
  wp allowed (get_cofactors c a vars) (nnew g s) s.
Proof.
  intros Hc C I Ha Hvars. unfold get_cofactors. pose proof (cl_wf _ _ _ _ _ C) as W.
  pose proof (cl_quiet _ _ _ _ _ C) as Hq.
  pose proof (ext_held c opsem strict g s a W Ha) as Hh.
  destruct (held_live _ _ _ _ _ _ W Hh) as [Hl Hd]. apply wp_bind.
  destruct (live (s_heap s) a) as [[v|i sons]|] eqn:La; [| |done].
  - eapply wp_getn_live; [done|]. intros n _ _ ->. by apply nnew_copy.
  - eapply wp_getn_live; [done|]. intros n _ _ ->.
    destruct (wf_node _ _ _ _ _ W a _ La) as (Hi&Hlen&_&_).
    assert (Hgo : forall root todo, held g (s_heap s) root ->
      pending g vars (rank c g (s_heap s) root) <= todo ->
      wp allowed (let* mb := cofactors_impl c (S (nvars c)) vars todo ∅ root in
        let* _ := diagram_of (snd mb) in let* _ := run_deferred c in ret (snd mb)) (nnew g s) s).
    { intros root todo Hr Hp. apply wp_bind. eapply wp_mono.
      { apply (cofactors_impl_spec c opsem strict vars g s (S (nvars c))); try done; try apply C; try (by apply sstep_refl); lia. }
      intros [m b] s1 [B _]. simpl in *. eapply nnew_handle_deferred; [done|done|exact B]. }
    assert (Hlen' : forall r, pending g vars r <= length vars).
    { intros r. unfold pending. clear. induction vars as [|p l IH]; simpl; [done|]. destruct (_ <=? _); simpl; lia. }
    apply wp_bind. destruct (find_var i vars) as [k|] eqn:Ef.
    + pose proof (find_var_In _ _ _ Ef) as Hin. rewrite Forall_forall in Hvars.
      pose proof (Hvars _ Hin) as Hk. simpl in Hk.
      destruct (lookup_lt_is_Some_2 sons k) as [d Hd']; [lia|].
      apply wp_bind. eapply wp_of_opt; [done|]. apply wp_ret. simpl.
      assert (Hind : d ∈ sons) by (by eapply elem_of_list_lookup_2).
      destruct (held_son_all c opsem strict g s a i sons d W Hq Hh La Hind) as [Hhd Hrd].
      apply Hgo; [done|].
      rewrite (rank_int c g _ _ _ _ Hq La) in Hrd.
      pose proof (pending_step g vars i k _ Ef Hrd). pose proof (Hlen' (g_lv g i)). lia.
    + apply wp_ret. simpl. by apply Hgo.
Qed.

Lemma dpld_new vc f g a s :
  wf_cfg c -> calm g s -> idle s -> 0 < g_ext g a -> tval c 0 -> tval c 1 ->
  vc_from vc < dom c (vc_index vc) -> vc_to vc < dom c (vc_index vc) ->
  wp allowed (dpld c vc f a) (nnew g s) s.
Proof.
  intros Hc C Hm Ha T0 T1 Hfrom Hto. unfold dpld. apply wp_bind.
  apply (dpld_roots_spec c opsem strict vc f g); try done. intros l r Hl Hr Nl Nr HD. cbn [snd].
  apply wp_bind. eapply wp_mono.
  { apply (dpld_impl_spec c opsem strict vc f g s (S (nvars c))); try done; try apply C.
    - apply sstep_refl, C.
    - lia. }
  intros [m b] s1 [[B Hav] _]. simpl in *. apply run_deferred_calm; [by eapply calm_defer_bstep|].
  eapply nnew_handle; [done|done|exact B].
Qed.

Lemma to_dpld_e_new from x g a s :
  wf_cfg c -> calm g s -> idle s -> 0 < g_ext g a -> tval c Undef -> x < nvars c ->
  avoids (live (s_heap s)) x a -> wp allowed (to_dpld_e c from x a) (nnew g s) s.
Proof.
  intros Hc C Hm Ha T Hx Hav. unfold to_dpld_e. pose proof (cl_wf _ _ _ _ _ C) as W.
  pose proof (cl_quiet _ _ _ _ _ C) as Hq. pose proof (cl_ord _ _ _ _ _ C) as O.
  pose proof (ext_held c opsem strict g s a W Ha) as Hh.
  destruct (held_live _ _ _ _ _ _ W Hh) as [Hl Hd].
  pose proof (sstep_refl c opsem strict g s W) as S0.
  apply wp_bind. apply (get_level_spec c opsem strict allowed g); try done.
  apply wp_bind. eapply wp_level_of_index; [by apply O|].
  destruct (Nat.ltb_spec (g_lv g x) (rank c g (s_heap s) a)) as [Hlt|Hge].
  - apply wp_bind. eapply wp_mono; [by apply (extend_at_spec c opsem strict from x g s s a)|].
    intros b s1 B. eapply nnew_handle; [done|done|exact B].
  - assert (Hne : rank c g (s_heap s) a <> g_lv g x).
    { intros E. destruct (live (s_heap s) a) as [[v|j ss]|] eqn:Ed; [| |done].
      - rewrite (rank_term c g _ _ _ Hq Ed) in E. pose proof (wf_lv _ _ _ _ _ W x Hx). lia.
      - rewrite (rank_int c g _ _ _ _ Hq Ed) in E. destruct (wf_node _ _ _ _ _ W a _ Ed) as (Hj&_).
        apply (Hav a j ss (reach_refl _ _) Ed). by eapply ord_inj. }
    apply wp_bind. eapply wp_mono.
    { apply (to_dpld_e_impl_spec c opsem strict from x g s (Datatypes.S (nvars c))); try done; try lia. }
    intros [m b] s1 [B _]. simpl in *. apply run_deferred_calm; [by eapply calm_defer_bstep|].
    eapply nnew_handle; [done|done|exact B].
Qed.

(** ** The calls *)

(** what the call leaves behind *)
Record nstep (g : ghost) (s : st) (vars : vars_t) (d : nat) (vars' : vars_t) (s' : st) : Prop := {
  nt_vars : exists a, vars' = <[d := a]> vars;
  nt_keep : forall a, held g (s_heap s) a -> live (s_heap s') a = live (s_heap s) a;
  nt_new : forall e x, live (s_heap s') e = Some x -> live (s_heap s) e = Some x \/
    exists a, vars' !! d = Some a /\ reach (live (s_heap s')) a e;
  nt_grown : pool_grown s s' (fun e => held g (s_heap s) e \/ exists a, vars' !! d = Some a /\ reach (live (s_heap s')) a e)
}.

Lemma put_new g s vars d (m : M positive) :
  wp allowed m (nnew g s) s ->
  forall vars' s', (let* a := m in put vars d a) s = Ok vars' s' -> nstep g s vars d vars' s'.
Proof.
  intros H vars' s' E. unfold wp in H. unfold bind in E. destruct (m s) as [a s1| |]; [|done|done].
  destruct H as [K N _ G]. destruct (put_live _ _ _ _ _ _ E) as (->&L&Lc&Lp&Lt). constructor.
  - eauto.
  - intros b Hb. rewrite L. by apply K.
  - intros e x Hx. rewrite L in Hx. destruct (N e x Hx); [by left|]. right. exists a. rewrite lookup_insert.
    split; [done|]. by eapply reach_ext.
  - eapply pool_grown_impl; [exact G|done|done|done|]. intros e [He|He]; [by left|]. right. exists a. rewrite lookup_insert.
    split; [done|]. by eapply reach_ext.
Qed.

Lemma deref_new g s vars d x a (h : positive -> M positive) :
  vars !! x = Some a -> wp allowed (h a) (nnew g s) s ->
  forall vars' s', (let* l := deref vars x in let* b := h l in put vars d b) s = Ok vars' s' ->
  nstep g s vars d vars' s'.
Proof.
  intros Ha H vars' s' E. eapply put_new; [exact H|]. rewrite <- E. unfold bind at 2, deref. by rewrite Ha.
Qed.

Lemma exec_new g s vars k A A' d vars' s' :
  wf_cfg c -> winv g s vars A -> spec c opsem strict s k A A' -> built k = Some d ->
  exec c k vars s = Ok vars' s' -> nstep g s vars d vars' s'.
Proof.
  intros Hc W S Hb. pose proof (wi_calm _ _ _ _ _ _ _ W) as C. pose proof (wi_order _ _ _ _ _ _ _ W) as Hor.
  pose proof (wi_idle _ _ _ _ _ _ _ W) as I.
  destruct S; cbn [built] in Hb; try discriminate; injection Hb as ->; unfold exec.
  - apply put_new. by apply constant_new.
  - apply put_new. by apply variable_new.
  - apply put_new. by apply variable_not_new.
  - apply put_new. apply from_vector_new; try done. by rewrite Hor.
  - destruct (wi_den_pos _ _ _ _ _ _ _ _ _ W H1) as (l&Hl&Dl&Pl).
    destruct (wi_den_pos _ _ _ _ _ _ _ _ _ W H2) as (r&Hr&Dr&Pr). intros E.
    apply (put_new g s vars d (apply c o l r)).
    + apply apply_new; try done; [by apply W|].
      intros rho x0 y0 Hv Hx Hy. rewrite (den_Ev c s l F rho x0 Dl Hv Hx), (den_Ev c s r G rho y0 Dr Hv Hy). auto.
    + rewrite <- E. unfold bind at 2 3, deref. by rewrite Hl, Hr.
  - destruct (wi_den_pos _ _ _ _ _ _ _ _ _ W H) as (l&Hl&Dl&Pl).
    apply (deref_new g s vars d x l (transform c f)); [done|]. apply transform_new; try done.
    intros rho v Hv Hx. rewrite (den_Ev c s l F rho v Dl Hv Hx). auto.
  - destruct (wi_den_pos _ _ _ _ _ _ _ _ _ W H) as (l&Hl&Dl&Pl).
    apply (deref_new g s vars d x l (fun l => get_cofactor c l i k)); [done|]. by apply get_cofactor_new.
  - destruct (wi_den_pos _ _ _ _ _ _ _ _ _ W H) as (l&Hl&Dl&Pl).
    apply (deref_new g s vars d x l (fun l => get_cofactors c l vs)); [done|]. by apply get_cofactors_new.
  - destruct (wi_den_pos _ _ _ _ _ _ _ _ _ W H) as (l&Hl&Dl&Pl). intros E.
    apply (deref_new g s vars d x l (fun l => let* _ := diagram_copy l in ret l)); [done|by apply nnew_copy|].
    rewrite <- E. unfold bind, deref. rewrite Hl. simpl. unfold of_opt, ret. by destruct (diagram_copy l s).
  - destruct (wi_den_pos _ _ _ _ _ _ _ _ _ W H) as (l&Hl&Dl&Pl).
    apply (deref_new g s vars d x l (dpld c vc f)); [done|]. apply dpld_new; try done. by apply tval_0_1.
  - destruct (wi_den_pos _ _ _ _ _ _ _ _ _ W H) as (l&Hl&Dl&Pl).
    apply (deref_new g s vars d x l (to_dpld_e c from i)); [done|]. apply to_dpld_e_new; try done.
    intros b j sons Hb Lb ->. assert (Hh : held g (s_heap s) l) by (eapply ext_held; [apply C|done]).
    assert (Hes : essential_var c (nval c s l) i).
    { apply (occurs_essential c opsem strict g s Hc C); [by apply W|done|]. eauto. }
    destruct Hes as (_&rho&k&k'&Hv&Hk&Hk'&Hne). apply Hne.
    rewrite !(nval_fun c opsem strict g s l F) by (try done; by apply valid_upd).
    match goal with H : forall rho k, valid c rho -> _ |- _ => rewrite !H by done end. done.
Qed.

End nogarbage.
