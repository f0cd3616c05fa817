(** * Correctness of the queries *)

From stdpp Require Import gmap list.
From Coq Require Import ZArith Lia Sorted.
From Verif Require Import Base Ops Tables NodeManager Tools Sift DiagramManager Queries.
From Verif Require Import Heap Inv InvLemmas Prim GC Make Build Canon Apply Api VecSpec Vec Eval Trav QuerySpec.

Local Open Scope nat_scope.

(** ** int_pow *)

Lemma int_pow_loop_ok lo hi e : forall b r, (lo <= 0)%Z -> (1 <= b)%Z -> (1 <= r)%Z -> (r * b ^ Zpos e <= hi)%Z ->
  int_pow_loop lo hi e b r = Some (r * b ^ Zpos e)%Z.
Proof.
  assert (Hchk : forall lo hi z, (lo <= 0)%Z -> (0 <= z <= hi)%Z -> chk lo hi z = Some z).
  { intros l h z ? ?. unfold chk. destruct (Z.leb_spec l z); [|lia]. destruct (Z.leb_spec z h); [done|lia]. }
  induction e as [e IH|e IH|]; intros b r Hlo Hb Hr Hle; cbn [int_pow_loop].
  - assert (E : (b ^ Zpos e~1 = b * (b * b) ^ Zpos e)%Z).
    { replace (Zpos e~1) with (1 + 2 * Zpos e)%Z by lia. rewrite Z.pow_add_r, Z.pow_1_r, Z.pow_mul_r by lia. f_equal.
      f_equal. lia. }
    rewrite E in *. pose proof (Z.pow_le_mono_r (b * b) 1 (Zpos e) ltac:(nia) ltac:(lia)) as Hm. rewrite Z.pow_1_r in Hm.
    rewrite !Hchk by nia. rewrite IH by nia. f_equal. ring.
  - assert (E : (b ^ Zpos e~0 = (b * b) ^ Zpos e)%Z).
    { replace (Zpos e~0) with (2 * Zpos e)%Z by lia. rewrite Z.pow_mul_r by lia. f_equal. lia. }
    rewrite E in *. pose proof (Z.pow_le_mono_r (b * b) 1 (Zpos e) ltac:(nia) ltac:(lia)) as Hm. rewrite Z.pow_1_r in Hm.
    rewrite !Hchk by nia. rewrite IH by nia. done.
  - rewrite Z.pow_1_r in *. by rewrite Hchk by nia.
Qed.

Lemma int_pow_ok lo hi b e : (lo <= 0)%Z -> (1 <= hi)%Z -> (1 <= b)%Z -> (b ^ Z.of_N e <= hi)%Z ->
  int_pow lo hi b e = Some (b ^ Z.of_N e)%Z.
Proof.
  intros Hlo Hhi Hb Hle. destruct e as [|e]; [done|]. cbn [int_pow]. rewrite int_pow_loop_ok; [f_equal|..]; simpl in *; lia.
Qed.

Lemma lsum_cons x l : list_sum (x :: l) = x + list_sum l.
Proof. done. Qed.

Definition product_limit (c : cfg) : Z :=
  match c_fixed c with Some m => if (m =? 2)%Z then max64 else max32 | None => max64 end.

(** the domains of the levels from .. to - 1 multiplied *)
Definition level_product (c : cfg) (order : list nat) (from to : nat) : Z :=
  Z.of_nat (prodl c (take (to - from) (drop from order))).

Section proof.
Context (c : cfg) (opsem : Z -> option (Z -> Z -> Z)) (strict : bool).
Notation rank := (rank c).
Notation WF := (WF c opsem strict).
Notation calm := (calm c opsem strict).

Lemma prodl_pos l : wf_cfg c -> (forall i, i ∈ l -> i < nvars c) -> 1 <= prodl c l.
Proof.
  intros Hc. induction l as [|i l IH]; intros H; cbn [prodl]; [lia|].
  specialize (IH ltac:(intros; apply H; set_solver)). pose proof (wc_dom _ Hc i ltac:(apply H; set_solver)). nia.
Qed.

Lemma prodl_fixed l m : wf_cfg c -> c_fixed c = Some m -> (forall i, i ∈ l -> i < nvars c) ->
  Z.of_nat (prodl c l) = (m ^ Z.of_nat (length l))%Z.
Proof.
  intros Hc Hm. induction l as [|i l IH]; intros H; cbn [prodl length]; [done|].
  rewrite Nat2Z.inj_mul, IH by (intros; apply H; set_solver).
  rewrite (wc_fixed _ Hc m Hm i ltac:(apply H; set_solver)), Nat2Z.inj_succ, Z.pow_succ_r by lia. done.
Qed.

Lemma product_loop_ok t k : forall from p, wf_cfg c -> perm_ok c t -> from + k <= nvars c -> (1 <= p)%Z ->
  (p * Z.of_nat (prodl c (take k (drop from (s_l2i t)))) <= max64)%Z ->
  product_loop c k from p t = Ok (p * Z.of_nat (prodl c (take k (drop from (s_l2i t)))))%Z t.
Proof.
  induction k as [|k IH]; intros from p Hc P Hk Hp Hle; cbn [product_loop].
  - unfold ret. f_equal. rewrite take_0. cbn [prodl]. lia.
  - destruct (perm_l2i_ex c t from P ltac:(lia)) as (i&Hi&Hin).
    rewrite (drop_S _ _ _ Hi) in *. cbn [firstn prodl] in *.
    rewrite (bind_ok _ _ _ i t) by (unfold index_at; by rewrite Hi).
    assert (Hd : c_doms c !! i = Some (dom c i)).
    { unfold dom. destruct (nth_lookup_or_length (c_doms c) i 0); [done|]. unfold nvars in Hin. lia. }
    rewrite Hd. rewrite (bind_ok _ _ _ (dom c i) t) by done.
    pose proof (wc_dom _ Hc i Hin).
    assert (1 <= prodl c (take k (drop (S from) (s_l2i t)))).
    { apply prodl_pos; [done|]. intros j Hj. apply elem_of_take in Hj as (x&Hx&_). rewrite lookup_drop in Hx.
      by eapply perm_l2i_lt. }
    rewrite (bind_ok _ _ _ (p * Z.of_nat (dom c i))%Z t).
    2: { unfold chk. change min64 with (-9223372036854775808)%Z. destruct (Z.leb_spec (-9223372036854775808) (p * Z.of_nat (dom c i))); [|nia].
         destruct (Z.leb_spec (p * Z.of_nat (dom c i)) max64); [done|nia]. }
    rewrite Nat2Z.inj_mul in Hle. rewrite IH; [f_equal; rewrite Nat2Z.inj_mul; ring|done|done|lia|nia|lia].
Qed.

Lemma domain_product_ok t from to : wf_cfg c -> perm_ok c t -> from <= to <= nvars c ->
  (level_product c (s_l2i t) from to <= product_limit c)%Z ->
  domain_product c from to t = Ok (level_product c (s_l2i t) from to) t.
Proof.
  intros Hc P Hft. unfold domain_product, product_limit, level_product.
  assert (Hlt : forall i, i ∈ take (to - from) (drop from (s_l2i t)) -> i < nvars c).
  { intros i Hi. apply elem_of_take in Hi as (x&Hx&_). rewrite lookup_drop in Hx. by eapply perm_l2i_lt. }
  assert (Hlen : length (take (to - from) (drop from (s_l2i t))) = to - from).
  { rewrite take_length, drop_length, (pm_l2i _ _ P). lia. }
  destruct (c_fixed c) as [m|] eqn:Em.
  - rewrite (prodl_fixed _ m Hc Em Hlt), Hlen. destruct (Z.eqb_spec m 2) as [->|Hm]; intros Hle.
    + unfold of_opt, shift64. change max64 with (2^63-1)%Z in Hle.
      assert (Z.of_nat (to - from) < 63)%Z.
      { destruct (Z_lt_ge_dec (Z.of_nat (to - from)) 63); [done|].
        pose proof (Z.pow_le_mono_r 2 63 (Z.of_nat (to - from)) ltac:(lia) ltac:(lia)). lia. }
      destruct (Z.leb_spec 0 (Z.of_nat to - Z.of_nat from)); [|lia].
      destruct (Z.ltb_spec (Z.of_nat to - Z.of_nat from) 64); [|lia].
      destruct (Z.eqb_spec (Z.of_nat to - Z.of_nat from) 63); [lia|]. simpl. unfold ret. f_equal. f_equal. lia.
    + destruct (decide (to = from)) as [->|Hne].
      { rewrite Nat.sub_diag. done. }
      assert (1 <= m)%Z.
      { destruct (perm_l2i_ex c t from P ltac:(lia)) as (i&_&Hin). rewrite <- (wc_fixed _ Hc m Em i Hin).
        pose proof (wc_dom _ Hc i Hin). lia. }
      rewrite int_pow_ok; [|by vm_compute|by vm_compute|lia|by rewrite nat_N_Z]. rewrite nat_N_Z. done.
  - intros Hle. rewrite product_loop_ok; [|done|done|lia|lia|lia]. f_equal. lia.
Qed.

(** ** The manager between calls *)
Context (g : ghost) (s : st) (Hc : wf_cfg c) (C : calm g s).
Notation h := (s_heap s).
Notation L := (live (s_heap s)).
Notation order := (s_l2i s).
Notation rk := (rank g (s_heap s)).
Notation held := (held g (s_heap s)).

Definition nval (x : positive) : asg -> Z := fun rho =>
  match evaluate c x (map rho (seq 0 (nvars c))) s with Ok v _ => v | _ => 0%Z end.

Local Lemma Wf : WF g s. Proof. apply C. Qed.
Local Lemma Hq : quiet g. Proof. apply C. Qed.
Local Lemma Ho : ord c g s. Proof. apply C. Qed.
Local Lemma Pm : perm_ok c s. Proof. apply Ho. Qed.

Lemma vals_of_asg rho : valid c rho -> vals_ok c (map rho (seq 0 (nvars c))) /\
  forall i, i < nvars c -> of_vals (map rho (seq 0 (nvars c))) i = rho i.
Proof.
  intros Hv. assert (E : forall i, i < nvars c -> of_vals (map rho (seq 0 (nvars c))) i = rho i).
  { intros i Hi. unfold of_vals. rewrite (nth_indep _ 0 (rho 0)) by (rewrite map_length, seq_length; lia).
    rewrite map_nth, seq_nth by lia. done. }
  split; [|done]. split; [by rewrite map_length, seq_length|]. intros i Hi. rewrite E by done. auto.
Qed.

Lemma nval_Ev x rho : held x -> valid c rho -> Ev L x rho (nval x rho).
Proof.
  intros Hx Hv. destruct (vals_of_asg rho Hv) as [Hok E].
  pose proof (evaluate_held c opsem strict (fun _ => False) g s _ x Wf Hq Hok Hx) as H. unfold wp in H. unfold nval.
  destruct (evaluate c x (map rho (seq 0 (nvars c))) s) as [v s'| |]; [|done|done]. destruct H as [_ H].
  by apply (Ev_same_vals c opsem strict g s x _ rho _ Wf Hx E).
Qed.

Lemma Ev_nval x rho v : held x -> valid c rho -> Ev L x rho v <-> nval x rho = v.
Proof.
  intros Hx Hv. split; [|intros <-; by apply nval_Ev]. intros H. eapply Ev_det; [by apply nval_Ev|done].
Qed.

Lemma nval_term x rho v : held x -> valid c rho -> L x = Some (Term v) -> nval x rho = v.
Proof. intros Hx Hv E. apply Ev_nval; [done..|]. by apply Ev_term. Qed.

Lemma nval_int x rho i sons y : held x -> valid c rho -> L x = Some (Int i sons) -> sons !! rho i = Some y ->
  nval x rho = nval y rho.
Proof.
  intros Hx Hv E Hy. apply Ev_nval; [done..|]. eapply Ev_int; [done|done|]. apply nval_Ev; [|done].
  eapply held_son; [done..|]. by eapply elem_of_list_lookup_2.
Qed.

Lemma held_body x : held x -> exists b, L x = Some b.
Proof. intros Hx. destruct (held_live _ _ _ _ _ _ Wf Hx) as [Hl _]. destruct (L x); [eauto|done]. Qed.

Lemma int_facts x i sons : held x -> L x = Some (Int i sons) ->
  i < nvars c /\ length sons = dom c i /\ rk x < nvars c /\ order !! rk x = Some i /\
  forall y, y ∈ sons -> held y /\ rk x < rk y <= nvars c.
Proof.
  intros Hx E. destruct (wf_node _ _ _ _ _ Wf x _ E) as (Hi&Hl&Hr&_). destruct (held_live _ _ _ _ _ _ Wf Hx) as [_ Hd].
  split_and!; try done.
  - rewrite (rank_int c g _ _ _ _ Hq E). apply (pm_inv _ _ Pm). by apply Ho.
  - intros y Hy. destruct (wf_son _ _ _ _ _ _ _ _ y Wf E Hd Hy) as (Hly&Hlt&_). split; [by eapply held_son|].
    split; [done|]. by apply (rank_le _ _ _ g s y Wf).
Qed.

Lemma held_rank x : held x -> rk x <= nvars c.
Proof. intros Hx. apply (rank_le _ _ _ g s x Wf). apply (held_live _ _ _ _ _ _ Wf Hx). Qed.

Lemma level_at x V : held x -> get_level c x (fs V s) = Ok (rk x) (fs V s).
Proof.
  intros Hx. destruct (held_body x Hx) as [b E]. unfold get_level.
  assert (exists n, getn x (fs V s) = Ok n (fs V s) /\ n_body n = b) as (n&G&Eb).
  { unfold live in E. destruct (h !! x) as [n|] eqn:En; [|done]. destruct (n_used n) eqn:U; [|done].
    unfold getn, fs. simpl. rewrite flip_lookup, En. case_bool_decide; simpl; rewrite U; eexists; split; try done; simpl; congruence. }
  rewrite (bind_ok _ _ _ _ _ G), Eb. destruct b as [v|i sons].
  - rewrite (rank_term c g _ _ _ Hq E). done.
  - destruct (int_facts x i sons Hx E) as (Hi&_). rewrite (rank_int c g _ _ _ _ Hq E).
    unfold level_of_index. simpl. rewrite (proj2 Ho i Hi). done.
Qed.

Lemma getn_at x V : held x -> exists n, getn x (fs V s) = Ok n (fs V s) /\ L x = Some (n_body n).
Proof.
  intros Hx. destruct (held_body x Hx) as [b E]. unfold live in E. destruct (h !! x) as [n|] eqn:En; [|done].
  destruct (n_used n) eqn:U; [|done]. injection E as Eb.
  unfold getn, fs. simpl. rewrite flip_lookup, En. unfold live. rewrite En, U.
  case_bool_decide; simpl; rewrite U; eexists; split; done.
Qed.
Lemma getn_s x : held x -> exists n, getn x s = Ok n s /\ L x = Some (n_body n).
Proof. intros Hx. pose proof (getn_at x ∅ Hx) as H. by rewrite fs_empty in H. Qed.
Lemma level_s x : held x -> get_level c x s = Ok (rk x) s.
Proof. intros Hx. pose proof (level_at x ∅ Hx) as H. by rewrite fs_empty in H. Qed.

Lemma order_NoDup : NoDup order. Proof. by eapply perm_l2i_NoDup, Pm. Qed.
Lemma order_elem i : i ∈ order <-> i < nvars c. Proof. apply (perm_elem c s i Pm). Qed.

Lemma drop_elem l i : i ∈ drop l order -> i < nvars c.
Proof. intros H. apply order_elem. apply elem_of_list_lookup in H as (j&Hj). rewrite lookup_drop in Hj. by eapply elem_of_list_lookup_2. Qed.

(** the variables below a node *)
Lemma reach_rank x y : held x -> reach L x y -> held y /\ rk x <= rk y.
Proof.
  intros Hx H. revert Hx. induction H as [x|x z y i sons E Hz H IH]; intros Hx; [done|].
  destruct (int_facts x i sons Hx E) as (_&_&_&_&Hs). destruct (Hs z Hz) as [Hz' ?]. destruct (IH Hz'). split; [done|lia].
Qed.

Lemma nval_depends x l : held x -> l <= rk x -> depends_on c (drop l order) (nval x).
Proof.
  intros Hx Hl rho sigma Hv Hs Hag. apply Ev_nval; [done..|]. eapply Ev_vars; [|by apply (nval_Ev x sigma)].
  intros y i sons Hr E. destruct (reach_rank x y Hx Hr) as [Hy Hrk]. destruct (int_facts y i sons Hy E) as (_&_&_&Hi&_).
  apply Hag. apply elem_of_list_lookup. exists (rk y - l). rewrite lookup_drop. rewrite <- Hi. f_equal. lia.
Qed.

Lemma nval_depends_all x : held x -> depends_on c (seq 0 (nvars c)) (nval x).
Proof.
  intros Hx rho sigma Hv Hs Hag. apply (nval_depends x 0 Hx ltac:(lia)); try done. intros j Hj. apply Hag.
  apply elem_of_seq. apply drop_elem in Hj. lia.
Qed.

Lemma dom_lookup i : i < nvars c -> c_doms c !! i = Some (dom c i).
Proof.
  intros Hi. unfold dom. destruct (nth_lookup_or_length (c_doms c) i 0); [done|]. unfold nvars in Hi. lia.
Qed.

Lemma take_drop_notin l i : order !! l = Some i -> i ∉ drop (S l) order.
Proof.
  intros Hi H. apply elem_of_list_lookup in H as (j&Hj). rewrite lookup_drop in Hj.
  pose proof (proj1 (NoDup_alt _) order_NoDup _ _ _ Hi Hj). lia.
Qed.

(** ** satisfy_all *)
Section all.
Context (v : Z).

Lemma all_loop_ok f os i F : i < nvars c -> i ∉ os -> (forall j, j ∈ os -> j < nvars c) ->
  forall sons k st, vals_ok c (fst st) -> k + length sons <= dom c i ->
  (forall j b, sons !! j = Some b -> forall st', vals_ok c (fst st') -> fst st' !! i = Some (k + j) ->
     exists vars', f st' b s = Ok (vars', snd st' ++ all_sols c os (fst st') F v) s /\ vals_ok c vars' /\
       forall x, x ∉ os -> vars' !! x = fst st' !! x) ->
  exists vars', all_loop f i st k sons s
      = Ok (vars', snd st ++ flat_map (fun k => all_sols c os (<[i:=k]> (fst st)) F v) (seq k (length sons))) s /\
    vals_ok c vars' /\ forall x, x ∉ i :: os -> vars' !! x = fst st !! x.
Proof.
  intros Hi Hni Hos. induction sons as [|b sons IH]; intros k st Hv Hk Hf; cbn [all_loop].
  - exists (fst st). destruct st as [vars out]. simpl. rewrite app_nil_r. done.
  - destruct Hv as [Hl Hv]. rewrite (bind_ok _ _ _ (of_vals (fst st) i) s) by (rewrite of_vals_lookup by lia; done).
    simpl in Hk.
    assert (Hv1 : vals_ok c (<[i:=k]> (fst st))) by (apply vals_ok_insert; [done|done|lia]).
    destruct (Hf 0 b eq_refl (<[i:=k]> (fst st), snd st) Hv1) as (vars1&E1&Hok1&Hag1).
    { simpl. rewrite list_lookup_insert by lia. f_equal. lia. }
    simpl in E1, Hag1. rewrite (bind_ok _ _ _ _ _ E1).
    destruct (IH (S k) (vars1, snd st ++ all_sols c os (<[i:=k]> (fst st)) F v) Hok1) as (vars2&E2&Hok2&Hag2); [lia| |].
    { intros j b' Hj st' Hst' Hsi. apply (Hf (S j) b' Hj st' Hst'). rewrite Hsi. f_equal. lia. }
    exists vars2. rewrite E2. simpl. split_and!; [|done|].
    + f_equal. f_equal. rewrite <- app_assoc. do 2 f_equal. rewrite !flat_map_concat_map. f_equal. apply map_ext_in. intros k' _.
      apply all_sols_vars.
      * intros j Hj. rewrite insert_length, Hl. auto.
      * rewrite !insert_length. destruct Hok1 as [-> _]. done.
      * intros j Hj. destruct Hok1 as [Hl1 _]. destruct (decide (j = i)) as [->|Hne].
        -- rewrite !list_lookup_insert by lia. done.
        -- rewrite !list_lookup_insert_ne by done. rewrite Hag1 by done. by rewrite list_lookup_insert_ne.
    + intros x Hx. rewrite Hag2 by done. simpl. apply not_elem_of_cons in Hx as [Hx1 Hx2].
      rewrite Hag1 by done. by rewrite list_lookup_insert_ne.
Qed.

Lemma satisfy_all_impl_ok fuel : forall level st a, held a -> level <= rk a -> nvars c - level < fuel ->
  vals_ok c (fst st) ->
  exists vars', satisfy_all_impl c fuel v level st a s
      = Ok (vars', snd st ++ all_sols c (drop level order) (fst st) (nval a) v) s /\
    vals_ok c vars' /\ forall x, x ∉ drop level order -> vars' !! x = fst st !! x.
Proof.
  induction fuel as [|fuel IH]; intros level st a Ha Hlev Hf Hv; [lia|]. cbn [satisfy_all_impl].
  destruct (getn_s a Ha) as (n&G&E). rewrite (bind_ok _ _ _ _ _ G).
  pose proof (held_rank a Ha) as Hrk. pose proof (pm_l2i _ _ Pm) as Hol.
  assert (Hskip : level < nvars c -> level < rk a -> exists i vars', order !! level = Some i /\ i < nvars c /\
    all_loop (satisfy_all_impl c fuel v (S level)) i st 0 (replicate (dom c i) a) s
      = Ok (vars', snd st ++ all_sols c (drop level order) (fst st) (nval a) v) s /\
    vals_ok c vars' /\ forall x, x ∉ drop level order -> vars' !! x = fst st !! x).
  { intros Hn Hr. destruct (perm_l2i_ex c s level Pm Hn) as (i&Hi&Hin).
    destruct (all_loop_ok (satisfy_all_impl c fuel v (S level)) (drop (S level) order) i (nval a) Hin
      (take_drop_notin _ _ Hi) (drop_elem (S level)) (replicate (dom c i) a) 0 st Hv) as (vars'&E'&Hok'&Hag').
    { rewrite replicate_length. lia. }
    { intros j b Hj st' Hst' _. apply lookup_replicate in Hj as [-> _]. apply IH; [done|lia|lia|done]. }
    exists i, vars'. rewrite (drop_S _ _ _ Hi). rewrite replicate_length in E'. cbn [all_sols]. done. }
  destruct (n_body n) as [w|i sons].
  - rewrite (rank_term c g _ _ _ Hq E) in *.
    assert (Hconst : all_sols c (drop level order) (fst st) (nval a) v = all_sols c (drop level order) (fst st) (fun _ => w) v).
    { destruct Hv as [Hl Hv]. apply all_sols_ext.
      - intros i Hi. apply drop_elem in Hi. lia.
      - intros vals Hvl Hag Hd. apply nval_term; [done| |done]. intros i Hi.
        destruct (decide (i ∈ drop level order)); [auto|]. specialize (Hag i ltac:(done)).
        rewrite !of_vals_lookup in Hag by lia. injection Hag as ->. auto. }
    destruct (Z.eqb_spec w v) as [->|Hne]; simpl.
    + destruct (Nat.eqb_spec level (nvars c)) as [->|Hl].
      * exists (fst st). rewrite Hconst. rewrite drop_ge by lia. cbn [all_sols]. rewrite Z.eqb_refl. done.
      * destruct Hskip as (i&vars'&Hi&Hin&E'&Hok'&Hag'); [lia|lia|].
        rewrite (bind_ok _ _ _ i s) by (unfold index_at; by rewrite Hi).
        rewrite (dom_lookup i Hin), (bind_ok _ _ _ (dom c i) s) by done. eauto.
    + exists (fst st). rewrite Hconst, all_sols_none, app_nil_r by congruence. by destruct st.
  - destruct (int_facts a i sons Ha E) as (Hi&Hsl&Hr&Hoi&Hs).
    destruct (Nat.eqb_spec level (nvars c)) as [->|Hl]; [lia|].
    rewrite (bind_ok _ _ _ _ _ (level_s a Ha)). destruct (Nat.ltb_spec level (rk a)) as [Hlt|Hge].
    + destruct Hskip as (j&vars'&Hj&Hin&E'&Hok'&Hag'); [lia|lia|].
      rewrite (bind_ok _ _ _ j s) by (unfold index_at; by rewrite Hj).
      rewrite (dom_lookup j Hin), (bind_ok _ _ _ (dom c j) s) by done. eauto.
    + assert (rk a = level) as Elev by lia. rewrite Elev in Hoi.
      destruct (all_loop_ok (satisfy_all_impl c fuel v (S level)) (drop (S level) order) i (nval a) Hi
        (take_drop_notin _ _ Hoi) (drop_elem (S level)) sons 0 st Hv) as (vars'&E'&Hok'&Hag').
      { lia. }
      { intros j b Hj st' Hst' Hsi. assert (Hb : b ∈ sons) by (by eapply elem_of_list_lookup_2).
        destruct (Hs b Hb) as [Hbh Hbr].
        destruct (IH (S level) st' b Hbh ltac:(lia) ltac:(lia) Hst') as (vars'&E1&Hok1&Hag1).
        exists vars'. split_and!; [|done|done]. rewrite E1. f_equal. f_equal. f_equal. destruct Hst' as [Hl' Hv'].
        apply all_sols_ext.
        - intros x Hx. apply drop_elem in Hx. lia.
        - intros vals Hvl Hag Hd. symmetry. eapply nval_int; [done| |done|].
          + intros x Hx. destruct (decide (x ∈ drop (S level) order)); [auto|]. specialize (Hag x ltac:(done)).
            rewrite !of_vals_lookup in Hag by lia. injection Hag as ->. auto.
          + pose proof (Hag i (take_drop_notin _ _ Hoi)) as Ei. rewrite Hsi in Ei.
            rewrite (nth_lookup_Some _ _ 0 _ Ei : of_vals vals i = 0 + j). done. }
      exists vars'. rewrite (drop_S _ _ _ Hoi). rewrite Hsl in E'. cbn [all_sols]. done.
Qed.

Definition value_ok : Prop := match c_fixed c with Some m => c_dbg c = false \/ (v < m)%Z | None => True end.

Lemma value_check_ok t : value_ok -> value_check c v t = Ok tt t.
Proof.
  unfold value_ok, value_check. destruct (c_fixed c) as [m|]; [|done]. intros [->|H]; [done|].
  destruct (Z.ltb_spec v m); [|lia]. simpl. by rewrite andb_false_r.
Qed.

Lemma zeros_ok : vals_ok c (replicate (nvars c) 0).
Proof.
  split; [apply replicate_length|]. intros i Hi. unfold of_vals.
  rewrite (nth_lookup_Some _ _ _ 0); [by apply (wc_dom _ Hc)|]. by apply lookup_replicate_2.
Qed.

Lemma satisfy_all_ok a : held a -> value_ok ->
  satisfy_all c v a s = Ok (all_sols c order (replicate (nvars c) 0) (nval a) v) s.
Proof.
  intros Ha Hok. unfold satisfy_all. rewrite (bind_ok _ _ _ _ _ (value_check_ok s Hok)).
  destruct (satisfy_all_impl_ok (depth c) 0 (replicate (nvars c) 0, []) a Ha) as (vars'&E&_); [lia|unfold depth; lia|apply zeros_ok|].
  rewrite (bind_ok _ _ _ _ _ E). simpl. rewrite drop_0. done.
Qed.

(** ** satisfy_one *)

Lemma satisfy_one_impl_ok fuel : forall vars a, held a -> nvars c - rk a < fuel -> vals_ok c vars ->
  exists vars' b, satisfy_one_impl fuel v vars a s = Ok (vars', b) s /\ vals_ok c vars' /\
    (forall x, x ∉ drop (rk a) order -> vars' !! x = vars !! x) /\
    if b : bool then nval a (of_vals vars') = v else forall rho, valid c rho -> nval a rho <> v.
Proof.
  induction fuel as [|fuel IH]; intros vars a Ha Hf Hv; [lia|]. cbn [satisfy_one_impl].
  destruct (getn_s a Ha) as (n&G&E). rewrite (bind_ok _ _ _ _ _ G).
  destruct (n_body n) as [w|i sons].
  - exists vars, (w =? v)%Z. split_and!; try done. destruct (Z.eqb_spec w v) as [->|Hne].
    + apply nval_term; [done|apply Hv|done].
    + intros rho Hr. by rewrite (nval_term a rho w).
  - destruct (int_facts a i sons Ha E) as (Hi&Hsl&Hr&Hoi&Hs).
    assert (Hloop : forall rest k vars, vals_ok c vars -> drop k sons = rest -> k + length rest = dom c i ->
      exists vars' b, first_son (satisfy_one_impl fuel v) i vars k rest s = Ok (vars', b) s /\ vals_ok c vars' /\
        (forall x, x ∉ drop (rk a) order -> vars' !! x = vars !! x) /\
        if b : bool then nval a (of_vals vars') = v
        else forall rho j, valid c rho -> rho i = j -> k <= j -> nval a rho <> v).
    { induction rest as [|b rest IHr]; intros k vs Hvs Hd Hk; cbn [first_son].
      - exists vs, false. split_and!; try done. intros rho j Hrho Hj Hkj. specialize (Hrho i Hi). simpl in Hk. lia.
      - assert (Hbk : sons !! k = Some b) by (rewrite <- (Nat.add_0_r k), <- lookup_drop, Hd; done).
        assert (Hrest : drop (S k) sons = rest).
        { rewrite (drop_S _ _ _ Hbk) in Hd. congruence. }
        simpl in Hk. assert (Hb : b ∈ sons) by (by eapply elem_of_list_lookup_2). destruct (Hs b Hb) as [Hbh Hbr].
        destruct Hvs as [Hl Hvs].
        rewrite (bind_ok _ _ _ (of_vals vs i) s) by (rewrite of_vals_lookup by lia; done).
        destruct (IH (<[i:=k]> vs) b Hbh ltac:(lia)) as (vars1&b1&E1&Hok1&Hag1&Hb1).
        { apply vals_ok_insert; [done|done|lia]. }
        rewrite (bind_ok _ _ _ _ _ E1). simpl.
        assert (Hnd : forall x, x ∉ drop (rk a) order -> x ∉ drop (rk b) order).
        { intros x Hx Hin. apply Hx. apply elem_of_list_lookup in Hin as (j&Hj). rewrite lookup_drop in Hj.
          apply elem_of_list_lookup. exists (rk b - rk a + j). rewrite lookup_drop. rewrite <- Hj. f_equal. lia. }
        assert (Hni : i ∉ drop (rk b) order).
        { intros Hin. apply (take_drop_notin _ _ Hoi). apply elem_of_list_lookup in Hin as (j&Hj). rewrite lookup_drop in Hj.
          apply elem_of_list_lookup. exists (rk b - S (rk a) + j). rewrite lookup_drop. rewrite <- Hj. f_equal. lia. }
        assert (Hxi : forall x, x ∉ drop (rk a) order -> x <> i).
        { intros x Hx ->. apply Hx. rewrite (drop_S _ _ _ Hoi). set_solver. }
        assert (Hag1' : forall x, x ∉ drop (rk a) order -> vars1 !! x = vs !! x).
        { intros x Hx. rewrite Hag1 by auto. apply list_lookup_insert_ne. intros <-. by apply (Hxi i). }
        destruct b1.
        + exists vars1, true. split_and!; try done.
          rewrite <- Hb1. eapply nval_int; [done|apply Hok1|done|].
          pose proof (Hag1 i Hni) as Ei. rewrite list_lookup_insert in Ei by lia.
          rewrite (nth_lookup_Some _ _ 0 _ Ei : of_vals vars1 i = k). done.
        + destruct (IHr (S k) vars1 Hok1 Hrest ltac:(lia)) as (vars2&b2&E2&Hok2&Hag2&Hb2).
          exists vars2, b2. split_and!; [done|done| |].
          * intros x Hx. rewrite Hag2 by done. auto.
          * destruct b2; [done|]. intros rho j Hrho Hj Hkj. destruct (decide (j = k)) as [->|Hne].
            -- rewrite (nval_int a rho i sons b Ha Hrho E); [by apply Hb1|]. by rewrite Hj.
            -- apply (Hb2 rho j); [done|done|lia]. }
    destruct (Hloop sons 0 vars Hv eq_refl ltac:(lia)) as (vars'&b&E'&Hok'&Hag'&Hb'). exists vars', b. split_and!; try done.
    destruct b; [done|]. intros rho Hrho. apply (Hb' rho (rho i)); [done|done|lia].
Qed.

Lemma satisfy_one_ok a : held a -> value_ok ->
  exists r, satisfy_one c v a s = Ok r s /\
    match r with
    | Some vals => vals_ok c vals /\ nval a (of_vals vals) = v
    | None => forall rho, valid c rho -> nval a rho <> v
    end.
Proof.
  intros Ha Hok. unfold satisfy_one. rewrite (bind_ok _ _ _ _ _ (value_check_ok s Hok)).
  destruct (satisfy_one_impl_ok (depth c) (replicate (nvars c) 0) a Ha) as (vars'&b&E&Hv&_&Hb); [unfold depth; lia|apply zeros_ok|].
  rewrite (bind_ok _ _ _ _ _ E). simpl. eexists. split; [done|]. destruct b; [done|done].
Qed.
End all.

(** ** Traversals of a clean manager *)
Context (Cl : clean s).

Lemma held_uniform a : held a -> uniform s a false.
Proof.
  intros Ha x Hx. destruct (held_body x (held_reach _ _ _ _ Ha Hx)) as [b E]. unfold live in E.
  destruct (h !! x) as [n|] eqn:En; [|done]. destruct (n_used n) eqn:U; [|done]. exists n. split_and!; try done.
  destruct (n_mark n) eqn:M; [|done]. exfalso. apply (Cl x). by exists n.
Qed.

Lemma held_ranked a : held a -> ranked s a rk (nvars c).
Proof.
  intros Ha x i sons y Hx E Hy. destruct (int_facts x i sons (held_reach _ _ _ _ Ha Hx) E) as (_&_&_&_&Hs).
  by apply Hs.
Qed.

Lemma node_count_ok a : held a -> exists D, NoDup D /\ (forall x, x ∈ D <-> reach L a x) /\
  diagram_node_count c a s = Ok (Z.of_nat (length D)) s.
Proof.
  intros Ha. unfold diagram_node_count.
  destruct (traverse_pre_spec s a false rk (nvars c) (held_uniform a Ha) (held_ranked a Ha) c
    (fun k _ => ret (k + 1)%Z) (fun D acc => acc = Z.of_nat (length D)) ltac:(lia) 0%Z) as (D&acc'&E&->&ND&HD).
  - intros V D acc x _ _ ->. eexists. split; [done|]. rewrite app_length. simpl. lia.
  - done.
  - exists D. done.
Qed.

Lemma dependency_ok a : held a -> exists l, get_dependency_set c a s = Ok l s /\ NoDup l /\
  forall i, i ∈ l <-> exists x sons, reach L a x /\ L x = Some (Int i sons).
Proof.
  intros Ha. unfold get_dependency_set.
  destruct (traverse_pre_spec s a false rk (nvars c) (held_uniform a Ha) (held_ranked a Ha) c dependency_op
    (fun D st => NoDup (snd st) /\ length (fst st) = nvars c /\
       (forall i, i < nvars c -> fst st !! i = Some (bool_decide (i ∈ snd st))) /\
       forall i, i ∈ snd st <-> exists x sons, x ∈ D /\ L x = Some (Int i sons)) ltac:(lia) (replicate (nvars c) false, []))
    as (D&acc'&E&(N&_&_&H)&ND&HD).
  - intros V D [memo out] x Hx HxD (N&Hl&Hm&H). simpl in *.
    assert (Hxh : held x) by (by eapply held_reach). destruct (getn_at x V Hxh) as (n&G&E).
    unfold dependency_op. rewrite (bind_ok _ _ _ _ _ G). destruct (n_body n) as [w|i sons].
    + eexists. split; [done|]. simpl. split_and!; try done. intros i. rewrite H. split.
      * intros (y&ss&Hy&?). exists y, ss. set_solver.
      * intros (y&ss&[Hy|Hy]%elem_of_app&Ey); [by exists y, ss|]. apply elem_of_list_singleton in Hy as ->. congruence.
    + destruct (int_facts x i sons Hxh E) as (Hi&_). simpl. rewrite (Hm i Hi).
      rewrite (bind_ok _ _ _ (bool_decide (i ∈ out)) (fs V s)) by done.
      assert (H' : forall j, (j ∈ out \/ j = i) <-> exists y ss, y ∈ D ++ [x] /\ L y = Some (Int j ss)).
      { intros j. rewrite H. split.
        - intros [(y&ss&Hy&?)| ->]; [exists y, ss; set_solver|exists x, sons; set_solver].
        - intros (y&ss&[Hy|Hy]%elem_of_app&Ey); [left; by exists y, ss|]. apply elem_of_list_singleton in Hy as ->.
          right. congruence. }
      eexists. split; [done|]. simpl. case_bool_decide as Hin.
      * split_and!; [done|by rewrite insert_length| |].
        -- intros j Hj. destruct (decide (j = i)) as [->|Hne].
           ++ rewrite list_lookup_insert by lia. by rewrite bool_decide_eq_true_2.
           ++ rewrite list_lookup_insert_ne by done. auto.
        -- intros j. rewrite <- H'. set_solver.
      * split_and!; [apply NoDup_app; split_and!; [done|set_solver|apply NoDup_singleton]|by rewrite insert_length| |].
        -- intros j Hj. destruct (decide (j = i)) as [->|Hne].
           ++ rewrite list_lookup_insert by lia. rewrite bool_decide_eq_true_2; [done|set_solver].
           ++ rewrite list_lookup_insert_ne, Hm by done. f_equal. apply bool_decide_ext. set_solver.
        -- intros j. rewrite <- H'. set_solver.
  - simpl. split_and!; [constructor|apply replicate_length| |].
    + intros i Hi. rewrite lookup_replicate_2 by done. done.
    + intros i. split; [by intros ?%elem_of_nil|]. intros (x&?&Hx&_). by apply elem_of_nil in Hx.
  - rewrite (bind_ok _ _ _ _ _ E). eexists. split; [done|]. split; [done|]. intros i. rewrite H. split; intros (x&ss&Hx&?); exists x, ss;
      (split; [by apply HD|done]).
Qed.

(** ** satisfy_count *)
Section count.
Context (v : Z) (Hfit : (Z.of_nat (prodl c order) <= product_limit c)%Z).

Local Lemma rho0_valid : valid c (fun _ => 0).
Proof. intros i Hi. by apply (wc_dom _ Hc). Qed.

(** solutions below the level of the node *)
Definition alpha (x : positive) : nat := ways c (drop (rk x) order) (nval x) v (fun _ => 0).

Lemma alpha_at x rho : held x -> valid c rho -> ways c (drop (rk x) order) (nval x) v rho = alpha x.
Proof.
  intros Hx Hv. apply ways_ext; [done|apply rho0_valid|]. intros tau tau' Ht Ht' _ _ H.
  by apply (nval_depends x (rk x) Hx ltac:(lia)).
Qed.

(** from a higher level *)
Lemma ways_level x l rho : held x -> l <= rk x -> valid c rho ->
  Z.of_nat (ways c (drop l order) (nval x) v rho) = (Z.of_nat (alpha x) * level_product c order l (rk x))%Z.
Proof.
  intros Hx Hl Hv. unfold level_product.
  assert (E : drop l order = take (rk x - l) (drop l order) ++ drop (rk x) order).
  { rewrite <- (take_drop (rk x - l) (drop l order)) at 1. f_equal. rewrite drop_drop. f_equal. lia. }
  rewrite E at 1. rewrite ways_skip; [rewrite alpha_at by done; lia|done|by apply nval_depends|].
  intros i Hi. apply elem_of_take in Hi as (j&Hj&_). rewrite lookup_drop in Hj. apply (wc_dom _ Hc). apply order_elem.
  by eapply elem_of_list_lookup_2.
Qed.

Lemma drop_prod l : prodl c (drop l order) <= prodl c order.
Proof.
  rewrite <- (take_drop l order) at 2. rewrite prodl_app.
  assert (1 <= prodl c (take l order)); [|nia]. apply prodl_pos; [done|].
  intros i Hi. apply elem_of_take in Hi as (j&Hj&_). apply order_elem. by eapply elem_of_list_lookup_2.
Qed.

Lemma level_product_le l l' : (level_product c order l l' <= Z.of_nat (prodl c order))%Z.
Proof.
  unfold level_product. apply Nat2Z.inj_le. etransitivity; [|apply (drop_prod l)].
  rewrite <- (take_drop (l' - l) (drop l order)) at 2. rewrite prodl_app.
  assert (1 <= prodl c (drop (l' - l) (drop l order))); [|nia]. apply prodl_pos; [done|].
  intros i Hi. rewrite drop_drop in Hi. by apply drop_elem in Hi.
Qed.

Lemma limit64 : (product_limit c <= max64)%Z.
Proof. unfold product_limit. destruct (c_fixed c) as [m|]; [|done]. by destruct (m =? 2)%Z. Qed.

Lemma chk64 z : (0 <= z <= Z.of_nat (prodl c order))%Z -> chk min64 max64 z = Some z.
Proof.
  intros Hz. pose proof limit64. unfold chk. change min64 with (-9223372036854775808)%Z.
  destruct (Z.leb_spec (-9223372036854775808) z); [|lia]. destruct (Z.leb_spec z max64); [done|lia].
Qed.

(** one node *)
Definition counted (D : list positive) (data : gmap positive Z) : Prop :=
  forall x, x ∈ D -> data !! x = Some (Z.of_nat (alpha x)).

Lemma count_op_ok V D data a : held a -> a ∉ D -> sons_in s a D -> counted D data ->
  exists data', count_op c v data a (fs V s) = Ok data' (fs V s) /\ counted (D ++ [a]) data'.
Proof.
  intros Ha HaD Hs Hcd. unfold count_op. destruct (getn_at a V Ha) as (n&G&E). rewrite (bind_ok _ _ _ _ _ G).
  destruct (n_body n) as [w|i sons].
  - eexists. split; [done|]. intros x [Hx|Hx]%elem_of_app.
    + rewrite lookup_insert_ne by set_solver. auto.
    + apply elem_of_list_singleton in Hx as ->. rewrite lookup_insert. f_equal. unfold alpha.
      rewrite (rank_term c g _ _ _ Hq E), drop_ge by (rewrite (pm_l2i _ _ Pm); lia). cbn [ways].
      rewrite (nval_term a _ w Ha rho0_valid E). by destruct (w =? v)%Z.
  - rewrite (bind_ok _ _ _ _ _ (level_at a V Ha)).
    destruct (int_facts a i sons Ha E) as (Hi&Hsl&Hr&Hoi&Hson).
    (* the ways through the first k sons *)
    set (W := fun k => ways c (drop (S (rk a)) order) (nval a) v (upd (fun _ => 0) i k)).
    assert (Hloop : forall rest k data acc, drop k sons = rest -> k + length rest = dom c i ->
      counted D data -> data !! a = Some (Z.of_nat acc) ->
      acc + list_sum (map W (seq k (length rest))) <= prodl c order ->
      exists data', foldM (fun data b =>
          let* lb := get_level c b in
          let* diff := domain_product c (S (rk a)) lb in
          let* x := of_opt EOverflow (chk min64 max64 (data_at data b * diff)) in
          let* y := of_opt EOverflow (chk min64 max64 (data_at data a + x)) in
          ret (<[a := y]> data)) data rest (fs V s) = Ok data' (fs V s) /\ counted D data' /\
        data' !! a = Some (Z.of_nat (acc + list_sum (map W (seq k (length rest)))))).
    { induction rest as [|b rest IHr]; intros k dt acc Hd Hk Hcnt Hacc Hle; cbn [foldM].
      - exists dt. split_and!; try done. rewrite Hacc. simpl. do 2 f_equal. lia.
      - assert (Hbk : sons !! k = Some b) by (rewrite <- (Nat.add_0_r k), <- lookup_drop, Hd; done).
        assert (Hrest : drop (S k) sons = rest).
        { rewrite (drop_S _ _ _ Hbk) in Hd. congruence. }
        cbn [length seq map] in Hk, Hle |- *. rewrite lsum_cons in Hle |- *.
        assert (Hb : b ∈ sons) by (by eapply elem_of_list_lookup_2). destruct (Hson b Hb) as [Hbh Hbr].
        assert (Hv : valid c (upd (fun _ => 0) i k)) by (apply upd_valid; [apply rho0_valid|lia]).
        assert (EW : Z.of_nat (W k) = (Z.of_nat (alpha b) * level_product c order (S (rk a)) (rk b))%Z).
        { rewrite <- (ways_level b (S (rk a)) (upd (fun _ => 0) i k)) by (done || lia). unfold W. f_equal.
          apply ways_ext; [done..|]. intros tau tau' Ht Ht' H1 H2 H3.
          assert (Hti : tau i = k).
          { rewrite H1 by (by apply take_drop_notin). apply upd_same. }
          rewrite (nval_int a tau i sons b); [|done|done|done|by rewrite Hti].
          apply (nval_depends b (S (rk a)) Hbh ltac:(lia)); done. }
        assert (HD : domain_product c (S (rk a)) (rk b) (fs V s) = Ok (level_product c order (S (rk a)) (rk b)) (fs V s)).
        { apply (domain_product_ok (fs V s)); [done| |lia|].
          - apply (perm_same c s); [done|done|apply Pm].
          - etransitivity; [apply level_product_le|done]. }
        assert (Hdb : data_at dt b = Z.of_nat (alpha b)).
        { unfold data_at. rewrite Hcnt; [done|]. by apply (Hs i sons). }
        assert (Hda : data_at dt a = Z.of_nat acc) by (unfold data_at; by rewrite Hacc).
        destruct (IHr (S k) (<[a := Z.of_nat (acc + W k)]> dt) (acc + W k)) as (data'&E'&Hc'&Ha').
        { done. }
        { lia. }
        { intros x Hx. rewrite lookup_insert_ne by set_solver. auto. }
        { by rewrite lookup_insert. }
        { lia. }
        exists data'. split_and!; [|done|rewrite Ha'; do 2 f_equal; lia].
        rewrite <- E'. unfold bind at 1. unfold bind at 1. rewrite (level_at b V Hbh).
        unfold bind at 1. rewrite HD. rewrite Hdb, Hda, <- EW.
        rewrite chk64 by lia. unfold bind at 1. cbn [of_opt ret]. rewrite chk64 by lia. cbn [of_opt ret bind].
        replace (Z.of_nat acc + Z.of_nat (W k))%Z with (Z.of_nat (acc + W k)) by lia. done. }
    assert (EA : alpha a = list_sum (map W (seq 0 (dom c i)))).
    { unfold alpha. rewrite (drop_S _ _ _ Hoi). done. }
    destruct (Hloop sons 0 (<[a := 0%Z]> data) 0 eq_refl ltac:(lia)) as (data'&E'&Hc'&Ha').
    { intros x Hx. rewrite lookup_insert_ne by set_solver. auto. }
    { by rewrite lookup_insert. }
    { rewrite Hsl, <- EA. unfold alpha. simpl. etransitivity; [apply ways_le|apply drop_prod]. }
    exists data'. split; [done|]. intros x [Hx|Hx]%elem_of_app; [auto|].
    apply elem_of_list_singleton in Hx as ->. rewrite Ha', Hsl, EA. done.
Qed.

Lemma satisfy_count_ok a : held a -> value_ok v ->
  satisfy_count c v a s = Ok (Z.of_nat (length (all_sols c order (replicate (nvars c) 0) (nval a) v))) s.
Proof.
  intros Ha Hok. unfold satisfy_count. rewrite (bind_ok _ _ _ _ _ (value_check_ok v s Hok)).
  destruct (traverse_post_spec s a false rk (nvars c) (held_uniform a Ha) (held_ranked a Ha) c (count_op c v) counted
    ltac:(lia) ∅) as (D&data&E&Hcd&ND&HD).
  - intros V D acc x Hx HxD Hs Hacc. apply count_op_ok; try done. by eapply held_reach.
  - intros x Hx. by apply elem_of_nil in Hx.
  - rewrite (bind_ok _ _ _ _ _ E), (bind_ok _ _ _ _ _ (level_s a Ha)).
    rewrite (bind_ok _ _ _ _ _ (domain_product_ok s 0 (rk a) Hc Pm ltac:(pose proof (held_rank a Ha); lia)
      ltac:(etransitivity; [apply level_product_le|done]))).
    unfold data_at. rewrite (Hcd a ltac:(apply HD; constructor)). simpl.
    rewrite ways_sols; [|apply order_NoDup|apply zeros_ok|intros i; apply order_elem|by apply nval_depends_all].
    pose proof (ways_level a 0 (of_vals (replicate (nvars c) 0)) Ha ltac:(lia) ltac:(apply zeros_ok)) as EW.
    rewrite drop_0 in EW. rewrite <- EW, chk64; [done|]. split; [lia|]. apply Nat2Z.inj_le, ways_le.
Qed.
End count.

End proof.
