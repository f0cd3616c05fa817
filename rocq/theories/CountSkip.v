(** * satisfy_count on edges that skip 64 levels or more *)

From stdpp Require Import gmap list.
From Coq Require Import ZArith Lia.
From Verif Require Import Base Ops Tables NodeManager Tools Sift DiagramManager Queries.
From Verif Require Import Heap Inv InvLemmas Prim GC Make Build Canon Apply Api VecSpec Vec Eval Trav QuerySpec QueryProof Minimal.

Local Open Scope nat_scope.

(** ** An operation that remembers that it has overflowed *)
Section latch.
Context {T : Type} (op : T -> positive -> M T).

Definition latch (acc : option T) (a : positive) : M (option T) := fun s =>
  match acc with
  | None => Ok None s
  | Some d => match op d a s with Ok d' s' => Ok (Some d') s' | Err EOverflow => Ok None s | Err e => Err e | Fuel => Fuel end
  end.

(** [r]: what the operation itself returns, [q]: what the one above returns *)
Definition same_as (r : res T) (q : res (option T)) : Prop :=
  match q with Ok (Some d) s => r = Ok d s | Ok None _ => r = Err EOverflow | _ => True end.
Definition stays (q : res (option T)) : Prop := match q with Ok (Some _) _ => False | _ => True end.

Lemma latch_op acc a s : same_as (op acc a s) (latch (Some acc) a s).
Proof. unfold same_as, latch. destruct (op acc a s) as [d s'|[]|]; done. Qed.

Lemma foldM_stays (f : option T -> positive -> M (option T)) l : (forall b s, stays (f None b s)) ->
  forall s, stays (foldM f None l s).
Proof.
  intros H. induction l as [|b l IH]; intros s; [done|]. cbn [foldM]. unfold bind. specialize (H b s).
  destruct (f None b s) as [[d|] s'|e|]; [done|apply IH|done|done].
Qed.

Lemma foldM_latch (f : T -> positive -> M T) (f' : option T -> positive -> M (option T)) l :
  (forall b s, stays (f' None b s)) -> (forall d b s, same_as (f d b s) (f' (Some d) b s)) ->
  forall d s, same_as (foldM f d l s) (foldM f' (Some d) l s).
Proof.
  intros H1 H2. induction l as [|b l IH]; intros d s; [done|]. cbn [foldM]. unfold bind.
  specialize (H2 d b s). unfold same_as in H2. destruct (f' (Some d) b s) as [[d'|] s'|e|]; [| |done|done].
  - rewrite H2. apply IH.
  - rewrite H2. pose proof (foldM_stays f' l H1 s') as X. unfold same_as, stays in *.
    destruct (foldM f' None l s') as [[?|] ?|?|]; done.
Qed.

Lemma trav_stays fuel : forall a s, stays (trav_post latch fuel None a s).
Proof.
  induction fuel as [|fuel IH]; intros a s; [done|]. cbn [trav_post]. unfold bind.
  destruct (toggle_mark a s) as [[] s1|e|]; [|done|done]. destruct (getn a s1) as [n s2|e|]; [|done|done].
  destruct (n_body n) as [w|i sons]; [done|].
  pose proof (foldM_stays (fun acc b => let* d := marks_differ a b in if d : bool then trav_post latch fuel acc b else ret acc) sons) as X.
  assert (Y : forall s, stays (foldM (fun acc b => let* d := marks_differ a b in if d : bool then trav_post latch fuel acc b else ret acc) None sons s)).
  { apply X. intros b t. unfold bind. destruct (marks_differ a b t) as [[] t'|e|]; [apply IH|done|done|done]. }
  specialize (Y s2). unfold bind in Y. destruct (foldM _ None sons s2) as [[d|] s3|e|]; done.
Qed.

Lemma trav_latch fuel : forall acc a s, same_as (trav_post op fuel acc a s) (trav_post latch fuel (Some acc) a s).
Proof.
  induction fuel as [|fuel IH]; intros acc a s; [done|]. cbn [trav_post]. unfold bind.
  destruct (toggle_mark a s) as [[] s1|e|]; [|done|done]. destruct (getn a s1) as [n s2|e|]; [|done|done].
  destruct (n_body n) as [w|i sons]; [apply latch_op|].
  assert (Y : same_as (foldM (fun acc b => let* d := marks_differ a b in if d : bool then trav_post op fuel acc b else ret acc) acc sons s2)
    (foldM (fun acc b => let* d := marks_differ a b in if d : bool then trav_post latch fuel acc b else ret acc) (Some acc) sons s2)).
  { apply foldM_latch.
    - intros b t. unfold bind. destruct (marks_differ a b t) as [[] t'|e|]; [apply trav_stays|done|done|done].
    - intros d b t. unfold bind. destruct (marks_differ a b t) as [[] t'|e|]; [apply IH|done|done|done]. }
  unfold bind in Y. unfold same_as in Y at 1.
  destruct (foldM _ (Some acc) sons s2) as [[d|] s3|e|]; [rewrite Y; apply latch_op|by rewrite Y|done|done].
Qed.

Lemma traverse_latch c acc a s s' : traverse_post c latch (Some acc) a s = Ok None s' ->
  traverse_post c op acc a s = Err EOverflow.
Proof.
  unfold traverse_post, bind. intros E. pose proof (trav_latch (depth c) acc a s) as X. unfold same_as in X.
  destruct (trav_post latch (depth c) (Some acc) a s) as [[d|] s1|e|]; [|by rewrite X|done|done].
  destruct (trav_post no_op (depth c) tt a s1) as [[] s2|e|]; done.
Qed.
End latch.

Section skip.
Context (c : cfg) (opsem : Z -> option (Z -> Z -> Z)) (strict : bool).
Context (g : ghost) (s : st) (Hc : wf_cfg c) (C : calm c opsem strict g s) (Cl : clean s).
Notation L := (live (s_heap s)).
Notation order := (s_l2i s).
Notation rk := (rank c g (s_heap s)).
Notation held := (held g (s_heap s)).
Notation nval := (nval c s).
Context (Hbdd : c_fixed c = Some 2%Z).

(** an edge from [x] that skips 64 levels or more *)
Definition long (x : positive) : Prop :=
  exists i sons y, L x = Some (Int i sons) /\ y ∈ sons /\ 64 <= rk y - S (rk x).

(** the body of the loop over the sons *)
Definition son_step (a : positive) (l : nat) : gmap positive Z -> positive -> M (gmap positive Z) := fun data b =>
  let* lb := get_level c b in
  let* diff := domain_product c (S l) lb in
  let* x := of_opt EOverflow (chk min64 max64 (data_at data b * diff)%Z) in
  let* y := of_opt EOverflow (chk min64 max64 (data_at data a + x)%Z) in
  ret (<[a := y]> data).

Lemma son_step_out a l data b t : get_level c b t = Ok (rk b) t ->
  son_step a l data b t = Err EOverflow \/ ((exists d, son_step a l data b t = Ok d t) /\ (S l <= rk b -> rk b - S l < 64)).
Proof.
  intros E. unfold son_step. rewrite (bind_ok _ _ _ _ _ E). unfold domain_product. rewrite Hbdd.
  change (2 =? 2)%Z with true. cbv iota. unfold shift64.
  destruct (Z.leb_spec 0 (Z.of_nat (rk b) - Z.of_nat (S l))); [|by left].
  destruct (Z.ltb_spec (Z.of_nat (rk b) - Z.of_nat (S l)) 64); [|by left]. cbn [andb].
  unfold bind, of_opt, ret. generalize (if (Z.of_nat (rk b) - Z.of_nat (S l) =? 63)%Z then min64 else (2 ^ (Z.of_nat (rk b) - Z.of_nat (S l)))%Z). intros z.
  destruct (chk min64 max64 (data_at data b * z)%Z) as [x|]; [|by left].
  destruct (chk min64 max64 (data_at data a + x)%Z) as [y|]; [|by left].
  right. split; [eexists; reflexivity|lia].
Qed.

Lemma sons_out a l sons t : (forall b, b ∈ sons -> get_level c b t = Ok (rk b) t) -> forall data,
  foldM (son_step a l) data sons t = Err EOverflow \/
  ((exists d, foldM (son_step a l) data sons t = Ok d t) /\ forall b, b ∈ sons -> S l <= rk b -> rk b - S l < 64).
Proof.
  induction sons as [|b sons IH]; intros H data; cbn [foldM].
  - right. split; [by exists data|]. intros b Hb. by apply elem_of_nil in Hb.
  - unfold bind. destruct (son_step_out a l data b t (H b ltac:(constructor))) as [->|[[d ->] Hs]]; [by left|].
    destruct (IH ltac:(intros; apply H; by constructor) d) as [->|[[d' ->] Hs']]; [by left|]. right. split; [by eexists|].
    intros b' [->|Hb]%elem_of_cons; auto.
Qed.

Lemma count_op_out v V data x : held x ->
  count_op c v data x (fs V s) = Err EOverflow \/ ((exists d, count_op c v data x (fs V s) = Ok d (fs V s)) /\ ~ long x).
Proof.
  intros Hx. unfold count_op. destruct (getn_at c opsem strict g s C x V Hx) as (n&G&E). rewrite (bind_ok _ _ _ _ _ G).
  destruct (n_body n) as [w|i sons].
  - right. split; [by eexists|]. intros (i&sons&y&E'&_). congruence.
  - rewrite (bind_ok _ _ _ _ _ (level_at c opsem strict g s C x V Hx)).
    destruct (int_facts c opsem strict g s C x i sons Hx E) as (_&_&_&_&Hs).
    destruct (sons_out x (rk x) sons (fs V s)) with (data := <[x := 0%Z]> data) as [X|[X Y]].
    + intros b Hb. apply (level_at c opsem strict g s C). by apply Hs.
    + left. exact X.
    + right. split; [exact X|]. intros (i'&sons'&y&E'&Hy&Hl). rewrite E in E'. injection E' as <- <-.
      pose proof (Y y Hy). destruct (Hs y Hy). lia.
Qed.

Lemma count_overflow v a x : held a -> value_ok c v -> reach L a x -> long x -> satisfy_count c v a s = Err EOverflow.
Proof.
  intros Ha Hv Hx Hl. unfold satisfy_count. rewrite (bind_ok _ _ _ _ _ (value_check_ok c v s Hv)).
  destruct (traverse_post_spec s a false rk (nvars c) (held_uniform c opsem strict g s C Cl a Ha) (held_ranked c opsem strict g s C a Ha)
    c (latch (count_op c v)) (fun D acc => acc = None \/ forall y, y ∈ D -> ~ long y) ltac:(lia) (Some ∅)) as (D&acc&E&HP&_&HD).
  - intros V D acc y Hy _ _ HP. destruct acc as [data|]; [|exists None; split; [done|by left]].
    destruct HP as [HP|HP]; [done|].
    destruct (count_op_out v V data y ltac:(by eapply held_reach)) as [X|[[d X] Y]].
    + exists None. split; [|by left]. unfold latch. by rewrite X.
    + exists (Some d). split; [unfold latch; by rewrite X|]. right. intros z [Hz|Hz]%elem_of_app; [by apply HP|].
      by apply elem_of_list_singleton in Hz as ->.
  - right. intros y Hy. by apply elem_of_nil in Hy.
  - destruct HP as [->|HP]; [|by destruct (HP x); [apply HD|]].
    unfold bind. by rewrite (traverse_latch _ _ _ _ _ _ E).
Qed.

(** ** Counting without such edges: right whenever the number of solutions fits *)
Section short.
Context (v : Z) (a : positive) (Ha : held a).
Context (Hshort : forall x, reach L a x -> ~ long x) (Hroot : rk a < 64).
Notation alpha := (alpha c g s v).
Notation total := (ways c order (nval a) v (fun _ => 0)).
Context (Hfit : (Z.of_nat total <= max64)%Z).

Local Lemma zero_valid : valid c (fun _ => 0).
Proof. intros i Hi. by apply (wc_dom _ Hc). Qed.

Lemma product_bdd l l' : l <= l' <= nvars c -> level_product c order l l' = (2 ^ Z.of_nat (l' - l))%Z.
Proof.
  intros Hl. unfold level_product. rewrite (prodl_fixed c opsem _ 2 Hc Hbdd).
  - f_equal. rewrite take_length, drop_length.
    pose proof (pm_l2i _ _ (proj1 (cl_ord _ _ _ _ _ C))). lia.
  - intros i Hi. apply elem_of_take in Hi as (j&Hj&_). apply (drop_elem c opsem strict g s C l). by eapply elem_of_list_lookup_2.
Qed.

(** the product with the shifted 1, also when the shift gives the least number *)
Lemma shift_mul t n l l' : l <= l' <= nvars c -> l' - l < 64 -> (Z.of_nat n * level_product c order l l' <= max64)%Z ->
  exists d, domain_product c l l' t = Ok d t /\ (Z.of_nat n * d = Z.of_nat n * level_product c order l l')%Z.
Proof.
  intros Hl H64. rewrite product_bdd by done. intros Hle. unfold domain_product. rewrite Hbdd. change (2 =? 2)%Z with true. cbv iota.
  unfold shift64. replace (Z.of_nat l' - Z.of_nat l)%Z with (Z.of_nat (l' - l)) by lia.
  destruct (Z.leb_spec 0 (Z.of_nat (l' - l))); [|lia]. destruct (Z.ltb_spec (Z.of_nat (l' - l)) 64); [|lia]. cbn [andb of_opt].
  destruct (Z.eqb_spec (Z.of_nat (l' - l)) 63) as [E|E]; [|by eexists].
  exists min64. split; [done|]. rewrite E in *. change max64 with (2 ^ 63 - 1)%Z in Hle.
  assert (Z.of_nat n = 0%Z) as ->; [|lia]. nia.
Qed.

Lemma alpha_son x i sons b : reach L a x -> L x = Some (Int i sons) -> b ∈ sons -> alpha b <= alpha x.
Proof.
  intros Hx E Hb. assert (Hxh : held x) by by eapply held_reach.
  destruct (int_facts c opsem strict g s C x i sons Hxh E) as (Hi&Hsl&Hr&Hoi&Hson). destruct (Hson b Hb) as [Hbh Hbr].
  apply elem_of_list_lookup in Hb as (k&Hk). assert (Hkd : k < dom c i) by (rewrite <- Hsl; by eapply lookup_lt_Some).
  assert (Hu : valid c (upd (fun _ => 0) i k)) by (apply upd_valid; [apply zero_valid|done]).
  assert (EA : alpha x = list_sum (map (fun k => ways c (drop (S (rk x)) order) (nval x) v (upd (fun _ => 0) i k)) (seq 0 (dom c i)))).
  { unfold QueryProof.alpha. rewrite (drop_S _ _ _ Hoi). done. }
  assert (EW : Z.of_nat (ways c (drop (S (rk x)) order) (nval x) v (upd (fun _ => 0) i k)) =
    (Z.of_nat (alpha b) * level_product c order (S (rk x)) (rk b))%Z).
  { rewrite <- (ways_level c opsem strict g s Hc C v b (S (rk x)) (upd (fun _ => 0) i k)) by (done || lia). f_equal.
    apply ways_ext; [done..|]. intros tau tau' Ht Ht' H1 H2 H3.
    assert (Hti : tau i = k) by (rewrite H1 by (by apply (take_drop_notin c opsem strict g s C)); apply upd_same).
    rewrite (nval_int c opsem strict g s C x tau i sons b); [|done|done|done|by rewrite Hti].
    apply (nval_depends c opsem strict g s C b (S (rk x)) Hbh ltac:(lia)); done. }
  rewrite product_bdd in EW by lia.
  assert (Hp : (1 <= 2 ^ Z.of_nat (rk b - S (rk x)))%Z) by (pose proof (Z.pow_pos_nonneg 2 (Z.of_nat (rk b - S (rk x)))); lia).
  assert (alpha b <= ways c (drop (S (rk x)) order) (nval x) v (upd (fun _ => 0) i k)) by nia.
  rewrite EA. etransitivity; [done|].
  assert (X : forall W m n, m <= k < m + n -> W k <= list_sum (map W (seq m n))).
  { intros W m n. revert m. induction n as [|n IH]; intros m Hm; [lia|]. cbn [seq map]. rewrite lsum_cons.
    destruct (decide (m = k)) as [->|]; [lia|]. specialize (IH (S m) ltac:(lia)). lia. }
  apply (X (fun k => ways c (drop (S (rk x)) order) (nval x) v (upd (fun _ => 0) i k)) 0 (dom c i)). lia.
Qed.

Lemma total_root : (Z.of_nat total = Z.of_nat (alpha a) * level_product c order 0 (rk a))%Z.
Proof.
  rewrite <- (ways_level c opsem strict g s Hc C v a 0 (fun _ => 0)); [by rewrite drop_0|done|lia|apply zero_valid].
Qed.

Lemma alpha_fits x : reach L a x -> (Z.of_nat (alpha x) <= max64)%Z.
Proof.
  intros Hx. assert (alpha x <= alpha a).
  { assert (G : forall y z, reach L y z -> reach L a y -> alpha z <= alpha y).
    { intros y z Hyz. induction Hyz as [y|y w z i sons E Hw Hz IH]; intros Hy; [done|].
      assert (reach L a w) by (eapply reach_trans; [exact Hy|by eapply reach_son]).
      pose proof (alpha_son y i sons w Hy E Hw). specialize (IH ltac:(done)). lia. }
    apply (G a x Hx). constructor. }
  pose proof total_root as E. rewrite product_bdd in E by (pose proof (held_rank c opsem strict g s C a Ha); lia).
  pose proof (Z.pow_pos_nonneg 2 (Z.of_nat (rk a - 0))). nia.
Qed.

Lemma chk_fits z : (0 <= z <= max64)%Z -> chk min64 max64 z = Some z.
Proof.
  intros Hz. unfold chk. change min64 with (-9223372036854775808)%Z.
  destruct (Z.leb_spec (-9223372036854775808) z); [|lia]. destruct (Z.leb_spec z max64); [done|lia].
Qed.

Lemma count_op_short V D data x : reach L a x -> x ∉ D -> sons_in s x D -> counted c g s v D data ->
  exists data', count_op c v data x (fs V s) = Ok data' (fs V s) /\ counted c g s v (D ++ [x]) data'.
Proof.
  intros Hx HxD Hs Hcd. assert (Hxh : held x) by by eapply held_reach.
  unfold count_op. destruct (getn_at c opsem strict g s C x V Hxh) as (n&G&E). rewrite (bind_ok _ _ _ _ _ G).
  destruct (n_body n) as [w|i sons].
  - eexists. split; [done|]. intros y [Hy|Hy]%elem_of_app.
    + rewrite lookup_insert_ne by set_solver. auto.
    + apply elem_of_list_singleton in Hy as ->. rewrite lookup_insert. f_equal. unfold QueryProof.alpha.
      pose proof (pm_l2i _ _ (proj1 (cl_ord _ _ _ _ _ C))) as Hpl.
      rewrite (rank_term c g _ _ _ (cl_quiet _ _ _ _ _ C) E), drop_ge by lia. cbn [ways].
      rewrite (nval_term c opsem strict g s C x _ w Hxh zero_valid E). by destruct (w =? v)%Z.
  - rewrite (bind_ok _ _ _ _ _ (level_at c opsem strict g s C x V Hxh)).
    destruct (int_facts c opsem strict g s C x i sons Hxh E) as (Hi&Hsl&Hr&Hoi&Hson).
    set (W := fun k => ways c (drop (S (rk x)) order) (nval x) v (upd (fun _ => 0) i k)).
    assert (Hloop : forall rest k data acc, drop k sons = rest -> k + length rest = dom c i ->
      counted c g s v D data -> data !! x = Some (Z.of_nat acc) ->
      (Z.of_nat (acc + list_sum (map W (seq k (length rest)))) <= max64)%Z ->
      exists data', foldM (son_step x (rk x)) data rest (fs V s) = Ok data' (fs V s) /\ counted c g s v D data' /\
        data' !! x = Some (Z.of_nat (acc + list_sum (map W (seq k (length rest)))))).
    { induction rest as [|b rest IHr]; intros k dt acc Hd Hk Hcnt Hacc Hle; cbn [foldM].
      - exists dt. split_and!; try done. rewrite Hacc. simpl. do 2 f_equal. lia.
      - assert (Hbk : sons !! k = Some b) by (rewrite <- (Nat.add_0_r k), <- lookup_drop, Hd; done).
        assert (Hrest : drop (S k) sons = rest) by (rewrite (drop_S _ _ _ Hbk) in Hd; congruence).
        cbn [length seq map] in Hk, Hle |- *. rewrite lsum_cons in Hle |- *.
        assert (Hb : b ∈ sons) by (by eapply elem_of_list_lookup_2). destruct (Hson b Hb) as [Hbh Hbr].
        assert (Hv : valid c (upd (fun _ => 0) i k)) by (apply upd_valid; [apply zero_valid|lia]).
        assert (EW : Z.of_nat (W k) = (Z.of_nat (alpha b) * level_product c order (S (rk x)) (rk b))%Z).
        { rewrite <- (ways_level c opsem strict g s Hc C v b (S (rk x)) (upd (fun _ => 0) i k)) by (done || lia). unfold W. f_equal.
          apply ways_ext; [done..|]. intros tau tau' Ht Ht' H1 H2 H3.
          assert (Hti : tau i = k) by (rewrite H1 by (by apply (take_drop_notin c opsem strict g s C)); apply upd_same).
          rewrite (nval_int c opsem strict g s C x tau i sons b); [|done|done|done|by rewrite Hti].
          apply (nval_depends c opsem strict g s C b (S (rk x)) Hbh ltac:(lia)); done. }
        assert (Hsh : rk b - S (rk x) < 64).
        { destruct (decide (rk b - S (rk x) < 64)); [done|]. destruct (Hshort x Hx). exists i, sons, b. split_and!; [done|done|lia]. }
        destruct (shift_mul (fs V s) (alpha b) (S (rk x)) (rk b) ltac:(lia) Hsh ltac:(rewrite <- EW; lia)) as (df&HD&Edf).
        assert (Hdb : data_at dt b = Z.of_nat (alpha b)) by (unfold data_at; rewrite Hcnt; [done|by apply (Hs i sons)]).
        assert (Hda : data_at dt x = Z.of_nat acc) by (unfold data_at; by rewrite Hacc).
        destruct (IHr (S k) (<[x := Z.of_nat (acc + W k)]> dt) (acc + W k)) as (data'&E'&Hc'&Ha').
        { done. }
        { lia. }
        { intros y Hy. rewrite lookup_insert_ne by set_solver. auto. }
        { by rewrite lookup_insert. }
        { lia. }
        exists data'. split_and!; [|done|rewrite Ha'; do 2 f_equal; lia].
        rewrite <- E'. unfold bind at 1. unfold son_step at 1. unfold bind at 1. rewrite (level_at c opsem strict g s C b V Hbh).
        unfold bind at 1. rewrite HD. rewrite Hdb, Hda, Edf, <- EW.
        rewrite chk_fits by lia. unfold bind at 1. cbn [of_opt ret]. rewrite chk_fits by lia. cbn [of_opt ret bind].
        replace (Z.of_nat acc + Z.of_nat (W k))%Z with (Z.of_nat (acc + W k)) by lia. done. }
    assert (EA : alpha x = list_sum (map W (seq 0 (dom c i)))).
    { unfold QueryProof.alpha. rewrite (drop_S _ _ _ Hoi). done. }
    destruct (Hloop sons 0 (<[x := 0%Z]> data) 0 eq_refl ltac:(lia)) as (data'&E'&Hc'&Ha').
    { intros y Hy. rewrite lookup_insert_ne by set_solver. auto. }
    { by rewrite lookup_insert. }
    { rewrite Hsl, <- EA. simpl. by apply alpha_fits. }
    exists data'. split; [exact E'|]. intros y [Hy|Hy]%elem_of_app; [auto|].
    apply elem_of_list_singleton in Hy as ->. rewrite Ha', Hsl, EA. done.
Qed.

Lemma satisfy_count_short : value_ok c v -> satisfy_count c v a s = Ok (Z.of_nat total) s.
Proof.
  intros Hok. unfold satisfy_count. rewrite (bind_ok _ _ _ _ _ (value_check_ok c v s Hok)).
  destruct (traverse_post_spec s a false rk (nvars c) (held_uniform c opsem strict g s C Cl a Ha) (held_ranked c opsem strict g s C a Ha)
    c (count_op c v) (counted c g s v) ltac:(lia) ∅) as (D&data&E&Hcd&ND&HD).
  - intros V D acc x Hx HxD Hs Hacc. by apply count_op_short.
  - intros x Hx. by apply elem_of_nil in Hx.
  - rewrite (bind_ok _ _ _ _ _ E), (bind_ok _ _ _ _ _ (level_s c opsem strict g s C a Ha)).
    pose proof (held_rank c opsem strict g s C a Ha) as Hra.
    destruct (shift_mul s (alpha a) 0 (rk a)) as (d&Ed&Em); [lia|lia|by rewrite <- total_root|].
    assert (Eda : data_at data a = Z.of_nat (alpha a)) by (unfold data_at; by rewrite (Hcd a ltac:(apply HD; constructor))).
    rewrite (bind_ok _ _ _ _ _ Ed), Eda, Em, <- total_root, chk_fits by lia. done.
Qed.
End short.

Context (Hcn : g_cn g = true).

Lemma const_terminal z w : held z -> (forall sigma, valid c sigma -> nval z sigma = w) -> rk z = nvars c.
Proof.
  intros Hz Hw. destruct (held_body c opsem strict g s C z Hz) as [[u|i sons] E].
  - apply (rank_term c g (s_heap s) z u); [apply C|done].
  - exfalso. destruct (int_facts c opsem strict g s C z i sons Hz E) as (Hi&Hsl&_&Ho&Hs).
    destruct (wf_canon _ _ _ _ _ (cl_wf _ _ _ _ _ C) Hcn) as [_ C2]. destruct (not_const_two sons (C2 _ _ _ E)) as (j&k&x&y&Hj&Hk&Hne).
    assert (X : forall m f, sons !! m = Some f -> forall sigma, valid c sigma -> nval f sigma = w).
    { intros m f Hm sigma Hsg. destruct (Hs f ltac:(by eapply elem_of_list_lookup_2)) as [Hfh Hfr].
      assert (Hmd : m < dom c i) by (rewrite <- Hsl; by eapply lookup_lt_Some).
      assert (Hu : valid c (upd sigma i m)) by (by apply upd_valid).
      rewrite <- (Hw (upd sigma i m) Hu), (nval_int c opsem strict g s C z _ i sons f Hz Hu E) by (by rewrite upd_same).
      apply (nval_depends c opsem strict g s C f (S (rk z)) Hfh ltac:(lia)); try done.
      intros q Hq. rewrite upd_other; [done|]. intros ->. by apply (take_drop_notin c opsem strict g s C (rk z) i). }
    apply Hne. apply (nval_canon c opsem strict g s Hc C Hcn).
    + apply (Hs x). by eapply elem_of_list_lookup_2.
    + apply (Hs y). by eapply elem_of_list_lookup_2.
    + intros sigma Hsg. by rewrite (X j x Hj sigma Hsg), (X k y Hk sigma Hsg).
Qed.

(** a variable that decides, with at least 64 levels below it that then do not matter *)
Lemma decided_long a l i k w rho sigma : held a -> order !! l = Some i -> 64 <= nvars c - S l -> k < dom c i ->
  valid c rho ->
  (forall tau, valid c tau -> (forall j, j ∈ take l order -> tau j = rho j) -> tau i = k -> nval a tau = w) ->
  valid c sigma -> (forall j, j ∈ take l order -> sigma j = rho j) -> nval a sigma <> w ->
  exists x, reach L a x /\ long x.
Proof.
  intros Ha Hoi Hfar Hk Hr Hconst Hsg Hag Hne.
  pose proof (order_NoDup c opsem strict g s C) as ND.
  assert (Hln : l < nvars c) by lia.
  assert (Hin : forall j, j ∈ take l order -> j <> i).
  { intros j (q&Hq&?)%elem_of_take ->. pose proof (proj1 (NoDup_alt _) ND _ _ _ Hoi Hq). lia. }
  destruct (descend_ordered c order ND (order_elem c opsem strict g s C) L a (nval a)
    (held_ordered c opsem strict g s C a (nval a) Ha (fun rho Hr => nval_Ev c opsem strict g s C a rho Ha Hr)) l rho ltac:(lia) Hr)
    as (y&Hy&Hlow&HE).
  assert (Hyh : held y) by by eapply held_reach.
  assert (Hi : i < nvars c) by (apply (order_elem c opsem strict g s C); by eapply elem_of_list_lookup_2).
  assert (HEy : forall tau, valid c tau -> (forall j, j ∈ take l order -> tau j = rho j) -> nval y tau = nval a tau).
  { intros tau Ht Hta. apply (Ev_nval c opsem strict g s C); [done|done|]. by apply HE. }
  assert (Hrk : rk y <= l).
  { destruct (decide (rk y <= l)); [done|exfalso]. apply Hne.
    assert (Hu : valid c (upd sigma i k)) by by apply upd_valid.
    rewrite <- (Hconst (upd sigma i k)); [|done| |by rewrite upd_same].
    - rewrite <- HEy by done. rewrite <- HEy; [|done|].
      + apply (nval_depends c opsem strict g s C y (S l) Hyh ltac:(lia)); try done. intros q Hq. rewrite upd_other; [done|].
        intros ->. by apply (take_drop_notin c opsem strict g s C l i).
      + intros j Hj. rewrite upd_other by (by apply Hin). auto.
    - intros j Hj. rewrite upd_other by (by apply Hin). auto. }
  destruct (held_body c opsem strict g s C y Hyh) as [[u|j sons] E].
  { rewrite (rank_term c g (s_heap s) y u) in Hrk; [lia|apply C|done]. }
  destruct (int_facts c opsem strict g s C y j sons Hyh E) as (_&Hsl&_&Hoj&Hs).
  destruct (Hlow j sons E) as (q&Hq&Hlq). pose proof (proj1 (NoDup_alt _) ND _ _ _ Hoj Hq). assert (rk y = l) as Ey by lia.
  rewrite Ey, Hoi in Hoj. injection Hoj as <-.
  destruct (lookup_lt_is_Some_2 sons k) as [z Hz]; [lia|]. assert (Hzs : z ∈ sons) by by eapply elem_of_list_lookup_2.
  destruct (Hs z Hzs) as [Hzh Hzr].
  exists y. split; [done|]. exists i, sons, z. split_and!; [done|done|].
  rewrite (const_terminal z w Hzh), Ey; [done|]. intros tau Ht.
  set (mix := fun j => if bool_decide (j ∈ take l order) then rho j else if decide (j = i) then k else tau j).
  assert (Hm : valid c mix).
  { intros j Hj. unfold mix. case_bool_decide; [by apply Hr|]. destruct (decide (j = i)) as [->|]; [done|by apply Ht]. }
  assert (Hmi : mix i = k).
  { unfold mix. rewrite bool_decide_eq_false_2 by (intros X; by apply Hin in X). by rewrite decide_True. }
  assert (Hma : forall j, j ∈ take l order -> mix j = rho j) by (intros j Hj; unfold mix; by rewrite bool_decide_eq_true_2).
  rewrite <- (Hconst mix Hm Hma Hmi), <- HEy by done.
  rewrite (nval_int c opsem strict g s C y mix i sons z Hyh Hm E) by (by rewrite Hmi).
  apply (nval_depends c opsem strict g s C z (S l) Hzh ltac:(lia)); try done.
  intros j Hj. unfold mix. rewrite bool_decide_eq_false_2, decide_False; [done| |].
  - intros ->. by apply (take_drop_notin c opsem strict g s C l i).
  - intros (p&Hp&?)%elem_of_take. apply elem_of_list_lookup in Hj as (m&Hm'). rewrite lookup_drop in Hm'.
    pose proof (proj1 (NoDup_alt _) ND _ _ _ Hp Hm'). lia.
Qed.
End skip.
