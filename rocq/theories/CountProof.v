(** * satisfy_count of a reliability manager, where the counts are doubles *)

From stdpp Require Import gmap list.
From Coq Require Import ZArith Lia.
From Verif Require Import Base Tools NodeManager Heap Inv InvLemmas Prim GC Build Canon Api Eval VecSpec Queries Trav QuerySpec
  QueryProof Minimal WorldSpec Prob.

Local Open Scope nat_scope.

(** the arithmetic computes with the natural numbers up to [B] without error *)
Record counts_to {R} (ar : arith R) (B : Z) : Prop := {
  ct_zero : a_ofZ ar 0 = a_zero ar;
  ct_one : a_ofZ ar 1 = a_one ar;
  ct_add : forall x y, (0 <= x)%Z -> (0 <= y)%Z -> (x + y <= B)%Z -> a_add ar (a_ofZ ar x) (a_ofZ ar y) = a_ofZ ar (x + y);
  ct_mul : forall x y, (0 <= x <= B)%Z -> (0 <= y <= B)%Z -> (x * y <= B)%Z -> a_mul ar (a_ofZ ar x) (a_ofZ ar y) = a_ofZ ar (x * y);
  ct_toZ : forall x, (0 <= x <= B)%Z -> (x <= max64)%Z -> a_toZ ar (a_ofZ ar x) = Some x
}.

Section proof.
Context (c : cfg) (opsem : Z -> option (Z -> Z -> Z)) (strict : bool).
Context (g : ghost) (s : st) (Hc : wf_cfg c) (C : calm c opsem strict g s) (Cl : clean s).
Context {R : Type} (ar : arith R) (B : Z) (HC : counts_to ar B).
Notation L := (live (s_heap s)).
Notation order := (s_l2i s).
Notation rk := (rank c g (s_heap s)).
Notation held := (held g (s_heap s)).
Notation nval := (nval c s).
Context (v : Z) (Hfit : (Z.of_nat (prodl c order) <= product_limit c)%Z) (HB : (Z.of_nat (prodl c order) <= B)%Z).
Notation alpha := (alpha c g s v).

Local Lemma Pm : perm_ok c s. Proof. apply (ord_perm _ _ _ (cl_ord _ _ _ _ _ C)). Qed.
Local Lemma r0 : valid c (fun _ => 0). Proof. intros i Hi. by apply (wc_dom _ Hc). Qed.

Definition countedd (D : list positive) (data : gmap positive R) : Prop :=
  forall x, x ∈ D -> data !! x = Some (a_ofZ ar (Z.of_nat (alpha x))).

Lemma alpha_le x : alpha x <= prodl c order.
Proof. unfold QueryProof.alpha. etransitivity; [apply ways_le|by apply (drop_prod c opsem strict g s Hc C)]. Qed.

Lemma countd_op_ok V D data a : held a -> a ∉ D -> sons_in s a D -> countedd D data ->
  exists data', countd_op c ar v data a (fs V s) = Ok data' (fs V s) /\ countedd (D ++ [a]) data'.
Proof.
  intros Ha HaD Hs Hcd. unfold countd_op. destruct (getn_at c opsem strict g s C a V Ha) as (n&G&E). rewrite (bind_ok _ _ _ _ _ G).
  destruct (n_body n) as [w|i sons].
  - eexists. split; [done|]. intros x [Hx|Hx]%elem_of_app.
    + rewrite lookup_insert_ne by set_solver. auto.
    + apply elem_of_list_singleton in Hx as ->. rewrite lookup_insert. f_equal. unfold QueryProof.alpha.
      rewrite (rank_term c g _ _ _ (cl_quiet _ _ _ _ _ C) E), drop_ge by (rewrite (pm_l2i _ _ Pm); lia). cbn [ways].
      rewrite (nval_term c opsem strict g s C a _ w Ha r0 E).
      destruct (w =? v)%Z; symmetry; [exact (ct_one _ _ HC)|exact (ct_zero _ _ HC)].
  - rewrite (bind_ok _ _ _ _ _ (level_at c opsem strict g s C a V Ha)).
    destruct (int_facts c opsem strict g s C a i sons Ha E) as (Hi&Hsl&Hr&Hoi&Hson).
    (* the ways through the first k sons *)
    set (W := fun k => ways c (drop (S (rk a)) order) (nval a) v (upd (fun _ => 0) i k)).
    assert (Hloop : forall rest k data acc, drop k sons = rest -> k + length rest = dom c i ->
      countedd D data -> data !! a = Some (a_ofZ ar (Z.of_nat acc)) ->
      acc + list_sum (map W (seq k (length rest))) <= prodl c order ->
      exists data', foldM (countd_son c ar (rk a) a) data rest (fs V s) = Ok data' (fs V s) /\ countedd D data' /\
        data' !! a = Some (a_ofZ ar (Z.of_nat (acc + list_sum (map W (seq k (length rest))))))).
    { induction rest as [|b rest IHr]; intros k dt acc Hd Hk Hcnt Hacc Hle; cbn [foldM].
      - exists dt. split_and!; try done. rewrite Hacc. simpl. do 3 f_equal. lia.
      - assert (Hbk : sons !! k = Some b) by (rewrite <- (Nat.add_0_r k), <- lookup_drop, Hd; done).
        assert (Hrest : drop (S k) sons = rest).
        { rewrite (drop_S _ _ _ Hbk) in Hd. congruence. }
        cbn [length seq map] in Hk, Hle |- *. rewrite lsum_cons in Hle |- *.
        assert (Hb : b ∈ sons) by (by eapply elem_of_list_lookup_2). destruct (Hson b Hb) as [Hbh Hbr].
        assert (Hv : valid c (upd (fun _ => 0) i k)) by (apply upd_valid; [apply r0|lia]).
        assert (EW : Z.of_nat (W k) = (Z.of_nat (alpha b) * level_product c order (S (rk a)) (rk b))%Z).
        { rewrite <- (ways_level c opsem strict g s Hc C v b (S (rk a)) (upd (fun _ => 0) i k)) by (done || lia). unfold W. f_equal.
          apply ways_ext; [done..|]. intros tau tau' Ht Ht' H1 H2 H3.
          assert (Hti : tau i = k).
          { rewrite H1 by (by apply (take_drop_notin c opsem strict g s C)). apply upd_same. }
          rewrite (nval_int c opsem strict g s C a tau i sons b); [|done|done|done|by rewrite Hti].
          apply (nval_depends c opsem strict g s C b (S (rk a)) Hbh ltac:(lia)); done. }
        assert (HD : domain_product c (S (rk a)) (rk b) (fs V s) = Ok (level_product c order (S (rk a)) (rk b)) (fs V s)).
        { apply (domain_product_ok c opsem (fs V s)); [done| |lia|].
          - apply (perm_same c s); [done|done|apply Pm].
          - etransitivity; [apply (level_product_le c opsem strict g s Hc C)|done]. }
        pose proof (level_product_le c opsem strict g s Hc C (S (rk a)) (rk b)) as Hlp.
        assert (Hlp0 : (0 <= level_product c order (S (rk a)) (rk b))%Z) by (unfold level_product; lia).
        pose proof (alpha_le b) as Hal.
        destruct (IHr (S k) (<[a := a_ofZ ar (Z.of_nat (acc + W k))]> dt) (acc + W k)) as (data'&E'&Hc'&Ha').
        { done. }
        { lia. }
        { intros x Hx. rewrite lookup_insert_ne by set_solver. auto. }
        { by rewrite lookup_insert. }
        { lia. }
        exists data'. split_and!; [|done|rewrite Ha'; do 3 f_equal; lia].
        rewrite <- E'.
        rewrite (bind_ok _ _ _ (<[a := a_ofZ ar (Z.of_nat (acc + W k))]> dt) (fs V s)); [done|]. unfold countd_son.
        rewrite (bind_ok _ _ _ _ _ (level_at c opsem strict g s C b V Hbh)), (bind_ok _ _ _ _ _ HD). unfold rd.
        rewrite Hacc, (Hcnt b) by (by apply (Hs i sons)). rewrite (bind_ok _ _ _ (a_ofZ ar (Z.of_nat acc)) (fs V s)) by done.
        rewrite (bind_ok _ _ _ (a_ofZ ar (Z.of_nat (alpha b))) (fs V s)) by done.
        rewrite (ct_mul _ _ HC) by lia. rewrite <- EW, (ct_add _ _ HC) by lia. unfold ret. do 3 f_equal. lia. }
    assert (EA : alpha a = list_sum (map W (seq 0 (dom c i)))).
    { unfold QueryProof.alpha. rewrite (drop_S _ _ _ Hoi). done. }
    destruct (Hloop sons 0 (<[a := a_zero ar]> data) 0 eq_refl ltac:(lia)) as (data'&E'&Hc'&Ha').
    { intros x Hx. rewrite lookup_insert_ne by set_solver. auto. }
    { rewrite lookup_insert. by rewrite <- (ct_zero _ _ HC). }
    { rewrite Hsl, <- EA. apply alpha_le. }
    exists data'. split; [done|]. intros x [Hx|Hx]%elem_of_app; [auto|].
    apply elem_of_list_singleton in Hx as ->. rewrite Ha', Hsl, EA. done.
Qed.

Lemma satisfy_count_data_ok a data : held a -> value_ok c v -> exists data',
  satisfy_count_data c ar v a data s = Ok (Z.of_nat (length (all_sols c order (replicate (nvars c) 0) (nval a) v)), data') s.
Proof.
  intros Ha Hok. unfold satisfy_count_data. rewrite (bind_ok _ _ _ _ _ (value_check_ok c v s Hok)).
  destruct (traverse_post_spec s a false rk (nvars c) (held_uniform c opsem strict g s C Cl a Ha) (held_ranked c opsem strict g s C a Ha)
    c (countd_op c ar v) countedd ltac:(lia) data) as (D&data1&E&Hcd&ND&HD).
  - intros V D acc x Hx HxD Hs Hacc. apply countd_op_ok; try done. by eapply held_reach.
  - intros x Hx. by apply elem_of_nil in Hx.
  - exists data1. rewrite (bind_ok _ _ _ _ _ E). unfold rd. rewrite (Hcd a ltac:(apply HD; constructor)).
    rewrite (bind_ok _ _ _ (a_ofZ ar (Z.of_nat (alpha a))) s) by done.
    pose proof (alpha_le a) as Hal. pose proof (limit64 c) as H64.
    rewrite (ct_toZ _ _ HC) by lia. rewrite (bind_ok _ _ _ (Z.of_nat (alpha a)) s) by done.
    rewrite (bind_ok _ _ _ _ _ (level_s c opsem strict g s C a Ha)).
    rewrite (bind_ok _ _ _ _ _ (domain_product_ok c opsem s 0 (rk a) Hc Pm ltac:(pose proof (held_rank c opsem strict g s C a Ha); lia)
      ltac:(etransitivity; [apply (level_product_le c opsem strict g s Hc C)|done]))).
    rewrite ways_sols; [|by apply (order_NoDup c opsem strict g s C)|by apply (zeros_ok c Hc)|intros i; by apply (order_elem c opsem strict g s C)|by apply (nval_depends_all c opsem strict g s C)].
    pose proof (ways_level c opsem strict g s Hc C v a 0 (of_vals (replicate (nvars c) 0)) Ha ltac:(lia) ltac:(by apply (zeros_ok c Hc))) as EW.
    rewrite drop_0 in EW. rewrite <- EW. rewrite (chk64 c s Hfit); [done|]. split; [lia|]. apply Nat2Z.inj_le, ways_le.
Qed.
End proof.
