(** * to_mnf *)

From stdpp Require Import gmap list.
From Coq Require Import ZArith Lia.
From Verif Require Import Base Ops Tables NodeManager Tools Sift DiagramManager Reliability.
From Verif Require Import Heap Inv InvLemmas Prim TabLemmas GC Make Build Apply Api Canon Constr DpldProof MnfSpec.

Local Open Scope nat_scope.

(** the lists of sons [l'] that the two loops make of [l] *)
Record lifts (L : positive -> option body) (l l' : list positive) : Prop := {
  lf_len : length l' = length l;
  lf_up : forall k d, l' !! k = Some d -> exists j, k <= j /\ l !! j = Some d;
  lf_one : forall k d d' rho, l !! k = Some d -> l' !! k = Some d' -> Ev L d rho 1 -> Ev L d' rho 1
}.

Lemma lifts_refl L l : lifts L l l.
Proof. constructor; [done|eauto|]. intros; by simplify_eq. Qed.

Lemma lifts_trans L l1 l2 l3 : lifts L l1 l2 -> lifts L l2 l3 -> lifts L l1 l3.
Proof.
  intros [A1 B1 C1] [A2 B2 C2]. constructor; [congruence| |].
  - intros k d H. destruct (B2 k d H) as (j&?&Hj). destruct (B1 j d Hj) as (j'&?&?). exists j'. split; [lia|done].
  - intros k d d' rho H H' E. destruct (lookup_lt_is_Some_2 l2 k) as [e He].
    { rewrite A1. by eapply lookup_lt_Some. } eauto.
Qed.

Section mnf.
Context (c : cfg) (opsem : Z -> option (Z -> Z -> Z)) (strict : bool).
Notation rank := (rank c).
Notation WF := (WF c opsem strict).
Notation sstep := (sstep c opsem strict).
Notation allowed := (allowed strict).
Notation calm := (calm c opsem strict).

Lemma is_term_spec s v a (Q : bool -> st -> Prop) :
  live (s_heap s) a <> None ->
  (forall t, (t = true <-> live (s_heap s) a = Some (Term v)) -> Q t s) -> wp allowed (is_term v a) Q s.
Proof.
  intros Ha HQ. unfold is_term. apply wp_bind. destruct (live (s_heap s) a) as [[w|i ss]|] eqn:E; [| |done].
  - eapply wp_getn_live; [done|]. intros n _ _ ->. apply wp_ret, HQ. rewrite Z.eqb_eq. split; [by intros ->|congruence].
  - eapply wp_getn_live; [done|]. intros n _ _ ->. apply wp_ret, HQ. done.
Qed.

(** the first loop either finds nothing or overwrites everything below a 1 *)
Definition raised (L : positive -> option body) (k : nat) (l l' : list positive) : Prop :=
  (l' = l /\ forall j d, 0 < j -> j <= k -> l !! j = Some d -> L d <> Some (Term 1)) \/
  exists K b, 0 < K <= k /\ l !! K = Some b /\ L b = Some (Term 1) /\ l' = replicate K b ++ drop K l /\
    forall j d, K < j -> j <= k -> l !! j = Some d -> L d <> Some (Term 1).

Lemma mnf_ones_spec s k l (Q : list positive -> st -> Prop) :
  (forall d, d ∈ l -> live (s_heap s) d <> None) -> (k < length l \/ k = 0) ->
  (forall l', lifts (live (s_heap s)) l l' -> raised (live (s_heap s)) k l l' -> Q l' s) -> wp allowed (mnf_ones k l) Q s.
Proof.
  intros Hl. induction k as [|k IH]; intros Hk HQ; [apply wp_ret, HQ; [apply lifts_refl|left; split; [done|intros j; lia]]|].
  cbn [mnf_ones]. destruct (lookup_lt_is_Some_2 l (S k)) as [b Hb]; [lia|].
  apply wp_bind. eapply wp_of_opt; [done|]. apply wp_bind. apply is_term_spec.
  { apply Hl. by eapply elem_of_list_lookup_2. }
  intros [|] Ht.
  2:{ apply IH; [lia|]. intros l' HL HR. apply HQ; [done|]. destruct HR as [[E HR]|(K&b'&?&?&?&?&HR)].
    - left. split; [done|]. intros j d Hj1 Hj2 Hd. destruct (decide (j = S k)) as [->|]; [|apply (HR j d); [lia..|done]].
      simplify_eq. intros Hd. by apply Ht in Hd.
    - right. exists K, b'. split; [lia|]. split_and!; try done. intros j d Hj1 Hj2 Hd. destruct (decide (j = S k)) as [->|]; [|apply (HR j d); [lia..|done]].
      simplify_eq. intros Hd. by apply Ht in Hd. }
  apply proj1 in Ht. specialize (Ht eq_refl). apply lookup_lt_Some in Hb as Hlt. apply wp_ret, HQ; [|right; exists (S k), b; split; [lia|]; split_and!; try done; intros j; lia]. constructor.
  - rewrite app_length, replicate_length, drop_length. lia.
  - intros j d Hj. apply lookup_app_Some in Hj as [Hj|[Hj1 Hj]].
    + apply lookup_replicate in Hj as [-> Hj]. exists (S k). split; [lia|done].
    + rewrite replicate_length in *. rewrite lookup_drop in Hj. exists j. split; [done|].
      by replace (S k + (j - S k)) with j in Hj by lia.
  - intros j d d' rho Hj Hj' E. apply lookup_app_Some in Hj' as [Hj'|[Hj1 Hj']].
    + apply lookup_replicate in Hj' as [-> _]. by apply Ev_term.
    + rewrite replicate_length in *. rewrite lookup_drop in Hj'.
      replace (S k + (j - S k)) with j in Hj' by lia. by simplify_eq.
Qed.

(** the second loop replaces a 0 by what follows it *)
Definition filled (L : positive -> option body) (k : nat) (l l' : list positive) : Prop :=
  forall j d, l' !! j = Some d -> exists m, j <= m /\ l !! m = Some d /\
    (forall t e, j <= t < m -> l !! t = Some e -> L e = Some (Term 0)) /\ (m < k -> L d <> Some (Term 0)).

Lemma filled_0 L l : filled L 0 l l.
Proof. intros j d Hj. exists j. split_and!; [done|done|intros; lia|lia]. Qed.

Lemma mnf_zeros_spec s k : forall l (Q : list positive -> st -> Prop),
  (forall d, d ∈ l -> live (s_heap s) d <> None) -> (k < length l \/ k = 0) ->
  (forall l', lifts (live (s_heap s)) l l' -> (forall d, d ∈ l -> d ∈ l' \/ live (s_heap s) d = Some (Term 0)) ->
    filled (live (s_heap s)) k l l' -> Q l' s) ->
  wp allowed (mnf_zeros k l) Q s.
Proof.
  induction k as [|k IH]; intros l Q Hl Hk HQ; [apply wp_ret, HQ; [apply lifts_refl|by left|apply filled_0]|].
  cbn [mnf_zeros]. destruct (lookup_lt_is_Some_2 l k) as [b Hb]; [lia|].
  destruct (lookup_lt_is_Some_2 l (S k)) as [d Hd]; [lia|].
  apply wp_bind. eapply wp_of_opt; [done|]. apply wp_bind. apply is_term_spec.
  { apply Hl. by eapply elem_of_list_lookup_2. }
  intros [|] Ht.
  2:{ apply IH; [done|lia|]. intros l' H1 H2 H3. apply HQ; [done|done|]. intros j e Hj.
    destruct (H3 j e Hj) as (m&Hm1&Hm2&Hm3&Hm4). exists m. split_and!; try done. intros Hlt.
    destruct (decide (m = k)) as [->|]; [|apply Hm4; lia]. simplify_eq. intros He. by apply Ht in He. }
  apply proj1 in Ht. specialize (Ht eq_refl). apply wp_bind. eapply wp_of_opt; [done|].
  assert (HL : lifts (live (s_heap s)) l (<[k:=d]> l)).
  { constructor.
    - by rewrite insert_length.
    - intros j e Hj. destruct (decide (j = k)) as [->|Hne].
      + rewrite list_lookup_insert in Hj by lia. simplify_eq. exists (S k). split; [lia|done].
      + rewrite list_lookup_insert_ne in Hj by done. eauto.
    - intros j e e' rho Hj Hj' E. destruct (decide (j = k)) as [->|Hne].
      + simplify_eq. inversion E; congruence.
      + rewrite list_lookup_insert_ne in Hj' by done. by simplify_eq. }
  apply IH; [|rewrite insert_length; lia|].
  - intros e (j&Hj)%elem_of_list_lookup. destruct (lf_up _ _ _ HL j e Hj) as (j'&_&Hj').
    apply Hl. by eapply elem_of_list_lookup_2.
  - intros l' Hl' HZ HFl. apply HQ; [by eapply lifts_trans| |].
    + intros e (j&Hj)%elem_of_list_lookup.
      destruct (decide (j = k)) as [->|Hne]; [right; by simplify_eq|]. apply HZ.
      apply elem_of_list_lookup. exists j. by rewrite list_lookup_insert_ne.
    + intros j e Hj. destruct (HFl j e Hj) as (m&Hm1&Hm2&Hm3&Hm4).
      assert (Hz : forall t f, j <= t < m -> l !! t = Some f -> live (s_heap s) f = Some (Term 0)).
      { intros t f Ht1 Hf. destruct (decide (t = k)) as [->|Hne]; [by simplify_eq|]. apply (Hm3 t f); [done|]. by rewrite list_lookup_insert_ne. }
      destruct (decide (m = k)) as [->|Hne].
      * rewrite list_lookup_insert in Hm2 by lia. simplify_eq. exists (S k). split; [lia|]. split; [done|]. split; [|lia].
        intros t f Ht1 Hf. destruct (decide (t = k)) as [->|Hne]; [by simplify_eq|]. apply (Hz t f); [lia|done].
      * rewrite list_lookup_insert_ne in Hm2 by done. exists m. split_and!; try done. intros Hlt. apply Hm4. lia.
Qed.

Definition asg_le (r r' : asg) : Prop := forall i, i < nvars c -> r i <= r' i.

Notation top := (top c).
Notation closes := (closes c).

(** 0 and 1 only *)
Definition binary (L : positive -> option body) (a : positive) : Prop :=
  forall rho v, valid c rho -> Ev L a rho v -> v = 0%Z \/ v = 1%Z.

(** [b] lies between [a] and the downward closure of [a] *)
Record mnf_of (order : list nat) (r : nat) (L0 : positive -> option body) (a : positive) (L : positive -> option body) (b : positive) : Prop := {
  mo_low : forall rho, valid c rho -> Ev L0 a rho 1 -> Ev L b rho 1;
  mo_up : forall rho, valid c rho -> Ev L b rho 1 -> exists rho', valid c rho' /\ asg_le rho rho' /\ Ev L0 a rho' 1;
  mo_one : Ev L0 a top 1 -> L b = Some (Term 1);
  mo_zero : (forall rho, valid c rho -> Ev L0 a rho 0) -> L b = Some (Term 0);
  mo_bin : binary L0 a -> binary L b;
  mo_exact : binary L0 a -> forall l rho, l <= r -> valid c rho -> Ev L b rho 1 <-> closes (drop l order) (fun t => Ev L0 a t 1) rho
}.

(** 0 and 1 only, and with two assignments also those between them *)
Definition cvx (L : positive -> option body) (a : positive) : Prop :=
  binary L a /\
  forall x y z, valid c x -> valid c y -> valid c z -> asg_le x y -> asg_le y z -> Ev L a x 1 -> Ev L a z 1 -> Ev L a y 1.

Definition inner (L : positive -> option body) (a : positive) : Prop := exists i l, L a = Some (Int i l).

Definition mm_ok (g : ghost) (s0 s : st) (m : memo) : Prop :=
  forall a b, m !! a = Some b ->
    held g (s_heap s) b /\ rank g (s_heap s0) a <= rank g (s_heap s) b /\
    mnf_of (s_l2i s0) (rank g (s_heap s0) a) (live (s_heap s0)) a (live (s_heap s)) b.

Lemma mnf_of_keeps g order r L0 a h h' b :
  keeps g h h' -> held g h b -> mnf_of order r L0 a (live h) b -> mnf_of order r L0 a (live h') b.
Proof.
  intros K Hb [Lo Up One Zero Bin Ex]. destruct (K b Hb) as [_ Lb]. constructor.
  - intros rho Hv HE. eapply keeps_Ev; [done|done|auto].
  - intros rho Hv HE. apply Up; [done|]. by eapply keeps_Ev_inv.
  - intros HE. rewrite Lb. auto.
  - intros HE. rewrite Lb. auto.
  - intros HB rho v Hv HE. eapply Bin; [done|done|]. by eapply keeps_Ev_inv.
  - intros HB l rho Hl Hv. rewrite <- (Ex HB l rho Hl Hv). split; intros HE; [by eapply keeps_Ev_inv|by eapply keeps_Ev].
Qed.

(** ** The sets *)

Lemma closes_ext order : forall P Q rho, valid c rho -> (forall r, valid c r -> P r <-> Q r) -> closes order P rho <-> closes order Q rho.
Proof.
  induction order as [|v order IH]; intros P Q rho Hv H; simpl; [by apply H|].
  assert (Ht : forall K r, valid c r -> K < dom c v -> valid c (upd r v K)) by (intros; by apply valid_upd).
  assert (Vt : valid c top) by (intros i Hi; specialize (Hv i Hi); unfold MnfSpec.top; lia).
  assert (E : forall K, K < dom c v -> closes order (fun r => P (upd r v K)) rho <-> closes order (fun r => Q (upd r v K)) rho).
  { intros K HK. apply IH; [done|]. intros r Hr. by apply H, Ht. }
  split; (intros [(K&H0&HK&HP)|(K&HK&Hlo&(r&Hr&HP)&HC)]; [left|right]; exists K; (split; [done|])).
  - split; [done|]. apply H; [apply Ht; [done|lia]|done].
  - split_and!.
    + intros k Hk r' Hr' HQ. apply (Hlo k Hk r' Hr'), H; [apply Ht; [done|lia]|done].
    + exists r. split; [done|]. apply H; [apply Ht; [done|lia]|done].
    + apply E; [lia|done].
  - split; [done|]. apply H; [apply Ht; [done|lia]|done].
  - split_and!.
    + intros k Hk r' Hr' HQ. apply (Hlo k Hk r' Hr'), H; [apply Ht; [done|lia]|done].
    + exists r. split; [done|]. apply H; [apply Ht; [done|lia]|done].
    + apply E; [lia|done].
Qed.

Lemma closes_some order : forall P rho, valid c rho -> closes order P rho -> exists r, valid c r /\ P r.
Proof.
  induction order as [|v order IH]; intros P rho Hv H; simpl in H; [by exists rho|].
  assert (Vt : valid c top) by (intros i Hi; specialize (Hv i Hi); unfold MnfSpec.top; lia).
  destruct H as [(K&_&HK&HP)|(K&HK&_&(r&Hr&HP)&_)]; eexists; (split; [|exact HP]); apply valid_upd; (done || lia).
Qed.

(** a variable that does not matter *)
Lemma closes_skip v order (P : asg -> Prop) rho :
  valid c rho -> v < nvars c -> (forall r K, valid c r -> K < dom c v -> P (upd r v K) <-> P r) ->
  (P top -> closes order P rho) -> closes (v :: order) P rho <-> closes order P rho.
Proof.
  intros Hv Hi HP HT. assert (Vt : valid c top) by (intros i Hi'; specialize (Hv i Hi'); unfold MnfSpec.top; lia).
  assert (E : forall K, K < dom c v -> closes order (fun r => P (upd r v K)) rho <-> closes order P rho).
  { intros K HK. apply closes_ext; [done|]. intros r Hr. by apply HP. }
  simpl. split.
  - intros [(K&_&HK&HC)|(K&HK&_&_&HC)]; [apply HT, (HP top K); [done|lia|done]|apply (E K); [lia|done]].
  - intros HC. right. exists (rho v). specialize (Hv v Hi) as Hr. split; [lia|]. split; [intros; lia|].
    split; [|by apply E]. destruct (closes_some order P rho Hv HC) as (r&Vr&Pr). exists r. split; [done|]. by apply HP.
Qed.

Lemma closes_const order (P : Prop) rho : valid c rho -> Forall (fun v => v < nvars c) order -> closes order (fun _ => P) rho <-> P.
Proof.
  intros Hv. induction 1 as [|v order Hi _ IH]; [done|].
  rewrite closes_skip; [done|done|done|done|]. by rewrite IH.
Qed.

(** the last values of all variables are enough *)
Lemma closes_top order : wf_cfg c -> forall (P : asg -> Prop) rho, valid c rho -> Forall (fun v => v < nvars c) order ->
  (forall r r', (forall i, i ∈ order -> r i = r' i) -> P r -> P r') -> P top -> closes order P rho.
Proof.
  intros Hc. induction order as [|v order IH]; intros P rho Hv Ho HE HP; [apply (HE top); [set_solver|done]|].
  apply Forall_cons in Ho as [Hi Ho]. pose proof (wc_dom _ Hc v Hi). specialize (Hv v Hi) as Hr. simpl.
  assert (Ht : P (upd top v (dom c v - 1))).
  { apply (HE top); [|done]. intros i _. unfold upd, MnfSpec.top. by destruct (decide (i = v)) as [->|]. }
  destruct (decide (dom c v = 1)) as [E|E]; [right|left].
  - replace (dom c v - 1) with 0 in Ht by lia. exists 0. split; [lia|]. split; [intros; lia|]. split; [exists top; split; [|done]|].
    + intros i Hi'. specialize (Hv i Hi'). unfold MnfSpec.top. lia.
    + apply IH; [done|done| |done]. intros r r' Hrr. apply HE. intros i Hi'. unfold upd. destruct (decide (i = v)); [done|]. apply Hrr. set_solver.
  - exists (dom c v - 1). split; [lia|]. split; [lia|done].
Qed.

Lemma valid_top : wf_cfg c -> valid c top.
Proof. intros Hc i Hi. pose proof (wc_dom _ Hc i Hi). unfold MnfSpec.top. lia. Qed.

Lemma term_unique g s a b v : WF g s -> live (s_heap s) a = Some (Term v) -> live (s_heap s) b = Some (Term v) -> a = b.
Proof.
  intros W Ha Hb. destruct (decide (v = Undef)) as [->|Hv].
  - pose proof (wf_spec2 _ _ _ _ _ W a Ha) as E1. pose proof (wf_spec2 _ _ _ _ _ W b Hb) as E2. congruence.
  - pose proof (wf_term2 _ _ _ _ _ W a v Ha Hv) as E1. pose proof (wf_term2 _ _ _ _ _ W b v Hb Hv) as E2. congruence.
Qed.

(** sons that are all the same terminal *)
Lemma repr_const g s s' i l v b : WF g s -> keeps g (s_heap s) (s_heap s') -> l <> [] ->
  (forall d, d ∈ l -> held g (s_heap s) d /\ live (s_heap s) d = Some (Term v)) -> repr (s_heap s') i l b -> live (s_heap s') b = Some (Term v).
Proof.
  intros W K Hne Hl R. destruct l as [|e l]; [done|]. destruct (Hl e) as [He Le]; [set_solver|].
  destruct R as [[Ea _]|[_ R]].
  - rewrite (adj_eq_const (e :: l) e) in Ea; [done|]. intros x Hx. eapply term_unique; [exact W|apply Hl, Hx|exact Le].
  - rewrite <- (R e) by set_solver. destruct (K e He) as [_ E]. by rewrite E.
Qed.

Lemma wp_with {B} ok (m : M B) (Q P : B -> st -> Prop) s : wp ok m Q s -> (forall r s', m s = Ok r s' -> P r s') -> wp ok m (fun r s' => Q r s' /\ P r s') s.
Proof. unfold wp. destruct (m s); auto. Qed.

Lemma make_redundant i l s r s' : adj_eq l = true -> make_internal_node c i l s = Ok r s' -> s' = s.
Proof. unfold make_internal_node. intros ->. unfold of_opt. destruct (l !! 0); [|discriminate]. intros E. by injection E. Qed.

Lemma mm_ok_step g s0 s s' m : sstep g s s' -> mm_ok g s0 s m -> mm_ok g s0 s' m.
Proof.
  intros S H a b Hm. destruct (H a b Hm) as (H1&H2&H3). pose proof (ss_keeps _ _ _ _ _ _ S) as K.
  split_and!; [by apply K|by rewrite (keeps_rank c g _ _ _ K H1)|by eapply mnf_of_keeps].
Qed.

Lemma to_mnf_impl_spec g s0 fuel :
  wf_cfg c -> WF g s0 -> quiet g -> ord c g s0 ->
  forall a m s, sstep g s0 s -> held g (s_heap s0) a -> mm_ok g s0 s m ->
  nvars c - rank g (s_heap s0) a < fuel ->
  wp allowed (to_mnf_impl c fuel m a) (fun mb s2 =>
    sstep g s s2 /\ held g (s_heap s2) (snd mb) /\ rank g (s_heap s0) a <= rank g (s_heap s2) (snd mb) /\
    mnf_of (s_l2i s0) (rank g (s_heap s0) a) (live (s_heap s0)) a (live (s_heap s2)) (snd mb) /\ mm_ok g s0 s2 (fst mb) /\
    (cvx (live (s_heap s0)) a -> forall d, marked (s_heap s2) d ->
       marked (s_heap s) d \/ (d = snd mb /\ inner (live (s_heap s2)) d))) s.
Proof.
  intros Hc W0 Hq O.
  assert (Hl2i : Forall (fun v => v < nvars c) (s_l2i s0)).
  { apply Forall_lookup. intros l v Hv. apply (perm_l2i_lt c s0 l); [apply O|done]. }
  induction fuel as [|fuel IH]; intros a m s S Ha Hm Hfuel; [lia|].
  cbn [to_mnf_impl]. pose proof (ss_wf _ _ _ _ _ _ S) as W. pose proof (ss_keeps _ _ _ _ _ _ S) as K.
  destruct (held_live _ _ _ _ _ _ W0 Ha) as [Hl Hd]. destruct (K a Ha) as [Ha1 La1].
  apply wp_bind. destruct (live (s_heap s0) a) as [[v|i sons]|] eqn:La; [| |done].
  { eapply wp_getn_live; [done|]. intros n _ _ ->. apply wp_ret. simpl. split; [by apply sstep_refl|]. split; [done|]. split; [|split; [|split; [done|by left]]].
    - by rewrite (keeps_rank c g _ _ _ K Ha).
    - constructor.
      + intros rho Hv HE. by eapply keeps_Ev.
      + intros rho Hv HE. exists rho. split_and!; [done|by intros ? ?|]. by eapply keeps_Ev_inv.
      + intros HE. inversion HE; simplify_eq. by rewrite La1.
      + intros HE. specialize (HE top (valid_top Hc)). inversion HE; simplify_eq. by rewrite La1.
      + intros HB rho w Hv HE. apply (HB rho w Hv). by eapply keeps_Ev_inv.
      + intros _ l rho _ Hv. rewrite (closes_ext _ _ (fun _ => v = 1%Z)); [|done|].
        * rewrite closes_const by (try done; by apply Forall_drop). split; [intros HE; inversion HE; simplify_eq; congruence|intros ->; apply Ev_term; by rewrite La1].
        * intros r _. split; [intros HE; inversion HE; by simplify_eq|intros ->; by apply Ev_term]. }
  eapply wp_getn_live; [done|]. intros n _ _ ->.
  destruct (m !! a) as [b|] eqn:Em.
  { apply wp_ret. simpl. destruct (Hm a b Em) as (?&?&?). split; [by apply sstep_refl|]. split_and!; try done. by left. }
  destruct (wf_node _ _ _ _ _ W0 a _ La) as (Hi&Hlen&Hlt&_). pose proof (wc_dom _ Hc i Hi) as Hdom.
  set (I := fun m (acc : list positive) s1 => sstep g s s1 /\ mm_ok g s0 s1 m /\
     (forall k d b, sons !! k = Some d -> acc !! k = Some b ->
       held g (s_heap s1) b /\ rank g (s_heap s0) d <= rank g (s_heap s1) b /\
       mnf_of (s_l2i s0) (rank g (s_heap s0) d) (live (s_heap s0)) d (live (s_heap s1)) b) /\
     (cvx (live (s_heap s0)) a -> forall d, marked (s_heap s1) d -> marked (s_heap s) d \/ (d ∈ acc /\ inner (live (s_heap s1)) d))).
  assert (Hup : forall k d rho v, sons !! k = Some d -> valid c rho -> Ev (live (s_heap s0)) a (upd rho i k) v <-> Ev (live (s_heap s0)) d rho v).
  { intros k d rho v Hk Hv. assert (Hin : d ∈ sons) by (by eapply elem_of_list_lookup_2).
    destruct (held_son_all c opsem strict g s0 a i sons d W0 Hq Ha La Hin) as [Hdh Hdr].
    rewrite (rank_int c g _ _ _ _ Hq La) in Hdr. pose proof (proj1 (held_live _ _ _ _ _ _ W0 Hdh)) as Ld.
    rewrite (Ev_deeper c opsem strict g s0 d rho i k v W0 Hq Ld Hi Hdr). split.
    - intros HE. inversion HE as [|? ? ? ? e ? La' He Hev]; simplify_eq. rewrite upd_same in He. by simplify_eq.
    - intros HE. eapply Ev_int; [done|by rewrite upd_same|done]. }
  assert (Hupv : forall k d rho, sons !! k = Some d -> valid c rho -> valid c (upd rho i k)).
  { intros k d rho Hk Hv. apply valid_upd; [done|]. rewrite <- Hlen. by eapply lookup_lt_Some. }
  assert (Hle_upd : forall x y k k', asg_le x y -> k <= k' -> asg_le (upd x i k) (upd y i k')).
  { intros x y k k' H Hk j Hj. unfold upd. destruct (decide (j = i)); auto. }
  assert (Hbin : forall k d, sons !! k = Some d -> binary (live (s_heap s0)) a -> binary (live (s_heap s0)) d).
  { intros k d Hk C1 rho v Hv HE. apply (C1 (upd rho i k)); [by eapply Hupv|]. by apply (Hup k d). }
  assert (Hcvx : forall k d, sons !! k = Some d -> cvx (live (s_heap s0)) a -> cvx (live (s_heap s0)) d).
  { intros k d Hk [C1 C2]. split.
    - intros rho v Hv HE. apply (C1 (upd rho i k)); [by eapply Hupv|]. by apply (Hup k d).
    - intros x y z Vx Vy Vz L1 L2 E1 E2. apply (Hup k d); [done..|]. apply (C2 (upd x i k) (upd y i k) (upd z i k)); try (by eapply Hupv); try (by apply Hle_upd).
      + by apply (Hup k d).
      + by apply (Hup k d). }
  apply wp_bind. eapply wp_mono.
  { apply (wp_mapMs allowed _ I).
    2:{ split; [by apply sstep_refl|]. split; [done|]. split; [intros k d b _ Hk; done|by left]. }
    intros k d m1 acc s1 Hk Hacc (S1&Hm1&Hacc1&Hmk1).
    assert (Hin : d ∈ sons) by (by eapply elem_of_list_lookup_2).
    destruct (held_son_all c opsem strict g s0 a i sons d W0 Hq Ha La Hin) as [Hdh Hdr].
    eapply wp_mono.
    { apply (IH d m1 s1); try done; [by eapply sstep_trans|lia]. }
    intros [m2 b] s2 (S2&Hb&Hrb&Mb&Hm2&Mk2). simpl in *. split; [by eapply sstep_trans|]. split; [done|]. split.
    2:{ intros HC e He. destruct (Mk2 (Hcvx k d Hk HC) e He) as [He1|[-> ?]]; [|right; split; [set_solver|done]].
      destruct (Hmk1 HC e He1) as [?|[He2 [j [l He3]]]]; [by left|right]. split; [set_solver|].
      apply elem_of_list_lookup in He2 as [k' Hk']. destruct (lookup_lt_is_Some_2 sons k') as [d' Hd'].
      { apply lookup_lt_Some in Hk', Hk. lia. }
      destruct (Hacc1 k' d' e Hd' Hk') as (Hh&_). destruct (ss_keeps _ _ _ _ _ _ S2 e Hh) as [_ E]. exists j, l. by rewrite E. }
    intros k' d' b' Hd' Hb'. apply lookup_app_Some in Hb' as [Hb'|[Hge Hb']].
    - destruct (Hacc1 k' d' b' Hd' Hb') as (H1&H2&H3). pose proof (ss_keeps _ _ _ _ _ _ S2) as K2.
      split_and!; [by apply K2|by rewrite (keeps_rank c g _ _ _ K2 H1)|by eapply mnf_of_keeps].
    - apply list_lookup_singleton_Some in Hb' as [Hb' <-].
      assert (k' = k) as -> by lia. simplify_eq. done. }
  intros [m1 acc] s1 [(S1&Hm1&Hacc&Hmk1) Hl1]. simpl in *.
  assert (S01 : sstep g s0 s1) by (by eapply sstep_trans).
  assert (Hson : forall k b, acc !! k = Some b -> exists d, sons !! k = Some d /\
     held g (s_heap s1) b /\ g_lv g i < rank g (s_heap s0) d /\ rank g (s_heap s0) d <= rank g (s_heap s1) b /\
     mnf_of (s_l2i s0) (rank g (s_heap s0) d) (live (s_heap s0)) d (live (s_heap s1)) b /\ live (s_heap s0) d <> None).
  { intros k b Hk. destruct (lookup_lt_is_Some_2 sons k) as [d Hd']; [rewrite <- Hl1; by eapply lookup_lt_Some|].
    assert (Hin : d ∈ sons) by (by eapply elem_of_list_lookup_2).
    destruct (held_son_all c opsem strict g s0 a i sons d W0 Hq Ha La Hin) as [Hdh Hdr].
    rewrite (rank_int c g _ _ _ _ Hq La) in Hdr. destruct (Hacc k d b Hd' Hk) as (?&?&?).
    exists d. split_and!; try done. by eapply held_live. }
  assert (Hlive : forall b, b ∈ acc -> live (s_heap s1) b <> None).
  { intros b (k&Hk)%elem_of_list_lookup. destruct (Hson k b Hk) as (d&_&Hb&_).
    eapply held_live; [apply S01|done]. }
  apply wp_bind. apply mnf_ones_spec; [done|lia|]. intros l1 L1 R1.
  apply wp_bind. apply mnf_zeros_spec; [|rewrite (lf_len _ _ _ L1); lia|].
  { intros b (k&Hk)%elem_of_list_lookup. destruct (lf_up _ _ _ L1 k b Hk) as (j&_&Hj).
    apply Hlive. by eapply elem_of_list_lookup_2. }
  intros l2 L2 Z2 Fi2. pose proof (lifts_trans _ _ _ _ L1 L2) as L12.
  assert (Hl2 : length l2 = dom c i) by (rewrite (lf_len _ _ _ L12); lia).
  assert (Hl2s : forall b, b ∈ l2 -> held g (s_heap s1) b /\ g_lv g i < rank g (s_heap s1) b).
  { intros b (k&Hk)%elem_of_list_lookup. destruct (lf_up _ _ _ L12 k b Hk) as (j&_&Hj).
    destruct (Hson j b Hj) as (d&_&Hb&?&?&_). split; [done|lia]. }
  apply wp_bind. eapply wp_mono.
  { apply (wp_with _ _ (fun r s2 => istep c opsem strict g s1 s2 r i l2) (fun _ s2 => adj_eq l2 = true -> s2 = s1)); [|intros r s2 E Ea; by eapply make_redundant].
    destruct Hq as [Hdy Hfl]. apply (make_internal_node_spec c opsem strict g i l2 s1); try done.
    - apply S1.
    - eapply ord_perm, ord_sstep; [exact S01|done]. }
  intros b s2 [[S2 R Hb Hrb Mk2] Hsame]. apply wp_ret. simpl. pose proof (ss_keeps _ _ _ _ _ _ S2) as K2.
  assert (Hlv : sstep g s s2) by (by eapply sstep_trans).
  rewrite (rank_int c g _ _ _ _ Hq La).
  assert (MB : mnf_of (s_l2i s0) (rank g (s_heap s0) a) (live (s_heap s0)) a (live (s_heap s2)) b).
  { assert (Hsel : forall rho, valid c rho -> exists e, l2 !! rho i = Some e) by
      (intros rho Hv; apply lookup_lt_is_Some_2; rewrite Hl2; by apply Hv).
    assert (Hev : forall rho e v, l2 !! rho i = Some e -> Ev (live (s_heap s2)) b rho v -> Ev (live (s_heap s1)) e rho v).
    { intros rho e v He HE. assert (Hein : e ∈ l2) by (by eapply elem_of_list_lookup_2).
      eapply keeps_Ev_inv; [done|by apply Hl2s|].
      destruct R as [[_ Lb]|[_ Lb]].
      - inversion HE; simplify_eq. done.
      - by rewrite (Lb e Hein). }
    assert (W1 : WF g s1) by apply S01.
    assert (Hne2 : l2 <> []) by (intros ->; simpl in Hl2; lia).
    assert (Hconst : forall v, (forall d, d ∈ l2 -> live (s_heap s1) d = Some (Term v)) -> live (s_heap s2) b = Some (Term v)).
    { intros v Hv. eapply (repr_const g s1 s2); [done|done|exact Hne2| |exact R]. intros d Hd'. split; [by apply Hl2s|auto]. }
    constructor.
    6:{ intros HB l rho Hll Hv. rewrite (rank_int c g _ _ _ _ Hq La) in Hll.
      assert (Hlvl : s_l2i s0 !! g_lv g i = Some i) by (apply (pm_inv _ _ (proj1 O)), O, Hi).
      assert (Hkeep : forall l r r', l <= g_lv g i -> (forall j, j ∈ drop l (s_l2i s0) -> r j = r' j) -> Ev (live (s_heap s0)) a r 1 -> Ev (live (s_heap s0)) a r' 1).
      { intros l0 r r' Hl0 E. apply Ev_vars. intros x j ss Hx Lx. destruct (wf_node _ _ _ _ _ W0 x _ Lx) as (Hj&_). symmetry. apply E.
        destruct (wf_reach _ _ _ g s0 a x W0) as (_&_&Hlt1); [by rewrite La|rewrite (proj1 Hq); set_solver|done|].
        assert (Hji : g_lv g i <= g_lv g j).
        { rewrite (rank_int c g _ _ _ _ Hq La), (rank_int c g _ _ _ _ Hq Lx) in Hlt1. destruct Hlt1 as [->|]; [|lia]. simplify_eq. done. }
        apply elem_of_list_lookup. exists (g_lv g j - l0). rewrite lookup_drop. replace (l0 + (g_lv g j - l0)) with (g_lv g j) by lia.
        apply (pm_inv _ _ (proj1 O)), O, Hj. }
      (* the variables above *)
      transitivity (closes (drop (g_lv g i) (s_l2i s0)) (fun t => Ev (live (s_heap s0)) a t 1) rho).
      2:{ clear -Hll Hlvl Hkeep Hl2i Hv Hc W0 Hq La O Hi Hd. remember (g_lv g i - l) as n eqn:En. revert l Hll En.
        induction n as [|n IHn]; intros l Hll En; [by assert (l = g_lv g i) as -> by lia|].
        destruct (lookup_lt_is_Some_2 (s_l2i s0) l) as [v Hvl]; [apply lookup_lt_Some in Hlvl; lia|].
        rewrite (drop_S _ _ _ Hvl). rewrite (IHn (S l)) by lia. symmetry.
        assert (Hvn : v < nvars c) by (apply (Forall_lookup_1 _ _ _ _ Hl2i Hvl)).
        assert (Hlv' : g_lv g v = l). { apply (pm_inv _ _ (proj1 O)) in Hvl. rewrite (proj2 O v Hvn) in Hvl. congruence. }
        apply closes_skip; [done|done| |].
        - intros r K Hr HK. symmetry. apply (Ev_deeper c opsem strict g s0 a r v K 1 W0 Hq); [by rewrite La|done|].
          rewrite (rank_int c g _ _ _ _ Hq La). lia.
        - intros HT. apply closes_top; [done|done|by apply Forall_drop| |done]. intros r r' E. apply (Hkeep (S l)); [lia|done]. }
      rewrite (drop_S _ _ _ Hlvl). clear l Hll. pose proof (Hv i Hi) as Hri.
      destruct (Hsel rho Hv) as [e He].
      assert (Eb : Ev (live (s_heap s2)) b rho 1 <-> Ev (live (s_heap s1)) e rho 1).
      { split; [by apply Hev|]. intros HE. eapply repr_Ev; [exact R|exact He|]. eapply keeps_Ev; [exact K2|apply Hl2s; by eapply elem_of_list_lookup_2|done]. }
      rewrite Eb. clear Eb Hev Hconst.
      (* the sons *)
      assert (Hz : forall k f, acc !! k = Some f -> live (s_heap s1) f = Some (Term 0) <-> forall r, valid c r -> ~ Ev (live (s_heap s0)) a (upd r i k) 1).
      { intros k f Hf. destruct (Hson k f Hf) as (d&Hsd&_&_&_&M&Ld). split.
        - intros Lf r Hr HE. apply (Hup k d) in HE; [|done..]. apply (mo_low _ _ _ _ _ _ M r Hr) in HE. inversion HE; congruence.
        - intros HN. apply (mo_zero _ _ _ _ _ _ M). intros r Hr.
          destruct (InvLemmas.Ev_total c opsem strict g s0 d r W0) as (v&Hv1&_); [done|rewrite (proj1 Hq); apply not_elem_of_nil|done|].
          destruct (Hbin k d Hsd HB r v Hr Hv1) as [->| ->]; [done|]. exfalso. apply (HN r Hr). by apply (Hup k d). }
      assert (Ho : forall k f, acc !! k = Some f -> live (s_heap s1) f = Some (Term 1) <-> Ev (live (s_heap s0)) a (upd top i k) 1).
      { intros k f Hf. destruct (Hson k f Hf) as (d&Hsd&_&_&_&M&Ld). pose proof (valid_top Hc) as Vt. rewrite (Hup k d) by done. split.
        - intros Lf. destruct (mo_up _ _ _ _ _ _ M top Vt) as (z&Vz&Lz&Ez); [by apply Ev_term|].
          eapply Ev_vars; [|exact Ez]. intros x j ss _ Lx. destruct (wf_node _ _ _ _ _ W0 x _ Lx) as (Hj&_).
          specialize (Vz j Hj). specialize (Lz j Hj). unfold MnfSpec.top in *. lia.
        - apply (mo_one _ _ _ _ _ _ M). }
      assert (Hx : forall k f, acc !! k = Some f -> Ev (live (s_heap s1)) f rho 1 <-> closes (drop (Datatypes.S (g_lv g i)) (s_l2i s0)) (fun t => Ev (live (s_heap s0)) a (upd t i k) 1) rho).
      { intros k f Hf. destruct (Hson k f Hf) as (d&Hsd&_&Hrd&_&M&Ld). rewrite (mo_exact _ _ _ _ _ _ M (Hbin k d Hsd HB) (Datatypes.S (g_lv g i)) rho) by (done || lia).
        apply closes_ext; [done|]. intros r Hr. symmetry. by apply Hup. }
      assert (Hla : length acc = dom c i) by lia.
      destruct (Fi2 (rho i) e He) as (m0&Hn1&Hn2&Hn3&Hn4).
      (* below a 1 everything is 1 *)
      assert (Hlow : forall K1 b1, acc !! K1 = Some b1 -> live (s_heap s1) b1 = Some (Term 1) -> l1 = replicate K1 b1 ++ drop K1 acc ->
        (rho i < K1 -> e = b1) /\ (K1 <= rho i -> forall k, rho i <= k -> l1 !! k = acc !! k)).
      { intros K1 b1 Hb1 Lb1 ->. split.
        - intros Hlt1. assert (E1 : (replicate K1 b1 ++ drop K1 acc) !! rho i = Some b1).
          { rewrite lookup_app_l by (by rewrite replicate_length). by apply lookup_replicate_2. }
          destruct (decide (m0 = rho i)) as [->|]; [congruence|]. pose proof (Hn3 (rho i) b1 ltac:(lia) E1). congruence.
        - intros Hle1 k Hk. rewrite lookup_app_r by (rewrite replicate_length; lia). rewrite replicate_length, lookup_drop. f_equal. lia. }
      assert (Hcase : (exists K1 b1, acc !! K1 = Some b1 /\ live (s_heap s1) b1 = Some (Term 1) /\ 0 < K1 /\ rho i < K1 /\ e = b1) \/
        ((forall k, rho i <= k -> l1 !! k = acc !! k) /\ forall k f, 0 < k -> rho i <= k -> acc !! k = Some f -> live (s_heap s1) f = Some (Term 1) -> k = rho i)).
      { destruct R1 as [[-> R1]|(K1&b1&HK&Hb1&Lb1&Hl1e&R1)].
        - right. split; [done|]. intros k f H0 Hk Hf Lf. exfalso. apply (R1 k f); [done|apply lookup_lt_Some in Hf; lia|done|done].
        - destruct (Hlow K1 b1 Hb1 Lb1 Hl1e) as [Hlo Hhi]. destruct (decide (rho i < K1)) as [Hlt1|Hge1]; [left|right].
          + exists K1, b1. split_and!; try done; [lia|auto].
          + split; [apply Hhi; lia|]. intros k f H0 Hk Hf Lf. destruct (decide (k = rho i)) as [|Hne]; [done|]. exfalso.
            apply (R1 k f); [lia|apply lookup_lt_Some in Hf; lia|done|done]. }
      cbn [MnfSpec.closes]. destruct Hcase as [(K1&b1&Hb1&Lb1&H0&Hlt1&->)|[Hsame1 Hones]].
      { split; [intros _; left|intros _; by apply Ev_term]. exists K1. split; [done|]. split; [apply lookup_lt_Some in Hb1; lia|]. by apply (Ho K1 b1). }
      rewrite (Hsame1 m0 Hn1) in Hn2. pose proof (lookup_lt_Some _ _ _ Hn2) as Hmlt.
      assert (Hzero : forall k, rho i <= k < m0 -> forall r, valid c r -> ~ Ev (live (s_heap s0)) a (upd r i k) 1).
      { intros k Hk. destruct (lookup_lt_is_Some_2 acc k) as [f Hf]; [lia|]. apply (Hz k f Hf). apply (Hn3 k f Hk). rewrite Hsame1 by lia. done. }
      split.
      - intros HE. right. exists m0. split; [lia|]. split; [exact Hzero|]. apply (Hx m0 e Hn2) in HE. split; [|done].
        by apply (closes_some (drop (Datatypes.S (g_lv g i)) (s_l2i s0)) (fun t => Ev (live (s_heap s0)) a (upd t i m0) 1) rho Hv).
      - intros [(Kx&H0&HK&HP)|(Kx&HK&Hlo&(r&Hr&HP)&HC)].
        + destruct (lookup_lt_is_Some_2 acc Kx) as [f Hf]; [lia|]. assert (Lf : live (s_heap s1) f = Some (Term 1)) by (by apply (Ho Kx f)).
          assert (Kx = rho i) as -> by (apply (Hones Kx f); try done; lia).
          assert (m0 = rho i) as ->; [|simplify_eq; by apply Ev_term].
          destruct (decide (m0 = rho i)) as [|Hne]; [done|]. exfalso. apply (Hzero (rho i) ltac:(lia) top (valid_top Hc)). done.
        + assert (m0 = Kx) as ->; [|by apply (Hx Kx e)]. destruct (Nat.lt_trichotomy m0 Kx) as [Hlt1|[|Hgt]]; [|done|].
          * exfalso. apply Hn4; [rewrite Hlen; lia|]. apply (Hz m0 e Hn2). intros r' Hr'. apply Hlo; [lia|done].
          * exfalso. by apply (Hzero Kx ltac:(lia) r Hr). }
    5:{ intros HB rho v Hv HE. destruct (Hsel rho Hv) as [e He]. apply (Hev rho e) in HE; [|done].
      destruct (lf_up _ _ _ L12 _ _ He) as (j&Hj&Hej). destruct (Hson j e Hej) as (d&Hsd&_&_&_&M&_).
      apply (mo_bin _ _ _ _ _ _ M (Hbin j d Hsd HB) rho v Hv HE). }
    3:{ intros HE. apply Hconst. destruct (lookup_lt_is_Some_2 sons (top i)) as [d0 Hd0]; [rewrite Hlen; unfold MnfSpec.top; lia|].
      destruct (lookup_lt_is_Some_2 acc (top i)) as [e0 He0]; [rewrite Hl1, Hlen; unfold MnfSpec.top; lia|].
      assert (Le0 : live (s_heap s1) e0 = Some (Term 1)).
      { destruct (Hacc _ _ _ Hd0 He0) as (_&_&M). apply (mo_one _ _ _ _ _ _ M). inversion HE as [|? ? ? ? e ? La' He Hev1]; simplify_eq. done. }
      assert (Hall : forall d, d ∈ l1 -> live (s_heap s1) d = Some (Term 1)).
      { destruct R1 as [[-> R1]|(K1&b1&HK&Hb1&Lb1&->&R1)].
        - destruct (decide (dom c i = 1)) as [E1|E1]; [|exfalso; apply (R1 (top i) e0); [unfold MnfSpec.top; lia|rewrite Hlen; unfold MnfSpec.top; lia|done|done]].
          intros d (j&Hj)%elem_of_list_lookup. assert (j = top i) as -> by (apply lookup_lt_Some in Hj; unfold MnfSpec.top; lia). congruence.
        - assert (K1 = top i) as ->.
          { destruct (decide (K1 = top i)) as [|Hn]; [done|]. exfalso. apply (R1 (top i) e0); [unfold MnfSpec.top in *; lia|unfold MnfSpec.top; lia|done|done]. }
          intros d [Hd'|Hd']%elem_of_app; [apply elem_of_replicate in Hd' as [-> _]; done|].
          apply elem_of_list_lookup in Hd' as [j Hj]. rewrite lookup_drop in Hj. pose proof (lookup_lt_Some _ _ _ Hj) as Hlt2.
          assert (j = 0) as -> by (unfold MnfSpec.top in *; lia). rewrite Nat.add_0_r in Hj. congruence. }
      intros d (k&Hk)%elem_of_list_lookup. destruct (lf_up _ _ _ L2 _ _ Hk) as (j&_&Hj). apply Hall. by eapply elem_of_list_lookup_2. }
    3:{ intros HE. apply Hconst. intros d (k&Hk)%elem_of_list_lookup. destruct (lf_up _ _ _ L12 _ _ Hk) as (j&_&Hj).
      destruct (Hson j d Hj) as (e&He&_&_&_&M&_). apply (mo_zero _ _ _ _ _ _ M). intros rho Hv. apply (Hup j e); [done..|]. apply HE. by eapply Hupv. }
    - intros rho Hv HE. inversion HE as [|? ? ? ? d ? La' Hsd Hd']; simplify_eq.
      destruct (Hsel rho Hv) as [e He]. eapply repr_Ev; [exact R|exact He|].
      eapply keeps_Ev; [exact K2|apply Hl2s; by eapply elem_of_list_lookup_2|].
      destruct (lookup_lt_is_Some_2 acc (rho i)) as [e0 He0].
      { rewrite Hl1, Hlen. by apply Hv. }
      eapply (lf_one _ _ _ L12); [exact He0|exact He|].
      destruct (Hacc (rho i) d e0 Hsd He0) as (_&_&M). by apply (mo_low _ _ _ _ _ _ M).
    - intros rho Hv HE. destruct (Hsel rho Hv) as [e He]. apply (Hev rho e) in HE; [|done].
      destruct (lf_up _ _ _ L12 _ _ He) as (j&Hj&Hej). destruct (Hson j e Hej) as (d&Hsd&_&Hrd&_&M&Ld).
      destruct (mo_up _ _ _ _ _ _ M rho Hv HE) as (rho'&Hv'&Hle&HE').
      exists (upd rho' i j). split_and!.
      + apply valid_upd; [done|]. rewrite <- Hlen. by eapply lookup_lt_Some.
      + intros k Hk. unfold upd. destruct (decide (k = i)) as [->|]; [done|by apply Hle].
      + eapply Ev_int; [done|by rewrite upd_same|].
        by apply (Ev_deeper c opsem strict g s0). }
  assert (Hdrop : cvx (live (s_heap s0)) a -> forall d, d ∈ acc -> inner (live (s_heap s1)) d -> d ∈ l2).
  { intros [C1 C2] d Hda [di [dl Hin]]. assert (Hd1 : d ∈ l1).
    { destruct R1 as [[-> _]|(K1&b1&HK&Hb1&Lb1&->&_)]; [done|]. apply elem_of_list_lookup in Hda as [j Hj].
      destruct (decide (K1 <= j)) as [Hkj|Hkj].
      - apply elem_of_app. right. apply elem_of_list_lookup. exists (j - K1). rewrite lookup_drop. by replace (K1 + (j - K1)) with j by lia.
      - exfalso. destruct (Hson K1 b1 Hb1) as (e&He&_&_&_&Me&_). destruct (Hson j d Hj) as (f&Hf&_&_&_&Mf&Lf).
        destruct (mo_up _ _ _ _ _ _ Me top (valid_top Hc)) as (z&Vz&Lz&Ez); [by apply Ev_term|].
        apply (Hup K1 e) in Ez; [|done..]. pose proof (valid_top Hc) as Vt.
        assert (Hz : forall y, valid c y -> y i <= K1 -> asg_le y (upd z i K1)).
        { intros y Vy Hy k Hk. unfold upd. destruct (decide (k = i)) as [->|]; [done|]. pose proof (Vy k Hk). specialize (Lz k Hk). unfold MnfSpec.top in Lz. lia. }
        assert (Hf01 : forall rho, valid c rho -> Ev (live (s_heap s0)) f rho 0).
        { intros rho Vr. destruct (InvLemmas.Ev_total c opsem strict g s0 f rho W0) as (v&Hv&_); [done|rewrite (proj1 Hq); apply not_elem_of_nil|done|].
          assert (Hv' : Ev (live (s_heap s0)) a (upd rho i j) v) by (by apply (Hup j f)).
          destruct (C1 _ v (Hupv j f rho Hf Vr) Hv') as [->| ->]; [done|exfalso].
          assert (Ht : Ev (live (s_heap s0)) a (upd top i j) 1).
          { apply (C2 (upd rho i j) (upd top i j) (upd z i K1)); try (by eapply Hupv); [|apply Hz|exact Hv'|exact Ez].
            - apply Hle_upd; [|done]. intros k Hk. pose proof (Vr k Hk). unfold MnfSpec.top. lia.
            - by eapply Hupv.
            - rewrite upd_same. lia. }
          apply (Hup j f) in Ht; [|done..]. pose proof (mo_one _ _ _ _ _ _ Mf Ht). congruence. }
        pose proof (mo_zero _ _ _ _ _ _ Mf Hf01). congruence. }
    destruct (Z2 d Hd1) as [?|?]; [done|congruence]. }
  rewrite (rank_int c g _ _ _ _ Hq La) in MB.
  split; [exact Hlv|]. split; [done|]. split; [done|]. split; [done|]. split.
  2:{ intros HC d Hdm. destruct (Mk2 d Hdm) as [[Hm1' Hn2]| ->].
    - destruct (Hmk1 HC d Hm1') as [?|[Hda Hdi]]; [by left|]. exfalso. apply Hn2. by apply Hdrop.
    - destruct R as [[_ Lb]|[Ea _]]; [right; split; [done|]; by eexists _, _|].
      rewrite (Hsame Ea) in *. destruct (Hmk1 HC b Hdm) as [?|[_ ?]]; [by left|by right]. }
  intros a' b'. unfold memo in *. destruct (decide (a' = a)) as [->|Hne].
  - rewrite lookup_insert. intros; simplify_eq. rewrite (rank_int c g _ _ _ _ Hq La). done.
  - rewrite lookup_insert_ne by done. apply (mm_ok_step g s0 s1 s2 m1 S2 Hm1).
Qed.

Lemma to_mnf_spec g a s :
  wf_cfg c -> calm g s -> idle s -> 0 < g_ext g a ->
  wp allowed (to_mnf c a) (fun b s' => astep c opsem strict false g (g_inc b g) s s' /\
    mnf_of (s_l2i s) (rank g (s_heap s) a) (live (s_heap s)) a (live (s_heap s')) b /\ (cvx (live (s_heap s)) a -> clean s -> clean s')) s.
Proof.
  intros Hc C Hau Ha. unfold to_mnf. pose proof (cl_wf _ _ _ _ _ C) as W. apply wp_bind. eapply wp_mono.
  { apply (to_mnf_impl_spec g s (S (nvars c))); try done; try apply C; try (by apply sstep_refl);
      [by eapply ext_held|lia]. }
  intros [m b] s1 (S1&Hb&_&M&_&Mk). simpl in *.
  pose proof (calm_sstep _ _ _ _ _ _ C S1) as C1.
  apply run_deferred_calm; [by apply (mode_idle s s1); [apply mode_same_order, S1|]|]. apply wp_bind.
  assert (L : lstep c opsem strict g s s1 b (fun rho v => v = 1%Z /\ Ev (live (s_heap s)) a rho 1)).
  { constructor; [done|done|]. intros rho v Hv [-> HE]. by apply M. }
  assert (HM : wp allowed (diagram_of b) (fun _ s' => mnf_of (s_l2i s) (rank g (s_heap s) a) (live (s_heap s)) a (live (s_heap s')) b /\
    (cvx (live (s_heap s)) a -> clean s -> clean s')) s1).
  { apply (diagram_of_spec c opsem strict allowed g); [by left|apply S1|apply C|eapply held_live; [apply S1|done]|].
    intros h' H _ Hmk. split.
    - destruct M as [Lo Up One Zero Bin Ex]. constructor; simpl.
      + intros rho Hv HE. eapply Ev_ext; [intros d; by apply hrel_live|]. auto.
      + intros rho Hv HE. apply Up; [done|]. eapply Ev_ext; [|exact HE]. intros d. symmetry. by apply hrel_live.
      + intros HE. rewrite (hrel_live _ _ _ H). auto.
      + intros HE. rewrite (hrel_live _ _ _ H). auto.
      + intros HB rho v Hv HE. eapply Bin; [done|done|]. eapply Ev_ext; [|exact HE]. intros d. symmetry. by apply hrel_live.
      + intros HB l rho Hl Hv. rewrite <- (Ex HB l rho Hl Hv). split; intros HE; (eapply Ev_ext; [|exact HE]; intros d; (by apply hrel_live) || (symmetry; by apply hrel_live)).
    - intros HC Cl d Hd. apply Hmk in Hd as [Hd Hn]. destruct (Mk HC d Hd) as [?|[-> _]]; [by eapply Cl|done]. }
  pose proof (new_handle_gen c opsem strict g s s1 b _ (fun _ s' => astep c opsem strict false g (g_inc b g) s s')
    C L (fun s2 H _ => an_step _ _ _ _ _ _ _ _ _ H)) as HN.
  unfold wp in *. destruct (diagram_of b s1); naive_solver.
Qed.

End mnf.
