(** * The node primitives of the manager on the packed word: C29, C30 *)

From stdpp Require Import gmap list.
From Coq Require Import ZArith NArith Lia Bool.
From Verif Require Import Base Ops NodeManager NodeBits PropsOps Chain.

Local Open Scope N_scope.

(** the fields of a node of the manager *)
Definition node_fields (n : node) : fields := Fields (n_mark n) (n_used n) (is_term n) (n_refs n).

(** the primitives of the manager that change one node *)
Definition primitive (c : cfg) (o : wop) (a : positive) : M unit :=
  match o with
  | WUnuse => delete_node c a
  | WToggle => toggle_mark a
  | WMark => set_mark true a
  | WUnmark => set_mark false a
  | WInc => inc_ref a
  | WDec => dec_ref a
  end.

(** A primitive of the manager does to the fields of the node what the code does to its
    word.  Where the manager of the model stops with [ERefOver], the code goes on and
    the node turns from internal to terminal or back, with no references. *)
Theorem C30_node_primitives : forall c o a s n w, s_heap s !! a = Some n -> n_used n = true -> stores w (node_fields n) ->
  match primitive c o a s with
  | Ok _ s' => exists n' w', s_heap s' = <[a := n']> (s_heap s) /\ n_body n' = n_body n /\
      word_step w o = Some w' /\ stores w' (node_fields n') /\ is_term n' = negb (was_internal w')
  | Err ERefOver => o = WInc /\ exists w', word_step w WInc = Some w' /\ get_refs w' = 0 /\ was_internal w' = negb (was_internal w)
  | Err ERefUnder => o = WDec /\ get_refs w = 0 /\ word_step w WDec = None
  | Err EAssert => o = WUnuse /\ is_marked w = true
  | _ => False
  end.
Proof.
  intros c o a s n w Hn Hu Hs.
  assert (G : getn a s = Ok n s) by (unfold getn; rewrite Hn, Hu; done).
  assert (St : forall n', n_body n' = n_body n -> field_step (node_fields n) o = Some (node_fields n') ->
    exists n'' w', <[a := n']> (s_heap s) = <[a := n'']> (s_heap s) /\ n_body n'' = n_body n /\
      word_step w o = Some w' /\ stores w' (node_fields n'') /\ is_term n'' = negb (was_internal w')).
  { intros n' Hb Hf. destruct (word_step_fields w (node_fields n) o (node_fields n') Hs Hf) as (w'&Ew&Hs').
    exists n', w'. split; [done|]. split; [done|]. split; [done|]. split; [done|].
    destruct (C29_queries w' _ Hs') as (_&_&->&_). by rewrite negb_involutive. }
  destruct (C29_queries w _ Hs) as (Qm&_&Ql&_&_&Qr). cbn [node_fields f_mark f_refs f_leaf] in Qm, Qr, Ql.
  destruct o; cbn [primitive]; unfold delete_node, toggle_mark, set_mark, inc_ref, dec_ref, modn, bind; rewrite G.
  - destruct (c_dbg c && n_mark n) eqn:E; cbn.
    + split; [done|]. rewrite Qm. by apply andb_true_iff in E as [_ E].
    + apply (St (Node (n_body n) (n_mark n) false (n_refs n))); done.
  - apply (St (Node (n_body n) (negb (n_mark n)) (n_used n) (n_refs n))); done.
  - apply (St (Node (n_body n) true (n_used n) (n_refs n))); done.
  - apply (St (Node (n_body n) false (n_used n) (n_refs n))); done.
  - destruct (N.ltb_spec (n_refs n + 1) refs_limit) as [L|L]; cbn.
    + apply (St (Node (n_body n) (n_mark n) (n_used n) (n_refs n + 1))); [done|].
      unfold field_step, node_fields. cbn [f_refs f_mark f_used f_leaf n_mark n_used n_refs].
      destruct (N.ltb_spec (n_refs n + 1) (2 ^ 29)) as [_|L']; [done|]. unfold refs_limit in L. lia.
    + split; [done|]. destruct Hs as (_&Hr&Ew). cbn [node_fields f_mark f_used f_leaf f_refs] in *.
      assert (Er : n_refs n = 536870911) by (unfold refs_limit in L; lia).
      rewrite Er in Ew. rewrite Hu in Ew. clear - Ew Ql. destruct (n_mark n), (is_term n); subst w; eexists; by vm_compute.
  - destruct (N.eqb_spec (n_refs n) 0) as [E|E]; cbn.
    + split; [done|]. unfold word_step. by rewrite Qr, E.
    + apply (St (Node (n_body n) (n_mark n) (n_used n) (n_refs n - 1))); [done|].
      unfold field_step, node_fields. cbn [f_refs f_mark f_used f_leaf n_mark n_used n_refs].
      destruct (N.ltb_spec 0 (n_refs n)) as [_|L']; [done|]. lia.
Qed.

Example C30_primitives_case : exists s n w, s_heap s !! 1%positive = Some n /\ n_used n = true /\ stores w (node_fields n) /\
  match inc_ref 1 s with Err ERefOver => True | _ => False end.
Proof.
  exists (set_heap {[1%positive := Node (Int 0 []) false true 536870911]} no_state), (Node (Int 0 []) false true 536870911), 1610612735.
  by vm_compute.
Qed.

Print Assumptions C30_node_primitives.
