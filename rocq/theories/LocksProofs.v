(** Deadlock freedom by an order on the locks: every call takes its locks in ascending order, and has
    given all of them back when it returns. *)
From stdpp Require Import base list gmap numbers strings countable sorting.
From Verif Require Import Prog Types Mailbox World ProcApi NodeApi Api Locks.

(** ** The order *)
Definition rank (t : table) : nat :=
  match t with
  | TOverrides _ => 0
  | TRingLock _ => 1
  | TNodeMap => 2 | TNodes => 3 | TNames => 3 | TRegistry => 3
  | TKeys _ => 4 | TProcesses => 4 | TTimers => 4 | TLinks => 4 | TMonitors => 4 | TAliases => 4
  | TNodeMonitors => 4 | TNodeLinks => 4 | TPending => 4 | TCookie => 4
  end.
Definition lrank (l : lock) : nat := rank (fst l).
Definition below (a b : lock) : Prop := lrank a < lrank b \/ lrank a = lrank b /\ snd a < snd b.
Lemma below_irrefl a : ~ below a a.
Proof. unfold below. lia. Qed.
Lemma below_trans a b c : below a b -> below b c -> below a c.
Proof. unfold below. lia. Qed.
Lemma below_total a b : below a b \/ ~ below a b.
Proof. unfold below. lia. Qed.
Lemma not_below_trans a b c : ~ below a b -> ~ below b c -> ~ below a c.
Proof. unfold below. lia. Qed.

(** [p], begun with [h] held, takes its locks in order, and ends with [f] held. *)
Fixpoint fits (f h : list (mode * lock)) (p : lprog) : Prop :=
  match p with
  | LRet => h = f
  | LAcq m l k => (forall x, x ∈ h -> below (snd x) l) /\ fits f ((m, l) :: h) k
  | LRel l k => fits f (give_back l h) k
  | LAny a k => forall x, fits f h (k x)
  end.
Lemma fits_then f g h p q : fits g h p -> fits f g q -> fits f h (p &> q).
Proof.
  intros Hp Hq. revert h Hp. induction p as [|m l k IH|l k IH|A a k IH]; intros h Hp; cbn in *.
  - by subst.
  - destruct Hp as [Hb Hk]. split; [exact Hb|]. by apply IH.
  - by apply IH.
  - intros x. by apply IH.
Qed.
Definition ranks_below (r : nat) (h : list (mode * lock)) : Prop := forall x, x ∈ h -> lrank (snd x) < r.
(** [p] takes only locks of rank [r] and above, and gives back what it takes. *)
Definition above (r : nat) (p : lprog) : Prop := forall h, ranks_below r h -> fits h h p.
Lemma above_mono r r' p : r' <= r -> above r p -> above r' p.
Proof. intros Hr Hp h Hh. apply Hp. intros x Hx. pose proof (Hh x Hx). lia. Qed.
Lemma above_ret r : above r LRet.
Proof. intros h Hh. reflexivity. Qed.
Lemma above_then r p q : above r p -> above r q -> above r (p &> q).
Proof. intros Hp Hq h Hh. eapply fits_then; [by apply Hp | by apply Hq]. Qed.
Lemma above_any r A (a : A) k : (forall x, above r (k x)) -> above r (LAny a k).
Proof. intros Hk h Hh x. by apply Hk. Qed.
Lemma above_maybe r p : above r p -> above r (maybe p).
Proof. intros Hp. apply above_any. intros []; [done | apply above_ret]. Qed.
Lemma above_either r p q : above r p -> above r q -> above r (either p q).
Proof. intros Hp Hq. apply above_any. by intros []. Qed.
Lemma above_for_each r A (l : list A) f : (forall x, above r (f x)) -> above r (for_each l f).
Proof. intros Hf. induction l as [|x l IH]; cbn; [apply above_ret | by apply above_then]. Qed.
Lemma above_some_keys r f : (forall i, above r (f i)) -> above r (some_keys f).
Proof. intros Hf. apply above_any. intros l. by apply above_for_each. Qed.
Lemma above_some_key r f : (forall i, above r (f i)) -> above r (some_key f).
Proof. apply above_any. Qed.
Lemma above_some_node r f : (forall i, above r (f i)) -> above r (some_node f).
Proof. apply above_any. Qed.
Lemma give_back_head m l h : give_back l ((m, l) :: h) = h.
Proof. cbn. by rewrite decide_True. Qed.
Lemma above_one r m t i p : r <= rank t -> above (S (rank t)) p -> above r (LAcq m (t, i) (p &> LRel (t, i) LRet)).
Proof.
  intros Hr Hp h Hh. assert (lrank (t, i) = rank t) as Hl by done. split.
  - intros x Hx. left. pose proof (Hh x Hx). lia.
  - eapply fits_then; [apply Hp|].
    + intros x [->|Hx]%elem_of_cons; [change (lrank (t, i) < S (rank t)); lia|]. pose proof (Hh x Hx). lia.
    + apply give_back_head.
Qed.

Section tables.
  Context (shards : table -> nat) (shard : table -> lkey -> nat).
  Notation holding := (holding shard). Notation reading := (reading shard). Notation writing := (writing shard).
  Notation get := (get shard). Notation change := (change shard).
  Notation iter := (iter shards). Notation each_shard := (each_shard shards).
  Notation clear := (clear shards). Notation len := (len shards).

  Lemma above_holding r m t k p : r <= rank t -> above (S (rank t)) p -> above r (holding m t k p).
  Proof. apply above_one. Qed.
  Lemma above_reading r t k p : r <= rank t -> above (S (rank t)) p -> above r (reading t k p).
  Proof. apply above_one. Qed.
  Lemma above_writing r t k p : r <= rank t -> above (S (rank t)) p -> above r (writing t k p).
  Proof. apply above_one. Qed.
  Lemma above_get r t k : r <= rank t -> above r (get t k).
  Proof. intros Hr. apply above_one; [done | apply above_ret]. Qed.
  Lemma above_change r t k : r <= rank t -> above r (change t k).
  Proof. intros Hr. apply above_one; [done | apply above_ret]. Qed.
  Lemma iter_fits t h n held i :
    held < i -> ranks_below (rank t) h -> fits h ((Shared, (t, held)) :: h) (iter_from t held i n).
  Proof.
    intros Hi Hh. revert held i Hi. induction n as [|n IH]; intros held i Hi; cbn [iter_from fits].
    - apply give_back_head.
    - split.
      + intros x [->|Hx]%elem_of_cons; [right; split; [reflexivity | exact Hi]|]. left. by apply Hh.
      + cbn. rewrite decide_False by (intros E; injection E; lia). rewrite decide_True by done.
        apply IH. lia.
  Qed.
  Lemma above_iter r t : r <= rank t -> above r (iter t).
  Proof.
    intros Hr h Hh. unfold Locks.iter. destruct (shards t) as [|n]; [done|].
    assert (ranks_below (rank t) h) as Hh' by (intros x Hx; pose proof (Hh x Hx); lia).
    split; [intros x Hx; left; by apply Hh'|]. apply iter_fits; [lia | done].
  Qed.
  Lemma above_each_shard r m t : r <= rank t -> above r (each_shard m t).
  Proof.
    intros Hr. apply above_for_each. intros i. apply (above_one r m t i LRet); [done | apply above_ret].
  Qed.
  Lemma above_clear r t : r <= rank t -> above r (clear t).
  Proof. apply above_each_shard. Qed.
  Lemma above_len r t : r <= rank t -> above r (len t).
  Proof. apply above_each_shard. Qed.

  Ltac ab1 :=
    match goal with
    | |- above _ LRet => apply above_ret
    | |- above _ (_ &> _) => apply above_then
    | |- above _ (maybe _) => apply above_maybe
    | |- above _ (either _ _) => apply above_either
    | |- above _ (for_each _ _) => apply above_for_each; intros
    | |- above _ (some_keys _) => apply above_some_keys; intros
    | |- above _ (some_key _) => apply above_some_key; intros
    | |- above _ (some_node _) => apply above_some_node; intros
    | |- above _ (LAny _ _) => apply above_any; intros
    | |- above _ (Locks.reading _ _ _ _) => apply above_reading; [cbn; lia | cbn [rank]]
    | |- above _ (Locks.writing _ _ _ _) => apply above_writing; [cbn; lia | cbn [rank]]
    | |- above _ (Locks.get _ _ _) => apply above_get; cbn; lia
    | |- above _ (Locks.change _ _ _) => apply above_change; cbn; lia
    | |- above _ (Locks.iter _ _) => apply above_iter; cbn; lia
    | |- above _ (Locks.clear _ _) => apply above_clear; cbn; lia
    | |- above _ (Locks.len _ _) => apply above_len; cbn; lia
    | |- above _ (match ?x with _ => _ end) => destruct x
    | |- above _ (if ?x then _ else _) => destruct x
    end.
  Ltac ab := repeat ab1; try done.

  Lemma above_process_exit r i : r <= 4 -> above r (process_exit shard i).
  Proof. intros. unfold process_exit. ab. Qed.
  Lemma above_signal r i : r <= 4 -> above r (process_exit_signal_linked shard i).
  Proof. intros. unfold process_exit_signal_linked. ab. Qed.
  Lemma above_send_frame r i : r <= 3 -> above r (node_send_frame shard i).
  Proof. intros. unfold node_send_frame, process_sender. ab. Qed.
  Lemma above_lookup r i : r <= 3 -> above r (node_lookup shard i).
  Proof. intros. unfold node_lookup. ab. Qed.
  Lemma above_register r nd b : r <= 2 -> above r (node_register shard nd b).
  Proof. intros. unfold node_register, spawn_plain, process_insert. ab. Qed.
  Lemma above_node_links r nd : r <= 4 -> above r (node_links shard nd).
  Proof. intros. unfold node_links. ab. Qed.
  Lemma above_node_monitors r nd : r <= 4 -> above r (node_monitors shard nd).
  Proof. intros. unfold node_monitors. ab. Qed.
  Lemma above_alias_destroy r i : r <= 4 -> above r (alias_destroy shard i).
  Proof. intros. unfold alias_destroy. ab. Qed.
  Lemma above_sender r i : r <= 4 -> above r (process_sender shard i).
  Proof. intros. unfold process_sender. ab. Qed.
  Lemma above_link_create r i b : r <= 4 -> above r (link_create shard i b).
  Proof. intros. unfold link_create, process_exists_lock. ab. Qed.
  Lemma above_monitor_create r i : r <= 4 -> above r (monitor_create shard i).
  Proof. intros. unfold monitor_create. ab. Qed.
  Lemma above_spawn r i b b' : r <= 4 -> above r (spawn shard i b b').
  Proof. intros. unfold spawn, process_insert. ab; by (apply above_link_create || apply above_monitor_create). Qed.
  Ltac ab2 :=
    match goal with
    | |- above _ (process_exit _ _) => apply above_process_exit; lia
    | |- above _ (process_exit_signal_linked _ _) => apply above_signal; lia
    | |- above _ (node_send_frame _ _) => apply above_send_frame; lia
    | |- above _ (node_lookup _ _) => apply above_lookup; lia
    | |- above _ (node_register _ _ _) => apply above_register; lia
    | |- above _ (node_links _ _) => apply above_node_links; lia
    | |- above _ (node_monitors _ _) => apply above_node_monitors; lia
    | |- above _ (alias_destroy _ _) => apply above_alias_destroy; lia
    | |- above _ (process_sender _ _) => apply above_sender; lia
    | |- above _ (link_create _ _ _) => apply above_link_create; lia
    | |- above _ (monitor_create _ _) => apply above_monitor_create; lia
    | |- above _ (spawn _ _ _ _) => apply above_spawn; lia
    | _ => ab1
    end.
  Ltac abs := repeat ab2; try done.

  Lemma above_link_install r p q : r <= 2 -> above r (link_install shard p q).
  Proof. intros. unfold link_install. abs. Qed.
  Lemma above_link_destroy_local r i : r <= 4 -> above r (link_destroy shard (PLocal i)).
  Proof. intros. cbn. abs. Qed.
  Lemma above_link_destroy r p : r <= 3 -> above r (link_destroy shard p).
  Proof. intros. unfold link_destroy. abs. Qed.
  Lemma above_monitor_destroy_local r i x : r <= 4 -> above r (monitor_destroy shard (PLocal i) x).
  Proof. intros. cbn. abs. Qed.
  Lemma above_monitor_destroy r p x : r <= 3 -> above r (monitor_destroy shard p x).
  Proof. intros. unfold monitor_destroy. abs. Qed.
  Lemma above_monitor_install r d x : r <= 2 -> above r (monitor_install shard d x).
  Proof. intros. unfold monitor_install, monitor_remote, process_exists_lock, process_name_lookup. abs. Qed.
  Lemma above_gone r i : r <= 3 -> above r (process_gone shard i).
  Proof.
    intros. unfold process_gone, process_drop, process_name_remove, link_process_down, monitor_process_down,
      monitor_destroy_all, alias_destroy_all. abs.
  Qed.
  Lemma above_exit r p : r <= 3 -> above r (exit_locks shard p).
  Proof. intros. unfold exit_locks. abs. Qed.
  Lemma above_delivery r d : r <= 3 -> above r (local_delivery shard d).
  Proof. intros. unfold local_delivery, process_name_lookup, alias_retrieve. abs. Qed.
  Lemma above_serialize r : r <= 3 -> above r (serialize shard).
  Proof. intros. unfold serialize. abs. Qed.
  Lemma above_send r ds : r <= 2 -> above r (process_send shard ds).
  Proof.
    intros. unfold process_send, send_optimal.
    repeat (match goal with
            | |- above _ (local_delivery _ _) => apply above_delivery; lia
            | |- above _ (serialize _) => apply above_serialize; lia
            | _ => ab2
            end).
  Qed.
  Lemma above_frame r nd f : r <= 2 -> above r (frame_locks shard nd f).
  Proof.
    intros. unfold frame_locks, node_forward_send, process_exists_lock, process_name_lookup,
      node_process_monitor_down, node_process_link_down.
    repeat (match goal with
            | |- above _ (local_delivery _ _) => apply above_delivery; lia
            | |- above _ (link_destroy _ (PLocal _)) => apply above_link_destroy_local; lia
            | |- above _ (monitor_destroy _ (PLocal _) _) => apply above_monitor_destroy_local; lia
            | _ => ab2
            end).
  Qed.
  Lemma above_supervisor_down r nd : r <= 2 -> above r (node_supervisor_down shard nd).
  Proof.
    intros. unfold node_supervisor_down.
    repeat (match goal with
            | |- above _ (link_destroy _ (PLocal _)) => apply above_link_destroy_local; lia
            | |- above _ (monitor_destroy _ (PLocal _) _) => apply above_monitor_destroy_local; lia
            | _ => ab2
            end).
  Qed.
  (** Every call of the API takes its locks in order. *)
  Lemma above_call c : above 2 (call_locks shards shard c).
  Proof.
    destruct c; cbn [call_locks];
      unfold alias_create, process_name_lookup, process_register_timer, process_destroy_timer, process_read_timer,
        process_alive, process_register, process_unregister, process_name_list, process_list, process_flags,
        process_set_flags, process_info, deserialize, process_set_exit_reason, node_alive, node_local_start,
        spawn_plain, process_insert, node_local_stop, node_local_panic, node_list, node_list_filtered,
        node_disconnect, node_forget, node_accept, node_register_workers, alias_destroy;
      repeat (match goal with
              | |- above _ (process_send _ _) => apply above_send; lia
              | |- above _ (link_install _ _ _) => apply above_link_install; lia
              | |- above _ (link_destroy _ _) => apply above_link_destroy; lia
              | |- above _ (monitor_install _ _ _) => apply above_monitor_install; lia
              | |- above _ (monitor_destroy _ _ _) => apply above_monitor_destroy; lia
              | |- above _ (exit_locks _ _) => apply above_exit; lia
              | |- above _ (process_gone _ _) => apply above_gone; lia
              | |- above _ (node_supervisor_down _ _) => apply above_supervisor_down; lia
              | |- above _ (frame_locks _ _ _) => apply above_frame; lia
              | _ => ab2
              end).
  Qed.
  Lemma above_map_node ring k p : above 1 p -> above 0 (map_node shard ring k p).
  Proof.
    intros Hp h Hh. split; [intros x Hx; pose proof (Hh x Hx); lia|].
    assert (h = []) as ->.
    { destruct h as [|y h]; [done|]. pose proof (Hh y (elem_of_list_here _ _)). lia. }
    intros [].
    - eapply fits_then; [apply Hp|].
      + intros x [->|Hx]%elem_of_cons; cbn; [lia|]. by apply elem_of_nil in Hx.
      + apply give_back_head.
    - cbn [fits]. rewrite give_back_head. apply Hp. intros x Hx. by apply elem_of_nil in Hx.
  Qed.
  Definition uses_overrides (d : deed) : bool :=
    match d with DFind _ _ | DOverride _ _ | DOverrides _ _ | DSetOverrides _ _ => true | _ => false end.
  Lemma above_deed1 d : uses_overrides d = false -> above 1 (locks_of shards shard d).
  Proof.
    intros Hd. destruct d; try discriminate Hd; cbn [locks_of]; unfold process_len, node_local_process;
      repeat (match goal with
              | |- above _ (call_locks _ _ _) => eapply above_mono; [|apply above_call]; lia
              | |- above _ (link_destroy _ _) => apply above_link_destroy; lia
              | |- above _ (exit_locks _ _) => apply above_exit; lia
              | |- above _ (monitor_install _ _ _) => apply above_monitor_install; lia
              | _ => ab2
              end).
  Qed.
  Lemma above_deed d : above 0 (locks_of shards shard d).
  Proof.
    destruct (uses_overrides d) eqn:E.
    - destruct d; try discriminate E; cbn [locks_of]; abs. apply above_map_node. abs.
    - eapply above_mono; [|by apply above_deed1]. lia.
  Qed.
  Definition uses_ring (d : deed) : bool :=
    match d with DNode _ => true | _ => uses_overrides d end.
  Lemma above_deed2 d : uses_ring d = false -> above 2 (locks_of shards shard d).
  Proof.
    intros Hd. destruct d; try discriminate Hd; cbn [locks_of]; unfold process_len, node_local_process;
      repeat (match goal with
              | |- above _ (call_locks _ _ _) => apply above_call
              | |- above _ (link_destroy _ _) => apply above_link_destroy; lia
              | |- above _ (exit_locks _ _) => apply above_exit; lia
              | |- above _ (monitor_install _ _ _) => apply above_monitor_install; lia
              | _ => ab2
              end).
  Qed.
  Lemma above_add_nodes ring p : above 2 p -> above 0 (add_nodes shard ring p).
  Proof. intros Hp. unfold add_nodes. ab. Qed.
End tables.

(** ** Progress *)
Definition in_order (t : thread) : Prop := fits [] (t_held t) (t_prog t).
Lemma lreach_order (starts : lprog -> Prop) ts :
  (forall p, starts p -> above 0 p) -> lreach starts ts -> forall t, t ∈ ts -> in_order t.
Proof.
  intros Hs Hr. induction Hr as [|ts p Hr IH Hp|ts ts' Hr IH Hst]; intros t Ht.
  - by apply elem_of_nil in Ht.
  - apply elem_of_app in Ht. destruct Ht as [Ht|Ht]; [by apply IH|]. apply elem_of_list_singleton in Ht as ->.
    apply (Hs p Hp). intros x Hx. by apply elem_of_nil in Hx.
  - destruct Hst as (i & u & u' & Hi & Hst & ->).
    apply elem_of_list_lookup in Ht as [j Hj]. destruct (decide (j = i)) as [->|Hji].
    + rewrite list_lookup_insert in Hj by (by eapply lookup_lt_Some). injection Hj as <-.
      pose proof (IH u (elem_of_list_lookup_2 _ _ _ Hi)) as Hu.
      destruct Hst; unfold in_order in *; cbn in *; [exact (proj2 Hu) | exact Hu | exact (Hu x)].
    + rewrite list_lookup_insert_ne in Hj by done. apply IH. by eapply elem_of_list_lookup_2.
Qed.
(** The lock a thread waits for. *)
Definition wants (t : thread) : option (mode * lock) :=
  match t_prog t with LAcq m l _ => Some (m, l) | _ => None end.
Lemma any_wants (ts : list thread) :
  (exists t, t ∈ ts /\ wants t <> None) \/ ~ (exists t, t ∈ ts /\ wants t <> None).
Proof.
  induction ts as [|u ts IH].
  - right. intros (t & Ht & _). by apply elem_of_nil in Ht.
  - destruct (wants u) eqn:Eu.
    + left. exists u. split; [constructor | congruence].
    + destruct IH as [H|H].
      * left. destruct H as (t & Ht & Hw). exists t. split; [by constructor | done].
      * right. intros (t & [->|Ht]%elem_of_cons & Hw); [done|]. apply H. eauto.
Qed.
Lemma highest (ts : list thread) :
  (exists t, t ∈ ts /\ wants t <> None) ->
  exists t m l, t ∈ ts /\ wants t = Some (m, l) /\
    forall u m' l', u ∈ ts -> wants u = Some (m', l') -> ~ below l l'.
Proof.
  induction ts as [|u ts IH]; intros (t & Ht & Hw); [by apply elem_of_nil in Ht|].
  destruct (any_wants ts) as [Hex|Hnone].
  2: { assert (t = u) as ->.
       { apply elem_of_cons in Ht as [->|Ht]; [done|]. destruct Hnone. eauto. }
       destruct (wants u) as [[m l]|] eqn:Eu; [|done].
       exists u, m, l. split; [constructor|]. split; [done|]. intros v m' l' [->|Hv]%elem_of_cons Ev.
       - rewrite Eu in Ev. injection Ev as <- <-. apply below_irrefl.
       - destruct Hnone. exists v. rewrite Ev. done. }
  destruct (IH Hex) as (v & m & l & Hv & Ev & Hmax).
  destruct (wants u) as [[mu lu]|] eqn:Eu.
  2: { exists v, m, l. split; [by constructor|]. split; [done|]. intros x m' l' [->|Hx]%elem_of_cons Ex.
       - congruence.
       - by eapply Hmax. }
  destruct (below_total l lu) as [Hb|Hb].
  - exists u, mu, lu. split; [constructor|]. split; [done|]. intros x m' l' [->|Hx]%elem_of_cons Ex.
    + rewrite Eu in Ex. injection Ex as <- <-. apply below_irrefl.
    + intros Hb'. apply (Hmax x m' l' Hx Ex). by eapply below_trans.
  - exists v, m, l. split; [by constructor|]. split; [done|]. intros x m' l' [->|Hx]%elem_of_cons Ex.
    + rewrite Eu in Ex. injection Ex as <- <-. done.
    + by eapply Hmax.
Qed.

Lemma any_moves (ts : list thread) :
  (exists t, t ∈ ts /\ wants t = None /\ t_prog t <> LRet) \/
  (forall t, t ∈ ts -> wants t <> None \/ t_prog t = LRet).
Proof.
  induction ts as [|u ts IH].
  - right. intros t Ht. by apply elem_of_nil in Ht.
  - destruct IH as [(t & Ht & H)|IH]; [left; exists t; split; [by constructor | done]|].
    destruct (t_prog u) as [|m l k|l k|A a k] eqn:Eu.
    + right. intros t [->|Ht]%elem_of_cons; [by right | by apply IH].
    + right. intros t [->|Ht]%elem_of_cons; [|by apply IH]. left. unfold wants. by rewrite Eu.
    + left. exists u. split; [constructor|]. unfold wants. by rewrite Eu.
    + left. exists u. split; [constructor|]. unfold wants. by rewrite Eu.
Qed.
Lemma any_writer l (ts : list thread) : writer_waits l ts \/ ~ writer_waits l ts.
Proof.
  induction ts as [|u ts IH].
  - right. intros (t & Ht & _). by apply elem_of_nil in Ht.
  - destruct IH as [(t & Ht & H)|IH]; [left; exists t; split; [by constructor | done]|].
    destruct (t_prog u) as [|[] l' k|l' k|A a k] eqn:Eu.
    3: { destruct (decide (l' = l)) as [->|Hl].
         - left. exists u. rewrite Eu. split; [constructor | done].
         - right. intros (t & [->|Ht]%elem_of_cons & H); [rewrite Eu in H; done|]. apply IH. by exists t. }
    all: right; intros (t & [->|Ht]%elem_of_cons & H); [rewrite Eu in H; done|]; apply IH; by exists t.
Qed.
(** Threads that all take their locks in order are never all stuck. *)
Lemma progress (ts : list thread) :
  (forall t, t ∈ ts -> in_order t) ->
  (forall t, t ∈ ts -> t_prog t = LRet) \/ exists ts', sure_step ts ts'.
Proof.
  intros Ho.
  destruct (any_moves ts) as [(t & Ht & Hw & Hp)|Hall].
  { right. apply elem_of_list_lookup in Ht as [i Hi]. destruct t as [h p]. unfold wants in Hw. cbn in *.
    destruct p as [|m l k|l k|A a k]; try done.
    - eexists. exists i, (Thread h (LRel l k)), (Thread (give_back l h) k).
      split; [done|]. split; [intros H; exact H|]. split; [constructor | reflexivity].
    - eexists. exists i, (Thread h (LAny a k)), (Thread h (k a)).
      split; [done|]. split; [intros H; exact H|]. split; [constructor | reflexivity]. }
  destruct (any_wants ts) as [Hex|Hnone].
  2: { left. intros t Ht. destruct (Hall t Ht) as [H|H]; [|done]. destruct Hnone. eauto. }
  right. destruct (highest ts Hex) as (t & m & l & Ht & Hw & Hmax).
  (* nobody holds the highest lock that is wanted *)
  assert (forall u m', u ∈ ts -> ~ (m', l) ∈ t_held u) as Hfree.
  { intros u m' Hu Hh. pose proof (Ho u Hu) as Hou. unfold in_order in Hou.
    destruct (Hall u Hu) as [Hwu|Hret].
    - destruct (wants u) as [[mu lu]|] eqn:Eu; [|done]. unfold wants in Eu.
      destruct (t_prog u) as [|m1 l1 k1|?|?] eqn:Ep; try done. injection Eu as -> ->. destruct Hou as [Hb _].
      apply (Hmax u mu lu Hu); [unfold wants; by rewrite Ep|]. exact (Hb _ Hh).
    - rewrite Hret in Hou. cbn in Hou. rewrite Hou in Hh. by apply elem_of_nil in Hh. }
  assert (forall m', compatible m' l ts) as Hc.
  { intros m' u m'' Hu Hh. exfalso. by eapply Hfree. }
  destruct (any_writer l ts) as [(u & Hu & Hwu)|Hno].
  - apply elem_of_list_lookup in Hu as [i Hi]. destruct u as [h p]. cbn in Hwu.
    destruct p as [|[] l' k|?|?]; try done. subst l'.
    eexists. exists i, (Thread h (LAcq Exclusive l k)), (Thread ((Exclusive, l) :: h) k).
    split; [done|]. split; [intros H; exact H|]. split; [by constructor | reflexivity].
  - apply elem_of_list_lookup in Ht as [i Hi]. destruct t as [h p]. unfold wants in Hw. cbn in Hw.
    destruct p as [|m1 l1 k|?|?]; try done. injection Hw as -> ->.
    eexists. exists i, (Thread h (LAcq m l k)), (Thread ((m, l) :: h) k).
    split; [done|]. split; [destruct m; [exact Hno | intros H; exact H]|]. split; [by constructor | reflexivity].
Qed.

(** ** Termination *)
(** What comes next in a call. *)
Definition next (q p : lprog) : Prop :=
  match p with
  | LRet => False
  | LAcq _ _ k => q = k
  | LRel _ k => q = k
  | LAny _ k => exists x, q = k x
  end.
Lemma next_wf p : Acc next p.
Proof.
  induction p as [|m l k IH|l k IH|A a k IH]; constructor; intros q Hq; cbn in Hq.
  - done.
  - by subst.
  - by subst.
  - destruct Hq as [x ->]. apply IH.
Qed.
Lemma tstep_next ts t t' : tstep ts t t' -> next (t_prog t') (t_prog t).
Proof. intros H. destruct H; cbn; eauto. Qed.
Definition later (ts' ts : list thread) : Prop :=
  exists i t t', ts !! i = Some t /\ next (t_prog t') (t_prog t) /\ ts' = <[i := t']> ts.
Lemma later_wf ts : Acc later ts.
Proof.
  induction ts as [|t ts IH].
  { constructor. intros ts' (i & t & t' & Hi & _). by rewrite lookup_nil in Hi. }
  assert (forall p ts, Acc next p -> Acc later ts -> forall t, t_prog t = p -> Acc later (t :: ts)) as H.
  { clear. intros p ts Hp. revert ts. induction Hp as [p _ IHp]. intros ts Hts.
    induction Hts as [ts Hts IHts]. intros t Et. constructor. intros ts' (i & u & u' & Hi & Hn & ->).
    destruct i as [|i]; cbn in *.
    - injection Hi as <-. apply (IHp (t_prog u')); [by rewrite <- Et | by constructor | done].
    - apply IHts; [|done]. by exists i, u, u'. }
  by apply (H (t_prog t)); [apply next_wf| |].
Qed.
Lemma lstep_later ts ts' : lstep ts ts' -> later ts' ts.
Proof. intros (i & t & t' & Hi & Hst & ->). exists i, t, t'. split; [done|]. split; [by eapply tstep_next | done]. Qed.
