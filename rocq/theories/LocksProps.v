(** C97: no schedule of calls deadlocks on the crate's locks.  C98: callbacks under a lock. *)
From stdpp Require Import base list gmap numbers strings countable sorting.
From Verif Require Import Prog Types Mailbox World ProcApi NodeApi Api Locks LocksProofs.

(** ** Specification *)
(** Threads that make calls of the crate. *)
Definition crate_calls (shards : table -> nat) (shard : table -> lkey -> nat) (p : lprog) : Prop :=
  exists d : deed, p = locks_of shards shard d.
Definition all_returned (ts : list thread) : Prop := forall t, t ∈ ts -> t_prog t = LRet.
(** Whatever the scheduler picks, and whether or not locks prefer writers, somebody can go on until every
    call that has begun has returned. *)
Inductive completes (ts : list thread) : Prop :=
| completed : all_returned ts -> completes ts
| goes_on : (exists ts', sure_step ts ts') -> (forall ts', lstep ts ts' -> completes ts') -> completes ts.

Lemma completes_from (starts : lprog -> Prop) ts :
  (forall p, starts p -> above 0 p) -> lreach starts ts -> completes ts.
Proof.
  intros Hs. induction (later_wf ts) as [ts _ IH]. intros Hr.
  destruct (progress ts (lreach_order starts ts Hs Hr)) as [Hd|Hst]; [by apply completed|].
  apply goes_on; [done|]. intros ts' Hst'. apply IH; [by apply lstep_later | by eapply lreach_step].
Qed.
Lemma crate_above shards shard p : crate_calls shards shard p -> above 0 p.
Proof. intros [d ->]. apply above_deed. Qed.

(** ** C97 *)
Theorem C97_no_deadlock shards shard ts :
  lreach (crate_calls shards shard) ts -> all_returned ts \/ exists ts', sure_step ts ts'.
Proof. intros Hr. apply progress. eapply lreach_order; [|exact Hr]. apply crate_above. Qed.
Print Assumptions C97_no_deadlock.

Theorem C97_every_call_returns shards shard ts : lreach (crate_calls shards shard) ts -> completes ts.
Proof. apply completes_from, crate_above. Qed.
Print Assumptions C97_every_call_returns.

(** A call that has returned has left no lock behind. *)
Theorem C97_nothing_kept shards shard ts t :
  lreach (crate_calls shards shard) ts -> t ∈ ts -> t_prog t = LRet -> t_held t = [].
Proof.
  intros Hr Ht Hp. pose proof (lreach_order _ ts (crate_above shards shard) Hr t Ht) as Ho.
  unfold in_order in Ho. rewrite Hp in Ho. exact Ho.
Qed.
Print Assumptions C97_nothing_kept.

(** Sections that change a shard exclude every other section on the shard. *)
Lemma give_back_sub l h x : x ∈ give_back l h -> x ∈ h.
Proof.
  induction h as [|y h IH]; cbn; [done|]. destruct (decide (snd y = l)); intros H.
  - by constructor.
  - apply elem_of_cons in H as [->|H]; [constructor | constructor; by apply IH].
Qed.
Theorem C97_exclusive shards shard ts i j t u m l :
  lreach (crate_calls shards shard) ts ->
  ts !! i = Some t -> ts !! j = Some u -> i <> j ->
  (Exclusive, l) ∈ t_held t -> (m, l) ∈ t_held u -> False.
Proof.
  intros Hr. revert i j t u m l.
  induction Hr as [|ts p Hr IH Hp|ts ts' Hr IH Hst]; intros i j t u m l Hi Hj Hij Hx Hm.
  - by rewrite lookup_nil in Hi.
  - apply lookup_app_Some in Hi as [Hi|[_ Hi]].
    2: { apply list_lookup_singleton_Some in Hi as [_ <-]. by apply elem_of_nil in Hx. }
    apply lookup_app_Some in Hj as [Hj|[_ Hj]].
    2: { apply list_lookup_singleton_Some in Hj as [_ <-]. by apply elem_of_nil in Hm. }
    by eapply (IH i j).
  - destruct Hst as (n & v & v' & Hn & Hst & ->).
    assert (forall k w, <[n := v']> ts !! k = Some w -> k = n /\ w = v' \/ k <> n /\ ts !! k = Some w) as Hcase.
    { intros k w Hk. destruct (decide (k = n)) as [->|Hkn].
      - rewrite list_lookup_insert in Hk by (by eapply lookup_lt_Some). injection Hk as <-. by left.
      - rewrite list_lookup_insert_ne in Hk by done. by right. }
    destruct (Hcase i t Hi) as [[-> ->]|[Hin Hi']]; destruct (Hcase j u Hj) as [[-> ->]|[Hjn Hj']]; [done| | |by eapply (IH i j)].
    + destruct Hst as [h m' l' k Hc|h l' k|h A a x k]; cbn in Hx.
      * apply elem_of_cons in Hx as [E|Hx]; [|by eapply (IH n j _ _ m l Hn Hj')].
        injection E as <- <-. destruct (Hc u m (elem_of_list_lookup_2 _ _ _ Hj') Hm) as [E _]. done.
      * apply give_back_sub in Hx. by eapply (IH n j _ _ m l Hn Hj').
      * by eapply (IH n j _ _ m l Hn Hj').
    + destruct Hst as [h m' l' k Hc|h l' k|h A a x k]; cbn in Hm.
      * apply elem_of_cons in Hm as [E|Hm]; [|by eapply (IH i n _ _ m l Hi' Hn)].
        injection E as <- <-. destruct (Hc t Exclusive (elem_of_list_lookup_2 _ _ _ Hi') Hx) as [_ E]. done.
      * apply give_back_sub in Hm. by eapply (IH i n _ _ m l Hi' Hn).
      * by eapply (IH i n _ _ m l Hi' Hn).
Qed.
Print Assumptions C97_exclusive.

(** Not vacuous: two calls contend for a name; the second waits for the first, which holds the name and
    is about to lock the process. *)
Definition one_shard : table -> nat := fun _ => 1.
Definition shard0 : table -> lkey -> nat := fun _ _ => 0.
Definition reg1 : lprog := locks_of one_shard shard0 (DCall (CRegister (PLocal 1) "a"%string)).
Definition blocked (ts : list thread) (t : thread) : Prop :=
  t ∈ ts /\ t_prog t <> LRet /\ ~ exists t', tstep ts t t'.
Lemma do_step (starts : lprog -> Prop) ts i t t' :
  lreach starts ts -> ts !! i = Some t -> tstep ts t t' -> lreach starts (<[i := t']> ts).
Proof. intros Hr Hi Hst. eapply lreach_step; [exact Hr|]. by exists i, t, t'. Qed.
Lemma must_be_free ts t t' : tstep ts t t' -> match t_prog t with LAcq m l _ => compatible m l ts | _ => True end.
Proof. intros H. by destruct H. Qed.
Example C97_example :
  exists ts t, lreach (crate_calls one_shard shard0) ts /\ blocked ts t /\ completes ts.
Proof.
  assert (lreach (crate_calls one_shard shard0) [Thread [] reg1; Thread [] reg1]) as H0.
  { apply (lreach_begin _ [Thread [] reg1] reg1); [|by eexists].
    apply (lreach_begin _ [] reg1); [constructor | by eexists]. }
  pose proof (do_step _ _ 0 _ (Thread [(Exclusive, (TNames, 0))]
     (maybe (change shard0 TProcesses (KId 1)) &> LRel (TNames, 0) LRet)) H0 eq_refl) as H1.
  cbn [insert list_insert] in H1.
  assert (tstep [Thread [] reg1; Thread [] reg1] (Thread [] reg1) (Thread [(Exclusive, (TNames, 0))]
     (maybe (change shard0 TProcesses (KId 1)) &> LRel (TNames, 0) LRet))) as Hst.
  { apply (t_acquire _ [] Exclusive (TNames, 0)). intros t m' Ht Hm.
    apply elem_of_cons in Ht as [->|Ht]; [by apply elem_of_nil in Hm|].
    apply elem_of_list_singleton in Ht as ->. by apply elem_of_nil in Hm. }
  specialize (H1 Hst). clear Hst.
  eexists _, (Thread [] reg1). split; [exact H1|]. split.
  - split; [constructor; constructor|]. split; [discriminate|]. intros [t' Hst].
    pose proof (must_be_free _ _ _ Hst) as Hc.
    destruct (Hc _ Exclusive (elem_of_list_here _ _) (elem_of_list_here _ _)) as [E _]. discriminate E.
  - eapply C97_every_call_returns. exact H1.
Qed.

(** ** C98: callbacks that run under a lock may use the ring they are about *)
(** [map_node] with any deed of the crate in the callback, [add_nodes] and [set_nodes] with any deed of the
    crate in the iterator. *)
Definition with_callbacks (shards : table -> nat) (shard : table -> lkey -> nat) (ok_map ok_iter : deed -> Prop)
    (p : lprog) : Prop :=
  crate_calls shards shard p \/
  exists ring d, (ok_map d /\ exists k, p = map_node shard ring k (locks_of shards shard d)) \/
                 (ok_iter d /\ p = add_nodes shard ring (locks_of shards shard d)).
Definition C98_callbacks_statement (ok_map ok_iter : deed -> Prop) : Prop :=
  forall shards shard ts,
    lreach (with_callbacks shards shard ok_map ok_iter) ts -> all_returned ts \/ exists ts', lstep ts ts'.
Lemma stuck_alone h m l k : (exists m', (m', l) ∈ h /\ (m = Exclusive \/ m' = Exclusive)) ->
  ~ (all_returned [Thread h (LAcq m l k)] \/ exists ts', lstep [Thread h (LAcq m l k)] ts').
Proof.
  intros (m' & Hm & Hex) [Hall|[ts' (i & t & t' & Hi & Hst & _)]].
  - specialize (Hall _ (elem_of_list_here _ _)). discriminate Hall.
  - destruct i as [|i]; [|by destruct i]. injection Hi as <-.
    pose proof (must_be_free _ _ _ Hst) as Hc. destruct (Hc _ m' (elem_of_list_here _ _) Hm) as [-> ->].
    by destruct Hex.
Qed.
(** An override changed in the callback of [map_node] for the same key: the call never returns. *)
Theorem C98_map_node_refuted : ~ C98_callbacks_statement (fun d => exists ring k, d = DOverride ring k) (fun _ => False).
Proof.
  intros H. set (p := map_node shard0 0 (KId 1) (locks_of one_shard shard0 (DOverride 0 (KId 1)))).
  set (st := with_callbacks one_shard shard0 (fun d => exists ring k, d = DOverride ring k) (fun _ => False)).
  assert (lreach st [Thread [] p]) as H0.
  { apply (lreach_begin _ [] p); [constructor|]. right. exists 0%N, (DOverride 0 (KId 1)). left.
    split; [exists 0%N, (KId 1); reflexivity | exists (KId 1); reflexivity]. }
  assert (compatible Shared (TOverrides 0, 0) [Thread [] p]) as Hc.
  { intros t m' Ht Hm. apply elem_of_list_singleton in Ht as ->. by apply elem_of_nil in Hm. }
  pose proof (do_step _ _ 0 _ _ H0 eq_refl (t_acquire _ [] _ _ _ Hc)) as H1. cbn [insert list_insert] in H1.
  pose proof (do_step _ _ 0 _ _ H1 eq_refl (t_find [_] [(Shared, (TOverrides 0, 0))] bool false true _)) as H2. cbn [insert list_insert] in H2.
  specialize (H one_shard shard0 _ H2). revert H.
  apply (stuck_alone _ Exclusive (TOverrides 0, 0) (LRel (TOverrides 0, 0) (LRel (TOverrides 0, 0) LRet))). exists Shared.
  split; [constructor | by left].
Qed.
Print Assumptions C98_map_node_refuted.
(** The iterator given to [add_nodes] changes the nodes of the ring: the call never returns. *)
Theorem C98_add_nodes_refuted : ~ C98_callbacks_statement (fun _ => False) (fun d => exists ring, d = DNode ring).
Proof.
  intros H. set (p := add_nodes shard0 0 (locks_of one_shard shard0 (DNode 0))).
  set (st := with_callbacks one_shard shard0 (fun _ => False) (fun d => exists ring, d = DNode ring)).
  assert (lreach st [Thread [] p]) as H0.
  { apply (lreach_begin _ [] p); [constructor|]. right. exists 0%N, (DNode 0). right. split; [exists 0%N; reflexivity | reflexivity]. }
  assert (compatible Exclusive (TRingLock 0, 0) [Thread [] p]) as Hc.
  { intros t m' Ht Hm. apply elem_of_list_singleton in Ht as ->. by apply elem_of_nil in Hm. }
  pose proof (do_step _ _ 0 _ _ H0 eq_refl (t_acquire _ [] _ _ _ Hc)) as H1. cbn [insert list_insert] in H1.
  specialize (H one_shard shard0 _ H1). revert H.
  apply (stuck_alone _ Exclusive (TRingLock 0, 0) (LRel (TRingLock 0, 0) (LRel (TRingLock 0, 0) LRet))). exists Exclusive.
  split; [constructor | by left].
Qed.
Print Assumptions C98_add_nodes_refuted.
(** What a callback may do: [map_node]'s, anything that leaves the overrides of rings alone; the iterator's,
    anything that does not use a ring. *)
Definition leaves_overrides (d : deed) : Prop :=
  match d with DFind _ _ | DOverride _ _ | DOverrides _ _ | DSetOverrides _ _ => False | _ => True end.
Definition leaves_rings (d : deed) : Prop :=
  match d with DNode _ | DFind _ _ | DOverride _ _ | DOverrides _ _ | DSetOverrides _ _ => False | _ => True end.
Theorem C98_callbacks_partial shards shard ts :
  lreach (with_callbacks shards shard leaves_overrides leaves_rings) ts -> completes ts.
Proof.
  apply completes_from. intros p [Hp|(ring & d & [[Hd [k ->]]|[Hd ->]])].
  - by eapply crate_above.
  - apply above_map_node, above_deed1. by destruct d.
  - apply above_add_nodes, above_deed2. by destruct d.
Qed.
Print Assumptions C98_callbacks_partial.
(** Not vacuous: a callback that adds a node to the ring. *)
Example C98_example :
  exists ts t, lreach (with_callbacks one_shard shard0 leaves_overrides leaves_rings) ts /\
    t ∈ ts /\ t_held t = [(Exclusive, (TRingLock 0, 0)); (Shared, (TOverrides 0, 0))] /\ completes ts.
Proof.
  set (p := map_node shard0 0 (KId 1) (locks_of one_shard shard0 (DNode 0))).
  set (st := with_callbacks one_shard shard0 leaves_overrides leaves_rings).
  assert (lreach st [Thread [] p]) as H0.
  { apply (lreach_begin _ [] p); [constructor|]. right. exists 0%N, (DNode 0). left. split; [exact I|]. exists (KId 1). reflexivity. }
  assert (compatible Shared (TOverrides 0, 0) [Thread [] p]) as Hc.
  { intros t m' Ht Hm. apply elem_of_list_singleton in Ht as ->. by apply elem_of_nil in Hm. }
  pose proof (do_step _ _ 0 _ _ H0 eq_refl (t_acquire _ [] _ _ _ Hc)) as H1. cbn [insert list_insert] in H1.
  pose proof (do_step _ _ 0 _ _ H1 eq_refl (t_find [_] [(Shared, (TOverrides 0, 0))] bool false true _)) as H2. cbn [insert list_insert] in H2.
  assert (tstep [Thread [(Shared, (TOverrides 0, 0))] (locks_of one_shard shard0 (DNode 0) &> LRel (TOverrides 0, 0) LRet)]
            (Thread [(Shared, (TOverrides 0, 0))] (locks_of one_shard shard0 (DNode 0) &> LRel (TOverrides 0, 0) LRet))
            (Thread [(Exclusive, (TRingLock 0, 0)); (Shared, (TOverrides 0, 0))]
               (LRel (TRingLock 0, 0) (LRel (TOverrides 0, 0) LRet)))) as Hst.
  { apply t_acquire. intros t m' Ht Hm. apply elem_of_list_singleton in Ht as ->. cbn in Hm.
    apply elem_of_list_singleton in Hm. discriminate Hm. }
  pose proof (do_step _ _ 0 _ _ H2 eq_refl Hst) as H3. cbn [insert list_insert] in H3.
  eexists _, _. split; [exact H3|]. split; [constructor|]. split; [reflexivity|].
  eapply C98_callbacks_partial. exact H3.
Qed.
