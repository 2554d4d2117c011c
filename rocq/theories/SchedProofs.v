(** Proofs of the schedule-wide facts. *)
From stdpp Require Import base list gmap numbers strings countable sorting.
From Coq Require Import Lia.
From Verif Require Import Prog ProgProofs ProgInv Types Mailbox World ProcApi NodeApi Api Steps Msum SchedSpec.

(** Unfold every operation of World.v down to record fields. *)
Ltac ops := unfold receive_op, alias_create_op, alias_take_op, alias_destroy_op, send_to, exit_op, exit_linked_op,
  set_flags_op, set_exit_op, register_op, gone, add_link, del_link, add_mon, del_mon, add_nlink,
  del_nlinks, add_nmon, del_nmon, del_nmons, send_frame, spawn_op, hand_out, push in *.

(** ** Node ids *)
Record ids_ok (w : world) : Prop := IdsOk {
  io_next : (1 <= w_next_node w)%N;
  io_local : forall id, w_nmap w !! NLocal = Some id -> id = 0%N;
  io_remote : forall n a id, w_nmap w !! NRemote n a = Some id -> (1 <= id < w_next_node w)%N;
  io_inj : forall nd nd' id, w_nmap w !! nd = Some id -> w_nmap w !! nd' = Some id -> nd = nd';
  io_regs : forall id r, w_nregs w !! id = Some r -> (id < w_next_node w)%N;
}.
Record ids_rel (w w' : world) : Prop := IdsRel {
  ir_next : (w_next_node w <= w_next_node w')%N;
  ir_map : forall nd id, w_nmap w' !! nd = Some id ->
             w_nmap w !! nd = Some id \/ nd = NLocal /\ id = 0%N \/ (w_next_node w <= id)%N;
  ir_regs : forall id, (1 <= id < w_next_node w)%N -> w_nregs w !! id = None -> w_nregs w' !! id = None;
}.
Definition ids_step (w w' : world) : Prop := ids_ok w -> ids_ok w' /\ ids_rel w w'.
Lemma ids_rel_refl w : ids_rel w w.
Proof. constructor; [lia | auto | auto]. Qed.
Lemma ids_step_refl w : ids_step w w.
Proof. intros H. split; [exact H | apply ids_rel_refl]. Qed.
Lemma ids_step_trans a b c : ids_step a b -> ids_step b c -> ids_step a c.
Proof.
  intros H1 H2 Ha. destruct (H1 Ha) as [Hb [N1 M1 R1]]. destruct (H2 Hb) as [Hc [N2 M2 R2]].
  split; [exact Hc|]. constructor.
  - lia.
  - intros nd id Hc'. destruct (M2 nd id Hc') as [Hx|[Hx|Hx]]; [|tauto|right; right; lia].
    destruct (M1 nd id Hx) as [?|[?|?]]; auto.
  - intros id Hid Hn. apply R2; [lia|]. apply R1; [lia | exact Hn].
Qed.
(** A step that leaves the node map and the id counter alone and registers no new id. *)
Lemma ids_step_same w w' :
  w_next_node w' = w_next_node w -> w_nmap w' ⊆ w_nmap w ->
  (forall id r, w_nregs w' !! id = Some r -> id <> 0%N -> is_Some (w_nregs w !! id)) -> ids_step w w'.
Proof.
  intros E1 E2 E3 [H1 H2 H3 H4 H5].
  assert (forall k id, w_nmap w' !! k = Some id -> w_nmap w !! k = Some id) as Hsub
    by (intros; eapply lookup_weaken; eassumption).
  split; [constructor | constructor].
  - rewrite E1. exact H1.
  - intros. apply H2, Hsub. assumption.
  - intros. rewrite E1. eapply H3, Hsub. eassumption.
  - intros. eapply H4; apply Hsub; eassumption.
  - rewrite E1. intros id r Hr. destruct (decide (id = 0%N)) as [->|Hne]; [lia|].
    destruct (E3 id r Hr Hne) as [r' Hr']. eapply H5; eauto.
  - rewrite E1. lia.
  - intros nd id E. left. auto.
  - intros id Hid Hn. destruct (w_nregs w' !! id) as [r|] eqn:E; [|reflexivity].
    destruct (E3 id r E) as [r' Hr']; [lia | congruence].
Qed.
Lemma exit_op_nodes p f r w :
  w_nmap (exit_op p f r w) = w_nmap w /\ w_nregs (exit_op p f r w) = w_nregs w /\
  w_next_node (exit_op p f r w) = w_next_node w.
Proof. unfold exit_op, push. repeat case_match; by split_and!. Qed.
Lemma fresh_id w : ids_ok w -> forall nd, w_nmap w !! nd <> Some (w_next_node w).
Proof.
  intros Hok nd E. destruct nd as [|n a].
  - apply (io_local _ Hok) in E. pose proof (io_next _ Hok). lia.
  - apply (io_remote _ Hok) in E. lia.
Qed.
(** Inserting a new remote node with a fresh id. *)
Lemma ids_step_new w w' n a r :
  w_nmap w !! NRemote n a = None ->
  w_next_node w' = N.succ (w_next_node w) -> w_nmap w' = <[NRemote n a := w_next_node w]> (w_nmap w) ->
  w_nregs w' = <[w_next_node w := r]> (w_nregs w) -> ids_step w w'.
Proof.
  intros Hnew E1 E2 E3 Hok. pose proof (fresh_id _ Hok) as Hf. destruct Hok as [H1 H2 H3 H4 H5].
  split; constructor; rewrite ?E1, ?E2, ?E3.
  - lia.
  - intros id. rewrite lookup_insert_ne by discriminate. apply H2.
  - intros n' a' id. destruct (decide (NRemote n' a' = NRemote n a)) as [Heq|Hne].
    + rewrite Heq, lookup_insert. intros [= <-]. lia.
    + rewrite lookup_insert_ne by congruence. intros E. apply H3 in E. lia.
  - intros nd nd' id.
    destruct (decide (nd = NRemote n a)) as [->|Hne]; destruct (decide (nd' = NRemote n a)) as [->|Hne'];
      rewrite ?lookup_insert, ?lookup_insert_ne by congruence; auto.
    + intros [= <-] E. destruct (Hf _ E).
    + intros E [= <-]. destruct (Hf _ E).
    + apply H4.
  - intros id r'. rewrite lookup_insert_Some. intros [[<- _]|[_ E]]; [lia|]. apply H5 in E. lia.
  - lia.
  - intros nd id. rewrite lookup_insert_Some. intros [[<- <-]|[_ E]]; [right; right; lia | auto].
  - intros id Hid Hn. rewrite lookup_insert_ne by lia. exact Hn.
Qed.

Ltac same := apply ids_step_same; ops; cbn; repeat case_match; cbn;
  first [reflexivity | (intros; eapply delete_subseteq) | apply map_empty_subseteq | (intros ? ? ? ?; eauto) | idtac].

Section nodes.
  Context (S : serde).
  Lemma step1_ids w w' : anystep S w w' -> ids_step w w'.
  Proof.
    intros H; destruct H; try (by same).
    - (* node_register *)
      unfold node_register_op. destruct (w_nmap w !! NRemote n a) as [id|] eqn:E; cbn.
      + destruct c; [|apply ids_step_refl].
        destruct (w_nregs w !! id) as [r|] eqn:Er; [|apply ids_step_refl].
        destruct (n_sup r); [apply ids_step_refl|]. unfold spawn_op; cbn.
        apply ids_step_same; cbn; [reflexivity | reflexivity |].
        intros i r'. rewrite lookup_insert_Some. intros [[<- _]|[_ ?]] _; eauto.
      + destruct c; unfold spawn_op; cbn; eapply (ids_step_new _ _ n a); cbn; eauto.
    - (* start *)
      unfold node_start_op. destruct (w_nmap w !! NLocal) as [i|] eqn:E; cbn; [apply ids_step_refl|].
      intros Hok. pose proof Hok as [H1 H2 H3 H4 H5].
      split; constructor; cbn.
      + lia.
      + intros id. rewrite lookup_insert. intros [= <-]. reflexivity.
      + intros n' a' id. rewrite lookup_insert_ne by discriminate. apply H3.
      + assert (forall nd, w_nmap w !! nd <> Some 0%N) as Hz.
        { intros [|n' a'] E0; [congruence|]. apply H3 in E0. lia. }
        intros nd nd' id. unfold LOCAL_NODE_ID.
        destruct (decide (nd = NLocal)) as [->|Hne]; destruct (decide (nd' = NLocal)) as [->|Hne'];
          rewrite ?lookup_insert, ?lookup_insert_ne by congruence; auto.
        * intros [= <-] E0. destruct (Hz _ E0).
        * intros E0 [= <-]. destruct (Hz _ E0).
        * apply H4.
      + intros id r. rewrite lookup_insert_Some. unfold LOCAL_NODE_ID. intros [[<- _]|[_ E0]]; [lia|]. eauto.
      + lia.
      + intros nd id. rewrite lookup_insert_Some. intros [[<- <-]|[_ E0]]; auto.
      + intros id Hid Hn. unfold LOCAL_NODE_ID. rewrite lookup_insert_ne by lia. exact Hn.
    - apply ids_step_same; cbn; [reflexivity | reflexivity |].
      intros i' r. rewrite lookup_delete_Some. intros [_ ?]; eauto.
    - (* disconnect *)
      unfold node_disconnect_op. destruct (w_nmap w !! n) as [id|]; [|apply ids_step_refl].
      destruct (w_nregs w !! id) as [r|] eqn:Er; [|apply ids_step_refl].
      destruct (n_sup r) as [s|].
      + destruct (exit_op_nodes s p RKill (up_pend (delete n) w)) as (Ea & Eb & Ec).
        apply ids_step_same; cbn; rewrite ?Ea, ?Eb, ?Ec; [reflexivity | reflexivity |].
        cbn. intros i r'. rewrite lookup_insert_Some. intros [[<- _]|[_ ?]] _; eauto.
      + apply ids_step_same; cbn; [reflexivity | reflexivity |].
        intros i r'. rewrite lookup_insert_Some. intros [[<- _]|[_ ?]] _; eauto.
    - (* accept *)
      unfold node_accept_op. destruct (w_nmap w !! NRemote n a) as [id|] eqn:E; cbn.
      + destruct (w_nregs w !! id) as [r|] eqn:Er; [|apply ids_step_refl].
        match goal with |- context [if bool_decide _ then ?x else w] => set (w1 := if bool_decide (n_state r = Pending) then x else w) end.
        assert (w_nmap w1 = w_nmap w /\ w_nregs w1 = w_nregs w /\ w_next_node w1 = w_next_node w) as (Ea & Eb & Ec).
        { unfold w1. repeat case_match; auto; apply exit_op_nodes. }
        clearbody w1. destruct (if bool_decide (n_state r = Pending) then None else n_sup r); cbn.
        * apply ids_step_same; rewrite ?Ea, ?Eb, ?Ec; eauto.
        * apply ids_step_same; cbn; rewrite ?Ea, ?Eb, ?Ec; [reflexivity | reflexivity |].
          intros i r'. rewrite lookup_insert_Some. intros [[<- _]|[_ ?]] _; eauto.
      + eapply (ids_step_new _ _ n a); cbn; eauto.
    - (* workers *)
      unfold node_workers_op, hand_out. destruct (w_nmap w !! n) as [id|]; [|apply ids_step_refl].
      destruct (w_nregs w !! id) as [r|] eqn:Er; [|apply ids_step_refl].
      cbn. destruct (w_regs w !! pid_id p); apply ids_step_same; cbn; try reflexivity;
        intros i r'; rewrite lookup_insert_Some; intros [[<- _]|[_ ?]] _; eauto.
    - (* sup_down *)
      unfold sup_down_op. destruct (w_nmap w !! n) as [id|]; [|apply ids_step_refl].
      destruct (w_nregs w !! id) as [r|] eqn:Er; [|apply ids_step_refl].
      destruct (match n_sup r with Some s => bool_decide (s <> p) | None => false end); [apply ids_step_refl|].
      apply ids_step_same; cbn; [reflexivity | reflexivity |].
      intros i r'; rewrite lookup_insert_Some; intros [[<- _]|[_ ?]] _; eauto.
  Qed.
End nodes.

(** ** Fresh pids and references *)

Lemma tok_of_guar {W R} (Inv : W -> Prop) (cnt : W -> nat) (Q : R -> nat -> Prop) h (p : prog W R) :
  guar (fun w w' => (Inv w -> Inv w') /\ cnt w' <= cnt w) p -> (forall a, Q a h) -> tok Inv cnt Q h p.
Proof.
  intros Hg HQ. induction p as [a|m|g f k IH]; cbn in *; auto.
  intros w Hw Hgw. destruct (Hg w Hgw) as [[H1 H2] H3]. split; [auto|]. exists h. split; [lia | auto].
Qed.

(** 1 while the id has not been handed out. *)
Definition unalloc (next k : N) : nat := if decide (next <= k)%N then 1 else 0.
Lemma unalloc_mono n n' k : (n <= n')%N -> unalloc n' k <= unalloc n k.
Proof. unfold unalloc. intros. repeat case_decide; lia. Qed.
Lemma unalloc_take n k : unalloc (N.succ n) k + (if decide (n = k) then 1 else 0) <= unalloc n k.
Proof. unfold unalloc. repeat case_decide; lia. Qed.

Definition pid_cnt (p : pid) (w : world) : nat :=
  match p with PLocal k => unalloc (w_next_pid w) k | PRemote _ _ => 0 end.
Definition ref_cnt (r : reference) (w : world) : nat :=
  match r with RLocal k => unalloc (w_next_ref w) k | RRemote _ _ => 0 end.
Definition occ {A} `{EqDecision A} (x : A) (l : list A) : nat := length (filter (fun y => y = x) l).
Global Arguments occ : simpl never.
Lemma occ_nil {A} `{EqDecision A} (x : A) : occ x [] = 0.
Proof. reflexivity. Qed.
Lemma occ_app {A} `{EqDecision A} (x : A) l l' : occ x (l ++ l') = occ x l + occ x l'.
Proof. unfold occ. rewrite list.filter_app, app_length. reflexivity. Qed.
Lemma occ_cons {A} `{EqDecision A} (x y : A) l : occ x (y :: l) = (if decide (y = x) then 1 else 0) + occ x l.
Proof. unfold occ. rewrite filter_cons. destruct (decide (y = x)); reflexivity. Qed.

Ltac case_all := repeat (case_match; cbn [fst snd] in * ).

Section counters.
  Context (S : serde).
  Lemma exit_op_next p f r w :
    w_next_pid (exit_op p f r w) = w_next_pid w /\ w_next_ref (exit_op p f r w) = w_next_ref w.
  Proof. unfold exit_op, push. repeat case_match; by split_and!. Qed.
  Lemma step1_next w w' : anystep S w w' ->
    (w_next_pid w <= w_next_pid w')%N /\ (w_next_ref w <= w_next_ref w')%N.
  Proof.
    intros H; destruct H.
    all: try (ops; repeat case_match; cbn; split; lia).
    - unfold node_register_op, spawn_op. repeat case_match; cbn; simplify_eq; cbn; split; lia.
    - unfold node_start_op, spawn_op. repeat case_match; cbn; simplify_eq; cbn; split; lia.
    - unfold node_disconnect_op. case_match; [|split; lia]. case_match; [|split; lia].
      case_match; cbn; [|split; lia]. rewrite !(proj1 (exit_op_next _ _ _ _)), !(proj2 (exit_op_next _ _ _ _)).
      cbn. split; lia.
    - unfold node_accept_op. repeat (case_match; simplify_eq; cbn);
        rewrite ?(proj1 (exit_op_next _ _ _ _)), ?(proj2 (exit_op_next _ _ _ _)); split; lia.
    - unfold node_workers_op, hand_out. repeat case_match; cbn; split; lia.
    - unfold sup_down_op. repeat case_match; cbn; split; lia.
  Qed.
  Lemma step1_pid p w w' : anystep S w w' -> (True -> True) /\ pid_cnt p w' <= pid_cnt p w.
  Proof. intros H. split; [auto|]. destruct p; cbn; [|lia]. apply unalloc_mono, (step1_next _ _ H). Qed.
  Lemma step1_ref r w w' : anystep S w w' -> (True -> True) /\ ref_cnt r w' <= ref_cnt r w.
  Proof. intros H. split; [auto|]. destruct r; cbn; [|lia]. apply unalloc_mono, (step1_next _ _ H). Qed.

  Notation tokp p := (tok (fun _ => True) (pid_cnt p)).
  Notation tokr r := (tok (fun _ => True) (ref_cnt r)).

  Lemma tokp_any {A} p h (q : prog world A) : guar (anystep S) q -> tokp p (fun _ h' => h' = h) h q.
  Proof. intros H. apply tok_of_guar; [|auto]. eapply guar_mono; [|exact H]. apply step1_pid. Qed.
  Lemma tokr_any {A} r h (q : prog world A) : guar (anystep S) q -> tokr r (fun _ h' => h' = h) h q.
  Proof. intros H. apply tok_of_guar; [|auto]. eapply guar_mono; [|exact H]. apply step1_ref. Qed.
  Lemma tokp_seq {A B} p Q h (q : prog world A) (q' : A -> prog world B) :
    guar (anystep S) q -> (forall a, tokp p Q h (q' a)) -> tokp p Q h (bind q q').
  Proof. intros H H'. eapply tok_bind; [apply tokp_any, H|]. intros a h' ->. apply H'. Qed.
  Lemma tokr_seq {A B} r Q h (q : prog world A) (q' : A -> prog world B) :
    guar (anystep S) q -> (forall a, tokr r Q h (q' a)) -> tokr r Q h (bind q q').
  Proof. intros H H'. eapply tok_bind; [apply tokr_any, H|]. intros a h' ->. apply H'. Qed.

  Lemma tokp_spawn p me l m h :
    tokp p (fun x h' => h' = h + if decide (fst x = p) then 1 else 0) h (spawn me l m).
  Proof.
    unfold spawn. eapply tok_bind.
    { apply (tok_atom _ _ (fun i h' => h' = h + if decide (PLocal i = p) then 1 else 0)). intros w _. cbn.
      split; [exact I|]. eexists. split; [|reflexivity].
      destruct p as [k|]; cbn; [|rewrite decide_False by discriminate; lia].
      pose proof (unalloc_take (w_next_pid w) k) as Ht.
      destruct (decide (w_next_pid w = k)) as [<-|Hne]; [rewrite decide_True by reflexivity|rewrite decide_False by congruence]; lia. }
    intros i h' ->. apply tokp_seq.
    { destruct l; [|exact I]. apply guar_bind; [|intros]; apply guar_modify; intros; by constructor. }
    intros _. apply tokp_seq.
    { destruct m; [|exact I]. unfold fresh_ref, own_monitor, own.
      apply guar_bind; [apply guar_atom; intros; by constructor|intros].
      apply guar_bind; [apply guar_modify; intros; by constructor|intros].
      apply guar_bind; [apply guar_modify; intros; by constructor|intros; exact I]. }
    intros r. apply tokp_seq; [apply guar_modify; intros; by constructor|]. intros _.
    apply tokp_seq; [apply guar_modify; intros; by constructor|]. intros _. cbn. reflexivity.
  Qed.
  Lemma tokr_fresh r h :
    tokr r (fun x h' => h' = h + if decide (x = r) then 1 else 0) h fresh_ref.
  Proof.
    apply tok_atom. intros w _. cbn. split; [exact I|]. eexists. split; [|reflexivity].
    destruct r as [k|]; cbn; [|rewrite decide_False by discriminate; lia].
    pose proof (unalloc_take (w_next_ref w) k) as Ht.
    destruct (decide (w_next_ref w = k)) as [<-|Hne]; [rewrite decide_True by reflexivity|rewrite decide_False by congruence]; lia.
  Qed.

  Lemma call_tok_pid p c : tokp p (fun v h => occ p (new_pids v) <= h) 0 (call_prog S c).
  Proof.
    pose proof (call_steps S c) as Hg.
    assert (forall A (f : A -> val) (q : prog world A), guar (anystep S) (ret_as f q) ->
              (forall a, new_pids (f a) = []) -> tokp p (fun v h => occ p (new_pids v) <= h) 0 (ret_as f q)) as Hn.
    { intros A f q Hq Hf. unfold ret_as in *. apply tokp_seq.
      - clear -Hq. induction q as [a|m|g f' k IH]; cbn in *; auto.
        intros w Hw. destruct (Hq w Hw). auto.
      - intros a. cbn. rewrite Hf, occ_nil. lia. }
    destruct c; cbn [call_prog] in *; try (apply Hn; [exact Hg | intros; reflexivity]); clear Hn Hg.
    - unfold ret_as. eapply tok_bind; [apply tokp_spawn|]. intros [p' [r|]] h' ->; cbn -[decide];
        rewrite occ_cons, occ_nil; cbn; lia.
    - unfold node_start. eapply tok_bind; [|intros s h' Hs; exact Hs].
      eapply tok_bind.
      { apply (tok_atom _ _ (fun s h' => match s with Some s => h' = if decide (s = p) then 1 else 0 | None => h' = 0 end)).
        intros w _. split; [exact I|]. unfold node_start_op, spawn_op.
        destruct (w_nmap w !! NLocal); cbn; [exists 0; split; [lia|reflexivity]|].
        eexists. split; [|reflexivity].
        destruct p as [k|]; cbn; [|rewrite decide_False by discriminate; lia].
        pose proof (unalloc_take (w_next_pid w) k) as Ht.
        destruct (decide (w_next_pid w = k)) as [<-|Hne]; [rewrite decide_True by reflexivity|rewrite decide_False by congruence]; lia. }
      intros [s|] h' ->; cbn; [|exact I]. rewrite occ_cons, occ_nil. cbn. lia.
    - unfold remote_supervisor, ret_as.
      eapply tok_bind; [|intros s h' Hs; exact Hs].
      apply tokp_seq; [apply guar_atom; intros; by constructor|]. intros ok. destruct ok; cbn [negb]; [|exact I].
      eapply tok_bind; [apply tokp_spawn|]. intros s h' ->.
      eapply tok_bind; [apply tokp_spawn|]. intros r h' ->.
      apply tokp_seq; [apply guar_modify; intros; by constructor|]. intros _.
      cbn. rewrite !occ_cons, occ_nil. cbn. lia.
  Qed.

  Lemma guar_unret {A} (f : A -> val) (q : prog world A) : guar (anystep S) (ret_as f q) -> guar (anystep S) q.
  Proof.
    unfold ret_as. intros Hq. induction q as [a|m|g f' k IH]; cbn in *; auto.
    intros w Hw. destruct (Hq w Hw). auto.
  Qed.
  Lemma call_tok_ref r c : tokr r (fun v h => occ r (new_refs v) <= h) 0 (call_prog S c).
  Proof.
    pose proof (call_steps S c) as Hg.
    assert (forall A (f : A -> val) (q : prog world A), guar (anystep S) (ret_as f q) ->
              (forall a, new_refs (f a) = []) -> tokr r (fun v h => occ r (new_refs v) <= h) 0 (ret_as f q)) as Hn.
    { intros A f q Hq Hf. unfold ret_as in *. apply tokr_seq.
      - eapply guar_unret; exact Hq.
      - intros a. cbn. rewrite Hf, occ_nil. lia. }
    assert (forall (q : reference -> prog world unit) (v : reference -> reference), 
              (forall x, guar (anystep S) (q x)) ->
              tokr r (fun v h => occ r (new_refs v) <= h) 0
                   (ret_as VRef (let! x := fresh_ref in do! q x in Ret x))) as Hf.
    { intros q _ Hq. unfold ret_as. eapply tok_bind; [|intros x h Hx; exact Hx].
      eapply tok_bind; [apply tokr_fresh|]. intros x h ->. apply tokr_seq; [apply Hq|].
      intros _. cbn. rewrite occ_cons, occ_nil. cbn. lia. }
    destruct c; cbn [call_prog] in *; try (apply Hn; [exact Hg | intros; reflexivity]); clear Hn.
    - clear Hg. unfold alias, ret_as. eapply tok_bind; [|intros x h Hx; exact Hx].
      eapply tok_bind; [apply tokr_fresh|]. intros x h ->.
      apply tokr_seq; [apply guar_modify; intros; by constructor|]. intros _.
      apply tokr_seq; [apply guar_modify; intros; by constructor|]. intros _.
      cbn. rewrite occ_cons, occ_nil. cbn. lia.
    - clear Hg. unfold send_after, ret_as. eapply tok_bind; [|intros x h Hx; exact Hx].
      eapply tok_bind; [apply tokr_fresh|]. intros x h ->.
      apply tokr_seq; [apply guar_modify; intros; by constructor|]. intros _.
      apply tokr_seq; [apply guar_modify; intros; by constructor|]. intros _.
      cbn. rewrite occ_cons, occ_nil. cbn. lia.
    - clear Hg. unfold spawn, ret_as. eapply tok_bind; [|intros x h Hx; exact Hx].
      apply tokr_seq; [apply guar_atom; intros; by constructor|]. intros i.
      apply tokr_seq.
      { destruct link; [|exact I]. apply guar_bind; [|intros]; apply guar_modify; intros; by constructor. }
      intros _. destruct monitor.
      + eapply tok_bind.
        { eapply tok_bind; [apply tokr_fresh|]. intros x h ->.
          apply tokr_seq; [apply guar_modify; intros; by constructor|]. intros _.
          apply (tokr_seq _ (fun x h => match x with Some x => h = if decide (x = r) then 1 else 0 | None => False end));
            [apply guar_modify; intros; by constructor|]. intros _. cbn. reflexivity. }
        intros [x|] h Hx; [|destruct Hx]. subst h.
        apply tokr_seq; [apply guar_modify; intros; by constructor|]. intros _.
        apply tokr_seq; [apply guar_modify; intros; by constructor|]. intros _.
        cbn. rewrite occ_cons, occ_nil. cbn. lia.
      + cbn [bind].
        apply tokr_seq; [apply guar_modify; intros; by constructor|]. intros _.
        apply tokr_seq; [apply guar_modify; intros; by constructor|]. intros _.
        cbn. rewrite occ_nil. lia.
    - apply (Hf (fun x => monitor_install me d x) id). intros; by apply guar_monitor_install.
    - clear Hg. unfold monitor_alias, ret_as. eapply tok_bind; [|intros x h Hx; exact Hx].
      eapply tok_bind; [apply tokr_fresh|]. intros x h ->.
      apply tokr_seq; [apply guar_modify; intros; by constructor|]. intros _.
      apply tokr_seq; [by apply guar_monitor_install|]. intros _.
      cbn. rewrite occ_cons, occ_nil. cbn. lia.
    - clear Hg. unfold node_monitor, ret_as. destruct nd as [|n a]; [exact I|].
      eapply tok_bind; [|intros x h Hx; exact Hx].
      eapply tok_bind; [apply tokr_fresh|]. intros x h ->.
      apply tokr_seq; [apply guar_modify; intros; by constructor|]. intros _.
      apply tokr_seq; [apply guar_modify; intros; by constructor|]. intros _.
      apply tokr_seq; [apply guar_register_node|]. intros _.
      cbn. rewrite occ_cons, occ_nil. cbn. lia.
  Qed.
End counters.
