(** Invariants of the process tables that hold in every interleaving. *)
From stdpp Require Import base list gmap numbers strings countable sorting relations.
From Coq Require Import Lia.
From Verif Require Import Prog ProgProofs ProgInv Types Mailbox World ProcApi NodeApi Api Steps Hist SchedSpec Msum SchedProofs DownProofs RecvProofs ProcSpec.

(** Every monitor of a local process names its destination (so no unwrap ever fails). *)
Definition all_named (w : world) : Prop := forall a, mons_named w a.
Lemma named_same w w' : w_mons w' = w_mons w -> all_named w -> all_named w'.
Proof. intros E H a. unfold mons_named. rewrite E. apply H. Qed.
Lemma step1_named S w w' : anystep S w w' -> all_named w -> all_named w'.
Proof.
  intros H. destruct H;
    try (by (apply named_same; ops; cbn; repeat case_match; reflexivity)).
  - apply named_same. unfold node_register_op, spawn_op. repeat case_match; cbn; simplify_eq; reflexivity.
  - intros Hw j. unfold mons_named, add_mon; cbn. destruct (decide (j = i)) as [->|Hne].
    + rewrite lookup_insert. cbn. intros r' from d'. rewrite lookup_insert_Some.
      intros [[<- [= <- <-]]|[_ E]]; [auto | by eapply Hw].
    + rewrite lookup_insert_ne by congruence. apply Hw.
  - intros Hw j. unfold mons_named, del_mon; cbn. destruct (decide (j = i)) as [->|Hne].
    + rewrite lookup_alter. intros r' from d'. destruct (w_mons w !! i) as [m|] eqn:E; cbn.
      * rewrite lookup_delete_Some. intros [_ E']. eapply (Hw i r' from d'). rewrite E. exact E'.
      * rewrite lookup_empty. discriminate.
    + rewrite lookup_alter_ne by congruence. apply Hw.
  - intros Hw j. unfold mons_named; cbn. destruct (decide (j = i)) as [->|Hne].
    + rewrite lookup_delete. cbn. intros r' from d'. rewrite lookup_empty. discriminate.
    + rewrite lookup_delete_ne by congruence. apply Hw.
  - apply named_same. unfold node_start_op, spawn_op. repeat case_match; cbn; simplify_eq; reflexivity.
  - apply named_same. unfold node_disconnect_op. repeat case_match; cbn; try reflexivity. ops; repeat case_match; reflexivity.
  - apply named_same. unfold node_accept_op. ops. repeat case_match; cbn; simplify_eq; reflexivity.
  - apply named_same. unfold node_workers_op, hand_out. repeat case_match; reflexivity.
  - apply named_same. unfold sup_down_op. repeat case_match; reflexivity.
Qed.
Lemma occurs_named S w : occurs S w -> all_named w.
Proof.
  apply (occurs_inv S all_named).
  - intros a r from d. cbn. rewrite lookup_empty. cbn. rewrite lookup_empty. discriminate.
  - apply step1_named.
Qed.

(** A monitor reference is in at most one place: not allocated yet, in the table of one process, or
    an already converted notice in its queue. *)
Lemma rcv0 k : rcv_cnt k world0 <= 1.
Proof. unfold rcv_cnt, unalloc; cbn. case_decide; cbn; unfold msum; rewrite ?map_fold_empty; cbn; lia. Qed.
Lemma reachable_rcv S k s : reachable S s ->
  exists hs, Forall2 (fun h p => tok (fun _ => True) (rcv_cnt k) (fun v h => received_down k v <= h) h p) hs (s_threads s) /\
             rcv_cnt k (s_world s) + list_sum hs <= 1.
Proof.
  intros Hr.
  destruct (reach_tok_state (fun _ => True) (rcv_cnt k) (received_down k) (any_call S) _ s [] (fun p '(ex_intro _ c E) => ltac:(rewrite E; apply call_tok_rcv)) Hr I)
    as (hs & _ & A2 & A3); [constructor|].
  exists hs. split; [exact A2|]. pose proof (rcv0 k). cbn in *. unfold list_sum in *; cbn in *. lia.
Qed.
