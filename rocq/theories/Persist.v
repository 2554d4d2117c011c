(** Persistence from footprints: what no action of the allowed calls can undo stays. *)
From stdpp Require Import base list gmap numbers strings countable sorting relations.
From Coq Require Import Lia.
From Verif Require Import Prog ProgProofs ProgInv Types Mailbox MailboxSpec World ProcApi NodeApi Api Steps Hist Labels SchedSpec SchedProofs
  ProcSpec SendSpec NetSpec.

Lemma persists S (P : world -> Prop) (ok : call -> Prop) w s :
  (forall c a w, ok c -> fp S c a -> P w -> P (does S a w)) -> P w -> reach (calls_of S ok) (Sys w []) s -> P (s_world s).
Proof.
  intros H Hw Hr. refine (proj1 (reach_safe P _ (Sys w []) s _ Hw _ Hr)); [|constructor].
  intros p (c & Hc & ->). eapply post_safe, (post_guar (lstep S (fp S c))); [|apply call_fp].
  intros u u' (a & Ha & ->). by eapply H.
Qed.

(** *** Actions that do not touch NODE_LINKS *)
Lemma nlinks_kept S a w : match a with AAddNlink _ _ _ | ADelNlinks _ _ | ANlinksDelete _ => False | _ => True end ->
  w_nlinks (does S a w) = w_nlinks w.
Proof.
  destruct a; cbn [does]; intros Ha; try done; try (ops; cbn; repeat case_match; reflexivity).
  - unfold node_register_op, spawn_op; repeat case_match; cbn; simplify_eq; reflexivity.
  - unfold node_start_op, spawn_op. repeat case_match; cbn; simplify_eq; reflexivity.
  - unfold node_disconnect_op. ops. repeat case_match; cbn; reflexivity.
  - unfold node_accept_op. ops. repeat case_match; cbn; simplify_eq; reflexivity.
  - unfold node_workers_op, hand_out. repeat case_match; reflexivity.
  - unfold sup_down_op. repeat case_match; reflexivity.
Qed.
Lemma link_stays S me i n nd w s : (PRemote i n, me) ∈ links_to w nd ->
  reach (calls_of S (leaves_remote_link me i nd)) (Sys w []) s -> (PRemote i n, me) ∈ links_to (s_world s) nd.
Proof.
  apply (persists S (fun w => (PRemote i n, me) ∈ links_to w nd)). clear w. intros c a w Hc Ha Hw.
  assert (match a with
          | ADelNlinks nd' l => ~ (nd' = nd /\ (PRemote i n, me) ∈ l) | ANlinksDelete nd' => nd' <> nd | _ => True end) as Hm.
  { destruct a; try exact I; destruct c; cbn in Ha; try contradiction; try discriminate;
      unfold fp_send, fp_fire, fp_destroy_timer, fp_spawn, fp_link, fp_unlink, fp_monitor, fp_monitor_alias, fp_demonitor, fp_exit, fp_finish, fp_crash, fp_supervise, fp_supdown in Ha;
      cbn in Ha; try contradiction; try (destruct Ha; contradiction); cbn in Hc.
    - destruct Ha as [Hp ->]. intros [_ [= <- ->]%elem_of_list_singleton]. by apply Hc.
    - destruct Ha as [ps ->]. intros [_ (p & [= _ ->] & _)%elem_of_list_fmap]. done.
    - destruct Ha as [[ps ->]|[]]. intros [_ (p & [= _ ->] & _)%elem_of_list_fmap]. done.
    - destruct f; try contradiction.
      + destruct Ha as (-> & -> & m & ->). intros [-> [= -> -> ->]%elem_of_list_singleton]. by apply Hc.
      + destruct Ha as (-> & m & j & Hj & ->). intros [-> [= -> -> ->]%elem_of_list_singleton]. by apply Hc.
    - by subst. }
  destruct a; try (unfold links_to in *; rewrite nlinks_kept by exact I; exact Hw); cbn [does].
  - unfold links_to, add_nlink in *; cbn. destruct (decide (n0 = nd)) as [->|Hn]; [|by rewrite lookup_insert_ne]. rewrite lookup_insert.
    cbn. set_solver.
  - unfold links_to, del_nlinks in *; cbn. destruct (decide (n0 = nd)) as [->|Hn]; [|by rewrite lookup_alter_ne]. rewrite lookup_alter.
    destruct (w_nlinks w !! nd) as [t|]; cbn in *; [|set_solver]. apply elem_of_difference. split; [done|]. rewrite elem_of_list_to_set. tauto.
  - unfold links_to in *; cbn. by rewrite lookup_delete_ne.
Qed.
