(** A reference that was not made by Node::monitor never gets a node-down notice, in any schedule. *)
From stdpp Require Import base list gmap numbers strings countable sorting relations.
From Coq Require Import Lia.
From Verif Require Import Prog ProgProofs ProgInv Types Mailbox MailboxSpec World ProcApi NodeApi Api Steps Hist Labels Msum SchedSpec SchedProofs DownProofs
  ProcSpec Client ClientSpec ClientStep ClientRun.

Section ndown.
  Context (S : serde) (k : N).
  Notation r0 := (RLocal k).
  Definition nhas (m : gmap reference nmonitor) : nat := match m !! r0 with Some (NMNode _) => 1 | _ => 0 end.
  Definition is_ndown (x : N * item) : Prop := match snd x with INodeDown _ r => r = r0 | _ => False end.
  Global Instance is_ndown_dec x : Decision (is_ndown x).
  Proof. destruct x as [i []]; cbn; apply _. Defined.
  (** Where the right to a node-down notice for [k] may be. *)
  Definition ncnt (w : world) : nat :=
    unalloc (w_next_ref w) k + length (filter is_ndown (w_log w)) + msum nhas (w_nmons w).
  Lemma ncnt_same w w' : (w_next_ref w <= w_next_ref w')%N -> w_log w' = w_log w -> w_nmons w' = w_nmons w -> ncnt w' <= ncnt w.
  Proof. intros H1 H2 H3. unfold ncnt. rewrite H2, H3. pose proof (unalloc_mono _ _ k H1). lia. Qed.
  Lemma ncnt_push i x w : ncnt (push i x w) <= ncnt w + if decide (is_ndown (i, x)) then 1 else 0.
  Proof.
    unfold push. destruct (w_loc w !! i); [|lia]. unfold ncnt; cbn. rewrite list.filter_app, app_length, filter_cons.
    destruct (decide (is_ndown (i, x))); cbn; lia.
  Qed.
  Lemma ncnt_send_to i x w : ncnt (send_to i x w) <= ncnt w + if decide (is_ndown (i, x)) then 1 else 0.
  Proof. unfold send_to. case_match; [apply ncnt_push|lia]. Qed.
  Lemma ncnt_exit p f y w : ncnt (exit_op p f y w) <= ncnt w.
  Proof.
    unfold exit_op. repeat case_match; try (apply ncnt_same; cbn; done || lia);
      pose proof (ncnt_push (pid_id p) (ISystem (SExit f y)) w) as Hp; subst; rewrite decide_False in Hp by (cbn; tauto); cbn; lia.
  Qed.
  Lemma ncnt_exit_linked p f y w : ncnt (exit_linked_op p f y w) <= ncnt w.
  Proof.
    unfold exit_linked_op. repeat case_match; try (apply ncnt_same; cbn; done || lia);
      pose proof (ncnt_push (pid_id p) (ISystem (SExit f y)) w) as Hp; subst; rewrite decide_False in Hp by (cbn; tauto); cbn; lia.
  Qed.
  Lemma nhas_delete r m : nhas (delete r m) <= nhas m.
  Proof.
    unfold nhas. destruct (decide (r = r0)) as [->|Hne]; [rewrite lookup_delete; lia|]. rewrite lookup_delete_ne by exact Hne. lia.
  Qed.
  Lemma nhas_deletes rs m : nhas (foldr delete m rs) <= nhas m.
  Proof. induction rs as [|r rs IH]; cbn; [lia|]. pose proof (nhas_delete r (foldr delete m rs)). lia. Qed.
  Definition ncost (r : reference) (m : nmonitor) : nat := match m with NMNode _ => is0 k r | _ => 0 end.
  Lemma nhas_insert r a m : nhas (<[r := a]> m) <= nhas m + ncost r a.
  Proof.
    unfold nhas, ncost, is0. destruct (decide (r = r0)) as [->|Hne].
    - rewrite lookup_insert. destruct a; lia.
    - rewrite lookup_insert_ne by exact Hne. lia.
  Qed.
  Lemma ncnt_add_nmon n r x w : ncnt (add_nmon n r x w) <= ncnt w + ncost r x.
  Proof.
    unfold ncnt, add_nmon; cbn.
    pose proof (msum_insert nhas (w_nmons w) n (<[r := x]> (default ∅ (w_nmons w !! n)))) as Hi.
    pose proof (nhas_insert r x (default ∅ (w_nmons w !! n))) as Hj.
    destruct (w_nmons w !! n); cbn in *; [lia|].
    assert (nhas ∅ = 0) as H0 by (unfold nhas; rewrite lookup_empty; reflexivity). rewrite H0 in Hj. lia.
  Qed.
  (** Actions that do not make such a notice, or the right to one. *)
  Definition tame (a : act) : Prop :=
    match a with
    | AAddNmon _ r m => ncost r m = 0
    | APush _ x | ASendTo _ x => match x with INodeDown _ _ => False | _ => True end
    | _ => True
    end.
  Ltac csame := apply ncnt_same; cbn; try reflexivity; try lia.
  Lemma tame_cnt a w : tame a -> ncnt (does S a w) <= ncnt w.
  Proof.
    destruct a; cbn [does tame]; intros Ha; try lia; try (by csame).
    - unfold receive_op. repeat case_match; csame.
    - unfold alias_take_op. repeat case_match; csame.
    - pose proof (ncnt_push i x w) as Hp. rewrite decide_False in Hp by (destruct x; cbn in *; tauto). lia.
    - pose proof (ncnt_send_to i x w) as Hp. rewrite decide_False in Hp by (destruct x; cbn in *; tauto). lia.
    - unfold node_register_op, spawn_op. repeat case_match; simplify_eq; csame.
    - unfold send_frame, hand_out. repeat case_match; csame.
    - unfold register_op. repeat case_match; csame.
    - apply ncnt_exit.
    - apply ncnt_exit_linked.
    - pose proof (ncnt_add_nmon n r m w). lia.
    - unfold ncnt, del_nmon; cbn. pose proof (msum_alter_le nhas (delete r) (w_nmons w) n (nhas_delete r)). lia.
    - unfold ncnt, del_nmons; cbn. pose proof (msum_alter_le nhas (fun m => foldr delete m l) (w_nmons w) n (nhas_deletes l)). lia.
    - unfold ncnt; cbn. pose proof (msum_delete nhas (w_nmons w) n). lia.
    - unfold node_start_op, spawn_op. repeat case_match; simplify_eq; csame.
    - unfold node_disconnect_op. case_match; [|lia]. case_match; [|lia]. case_match; [|csame].
      eapply Nat.le_trans; [|apply (ncnt_exit p0 p RKill w)].
      apply ncnt_same; cbn; unfold exit_op, push; cbn; repeat case_match; cbn; first [reflexivity | lia].
    - unfold node_accept_op. case_match; [|csame]. case_match; [|csame].
      match goal with |- context [if bool_decide _ then ?x else w] => set (w1 := if bool_decide (n_state n1 = Pending) then x else w) end.
      assert (ncnt w1 <= ncnt w) as H1.
      { unfold w1. repeat case_match; try lia. apply ncnt_exit. }
      clearbody w1. eapply Nat.le_trans; [|exact H1]. case_match; csame.
    - unfold node_workers_op, hand_out. repeat case_match; csame.
    - unfold sup_down_op. repeat case_match; csame.
  Qed.
  Lemma msg_tame v x : msg_item S v x -> match x with INodeDown _ _ => False | _ => True end.
  Proof. intros [->| ->]; exact I. Qed.
  Lemma fp_tame c a : match c with CNodeMonitor _ _ | CSupDown _ _ => False | _ => True end -> fp S c a -> tame a.
  Proof.
    destruct a; cbn [tame]; try done; intros Hc H; destruct c; try contradiction; cbn in H; try contradiction; try discriminate;
      unfold fp_send, fp_fire, fp_destroy_timer, fp_spawn, fp_link, fp_unlink, fp_monitor, fp_monitor_alias, fp_demonitor, fp_exit, fp_finish, fp_crash, fp_supervise, fp_supdown in H;
      cbn in H; try contradiction; try (by destruct H as [[]|[]]).
    - destruct H as [H|(r & _ & ->)]; [by eapply msg_tame|done].
    - destruct H as [H|(r & ->)]; [by destruct x|done].
    - by destruct H as (_ & ? & ? & ->).
    - by destruct H as [(_ & ? & ? & ->)|[]].
    - destruct f; try contradiction. by destruct H as [->|(? & ->)].
    - by eapply msg_tame.
    - by destruct x.
    - by destruct H as (? & ? & ? & ->).
    - by destruct H as [(? & ? & ? & ->)|[]].
    - destruct f; try contradiction; [by subst| by destruct H as (d & q & _ & ->) | by destruct H as (_ & nn & ->)].
    - by subst m.
    - destruct H as [->|[]]. done.
    - destruct f; try contradiction. by destruct H as (_ & _ & _ & j & ->).
  Qed.

  Notation tk := (tok (fun _ : world => True) ncnt).
  Notation anyQ := (fun _ _ => True).
  Lemma tk_tame {A} h (q : prog world A) : guar (lstep S tame) q -> tk (fun _ h' => h' = h) h q.
  Proof.
    intros H. apply tok_of_guar; [|auto]. eapply guar_mono; [|exact H]. intros w w' (a & Ha & ->). split; [auto|]. by apply tame_cnt.
  Qed.
  Lemma tk_seq {A B} Q h (q : prog world A) (q' : A -> prog world B) :
    guar (lstep S tame) q -> (forall a, tk Q h (q' a)) -> tk Q h (bind q q').
  Proof. intros H H'. eapply tok_bind; [apply tk_tame, H|]. intros a h' ->. apply H'. Qed.
  Lemma tk_end {A} h (q : prog world A) : guar (lstep S tame) q -> tk anyQ h q.
  Proof. intros H. eapply tok_mono; [|apply tk_tame, H]. done. Qed.
  Lemma part {A} (F : act -> Prop) (q : prog world A) : (forall a, F a -> tame a) -> guar (lstep S F) q -> guar (lstep S tame) q.
  Proof. intros H. apply guar_mono, lstep_mono, H. Qed.
  Lemma tk_call_tame c : match c with CNodeMonitor _ _ | CSupDown _ _ => False | _ => True end -> tk anyQ 0 (call_prog S c).
  Proof. intros H. apply tk_end. eapply part; [|apply call_fp]. intros a. by apply fp_tame. Qed.
  Lemma sum_ncost (m : gmap reference nmonitor) : list_sum (map (fun x => ncost (fst x) (snd x)) (sorted_refs m)) = nhas m.
  Proof.
    unfold sorted_refs. rewrite (sum_permutation _ _ _ (merge_sort_Permutation _ _)).
    induction m as [|r a m Hr IH] using map_ind.
    - rewrite map_to_list_empty. unfold nhas. rewrite lookup_empty. reflexivity.
    - rewrite (sum_permutation _ _ _ (map_to_list_insert m r a Hr)).
      change (list_sum (map (fun x => ncost (fst x) (snd x)) ((r, a) :: map_to_list m)))
        with (ncost r a + list_sum (map (fun x => ncost (fst x) (snd x)) (map_to_list m))). rewrite IH.
      unfold nhas, ncost, is0. destruct (decide (r = r0)) as [->|Hne].
      + rewrite lookup_insert, Hr. destruct a; lia.
      + rewrite lookup_insert_ne by exact Hne. destruct a; lia.
  Qed.
  Lemma tk_spend (Q : unit -> nat -> Prop) h n f :
    n <= h -> (forall w, ncnt (f w) <= ncnt w + n) -> Q tt (h - n) -> tk Q h (modify f).
  Proof.
    intros Hh Hf HQ. apply tok_modify. intros w _. split; [exact I|]. exists (h - n). split; [|exact HQ]. specialize (Hf w). lia.
  Qed.
  Lemma call_tok_node c : tk anyQ 0 (call_prog S c).
  Proof.
    destruct c; try (by apply tk_call_tame); cbn [call_prog]; (eapply (tok_bind _ _ (fun _ _ => True)); [|intros; exact I]).
    - unfold node_monitor. destruct nd as [|nm ad]; [exact I|]. eapply tok_bind.
      { apply (tok_atom _ _ (fun r h => h = is0 k r)). intros w _. cbn. split; [exact I|]. eexists. split; [|reflexivity].
        unfold ncnt, is0; cbn. pose proof (unalloc_take (w_next_ref w) k) as Ht.
        destruct (decide (w_next_ref w = k)) as [<-|Hne]; [rewrite decide_True by reflexivity|rewrite decide_False by congruence]; lia. }
      intros r h ->. apply tk_seq; [apply guar_modify; intros w; by exists (AOwnMonitor me r (MForNode (NRemote nm ad)))|]. intros _.
      eapply (tok_bind _ _ (fun _ _ => True)).
      { apply (tk_spend _ _ (is0 k r)); [lia|intros w; apply (ncnt_add_nmon (NRemote nm ad) r (NMNode me))|done]. }
      intros _ h _. apply tk_end. apply guar_bind; [|intros; exact I]. eapply part; [|apply l_node_register]. by intros [].
    - unfold supervisor_down. apply tk_seq; [apply guar_atom; intros w; by exists (ASupDown nd p)|]. intros [|]; cbn [negb]; [|exact I].
      apply tk_seq; [apply guar_atom; intros w; by exists (ANlinksDelete nd)|]. intros ls.
      apply tk_seq.
      { apply guar_each. intros x. apply guar_bind.
        - unfold link_destroy. cbn [pid_is_local pid_id]. apply guar_modify; intros w. by exists (ADelLink (snd x) (fst x)).
        - intros _. apply guar_modify; intros w. by eexists (AExitLinked _ _ _). }
      intros _. eapply tok_bind.
      { apply (tok_atom _ _ (fun ms h => h = match ms with Some m => nhas m | None => 0 end)). intros w _. cbn. split; [exact I|].
        eexists. split; [|reflexivity]. unfold ncnt; cbn. pose proof (msum_delete nhas (w_nmons w) nd). lia. }
      intros ms h ->. eapply tok_bind.
      { apply (tok_each_spend _ _ (fun x => ncost (fst x) (snd x))).
        { rewrite sum_ncost. destruct ms; cbn; [lia|]. unfold nhas. rewrite lookup_empty. lia. }
        intros [r x] h' _ Hh. cbn [fst snd] in *. eapply (tok_bind _ _ (fun _ h'' => h' <= h'' + ncost r x)).
        { destruct x as [i|i d|i].
          - apply (tk_spend _ _ (is0 k r)); [exact Hh| |cbn in *; lia]. intros w. exact (ncnt_send_to i (INodeDown nd r) w).
          - eapply tok_mono; [|apply tk_tame]; [cbn; intros; lia|]. apply guar_modify; intros w. exact (ex_intro _ (ASendTo i (IProcessDown d r (RCustom "noconnection"))) (conj I eq_refl)).
          - eapply tok_mono; [|apply tk_tame]; [cbn; intros; lia|]. unfold monitor_destroy. cbn [pid_is_local pid_id].
            apply guar_modify; intros w. exact (ex_intro _ (ADelMon i r) (conj I eq_refl)). }
        intros [] h'' Hx. eapply tok_mono; [|apply tk_tame]; [cbn; intros; lia|].
        destruct (ref_is_local r); [|exact I]. apply guar_bind; [|intros; exact I]. unfold alias_destroy, alias_destroy_op.
        apply guar_atom; intros w. by exists (AAliasDelete (ref_id r)). }
      intros _ h _. apply tk_end. apply guar_modify; intros w. by exists (APendDelete nd).
  Qed.

  (** No notice, no right to one, in the node and in the calls in progress. *)
  Definition nfree (s : sys world val) : Prop := ncnt (s_world s) = 0 /\ Forall (tk anyQ 0) (s_threads s).
  Lemma tk0_step g f (kk : world -> prog world val) w : tk anyQ 0 (Atom g f kk) -> g w = true -> ncnt w = 0 ->
    ncnt (f w) = 0 /\ tk anyQ 0 (kk w).
  Proof.
    intros H Hg H0. destruct (H w I Hg) as (_ & h & H1 & H2). assert (h = 0) as -> by lia. split; [lia|exact H2].
  Qed.
  Lemma reachable_node s : reachable S s ->
    exists hs, Forall2 (fun h p => tk (fun _ h => 0 <= h) h p) hs (s_threads s) /\ ncnt (s_world s) + list_sum hs <= 1.
  Proof.
    intros Hr.
    destruct (reach_tok_state (fun _ => True) ncnt (fun _ => 0) (any_call S) _ s [] (fun p '(ex_intro _ c E) => ltac:(rewrite E; eapply tok_mono; [|apply call_tok_node]; cbn; lia)) Hr I)
      as (hs & _ & A2 & A3); [constructor|].
    exists hs. split; [exact A2|]. cbn in A3. assert (ncnt world0 <= 1); [|unfold list_sum in *; cbn in *; lia].
    unfold ncnt, unalloc; cbn. case_decide; cbn; unfold msum; rewrite ?map_fold_empty; cbn; lia.
  Qed.
  Lemma sum0 hs : list_sum hs = 0 -> Forall (eq 0) hs.
  Proof. induction hs as [|h hs IH]; cbn; constructor; unfold list_sum in *; cbn in *; [lia|apply IH; lia]. Qed.
  Lemma occurs_node w : occurs S w -> ncnt w <= 1.
  Proof. intros [ts Hr]. destruct (reachable_node _ Hr) as (hs & _ & H). cbn in H. lia. Qed.
  Lemma fresh_node s own : backed S s own -> (w_next_ref (s_world s) <= k)%N -> Forall (tk anyQ 0) (s_threads s) /\
     forall w', (k < w_next_ref w')%N -> w_log w' = w_log (s_world s) -> w_nmons w' = w_nmons (s_world s) -> ncnt w' = 0.
  Proof.
    intros (us & Hr & Hp) Hk. destruct (reachable_node _ Hr) as (hs & H1 & H2). cbn in *.
    assert (unalloc (w_next_ref (s_world s)) k = 1) as Hu by (unfold unalloc; by rewrite decide_True).
    unfold ncnt in H2. split.
    - assert (list_sum hs = 0) as H0 by lia. apply sum0 in H0. apply Forall_forall. intros p Hin.
      assert (p ∈ us) as Hu' by (rewrite Hp; set_solver). apply elem_of_list_lookup_1 in Hu' as [i Ei].
      destruct (Forall2_lookup_r _ _ _ _ _ H1 Ei) as (h & Eh & Ht). pose proof (Forall_lookup_1 _ _ _ _ H0 Eh) as <-.
      eapply tok_mono; [|exact Ht]. done.
    - intros w' A B C. unfold ncnt. rewrite B, C. unfold unalloc. rewrite decide_False by lia. lia.
  Qed.
  Lemma other_nfree me s s' : other S me s s' -> nfree s -> nfree s'.
  Proof.
    intros [i ? ? Ht|p ? (c & Hc & ->)] [H0 Hf].
    - unfold tick in Ht. destruct (s_threads s0 !! i) as [[| |g f kk]|] eqn:E; try discriminate.
      destruct (g (s_world s0)) eqn:Hg; [|discriminate]. injection Ht as <-.
      pose proof (Forall_lookup_1 _ _ _ _ Hf E) as Hp. destruct (tk0_step _ _ _ _ Hp Hg H0) as [A B].
      split; [exact A|]. cbn. apply Forall_insert; [exact Hf|exact B].
    - split; [exact H0|]. cbn. apply Forall_app. split; [exact Hf|]. constructor; [|constructor]. apply call_tok_node.
  Qed.
  Lemma others_nfree me s s' : rtc (other S me) s s' -> nfree s -> nfree s'.
  Proof. induction 1; [done|]. intros. eauto using other_nfree. Qed.
  Lemma busy_nfree me s p v s' : busy S me s p v s' -> tk anyQ 0 p -> nfree s -> nfree s'.
  Proof.
    induction 1 as [s v|s s1 p v s2 H1 H IH|w ts g f kk v s2 Hg H IH]; intros Hp Hs; [done| |].
    - apply IH; [done|]. by eapply other_nfree.
    - destruct Hs as [H0 Hf]. destruct (tk0_step _ _ _ _ Hp Hg H0) as [A B]. apply IH; [exact B|]. by split.
  Qed.
  Lemma nfree_loc w ts i l : nfree (Sys w ts) -> nfree (Sys (up_loc (<[i := l]>) w) ts).
  Proof. intros [H1 H2]. split; [|exact H2]. exact H1. Qed.
End ndown.
