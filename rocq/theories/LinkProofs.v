(** Who is linked with whom changes only by linking, unlinking and exits. *)
From stdpp Require Import base list gmap numbers strings countable sorting relations.
From Coq Require Import Lia.
From Verif Require Import Prog ProgProofs ProgInv Types Mailbox MailboxSpec World ProcApi NodeApi Api Steps Hist Labels SchedSpec SchedProofs ProcSpec ProcProofs.

(** NODE_LINKS holds links with processes of other nodes only. *)
Definition nlinks_remote (w : world) : Prop := forall nd x, x ∈ default ∅ (w_nlinks w !! nd) -> pid_is_local (fst x) = false.
Lemma nlinks_same w w' : w_nlinks w' = w_nlinks w -> nlinks_remote w -> nlinks_remote w'.
Proof. intros E H nd x. rewrite E. apply H. Qed.
Ltac nlk Hw := apply (nlinks_same _ _); [|exact Hw].
Lemma step1_nlinks S w w' : anystep S w w' -> nlinks_remote w -> nlinks_remote w'.
Proof.
  intros H Hw. destruct H; try exact Hw; try (by (apply (nlinks_same w); [ops; cbn; repeat case_match; reflexivity | exact Hw])).
  - apply (nlinks_same w); [|exact Hw]. unfold node_register_op, spawn_op. repeat case_match; cbn; simplify_eq; reflexivity.
  - intros nd x. unfold add_nlink; cbn. destruct (decide (nd = n)) as [->|Hne]; [|rewrite lookup_insert_ne by congruence; apply Hw].
    rewrite lookup_insert. cbn. rewrite elem_of_union, elem_of_singleton. intros [->|Hx]; [assumption | by eapply Hw].
  - intros nd x. unfold del_nlinks; cbn. destruct (decide (nd = n)) as [->|Hne]; [|rewrite lookup_alter_ne by congruence; apply Hw].
    rewrite lookup_alter. specialize (Hw n x). destruct (w_nlinks w !! n); cbn in *; [|exact Hw].
    rewrite elem_of_difference. intros [Hx _]. auto.
  - intros nd x. cbn. destruct (decide (nd = n)) as [->|Hne]; [|rewrite lookup_delete_ne by congruence; apply Hw].
    rewrite lookup_delete. cbn. set_solver.
  - apply (nlinks_same w); [|exact Hw]. unfold node_start_op, spawn_op. repeat case_match; cbn; simplify_eq; reflexivity.
  - apply (nlinks_same w); [|exact Hw]. unfold node_disconnect_op. repeat case_match; cbn; try reflexivity. ops; repeat case_match; reflexivity.
  - apply (nlinks_same w); [|exact Hw]. unfold node_accept_op. ops. repeat case_match; cbn; simplify_eq; reflexivity.
  - apply (nlinks_same w); [|exact Hw]. unfold node_workers_op, hand_out. repeat case_match; reflexivity.
  - apply (nlinks_same w); [|exact Hw]. unfold sup_down_op. repeat case_match; reflexivity.
Qed.
Lemma occurs_nlinks S w : occurs S w -> nlinks_remote w.
Proof. apply (occurs_inv S nlinks_remote); [|apply step1_nlinks]. intros nd x. cbn. rewrite lookup_empty. cbn. set_solver. Qed.

Section link.
  Context (S : serde) (a j : N) (b : bool).
  Record link_inv (w : world) : Prop := LinkInv {
    li_nlinks : nlinks_remote w;
    li_a : (a < w_next_pid w)%N; li_j : (j < w_next_pid w)%N;
    li_linked : linked w a j = b }.
  Definition lmild (x : act) : Prop :=
    match x with
    | AAddNlink _ q _ => pid_is_local q = false
    | AAddLink i p => b = false -> ~ (i = a /\ p = PLocal j)
    | ADelLink i p => b = true -> ~ (i = a /\ p = PLocal j)
    | ALinksDelete i => b = true -> i <> a
    | _ => True
    end.
  Lemma link_inv_same w w' : w_nlinks w' = w_nlinks w -> (w_next_pid w <= w_next_pid w')%N -> w_links w' = w_links w -> link_inv w -> link_inv w'.
  Proof.
    intros E1 E2 E3 [H1 H2 H3 H4]. constructor; [by apply (nlinks_same w)|lia|lia|]. unfold linked. rewrite E3. exact H4.
  Qed.
  Lemma lmild_inv x w : lmild x -> link_inv w -> link_inv (does S x w).
  Proof.
    intros Hx Hw. destruct x; cbn in Hx; cbn [does]; try exact Hw;
      try (by (apply (link_inv_same w); [ops; cbn; repeat case_match; reflexivity | ops; cbn; repeat case_match; cbn; lia | ops; cbn; repeat case_match; reflexivity | exact Hw])).
    - apply (link_inv_same w); [..|exact Hw]; unfold node_register_op, spawn_op; repeat case_match; cbn; simplify_eq; cbn; try reflexivity; lia.
    - destruct Hw as [H1 H2 H3 H4]. constructor; cbn; auto. unfold linked in *; cbn.
      destruct (decide (i = a)) as [->|Hne]; [|by rewrite lookup_insert_ne by congruence]. rewrite lookup_insert. cbn.
      rewrite <- H4. apply bool_decide_ext. rewrite elem_of_union, elem_of_singleton. split; [|auto]. intros [E|?]; [|assumption].
      destruct b; [by apply bool_decide_eq_true in H4|]. destruct (Hx eq_refl). auto.
    - destruct Hw as [H1 H2 H3 H4]. constructor; cbn; auto. unfold linked in *; cbn.
      destruct (decide (i = a)) as [->|Hne]; [|by rewrite lookup_alter_ne by congruence]. rewrite lookup_alter.
      destruct (w_links w !! a) as [s|]; cbn in *; [|exact H4]. rewrite <- H4. apply bool_decide_ext.
      rewrite elem_of_difference, elem_of_singleton. split; [tauto|]. intros Hs. split; [exact Hs|]. intros E.
      rewrite (bool_decide_true _ Hs) in H4. apply Hx; auto.
    - destruct Hw as [H1 H2 H3 H4]. constructor; cbn; auto. unfold linked in *; cbn.
      destruct (decide (i = a)) as [->|Hne]; [|by rewrite lookup_delete_ne by congruence]. rewrite lookup_delete. cbn.
      destruct b; [by destruct (Hx eq_refl)|]. apply bool_decide_false. set_solver.
    - destruct Hw as [H1 H2 H3 H4]. constructor; auto.
      apply (step1_nlinks S w); [|exact H1]. by constructor.
    - destruct Hw as [H1 H2 H3 H4]. constructor; auto. apply (step1_nlinks S w); [|exact H1]. by constructor.
    - destruct Hw as [H1 H2 H3 H4]. constructor; auto. apply (step1_nlinks S w); [|exact H1]. by constructor.
    - apply (link_inv_same w); [..|exact Hw]; unfold node_start_op, spawn_op; repeat case_match; cbn; simplify_eq; cbn; try reflexivity; lia.
    - apply (link_inv_same w); [..|exact Hw]; unfold node_disconnect_op; repeat case_match; cbn; try reflexivity; try lia; ops; repeat case_match; cbn; reflexivity || lia.
    - apply (link_inv_same w); [..|exact Hw]; unfold node_accept_op; ops; repeat case_match; cbn; simplify_eq; cbn; reflexivity || lia.
    - apply (link_inv_same w); [..|exact Hw]; unfold node_workers_op, hand_out; repeat case_match; cbn; reflexivity || lia.
    - apply (link_inv_same w); [..|exact Hw]; unfold sup_down_op; repeat case_match; cbn; reflexivity || lia.
  Qed.
  Notation ok := (post link_inv (fun _ => True)).
  Ltac okseq := eapply (post_bind _ (fun _ => True)); [|intros ? _].
  Lemma lok_mild {A} (F : act -> Prop) (p : prog world A) : (forall x, F x -> lmild x) -> guar (lstep S F) p -> ok p.
  Proof. intros HF. apply post_guar. intros w w' (x & Hx & ->). apply lmild_inv. auto. Qed.
  Lemma lok_modify f x : (forall w, f w = does S x w) -> lmild x -> ok (modify f).
  Proof. intros Hf Ha. apply post_modify; [|exact I]. intros w Hw. rewrite Hf. by apply lmild_inv. Qed.
  Ltac okm x := apply (lok_modify _ x); [reflexivity | cbn; auto].
  Lemma lok_spawn me l m : ok (spawn me l m).
  Proof.
    unfold spawn. eapply (post_bind _ (fun i => i <> a /\ i <> j)).
    { apply post_atom. intros w Hw. split; [apply (lmild_inv AAlloc w I Hw)|]. cbn. destruct Hw. split; lia. }
    intros i [Ha Hj]. okseq.
    { destruct l; [|exact I]. okseq; [okm (AAddLink i (PLocal me)); intros _ [? ?]; congruence | okm (AAddLink me (PLocal i)); intros _ [_ [= ?]]; congruence]. }
    okseq.
    { destruct m; [|exact I]. okseq; [apply (lok_mild (fun x => x = AFreshRef)); [by intros ? -> | apply guar_atom; intros; by exists AFreshRef]|].
      okseq; [okm (AOwnMonitor me a1 (MForProcess (Some (PLocal i))))|].
      okseq; [okm (AAddMon i a1 (PLocal me) (Some (DPid (PLocal i))))|exact I]. }
    okseq; [okm (ARunning i)|]. okseq; [okm (AInsert i)|exact I].
  Qed.
  Lemma lok_supervise me n ad : ok (remote_supervisor me n ad).
  Proof.
    unfold remote_supervisor. okseq.
    { apply post_atom. intros w Hw. split; [apply (lmild_inv (AAccept n ad (PLocal me) (PLocal me)) w I Hw)|exact I]. }
    case_match; [exact I|]. okseq; [apply lok_spawn|]. okseq; [apply lok_spawn|]. okseq; [|exact I].
    okm (AWorkers (NRemote n ad) a1.1 a2.1).
  Qed.
  Lemma lok_supdown nd p : ok (supervisor_down nd p).
  Proof.
    unfold supervisor_down. okseq.
    { apply post_atom. intros w Hw. split; [apply (lmild_inv (ASupDown nd p) w I Hw) | exact I]. }
    case_match; [exact I|].
    eapply (post_bind _ (fun ls => forall x, x ∈ default ∅ ls -> pid_is_local (fst x) = false)).
    { apply post_atom. intros w Hw. split; [apply (lmild_inv (ANlinksDelete nd) w I Hw) | apply (li_nlinks _ Hw)]. }
    intros ls Hls. okseq.
    { apply post_each. intros x Hx. rewrite merge_sort_Permutation, elem_of_elements in Hx. specialize (Hls x Hx).
      okseq; [okm (ADelLink x.2 x.1); intros _ [_ E]; by rewrite E in Hls | okm (AExitLinked (PLocal x.2) x.1 (RCustom "noconnection"))]. }
    okseq. { apply post_atom. intros w Hw. split; [apply (lmild_inv (ANmonsDelete nd) w I Hw) | exact I]. }
    okseq; [|okm (APendDelete nd)].
    apply post_each. intros [r m] _. cbn [fst snd].
    assert (ok (alias_destroy r)) as Hal.
    { apply post_atom. intros w Hw. split; [apply (lmild_inv (AAliasDelete (ref_id r)) w I Hw) | exact I]. }
    okseq.
    - destruct m as [i|i d'|i]; [okm (ASendTo i (INodeDown nd r)) | okm (ASendTo i (IProcessDown d' r (RCustom "noconnection")))|].
      unfold monitor_destroy. cbn [pid_is_local pid_id]. okm (ADelMon i r).
    - destruct (ref_is_local r); [|exact I]. okseq; [apply Hal|exact I].
  Qed.
  Lemma lok_call c :
    (b = true -> leaves_link a j c) -> (b = false -> makes_no_link a j c) -> ok (call_prog S c).
  Proof.
    intros Hl Hn.
    assert ((forall x, fp S c x -> lmild x) -> ok (call_prog S c)) as Hm.
    { intros H. eapply lok_mild; [exact H | apply call_fp]. }
    destruct c; cbn in Hl, Hn; cbn [call_prog]; unfold ret_as;
      try (apply Hm; intros []; cbn; unfold fp_send, fp_destroy_timer, fp_fire, fp_exit; cbn; naive_solver; fail).
    - okseq; [apply lok_spawn|exact I].
    - apply Hm. intros []; cbn; try done.
      + intros [[-> ->]|(-> & -> & Hp)] Hb [E1 E2]; destruct (Hn Hb) as [N1 N2]; [by apply N1; subst|].
        destruct p; [|discriminate]. cbn in E1. apply N2. split; congruence.
      + intros [-> H]. exact H.
    - apply Hm. intros []; cbn; try done. intros (-> & -> & Hp) Hb [E1 E2]. destruct p; [|discriminate]. cbn in E1.
      apply (Hl Hb). split; congruence.
    - apply Hm. unfold fp_monitor_alias. intros []; cbn; intros [H|H]; try done; exfalso; exact H.
    - apply Hm. unfold fp_crash, fp_finish. intros []; cbn; intros [H|H]; try done; subst; intros Hb; destruct (Hl Hb); intuition congruence.
    - okseq; [apply lok_supervise|exact I].
    - okseq; [apply lok_supdown|exact I].
    - apply Hm. intros []; destruct f; cbn; try done; intros H; try (intros _); naive_solver.
  Qed.
  Lemma reach_link w s : link_inv w ->
    reach (calls_of S (fun c => (b = true -> leaves_link a j c) /\ (b = false -> makes_no_link a j c))) (Sys w []) s -> link_inv (s_world s).
  Proof.
    intros Hw Hr. refine (proj1 (reach_safe link_inv _ (Sys w []) s _ Hw _ Hr)); [|constructor].
    intros p (c & [H1 H2] & ->). by eapply post_safe, lok_call.
  Qed.
End link.
