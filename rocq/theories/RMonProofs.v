(** The life of a monitor on a remote process, or on a node, on the side of the monitoring process:
    the same argument as MonProofs.v, for an entry of NODE_MONITORS. *)
From stdpp Require Import base list gmap numbers strings countable sorting relations.
From Coq Require Import Lia.
From Verif Require Import Prog ProgProofs ProgInv Types Mailbox MailboxSpec World ProcApi NodeApi Api Steps Hist Labels SchedSpec SchedProofs ProcSpec ProcProofs MonProofs SendSpec NetSpec.

Section rmon.
  Context (S : serde) (k me : N) (node0 : node) (m0 : nmonitor).
  Notation r0 := (RLocal k).
  Notation mentions := (mentions k).
  Notation expecting := (expecting k).
  Record rwatching (w : world) : Prop := RWatching {
    rw_ref : (k < w_next_ref w)%N;
    rw_me : (me < w_next_pid w)%N;
    rw_stored : monitors_to w node0 !! r0 = Some m0;
    rw_others : forall nd, nd <> node0 -> monitors_to w nd !! r0 = None;
    rw_mons : forall j, default ∅ (w_mons w !! j) !! r0 = None;
    rw_tables : forall j l, w_loc w !! j = Some l -> j <> me -> l_monitors l !! r0 = None;
    rw_loc : exists l, w_loc w !! me = Some l /\ expecting l;
    rw_alive : is_Some (w_regs w !! me);
  }.

  (** *** One step *)
  Lemma rwatching_same w w' :
    (w_next_ref w <= w_next_ref w')%N -> (w_next_pid w <= w_next_pid w')%N -> w_mons w' = w_mons w -> w_nmons w' = w_nmons w ->
    w_loc w' = w_loc w -> (is_Some (w_regs w !! me) -> is_Some (w_regs w' !! me)) -> rwatching w -> rwatching w'.
  Proof.
    intros E1 E2 E3 E4 E5 E6 [H1 H2 H3 H4 H5 H6 H7 H8]. unfold monitors_to in *. constructor; unfold monitors_to; rewrite ?E3, ?E4, ?E5; auto; lia.
  Qed.
  Lemma rwatching_loc w (g : plocal -> plocal) j :
    (j = me -> forall l, expecting l -> expecting (g l)) ->
    (forall l, l_monitors l !! r0 = None -> l_monitors (g l) !! r0 = None) ->
    rwatching w -> rwatching (up_loc (alter g j) w).
  Proof.
    intros Hg Hg' [H1 H2 H3 H4 H5 H6 (l & H7 & H7') H8]. constructor; cbn; auto.
    - intros i l'. destruct (decide (i = j)) as [->|Hne].
      + rewrite lookup_alter. destruct (w_loc w !! j) as [l1|] eqn:E; cbn; [|discriminate].
        intros [= <-] Hj. apply Hg'. eauto.
      + rewrite lookup_alter_ne by congruence. apply H6.
    - destruct (decide (j = me)) as [->|Hne].
      + rewrite lookup_alter, H7. cbn. eauto.
      + rewrite lookup_alter_ne by congruence. eauto.
  Qed.
  Lemma rwatching_push i x w : ~ mentions x \/ i <> me -> rwatching w -> rwatching (push i x w).
  Proof.
    intros Hx Hw. unfold push. destruct (w_loc w !! i) as [l|] eqn:E; [|exact Hw].
    destruct Hw as [H1 H2 H3 H4 H5 H6 (l1 & H7 & H7') H8]. constructor; cbn; auto.
    - intros j l'. rewrite lookup_insert_Some. intros [[<- <-]|[_ E']] Hj; cbn; eauto.
    - destruct (decide (i = me)) as [->|Hne].
      + rewrite lookup_insert. eexists. split; [reflexivity|]. simplify_eq. destruct H7' as (A1 & A2 & A3).
        split_and!; cbn; auto. apply Forall_app. split; [exact A3|]. constructor; [|constructor]. destruct Hx; [assumption|congruence].
      + rewrite lookup_insert_ne by congruence. eauto.
  Qed.
  Lemma rwatching_send_to i x w : ~ mentions x \/ i <> me -> rwatching w -> rwatching (send_to i x w).
  Proof. unfold send_to. intros. case_match; [by apply rwatching_push | assumption]. Qed.
  Lemma rwatching_newloc w w' : w_next_ref w' = w_next_ref w -> w_next_pid w' = N.succ (w_next_pid w) ->
    w_mons w' = w_mons w -> w_nmons w' = w_nmons w -> w_loc w' = <[w_next_pid w := new_plocal]> (w_loc w) ->
    (is_Some (w_regs w !! me) -> is_Some (w_regs w' !! me)) -> rwatching w -> rwatching w'.
  Proof.
    intros E1 E2 E3 E4 E5 E6 [H1 H2 H3 H4 H5 H6 H7 H8]. unfold monitors_to in *. constructor; unfold monitors_to; rewrite ?E1, ?E2, ?E3, ?E4, ?E5; auto.
    - lia.
    - intros j l. rewrite lookup_insert_Some. intros [[<- <-]|[_ E']] Hj; [apply lookup_empty | eauto].
    - rewrite lookup_insert_ne by lia. exact H7.
  Qed.
  Lemma insert_some {A} (m : gmap N A) i x j : is_Some (m !! j) -> is_Some (<[i := x]> m !! j).
  Proof. rewrite lookup_insert_is_Some'. auto. Qed.
  Lemma alter_some {A} (m : gmap N A) f i j : is_Some (m !! j) -> is_Some (alter f i m !! j).
  Proof. by rewrite lookup_alter_is_Some. Qed.
  Lemma rwatching_exit p f y w : rwatching w -> rwatching (exit_op p f y w).
  Proof.
    intros Hw. unfold exit_op. repeat case_match; try exact Hw;
      try (by apply rwatching_push; [left; intros []|exact Hw]);
      (eapply rwatching_same; [| | | | | |exact Hw]; cbn; try reflexivity; apply insert_some).
  Qed.
  Lemma rwatching_exit_linked p f y w : rwatching w -> rwatching (exit_linked_op p f y w).
  Proof.
    intros Hw. unfold exit_linked_op. repeat case_match; try exact Hw;
      try (by apply rwatching_push; [left; intros []|exact Hw]);
      (eapply rwatching_same; [| | | | | |exact Hw]; cbn; try reflexivity; apply insert_some).
  Qed.
  (** Actions that cannot touch the monitor, whoever performs them. *)
  Definition mild (a : act) : Prop :=
    match a with
    | AOwnMonitor _ r _ => r <> r0
    | AOwnDemonitor i r => ~ (i = me /\ r = r0)
    | APush _ x | ASendTo _ x => ~ mentions x
    | AAddMon _ r _ _ | ADelMon _ r | AAddNmon _ r _ => r <> r0
    | ADelNmon n r => ~ (n = node0 /\ r = r0)
    | ADelNmons n l => ~ (n = node0 /\ r0 ∈ l)
    | ANmonsDelete n => n <> node0
    | ARegDelete i | AGone i => i <> me
    | _ => True
    end.
  Ltac wsame Hw := eapply rwatching_same; [| | | | | |exact Hw]; cbn; try reflexivity; try lia; auto using insert_some, alter_some.
  Lemma mons_eq (w : world) j r (f : gmap reference (pid * option dest) -> gmap reference (pid * option dest)) :
    f ∅ !! r = (∅ : gmap reference (pid * option dest)) !! r ->
    default ∅ (alter f j (w_mons w) !! j) !! r = match w_mons w !! j with Some m => f m !! r | None => None end.
  Proof. intros H. rewrite lookup_alter. destruct (w_mons w !! j); cbn; [reflexivity | apply lookup_empty]. Qed.
  Lemma mild_rwatching a w : mild a -> rwatching w -> rwatching (does S a w).
  Proof.
    intros Ha Hw. destruct a; cbn in Ha; cbn [does]; try exact Hw; try (by wsame Hw).
    - apply rwatching_loc; [|cbn; auto|exact Hw]. intros _ l Hl. exact Hl.
    - apply rwatching_loc; [|cbn; auto|exact Hw]. intros _ l Hl. exact Hl.
    - apply rwatching_loc; [| |exact Hw]; cbn.
      + intros _ l (A1 & A2). split; [|exact A2]. cbn. by rewrite lookup_insert_ne by congruence.
      + intros l Hl. by rewrite lookup_insert_ne by congruence.
    - apply rwatching_loc; [| |exact Hw]; cbn.
      + intros -> l (A1 & A2). split; [|exact A2]. cbn. rewrite lookup_delete_ne; [exact A1|]. intros ->. by apply Ha.
      + intros l Hl. apply lookup_delete_None. auto.
    - unfold receive_op. destruct (w_loc w !! me0) as [l|] eqn:E; [|exact Hw]. destruct (select S T f b l) as [s l'] eqn:Es. cbn.
      destruct Hw as [H1 H2 H3 H4 H5 H6 (l1 & H7 & H7') H8]. constructor; cbn; auto.
      + intros j l2. rewrite lookup_insert_Some. intros [[<- <-]|[_ E']] Hj; [|eauto]. eapply select_none; [exact Es | eauto].
      + destruct (decide (me0 = me)) as [->|Hne].
        * rewrite lookup_insert. eexists. split; [reflexivity|]. simplify_eq. by eapply select_expecting.
        * rewrite lookup_insert_ne by congruence. eauto.
    - unfold alias_take_op. repeat case_match; cbn; try exact Hw. by wsame Hw.
    - apply rwatching_push; auto.
    - apply rwatching_send_to; auto.
    - unfold node_register_op, spawn_op. repeat case_match; cbn; simplify_eq; try exact Hw; cbn; first [by wsame Hw |
        (eapply rwatching_newloc; [| | | | | |exact Hw]; cbn; try reflexivity; apply insert_some)].
    - unfold send_frame, hand_out. repeat case_match; try exact Hw; by wsame Hw.
    - eapply rwatching_newloc; [| | | | | |exact Hw]; cbn; try reflexivity; auto.
    - unfold register_op. repeat case_match; cbn; try exact Hw. by wsame Hw.
    - by apply rwatching_exit.
    - by apply rwatching_exit_linked.
    - wsame Hw. intros H. by rewrite lookup_delete_ne by congruence.
    - unfold gone. destruct Hw as [H1 H2 H3 H4 H5 H6 H7 H8]. constructor; cbn; auto.
      + intros j l. rewrite lookup_delete_Some. intros [_ E]. eauto.
      + by rewrite lookup_delete_ne by congruence.
    - destruct Hw as [H1 H2 H3 H4 H5 H6 H7 H8]. unfold add_mon. constructor; cbn; auto.
      intros j. destruct (decide (i = j)) as [->|Hne]; [|rewrite lookup_insert_ne by congruence; auto].
      rewrite lookup_insert. cbn. rewrite lookup_insert_ne by congruence. auto.
    - destruct Hw as [H1 H2 H3 H4 H5 H6 H7 H8]. unfold del_mon. constructor; cbn; auto.
      intros j. destruct (decide (i = j)) as [->|Hne]; [|rewrite lookup_alter_ne by congruence; auto].
      rewrite lookup_alter. specialize (H5 j). destruct (w_mons w !! j) as [m|]; cbn in *; [|apply lookup_empty].
      apply lookup_delete_None. auto.
    - destruct Hw as [H1 H2 H3 H4 H5 H6 H7 H8]. constructor; cbn; auto.
      intros j. destruct (decide (i = j)) as [->|Hne]; [by rewrite lookup_delete; cbn; rewrite lookup_empty|].
      rewrite lookup_delete_ne by congruence; auto.
    - destruct Hw as [H1 H2 H3 H4 H5 H6 H7 H8].
      assert (forall nd, monitors_to (add_nmon n r m w) nd !! r0 = monitors_to w nd !! r0) as E.
      { intros nd. unfold monitors_to, add_nmon; cbn. destruct (decide (n = nd)) as [->|Hne]; [|by rewrite lookup_insert_ne by congruence].
        rewrite lookup_insert. cbn. by rewrite lookup_insert_ne by congruence. }
      constructor; auto; intros; rewrite E; auto.
    - destruct Hw as [H1 H2 H3 H4 H5 H6 H7 H8].
      assert (forall nd, monitors_to (del_nmon n r w) nd !! r0 = monitors_to w nd !! r0) as E.
      { intros nd. unfold del_nmon; cbn. destruct (decide (n = nd)) as [->|Hne]; [|unfold monitors_to; cbn; by rewrite lookup_alter_ne by congruence].
        destruct (decide (r = r0)) as [->|Hr].
        - rewrite (H4 nd) by naive_solver. unfold monitors_to; cbn. rewrite lookup_alter. destruct (w_nmons w !! nd); cbn; [apply lookup_delete|apply lookup_empty].
        - unfold monitors_to; cbn. rewrite lookup_alter. destruct (w_nmons w !! nd); cbn; [by apply lookup_delete_ne|done]. }
      constructor; auto; intros; rewrite E; auto.
    - destruct Hw as [H1 H2 H3 H4 H5 H6 H7 H8].
      assert (forall nd, monitors_to (del_nmons n l w) nd !! r0 = monitors_to w nd !! r0) as E.
      { intros nd. unfold del_nmons; cbn. destruct (decide (n = nd)) as [->|Hne]; [|unfold monitors_to; cbn; by rewrite lookup_alter_ne by congruence].
        destruct (decide (r0 ∈ l)) as [Hr|Hr].
        - rewrite (H4 nd) by naive_solver. specialize (H4 nd ltac:(naive_solver)). unfold monitors_to in *; cbn. rewrite lookup_alter. destruct (w_nmons w !! nd) as [t|]; cbn in *; [|apply lookup_empty].
          clear -H4. induction l as [|r l IH]; cbn; [exact H4|]. apply lookup_delete_None. auto.
        - unfold monitors_to; cbn. rewrite lookup_alter. destruct (w_nmons w !! nd) as [t|]; cbn; [|done].
          clear -Hr. induction l as [|r l IH]; cbn; [done|]. rewrite lookup_delete_ne by set_solver. apply IH. set_solver. }
      constructor; auto; intros; rewrite E; auto.
    - destruct Hw as [H1 H2 H3 H4 H5 H6 H7 H8].
      assert (forall nd, nd <> n -> monitors_to (up_nmons (delete n) w) nd = monitors_to w nd) as E.
      { intros nd Hn. unfold monitors_to; cbn. by rewrite lookup_delete_ne by congruence. }
      constructor; auto.
      + rewrite E by congruence. done.
      + intros nd Hn. destruct (decide (nd = n)) as [->|Hne]; [|rewrite E by done; auto].
        unfold monitors_to; cbn. rewrite lookup_delete. apply lookup_empty.
    - unfold node_start_op, spawn_op. repeat case_match; cbn; simplify_eq; try exact Hw.
      eapply rwatching_newloc; [| | | | | |exact Hw]; cbn; try reflexivity; apply insert_some.
    - unfold node_disconnect_op. repeat case_match; try exact Hw; [|by wsame Hw].
      match goal with |- context [exit_op ?p ?f ?y ?w1] => assert (rwatching (exit_op p f y w1)) as Hx end.
      { apply rwatching_exit. by wsame Hw. }
      by wsame Hx.
    - unfold node_accept_op. repeat case_match; cbn; simplify_eq; try exact Hw; try (by wsame Hw); try (by apply rwatching_exit).
      all: match goal with |- context [exit_op ?p ?f ?y ?w1] => assert (rwatching (exit_op p f y w1)) as Hx by (by apply rwatching_exit) end; by wsame Hx.
    - unfold node_workers_op, hand_out. repeat case_match; try exact Hw; by wsame Hw.
    - unfold sup_down_op. repeat case_match; cbn; try exact Hw; by wsame Hw.
  Qed.

  (** *** Whole calls *)
  Notation ok := (post rwatching (fun _ => True)).
  Lemma ok_mild {A} (F : act -> Prop) (p : prog world A) : (forall a, F a -> mild a) -> guar (lstep S F) p -> ok p.
  Proof. intros HF. apply post_guar. intros w w' (a & Ha & ->). apply mild_rwatching. auto. Qed.
  Lemma ok_modify f a : (forall w, f w = does S a w) -> mild a -> ok (modify f).
  Proof. intros Hf Ha. apply post_modify; [|exact I]. intros w Hw. rewrite Hf. by apply mild_rwatching. Qed.
  Lemma ok_fresh : post rwatching (fun r => r <> r0 /\ ref_is_local r = true) fresh_ref.
  Proof.
    apply post_atom. intros w Hw. cbn. split; [|split; [|reflexivity]].
    - apply (mild_rwatching AFreshRef w I Hw).
    - pose proof (rw_ref _ Hw). intros [= E]. lia.
  Qed.
  Ltac okm a := apply (ok_modify _ a); [reflexivity | cbn; auto; try (intros [_ ?]; congruence)].
  Ltac okseq := eapply (post_bind _ (fun _ => True)); [|intros ? _].
  Lemma ok_node_register nd c : ok (node_register nd c).
  Proof. apply (ok_mild (fp_noderegister c)); [|apply l_node_register]. by intros []. Qed.
  Lemma ok_alias_destroy r : ok (alias_destroy r).
  Proof. apply post_atom. intros w Hw. split; [|exact I]. apply (mild_rwatching (AAliasDelete (ref_id r)) w I Hw). Qed.
  Lemma ok_self_down m d' r why : r <> r0 -> ok (self_down m d' r why).
  Proof.
    intros Hr. unfold self_down. okseq; [okm (APush m (IProcessDown d' r (RCustom why)))|].
    okseq; [apply ok_alias_destroy | exact I].
  Qed.
  Lemma ok_monitor_remote m n a r d' i nm : r <> r0 -> ok (monitor_remote m n a r d' i nm).
  Proof.
    intros Hr. unfold monitor_remote. okseq; [okm (AAddNmon (NRemote n a) r (NMProcess m d'))|].
    okseq; [apply ok_node_register|]. okm (ASendFrame (FMonitor true i nm (Some m) (ref_id r)) a1).
  Qed.
  Lemma ok_monitor_local m i r d' : r <> r0 -> ok (monitor_local m i r d').
  Proof.
    intros Hr. unfold monitor_local. okseq; [by apply post_observe|].
    case_match; [okm (AAddMon i r (PLocal m) (Some d')) | by apply ok_self_down].
  Qed.
  Lemma ok_own_monitor m r x : r <> r0 -> ok (own_monitor m r x).
  Proof. intros Hr. okm (AOwnMonitor m r x). Qed.
  Lemma ok_monitor_install m d' r : r <> r0 -> ok (monitor_install m d' r).
  Proof.
    intros Hr. unfold monitor_install. destruct d' as [p|n [|nm a]|]; [| | |exact I].
    - case_decide; [exact I|]. okseq; [by apply ok_own_monitor|]. destruct (pid_is_local p); [by apply ok_monitor_local|].
      okseq; [by apply post_observe|]. case_match; [case_match; by apply ok_monitor_remote | by apply ok_self_down].
    - okseq; [by apply post_observe|]. case_match.
      + okseq; [by apply ok_own_monitor | by apply ok_monitor_local].
      + okseq; [by apply ok_own_monitor | by apply ok_self_down].
    - okseq; [by apply ok_own_monitor | by apply ok_monitor_remote].
  Qed.
  Lemma ok_monitor_destroy p r : r <> r0 -> ok (monitor_destroy p r).
  Proof.
    intros Hr. unfold monitor_destroy. case_match; [okm (ADelMon (pid_id p) r)|].
    okseq; [okm (ASendFrame (FMonitor false (Some (pid_id p)) None None (ref_id r)) (ref_node r))|].
    okseq; [by apply post_observe|]. case_match; [|exact I]. case_match. okm (ADelNmon (NRemote s s0) r).
  Qed.
  Lemma ok_demonitor m r : ~ (m = me /\ r = r0) -> ok (demonitor m r).
  Proof.
    intros Hm. unfold demonitor. eapply (post_bind _ (fun x => r = r0 -> x = None)).
    - apply post_atom. intros w Hw. split; [apply (mild_rwatching (AOwnDemonitor m r) w Hm Hw)|]. cbn. intros ->.
      destruct (w_loc w !! m) as [l|] eqn:E; [|reflexivity]. apply (rw_tables _ Hw m l E). intros ->. by apply Hm.
    - intros [[[p|]|]|] Hx; try exact I. assert (r <> r0) as Hr by (intros E; by specialize (Hx E)).
      okseq; [by apply ok_monitor_destroy|]. okseq; [apply ok_alias_destroy|exact I].
  Qed.
  Lemma ok_link_down i why : ok (link_process_down (PLocal i) why).
  Proof.
    apply (ok_mild (fun a => match a with ANone | ALinksDelete _ | ADelLink _ _ | AExitLinked _ _ _ | ADelNlinks _ _ | ASendFrame _ _ => True | _ => False end)).
    - by intros [].
    - unfold link_process_down. apply guar_bind; [apply guar_atom; intros w; by exists (ALinksDelete i)|]. intros [ls|]; [|exact I].
      apply guar_bind.
      + apply guar_each. intros p. apply guar_bind; [|intros _]; apply guar_modify; intros w;
          [by exists (ADelLink (pid_id p) (PLocal i)) | by exists (AExitLinked p (PLocal i) why)].
      + intros _. apply guar_each. intros g. apply guar_bind; [apply guar_observe; intros; by exists ANone|]. intros n.
        apply guar_bind.
        * case_match; [case_match|exact I]. apply guar_modify; intros w. by eexists (ADelNlinks _ _).
        * intros _. apply guar_modify; intros w. by eexists (ASendFrame _ _).
  Qed.
  Lemma ok_monitor_down i why : ok (monitor_process_down (PLocal i) why).
  Proof.
    unfold monitor_process_down. eapply (post_bind _ (fun ms => default ∅ ms !! r0 = None)).
    - apply post_atom. intros w Hw. split; [apply (mild_rwatching (AMonsDelete i) w I Hw)|]. cbn. by apply (rw_mons _ Hw).
    - intros [ms|] Hms; [|exact I]. cbn in Hms. okseq.
      + apply post_each. intros [r [from d']] Hx. apply sorted_refs_elem in Hx. cbn [fst snd].
        assert (r <> r0) as Hr by congruence. okseq.
        * case_match; [|exact I]. case_match; [okm (ASendTo (pid_id from) (IProcessDown d r why))|].
          okseq; [by apply post_observe|]. case_match; exact I.
        * case_match; [|exact I]. okseq; [apply ok_alias_destroy|exact I].
      + apply post_each. intros g Hg. okseq; [by apply post_observe|]. okseq.
        * case_match; [case_match|exact I]. okm (ADelNmons (NRemote s s0) (map fst g.2)). intros [_ Hin].
          apply elem_of_list_fmap in Hin as ([r x] & Er & Hin). cbn in Er. subst r.
          unfold group in Hg. apply elem_of_list_fmap in Hg as (n' & -> & _). cbn in Hin.
          apply elem_of_list_filter in Hin as [_ Hin]. apply elem_of_list_filter in Hin as [_ Hin].
          apply sorted_refs_elem in Hin. congruence.
        * okm (ASendFrame (FMonitorDown (map (fun x => ref_id x.1) g.2) why) g.1).
  Qed.
  Lemma ok_finish i : i <> me -> ok (drop_process i).
  Proof.
    intros Hm. unfold drop_process. okseq.
    { apply post_atom. intros w Hw. split; [apply (mild_rwatching (ARegDelete i) w Hm Hw) | exact I]. }
    case_match; [|okseq; [okm (AGone i)|exact I]].
    okseq; [case_match; [okm (ANameDelete s)|exact I]|].
    okseq; [apply ok_link_down|]. okseq; [apply ok_monitor_down|].
    eapply (post_bind _ (fun l => match l with Some l => l_monitors l !! r0 = None | None => True end)).
    { apply post_observe. intros w Hw. destruct (w_loc w !! i) as [l|] eqn:E; [|exact I]. by apply (rw_tables _ Hw i l E). }
    intros l Hl. okseq.
    - unfold monitor_destroy_all. apply post_each. intros [rf m] Hx. cbn [fst snd].
      assert (rf <> r0) as Hr. { intros ->. destruct l as [l|]; [|by apply elem_of_nil in Hx]. apply sorted_refs_elem in Hx. congruence. }
      destruct m as [[p|]|nd]; [|exact I|].
      + okseq; [destruct (pid_is_local p); [okm (ADelMon (pid_id p) rf) | okm (ASendFrame (FMonitor false (Some (pid_id p)) None None (ref_id rf)) (ref_node rf))]|].
        destruct (ref_is_local rf); [|exact I]. okseq; [apply ok_alias_destroy|exact I].
      + okseq; [okm (ADelNmon nd rf)|]. destruct (ref_is_local rf); [|exact I]. okseq; [apply ok_alias_destroy|exact I].
    - okseq; [|okm (AGone i)]. unfold alias_destroy_all. apply post_each. intros j _. okm (AAliasDelete j).
  Qed.
  Lemma ok_supdown nd p : nd <> node0 -> ok (supervisor_down nd p).
  Proof.
    intros Hnd.
    unfold supervisor_down. okseq.
    { apply post_atom. intros w Hw. split; [apply (mild_rwatching (ASupDown nd p) w I Hw) | exact I]. }
    case_match; [exact I|]. okseq.
    { apply post_atom. intros w Hw. split; [apply (mild_rwatching (ANlinksDelete nd) w I Hw) | exact I]. }
    okseq.
    { apply post_each. intros x _. okseq; [okm (ADelLink x.2 x.1) | okm (AExitLinked (PLocal x.2) x.1 (RCustom "noconnection"))]. }
    eapply (post_bind _ (fun ms => default ∅ ms !! r0 = None)).
    { apply post_atom. intros w Hw. split; [apply (mild_rwatching (ANmonsDelete nd) w Hnd Hw) | apply (rw_others _ Hw nd Hnd)]. }
    intros ms Hms. okseq; [|okm (APendDelete nd)].
    apply post_each. intros [r m] Hx. apply sorted_refs_elem in Hx. cbn [fst snd]. assert (r <> r0) as Hr by congruence.
    okseq.
    - destruct m as [i|i d'|i]; [okm (ASendTo i (INodeDown nd r)) | okm (ASendTo i (IProcessDown d' r (RCustom "noconnection")))|].
      by apply ok_monitor_destroy.
    - case_match; [|exact I]. okseq; [apply ok_alias_destroy|exact I].
  Qed.
  Lemma ok_spawn m l b : ok (spawn m l b).
  Proof.
    destruct b; [|apply (ok_mild (fp_spawn m l false)); [|apply l_spawn]; intros []; cbn; intuition congruence].
    unfold spawn. okseq.
    { apply post_atom. intros w Hw. split; [apply (mild_rwatching AAlloc w I Hw) | exact I]. }
    okseq. { destruct l; [|exact I]. okseq; [okm (AAddLink a (PLocal m)) | okm (AAddLink m (PLocal a))]. }
    okseq.
    { eapply post_bind; [apply ok_fresh|]. intros r [Hr _]. okseq; [by apply ok_own_monitor|].
      okseq; [okm (AAddMon a r (PLocal m) (Some (DPid (PLocal a)))) | exact I]. }
    okseq; [okm (ARunning a)|]. okseq; [okm (AInsert a)|exact I].
  Qed.
  Lemma ok_frame nd p f : leaves_remote_monitor k me node0 (CFrame nd p f) -> ok (receive_frame nd p f).
  Proof.
    intros Hf.
    assert (forall F, F = f -> match F with FMonitorDown _ _ => False | _ => True end -> ok (receive_frame nd p f)) as Hm.
    { intros F <- HF. apply (ok_mild (fp_frame nd F)); [|apply l_frame].
      intros []; destruct F; cbn; intros Ha; try exact I; try contradiction; try (destruct Ha; contradiction).
      all: try (intros ->; cbn in Ha; naive_solver).
      all: intros Hx; naive_solver. }
    destruct f; try (by eapply Hm). cbn in Hf. cbn [receive_frame]. apply post_each. intros rf Hrf.
    assert (~ (nd = node0 /\ RLocal rf = r0)) as Hn by naive_solver.
    unfold node_process_monitor_down.
    eapply (post_bind _ (fun m => m = None \/ RLocal rf <> r0)).
    { apply post_atom. intros w Hw. split; [apply (mild_rwatching (ADelNmon nd (RLocal rf)) w Hn Hw)|]. cbn.
      destruct (decide (RLocal rf = r0)) as [E|]; [left|by right]. pose proof (rw_others _ Hw nd ltac:(naive_solver)) as H.
      unfold monitors_to in H. rewrite E. by destruct (w_nmons w !! nd). }
    intros m Hx. okseq; [apply ok_alias_destroy|]. destruct m as [[]|]; try exact I.
    destruct Hx as [|Hx]; [discriminate|]. apply (ok_modify _ (ASendTo id (IProcessDown d (RLocal rf) r))); [reflexivity|cbn; auto].
  Qed.
  Lemma ok_node_demonitor m r : ~ (m = me /\ r = r0) -> ok (node_demonitor m r).
  Proof.
    intros Hm. unfold node_demonitor. eapply (post_bind _ (fun x => r = r0 -> x = None)).
    - apply post_atom. intros w Hw. split; [apply (mild_rwatching (AOwnDemonitor m r) w Hm Hw)|]. cbn. intros ->.
      destruct (w_loc w !! m) as [l|] eqn:E; [|reflexivity]. apply (rw_tables _ Hw m l E). intros ->. by apply Hm.
    - intros [[|nd]|] Hx; try exact I. assert (r <> r0) as Hr by (intros E; by specialize (Hx E)).
      okm (ADelNmon nd r).
  Qed.
  Lemma ok_node_monitor m nd : ok (node_monitor m nd).
  Proof.
    unfold node_monitor. destruct nd; [exact I|]. eapply post_bind; [apply ok_fresh|]. intros r [Hr _].
    okseq; [by apply ok_own_monitor|]. okseq; [okm (AAddNmon (NRemote name addr) r (NMNode m))|].
    okseq; [apply ok_node_register|exact I].
  Qed.
  Lemma ok_call c : leaves_remote_monitor k me node0 c -> ok (call_prog S c).
  Proof.
    intros Hc.
    assert ((forall a, fp S c a -> mild a) -> ok (call_prog S c)) as Hm.
    { intros H. eapply ok_mild; [exact H | apply call_fp]. }
    destruct c; cbn in Hc; cbn [call_prog]; unfold ret_as;
      try (apply Hm; intros []; cbn; unfold fp_send, fp_destroy_timer, fp_fire, fp_link, fp_unlink, fp_exit, fp_supervise, msg_item;
           cbn; try done; try (by intuition (subst; auto)); fail).
    - apply Hm. intros []; cbn; try done.
      + intros [[->| ->]|(r & _ & ->)]; cbn; auto.
      + intros [->| ->]; cbn; auto.
    - apply Hm. intros []; cbn; try done; destruct x as [| |[]| | | |]; cbn; naive_solver.
    - okseq; [apply ok_spawn|exact I].
    - okseq; [|exact I]. unfold monitor. eapply post_bind; [apply ok_fresh|]. intros r [Hr _].
      okseq; [by apply ok_monitor_install|exact I].
    - okseq; [|exact I]. unfold monitor_alias. eapply post_bind; [apply ok_fresh|]. intros r [Hr _].
      okseq; [okm (AAliasCreate me0 r reply)|]. okseq; [by apply ok_monitor_install|exact I].
    - okseq; [by apply ok_demonitor|exact I].
    - okseq; [by apply ok_finish|exact I].
    - okseq; [|exact I]. unfold crash. okseq; [okm (ASetExit me0 why)|]. by apply ok_finish.
    - okseq; [apply ok_node_monitor|exact I].
    - okseq; [by apply ok_node_demonitor|exact I].
    - okseq; [by apply ok_supdown|exact I].
    - okseq; [by apply ok_frame|exact I].
  Qed.
  Lemma reach_rwatching w s : rwatching w -> reach (calls_of S (leaves_remote_monitor k me node0)) (Sys w []) s -> rwatching (s_world s).
  Proof.
    intros Hw Hr. refine (proj1 (reach_safe rwatching _ (Sys w []) s _ Hw _ Hr)); [|constructor].
    intros p (c & Hc & ->). eapply post_safe, ok_call, Hc.
  Qed.
End rmon.
