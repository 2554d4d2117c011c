(** The life of a monitor: from the call to the notice, whatever else happens in between. *)
From stdpp Require Import base list gmap numbers strings countable sorting relations.
From Coq Require Import Lia.
From Verif Require Import Prog ProgProofs ProgInv Types Mailbox MailboxSpec World ProcApi NodeApi Api Steps Hist Labels SchedSpec SchedProofs ProcSpec ProcProofs.

Section mon.
  Context (S : serde) (k me target : N) (d : dest).
  Notation r0 := (RLocal k).
  (** The item is a notice about [k], checked already or not. *)
  Definition mentions (x : item) : Prop :=
    match x with
    | IProcessDown _ r _ | INodeDown _ r | ISystem (SProcessDown _ r _) | ISystem (SNodeDown _ r) => r = r0
    | _ => False
    end.
  Global Instance mentions_dec x : Decision (mentions x).
  Proof. destruct x as [| |[]| | | |]; cbn; apply _. Defined.
  (** Nothing about [k] has arrived, and the process would accept it. *)
  Definition expecting (l : plocal) : Prop :=
    is_Some (l_monitors l !! r0) /\ Forall (fun x => ~ mentions x) (l_items l) /\ Forall (fun x => ~ mentions x) (l_chan l).
  Record watching (w : world) : Prop := Watching {
    wt_ref : (k < w_next_ref w)%N;
    wt_me : (me < w_next_pid w)%N;
    wt_stored : default ∅ (w_mons w !! target) !! r0 = Some (PLocal me, Some d);
    wt_others : forall j, j <> target -> default ∅ (w_mons w !! j) !! r0 = None;
    wt_nodes : forall nd, default ∅ (w_nmons w !! nd) !! r0 = None;
    wt_tables : forall j l, w_loc w !! j = Some l -> j <> me -> l_monitors l !! r0 = None;
    wt_loc : exists l, w_loc w !! me = Some l /\ expecting l;
    wt_alive : is_Some (w_regs w !! me);
  }.

  Lemma process_item_expecting T x l r x' l' : process_item S T x l = (r, x', l') -> ~ mentions x ->
    is_Some (l_monitors l !! r0) ->
    is_Some (l_monitors l' !! r0) /\ ~ mentions x' /\ l_items l' = l_items l /\ l_chan l' = l_chan l.
  Proof.
    unfold process_item. intros H Hx Hl.
    assert (forall r1, r1 <> r0 -> is_Some (delete r1 (l_monitors l) !! r0)) as Hd.
    { intros r1 Hr. by rewrite lookup_delete_ne by congruence. }
    assert (forall r1 p, is_Some (alter (fun _ : pmonitor => p) r1 (l_monitors l) !! r0)) as Ha.
    { intros r1 p. by rewrite lookup_alter_is_Some. }
    destruct x; cbn in Hx; repeat case_match; simplify_eq; cbn; auto.
  Qed.
  Lemma scan_items_expecting T f b its l s its' l' : scan_items S T f b its l = (s, its', l') ->
    Forall (fun x => ~ mentions x) its -> is_Some (l_monitors l !! r0) ->
    Forall (fun x => ~ mentions x) its' /\ is_Some (l_monitors l' !! r0) /\ l_chan l' = l_chan l.
  Proof.
    revert l s its' l'; induction its as [|x its IH]; intros l s its' l' H Hf Hl; cbn in H.
    - simplify_eq. auto.
    - apply Forall_cons in Hf as [Hx Hf].
      destruct (process_item S T x l) as [[r x'] l1] eqn:E.
      apply process_item_expecting in E as (E1 & E2 & E3 & E4); [|assumption..].
      assert (forall s1 i1 l2, scan_items S T f b its l1 = (s1, i1, l2) ->
        Forall (fun x => ~ mentions x) (x' :: i1) /\ is_Some (l_monitors l2 !! r0) /\ l_chan l2 = l_chan l) as Hgo.
      { intros s1 i1 l2 E'. apply IH in E' as (F1 & F2 & F3); [|assumption..]. split; [by constructor|]. split; [done|congruence]. }
      destruct r as [m| |].
      + destruct (f m); [simplify_eq; auto|].
        destruct (scan_items S T f b its l1) as [[s1 i1] l2] eqn:E'. simplify_eq. by eapply Hgo.
      + destruct (scan_items S T f b its l1) as [[s1 i1] l2] eqn:E'. simplify_eq. by eapply Hgo.
      + destruct b; [simplify_eq; split; [by constructor|auto]|].
        destruct (scan_items S T f false its l1) as [[s1 i1] l2] eqn:E'. simplify_eq. by eapply Hgo.
  Qed.
  Lemma scan_chan_expecting T f b ch l s l' : scan_chan S T f b ch l = (s, l') ->
    Forall (fun x => ~ mentions x) ch -> is_Some (l_monitors l !! r0) -> Forall (fun x => ~ mentions x) (l_items l) -> expecting l'.
  Proof.
    revert l s l'; induction ch as [|x ch IH]; intros l s l' H Hf Hl Hi; cbn in H.
    - simplify_eq. split_and!; cbn; auto.
    - apply Forall_cons in Hf as [Hx Hf].
      destruct (process_item S T x l) as [[r x'] l1] eqn:E.
      apply process_item_expecting in E as (E1 & E2 & E3 & E4); [|assumption..].
      destruct r as [m| |].
      + destruct (f m).
        * simplify_eq. split_and!; cbn; auto. by rewrite E3.
        * apply IH in H; cbn; auto. rewrite E3. apply Forall_app; auto.
      + apply IH in H; auto. by rewrite E3.
      + destruct b.
        * simplify_eq. split_and!; cbn; auto. by rewrite E3.
        * apply IH in H; cbn; auto. rewrite E3. apply Forall_app; auto.
  Qed.
  Lemma select_expecting T f b l s l' : select S T f b l = (s, l') -> expecting l -> expecting l'.
  Proof.
    unfold select. intros H (Hm & Hi & Hc). destruct (scan_items S T f b (l_items l) l) as [[s1 i1] l1] eqn:E.
    apply scan_items_expecting in E as (E1 & E2 & E3); [|assumption..].
    destruct s1; simplify_eq; [split_and!; cbn; auto; by rewrite E3| |split_and!; cbn; auto; by rewrite E3].
    eapply scan_chan_expecting; [exact H|..]; cbn; auto. by rewrite E3.
  Qed.
  (** Another process never has [k] in its table: receiving does not put it there. *)
  Lemma process_item_none T x l r x' l' : process_item S T x l = (r, x', l') ->
    l_monitors l !! r0 = None -> l_monitors l' !! r0 = None.
  Proof.
    unfold process_item. intros H Hl.
    assert (forall r1, delete r1 (l_monitors l) !! r0 = None) as Hd by (intros; apply lookup_delete_None; auto).
    assert (forall r1 p, alter (fun _ : pmonitor => p) r1 (l_monitors l) !! r0 = None) as Ha by (intros; by rewrite lookup_alter_None).
    destruct x; repeat case_match; simplify_eq; cbn; auto.
  Qed.
  Lemma scan_items_none T f b its l s its' l' : scan_items S T f b its l = (s, its', l') ->
    l_monitors l !! r0 = None -> l_monitors l' !! r0 = None.
  Proof.
    revert l s its' l'; induction its as [|x its IH]; intros l s its' l' H Hl; cbn in H; [by simplify_eq|].
    destruct (process_item S T x l) as [[r x'] l1] eqn:E. apply process_item_none in E; [|exact Hl].
    repeat case_match; simplify_eq; eauto.
  Qed.
  Lemma scan_chan_none T f b ch l s l' : scan_chan S T f b ch l = (s, l') ->
    l_monitors l !! r0 = None -> l_monitors l' !! r0 = None.
  Proof.
    revert l s l'; induction ch as [|x ch IH]; intros l s l' H Hl; cbn in H; [by simplify_eq|].
    destruct (process_item S T x l) as [[r x'] l1] eqn:E. apply process_item_none in E; [|exact Hl].
    repeat case_match; simplify_eq; eauto.
  Qed.
  Lemma select_none T f b l s l' : select S T f b l = (s, l') -> l_monitors l !! r0 = None -> l_monitors l' !! r0 = None.
  Proof.
    unfold select. intros H Hl. destruct (scan_items S T f b (l_items l) l) as [[s1 i1] l1] eqn:E.
    apply scan_items_none in E; [|exact Hl]. destruct s1; simplify_eq; cbn; auto. by eapply scan_chan_none in H.
  Qed.

  (** *** One step *)
  Lemma watching_same w w' :
    (w_next_ref w <= w_next_ref w')%N -> (w_next_pid w <= w_next_pid w')%N -> w_mons w' = w_mons w -> w_nmons w' = w_nmons w ->
    w_loc w' = w_loc w -> (is_Some (w_regs w !! me) -> is_Some (w_regs w' !! me)) -> watching w -> watching w'.
  Proof.
    intros E1 E2 E3 E4 E5 E6 [H1 H2 H3 H4 H5 H6 H7 H8]. constructor; rewrite ?E3, ?E4, ?E5; auto; lia.
  Qed.
  Lemma watching_loc w (g : plocal -> plocal) j :
    (j = me -> forall l, expecting l -> expecting (g l)) ->
    (forall l, l_monitors l !! r0 = None -> l_monitors (g l) !! r0 = None) ->
    watching w -> watching (up_loc (alter g j) w).
  Proof.
    intros Hg Hg' [H1 H2 H3 H4 H5 H6 (l & H7 & H7') H8]. constructor; cbn; auto.
    - intros i l'. destruct (decide (i = j)) as [->|Hne].
      + rewrite lookup_alter. destruct (w_loc w !! j) as [l1|] eqn:E; cbn; [|discriminate].
        intros [= <-] Hj. apply Hg'. eauto.
      + rewrite lookup_alter_ne by congruence. apply H6.
    - destruct (decide (j = me)) as [->|Hne].
      + rewrite lookup_alter, H7. cbn. eauto.
      + rewrite lookup_alter_ne by congruence. eauto.
  Qed.
  Lemma watching_push i x w : ~ mentions x \/ i <> me -> watching w -> watching (push i x w).
  Proof.
    intros Hx Hw. unfold push. destruct (w_loc w !! i) as [l|] eqn:E; [|exact Hw].
    destruct Hw as [H1 H2 H3 H4 H5 H6 (l1 & H7 & H7') H8]. constructor; cbn; auto.
    - intros j l'. rewrite lookup_insert_Some. intros [[<- <-]|[_ E']] Hj; cbn; eauto.
    - destruct (decide (i = me)) as [->|Hne].
      + rewrite lookup_insert. eexists. split; [reflexivity|]. simplify_eq. destruct H7' as (A1 & A2 & A3).
        split_and!; cbn; auto. apply Forall_app. split; [exact A3|]. constructor; [|constructor]. destruct Hx; [assumption|congruence].
      + rewrite lookup_insert_ne by congruence. eauto.
  Qed.
  Lemma watching_send_to i x w : ~ mentions x \/ i <> me -> watching w -> watching (send_to i x w).
  Proof. unfold send_to. intros. case_match; [by apply watching_push | assumption]. Qed.
  Lemma watching_newloc w w' : w_next_ref w' = w_next_ref w -> w_next_pid w' = N.succ (w_next_pid w) ->
    w_mons w' = w_mons w -> w_nmons w' = w_nmons w -> w_loc w' = <[w_next_pid w := new_plocal]> (w_loc w) ->
    (is_Some (w_regs w !! me) -> is_Some (w_regs w' !! me)) -> watching w -> watching w'.
  Proof.
    intros E1 E2 E3 E4 E5 E6 [H1 H2 H3 H4 H5 H6 H7 H8]. constructor; rewrite ?E1, ?E2, ?E3, ?E4, ?E5; auto.
    - lia.
    - intros j l. rewrite lookup_insert_Some. intros [[<- <-]|[_ E']] Hj; [apply lookup_empty | eauto].
    - rewrite lookup_insert_ne by lia. exact H7.
  Qed.
  Lemma insert_some {A} (m : gmap N A) i x j : is_Some (m !! j) -> is_Some (<[i := x]> m !! j).
  Proof. rewrite lookup_insert_is_Some'. auto. Qed.
  Lemma alter_some {A} (m : gmap N A) f i j : is_Some (m !! j) -> is_Some (alter f i m !! j).
  Proof. by rewrite lookup_alter_is_Some. Qed.
  Lemma watching_exit p f y w : watching w -> watching (exit_op p f y w).
  Proof.
    intros Hw. unfold exit_op. repeat case_match; try exact Hw;
      try (by apply watching_push; [left; intros []|exact Hw]);
      (eapply watching_same; [| | | | | |exact Hw]; cbn; try reflexivity; apply insert_some).
  Qed.
  Lemma watching_exit_linked p f y w : watching w -> watching (exit_linked_op p f y w).
  Proof.
    intros Hw. unfold exit_linked_op. repeat case_match; try exact Hw;
      try (by apply watching_push; [left; intros []|exact Hw]);
      (eapply watching_same; [| | | | | |exact Hw]; cbn; try reflexivity; apply insert_some).
  Qed.
  (** Actions that cannot touch the monitor, whoever performs them. *)
  Definition mild (a : act) : Prop :=
    match a with
    | AOwnMonitor _ r _ => r <> r0
    | AOwnDemonitor i r => ~ (i = me /\ r = r0)
    | APush _ x | ASendTo _ x => ~ mentions x
    | AAddMon _ r _ _ | ADelMon _ r | AAddNmon _ r _ => r <> r0
    | AMonsDelete i => i <> target
    | ARegDelete i | AGone i => i <> me
    | _ => True
    end.
  Ltac wsame Hw := eapply watching_same; [| | | | | |exact Hw]; cbn; try reflexivity; try lia; auto using insert_some, alter_some.
  Lemma mons_eq (w : world) j r (f : gmap reference (pid * option dest) -> gmap reference (pid * option dest)) :
    f ∅ !! r = (∅ : gmap reference (pid * option dest)) !! r ->
    default ∅ (alter f j (w_mons w) !! j) !! r = match w_mons w !! j with Some m => f m !! r | None => None end.
  Proof. intros H. rewrite lookup_alter. destruct (w_mons w !! j); cbn; [reflexivity | apply lookup_empty]. Qed.
  Lemma mild_watching a w : mild a -> watching w -> watching (does S a w).
  Proof.
    intros Ha Hw. destruct a; cbn in Ha; cbn [does]; try exact Hw; try (by wsame Hw).
    - apply watching_loc; [|cbn; auto|exact Hw]. intros _ l Hl. exact Hl.
    - apply watching_loc; [|cbn; auto|exact Hw]. intros _ l Hl. exact Hl.
    - apply watching_loc; [| |exact Hw]; cbn.
      + intros _ l (A1 & A2). split; [|exact A2]. cbn. by rewrite lookup_insert_ne by congruence.
      + intros l Hl. by rewrite lookup_insert_ne by congruence.
    - apply watching_loc; [| |exact Hw]; cbn.
      + intros -> l (A1 & A2). split; [|exact A2]. cbn. rewrite lookup_delete_ne; [exact A1|]. intros ->. by apply Ha.
      + intros l Hl. apply lookup_delete_None. auto.
    - unfold receive_op. destruct (w_loc w !! me0) as [l|] eqn:E; [|exact Hw]. destruct (select S T f b l) as [s l'] eqn:Es. cbn.
      destruct Hw as [H1 H2 H3 H4 H5 H6 (l1 & H7 & H7') H8]. constructor; cbn; auto.
      + intros j l2. rewrite lookup_insert_Some. intros [[<- <-]|[_ E']] Hj; [|eauto]. eapply select_none; [exact Es | eauto].
      + destruct (decide (me0 = me)) as [->|Hne].
        * rewrite lookup_insert. eexists. split; [reflexivity|]. simplify_eq. by eapply select_expecting.
        * rewrite lookup_insert_ne by congruence. eauto.
    - unfold alias_take_op. repeat case_match; cbn; try exact Hw. by wsame Hw.
    - apply watching_push; auto.
    - apply watching_send_to; auto.
    - unfold node_register_op, spawn_op. repeat case_match; cbn; simplify_eq; try exact Hw; cbn; first [by wsame Hw |
        (eapply watching_newloc; [| | | | | |exact Hw]; cbn; try reflexivity; apply insert_some)].
    - unfold send_frame, hand_out. repeat case_match; try exact Hw; by wsame Hw.
    - eapply watching_newloc; [| | | | | |exact Hw]; cbn; try reflexivity; auto.
    - unfold register_op. repeat case_match; cbn; try exact Hw. by wsame Hw.
    - by apply watching_exit.
    - by apply watching_exit_linked.
    - wsame Hw. intros H. by rewrite lookup_delete_ne by congruence.
    - unfold gone. destruct Hw as [H1 H2 H3 H4 H5 H6 H7 H8]. constructor; cbn; auto.
      + intros j l. rewrite lookup_delete_Some. intros [_ E]. eauto.
      + by rewrite lookup_delete_ne by congruence.
    - destruct Hw as [H1 H2 H3 H4 H5 H6 H7 H8]. unfold add_mon. constructor; cbn; auto.
      + destruct (decide (i = target)) as [->|Hne]; [|by rewrite lookup_insert_ne by congruence].
        rewrite lookup_insert. cbn. by rewrite lookup_insert_ne by congruence.
      + intros j Hj. destruct (decide (i = j)) as [->|Hne]; [|rewrite lookup_insert_ne by congruence; auto].
        rewrite lookup_insert. cbn. rewrite lookup_insert_ne by congruence. auto.
    - destruct Hw as [H1 H2 H3 H4 H5 H6 H7 H8]. unfold del_mon. constructor; cbn; auto.
      + destruct (decide (i = target)) as [->|Hne]; [|by rewrite lookup_alter_ne by congruence].
        rewrite lookup_alter. destruct (w_mons w !! target) as [m|]; cbn in *; [|by rewrite lookup_empty in H3].
        by rewrite lookup_delete_ne by congruence.
      + intros j Hj. destruct (decide (i = j)) as [->|Hne]; [|rewrite lookup_alter_ne by congruence; auto].
        rewrite lookup_alter. specialize (H4 j Hj). destruct (w_mons w !! j) as [m|]; cbn in *; [|apply lookup_empty].
        apply lookup_delete_None. auto.
    - destruct Hw as [H1 H2 H3 H4 H5 H6 H7 H8]. constructor; cbn; auto.
      + by rewrite lookup_delete_ne by congruence.
      + intros j Hj. destruct (decide (i = j)) as [->|Hne]; [by rewrite lookup_delete; cbn; rewrite lookup_empty|].
        rewrite lookup_delete_ne by congruence; auto.
    - destruct Hw as [H1 H2 H3 H4 H5 H6 H7 H8]. unfold add_nmon. constructor; cbn; auto.
      intros nd. destruct (decide (n = nd)) as [->|Hne]; [|rewrite lookup_insert_ne by congruence; auto].
      rewrite lookup_insert. cbn. rewrite lookup_insert_ne by congruence. auto.
    - destruct Hw as [H1 H2 H3 H4 H5 H6 H7 H8]. unfold del_nmon. constructor; cbn; auto.
      intros nd. specialize (H5 nd). destruct (decide (n = nd)) as [->|Hne]; [|rewrite lookup_alter_ne by congruence; auto].
      rewrite lookup_alter. destruct (w_nmons w !! nd); cbn in *; [|apply lookup_empty]. apply lookup_delete_None. auto.
    - destruct Hw as [H1 H2 H3 H4 H5 H6 H7 H8]. unfold del_nmons. constructor; cbn; auto.
      intros nd. specialize (H5 nd). destruct (decide (n = nd)) as [->|Hne]; [|rewrite lookup_alter_ne by congruence; auto].
      rewrite lookup_alter. destruct (w_nmons w !! nd) as [m|]; cbn in *; [|apply lookup_empty].
      clear -H5. induction l as [|r l IH]; cbn; [exact H5|]. apply lookup_delete_None. auto.
    - destruct Hw as [H1 H2 H3 H4 H5 H6 H7 H8]. constructor; cbn; auto.
      intros nd. specialize (H5 nd). destruct (decide (n = nd)) as [->|Hne]; [|rewrite lookup_delete_ne by congruence; auto].
      rewrite lookup_delete. apply lookup_empty.
    - unfold node_start_op, spawn_op. repeat case_match; cbn; simplify_eq; try exact Hw.
      eapply watching_newloc; [| | | | | |exact Hw]; cbn; try reflexivity; apply insert_some.
    - unfold node_disconnect_op. repeat case_match; try exact Hw; [|by wsame Hw].
      match goal with |- context [exit_op ?p ?f ?y ?w1] => assert (watching (exit_op p f y w1)) as Hx end.
      { apply watching_exit. by wsame Hw. }
      by wsame Hx.
    - unfold node_accept_op. repeat case_match; cbn; simplify_eq; try exact Hw; try (by wsame Hw); try (by apply watching_exit).
      all: match goal with |- context [exit_op ?p ?f ?y ?w1] => assert (watching (exit_op p f y w1)) as Hx by (by apply watching_exit) end; by wsame Hx.
    - unfold node_workers_op, hand_out. repeat case_match; try exact Hw; by wsame Hw.
    - unfold sup_down_op. repeat case_match; cbn; try exact Hw; by wsame Hw.
  Qed.

  (** *** Whole calls *)
  Notation ok := (post watching (fun _ => True)).
  Lemma ok_mild {A} (F : act -> Prop) (p : prog world A) : (forall a, F a -> mild a) -> guar (lstep S F) p -> ok p.
  Proof. intros HF. apply post_guar. intros w w' (a & Ha & ->). apply mild_watching. auto. Qed.
  Lemma ok_modify f a : (forall w, f w = does S a w) -> mild a -> ok (modify f).
  Proof. intros Hf Ha. apply post_modify; [|exact I]. intros w Hw. rewrite Hf. by apply mild_watching. Qed.
  Lemma ok_fresh : post watching (fun r => r <> r0 /\ ref_is_local r = true) fresh_ref.
  Proof.
    apply post_atom. intros w Hw. cbn. split; [|split; [|reflexivity]].
    - apply (mild_watching AFreshRef w I Hw).
    - pose proof (wt_ref _ Hw). intros [= E]. lia.
  Qed.
  Ltac okm a := apply (ok_modify _ a); [reflexivity | cbn; auto].
  Ltac okseq := eapply (post_bind _ (fun _ => True)); [|intros ? _].
  Lemma ok_node_register nd c : ok (node_register nd c).
  Proof. apply (ok_mild (fp_noderegister c)); [|apply l_node_register]. by intros []. Qed.
  Lemma ok_alias_destroy r : ok (alias_destroy r).
  Proof. apply post_atom. intros w Hw. split; [|exact I]. apply (mild_watching (AAliasDelete (ref_id r)) w I Hw). Qed.
  Lemma ok_self_down m d' r why : r <> r0 -> ok (self_down m d' r why).
  Proof.
    intros Hr. unfold self_down. okseq; [okm (APush m (IProcessDown d' r (RCustom why)))|].
    okseq; [apply ok_alias_destroy | exact I].
  Qed.
  Lemma ok_monitor_remote m n a r d' i nm : r <> r0 -> ok (monitor_remote m n a r d' i nm).
  Proof.
    intros Hr. unfold monitor_remote. okseq; [okm (AAddNmon (NRemote n a) r (NMProcess m d'))|].
    okseq; [apply ok_node_register|]. okm (ASendFrame (FMonitor true i nm (Some m) (ref_id r)) a1).
  Qed.
  Lemma ok_monitor_local m i r d' : r <> r0 -> ok (monitor_local m i r d').
  Proof.
    intros Hr. unfold monitor_local. okseq; [by apply post_observe|].
    case_match; [okm (AAddMon i r (PLocal m) (Some d')) | by apply ok_self_down].
  Qed.
  Lemma ok_own_monitor m r x : r <> r0 -> ok (own_monitor m r x).
  Proof. intros Hr. okm (AOwnMonitor m r x). Qed.
  Lemma ok_monitor_install m d' r : r <> r0 -> ok (monitor_install m d' r).
  Proof.
    intros Hr. unfold monitor_install. destruct d' as [p|n [|nm a]|]; [| | |exact I].
    - case_decide; [exact I|]. okseq; [by apply ok_own_monitor|]. destruct (pid_is_local p); [by apply ok_monitor_local|].
      okseq; [by apply post_observe|]. case_match; [case_match; by apply ok_monitor_remote | by apply ok_self_down].
    - okseq; [by apply post_observe|]. case_match.
      + okseq; [by apply ok_own_monitor | by apply ok_monitor_local].
      + okseq; [by apply ok_own_monitor | by apply ok_self_down].
    - okseq; [by apply ok_own_monitor | by apply ok_monitor_remote].
  Qed.
  Lemma ok_monitor_destroy p r : r <> r0 -> ok (monitor_destroy p r).
  Proof.
    intros Hr. unfold monitor_destroy. case_match; [okm (ADelMon (pid_id p) r)|].
    okseq; [okm (ASendFrame (FMonitor false (Some (pid_id p)) None None (ref_id r)) (ref_node r))|].
    okseq; [by apply post_observe|]. case_match; [|exact I]. case_match. okm (ADelNmon (NRemote s s0) r).
  Qed.
  Lemma ok_demonitor m r : ~ (m = me /\ r = r0) -> ok (demonitor m r).
  Proof.
    intros Hm. unfold demonitor. eapply (post_bind _ (fun x => r = r0 -> x = None)).
    - apply post_atom. intros w Hw. split; [apply (mild_watching (AOwnDemonitor m r) w Hm Hw)|]. cbn. intros ->.
      destruct (w_loc w !! m) as [l|] eqn:E; [|reflexivity]. apply (wt_tables _ Hw m l E). intros ->. by apply Hm.
    - intros [[[p|]|]|] Hx; try exact I. assert (r <> r0) as Hr by (intros E; by specialize (Hx E)).
      okseq; [by apply ok_monitor_destroy|]. okseq; [apply ok_alias_destroy|exact I].
  Qed.
  Lemma ok_link_down i why : ok (link_process_down (PLocal i) why).
  Proof.
    apply (ok_mild (fun a => match a with ANone | ALinksDelete _ | ADelLink _ _ | AExitLinked _ _ _ | ADelNlinks _ _ | ASendFrame _ _ => True | _ => False end)).
    - by intros [].
    - unfold link_process_down. apply guar_bind; [apply guar_atom; intros w; by exists (ALinksDelete i)|]. intros [ls|]; [|exact I].
      apply guar_bind.
      + apply guar_each. intros p. apply guar_bind; [|intros _]; apply guar_modify; intros w;
          [by exists (ADelLink (pid_id p) (PLocal i)) | by exists (AExitLinked p (PLocal i) why)].
      + intros _. apply guar_each. intros g. apply guar_bind; [apply guar_observe; intros; by exists ANone|]. intros n.
        apply guar_bind.
        * case_match; [case_match|exact I]. apply guar_modify; intros w. by eexists (ADelNlinks _ _).
        * intros _. apply guar_modify; intros w. by eexists (ASendFrame _ _).
  Qed.
  Lemma ok_monitor_down i why : i <> target -> ok (monitor_process_down (PLocal i) why).
  Proof.
    intros Hi. unfold monitor_process_down. eapply (post_bind _ (fun ms => default ∅ ms !! r0 = None)).
    - apply post_atom. intros w Hw. split; [apply (mild_watching (AMonsDelete i) w Hi Hw)|]. cbn. by apply (wt_others _ Hw).
    - intros [ms|] Hms; [|exact I]. cbn in Hms. okseq.
      + apply post_each. intros [r [from d']] Hx. apply sorted_refs_elem in Hx. cbn [fst snd].
        assert (r <> r0) as Hr by congruence. okseq.
        * case_match; [|exact I]. case_match; [okm (ASendTo (pid_id from) (IProcessDown d0 r why))|].
          okseq; [by apply post_observe|]. case_match; exact I.
        * case_match; [|exact I]. okseq; [apply ok_alias_destroy|exact I].
      + apply post_each. intros g _. okseq; [by apply post_observe|]. okseq.
        * case_match; [case_match|exact I]. okm (ADelNmons (NRemote s s0) (map fst g.2)).
        * okm (ASendFrame (FMonitorDown (map (fun x => ref_id x.1) g.2) why) g.1).
  Qed.
  Lemma ok_finish i : i <> me -> i <> target -> ok (drop_process i).
  Proof.
    intros Hm Ht. unfold drop_process. okseq.
    { apply post_atom. intros w Hw. split; [apply (mild_watching (ARegDelete i) w Hm Hw) | exact I]. }
    case_match; [|okseq; [okm (AGone i)|exact I]].
    okseq; [case_match; [okm (ANameDelete s)|exact I]|].
    okseq; [apply ok_link_down|]. okseq; [by apply ok_monitor_down|].
    eapply (post_bind _ (fun l => match l with Some l => l_monitors l !! r0 = None | None => True end)).
    { apply post_observe. intros w Hw. destruct (w_loc w !! i) as [l|] eqn:E; [|exact I]. by apply (wt_tables _ Hw i l E). }
    intros l Hl. okseq.
    - unfold monitor_destroy_all. apply post_each. intros [rf m] Hx. cbn [fst snd].
      assert (rf <> r0) as Hr. { intros ->. destruct l as [l|]; [|by apply elem_of_nil in Hx]. apply sorted_refs_elem in Hx. congruence. }
      destruct m as [[p|]|nd]; [|exact I|].
      + okseq; [destruct (pid_is_local p); [okm (ADelMon (pid_id p) rf) | okm (ASendFrame (FMonitor false (Some (pid_id p)) None None (ref_id rf)) (ref_node rf))]|].
        destruct (ref_is_local rf); [|exact I]. okseq; [apply ok_alias_destroy|exact I].
      + okseq; [okm (ADelNmon nd rf)|]. destruct (ref_is_local rf); [|exact I]. okseq; [apply ok_alias_destroy|exact I].
    - okseq; [|okm (AGone i)]. unfold alias_destroy_all. apply post_each. intros j _. okm (AAliasDelete j).
  Qed.
  Lemma ok_supdown nd p : ok (supervisor_down nd p).
  Proof.
    unfold supervisor_down. okseq.
    { apply post_atom. intros w Hw. split; [apply (mild_watching (ASupDown nd p) w I Hw) | exact I]. }
    case_match; [exact I|]. okseq.
    { apply post_atom. intros w Hw. split; [apply (mild_watching (ANlinksDelete nd) w I Hw) | exact I]. }
    okseq.
    { apply post_each. intros x _. okseq; [okm (ADelLink x.2 x.1) | okm (AExitLinked (PLocal x.2) x.1 (RCustom "noconnection"))]. }
    eapply (post_bind _ (fun ms => default ∅ ms !! r0 = None)).
    { apply post_atom. intros w Hw. split; [apply (mild_watching (ANmonsDelete nd) w I Hw) | apply (wt_nodes _ Hw)]. }
    intros ms Hms. okseq; [|okm (APendDelete nd)].
    apply post_each. intros [r m] Hx. apply sorted_refs_elem in Hx. cbn [fst snd]. assert (r <> r0) as Hr by congruence.
    okseq.
    - destruct m as [i|i d'|i]; [okm (ASendTo i (INodeDown nd r)) | okm (ASendTo i (IProcessDown d' r (RCustom "noconnection")))|].
      by apply ok_monitor_destroy.
    - case_match; [|exact I]. okseq; [apply ok_alias_destroy|exact I].
  Qed.
  Lemma ok_spawn m l b : ok (spawn m l b).
  Proof.
    destruct b; [|apply (ok_mild (fp_spawn m l false)); [|apply l_spawn]; intros []; cbn; intuition congruence].
    unfold spawn. okseq.
    { apply post_atom. intros w Hw. split; [apply (mild_watching AAlloc w I Hw) | exact I]. }
    okseq. { destruct l; [|exact I]. okseq; [okm (AAddLink a (PLocal m)) | okm (AAddLink m (PLocal a))]. }
    okseq.
    { eapply post_bind; [apply ok_fresh|]. intros r [Hr _]. okseq; [by apply ok_own_monitor|].
      okseq; [okm (AAddMon a r (PLocal m) (Some (DPid (PLocal a)))) | exact I]. }
    okseq; [okm (ARunning a)|]. okseq; [okm (AInsert a)|exact I].
  Qed.
  Lemma ok_frame nd p f : ok (receive_frame nd p f).
  Proof.
    assert (forall F, F = f -> match F with FMonitorDown _ _ => False | _ => True end -> ok (receive_frame nd p f)) as Hm.
    { intros F <- HF. apply (ok_mild (fp_frame nd F)); [|apply l_frame].
      intros []; destruct F; cbn; intros Ha; try exact I; try contradiction; try (destruct Ha; contradiction).
      all: try (intros ->; cbn in Ha; naive_solver).
      all: intros Hx; naive_solver. }
    destruct f; try (by eapply Hm). cbn [receive_frame]. apply post_each. intros rf _.
    unfold node_process_monitor_down.
    eapply (post_bind _ (fun m => m = None \/ RLocal rf <> r0)).
    { apply post_atom. intros w Hw. split; [apply (mild_watching (ADelNmon nd (RLocal rf)) w I Hw)|]. cbn.
      destruct (decide (RLocal rf = r0)) as [->|]; [left|by right]. pose proof (wt_nodes _ Hw nd) as H.
      by destruct (w_nmons w !! nd). }
    intros m Hx. okseq; [apply ok_alias_destroy|]. destruct m as [[]|]; try exact I.
    destruct Hx as [|Hx]; [discriminate|]. apply (ok_modify _ (ASendTo id (IProcessDown d0 (RLocal rf) r))); [reflexivity|cbn; auto].
  Qed.
  Lemma ok_node_monitor m nd : ok (node_monitor m nd).
  Proof.
    unfold node_monitor. destruct nd; [exact I|]. eapply post_bind; [apply ok_fresh|]. intros r [Hr _].
    okseq; [by apply ok_own_monitor|]. okseq; [okm (AAddNmon (NRemote name addr) r (NMNode m))|].
    okseq; [apply ok_node_register|exact I].
  Qed.
  Lemma ok_call c : leaves_monitor k me target c -> ok (call_prog S c).
  Proof.
    intros Hc.
    assert ((forall a, fp S c a -> mild a) -> ok (call_prog S c)) as Hm.
    { intros H. eapply ok_mild; [exact H | apply call_fp]. }
    destruct c; cbn in Hc; cbn [call_prog]; unfold ret_as;
      try (apply Hm; intros []; cbn; unfold fp_send, fp_destroy_timer, fp_fire, fp_link, fp_unlink, fp_exit, fp_supervise, msg_item;
           cbn; try done; try (by intuition (subst; auto)); fail).
    - apply Hm. intros []; cbn; try done.
      + intros [[->| ->]|(r & _ & ->)]; cbn; auto.
      + intros [->| ->]; cbn; auto.
    - apply Hm. intros []; cbn; try done; destruct x as [| |[]| | | |]; cbn; naive_solver.
    - okseq; [apply ok_spawn|exact I].
    - okseq; [|exact I]. unfold monitor. eapply post_bind; [apply ok_fresh|]. intros r [Hr _].
      okseq; [by apply ok_monitor_install|exact I].
    - okseq; [|exact I]. unfold monitor_alias. eapply post_bind; [apply ok_fresh|]. intros r [Hr _].
      okseq; [okm (AAliasCreate me0 r reply)|]. okseq; [by apply ok_monitor_install|exact I].
    - okseq; [by apply ok_demonitor|exact I].
    - destruct Hc. okseq; [by apply ok_finish|exact I].
    - destruct Hc. okseq; [|exact I]. unfold crash. okseq; [okm (ASetExit me0 why)|]. by apply ok_finish.
    - okseq; [apply ok_node_monitor|exact I].
    - okseq; [apply ok_supdown|exact I].
    - okseq; [apply ok_frame|exact I].
  Qed.
  Lemma reach_watching w s : watching w -> reach (calls_of S (leaves_monitor k me target)) (Sys w []) s -> watching (s_world s).
  Proof.
    intros Hw Hr. refine (proj1 (reach_safe watching _ (Sys w []) s _ Hw _ Hr)); [|constructor].
    intros p (c & Hc & ->). eapply post_safe, ok_call, Hc.
  Qed.
End mon.
