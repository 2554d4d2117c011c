(** Node ids and the tables of monitors: an id belongs to one node for good, the references with that id are recorded under
    that node only, and processes have only references of their own node in their tables.  Every schedule. *)
From stdpp Require Import base list gmap numbers strings countable sorting relations.
From Coq Require Import Lia.
From Verif Require Import Prog ProgProofs ProgInv Types Mailbox World ProcApi NodeApi Api Steps Hist Labels SchedSpec SchedProofs ProcSpec ProcProofs Once RWatchProofs.

Section owner.
  Context (S : serde) (id : N) (Hid : id <> LOCAL_NODE_ID).
  (** No reference with this id. *)
  Definition lacks {A} (m : gmap reference A) : Prop := forall k, m !! RRemote k id = None.
  Definition J (w : world) (x : option node) : Prop :=
    (forall j l, w_loc w !! j = Some l -> lacks (l_monitors l)) /\
    match x with
    | None => (w_next_node w <= id)%N /\ (forall nd, w_nmap w !! nd <> Some id) /\ forall nd, lacks (default ∅ (w_nmons w !! nd))
    | Some o => (id < w_next_node w)%N /\ (forall nd, w_nmap w !! nd = Some id -> nd = o) /\ forall nd, nd <> o -> lacks (default ∅ (w_nmons w !! nd))
    end.
  Definition keeps w w' : Prop := forall x, J w x -> exists x', J w' x' /\ known x x'.
  Lemma keeps_refl w : keeps w w.
  Proof. intros x H. eauto. Qed.
  Lemma keeps_trans w1 w2 w3 : keeps w1 w2 -> keeps w2 w3 -> keeps w1 w3.
  Proof. intros H1 H2 x H. destruct (H1 x H) as (x' & Hx & K1), (H2 x' Hx) as (x2 & Hx2 & K2). exists x2. split; [done|by eapply known_trans]. Qed.
  Lemma keeps_same w w' : w_next_node w' = w_next_node w -> (forall nd i, w_nmap w' !! nd = Some i -> w_nmap w !! nd = Some i \/ i = LOCAL_NODE_ID) ->
    (forall nd, lacks (default ∅ (w_nmons w !! nd)) -> lacks (default ∅ (w_nmons w' !! nd))) ->
    (forall j l', w_loc w' !! j = Some l' -> lacks (l_monitors l') \/ exists l, w_loc w !! j = Some l /\ (lacks (l_monitors l) -> lacks (l_monitors l'))) ->
    keeps w w'.
  Proof.
    intros E1 E2 E3 E4 x [H1 H2]. exists x. split; [|done]. split.
    - intros j l' Hl. destruct (E4 j l' Hl) as [?|(l & Hl1 & Hl2)]; [done|]. apply Hl2. eauto.
    - destruct x as [o|]; rewrite E1; destruct H2 as (H2 & H3 & H4); split_and!; try done; try (intros; apply E3; auto).
      + intros nd Hn. destruct (E2 _ _ Hn); [auto|done].
      + intros nd Hn. destruct (E2 _ _ Hn) as [Hn'|Hn']; [by apply (H3 nd)|done].
  Qed.
  Lemma keeps_new w w' nd : w_nmap w !! nd = None -> w_next_node w' = N.succ (w_next_node w) -> w_nmap w' = <[nd := w_next_node w]> (w_nmap w) -> w_nmons w' = w_nmons w ->
    (forall j l', w_loc w' !! j = Some l' -> lacks (l_monitors l') \/ exists l, w_loc w !! j = Some l /\ (lacks (l_monitors l) -> lacks (l_monitors l'))) ->
    keeps w w'.
  Proof.
    intros E0 E1 E2 E3 E4 x [H1 H2].
    assert (forall j l, w_loc w' !! j = Some l -> lacks (l_monitors l)) as H1'.
    { intros j l' Hl. destruct (E4 j l' Hl) as [?|(l & Hl1 & Hl2)]; [done|]. apply Hl2. eauto. }
    destruct x as [o|]; destruct H2 as (H2 & H3 & H4).
    - exists (Some o). split; [|done]. split; [done|]. rewrite E1, E2, E3. split_and!; [lia| |done].
      intros nd'. destruct (decide (nd = nd')) as [<-|Hne]; [rewrite lookup_insert; intros [= Hx]; lia|rewrite lookup_insert_ne by done; auto].
    - destruct (decide (id = w_next_node w)) as [E|E].
      + exists (Some nd). split; [|done]. split; [done|]. rewrite E1, E2, E3. split_and!; [lia| |auto].
        intros nd'. destruct (decide (nd = nd')) as [<-|Hne]; [done|rewrite lookup_insert_ne by done]. intros Hx. by destruct (H3 nd').
      + exists None. split; [|done]. split; [done|]. rewrite E1, E2, E3. split_and!; [lia| |auto].
        intros nd'. destruct (decide (nd = nd')) as [<-|Hne]; [rewrite lookup_insert; intros [= Hx]; lia|rewrite lookup_insert_ne by done; apply H3].
  Qed.
  Definition mild (x : act) : Prop :=
    match x with
    | AOwnMonitor _ r _ => ref_is_local r = true
    | AAddNmon _ r _ => ref_is_local r = true
    | _ => True
    end.
  Ltac plain_loc := intros ? l' ?; right; exists l'; done.
  Ltac ksame := apply keeps_same; cbn; auto; try plain_loc.
  Lemma keeps_loc w (g : plocal -> plocal) j : (forall l, lacks (l_monitors l) -> lacks (l_monitors (g l))) -> keeps w (up_loc (alter g j) w).
  Proof.
    intros Hg. ksame. intros i l'. destruct (decide (j = i)) as [<-|Hne]; [rewrite lookup_alter|rewrite lookup_alter_ne by done; eauto].
    intros Hl. apply fmap_Some in Hl as (l & Hl & ->). right. exists l. auto.
  Qed.
  Lemma keeps_push i x w : keeps w (push i x w).
  Proof.
    unfold push. destruct (w_loc w !! i) as [l|] eqn:E; [|apply keeps_refl]. ksame.
    intros j l'. destruct (decide (i = j)) as [<-|Hne]; [rewrite lookup_insert|rewrite lookup_insert_ne by done; eauto]. intros [= <-]. right. by exists l.
  Qed.
  Lemma keeps_exit q g y w : keeps w (exit_op q g y w).
  Proof. unfold exit_op. repeat case_match; try apply keeps_refl; try apply keeps_push; ksame. Qed.
  Lemma keeps_exit_linked q g y w : keeps w (exit_linked_op q g y w).
  Proof. unfold exit_linked_op. repeat case_match; try apply keeps_refl; try apply keeps_push; ksame. Qed.
  Lemma lacks_empty {A} : lacks (∅ : gmap reference A).
  Proof. intros k. apply lookup_empty. Qed.
  Lemma lacks_delete {A} (m : gmap reference A) r : lacks m -> lacks (delete r m).
  Proof. intros H k. apply lookup_delete_None. auto. Qed.
  Lemma lacks_insert {A} (m : gmap reference A) r y : ref_is_local r = true -> lacks m -> lacks (<[r := y]> m).
  Proof. intros Hr H k. rewrite lookup_insert_ne; [apply H|]. by intros ->. Qed.
  Ltac new_loc w := let j := fresh "j" in intros j l'; destruct (decide (w_next_pid w = j)) as [<-|]; [rewrite lookup_insert|rewrite lookup_insert_ne by done; eauto];
    intros [= <-]; left; apply lacks_empty.
  Lemma mild_keeps x w : mild x -> keeps w (does S x w).
  Proof.
    intros Hx. destruct x; cbn [does mild] in *; try apply keeps_refl; try apply keeps_push; try apply keeps_exit; try apply keeps_exit_linked; try (by ksame).
    - apply keeps_loc. done.
    - apply keeps_loc. done.
    - apply keeps_loc. intros l Hl. cbn. by apply lacks_insert.
    - apply keeps_loc. intros l Hl. cbn. by apply lacks_delete.
    - unfold receive_op. destruct (w_loc w !! me) as [l|] eqn:E; [|apply keeps_refl]. destruct (select S T f b l) as [s l'] eqn:Es. cbn. ksame.
      intros j l2. destruct (decide (me = j)) as [<-|Hne]; [rewrite lookup_insert|rewrite lookup_insert_ne by done; eauto]. intros [= <-]. right. exists l. split; [done|].
      intros Hl k. eapply r_select_none; [exact Es|apply Hl].
    - unfold alias_take_op. repeat case_match; first [apply keeps_refl|ksame].
    - unfold send_to. destruct (w_regs w !! i); [apply keeps_push|apply keeps_refl].
    - unfold node_register_op. destruct (w_nmap w !! NRemote n a) as [i|] eqn:E; cbn.
      + destruct c; [|apply keeps_refl]. destruct (w_nregs w !! i) as [r|]; [|apply keeps_refl]. destruct (n_sup r); [apply keeps_refl|].
        unfold spawn_op. cbn. ksame. new_loc w.
      + destruct c; unfold spawn_op; cbn; (eapply keeps_new; [exact E|reflexivity..|]); cbn; [new_loc w|plain_loc].
    - unfold send_frame, hand_out. repeat case_match; first [apply keeps_refl|ksame].
    - ksame. new_loc w.
    - unfold register_op. repeat case_match; first [apply keeps_refl|ksame].
    - ksame. intros j l' Hl. apply lookup_delete_Some in Hl as [_ Hl]. right. by exists l'.
    - unfold add_nmon. ksame. intros nd Hl. destruct (decide (n = nd)) as [->|Hne]; [|rewrite lookup_insert_ne by done; auto]. rewrite lookup_insert. cbn. by apply lacks_insert.
    - unfold del_nmon. ksame. intros nd Hl. destruct (decide (n = nd)) as [->|Hne]; [|rewrite lookup_alter_ne by done; auto]. rewrite lookup_alter.
      destruct (w_nmons w !! nd); cbn in *; [by apply lacks_delete|apply lacks_empty].
    - unfold del_nmons. ksame. intros nd Hl. destruct (decide (n = nd)) as [->|Hne]; [|rewrite lookup_alter_ne by done; auto]. rewrite lookup_alter.
      destruct (w_nmons w !! nd) as [m|]; cbn in *; [|apply lacks_empty]. clear -Hl. induction l as [|r l IH]; cbn; [exact Hl|]. by apply lacks_delete.
    - ksame. intros nd Hl. destruct (decide (n = nd)) as [->|Hne]; [|rewrite lookup_delete_ne by done; auto]. rewrite lookup_delete. apply lacks_empty.
    - unfold node_start_op. destruct (w_nmap w !! NLocal); [apply keeps_refl|]. unfold spawn_op. cbn. ksame; [|new_loc w].
      intros nd i. destruct (decide (nd = NLocal)) as [->|Hne]; [rewrite lookup_insert; intros [= <-]; by right|rewrite lookup_insert_ne by done; by left].
    - ksame. intros nd i Hi. apply lookup_delete_Some in Hi as [_ Hi]. by left.
    - unfold node_disconnect_op. case_match; [|apply keeps_refl]. case_match; [|apply keeps_refl].
      assert (keeps w (up_pend (delete n) w)) as Hz by ksame. case_match; [|ksame].
      eapply keeps_trans; [exact Hz|eapply keeps_trans; [apply (keeps_exit p0 p RKill)|]]. ksame.
    - unfold node_accept_op. destruct (w_nmap w !! NRemote n a) as [i|] eqn:E; cbn; [|eapply keeps_new; [exact E|reflexivity..|plain_loc]].
      case_match; [|apply keeps_refl].
      match goal with |- context [if bool_decide _ then ?x else w] => set (w1 := if bool_decide (n_state n0 = Pending) then x else w) end.
      assert (keeps w w1) as H1. { unfold w1. repeat case_match; try apply keeps_refl. apply keeps_exit. }
      clearbody w1. case_match; [exact H1|]. eapply keeps_trans; [exact H1|]. ksame.
    - unfold node_workers_op, hand_out. repeat case_match; first [apply keeps_refl|ksame].
    - unfold sup_down_op. repeat case_match; first [apply keeps_refl|ksame].
  Qed.
  (** ** Programs *)
  Notation kn Q st pr := (once J Q st pr).
  Definition anyQ {A} (_ : option node) (_ : A) : Prop := True.
  Lemma n_guar {A} (pr : prog world A) st : guar (lstep S mild) pr -> kn anyQ st pr.
  Proof.
    intros H. eapply (once_guar J (fun w w' => keeps w w')); [|eapply guar_mono; [|exact H]].
    - intros w x w' Hj Hk. by apply Hk.
    - intros w w' (y & Hy & ->). by apply mild_keeps.
  Qed.
  Lemma n_atom {A} st (op : world -> world * A) y : (forall w, fst (op w) = does S y w) -> mild y -> kn anyQ st (atom op).
  Proof.
    intros E Hm. apply once_atom. intros w x Hj Hx. destruct (mild_keeps y w Hm x Hj) as (x' & Hj' & Hk). exists x', st. rewrite E. split_and!; try done.
    by eapply known_trans.
  Qed.
  Lemma n_act st g y : (forall w, g w = does S y w) -> mild y -> kn anyQ st (modify g).
  Proof. intros E. by apply n_atom. Qed.
  Lemma n_observe {A} st (g : world -> A) : kn anyQ st (observe g).
  Proof. apply once_atom. intros w x Hj Hx. exists x, st. by split_and!. Qed.
  Lemma n_fresh st : kn (fun _ r => ref_is_local r = true) st fresh_ref.
  Proof. apply once_atom. intros w x Hj Hx. exists x, st. split_and!; try done. Qed.
  Lemma n_node_register st n c : kn (fun st' i => i = id -> st' = Some n) st (node_register n c).
  Proof.
    destruct n as [|n a]; [exact I|]. cbn [node_register]. apply once_atom. intros w x Hj Hx.
    destruct (mild_keeps (ANodeRegister n a c) w I x Hj) as (x' & Hj' & Hk). cbn [does] in Hj'.
    assert (snd (node_register_op n a c w) = id -> x' = Some (NRemote n a)) as Hr.
    { intros E. assert (w_nmap (fst (node_register_op n a c w)) !! NRemote n a = Some id) as Hl.
      { rewrite <- E. unfold node_register_op. destruct (w_nmap w !! NRemote n a) as [i|] eqn:E1; cbn.
        - destruct c; [|exact E1]. destruct (w_nregs w !! i) as [r|]; [|exact E1]. destruct (n_sup r); exact E1.
        - destruct c; cbn; apply lookup_insert. }
      destruct x' as [o|]; destruct Hj' as (_ & _ & Hj' & _); [f_equal; symmetry; by apply Hj'|by destruct (Hj' _ Hl)]. }
    destruct (decide (snd (node_register_op n a c w) = id)) as [E|E].
    - exists x', x'. split_and!; [done|done|by eapply known_trans|done|]. intros _. by apply Hr.
    - exists x', st. split_and!; [done|done|done|by eapply known_trans|]. intros E2. by destruct E.
  Qed.
  Lemma n_node_register' st n c : kn anyQ st (node_register n c).
  Proof. eapply once_mono; [|apply n_node_register]. done. Qed.
  Ltac nseq := eapply (once_bind _ anyQ); [|intros ? ? ? _].
  Ltac nact y := apply (n_act _ _ y); [reflexivity|try exact I; try done].
  Ltac natom y := apply (n_atom _ _ y); [reflexivity|try exact I; try done].
  Lemma n_self_down st m d' r why : kn anyQ st (self_down m d' r why).
  Proof. unfold self_down. nseq; [nact (APush m (IProcessDown d' r (RCustom why)))|]. nseq; [natom (AAliasDelete (ref_id r))|done]. Qed.
  Lemma n_monitor_remote st m n a r d' i nm' : ref_is_local r = true -> kn anyQ st (monitor_remote m n a r d' i nm').
  Proof.
    intros Hr. unfold monitor_remote. nseq; [nact (AAddNmon (NRemote n a) r (NMProcess m d'))|].
    nseq; [apply n_node_register'|]. nact (ASendFrame (FMonitor true i nm' (Some m) (ref_id r)) a1).
  Qed.
  Lemma n_monitor_local st m i r d' : kn anyQ st (monitor_local m i r d').
  Proof.
    unfold monitor_local. nseq; [apply n_observe|]. case_match; [|apply n_self_down]. nact (AAddMon i r (PLocal m) (Some d')).
  Qed.
  Lemma n_own st m r x : ref_is_local r = true -> kn anyQ st (own_monitor m r x).
  Proof. intros Hr. nact (AOwnMonitor m r x). Qed.
  Lemma n_install st m d' r : ref_is_local r = true -> kn anyQ st (monitor_install m d' r).
  Proof.
    intros Hr. unfold monitor_install. destruct d' as [p'|n [|nm' a]|]; [| | |done].
    - case_decide; [done|]. nseq; [by apply n_own|]. destruct (pid_is_local p'); [by apply n_monitor_local|].
      nseq; [apply n_observe|]. case_match; [case_match; by apply n_monitor_remote | by apply n_self_down].
    - nseq; [apply n_observe|]. case_match.
      + nseq; [by apply n_own | by apply n_monitor_local].
      + nseq; [by apply n_own | by apply n_self_down].
    - nseq; [by apply n_own | by apply n_monitor_remote].
  Qed.
  Lemma n_spawn st m l b : kn anyQ st (spawn m l b).
  Proof.
    unfold spawn. nseq; [natom AAlloc|]. nseq; [destruct l; [|done]; nseq; [nact (AAddLink a (PLocal m))|nact (AAddLink m (PLocal a))]|].
    nseq.
    { destruct b; [|done]. eapply once_bind; [apply n_fresh|]. intros st2 r _ Hr. nseq; [by apply n_own|].
      nseq; [|done]. nact (AAddMon a r (PLocal m) (Some (DPid (PLocal a)))). }
    nseq; [nact (ARunning a)|]. nseq; [nact (AInsert a)|done].
  Qed.
  Lemma n_node_monitor st m n : kn anyQ st (node_monitor m n).
  Proof.
    unfold node_monitor. destruct n; [done|]. eapply once_bind; [apply n_fresh|]. intros st1 r _ Hr.
    nseq; [by apply n_own|]. nseq; [nact (AAddNmon (NRemote name addr) r (NMNode m))|].
    nseq; [apply n_node_register'|done].
  Qed.
  Lemma n_add_nmon st n i ref_ x : (i = id -> st = Some n) -> kn anyQ st (modify (add_nmon n (RRemote ref_ i) x)).
  Proof.
    intros Hi. apply once_atom. intros w x0 Hj Hx. exists x0, st. split_and!; try done. cbn [fst snd].
    destruct Hj as [H1 H2]. split; [exact H1|]. unfold add_nmon. cbn.
    assert (forall nd, (i = id -> nd <> n) -> lacks (default ∅ (w_nmons w !! nd)) -> lacks (default ∅ (<[n:=<[RRemote ref_ i:=x]> (default ∅ (w_nmons w !! n))]> (w_nmons w) !! nd))) as Hl.
    { intros nd Hn H k. destruct (decide (n = nd)) as [->|Hne]; [|rewrite lookup_insert_ne by done; auto]. rewrite lookup_insert. cbn.
      rewrite lookup_insert_ne; [apply H|]. intros [= <- <-]. by apply Hn. }
    destruct x0 as [o|]; destruct H2 as (H2 & H3 & H4); split_and!; try done.
    - intros nd Hn. apply Hl; [|auto]. intros E. specialize (Hx _ (Hi E)). injection Hx as ->. done.
    - intros nd. apply Hl; [|auto]. intros E. specialize (Hx _ (Hi E)). discriminate.
  Qed.
  Lemma n_send_frame st fr n : kn anyQ st (modify (send_frame fr n)).
  Proof. nact (ASendFrame fr n). Qed.
  Lemma n_destroy st q r : kn anyQ st (monitor_destroy q r).
  Proof.
    unfold monitor_destroy. case_match; [nact (ADelMon (pid_id q) r)|].
    nseq; [apply n_send_frame|]. nseq; [apply n_observe|]. case_match; [|done]. case_match. nact (ADelNmon (NRemote s s0) r).
  Qed.
  Lemma n_on_monitor st n i install q name from ref_ : (i = id -> st = Some n) -> kn anyQ st (on_monitor n i install q name from ref_).
  Proof.
    intros Hi. assert (forall st', known st st' -> i = id -> st' = Some n) as Hi' by (intros st' Hk E; apply Hk; auto).
    unfold on_monitor. destruct from as [f'|]; [|done]. destruct install.
    - destruct q as [j|]; [|destruct name as [s|]; [|done]].
      + eapply (once_bind _ anyQ); [apply n_observe|]. intros st1 [|] K1 _; [|apply n_send_frame].
        eapply (once_bind _ anyQ); [nact (AAddMon j (RRemote ref_ i) (PRemote f' i) None)|]. intros st2 [] K2 _. apply n_add_nmon, Hi'. by eapply known_trans.
      + unfold name_lookup. eapply (once_bind _ anyQ); [apply n_observe|]. intros st1 [j|] K1 _; [|apply n_send_frame].
        eapply (once_bind _ anyQ); [nact (AAddMon j (RRemote ref_ i) (PRemote f' i) None)|]. intros st2 [] K2 _.
        eapply (once_bind _ anyQ); [apply n_send_frame|]. intros st3 [] K3 _.
        apply n_add_nmon, Hi'. eapply known_trans; [exact K1|]. by eapply known_trans.
    - destruct q as [j|].
      + nseq; [apply n_destroy|]. nact (ADelNmon n (RRemote ref_ i)).
      + done.
  Qed.
  Lemma n_call c st : kn anyQ st (call_prog S c).
  Proof.
    assert ((forall y, fp S c y -> mild y) -> kn anyQ st (call_prog S c)) as Hfp.
    { intros H. apply n_guar. eapply guar_mono; [|apply call_fp]. intros w w' (y & Hy & ->). exists y. split; [by apply H|done]. }
    destruct c; try (apply Hfp; clear; intros y Hy; destruct y; cbn in Hy |- *; try exact I; try done; unfold msg_item, user_item, fp_monitor_alias, fp_crash, fp_exit in *; repeat case_match; naive_solver);
      cbn [call_prog]; unfold ret_as.
    - nseq; [apply n_spawn|done].
    - nseq; [|done]. eapply once_bind; [apply n_fresh|]. intros st1 r _ Hr. nseq; [by apply n_install|done].
    - nseq; [|done]. eapply once_bind; [apply n_fresh|]. intros st1 r _ Hr. nseq; [nact (AAliasCreate me r reply)|]. nseq; [by apply n_install|done].
    - nseq; [apply n_node_monitor|done].
    - destruct f; try (apply Hfp; clear; intros y Hy; destruct y; cbn in Hy |- *; try exact I; try done; naive_solver).
      cbn [receive_frame]. nseq; [|done]. eapply once_bind; [apply n_node_register|]. intros st1 n _ Hn. by apply n_on_monitor.
  Qed.
  Lemma occurs_owner w : occurs S w -> exists x, J w x.
  Proof.
    intros [ts Hr]. cut (exists x, settled J (Sys w ts) x); [intros (x & Hx & _); by exists x|]. revert Hr. generalize (Sys w ts). 
    refine (rtc_ind_r (fun s => exists x, settled J s x) _ _ _).
    - exists None. split; [|constructor]. cbn. split; [intros j l Hl; cbn in Hl; by rewrite lookup_empty in Hl|]. cbn. split_and!.
      + unfold LOCAL_NODE_ID in Hid. lia.
      + intros nd. by rewrite lookup_empty.
      + intros nd. rewrite lookup_empty. apply lacks_empty.
    - intros y z _ Hs (x & Hx). destruct (settled_step J (any_call S) y z x) as (x' & Hx' & _); eauto. intros q [c ->]. apply n_call.
  Qed.
End owner.
