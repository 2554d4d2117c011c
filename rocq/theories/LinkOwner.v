(** Node ids and the tables of links: an id belongs to one node for good, and the links to processes with that id are recorded under that
    node only.  Every schedule. *)
From stdpp Require Import base list gmap numbers strings countable sorting relations.
From Coq Require Import Lia.
From Verif Require Import Prog ProgProofs ProgInv Types Mailbox World ProcApi NodeApi Api Steps Hist Labels SchedSpec SchedProofs ProcSpec ProcProofs Once.

Section owner.
  Context (S : serde) (id : N) (Hid : id <> LOCAL_NODE_ID).
  (** No link with this id. *)
  Definition lacks (m : gset (pid * N)) : Prop := forall f j, (PRemote f id, j) ∉ m.
  Definition is_named (o : node) (m : gmap N nreg) : Prop := forall r, m !! id = Some r -> NRemote (n_name r) (n_addr r) = o.
  Definition J (w : world) (x : option node) : Prop :=
    match x with
    | None => (w_next_node w <= id)%N /\ w_nregs w !! id = None /\ (forall nd, w_nmap w !! nd <> Some id) /\ forall nd, lacks (default ∅ (w_nlinks w !! nd))
    | Some o => (id < w_next_node w)%N /\ is_named o (w_nregs w) /\ (forall nd, w_nmap w !! nd = Some id -> nd = o) /\ forall nd, nd <> o -> lacks (default ∅ (w_nlinks w !! nd))
    end.
  Definition keeps w w' : Prop := forall x, J w x -> exists x', J w' x' /\ known x x'.
  Lemma keeps_refl w : keeps w w.
  Proof. intros x H. eauto. Qed.
  Lemma keeps_trans w1 w2 w3 : keeps w1 w2 -> keeps w2 w3 -> keeps w1 w3.
  Proof. intros H1 H2 x H. destruct (H1 x H) as (x' & Hx & K1), (H2 x' Hx) as (x2 & Hx2 & K2). exists x2. split; [done|by eapply known_trans]. Qed.
  (** Registrations of nodes keep their names. *)
  Definition regs_kept (m m' : gmap N nreg) : Prop := forall i r', m' !! i = Some r' -> i = LOCAL_NODE_ID \/ exists r, m !! i = Some r /\ n_name r' = n_name r /\ n_addr r' = n_addr r.
  Lemma regs_kept_refl m : regs_kept m m.
  Proof. intros i r Hr. right. by exists r. Qed.
  Lemma regs_kept_insert m i r r' : m !! i = Some r -> n_name r' = n_name r -> n_addr r' = n_addr r -> regs_kept m (<[i := r']> m).
  Proof.
    intros Hr H1 H2 j z. destruct (decide (i = j)) as [<-|Hne]; [rewrite lookup_insert; intros [= <-]; right; by exists r|rewrite lookup_insert_ne by done; intros Hz; right; by exists z].
  Qed.
  Lemma keeps_same w w' : w_next_node w' = w_next_node w -> (forall nd i, w_nmap w' !! nd = Some i -> w_nmap w !! nd = Some i \/ i = LOCAL_NODE_ID) ->
    (forall nd, lacks (default ∅ (w_nlinks w !! nd)) -> lacks (default ∅ (w_nlinks w' !! nd))) -> regs_kept (w_nregs w) (w_nregs w') ->
    keeps w w'.
  Proof.
    intros E1 E2 E3 E4 x H. exists x. split; [|done]. unfold J in *.
    destruct x as [o|]; rewrite E1; destruct H as (H1 & H2 & H3 & H4); split_and!; try done; try (intros; apply E3; auto).
    - intros r' Hr. destruct (E4 _ _ Hr) as [?|(r & Hr1 & -> & ->)]; [done|by apply H2].
    - intros nd Hn. destruct (E2 _ _ Hn); [auto|done].
    - destruct (w_nregs w' !! id) as [r|] eqn:E; [|done]. destruct (E4 _ _ E) as [?|(r' & Hr1 & _)]; [done|congruence].
    - intros nd Hn. destruct (E2 _ _ Hn) as [Hn'|Hn']; [by apply (H3 nd)|done].
  Qed.
  Lemma keeps_new w w' nd r : w_nmap w !! nd = None -> w_next_node w' = N.succ (w_next_node w) -> w_nmap w' = <[nd := w_next_node w]> (w_nmap w) -> w_nlinks w' = w_nlinks w ->
    w_nregs w' = <[w_next_node w := r]> (w_nregs w) -> NRemote (n_name r) (n_addr r) = nd ->
    keeps w w'.
  Proof.
    intros E0 E1 E2 E3 E4 E5 x H. unfold J in *.
    destruct x as [o|]; destruct H as (H1 & H2 & H3 & H4).
    - exists (Some o). split; [|done]. rewrite E1, E2, E3, E4. split_and!; [lia| | |done].
      + intros z. rewrite lookup_insert_ne by lia. apply H2.
      + intros nd'. destruct (decide (nd = nd')) as [<-|Hne]; [rewrite lookup_insert; intros [= Hx]; lia|rewrite lookup_insert_ne by done; auto].
    - destruct (decide (id = w_next_node w)) as [E|E].
      + exists (Some nd). split; [|done]. rewrite E1, E2, E3, E4. split_and!; [lia| | |auto].
        * intros z. rewrite E, lookup_insert. by intros [= <-].
        * intros nd'. destruct (decide (nd = nd')) as [<-|Hne]; [done|rewrite lookup_insert_ne by done]. intros Hx. by destruct (H3 nd').
      + exists None. split; [|done]. rewrite E1, E2, E3, E4. split_and!; [lia| | |auto].
        * by rewrite lookup_insert_ne.
        * intros nd'. destruct (decide (nd = nd')) as [<-|Hne]; [rewrite lookup_insert; intros [= Hx]; lia|rewrite lookup_insert_ne by done; apply H3].
  Qed.
  Definition mild (x : act) : Prop :=
    match x with
    | AAddNlink _ q _ => forall f, q <> PRemote f id
    | _ => True
    end.
  Ltac ksame := apply keeps_same; cbn; auto; try apply regs_kept_refl; try (by eapply regs_kept_insert).
  Lemma keeps_push i x w : keeps w (push i x w).
  Proof. unfold push. destruct (w_loc w !! i) as [l|] eqn:E; [|apply keeps_refl]. ksame. Qed.
  Lemma keeps_exit q g y w : keeps w (exit_op q g y w).
  Proof. unfold exit_op. repeat case_match; try apply keeps_refl; try apply keeps_push; ksame. Qed.
  Lemma keeps_exit_linked q g y w : keeps w (exit_linked_op q g y w).
  Proof. unfold exit_linked_op. repeat case_match; try apply keeps_refl; try apply keeps_push; ksame. Qed.
  Lemma exit_nregs q g y w : w_nregs (exit_op q g y w) = w_nregs w.
  Proof. unfold exit_op, push. repeat case_match; done. Qed.
  Lemma mild_keeps x w : mild x -> keeps w (does S x w).
  Proof.
    intros Hx. destruct x; cbn [does mild] in *; try apply keeps_refl; try apply keeps_push; try apply keeps_exit; try apply keeps_exit_linked; try (by ksame).
    - unfold receive_op. destruct (w_loc w !! me) as [l|] eqn:E; [|apply keeps_refl]. destruct (select S T f b l) as [s l'] eqn:Es. cbn. ksame.
    - unfold alias_take_op. repeat case_match; first [apply keeps_refl|ksame].
    - unfold send_to. destruct (w_regs w !! i); [apply keeps_push|apply keeps_refl].
    - unfold node_register_op. destruct (w_nmap w !! NRemote n a) as [i|] eqn:E; cbn.
      + destruct c; [|apply keeps_refl]. destruct (w_nregs w !! i) as [r|] eqn:Er; [|apply keeps_refl]. destruct (n_sup r); [apply keeps_refl|].
        unfold spawn_op. cbn. ksame.
      + destruct c; unfold spawn_op; cbn; (eapply keeps_new; [exact E|reflexivity..|done]).
    - unfold send_frame, hand_out. repeat case_match; first [apply keeps_refl|ksame].
    - unfold register_op. repeat case_match; first [apply keeps_refl|ksame].
    - unfold add_nlink. ksame. intros nd Hl. destruct (decide (n = nd)) as [->|Hne]; [|rewrite lookup_insert_ne by done; auto]. rewrite lookup_insert. cbn.
      intros f j Hin. apply elem_of_union in Hin as [Hin|Hin]; [|by apply (Hl f j)]. apply elem_of_singleton in Hin. injection Hin as <- _. by apply (Hx f).
    - unfold del_nlinks. ksame. intros nd Hl. destruct (decide (n = nd)) as [->|Hne]; [|rewrite lookup_alter_ne by done; auto]. rewrite lookup_alter.
      destruct (w_nlinks w !! nd) as [s|]; cbn in *; [|done]. intros f j Hin. apply elem_of_difference in Hin as [Hin _]. by apply (Hl f j).
    - ksame. intros nd Hl. destruct (decide (n = nd)) as [->|Hne]; [|rewrite lookup_delete_ne by done; auto]. rewrite lookup_delete. cbn. intros f j. by apply not_elem_of_empty.
    - unfold node_start_op. destruct (w_nmap w !! NLocal); [apply keeps_refl|]. unfold spawn_op. cbn. ksame.
      + intros nd i. destruct (decide (nd = NLocal)) as [->|Hne]; [rewrite lookup_insert; intros [= <-]; by right|rewrite lookup_insert_ne by done; by left].
      + intros i r'. destruct (decide (i = LOCAL_NODE_ID)) as [->|Hne]; [by left|]. rewrite lookup_insert_ne by done. intros Hr. right. by exists r'.
    - ksame. intros nd i Hi. apply lookup_delete_Some in Hi as [_ Hi]. by left.
    - ksame. intros i0 r Hr. apply lookup_delete_Some in Hr as [_ Hr]. right. by exists r.
    - unfold node_disconnect_op. case_match; [|apply keeps_refl]. case_match eqn:Er; [|apply keeps_refl].
      assert (keeps w (up_pend (delete n) w)) as Hz by ksame. case_match; [|ksame].
      eapply keeps_trans; [exact Hz|eapply keeps_trans; [apply (keeps_exit p0 p RKill)|]]. ksame.
      eapply regs_kept_insert; [rewrite exit_nregs; exact Er|done..].
    - unfold node_accept_op. destruct (w_nmap w !! NRemote n a) as [i|] eqn:E; cbn; [|eapply keeps_new; [exact E|reflexivity..|done]].
      destruct (w_nregs w !! i) as [r|] eqn:Er; [|apply keeps_refl].
      match goal with |- context [if bool_decide _ then ?x else w] => set (w1 := if bool_decide (n_state r = Pending) then x else w) end.
      assert (keeps w w1 /\ w_nregs w1 = w_nregs w) as [H1 H2]. { unfold w1. repeat case_match; try (split; [apply keeps_refl|done]). split; [apply keeps_exit|apply exit_nregs]. }
      clearbody w1. case_match; [exact H1|]. eapply keeps_trans; [exact H1|]. ksame. eapply regs_kept_insert; [rewrite H2; exact Er|done..].
    - unfold node_workers_op, hand_out. repeat case_match; first [apply keeps_refl|ksame].
    - unfold sup_down_op. repeat case_match; first [apply keeps_refl|ksame].
  Qed.
  (** ** Programs *)
  Notation kn Q st pr := (once J Q st pr).
  Definition anyQ {A} (_ : option node) (_ : A) : Prop := True.
  Lemma n_guar {A} (pr : prog world A) st : guar (lstep S mild) pr -> kn anyQ st pr.
  Proof.
    intros H. eapply (once_guar J (fun w w' => keeps w w')); [|eapply guar_mono; [|exact H]].
    - intros w x w' Hj Hk. by apply Hk.
    - intros w w' (y & Hy & ->). by apply mild_keeps.
  Qed.
  Lemma n_atom {A} st (op : world -> world * A) y : (forall w, fst (op w) = does S y w) -> mild y -> kn anyQ st (atom op).
  Proof.
    intros E Hm. apply once_atom. intros w x Hj Hx. destruct (mild_keeps y w Hm x Hj) as (x' & Hj' & Hk). exists x', st. rewrite E. split_and!; try done.
    by eapply known_trans.
  Qed.
  Lemma n_act st g y : (forall w, g w = does S y w) -> mild y -> kn anyQ st (modify g).
  Proof. intros E. by apply n_atom. Qed.
  Lemma n_observe {A} st (g : world -> A) : kn anyQ st (observe g).
  Proof. apply once_atom. intros w x Hj Hx. exists x, st. by split_and!. Qed.
  Lemma n_node_register st n c : kn (fun st' i => i = id -> st' = Some n) st (node_register n c).
  Proof.
    destruct n as [|n a]; [exact I|]. cbn [node_register]. apply once_atom. intros w x Hj Hx.
    destruct (mild_keeps (ANodeRegister n a c) w I x Hj) as (x' & Hj' & Hk). cbn [does] in Hj'.
    assert (snd (node_register_op n a c w) = id -> x' = Some (NRemote n a)) as Hr.
    { intros E. assert (w_nmap (fst (node_register_op n a c w)) !! NRemote n a = Some id) as Hl.
      { rewrite <- E. unfold node_register_op. destruct (w_nmap w !! NRemote n a) as [i|] eqn:E1; cbn.
        - destruct c; [|exact E1]. destruct (w_nregs w !! i) as [r|]; [|exact E1]. destruct (n_sup r); exact E1.
        - destruct c; cbn; apply lookup_insert. }
      destruct x' as [o|]; destruct Hj' as (_ & _ & Hj' & _); [f_equal; symmetry; by apply Hj'|by destruct (Hj' _ Hl)]. }
    destruct (decide (snd (node_register_op n a c w) = id)) as [E|E].
    - exists x', x'. split_and!; [done|done|by eapply known_trans|done|]. intros _. by apply Hr.
    - exists x', st. split_and!; [done|done|done|by eapply known_trans|]. intros E2. by destruct E.
  Qed.
  Lemma n_lookup st i : kn (fun st' z => i = id -> forall nm ad, z = Some (nm, ad) -> st' = Some (NRemote nm ad)) st (observe (lookup_remote i)).
  Proof.
    apply once_atom. intros w x Hj Hx. cbn [fst snd]. unfold lookup_remote.
    destruct (w_nregs w !! i) as [r|] eqn:E; cycle 1.
    { exists x, st. split_and!; try done. }
    destruct (decide (i = id)) as [->|Hne]; cycle 1.
    { exists x, st. split_and!; try done. }
    destruct x as [o|]; [|destruct Hj as (_ & Hj & _); congruence]. exists (Some o), (Some o). split_and!; try done.
    intros _ nm ad [= <- <-]. destruct Hj as (_ & Hj & _). by rewrite (Hj r E).
  Qed.
  Lemma n_node_register' st n c : kn anyQ st (node_register n c).
  Proof. eapply once_mono; [|apply n_node_register]. done. Qed.
  Ltac nseq := eapply (once_bind _ anyQ); [|intros ? ? ? _].
  Ltac nact y := apply (n_act _ _ y); [reflexivity|try exact I; try done].
  Ltac natom y := apply (n_atom _ _ y); [reflexivity|try exact I; try done].
  Lemma n_add_nlink st n p i : (forall f, p = PRemote f id -> st = Some n) -> kn anyQ st (modify (add_nlink n p i)).
  Proof.
    intros Hi. apply once_atom. intros w x0 Hj Hx. exists x0, st. split_and!; try done. cbn [fst snd].
    unfold J, add_nlink in *. cbn.
    assert (forall nd, (forall f, p = PRemote f id -> nd <> n) -> lacks (default ∅ (w_nlinks w !! nd)) -> lacks (default ∅ (<[n:={[(p, i)]} ∪ default ∅ (w_nlinks w !! n)]> (w_nlinks w) !! nd))) as Hl.
    { intros nd Hn H. destruct (decide (n = nd)) as [->|Hne]; [|rewrite lookup_insert_ne by done; auto]. rewrite lookup_insert. cbn.
      intros f j Hin. apply elem_of_union in Hin as [Hin|Hin]; [|by apply (H f j)]. apply elem_of_singleton in Hin. injection Hin as Hp _. by apply (Hn f). }
    destruct x0 as [o|]; destruct Hj as (H1 & H2 & H3 & H4); split_and!; try done.
    - intros nd Hn. apply Hl; [|auto]. intros f E. specialize (Hx _ (Hi f E)). injection Hx as ->. done.
    - intros nd. apply Hl; [|auto]. intros f E. specialize (Hx _ (Hi f E)). discriminate.
  Qed.
  Lemma n_send_frame st fr n : kn anyQ st (modify (send_frame fr n)).
  Proof. nact (ASendFrame fr n). Qed.
  Lemma n_link_create st p from : kn anyQ st (link_create p from).
  Proof. unfold link_create. nseq; [apply n_observe|]. destruct a; [|done]. nseq; [nact (AAddLink (pid_id p) from)|done]. Qed.
  Lemma n_link st m p : kn anyQ st (link m p).
  Proof.
    unfold link. case_decide; [done|]. unfold link_install. nseq; [apply n_link_create|]. destruct a; cbn [negb]; [|done].
    destruct (pid_is_local p) eqn:El.
    - nseq; [apply n_link_create|]. destruct a; [done|]. nact (AExitLinked (PLocal m) p (RCustom "noproc")).
    - eapply once_bind; [apply n_lookup|]. intros st1 [[nm ad]|] _ Hl; [|nact (AExitLinked (PLocal m) p (RCustom "noconnection"))].
      eapply (once_bind _ anyQ).
      + apply n_add_nlink. intros f ->. by apply Hl.
      + intros ? ? ? _. nseq; [apply n_node_register'|apply n_send_frame].
  Qed.
  Lemma n_on_link st n i install q f : (i = id -> st = Some n) -> kn anyQ st (on_link n i install q f).
  Proof.
    intros Hi. unfold on_link. destruct install.
    - eapply (once_bind _ anyQ); [apply n_link_create|]. intros st1 [|] K1 _; [|apply n_send_frame].
      apply n_add_nlink. intros f' [= -> ->]. apply K1. by apply Hi.
    - nseq; [|nact (ADelNlinks n [(PRemote f i, q)])]. unfold link_destroy. cbn [pid_is_local pid_id]. nact (ADelLink q (PRemote f i)).
  Qed.
  Lemma n_call c st : kn anyQ st (call_prog S c).
  Proof.
    assert ((forall y, fp S c y -> mild y) -> kn anyQ st (call_prog S c)) as Hfp.
    { intros H. apply n_guar. eapply guar_mono; [|apply call_fp]. intros w w' (y & Hy & ->). exists y. split; [by apply H|done]. }
    destruct c; try (apply Hfp; clear; intros y Hy; destruct y; cbn in Hy |- *; try exact I; try done; unfold msg_item, user_item, fp_monitor_alias, fp_crash, fp_exit in *; repeat case_match; naive_solver);
      cbn [call_prog]; unfold ret_as.
    - nseq; [apply n_link|done].
    - destruct f; try (apply Hfp; clear; intros y Hy; destruct y; cbn in Hy |- *; try exact I; try done; naive_solver).
      cbn [receive_frame]. nseq; [|done]. eapply once_bind; [apply n_node_register|]. intros st1 n _ Hn. by apply n_on_link.
  Qed.
  Lemma occurs_owner w : occurs S w -> exists x, J w x.
  Proof.
    intros [ts Hr]. cut (exists x, settled J (Sys w ts) x); [intros (x & Hx & _); by exists x|]. revert Hr. generalize (Sys w ts). 
    refine (rtc_ind_r (fun s => exists x, settled J s x) _ _ _).
    - exists None. split; [|constructor]. cbn. split_and!.
      + unfold LOCAL_NODE_ID in Hid. lia.
      + apply lookup_empty.
      + intros nd. by rewrite lookup_empty.
      + intros nd. rewrite lookup_empty. intros f j. by apply not_elem_of_empty.
    - intros y z _ Hs (x & Hx). destruct (settled_step J (any_call S) y z x) as (x' & Hx' & _); eauto. intros q [c ->]. apply n_call.
  Qed.
End owner.
