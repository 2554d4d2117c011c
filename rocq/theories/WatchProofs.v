(** Monitors in every schedule: proofs. *)
From stdpp Require Import base list gmap numbers strings countable sorting relations.
From Coq Require Import Lia.
From Verif Require Import Prog ProgProofs ProgInv Types Mailbox World ProcApi NodeApi Api Steps Hist Labels SchedSpec SchedProofs ProcSpec ProcProofs MonProofs Debt TieSpec.

Inductive stage := Owing | Telling.
Section watch.
  Context (S : serde) (k me target : N) (d : dest) (Hmt : me <> target).
  Notation r0 := (RLocal k).
  Definition ghost := option (exit_reason * nat).
  Definition ev (w w' : world) (g : ghost) : ghost :=
    match w_regs w !! target, w_regs w' !! target with
    | Some r, None => Some (final_reason r, length (w_log w'))
    | _, _ => g
    end.
  Definition done_for (why : exit_reason) (n : nat) (w : world) : Prop :=
    is_Some (w_regs w !! me) -> (me, IProcessDown d r0 why) ∈ drop n (w_log w).
  Definition stored (w : world) : Prop := is_Some (w_regs w !! me) -> default ∅ (w_mons w !! target) !! r0 = Some (PLocal me, Some d).
  Record basic (w : world) : Prop := Basic {
    b_ref : (k < w_next_ref w)%N;
    b_t : (target < w_next_pid w)%N; b_me : (me < w_next_pid w)%N;
    b_loc : is_Some (w_regs w !! me) -> is_Some (w_loc w !! me);
    b_others : forall j, j <> target -> default ∅ (w_mons w !! j) !! r0 = None;
    b_nodes : forall nd, default ∅ (w_nmons w !! nd) !! r0 = None;
    b_tables : forall j l, w_loc w !! j = Some l -> j <> me -> l_monitors l !! r0 = None;
    b_named : mons_named w target }.
  Definition J (w : world) (g : ghost) (x : option (stage * exit_reason * nat)) : Prop :=
    basic w /\
    match x, g with
    | None, None => is_Some (w_regs w !! target) /\ stored w
    | None, Some (why, n) => w_regs w !! target = None /\ n <= length (w_log w) /\ done_for why n w
    | Some (Owing, why, n), Some g => g = (why, n) /\ w_regs w !! target = None /\ n <= length (w_log w) /\ stored w
    | Some (Telling, why, n), Some g => g = (why, n) /\ w_regs w !! target = None /\ n <= length (w_log w)
    | Some _, None => False
    end.
  Definition K (w : world) : Prop := w_regs w !! me = None.
  (** ** Steps that leave the monitor alone *)
  Record still (w w' : world) : Prop := Still {
    s_basic : basic w';
    s_t : is_Some (w_regs w !! target) <-> is_Some (w_regs w' !! target);
    s_me : is_Some (w_regs w' !! me) -> is_Some (w_regs w !! me);
    s_stored : stored w -> stored w';
    s_log : exists g, w_log w' = w_log w ++ g }.
  Lemma still_J w g x w' : J w g x -> still w w' -> (K w -> K w') /\ J w' (ev w w' g) x.
  Proof.
    intros (Hb & Hx) Hs. split.
    { intros Hk. unfold K in *. destruct (w_regs w' !! me) eqn:E; [|done]. destruct (s_me _ _ Hs) as [? ?]; [by rewrite E|congruence]. }
    assert (ev w w' g = g) as ->.
    { unfold ev. pose proof (s_t _ _ Hs) as Ha. destruct (w_regs w !! target); [|done]. destruct (w_regs w' !! target) eqn:E; [done|].
      destruct (proj1 Ha) as [? ?]; [eauto|done]. }
    assert (w_regs w !! target = None -> w_regs w' !! target = None) as Ha.
    { intros H. pose proof (s_t _ _ Hs) as Ha. rewrite H in Ha. destruct (w_regs w' !! target); [|done]. destruct (proj2 Ha) as [? ?]; [eauto|done]. }
    assert (length (w_log w) <= length (w_log w')) as Hl. { destruct (s_log _ _ Hs) as (g' & ->). rewrite app_length. lia. }
    pose proof (s_stored _ _ Hs) as Ht. split; [apply Hs|].
    destruct x as [[[[] why] n]|], g as [[why' n']|]; try done.
    - destruct Hx as (E & H1 & H2 & H3). split_and!; [done|auto|lia|auto].
    - destruct Hx as (E & H1 & H2). split_and!; [done|auto|lia].
    - destruct Hx as (H1 & H2 & H3). split_and!; [auto|lia|]. unfold done_for in *. intros Hm. specialize (H3 (s_me _ _ Hs Hm)).
      destruct (s_log _ _ Hs) as (g' & ->). rewrite drop_app_le by done. apply elem_of_app. by left.
    - destruct Hx as (H1 & H2). split; [by apply (s_t _ _ Hs)|auto].
  Qed.
  Lemma log0 w : exists g, w_log w = w_log w ++ g.
  Proof. exists []. by rewrite app_nil_r. Qed.
  Lemma still_refl w : basic w -> still w w.
  Proof. intros Hb. constructor; try done. apply log0. Qed.
  (** The tables of monitors as they were, the process objects with no more of the reference than before. *)
  Lemma still_same w w' : (w_next_ref w <= w_next_ref w')%N -> (w_next_pid w <= w_next_pid w')%N -> w_mons w' = w_mons w -> w_nmons w' = w_nmons w ->
    (forall j l', w_loc w' !! j = Some l' -> l_monitors l' !! r0 = None \/ exists l, w_loc w !! j = Some l /\ (l_monitors l !! r0 = None -> l_monitors l' !! r0 = None)) ->
    (is_Some (w_regs w' !! me) -> is_Some (w_loc w !! me) -> is_Some (w_loc w' !! me)) ->
    ((target < w_next_pid w)%N -> is_Some (w_regs w !! target) <-> is_Some (w_regs w' !! target)) ->
    ((me < w_next_pid w)%N -> is_Some (w_regs w' !! me) -> is_Some (w_regs w !! me)) ->
    (exists g, w_log w' = w_log w ++ g) -> basic w -> still w w'.
  Proof.
    intros E1 E2 E3 E4 E5 E6 E7 E8 E9 [H1 H2 H3 H4 H5 H6 H7 H8]. constructor; auto.
    - constructor; rewrite ?E3, ?E4; try done; try lia.
      + intros Hm. apply E6; [done|]. apply H4, E8; done.
      + intros j l' Hl Hj. destruct (E5 j l' Hl) as [?|(l & Hl1 & Hl2)]; [done|]. eapply Hl2, H7; done.
      + unfold mons_named. rewrite E3. exact H8.
    - unfold stored. rewrite E3. intros Hs Hm. apply Hs, E8; done.
  Qed.
  Ltac plain_loc := intros ? l' ?; right; exists l'; done.
  Lemma still_push i x w : basic w -> still w (push i x w).
  Proof.
    intros Hb. unfold push. destruct (w_loc w !! i) as [l|] eqn:E; [|by apply still_refl]. apply still_same; cbn; try done.
    - intros j l'. destruct (decide (i = j)) as [<-|Hne]; [rewrite lookup_insert|rewrite lookup_insert_ne by done; eauto]. intros [= <-]. right. by exists l.
    - intros _ Hl. destruct (decide (i = me)) as [->|Hne]; [rewrite lookup_insert; eauto|by rewrite lookup_insert_ne].
    - eauto.
  Qed.
  Lemma still_regs w i (f : registration) : is_Some (w_regs w !! i) -> basic w -> still w (up_regs (<[i := f]>) w).
  Proof.
    intros Hi Hb. apply still_same; cbn; try done; [plain_loc| | |apply log0].
    - intros _. destruct (decide (i = target)) as [->|Hne]; [rewrite lookup_insert|by rewrite lookup_insert_ne]. split; [eauto|done].
    - intros _. destruct (decide (i = me)) as [->|Hne]; [rewrite lookup_insert|by rewrite lookup_insert_ne]. done.
  Qed.
  Lemma still_alter w i f : basic w -> still w (up_regs (alter f i) w).
  Proof.
    intros Hb. apply still_same; cbn; try done; [plain_loc| | |apply log0]; intros _; by rewrite lookup_alter_is_Some.
  Qed.
  Lemma still_trans w1 w2 w3 : still w1 w2 -> still w2 w3 -> still w1 w3.
  Proof.
    intros H1 H2. constructor.
    - apply H2.
    - rewrite (s_t _ _ H1). apply H2.
    - intros H. by apply (s_me _ _ H1), (s_me _ _ H2).
    - intros H. by apply (s_stored _ _ H2), (s_stored _ _ H1).
    - destruct (s_log _ _ H1) as (g1 & E1), (s_log _ _ H2) as (g2 & E2). exists (g1 ++ g2). by rewrite E2, E1, app_assoc.
  Qed.
  Lemma still_exit q f y w : basic w -> still w (exit_op q f y w).
  Proof.
    intros Hb. unfold exit_op. destruct (w_regs w !! pid_id q) as [r|] eqn:E; [|by apply still_refl].
    repeat case_match; try (by apply still_refl); try (by apply still_push); (apply still_regs; [by rewrite E|done]).
  Qed.
  Lemma still_exit_linked q f y w : basic w -> still w (exit_linked_op q f y w).
  Proof.
    intros Hb. unfold exit_linked_op. destruct (w_regs w !! pid_id q) as [r|] eqn:E; [|by apply still_refl].
    repeat case_match; try (by apply still_refl); try (by apply still_push); (apply still_regs; [by rewrite E|done]).
  Qed.
  Lemma still_spawn w : basic w -> still w (fst (spawn_op w)).
  Proof.
    intros Hb. unfold spawn_op. cbn. apply still_same; cbn; try done; try lia.
    - intros j l'. destruct (decide (w_next_pid w = j)) as [<-|Hne]; [rewrite lookup_insert|rewrite lookup_insert_ne by done; eauto]. intros [= <-]. left. apply lookup_empty.
    - intros _ Hl. destruct (decide (w_next_pid w = me)) as [->|Hne]; [rewrite lookup_insert; eauto|by rewrite lookup_insert_ne].
    - intros Hn. by rewrite lookup_insert_ne by lia.
    - intros Hn. by rewrite lookup_insert_ne by lia.
    - apply log0.
  Qed.
  Lemma still_loc w (g : plocal -> plocal) j : (forall l, l_monitors l !! r0 = None -> l_monitors (g l) !! r0 = None) \/ j = me -> basic w -> still w (up_loc (alter g j) w).
  Proof.
    intros Hg Hb. destruct Hg as [Hg| ->].
    - apply still_same; cbn; try done; [| |apply log0].
      + intros i l'. destruct (decide (j = i)) as [<-|Hne]; [rewrite lookup_alter|rewrite lookup_alter_ne by done; eauto].
        intros Hl. apply fmap_Some in Hl as (l & Hl & ->). right. exists l. auto.
      + intros _. by rewrite lookup_alter_is_Some.
    - destruct Hb as [H1 H2 H3 H4 H5 H6 H7 H8]. constructor; cbn; try done; [|apply log0]. constructor; cbn; try done.
      + by rewrite lookup_alter_is_Some.
      + intros i l Hl Hi. rewrite lookup_alter_ne in Hl by done. eauto.
  Qed.
  Definition mild (kn : bool) (x : act) : Prop :=
    match x with
    | AOwnMonitor i r _ => i = me \/ r <> r0
    | AAddMon _ r p d' => r <> r0 /\ (pid_is_local p = true -> is_Some d')
    | ADelMon _ r => kn = true \/ r <> r0
    | AAddNmon _ r _ => r <> r0
    | AMonsDelete i => i <> target
    | ARegDelete i => i <> target
    | AInsert i => i <> target /\ i <> me
    | AGone i => kn = true \/ i <> me
    | _ => True
    end.
  Ltac ssame := apply still_same; cbn; try done; [plain_loc|apply log0].
  Lemma mild_still kn x w : mild kn x -> (kn = true -> K w) -> basic w -> still w (does S x w).
  Proof.
    intros Hx Hk Hb.
    destruct x; cbn [does mild] in *; try (by apply still_refl); try (by ssame); try (by apply still_push); try (by apply still_exit); try (by apply still_exit_linked); try (by apply still_alter).
    - apply still_same; cbn; try done; [lia|plain_loc|apply log0].
    - apply still_loc; [by left|done].
    - apply still_loc; [by left|done].
    - apply still_loc; [|done]. destruct Hx as [->|Hx]; [by right|left]. intros l Hl. cbn. by rewrite lookup_insert_ne.
    - apply still_loc; [|done]. left. intros l Hl. cbn. apply lookup_delete_None. auto.
    - unfold receive_op. destruct (w_loc w !! me0) as [l|] eqn:E; [|by apply still_refl]. destruct (select S T f b l) as [s l'] eqn:Es. cbn. apply still_same; cbn; try done; [| |apply log0].
      + intros j l2. destruct (decide (me0 = j)) as [<-|Hne]; [rewrite lookup_insert|rewrite lookup_insert_ne by done; eauto]. intros [= <-]. right. exists l. split; [done|].
        by eapply select_none.
      + intros _ Hl. destruct (decide (me0 = me)) as [->|Hne]; [rewrite lookup_insert; eauto|by rewrite lookup_insert_ne].
    - unfold alias_take_op. repeat case_match; first [by apply still_refl|ssame].
    - unfold send_to. destruct (w_regs w !! i); [by apply still_push|by apply still_refl].
    - unfold node_register_op. destruct (w_nmap w !! NRemote n a) as [id|]; cbn.
      + destruct c; [|by apply still_refl]. destruct (w_nregs w !! id) as [r|]; [|by apply still_refl]. destruct (n_sup r); [by apply still_refl|].
        pose proof (still_spawn w Hb) as Hs. unfold spawn_op in *. cbn in *. eapply still_trans; [exact Hs|]. pose proof (s_basic _ _ Hs). ssame.
      + destruct c.
        * assert (still w (up_next_node N.succ w)) as H0 by ssame. pose proof (still_spawn _ (s_basic _ _ H0)) as Hs. unfold spawn_op in *. cbn in *.
          eapply still_trans; [exact H0|eapply still_trans; [exact Hs|]]. pose proof (s_basic _ _ Hs). ssame.
        * ssame.
    - unfold send_frame, hand_out. repeat case_match; first [by apply still_refl|ssame].
    - apply still_same; cbn; try done; try lia; [| |apply log0].
      + intros j l'. destruct (decide (w_next_pid w = j)) as [<-|Hne]; [rewrite lookup_insert|rewrite lookup_insert_ne by done; eauto]. intros [= <-]. left. apply lookup_empty.
      + intros _ Hl. destruct (decide (w_next_pid w = me)) as [->|Hne]; [rewrite lookup_insert; eauto|by rewrite lookup_insert_ne].
    - destruct Hx as [H1 H2]. apply still_same; cbn; try done; [plain_loc| | |apply log0]; intros _; by rewrite lookup_insert_ne.
    - unfold register_op. destruct p as [i|]; [|by apply still_refl]. destruct (w_names w !! n) as [i'|]; [destruct (decide (i' = i)); by apply still_refl|].
      destruct (w_regs w !! i) eqn:E; [|by apply still_refl]. destruct (r_name r); [by apply still_refl|]. cbn.
      pose proof (still_regs w i (Reg (Some n) (r_trap r) (r_exit r) (r_abort r)) ltac:(by rewrite E) Hb) as Hs. eapply still_trans; [exact Hs|]. pose proof (s_basic _ _ Hs). ssame.
    - apply still_same; cbn; try done; [plain_loc| | |apply log0].
      + intros _. by rewrite lookup_delete_ne.
      + intros _ H. destruct (decide (i = me)) as [->|Hne]; [rewrite lookup_delete in H; by destruct H|by rewrite lookup_delete_ne in H].
    - apply still_same; cbn; try done; [| |apply log0].
      + intros j l' Hl. apply lookup_delete_Some in Hl as [_ Hl]. right. by exists l'.
      + intros Hr Hl. destruct Hx as [->|Hx]; [|by rewrite lookup_delete_ne]. specialize (Hk eq_refl). unfold K in Hk. rewrite Hk in Hr. by destruct Hr.
    - destruct Hx as [Hr Hd]. destruct Hb as [H1 H2 H3 H4 H5 H6 H7 H8]. unfold add_mon. constructor; cbn; try done; [| |apply log0].
      + constructor; cbn; try done.
        * intros j Hj. destruct (decide (i = j)) as [->|Hne]; [|rewrite lookup_insert_ne by done; auto]. rewrite lookup_insert. cbn. rewrite lookup_insert_ne by done. auto.
        * unfold mons_named in *. cbn. intros r1 from d1. destruct (decide (i = target)) as [->|Hne]; [|rewrite lookup_insert_ne by done; apply H8].
          rewrite lookup_insert. cbn. destruct (decide (r = r1)) as [->|Hn]; [rewrite lookup_insert; intros E; injection E as <- <-; exact Hd|rewrite lookup_insert_ne by done; apply H8].
      + unfold stored; cbn. intros Hs Hm. destruct (decide (i = target)) as [->|Hne]; [|rewrite lookup_insert_ne by done; auto]. rewrite lookup_insert. cbn.
        rewrite lookup_insert_ne by done. auto.
    - destruct Hb as [H1 H2 H3 H4 H5 H6 H7 H8]. unfold del_mon. constructor; cbn; try done; [| |apply log0].
      + constructor; cbn; try done.
        * intros j Hj. destruct (decide (i = j)) as [->|Hne]; [|rewrite lookup_alter_ne by done; auto]. rewrite lookup_alter. specialize (H5 j Hj).
          destruct (w_mons w !! j); cbn in *; [|apply lookup_empty]. apply lookup_delete_None. auto.
        * unfold mons_named in *. cbn. intros r1 from d1. destruct (decide (i = target)) as [->|Hne]; [|rewrite lookup_alter_ne by done; apply H8].
          rewrite lookup_alter. destruct (w_mons w !! target); cbn in *; [|by rewrite lookup_empty]. intros Hl. apply lookup_delete_Some in Hl as [_ Hl]. eauto.
      + unfold stored; cbn. intros Hs Hm. destruct Hx as [->|Hx]; [specialize (Hk eq_refl); unfold K in Hk; rewrite Hk in Hm; by destruct Hm|].
        destruct (decide (i = target)) as [->|Hne]; [|rewrite lookup_alter_ne by done; auto]. rewrite lookup_alter. specialize (Hs Hm).
        destruct (w_mons w !! target); cbn in *; [|done]. by rewrite lookup_delete_ne.
    - destruct Hb as [H1 H2 H3 H4 H5 H6 H7 H8]. constructor; cbn; try done; [| |apply log0].
      + constructor; cbn; try done.
        * intros j Hj. destruct (decide (i = j)) as [->|Hne]; [rewrite lookup_delete; apply lookup_empty|rewrite lookup_delete_ne by done; auto].
        * unfold mons_named in *. cbn. by rewrite lookup_delete_ne.
      + unfold stored; cbn. by rewrite lookup_delete_ne.
    - destruct Hb as [H1 H2 H3 H4 H5 H6 H7 H8]. unfold add_nmon. constructor; cbn; try done; [|apply log0]. constructor; cbn; try done.
      intros nd. destruct (decide (n = nd)) as [->|Hne]; [|rewrite lookup_insert_ne by done; auto]. rewrite lookup_insert. cbn. rewrite lookup_insert_ne by done. auto.
    - destruct Hb as [H1 H2 H3 H4 H5 H6 H7 H8]. unfold del_nmon. constructor; cbn; try done; [|apply log0]. constructor; cbn; try done.
      intros nd. specialize (H6 nd). destruct (decide (n = nd)) as [->|Hne]; [|rewrite lookup_alter_ne by done; auto].
      rewrite lookup_alter. destruct (w_nmons w !! nd); cbn in *; [|apply lookup_empty]. apply lookup_delete_None. auto.
    - destruct Hb as [H1 H2 H3 H4 H5 H6 H7 H8]. unfold del_nmons. constructor; cbn; try done; [|apply log0]. constructor; cbn; try done.
      intros nd. specialize (H6 nd). destruct (decide (n = nd)) as [->|Hne]; [|rewrite lookup_alter_ne by done; auto].
      rewrite lookup_alter. destruct (w_nmons w !! nd) as [m|]; cbn in *; [|apply lookup_empty].
      clear -H6. induction l as [|r l IH]; cbn; [exact H6|]. apply lookup_delete_None. auto.
    - destruct Hb as [H1 H2 H3 H4 H5 H6 H7 H8]. constructor; cbn; try done; [|apply log0]. constructor; cbn; try done.
      intros nd. specialize (H6 nd). destruct (decide (n = nd)) as [->|Hne]; [|rewrite lookup_delete_ne by done; auto]. rewrite lookup_delete. apply lookup_empty.
    - unfold node_start_op. destruct (w_nmap w !! NLocal); [by apply still_refl|].
      pose proof (still_spawn w Hb) as Hs. unfold spawn_op in *. cbn in *. eapply still_trans; [exact Hs|]. pose proof (s_basic _ _ Hs). ssame.
    - unfold node_disconnect_op. case_match; [|by apply still_refl]. case_match; [|by apply still_refl].
      assert (still w (up_pend (delete n) w)) as Hz by ssame. case_match; [|ssame].
      pose proof (still_exit p0 p RKill _ (s_basic _ _ Hz)) as Hs.
      eapply still_trans; [exact Hz|eapply still_trans; [exact Hs|]]. pose proof (s_basic _ _ Hs). ssame.
    - unfold node_accept_op. case_match; [|ssame]. case_match; [|by apply still_refl].
      match goal with |- context [if bool_decide _ then ?x else w] => set (w1 := if bool_decide (n_state n1 = Pending) then x else w) end.
      assert (still w w1) as H1. { unfold w1. repeat case_match; try (by apply still_refl). by apply still_exit. }
      clearbody w1. case_match; [exact H1|]. eapply still_trans; [exact H1|]. pose proof (s_basic _ _ H1). ssame.
    - unfold node_workers_op, hand_out. repeat case_match; first [by apply still_refl|ssame].
    - unfold sup_down_op. repeat case_match; first [by apply still_refl|ssame].
  Qed.
  (** ** Programs *)
  Notation owes := (owe ev J K).
  Notation keep st kn := (fun st' kn' _ => st' = st /\ kn' = kn).
  Lemma t_guar {A} kn (pr : prog world A) : guar (lstep S (mild kn)) pr -> owes (keep None kn) None kn pr.
  Proof. apply owe_guar. intros w g x w' Hj Hk (y & Hy & ->). apply still_J; [done|]. apply (mild_still kn); [done..|apply Hj]. Qed.
  Lemma t_fp {A} (F : act -> Prop) kn (pr : prog world A) : (forall y, F y -> mild kn y) -> guar (lstep S F) pr -> owes (keep None kn) None kn pr.
  Proof. intros H Hp. apply t_guar. eapply guar_mono; [apply lstep_mono, H|exact Hp]. Qed.
  Lemma t_atom {A} (Q : A -> Prop) st kn (op : world -> world * A) y : (forall w, fst (op w) = does S y w) -> mild kn y -> (forall w, basic w -> Q (snd (op w))) ->
    owes (fun st' kn' y => st' = st /\ kn' = kn /\ Q y) st kn (atom op).
  Proof.
    intros Hf Hy HQ. apply owe_keep. intros w g x Hj _ Hk. rewrite Hf. destruct (still_J w g x _ Hj (mild_still kn y w Hy Hk (proj1 Hj))). split; [done|]. split; [done|].
    apply HQ. apply Hj.
  Qed.
  Lemma t_atom' {A} st kn (op : world -> world * A) y : (forall w, fst (op w) = does S y w) -> mild kn y -> owes (keep st kn) st kn (atom op).
  Proof. intros H Hy. eapply owe_mono; [|apply (t_atom (fun _ => True) st kn op y H Hy); done]. intros ? ? ? (? & ? & _); done. Qed.
  Lemma t_act st kn f y : (forall w, f w = does S y w) -> mild kn y -> owes (keep st kn) st kn (modify f).
  Proof. intros Hf Hy. by apply (t_atom' _ _ _ y). Qed.
  Lemma t_observe {A} st kn (f : world -> A) : owes (keep st kn) st kn (observe f).
  Proof. by apply (t_atom' _ _ _ ANone). Qed.
  Lemma t_seq {A B} (Q : option (stage * exit_reason * nat) -> bool -> B -> Prop) st kn (p : prog world A) (q : A -> prog world B) :
    owes (keep st kn) st kn p -> (forall y, owes Q st kn (q y)) -> owes Q st kn (bind p q).
  Proof. intros Hp Hq. eapply (owe_bind ev J K); [exact Hp|]. intros ? ? ? [-> ->]. apply Hq. Qed.
  Lemma t_seq' {A B} (P : A -> Prop) (Q : option (stage * exit_reason * nat) -> bool -> B -> Prop) st kn (p : prog world A) (q : A -> prog world B) :
    owes (fun st' kn' y => st' = st /\ kn' = kn /\ P y) st kn p -> (forall y, P y -> owes Q st kn (q y)) -> owes Q st kn (bind p q).
  Proof. intros Hp Hq. eapply (owe_bind ev J K); [exact Hp|]. intros ? ? ? (-> & -> & Hy). by apply Hq. Qed.
  Ltac tseq := apply t_seq; [|intros ?].
  Ltac tact y := apply (t_act _ _ _ y); [reflexivity|cbn; auto].
  Ltac tatom y := apply (t_atom' _ _ _ y); [reflexivity|cbn; auto].
  Lemma t_fresh : owes (fun st' kn' r => st' = None /\ kn' = false /\ (r <> r0 /\ ref_is_local r = true)) None false fresh_ref.
  Proof.
    apply (t_atom (fun r => r <> r0 /\ ref_is_local r = true) None false _ AFreshRef); [done|done|]. intros w Hb. split; [|done]. cbn. pose proof (b_ref _ Hb).
    intros [= E]. lia.
  Qed.
  Lemma t_node_register nd c : owes (keep None false) None false (node_register nd c).
  Proof. apply (t_fp (fp_noderegister c)); [|apply l_node_register]. by intros []. Qed.
  Lemma t_alias_destroy st kn r : owes (keep st kn) st kn (alias_destroy r).
  Proof. tatom (AAliasDelete (ref_id r)). Qed.
  Lemma t_self_down m d' r why : owes (keep None false) None false (self_down m d' r why).
  Proof. unfold self_down. tseq; [tact (APush m (IProcessDown d' r (RCustom why)))|]. tseq; [apply t_alias_destroy|done]. Qed.
  Lemma t_monitor_remote m n a r d' i nm : r <> r0 -> owes (keep None false) None false (monitor_remote m n a r d' i nm).
  Proof.
    intros Hr. unfold monitor_remote. tseq; [tact (AAddNmon (NRemote n a) r (NMProcess m d'))|].
    tseq; [apply t_node_register|]. tact (ASendFrame (FMonitor true i nm (Some m) (ref_id r)) y0).
  Qed.
  Lemma t_monitor_local m i r d' : r <> r0 -> owes (keep None false) None false (monitor_local m i r d').
  Proof.
    intros Hr. unfold monitor_local. tseq; [apply t_observe|]. case_match; [|apply t_self_down].
    apply (t_act _ _ _ (AAddMon i r (PLocal m) (Some d'))); [reflexivity|]. cbn. split; [done|eauto].
  Qed.
  Lemma t_own_monitor m r x : r <> r0 -> owes (keep None false) None false (own_monitor m r x).
  Proof. intros Hr. tact (AOwnMonitor m r x). Qed.
  Lemma t_monitor_install m d' r : r <> r0 -> owes (keep None false) None false (monitor_install m d' r).
  Proof.
    intros Hr. unfold monitor_install. destruct d' as [p|n [|nm a]|]; [| | |done].
    - case_decide; [done|]. tseq; [by apply t_own_monitor|]. destruct (pid_is_local p); [by apply t_monitor_local|].
      tseq; [apply t_observe|]. case_match; [case_match; by apply t_monitor_remote | by apply t_self_down].
    - tseq; [apply t_observe|]. case_match.
      + tseq; [by apply t_own_monitor | by apply t_monitor_local].
      + tseq; [by apply t_own_monitor | by apply t_self_down].
    - tseq; [by apply t_own_monitor | by apply t_monitor_remote].
  Qed.
  Lemma t_spawn m l b : owes (keep None false) None false (spawn m l b).
  Proof.
    unfold spawn. eapply (t_seq' (fun i => i <> target /\ i <> me)).
    { apply (t_atom _ None false _ AAlloc); [done|done|]. intros w Hb. cbn. pose proof (b_t _ Hb). pose proof (b_me _ Hb). lia. }
    intros i [Ht Hm]. tseq; [destruct l; [|done]; tseq; [tact (AAddLink i (PLocal m))|tact (AAddLink m (PLocal i))]|].
    tseq.
    { destruct b; [|done]. eapply t_seq'; [apply t_fresh|]. intros r [Hr _]. tseq; [by apply t_own_monitor|].
      tseq; [|done]. apply (t_act _ _ _ (AAddMon i r (PLocal m) (Some (DPid (PLocal i))))); [reflexivity|]. cbn. split; [done|eauto]. }
    tseq; [tact (ARunning i)|]. tseq; [tact (AInsert i)|done].
  Qed.
  Lemma t_supervise m name addr : owes (keep None false) None false (remote_supervisor m name addr).
  Proof.
    unfold remote_supervisor. tseq; [tatom (AAccept name addr (PLocal m) (PLocal m))|].
    case_match; [exact eq_refl|]. tseq; [apply t_spawn|]. tseq; [apply t_spawn|]. tseq; [|done]. tact (AWorkers (NRemote name addr) y0.1 y1.1).
  Qed.
  Lemma t_monitor_destroy p r : r <> r0 -> owes (keep None false) None false (monitor_destroy p r).
  Proof.
    intros Hr. unfold monitor_destroy. case_match; [tact (ADelMon (pid_id p) r)|].
    tseq; [tact (ASendFrame (FMonitor false (Some (pid_id p)) None None (ref_id r)) (ref_node r))|].
    tseq; [apply t_observe|]. case_match; [|done]. case_match. tact (ADelNmon (NRemote s s0) r).
  Qed.
  Lemma t_demonitor m r : ~ (m = me /\ r = r0) -> owes (keep None false) None false (demonitor m r).
  Proof.
    intros Hm. unfold demonitor. eapply (t_seq' (fun x => r = r0 -> x = None)).
    - apply (t_atom _ None false _ (AOwnDemonitor m r)); [done|done|]. intros w Hb ->. cbn.
      destruct (w_loc w !! m) as [l|] eqn:E; [|reflexivity]. apply (b_tables _ Hb m l E). intros ->. by apply Hm.
    - intros [[[p|]|]|] Hx; try done. assert (r <> r0) as Hr by (intros E; by specialize (Hx E)).
      tseq; [by apply t_monitor_destroy|]. tseq; [apply t_alias_destroy|done].
  Qed.
  Lemma t_supdown nd q : owes (keep None false) None false (supervisor_down nd q).
  Proof.
    unfold supervisor_down. tseq; [tatom (ASupDown nd q)|]. case_match; [done|]. tseq; [tatom (ANlinksDelete nd)|].
    tseq. { apply owe_each. intros x _. tseq; [tact (ADelLink x.2 x.1) | tact (AExitLinked (PLocal x.2) x.1 (RCustom "noconnection"))]. }
    eapply (t_seq' (fun ms => default ∅ ms !! r0 = None)).
    { apply (t_atom _ None false _ (ANmonsDelete nd)); [done|done|]. intros w Hb. apply (b_nodes _ Hb). }
    intros ms Hms. tseq; [|tact (APendDelete nd)].
    apply owe_each. intros [r m] Hx. apply sorted_refs_elem in Hx. cbn [fst snd]. assert (r <> r0) as Hr by congruence.
    tseq.
    - destruct m as [i|i d'|i]; [tact (ASendTo i (INodeDown nd r))|tact (ASendTo i (IProcessDown d' r (RCustom "noconnection")))|].
      by apply t_monitor_destroy.
    - destruct (ref_is_local r); [tseq; [apply t_alias_destroy|done]|done].
  Qed.
  Lemma t_node_monitor m nd : owes (keep None false) None false (node_monitor m nd).
  Proof.
    unfold node_monitor. destruct nd; [done|]. eapply t_seq'; [apply t_fresh|]. intros r [Hr _].
    tseq; [by apply t_own_monitor|]. tseq; [tact (AAddNmon (NRemote name addr) r (NMNode m))|].
    tseq; [apply t_node_register|done].
  Qed.
  (** *** The ends of processes *)
  Lemma t_finish_me : owes (fun st _ _ => st = None) None false (drop_process me).
  Proof.
    unfold drop_process. eapply (owe_bind _ _ _ (fun st kn r => st = None /\ kn = true)).
    { intros w g x _ Hj Hx Hk. cbn. destruct (still_J w g x _ Hj (mild_still false (ARegDelete me) w Hmt ltac:(done) (proj1 Hj))) as [H1 H2]. cbn [does] in *.
      split; [exact H1|]. exists None, true. split; [done|]. split; [intros _; unfold K; cbn; apply lookup_delete|]. by apply keep_moves. }
    intros st kn r [-> ->].
    destruct r as [r|].
    - eapply (owe_bind _ _ _ (keep None true)).
      { destruct (r_name r); [|done]. tact (ANameDelete s). }
      intros ? ? ? [-> ->]. eapply owe_mono; [|eapply (t_fp (fp_tail me) true); [|apply l_tail]]; [by intros ? ? ? [? _]|].
      intros y Hy. destruct y; cbn in Hy |- *; try done; subst; auto.
    - tseq; [tact (AGone me)|done].
  Qed.
  Lemma t_link_down st i why : owes (keep st false) st false (link_process_down (PLocal i) why).
  Proof.
    unfold link_process_down. cbn [pid_id]. tseq; [tatom (ALinksDelete i)|]. destruct y as [ls|]; [|done]. tseq.
    - apply owe_each. intros p _. tseq; [tact (ADelLink (pid_id p) (PLocal i))|tact (AExitLinked p (PLocal i) why)].
    - apply owe_each. intros g _. tseq; [apply t_observe|]. tseq; [|tact (ASendFrame (FLinkDown (map pid_id (snd g)) i why) (fst g))].
      case_match; [|done]. case_match. tact (ADelNlinks (NRemote s s0) (map (fun p => (p, i)) (snd g))).
  Qed.
  Lemma t_frames st why (l : list (N * list (reference * (pid * option dest)))) :
    owes (keep st false) st false (each l (fun g =>
        let! n := observe (lookup_remote (fst g)) in
        do! match n with
            | Some (name, addr) => modify (del_nmons (NRemote name addr) (map fst (snd g)))
            | None => Ret tt
            end in
        modify (send_frame (FMonitorDown (map (fun x => ref_id (fst x)) (snd g)) why) (fst g)))).
  Proof.
    apply owe_each. intros g _. tseq; [apply t_observe|]. tseq; [|tact (ASendFrame (FMonitorDown (map (fun x => ref_id (fst x)) (snd g)) why) (fst g))].
    case_match; [|done]. case_match. tact (ADelNmons (NRemote s s0) (map fst (snd g))).
  Qed.
  Lemma t_monitor_down i why : i <> target -> owes (keep None false) None false (monitor_process_down (PLocal i) why).
  Proof.
    intros Hi. unfold monitor_process_down. cbn [pid_id]. tseq; [tatom (AMonsDelete i)|]. destruct y as [ms|]; [|done]. tseq; [|apply t_frames].
    apply owe_each. intros x _. tseq; [|destruct (ref_is_local x.1); [tseq; [apply t_alias_destroy|done]|done]].
    destruct (pid_is_local x.2.1); [|done]. destruct (x.2.2) as [d'|]; [tact (ASendTo (pid_id x.2.1) (IProcessDown d' x.1 why))|].
    tseq; [apply t_observe|]. destruct y; done.
  Qed.
  (** What the process does after its monitors have been told. *)
  Lemma t_rest i : i <> me -> owes (fun st _ _ => st = None) None false (
      let! l := observe (fun w => w_loc w !! i) in
      do! monitor_destroy_all (match l with Some l => sorted_refs (l_monitors l) | None => [] end) in
      do! alias_destroy_all (match l with Some l => sorted_ids (l_aliases l) | None => [] end) in
      modify (gone i)).
  Proof.
    intros Hm. eapply (t_seq' (fun l => match l with Some l => l_monitors l !! r0 = None | None => True end)).
    { apply (t_atom _ None false _ ANone); [done|done|]. intros w Hb. cbn. destruct (w_loc w !! i) as [l|] eqn:E; [|exact I]. by apply (b_tables _ Hb i l E). }
    intros l Hl. tseq.
    - unfold monitor_destroy_all. apply owe_each. intros [rf m] Hx. cbn [fst snd].
      assert (rf <> r0) as Hr. { intros ->. destruct l as [l|]; [|by apply elem_of_nil in Hx]. apply sorted_refs_elem in Hx. congruence. }
      destruct m as [[p|]|nd]; [|done|].
      + tseq; [destruct (pid_is_local p); [tact (ADelMon (pid_id p) rf) | tact (ASendFrame (FMonitor false (Some (pid_id p)) None None (ref_id rf)) (ref_node rf))]|].
        destruct (ref_is_local rf); [|done]. tseq; [apply t_alias_destroy|done].
      + tseq; [tact (ADelNmon nd rf)|]. destruct (ref_is_local rf); [|done]. tseq; [apply t_alias_destroy|done].
    - tseq; [unfold alias_destroy_all; apply owe_each; intros j _; tact (AAliasDelete j)|].
      eapply owe_mono; [|tact (AGone i)]. by intros ? ? ? [? _].
  Qed.
  Lemma t_finish_other i : i <> me -> i <> target -> owes (fun st _ _ => st = None) None false (drop_process i).
  Proof.
    intros Hm Ht. unfold drop_process. tseq; [tatom (ARegDelete i)|]. destruct y as [r|]; [|tseq; [tact (AGone i)|done]].
    tseq; [destruct (r_name r); [tact (ANameDelete s)|done]|]. tseq; [apply t_link_down|]. tseq; [by apply t_monitor_down|]. by apply t_rest.
  Qed.
  (** The notice itself. *)
  Lemma t_tell why n : owes (keep None false) (Some (Telling, why, n)) false (modify (send_to me (IProcessDown d r0 why))).
  Proof.
    intros w g x _ Hj Hx Hk. pose proof (Hx _ eq_refl) as ->. cbn.
    pose proof (mild_still false (ASendTo me (IProcessDown d r0 why)) w I ltac:(done) (proj1 Hj)) as Hs. cbn [does] in Hs. destruct (still_J w g _ _ Hj Hs) as [H1 H2]. split; [exact H1|].
    exists None, false. split; [done|]. split; [done|]. left. split; [done|].
    destruct H2 as [Hb H2]. split; [exact Hb|]. destruct (ev w _ g) as [[why' n']|]; [|done]. destruct H2 as ([= -> ->] & H3 & H4). split_and!; [done..|].
    pose proof (s_me _ _ Hs) as Hm. clear Hs. destruct Hj as (Hb0 & Hg). destruct g as [[w0 n0]|]; [|done]. destruct Hg as ([= -> ->] & Ha & Hn).
    unfold done_for. intros Hr. specialize (Hm Hr). unfold send_to. destruct (w_regs w !! me) as [r|] eqn:E; [|by destruct Hm].
    destruct (b_loc _ Hb0 ltac:(rewrite E; eauto)) as [l El]. unfold push. rewrite El. cbn. rewrite drop_app_le by lia. apply elem_of_app. right. set_solver.
  Qed.
  Definition one (why : exit_reason) (x : reference * (pid * option dest)) : prog world unit :=
    do! (if pid_is_local (fst (snd x)) then
           match snd (snd x) with
           | Some d => modify (send_to (pid_id (fst (snd x))) (IProcessDown d (fst x) why))
           | None =>
               let! e := observe (exists_proc (pid_id (fst (snd x)))) in
               if (e : bool) then Panic "called `Option::unwrap()` on a `None` value" else Ret tt
           end
         else Ret tt) in
    if ref_is_local (fst x) then do! alias_destroy (fst x) in Ret tt else Ret tt.
  Lemma t_one st why x : (pid_is_local (fst (snd x)) = true -> is_Some (snd (snd x))) -> owes (keep st false) st false (one why x).
  Proof.
    intros Hn. unfold one. tseq; [|destruct (ref_is_local x.1); [tseq; [apply t_alias_destroy|done]|done]].
    destruct (pid_is_local x.2.1); [|done]. destruct (Hn eq_refl) as [d' ->]. tact (ASendTo (pid_id x.2.1) (IProcessDown d' x.1 why)).
  Qed.
  Lemma t_loop why n l st : st = None \/ st = Some (Telling, why, n) /\ (r0, (PLocal me, Some d)) ∈ l ->
    (forall x, x ∈ l -> pid_is_local (fst (snd x)) = true -> is_Some (snd (snd x))) ->
    owes (keep None false) st false (each l (one why)).
  Proof.
    revert st. induction l as [|x l IH]; intros st Hst Hl; cbn [each].
    { destruct Hst as [->|[_ H]]; [done|]. by apply elem_of_nil in H. }
    eapply (owe_bind ev J K (fun st' kn' _ => kn' = false /\ (st' = None \/ st' = Some (Telling, why, n) /\ (r0, (PLocal me, Some d)) ∈ l))).
    2: { intros st' kn' _ [-> H]. apply IH; [done|]. intros x' Hx'. apply Hl. by constructor. }
    destruct Hst as [->|[-> Hin]].
    { eapply owe_mono; [|apply t_one, Hl; by constructor]. cbn. intros ? ? ? [-> ->]; auto. }
    apply elem_of_cons in Hin as [<-|Hin].
    - unfold one. cbn [fst snd pid_is_local pid_id ref_is_local]. eapply owe_bind; [apply t_tell|]. intros ? ? ? [-> ->].
      tseq; [apply t_alias_destroy|]. cbn. auto.
    - eapply owe_mono; [|apply t_one, Hl; by constructor]. cbn. intros ? ? ? [-> ->]. auto.
  Qed.
  Lemma t_monitor_down_target why n : owes (keep None false) (Some (Owing, why, n)) false (monitor_process_down (PLocal target) why).
  Proof.
    unfold monitor_process_down. cbn [pid_id].
    eapply (owe_bind ev J K (fun st kn ms => kn = false /\ (forall r from d', default ∅ ms !! r = Some (from, d') -> pid_is_local from = true -> is_Some d') /\
       (st = None \/ st = Some (Telling, why, n) /\ default ∅ ms !! r0 = Some (PLocal me, Some d)))).
    { intros w g x _ Hj Hx _. pose proof (Hx _ eq_refl) as ->. destruct Hj as (Hb & Hg). destruct g as [[w0 n0]|]; [|done].
      destruct Hg as ([= -> ->] & Ha & Hn & Ht). cbn [fst snd]. split; [done|].
      assert (ev w (up_mons (delete target) w) (Some (why, n)) = Some (why, n)) as Ee by (unfold ev; by rewrite Ha).
      assert (basic (up_mons (delete target) w)) as Hb'.
      { destruct Hb as [H1 H2 H3 H4 H5 H6 H7 H8]. constructor; cbn; try done.
        - intros j Hj. rewrite lookup_delete_ne by done. auto.
        - unfold mons_named. cbn. rewrite lookup_delete. cbn. intros r from d'. by rewrite lookup_empty. }
      destruct (w_regs w !! me) as [r|] eqn:E.
      - exists (Some (Telling, why, n)), false. cbn [owe]. split; [split; [done|]; split; [apply (b_named _ Hb)|]; right; split; [done|]|split; [done|]].
        + apply Ht. rewrite E. eauto.
        + left. split; [done|]. rewrite Ee. split; [done|done].
      - exists None, false. cbn [owe]. split; [split; [done|]; split; [apply (b_named _ Hb)|by left]|]. split; [done|]. left. split; [done|]. rewrite Ee. split; [done|].
        split_and!; [done..|]. unfold done_for. cbn. rewrite E. by intros [? ?]. }
    intros st kn ms (-> & Hn & Hst). destruct ms as [ms|]; cbn in Hn, Hst.
    2: { destruct Hst as [->|(_ & Hl)]; [split; done|]. by rewrite lookup_empty in Hl. }
    eapply (owe_bind ev J K (keep None false)); [apply (t_loop why n)|].
    - destruct Hst as [->|(-> & Hl)]; [by left|right]. split; [done|]. by apply sorted_refs_elem.
    - intros [r [from d']] Hx. apply sorted_refs_elem in Hx. by eapply Hn.
    - intros ? ? ? [-> ->]. apply t_frames.
  Qed.
  Lemma t_finish_target : owes (fun st _ _ => st = None) None false (drop_process target).
  Proof.
    unfold drop_process.
    eapply (owe_bind ev J K (fun st kn o => kn = false /\ match o with Some r => exists n, st = Some (Owing, final_reason r, n) | None => st = None end)).
    { intros w g x _ Hj Hx _. destruct Hj as (Hb & Hg). cbn [fst snd]. split; [unfold K; cbn; by rewrite lookup_delete_ne|].
      assert (basic (up_regs (delete target) w)) as Hb'.
      { destruct Hb as [H1 H2 H3 H4 H5 H6 H7 H8]. constructor; cbn; try done; rewrite lookup_delete_ne; done. }
      destruct (w_regs w !! target) as [r|] eqn:E.
      - assert (x = None /\ g = None /\ stored w) as (-> & -> & Ht).
        { destruct x as [[[[] ?] ?]|], g as [[? ?]|]; naive_solver. }
        exists (Some (Owing, final_reason r, length (w_log w))), false. cbn [owe]. split; [eauto|]. split; [done|]. left. split; [done|].
        split; [exact Hb'|]. unfold ev. rewrite E. cbn. rewrite lookup_delete. split_and!; [done..|].
        unfold stored in *. cbn. by rewrite lookup_delete_ne.
      - exists None, false. cbn [owe]. split; [done|]. split; [done|]. right. split; [done|]. split; [done|].
        split; [exact Hb'|]. assert (ev w (up_regs (delete target) w) g = g) as -> by (unfold ev; by rewrite E).
        unfold stored, done_for in *. cbn. rewrite lookup_delete, lookup_delete_ne by done. exact Hg. }
    intros st kn o (-> & Ho). destruct o as [r|].
    - destruct Ho as (n & ->). tseq; [destruct (r_name r); [tact (ANameDelete s)|done]|].
      apply t_seq; [apply t_link_down|intros _]. eapply owe_bind; [apply t_monitor_down_target|]. intros ? ? ? [-> ->]. by apply t_rest, not_eq_sym.
    - subst. eapply owe_bind; [tact (AGone target)|]. intros ? ? ? [-> ->]. done.
  Qed.
  Lemma t_finish i : owes (fun st _ _ => st = None) None false (drop_process i).
  Proof.
    destruct (decide (i = me)) as [->|Hm]; [apply t_finish_me|]. destruct (decide (i = target)) as [->|Ht]; [apply t_finish_target|by apply t_finish_other].
  Qed.
  Lemma t_call c : c <> CDemonitor me r0 -> owes (fun st _ _ => st = None) None false (call_prog S c).
  Proof.
    intros Hc. assert ((forall y, fp S c y -> mild false y) -> owes (fun st _ _ => st = None) None false (call_prog S c)) as Hfp.
    { intros H. eapply owe_mono; [|eapply t_fp; [exact H|apply call_fp]]. by intros ? ? ? [? _]. }
    destruct c; try (apply Hfp; clear -Hc; intros y Hy; destruct y; cbn in Hy |- *; try exact I; try done; unfold msg_item, user_item, fp_monitor_alias, fp_crash, fp_exit in *; repeat case_match; naive_solver);
      cbn [call_prog]; unfold ret_as.
    - eapply owe_bind; [apply t_spawn|]. by intros ? ? ? [-> ->].
    - eapply owe_bind; [|by intros ? ? ? H; exact H]. unfold monitor. eapply owe_mono; [|eapply t_seq'; [apply t_fresh|]]; [by intros ? ? ? H; exact H|]. intros r [Hr _].
      cbn. tseq; [by apply t_monitor_install|done].
    - eapply owe_bind; [|by intros ? ? ? H; exact H]. unfold monitor_alias. eapply t_seq'; [apply t_fresh|]. intros r [Hr _]. tseq; [tact (AAliasCreate me0 r reply)|].
      tseq; [by apply t_monitor_install|done].
    - eapply owe_bind; [apply t_demonitor; intros [-> ->]; by apply Hc|]. by intros ? ? ? [-> ->].
    - eapply owe_bind; [apply t_finish|]. by intros ? ? ? ->.
    - eapply owe_bind; [|by intros ? ? ? H; exact H]. unfold crash. tseq; [tact (ASetExit me0 why)|apply t_finish].
    - eapply owe_bind; [apply t_node_monitor|]. by intros ? ? ? [-> ->].
    - eapply owe_bind; [apply t_supervise|]. by intros ? ? ? [-> ->].
    - eapply owe_bind; [apply t_supdown|]. by intros ? ? ? [-> ->].
    - apply Hfp. clear. intros y Hy. destruct y; cbn in Hy |- *; try exact I; try done; destruct f; try done; try (destruct Hy; done).
      all: try (destruct Hy as (_ & Hy & Hy' & _); split; [intros ->; done|congruence]).
      all: try (destruct Hy as (_ & _ & Hy & _); intros ->; done).
      right. intros ->. done.
  Qed.
End watch.
