(** Monitors of remote processes on a local one, in every schedule: proofs. *)
From stdpp Require Import base list gmap numbers strings countable sorting relations.
From Coq Require Import Lia.
From Verif Require Import Prog ProgProofs ProgInv Types Mailbox World ProcApi NodeApi Api Steps Hist Labels SchedSpec SchedProofs ProcSpec ProcProofs MonProofs
  NetSpec NetProofs ConnProofs ConnLasts Debt TieSpec.

(** What a process does not have in its table of monitors does not get there by receiving. *)
Section receiving.
  Context (S : serde) (r0 : reference).
  Lemma r_process_item_none T x l r x' l' : process_item S T x l = (r, x', l') ->
    l_monitors l !! r0 = None -> l_monitors l' !! r0 = None.
  Proof.
    unfold process_item. intros H Hl.
    assert (forall r1, delete r1 (l_monitors l) !! r0 = None) as Hd by (intros; apply lookup_delete_None; auto).
    assert (forall r1 p, alter (fun _ : pmonitor => p) r1 (l_monitors l) !! r0 = None) as Ha by (intros; by rewrite lookup_alter_None).
    destruct x; repeat case_match; simplify_eq; cbn; auto.
  Qed.
  Lemma r_scan_items_none T f b its l s its' l' : scan_items S T f b its l = (s, its', l') ->
    l_monitors l !! r0 = None -> l_monitors l' !! r0 = None.
  Proof.
    revert l s its' l'; induction its as [|x its IH]; intros l s its' l' H Hl; cbn in H; [by simplify_eq|].
    destruct (process_item S T x l) as [[r x'] l1] eqn:E. apply r_process_item_none in E; [|exact Hl].
    repeat case_match; simplify_eq; eauto.
  Qed.
  Lemma r_scan_chan_none T f b ch l s l' : scan_chan S T f b ch l = (s, l') ->
    l_monitors l !! r0 = None -> l_monitors l' !! r0 = None.
  Proof.
    revert l s l'; induction ch as [|x ch IH]; intros l s l' H Hl; cbn in H; [by simplify_eq|].
    destruct (process_item S T x l) as [[r x'] l1] eqn:E. apply r_process_item_none in E; [|exact Hl].
    repeat case_match; simplify_eq; eauto.
  Qed.
  Lemma r_select_none T f b l s l' : select S T f b l = (s, l') -> l_monitors l !! r0 = None -> l_monitors l' !! r0 = None.
  Proof.
    unfold select. intros H Hl. destruct (scan_items S T f b (l_items l) l) as [[s1 i1] l1] eqn:E.
    apply r_scan_items_none in E; [|exact Hl]. destruct s1; simplify_eq; cbn; auto. by eapply r_scan_chan_none in H.
  Qed.
End receiving.
Inductive stage := Owing | Telling.
Section watch.
  Context (S : serde) (nm : string) (ad : sockaddr) (id : N) (p : pid) (st : node_state) (so : option pid) (k f target : N).
  Context (Hst : st <> Known) (Hso : st = Connected -> is_Some so) (Hts : forall s, so = Some s -> pid_id s <> target).
  Notation nd := (NRemote nm ad).
  Notation r0 := (RRemote k id).
  Notation record q := (on_record nm ad id p st so q).
  Notation stream := (stream nm ad so).
  Notation steady := (steady nm ad id p st).
  Notation entry0 := (PRemote f id, None : option dest).
  Definition ghost := option (exit_reason * nat).
  Definition ev (w w' : world) (g : ghost) : ghost :=
    match w_regs w !! target, w_regs w' !! target with
    | Some r, None => Some (final_reason r, length (stream w'))
    | _, _ => g
    end.
  (** The process that writes to the connection is there. *)
  Definition sender_up (w : world) : Prop := forall s, so = Some s -> is_Some (w_regs w !! pid_id s).
  Definition done_for (why : exit_reason) (n : nat) (w : world) : Prop :=
    sender_up w -> exists rs, k ∈ rs /\ FMonitorDown rs why ∈ drop n (stream w).
  Definition stored (w : world) : Prop := default ∅ (w_mons w !! target) !! r0 = Some entry0.
  Record rest (w : world) : Prop := Rest {
    b_t : (target < w_next_pid w)%N;
    b_s : forall s, so = Some s -> (pid_id s < w_next_pid w)%N;
    b_nodes : forall nd', nd' <> nd -> default ∅ (w_nmons w !! nd') !! r0 = None;
    b_tables : forall j l, w_loc w !! j = Some l -> l_monitors l !! r0 = None;
    b_named : mons_named w target }.
  Definition basic (w : world) : Prop := record [] w /\ rest w.
  Definition J (w : world) (g : ghost) (x : option (stage * exit_reason * nat)) : Prop :=
    basic w /\
    match x, g with
    | None, None => is_Some (w_regs w !! target) /\ stored w
    | None, Some (why, n) => w_regs w !! target = None /\ n <= length (stream w) /\ done_for why n w
    | Some (Owing, why, n), Some g => g = (why, n) /\ w_regs w !! target = None /\ n <= length (stream w) /\ stored w
    | Some (Telling, why, n), Some g => g = (why, n) /\ w_regs w !! target = None /\ n <= length (stream w)
    | Some _, None => False
    end.
  Definition K (w : world) : Prop := False.
  Lemma record_weaken q w : record q w -> record [] w.
  Proof. intros [A B C D E]. constructor; try done. apply prefix_nil. Qed.
  Lemma record_here w : record [] w -> record (stream w) w.
  Proof. intros [A B C D E]. constructor; done. Qed.
  (** ** Steps that leave the monitor alone *)
  Record calm (w w' : world) : Prop := Calm {
    s_rest : rest w';
    s_t : is_Some (w_regs w !! target) <-> is_Some (w_regs w' !! target);
    s_s : sender_up w' -> sender_up w;
    s_stored : stored w -> stored w' }.
  Record still (w w' : world) : Prop := Still {
    s_basic : basic w';
    s_calm : calm w w';
    s_stream : stream w `prefix_of` stream w' }.
  Lemma still_J w g x w' : J w g x -> still w w' -> J w' (ev w w' g) x.
  Proof.
    intros (Hb & Hx) [Hs1 Hs Hpre].
    assert (ev w w' g = g) as ->.
    { unfold ev. pose proof (s_t _ _ Hs) as Ha. destruct (w_regs w !! target); [|done]. destruct (w_regs w' !! target) eqn:E; [done|].
      destruct (proj1 Ha) as [? ?]; [eauto|done]. }
    assert (w_regs w !! target = None -> w_regs w' !! target = None) as Ha.
    { intros H. pose proof (s_t _ _ Hs) as Ha. rewrite H in Ha. destruct (w_regs w' !! target); [|done]. destruct (proj2 Ha) as [? ?]; [eauto|done]. }
    assert (length (stream w) <= length (stream w')) as Hl by (by apply prefix_length).
    pose proof (s_stored _ _ Hs) as Ht. split; [exact Hs1|].
    destruct x as [[[[] why] n]|], g as [[why' n']|]; try done.
    - destruct Hx as (E & H1 & H2 & H3). split_and!; [done|auto|lia|auto].
    - destruct Hx as (E & H1 & H2). split_and!; [done|auto|lia].
    - destruct Hx as (H1 & H2 & H3). split_and!; [auto|lia|]. unfold done_for in *. intros Hm. destruct (H3 (s_s _ _ Hs Hm)) as (rs & Hk & Hr).
      exists rs. split; [done|]. destruct Hpre as (z & ->). rewrite drop_app_le by done. apply elem_of_app. by left.
    - destruct Hx as (H1 & H2). split; [by apply (s_t _ _ Hs)|auto].
  Qed.
  Lemma calm_refl w : rest w -> calm w w.
  Proof. intros Hb. by constructor. Qed.
  Lemma calm_same w w' : (w_next_pid w <= w_next_pid w')%N -> w_mons w' = w_mons w -> w_nmons w' = w_nmons w ->
    (forall j l', w_loc w' !! j = Some l' -> l_monitors l' !! r0 = None \/ exists l, w_loc w !! j = Some l /\ (l_monitors l !! r0 = None -> l_monitors l' !! r0 = None)) ->
    ((target < w_next_pid w)%N -> is_Some (w_regs w !! target) <-> is_Some (w_regs w' !! target)) ->
    (forall s, so = Some s -> (pid_id s < w_next_pid w)%N -> is_Some (w_regs w' !! pid_id s) -> is_Some (w_regs w !! pid_id s)) ->
    rest w -> calm w w'.
  Proof.
    intros E2 E3 E4 E5 E7 E8 [H1 H2 H3 H4 H5]. constructor; auto.
    - constructor; rewrite ?E3, ?E4; try done; try lia.
      + intros s Hs. specialize (H2 s Hs). lia.
      + intros j l' Hl. destruct (E5 j l' Hl) as [?|(l & Hl1 & Hl2)]; [done|]. eapply Hl2, H4; done.
      + unfold mons_named. rewrite E3. exact H5.
    - intros Hs s Es. apply E8; [done|by apply H2|by apply Hs].
    - unfold stored. by rewrite E3.
  Qed.
  Ltac plain_loc := intros ? l' ?; right; exists l'; done.
  Lemma calm_push i x w : rest w -> calm w (push i x w).
  Proof.
    intros Hb. unfold push. destruct (w_loc w !! i) as [l|] eqn:E; [|by apply calm_refl]. apply calm_same; cbn; try done.
    intros j l'. destruct (decide (i = j)) as [<-|Hne]; [rewrite lookup_insert|rewrite lookup_insert_ne by done; eauto]. intros [= <-]. right. by exists l.
  Qed.
  Lemma calm_regs w i (g : registration) : is_Some (w_regs w !! i) -> rest w -> calm w (up_regs (<[i := g]>) w).
  Proof.
    intros Hi Hb. apply calm_same; cbn; try done; [plain_loc| |].
    - intros _. destruct (decide (i = target)) as [->|Hne]; [rewrite lookup_insert|by rewrite lookup_insert_ne]. split; [eauto|done].
    - intros s _ _. destruct (decide (i = pid_id s)) as [->|Hne]; [rewrite lookup_insert|by rewrite lookup_insert_ne]. done.
  Qed.
  Lemma calm_alter w i g : rest w -> calm w (up_regs (alter g i) w).
  Proof.
    intros Hb. apply calm_same; cbn; try done; [plain_loc| |]; intros; by rewrite lookup_alter_is_Some in *.
  Qed.
  Lemma calm_trans w1 w2 w3 : calm w1 w2 -> calm w2 w3 -> calm w1 w3.
  Proof.
    intros H1 H2. constructor.
    - apply H2.
    - rewrite (s_t _ _ H1). apply H2.
    - intros H. by apply (s_s _ _ H1), (s_s _ _ H2).
    - intros H. by apply (s_stored _ _ H2), (s_stored _ _ H1).
  Qed.
  Lemma calm_exit q g y w : rest w -> calm w (exit_op q g y w).
  Proof.
    intros Hb. unfold exit_op. destruct (w_regs w !! pid_id q) as [r|] eqn:E; [|by apply calm_refl].
    repeat case_match; try (by apply calm_refl); try (by apply calm_push); (apply calm_regs; [by rewrite E|done]).
  Qed.
  Lemma calm_exit_linked q g y w : rest w -> calm w (exit_linked_op q g y w).
  Proof.
    intros Hb. unfold exit_linked_op. destruct (w_regs w !! pid_id q) as [r|] eqn:E; [|by apply calm_refl].
    repeat case_match; try (by apply calm_refl); try (by apply calm_push); (apply calm_regs; [by rewrite E|done]).
  Qed.
  Lemma calm_spawn w : rest w -> calm w (fst (spawn_op w)).
  Proof.
    intros Hb. unfold spawn_op. cbn. apply calm_same; cbn; try done; try lia.
    - intros j l'. destruct (decide (w_next_pid w = j)) as [<-|Hne]; [rewrite lookup_insert|rewrite lookup_insert_ne by done; eauto]. intros [= <-]. left. apply lookup_empty.
    - intros Hn. by rewrite lookup_insert_ne by lia.
    - intros s _ Hn. by rewrite lookup_insert_ne by lia.
  Qed.
  Lemma calm_loc w (g : plocal -> plocal) j : (forall l, l_monitors l !! r0 = None -> l_monitors (g l) !! r0 = None) -> rest w -> calm w (up_loc (alter g j) w).
  Proof.
    intros Hg Hb. apply calm_same; cbn; try done.
    intros i l'. destruct (decide (j = i)) as [<-|Hne]; [rewrite lookup_alter|rewrite lookup_alter_ne by done; eauto].
    intros Hl. apply fmap_Some in Hl as (l & Hl & ->). right. exists l. auto.
  Qed.
  Definition mild (x : act) : Prop :=
    match x with
    | AOwnMonitor i r _ => r <> r0
    | AAddMon _ r p d' => r <> r0 /\ (pid_is_local p = true -> is_Some d')
    | ADelMon _ r => r <> r0
    | AAddNmon nd' r _ => nd' = nd \/ r <> r0
    | AMonsDelete i => i <> target
    | ARegDelete i => i <> target
    | AInsert i => i <> target /\ forall s, so = Some s -> pid_id s <> i
    | _ => True
    end.
  Ltac csame := apply calm_same; cbn; try done; [plain_loc].
  Lemma mild_calm x w : mild x -> rest w -> calm w (does S x w).
  Proof.
    intros Hx Hb.
    destruct x; cbn [does mild] in *; try (by apply calm_refl); try (by csame); try (by apply calm_push); try (by apply calm_exit); try (by apply calm_exit_linked); try (by apply calm_alter).
    - apply calm_loc; [|done]. intros l Hl. cbn. done.
    - apply calm_loc; [|done]. intros l Hl. cbn. done.
    - apply calm_loc; [|done]. intros l Hl. cbn. by rewrite lookup_insert_ne.
    - apply calm_loc; [|done]. intros l Hl. cbn. apply lookup_delete_None. auto.
    - unfold receive_op. destruct (w_loc w !! me) as [l|] eqn:E; [|by apply calm_refl]. destruct (select S T f0 b l) as [s l'] eqn:Es. cbn. apply calm_same; cbn; try done.
      intros j l2. destruct (decide (me = j)) as [<-|Hne]; [rewrite lookup_insert|rewrite lookup_insert_ne by done; eauto]. intros [= <-]. right. exists l. split; [done|].
      by eapply r_select_none.
    - unfold alias_take_op. repeat case_match; first [by apply calm_refl|csame].
    - unfold send_to. destruct (w_regs w !! i); [by apply calm_push|by apply calm_refl].
    - unfold node_register_op. destruct (w_nmap w !! NRemote n a) as [i|]; cbn.
      + destruct c; [|by apply calm_refl]. destruct (w_nregs w !! i) as [r|]; [|by apply calm_refl]. destruct (n_sup r); [by apply calm_refl|].
        pose proof (calm_spawn w Hb) as Hs. unfold spawn_op in *. cbn in *. eapply calm_trans; [exact Hs|]. pose proof (s_rest _ _ Hs). csame.
      + destruct c.
        * assert (calm w (up_next_node N.succ w)) as H0 by csame. pose proof (calm_spawn _ (s_rest _ _ H0)) as Hs. unfold spawn_op in *. cbn in *.
          eapply calm_trans; [exact H0|eapply calm_trans; [exact Hs|]]. pose proof (s_rest _ _ Hs). csame.
        * csame.
    - unfold send_frame, hand_out. repeat case_match; first [by apply calm_refl|csame].
    - apply calm_same; cbn; try done; try lia.
      intros j l'. destruct (decide (w_next_pid w = j)) as [<-|Hne]; [rewrite lookup_insert|rewrite lookup_insert_ne by done; eauto]. intros [= <-]. left. apply lookup_empty.
    - destruct Hx as [H1 H2]. apply calm_same; cbn; try done; [plain_loc| |]; intros; [by rewrite lookup_insert_ne|]. rewrite lookup_insert_ne in *; [done|]. by apply not_eq_sym, H2.
    - unfold register_op. destruct p0 as [i|]; [|by apply calm_refl]. destruct (w_names w !! n) as [i'|]; [destruct (decide (i' = i)); by apply calm_refl|].
      destruct (w_regs w !! i) eqn:E; [|by apply calm_refl]. destruct (r_name r); [by apply calm_refl|]. cbn.
      pose proof (calm_regs w i (Reg (Some n) (r_trap r) (r_exit r) (r_abort r)) ltac:(by rewrite E) Hb) as Hs. eapply calm_trans; [exact Hs|]. pose proof (s_rest _ _ Hs). csame.
    - apply calm_same; cbn; try done; [plain_loc| |].
      + intros _. by rewrite lookup_delete_ne.
      + intros s _ _ H. destruct (decide (i = pid_id s)) as [->|Hne]; [rewrite lookup_delete in H; by destruct H|by rewrite lookup_delete_ne in H].
    - apply calm_same; cbn; try done.
      intros j l' Hl. apply lookup_delete_Some in Hl as [_ Hl]. right. by exists l'.
    - destruct Hx as [Hr Hd]. destruct Hb as [H1 H2 H3 H4 H5]. unfold add_mon. constructor; cbn; try done.
      + constructor; cbn; try done.
        unfold mons_named in *. cbn. intros r1 from d1. destruct (decide (i = target)) as [->|Hne]; [|rewrite lookup_insert_ne by done; apply H5].
        rewrite lookup_insert. cbn. destruct (decide (r = r1)) as [->|Hn]; [rewrite lookup_insert; intros E; injection E as <- <-; exact Hd|rewrite lookup_insert_ne by done; apply H5].
      + unfold stored; cbn. intros Hs. destruct (decide (i = target)) as [->|Hne]; [|rewrite lookup_insert_ne by done; auto]. rewrite lookup_insert. cbn.
        rewrite lookup_insert_ne by done. auto.
    - destruct Hb as [H1 H2 H3 H4 H5]. unfold del_mon. constructor; cbn; try done.
      + constructor; cbn; try done.
        unfold mons_named in *. cbn. intros r1 from d1. destruct (decide (i = target)) as [->|Hne]; [|rewrite lookup_alter_ne by done; apply H5].
        rewrite lookup_alter. destruct (w_mons w !! target); cbn in *; [|by rewrite lookup_empty]. intros Hl. apply lookup_delete_Some in Hl as [_ Hl]. eauto.
      + unfold stored; cbn. intros Hs.
        destruct (decide (i = target)) as [->|Hne]; [|rewrite lookup_alter_ne by done; auto]. rewrite lookup_alter.
        destruct (w_mons w !! target); cbn in *; [|done]. by rewrite lookup_delete_ne.
    - destruct Hb as [H1 H2 H3 H4 H5]. constructor; cbn; try done.
      + constructor; cbn; try done. unfold mons_named in *. cbn. by rewrite lookup_delete_ne.
      + unfold stored; cbn. by rewrite lookup_delete_ne.
    - destruct Hb as [H1 H2 H3 H4 H5]. unfold add_nmon. constructor; cbn; try done. constructor; cbn; try done.
      intros nd' Hnd. destruct (decide (n = nd')) as [->|Hne]; [|rewrite lookup_insert_ne by done; auto]. destruct Hx as [?|Hx]; [done|].
      rewrite lookup_insert. cbn. rewrite lookup_insert_ne by done. auto.
    - destruct Hb as [H1 H2 H3 H4 H5]. unfold del_nmon. constructor; cbn; try done. constructor; cbn; try done.
      intros nd' Hnd. specialize (H3 nd' Hnd). destruct (decide (n = nd')) as [->|Hne]; [|rewrite lookup_alter_ne by done; auto].
      rewrite lookup_alter. destruct (w_nmons w !! nd'); cbn in *; [|apply lookup_empty]. apply lookup_delete_None. auto.
    - destruct Hb as [H1 H2 H3 H4 H5]. unfold del_nmons. constructor; cbn; try done. constructor; cbn; try done.
      intros nd' Hnd. specialize (H3 nd' Hnd). destruct (decide (n = nd')) as [->|Hne]; [|rewrite lookup_alter_ne by done; auto].
      rewrite lookup_alter. destruct (w_nmons w !! nd') as [m|]; cbn in *; [|apply lookup_empty].
      clear -H3. induction l as [|r l IH]; cbn; [exact H3|]. apply lookup_delete_None. auto.
    - destruct Hb as [H1 H2 H3 H4 H5]. constructor; cbn; try done. constructor; cbn; try done.
      intros nd' Hnd. specialize (H3 nd' Hnd). destruct (decide (n = nd')) as [->|Hne]; [|rewrite lookup_delete_ne by done; auto]. rewrite lookup_delete. apply lookup_empty.
    - unfold node_start_op. destruct (w_nmap w !! NLocal); [by apply calm_refl|].
      pose proof (calm_spawn w Hb) as Hs. unfold spawn_op in *. cbn in *. eapply calm_trans; [exact Hs|]. pose proof (s_rest _ _ Hs). csame.
    - unfold node_disconnect_op. case_match; [|by apply calm_refl]. case_match; [|by apply calm_refl].
      assert (calm w (up_pend (delete n) w)) as Hz by csame. case_match; [|csame].
      pose proof (calm_exit p1 p0 RKill _ (s_rest _ _ Hz)) as Hs.
      eapply calm_trans; [exact Hz|eapply calm_trans; [exact Hs|]]. pose proof (s_rest _ _ Hs). csame.
    - unfold node_accept_op. case_match; [|csame]. case_match; [|by apply calm_refl].
      match goal with |- context [if bool_decide _ then ?x else w] => set (w1 := if bool_decide (n_state n1 = Pending) then x else w) end.
      assert (calm w w1) as H1. { unfold w1. repeat case_match; try (by apply calm_refl). by apply calm_exit. }
      clearbody w1. case_match; [exact H1|]. eapply calm_trans; [exact H1|]. pose proof (s_rest _ _ H1). csame.
    - unfold node_workers_op, hand_out. repeat case_match; first [by apply calm_refl|csame].
    - unfold sup_down_op. repeat case_match; first [by apply calm_refl|csame].
  Qed.
  Definition fine (x : act) : Prop := steady x /\ mild x.
  Lemma fine_still x w : fine x -> basic w -> still w (does S x w).
  Proof.
    intros [Hs Hm] [Hr Hb]. pose proof (mild_calm x w Hm Hb) as Hc.
    pose proof (steady_act S nm ad id p st so _ Hso x w Hs (record_here w Hr)) as Hr'.
    constructor; [split; [by eapply record_weaken|apply Hc]|exact Hc|apply Hr'].
  Qed.
  (** ** Programs *)
  Notation owes := (owe ev J K).
  Notation keep o := (fun o' (_ : bool) _ => o' = o).
  Lemma K0 w w' : K w -> K w'.
  Proof. intros []. Qed.
  Lemma t_guar {A} (pr : prog world A) kn : guar (lstep S fine) pr -> owes (keep None) None kn pr.
  Proof.
    intros H. eapply owe_mono; [|eapply owe_guar; [|exact H]]; [by intros ? ? ? [? _]|]. intros w g x w' Hj Hk (y & Hy & ->). split; [apply K0|].
    apply still_J; [done|]. apply fine_still; [done|apply Hj].
  Qed.
  Lemma t_fp {A} (F : act -> Prop) (pr : prog world A) kn : (forall y, F y -> fine y) -> guar (lstep S F) pr -> owes (keep None) None kn pr.
  Proof. intros H Hp. apply t_guar. eapply guar_mono; [apply lstep_mono, H|exact Hp]. Qed.
  Lemma t_atom {A} (Q : A -> Prop) o kn (op : world -> world * A) y : (forall w, fst (op w) = does S y w) -> fine y -> (forall w, basic w -> Q (snd (op w))) ->
    owes (fun o' _ y => o' = o /\ Q y) o kn (atom op).
  Proof.
    intros Hf Hy HQ. eapply owe_mono; [|apply (owe_keep ev J K Q)]; [by intros ? ? ? (? & _ & ?)|]. intros w g x Hj _ _. rewrite Hf. split; [apply K0|].
    split; [|apply HQ, Hj]. apply still_J; [done|]. apply fine_still; [done|apply Hj].
  Qed.
  Lemma t_atom' {A} o kn (op : world -> world * A) y : (forall w, fst (op w) = does S y w) -> fine y -> owes (keep o) o kn (atom op).
  Proof. intros H Hy. eapply owe_mono; [|apply (t_atom (fun _ => True) o kn op y H Hy); done]. by intros ? ? ? (? & _). Qed.
  Lemma t_act o kn g y : (forall w, g w = does S y w) -> fine y -> owes (keep o) o kn (modify g).
  Proof. intros Hf Hy. by apply (t_atom' _ _ _ y). Qed.
  Lemma fine0 y : match y with
    | ADisconnect _ _ | AWorkers _ _ _ | ANmapDelete _ | APendDelete _ | AAccept _ _ _ _ | ASupDown _ _ | ANregsDelete _ | ANmapClear | ANregsClear | APendClear => False
    | AOwnMonitor _ _ _ | AAddMon _ _ _ _ | ADelMon _ _ | AAddNmon _ _ _ | AMonsDelete _ | ARegDelete _ | AInsert _ => False
    | _ => True end -> fine y.
  Proof. by destruct y. Qed.
  Lemma t_observe {A} o kn (g : world -> A) : owes (keep o) o kn (observe g).
  Proof. by apply (t_atom' _ _ _ ANone). Qed.
  Lemma t_seq {A B} (Q : option (stage * exit_reason * nat) -> bool -> B -> Prop) o kn (pr : prog world A) (q : A -> prog world B) :
    owes (keep o) o kn pr -> (forall y kn, owes Q o kn (q y)) -> owes Q o kn (bind pr q).
  Proof. intros Hp Hq. eapply (owe_bind ev J K); [exact Hp|]. intros ? ? ? ->. apply Hq. Qed.
  Lemma t_seq' {A B} (P : A -> Prop) (Q : option (stage * exit_reason * nat) -> bool -> B -> Prop) o kn (pr : prog world A) (q : A -> prog world B) :
    owes (fun o' _ y => o' = o /\ P y) o kn pr -> (forall y kn, P y -> owes Q o kn (q y)) -> owes Q o kn (bind pr q).
  Proof. intros Hp Hq. eapply (owe_bind ev J K); [exact Hp|]. intros ? ? ? (-> & Hy). by apply Hq. Qed.
  Lemma t_each {B} o kn (l : list B) body : (forall x kn, x ∈ l -> owes (keep o) o kn (body x)) -> owes (keep o) o kn (each l body).
  Proof.
    revert kn. induction l as [|x l IH]; intros kn H; cbn; [done|]. apply t_seq; [apply H; set_solver|]. intros _ kn'. apply IH. intros; apply H; set_solver.
  Qed.
  Ltac tseq := apply t_seq; [|intros ? ?].
  Ltac tfine := first [exact (fine0 _ I) | split; cbn; auto].
  Ltac tact y := apply (t_act _ _ _ y); [reflexivity|tfine].
  Ltac tatom y := apply (t_atom' _ _ _ y); [reflexivity|tfine].
  Lemma t_fresh kn : owes (fun o' _ r => o' = None /\ (ref_is_local r = true)) None kn fresh_ref.
  Proof. apply (t_atom (fun r => ref_is_local r = true) None kn _ AFreshRef); done. Qed.
  Lemma local_ne r : ref_is_local r = true -> r <> r0.
  Proof. by intros H ->. Qed.
  (** The id of a node in a frame that came from it. *)
  Lemma t_node_register n c kn : owes (fun o' _ i => o' = None /\ (i = id -> n = nd)) None kn (node_register n c).
  Proof.
    unfold node_register. destruct n as [|n a].
    { done. }
    apply (t_atom (fun i => i = id -> NRemote n a = nd) None kn _ (ANodeRegister n a c)); [done|tfine|]. intros w [Hr Hb].
    unfold node_register_op. destruct (w_nmap w !! NRemote n a) as [i|] eqn:E; cbn; [intros ->; by apply (or_inj _ _ _ _ _ _ _ _ Hr)|].
    intros E2. pose proof (or_bound _ _ _ _ _ _ _ _ Hr). lia.
  Qed.
  Lemma t_alias_destroy o kn r : owes (keep o) o kn (alias_destroy r).
  Proof. tatom (AAliasDelete (ref_id r)). Qed.
  Lemma t_self_down m d' r why kn : owes (keep None) None kn (self_down m d' r why).
  Proof. unfold self_down. tseq; [tact (APush m (IProcessDown d' r (RCustom why)))|]. tseq; [apply t_alias_destroy|done]. Qed.
  Lemma t_node_register' n c kn : owes (keep None) None kn (node_register n c).
  Proof. eapply owe_mono; [|apply t_node_register]. by intros ? ? ? [? _]. Qed.
  Lemma t_monitor_remote m n a r d' i nm' kn : r <> r0 -> owes (keep None) None kn (monitor_remote m n a r d' i nm').
  Proof.
    intros Hr. unfold monitor_remote. tseq; [tact (AAddNmon (NRemote n a) r (NMProcess m d'))|].
    tseq; [apply t_node_register'|]. tact (ASendFrame (FMonitor true i nm' (Some m) (ref_id r)) y0).
  Qed.
  Lemma t_monitor_local m i r d' kn : r <> r0 -> owes (keep None) None kn (monitor_local m i r d').
  Proof.
    intros Hr. unfold monitor_local. tseq; [apply t_observe|]. case_match; [|apply t_self_down].
    apply (t_act _ _ _ (AAddMon i r (PLocal m) (Some d'))); [reflexivity|]. split; [exact I|]. cbn. split; [done|eauto].
  Qed.
  Lemma t_own_monitor m r x kn : r <> r0 -> owes (keep None) None kn (own_monitor m r x).
  Proof. intros Hr. tact (AOwnMonitor m r x). Qed.
  Lemma t_monitor_install m d' r kn : r <> r0 -> owes (keep None) None kn (monitor_install m d' r).
  Proof.
    intros Hr. unfold monitor_install. destruct d' as [p'|n [|nm' a]|]; [| | |done].
    - case_decide; [done|]. tseq; [by apply t_own_monitor|]. destruct (pid_is_local p'); [by apply t_monitor_local|].
      tseq; [apply t_observe|]. case_match; [case_match; by apply t_monitor_remote | by apply t_self_down].
    - tseq; [apply t_observe|]. case_match.
      + tseq; [by apply t_own_monitor | by apply t_monitor_local].
      + tseq; [by apply t_own_monitor | by apply t_self_down].
    - tseq; [by apply t_own_monitor | by apply t_monitor_remote].
  Qed.
  Lemma t_spawn m l b kn : owes (keep None) None kn (spawn m l b).
  Proof.
    unfold spawn. eapply (t_seq' (fun i => i <> target /\ forall s, so = Some s -> pid_id s <> i)).
    { apply (t_atom _ None kn _ AAlloc); [done|tfine|]. intros w [_ Hb]. cbn. pose proof (b_t _ Hb). split; [lia|]. intros s Hs. pose proof (b_s _ Hb s Hs). lia. }
    intros i kn' [Ht Hm]. tseq; [destruct l; [|done]; tseq; [tact (AAddLink i (PLocal m))|tact (AAddLink m (PLocal i))]|].
    tseq.
    { destruct b; [|done]. eapply t_seq'; [apply t_fresh|]. intros r kn2 Hr. apply local_ne in Hr. tseq; [by apply t_own_monitor|].
      tseq; [|done]. apply (t_act _ _ _ (AAddMon i r (PLocal m) (Some (DPid (PLocal i))))); [reflexivity|]. split; [exact I|]. cbn. split; [done|eauto]. }
    tseq; [tact (ARunning i)|]. tseq; [tact (AInsert i)|done].
  Qed.
  Lemma t_supervise m name addr kn : NRemote name addr <> nd \/ st = Connected -> owes (keep None) None kn (remote_supervisor m name addr).
  Proof.
    intros Hc. unfold remote_supervisor. eapply (t_seq' (fun b => b = true -> NRemote name addr <> nd)).
    { apply (t_atom _ None kn _ (AAccept name addr (PLocal m) (PLocal m))); [done|split; [exact Hc|exact I]|]. intros w [Hr Hb0] Hb Heq.
      destruct Hc as [Hc|Hc]; [done|]. injection Heq as -> ->. destruct (or_reg _ _ _ _ _ _ _ _ Hr) as (r & Er & R1 & R2 & _).
      rewrite (accept_refused _ _ _ _ w p) in Hb; [done|]. exists r. unfold entry. rewrite (or_map _ _ _ _ _ _ _ _ Hr), Er. split_and!; try done. congruence. }
    intros b kn' Hb. destruct b; cbn [negb]; [|exact eq_refl]. specialize (Hb eq_refl). tseq; [apply t_spawn|]. tseq; [apply t_spawn|]. tseq; [|done]. tact (AWorkers (NRemote name addr) y.1 y0.1).
  Qed.
  Lemma t_monitor_destroy q r kn : r <> r0 -> owes (keep None) None kn (monitor_destroy q r).
  Proof.
    intros Hr. unfold monitor_destroy. case_match; [tact (ADelMon (pid_id q) r)|].
    tseq; [tact (ASendFrame (FMonitor false (Some (pid_id q)) None None (ref_id r)) (ref_node r))|].
    tseq; [apply t_observe|]. case_match; [|done]. case_match. tact (ADelNmon (NRemote s s0) r).
  Qed.
  Lemma t_demonitor m r kn : owes (keep None) None kn (demonitor m r).
  Proof.
    unfold demonitor. eapply (t_seq' (fun x => r = r0 -> x = None)).
    - apply (t_atom _ None kn _ (AOwnDemonitor m r)); [done|tfine|]. intros w [_ Hb] ->. cbn.
      destruct (w_loc w !! m) as [l|] eqn:E; [|reflexivity]. apply (b_tables _ Hb m l E).
    - intros [[[q|]|]|] kn' Hx; try done. assert (r <> r0) as Hr by (intros E; by specialize (Hx E)).
      tseq; [by apply t_monitor_destroy|]. tseq; [apply t_alias_destroy|done].
  Qed.
  Lemma t_supdown n q kn : ~ (n = nd /\ q = p) -> owes (keep None) None kn (supervisor_down n q).
  Proof.
    intros Hc. unfold supervisor_down. eapply (t_seq' (fun b => b = true -> n <> nd)).
    { apply (t_atom _ None kn _ (ASupDown n q)); [done|split; [exact Hc|exact I]|]. intros w [Hw _] Hb ->. destruct (or_reg _ _ _ _ _ _ _ _ Hw) as (r & Er & R1 & _).
      unfold sup_down_op in Hb. rewrite (or_map _ _ _ _ _ _ _ _ Hw), Er, R1 in Hb. rewrite bool_decide_true in Hb; [done|]. intros <-. by apply Hc. }
    intros b kn' Hb. destruct b; cbn [negb]; [|done]. specialize (Hb eq_refl). tseq; [tatom (ANlinksDelete n)|].
    tseq. { apply t_each. intros x ? _. tseq; [tact (ADelLink x.2 x.1) | tact (AExitLinked (PLocal x.2) x.1 (RCustom "noconnection"))]. }
    eapply (t_seq' (fun ms => default ∅ ms !! r0 = None)).
    { apply (t_atom _ None _ _ (ANmonsDelete n)); [done|tfine|]. intros w [_ Hw]. by apply (b_nodes _ Hw). }
    intros ms kn2 Hms. tseq; [|tact (APendDelete n)].
    apply t_each. intros [r m] kn3 Hx. apply sorted_refs_elem in Hx. cbn [fst snd]. assert (r <> r0) as Hr by congruence.
    tseq.
    - destruct m as [i|i d'|i]; [tact (ASendTo i (INodeDown n r))|tact (ASendTo i (IProcessDown d' r (RCustom "noconnection")))|].
      by apply t_monitor_destroy.
    - destruct (ref_is_local r); [tseq; [apply t_alias_destroy|done]|done].
  Qed.
  Lemma t_node_monitor m n kn : owes (keep None) None kn (node_monitor m n).
  Proof.
    unfold node_monitor. destruct n; [done|]. eapply t_seq'; [apply t_fresh|]. intros r ? Hr. apply local_ne in Hr.
    tseq; [by apply t_own_monitor|]. tseq; [tact (AAddNmon (NRemote name addr) r (NMNode m))|].
    tseq; [apply t_node_register'|done].
  Qed.
  Lemma t_forget m n kn : n <> nd -> owes (keep None) None kn (forget m n).
  Proof.
    intros Hc. unfold forget. destruct n as [|n a]; [done|]. unfold node_forget.
    eapply (t_seq' (fun o => o <> Some id)).
    { apply (t_atom _ None kn _ (ANmapDelete (NRemote n a))); [done|tfine|]. intros w [Hw _] E. cbn in E. apply Hc. by apply (or_inj _ _ _ _ _ _ _ _ Hw). }
    intros [i|] kn' Hi; [|done]. tseq; [tatom (ANregsDelete i); congruence|]. destruct y as [r|]; [|done]. tseq; [tact (APendDelete (NRemote n a))|].
    destruct (n_sup r) as [s|]; [|done]. unfold exit. destruct (pid_is_local s); [tact (AExit s (PLocal m) RKill)|tact (ASendFrame (FExit (pid_id s) m RKill) (pid_node s))].
  Qed.
  Lemma t_on_monitor n i install q name from ref_ kn : (i = id -> n = nd) -> ~ (n = nd /\ ref_ = k) -> owes (keep None) None kn (on_monitor n i install q name from ref_).
  Proof.
    intros Hi Hk. assert (RRemote ref_ i <> r0) as Hr by (intros [= -> ->]; tauto).
    unfold on_monitor. destruct from as [f'|]; [|done]. destruct install.
    - assert (forall j, fine (AAddMon j (RRemote ref_ i) (PRemote f' i) None)) as Ha by (intros j; split; [exact I|]; cbn; done).
      destruct q as [j|]; [|destruct name as [s|]; [|done]].
      + tseq; [apply t_observe|]. destruct y; [|tact (ASendFrame (FMonitorDown [ref_] (RCustom "noproc")) i)].
        tseq; [by apply (t_act _ _ _ (AAddMon j (RRemote ref_ i) (PRemote f' i) None))|]. tact (AAddNmon n (RRemote ref_ i) (NMCleanup j)).
      + unfold name_lookup. tseq; [apply t_observe|]. destruct y as [j|]; [|tact (ASendFrame (FMonitorDown [ref_] (RCustom "noproc")) i)].
        tseq; [by apply (t_act _ _ _ (AAddMon j (RRemote ref_ i) (PRemote f' i) None))|]. tseq; [tact (ASendFrame (FMonitorUpdate f' j ref_) i)|].
        tact (AAddNmon n (RRemote ref_ i) (NMCleanup j)).
    - destruct q as [j|].
      + tseq; [by apply t_monitor_destroy|]. tact (ADelNmon n (RRemote ref_ i)).
      + done.
  Qed.
  Lemma t_link_down o i why kn : owes (keep o) o kn (link_process_down (PLocal i) why).
  Proof.
    unfold link_process_down. cbn [pid_id]. tseq; [tatom (ALinksDelete i)|]. destruct y as [ls|]; [|done]. tseq.
    - apply t_each. intros q ? _. tseq; [tact (ADelLink (pid_id q) (PLocal i))|tact (AExitLinked q (PLocal i) why)].
    - apply t_each. intros g ? _. tseq; [apply t_observe|]. tseq; [|tact (ASendFrame (FLinkDown (map pid_id (snd g)) i why) (fst g))].
      case_match; [|done]. case_match. tact (ADelNlinks (NRemote s s0) (map (fun p => (p, i)) (snd g))).
  Qed.
  Definition one_node (why : exit_reason) (g : N * list (reference * (pid * option dest))) : prog world unit :=
    let! n := observe (lookup_remote (fst g)) in
    do! match n with
        | Some (name, addr) => modify (del_nmons (NRemote name addr) (map fst (snd g)))
        | None => Ret tt
        end in
    modify (send_frame (FMonitorDown (map (fun x => ref_id (fst x)) (snd g)) why) (fst g)).
  Lemma t_one_node o why g kn : owes (keep o) o kn (one_node why g).
  Proof.
    unfold one_node. tseq; [apply t_observe|]. tseq; [|tact (ASendFrame (FMonitorDown (map (fun x => ref_id (fst x)) (snd g)) why) (fst g))].
    case_match; [|done]. case_match. tact (ADelNmons (NRemote s s0) (map fst (snd g))).
  Qed.
  Definition one (why : exit_reason) (x : reference * (pid * option dest)) : prog world unit :=
    do! (if pid_is_local (fst (snd x)) then
           match snd (snd x) with
           | Some d => modify (send_to (pid_id (fst (snd x))) (IProcessDown d (fst x) why))
           | None =>
               let! e := observe (exists_proc (pid_id (fst (snd x)))) in
               if (e : bool) then Panic "called `Option::unwrap()` on a `None` value" else Ret tt
           end
         else Ret tt) in
    if ref_is_local (fst x) then do! alias_destroy (fst x) in Ret tt else Ret tt.
  Lemma t_one o why x kn : o = None \/ (pid_is_local (fst (snd x)) = true -> is_Some (snd (snd x))) -> owes (keep o) o kn (one why x).
  Proof.
    intros Hn. unfold one. tseq; [|destruct (ref_is_local x.1); [tseq; [apply t_alias_destroy|done]|done]].
    destruct (pid_is_local x.2.1); [|done]. destruct (x.2.2) as [d'|]; [tact (ASendTo (pid_id x.2.1) (IProcessDown d' x.1 why))|].
    destruct Hn as [->|Hn]; [|by destruct (Hn eq_refl)]. tseq; [apply t_observe|]. by destruct y.
  Qed.
  Lemma t_monitor_down i why kn : i <> target -> owes (keep None) None kn (monitor_process_down (PLocal i) why).
  Proof.
    intros Hi. unfold monitor_process_down. cbn [pid_id]. tseq; [tatom (AMonsDelete i)|]. destruct y as [ms|]; [|done].
    tseq; apply t_each; intros x ? _; [apply t_one; by left|apply t_one_node].
  Qed.
  (** What the process does after its monitors have been told. *)
  Lemma t_rest i kn : owes (fun o _ _ => o = None) None kn (
      let! l := observe (fun w => w_loc w !! i) in
      do! monitor_destroy_all (match l with Some l => sorted_refs (l_monitors l) | None => [] end) in
      do! alias_destroy_all (match l with Some l => sorted_ids (l_aliases l) | None => [] end) in
      modify (gone i)).
  Proof.
    eapply (t_seq' (fun l => match l with Some l => l_monitors l !! r0 = None | None => True end)).
    { apply (t_atom _ None kn _ ANone); [done|tfine|]. intros w [_ Hb]. cbn. destruct (w_loc w !! i) as [l|] eqn:E; [|exact I]. by apply (b_tables _ Hb i l E). }
    intros l kn' Hl. tseq.
    - unfold monitor_destroy_all. apply t_each. intros [rf m] ? Hx. cbn [fst snd].
      assert (rf <> r0) as Hr. { intros ->. destruct l as [l|]; [|by apply elem_of_nil in Hx]. apply sorted_refs_elem in Hx. congruence. }
      destruct m as [[q|]|n]; [|done|].
      + tseq; [destruct (pid_is_local q); [tact (ADelMon (pid_id q) rf) | tact (ASendFrame (FMonitor false (Some (pid_id q)) None None (ref_id rf)) (ref_node rf))]|].
        destruct (ref_is_local rf); [|done]. tseq; [apply t_alias_destroy|done].
      + tseq; [tact (ADelNmon n rf)|]. destruct (ref_is_local rf); [|done]. tseq; [apply t_alias_destroy|done].
    - tseq; [unfold alias_destroy_all; apply t_each; intros j ? _; tact (AAliasDelete j)|]. tact (AGone i).
  Qed.
  Lemma t_finish_other i kn : i <> target -> owes (fun o _ _ => o = None) None kn (drop_process i).
  Proof.
    intros Ht. unfold drop_process. tseq; [tatom (ARegDelete i)|]. destruct y as [r|]; [|tseq; [tact (AGone i)|done]].
    tseq; [destruct (r_name r); [tact (ANameDelete s)|done]|]. tseq; [apply t_link_down|]. tseq; [by apply t_monitor_down|]. apply t_rest.
  Qed.
  (** The frame itself. *)
  Lemma send_stream w fr : basic w -> sender_up w -> stream (send_frame fr id w) = stream w ++ [fr].
  Proof.
    intros [Hr _] Hu. unfold sender_up in Hu. destruct (or_reg _ _ _ _ _ _ _ _ Hr) as (r & Er & R1 & R2 & R3 & R4 & R5). unfold send_frame, ConnLasts.stream. rewrite Er, R3. destruct so as [s|].
    - unfold hand_out. destruct (Hu s eq_refl) as [x ->]. cbn. by rewrite lookup_insert.
    - rewrite R2, R4, R5. destruct st; try done; cbn; by rewrite lookup_insert.
  Qed.
  Lemma t_tell why n rs kn : k ∈ rs -> owes (keep None) (Some (Telling, why, n)) kn (modify (send_frame (FMonitorDown rs why) id)).
  Proof.
    intros Hk w g x _ Hj Hx _. pose proof (Hx _ eq_refl) as ->. cbn. split; [apply K0|].
    pose proof (fine_still (ASendFrame (FMonitorDown rs why) id) w (fine0 (ASendFrame (FMonitorDown rs why) id) I) (proj1 Hj)) as Hs. cbn [does] in Hs. pose proof (still_J w g _ _ Hj Hs) as H2.
    exists None, false. split; [done|]. split; [done|]. left. split; [done|].
    destruct H2 as [Hb H2]. split; [exact Hb|]. destruct (ev w _ g) as [[why' n']|]; [|done]. destruct H2 as ([= -> ->] & H3 & H4). split_and!; [done..|].
    pose proof (s_s _ _ (s_calm _ _ Hs)) as Hm. destruct Hj as (Hb0 & Hg). destruct g as [[w0 n0]|]; [|done]. destruct Hg as ([= -> ->] & Ha & Hn).
    unfold done_for. intros Hr. specialize (Hm Hr). exists rs. split; [done|]. rewrite send_stream by done. rewrite drop_app_le by lia. apply elem_of_app. right. set_solver.
  Qed.
  Lemma t_nodes why n l o kn : o = None \/ o = Some (Telling, why, n) /\ (exists xs, (id, xs) ∈ l /\ (r0, entry0) ∈ xs) ->
    owes (keep None) o kn (each l (one_node why)).
  Proof.
    revert o kn. induction l as [|g l IH]; intros o kn Ho; cbn [each].
    { destruct Ho as [->|[_ (xs & H & _)]]; [done|]. by apply elem_of_nil in H. }
    eapply (owe_bind ev J K (fun o' _ _ => o' = None \/ o' = Some (Telling, why, n) /\ (exists xs, (id, xs) ∈ l /\ (r0, entry0) ∈ xs))).
    2: { intros o' kn' _ H. by apply IH. }
    destruct Ho as [->|[-> (xs & Hin & Hr)]].
    { eapply owe_mono; [|apply t_one_node]. cbn. intros ? ? ? ->; auto. }
    apply elem_of_cons in Hin as [<-|Hin].
    - unfold one_node. cbn [fst snd]. tseq; [apply t_observe|]. tseq.
      { case_match; [|done]. case_match. tact (ADelNmons (NRemote s s0) (map fst xs)). }
      eapply owe_mono; [|apply t_tell]. { cbn. intros ? ? ? ->. by left. }
      apply elem_of_list_In, in_map_iff. exists (r0, entry0). split; [done|]. by apply elem_of_list_In.
    - eapply owe_mono; [|apply t_one_node]. cbn. intros ? ? ? ->. right. eauto.
  Qed.
  Lemma group_here (l : list (reference * (pid * option dest))) : (r0, entry0) ∈ l ->
    exists xs, (id, xs) ∈ group (fun x => pid_node (fst (snd x))) (filter (fun x => pid_is_local (fst (snd x)) = false) l) /\ (r0, entry0) ∈ xs.
  Proof.
    intros H. unfold group. eexists. split.
    - apply elem_of_list_In, in_map_iff. exists id. split; [reflexivity|]. apply elem_of_list_In. unfold sorted_ids. rewrite merge_sort_Permutation, elem_of_elements, elem_of_list_to_set.
      apply elem_of_list_In, in_map_iff. exists (r0, entry0). split; [done|]. apply elem_of_list_In, elem_of_list_filter. done.
    - apply elem_of_list_filter. split; [done|]. apply elem_of_list_filter. done.
  Qed.
  Lemma t_monitor_down_target why n kn : owes (keep None) (Some (Owing, why, n)) kn (monitor_process_down (PLocal target) why).
  Proof.
    unfold monitor_process_down. cbn [pid_id].
    eapply (owe_bind ev J K (fun o _ ms => o = Some (Telling, why, n) /\ (forall r from d', default ∅ ms !! r = Some (from, d') -> pid_is_local from = true -> is_Some d') /\
       default ∅ ms !! r0 = Some entry0)).
    { intros w g x _ Hj Hx _. pose proof (Hx _ eq_refl) as ->. destruct Hj as ([Hr Hb] & Hg). destruct g as [[w0 n0]|]; [|done].
      destruct Hg as ([= -> ->] & Ha & Hn & Ht). cbn [fst snd]. split; [done|].
      assert (ev w (up_mons (delete target) w) (Some (why, n)) = Some (why, n)) as Ee by (unfold ev; by rewrite Ha).
      assert (basic (up_mons (delete target) w)) as Hb'.
      { split; [apply (same_record nm ad id p st so [] w); done|]. destruct Hb as [H1 H2 H3 H4 H5]. constructor; cbn; try done.
        unfold mons_named. cbn. rewrite lookup_delete. cbn. intros r from d'. by rewrite lookup_empty. }
      exists (Some (Telling, why, n)), false. cbn [owe]. split; [split; [done|]; split; [apply (b_named _ Hb)|exact Ht]|split; [done|]].
      left. split; [done|]. rewrite Ee. split; [done|]. done. }
    intros o kn' ms (-> & Hn & Hl). destruct ms as [ms|]; cbn in Hn, Hl; [|by rewrite lookup_empty in Hl].
    tseq.
    - apply t_each. intros [r [from d']] ? Hx. apply sorted_refs_elem in Hx. apply t_one. right. cbn. by eapply Hn.
    - apply (t_nodes why n). right. split; [done|]. apply group_here. by apply sorted_refs_elem.
  Qed.
  Lemma t_finish_target kn : owes (fun o _ _ => o = None) None kn (drop_process target).
  Proof.
    unfold drop_process.
    eapply (owe_bind ev J K (fun o _ r => match r with Some r => exists n, o = Some (Owing, final_reason r, n) | None => o = None end)).
    { intros w g x _ Hj Hx _. destruct Hj as ([Hr Hb] & Hg). cbn [fst snd]. split; [done|].
      assert (basic (up_regs (delete target) w)) as Hb'.
      { split; [apply (same_record nm ad id p st so [] w); done|]. destruct Hb as [H1 H2 H3 H4 H5]. constructor; cbn; done. }
      destruct (w_regs w !! target) as [r|] eqn:E.
      - assert (x = None /\ g = None /\ stored w) as (-> & -> & Ht).
        { destruct x as [[[[] ?] ?]|], g as [[? ?]|]; naive_solver. }
        exists (Some (Owing, final_reason r, length (stream w))), false. cbn [owe]. split; [eauto|]. split; [done|]. left. split; [done|].
        split; [exact Hb'|]. unfold ev. rewrite E. cbn. rewrite lookup_delete. split_and!; done.
      - exists None, false. cbn [owe]. split; [done|]. split; [done|]. right. split; [done|]. split; [done|].
        split; [exact Hb'|]. assert (ev w (up_regs (delete target) w) g = g) as -> by (unfold ev; by rewrite E).
        assert (sender_up (up_regs (delete target) w) <-> sender_up w) as Hu.
        { unfold sender_up. split; intros Hz s Hs; specialize (Hz s Hs); pose proof (Hts s Hs); cbn in *; [by rewrite lookup_delete_ne in Hz|by rewrite lookup_delete_ne]. }
        unfold stored, done_for in *. cbn. rewrite lookup_delete. destruct x as [[[[] ?] ?]|], g as [[? ?]|]; try done.
        destruct Hg as (? & ? & Hd). split_and!; [done..|]. intros Hz. by apply Hd, Hu. }
    intros o kn' y Ho. destruct y as [r|].
    - destruct Ho as (n & ->). tseq; [destruct (r_name r); [tact (ANameDelete s)|done]|].
      tseq; [apply t_link_down|]. eapply owe_bind; [apply t_monitor_down_target|]. intros ? ? ? ->. apply t_rest.
    - subst. tseq; [tact (AGone target)|done].
  Qed.
  Lemma t_finish i kn : owes (fun o _ _ => o = None) None kn (drop_process i).
  Proof. destruct (decide (i = target)) as [->|Ht]; [apply t_finish_target|by apply t_finish_other]. Qed.
  (** Calls that leave the connection and the monitor alone: no other request with the reference comes from the node. *)
  Definition leaves_watch (c : call) : Prop :=
    leaves_record nm ad p st c /\ match c with CFrame n _ (FMonitor _ _ _ _ k') => ~ (n = nd /\ k' = k) | _ => True end.
  Lemma t_call c : leaves_watch c -> owes (fun o _ _ => o = None) None false (call_prog S c).
  Proof.
    intros [Hc Hf]. assert ((forall y, fp S c y -> fine y) -> owes (fun o _ _ => o = None) None false (call_prog S c)) as Hfp.
    { intros H. eapply t_fp; [exact H|apply call_fp]. }
    assert (forall y, fp S c y -> match c with CForget _ _ | CSupervise _ _ _ | CSupDown _ _ => False | _ => True end -> steady y) as Hsteady.
    { clear -Hc. intros y Hy Hk. destruct c; try contradiction; destruct y; try exact I; cbn in Hy; try contradiction; try discriminate;
        unfold fp_send, fp_fire, fp_destroy_timer, fp_spawn, fp_link, fp_unlink, fp_monitor, fp_monitor_alias, fp_demonitor, fp_exit, fp_finish, fp_crash in Hy;
        cbn in Hy; try contradiction; try (destruct Hy; contradiction); try (by destruct f); cbn in *; try contradiction.
      destruct Hy as (-> & _). exact Hc. }
    destruct c; try (apply Hfp; intros y Hy; split; [by apply Hsteady|]; clear -Hy; destruct y; cbn in Hy |- *; try exact I; try done; unfold msg_item, user_item, fp_monitor_alias, fp_crash, fp_exit in *; repeat case_match; naive_solver);
      cbn [call_prog]; unfold ret_as.
    - eapply owe_bind; [apply t_spawn|]. by intros ? ? ? ->.
    - eapply owe_bind; [|by intros ? ? ? H; exact H]. unfold monitor. eapply t_seq'; [apply t_fresh|]. intros r ? Hr. apply local_ne in Hr.
      cbn. tseq; [by apply t_monitor_install|done].
    - eapply owe_bind; [|by intros ? ? ? H; exact H]. unfold monitor_alias. eapply t_seq'; [apply t_fresh|]. intros r ? Hr. apply local_ne in Hr. tseq; [tact (AAliasCreate me r reply)|].
      tseq; [by apply t_monitor_install|done].
    - eapply owe_bind; [apply t_demonitor|]. by intros ? ? ? ->.
    - eapply owe_bind; [apply t_finish|]. by intros ? ? ? ->.
    - eapply owe_bind; [|by intros ? ? ? H; exact H]. unfold crash. tseq; [tact (ASetExit me why)|apply t_finish].
    - eapply owe_bind; [apply t_forget; exact Hc|]. by intros ? ? ? ->.
    - eapply owe_bind; [apply t_node_monitor|]. by intros ? ? ? ->.
    - eapply owe_bind; [apply t_supervise; exact Hc|]. by intros ? ? ? ->.
    - eapply owe_bind; [apply t_supdown; exact Hc|]. by intros ? ? ? ->.
    - destruct f0; try (apply Hfp; intros y Hy; split; [by apply Hsteady|]; clear -Hy; destruct y; cbn in Hy |- *; try exact I; try done; naive_solver).
      cbn [receive_frame]. eapply owe_bind; [|by intros ? ? ? H; exact H]. eapply t_seq'; [apply t_node_register|]. intros n ? Hn. by apply t_on_monitor.
  Qed.
End watch.
