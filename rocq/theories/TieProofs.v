(** Links in every schedule: proofs. *)
From stdpp Require Import base list gmap numbers strings countable sorting relations.
From Coq Require Import Lia.
From Verif Require Import Prog ProgProofs ProgInv Types Mailbox World ProcApi NodeApi Api Steps Hist Labels SchedSpec SchedProofs ProcSpec ProcProofs LinkProofs Debt TieSpec.

Inductive stage := Owing | Telling.
Section tie.
  Context (S : serde) (a j : N) (Haj : a <> j) (t : bool).
  Definition ghost := option (exit_reason * nat).
  Definition ev (w w' : world) (g : ghost) : ghost :=
    match w_regs w !! a, w_regs w' !! a with
    | Some r, None => Some (final_reason r, length (w_log w'))
    | _, _ => g
    end.
  Definition done_for (why : exit_reason) (n : nat) (w : world) : Prop :=
    match w_regs w !! j with
    | None => True
    | Some r => if t then (j, ISystem (SExit (PLocal a) why)) ∈ drop n (w_log w) else why = RNormal \/ r_abort r = true
    end.
  Definition tied (w : world) : Prop := is_Some (w_regs w !! j) -> linked w a j = true.
  Record basic (w : world) : Prop := Basic {
    b_nlinks : nlinks_remote w;
    b_a : (a < w_next_pid w)%N; b_j : (j < w_next_pid w)%N;
    b_loc : is_Some (w_regs w !! j) -> is_Some (w_loc w !! j);
    b_trap : forall r, w_regs w !! j = Some r -> r_trap r = t }.
  Definition J (w : world) (g : ghost) (x : option (stage * exit_reason * nat)) : Prop :=
    basic w /\
    match x, g with
    | None, None => is_Some (w_regs w !! a) /\ tied w
    | None, Some (why, n) => w_regs w !! a = None /\ n <= length (w_log w) /\ done_for why n w
    | Some (Owing, why, n), Some g => g = (why, n) /\ w_regs w !! a = None /\ n <= length (w_log w) /\ tied w
    | Some (Telling, why, n), Some g => g = (why, n) /\ w_regs w !! a = None /\ n <= length (w_log w)
    | Some _, None => False
    end.
  Definition K (w : world) : Prop := w_regs w !! j = None.
  (** ** Steps that leave the two processes and the link alone *)
  Record still (w w' : world) : Prop := Still {
    s_nlinks : nlinks_remote w -> nlinks_remote w';
    s_next : (w_next_pid w <= w_next_pid w')%N;
    s_a : (a < w_next_pid w)%N -> is_Some (w_regs w !! a) <-> is_Some (w_regs w' !! a);
    s_j : (j < w_next_pid w)%N -> forall r', w_regs w' !! j = Some r' -> exists r, w_regs w !! j = Some r /\ r_trap r' = r_trap r /\ (r_abort r = true -> r_abort r' = true);
    s_loc : (j < w_next_pid w)%N -> is_Some (w_regs w' !! j) -> is_Some (w_loc w !! j) -> is_Some (w_loc w' !! j);
    s_link : (j < w_next_pid w)%N -> is_Some (w_regs w' !! j) -> linked w a j = true -> linked w' a j = true;
    s_log : exists g, w_log w' = w_log w ++ g }.
  Lemma done_grows why n w w' : (j < w_next_pid w)%N -> n <= length (w_log w) -> still w w' -> done_for why n w -> done_for why n w'.
  Proof.
    intros Hj Hn Hs Hd. unfold done_for in *. destruct (w_regs w' !! j) as [r'|] eqn:E; [|done].
    destruct (s_j _ _ Hs Hj r' E) as (r & Er & Et & Ea). rewrite Er in Hd. destruct t; [|tauto].
    destruct (s_log _ _ Hs) as (g & ->). rewrite drop_app_le by done. apply elem_of_app. by left.
  Qed.
  Lemma still_K w w' : (j < w_next_pid w)%N -> still w w' -> K w -> K w'.
  Proof. intros Hj Hs Hk. unfold K in *. destruct (w_regs w' !! j) as [r'|] eqn:E; [|done]. destruct (s_j _ _ Hs Hj r' E) as (r & Er & _). congruence. Qed.
  Lemma still_J w g x w' : J w g x -> still w w' -> (K w -> K w') /\ J w' (ev w w' g) x.
  Proof.
    intros ([B1 B2 B3 B4 B5] & Hx) Hs. split; [by apply still_K|].
    assert (ev w w' g = g) as ->.
    { unfold ev. pose proof (s_a _ _ Hs B2) as Ha. destruct (w_regs w !! a); [|done]. destruct (w_regs w' !! a) eqn:E; [done|].
      destruct (proj1 Ha) as [? ?]; [eauto|done]. }
    assert (w_regs w !! a = None -> w_regs w' !! a = None) as Ha.
    { intros H. pose proof (s_a _ _ Hs B2) as Ha. rewrite H in Ha. destruct (w_regs w' !! a); [|done]. destruct (proj2 Ha) as [? ?]; [eauto|done]. }
    assert (length (w_log w) <= length (w_log w')) as Hl. { destruct (s_log _ _ Hs) as (g' & ->). rewrite app_length. lia. }
    assert (tied w -> tied w') as Ht.
    { intros Ht Hj. apply (s_link _ _ Hs B3 Hj). apply Ht. destruct Hj as [r' Hr']. destruct (s_j _ _ Hs B3 r' Hr') as (r & -> & _). eauto. }
    split.
    - constructor.
      + by apply (s_nlinks _ _ Hs).
      + pose proof (s_next _ _ Hs). lia.
      + pose proof (s_next _ _ Hs). lia.
      + intros Hj. apply (s_loc _ _ Hs B3 Hj). apply B4. destruct Hj as [r' Hr']. destruct (s_j _ _ Hs B3 r' Hr') as (r & -> & _). eauto.
      + intros r' Hr'. destruct (s_j _ _ Hs B3 r' Hr') as (r & Hr & -> & _). by apply B5.
    - destruct x as [[[[] why] n]|], g as [[why' n']|]; try done.
      + destruct Hx as (H1 & H2 & H3 & H4). split_and!; auto; lia.
      + destruct Hx as (H1 & H2 & H3). split_and!; auto; lia.
      + destruct Hx as (H1 & H2 & H3). split_and!; auto; [lia|]. by apply (done_grows _ _ w).
      + destruct Hx as (H1 & H2). split; [|auto]. by apply (s_a _ _ Hs B2).
  Qed.
  Lemma still_refl w : still w w.
  Proof. constructor; try done. - intros _ r' Hr. eauto. - exists []. by rewrite app_nil_r. Qed.
  Lemma still_same w w' : w_nlinks w' = w_nlinks w -> w_next_pid w' = w_next_pid w -> w_regs w' = w_regs w ->
    (forall i, is_Some (w_loc w !! i) -> is_Some (w_loc w' !! i)) -> w_links w' = w_links w -> (exists g, w_log w' = w_log w ++ g) -> still w w'.
  Proof.
    intros E1 E2 E3 E4 E5 E6. constructor; rewrite ?E2, ?E3; try done.
    - by apply nlinks_same.
    - eauto.
    - eauto.
    - unfold linked. by rewrite E5.
  Qed.
  Lemma still_log0 w : exists g, w_log w = w_log w ++ g.
  Proof. exists []. by rewrite app_nil_r. Qed.
  Lemma still_push i x w : still w (push i x w).
  Proof.
    unfold push. destruct (w_loc w !! i) eqn:E; [|apply still_refl]. apply still_same; try done; cbn; [|by eexists].
    intros i' Hi. destruct (decide (i' = i)) as [->|Hne]; [rewrite lookup_insert; eauto|by rewrite lookup_insert_ne].
  Qed.
  Lemma still_regs w i r r' : w_regs w !! i = Some r -> (i = j -> r_trap r' = r_trap r /\ (r_abort r = true -> r_abort r' = true)) -> still w (up_regs (<[i := r']>) w).
  Proof.
    intros E Hr. constructor; cbn; try done.
    - intros _. destruct (decide (i = a)) as [->|Hne]; [rewrite lookup_insert, E|by rewrite lookup_insert_ne]. split; eauto.
    - intros _ x. destruct (decide (i = j)) as [->|Hne]; [rewrite lookup_insert; intros [= <-]; eauto|rewrite lookup_insert_ne by done; eauto].
    - apply still_log0.
  Qed.
  Lemma still_alter w i f : (forall r, i = j -> r_trap (f r) = r_trap r /\ (r_abort r = true -> r_abort (f r) = true)) -> still w (up_regs (alter f i) w).
  Proof.
    intros Hr. constructor; cbn; try done.
    - intros _. destruct (decide (i = a)) as [->|Hne]; [rewrite lookup_alter|by rewrite lookup_alter_ne]. by rewrite fmap_is_Some.
    - intros _ x. destruct (decide (i = j)) as [->|Hne]; [rewrite lookup_alter|rewrite lookup_alter_ne by done; eauto].
      intros Hx. apply fmap_Some in Hx as (r & Er & ->). exists r. split; [done|]. by apply Hr.
    - apply still_log0.
  Qed.
  Lemma still_trans w1 w2 w3 : still w1 w2 -> still w2 w3 -> still w1 w3.
  Proof.
    intros H1 H2. pose proof (s_next _ _ H1). pose proof (s_next _ _ H2).
    assert ((j < w_next_pid w1)%N -> is_Some (w_regs w3 !! j) -> is_Some (w_regs w2 !! j)) as Hm.
    { intros Hj [r' Hr']. destruct (s_j _ _ H2 ltac:(lia) r' Hr') as (r & -> & _). eauto. }
    constructor.
    - intros Hn. by apply (s_nlinks _ _ H2), (s_nlinks _ _ H1).
    - lia.
    - intros Hn. rewrite (s_a _ _ H1 Hn). apply (s_a _ _ H2). lia.
    - intros Hn r' Hr'. destruct (s_j _ _ H2 ltac:(lia) r' Hr') as (r & Hr & E1 & E2). destruct (s_j _ _ H1 Hn r Hr) as (r0 & Hr0 & E3 & E4).
      exists r0. split; [done|]. split; [congruence|auto].
    - intros Hn Hr Hl. apply (s_loc _ _ H2 ltac:(lia) Hr), (s_loc _ _ H1 Hn (Hm Hn Hr) Hl).
    - intros Hn Hr Hl. apply (s_link _ _ H2 ltac:(lia) Hr), (s_link _ _ H1 Hn (Hm Hn Hr) Hl).
    - destruct (s_log _ _ H1) as (g1 & E1), (s_log _ _ H2) as (g2 & E2). exists (g1 ++ g2). by rewrite E2, E1, app_assoc.
  Qed.
  Lemma still_nlinks w w' : (nlinks_remote w -> nlinks_remote w') -> w_next_pid w' = w_next_pid w -> w_regs w' = w_regs w -> w_loc w' = w_loc w ->
    w_links w' = w_links w -> w_log w' = w_log w -> still w w'.
  Proof.
    intros E1 E2 E3 E4 E5 E6. constructor; rewrite ?E2, ?E3, ?E4, ?E6; try done; [eauto|unfold linked; by rewrite E5|apply still_log0].
  Qed.
  Lemma still_links w f : (forall m : gmap N (gset pid), is_Some (w_regs w !! j) -> PLocal j ∈ default ∅ (m !! a) -> PLocal j ∈ default ∅ (f m !! a)) -> still w (up_links f w).
  Proof.
    intros Hf. constructor; cbn; try done; [eauto| |apply still_log0].
    intros _ Hr. unfold linked; cbn. rewrite !bool_decide_eq_true. by apply Hf.
  Qed.
  Lemma still_exit q f y w : still w (exit_op q f y w).
  Proof.
    unfold exit_op. destruct (w_regs w !! pid_id q) as [r|] eqn:E; [|apply still_refl].
    repeat case_match; try apply still_refl; try apply still_push; (eapply still_regs; [exact E|done]).
  Qed.
  Lemma still_exit_linked q f y w : still w (exit_linked_op q f y w).
  Proof.
    unfold exit_linked_op. destruct (w_regs w !! pid_id q) as [r|] eqn:E; [|apply still_refl].
    repeat case_match; try apply still_refl; try apply still_push; (eapply still_regs; [exact E|done]).
  Qed.
  Lemma still_spawn w : still w (fst (spawn_op w)).
  Proof.
    unfold spawn_op. cbn. constructor; cbn; try done; [lia| | | |apply still_log0].
    - intros Hn. by rewrite lookup_insert_ne by lia.
    - intros Hn r'. rewrite lookup_insert_ne by lia. eauto.
    - intros Hn _ Hl. by rewrite lookup_insert_ne by lia.
  Qed.
  Definition mild (kn : bool) (x : act) : Prop :=
    match x with
    | AAddNlink _ q _ => pid_is_local q = false
    | ADelLink i p => kn = true \/ ~ (i = a /\ p = PLocal j)
    | ALinksDelete i => i <> a
    | ARegDelete i => i <> a
    | AInsert i => i <> a /\ i <> j
    | ASetFlags i _ => i <> j
    | AGone i => kn = true \/ i <> j
    | _ => True
    end.
  Ltac ssame := apply still_same; cbn; [reflexivity|reflexivity|reflexivity|auto|reflexivity|apply still_log0].
  Ltac snodes := apply still_nlinks; [apply nlinks_same; reflexivity|reflexivity..].
  Lemma mild_still kn x w : mild kn x -> (kn = true -> K w) -> still w (does S x w).
  Proof.
    intros Hx Hk. assert (forall (f : plocal -> plocal) i, still w (up_loc (alter f i) w)) as Hloc.
    { intros f i. apply still_same; cbn; try done; [|apply still_log0]. intros i' Hi. destruct (decide (i' = i)) as [->|Hne]; [rewrite lookup_alter|by rewrite lookup_alter_ne].
      by rewrite fmap_is_Some. }
    destruct x; cbn [does mild] in *; try apply still_refl; try (by ssame); try (by apply Hloc); try apply still_push; try apply still_exit; try apply still_exit_linked.
    - unfold receive_op. destruct (w_loc w !! me) as [l|] eqn:E; [|apply still_refl]. destruct (select S T f b l). cbn. apply still_same; try done; cbn; [|apply still_log0].
      intros i' Hi. destruct (decide (i' = me)) as [->|Hne]; [rewrite lookup_insert; eauto|by rewrite lookup_insert_ne].
    - unfold alias_take_op. repeat case_match; ssame.
    - unfold send_to. destruct (w_regs w !! i); [apply still_push|apply still_refl].
    - unfold node_register_op. destruct (w_nmap w !! NRemote n a0) as [id|]; cbn.
      + destruct c; [|apply still_refl]. destruct (w_nregs w !! id) as [r|]; [|apply still_refl]. destruct (n_sup r); [apply still_refl|].
        pose proof (still_spawn w) as Hs. unfold spawn_op in *. cbn in *. eapply still_trans; [exact Hs|snodes].
      + destruct c.
        * pose proof (still_spawn (up_next_node N.succ w)) as Hs. unfold spawn_op in *. cbn in *.
          eapply still_trans; [|eapply still_trans; [exact Hs|]]; snodes.
        * snodes.
    - unfold send_frame, hand_out. repeat case_match; ssame.
    - constructor; cbn; try done; [lia|eauto| |apply still_log0]. intros Hn _ Hl. by rewrite lookup_insert_ne by lia.
    - destruct Hx as [H1 H2]. constructor; cbn; try done; [|intros _ r'; rewrite lookup_insert_ne by done; eauto|apply still_log0]. intros _. by rewrite lookup_insert_ne.
    - unfold register_op. destruct p as [i|]; [|apply still_refl]. destruct (w_names w !! n) as [i'|]; [destruct (decide (i' = i)); apply still_refl|].
      destruct (w_regs w !! i) eqn:E; [|apply still_refl]. destruct (r_name r); [apply still_refl|]. cbn.
      eapply still_trans; [eapply (still_regs w i r); [exact E|]|]; [|ssame]. done.
    - apply still_alter. done.
    - apply still_alter. done.
    - apply still_alter. done.
    - constructor; cbn; try done; [intros _; by rewrite lookup_delete_ne| |apply still_log0].
      intros _ r' Hr'. apply lookup_delete_Some in Hr' as [_ Hr']. eauto.
    - constructor; cbn; try done; [eauto| |apply still_log0]. intros _ Hr Hl. destruct Hx as [->|Hx]; [|by rewrite lookup_delete_ne].
      specialize (Hk eq_refl). unfold K in Hk. rewrite Hk in Hr. by destruct Hr.
    - apply still_links. intros m _ Hm. destruct (decide (i = a)) as [->|Hne]; [rewrite lookup_insert; cbn; set_solver|by rewrite lookup_insert_ne].
    - apply still_links. intros m Hr Hm. destruct (decide (i = a)) as [->|Hne]; [|by rewrite lookup_alter_ne]. rewrite lookup_alter.
      destruct Hx as [->|Hx]; [specialize (Hk eq_refl); unfold K in Hk; rewrite Hk in Hr; by destruct Hr|].
      destruct (m !! a) as [l|]; cbn in *; [|done]. apply elem_of_difference. split; [done|]. rewrite elem_of_singleton. intros E. apply Hx. auto.
    - apply still_links. intros m Hr Hm. by rewrite lookup_delete_ne.
    - apply still_nlinks; try done. apply (step1_nlinks S w). by constructor.
    - apply still_nlinks; try done. apply (step1_nlinks S w). by constructor.
    - apply still_nlinks; try done. apply (step1_nlinks S w). by constructor.
    - unfold node_start_op. destruct (w_nmap w !! NLocal); [apply still_refl|].
      pose proof (still_spawn w) as Hs. unfold spawn_op in *. cbn in *. eapply still_trans; [exact Hs|snodes].
    - unfold node_disconnect_op. case_match; [|apply still_refl]. case_match; [|apply still_refl]. case_match; [|snodes].
      eapply still_trans; [|eapply still_trans; [apply (still_exit p0 p RKill (up_pend (delete n) w))|]]; snodes.
    - unfold node_accept_op. case_match; [|snodes]. case_match; [|snodes].
      match goal with |- context [if bool_decide _ then ?x else w] => set (w1 := if bool_decide (n_state n1 = Pending) then x else w) end.
      assert (still w w1) as H1. { unfold w1. repeat case_match; try apply still_refl. apply still_exit. }
      clearbody w1. case_match; [exact H1|]. eapply still_trans; [exact H1|snodes].
    - unfold node_workers_op, hand_out. repeat case_match; ssame.
    - unfold sup_down_op. repeat case_match; ssame.
  Qed.
  (** ** Programs *)
  Notation owes := (owe ev J K).
  Notation keep st kn := (fun st' kn' _ => st' = st /\ kn' = kn).
  Lemma t_guar {A} kn (pr : prog world A) : guar (lstep S (mild kn)) pr -> owes (keep None kn) None kn pr.
  Proof. apply owe_guar. intros w g x w' Hj Hk (y & Hy & ->). apply still_J; [done|]. by apply (mild_still kn). Qed.
  Lemma t_fp {A} (F : act -> Prop) kn (pr : prog world A) : (forall y, F y -> mild kn y) -> guar (lstep S F) pr -> owes (keep None kn) None kn pr.
  Proof. intros H Hp. apply t_guar. eapply guar_mono; [apply lstep_mono, H|exact Hp]. Qed.
  Lemma t_atom {A} (Q : A -> Prop) st kn (op : world -> world * A) :
    (forall w, (kn = true -> K w) -> still w (fst (op w))) -> (forall w, basic w -> Q (snd (op w))) -> owes (fun st' kn' y => st' = st /\ kn' = kn /\ Q y) st kn (atom op).
  Proof. intros H HQ. apply owe_keep. intros w g x Hj _ Hk. destruct (still_J w g x _ Hj (H w Hk)). split; [done|]. split; [done|]. apply HQ. apply Hj. Qed.
  Lemma t_atom' {A} st kn (op : world -> world * A) : (forall w, (kn = true -> K w) -> still w (fst (op w))) -> owes (keep st kn) st kn (atom op).
  Proof. intros H. eapply owe_mono; [|apply (t_atom (fun _ => True) st kn op H); done]. intros ? ? ? (? & ? & _); done. Qed.
  Lemma t_act st kn f y : (forall w, f w = does S y w) -> mild kn y -> owes (keep st kn) st kn (modify f).
  Proof. intros Hf Hy. apply t_atom'. intros w Hk. cbn. rewrite Hf. by apply (mild_still kn). Qed.
  Lemma t_observe {A} st kn (f : world -> A) : owes (keep st kn) st kn (observe f).
  Proof. apply t_atom'. intros. apply still_refl. Qed.
  Lemma t_seq {A B} (Q : option (stage * exit_reason * nat) -> bool -> B -> Prop) st kn (p : prog world A) (q : A -> prog world B) :
    owes (keep st kn) st kn p -> (forall y, owes Q st kn (q y)) -> owes Q st kn (bind p q).
  Proof. intros Hp Hq. eapply (owe_bind ev J K); [exact Hp|]. intros ? ? ? [-> ->]. apply Hq. Qed.
  Ltac tseq := apply t_seq; [|intros ?].
  Ltac tact y := apply (t_act _ _ _ y); [reflexivity|cbn; auto].
  Lemma t_spawn m l b : owes (keep None false) None false (spawn m l b).
  Proof.
    unfold spawn. eapply (owe_bind _ _ _ (fun st kn i => st = None /\ kn = false /\ i <> a /\ i <> j)).
    { intros w g x _ Hj Hx Hk. cbn. destruct (still_J w g x _ Hj (mild_still false AAlloc w I ltac:(done))) as [H1 H2]. split; [exact H1|]. exists None, false.
      destruct Hj as [[B1 B2 B3 B4 B5] _]. split; [split_and!; try done; lia|]. split; [done|]. by apply keep_moves. }
    intros st kn i (-> & -> & Ha & Hj). eapply (owe_bind _ _ _ (keep None false)).
    { destruct l; [|done]. tseq; [tact (AAddLink i (PLocal m))|tact (AAddLink m (PLocal i))]. }
    intros ? ? ? [-> ->]. eapply (owe_bind _ _ _ (keep None false)).
    { destruct b; [|done]. tseq; [apply t_atom'; intros w _; apply (mild_still false AFreshRef w I); done|].
      tseq; [tact (AOwnMonitor m y (MForProcess (Some (PLocal i))))|].
      tseq; [tact (AAddMon i y (PLocal m) (Some (DPid (PLocal i))))|done]. }
    intros ? ? ? [-> ->]. tseq; [tact (ARunning i)|]. tseq; [tact (AInsert i)|done].
  Qed.
  Lemma t_supervise m name addr : owes (keep None false) None false (remote_supervisor m name addr).
  Proof.
    unfold remote_supervisor. tseq; [apply t_atom'; intros w _; apply (mild_still false (AAccept name addr (PLocal m) (PLocal m)) w I); done|].
    case_match; [exact eq_refl|]. tseq; [apply t_spawn|]. tseq; [apply t_spawn|]. tseq; [|done]. tact (AWorkers (NRemote name addr) y0.1 y1.1).
  Qed.
  Lemma t_alias_destroy kn r : owes (keep None kn) None kn (do! alias_destroy r in Ret tt).
  Proof. tseq; [apply t_atom'; intros w Hk; by apply (mild_still kn (AAliasDelete (ref_id r)) w)|done]. Qed.
  Lemma t_supdown nd q : owes (keep None false) None false (supervisor_down nd q).
  Proof.
    unfold supervisor_down. tseq; [apply t_atom'; intros w _; apply (mild_still false (ASupDown nd q) w I); done|].
    case_match; [done|].
    eapply owe_bind; [apply (t_atom (fun ls => forall x, x ∈ default ∅ ls -> pid_is_local (fst x) = false))|].
    { intros w _. apply (mild_still false (ANlinksDelete nd) w I); done. }
    { intros w Hb x Hx. exact (b_nlinks _ Hb nd x Hx). }
    intros ? ? ls (-> & -> & Hls). tseq.
    { apply owe_each. intros x Hx. rewrite merge_sort_Permutation, elem_of_elements in Hx. specialize (Hls x Hx).
      tseq; [tact (ADelLink x.2 x.1); right; intros [_ E]; by rewrite E in Hls | tact (AExitLinked (PLocal x.2) x.1 (RCustom "noconnection"))]. }
    tseq; [apply t_atom'; intros w _; apply (mild_still false (ANmonsDelete nd) w I); done|].
    tseq; [|tact (APendDelete nd)].
    apply owe_each. intros [r m] _. cbn [fst snd]. eapply (owe_bind _ _ _ (keep None false)).
    - destruct m as [i|i d'|i]; [tact (ASendTo i (INodeDown nd r))|tact (ASendTo i (IProcessDown d' r (RCustom "noconnection")))|].
      unfold monitor_destroy. cbn [pid_is_local pid_id]. tact (ADelMon i r).
    - intros ? ? ? [-> ->]. destruct (ref_is_local r); [apply t_alias_destroy|done].
  Qed.
  (** *** The end of [j] *)
  Lemma t_finish_j : owes (fun st _ _ => st = None) None false (drop_process j).
  Proof.
    unfold drop_process. eapply (owe_bind _ _ _ (fun st kn r => st = None /\ kn = true)).
    { intros w g x _ Hj Hx Hk. cbn. destruct (still_J w g x _ Hj (mild_still false (ARegDelete j) w (not_eq_sym Haj) ltac:(done))) as [H1 H2]. cbn [does] in *.
      split; [exact H1|]. exists None, true. split; [done|]. split; [intros _; unfold K; cbn; apply lookup_delete|]. by apply keep_moves. }
    intros st kn r [-> ->].
    destruct r as [r|].
    - eapply (owe_bind _ _ _ (keep None true)).
      { destruct (r_name r); [|done]. tact (ANameDelete s). }
      intros ? ? ? [-> ->]. eapply owe_mono; [|eapply (t_fp (fp_tail j) true); [|apply l_tail]]; [by intros ? ? ? [? _]|].
      intros y Hy. destruct y; cbn in Hy |- *; try done; subst; auto.
    - tseq; [tact (AGone j)|done].
  Qed.
  (** *** The end of [a] *)
  Lemma t_tell why n : owes (keep None false) (Some (Telling, why, n)) false (modify (exit_linked_op (PLocal j) (PLocal a) why)).
  Proof.
    intros w g x _ Hj Hx Hk. pose proof (Hx _ eq_refl) as ->. cbn.
    pose proof (still_exit_linked (PLocal j) (PLocal a) why w) as Hs. destruct (still_J w g _ _ Hj Hs) as [H1 H2]. split; [exact H1|].
    exists None, false. split; [done|]. split; [done|]. left. split; [done|].
    destruct H2 as [Hb H2]. split; [exact Hb|]. destruct (ev w _ g) as [[why' n']|]; [|done]. destruct H2 as ([= -> ->] & H3 & H4). split_and!; [done..|].
    clear Hs. destruct Hj as ([B1 B2 B3 B4 B5] & Hg). destruct g as [[w0 n0]|]; [|done]. destruct Hg as ([= -> ->] & Ha & Hn).
    unfold done_for, exit_linked_op in *. cbn [pid_id] in *. destruct (w_regs w !! j) as [r|] eqn:E; [|by rewrite E].
    rewrite (B5 r eq_refl) in *. destruct t.
    - destruct (B4 ltac:(eauto)) as [l El]. unfold push in *. rewrite El in *. cbn in *. rewrite E. rewrite drop_app_le by lia. apply elem_of_app. right. set_solver.
    - destruct why; cbn; rewrite ?E, ?lookup_insert; cbn; auto.
  Qed.
  Lemma t_loop why n l st : st = None \/ st = Some (Telling, why, n) /\ PLocal j ∈ l -> (forall p, p ∈ l -> pid_is_local p = true) ->
    owes (keep None false) st false (each l (fun p => do! modify (del_link (pid_id p) (PLocal a)) in modify (exit_linked_op p (PLocal a) why))).
  Proof.
    revert st. induction l as [|p l IH]; intros st Hst Hl; cbn [each].
    { destruct Hst as [->|[_ H]]; [done|]. by apply elem_of_nil in H. }
    assert (pid_id p = a -> PLocal a <> PLocal j) as Hne by congruence.
    eapply (owe_bind ev J K (fun st' kn' _ => kn' = false /\ (st' = None \/ st' = Some (Telling, why, n) /\ PLocal j ∈ l))).
    2: { intros st' kn' _ [-> H]. apply IH; [done|]. intros; apply Hl. by constructor. }
    tseq; [tact (ADelLink (pid_id p) (PLocal a)); right; intros [_ E]; congruence|].
    destruct Hst as [->|[-> Hin]].
    { eapply owe_mono; [|tact (AExitLinked p (PLocal a) why)]. cbn. intros ? ? ? [-> ->]; auto. }
    destruct (decide (p = PLocal j)) as [->|Hp].
    - eapply owe_mono; [|apply t_tell]. cbn. intros ? ? ? [-> ->]; auto.
    - eapply owe_mono; [|tact (AExitLinked p (PLocal a) why)]. cbn. intros ? ? ? [-> ->]. split; [done|]. right. split; [done|].
      apply elem_of_cons in Hin as [Hin|Hin]; [by destruct Hp|done].
  Qed.
  Lemma t_link_down why n : owes (keep None false) (Some (Owing, why, n)) false (link_process_down (PLocal a) why).
  Proof.
    unfold link_process_down. cbn [pid_id].
    eapply (owe_bind ev J K (fun st kn ls => kn = false /\ (st = None \/ st = Some (Telling, why, n) /\ exists l, ls = Some l /\ PLocal j ∈ l))).
    { intros w g x _ Hj Hx _. pose proof (Hx _ eq_refl) as ->. destruct Hj as ([B1 B2 B3 B4 B5] & Hg). destruct g as [[w0 n0]|]; [|done].
      destruct Hg as ([= -> ->] & Ha & Hn & Ht). cbn [fst snd]. split; [done|]. 
      assert (ev w (up_links (delete a) w) (Some (why, n)) = Some (why, n)) as Ee by (unfold ev; by rewrite Ha).
      destruct (w_regs w !! j) as [r|] eqn:E.
      - exists (Some (Telling, why, n)), false. cbn [owe]. split; [split; [done|]; right; split; [done|]|split; [done|]].
        + specialize (Ht ltac:(rewrite E; eauto)). unfold linked in Ht. apply bool_decide_eq_true in Ht. destruct (w_links w !! a) as [l|]; cbn in Ht; [eauto|by apply elem_of_empty in Ht].
        + left. split; [done|]. rewrite Ee. split; [constructor; cbn; try done; rewrite ?E; try done|done].
      - exists None, false. cbn [owe]. split; [auto|]. split; [done|]. left. split; [done|]. rewrite Ee. split; [constructor; cbn; rewrite ?E; done|].
        split_and!; [done..|]. unfold done_for. cbn. by rewrite E. }
    intros st kn ls (-> & Hst). destruct ls as [ls|].
    2: { destruct Hst as [->|(_ & l & Hl & _)]; [split; done|discriminate]. }
    eapply (owe_bind ev J K); [apply (t_loop why n)|].
    - destruct Hst as [->|(-> & l & [= <-] & Hl)]; [by left|right]. split; [done|]. apply elem_of_list_filter. split; [done|].
      unfold sorted_pids. by rewrite merge_sort_Permutation, elem_of_elements.
    - intros p Hp. by apply elem_of_list_filter in Hp as [? _].
    - intros ? ? ? [-> ->]. apply owe_each. intros g _. tseq; [apply t_observe|]. tseq; [|tact (ASendFrame (FLinkDown (map pid_id (snd g)) a why) (fst g))].
      case_match; [|done]. case_match. tact (ADelNlinks (NRemote s s0) (map (fun p => (p, a)) (snd g))).
  Qed.
  Lemma t_mons i why : owes (keep None false) None false (monitor_process_down (PLocal i) why).
  Proof.
    unfold monitor_process_down. cbn [pid_id]. tseq; [apply t_atom'; intros w _; apply (mild_still false (AMonsDelete i) w I); done|].
    destruct y as [ms|]; [|done]. tseq.
    - apply owe_each. intros x _. tseq; [|destruct (ref_is_local x.1); [apply t_alias_destroy|done]].
      destruct (pid_is_local x.2.1); [|done]. destruct (x.2.2) as [d|]; [tact (ASendTo (pid_id x.2.1) (IProcessDown d x.1 why))|].
      tseq; [apply t_observe|]. destruct y; done.
    - apply owe_each. intros g _. tseq; [apply t_observe|]. tseq; [|tact (ASendFrame (FMonitorDown (map (fun x => ref_id (fst x)) (snd g)) why) (fst g))].
      case_match; [|done]. case_match. tact (ADelNmons (NRemote s s0) (map fst (snd g))).
  Qed.
  Lemma t_monitor_all l : owes (keep None false) None false (monitor_destroy_all l).
  Proof.
    unfold monitor_destroy_all. apply owe_each. intros x _. destruct (x.2) as [[p|]|nd]; [|done|].
    - tseq; [|destruct (ref_is_local x.1); [apply t_alias_destroy|done]]. destruct (pid_is_local p); [tact (ADelMon (pid_id p) x.1)|].
      tact (ASendFrame (FMonitor false (Some (pid_id p)) None None (ref_id (fst x))) (ref_node (fst x))).
    - tseq; [|destruct (ref_is_local x.1); [apply t_alias_destroy|done]]. tact (ADelNmon nd x.1).
  Qed.
  Lemma t_alias_all l : owes (keep None false) None false (alias_destroy_all l).
  Proof. unfold alias_destroy_all. apply owe_each. intros i _. tact (AAliasDelete i). Qed.
  Lemma t_finish_a : owes (fun st _ _ => st = None) None false (drop_process a).
  Proof.
    unfold drop_process.
    eapply (owe_bind ev J K (fun st kn o => kn = false /\ match o with Some r => exists n, st = Some (Owing, final_reason r, n) | None => st = None end)).
    { intros w g x _ Hj Hx _. destruct Hj as ([B1 B2 B3 B4 B5] & Hg). cbn [fst snd]. split; [unfold K; cbn; by rewrite lookup_delete_ne|].
      assert (basic (up_regs (delete a) w)) as Hb.
      { constructor; cbn; try done; rewrite lookup_delete_ne; done. }
      destruct (w_regs w !! a) as [r|] eqn:E.
      - assert (x = None /\ g = None /\ tied w) as (-> & -> & Ht).
        { destruct x as [[[[] ?] ?]|], g as [[? ?]|]; naive_solver. }
        exists (Some (Owing, final_reason r, length (w_log w))), false. cbn [owe]. split; [eauto|]. split; [done|]. left. split; [done|].
        split; [exact Hb|]. unfold ev. rewrite E. cbn. rewrite lookup_delete. split_and!; [done..|].
        unfold tied, linked in *. cbn. by rewrite lookup_delete_ne.
      - exists None, false. cbn [owe]. split; [done|]. split; [done|]. right. split; [done|]. split; [done|].
        split; [exact Hb|]. assert (ev w (up_regs (delete a) w) g = g) as -> by (unfold ev; by rewrite E).
        unfold tied, linked, done_for in *. cbn. rewrite lookup_delete, lookup_delete_ne by done. exact Hg. }
    intros st kn o (-> & Ho). destruct o as [r|].
    - destruct Ho as (n & ->). tseq; [destruct (r_name r); [tact (ANameDelete s)|done]|].
      eapply owe_bind; [apply t_link_down|]. intros ? ? ? [-> ->].
      apply t_seq; [apply t_mons|intros _]. apply t_seq; [apply t_observe|intros o]. apply t_seq; [apply t_monitor_all|intros _].
      apply t_seq; [apply t_alias_all|intros _]. eapply owe_mono; [|tact (AGone a)]. by intros ? ? ? [? _].
    - subst. eapply owe_bind; [tact (AGone a)|]. intros ? ? ? [-> ->]. done.
  Qed.
  Lemma t_call c : keeps_tie a j c -> owes (fun st _ _ => st = None) None false (call_prog S c).
  Proof.
    intros Hc. assert ((forall y, fp S c y -> mild false y) -> owes (fun st _ _ => st = None) None false (call_prog S c)) as Hfp.
    { intros H. eapply owe_mono; [|eapply t_fp; [exact H|apply call_fp]]. by intros ? ? ? [? _]. }
    assert (forall i, i <> a -> i <> j -> forall y, fp_finish i y -> mild false y) as Hfin.
    { intros i H1 H2 y Hy. destruct y; cbn in Hy |- *; try done; subst; try by auto. right. intros [_ E]. congruence. }
    assert (forall i, owes (fun st _ _ => st = None) None false (drop_process i)) as Hd.
    { intros i. destruct (decide (i = a)) as [->|Ha]; [apply t_finish_a|]. destruct (decide (i = j)) as [->|Hj]; [apply t_finish_j|].
      eapply owe_mono; [|eapply (t_fp (fp_finish i)); [by apply Hfin|apply l_finish]]. by intros ? ? ? [? _]. }
    destruct c; try (apply Hfp; clear Hfp Hfin Hd; intros y Hy; destruct y; cbn in Hy |- *; try exact I; try done; unfold msg_item, user_item, fp_monitor_alias, fp_crash, fp_exit in *; cbn in Hc; repeat case_match; naive_solver);
      cbn [call_prog]; unfold ret_as.
    - eapply owe_bind; [apply t_spawn|]. by intros ? ? ? [-> ->].
    - apply Hfp. intros y Hy. destruct y; cbn in Hy |- *; try exact I; try done. right. intros [-> E]. destruct Hy as (-> & Hq & Hl). rewrite Hq in E. injection E as ->.
      apply Hc. split; [done|]. by destruct p; cbn in *.
    - eapply owe_bind; [apply Hd|]. by intros ? ? ? ->.
    - eapply owe_bind; [|by intros ? ? ? H; exact H]. unfold crash. tseq; [tact (ASetExit me why)|apply Hd].
    - eapply owe_bind; [apply t_supervise|]. by intros ? ? ? [-> ->].
    - eapply owe_bind; [apply t_supdown|]. by intros ? ? ? [-> ->].
  Qed.
End tie.
