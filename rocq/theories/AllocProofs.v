(** Registered processes, and processes that frames have been handed to, have been allocated: every
    schedule. *)
From stdpp Require Import base list gmap numbers strings countable sorting relations.
From Coq Require Import Lia.
From Verif Require Import Prog ProgProofs ProgInv Types Mailbox World ProcApi NodeApi Api Steps Hist Labels SchedSpec SchedProofs.

Definition allots (w : world) : Prop :=
  (forall i, is_Some (w_regs w !! i) -> (i < w_next_pid w)%N) /\ (forall i, is_Some (w_out w !! i) -> (i < w_next_pid w)%N).
(** A program that keeps [allots] from any state where at least [b] ids have been allocated. *)
Fixpoint ins {R} (b : N) (Q : N -> R -> Prop) (p : prog world R) : Prop :=
  match p with
  | Ret r => Q b r
  | Panic _ => True
  | Atom g f k => forall w, (b <= w_next_pid w)%N -> allots w -> g w = true ->
                  allots (f w) /\ (w_next_pid w <= w_next_pid (f w))%N /\ ins (w_next_pid (f w)) Q (k w)
  end.
Lemma ins_mono {R} b b' (Q : N -> R -> Prop) p : (forall a c r, (a <= c)%N -> Q a r -> Q c r) -> (b <= b')%N -> ins b Q p -> ins b' Q p.
Proof. intros HQ Hb. destruct p; cbn; auto; [by apply HQ|]. intros H w Hw. apply H. lia. Qed.
Lemma ins_bind {A B} b (Q : N -> A -> Prop) (Q' : N -> B -> Prop) (p : prog world A) (q : A -> prog world B) :
  ins b Q p -> (forall b' a, (b <= b')%N -> Q b' a -> ins b' Q' (q a)) -> ins b Q' (bind p q).
Proof.
  revert b; induction p as [a|m|g f k IH]; intros b Hp Hq; cbn in *; [apply Hq; [lia|done]|done|].
  intros w Hw Hi Hg. destruct (Hp w Hw Hi Hg) as (H1 & H2 & H3). split_and!; try done. apply IH; [done|]. intros b' a Hb. apply Hq. lia.
Qed.
Lemma allots_same w w' : w_next_pid w' = w_next_pid w -> (forall i, is_Some (w_regs w' !! i) -> is_Some (w_regs w !! i)) ->
  (forall i, is_Some (w_out w' !! i) -> is_Some (w_out w !! i) \/ is_Some (w_regs w !! i)) -> allots w -> allots w'.
Proof. intros E1 E2 E3 [A B]. split; rewrite E1; intros i Hi; [by apply A, E2|]. apply E3 in Hi as [?|?]; auto. Qed.
Lemma exit_op_allots p f y w : w_next_pid (exit_op p f y w) = w_next_pid w /\ w_out (exit_op p f y w) = w_out w /\
  forall i, is_Some (w_regs (exit_op p f y w) !! i) -> is_Some (w_regs w !! i).
Proof.
  unfold exit_op. destruct (w_regs w !! pid_id p) as [r|] eqn:E; [|done].
  assert (forall x (i : N), is_Some (<[pid_id p := x]> (w_regs w) !! i) -> is_Some (w_regs w !! i)) as Hi.
  { intros x i. destruct (decide (i = pid_id p)) as [->|]; [rewrite E; eauto | by rewrite lookup_insert_ne]. }
  assert (forall y', w_next_pid (push (pid_id p) y' w) = w_next_pid w /\ w_out (push (pid_id p) y' w) = w_out w /\ w_regs (push (pid_id p) y' w) = w_regs w) as Hp
    by (intros y'; unfold push; case_match; done).
  destruct y; [destruct (decide (p = f)); [|destruct (r_trap r)]| |destruct (decide (p = f)); [|destruct (r_trap r)]..];
    try (split_and!; [reflexivity|reflexivity|]; cbn; try apply Hi; done);
    (match goal with |- context [push _ ?x _] => destruct (Hp x) as (-> & -> & ->) end; done).
Qed.
Lemma allots_hand_out s fs w : allots w -> allots (hand_out s fs w) /\ w_next_pid (hand_out s fs w) = w_next_pid w.
Proof.
  intros Hw. unfold hand_out. destruct (w_regs w !! pid_id s) as [r|] eqn:E; [|done]. split; [|done].
  apply (allots_same w); [done|done| |exact Hw]. intros i. cbn. destruct (decide (i = pid_id s)) as [->|]; [rewrite E; eauto | rewrite lookup_insert_ne by done; auto].
Qed.
Lemma allots_spawned w w' : w_next_pid w' = N.succ (w_next_pid w) -> (forall i, is_Some (w_regs w' !! i) -> i = w_next_pid w \/ is_Some (w_regs w !! i)) ->
  w_out w' = w_out w -> allots w -> allots w'.
Proof.
  intros E1 E2 E3 [A B]. split; rewrite E1, ?E3; intros i Hi; [apply E2 in Hi as [->|Hi%A]; lia|]. apply B in Hi. lia.
Qed.
Lemma insert_is {A} (m : gmap N A) k x i : is_Some (<[k := x]> m !! i) -> i = k \/ is_Some (m !! i).
Proof. destruct (decide (i = k)) as [->|]; [auto | rewrite lookup_insert_ne by done; auto]. Qed.
Lemma insert_old {A} (m : gmap N A) k x y i : m !! k = Some y -> is_Some (<[k := x]> m !! i) -> is_Some (m !! i).
Proof. intros E [->|]%insert_is; [rewrite E; eauto|done]. Qed.
Lemma allots_exit p f y w : allots w -> allots (exit_op p f y w).
Proof. intros Hw. destruct (exit_op_allots p f y w) as (E1 & E2 & E3). apply (allots_same w); [done|done|rewrite E2; auto|done]. Qed.
Ltac asame w := apply (allots_same w); [reflexivity|intros ?; cbn; eauto|intros ?; cbn; eauto|assumption].
Lemma allots_act S a w : (forall i, a <> AInsert i) -> allots w -> allots (does S a w) /\ (w_next_pid w <= w_next_pid (does S a w))%N.
Proof.
  intros Ha Hw. destruct a; cbn [does]; try (by destruct (Ha i)).
  all: try (split; [|ops; cbn; repeat case_match; cbn; lia]).
  all: try (by (apply (allots_same w); [ops; cbn; repeat case_match; reflexivity | intros ?; ops; cbn; repeat case_match; cbn; auto | intros ?; ops; cbn; repeat case_match; cbn; auto | exact Hw])).
  - unfold node_register_op, spawn_op. destruct (w_nmap w !! NRemote n a) as [id|]; cbn [fst].
    + destruct c; [|split; [done|cbn; lia]]. destruct (w_nregs w !! id) as [r|]; [|split; [done|cbn; lia]]. destruct (n_sup r); [split; [done|cbn; lia]|].
      split; [|cbn; lia]. apply (allots_spawned w); [done|intros i; apply insert_is|done|done].
    + destruct c; cbn; (split; [|lia]); [|asame w]. apply (allots_spawned w); [done|intros i; apply insert_is|done|done].
  - unfold send_frame. destruct (w_nregs w !! i) as [r|]; [|done]. destruct (n_sender r); [by apply allots_hand_out|]. destruct (n_state r); try done; asame w.
  - destruct Hw as [A B]. split; cbn; intros i Hi; [apply A in Hi|apply B in Hi]; lia.
  - unfold register_op. destruct p as [j|]; [|done]. destruct (w_names w !! n); [by case_decide|]. destruct (w_regs w !! j) as [r|] eqn:E; [|done].
    destruct (r_name r); [done|]. cbn. apply (allots_same w); [done| |by left|done]. intros i. cbn. by eapply insert_old.
  - apply (allots_same w); [done|intros ?; cbn; by rewrite lookup_alter_is_Some|by left|done].
  - apply (allots_same w); [done|intros ?; cbn; by rewrite lookup_alter_is_Some|by left|done].
  - apply (allots_same w); [done|intros ?; cbn; by rewrite lookup_alter_is_Some|by left|done].
  - by apply allots_exit.
  - unfold exit_linked_op. destruct (w_regs w !! pid_id p) as [g|] eqn:E; [|done]. destruct (r_trap g).
    + unfold push. case_match; [|done]. asame w.
    + destruct r; try done; (apply (allots_same w); [done| |by left|done]); intros i; cbn; by eapply insert_old.
  - apply (allots_same w); [done| |by left|done]. intros j. cbn. intros [x [_ Hx]%lookup_delete_Some]. eauto.
  - unfold node_start_op, spawn_op. destruct (w_nmap w !! NLocal); [split; [done|cbn; lia]|]. cbn [fst]. split; [|cbn; lia].
    apply (allots_spawned w); [done|intros i; apply insert_is|done|done].
  - unfold node_disconnect_op. destruct (w_nmap w !! n) as [id|]; [|split; [done|cbn; lia]]. destruct (w_nregs w !! id) as [r|]; [|split; [done|cbn; lia]].
    assert (allots (up_pend (delete n) w)) as H1 by (asame w).
    destruct (n_sup r) as [s|].
    + assert (allots (exit_op s p RKill (up_pend (delete n) w))) as H2 by (by apply allots_exit).
      destruct (exit_op_allots s p RKill (up_pend (delete n) w)) as (E & _). set (w2 := exit_op s p RKill (up_pend (delete n) w)) in *. clearbody w2.
      split; [asame w2|]. cbn. rewrite E. cbn. lia.
    + split; [asame w|cbn; lia].
  - unfold node_accept_op. destruct (w_nmap w !! NRemote n a) as [id|]; [|split; [asame w|cbn; lia]].
    destruct (w_nregs w !! id) as [r|]; [|split; [done|cbn; lia]].
    set (w1 := if bool_decide (n_state r = Pending) then _ else w).
    assert (allots w1 /\ w_next_pid w1 = w_next_pid w) as [H1 E1].
    { unfold w1. destruct (bool_decide _); [|done]. destruct (n_sup r) as [s|]; [|done]. case_decide; [done|].
      split; [by apply allots_exit|]. apply exit_op_allots. }
    destruct (if bool_decide (n_state r = Pending) then None else n_sup r); cbn [fst]; (split; [|cbn; rewrite E1; lia]); [done|]. asame w1.
  - unfold node_workers_op. destruct (w_nmap w !! n) as [id|]; [|split; [done|cbn; lia]]. destruct (w_nregs w !! id) as [r|]; [|split; [done|cbn; lia]].
    set (w1 := up_pend _ _). set (fs := default [] _). assert (allots w1) as H1 by (asame w). destruct (allots_hand_out p fs w1 H1) as [H2 E]. rewrite E. split; [done|]. cbn; lia.
  - unfold sup_down_op. destruct (w_nmap w !! n) as [id|]; [|split; [done|cbn; lia]]. destruct (w_nregs w !! id) as [r|]; [|split; [done|cbn; lia]].
    destruct (match n_sup r with Some s => _ | None => false end); cbn [fst]; (split; [|cbn; lia]); [done|]. asame w.
Qed.
Lemma ins_guar {A} S (F : act -> Prop) b (p : prog world A) : guar (lstep S F) p -> (forall a, F a -> forall i, a <> AInsert i) -> ins b (fun _ _ => True) p.
Proof.
  intros Hg HF. revert b Hg; induction p as [a|m|g f k IH]; intros b Hg; cbn in *; auto.
  intros w Hw Hi Hgw. destruct (Hg w Hgw) as [(a & Ha & E) Hk]. rewrite E. destruct (allots_act S a w (HF a Ha) Hi) as [H1 H2].
  split_and!; try done. by apply IH.
Qed.
Lemma ins_modify b (Q : N -> unit -> Prop) (f : world -> world) :
  (forall w, (b <= w_next_pid w)%N -> allots w -> allots (f w) /\ w_next_pid (f w) = w_next_pid w) -> (forall b', (b <= b')%N -> Q b' tt) ->
  ins b Q (modify f).
Proof. intros H HQ w Hw Hi _. destruct (H w Hw Hi) as [H1 E]. cbn. split; [done|]. rewrite E. split; [lia|]. by apply HQ. Qed.
Lemma ins_spawn b me l m : ins b (fun _ _ => True) (spawn me l m).
Proof.
  unfold spawn. eapply (ins_bind _ (fun b i => (i < b)%N)).
  { intros w Hw [A B] _. cbn. split; [|split; [lia|lia]]. split; cbn; intros i Hi; [apply A in Hi|apply B in Hi]; lia. }
  intros b1 i Hb Hi. eapply (ins_bind _ (fun b _ => (i < b)%N)).
  { destruct l; [|done]. eapply (ins_bind _ (fun b _ => (i < b)%N)); [apply ins_modify; [intros w ? ?; split; [by asame w|done]|lia]|].
    intros b2 _ Hb2 Hi2. apply ins_modify; [intros w ? ?; split; [by asame w|done]|lia]. }
  intros b2 _ Hb2 Hi2. eapply (ins_bind _ (fun b _ => (i < b)%N)).
  { destruct m; [|done]. unfold fresh_ref, own_monitor, own. eapply (ins_bind _ (fun b _ => (i < b)%N)).
    { intros w Hw Hx _. cbn. split; [asame w|]. split; lia. }
    intros b3 r Hb3 Hi3. eapply (ins_bind _ (fun b _ => (i < b)%N)); [apply ins_modify; [intros w ? ?; split; [by asame w|done]|lia]|].
    intros b4 _ Hb4 Hi4. eapply (ins_bind _ (fun b _ => (i < b)%N)); [apply ins_modify; [intros w ? ?; split; [by asame w|done]|lia]|].
    intros b5 _ Hb5 Hi5. exact Hi5. }
  intros b3 r Hb3 Hi3. eapply (ins_bind _ (fun b _ => (i < b)%N)); [apply ins_modify; [intros w ? ?; split; [by asame w|done]|lia]|].
  intros b4 _ Hb4 Hi4. eapply (ins_bind _ (fun _ _ => True)); [|done].
  apply ins_modify; [|done]. intros w Hw [A B]. split; [|done]. split; cbn; [|apply B]. intros j [->|Hj]%insert_is; [lia|by apply A].
Qed.
Lemma ins_call S c b : ins b (fun _ _ => True) (call_prog S c).
Proof.
  assert ((exists me l m, c = CSpawn me l m) \/ (exists me nm ad, c = CSupervise me nm ad) \/ forall a, fp S c a -> forall i, a <> AInsert i) as H.
  { destruct c; try (by left; eauto); try (by right; left; eauto); right; right; intros a Ha i ->; cbn in Ha; try contradiction; try discriminate;
      try (by destruct Ha). }
  destruct H as [(me & l & m & ->)|[(me & nm & ad & ->)|H]].
  - cbn [call_prog]. unfold ret_as. eapply ins_bind; [apply ins_spawn|]. by intros.
  - cbn [call_prog]. unfold ret_as. eapply (ins_bind _ (fun _ _ => True)); [|by intros]. unfold remote_supervisor.
    eapply (ins_bind _ (fun _ _ => True)).
    { intros w Hw Hi _. destruct (allots_act S (AAccept nm ad (PLocal me) (PLocal me)) w ltac:(done) Hi) as [H1 H2]. split_and!; done. }
    intros b1 [] _ _; cbn [negb]; [|exact I]. eapply ins_bind; [apply ins_spawn|]. intros b2 s _ _. eapply ins_bind; [apply ins_spawn|]. intros b3 r _ _.
    eapply (ins_bind _ (fun _ _ => True)); [|done]. intros w Hw Hi _.
    destruct (allots_act S (AWorkers (NRemote nm ad) (fst s) (fst r)) w ltac:(done) Hi) as [H1 H2]. split_and!; done.
  - eapply ins_guar; [apply call_fp|exact H].
Qed.
Lemma reach_allots S s : reachable S s -> allots (s_world s) /\ Forall (ins (w_next_pid (s_world s)) (fun _ _ => True)) (s_threads s).
Proof.
  intros Hr. refine (rtc_ind_r (fun s => allots (s_world s) /\ Forall (ins (w_next_pid (s_world s)) (fun _ _ => True)) (s_threads s)) (Sys world0 []) _ _ s Hr).
  - split; [|constructor]. split; cbn; intros i; rewrite lookup_empty; intros [? ?]; done.
  - clear. intros s1 s2 _ Hr [H1 H2]. destruct Hr as [i s s' Ht|p s (c & ->)].
    + unfold tick in Ht. destruct (s_threads s !! i) as [[| |g f k]|] eqn:E; try discriminate.
      destruct (g (s_world s)) eqn:Hg; inversion Ht; subst; clear Ht. cbn.
      pose proof (Forall_lookup_1 _ _ _ _ H2 E) as Hp. cbn in Hp. destruct (Hp (s_world s) ltac:(lia) H1 Hg) as (A1 & A2 & A3). split; [done|].
      apply Forall_insert; [|done]. eapply Forall_impl; [exact H2|]. intros p Hq. eapply ins_mono; [|exact A2|exact Hq]. done.
    + cbn. split; [done|]. apply Forall_app. split; [done|]. constructor; [|constructor]. apply ins_call.
Qed.
Lemma occurs_allots S w : occurs S w -> allots w.
Proof. intros [ts H]. apply reach_allots in H as [H _]. exact H. Qed.
