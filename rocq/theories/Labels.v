(** Every atomic step of the model as a labelled action, and for each call the actions it may perform
    (its footprint).  "Nothing but these calls changes that" is proved from the footprints. *)
From stdpp Require Import base list gmap numbers strings countable sorting.
From Verif Require Import Prog ProgProofs ProgInv Types Mailbox World ProcApi NodeApi Api Steps SchedSpec.

Inductive act :=
| ANone
| AFreshRef
| AOwnAlias (me : N) (r : reference)
| AOwnUnalias (me : N) (r : reference)
| AOwnMonitor (me : N) (r : reference) (m : pmonitor)
| AOwnDemonitor (me : N) (r : reference)
| AReceive (me T : N) (f : message -> bool) (b : bool)
| AAliasCreate (o : N) (r : reference) (b : bool)
| AAliasDelete (i : N)
| AAliasTake (r : reference)
| APush (i : N) (x : item)
| ASendTo (i : N) (x : item)
| ANodeRegister (n : string) (a : sockaddr) (c : bool)
| ASendFrame (f : frame) (i : N)
| ATaskAdd (i : N) (ds : dests) (v : value) (dur : N)
| ATaskKill (i : N)
| ATimerAdd (i dur : N)
| ATimerDelete (i : N)
| ATick
| AAlloc
| ARunning (i : N)
| AInsert (i : N)
| ARegister (p : pid) (n : string)
| ANameDelete (n : string)
| AUnname (i : N)
| ASetFlags (i : N) (b : bool)
| ASetExit (i : N) (r : exit_reason)
| AExit (p f : pid) (r : exit_reason)
| AExitLinked (p f : pid) (r : exit_reason)
| ARegDelete (i : N)
| AGone (i : N)
| AAddLink (i : N) (p : pid)
| ADelLink (i : N) (p : pid)
| ALinksDelete (i : N)
| AAddMon (i : N) (r : reference) (p : pid) (d : option dest)
| ADelMon (i : N) (r : reference)
| AMonsDelete (i : N)
| AAddNlink (n : node) (p : pid) (i : N)
| ADelNlinks (n : node) (l : list (pid * N))
| ANlinksDelete (n : node)
| AAddNmon (n : node) (r : reference) (m : nmonitor)
| ADelNmon (n : node) (r : reference)
| ADelNmons (n : node) (l : list reference)
| ANmonsDelete (n : node)
| ANodeStart (n : string) (a : sockaddr)
| ANmapDelete (n : node)
| ANmapClear
| ANregsDelete (i : N)
| ANregsClear
| APendDelete (n : node)
| APendClear
| ADisconnect (n : node) (p : pid)
| AAccept (n : string) (a : sockaddr) (p q : pid)
| AWorkers (n : node) (p q : pid)
| ASupDown (n : node) (p : pid).

(** [guar], also saying something about the result. *)
Fixpoint guarq {W R} (G : W -> W -> Prop) (Q : R -> Prop) (p : prog W R) : Prop :=
  match p with
  | Ret r => Q r
  | Panic _ => True
  | Atom g f k => forall w, g w = true -> G w (f w) /\ guarq G Q (k w)
  end.
Lemma guarq_bind {W A B} (G : W -> W -> Prop) (Q : A -> Prop) (Q' : B -> Prop) (p : prog W A) (q : A -> prog W B) :
  guarq G Q p -> (forall a, Q a -> guarq G Q' (q a)) -> guarq G Q' (bind p q).
Proof.
  intros Hp Hq; induction p as [a|m|g f k IH]; cbn in *; auto. intros w Hw. destruct (Hp w Hw). split; auto.
Qed.
Lemma guarq_of {W A} (G : W -> W -> Prop) (p : prog W A) : guar G p -> guarq G (fun _ => True) p.
Proof. induction p as [a|m|g f k IH]; cbn; auto. intros Hp w Hw. destruct (Hp w Hw). split; auto. Qed.
Lemma guarq_guar {W A} (G : W -> W -> Prop) (Q : A -> Prop) (p : prog W A) : guarq G Q p -> guar G p.
Proof. induction p as [a|m|g f k IH]; cbn; auto. intros Hp w Hw. destruct (Hp w Hw). split; auto. Qed.
Lemma guar_each_in {W A} (G : W -> W -> Prop) (l : list A) body : (forall x, x ∈ l -> guar G (body x)) -> guar G (each l body).
Proof.
  induction l as [|x l IH]; intros H; cbn; [exact I|]. apply guar_bind; [apply H; set_solver|].
  intros _. apply IH. intros; apply H; set_solver.
Qed.

Section labels.
  Context (S : serde).
  Definition does (a : act) (w : world) : world :=
    match a with
    | ANone => w
    | AFreshRef => (up_next_ref N.succ w)
    | AOwnAlias me r => (up_loc (alter (upd_aliases (fun a => {[ref_id r]} ∪ a)) me) w)
    | AOwnUnalias me r => (up_loc (alter (upd_aliases (fun a => a ∖ {[ref_id r]})) me) w)
    | AOwnMonitor me r m => (up_loc (alter (upd_monitors (<[r := m]>)) me) w)
    | AOwnDemonitor me r => (up_loc (alter (upd_monitors (delete r)) me) w)
    | AReceive me T f b => (fst (receive_op S me T f b w))
    | AAliasCreate o r b => (alias_create_op o r b w)
    | AAliasDelete i => (up_aliases (delete i) w)
    | AAliasTake r => (fst (alias_take_op r w))
    | APush i x => (push i x w)
    | ASendTo i x => (send_to i x w)
    | ANodeRegister n a c => (fst (node_register_op n a c w))
    | ASendFrame f i => (send_frame f i w)
    | ATaskAdd i ds v dur => (up_tasks (<[i := Task (w_now w + dur) ds v true]>) w)
    | ATaskKill i => (up_tasks (alter kill_task i) w)
    | ATimerAdd i dur => (up_timers (<[i := (w_now w + dur)%N]>) w)
    | ATimerDelete i => (up_timers (delete i) w)
    | ATick => (up_now N.succ w)
    | AAlloc => (up_loc (<[w_next_pid w := new_plocal]>) (up_next_pid N.succ w))
    | ARunning i => (up_running (fun s => {[i]} ∪ s) w)
    | AInsert i => (up_regs (<[i := new_reg]>) w)
    | ARegister p n => (fst (register_op p n w))
    | ANameDelete n => (up_names (delete n) w)
    | AUnname i => (up_regs (alter unname i) w)
    | ASetFlags i b => (set_flags_op i b w)
    | ASetExit i r => (set_exit_op i r w)
    | AExit p f r => (exit_op p f r w)
    | AExitLinked p f r => (exit_linked_op p f r w)
    | ARegDelete i => (up_regs (delete i) w)
    | AGone i => (gone i w)
    | AAddLink i p => (add_link i p w)
    | ADelLink i p => (del_link i p w)
    | ALinksDelete i => (up_links (delete i) w)
    | AAddMon i r p d => (add_mon i r p d w)
    | ADelMon i r => (del_mon i r w)
    | AMonsDelete i => (up_mons (delete i) w)
    | AAddNlink n p i => (add_nlink n p i w)
    | ADelNlinks n l => (del_nlinks n l w)
    | ANlinksDelete n => (up_nlinks (delete n) w)
    | AAddNmon n r m => (add_nmon n r m w)
    | ADelNmon n r => (del_nmon n r w)
    | ADelNmons n l => (del_nmons n l w)
    | ANmonsDelete n => (up_nmons (delete n) w)
    | ANodeStart n a => (fst (node_start_op n a w))
    | ANmapDelete n => (up_nmap (delete n) w)
    | ANmapClear => (up_nmap (fun _ => ∅) w)
    | ANregsDelete i => (up_nregs (delete i) w)
    | ANregsClear => (up_nregs (fun _ => ∅) w)
    | APendDelete n => (up_pend (delete n) w)
    | APendClear => (up_pend (fun _ => ∅) w)
    | ADisconnect n p => (node_disconnect_op n p w)
    | AAccept n a p q => (fst (node_accept_op n a p q w))
    | AWorkers n p q => (node_workers_op n p q w)
    | ASupDown n p => (fst (sup_down_op n p w))
    end.
  (** A step by an action of [F]. *)
  Definition lstep (F : act -> Prop) (w w' : world) : Prop := exists a, F a /\ w' = does a w.
  Lemma lstep_mono (F G : act -> Prop) : (forall a, F a -> G a) -> forall w w', lstep F w w' -> lstep G w w'.
  Proof. intros H w w' (a & Ha & ->). exists a. auto. Qed.
  Ltac lab := first
    [ refine (ex_intro _ (ANone) (conj _ eq_refl))
    | refine (ex_intro _ (AFreshRef) (conj _ eq_refl))
    | refine (ex_intro _ (AOwnAlias _ _) (conj _ eq_refl))
    | refine (ex_intro _ (AOwnUnalias _ _) (conj _ eq_refl))
    | refine (ex_intro _ (AOwnMonitor _ _ _) (conj _ eq_refl))
    | refine (ex_intro _ (AOwnDemonitor _ _) (conj _ eq_refl))
    | refine (ex_intro _ (AReceive _ _ _ _) (conj _ eq_refl))
    | refine (ex_intro _ (AAliasCreate _ _ _) (conj _ eq_refl))
    | refine (ex_intro _ (AAliasDelete _) (conj _ eq_refl))
    | refine (ex_intro _ (AAliasTake _) (conj _ eq_refl))
    | refine (ex_intro _ (APush _ _) (conj _ eq_refl))
    | refine (ex_intro _ (ASendTo _ _) (conj _ eq_refl))
    | refine (ex_intro _ (ANodeRegister _ _ _) (conj _ eq_refl))
    | refine (ex_intro _ (ASendFrame _ _) (conj _ eq_refl))
    | refine (ex_intro _ (ATaskAdd _ _ _ _) (conj _ eq_refl))
    | refine (ex_intro _ (ATaskKill _) (conj _ eq_refl))
    | refine (ex_intro _ (ATimerAdd _ _) (conj _ eq_refl))
    | refine (ex_intro _ (ATimerDelete _) (conj _ eq_refl))
    | refine (ex_intro _ (ATick) (conj _ eq_refl))
    | refine (ex_intro _ (AAlloc) (conj _ eq_refl))
    | refine (ex_intro _ (ARunning _) (conj _ eq_refl))
    | refine (ex_intro _ (AInsert _) (conj _ eq_refl))
    | refine (ex_intro _ (ARegister _ _) (conj _ eq_refl))
    | refine (ex_intro _ (ANameDelete _) (conj _ eq_refl))
    | refine (ex_intro _ (AUnname _) (conj _ eq_refl))
    | refine (ex_intro _ (ASetFlags _ _) (conj _ eq_refl))
    | refine (ex_intro _ (ASetExit _ _) (conj _ eq_refl))
    | refine (ex_intro _ (AExit _ _ _) (conj _ eq_refl))
    | refine (ex_intro _ (AExitLinked _ _ _) (conj _ eq_refl))
    | refine (ex_intro _ (ARegDelete _) (conj _ eq_refl))
    | refine (ex_intro _ (AGone _) (conj _ eq_refl))
    | refine (ex_intro _ (AAddLink _ _) (conj _ eq_refl))
    | refine (ex_intro _ (ADelLink _ _) (conj _ eq_refl))
    | refine (ex_intro _ (ALinksDelete _) (conj _ eq_refl))
    | refine (ex_intro _ (AAddMon _ _ _ _) (conj _ eq_refl))
    | refine (ex_intro _ (ADelMon _ _) (conj _ eq_refl))
    | refine (ex_intro _ (AMonsDelete _) (conj _ eq_refl))
    | refine (ex_intro _ (AAddNlink _ _ _) (conj _ eq_refl))
    | refine (ex_intro _ (ADelNlinks _ _) (conj _ eq_refl))
    | refine (ex_intro _ (ANlinksDelete _) (conj _ eq_refl))
    | refine (ex_intro _ (AAddNmon _ _ _) (conj _ eq_refl))
    | refine (ex_intro _ (ADelNmon _ _) (conj _ eq_refl))
    | refine (ex_intro _ (ADelNmons _ _) (conj _ eq_refl))
    | refine (ex_intro _ (ANmonsDelete _) (conj _ eq_refl))
    | refine (ex_intro _ (ANodeStart _ _) (conj _ eq_refl))
    | refine (ex_intro _ (ANmapDelete _) (conj _ eq_refl))
    | refine (ex_intro _ (ANmapClear) (conj _ eq_refl))
    | refine (ex_intro _ (ANregsDelete _) (conj _ eq_refl))
    | refine (ex_intro _ (ANregsClear) (conj _ eq_refl))
    | refine (ex_intro _ (APendDelete _) (conj _ eq_refl))
    | refine (ex_intro _ (APendClear) (conj _ eq_refl))
    | refine (ex_intro _ (ADisconnect _ _) (conj _ eq_refl))
    | refine (ex_intro _ (AAccept _ _ _ _) (conj _ eq_refl))
    | refine (ex_intro _ (AWorkers _ _ _) (conj _ eq_refl))
    | refine (ex_intro _ (ASupDown _ _) (conj _ eq_refl)) ].

  Ltac lsolve := cbn; try exact I; repeat split; eauto 6.
  Ltac lgs := repeat first
    [ exact I
    | apply guar_ret | apply guar_panic
    | apply guar_observe; intros; solve [lab; lsolve]
    | apply guar_modify; intros; solve [lab; lsolve]
    | apply guar_atom; intros; cbn [fst]; solve [lab; lsolve]
    | apply guar_each; intros
    | apply guar_bind; [|intros]
    | match goal with |- guar _ (match ?x with _ => _ end) => destruct x eqn:? end
    | match goal with |- guar _ (if ?x then _ else _) => destruct x eqn:? end ].
  (** Use the footprint of a part of the call. *)
  Ltac part L := eapply guar_mono; [apply lstep_mono|apply L]; intros []; cbn; try (by intros []); try tauto; eauto.

  Lemma l_fresh (F : act -> Prop) : F AFreshRef -> guarq (lstep F) (fun r => ref_is_local r = true) fresh_ref.
  Proof. intros H w _. split; [exists AFreshRef; auto | reflexivity]. Qed.
  Definition fp_deliver (d : dest) (x : item) (a : act) : Prop :=
    match a with
    | ANone => True
    | ASendTo i y => y = x /\ match d with DPid p => i = pid_id p | DNamed _ _ => True | DAlias _ => False end
    | APush i y => exists r, d = DAlias r /\ (y = x \/ y = IAliasDeactivated (ref_id r))
    | AAliasTake r => d = DAlias r
    | _ => False
    end.
  Lemma l_deliver d x : guar (lstep (fp_deliver d x)) (deliver d x).
  Proof. unfold deliver, name_lookup, alias_retrieve. destruct d; lgs. Qed.
  Definition fp_noderegister (c : bool) (a : act) : Prop :=
    match a with ANone => True | ANodeRegister _ _ c' => c' = c | _ => False end.
  Lemma l_node_register nd c : guar (lstep (fp_noderegister c)) (node_register nd c).
  Proof. unfold node_register. lgs. Qed.
  (** The item is the message [v]. *)
  Definition msg_item (v : value) (x : item) : Prop := x = IUserLocal v \/ x = IUserRemote (ser S v).
  Definition fp_send (ds : list dest) (v : value) (a : act) : Prop :=
    match a with
    | ANone => True
    | ASendTo _ y => msg_item v y
    | APush _ y => msg_item v y \/ exists r, DAlias r ∈ ds /\ y = IAliasDeactivated (ref_id r)
    | AAliasTake r => DAlias r ∈ ds
    | ANodeRegister _ _ c => c = false
    | ASendFrame f _ => exists ts, f = FSend ts (ser S v)
    | _ => False
    end.
  Lemma l_deliver_send d x ds v : d ∈ ds -> msg_item v x -> guar (lstep (fp_send ds v)) (deliver d x).
  Proof.
    intros Hd Hx. eapply guar_mono; [apply lstep_mono|apply l_deliver]. intros []; cbn; try done.
    - by intros ->.
    - intros (r & -> & [->| ->]); eauto.
    - by intros [-> _].
  Qed.
  Lemma l_remote_target d ds v : guar (lstep (fp_send ds v)) (remote_target d).
  Proof. unfold remote_target. lgs. part l_node_register. Qed.
  Lemma l_send_one d ds v : d ∈ ds -> guar (lstep (fp_send ds v)) (send_one S d v).
  Proof.
    intros Hd. unfold send_one. lgs; first [apply l_deliver_send; [exact Hd | by left] | apply l_remote_target].
  Qed.
  Lemma l_send_loop v ds l first rem : (forall d, d ∈ l -> d ∈ ds) ->
    (match first with Some d => d ∈ ds | None => True end) ->
    guarq (lstep (fp_send ds v)) (fun x => match fst x with Some d => d ∈ ds | None => True end) (send_loop S v l first rem).
  Proof.
    revert first rem; induction l as [|d l IH]; intros first rem H Hf; cbn [send_loop]; [exact Hf|].
    assert (forall d, d ∈ l -> d ∈ ds) as Hl by (intros; apply H; set_solver).
    destruct (dest_is_local d).
    - destruct first as [f|].
      + eapply guarq_bind; [apply guarq_of, l_deliver_send; [apply H; set_solver | by right]|]. intros _ _. by apply IH.
      + apply IH; [exact Hl | apply H; set_solver].
    - eapply guarq_bind; [apply guarq_of, l_remote_target|]. intros t _. by apply IH.
  Qed.
  Lemma l_send ds v : guar (lstep (fp_send (dests_list ds) v)) (send S ds v).
  Proof.
    destruct ds as [d|l]; cbn [send dests_list].
    - apply l_send_one. set_solver.
    - apply (guarq_guar _ (fun _ => True)). eapply guarq_bind; [by apply (l_send_loop v l)|].
      intros x Hx; cbn beta in Hx. apply guarq_of. apply guar_bind; [|intros; lgs].
      destruct (fst x) as [d|]; [apply l_send_one; exact Hx | exact I].
  Qed.

  (** *** Timers *)
  Definition fp_destroy_timer (i : N) (a : act) : Prop :=
    match a with ANone => True | ATimerDelete j | ATaskKill j => j = i | _ => False end.
  Lemma l_destroy_timer r : guar (lstep (fp_destroy_timer (ref_id r))) (destroy_timer r).
  Proof. unfold destroy_timer. lgs. Qed.
  Definition user_item (x : item) : Prop := match x with IUserLocal _ | IUserRemote _ => True | _ => False end.
  Definition fp_fire (i : N) (a : act) : Prop :=
    match a with
    | ANone => True
    | ATimerDelete j | ATaskKill j => j = i
    | ASendTo _ y => user_item y
    | APush _ y => user_item y \/ exists r, y = IAliasDeactivated (ref_id r)
    | AAliasTake r => True
    | ANodeRegister _ _ c => c = false
    | ASendFrame f _ => exists ts m, f = FSend ts m
    | _ => False
    end.
  Lemma l_fire i : guar (lstep (fp_fire i)) (timer_fire S i).
  Proof.
    unfold timer_fire. apply guar_bind.
    - cbn. intros w _. split; [exists (ATaskKill i); split; [reflexivity | reflexivity] | exact I].
    - intros [t|]; [|exact I]. apply guar_bind.
      + eapply guar_mono; [apply lstep_mono|apply l_send]. intros []; cbn; try done.
        * intros [[->| ->]|(r & _ & ->)]; cbn; eauto.
        * intros [->| ->]; exact I.
        * intros [ts ->]; eauto.
      + intros _. part l_destroy_timer.
  Qed.

  (** *** Processes *)
  Definition fp_spawn (me : N) (link monitor : bool) (a : act) : Prop :=
    match a with
    | ANone | AAlloc | ARunning _ | AInsert _ => True
    | AAddLink _ _ => link = true
    | AFreshRef => monitor = true
    | AOwnMonitor me' _ _ => monitor = true /\ me' = me
    | AAddMon i r p d => monitor = true /\ p = PLocal me /\ d = Some (DPid (PLocal i)) /\ ref_is_local r = true
    | _ => False
    end.
  Lemma l_spawn me l m : guar (lstep (fp_spawn me l m)) (spawn me l m).
  Proof.
    unfold spawn, own_monitor, own. apply guar_bind; [lgs|]. intros i. apply guar_bind; [destruct l; lgs|]. intros _.
    apply guar_bind; [|intros; lgs]. destruct m; [|exact I].
    apply (guarq_guar _ (fun _ => True)). eapply guarq_bind; [apply l_fresh; cbn; reflexivity|].
    intros r Hr. apply guarq_of. lgs.
  Qed.
  Definition fp_link (me : N) (p : pid) (a : act) : Prop :=
    match a with
    | ANone => True
    | AAddLink i q => i = me /\ q = p \/ i = pid_id p /\ q = PLocal me /\ pid_is_local p = true
    | AExitLinked q f r => q = PLocal me /\ f = p
    | AAddNlink _ q _ => q = p /\ pid_is_local p = false
    | ANodeRegister _ _ c => pid_is_local p = false /\ c = true
    | ASendFrame _ _ => pid_is_local p = false
    | _ => False
    end.
  Lemma l_link me p : guar (lstep (fp_link me p)) (link me p).
  Proof.
    unfold link, link_install, link_create. cbn [pid_id]. lgs.
  Qed.
  Definition fp_unlink (me : N) (p : pid) (a : act) : Prop :=
    match a with
    | ANone => True
    | ADelLink i q => i = pid_id p /\ q = PLocal me /\ pid_is_local p = true
    | ASendFrame _ _ => pid_is_local p = false
    | ADelNlinks _ l => pid_is_local p = false /\ l = [(p, me)]
    | _ => False
    end.
  Lemma l_unlink me p : guar (lstep (fp_unlink me p)) (unlink me p).
  Proof. unfold unlink, link_destroy. lgs. Qed.
  Definition fp_monitor (me : N) (d : dest) (a : act) : Prop :=
    match a with
    | ANone | AFreshRef => True
    | AOwnMonitor me' _ _ => me' = me
    | AAddMon _ r p d' => p = PLocal me /\ d' = Some d
    | APush i y => i = me /\ exists r why, y = IProcessDown d r (RCustom why)
    | AAliasDelete _ => True
    | AAddNmon _ _ m => m = NMProcess me d
    | ANodeRegister _ _ c => c = true
    | ASendFrame _ _ => True
    | _ => False
    end.
  Lemma l_monitor_install me d r : guar (lstep (fp_monitor me d)) (monitor_install me d r).
  Proof.
    unfold monitor_install, monitor_local, monitor_remote, self_down, own_monitor, own, name_lookup, alias_destroy, alias_destroy_op.
    lgs; part l_node_register.
  Qed.
  Lemma l_monitor me d : guar (lstep (fp_monitor me d)) (monitor me d).
  Proof. unfold monitor, fresh_ref. lgs. apply l_monitor_install. Qed.
  Definition fp_monitor_alias (me : N) (d : dest) (b : bool) (a : act) : Prop :=
    fp_monitor me d a \/ match a with AAliasCreate o r b' => o = me /\ b' = b | _ => False end.
  Lemma l_monitor_alias me d b : guar (lstep (fp_monitor_alias me d b)) (monitor_alias me d b).
  Proof.
    unfold monitor_alias. apply guar_bind; [apply guar_atom; intros; exists AFreshRef; split; [left; exact I|reflexivity]|]. intros r.
    apply guar_bind; [apply guar_modify; intros; exists (AAliasCreate me r b); split; [right; cbn; auto|reflexivity]|]. intros _.
    apply guar_bind; [|intros; exact I]. eapply guar_mono; [apply lstep_mono|apply l_monitor_install]. by left.
  Qed.
  Definition fp_demonitor (me : N) (r : reference) (a : act) : Prop :=
    match a with
    | ANone => True
    | AOwnDemonitor me' r' => me' = me /\ r' = r
    | ADelMon _ r' | ADelNmon _ r' => r' = r
    | AAliasDelete i => i = ref_id r
    | ASendFrame _ _ => True
    | _ => False
    end.
  Lemma l_demonitor me r : guar (lstep (fp_demonitor me r)) (demonitor me r).
  Proof. unfold demonitor, take_monitor, monitor_destroy, alias_destroy, alias_destroy_op. lgs. Qed.
  Definition fp_exit (me : N) (p : pid) (why : exit_reason) (a : act) : Prop :=
    match a with
    | ANone => True
    | AExit q f r => q = p /\ f = PLocal me /\ r = why /\ pid_is_local p = true
    | ASendFrame f i => f = FExit (pid_id p) me why /\ i = pid_node p /\ pid_is_local p = false
    | _ => False
    end.
  Lemma l_exit me p why : guar (lstep (fp_exit me p why)) (exit me p why).
  Proof. unfold exit. lgs. Qed.
  Definition fp_finish (me : N) (a : act) : Prop :=
    match a with
    | ADelNlinks _ l => exists ps, l = map (fun p => (p, me)) ps
    | ANone | ANameDelete _ | ASendFrame _ _ | AAliasDelete _ | ADelNmons _ _ | ADelMon _ _ | ADelNmon _ _ => True
    | ARegDelete i | ALinksDelete i | AMonsDelete i | AGone i => i = me
    | ADelLink _ p => p = PLocal me
    | AExitLinked p f _ => f = PLocal me /\ pid_is_local p = true
    | ASendTo _ y => exists d r why, y = IProcessDown d r why
    | _ => False
    end.
  Definition fp_tail (me : N) (a : act) : Prop := match a with ANameDelete _ => False | _ => fp_finish me a end.
  (** The end of a process after its registration and its name are gone. *)
  Definition drop_tail (me : N) (why : exit_reason) : prog world unit :=
    do! link_process_down (PLocal me) why in
    do! monitor_process_down (PLocal me) why in
    let! l := observe (fun w => w_loc w !! me) in
    do! monitor_destroy_all (match l with Some l => sorted_refs (l_monitors l) | None => [] end) in
    do! alias_destroy_all (match l with Some l => sorted_ids (l_aliases l) | None => [] end) in
    modify (gone me).
  Lemma l_tail me why : guar (lstep (fp_tail me)) (drop_tail me why).
  Proof.
    unfold drop_tail, link_process_down, monitor_process_down, monitor_destroy_all, alias_destroy_all, alias_destroy, alias_destroy_op.
    cbn [pid_id]. apply guar_bind; [|intros; apply guar_bind; [lgs|intros; lgs]].
    apply guar_bind; [lgs|]. intros [ls|]; [|exact I]. apply guar_bind; [|intros; lgs].
    apply guar_each_in. intros p Hp. apply elem_of_list_filter in Hp as [Hp _]. lgs.
  Qed.
  Lemma l_finish me : guar (lstep (fp_finish me)) (drop_process me).
  Proof.
    unfold drop_process. apply guar_bind; [lgs|]. intros [r|]; [|lgs].
    apply guar_bind; [lgs|]. intros _. eapply guar_mono; [apply lstep_mono|apply (l_tail me)]. intros []; cbn; auto.
  Qed.
  Definition fp_crash (me : N) (a : act) : Prop :=
    fp_finish me a \/ match a with ASetExit i _ => i = me | _ => False end.
  Lemma l_crash me why : guar (lstep (fp_crash me)) (crash me why).
  Proof.
    unfold crash. apply guar_bind.
    - apply guar_modify; intros. exists (ASetExit me why). split; [by right | reflexivity].
    - intros _. eapply guar_mono; [apply lstep_mono|apply l_finish]. by left.
  Qed.

  (** *** Nodes *)
  Definition fp_supervise (me : N) (nm : string) (ad : sockaddr) (a : act) : Prop :=
    match a with
    | ANone | AAlloc | ARunning _ | AInsert _ | AAddLink _ _ => True
    | AAccept n a p q => n = nm /\ a = ad /\ p = PLocal me /\ q = PLocal me
    | AWorkers n _ _ => n = NRemote nm ad
    | _ => False
    end.
  Lemma l_supervise me n a : guar (lstep (fp_supervise me n a)) (remote_supervisor me n a).
  Proof.
    unfold remote_supervisor, spawn. lgs.
  Qed.
  Definition down_item (y : item) : Prop := match y with IProcessDown _ _ _ | INodeDown _ _ => True | _ => False end.
  Definition fp_supdown (nd : node) (p : pid) (a : act) : Prop :=
    match a with
    | ANone | ADelLink _ _ | ADelMon _ _ | AAliasDelete _ => True
    | ASupDown n q => n = nd /\ q = p
    | ANlinksDelete n | ANmonsDelete n | APendDelete n => n = nd
    | AExitLinked _ _ r => r = RCustom "noconnection"
    | ASendTo _ y => down_item y
    | _ => False
    end.
  Lemma l_supdown nd p : guar (lstep (fp_supdown nd p)) (supervisor_down nd p).
  Proof.
    unfold supervisor_down, link_destroy, monitor_destroy, alias_destroy, alias_destroy_op. cbn [pid_is_local pid_id]. lgs.
  Qed.
  (** The same after the registration has been given up. *)
  Lemma l_cut nd p : guar (lstep (fun a => match a with ASupDown _ _ => False | _ => fp_supdown nd p a end))
        (let! ls := atom (fun w => (up_nlinks (delete nd) w, w_nlinks w !! nd)) in
         do! each (merge_sort (fun x y => pid_le (fst x) (fst y) /\ (fst x <> fst y \/ (snd x <= snd y)%N))
                         (elements (default ∅ ls))) (fun x =>
          do! link_destroy (PLocal (snd x)) (fst x) in
          modify (exit_linked_op (PLocal (snd x)) (fst x) (RCustom "noconnection"))) in
         let! ms := atom (fun w => (up_nmons (delete nd) w, w_nmons w !! nd)) in
         do! each (sorted_refs (default ∅ ms)) (fun x =>
          do! match snd x with
              | NMNode i => modify (send_to i (INodeDown nd (fst x)))
              | NMProcess i d => modify (send_to i (IProcessDown d (fst x) (RCustom "noconnection")))
              | NMCleanup i => monitor_destroy (PLocal i) (fst x)
              end in
          if ref_is_local (fst x) then do! alias_destroy (fst x) in Ret tt else Ret tt) in
         modify (up_pend (delete nd))).
  Proof.
    unfold link_destroy, monitor_destroy, alias_destroy, alias_destroy_op. cbn [pid_is_local pid_id]. lgs.
  Qed.
  Definition fp_frame (nd : node) (f : frame) (a : act) : Prop :=
    match a, f with
    | ANone, _ => True
    | ASendTo _ y, FSend _ m => y = IUserRemote m
    | APush _ y, FSend _ m => y = IUserRemote m \/ exists i, y = IAliasDeactivated i
    | AAliasTake r, FSend ts _ => TAlias (ref_id r) ∈ ts
    | ANodeRegister _ _ c, (FMonitor _ _ _ _ _ | FMonitorUpdate _ _ _ | FLink _ _ _ | FLinkDown _ _ _ | FExit _ _ _) => c = false
    | AAddMon _ r q d, FMonitor i _ _ _ _ => i = true /\ ref_is_local r = false /\ pid_is_local q = false /\ d = None
    | AAddNmon n r m, FMonitor i _ _ _ _ => i = true /\ n = nd /\ ref_is_local r = false /\ exists j, m = NMCleanup j
    | ASendFrame _ _, (FMonitor _ _ _ _ _ | FLink _ _ _) => True
    | ADelMon _ r, FMonitor i _ _ _ _ => ref_is_local r = false
    | ADelNmon n r, FMonitor i _ _ _ _ => n = nd /\ ref_is_local r = false
    | ADelNmon n r, FMonitorDown rs _ => n = nd /\ exists k, k ∈ rs /\ r = RLocal k
    | AAliasDelete i, FMonitorDown rs _ => i ∈ rs
    | ASendTo _ y, FMonitorDown rs why => exists d k, k ∈ rs /\ y = IProcessDown d (RLocal k) why
    | ASendTo i y, FMonitorUpdate p from r => i = p /\ exists n, y = IProcessUpdate (RLocal r) (PRemote from n)
    | AAddLink i q, FLink ins p from => ins = true /\ i = p /\ pid_is_local q = false
    | AAddNlink n q i, FLink ins p from => ins = true /\ n = nd /\ pid_is_local q = false
    | ADelLink i q, FLink ins p from => i = p /\ pid_is_local q = false
    | ADelNlinks n l, FLink ins p from => n = nd /\ ins = false /\ exists m, l = [(PRemote from m, p)]
    | ADelNlinks n l, FLinkDown ls from _ => n = nd /\ exists m i, i ∈ ls /\ l = [(PRemote from m, i)]
    | AExitLinked p f r, FLinkDown ls from why => pid_is_local f = false /\ r = why /\ exists i, i ∈ ls /\ p = PLocal i
    | AExit p f r, FExit i from why => p = PLocal i /\ pid_is_local f = false /\ r = why
    | _, _ => False
    end.
  Lemma l_frame nd p f : guar (lstep (fp_frame nd f)) (receive_frame nd p f).
  Proof.
    unfold receive_frame, forward_send, on_monitor, on_link, name_lookup, node_process_monitor_down,
      node_process_link_down, link_create, link_destroy, monitor_destroy, alias_destroy, alias_destroy_op.
    destruct f; cbn [pid_is_local pid_id]; try exact I.
    - apply guar_each_in. intros t Ht. eapply guar_mono; [apply lstep_mono|apply l_deliver]. intros []; cbn; try done.
      + destruct t; try discriminate. cbn. intros [= <-]. exact Ht.
      + intros (r & _ & [->| ->]); eauto.
      + tauto.
    - apply guar_bind; [part l_node_register|]. intros n. lgs.
    - apply guar_each_in. intros t Ht. lgs.
    - apply guar_bind; [part l_node_register|]. intros n. lgs.
    - apply guar_bind; [part l_node_register|]. intros n. lgs.
    - apply guar_bind; [part l_node_register|]. intros n. apply guar_each_in. intros t Ht. lgs.
    - apply guar_bind; [part l_node_register|]. intros n. lgs.
  Qed.

  (** ** The footprint of every call *)
  Definition fp (c : call) (a : act) : Prop :=
    match c with
    | CAlias me b => match a with ANone | AFreshRef => True | AOwnAlias me' _ => me' = me
                     | AAliasCreate o r b' => o = me /\ b' = b | _ => False end
    | CUnalias me r => match a with ANone => True | AOwnUnalias me' r' => me' = me /\ r' = r
                       | AAliasDelete i => i = ref_id r | _ => False end
    | CSend ds v => fp_send (dests_list ds) v a
    | CSendAfter ds v d => match a with ANone | AFreshRef => True | ATaskAdd _ ds' v' d' => ds' = ds /\ v' = v /\ d' = d
                           | ATimerAdd _ d' => d' = d | _ => False end
    | CCancel r => fp_destroy_timer (ref_id r) a
    | CFire i => fp_fire i a
    | CTick => a = ATick
    | CSpawn me l m => fp_spawn me l m a
    | CRegister p n => a = ARegister p n
    | CUnregister n => match a with ANone | AUnname _ => True | ANameDelete n' => n' = n | _ => False end
    | CLink me p => fp_link me p a
    | CUnlink me p => fp_unlink me p a
    | CMonitor me d => fp_monitor me d a
    | CMonitorAlias me d b => fp_monitor_alias me d b a
    | CDemonitor me r => fp_demonitor me r a
    | CSetFlags me b => a = ASetFlags me b
    | CExit me p why => fp_exit me p why a
    | CReceive me T f b => a = AReceive me T f b
    | CFinish me => fp_finish me a
    | CCrash me _ => fp_crash me a
    | CNodeStart n ad => a = ANodeStart n ad
    | CNodeStop me => match a with ANone | ANmapClear | ANregsClear | APendClear => True | ANmapDelete n => n = NLocal
                      | AExit _ f r => f = PLocal me /\ r = RKill | _ => False end
    | CLocalPanic => match a with ANone | ANmapClear | ANregsClear | APendClear => True | _ => False end
    | CConnect nd => match a with ANone => True | ANodeRegister n ad c => c = true /\ nd = NRemote n ad | _ => False end
    | CDisconnect me nd => match a with ANone => True | ADisconnect n p => n = nd /\ p = PLocal me /\ nd <> NLocal | _ => False end
    | CForget me nd => match a with ANone | ANregsDelete _ | ASendFrame _ _ => True | ANmapDelete n | APendDelete n => n = nd
                       | AExit _ f r => f = PLocal me /\ r = RKill | _ => False end
    | CNodeMonitor me nd => match a with ANone | AFreshRef => True | AOwnMonitor me' _ m => me' = me /\ m = MForNode nd
                            | AAddNmon n _ m => n = nd /\ m = NMNode me | ANodeRegister _ _ c => c = true | _ => False end
    | CNodeDemonitor me r => match a with ANone => True | AOwnDemonitor me' r' => me' = me /\ r' = r
                             | ADelNmon _ r' => r' = r | _ => False end
    | CSupervise me n ad => fp_supervise me n ad a
    | CSupDown nd p => fp_supdown nd p a
    | CFrame nd _ f => fp_frame nd f a
    | CWhereis _ | CReadTimer _ | CAlive _ | CRegistered | CList | CFlags _ | CInfo _ | CNodeAlive | CNodeList
    | CNodeListBy _ => a = ANone
    end.
  Theorem call_fp c : guar (lstep (fp c)) (call_prog S c).
  Proof.
    destruct c; cbn [call_prog fp]; unfold ret_as; (apply guar_bind; [|intros; exact I]).
    - unfold alias, fresh_ref, own. lgs.
    - unfold unalias, own, alias_destroy, alias_destroy_op. lgs.
    - unfold whereis, name_lookup. lgs.
    - apply l_send.
    - unfold send_after, fresh_ref. lgs.
    - apply l_destroy_timer.
    - unfold read_timer. lgs.
    - apply l_fire.
    - lgs.
    - apply l_spawn.
    - unfold alive. lgs.
    - unfold register. lgs.
    - unfold unregister. lgs.
    - unfold registered. lgs.
    - unfold list_processes. lgs.
    - apply l_link.
    - apply l_unlink.
    - apply l_monitor.
    - apply l_monitor_alias.
    - apply l_demonitor.
    - unfold flags. lgs.
    - unfold set_flags. lgs.
    - apply l_exit.
    - unfold info. lgs.
    - unfold try_receive. lgs.
    - apply l_finish.
    - apply l_crash.
    - unfold node_alive. lgs.
    - unfold node_start. lgs.
    - unfold node_stop. lgs.
      apply guar_modify; intros w. repeat case_match; first [solve [lab; lsolve] | exists ANone; split; [exact I|reflexivity]].
    - unfold node_local_panic. lgs.
    - unfold node_list. lgs.
    - unfold node_list_by. lgs.
    - unfold node_connect. destruct nd; [lgs|]. cbn. lgs.
    - unfold node_disconnect. destruct nd; [lgs|]. lgs.
    - unfold forget, node_forget, exit. lgs.
    - unfold node_monitor, fresh_ref, own_monitor, own, node_register. lgs.
    - unfold node_demonitor, take_monitor. lgs.
    - apply l_supervise.
    - apply l_supdown.
    - apply l_frame.
  Qed.
End labels.
