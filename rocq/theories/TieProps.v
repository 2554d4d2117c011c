(** C87-C90: links in every schedule, the processes of a connection, stopping and restarting the local node. *)
From stdpp Require Import base list gmap numbers strings countable sorting relations.
From Coq Require Import Lia.
From Verif Require Import Prog ProgProofs ProgInv Types Mailbox World ProcApi NodeApi Api Steps Hist Labels Play SchedSpec SchedProofs SchedProps
  ProcSpec ProcProofs FreshProofs LinkProofs NetSpec Persist Debt TieSpec TieProofs.

(** ** C87 *)
Section told.
  Context (S : serde) (a j : N) (Haj : a <> j) (t : bool).
  Notation api := (calls_of S (keeps_tie a j)).
  Notation ow s g x := (owed (ev a) (J a j t) (K j) (s_world s) (s_threads s) g x).
  Lemma ev_refl w g : ev a w w g = g.
  Proof. unfold ev. by destruct (w_regs w !! a). Qed.
  Lemma tie_step (s s' : sys world val) g x : ow s g x -> sys_step api s s' -> exists x', ow s' (ev a (s_world s) (s_world s') g) x'.
  Proof. intros Hx Hs. eapply (owed_step _ _ _ ev_refl api); [|exact Hx|exact Hs]. intros p (c & Hc & ->). by apply t_call. Qed.
  Lemma tie_start w : nlinks_remote w -> (a < w_next_pid w)%N -> (j < w_next_pid w)%N -> is_Some (w_loc w !! j) -> is_Some (w_regs w !! a) ->
    (forall r, w_regs w !! j = Some r -> r_trap r = t) -> linked w a j = true -> ow (Sys w [] : sys world val) None None.
  Proof.
    intros H1 H2 H3 H4 H5 H6 H7. split.
    - split; [by constructor|]. split; [done|]. by intros _.
    - exists []. split; [constructor|]. split_and!; [intros i s b Hi; discriminate|intros i s Hi; discriminate|intros i i' s s' b b' Hi; discriminate|discriminate].
  Qed.
  Lemma tie_reach (s0 s : sys world val) g x : ow s0 g x -> reach api s0 s -> exists g' x', ow s g' x'.
  Proof.
    intros H0 Hr. revert s Hr. refine (rtc_ind_r (fun s => exists g' x', ow s g' x') s0 _ _); [by eauto|].
    intros y z _ Hs (g' & x' & Hx). destruct (tie_step y z g' x' Hx Hs) as (x2 & ?). eauto.
  Qed.
  Lemma tie_ghost (s : sys world val) g x : ow s g x -> is_Some (w_regs (s_world s) !! a) <-> g = None.
  Proof.
    intros [[_ H] _]. destruct x as [[[[] ?] ?]|], g as [[? ?]|]; try done.
    - destruct H as (_ & -> & _). split; [by intros [? ?]|done].
    - destruct H as (_ & -> & _). split; [by intros [? ?]|done].
    - destruct H as (-> & _). split; [by intros [? ?]|done].
    - destruct H as (H & _). done.
  Qed.
  Lemma tie_after (s0 s : sys world val) y x : ow s0 (Some y) x -> reach api s0 s -> exists x', ow s (Some y) x'.
  Proof.
    intros H0 Hr. revert s Hr. refine (rtc_ind_r (fun s => exists x', ow s (Some y) x') s0 _ _); [by eauto|].
    intros s s' _ Hs (x' & Hx). destruct (tie_step s s' _ _ Hx Hs) as (x2 & Hx2). exists x2.
    assert (ev a (s_world s) (s_world s') (Some y) = Some y) as E; [|by rewrite <- E].
    unfold ev. destruct (w_regs (s_world s) !! a) eqn:Ea; [|done]. pose proof (proj1 (tie_ghost s _ _ Hx)) as H. rewrite Ea in H. by specialize (H ltac:(eauto)).
  Qed.
End told.
(** A link that is in place is never forgotten: in every schedule, when [a] leaves with reason [why], then once all calls
    have returned [j] has got the signal: an Exit message from [a] with the reason if it traps exits, its termination
    otherwise (unless the reason is Normal) - or it has ended itself. *)
Theorem C87_linked_told_partial :
  forall S a j w ra rj why s1 s2 s3,
  occurs S w -> a <> j -> w_regs w !! a = Some ra -> w_regs w !! j = Some rj -> is_Some (w_loc w !! a) -> is_Some (w_loc w !! j) -> linked w a j = true ->
  reach (calls_of S (keeps_tie a j)) (Sys w []) s1 -> sys_step (calls_of S (keeps_tie a j)) s1 s2 -> leaves a why s1 s2 ->
  reach (calls_of S (keeps_tie a j)) s2 s3 -> settled s3 -> told a j (r_trap rj) why (s_world s2) (s_world s3).
Proof.
  intros S a j w ra rj why s1 s2 s3 Ho Haj Ha Hj Hla Hlj Hl H1 H12 (r & Hr & <- & Hg) H3 Hs.
  assert (owed (ev a) (J a j (r_trap rj)) (K j) (s_world (Sys w [] : sys world val)) (s_threads (Sys w [] : sys world val)) None None) as H0.
  { apply tie_start; try done; [by apply (occurs_nlinks S)|by apply (occurs_allocated S w Ho)|by apply (occurs_allocated S w Ho)|].
    intros r' Hr'. rewrite Hj in Hr'. by injection Hr' as <-. }
  destruct (tie_reach S a j Haj _ _ _ _ _ H0 H1) as (g & x & Hx). assert (g = None) as -> by (apply (tie_ghost _ _ _ _ _ _ Hx); by rewrite Hr).
  destruct (tie_step S a j Haj _ _ _ _ _ Hx H12) as (x2 & Hx2). unfold ev in Hx2. rewrite Hr, Hg in Hx2.
  destruct (tie_after S a j Haj _ _ _ _ _ Hx2 H3) as (x3 & Hx3). pose proof (owed_settled _ _ _ _ _ _ _ Hx3 Hs) as ->.
  destruct Hx3 as [(_ & _ & _ & Hd) _]. exact Hd.
Qed.
Print Assumptions C87_linked_told_partial.
(** The full claim - a process that has linked to another is told when that one ends, however the two calls overlap - is
    false: link checks that the process exists and adds the entry in two steps, and if the whole end of the process
    happens in between, nobody is told.  Here [j] traps exits, so any Exit message from [a] would do. *)
Definition C87_statement : Prop :=
  forall S w a j rj s, seq_reachable S w -> a <> j -> is_Some (w_regs w !! a) -> is_Some (w_loc w !! a) -> w_regs w !! j = Some rj -> r_trap rj = true ->
    is_Some (w_loc w !! j) ->
    reach (any_call S) (Sys w [call_prog S (CLink j (PLocal a)); call_prog S (CFinish a)]) s -> results s [VUnit; VUnit] ->
    exists why, (j, ISystem (SExit (PLocal a) why)) ∈ w_log (s_world s).
Definition two_trap : world := out_world (run (call_prog S0 (CSetFlags 1 true)) two).
Lemma two_trap_reachable : seq_reachable S0 two_trap.
Proof.
  destruct (play_some S0 (fun w => w = two_trap) [CSpawn 0 false false; CSpawn 0 false false; CSetFlags 1 true]) as (w & H & ->); [|exact H].
  vm_compute. reflexivity.
Qed.
Theorem C87_refuted : ~ C87_statement.
Proof.
  intros H.
  destruct (exec_some [0; 0; 0; 1; 1; 1; 1; 1; 0]
    (Sys two_trap [call_prog S0 (CLink 1 (PLocal 2)); call_prog S0 (CFinish 2)])
    (fun s => results s [VUnit; VUnit] /\ w_log (s_world s) = [])) as (s & E & H1 & H2).
  { vm_compute. auto. }
  destruct (H S0 two_trap 2%N 1%N (Reg None true None false) s) as (why & Hw);
    [apply two_trap_reachable | discriminate | vm_compute; eauto | vm_compute; eauto | vm_compute; reflexivity | reflexivity | vm_compute; eauto | eapply exec_reach, E | exact H1 |].
  rewrite H2 in Hw. by apply elem_of_nil in Hw.
Qed.
Print Assumptions C87_refuted.
(** non-vacuity: two linked processes; while 2 ends, 1 - which traps exits - sends a message; 1 gets the Exit message *)
Lemma tie_example S (ok : call -> Prop) w cs l1 i l2 (P : sys world val -> sys world val -> sys world val -> Prop) : Forall ok cs ->
  match exec l1 (Sys w (map (call_prog S) cs)) with
  | Some s1 => match tick i s1 with Some s2 => match exec l2 s2 with Some s3 => P s1 s2 s3 | None => False end | None => False end
  | None => False end ->
  exists s1 s2 s3, reach (calls_of S ok) (Sys w []) s1 /\ sys_step (calls_of S ok) s1 s2 /\ reach (calls_of S ok) s2 s3 /\ P s1 s2 s3.
Proof.
  intros Hok H. destruct (exec l1 _) as [s1|] eqn:E1; [|done]. destruct (tick i s1) as [s2|] eqn:E2; [|done]. destruct (exec l2 s2) as [s3|] eqn:E3; [|done].
  exists s1, s2, s3. split; [|split; [by eapply step_tick|split; [by eapply exec_reach|exact H]]].
  eapply rtc_transitive; [|by eapply exec_reach]. clear -Hok. induction cs as [|c cs IH] using rev_ind; [apply rtc_refl|].
  apply Forall_app in Hok as [H1 H2]. rewrite map_app. eapply rtc_r; [by apply IH|].
  apply (step_call (calls_of S ok) (call_prog S c) (Sys w (map (call_prog S) cs))). exists c. split; [|done]. by inversion H2.
Qed.
Definition tied_pair : world := out_world (run (call_prog S0 (CLink 1 (PLocal 2))) two_trap).
Lemma tied_pair_reachable : seq_reachable S0 tied_pair.
Proof.
  destruct (play_some S0 (fun w => w = tied_pair) [CSpawn 0 false false; CSpawn 0 false false; CSetFlags 1 true; CLink 1 (PLocal 2)]) as (w & H & ->); [|exact H].
  vm_compute. reflexivity.
Qed.
Definition settledb (s : sys world val) : bool := forallb (fun p => match p with Atom _ _ _ => false | _ => true end) (s_threads s).
Lemma settledb_settled s : settledb s = true -> settled s.
Proof.
  unfold settledb, settled. intros H. induction (s_threads s) as [|p l IH]; [constructor|]. cbn in H. apply andb_prop in H as [H1 H2].
  constructor; [by destruct p|by apply IH].
Qed.
Definition leavesb (i : N) (s1 s2 : sys world val) : option exit_reason :=
  match w_regs (s_world s1) !! i, w_regs (s_world s2) !! i with Some r, None => Some (final_reason r) | _, _ => None end.
Lemma leavesb_leaves i s1 s2 why : leavesb i s1 s2 = Some why -> leaves i why s1 s2.
Proof. unfold leavesb, leaves. destruct (w_regs (s_world s1) !! i) as [r|] eqn:E1; [|done]. destruct (w_regs (s_world s2) !! i) eqn:E2; [done|]. intros [= <-]. eauto. Qed.
Example C87_example :
  exists s1 s2 s3, reach (calls_of S0 (keeps_tie 2 1)) (Sys tied_pair []) s1 /\ sys_step (calls_of S0 (keeps_tie 2 1)) s1 s2 /\
    leaves 2 (RCustom "boom") s1 s2 /\ reach (calls_of S0 (keeps_tie 2 1)) s2 s3 /\ settled s3 /\
    w_log (s_world s3) = [(1%N, IUserLocal (Val 0 7)); (1%N, ISystem (SExit (PLocal 2) (RCustom "boom")))].
Proof.
  destruct (tie_example S0 (keeps_tie 2 1) tied_pair [CCrash 2 (RCustom "boom"); CSend (DsOne (DPid (PLocal 1))) (Val 0 7)] [0] 0 [0; 1; 0; 0; 0; 0; 0]
    (fun s1 s2 s3 => leavesb 2 s1 s2 = Some (RCustom "boom") /\ settledb s3 = true /\
      w_log (s_world s3) = [(1%N, IUserLocal (Val 0 7)); (1%N, ISystem (SExit (PLocal 2) (RCustom "boom")))])) as (s1 & s2 & s3 & H1 & H2 & H3 & H4 & H5 & H6).
  { repeat constructor. }
  { vm_compute. auto. }
  exists s1, s2, s3. split; [exact H1|]. split; [exact H2|]. split; [by apply leavesb_leaves|]. split; [exact H3|]. split; [by apply settledb_settled|exact H6].
Qed.

(** ** C88: the processes of a connection end together *)
Lemma runs_on_reach S ids i j s s' : i ∈ ids -> j ∈ ids -> runs_on S ids s s' -> reach (calls_of S (keeps_tie i j)) s s'.
Proof.
  intros Hi Hj. apply rtc_subrel. intros x y [Hs _]. destruct Hs as [k x y Ht|p x (c & Hc & ->)]; [by eapply step_tick|].
  apply step_call. exists c. split; [by apply Hc|done].
Qed.
(** If a process was registered and is not any more, it has left in some step. *)
Lemma left_step S ids i s s' : runs_on S ids s s' -> is_Some (w_regs (s_world s) !! i) -> w_regs (s_world s') !! i = None ->
  exists s1 s2 why, runs_on S ids s s1 /\ sys_step (calls_of S (keeps_ties ids)) s1 s2 /\ no_normal_end ids s1 s2 /\ leaves i why s1 s2 /\ runs_on S ids s2 s'.
Proof.
  intros Hr Hi. revert s' Hr. refine (rtc_ind_r (fun s' => w_regs (s_world s') !! i = None -> exists s1 s2 why, runs_on S ids s s1 /\ sys_step (calls_of S (keeps_ties ids)) s1 s2 /\
    no_normal_end ids s1 s2 /\ leaves i why s1 s2 /\ runs_on S ids s2 s') s _ _).
  - intros E. rewrite E in Hi. by destruct Hi.
  - intros y z Hy [Hs Hn] IH Hz. destruct (w_regs (s_world y) !! i) as [r|] eqn:E.
    + exists y, z, (final_reason r). split; [exact Hy|]. split; [exact Hs|]. split; [exact Hn|]. split; [by exists r|apply rtc_refl].
    + destruct (IH eq_refl) as (s1 & s2 & why & H1 & H2 & H3 & H4 & H5). exists s1, s2, why. split_and!; try done. eapply rtc_r; [exact H5|done].
Qed.
Lemma plain_here w i : plain w i -> here w i.
Proof. intros (H & r & E & _). split; [done|by exists r]. Qed.
Lemma end_spreads S ids a j w s : occurs S w -> a <> j -> a ∈ ids -> j ∈ ids -> here w a -> plain w j -> linked w a j = true ->
  runs_on S ids (Sys w []) s -> settled s -> none_aborted (s_world s) -> ended (s_world s) a -> ended (s_world s) j.
Proof.
  intros Ho Hne Ha Hj (La & ra & Ra) (Lj & rj & Rj & Tj) Hl Hr Hs Hn He.
  destruct (left_step S ids a _ _ Hr) as (s1 & s2 & why & H1 & H2 & H3 & H4 & H5); [cbn; eauto|done|].
  assert (sys_step (calls_of S (keeps_tie a j)) s1 s2) as H2'.
  { destruct H2 as [k x y Ht|p x (c & Hc & ->)]; [by eapply step_tick|]. apply step_call. exists c. split; [by apply Hc|done]. }
  pose proof (C87_linked_told_partial S a j w ra rj why s1 s2 s Ho Hne Ra Rj La Lj Hl (runs_on_reach S ids a j _ _ Ha Hj H1) H2' H4 (runs_on_reach S ids a j _ _ Ha Hj H5) Hs) as Ht.
  unfold told in Ht. unfold ended. destruct (w_regs (s_world s) !! j) as [r|] eqn:E; [|done]. rewrite Tj in Ht.
  destruct Ht as [Ht|Ht]; [by destruct (H3 a why Ha H4)|]. rewrite (Hn j r E) in Ht. done.
Qed.
(** Three processes, the first linked both ways to the other two. *)
Lemma trio_ends S m s r w st : occurs S w -> m <> s -> m <> r -> s <> r -> plain w m -> plain w s -> plain w r ->
  linked w m s = true -> linked w s m = true -> linked w m r = true -> linked w r m = true ->
  runs_on S [m; s; r] (Sys w []) st -> settled st -> none_aborted (s_world st) ->
  (exists i, i ∈ [m; s; r] /\ ended (s_world st) i) -> forall i, i ∈ [m; s; r] -> ended (s_world st) i.
Proof.
  intros Ho N1 N2 N3 Pm Ps Pr L1 L2 L3 L4 Hr Hs Hn (i0 & Hi0 & He).
  pose proof (plain_here _ _ Pm). pose proof (plain_here _ _ Ps). pose proof (plain_here _ _ Pr).
  assert (ended (s_world st) m) as Hm.
  { rewrite !elem_of_cons, elem_of_nil in Hi0. destruct Hi0 as [->|[->|[->|[]]]]; [done| |].
    - apply (end_spreads S [m; s; r] s m w st); try done; set_solver.
    - apply (end_spreads S [m; s; r] r m w st); try done; set_solver. }
  intros i Hi. rewrite !elem_of_cons, elem_of_nil in Hi. destruct Hi as [->|[->|[->|[]]]]; [done| |].
  - apply (end_spreads S [m; s; r] m s w st); try done; set_solver.
  - apply (end_spreads S [m; s; r] m r w st); try done; set_solver.
Qed.
(** What spawn_link leaves behind. *)
Lemma spawn_link_run m w : exists w', run (spawn m true false) w = Done w' (PLocal (w_next_pid w), None) /\
  w_next_pid w' = N.succ (w_next_pid w) /\ w_regs w' = <[w_next_pid w := new_reg]> (w_regs w) /\ w_loc w' = <[w_next_pid w := new_plocal]> (w_loc w) /\
  w_links w' = w_links (add_link m (PLocal (w_next_pid w)) (add_link (w_next_pid w) (PLocal m) w)).
Proof. eexists. split; [cbn; reflexivity|]. cbn. done. Qed.
Lemma linked_add w i p a j : linked (add_link i p w) a j = (bool_decide (i = a) && bool_decide (p = PLocal j)) || linked w a j.
Proof.
  unfold linked, add_link. cbn. destruct (decide (i = a)) as [->|Hne].
  - rewrite lookup_insert. cbn. rewrite (bool_decide_true (a = a)) by done. cbn. rewrite <- bool_decide_or. apply bool_decide_ext.
    rewrite elem_of_union, elem_of_singleton. split; [intros [<-|?]; auto|intros [->|?]; auto].
  - rewrite lookup_insert_ne by done. by rewrite (bool_decide_false (i = a)).
Qed.
Lemma exit_op_regs q f y w i r : w_regs w !! i = Some r -> exists r', w_regs (exit_op q f y w) !! i = Some r' /\ r_trap r' = r_trap r.
Proof.
  intros E. unfold exit_op. destruct (w_regs w !! pid_id q) as [r0|] eqn:E0; [|eauto].
  assert (forall k x w, w_regs (push k x w) = w_regs w) as Hp by (intros k x u; unfold push; by destruct (w_loc u !! k)).
  assert (forall b c, exists r', (<[pid_id q := Reg (r_name r0) (r_trap r0) b c]> (w_regs w)) !! i = Some r' /\ r_trap r' = r_trap r) as Hi.
  { intros b c. destruct (decide (pid_id q = i)) as [<-|Hne]; [|rewrite lookup_insert_ne by done; eauto]. rewrite lookup_insert. rewrite E in E0. injection E0 as ->. eauto. }
  repeat case_match; cbn; rewrite ?Hp; eauto; apply Hi.
Qed.
Lemma exit_op_links q f y w : w_links (exit_op q f y w) = w_links w.
Proof.
  unfold exit_op. assert (forall k x w, w_links (push k x w) = w_links w) as Hp by (intros k x u; unfold push; by destruct (w_loc u !! k)).
  repeat case_match; cbn; rewrite ?Hp; done.
Qed.
Lemma exit_op_loc q f y w i : is_Some (w_loc w !! i) -> is_Some (w_loc (exit_op q f y w) !! i).
Proof.
  intros Hl. unfold exit_op. assert (forall k x, is_Some (w_loc (push k x w) !! i)) as Hp.
  { intros k x. unfold push. destruct (w_loc w !! k) eqn:E; [|done]. cbn. destruct (decide (k = i)) as [->|Hne]; [rewrite lookup_insert; eauto|by rewrite lookup_insert_ne]. }
  repeat case_match; cbn; auto.
Qed.
Lemma exit_op_plain q f y w i : plain w i -> plain (exit_op q f y w) i.
Proof.
  intros (Hl & r & Hr & Ht). split; [by apply exit_op_loc|]. destruct (exit_op_regs q f y w i r Hr) as (r' & H1 & H2). exists r'. split; [done|congruence].
Qed.
Lemma accept_plain name addr p me w i : plain w i -> plain (fst (node_accept_op name addr p me w)) i.
Proof.
  intros Hw. pose proof (fun q f y => exit_op_plain q f y w i Hw) as Hx. unfold node_accept_op.
  repeat case_match; cbn; try done; try apply Hx; (split; [try apply Hx|try apply Hx]; try apply Hw).
Qed.
Lemma accept_here name addr p me w i : here w i -> here (fst (node_accept_op name addr p me w)) i.
Proof.
  intros Hw. assert (forall q f y, here (exit_op q f y w) i) as Hx.
  { intros q f y. split; [by apply exit_op_loc, Hw|]. destruct Hw as [_ [r Hr]]. destruct (exit_op_regs q f y w i r Hr) as (r' & H1 & H2). by exists r'. }
  unfold node_accept_op. repeat case_match; cbn; try done; try apply Hx; (split; [try apply Hx|try apply Hx]; try apply Hw).
Qed.
Lemma accept_links name addr p me w : w_links (fst (node_accept_op name addr p me w)) = w_links w.
Proof. unfold node_accept_op. repeat case_match; cbn; try done; apply exit_op_links. Qed.
Lemma accept_next name addr p me w : w_next_pid (fst (node_accept_op name addr p me w)) = w_next_pid w.
Proof.
  unfold node_accept_op. assert (forall q f y u, w_next_pid (exit_op q f y u) = w_next_pid u) as Hx.
  { intros q f y u. unfold exit_op. assert (forall k x v, w_next_pid (push k x v) = w_next_pid v) as Hp by (intros k x v; unfold push; by destruct (w_loc v !! k)).
    repeat case_match; cbn; rewrite ?Hp; done. }
  repeat case_match; cbn; rewrite ?Hx; done.
Qed.
Lemma workers_still nd s r w : let w' := node_workers_op nd s r w in w_regs w' = w_regs w /\ w_loc w' = w_loc w /\ w_links w' = w_links w.
Proof. cbn. unfold node_workers_op, hand_out. repeat case_match; done. Qed.
(** The supervising process of a connection and its sender and receiver after the set-up. *)
Lemma supervise_ties m name addr w w1 s r : plain w m -> (m < w_next_pid w)%N -> run (remote_supervisor m name addr) w = Done w1 (s, r) ->
  exists i j, s = PLocal i /\ r = PLocal j /\ m <> i /\ m <> j /\ i <> j /\ plain w1 m /\ plain w1 i /\ plain w1 j /\
    linked w1 m i = true /\ linked w1 i m = true /\ linked w1 m j = true /\ linked w1 j m = true /\ (forall a b, linked w a b = true -> linked w1 a b = true) /\
    (forall k, here w k -> (k < w_next_pid w)%N -> here w1 k /\ k <> i /\ k <> j).
Proof.
  intros Hm Hlt Hr. unfold remote_supervisor in Hr. rewrite run_bind, run_atom in Hr.
  pose proof (accept_plain name addr (PLocal m) (PLocal m) w m Hm) as Ha. pose proof (fun k => accept_here name addr (PLocal m) (PLocal m) w k) as Hh. pose proof (accept_links name addr (PLocal m) (PLocal m) w) as Hl.
  pose proof (accept_next name addr (PLocal m) (PLocal m) w) as Hn.
  destruct (node_accept_op name addr (PLocal m) (PLocal m) w) as [w0 ok]. cbn [fst snd] in *. destruct ok; cbn [negb] in Hr; [|discriminate].
  destruct (spawn_link_run m w0) as (wa & Ea & Na & Ra & La & Ka). rewrite run_bind, Ea in Hr.
  destruct (spawn_link_run m wa) as (wb & Eb & Nb & Rb & Lb & Kb). rewrite run_bind, Eb in Hr. cbn [fst snd] in Hr.
  rewrite run_bind in Hr. change (run (modify ?f) ?u) with (Done (f u) tt : outcome world unit) in Hr.
  destruct (workers_still (NRemote name addr) (PLocal (w_next_pid w0)) (PLocal (w_next_pid wa)) wb) as (W1 & W2 & W3).
  set (wc := node_workers_op (NRemote name addr) (PLocal (w_next_pid w0)) (PLocal (w_next_pid wa)) wb) in *. cbn in Hr. injection Hr as <- <- <-.
  rewrite Hn in *. rewrite Na in *. set (n := w_next_pid w) in *.
  assert (forall a b, linked wc a b = linked (add_link m (PLocal (N.succ n)) (add_link (N.succ n) (PLocal m) wa)) a b) as K1 by (intros a b; unfold linked; by rewrite W3, Kb).
  assert (forall a b, linked wa a b = linked (add_link m (PLocal n) (add_link n (PLocal m) w)) a b) as K2.
  { intros a b. unfold linked. rewrite Ka. unfold add_link. cbn. by rewrite Hl. }
  assert (forall a b, linked wc a b = (bool_decide (m = a) && bool_decide (PLocal (N.succ n) = PLocal b)) || ((bool_decide (N.succ n = a) && bool_decide (PLocal m = PLocal b)) ||
     ((bool_decide (m = a) && bool_decide (PLocal n = PLocal b)) || ((bool_decide (n = a) && bool_decide (PLocal m = PLocal b)) || linked w a b)))) as K.
  { intros a b. rewrite K1, !linked_add, K2, !linked_add. done. }
  assert (forall k, plain w0 k -> (k < n)%N -> plain wc k) as Pk.
  { intros k (Lk & rk & Rk & Tk) Hk. split; [rewrite W2, Lb, La, !lookup_insert_ne by lia; done|]. exists rk. split; [|done]. rewrite W1, Rb, Ra, !lookup_insert_ne by lia. done. }
  exists n, (N.succ n). split; [done|]. split; [done|]. split; [lia|]. split; [lia|]. split; [lia|].
  split; [by apply Pk|].
  split. { split; [rewrite W2, Lb, La, lookup_insert_ne, lookup_insert by lia; eauto|]. exists new_reg. rewrite W1, Rb, Ra, lookup_insert_ne, lookup_insert by lia. done. }
  split. { split; [rewrite W2, Lb, lookup_insert; eauto|]. exists new_reg. rewrite W1, Rb, lookup_insert. done. }
  split; [rewrite K; rewrite (bool_decide_true (m = m)), (bool_decide_true (PLocal n = PLocal n)) by done; cbn; by rewrite !orb_true_r|].
  split; [rewrite K; rewrite (bool_decide_true (n = n)), (bool_decide_true (PLocal m = PLocal m)) by done; cbn; by rewrite !orb_true_r|].
  split; [rewrite K; rewrite (bool_decide_true (m = m)), (bool_decide_true (PLocal (N.succ n) = PLocal (N.succ n))) by done; cbn; done|].
  split; [rewrite K; rewrite (bool_decide_true (N.succ n = N.succ n)), (bool_decide_true (PLocal m = PLocal m)) by done; cbn; by rewrite !orb_true_r|].
  split; [intros a b Hab; rewrite K, Hab; by rewrite !orb_true_r|].
  intros k Pk0 Hk. destruct (Hh k Pk0) as [H1 H2]. split; [|split; lia]. split; [rewrite W2, Lb, La, !lookup_insert_ne by lia; done|]. rewrite W1, Rb, Ra, !lookup_insert_ne by lia. done.
Qed.
(** The processes of a connection end together: after the set-up, in every schedule in which none of the three ends
    normally (their code never returns), once all calls have returned and every process that was told to end has ended,
    if one of the supervising process, the sender and the receiver has ended, all three have. *)
Theorem C88_connection_ends_together :
  forall S w m name addr w1 s r st, occurs S w -> plain w m -> run (call_prog S (CSupervise m name addr)) w = Done w1 (VWorkers s r) ->
    runs_on S [m; pid_id s; pid_id r] (Sys w1 []) st -> settled st -> none_aborted (s_world st) ->
    (exists i, i ∈ [m; pid_id s; pid_id r] /\ ended (s_world st) i) ->
    forall i, i ∈ [m; pid_id s; pid_id r] -> ended (s_world st) i.
Proof.
  intros S w m name addr w1 s r st Ho Hm Hr. assert (occurs S w1) as Ho1 by (by eapply occurs_run; [exact Ho|eapply happens_done; exact Hr]).
  assert (run (remote_supervisor m name addr) w = Done w1 (s, r)) as Hr'.
  { cbn [call_prog] in Hr. unfold ret_as in Hr. rewrite run_bind in Hr. destruct (run (remote_supervisor m name addr) w) as [w2 [s2 r2]| |]; try discriminate.
    cbn in Hr. injection Hr as -> -> ->. done. }
  destruct (supervise_ties m name addr w w1 s r Hm) as (i & j & -> & -> & N1 & N2 & N3 & P1 & P2 & P3 & L1 & L2 & L3 & L4 & _); [by apply (occurs_allocated S w Ho), Hm|done|].
  cbn [pid_id]. by apply (trio_ends S m i j w1 st).
Qed.
Print Assumptions C88_connection_ends_together.
(** non-vacuity: the sender crashes; its supervisor and then the receiver follow *)
Definition fine_step (ids : list N) (s1 s2 : sys world val) : bool :=
  forallb (fun i => match leavesb i s1 s2 with Some RNormal => false | _ => true end) ids.
Lemma fine_step_ok ids s1 s2 : fine_step ids s1 s2 = true -> no_normal_end ids s1 s2.
Proof.
  intros H i why Hi (r & E1 & <- & E2) E. unfold fine_step in H. rewrite forallb_forall in H. specialize (H i (proj1 (elem_of_list_In _ _) Hi)).
  unfold leavesb in H. rewrite E1, E2, E in H. done.
Qed.
Fixpoint exec_fine (ids : list N) (l : list nat) (s : sys world val) : option (sys world val) :=
  match l with
  | [] => Some s
  | i :: l => match tick i s with Some s' => if fine_step ids s s' then exec_fine ids l s' else None | None => None end
  end.
Lemma exec_fine_runs S ids l s s' : exec_fine ids l s = Some s' -> runs_on S ids s s'.
Proof.
  revert s. induction l as [|i l IH]; intros s H; cbn in H; [injection H as <-; apply rtc_refl|].
  destruct (tick i s) as [s1|] eqn:E; [|done]. destruct (fine_step ids s s1) eqn:F; [|done].
  eapply rtc_l; [split; [by eapply step_tick|by apply fine_step_ok]|by apply IH].
Qed.
Lemma begin_runs S ids w cs : Forall (keeps_ties ids) cs -> runs_on S ids (Sys w []) (Sys w (map (call_prog S) cs)).
Proof.
  induction cs as [|c cs IH] using rev_ind; intros Hok; [apply rtc_refl|]. apply Forall_app in Hok as [H1 H2]. rewrite map_app. eapply rtc_r; [by apply IH|]. split.
  - apply (step_call (calls_of S (keeps_ties ids)) (call_prog S c) (Sys w (map (call_prog S) cs))). exists c. split; [|done]. by inversion H2.
  - intros i why Hi (r & E1 & _ & E2). cbn in *. congruence.
Qed.
Lemma fine_example S ids w cs l (P : sys world val -> Prop) : Forall (keeps_ties ids) cs ->
  match exec_fine ids l (Sys w (map (call_prog S) cs)) with Some s => P s | None => False end -> exists s, runs_on S ids (Sys w []) s /\ P s.
Proof.
  intros Hok H. destruct (exec_fine ids l _) as [s|] eqn:E; [|done]. exists s. split; [|exact H]. eapply rtc_transitive; [by apply begin_runs|by eapply exec_fine_runs].
Qed.
Definition noneb (w : world) : bool := forallb (fun x => negb (r_abort (snd x))) (map_to_list (w_regs w)).
Lemma noneb_ok w : noneb w = true -> none_aborted w.
Proof.
  intros H i r E. unfold noneb in H. rewrite forallb_forall in H. apply elem_of_map_to_list, elem_of_list_In in E. specialize (H _ E). cbn in H. by apply negb_true_iff.
Qed.
Definition one_conn : world := out_world (run (call_prog S0 (CSpawn 0 false false)) world0).
Definition conn_up : world := out_world (run (call_prog S0 (CSupervise 1 "b" (SA4 2 5))) one_conn).
Example C88_example :
  occurs S0 one_conn /\ plain one_conn 1 /\ run (call_prog S0 (CSupervise 1 "b" (SA4 2 5))) one_conn = Done conn_up (VWorkers (PLocal 2) (PLocal 3)) /\
  exists st, runs_on S0 [1; 2; 3]%N (Sys conn_up []) st /\ settled st /\ none_aborted (s_world st) /\ ended (s_world st) 2%N /\ ended (s_world st) 1%N /\ ended (s_world st) 3%N.
Proof.
  split. { apply seq_occurs. destruct (play_some S0 (fun w => w = one_conn) [CSpawn 0 false false]) as (w & H & ->); [vm_compute; reflexivity|exact H]. }
  split. { split; [vm_compute; eauto|]. exists new_reg. vm_compute. auto. }
  split; [vm_compute; reflexivity|].
  destruct (fine_example S0 [1; 2; 3]%N conn_up [CCrash 2 (RCustom "socket"); CFinish 1; CFinish 3] [0; 0; 0; 0; 0; 0; 0; 0; 1; 1; 1; 1; 1; 1; 1; 2; 2; 2; 2; 2]
    (fun st => settledb st = true /\ noneb (s_world st) = true /\ (w_regs (s_world st) !! 2%N = None /\ w_regs (s_world st) !! 1%N = None /\ w_regs (s_world st) !! 3%N = None)))
    as (st & H1 & H2 & H3 & H4 & H5 & H6).
  { repeat constructor; intros i j _ _; exact I. }
  { vm_compute. auto. }
  exists st. split; [exact H1|]. split; [by apply settledb_settled|]. split; [by apply noneb_ok|]. auto.
Qed.

(** ** C89: stopping the local node ends its connections *)
(** Node::stop is documented as the same as the node going down for the other nodes.  It kills the process of the local
    node; connections end with it if their process is linked to it. *)
Definition C89_statement : Prop :=
  forall S w m name addr w1 s r me w2 st, seq_reachable S w -> plain w m -> is_Some (w_nmap w !! NLocal) ->
    run (call_prog S (CSupervise m name addr)) w = Done w1 (VWorkers s r) -> run (call_prog S (CNodeStop me)) w1 = Done w2 VUnit ->
    reach (any_call S) (Sys w2 []) st -> settled st -> none_aborted (s_world st) ->
    ended (s_world st) m.
(** A connection this node dialled: its process has linked to the process of the local node (node_remote.rs:376). *)
Lemma node_stop_run S me w l nr : is_Some (w_nmap w !! NLocal) -> w_nregs w !! LOCAL_NODE_ID = Some nr -> n_sup nr = Some (PLocal l) ->
  exists w2, run (call_prog S (CNodeStop me)) w = Done w2 VUnit /\
    w_regs w2 = w_regs (exit_op (PLocal l) (PLocal me) RKill w) /\ w_loc w2 = w_loc (exit_op (PLocal l) (PLocal me) RKill w) /\ w_links w2 = w_links w.
Proof.
  intros [x Hx] Hn Hs. eexists. split; [cbn; rewrite Hx; cbn; reflexivity|]. cbn. rewrite Hn, Hs.
  assert (forall f g, let u := up_nmap g (up_nmap f w) in exit_op (PLocal l) (PLocal me) RKill u = up_nmap g (up_nmap f (exit_op (PLocal l) (PLocal me) RKill w))) as E.
  { intros f g. cbn. unfold exit_op, push. cbn. repeat case_match; done. }
  cbn in E. rewrite E. cbn. rewrite exit_op_links. done.
Qed.
Theorem C89_dialled_partial :
  forall S w m l nr name addr w1 s r me, occurs S w -> plain w m -> here w l -> l <> m -> linked w l m = true ->
    run (call_prog S (CSupervise m name addr)) w = Done w1 (VWorkers s r) ->
    is_Some (w_nmap w1 !! NLocal) -> w_nregs w1 !! LOCAL_NODE_ID = Some nr -> n_sup nr = Some (PLocal l) ->
    exists w2, run (call_prog S (CNodeStop me)) w1 = Done w2 VUnit /\
      (exists rl, w_regs w2 !! l = Some rl /\ r_abort rl = true /\ r_exit rl = Some RKill) /\
      forall st, runs_on S [l; m; pid_id s; pid_id r] (Sys w2 []) st -> settled st -> none_aborted (s_world st) -> ended (s_world st) l ->
        ended (s_world st) m /\ ended (s_world st) (pid_id s) /\ ended (s_world st) (pid_id r).
Proof.
  intros S w m l nr name addr w1 s r me Ho Hm Hl Hne Hlm Hr Hx Hn Hs.
  assert (occurs S w1) as Ho1 by (by eapply occurs_run; [exact Ho|eapply happens_done; exact Hr]).
  assert (run (remote_supervisor m name addr) w = Done w1 (s, r)) as Hr'.
  { cbn [call_prog] in Hr. unfold ret_as in Hr. rewrite run_bind in Hr. destruct (run (remote_supervisor m name addr) w) as [w0 [s2 r2]| |]; try discriminate.
    cbn in Hr. injection Hr as -> -> ->. done. }
  destruct (supervise_ties m name addr w w1 s r Hm) as (i & j & -> & -> & N1 & N2 & N3 & P1 & P2 & P3 & L1 & L2 & L3 & L4 & Lk & Hk); [by apply (occurs_allocated S w Ho), Hm|done|].
  destruct (Hk l Hl) as (Hl1 & N4 & N5); [by apply (occurs_allocated S w Ho), Hl|].
  destruct (node_stop_run S me w1 l nr Hx Hn Hs) as (w2 & E2 & R2 & Lo2 & Li2). exists w2. split; [done|].
  assert (occurs S w2) as Ho2 by (by eapply occurs_run; [exact Ho1|eapply happens_done; exact E2]).
  split.
  { destruct Hl1 as [_ [rl Hrl]]. rewrite R2. unfold exit_op. cbn [pid_id]. rewrite Hrl. cbn. rewrite lookup_insert. eexists. split; [reflexivity|]. done. }
  assert (forall k, plain w1 k -> plain w2 k) as Hp.
  { intros k Hk1. destruct (exit_op_plain (PLocal l) (PLocal me) RKill w1 k Hk1) as [H1 H2]. split; [by rewrite Lo2|by rewrite R2]. }
  assert (here w2 l) as Hl2.
  { destruct Hl1 as [H1 [rl Hrl]]. split; [rewrite Lo2; by apply exit_op_loc|]. rewrite R2. destruct (exit_op_regs (PLocal l) (PLocal me) RKill w1 l rl Hrl) as (r' & -> & _). by exists r'. }
  assert (forall a b, linked w1 a b = true -> linked w2 a b = true) as Hk2 by (intros a b; unfold linked; by rewrite Li2).
  cbn [pid_id]. intros st Hst Hse Hna He.
  assert (ended (s_world st) m) as Hem.
  { apply (end_spreads S [l; m; i; j] l m w2 st); try done; [set_solver|set_solver|by apply Hp|by apply Hk2, Lk]. }
  split; [done|]. split.
  - apply (end_spreads S [l; m; i; j] m i w2 st); try done; [set_solver|set_solver|by apply plain_here, Hp|by apply Hp|by apply Hk2].
  - apply (end_spreads S [l; m; i; j] m j w2 st); try done; [set_solver|set_solver|by apply plain_here, Hp|by apply Hp|by apply Hk2].
Qed.
Print Assumptions C89_dialled_partial.
Definition chain (cs : list call) (w : world) : world := match play S0 cs w with Some w => w | None => world0 end.
Lemma chain_reachable cs : match play S0 cs world0 with Some _ => True | None => False end -> seq_reachable S0 (chain cs world0).
Proof. intros H. unfold chain. destruct (play S0 cs world0) as [w|] eqn:E; [|done]. exists cs. by apply play_history. Qed.
Lemma run_out {A} (p : prog world A) w v : match run p w with Done _ v' => v' = v | _ => False end -> run p w = Done (out_world (run p w)) v.
Proof. destruct (run p w); cbn; [by intros ->|done..]. Qed.
(** An accepted connection is linked to nothing (node_remote.rs:294 links the process to itself): process 1 runs the local
    node, 2 stops it, 3 is the process of an accepted connection; when everything has settled, 3 is still there. *)
Definition accepted0 : list call := [CNodeStart "a" (SA4 1 5); CSpawn 0 false false; CSpawn 0 false false].
Definition stopped_accepted : world := out_world (run (call_prog S0 (CNodeStop 2)) (out_world (run (call_prog S0 (CSupervise 3 "b" (SA4 2 5))) (chain accepted0 world0)))).
Theorem C89_refuted : ~ C89_statement.
Proof.
  intros H.
  destruct (exec_some [0; 0; 0; 0; 0] (Sys stopped_accepted [call_prog S0 (CFinish 1)])
    (fun s => settledb s = true /\ noneb (s_world s) = true /\ bool_decide (is_Some (w_regs (s_world s) !! 3%N)) = true)) as (s & E & H1 & H2 & H3).
  { vm_compute. auto. }
  assert (ended (s_world s) 3%N) as He.
  { eapply (H S0 (chain accepted0 world0) 3%N "b"%string (SA4 2 5) _ _ _ 2%N stopped_accepted s).
    - apply chain_reachable. vm_compute. exact I.
    - split; [vm_compute; eauto|]. exists new_reg. vm_compute. auto.
    - vm_compute. eauto.
    - apply run_out. vm_compute. reflexivity.
    - unfold stopped_accepted. apply run_out. vm_compute. reflexivity.
    - eapply rtc_l; [apply (step_call (any_call S0) (call_prog S0 (CFinish 1)) (Sys stopped_accepted [])); by exists (CFinish 1)|]. eapply exec_reach. exact E.
    - by apply settledb_settled.
    - by apply noneb_ok. }
  apply bool_decide_eq_true in H3 as [r H3]. unfold ended in He. rewrite H3 in He. discriminate.
Qed.
Print Assumptions C89_refuted.
(** ... and a message that comes in over it is delivered. *)
Example C89_still_delivers :
  exists w, run (call_prog S0 (CFrame (NRemote "b" (SA4 2 5)) (PLocal 3) (FSend [TPid 2] (ser S0 (Val 0 7)))))
    (out_world (run (call_prog S0 (CFinish 1)) stopped_accepted)) = Done w VUnit /\
    w_log w = [(2%N, IUserRemote (ser S0 (Val 0 7)))].
Proof.
  assert (forall o, (match o with Done w VUnit => w_log w = [(2%N, IUserRemote (ser S0 (Val 0 7)))] | _ => False end : Prop) ->
    exists w, (o : outcome world val) = Done w VUnit /\ w_log w = [(2%N, IUserRemote (ser S0 (Val 0 7)))]) as H.
  { intros [w []| |]; try done. eauto. }
  apply H. vm_compute. reflexivity.
Qed.
(** non-vacuity of the partial theorem: the same with a connection that has linked to the local node *)
Definition dialled0 : list call := accepted0 ++ [CLink 3 (PLocal 1)].
Definition dialled1 : world := out_world (run (call_prog S0 (CSupervise 3 "b" (SA4 2 5))) (chain dialled0 world0)).
Example C89_example :
  occurs S0 (chain dialled0 world0) /\ plain (chain dialled0 world0) 3 /\ here (chain dialled0 world0) 1 /\ linked (chain dialled0 world0) 1 3 = true /\
  run (call_prog S0 (CSupervise 3 "b" (SA4 2 5))) (chain dialled0 world0) = Done dialled1 (VWorkers (PLocal 4) (PLocal 5)) /\
  is_Some (w_nmap dialled1 !! NLocal) /\ (exists nr, w_nregs dialled1 !! LOCAL_NODE_ID = Some nr /\ n_sup nr = Some (PLocal 1)) /\
  exists st, runs_on S0 [1; 3; 4; 5]%N (Sys (out_world (run (call_prog S0 (CNodeStop 2)) dialled1)) []) st /\ settled st /\ none_aborted (s_world st) /\
    ended (s_world st) 1%N /\ ended (s_world st) 3%N /\ ended (s_world st) 4%N /\ ended (s_world st) 5%N.
Proof.
  split. { apply seq_occurs, chain_reachable. vm_compute. exact I. }
  split. { split; [vm_compute; eauto|]. exists new_reg. vm_compute. auto. }
  split. { split; vm_compute; eauto. }
  split; [vm_compute; reflexivity|]. split; [unfold dialled1; apply run_out; vm_compute; reflexivity|]. split; [apply (bool_decide_unpack (is_Some _)); vm_compute; exact I|].
  split. { assert (forall o, (match o with Some nr => n_sup nr = Some (PLocal 1) | None => False end : Prop) -> exists nr : nreg, o = Some nr /\ n_sup nr = Some (PLocal 1)) as H.
    { intros [nr|]; [eauto|done]. } apply H. vm_compute. reflexivity. }
  destruct (fine_example S0 [1; 3; 4; 5]%N (out_world (run (call_prog S0 (CNodeStop 2)) dialled1)) [CFinish 1; CFinish 3; CFinish 4; CFinish 5]
    (repeat 0 7 ++ repeat 1 9 ++ repeat 2 5 ++ repeat 3 5)
    (fun st => settledb st = true /\ noneb (s_world st) = true /\ (w_regs (s_world st) !! 1%N = None /\ w_regs (s_world st) !! 3%N = None /\ w_regs (s_world st) !! 4%N = None /\ w_regs (s_world st) !! 5%N = None)))
    as (st & H1 & H2 & H3 & H4).
  { repeat constructor; intros i j _ _; exact I. }
  { vm_compute. auto 10. }
  exists st. split; [exact H1|]. split; [by apply settledb_settled|]. split; [by apply noneb_ok|]. exact H4.
Qed.

(** ** C90: a started node stays started *)
(** Once Node::start has returned, Node::alive is true until Node::stop is called. *)
Definition C90_statement : Prop :=
  forall S w name addr w1 p s, seq_reachable S w -> run (call_prog S (CNodeStart name addr)) w = Done w1 (VPid p) ->
    reach (calls_of S not_node_stop) (Sys w1 []) s -> is_Some (w_nmap (s_world s) !! NLocal).
(** False for a node that is started again after a stop: the object of the first node (held by its process, its listener and
    its connections, all of which end later) clears all node tables when it is dropped (node_local.rs:33-37). *)
Theorem C90_refuted : ~ C90_statement.
Proof.
  intros H. pose (w0 := chain [CSpawn 0 false false; CNodeStart "a" (SA4 1 5); CNodeStop 1] world0).
  pose (w1 := out_world (run (call_prog S0 (CNodeStart "a" (SA4 1 5))) w0)).
  destruct (exec_some [0; 0; 0] (Sys w1 [call_prog S0 CLocalPanic]) (fun s => w_nmap (s_world s) !! NLocal = None)) as (s & E & H1).
  { vm_compute. reflexivity. }
  assert (is_Some (w_nmap (s_world s) !! NLocal)) as He.
  { eapply (H S0 w0 "a"%string (SA4 1 5) w1 _ s).
    - apply chain_reachable. vm_compute. exact I.
    - unfold w1. apply run_out. vm_compute. reflexivity.
    - eapply rtc_l; [apply (step_call (calls_of S0 not_node_stop) (call_prog S0 CLocalPanic) (Sys w1 [])); by exists CLocalPanic|]. eapply exec_reach. exact E. }
  rewrite H1 in He. by destruct He.
Qed.
Print Assumptions C90_refuted.
Lemma nmap_stays S x w : match x with ANmapDelete nd => nd <> NLocal | ANmapClear => False | _ => True end -> is_Some (w_nmap w !! NLocal) -> is_Some (w_nmap (does S x w) !! NLocal).
Proof.
  assert (forall k y u, w_nmap (push k y u) = w_nmap u) as Hp by (intros k y u; unfold push; by destruct (w_loc u !! k)).
  assert (forall q f y u, w_nmap (exit_op q f y u) = w_nmap u) as Hx by (intros q f y u; unfold exit_op; repeat case_match; cbn; rewrite ?Hp; done).
  assert (forall n a i (t : gmap node N), is_Some (t !! NLocal) -> is_Some (<[NRemote n a := i]> t !! NLocal)) as Hi by (intros n a i t Ht; by rewrite lookup_insert_ne).
  intros Hx0 Hw. destruct x; cbn [does]; try done; try (rewrite ?Hp, ?Hx; exact Hw);
    try (unfold receive_op, alias_take_op, send_to, send_frame, hand_out, register_op, exit_linked_op, node_workers_op, sup_down_op; repeat case_match; cbn; rewrite ?Hp, ?Hx; exact Hw).
  - unfold node_register_op, spawn_op. repeat case_match; simplify_eq; cbn; auto.
  - unfold node_start_op, spawn_op. repeat case_match; simplify_eq; cbn; rewrite ?lookup_insert; eauto.
  - cbn. by rewrite lookup_delete_ne.
  - unfold node_disconnect_op. repeat case_match; cbn; rewrite ?Hx; cbn; done.
  - unfold node_accept_op. repeat case_match; cbn; rewrite ?Hx; auto.
  - unfold node_workers_op, hand_out. repeat case_match; done.
Qed.
(** As long as no object of an earlier node is dropped, it holds in every schedule. *)
Theorem C90_stays_alive_partial :
  forall S w name addr w1 p s, run (call_prog S (CNodeStart name addr)) w = Done w1 (VPid p) ->
    reach (calls_of S no_clean_up) (Sys w1 []) s -> run (call_prog S CNodeAlive) (s_world s) = Done (s_world s) (VBool true).
Proof.
  intros S w name addr w1 p s Hr Hs.
  assert (is_Some (w_nmap w1 !! NLocal)) as H1.
  { cbn in Hr. unfold node_start_op, spawn_op in Hr. destruct (w_nmap w !! NLocal) eqn:E; cbn in Hr; [discriminate|]. injection Hr as <- _. cbn. rewrite lookup_insert. eauto. }
  assert (is_Some (w_nmap (s_world s) !! NLocal)) as H2; [|cbn; by rewrite bool_decide_true].
  refine (proj1 (reach_safe (fun w => is_Some (w_nmap w !! NLocal)) _ (Sys w1 []) s _ H1 _ Hs)); [|constructor]. clear. intros q (c & Hc & ->).
  assert ((exists me, c = CForget me NLocal) \/ forall me, c <> CForget me NLocal) as [[me ->]|Hf].
  { destruct c as [| | | | | | | | | | | | | | | | | | | | | | | | | | | | | | | | | | |me [|]| | | | |]; eauto. }
  { exact I. }
  eapply post_safe, (post_guar (lstep S (fp S c))); [|apply call_fp]. intros u u' (x & Hx & ->). destruct x; try (by apply nmap_stays).
  all: destruct c; cbn in Hx, Hc; try contradiction; try discriminate; unfold fp_send, fp_fire, fp_destroy_timer, fp_spawn, fp_link, fp_unlink, fp_monitor, fp_monitor_alias, fp_demonitor, fp_exit, fp_finish, fp_crash, fp_supervise, fp_supdown in Hx; cbn in Hx; try contradiction; try (destruct Hx; contradiction).
  all: try (destruct f; contradiction).
  subst n. apply nmap_stays. intros ->. by apply (Hf me).
Qed.
Print Assumptions C90_stays_alive_partial.
(** non-vacuity *)
Example C90_example :
  exists w1 s, run (call_prog S0 (CNodeStart "a" (SA4 1 5))) world0 = Done w1 (VPid (PLocal 1)) /\
    reach (calls_of S0 no_clean_up) (Sys w1 []) s /\ settled s /\ w_regs (s_world s) !! 1%N = None.
Proof.
  pose (w1 := out_world (run (call_prog S0 (CNodeStart "a" (SA4 1 5))) world0)).
  destruct (tie_example S0 no_clean_up w1 [CFinish 1; CConnect (NRemote "b" (SA4 2 5))] [0; 1] 0 [0; 0; 0] (fun s1 s2 s3 => settledb s3 = true /\ w_regs (s_world s3) !! 1%N = None))
    as (s1 & s2 & s3 & H1 & H2 & H3 & H4 & H5).
  { repeat constructor. }
  { vm_compute. auto. }
  exists w1, s3. split; [unfold w1; apply run_out; vm_compute; reflexivity|]. split; [|split; [by apply settledb_settled|exact H5]].
  eapply rtc_transitive; [exact H1|]. by eapply rtc_l.
Qed.
