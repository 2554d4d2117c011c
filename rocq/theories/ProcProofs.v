(** Proofs about calls that do not overlap. *)
From stdpp Require Import base list gmap numbers strings countable sorting.
From Coq Require Import Lia.
From Verif Require Import Prog ProgProofs ProgInv Types Mailbox World ProcApi NodeApi Api Steps SchedProofs ProcSpec.

Lemma after_arrival_app xs ys l : after_arrival ys (after_arrival xs l) = after_arrival (xs ++ ys) l.
Proof. unfold after_arrival, set_chan; cbn. by rewrite app_assoc. Qed.
Lemma after_arrival_nil l : after_arrival [] l = l.
Proof. destruct l; unfold after_arrival, set_chan; cbn. by rewrite app_nil_r. Qed.
Lemma received_refl w w' : w_loc w' = w_loc w -> received (fun _ => []) w w'.
Proof. intros E j. rewrite E. destruct (w_loc w !! j); cbn; [by rewrite after_arrival_nil | reflexivity]. Qed.
Lemma received_trans f g w w1 w2 : received f w w1 -> received g w1 w2 -> received (fun j => f j ++ g j) w w2.
Proof.
  intros H1 H2 j. rewrite H2, H1. destruct (w_loc w !! j); cbn; [by rewrite after_arrival_app | reflexivity].
Qed.
Lemma received_ext f g w w' : (forall j, f j = g j) -> received f w w' -> received g w w'.
Proof. intros E H j. by rewrite H, E. Qed.
Lemma received_eq f w1 w1' w2 w2' : w_loc w1' = w_loc w1 -> w_loc w2' = w_loc w2 -> received f w1 w2 -> received f w1' w2'.
Proof. intros E1 E2 H j. by rewrite E1, E2, H. Qed.
Lemma received_push i x w : received (fun j => if decide (j = i) then [x] else []) w (push i x w).
Proof.
  intros j. unfold push. destruct (w_loc w !! i) as [l|] eqn:E; cbn.
  - destruct (decide (j = i)) as [->|Hne].
    + rewrite lookup_insert, E. reflexivity.
    + rewrite lookup_insert_ne by congruence. destruct (w_loc w !! j); cbn; [by rewrite after_arrival_nil | reflexivity].
  - destruct (decide (j = i)) as [->|Hne]; [by rewrite E|].
    destruct (w_loc w !! j); cbn; [by rewrite after_arrival_nil | reflexivity].
Qed.
Lemma push_regs i x w : w_regs (push i x w) = w_regs w.
Proof. unfold push. by destruct (w_loc w !! i). Qed.
Lemma push_same i x w : same_elsewhere w (push i x w).
Proof. unfold push. destruct (w_loc w !! i); by constructor. Qed.
Lemma same_refl w : same_elsewhere w w. Proof. by constructor. Qed.
Lemma same_trans a b c : same_elsewhere a b -> same_elsewhere b c -> same_elsewhere a c.
Proof. intros [] []. constructor; etransitivity; eassumption. Qed.

(** ** Exit signals *)
Lemma exit_op_spec i from why w r : w_regs w !! i = Some r ->
  let w' := exit_op (PLocal i) from why w in
  same_elsewhere w w' /\
  match exit_table (bool_decide (PLocal i = from)) (r_trap r) why with
  | Ignored => w' = w
  | Delivered => w_regs w' = w_regs w /\
                 received (fun j => if decide (j = i) then [ISystem (SExit from why)] else []) w w'
  | Terminated => w_regs w' = <[i := terminated why r]> (w_regs w) /\ w_loc w' = w_loc w /\ w_log w' = w_log w
  end.
Proof.
  intros E. unfold exit_op; cbn. rewrite E. unfold terminated.
  destruct (decide (PLocal i = from)) as [Hf|Hf];
    [rewrite (bool_decide_true _ Hf) | rewrite (bool_decide_false _ Hf)]; destruct why, (r_trap r); cbn;
    try (split; [by constructor|]; by auto);
    (split; [apply push_same|]; split; [apply push_regs | apply received_push]).
Qed.

(** ** Links: the local half of an exit *)
Definition core (w : world) := (w_regs w, w_loc w, w_log w, w_names w, w_running w).
Lemma exit_linked_spec i from why w :
  let w' := exit_linked_op (PLocal i) from why w in
  w_regs w' = alter (signalled why) i (w_regs w) /\
  received (fun j => if decide (j = i) then
                       match w_regs w !! i with
                       | Some r => if r_trap r then [ISystem (SExit from why)] else []
                       | None => [] end
                     else []) w w' /\ same_elsewhere w w'.
Proof.
  unfold exit_linked_op; cbn.
  assert (forall r, w_regs w !! i = Some r -> alter (signalled why) i (w_regs w) = <[i := signalled why r]> (w_regs w)) as Ha.
  { intros r E. apply map_eq; intros j. destruct (decide (j = i)) as [->|Hne].
    - by rewrite lookup_alter, lookup_insert, E.
    - by rewrite lookup_alter_ne, lookup_insert_ne by congruence. }
  destruct (w_regs w !! i) as [r|] eqn:E.
  - rewrite (Ha r eq_refl). unfold signalled. destruct (r_trap r) eqn:Et.
    + rewrite push_regs. split; [by rewrite insert_id|]. split; [apply received_push | apply push_same].
    + assert (forall u : world, w_loc u = w_loc w -> received (fun j => if decide (j = i) then [] else []) w u) as Hn.
      { intros u Eu. eapply received_ext; [|by apply received_refl]. intros j. by case_decide. }
      destruct why; cbn; (split; [first [reflexivity | (symmetry; apply insert_id; assumption) | (unfold terminated; rewrite Et; reflexivity)] | split; [apply Hn; reflexivity|by constructor]]).
  - split; [|split; [|apply same_refl]].
    + apply map_eq; intros j. destruct (decide (j = i)) as [->|Hne]; [by rewrite lookup_alter, E | by rewrite lookup_alter_ne].
    + eapply received_ext; [|by apply received_refl]. intros j. by case_decide.
Qed.

Definition link_round (from : pid) (why : exit_reason) (w : world) (p : pid) : world :=
  exit_linked_op p from why (del_link (pid_id p) from w).
Definition link_news (from : pid) (why : exit_reason) (ps : list pid) (w : world) (j : N) : list item :=
  if bool_decide (PLocal j ∈ ps) then
    match w_regs w !! j with
    | Some r => if r_trap r then [ISystem (SExit from why)] else []
    | None => [] end
  else [].
Lemma link_rounds from why ps w :
  Forall (fun p => pid_is_local p = true) ps -> NoDup ps ->
  let w' := fold_left (link_round from why) ps w in
  (forall j, w_regs w' !! j = if bool_decide (PLocal j ∈ ps) then signalled why <$> w_regs w !! j else w_regs w !! j) /\
  received (link_news from why ps w) w w' /\
  w_names w' = w_names w /\ w_mons w' = w_mons w /\ w_aliases w' = w_aliases w /\ w_running w' = w_running w /\
  w_nlinks w' = w_nlinks w /\ w_nmons w' = w_nmons w /\ w_nregs w' = w_nregs w /\ w_nmap w' = w_nmap w /\
  w_pend w' = w_pend w /\ w_out w' = w_out w /\
  (forall a, w_links w !! a = None -> w_links w' !! a = None) /\
  (forall a p, p ∈ default ∅ (w_links w' !! a) <-> p ∈ default ∅ (w_links w !! a) /\ ~ (p = from /\ PLocal a ∈ ps)).
Proof.
  revert w; induction ps as [|p ps IH]; intros w Hl Hnd; cbn [fold_left].
  - split; [intros j; by rewrite bool_decide_false by set_solver|].
    split; [apply received_ext with (fun _ => []); [|by apply received_refl]; intros j; unfold link_news; by rewrite bool_decide_false by set_solver|].
    repeat (split; [reflexivity|]). split; [auto|]. set_solver.
  - apply Forall_cons in Hl as [Hp Hl]. apply NoDup_cons in Hnd as [Hni Hnd].
    destruct p as [i|]; [|discriminate]. clear Hp.
    destruct (exit_linked_spec i from why (del_link i from w)) as (E1 & E2 & E3).
    specialize (IH (link_round from why w (PLocal i)) Hl Hnd).
    destruct IH as (A1 & A2 & A3 & A4 & A5 & A6 & A7 & A8 & A9 & A10 & A11 & A12 & A13 & A14).
    unfold link_round in *; cbn [pid_id] in *.
    set (w1 := exit_linked_op (PLocal i) from why (del_link i from w)) in *.
    assert (w_regs (del_link i from w) = w_regs w) as Er by reflexivity.
    rewrite Er in *.
    split; [|split].
    + intros j. rewrite A1, E1. destruct (decide (j = i)) as [->|Hne].
      * rewrite lookup_alter. rewrite (bool_decide_false (_ ∈ ps)) by exact Hni. by rewrite bool_decide_true by set_solver.
      * rewrite lookup_alter_ne by congruence.
        rewrite (bool_decide_ext (PLocal j ∈ ps) (PLocal j ∈ PLocal i :: ps)) by set_solver. reflexivity.
    + eapply received_ext; [|eapply received_trans; [eapply received_eq; [| |exact E2]; reflexivity | exact A2]].
      intros j. cbn. unfold link_news. rewrite E1. destruct (decide (j = i)) as [->|Hne].
      * rewrite (bool_decide_false (_ ∈ ps)) by exact Hni. rewrite app_nil_r.
        by rewrite bool_decide_true by set_solver.
      * rewrite lookup_alter_ne by congruence. cbn.
        rewrite (bool_decide_ext (PLocal j ∈ ps) (PLocal j ∈ PLocal i :: ps)) by set_solver. reflexivity.
    + destruct E3 as [F1 F2 F3 F4 F5 F6 F7 F8 F9 F10 F11 F12 F13 F14 F15 F16 F17].
      cbn in F1, F2, F3, F4, F5, F6, F7, F8, F9, F10, F11, F12, F13, F14, F15, F16, F17.
      rewrite A3, A4, A5, A6, A7, A8, A9, A10, A11, A12.
      rewrite F4, F8, F9, F10, F11, F12, F13, F14, F15, F16.
      repeat (split; [reflexivity|]). split.
      * intros a Ha. apply A13. rewrite F7. apply lookup_alter_None. exact Ha.
      * intros a q. rewrite A14, F7. destruct (decide (a = i)) as [->|Hne].
        -- rewrite lookup_alter, elem_of_cons. destruct (w_links w !! i); cbn; [rewrite elem_of_difference, elem_of_singleton; naive_solver | set_solver].
        -- rewrite lookup_alter_ne, elem_of_cons by congruence. naive_solver.
Qed.

(** Steps that only deal with other nodes. *)
Definition far (w w' : world) : Prop :=
  core w' = core w /\ w_mons w' = w_mons w /\ w_links w' = w_links w /\ w_aliases w' = w_aliases w /\
  w_nregs w' = w_nregs w /\ w_nmap w' = w_nmap w.
Lemma far_refl w : far w w. Proof. repeat split; reflexivity. Qed.
Lemma far_trans a b c : far a b -> far b c -> far a c.
Proof. intros (A1 & A2 & A3 & A4 & A5 & A6) (B1 & B2 & B3 & B4 & B5 & B6). repeat split; etransitivity; eassumption. Qed.
Lemma far_send_frame f i w : far w (send_frame f i w).
Proof. unfold send_frame, hand_out. repeat case_match; apply far_refl || (repeat split; reflexivity). Qed.
Lemma run_far {A} (p : prog world A) w : guar far p -> far w (out_world (run p w)).
Proof. apply run_guar; [apply far_refl | apply far_trans]. Qed.
Fixpoint total {A} (p : prog world A) : Prop :=
  match p with Ret _ => True | Panic _ => False | Atom g f k => forall w, g w = true /\ total (k w) end.
Lemma total_bind {A B} (p : prog world A) (q : A -> prog world B) : total p -> (forall a, total (q a)) -> total (bind p q).
Proof.
  intros Hp Hq. induction p as [a|m|g f k IH]; cbn in *; [auto | contradiction |].
  intros w. destruct (Hp w). auto.
Qed.
Lemma total_each {A} (l : list A) body : (forall x, total (body x)) -> total (each l body).
Proof. intros H. induction l; cbn; [exact I|]. apply total_bind; auto. Qed.
Lemma total_run {A} (p : prog world A) w : total p -> exists a, run p w = Done (out_world (run p w)) a.
Proof.
  revert w; induction p as [a|m|g f k IH]; intros w H; cbn in *; [eauto | contradiction |].
  destruct (H w) as [-> Hk]. apply IH, Hk.
Qed.
Lemma total_atom {A} (op : world -> world * A) : total (atom op). Proof. cbn. auto. Qed.
Lemma total_modify (f : world -> world) : total (modify f). Proof. cbn. auto. Qed.
Lemma total_observe {A} (f : world -> A) : total (observe f). Proof. cbn. auto. Qed.

Lemma sorted_pids_elem s p : p ∈ sorted_pids s <-> p ∈ s.
Proof. unfold sorted_pids. rewrite merge_sort_Permutation. apply elem_of_elements. Qed.
Lemma sorted_pids_nodup s : NoDup (sorted_pids s).
Proof. unfold sorted_pids. rewrite merge_sort_Permutation. apply NoDup_elements. Qed.
Lemma sorted_refs_elem {A} (m : gmap reference A) r x : (r, x) ∈ sorted_refs m <-> m !! r = Some x.
Proof. unfold sorted_refs. rewrite merge_sort_Permutation. apply elem_of_map_to_list. Qed.
Lemma sorted_refs_nodup {A} (m : gmap reference A) : NoDup (sorted_refs m).*1.
Proof. unfold sorted_refs. rewrite merge_sort_Permutation. apply NoDup_fst_map_to_list. Qed.

(** The whole of link_process_down for a local process. *)
Lemma link_down_spec me why w :
  exists w', run (link_process_down (PLocal me) why) w = Done w' tt /\
  (forall j, w_regs w' !! j = if linked w me j then signalled why <$> w_regs w !! j else w_regs w !! j) /\
  received (exit_message w me why) w w' /\
  w_names w' = w_names w /\ w_mons w' = w_mons w /\ w_aliases w' = w_aliases w /\ w_running w' = w_running w /\
  w_nregs w' = w_nregs w /\ w_nmap w' = w_nmap w /\
  w_links w' !! me = None /\
  (forall a p, a <> me -> (p ∈ default ∅ (w_links w' !! a) <-> p ∈ default ∅ (w_links w !! a) /\ ~ (p = PLocal me /\ linked w me a = true))).
Proof.
  unfold link_process_down. rewrite run_bind, run_atom. cbn [fst snd pid_id].
  destruct (w_links w !! me) as [ls|] eqn:El.
  - set (w0 := up_links (delete me) w). set (ps := sorted_pids ls).
    rewrite run_bind.
    rewrite (run_each _ _ (fun p w => link_round (PLocal me) why w p)) by (intros; reflexivity).
    set (lps := filter (fun p => pid_is_local p = true) ps).
    assert (Forall (fun p => pid_is_local p = true) lps) as Hl.
    { apply Forall_forall. intros p. unfold lps. rewrite elem_of_list_filter. tauto. }
    assert (NoDup lps) as Hnd by apply NoDup_filter, sorted_pids_nodup.
    destruct (link_rounds (PLocal me) why lps w0 Hl Hnd) as (A1 & A2 & A3 & A4 & A5 & A6 & _ & _ & A9 & A10 & _ & _ & A13 & A14).
    change (fold_left (fun w p => link_round (PLocal me) why w p) lps w0) with (fold_left (link_round (PLocal me) why) lps w0).
    set (w1 := fold_left (link_round (PLocal me) why) lps w0) in *.
    match goal with |- context [run ?p w1] => set (rest := p) end.
    assert (total rest) as Ht.
    { apply total_each. intros g. apply total_bind; [apply total_observe|]. intros n.
      apply total_bind; [|intros; apply total_modify]. case_match; [case_match; apply total_modify | exact I]. }
    assert (guar far rest) as Hg.
    { apply guar_each. intros g. apply guar_bind; [apply guar_observe; apply far_refl|]. intros n.
      apply guar_bind.
      - case_match; [case_match; apply guar_modify; intros; repeat split; reflexivity | exact I].
      - intros _. apply guar_modify. intros; apply far_send_frame. }
    destruct (total_run rest w1 Ht) as [[] Hrun]. rewrite Hrun.
    pose proof (run_far rest w1 Hg) as (C & M & L & Al & Nr & Nm).
    set (w2 := out_world (run rest w1)) in *. unfold core in C. injection C as C1 C2 C3 C4 C5.
    assert (forall j, bool_decide (PLocal j ∈ lps) = linked w me j) as Hlk.
    { intros j. unfold linked. rewrite El. cbn. apply bool_decide_ext. unfold lps. rewrite elem_of_list_filter.
      unfold ps. rewrite sorted_pids_elem. cbn. tauto. }
    exists w2. split; [reflexivity|].
    split. { intros j. rewrite C1, A1, Hlk. reflexivity. }
    split. { apply received_ext with (link_news (PLocal me) why lps w0).
             - intros j. unfold link_news, exit_message. rewrite Hlk. reflexivity.
             - eapply received_eq; [| |exact A2]; [reflexivity | exact C2]. }
    split. { by rewrite C4, A3. }
    split. { by rewrite M, A4. }
    split. { by rewrite Al, A5. }
    split. { by rewrite C5, A6. }
    split. { by rewrite Nr, A9. }
    split. { by rewrite Nm, A10. }
    split. { rewrite L. apply A13. unfold w0; cbn. apply lookup_delete. }
    intros a p Ha. rewrite L, (A14 a p). unfold w0; cbn. rewrite lookup_delete_ne by congruence.
    rewrite <- (Hlk a), bool_decide_eq_true. reflexivity.
  - eexists. split; [reflexivity|].
    assert (forall j, linked w me j = false) as Hlk.
    { intros j. unfold linked. rewrite El. apply bool_decide_false. cbn. set_solver. }
    split. { intros j. rewrite Hlk. reflexivity. }
    split. { apply received_ext with (fun _ => []); [|by apply received_refl]. intros j. unfold exit_message. by rewrite Hlk. }
    repeat (split; [reflexivity|]). split; [cbn; apply lookup_delete|].
    intros a p Ha. cbn. rewrite lookup_delete_ne, Hlk by congruence. split; [intros; split; [assumption|]; intros [_ ?]; discriminate | tauto].
Qed.

(** ** Monitors: the local half of an exit *)
Definition notice (why : exit_reason) (j : N) (x : reference * (pid * option dest)) : option item :=
  match snd x with
  | (from, Some d) => if decide (from = PLocal j) then Some (IProcessDown d (fst x) why) else None
  | _ => None
  end.
Definition down_round (why : exit_reason) (w : world) (x : reference * (pid * option dest)) : world :=
  let w := match snd x with
           | (PLocal j, Some d) => send_to j (IProcessDown d (fst x) why) w
           | _ => w
           end in
  if ref_is_local (fst x) then up_aliases (delete (ref_id (fst x))) w else w.
Lemma send_to_spec i x w :
  w_regs (send_to i x w) = w_regs w /\ same_elsewhere w (send_to i x w) /\
  received (fun j => match w_regs w !! j with Some _ => if decide (j = i) then [x] else [] | None => [] end) w (send_to i x w).
Proof.
  unfold send_to. destruct (w_regs w !! i) eqn:E.
  - split; [apply push_regs|]. split; [apply push_same|]. eapply received_ext; [|apply received_push].
    intros j. cbn. case_decide; [subst; by rewrite E | by destruct (w_regs w !! j)].
  - split; [reflexivity|]. split; [apply same_refl|]. eapply received_ext; [|by apply received_refl].
    intros j. cbn. case_decide; [subst; by rewrite E | by destruct (w_regs w !! j)].
Qed.
Lemma down_rounds why l w :
  let w' := fold_left (down_round why) l w in
  w_regs w' = w_regs w /\
  received (fun j => match w_regs w !! j with Some _ => omap (notice why j) l | None => [] end) w w' /\
  w_names w' = w_names w /\ w_mons w' = w_mons w /\ w_running w' = w_running w /\ w_links w' = w_links w /\
  w_nregs w' = w_nregs w /\ w_nmap w' = w_nmap w /\
  (forall k, w_aliases w' !! k = if bool_decide (RLocal k ∈ l.*1) then None else w_aliases w !! k).
Proof.
  revert w; induction l as [|x l IH]; intros w; cbn [fold_left].
  - split; [reflexivity|]. split; [eapply received_ext; [|by apply received_refl]; intros j; by destruct (w_regs w !! j)|].
    repeat (split; [reflexivity|]). intros k. rewrite bool_decide_false; [reflexivity|]. cbn. set_solver.
  - destruct (IH (down_round why w x)) as (A1 & A2 & A3 & A4 & A5 & A6 & A7 & A8 & A9).
    assert (w_regs (down_round why w x) = w_regs w /\
      received (fun j => match w_regs w !! j with Some _ => option_list (notice why j x) | None => [] end) w (down_round why w x) /\
      w_names (down_round why w x) = w_names w /\ w_mons (down_round why w x) = w_mons w /\
      w_running (down_round why w x) = w_running w /\ w_links (down_round why w x) = w_links w /\
      w_nregs (down_round why w x) = w_nregs w /\ w_nmap (down_round why w x) = w_nmap w /\
      (forall k, w_aliases (down_round why w x) !! k = if decide (fst x = RLocal k) then None else w_aliases w !! k))
      as (B1 & B2 & B3 & B4 & B5 & B6 & B7 & B8 & B9).
    { unfold down_round. set (w1 := match snd x with (PLocal j, Some d) => _ | _ => w end).
      assert (w_regs w1 = w_regs w /\ same_elsewhere w w1 /\
        received (fun j => match w_regs w !! j with Some _ => option_list (notice why j x) | None => [] end) w w1) as (C1 & C2 & C3).
      { unfold w1, notice. destruct x as [r [[i|i n] [d|]]]; cbn.
        - destruct (send_to_spec i (IProcessDown d r why) w) as (D1 & D2 & D3). split; [exact D1|]. split; [exact D2|].
          eapply received_ext; [|exact D3]. intros j. cbn. destruct (w_regs w !! j); [|reflexivity].
          repeat case_decide; try reflexivity; congruence.
        - split; [reflexivity|]. split; [apply same_refl|]. eapply received_ext; [|by apply received_refl]. intros j; cbn. by destruct (w_regs w !! j).
        - split; [reflexivity|]. split; [apply same_refl|]. eapply received_ext; [|by apply received_refl]. intros j; cbn. by destruct (w_regs w !! j).
        - split; [reflexivity|]. split; [apply same_refl|]. eapply received_ext; [|by apply received_refl]. intros j; cbn. by destruct (w_regs w !! j). }
      clearbody w1. destruct C2 as [F1 F2 F3 F4 F5 F6 F7 F8 F9 F10 F11 F12 F13 F14 F15 F16 F17].
      destruct (fst x) as [k0|k0 n0]; cbn.
      - split; [exact C1|]. split; [eapply received_eq; [| |exact C3]; reflexivity|].
        repeat (split; [assumption|]). intros k. rewrite F9. case_decide as E.
        + injection E as ->. apply lookup_delete.
        + apply lookup_delete_ne. congruence.
      - split; [exact C1|]. split; [exact C3|]. repeat (split; [assumption|]). intros k. rewrite F9. reflexivity. }
    rewrite B1 in A2. rewrite A1, B1, A3, B3, A4, B4, A5, B5, A6, B6, A7, B7, A8, B8.
    split; [reflexivity|]. split.
    { eapply received_ext; [|eapply received_trans; [exact B2 | exact A2]].
      intros j. cbn. destruct (w_regs w !! j); [|reflexivity]. destruct (notice why j x); reflexivity. }
    repeat (split; [reflexivity|]). intros k. rewrite A9, B9. cbn [fmap list_fmap].
    destruct (decide (fst x = RLocal k)) as [E|E].
    + rewrite (bool_decide_true (_ ∈ _ :: _)) by (rewrite E; set_solver). by case_bool_decide.
    + rewrite (bool_decide_ext (RLocal k ∈ fst x :: l.*1) (RLocal k ∈ l.*1)); [reflexivity|]. set_solver.
Qed.

Lemma monitor_down_spec me why w : mons_named w me ->
  exists w', run (monitor_process_down (PLocal me) why) w = Done w' tt /\
  w_regs w' = w_regs w /\ received (down_notices w me why) w w' /\
  w_names w' = w_names w /\ w_running w' = w_running w /\ w_links w' = w_links w /\
  w_nregs w' = w_nregs w /\ w_nmap w' = w_nmap w /\
  w_mons w' = delete me (w_mons w) /\
  (forall k, w_aliases w' !! k =
     if bool_decide (is_Some (default ∅ (w_mons w !! me) !! RLocal k)) then None else w_aliases w !! k).
Proof.
  intros Hn. unfold monitor_process_down. rewrite run_bind, run_atom. cbn [fst snd pid_id].
  unfold down_notices, mons_named in *.
  destruct (w_mons w !! me) as [ms|] eqn:Em; cbn [default] in *.
  - set (w0 := up_mons (delete me) w). set (l := sorted_refs ms).
    rewrite run_bind. rewrite (run_each _ _ (fun x w => down_round why w x)).
    2: { intros [r [from d]] u Hx. cbn [fst snd]. apply sorted_refs_elem in Hx.
         destruct from as [j|j n]; cbn [pid_is_local].
         - destruct (Hn _ _ _ Hx eq_refl) as [d' ->]. destruct r; reflexivity.
         - destruct r; reflexivity. }
    destruct (down_rounds why l w0) as (A1 & A2 & A3 & A4 & A5 & A6 & A7 & A8 & A9).
    set (w1 := fold_left (fun w x => down_round why w x) l w0) in *.
    match goal with |- context [run ?p w1] => set (rest := p) end.
    assert (total rest) as Ht.
    { apply total_each. intros g. apply total_bind; [apply total_observe|]. intros n.
      apply total_bind; [|intros; apply total_modify]. case_match; [case_match; apply total_modify | exact I]. }
    assert (guar far rest) as Hg.
    { apply guar_each. intros g. apply guar_bind; [apply guar_observe; apply far_refl|]. intros n.
      apply guar_bind.
      - case_match; [case_match; apply guar_modify; intros; repeat split; reflexivity | exact I].
      - intros _. apply guar_modify. intros; apply far_send_frame. }
    destruct (total_run rest w1 Ht) as [[] Hrun]. rewrite Hrun.
    pose proof (run_far rest w1 Hg) as (C & M & L & Al & Nr & Nm).
    set (w2 := out_world (run rest w1)) in *. unfold core in C. injection C as C1 C2 C3 C4 C5.
    exists w2. split; [reflexivity|].
    split; [by rewrite C1, A1|].
    split; [eapply received_eq; [| |exact A2]; [reflexivity | exact C2]|].
    split; [by rewrite C4, A3|]. split; [by rewrite C5, A5|]. split; [by rewrite L, A6|].
    split; [by rewrite Nr, A7|]. split; [by rewrite Nm, A8|]. split; [by rewrite M, A4|].
    intros k. rewrite Al, A9. unfold w0; cbn.
    rewrite (bool_decide_ext (RLocal k ∈ l.*1) (is_Some (ms !! RLocal k))); [reflexivity|].
    rewrite elem_of_list_fmap. split.
    + intros ([r x] & E & Hx). cbn in E; subst r. apply sorted_refs_elem in Hx. eauto.
    + intros [x Hx]. exists (RLocal k, x). split; [reflexivity|]. by apply sorted_refs_elem.
  - eexists. split; [reflexivity|]. split; [reflexivity|].
    split. { eapply received_ext; [|by apply received_refl]. intros j. by destruct (w_regs w !! j). }
    repeat (split; [reflexivity|]). intros k. reflexivity.
Qed.

(** ** What a process cleans up about itself *)
Definition tidy (a : N) (w w' : world) : Prop :=
  core w' = core w /\ w_links w' = w_links w /\ (w_mons w !! a = None -> w_mons w' !! a = None) /\
  (forall k, w_aliases w !! k = None -> w_aliases w' !! k = None).
Lemma tidy_refl a w : tidy a w w. Proof. repeat split; auto. Qed.
Lemma tidy_trans a x y z : tidy a x y -> tidy a y z -> tidy a x z.
Proof. intros (A1 & A2 & A3 & A4) (B1 & B2 & B3 & B4). repeat split; [congruence | congruence | auto | auto]. Qed.
Lemma tidy_alias a i w : tidy a w (up_aliases (delete i) w).
Proof. repeat split; auto. intros k Hk; cbn. apply lookup_delete_None; auto. Qed.
Lemma tidy_send_frame a f i w : tidy a w (send_frame f i w).
Proof. destruct (far_send_frame f i w) as (C & M & L & Al & _). repeat split; rewrite ?M, ?Al; auto. Qed.
Lemma tidy_del_mon a i r w : tidy a w (del_mon i r w).
Proof. repeat split; auto. cbn. intros H. apply lookup_alter_None. exact H. Qed.
Lemma tidy_destroy_all a l : guar (tidy a) (monitor_destroy_all l).
Proof.
  apply guar_each. intros [r [[p|]|n]]; cbn [fst snd]; [|exact I|].
  - apply guar_bind.
    + destruct (pid_is_local p); apply guar_modify; intros; [apply tidy_del_mon | apply tidy_send_frame].
    + intros _. destruct (ref_is_local r); [|exact I]. apply guar_bind; [|intros; exact I].
      apply guar_atom. intros; apply tidy_alias.
  - apply guar_bind; [apply guar_modify; intros; repeat split; auto|]. intros _.
    destruct (ref_is_local r); [|exact I]. apply guar_bind; [|intros; exact I]. apply guar_atom. intros; apply tidy_alias.
Qed.
Lemma total_destroy_all l : total (monitor_destroy_all l).
Proof.
  apply total_each. intros [r [[p|]|n]]; cbn [fst snd]; [|exact I|].
  - apply total_bind; [destruct (pid_is_local p); apply total_modify|]. intros _.
    destruct (ref_is_local r); [|exact I]. apply total_bind; [apply total_atom | intros; exact I].
  - apply total_bind; [apply total_modify|]. intros _.
    destruct (ref_is_local r); [|exact I]. apply total_bind; [apply total_atom | intros; exact I].
Qed.
Lemma run_tidy {A} a (p : prog world A) w : guar (tidy a) p -> tidy a w (out_world (run p w)).
Proof. apply run_guar; [apply tidy_refl | apply tidy_trans]. Qed.

(** The body of the loop of monitor_destroy_all. *)
Definition destroys (k : N) (x : reference * pmonitor) : Prop := fst x = RLocal k /\ snd x <> MForProcess None.
Lemma destroy_body (x : reference * pmonitor) w :
  exists w', run (match snd x with
    | MForProcess None => Ret tt
    | MForProcess (Some p) =>
        do! (if pid_is_local p then modify (del_mon (pid_id p) (fst x))
             else modify (send_frame (FMonitor false (Some (pid_id p)) None None (ref_id (fst x))) (ref_node (fst x)))) in
        if ref_is_local (fst x) then do! alias_destroy (fst x) in Ret tt else Ret tt
    | MForNode nd =>
        do! modify (del_nmon nd (fst x)) in
        if ref_is_local (fst x) then do! alias_destroy (fst x) in Ret tt else Ret tt
    end) w = Done w' tt /\
  (forall t r, default ∅ (w_mons w' !! t) !! r =
     if decide ((r, MForProcess (Some (PLocal t))) = x) then None else default ∅ (w_mons w !! t) !! r) /\
  (forall k, destroys k x -> w_aliases w' !! k = None) /\ (forall k, ~ destroys k x -> w_aliases w' !! k = w_aliases w !! k).
Proof.
  destruct x as [r0 m]. cbn [fst snd]. unfold destroys; cbn [fst snd].
  assert (forall u, exists w', run (if ref_is_local r0 then do! alias_destroy r0 in Ret tt else Ret tt) u = Done w' tt /\ w_mons w' = w_mons u /\
    (forall k, r0 = RLocal k -> w_aliases w' !! k = None) /\ (forall k, r0 <> RLocal k -> w_aliases w' !! k = w_aliases u !! k)) as Hal.
  { intros u. destruct r0 as [k0|k0 n0]; cbn; eexists; (split; [reflexivity|]); (split; [reflexivity|]); cbn; split; intros k Hk.
    - injection Hk as ->. apply lookup_delete.
    - rewrite lookup_delete_ne by congruence. reflexivity.
    - discriminate.
    - reflexivity. }
  destruct m as [[p|]|nd].
  - rewrite run_bind.
    set (w1 := if pid_is_local p then del_mon (pid_id p) r0 w else send_frame (FMonitor false (Some (pid_id p)) None None (ref_id r0)) (ref_node r0) w).
    assert (run (if pid_is_local p then modify (del_mon (pid_id p) r0) else modify (send_frame (FMonitor false (Some (pid_id p)) None None (ref_id r0)) (ref_node r0))) w = Done w1 tt) as ->
      by (unfold w1; destruct (pid_is_local p); reflexivity).
    destruct (Hal w1) as (w2 & -> & E1 & E2 & E3). exists w2. split; [reflexivity|].
    assert (w_aliases w1 = w_aliases w) as Ea.
    { unfold w1. destruct (pid_is_local p); [reflexivity|]. by destruct (far_send_frame (FMonitor false (Some (pid_id p)) None None (ref_id r0)) (ref_node r0) w) as (_ & _ & _ & H & _). }
    split; [|split].
    + intros t r. rewrite E1. unfold w1. destruct p as [t0|t0 n0]; cbn [pid_is_local pid_id].
      * cbn. destruct (decide (t = t0)) as [->|Hne].
        -- rewrite lookup_alter. destruct (w_mons w !! t0) as [ms|]; cbn; [|rewrite !lookup_empty; by case_decide].
           case_decide as Hd; [injection Hd as ->; apply lookup_delete|]. rewrite lookup_delete_ne; [reflexivity|congruence].
        -- rewrite lookup_alter_ne by congruence. rewrite decide_False by congruence. reflexivity.
      * rewrite decide_False by congruence.
        destruct (far_send_frame (FMonitor false (Some t0) None None (ref_id r0)) (ref_node r0) w) as (_ & -> & _). reflexivity.
    + intros k [Hk _]. apply E2, Hk.
    + intros k Hk. rewrite E3, Ea; [reflexivity|]. intros ->. apply Hk. split; [reflexivity|discriminate].
  - eexists. split; [reflexivity|]. split; [|split].
    + intros t r. rewrite decide_False by congruence. reflexivity.
    + intros k [_ H]. congruence.
    + reflexivity.
  - rewrite run_bind, run_modify. destruct (Hal (del_nmon nd r0 w)) as (w2 & -> & E1 & E2 & E3). exists w2. split; [reflexivity|].
    split; [|split].
    + intros t r. rewrite E1, decide_False by congruence. reflexivity.
    + intros k [Hk _]. apply E2, Hk.
    + intros k Hk. rewrite E3; [reflexivity|]. intros ->. apply Hk. split; [reflexivity|discriminate].
Qed.
Lemma destroy_all_spec l w : exists w', run (monitor_destroy_all l) w = Done w' tt /\
  (forall t r, default ∅ (w_mons w' !! t) !! r =
     if bool_decide ((r, MForProcess (Some (PLocal t))) ∈ l) then None else default ∅ (w_mons w !! t) !! r) /\
  (forall k, Exists (destroys k) l -> w_aliases w' !! k = None) /\ (forall k, ~ Exists (destroys k) l -> w_aliases w' !! k = w_aliases w !! k).
Proof.
  revert w; induction l as [|x l IH]; intros w.
  - exists w. split; [reflexivity|]. split; [|split].
    + intros. by rewrite bool_decide_false by set_solver.
    + intros k H. inversion H.
    + reflexivity.
  - unfold monitor_destroy_all. cbn [each]. rewrite run_bind. destruct (destroy_body x w) as (w1 & -> & A1 & A2 & A3).
    destruct (IH w1) as (w2 & E & B1 & B2 & B3). exists w2. split; [exact E|]. split; [|split].
    + intros t r. rewrite B1, A1. destruct (decide ((r, MForProcess (Some (PLocal t))) = x)) as [Hx|Hx].
      * rewrite (bool_decide_true (_ ∈ x :: l)) by (rewrite elem_of_cons; auto). by case_match.
      * rewrite (bool_decide_ext _ ((r, MForProcess (Some (PLocal t))) ∈ x :: l)); [reflexivity|]. rewrite elem_of_cons. tauto.
    + intros k Hk. apply Exists_cons in Hk. destruct (decide (Exists (destroys k) l)) as [H|H]; [by apply B2|].
      rewrite B3 by exact H. apply A2. tauto.
    + intros k Hk. rewrite Exists_cons in Hk. rewrite B3, A3; [reflexivity|tauto|tauto].
Qed.

Lemma alias_all_spec l w : exists w', run (alias_destroy_all l) w = Done w' tt /\ tidy 0%N w w' /\
  w_mons w' = w_mons w /\ (forall k, k ∈ l -> w_aliases w' !! k = None) /\ (forall k, k ∉ l -> w_aliases w' !! k = w_aliases w !! k).
Proof.
  unfold alias_destroy_all. revert w; induction l as [|i l IH]; intros w.
  - eexists. split; [reflexivity|]. split; [apply tidy_refl|]. split; [reflexivity|]. split; [|reflexivity]. intros k Hk. by apply elem_of_nil in Hk.
  - cbn [each]. rewrite run_bind, run_modify. destruct (IH (up_aliases (delete i) w)) as (w' & Hr & Ht & Hm & Ha & Ho).
    exists w'. split; [exact Hr|]. split; [eapply tidy_trans; [apply tidy_alias | exact Ht]|]. split; [exact Hm|]. split.
    + intros k Hk. apply elem_of_cons in Hk as [->|Hk]; [|auto]. apply Ht. cbn. apply lookup_delete.
    + intros k Hk. apply not_elem_of_cons in Hk as [H1 H2]. rewrite Ho by exact H2. cbn. by rewrite lookup_delete_ne by congruence.
Qed.

(** The end of a registered process. *)
Lemma drop_spec me w r : w_regs w !! me = Some r -> mons_named w me ->
  exists w', run (drop_process me) w = Done w' tt /\ exited w me r (final_reason r) w'.
Proof.
  intros Er Hn. unfold drop_process. rewrite run_bind, run_atom. cbn [fst snd]. rewrite Er.
  set (w0 := up_regs (delete me) w). rewrite run_bind.
  set (w1 := match r_name r with Some n => up_names (delete n) w0 | None => w0 end).
  assert (run (match r_name r with Some n => modify (up_names (delete n)) | None => Ret tt end) w0 = Done w1 tt) as ->
    by (unfold w1; destruct (r_name r); reflexivity).
  assert (w_regs w1 = delete me (w_regs w) /\ w_loc w1 = w_loc w /\ w_links w1 = w_links w /\ w_mons w1 = w_mons w /\
          w_running w1 = w_running w /\ w_aliases w1 = w_aliases w /\
          w_names w1 = match r_name r with Some n => delete n (w_names w) | None => w_names w end) as (A1 & A2 & A3 & A4 & A5 & A6 & A7)
    by (unfold w1, w0; destruct (r_name r); repeat split; reflexivity).
  clearbody w1. change (default RNormal (r_exit r)) with (final_reason r). set (why := final_reason r).
  rewrite run_bind. destruct (link_down_spec me why w1) as (w2 & -> & B1 & B2 & B3 & B4 & B5 & B6 & B7 & B8 & B9 & B10).
  rewrite run_bind.
  assert (mons_named w2 me) as Hn2 by (unfold mons_named; rewrite B4, A4; exact Hn).
  destruct (monitor_down_spec me why w2 Hn2) as (w3 & -> & C1 & C2 & C3 & C4 & C5 & C6 & C7 & C8 & C9).
  rewrite run_bind, run_observe.
  set (ml := match w_loc w3 !! me with Some l => sorted_refs (l_monitors l) | None => [] end).
  set (al := match w_loc w3 !! me with Some l => sorted_ids (l_aliases l) | None => [] end).
  rewrite run_bind. pose proof (run_tidy me _ w3 (tidy_destroy_all me ml)) as (D1 & D2 & D3 & D4).
  destruct (destroy_all_spec ml w3) as (w4 & Hr4 & D5 & D6 & D7). rewrite Hr4 in D1, D2, D3, D4 |- *. cbn [out_world] in *.
  rewrite run_bind. destruct (alias_all_spec al w4) as (w5 & -> & (E1 & E2 & _ & E4) & E5 & E6 & E7).
  rewrite run_modify. eexists. split; [reflexivity|].
  unfold core in D1, E1. injection D1 as D11 D12 D13 D14 D15. injection E1 as E11 E12 E13 E14 E15.
  assert (w_regs w1 !! me = None) as Hme by (rewrite A1; apply lookup_delete).
  assert (forall j, linked w1 me j = linked w me j) as Hlk by (intros j; unfold linked; by rewrite A3).
  assert (forall j, w_loc w3 !! j = after_arrival (exit_message w1 me why j ++ down_notices w2 me why j) <$> w_loc w !! j) as Hmail.
  { intros j. pose proof (received_trans _ _ _ _ _ B2 C2 j) as H. rewrite A2 in H. exact H. }
  constructor; cbn.
  - rewrite E11, D11, C1, B1, Hme. by destruct (linked w1 me me).
  - apply lookup_delete.
  - by rewrite E15, D15, C4, B6, A5.
  - intros j Hj. rewrite E11, D11, C1, B1, Hlk, A1, lookup_delete_ne by congruence. reflexivity.
  - intros j Hj. rewrite lookup_delete_ne by congruence. rewrite E12, D12, Hmail. f_equal. f_equal. f_equal.
    + unfold exit_message. rewrite Hlk, A1, lookup_delete_ne by congruence. reflexivity.
    + unfold down_notices. rewrite B4, A4, B1, Hlk, A1, lookup_delete_ne by congruence.
      destruct (linked w me j); destruct (w_regs w !! j); reflexivity.
  - by rewrite E14, D14, C3, B3, A7.
  - rewrite E2, D2, C5. exact B9.
  - rewrite E5. apply D3. rewrite C8. apply lookup_delete.
  - intros j p Hj. rewrite E2, D2, C5, (B10 j p Hj), A3, Hlk. reflexivity.
  - intros l t x Hl Ht. rewrite E5, D5, C8, lookup_delete_ne by congruence. rewrite B4, A4.
    assert (((x, MForProcess (Some (PLocal t))) ∈ ml) <-> l_monitors l !! x = Some (MForProcess (Some (PLocal t)))) as Hml.
    { unfold ml. rewrite Hmail, Hl. cbn. apply sorted_refs_elem. }
    case_decide as Hd; [rewrite bool_decide_true by tauto | rewrite bool_decide_false by tauto]; reflexivity.
  - intros l k Hl Hk. assert (k ∈ al <-> k ∈ l_aliases l) as Hal.
    { unfold al. rewrite Hmail, Hl. cbn. unfold sorted_ids. rewrite merge_sort_Permutation. apply elem_of_elements. }
    destruct Hk as [Hk|[(m & Hm & Hne)|Hk]]; [by apply E6, Hal| |]; apply E4.
    + apply D6, Exists_exists. exists (RLocal k, m). split; [|by split]. unfold ml. rewrite Hmail, Hl. cbn. by apply sorted_refs_elem.
    + apply D4. rewrite C9, B4, A4. by rewrite bool_decide_true by exact Hk.
  - intros l k Hl Hk. rewrite E7, D7, C9, B4, A4, B5, A6.
    + rewrite bool_decide_false; [reflexivity|]. intros H. apply Hk. right; right; exact H.
    + rewrite Exists_exists. intros ([x m] & Hx & Hd1 & Hd2). cbn in *; subst x. apply Hk. right; left. exists m. split; [|exact Hd2].
      unfold ml in Hx. rewrite Hmail, Hl in Hx. cbn in Hx. by apply sorted_refs_elem in Hx.
    + unfold al. rewrite Hmail, Hl. cbn. unfold sorted_ids. rewrite merge_sort_Permutation, elem_of_elements. intros H. apply Hk. by left.
Qed.
