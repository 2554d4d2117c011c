(** Concrete histories, for witnesses and examples. *)
From stdpp Require Import base list gmap numbers strings countable sorting relations.
From Verif Require Import Prog ProgProofs ProgInv Types Mailbox World ProcApi NodeApi Api Steps Hist.

Section play.
  Context (S : serde).
  Definition runnable (c : call) (w : world) : bool :=
    match caller c with
    | Some me => match w_loc w !! me, w_regs w !! me with Some _, Some _ => true | _, _ => false end
    | None => true
    end.
  Lemma runnable_made c w : runnable c w = true -> made_by_running c w.
  Proof. unfold runnable, made_by_running. repeat case_match; try done; eauto. Qed.
  Fixpoint play (cs : list call) (w : world) : option world :=
    match cs with
    | [] => Some w
    | c :: cs => if runnable c w then
                   match run (call_prog S c) w with
                   | Done w' _ | Panicked w' _ => play cs w'
                   | Blocked _ => None
                   end
                 else None
    end.
  Lemma history_cons (ok : call -> world -> Prop) w c w1 cs w2 : ok c w -> happens S c w w1 -> history S ok w1 cs w2 -> history S ok w (c :: cs) w2.
  Proof.
    intros H1 H2 Hh. induction Hh as [w1|w1 cs w3 c' w4 Hh IH Hok Hc].
    - apply (history_snoc S ok w [] w c w1); [constructor | exact H1 | exact H2].
    - apply (history_snoc S ok w (c :: cs) w3 c' w4); auto.
  Qed.
  Lemma play_history cs w w' : play cs w = Some w' -> history S made_by_running w cs w'.
  Proof.
    revert w; induction cs as [|c cs IH]; intros w H; cbn in H; [injection H as <-; constructor|].
    destruct (runnable c w) eqn:E; [|discriminate]. apply runnable_made in E.
    destruct (run (call_prog S c) w) eqn:Er; try discriminate; (eapply history_cons; [exact E| |apply IH, H]);
      [by eapply happens_done | by eapply happens_panic].
  Qed.
  Lemma play_some (P : world -> Prop) cs :
    match play cs world0 with Some w => P w | None => False end -> exists w, seq_reachable S w /\ P w.
  Proof.
    intros H. destruct (play cs world0) as [w|] eqn:E; [|done]. exists w. split; [|exact H].
    exists cs. by apply play_history.
  Qed.
  (** Concrete schedules: the calls [cs] all begin, then take steps in the order [sched]. *)
  Lemma start_reachable cs : reachable S (Sys world0 (map (call_prog S) cs)).
  Proof.
    induction cs as [|c cs IH] using rev_ind; [apply rtc_refl|]. rewrite map_app. eapply rtc_r; [exact IH|].
    apply (step_call (any_call S) (call_prog S c) (Sys world0 (map (call_prog S) cs))). by exists c.
  Qed.
  Lemma sched_some (P : sys world val -> Prop) cs sched :
    match exec sched (Sys world0 (map (call_prog S) cs)) with Some s => P s | None => False end -> exists s, reachable S s /\ P s.
  Proof.
    intros H. apply exec_some in H as (s & E & H). exists s. split; [|exact H].
    eapply rtc_transitive; [apply start_reachable | by eapply exec_reach].
  Qed.
End play.
