(** What calls that do not concern a process leave as it is: its registration, its flags, its name. *)
From stdpp Require Import base list gmap numbers strings countable sorting relations.
From Coq Require Import Lia.
From Verif Require Import Prog ProgProofs ProgInv Types Mailbox World ProcApi NodeApi Api Steps Hist Labels SchedSpec SchedProofs ProcSpec RegProofs.

(** A property [P] of the registration of the already allocated process [i], and what an action must
    not do to it. *)
Section keep.
  Context (S : serde) (i : N) (P : option registration -> Prop).
  Context (allowed : act -> Prop).
  Hypothesis Pok : forall x w, allowed x -> (i < w_next_pid w)%N -> P (w_regs w !! i) -> x <> AInsert i -> P (w_regs (does S x w) !! i).
  Definition keep (w : world) : Prop := (i < w_next_pid w)%N /\ P (w_regs w !! i).
  Lemma keep_act x w : allowed x -> x <> AInsert i -> keep w -> keep (does S x w).
  Proof. intros Hx Hn [H1 H2]. split; [pose proof (does_next_pid S x w); lia | by apply Pok]. Qed.
  Notation ok := (post keep (fun _ => True)).
  Lemma kok_guar {A} (F : act -> Prop) (p : prog world A) : (forall x, F x -> allowed x /\ x <> AInsert i) -> guar (lstep S F) p -> ok p.
  Proof. intros HF. apply post_guar. intros w w' (x & Hx & ->). destruct (HF x Hx). by apply keep_act. Qed.
  Lemma kok_modify f x : (forall w, f w = does S x w) -> allowed x -> x <> AInsert i -> ok (modify f).
  Proof. intros Hf Ha Hn. apply post_modify; [|exact I]. intros w Hw. rewrite Hf. by apply keep_act. Qed.
  Ltac okseq := eapply (post_bind _ (fun _ => True)); [|intros ? _].
  Lemma kok_spawn me l m : (forall x, fp_spawn me l m x -> allowed x) -> ok (spawn me l m).
  Proof.
    intros HF. unfold spawn. eapply (post_bind _ (fun j => j <> i)).
    { apply post_atom. intros w Hw. split; [apply (keep_act AAlloc w); [by apply HF|discriminate|exact Hw]|]. cbn. destruct Hw. lia. }
    intros j Hj. okseq.
    { destruct l; [|exact I]. okseq; [apply (kok_modify _ (AAddLink j (PLocal me))); [reflexivity|by apply HF|discriminate]|
        apply (kok_modify _ (AAddLink me (PLocal j))); [reflexivity|by apply HF|discriminate]]. }
    okseq.
    { destruct m; [|exact I]. eapply (post_bind _ (fun r => ref_is_local r = true)).
      { apply post_atom. intros w Hw. split; [apply (keep_act AFreshRef w); [by apply HF|discriminate|exact Hw]|reflexivity]. }
      intros r Hr. okseq; [apply (kok_modify _ (AOwnMonitor me r (MForProcess (Some (PLocal j))))); [reflexivity|by apply HF|discriminate]|].
      okseq; [apply (kok_modify _ (AAddMon j r (PLocal me) (Some (DPid (PLocal j))))); [reflexivity|by apply HF|discriminate]|exact I]. }
    okseq; [apply (kok_modify _ (ARunning j)); [reflexivity|by apply HF|discriminate]|].
    okseq; [apply (kok_modify _ (AInsert j)); [reflexivity|by apply HF|congruence]|exact I].
  Qed.
  Lemma kok_call c : (forall x, fp S c x -> allowed x) -> ok (call_prog S c).
  Proof.
    intros HF.
    assert ((forall x, fp S c x -> x <> AInsert i) -> ok (call_prog S c)) as Hm.
    { intros H. eapply kok_guar; [|apply call_fp]. auto. }
    destruct c; try (apply Hm; intros [] Hfp; try discriminate; cbn in Hfp; unfold fp_send, fp_destroy_timer, fp_fire, fp_exit in Hfp; cbn in Hfp; done); cbn [call_prog]; unfold ret_as.
    - okseq; [apply kok_spawn, HF|exact I].
    - apply Hm. unfold fp_monitor_alias. intros [] H; try discriminate; cbn in H. destruct H as [[]|[]].
    - apply Hm. unfold fp_crash. intros [] H; try discriminate; cbn in H. destruct H as [[]|[]].
    - okseq; [|exact I]. unfold remote_supervisor. okseq.
      { apply post_atom. intros w Hw. split; [|exact I]. apply (keep_act (AAccept name addr (PLocal me) (PLocal me)) w); [apply HF; cbn; auto|discriminate|exact Hw]. }
      assert (ok (spawn me true false)) as Hs.
      { apply kok_spawn. intros x Hx. apply HF. destruct x; cbn in *; try done; try (by destruct Hx). }
      case_match; [exact I|]. okseq; [exact Hs|]. okseq; [exact Hs|]. okseq; [|exact I].
      match goal with |- ok (modify (node_workers_op _ (fst ?p1) (fst ?p2))) => apply (kok_modify _ (AWorkers (NRemote name addr) p1.1 p2.1)) end; [reflexivity|by apply HF|discriminate].
  Qed.
  Lemma reach_keep (good : call -> Prop) w s : (forall c, good c -> forall x, fp S c x -> allowed x) ->
    keep w -> reach (calls_of S good) (Sys w []) s -> keep (s_world s).
  Proof.
    intros HF Hw Hr. refine (proj1 (reach_safe keep _ (Sys w []) s _ Hw _ Hr)); [|constructor].
    intros p (c & Hc & ->). eapply post_safe, kok_call, HF, Hc.
  Qed.
End keep.
