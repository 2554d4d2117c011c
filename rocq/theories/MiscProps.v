(** Property theorems C64, C67, C68, C70. *)
From stdpp Require Import base list gmap numbers strings countable.
From Coq Require Import Lia.
From Verif Require Import Prog ProgProofs Types Mailbox MailboxSpec World ProcApi NodeApi Api Hist Play SchedProps ProcSpec ProcProofs ProcInv ProcProps Misc.

(** ** C64 *)
(** Both directions of the comparison return, and agree. *)
Definition C64_statement : Prop := forall r d, exists n, ref_eq_dest n r d = Some (dest_eq_ref d r).
(** Violated by the code: Reference == Dest does not return for any alias (not even its own). *)
Theorem C64_refuted : ~ C64_statement.
Proof.
  intros H. destruct (H (RLocal 1) (DAlias (RLocal 1))) as [n Hn].
  assert (ref_eq_dest n (RLocal 1) (DAlias (RLocal 1)) = None) as Hx by (clear Hn; induction n as [|n IH]; [done|exact IH]). congruence.
Qed.
Print Assumptions C64_refuted.
Theorem C64_never_returns : forall n r q, ref_eq_dest n r (DAlias q) = None.
Proof. intros n. induction n as [|n IH]; intros r q; [done|]. exact (IH q q). Qed.
Print Assumptions C64_never_returns.
(** Everything else returns, agrees in both directions, and says that the destination is that process,
    that name (on whatever node), that alias. *)
Theorem C64_partial :
  (forall d p, dest_eq_pid d p = pid_eq_dest p d /\ (dest_eq_pid d p = true <-> d = dest_from (OfPid p))) /\
  (forall d s, dest_eq_str d s = str_eq_dest s d /\ (dest_eq_str d s = true <-> exists n, d = DNamed s n)) /\
  (forall d r, dest_eq_ref d r = true <-> d = dest_from (OfReference r)) /\
  (forall d r, (forall q, d <> DAlias q) -> exists n, ref_eq_dest n r d = Some (dest_eq_ref d r)).
Proof.
  split_and!.
  - intros [q|t n|q] p; cbn; (split; [try reflexivity; apply bool_decide_ext; by split|]); rewrite ?bool_decide_eq_true; split; congruence.
  - intros [q|t n|q] s; cbn; (split; [try reflexivity; apply bool_decide_ext; by split|]); rewrite ?bool_decide_eq_true; split; try congruence;
      [by intros [? ?]|intros ->; by eexists|intros [? [= -> _]]; done|by intros [? ?]].
  - intros [q|t n|q] r; cbn; rewrite ?bool_decide_eq_true; split; congruence.
  - intros d r Hd. exists 1. destruct d; try reflexivity. exfalso. by eapply Hd.
Qed.
Print Assumptions C64_partial.

(** ** C70 *)
(** The destinations, in order. *)
Definition targets (d : dests) : list dest := match d with DsOne d => [d] | DsMany l => l end.
Definition meant (x : dests_source) : list dest :=
  match x with
  | FromOne x => [dest_from x]
  | FromDest d => [d]
  | FromPidSlice l | FromPidVec l => map (fun p => dest_from (OfPid p)) l
  | FromDestSlice l | FromDestVec l => l
  end.
Theorem C70_conversions : forall x, targets (dests_from x) = meant x.
Proof. intros [x|d|[|p [|q l]]|[|p [|q l]]|l|l]; reflexivity. Qed.
Print Assumptions C70_conversions.
(** A single destination converts to what its parts say: the process, the name on the given node (the
    local one if none is given), the alias. *)
Theorem C70_single : forall x, match x with
  | OfPid p => dest_from x = DPid p
  | OfStr s | OfString s => dest_from x = DNamed s NLocal
  | OfNamed s n => dest_from x = DNamed s n
  | OfReference r => dest_from x = DAlias r
  end.
Proof. by intros []. Qed.
Print Assumptions C70_single.
(** Different sources are different destinations (a name without a node being the local one). *)
Theorem C70_injective : forall x y, dest_from x = dest_from y ->
  match x, y with
  | OfPid p, OfPid q => p = q
  | OfReference p, OfReference q => p = q
  | OfPid _, _ | OfReference _, _ | _, OfPid _ | _, OfReference _ => False
  | (OfStr s | OfString s), (OfStr t | OfString t) => s = t
  | (OfStr s | OfString s), OfNamed t n | OfNamed t n, (OfStr s | OfString s) => s = t /\ n = NLocal
  | OfNamed s n, OfNamed t m => s = t /\ n = m
  end.
Proof. intros [] []; cbn; intros [=]; auto. Qed.
Print Assumptions C70_injective.
Example C70_example : dests_from (FromPidSlice [PLocal 1; PRemote 2 3]) = DsMany [DPid (PLocal 1); DPid (PRemote 2 3)] /\
  dests_from (FromPidSlice [PLocal 1]) = DsOne (DPid (PLocal 1)) /\ dests_from (FromPidSlice []) = DsMany [].
Proof. done. Qed.

(** ** C67 *)
(** The reason a process exits with, as everyone linked to or monitoring it sees it: the panic's text
    if it panicked; otherwise what its last exit signal said, and Normal if there was none. *)
Definition reason_of (r : registration) (e : ending) : exit_reason :=
  match e with
  | Panics (PayString s) | Panics (PayStr s) => RCustom s
  | Panics PayOther => RCustom "Unknown error!"
  | Returns | IsAborted => match r_exit r with Some why => why | None => RNormal end
  end.
Theorem C67_reason : forall S w i r e, occurs S w -> w_regs w !! i = Some r ->
  exists w1 r1 w', run (ends i e) w = Done w' tt /\ exited w1 i r1 (reason_of r e) w' /\
    w_loc w1 = w_loc w /\ w_links w1 = w_links w /\ w_mons w1 = w_mons w /\ (forall j, j <> i -> w_regs w1 !! j = w_regs w !! j).
Proof.
  intros S w i r e Ho E. destruct e as [|p|].
  - destruct (drop_spec i w r E) as (w' & Hr & Hx); [by apply (occurs_named S)|]. exists w, r, w'. split_and!; auto.
  - cbn [ends]. unfold crash. rewrite run_bind. cbn [run modify atom fst snd]. set (why := RCustom (panic_text p)).
    set (w1 := set_exit_op i why w). set (r1 := Reg (r_name r) (r_trap r) (Some why) (r_abort r)).
    assert (w_regs w1 = <[i := r1]> (w_regs w)) as Hregs.
    { unfold w1, set_exit_op; cbn. apply map_eq. intros j. destruct (decide (j = i)) as [->|Hj].
      - by rewrite lookup_alter, lookup_insert, E.
      - by rewrite lookup_alter_ne, lookup_insert_ne by congruence. }
    destruct (drop_spec i w1 r1) as (w2 & H2 & Hx); [rewrite Hregs; apply lookup_insert|exact (occurs_named S w Ho i)|].
    exists w1, r1, w2. split_and!; auto; [|intros j Hj; by rewrite Hregs, lookup_insert_ne].
    assert (reason_of r (Panics p) = final_reason r1) as -> by (by destruct p). exact Hx.
  - destruct (drop_spec i w r E) as (w' & Hr & Hx); [by apply (occurs_named S)|]. exists w, r, w'. split_and!; auto.
Qed.
Print Assumptions C67_reason.
(** The exit signals: of any sequence of Process::exit calls on [i], by whomever, the last one that
    terminates it according to the documented table decides. *)
Definition terminating (i : N) (trap : bool) (x : N * exit_reason) : option exit_reason :=
  match exit_table (bool_decide (i = fst x)) trap (snd x) with Terminated => Some (snd x) | _ => None end.
Theorem C67_last_signal : forall i xs w r, w_regs w !! i = Some r ->
  exists w' r', run (each xs (fun x => exit (fst x) (PLocal i) (snd x))) w = Done w' tt /\ w_regs w' !! i = Some r' /\
    r_trap r' = r_trap r /\ r_name r' = r_name r /\
    r_exit r' = match list.last (omap (terminating i (r_trap r)) xs) with Some why => Some why | None => r_exit r end.
Proof.
  intros i xs. induction xs as [|[me why] xs IH]; intros w r E; [by exists w, r|].
  cbn [each]. pose proof (C18_exit_table me i why w r E) as (w1 & Hr & _ & Ht).
  rewrite run_bind. cbn [fst snd]. rewrite Hr.
  assert (exists r1, w_regs w1 !! i = Some r1 /\ r_trap r1 = r_trap r /\ r_name r1 = r_name r /\
    r_exit r1 = match terminating i (r_trap r) (me, why) with Some y => Some y | None => r_exit r end) as (r1 & E1 & T1 & N1 & X1).
  { unfold terminating; cbn. destruct (exit_table _ _ _).
    - subst w1. by exists r.
    - destruct Ht as [-> _]. by exists r.
    - destruct Ht as [-> _]. rewrite lookup_insert. by eexists. }
  destruct (IH w1 r1 E1) as (w' & r' & H1 & H2 & H3 & H4 & H5). exists w', r'. split_and!; try congruence.
  rewrite H5, T1, X1. cbn. destruct (terminating i (r_trap r) (me, why)) as [y|] eqn:Ey; [|reflexivity]. rewrite last_cons. by destruct (list.last (omap (terminating i (r_trap r)) xs)).
Qed.
Print Assumptions C67_last_signal.
(** non-vacuity: process 2, linked to the trapping process 1, panics; it had been told to exit before. *)
Example C67_example : exists w, seq_reachable S0 w /\
  match run (ends 2 (Panics (PayStr "boom"))) w, run (ends 2 Returns) w with
  | Done w1 _, Done w2 _ => (l_chan <$> w_loc w1 !! 1%N) = Some [ISystem (SExit (PLocal 2) (RCustom "boom"))] /\
                            (l_chan <$> w_loc w2 !! 1%N) = Some [ISystem (SExit (PLocal 2) RKill)]
  | _, _ => False end.
Proof.
  apply (play_some S0 _ [CSpawn 0 false false; CSetFlags 1 true; CSpawn 1 true false; CExit 1 (PLocal 2) (RCustom "x"); CExit 1 (PLocal 2) RKill]).
  vm_compute. auto.
Qed.

(** ** C68 *)
Section tasks.
  Context {R : Type}.
  Implicit Types (now : list (option (outcome R))).
  (** What the tasks have come to: the outcome of each. *)
  Definition all_ok (final : list (outcome R)) (rs : list R) : Prop := final = map inl rs.
  Definition first_error (final : list (outcome R)) (e : string) : Prop :=
    exists rs rest, final = map inl rs ++ inr e :: rest.
  (** What tasks show at a poll is consistent with their outcomes: nothing, or the outcome. *)
  Definition shows_of (final : list (outcome R)) now : Prop := Forall2 (fun o s => s = None \/ s = Some o) final now.

  Lemma poll_spec final now acc : shows_of final now ->
    match poll_many acc now with
    | inr (inl rs) => exists more, rs = acc ++ more /\ final = map inl more
    | inr (inr e) => first_error final e
    | inl (acc', k) => k = length acc' /\ exists more rest, acc' = acc ++ more /\ final = map inl more ++ rest /\ rest <> []
    end.
  Proof.
    intros H. revert acc. induction H as [|o s final now Hos H IH]; intros acc; cbn.
    - exists []. by rewrite app_nil_r.
    - destruct Hos as [->| ->]; cbn.
      + split; [done|]. exists [], (o :: final). by rewrite app_nil_r.
      + destruct o as [a|e]; cbn.
        * specialize (IH (acc ++ [a])). destruct (poll_many (acc ++ [a]) now) as [[acc' k]|[rs|e]].
          -- destruct IH as (-> & more & rest & -> & -> & Hr). split; [done|]. exists (a :: more), rest. by rewrite <- app_assoc.
          -- destruct IH as (more & -> & ->). exists (a :: more). by rewrite <- app_assoc.
          -- destruct IH as (rs & rest & ->). by exists (a :: rs), rest.
        * by exists [], final.
  Qed.
  (** Whenever await_many is polled and however the tasks finish in the meantime: if it returns Ok it
      returns the results of all tasks in argument order; if it returns an error, it is the one of the
      first failing task in argument order. *)
  Theorem C68_await_many : forall final shows, Forall (shows_of final) shows ->
    match await_many [] 0 shows with
    | Some (inl rs) => all_ok final rs
    | Some (inr e) => first_error final e
    | None => True
    end.
  Proof.
    intros final shows H.
    assert (forall acc k, k = length acc -> (exists rest, final = map inl acc ++ rest) ->
      match await_many acc k shows with Some (inl rs) => all_ok final rs | Some (inr e) => first_error final e | None => True end) as Hm.
    { induction H as [|now shows Hn H IH]; intros acc k -> [rest Hrest]; cbn; [done|].
      assert (shows_of rest (drop (length acc) now)) as Hd.
      { subst final. unfold shows_of in *. apply Forall2_app_inv_l in Hn as (n1 & n2 & Hn1 & Hn2 & ->).
        apply Forall2_length in Hn1. rewrite map_length in Hn1. rewrite Hn1, drop_app. exact Hn2. }
      pose proof (poll_spec _ _ acc Hd) as Hp. destruct (poll_many acc (drop (length acc) now)) as [[acc' k]|[rs|e]].
      - destruct Hp as (-> & more & rest' & -> & -> & _). apply IH; [done|]. exists rest'. by rewrite Hrest, map_app, <- app_assoc.
      - destruct Hp as (more & -> & ->). unfold all_ok. by rewrite Hrest, map_app.
      - destruct Hp as (rs & rest' & ->). exists (acc ++ rs), rest'. by rewrite Hrest, map_app, <- app_assoc. }
    apply Hm; [done|]. by exists final.
  Qed.
  (** ... and it returns at the first poll at which all tasks up to and including the first failing one
      have finished. *)
  Theorem C68_returns : forall final shows now later, Forall (shows_of final) (shows ++ now :: later) ->
    now = map Some final \/ (exists rs e rest, now = map (fun r => Some (inl r)) rs ++ Some (inr e) :: rest) ->
    is_Some (await_many [] 0 (shows ++ now :: later)).
  Proof.
    intros final shows now later H Hnow.
    assert (forall acc k, k = length acc -> (exists rest, final = map inl acc ++ rest) -> is_Some (await_many acc k (shows ++ now :: later))) as Hm.
    { induction shows as [|s shows IH]; intros acc k -> [rest Hrest]; cbn in *.
      - apply Forall_inv in H.
        assert (shows_of rest (drop (length acc) now)) as Hd.
        { subst final. unfold shows_of in *. apply Forall2_app_inv_l in H as (n1 & n2 & Hn1 & Hn2 & ->).
          apply Forall2_length in Hn1. rewrite map_length in Hn1. rewrite Hn1, drop_app. exact Hn2. }
        assert (drop (length acc) now = map Some rest \/ exists rs e more, drop (length acc) now = map (fun r => Some (inl r)) rs ++ Some (inr e) :: more) as Hc.
        { destruct Hnow as [->|(rs & e & more & ->)].
          - left. by rewrite Hrest, map_app, drop_app_alt by (rewrite !map_length; done).
          - right. destruct (decide (length acc <= length rs)) as [Hle|Hlt].
            + exists (drop (length acc) rs), e, more. rewrite drop_app_le by (by rewrite map_length). f_equal.
              symmetry. apply fmap_drop.
            + exfalso. assert (map (fun r => Some (inl r)) rs ++ Some (inr e) :: more = map (fun r => Some (inl r)) rs ++ Some (inr e) :: more) as _ by done.
              unfold shows_of in H. assert (length rs < length (map (@inl R string) acc)) as Hl by (rewrite map_length; lia).
              assert (exists x, (map inl acc : list (outcome R)) !! length rs = Some (inl x)) as [x Hx].
              { rewrite map_length in Hl. apply lookup_lt_is_Some in Hl as [x Hx]. exists x. by rewrite list_lookup_fmap, Hx. }
              assert (final !! length rs = Some (inl x)) as Hfx by (rewrite Hrest; by apply lookup_app_l_Some).
              apply (Forall2_lookup_l _ _ _ _ _ H) in Hfx as (y & Hy & Hxy).
              rewrite lookup_app_r, map_length, Nat.sub_diag in Hy by (by rewrite map_length). cbn in Hy. injection Hy as <-. by destruct Hxy. }
        pose proof (poll_spec _ _ acc Hd) as Hp. destruct (poll_many acc (drop (length acc) now)) as [[acc' k]|r] eqn:Ep; [|by eexists].
        exfalso. clear -Ep Hc. revert acc' k Ep Hc. generalize (drop (length acc) now). intros l. revert acc. revert rest.
        induction l as [|[[a|e]|] l IH]; intros rest acc acc' k Ep Hc; cbn in Ep; try discriminate.
        + destruct Hc as [Hc|(rs & e & more & Hc)].
          * destruct rest as [|o rest]; [discriminate|]. injection Hc as <- Hc. eapply IH; [exact Ep|]. by left.
          * destruct rs as [|r rs]; [discriminate|]. injection Hc as <- Hc. eapply (IH rest); [exact Ep|]. right. by exists rs, e, more.
        + destruct Hc as [Hc|(rs & e & more & Hc)]; [by destruct rest|by destruct rs].
      - inversion H as [|? ? Hs Hrest']; subst.
        assert (shows_of rest (drop (length acc) s)) as Hd.
        { unfold shows_of in *. apply Forall2_app_inv_l in Hs as (n1 & n2 & Hn1 & Hn2 & ->).
          apply Forall2_length in Hn1. rewrite map_length in Hn1. rewrite Hn1, drop_app. exact Hn2. }
        pose proof (poll_spec _ _ acc Hd) as Hp. destruct (poll_many acc (drop (length acc) s)) as [[acc' k]|r]; [|by eexists].
        destruct Hp as (-> & more & rest' & -> & -> & _). apply IH; auto. exists rest'. by rewrite map_app, <- app_assoc. }
    apply Hm; [done|]. by exists final.
  Qed.
  (** shutdown: the result of a task that has finished when the abort takes effect is what it returns; of any
      other task an error, never a result. *)
  Theorem C68_shutdown : forall (finished : option (outcome R)) cancelled,
    (forall o, finished = Some o -> task_shutdown finished cancelled = o) /\
    (finished = None -> exists e, task_shutdown finished cancelled = inr e).
  Proof. intros [o|] c; split; intros; [by injection H | done | done | by exists c]. Qed.
End tasks.
Print Assumptions C68_await_many.
Print Assumptions C68_shutdown.
Print Assumptions C68_returns.
(** The documentation says "or returns the first error that occurs".  In time, it is not: an error of a
    later task waits for every earlier task. *)
Example C68_shutdown_example : task_shutdown (Some (inl 7%N)) "cancelled" = inl 7%N /\
  task_shutdown (R := N) None "cancelled" = inr "cancelled"%string.
Proof. done. Qed.
Definition C68_first_to_occur_statement : Prop := forall (shows : list (list (option (outcome N)))) now e,
  now ∈ shows -> Some (inr e) ∈ now -> is_Some (await_many [] 0 shows).
Theorem C68_first_to_occur_refuted : ~ C68_first_to_occur_statement.
Proof.
  intros H. destruct (H [[None; Some (inr "failed"%string)]] [None; Some (inr "failed"%string)] "failed"%string) as [x Hx]; [set_solver|set_solver|]. discriminate.
Qed.
Print Assumptions C68_first_to_occur_refuted.
Example C68_example : await_many [] 0 [[None; Some (inl 2%N)]; [Some (inl 1%N); Some (inl 2%N)]] = Some (inl [1%N; 2%N]) /\
  await_many [] 0 [[Some (inl 1%N); None; Some (inr "b"%string)]; [Some (inl 1%N); Some (inr "a"%string); Some (inr "b"%string)]] = Some (inr "a"%string).
Proof. done. Qed.
