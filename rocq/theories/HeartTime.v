(** Timing invariants of connections. *)
From stdpp Require Import base list gmap numbers strings countable.
From Coq Require Import Ascii NArith Lia ZifyNat ZifyN ZifyBool.
From Verif Require Import Types Codec CodecSpec CodecProofs CodecProps Options Heart HeartSpec HeartProofs.

Lemma wrote_other w e t : (forall fs, e <> Wrote w fs) -> wrote w [(t, e)] = [].
Proof. intros H. unfold wrote; cbn. destruct e; try done. case_decide; subst; [|done]. by destruct (H fs). Qed.
Lemma wrote_one w fs t : wrote w [(t, Wrote w fs)] = pair t <$> fs.
Proof. unfold wrote; cbn. rewrite decide_True by done. apply app_nil_r. Qed.
Lemma got_other w e t : (forall f, e <> Handled w f) -> got w [(t, e)] = [].
Proof. intros H. unfold got; cbn. destruct e; try done. case_decide; subst; [|done]. by destruct (H f). Qed.
Lemma got_one w f t : got w [(t, Handled w f)] = [(t, f)].
Proof. unfold got; cbn. by rewrite decide_True by done. Qed.

Lemma handled_dec w e : (exists f, e = Handled w f) \/ (forall f, e <> Handled w f).
Proof. destruct e; try (right; done). destruct (decide (w0 = w)) as [->|]; [left; eauto|right; congruence]. Qed.
Lemma wrote_dec w e : (exists fs, e = Wrote w fs) \/ (forall fs, e <> Wrote w fs).
Proof. destruct e; try (right; done). destruct (decide (w0 = w)) as [->|]; [left; eauto|right; congruence]. Qed.
(** What an event does to one side. *)
Inductive side_move (o : who -> node_options) (w : who) (s : state) : event -> state -> Prop :=
| sm_other e s' : (forall f, e <> Handled w f) -> (forall fs, e <> Wrote w fs) -> e <> TimedOut w -> 
    sd_queue (get w s') = sd_queue (get w s) -> sd_since (get w s') = sd_since (get w s) -> sd_heard (get w s') = sd_heard (get w s) ->
    sd_sending (get w s') = sd_sending (get w s) -> sd_receiving (get w s') = sd_receiving (get w s) -> side_move o w s e s'
| sm_queue e s' m : (forall f, e <> Handled w f) -> (forall fs, e <> Wrote w fs) -> e <> TimedOut w -> 
    sd_queue (get w s') = sd_queue (get w s) ++ [(now s, SendFrame m)] -> sd_since (get w s') = sd_since (get w s) -> sd_heard (get w s') = sd_heard (get w s) ->
    sd_sending (get w s') = sd_sending (get w s) -> sd_receiving (get w s') = sd_receiving (get w s) -> side_move o w s e s'
| sm_mute e s' : (forall f, e <> Handled w f) -> (forall fs, e <> Wrote w fs) -> e <> TimedOut w -> 
    sd_heard (get w s') = sd_heard (get w s) ->
    sd_sending (get w s') = false -> sd_receiving (get w s') = sd_receiving (get w s) -> side_move o w s e s'
| sm_deaf e s' : (forall f, e <> Handled w f) -> (forall fs, e <> Wrote w fs) -> e <> TimedOut w -> 
    sd_queue (get w s') = sd_queue (get w s) -> sd_since (get w s') = sd_since (get w s) -> sd_heard (get w s') = sd_heard (get w s) ->
    sd_sending (get w s') = sd_sending (get w s) -> sd_receiving (get w s') = false -> side_move o w s e s'
| sm_expired s' : sd_receiving (get w s) = true -> (sd_heard (get w s) + o_timeout (o w) <= now s)%N ->
    sd_queue (get w s') = sd_queue (get w s) -> sd_since (get w s') = sd_since (get w s) -> sd_heard (get w s') = sd_heard (get w s) ->
    sd_sending (get w s') = sd_sending (get w s) -> sd_receiving (get w s') = false -> side_move o w s (TimedOut w) s'
| sm_send t m q s' : sd_sending (get w s) = true -> sd_queue (get w s) = (t, m) :: q -> 
    sd_queue (get w s') = q -> sd_since (get w s') = now s -> sd_heard (get w s') = sd_heard (get w s) ->
    sd_sending (get w s') = true -> sd_receiving (get w s') = sd_receiving (get w s) -> side_move o w s (Wrote w (frames_of m)) s'
| sm_ping s' : sd_sending (get w s) = true -> sd_queue (get w s) = [] -> 
    sd_queue (get w s') = [] -> sd_since (get w s') = now s -> sd_heard (get w s') = sd_heard (get w s) ->
    sd_sending (get w s') = true -> sd_receiving (get w s') = sd_receiving (get w s) -> side_move o w s (Wrote w [FPing]) s'
| sm_heard f s' : sd_receiving (get w s) = true ->
    sd_queue (get w s') = sd_queue (get w s) -> sd_since (get w s') = sd_since (get w s) -> sd_heard (get w s') = now s ->
    sd_sending (get w s') = sd_sending (get w s) -> side_move o w s (Handled w f) s'.

Lemma step_side o w s e s' : step o s e s' -> side_move o w s e s' /\ now s' = now s.
Proof.
  intros Hs. split; [|destruct Hs; by rewrite ?now_put].
  inversion Hs as [v f Hse Hhb|v tq m q Hse Hq|v Hse Hq Ht|v tq m q bs Hse Hq Hbs|v bs Hse Hq Ht Hbs|v c rest' Hr Hd Ho|v f buf ok Hr Hd Hf|v Hr Hd Ht|v Hr|v n Hsu Hpo|v|v|v]; subst;
    destruct (decide (v = w)) as [->|Hn].
  all: try (apply sm_other; [congruence..| | | | |]; destruct v, w; done).
  all: try (eapply sm_mute; [congruence..| | |]; destruct w; done).
  all: try (eapply sm_deaf; [congruence..| | | | |]; destruct w; done).
  - apply (sm_queue _ _ _ _ _ f); [congruence..| | | | |]; by destruct w.
  - eapply sm_send; [done|done|..]; by destruct w.
  - eapply sm_ping; [done|done|..]; by destruct w.
  - apply sm_other; [congruence..| | | | |]; by destruct w.
  - eapply sm_heard; [done|..]; by destruct w.
  - eapply sm_expired; [done|done|..]; by destruct w.
  - cbn zeta. destruct (sd_sending (ponged n (get w s))) eqn:E.
    + apply (sm_queue _ _ _ _ _ FPong); [congruence..| | | | |]; by destruct w.
    + apply sm_other; [congruence..| | | | |]; destruct w; done.
  - apply sm_other; [congruence..| | | | |]; by destruct w.
Qed.

Ltac inv_move H := inversion H; subst; try (match goal with N : forall _, _ <> _ |- _ => exfalso; exact (N _ eq_refl) end).

Section time.
  Context (o : who -> node_options) (t0 : N) (h : who -> N) (pending : who -> list frame).

  Section any.
    Context (may : list (N * event) -> state -> N -> Prop).
    Local Notation R := (runs o may (fresh t0 h pending)).
    (** A sender that is still running has failed to write nothing. *)
    Lemma tried_wrote w tr s : R tr s -> sd_sending (get w s) = true -> tried w tr = snd <$> wrote w tr.
    Proof.
      induction 1 as [|tr s e s' _ IH Hs|tr s t _ IH _ _]; intros Hse; [done| |by apply IH; rewrite get_at in Hse].
      rewrite tried_app, wrote_app, fmap_app. 
      assert (sd_sending (get w s) = true) as Hs0.
      { destruct (step_side o w s e s' Hs) as [Hm _]. inversion Hm; congruence. }
      rewrite IH by done. f_equal. 
      inversion Hs as [v f _ Hhb|v tq m q _ Hq|v _ Hq Ht|v tq m q bs _ Hq Hbs|v bs _ Hq Ht Hbs|v c rest' Hr Hd Ho|v f buf ok Hr Hd Hf|v Hr Hd Ht|v Hr|v n Hsu Hpo|v|v|v]; subst; try done;
        destruct (decide (v = w)) as [->|Hn]; unfold tried, wrote; cbn; rewrite ?decide_True, ?decide_False by done; try done.
      - rewrite !app_nil_r, <- list_fmap_compose. symmetry. apply list_fmap_id.
      - by rewrite get_put in Hse.
      - by rewrite get_put in Hse.
    Qed.
    Lemma got_wrote w tr s : R tr s -> Forall sendable (pending (peer w) ++ handed (peer w) tr) -> sd_sending (get (peer w) s) = true ->
      length (got w tr) <= length (wrote (peer w) tr).
    Proof.
      intros Hr Hg Hse. destruct (pipe_inv o may t0 h pending (peer w) tr s Hr) as (W0 & W1 & rest & H0 & H1 & _ & _).
      { by eapply tried_good. }
      rewrite peer_peer in H1. rewrite (tried_wrote (peer w) tr s Hr Hse) in H0.
      apply (f_equal length) in H0, H1. rewrite app_length, !fmap_length in *. lia.
    Qed.
    Lemma heard_inv w tr s : R tr s -> sd_heard (get w s) = last_heard w (h w) tr /\ (last_heard w (h w) tr <= N.max (h w) (now s))%N.
    Proof.
      induction 1 as [|tr s e s' _ [I1 I2] Hs|tr s t _ [I1 I2] Ht _].
      - destruct w; cbn; lia.
      - destruct (step_side o w s e s' Hs) as [Hm Hn]. unfold last_heard in *. rewrite got_app, fmap_app, Hn.
        destruct (handled_dec w e) as [[f ->]|Hne].
        + rewrite got_one. cbn [fmap list_fmap fst]. rewrite last_snoc. cbn. inversion Hm; try naive_solver. split; [done|lia].
        + rewrite got_other by naive_solver. cbn [fmap list_fmap]. rewrite app_nil_r. split; [|done]. rewrite <- I1. inversion Hm; try done. naive_solver.
      - rewrite get_at. cbn [now at_time]. split; [done|lia].
    Qed.
  End any.

  (** A sender that is prompt and a link that is prompt. *)
  Section prompt.
    Context (w : who) (d l : N).
    Local Notation v := (peer w).
    Local Notation I := (o_interval (o v)).
    Definition both (tr : list (N * event)) (s : state) (t : N) : Prop := sender_prompt o v d tr s t /\ link_prompt w l tr s t.
    Local Notation R := (runs o both (fresh t0 h pending)).
    Definition single (x : N * smsg) : Prop := exists f, snd x = SendFrame f.
    (** Before and after the message with what was pending. *)
    Definition shape (tr : list (N * event)) (x : side) (t : N) : Prop :=
      (exists q, sd_queue x = (t0, SendFrames (pending v)) :: q /\ Forall single q /\ wrote v tr = [] /\ sd_since x = t0 /\ (t <= t0 + d)%N) \/
      (Forall single (sd_queue x) /\ ((wrote v tr = [] /\ (sd_since x <= t0 + d)%N) \/ exists f, list.last (wrote v tr) = Some (sd_since x, f))).
    Record timely (tr : list (N * event)) (s : state) : Prop := {
      tl_past : Forall (fun x => (fst x <= now s)%N) (wrote v tr);
      tl_heard : forall i u f, wrote v tr !! i = Some (u, f) -> i < length (got w tr) -> (u <= sd_heard (get w s))%N;
      tl_since : (now s <= sd_since (get v s) + I + d)%N;
      tl_shape : shape tr (get v s) (now s);
      tl_first : forall u f, wrote v tr !! 0 = Some (u, f) -> (u <= t0 + I + 2 * d)%N;
      tl_gap : forall i u f u' f', wrote v tr !! i = Some (u, f) -> wrote v tr !! Datatypes.S i = Some (u', f') -> (u' <= u + I + d)%N;
      tl_link : sd_receiving (get w s) = true -> forall n u f, wrote v tr !! n = Some (u, f) -> length (got w tr) <= n -> (now s <= u + l)%N }.

    Lemma wrote_step tr s e s' : R tr s -> step o s e s' -> Forall sendable (pending v ++ handed v tr) -> sd_sending (get v s') = true ->
      timely tr s -> timely (tr ++ [(now s, e)]) s'.
    Proof.
      intros Hr Hs Hg Hse [Hp Hh Hsi Hsh Hf Hga Hl].
      destruct (step_side o v s e s' Hs) as [Hmv Hn]. destruct (step_side o w s e s' Hs) as [Hmw _].
      assert (sd_sending (get v s) = true) as Hse0 by (inversion Hmv; congruence).
      pose proof (got_wrote both w tr s Hr Hg Hse0) as Hlen.
      destruct (wrote_dec v e) as [[fs ->]|Hnw].
      - assert (got w [(now s, Wrote v fs)] = []) as Eg by done.
        assert (sd_heard (get w s') = sd_heard (get w s) /\ sd_receiving (get w s') = sd_receiving (get w s)) as [Eh Er].
        { inversion Hmw; subst; try done; try (by destruct w). inversion Hs; subst; destruct w; done. }
        assert (sd_since (get v s') = now s) as Esi by (inv_move Hmv; congruence).
        assert (Hwr : wrote v (tr ++ [(now s, Wrote v fs)]) = wrote v tr ++ (pair (now s) <$> fs)) by (by rewrite wrote_app, wrote_one).
        assert (fs <> [] -> list.last (wrote v tr ++ (pair (now s) <$> fs)) = Some (now s, default FPing (list.last fs))) as Hlast.
        { intros Hne. destruct fs as [|f fs' _] using rev_ind; [done|]. rewrite fmap_app, app_assoc, last_snoc. cbn. by rewrite last_snoc. }
        constructor; rewrite ?Hwr, ?Hn, ?got_app, ?Eg, ?app_nil_r, ?Eh, ?Er, ?Esi.
        + apply Forall_app. split; [done|]. apply Forall_forall. intros x Hx. apply elem_of_list_In, elem_of_list_fmap in Hx as (f & -> & _). done.
        + intros i u f Hi Hlt. rewrite lookup_app_l in Hi by lia. eauto.
        + lia.
        + unfold shape. rewrite Hwr, Esi. right. inversion Hmv as [| | | | |t m q ? _ Hq Hq1 _ _ _ _ E1|? _ Hq Hq2 _ _ _ _ E1|]; subst; try (match goal with N : forall _, _ <> _ |- _ => exfalso; exact (N _ eq_refl) end).
          * destruct Hsh as [(q0 & Hq0 & Hall & Hw0 & _ & Ht)|(Hall & _)].
            -- rewrite Hq0 in Hq. injection Hq as <- <- ->. split; [done|]. cbn [frames_of].
               destruct (decide (pending v = [])) as [->|Hne]; [left; rewrite Hw0; done|right]. exists (default FPing (list.last (pending v))). by apply Hlast.
            -- rewrite Hq in Hall. inversion Hall as [|? ? [f Hf'] Hall' E2]. split; [done|]. right. cbn in Hf'. subst m. eexists. by apply Hlast.
          * split; [rewrite Hq2; by constructor|]. right. eexists. by apply Hlast.
        + intros u f Hu. destruct (wrote v tr) as [|x l0] eqn:E; [|apply (Hf u f); done].
          cbn in Hu. apply elem_of_list_lookup_2, elem_of_list_fmap in Hu as (f' & [= -> ->] & _).
          destruct Hsh as [(q0 & _ & _ & _ & E0 & Ht)|(_ & [[_ E0]|[f0 E0]])]; [lia|lia|rewrite E in E0; done].
        + intros i u f u' f' Hu Hu'. destruct (decide (Datatypes.S i < length (wrote v tr))) as [Hi|Hi].
          * rewrite lookup_app_l in Hu, Hu' by lia. eauto.
          * rewrite (lookup_app_r _ _ (Datatypes.S i)) in Hu' by lia.
            apply elem_of_list_lookup_2, elem_of_list_fmap in Hu' as (f1 & [= -> ->] & _).
            destruct (decide (i < length (wrote v tr))) as [Hi2|Hi2].
            -- rewrite lookup_app_l in Hu by lia.
               destruct Hsh as [(q0 & _ & _ & E0 & _)|(_ & [[E0 _]|[f0 E0]])]; [rewrite E0 in Hi2; cbn in Hi2; lia..|].
               rewrite last_lookup in E0. replace (pred (length (wrote v tr))) with i in E0 by lia. rewrite Hu in E0. injection E0 as -> _. lia.
            -- rewrite lookup_app_r in Hu by lia. apply elem_of_list_lookup_2, elem_of_list_fmap in Hu as (f2 & [= -> ->] & _). lia.
        + intros Hre n u f Hu Hlt. destruct (decide (n < length (wrote v tr))) as [Hi|Hi].
          * rewrite lookup_app_l in Hu by lia. eauto.
          * rewrite lookup_app_r in Hu by lia. apply elem_of_list_lookup_2, elem_of_list_fmap in Hu as (f2 & [= -> ->] & _). lia.
      - assert (Hwr : wrote v (tr ++ [(now s, e)]) = wrote v tr) by (by rewrite wrote_app, wrote_other, app_nil_r).
        assert (sd_since (get v s') = sd_since (get v s)) as Esi by (inv_move Hmv; congruence).
        assert (shape (tr ++ [(now s, e)]) (get v s') (now s)) as Hsh'.
        { unfold shape in *. rewrite Hwr, Esi.
          assert (sd_queue (get v s') = sd_queue (get v s) \/ exists m, sd_queue (get v s') = sd_queue (get v s) ++ [(now s, SendFrame m)]) as [->|[m ->]]
            by (inv_move Hmv; first [left; congruence|right; eexists; eassumption|congruence]); [done|].
          destruct Hsh as [(q & -> & H1 & H2)|(H1 & H2)]; [left; eexists; split; [reflexivity|]; split; [|done]|right; split; [|done]];
            (apply Forall_app; split; [done|]; constructor; [by eexists|constructor]). }
        constructor; rewrite ?Hwr, ?Hn, ?Esi; try done.
        + intros i u f Hi Hlt. destruct (handled_dec w e) as [[g ->]|Hne].
          * assert (sd_heard (get w s') = now s) as -> by (inv_move Hmw; congruence).
            apply elem_of_list_lookup_2, elem_of_list_In in Hi. rewrite List.Forall_forall in Hp. exact (Hp _ Hi).
          * assert (sd_heard (get w s') = sd_heard (get w s)) as -> by (inv_move Hmw; congruence).
            rewrite got_app, got_other, app_nil_r in Hlt by done. eauto.
        + intros Hre n u f Hu Hlt. apply (Hl ltac:(inversion Hmw; congruence) n u f Hu). rewrite got_app, app_length in Hlt. lia.
    Qed.

    Lemma timely_run k tr s : R tr s -> Forall sendable (pending v ++ handed v tr) -> sd_sending (get v s) = true ->
      (h w <= t0)%N -> (t0 <= h w + k)%N -> (I + 2 * d + l + k < o_timeout (o w))%N ->
      timely tr s /\ forall t, (t, TimedOut w) ∉ tr.
    Proof.
      intros Hr Hg Hse Hh1 Hh2 Hlt. induction Hr as [|tr s e s' Hr IH Hs|tr s t Hr IH Ht Hm].
      - split; [|intros t; apply not_elem_of_nil]. constructor; try done; cbn [wrote mbind list_bind]; try (intros; by rewrite lookup_nil in *).
        + apply List.Forall_nil.
        + destruct w; cbn; lia.
        + left. exists []. destruct w; cbn; split_and!; try done; lia.
      - destruct (step_side o v s e s' Hs) as [Hmv Hn]. destruct (step_side o w s e s' Hs) as [Hmw _].
        assert (sd_sending (get v s) = true) as Hse0 by (inversion Hmv; congruence).
        assert (Forall sendable (pending v ++ handed v tr)) as Hg0.
        { rewrite handed_app, app_assoc in Hg. by apply Forall_app in Hg as [? _]. }
        destruct (IH Hg0 Hse0) as [Hti Hno]. split; [by apply wrote_step|].
        intros t [Hin|Hin]%elem_of_app; [by apply (Hno t)|]. apply elem_of_list_singleton in Hin. injection Hin as -> <-.
        inversion Hmw as [| | | |? Hre Hex _ _ _ _ _| | |]; subst; try done.
        pose proof (got_wrote both w tr s Hr Hg0 Hse0) as Hlen. pose proof (heard_inv both w tr s Hr) as [Hh3 _].
        destruct Hti as [Hp Hh Hsi Hsh Hf Hga Hl].
        destruct (decide (length (got w tr) < length (wrote v tr))) as [Hc|Hc].
        + destruct (lookup_lt_is_Some_2 _ _ Hc) as [[u f] Hu]. specialize (Hl Hre _ _ _ Hu ltac:(lia)).
          destruct (length (got w tr)) as [|n] eqn:En.
          * specialize (Hf _ _ Hu). assert (got w tr = []) as E by (by apply nil_length_inv). unfold last_heard in Hh3. rewrite E in Hh3. cbn in Hh3. lia.
          * assert (n < length (wrote v tr)) as Hn2 by lia. destruct (lookup_lt_is_Some_2 _ _ Hn2) as [[u' f'] Hu'].
            specialize (Hga _ _ _ _ _ Hu' Hu). specialize (Hh _ _ _ Hu' ltac:(lia)). lia.
        + destruct Hsh as [(q & _ & _ & Hw0 & Hs0 & Ht0)|(_ & [[Hw0 Hs0]|[f Hla]])].
          * assert (got w tr = []) as E by (apply nil_length_inv; rewrite Hw0 in Hlen; cbn in Hlen; lia). unfold last_heard in Hh3. rewrite E in Hh3. cbn in Hh3. lia.
          * assert (got w tr = []) as E by (apply nil_length_inv; rewrite Hw0 in Hlen; cbn in Hlen; lia). unfold last_heard in Hh3. rewrite E in Hh3. cbn in Hh3. lia.
          * rewrite last_lookup in Hla. assert (0 < length (wrote v tr)) by (destruct (wrote v tr); [done|cbn; lia]).
            specialize (Hh _ _ _ Hla ltac:(lia)). lia.
      - rewrite get_at in Hse. destruct (IH Hg Hse) as [[Hp Hh Hsi Hsh Hf Hga Hl] Hno]. split; [|done].
        destruct Hm as [Hm1 Hm2]. specialize (Hm1 Hse).
        constructor; rewrite ?get_at; cbn [now at_time]; try done.
        + eapply List.Forall_impl; [|exact Hp]. cbn. intros x Hx. lia.
        + case_match; lia.
        + unfold shape in *. destruct Hsh as [(q & H1 & H2 & H3 & H4 & H5)|Hsh]; [|by right]. left. exists q. split_and!; try done.
          rewrite H1 in Hm1. cbn in Hm1. lia.
    Qed.
  End prompt.
End time.
