(** Invariants of connections. *)
From stdpp Require Import base list gmap numbers strings countable.
From Coq Require Import Ascii NArith Lia ZifyNat ZifyN ZifyBool.
From Verif Require Import Types Codec CodecSpec CodecProofs CodecProps Options Heart HeartSpec.

Lemma get_put w x s : get w (put w x s) = x. Proof. by destruct w. Qed.
Lemma get_put_ne w w' x s : w <> w' -> get w (put w' x s) = get w s. Proof. by destruct w, w'. Qed.
Lemma get_put_peer w x s : get w (put (peer w) x s) = get w s. Proof. by destruct w. Qed.
Lemma get_peer_put w x s : get (peer w) (put w x s) = get (peer w) s. Proof. by destruct w. Qed.
Lemma now_put w x s : now (put w x s) = now s. Proof. by destruct w. Qed.
Lemma get_at w t s : get w (at_time t s) = get w s. Proof. by destruct w. Qed.
Lemma peer_peer w : peer (peer w) = w. Proof. by destruct w. Qed.
Lemma peer_ne w : peer w <> w. Proof. by destruct w. Qed.

(** Everything a sender tried to write. *)
Definition tried (w : who) (tr : list (N * event)) : list frame :=
  tr ≫= (fun e => match snd e with Wrote w' fs | WriteFailed w' fs => if decide (w' = w) then fs else [] | _ => [] end).

Lemma handed_app w tr tr' : handed w (tr ++ tr') = handed w tr ++ handed w tr'.
Proof. apply omap_app. Qed.
Lemma got_app w tr tr' : got w (tr ++ tr') = got w tr ++ got w tr'.
Proof. apply omap_app. Qed.
Lemma wrote_app w tr tr' : wrote w (tr ++ tr') = wrote w tr ++ wrote w tr'.
Proof. apply bind_app. Qed.
Lemma tried_app w tr tr' : tried w (tr ++ tr') = tried w tr ++ tried w tr'.
Proof. apply bind_app. Qed.
Lemma payload_app a b : payload (a ++ b) = payload a ++ payload b.
Proof. apply list.filter_app. Qed.
Lemma times_app f a b : times f (a ++ b) = times f a + times f b.
Proof. unfold times. by rewrite (list.filter_app _ a b), app_length. Qed.

Lemma bytes_of_stream fs : Forall good fs -> bytes_of fs = stream fs.
Proof. intros H. unfold bytes_of. by rewrite written_app. Qed.
Lemma stream_app a b : stream (a ++ b) = stream a ++ stream b.
Proof. unfold stream. by rewrite map_app, concat_app. Qed.

(** The first frame decoded from a prefix of a stream is the first frame of the stream. *)
Lemma decode_stream fs buf rest f buf' : Forall good fs -> buf ++ rest = stream fs -> decode buf = (Frame f, buf') ->
  exists g fs', fs = g :: fs' /\ f = wire_view g /\ buf' ++ rest = stream fs'.
Proof.
  intros Hg He Hd. destruct fs as [|g fs].
  - cbn in He. apply app_eq_nil in He as [-> _]. cbn in Hd. done.
  - inversion Hg as [|? ? [Hr Hf] Hg']; subst. exists g, fs. split; [done|].
    unfold stream in He; cbn [map concat] in He. fold (stream fs) in He.
    destruct (decide (length buf < length (unit_of (e_frame g)))) as [Hl|Hl].
    + exfalso. rewrite (decode_prefix (e_frame g)) in Hd; [done|unfold fits in Hf; lia| |intros ->; lia].
      exists (drop (length buf) (unit_of (e_frame g))).
      assert (buf = take (length buf) (unit_of (e_frame g))) as Hb.
      { apply (f_equal (take (length buf))) in He. rewrite take_app in He. etransitivity; [exact He|apply take_app_le; lia]. }
      rewrite Hb at 1. symmetry. apply take_drop.
    + assert (buf = unit_of (e_frame g) ++ drop (length (unit_of (e_frame g))) buf) as Hb.
      { rewrite <- (take_drop (length (unit_of (e_frame g))) buf) at 1. f_equal.
        apply (f_equal (take (length (unit_of (e_frame g))))) in He. rewrite take_app_le in He by lia. rewrite He. by rewrite take_app. }
      rewrite Hb in Hd. rewrite decode_frame in Hd by done. injection Hd as <- <-. split; [done|].
      rewrite Hb in He. rewrite <- app_assoc in He. by apply app_inv_head in He.
Qed.

Section inv.
  Context (o : who -> node_options) (may : list (N * event) -> state -> N -> Prop) (t0 : N) (h : who -> N) (pending : who -> list frame).
  Local Notation R := (runs o may (fresh t0 h pending)).

  (** Nothing that was handed over is lost or reordered in the mailbox. *)
  Definition waiting (x : side) : list frame := sd_queue x ≫= (fun x => frames_of (snd x)).
  Lemma queue_inv w tr s : R tr s -> payload (tried w tr) ++ payload (waiting (get w s)) = payload (pending w ++ handed w tr).
  Proof.
    induction 1 as [|tr s e s' _ IH Hs|tr s t _ IH _ _].
    - destruct w; unfold waiting; cbn; by rewrite !app_nil_r.
    - rewrite tried_app, handed_app, app_assoc, !payload_app in *. rewrite <- IH. clear IH.
      inversion Hs as [v f Hse Hhb|v tq m q Hse Hq|v Hse Hq Ht|v tq m q bs Hse Hq Hbs|v bs Hse Hq Ht Hbs|v c rest Hr Hd Ho|v f buf ok Hr Hd Hf|v Hr Hd Ht|v Hr|v n Hsu Hp|v|v|v]; subst;
        destruct v, w; cbn -[payload bytes_of] in *; rewrite ?app_nil_r; try reflexivity;
        unfold waiting in *; cbn -[payload bytes_of] in *;
        rewrite ?Hq, ?bind_app, ?payload_app; cbn -[payload bytes_of]; rewrite ?app_nil_r, ?payload_app, ?app_assoc; try reflexivity;
        rewrite ?Hse; cbn -[payload bytes_of]; try (case_match; cbn -[payload bytes_of]; rewrite ?bind_app, ?payload_app; cbn -[payload bytes_of]); try (unfold payload; cbn; by rewrite ?app_nil_r).
      all: by rewrite ?app_nil_r.
    - rewrite get_at. exact IH.
  Qed.

  (** What is on its way: the frames got are the first of those written, and the reader's buffer and
      the socket hold the rest. *)
  Lemma pipe_inv w tr s : R tr s -> Forall good (tried w tr) ->
    exists W0 W1 rest, tried w tr = W0 ++ W1 /\ snd <$> got (peer w) tr = wire_view <$> W0 /\
      (sd_buf (get (peer w) s) ++ sd_out (get w s)) ++ rest = stream W1 /\ (sd_sending (get w s) = true -> rest = []).
  Proof.
    induction 1 as [|tr s e s' _ IH Hs|tr s t _ IH _ _]; intros Hg.
    - exists [], [], []. by destruct w.
    - rewrite tried_app in Hg. apply Forall_app in Hg as [Hg1 Hg2].
      destruct (IH Hg1) as (W0 & W1 & rest & H0 & H1 & H2 & H3). clear IH.
      rewrite tried_app, got_app, fmap_app. 
      inversion Hs as [v f Hse Hhb|v tq m q Hse Hq|v Hse Hq Ht|v tq m q bs Hse Hq Hbs|v bs Hse Hq Ht Hbs|v c rest' Hr Hd Ho|v f buf ok Hr Hd Hf|v Hr Hd Ht|v Hr|v n Hsu Hp|v|v|v]; subst.
      all: try (exists W0, W1, rest; destruct v, w; cbn -[bytes_of] in *; rewrite ?app_nil_r; by rewrite ?Hse in *).
      + destruct (decide (v = w)) as [->|Hn].
        * assert (tried w [(now s, Wrote w (frames_of m))] = frames_of m) as E by (cbn; rewrite decide_True by done; apply app_nil_r).
          rewrite E in *. rewrite (H3 Hse), app_nil_r in H2. exists W0, (W1 ++ frames_of m), [].
          rewrite H0, get_put, get_peer_put, bytes_of_stream, stream_app, <- H2 by done. cbn. rewrite !app_nil_r, <- !app_assoc. done.
        * exists W0, W1, rest. destruct v, w; try done; cbn -[bytes_of] in *; by rewrite ?app_nil_r.
      + destruct (decide (v = w)) as [->|Hn].
        * assert (tried w [(now s, Wrote w [FPing])] = [FPing]) as E by (cbn; by rewrite decide_True by done).
          rewrite E in *. rewrite (H3 Hse), app_nil_r in H2. exists W0, (W1 ++ [FPing]), [].
          rewrite H0, get_put, get_peer_put, bytes_of_stream, stream_app, <- H2 by done. cbn -[stream]. rewrite !app_nil_r, <- !app_assoc. done.
        * exists W0, W1, rest. destruct v, w; try done; cbn -[bytes_of] in *; by rewrite ?app_nil_r.
      + destruct (decide (v = w)) as [->|Hn].
        * assert (tried w [(now s, WriteFailed w (frames_of m))] = frames_of m) as E by (cbn; rewrite decide_True by done; apply app_nil_r).
          rewrite E in *. rewrite (H3 Hse), app_nil_r in H2. destruct Hbs as [x Hx]. exists W0, (W1 ++ frames_of m), x.
          rewrite H0, get_put, get_peer_put, stream_app, <- (bytes_of_stream (frames_of m)), Hx, <- H2 by done. cbn. rewrite !app_nil_r, <- !app_assoc. done.
        * exists W0, W1, rest. destruct v, w; try done; cbn -[bytes_of] in *; by rewrite ?app_nil_r.
      + destruct (decide (v = w)) as [->|Hn].
        * assert (tried w [(now s, WriteFailed w [FPing])] = [FPing]) as E by (cbn; by rewrite decide_True by done).
          rewrite E in *. rewrite (H3 Hse), app_nil_r in H2. destruct Hbs as [x Hx]. exists W0, (W1 ++ [FPing]), x.
          rewrite H0, get_put, get_peer_put, stream_app, <- (bytes_of_stream [FPing]), Hx, <- H2 by done. cbn -[bytes_of]. rewrite !app_nil_r, <- !app_assoc. done.
        * exists W0, W1, rest. destruct v, w; try done; cbn -[bytes_of] in *; by rewrite ?app_nil_r.
      + exists W0, W1, rest. destruct v, w; cbn in *; rewrite ?app_nil_r; split_and!; try done; rewrite Ho in H2; rewrite <- H2, <- !app_assoc; done.
      + destruct (decide (v = peer w)) as [->|Hn].
        * rewrite <- app_assoc in H2. assert (Forall good W1) as Hg3 by (rewrite H0 in Hg1; by apply Forall_app in Hg1 as [_ ?]).
          destruct (decode_stream W1 _ _ f buf Hg3 H2 Hd) as (g & W2 & -> & -> & H4).
          exists (W0 ++ [g]), W2, rest. rewrite get_put, get_put_peer, fmap_app, H0, H1. cbn -[get].
          rewrite decide_True by done. cbn -[get]. rewrite app_nil_r, <- !app_assoc. done.
        * exists W0, W1, rest. destruct v, w; try done; cbn in *; by rewrite ?app_nil_r.
      + exists W0, W1, rest. cbn zeta. destruct (sd_sending (ponged n (get v s))) eqn:E; destruct v, w; cbn in *; rewrite ?app_nil_r; done.
    - rewrite !get_at. by apply IH.
  Qed.

  Lemma payload_prefix_in f a b : payload a `prefix_of` payload b -> f ∈ a -> heartbeat f = false -> f ∈ b.
  Proof.
    intros [x E] Hi Hh. assert (f ∈ payload b) as Hp by (rewrite E; apply elem_of_app; left; by apply elem_of_list_filter).
    by apply elem_of_list_filter in Hp as [_ ?].
  Qed.
  Lemma heartbeat_good f : heartbeat f = true -> good f.
  Proof. destruct f; try done; intros _; split; vm_compute; reflexivity. Qed.
  Lemma tried_good w tr s : R tr s -> Forall sendable (pending w ++ handed w tr) -> Forall good (tried w tr).
  Proof.
    intros Hr Hs. pose proof (queue_inv w tr s Hr) as Hq. apply Forall_forall. intros f Hf.
    destruct (heartbeat f) eqn:E; [by apply heartbeat_good|].
    rewrite Forall_forall in Hs. destruct (Hs f) as (? & ? & _); [|done].
    apply elem_of_list_In. apply elem_of_list_In in Hf. eapply (payload_prefix_in f (tried w tr)); [|done|done]. eexists. symmetry. exact Hq.
  Qed.
  Lemma wire_payload fs : wire_view <$> payload fs = payload (wire_view <$> fs).
  Proof.
    induction fs as [|f fs IH]; [done|]. unfold payload in *. destruct (heartbeat f) eqn:E.
    - rewrite filter_cons_False by congruence. rewrite fmap_cons, filter_cons_False; [done|]. destruct f as [? []| | | | | | | | |]; done.
    - rewrite filter_cons_True by done. rewrite !fmap_cons, filter_cons_True; [by rewrite IH|]. destruct f as [? []| | | | | | | | |]; done.
  Qed.
  Lemma wire_sendable fs : Forall sendable fs -> wire_view <$> fs = fs.
  Proof. induction 1 as [|f fs (_ & _ & Hf) _ IH]; [done|]. rewrite fmap_cons, IH. destruct f as [? []| | | | | | | | |]; done. Qed.

  (** Pongs: written or to be written, one for each ping. *)
  Lemma pong_inv w tr s : R tr s -> Forall (fun f => heartbeat f = false) (pending w) ->
    times FPong (tried w tr) + times FPong (waiting (get w s)) + sd_pongs (get w s) <= times FPing (snd <$> got w tr) /\
    (sd_sending (get w s) = true -> sd_supervising (get w s) = true ->
     times FPong (tried w tr) + times FPong (waiting (get w s)) + sd_pongs (get w s) = times FPing (snd <$> got w tr)).
  Proof.
    intros Hr Hp. induction Hr as [|tr s e s' _ IH Hs|tr s t _ IH _ _].
    - assert (times FPong (pending w) = 0) as E.
      { unfold times. replace (filter _ (pending w)) with (@nil frame); [done|].
        clear -Hp. induction Hp as [|f l Hf _ IH]; [done|]. rewrite filter_cons_False by (intros ->; done). exact IH. }
      destruct w; unfold waiting; cbn -[times]; rewrite ?app_nil_r, E; cbn; lia.
    - rewrite tried_app, got_app, fmap_app, !times_app. destruct IH as [I1 I2]. unfold waiting in *.
      assert (forall f, times f [] = 0) as Z by done. assert (times FPong [FPing] = 0) as Z1 by done. assert (times FPong [FPong] = 1) as Z2 by done.
      inversion Hs as [v f Hse Hhb|v tq m q Hse Hq|v Hse Hq Ht|v tq m q bs Hse Hq Hbs|v bs Hse Hq Ht Hbs|v c rest' Hr Hd Ho|v f buf ok Hr Hd Hf|v Hr Hd Ht|v Hr|v n Hsu Hpo|v|v|v]; subst;
        (destruct (decide (v = w)) as [->|Hn];
          [|try (cbn zeta; destruct (sd_sending (ponged n (get v s)))); destruct v, w; try done; cbn -[times bytes_of] in *; rewrite ?Z; (split; [lia|]); intros E1 E2; specialize (I2 ltac:(congruence) ltac:(congruence)); lia]);
        unfold waiting in *; cbn -[times bytes_of get] in *; rewrite ?get_put, ?decide_True in * by done; cbn -[times bytes_of get] in *;
        rewrite ?Hq, ?bind_app, ?times_app, ?app_nil_r in *; cbn -[times bytes_of get] in *; rewrite ?times_app, ?Z, ?Z1 in *.
      + assert (times FPong [f] = 0) as -> by (destruct f; done). split; [lia|intros E1 E2; specialize (I2 ltac:(congruence) ltac:(congruence)); lia].
      + split; [lia|intros E1 E2; specialize (I2 ltac:(congruence) ltac:(congruence)); lia].
      + split; [lia|intros E1 E2; specialize (I2 ltac:(congruence) ltac:(congruence)); lia].
      + split; [lia|done].
      + split; [lia|done].
      + split; [lia|intros E1 E2; specialize (I2 ltac:(congruence) ltac:(congruence)); lia].
      + assert (times FPing [f] = if decide (f = FPing) then 1 else 0) as -> by (destruct f; done).
        destruct (decide (f = FPing)) as [->|Hf']; [destruct (sd_supervising (get w s))|destruct f; try done]; (split; [lia|intros E1 E2; try done; specialize (I2 ltac:(congruence) ltac:(congruence)); lia]).
      + split; [lia|intros E1 E2; specialize (I2 ltac:(congruence) ltac:(congruence)); lia].
      + split; [lia|intros E1 E2; specialize (I2 ltac:(congruence) ltac:(congruence)); lia].
      + destruct (sd_sending (get w s)) eqn:E; cbn -[times get] in *; rewrite ?bind_app, ?times_app; cbn -[times get] in *; rewrite ?Z2, Hpo in *; (split; [lia|intros E1 E2; try congruence; specialize (I2 ltac:(congruence) ltac:(congruence)); lia]).
      + split; [lia|done].
      + split; [lia|intros E1 E2; specialize (I2 ltac:(congruence) ltac:(congruence)); lia].
      + split; [lia|done].
    - rewrite get_at. exact IH.
  Qed.
End inv.
