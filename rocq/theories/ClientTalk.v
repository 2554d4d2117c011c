(** Calls, from their beginning to their end. *)
From stdpp Require Import base list gmap numbers strings countable sorting relations.
From Coq Require Import Lia.
From Verif Require Import Prog ProgProofs ProgInv Types Mailbox MailboxSpec MailboxProofs World ProcApi NodeApi Api Steps Hist Labels Msum SchedSpec SchedProofs
  DownProofs RecvProofs ProcSpec ProcInv FreshProofs ProcProps TimerProofs GenServer Client ClientSpec ClientStep ClientRun ClientNode ClientFlush ClientMail ClientCall.

Lemma filter_all {A} (l : list A) : filter (fun _ => True) l = l.
Proof. induction l as [|x l IH]; [done|]. rewrite filter_cons_True by done. by rewrite IH. Qed.
Lemma visible_app M q q' : exists z, visible M (q ++ q') = visible M q ++ z.
Proof.
  revert M. induction q as [|x q IH]; intros M; [by eexists|].
  destruct x; cbn [app visible]; repeat case_decide; try apply IH;
    match goal with |- context [visible ?M (q ++ ?q')] => destruct (IH M) as (z & ->) end; by exists z.
Qed.
Lemma seen_app k l xs ys : exists z, seen k l (xs ++ ys) = seen k l xs ++ z.
Proof. unfold seen. rewrite !app_assoc. apply visible_app. Qed.
Lemma seen_mailbox k m l xs : mailbox (arrive xs (upd_monitors (<[RLocal k := m]>) l)) = seen k l xs.
Proof. unfold mailbox, seen. cbn. by rewrite dom_insert_L, app_assoc. Qed.
Lemma pick_any S T (P : pend -> Prop) {Pdec : forall p, Decision (P p)} : (forall p q, kept S T p q -> P p <-> P q) -> pick S T (fun _ => False) P.
Proof. intros HP. split; [exact HP|]. intros M M' q H. assert (M = M') as -> by set_solver. done. Qed.
Lemma read_sys S T p m : read S T p = Some (MSystem m) -> p = PSys m.
Proof. destruct p as [b|v|m']; cbn; [destruct (de S T b); discriminate|case_decide; discriminate|congruence]. Qed.

Section talk.
  Context (S : serde) (Hty : serde_typed S) (me : N).
  Notation others := (rtc (other S me)).
  Notation later w w' := ((w_now w <= w_now w')%N).

  Lemma waits_later T f t s x s' : waits S me T f t s x s' -> ticking s -> ticking s' /\ later (s_world s) (s_world s').
  Proof.
    induction 1 as [s s1 x s2 H1 H IH|w ts w1 x s2 H1 H IH|w ts w1 m H1|w ts w1 H1 H2]; intros Ht.
    - destruct (other_later _ _ _ _ H1 Ht) as [A B]. destruct (IH B). split; [done|lia].
    - apply loop_receive in H1 as (? & ? & _ & _ & ->). destruct (IH Ht) as [A B]. cbn in *. done.
    - apply loop_receive in H1 as (? & ? & _ & _ & ->). cbn. split; [done|lia].
    - apply loop_receive in H1 as (? & ? & _ & _ & ->). cbn. split; [done|lia].
  Qed.
  Lemma send_owns ds v a : fp S (CSend ds v) a -> ~ own_act me a.
  Proof. intros H Ho. pose proof (fp_own S me _ _ H Ho) as E. discriminate. Qed.
  Lemma base_all T w l w' : touch me (fun _ => False) w w' -> w_loc w !! me = Some l -> (me < w_next_pid w)%N ->
    exists l' zs, base S me T (fun _ => True) w l w' l' zs.
  Proof.
    intros Ht El Hp. destruct (base_still S me T _ _ (pick_all S Hty T) _ l _ l [] _ Ht (base_start S me T _ _ l El Hp)) as (l' & zs & H & _). eauto.
  Qed.
  Lemma base_arrived T P `{forall p, Decision (P p)} w0 l0 w l xs : base S me T P w0 l0 w l xs -> arrived me xs w0 w.
  Proof. by intros (_ & _ & _ & _ & H1). Qed.
  Lemma arrived_trans xs ys w1 w2 w3 : arrived me xs w1 w2 -> arrived me ys w2 w3 -> arrived me (xs ++ ys) w1 w3.
  Proof. intros (g & E1 & ->) (g' & E2 & ->). exists (g ++ g'). by rewrite E2, E1, app_assoc, arrivals_app. Qed.
  Lemma arrived_loc xs w1 w2 l : arrived me xs w1 w2 -> arrived me xs w1 (up_loc (<[me := l]>) w2).
  Proof. done. Qed.
  Lemma dead_final k s l : dead k s -> w_loc (s_world s) !! me = Some l -> filter (fun p => ~ about k p) (mailbox l) = mailbox l /\ l_monitors l !! RLocal k = None.
  Proof.
    intros Hd El. destruct s as [w ts]. pose proof (dead_mcount me k w ts l Hd El) as H. split; [by apply dead_mailbox|].
    unfold mcount, has in H. destruct (l_monitors l !! RLocal k); [lia|done].
  Qed.
  Lemma watch_loc T k P `{forall p, Decision (P p)} w0 l0 s l xs : watch S me T k P w0 l0 s l xs -> w_loc (s_world s) !! me = Some l /\ (me < w_next_pid (s_world s))%N.
  Proof. intros (_ & _ & _ & (H1 & H2 & _) & _). done. Qed.

  (** A conversation begins with a monitor, ... *)
  Lemma opens {R} T c d (kk : val -> script R) s l0 tr s' res : (c = CMonitor me d \/ c = CMonitorAlias me d true) ->
    idle S me s -> w_loc (s_world s) !! me = Some l0 ->
    cruns S me (s, At (SCall c kk)) tr (s', At (SRet res)) ->
    exists k m s1 l1 xs tr', (w_next_ref (s_world s) <= k)%N /\
      watch S me T k (fun _ => True) (s_world s) (upd_monitors (<[RLocal k := m]>) l0) s1 l1 xs /\ ticking s1 /\ later (s_world s) (s_world s1) /\
      tr = Did c (VRef (RLocal k)) :: tr' /\ cruns S me (s1, At (kk (VRef (RLocal k)))) tr' (s', At (SRet res)).
  Proof.
    intros Hc Hi El Hr. destruct (idle_backed S Hty me s Hi) as [Hq [own Hb]]. pose proof (idle_ticking S me s Hi) as Ht.
    apply cruns_call in Hr as (s0 & v & s1 & tr1 & O0 & B1 & -> & Hr).
    destruct (monitored S me T c d v s s0 s1 own l0 Hc Hq Hb El O0 B1) as (k & m & l1 & xs & -> & Hk & W1).
    destruct (others_later S me _ _ O0 Ht) as [N0 T0]. destruct (busy_later S me _ _ _ _ B1 (call_later S c) T0) as [N1 T1].
    exists k, m, s1, l1, xs, tr1. split_and!; try done. lia.
  Qed.
  (** ... goes on with calls, ... *)
  Lemma tells {R} T k w0 l0 c (kk : val -> script R) s l xs tr s' res : (forall a, fp S c a -> ~ own_act me a) ->
    watch S me T k (fun _ => True) w0 l0 s l xs -> ticking s ->
    cruns S me (s, At (SCall c kk)) tr (s', At (SRet res)) ->
    exists v s1 l1 zs tr', watch S me T k (fun _ => True) w0 l0 s1 l1 (xs ++ zs) /\ ticking s1 /\ later (s_world s) (s_world s1) /\
      tr = Did c v :: tr' /\ cruns S me (s1, At (kk v)) tr' (s', At (SRet res)).
  Proof.
    intros Hc W1 T1 Hr. apply cruns_call in Hr as (s2 & sent & s3 & tr2 & O2 & B3 & -> & Hr).
    destruct (others_later S me _ _ O2 T1) as [N2 T2]. destruct (busy_later S me _ _ _ _ B3 (call_later S _) T2) as [N3 T3].
    destruct (watch_others S me T k _ _ (pick_all S Hty T) _ _ _ _ _ _ O2 W1) as (l2 & z2 & W2).
    destruct (watch_call S me T k _ _ (pick_all S Hty T) _ _ _ _ _ _ _ _ B3 Hc W2) as (l3 & z3 & W3).
    exists sent, s3, l3, (z2 ++ z3), tr2. rewrite app_assoc. split_and!; try done. lia.
  Qed.
  (** ... and waits for messages. *)
  Lemma looks {R} T k w0 l0 f limit (kk : option message -> script R) s l xs tr s' res :
    (forall d why, f (MSystem (SProcessDown d (RLocal k) why)) = true) ->
    watch S me T k (fun _ => True) w0 l0 s l xs -> ticking s ->
    cruns S me (s, At (SWait T f limit kk)) tr (s', At (SRet res)) ->
    exists w ts l1 zs l2 x tr', watch S me T k (fun _ => True) w0 l0 (Sys w ts) l1 (xs ++ zs) /\ ticking (Sys w ts) /\ later (s_world s) w /\
      tr = (match x with Some m => Got m | None => GaveUp end) :: tr' /\
      cruns S me (Sys (up_loc (<[me := l2]>) w) ts, At (kk x)) tr' (s', At (SRet res)) /\
      match x with
      | Some m => select S T f false l1 = (Found m, l2)
      | None => select S T f false l1 = (Waiting, l2) /\
                match limit with Some t => (w_now (s_world s) + t <= w_now w)%N | None => False end
      end.
  Proof.
    intros Hf W3 T3 Hr. apply cruns_wait in Hr as (s4 & x & s5 & tr3 & O4 & Hw & -> & Hr).
    destruct (others_later S me _ _ O4 T3) as [N4 T4].
    destruct (watch_others S me T k _ _ (pick_all S Hty T) _ _ _ _ _ _ O4 W3) as (l4 & z4 & W4).
    destruct (waits_later _ _ _ _ _ _ Hw T4) as [T5 N5].
    destruct (watch_waits S Hty me T k _ _ (pick_all S Hty T) _ _ _ Hf _ _ _ _ _ _ Hw W4) as (w & ts & l5 & z5 & l6 & W5 & -> & Hx).
    exists w, ts, l5, (z4 ++ z5), l6, x, tr3. rewrite app_assoc. split; [exact W5|]. split; [exact T5|]. split; [cbn in N5; lia|]. split; [reflexivity|]. split; [exact Hr|].
    destruct x; [exact Hx|]. destruct Hx as [H1 H2]. split; [exact H1|]. destruct limit as [t|]; cbn in H2; [|done]. lia.
  Qed.
  (** The part common to calls and stops: watch, send, wait. *)
  Lemma conversation {R} T c d ds v0 f limit (kk : reference -> option message -> script R) s l0 tr s' res :
    (c = CMonitor me d \/ c = CMonitorAlias me d true) ->
    (forall k d why, f (RLocal k) (MSystem (SProcessDown d (RLocal k) why)) = true) ->
    idle S me s -> w_loc (s_world s) !! me = Some l0 ->
    cruns S me (s, At (SCall c (fun v => match v with VRef r => SCall (CSend ds (v0 r)) (fun _ => SWait T (f r) limit (kk r)) | _ => SUnreachable end)))
      tr (s', At (SRet res)) ->
    exists k m sent xs w ts l1 l2 x tr',
      (w_next_ref (s_world s) <= k)%N /\
      watch S me T k (fun _ => True) (s_world s) (upd_monitors (<[RLocal k := m]>) l0) (Sys w ts) l1 xs /\ ticking (Sys w ts) /\
      tr = Did c (VRef (RLocal k)) :: Did (CSend ds (v0 (RLocal k))) sent :: (match x with Some m => Got m | None => GaveUp end) :: tr' /\
      cruns S me (Sys (up_loc (<[me := l2]>) w) ts, At (kk (RLocal k) x)) tr' (s', At (SRet res)) /\
      match x with
      | Some m => select S T (f (RLocal k)) false l1 = (Found m, l2)
      | None => select S T (f (RLocal k)) false l1 = (Waiting, l2) /\
                match limit with Some t => (w_now (s_world s) + t <= w_now w)%N | None => False end
      end.
  Proof.
    intros Hc Hf Hi El Hr.
    destruct (opens T c d _ s l0 tr s' res Hc Hi El Hr) as (k & m & s1 & l1 & xs & tr1 & Hk & W1 & T1 & N1 & -> & Hr1).
    destruct (tells T k _ _ _ _ _ _ _ _ _ _ (send_owns _ _) W1 T1 Hr1) as (sent & s2 & l2 & z2 & tr2 & W2 & T2 & N2 & -> & Hr2).
    destruct (looks T k _ _ _ _ _ _ _ _ _ _ _ (Hf k) W2 T2 Hr2) as (w & ts & l3 & z3 & l4 & x & tr3 & W3 & T3 & N3 & -> & Hr3 & Hx).
    eexists k, m, sent, _, w, ts, l3, l4, x, tr3. split; [exact Hk|]. split; [exact W3|]. split; [exact T3|]. split; [reflexivity|]. split; [exact Hr3|].
    destruct x; [exact Hx|]. destruct Hx as [H1 H2]. split; [exact H1|]. destruct limit; [lia|done].
  Qed.

  Lemma found_seen T k m f w0 l0 s l1 xs msg l2 : watch S me T k (fun _ => True) w0 (upd_monitors (<[RLocal k := m]>) l0) s l1 xs ->
    select S T f false l1 = (Found msg, l2) ->
    exists pre, Forall (fun p => wanted S T f p = false) pre /\ forall ys, exists p post, read S T p = Some msg /\
      seen k l0 (xs ++ ys) = pre ++ p :: post /\ kept_mailbox S T (pre ++ post) (mailbox (arrive ys l2)).
  Proof.
    intros (_ & _ & _ & (_ & _ & _ & Hb & _) & _) Es.
    destruct (became_got S Hty T _ _ (pick_all S Hty T) f _ _ _ _ _ Hb Es) as (pre & H1 & H2); [done|]. exists pre. split; [exact H1|].
    intros ys. destruct (H2 ys) as (p & post & A & B & C). exists p, post. rewrite !filter_all in *. rewrite seen_mailbox in B. done.
  Qed.
  Lemma found_wanted T f l msg l' : select S T f false l = (Found msg, l') -> f msg = true.
  Proof. intros E. apply (select_spec S Hty) in E as (_ & pre & pre' & _ & _ & _ & p & _ & Hf & _). exact Hf. Qed.
  (** Nothing wanted had arrived. *)
  Lemma waiting_seen T k m f w0 l0 s l1 xs l2 : watch S me T k (fun _ => True) w0 (upd_monitors (<[RLocal k := m]>) l0) s l1 xs ->
    select S T f false l1 = (Waiting, l2) -> Forall (fun p => wanted S T f p = false) (seen k l0 xs).
  Proof.
    intros (_ & _ & _ & (_ & _ & _ & Hb & _) & _) Es. pose proof (wait_unwanted S Hty T f _ _ Es) as Hu.
    specialize (Hb []). rewrite app_nil_r, arrive0, !filter_all, seen_mailbox in Hb. unfold kept_mailbox in Hb.
    apply Forall_forall. intros q Hq. apply elem_of_list_lookup in Hq as [i Hq]. destruct (Forall2_lookup_l _ _ _ _ _ Hb Hq) as (q' & Hq' & Hk).
    rewrite <- (kept_wanted S Hty T f _ _ Hk). apply elem_of_list_lookup_2 in Hq'. by apply (proj1 (Forall_forall _ _) Hu).
  Qed.
  (** The end of a conversation by demonitor. *)
  Lemma end_demonitor {R} T k s l (X : script R) tr s' res : quiet me s -> (exists own, backed S s own) -> w_loc (s_world s) !! me = Some l ->
    is_Some (l_monitors l !! RLocal k) -> ticking s ->
    cruns S me (s, At (SCall (CDemonitor me (RLocal k)) (fun _ => X))) tr (s', At (SRet res)) ->
    exists u s1 l1 xs tr', quiet me s1 /\ dead k s1 /\ (exists own, backed S s1 own) /\ ticking s1 /\ later (s_world s) (s_world s1) /\
      base S me T (fun p => ~ about k p) (s_world s) l (s_world s1) l1 xs /\
      tr = Did (CDemonitor me (RLocal k)) u :: tr' /\ cruns S me (s1, At X) tr' (s', At (SRet res)).
  Proof.
    intros Hq [own Hb] El Hm Ht Hr. apply cruns_call in Hr as (s0 & u & s1 & tr1 & O0 & B1 & -> & Hr).
    destruct (demonitored S Hty me T k s s0 s1 u own l Hq Hb El Hm O0 B1) as (A1 & A2 & A3 & l' & zs & A4).
    destruct (others_later S me _ _ O0 Ht) as [N0 T0]. destruct (busy_later S me _ _ _ _ B1 (call_later S _) T0) as [N1 T1].
    exists u, s1, l', zs, tr1. split_and!; try done. lia.
  Qed.
  (** The end of the script. *)
  Lemma end_return {R} T P `{Pdec : forall p, Decision (P p)} (HP : forall p q, kept S T p q -> P p <-> P q) w0 l0 s l xs (r : R) tr s' res :
    quiet me s -> base S me T P w0 l0 (s_world s) l xs ->
    cruns S me (s, At (SRet r)) tr (s', At (SRet res)) ->
    exists l' zs, res = r /\ tr = [] /\ others s s' /\ base S me T P w0 l0 (s_world s') l' (xs ++ zs).
  Proof.
    intros Hq Hb Hr. apply cruns_ret in Hr as (Ho & -> & ->). destruct (others_still _ _ _ _ Ho Hq) as [Hs _].
    destruct (base_still S me T _ _ (pick_any S T P HP) _ _ _ _ _ _ Hs Hb) as (l' & zs & H & _). eauto 10.
  Qed.
End talk.
