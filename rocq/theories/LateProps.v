(** The last part of C61: after a child has been shut down, its exit signal does not arrive any more. *)
From stdpp Require Import base list gmap numbers strings countable sorting relations.
From Coq Require Import Lia.
From Verif Require Import Prog ProgProofs ProgInv Types Mailbox MailboxSpec MailboxProofs World ProcApi NodeApi Api Steps Hist Labels SchedSpec SchedProofs SchedProps AppProps
  OriginSpec OriginProofs TruthProps OrderSpec OrderProofs OrderProps Client ClientSpec ClientStep ClientRun ClientFlush ClientTalk ClientProps Once NoticeSpec NoticeProofs NoticeProps LateSpec LateProofs.
From Verif Require Super.

Lemma visible_elem M q m : PSys m ∈ visible M q -> ISystem m ∈ q \/ (exists d r why, m = SProcessDown d r why /\ IProcessDown d r why ∈ q) \/ (exists n r, m = SNodeDown n r /\ INodeDown n r ∈ q).
Proof.
  revert M. induction q as [|x q IH]; intros M H; [by apply elem_of_nil in H|].
  assert (PSys m ∈ visible M q \/ (exists M', PSys m ∈ visible M' q) -> ISystem m ∈ x :: q \/ (exists d r why, m = SProcessDown d r why /\ IProcessDown d r why ∈ x :: q) \/ (exists n r, m = SNodeDown n r /\ INodeDown n r ∈ x :: q)) as Ht.
  { intros [H'|[M' H']]; (destruct (IH _ H') as [?|[(d & r & why & -> & ?)|(n & r & -> & ?)]]; [left; by right|right; left; exists d, r, why; split; [done|by right]|right; right; exists n, r; split; [done|by right]]). }
  destruct x; cbn [visible] in H; repeat case_decide; try (apply elem_of_cons in H as [H|H]); try discriminate; try (apply Ht; eauto; fail).
  - injection H as ->. left. by left.
  - injection H as ->. right. left. eexists _, _, _. split; [done|by left].
  - injection H as ->. right. right. eexists _, _. split; [done|by left].
Qed.
Lemma visible_sys M q m : ISystem m ∈ q -> PSys m ∈ visible M q.
Proof.
  revert M. induction q as [|x q IH]; intros M H; [by apply elem_of_nil in H|]. apply elem_of_cons in H as [<-|H]; [by left|].
  destruct x; cbn [visible]; repeat case_decide; try right; by apply IH.
Qed.
Lemma visible_split M q q' : exists M', visible M (q ++ q') = visible M q ++ visible M' q'.
Proof.
  revert M. induction q as [|x q IH]; intros M; [by exists M|].
  destruct x; cbn [app visible]; repeat case_decide; try apply IH;
    match goal with |- context [visible ?M (q ++ ?q')] => destruct (IH M) as (z & ->) end; by exists z.
Qed.
Lemma arrivals_split me g xs1 xs2 : arrivals me g = xs1 ++ xs2 -> exists g1 g2, g = g1 ++ g2 /\ arrivals me g1 = xs1 /\ arrivals me g2 = xs2.
Proof.
  revert xs1. induction g as [|[o x] g IH]; intros xs1 H; unfold arrivals in H; cbn in H.
  - symmetry in H. apply app_eq_nil in H as [-> ->]. by exists [], [].
  - case_decide as Ho; cbn in Ho.
    + destruct xs1 as [|y xs1].
      * exists [], ((o, x) :: g). split; [done|]. split; [done|]. unfold arrivals. cbn. rewrite decide_True by done. exact H.
      * cbn in H. injection H as -> H. destruct (IH _ H) as (g1 & g2 & -> & <- & <-). exists ((o, y) :: g1), g2. split; [done|]. split; [|done].
        unfold arrivals. cbn. by rewrite decide_True.
    + destruct (IH _ H) as (g1 & g2 & -> & <- & <-). exists ((o, x) :: g1), g2. split; [done|]. split; [|done]. unfold arrivals. cbn. by rewrite decide_False.
Qed.
Lemma arrivals_elem me g x : x ∈ arrivals me g -> (me, x) ∈ g.
Proof.
  unfold arrivals. intros H. apply elem_of_list_omap in H as ([o y] & H & E). cbn in E. case_decide; [|done]. by simplify_eq.
Qed.
Lemma exits_first_app p me a b x y : exits_first p me (a ++ b) -> x ∈ a -> end_notice p x -> y ∈ b -> ~ exit_signal p me y.
Proof.
  intros H Hx Hn Hy He. apply elem_of_list_lookup in Hx as [i Hi]. apply elem_of_list_lookup in Hy as [j Hj].
  pose proof (lookup_lt_Some _ _ _ Hi) as Hl. specialize (H i (length a + j) x y). rewrite lookup_app_l in H by done. rewrite lookup_app_r in H by lia.
  replace (length a + j - length a) with j in H by lia. specialize (H Hi Hj Hn He). lia.
Qed.

Section late.
  Context (S : serde) (Hty : serde_typed S) (me p : N).
  Notation ok := (no_late_link p me).
  Lemma ok_receive T f b : ok (CReceive me T f b). Proof. exact I. Qed.
  Lemma based_first {R} (X : sys world val * cstate R) : based S ok X -> exits_first p me (w_log (s_world (fst X))).
  Proof. intros (own & us & Hr & _). exact (reach_first S p me _ Hr). Qed.
  Lemma held_at k {R R'} s (sc : script R) (sc' : script R') x : held S me k (s, At sc) x -> held S me k (s, At sc') x.
  Proof. intros [H1 H2 H3 H4 H5]. by constructor. Qed.
  Lemma no_late T how s l tr s' u {R} (sc : script R) tr' y d r why :
    idle_ok S me ok s -> w_loc (s_world s) !! me = Some l ->
    cruns_ok S me ok (s, At (shutdown_child T me (PLocal p) how)) tr (s', At (SRet u)) ->
    Got (MSystem (SProcessDown d r why)) ∈ tr -> why <> RCustom "noproc" ->
    cruns_ok S me ok (s', At sc) tr' y -> Forall (fun x => ~ got_exit (PLocal p) x) tr'.
  Proof.
    intros (R0 & sc0 & sc0' & tr0 & Hi) El Hr Hgot Hwhy Hr'.
    assert (based S ok (s, At sc0')) as B0 by (eapply (cruns_ok_based S Hty me ok ok_receive); [exact Hi|apply based_start]).
    assert (based S ok (s, At (shutdown_child T me (PLocal p) how))) as B1 by exact B0.
    assert (based S ok (s', At (SRet u))) as B2 by (by eapply (cruns_ok_based S Hty me ok ok_receive)).
    assert (based S ok (s', At sc)) as B3 by exact B2.
    assert (based S ok y) as B4 by (by eapply (cruns_ok_based S Hty me ok ok_receive)).
    assert (idle S me s) as Hidle by (exists R0, sc0, sc0', tr0; by apply (cruns_ok_cruns S me ok)).
    destruct (C61_shutdown S T me (PLocal p) how s l tr s' u Hty Hidle El (cruns_ok_cruns _ _ _ _ _ _ Hr))
      as (k & d' & why' & xs & l' & _ & (g & Eg & ->) & El' & _ & (asked & u' & Etr & Hasked) & xs1 & xs2 & pre & post & rest & Exs & Eseen & _ & Erest & Hkept).
    (* the notice is the one of the shutdown *)
    assert (why' = why) as ->.
    { rewrite Etr in Hgot. apply elem_of_cons in Hgot as [Hgot|Hgot]; [discriminate|]. apply elem_of_app in Hgot as [Hgot|Hgot].
      - exfalso. destruct how; [destruct Hasked as (? & ->)|destruct Hasked as (? & [->|(_ & ? & ->)])|destruct Hasked as (? & ->)]; set_solver.
      - set_solver. }
    (* what the reference is for *)
    destruct (held_start S me k sc0) as [x0 H0]. destruct (held_runs S Hty me k _ _ _ _ (cruns_ok_cruns _ _ _ _ _ _ Hi) H0) as (x1 & H1 & _).
    apply (held_at k s sc0' (shutdown_child T me (PLocal p) how)) in H1.
    destruct (held_runs S Hty me k _ _ _ _ (cruns_ok_cruns _ _ _ _ _ _ Hr) H1) as (x2 & H2 & _ & _ & Ht).
    assert (x2 = Some (UProcess me (DPid (PLocal p)))) as ->.
    { rewrite Etr in Ht. apply Forall_inv in Ht. cbn in Ht. by apply Ht. }
    pose proof (proj1 (hd_settled _ _ _ _ _ H2)) as [_ [F1 _ _]]. cbn [fst] in F1.
    (* it arrived before xs2 *)
    destruct (arrivals_split me g xs1 xs2 Exs) as (g1 & g2 & -> & <- & <-).
    assert ((me, IProcessDown d' (RLocal k) why) ∈ w_log (s_world s) ++ g1) as Hin.
    { assert (sourced S (fun _ => True) (s_world s)) as Hso.
      { destruct B0 as (own & us & Hus & _). apply (reach_sourced S _ (Sys (s_world s) us)); [done|]. apply reach_any; [|by apply ok_any in Hus]. intros c. destruct c; try done. by destruct f. }
      assert (forall z, (me, z) ∈ w_log (s_world s) ++ g1 -> ISystem (SProcessDown d' (RLocal k) why) <> z) as Hno.
      { intros z Hz <-. assert ((me, ISystem (SProcessDown d' (RLocal k) why)) ∈ w_log (s_world s')) as Hz' by (rewrite Eg; set_solver). exact (F1 _ _ Hz'). }
      assert (forall z, z ∈ l_items l ++ l_chan l -> z = ISystem (SProcessDown d' (RLocal k) why) \/ z = IProcessDown d' (RLocal k) why ->
        (me, IProcessDown d' (RLocal k) why) ∈ w_log (s_world s) ++ g1) as Hbox.
      { intros z Hz Hz'. pose proof (so_box _ _ _ Hso _ _ El) as Hf. apply elem_of_list_lookup in Hz as [i Hz]. destruct (Forall_lookup_1 _ _ _ _ Hf Hz) as (v & Hv & Hfr).
        assert ((me, v) ∈ w_log (s_world s) ++ g1) as Hv' by set_solver.
        destruct Hfr as [->|Hfr].
        - destruct Hz' as [->| ->]; [by destruct (Hno _ Hv')|done].
        - destruct Hz' as [->| ->]; [|by destruct v]. destruct v; try done; cbn in Hfr; by injection Hfr as <- <- <-. }
      assert (PSys (SProcessDown d' (RLocal k) why) ∈ seen k l (arrivals me g1)) as Hs by (rewrite Eseen; set_solver).
      unfold seen in Hs. rewrite app_assoc in Hs.
      apply visible_elem in Hs as [Hs|[(? & ? & ? & [= <- <- <-] & Hs)|(? & ? & [=] & _)]]; apply elem_of_app in Hs as [Hs|Hs].
      - eapply Hbox; [exact Hs|by left].
      - apply arrivals_elem in Hs. destruct (Hno (ISystem (SProcessDown d' (RLocal k) why))); [set_solver|done].
      - eapply Hbox; [exact Hs|by right].
      - apply arrivals_elem in Hs. set_solver. }
    assert (d' = DPid (PLocal p)) as ->.
    { assert ((me, IProcessDown d' (RLocal k) why) ∈ w_log (s_world s')) as Hin' by (rewrite Eg; set_solver). specialize (F1 _ _ Hin'). cbn in F1. by injection (F1 eq_refl) as <-. }
    assert (end_notice p (me, IProcessDown (DPid (PLocal p)) (RLocal k) why)) as Hend by (by eexists _, _).
    pose proof (based_first _ B2) as Hf2. cbn [fst] in Hf2. rewrite Eg, app_assoc in Hf2.
    (* the mailbox is clean *)
    set (A := fun z => forall w, z <> ISystem (SExit (PLocal p) w)).
    assert (dated S me A (length (w_log (s_world s'))) (s_world s')) as Hd.
    { split; [done|]. intros l0 El0. rewrite El' in El0. injection El0 as <-. apply Forall_forall. intros z Hz.
      exists z. split; [|by left]. left. intros w ->. apply (visible_sys (dom (l_monitors l'))) in Hz. change (PSys (SExit (PLocal p) w) ∈ mailbox l') in Hz.
      apply elem_of_list_lookup in Hz as [i Hz]. destruct (Forall2_lookup_r _ _ _ _ _ Hkept Hz) as (q & Hq & Hk).
      assert (q = PSys (SExit (PLocal p) w)) as -> by (destruct Hk as [->|(? & ? & _ & _ & ?)]; done).
      apply elem_of_list_lookup_2 in Hq. apply elem_of_app in Hq as [Hq|Hq].
      - apply elem_of_list_filter in Hq as [Hq _]. by apply Hq.
      - unfold seen in Erest. rewrite arrivals_app in Erest.
        destruct (visible_split ({[RLocal k]} ∪ dom (l_monitors l)) (l_items l ++ l_chan l ++ arrivals me g1) (arrivals me g2)) as (M' & E').
        rewrite <- !app_assoc in E'. rewrite E' in Erest. apply app_inv_head in Erest. rewrite <- Erest in Hq.
        apply visible_elem in Hq as [Hq|[(? & ? & ? & [=] & _)|(? & ? & [=] & _)]]. apply arrivals_elem in Hq.
        apply (exits_first_app _ _ _ _ _ _ Hf2 Hin Hend Hq). by eexists. }
    apply Forall_forall. intros x Hx [w ->].
    destruct (runs_dated S Hty me ok ok_receive A _ _ _ _ Hr' B3 Hd _ Hx) as (z & Hz & Hm).
    assert (z = ISystem (SExit (PLocal p) w)) as ->.
    { destruct z; cbn in Hm; try done; try (destruct Hm as (? & ? & _ & ?); done). by injection Hm as ->. }
    destruct Hz as [Hz|Hz]; [by apply (Hz w)|].
    pose proof (based_first _ B4) as Hf4. pose proof (runs_grows S Hty me ok ok_receive _ _ _ Hr' B3) as [late Elate]. cbn [fst] in Elate.
    rewrite Elate, drop_app in Hz. rewrite Elate in Hf4.
    eapply (exits_first_app _ _ _ _ _ _ Hf4); [|exact Hend|exact Hz|by eexists]. rewrite Eg. set_solver.
  Qed.
End late.

(** ** C61, the last part.  The process [me] shuts down its child [p] and is told how [p] ended.  Then, whatever
    [me] does next and whatever everybody does, [me] never receives an exit signal of [p] any more.  Nobody calls
    exit on [me] in the name of [p], and [me] does not call link on [p] (a supervisor gets its links by spawning
    its children linked).
    The excluded answer "noproc" (the child was already gone when the shutdown began) is C61_late_exit_refuted. *)
Theorem C61_no_late_exit_partial (S : serde) (T me p : N) (how : Super.shutdown) s l tr s' u {R} (sc : script R) tr' y d r why :
  serde_typed S -> idle_ok S me (no_late_link p me) s -> w_loc (s_world s) !! me = Some l ->
  cruns_ok S me (no_late_link p me) (s, At (shutdown_child T me (PLocal p) how)) tr (s', At (SRet u)) ->
  Got (MSystem (SProcessDown d r why)) ∈ tr -> why <> RCustom "noproc" ->
  cruns_ok S me (no_late_link p me) (s', At sc) tr' y -> Forall (fun x => ~ got_exit (PLocal p) x) tr'.
Proof. intros Hty. by apply no_late. Qed.
Print Assumptions C61_no_late_exit_partial.

(** ** Playing a client step by step, for examples *)
Inductive omove := OBegin (c : call) | OTick (i : nat) | OMine.
Section oplay.
  Context (S : serde) (me : N) (ok : call -> Prop) {okd : forall c, Decision (ok c)} {R : Type}.
  Definition omine (X : sys world val * cstate R) : option (list deed * (sys world val * cstate R)) :=
    let '(Sys w ts, c) := X in
    match c with
    | At (SCall c k) => if decide (ok c) then Some ([], (Sys w ts, Busy c (call_prog S c) k)) else None
    | Busy c (Ret v) k => Some ([Did c v], (Sys w ts, At (k v)))
    | Busy c (Atom g f p) k => if g w then Some ([], (Sys (f w) ts, Busy c (p w) k)) else None
    | At (SWait T f limit k) => Some ([], (Sys w ts, Waits T f ((fun d => (w_now w + d)%N) <$> limit) k))
    | Waits T f t k =>
        match run (try_receive S me T f false) w with
        | Done w1 (Some (Found m)) => Some ([Got m], (Sys w1 ts, At (k (Some m))))
        | Done w1 (Some Waiting) => match t with Some t => if (t <=? w_now w)%N then Some ([GaveUp], (Sys w1 ts, At (k None))) else None | None => None end
        | _ => None
        end
    | At (SFlush T f k) =>
        match w_loc w !! me with
        | Some l => match remove S T f false l with Some l' => Some ([Flushed], (Sys (up_loc (<[me := l']>) w) ts, At k)) | None => None end
        | None => None
        end
    | _ => None
    end.
  Definition ostep (m : omove) (X : sys world val * cstate R) : option (list deed * (sys world val * cstate R)) :=
    match m with
    | OBegin c => if decide (ok c /\ caller c <> Some me) then Some ([], (Sys (s_world (fst X)) (s_threads (fst X) ++ [call_prog S c]), snd X)) else None
    | OTick i => match tick i (fst X) with Some s => Some ([], (s, snd X)) | None => None end
    | OMine => omine X
    end.
  (** A move that is not possible is left out. *)
  Fixpoint oplay (ms : list omove) (X : sys world val * cstate R) : list deed * (sys world val * cstate R) :=
    match ms with
    | [] => ([], X)
    | m :: ms => match ostep m X with Some (a, Y) => let '(tr, Z) := oplay ms Y in (a ++ tr, Z) | None => oplay ms X end
    end.
  Lemma omine_step X a Y : omine X = Some (a, Y) -> cstep S me X a Y /\ only_ok S ok X Y.
  Proof.
    destruct X as [[w ts] c]. unfold omine. intros H.
    assert ((forall c0 k, c = At (SCall c0 k) -> ok c0) -> cstep S me (Sys w ts, c) a Y /\ s_threads (fst Y) = ts -> cstep S me (Sys w ts, c) a Y /\ only_ok S ok (Sys w ts, c) Y) as Hfin.
    { intros H1 [H2 H3]. split; [done|]. split; [exact H1|]. left. cbn. by rewrite H3. }
    destruct c as [[r| |c k|T f limit k|T f k]|c [v|m|g f p] k|T f t k]; try discriminate.
    - case_decide as Hc; [|discriminate]. injection H as <- <-. apply Hfin; [intros ? ? [= <- <-]; done|]. split; [apply c_begin|done].
    - injection H as <- <-. apply Hfin; [discriminate|]. split; [apply (c_wait S me (Sys w ts))|done].
    - destruct (w_loc w !! me) as [l|] eqn:El; [|discriminate]. destruct (remove S T f false l) as [l'|] eqn:Er; [|discriminate]. injection H as <- <-.
      apply Hfin; [discriminate|]. split; [by apply (c_flush S me w ts T f k l l')|done].
    - injection H as <- <-. apply Hfin; [discriminate|]. split; [apply c_return|done].
    - destruct (g w) eqn:Eg; [|discriminate]. injection H as <- <-. apply Hfin; [discriminate|]. split; [by apply c_tick|done].
    - destruct (run (try_receive S me T f false) w) as [w1 [[m| |]|]| |] eqn:E; try discriminate.
      + injection H as <- <-. apply Hfin; [discriminate|]. split; [by apply c_found|done].
      + destruct t as [t|]; [|discriminate]. destruct (t <=? w_now w)%N eqn:Et; [|discriminate]. injection H as <- <-.
        apply Hfin; [discriminate|]. split; [apply c_expired; [done|by apply N.leb_le in Et]|done].
  Qed.
  (** A step of the others. *)
  Definition calm_at (X : sys world val * cstate R) : Prop := forall c k, snd X = At (SCall c k) -> ok c.
  Lemma ostep_ok m X a Y : ostep m X = Some (a, Y) -> calm_at X -> cstep S me X a Y /\ only_ok S ok X Y.
  Proof.
    intros H Hc. destruct m as [c|i|]; cbn in H; [| |by apply omine_step].
    - case_decide as Hd; [|discriminate]. injection H as <- <-. destruct X as [s c0]. cbn in *. destruct Hd as [Hd1 Hd2]. split.
      + apply c_other. destruct s. apply (step_call (calls_of S (foreign_call me)) (call_prog S c)). by exists c.
      + split; [exact Hc|]. right. by exists c.
    - destruct (tick i (fst X)) as [s|] eqn:Et; [|discriminate]. injection H as <- <-. destruct X as [s0 c0]. cbn in *. split.
      + apply c_other. by apply (step_tick _ i).
      + split; [exact Hc|]. left. cbn. unfold tick in Et. destruct (s_threads s0 !! i) as [[| |g f p]|]; try discriminate. destruct (g (s_world s0)); [|discriminate].
        injection Et as <-. cbn. apply insert_length.
  Qed.
  (** All calls of the script are [ok]. *)
  Inductive mannered : script R -> Prop :=
  | man_ret r : mannered (SRet r)
  | man_un : mannered SUnreachable
  | man_call c k : ok c -> (forall v, mannered (k v)) -> mannered (SCall c k)
  | man_wait T f limit k : (forall x, mannered (k x)) -> mannered (SWait T f limit k)
  | man_flush T f k : mannered k -> mannered (SFlush T f k).
  Definition mannerly (c : cstate R) : Prop :=
    match c with At s => mannered s | Busy _ _ k => forall v, mannered (k v) | Waits _ _ _ k => forall x, mannered (k x) end.
  Lemma mannerly_calm s c : mannerly c -> calm_at (s, c).
  Proof. intros H c0 k E. cbn in E. subst c. cbn in H. by inversion H. Qed.
  Lemma mannerly_step X a Y : cstep S me X a Y -> mannerly (snd X) -> mannerly (snd Y).
  Proof.
    destruct 1; cbn; try done; intros Hm; try (by apply Hm); by inversion Hm.
  Qed.
  Lemma oplay_ok ms X tr Y : oplay ms X = (tr, Y) -> mannerly (snd X) -> cruns_ok S me ok X tr Y /\ mannerly (snd Y).
  Proof.
    revert X tr. induction ms as [|m ms IH]; intros X tr H Hm; cbn in H; [injection H as <- <-; split; [constructor|done]|].
    destruct (ostep m X) as [[a Z]|] eqn:E; [|by apply IH]. destruct (oplay ms Z) as [tr1 Z1] eqn:E1. injection H as <- <-.
    assert (calm_at X) as Hc by (destruct X; by apply mannerly_calm). destruct (ostep_ok _ _ _ _ E Hc) as [H1 H2]. pose proof (mannerly_step _ _ _ H1 Hm) as Hz.
    destruct (IH _ _ E1 Hz) as [H3 H4]. split; [|done]. by econstructor.
  Qed.
End oplay.
Global Instance no_late_link_dec p me c : Decision (no_late_link p me c).
Proof. destruct c; cbn; try apply _; destruct p0; apply _. Defined.

(** The example node: process 1 traps exits and spawns its child 2 linked. *)
Definition parent : script unit := SCall (CSetFlags 1 true) (fun _ => SCall (CSpawn 1 true false) (fun _ => SRet tt)).
Definition whole (c : call) (i : nat) : list omove := OBegin c :: replicate 40 (OTick i).
Notation NL := (no_late_link 2 1).
Definition at_script {R} (c : cstate R) : option (script R) := match c with At s => Some s | _ => None end.
(** Three scripts one after the other. *)
Definition three {R1 R2 R3} ms1 (s1 : script R1) ms2 (s2 : script R2) ms3 (s3 : script R3)
    (Q : world -> cstate R1 -> list deed -> cstate R2 -> list deed -> Prop) : Prop :=
  let '(_, (a, c1)) := oplay S0 1 NL ms1 (Sys world0 [], At s1) in
  let '(tr2, (b, c2)) := oplay S0 1 NL ms2 (a, At s2) in
  let '(tr3, _) := oplay S0 1 NL ms3 (b, At s3) in
  Q (s_world a) c1 tr2 c2 tr3.
Lemma three_runs {R1 R2 R3} ms1 (s1 : script R1) ms2 (s2 : script R2) ms3 (s3 : script R3) (Q : world -> cstate R1 -> list deed -> cstate R2 -> list deed -> Prop) :
  mannered NL s1 -> mannered NL s2 -> mannered NL s3 -> three ms1 s1 ms2 s2 ms3 s3 Q ->
  exists a c1 tr1 tr2 b c2 tr3 y, cruns_ok S0 1 NL (Sys world0 [], At s1) tr1 (a, c1) /\
    cruns_ok S0 1 NL (a, At s2) tr2 (b, c2) /\ cruns_ok S0 1 NL (b, At s3) tr3 y /\ Q (s_world a) c1 tr2 c2 tr3.
Proof.
  intros M1 M2 M3. unfold three.
  destruct (oplay S0 1 NL ms1 (Sys world0 [], At s1)) as [tr1 [a c1]] eqn:E1.
  destruct (oplay S0 1 NL ms2 (a, At s2)) as [tr2 [b c2]] eqn:E2. destruct (oplay S0 1 NL ms3 (b, At s3)) as [tr3 y] eqn:E3. intros HQ.
  exists a, c1, tr1, tr2, b, c2, tr3, y. split; [exact (proj1 (oplay_ok _ _ _ _ _ _ _ E1 M1))|].
  split; [exact (proj1 (oplay_ok _ _ _ _ _ _ _ E2 M2))|]. split; [exact (proj1 (oplay_ok _ _ _ _ _ _ _ E3 M3))|exact HQ].
Qed.
Lemma mannered_flush T p me q : mannered (no_late_link p me) (unlink_flush T me q).
Proof. repeat (constructor; intros); done. Qed.
Lemma mannered_then T p me q m : mannered (no_late_link p me) (then_flush T me q m).
Proof. destruct m as [|[]]; try constructor; try done. intros. repeat (constructor; intros); done. Qed.
Lemma mannered_shutdown T p me how : p <> me -> mannered (no_late_link p me) (shutdown_child T me (PLocal p) how).
Proof.
  intros Hne. assert (forall why, no_late_link p me (CExit me (PLocal p) why)) as Hex by (cbn; intros ? [? ?]; done).
  constructor; [exact I|]. intros v. destruct v; try constructor. destruct how.
  - constructor; [apply Hex|]. intros _. constructor. intros [m|]; [apply mannered_then|constructor].
  - constructor; [apply Hex|]. intros _. constructor. intros [m|]; [apply mannered_then|].
    constructor; [apply Hex|]. intros _. constructor. intros [m|]; [apply mannered_then|constructor].
  - constructor; [apply Hex|]. intros _. constructor. intros [m|]; [apply mannered_then|constructor].
Qed.
Lemma mannered_parent : mannered NL parent.
Proof. repeat (constructor; intros); done. Qed.
Definition next : script (option message) := SWait 7 (fun _ => true) None (fun x => SRet x).
Lemma mannered_next : mannered NL next.
Proof. repeat (constructor; intros); done. Qed.
Definition setup : list omove := whole (CSpawn 0 false false) 0 ++ replicate 20 OMine.

(** The child ends during the shutdown, its exit signal arrives and is removed; the parent goes on and receives another message. *)
Example C61_no_late_exit_example : exists s l tr s' tr' y, idle_ok S0 1 (no_late_link 2 1) s /\ w_loc (s_world s) !! 1%N = Some l /\
  cruns_ok S0 1 (no_late_link 2 1) (s, At (shutdown_child 0 1 (PLocal 2) (Super.Within 3))) tr (s', At (SRet tt)) /\
  Got (MSystem (SProcessDown (DPid (PLocal 2)) (RLocal 1) (RCustom "shutdown"))) ∈ tr /\
  cruns_ok S0 1 (no_late_link 2 1) (s', At next) tr' y /\ Got (MUser (Val 7 8)) ∈ tr'.
Proof.
  destruct (three_runs setup parent (replicate 12 OMine ++ whole (CFinish 2) 1 ++ replicate 20 OMine) (shutdown_child 0 1 (PLocal 2) (Super.Within 3))
    (whole (noise 8) 2 ++ replicate 5 OMine) next
    (fun w c1 tr2 c2 tr3 => (is_Some (w_loc w !! 1%N) /\ at_script c1 = Some (SRet tt) /\ at_script c2 = Some (SRet tt)) /\
       Got (MSystem (SProcessDown (DPid (PLocal 2)) (RLocal 1) (RCustom "shutdown"))) ∈ tr2 /\ Got (MUser (Val 7 8)) ∈ tr3))
    as (a & c1 & tr1 & tr2 & b & c2 & tr3 & y & H1 & H2 & H3 & ([l Hl] & A1 & A2) & A3 & A4);
    [apply mannered_parent|by apply mannered_shutdown|apply mannered_next| |].
  { vm_compute. split; [split; [eauto|done]|]. split; repeat first [apply elem_of_list_here | apply elem_of_list_further]. }
  destruct c1 as [s1| |]; try discriminate A1. destruct c2 as [s2| |]; try discriminate A2. cbn in A2. injection A2 as ->.
  exists a, l, tr2, b, tr3, y. split; [by exists unit, parent, s1, tr1|]. done.
Qed.

(** When the child is already on its way out, the monitor reports "noproc" at once, the mailbox is flushed, and the
    exit signal of the child arrives after that. *)
Definition C61_no_late_exit_statement : Prop :=
  forall (S : serde) (T me p : N) (how : Super.shutdown) s l tr s' u R (sc : script R) tr' y,
  serde_typed S -> idle_ok S me (no_late_link p me) s -> w_loc (s_world s) !! me = Some l ->
  cruns_ok S me (no_late_link p me) (s, At (shutdown_child T me (PLocal p) how)) tr (s', At (SRet u)) ->
  cruns_ok S me (no_late_link p me) (s', At sc) tr' y -> Forall (fun x => ~ got_exit (PLocal p) x) tr'.
Theorem C61_late_exit_refuted : ~ C61_no_late_exit_statement.
Proof.
  intros H.
  destruct (three_runs (setup ++ OBegin (CFinish 2) :: replicate 2 (OTick 1)) parent (replicate 30 OMine) (shutdown_child 0 1 (PLocal 2) Super.Infinity)
    (replicate 20 (OTick 1) ++ replicate 5 OMine) next
    (fun w c1 tr2 c2 tr3 => (is_Some (w_loc w !! 1%N) /\ at_script c1 = Some (SRet tt) /\ at_script c2 = Some (SRet tt)) /\
       Got (MSystem (SExit (PLocal 2) RNormal)) ∈ tr3))
    as (a & c1 & tr1 & tr2 & b & c2 & tr3 & y & H1 & H2 & H3 & ([l Hl] & A1 & A2) & A3);
    [apply mannered_parent|by apply mannered_shutdown|apply mannered_next| |].
  { vm_compute. split; [split; [eauto|done]|]. repeat first [apply elem_of_list_here | apply elem_of_list_further]. }
  destruct c1 as [s1| |]; try discriminate A1. destruct c2 as [s2| |]; try discriminate A2. cbn in A2. injection A2 as ->.
  assert (idle_ok S0 1 (no_late_link 2 1) a) as Hi by (by exists unit, parent, s1, tr1).
  pose proof (H S0 0%N 1%N 2%N Super.Infinity a l tr2 b tt _ next tr3 y S0_typed Hi Hl H2 H3) as Hf.
  apply elem_of_list_lookup in A3 as [i Hx]. apply (Forall_lookup_1 _ _ _ _ Hf Hx). by eexists.
Qed.
Print Assumptions C61_late_exit_refuted.
