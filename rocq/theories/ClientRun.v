(** Taking runs of a client apart, and what others cannot do meanwhile. *)
From stdpp Require Import base list gmap numbers strings countable sorting relations.
From Coq Require Import Lia.
From Verif Require Import Prog ProgProofs ProgInv Types Mailbox MailboxSpec MailboxProofs World ProcApi NodeApi Api Steps Hist Labels SchedSpec SchedProofs
  ProcSpec GenServer Client ClientSpec ClientStep.

(** ** The order of threads does not matter *)
Lemma insert_perm {A} (l : list A) i x y : l !! i = Some x -> x :: <[i := y]> l ≡ₚ y :: l.
Proof.
  intros E. rewrite insert_take_drop by (eapply lookup_lt_Some; exact E).
  rewrite <- (take_drop_middle l i x E) at 3. rewrite <- !Permutation_middle. apply perm_swap.
Qed.
Lemma step_perm {W R} (api : prog W R -> Prop) s s' us : sys_step api s s' -> us ≡ₚ s_threads s ->
  exists us', sys_step api (Sys (s_world s) us) (Sys (s_world s') us') /\ us' ≡ₚ s_threads s'.
Proof.
  intros Hs Hp. destruct Hs as [i s s' Ht|p s Hc].
  - unfold tick in Ht. destruct (s_threads s !! i) as [[| |g f k]|] eqn:E; try discriminate.
    destruct (g (s_world s)) eqn:Hg; [|discriminate]. injection Ht as <-. cbn [s_world s_threads].
    assert (Atom g f k ∈ us) as Hin by (rewrite Hp; eapply elem_of_list_lookup_2; exact E).
    apply elem_of_list_lookup_1 in Hin as [j Ej]. exists (<[j := k (s_world s)]> us). split.
    + eapply (step_tick _ j). unfold tick; cbn. rewrite Ej, Hg. reflexivity.
    + apply (Permutation_cons_inv (a := Atom g f k)). rewrite (insert_perm us j _ _ Ej), (insert_perm _ i _ _ E), Hp. done.
  - exists (us ++ [p]). split; [apply (step_call api p (Sys (s_world s) us) Hc)|]. cbn. by rewrite Hp.
Qed.
Lemma step_more {W R} (api : prog W R -> Prop) s s' own : sys_step api s s' ->
  exists us, sys_step api (Sys (s_world s) (s_threads s ++ own)) (Sys (s_world s') us) /\ us ≡ₚ s_threads s' ++ own.
Proof.
  intros Hs. destruct Hs as [i s s' Ht|p s Hc].
  - unfold tick in Ht. destruct (s_threads s !! i) as [[| |g f k]|] eqn:E; try discriminate.
    destruct (g (s_world s)) eqn:Hg; [|discriminate]. injection Ht as <-. cbn [s_world s_threads].
    pose proof (lookup_lt_Some _ _ _ E). eexists. split.
    + eapply (step_tick _ i). unfold tick; cbn. rewrite lookup_app_l, E, Hg by done. reflexivity.
    + by rewrite insert_app_l.
  - exists ((s_threads s ++ own) ++ [p]). split; [apply (step_call api p (Sys (s_world s) (s_threads s ++ own)) Hc)|]. cbn.
    rewrite <- !app_assoc. apply Permutation_app_head, Permutation_app_comm.
Qed.

Section run.
  Context (S : serde) (me : N).
  Notation other := (other S me).
  Notation others := (rtc other).
  Notation still := (touch me (fun _ => False)).

  (** ** The client's own calls are threads like any other *)
  Definition backed (s : sys world val) (own : list (prog world val)) : Prop :=
    exists us, reachable S (Sys (s_world s) us) /\ us ≡ₚ s_threads s ++ own.
  Lemma backed_occurs s own : backed s own -> occurs S (s_world s).
  Proof. intros (us & H & _). by exists us. Qed.
  Lemma backed_step s s' own : sys_step (any_call S) s s' -> backed s own -> backed s' own.
  Proof.
    intros Hs (us & Hr & Hp). destruct (step_more _ _ _ own Hs) as (us1 & H1 & H2).
    destruct (step_perm _ _ _ us H1 Hp) as (us2 & H3 & H4). exists us2. split; [eapply rtc_r; [exact Hr|exact H3]|].
    by rewrite H4.
  Qed.
  Lemma other_any s s' : other s s' -> sys_step (any_call S) s s'.
  Proof. intros [i ? ? H|p ? (c & _ & ->)]; [by eapply step_tick|]. apply step_call. by exists c. Qed.
  Lemma backed_other s s' own : other s s' -> backed s own -> backed s' own.
  Proof. intros H. apply backed_step, other_any, H. Qed.
  Lemma backed_perm s own own' : own ≡ₚ own' -> backed s own -> backed s own'.
  Proof. intros H (us & H1 & H2). exists us. split; [done|]. by rewrite <- H. Qed.
  Lemma backed_begin s own c : backed s own -> backed s (call_prog S c :: own).
  Proof.
    intros (us & Hr & Hp). exists (us ++ [call_prog S c]). split.
    - eapply rtc_r; [exact Hr|]. apply (step_call (any_call S) (call_prog S c) (Sys _ us)). by exists c.
    - rewrite Hp, <- app_assoc. apply Permutation_app_head. cbn [s_threads]. symmetry. apply (Permutation_app_comm [_] own).
  Qed.
  Lemma backed_tick w ts own g f k : g w = true -> backed (Sys w ts) (Atom g f k :: own) -> backed (Sys (f w) ts) (k w :: own).
  Proof.
    intros Hg (us & Hr & Hp). cbn in *.
    assert (sys_step (any_call S) (Sys w (Atom g f k :: ts ++ own)) (Sys (f w) (k w :: ts ++ own))) as Hs.
    { eapply (step_tick _ 0). unfold tick; cbn. by rewrite Hg. }
    destruct (step_perm _ _ _ us Hs) as (us1 & H1 & H2); [cbn; rewrite Hp; symmetry; apply Permutation_middle|].
    exists us1. split; [eapply rtc_r; [exact Hr|exact H1]|]. cbn in *. rewrite H2. apply Permutation_middle.
  Qed.
  Lemma backed_run w ts own c w1 v : run (call_prog S c) w = Done w1 v -> backed (Sys w ts) own -> backed (Sys w1 ts) (Ret v :: own).
  Proof.
    intros E Hb. apply (backed_begin _ _ c) in Hb. revert Hb E. generalize (call_prog S c) as p. intros p. revert w.
    induction p as [a|m|g f k IH]; intros w Hb E; cbn in E; [injection E as <- <-; exact Hb|discriminate|].
    destruct (g w) eqn:Hg; [|discriminate]. eapply IH; [|exact E]. by apply (backed_tick w ts own g f k).
  Qed.

  (** ** Calls and waits interleaved with others *)
  Inductive busy : sys world val -> prog world val -> val -> sys world val -> Prop :=
  | busy_ret s v : busy s (Ret v) v s
  | busy_other s s1 p v s2 : other s s1 -> busy s1 p v s2 -> busy s p v s2
  | busy_tick w ts g f k v s2 : g w = true -> busy (Sys (f w) ts) (k w) v s2 -> busy (Sys w ts) (Atom g f k) v s2.
  Inductive waits (T : N) (f : message -> bool) (t : option N) : sys world val -> option message -> sys world val -> Prop :=
  | waits_other s s1 x s2 : other s s1 -> waits T f t s1 x s2 -> waits T f t s x s2
  | waits_sleep w ts w1 x s2 : run (try_receive S me T f false) w = Done w1 (Some Waiting) ->
      waits T f t (Sys w1 ts) x s2 -> waits T f t (Sys w ts) x s2
  | waits_found w ts w1 m : run (try_receive S me T f false) w = Done w1 (Some (Found m)) ->
      waits T f t (Sys w ts) (Some m) (Sys w1 ts)
  | waits_expired w ts w1 : run (try_receive S me T f false) w = Done w1 (Some Waiting) -> expired t w ->
      waits T f t (Sys w ts) None (Sys w1 ts).

  Lemma cruns_ret {R} s (r : R) tr s' r' : cruns S me (s, At (SRet r)) tr (s', At (SRet r')) -> others s s' /\ r' = r /\ tr = [].
  Proof.
    intros H. remember (s, At (SRet r)) as x eqn:Ex. remember (s', At (SRet r')) as z eqn:Ez. revert s Ex.
    induction H as [x|x a y tr z Hs H IH]; intros s Ex.
    - rewrite Ex in Ez. injection Ez as -> ->. split; [apply rtc_refl|done].
    - subst. inversion Hs; subst. destruct (IH eq_refl _ eq_refl) as (H1 & -> & ->). split; [|done].
      eapply rtc_l; eassumption.
  Qed.
  Lemma cruns_unreachable {R} s tr s' (r : R) : ~ cruns S me (s, At SUnreachable) tr (s', At (SRet r)).
  Proof.
    intros H. remember (s, At SUnreachable) as x eqn:Ex. remember (s', At (SRet r)) as z eqn:Ez. revert s Ex.
    induction H as [x|x a y tr z Hs H IH]; intros s Ex; subst; [discriminate|]. inversion Hs; subst. eapply IH; eauto.
  Qed.
  Lemma cruns_busy {R} s c p k tr s' (r : R) : cruns S me (s, Busy c p k) tr (s', At (SRet r)) ->
    exists v s1 tr', busy s p v s1 /\ tr = Did c v :: tr' /\ cruns S me (s1, At (k v)) tr' (s', At (SRet r)).
  Proof.
    intros H. remember (s, Busy c p k) as x eqn:Ex. remember (s', At (SRet r)) as z eqn:Ez. revert s p Ex.
    induction H as [x|x a y tr z Hs H IH]; intros s p Ex; subst; [discriminate|]. inversion Hs; subst.
    - destruct (IH eq_refl _ _ eq_refl) as (v & s1 & tr' & H1 & -> & H2). exists v, s1, tr'. split; [by eapply busy_other|done].
    - destruct (IH eq_refl _ _ eq_refl) as (v & s1 & tr' & H1 & -> & H2). exists v, s1, tr'. split; [by eapply busy_tick|done].
    - eexists _, _, _. split; [apply busy_ret|]. split; [reflexivity|]. exact H.
  Qed.
  Lemma cruns_call {R} s c k tr s' (r : R) : cruns S me (s, At (SCall c k)) tr (s', At (SRet r)) ->
    exists s0 v s1 tr', others s s0 /\ busy s0 (call_prog S c) v s1 /\ tr = Did c v :: tr' /\ cruns S me (s1, At (k v)) tr' (s', At (SRet r)).
  Proof.
    intros H. remember (s, At (SCall c k)) as x eqn:Ex. remember (s', At (SRet r)) as z eqn:Ez. revert s Ex.
    induction H as [x|x a y tr z Hs H IH]; intros s Ex; subst; [discriminate|]. inversion Hs; subst.
    - destruct (IH eq_refl _ eq_refl) as (s0 & v & s1 & tr' & H0 & H1). exists s0, v, s1, tr'. split; [|done]. eapply rtc_l; eassumption.
    - apply cruns_busy in H as (v & s1 & tr' & H1). exists s, v, s1, tr'. split; [apply rtc_refl|done].
  Qed.
  Lemma cruns_waits {R} s T f t k tr s' (r : R) : cruns S me (s, Waits T f t k) tr (s', At (SRet r)) ->
    exists x s1 tr', waits T f t s x s1 /\ tr = (match x with Some m => Got m | None => GaveUp end) :: tr' /\
      cruns S me (s1, At (k x)) tr' (s', At (SRet r)).
  Proof.
    intros H. remember (s, Waits T f t k) as x eqn:Ex. remember (s', At (SRet r)) as z eqn:Ez. revert s Ex.
    induction H as [x|x a y tr z Hs H IH]; intros s Ex; subst; [discriminate|]. inversion Hs; subst.
    - destruct (IH eq_refl _ eq_refl) as (v & s1 & tr' & H1 & -> & H2). exists v, s1, tr'. split; [by eapply waits_other|done].
    - destruct (IH eq_refl _ eq_refl) as (v & s1 & tr' & H1 & -> & H2). exists v, s1, tr'. split; [by eapply waits_sleep|done].
    - eexists (Some m), _, _. split; [by apply waits_found|]. split; [reflexivity|]. exact H.
    - eexists None, _, _. split; [by apply waits_expired|]. split; [reflexivity|]. exact H.
  Qed.
  Lemma cruns_wait {R} s T f limit k tr s' (r : R) : cruns S me (s, At (SWait T f limit k)) tr (s', At (SRet r)) ->
    exists s0 x s1 tr', others s s0 /\ waits T f ((fun d => (w_now (s_world s0) + d)%N) <$> limit) s0 x s1 /\
      tr = (match x with Some m => Got m | None => GaveUp end) :: tr' /\ cruns S me (s1, At (k x)) tr' (s', At (SRet r)).
  Proof.
    intros H. remember (s, At (SWait T f limit k)) as x eqn:Ex. remember (s', At (SRet r)) as z eqn:Ez. revert s Ex.
    induction H as [x|x a y tr z Hs H IH]; intros s Ex; subst; [discriminate|]. inversion Hs; subst.
    - destruct (IH eq_refl _ eq_refl) as (s0 & v & s1 & tr' & H0 & H1). exists s0, v, s1, tr'. split; [|done]. eapply rtc_l; eassumption.
    - apply cruns_waits in H as (v & s1 & tr' & H1). exists s, v, s1, tr'. split; [apply rtc_refl|done].
  Qed.
  Lemma cruns_flush {R} s T f k tr s' (r : R) : cruns S me (s, At (SFlush T f k)) tr (s', At (SRet r)) ->
    exists s0 l l' tr', others s s0 /\ w_loc (s_world s0) !! me = Some l /\ remove S T f false l = Some l' /\
      tr = Flushed :: tr' /\ cruns S me (Sys (up_loc (<[me := l']>) (s_world s0)) (s_threads s0), At k) tr' (s', At (SRet r)).
  Proof.
    intros H. remember (s, At (SFlush T f k)) as x eqn:Ex. remember (s', At (SRet r)) as z eqn:Ez. revert s Ex.
    induction H as [x|x a y tr z Hs H IH]; intros s Ex; subst; [discriminate|]. inversion Hs; subst.
    - destruct (IH eq_refl _ eq_refl) as (s0 & l & l' & tr' & H0 & H1). exists s0, l, l', tr'. split; [|done]. eapply rtc_l; eassumption.
    - eexists _, l, l', tr. split; [apply rtc_refl|]. cbn. split; [done|]. split; [done|]. split; [reflexivity|]. exact H.
  Qed.

  (** ** What others leave alone *)
  Definition quiet (s : sys world val) : Prop := Forall (guar still) (s_threads s).
  Lemma other_still s s' : other s s' -> quiet s -> still (s_world s) (s_world s') /\ quiet s'.
  Proof.
    intros [i ? ? Ht|p ? (c & Hc & ->)] Hq.
    - unfold tick in Ht. destruct (s_threads s0 !! i) as [[| |g f k]|] eqn:E; try discriminate.
      destruct (g (s_world s0)) eqn:Hg; [|discriminate]. injection Ht as <-. cbn.
      pose proof (Forall_lookup_1 _ _ _ _ Hq E) as Hp. destruct (Hp _ Hg) as [H1 H2]. split; [exact H1|].
      apply Forall_insert; [exact Hq|exact H2].
    - cbn. split; [apply touch_refl|]. apply Forall_app. split; [exact Hq|]. constructor; [|constructor]. by apply foreign_touch.
  Qed.
  Lemma others_still s s' : others s s' -> quiet s -> still (s_world s) (s_world s') /\ quiet s'.
  Proof.
    induction 1 as [s|s1 s2 s3 H1 H IH]; intros Hq; [split; [apply touch_refl|done]|].
    destruct (other_still _ _ H1 Hq) as [A B]. destruct (IH B) as [C D]. split; [by eapply touch_trans|done].
  Qed.
  Lemma others_backed s s' own : others s s' -> backed s own -> backed s' own.
  Proof. induction 1 as [s|s1 s2 s3 H1 H IH]; [done|]. intros Hb. by eapply IH, backed_other. Qed.
  Lemma busy_touch K s p v s' : busy s p v s' -> guar (touch me K) p -> quiet s -> touch me K (s_world s) (s_world s') /\ quiet s'.
  Proof.
    induction 1 as [s v|s s1 p v s2 H1 H IH|w ts g f k v s2 Hg H IH]; intros Hp Hq.
    - split; [apply touch_refl|done].
    - destruct (other_still _ _ H1 Hq) as [A B]. destruct (IH Hp B) as [C D]. split; [|done].
      eapply touch_trans; [|exact C]. eapply touch_mono; [|exact A]. done.
    - destruct (Hp w Hg) as [A B]. destruct (IH B Hq) as [C D]. split; [by eapply touch_trans|done].
  Qed.
  Lemma busy_backed s p v s' own : busy s p v s' -> backed s (p :: own) -> backed s' (Ret v :: own).
  Proof.
    induction 1 as [s v|s s1 p v s2 H1 H IH|w ts g f k v s2 Hg H IH]; intros Hb; [done| |].
    - by eapply IH, backed_other.
    - apply IH. by apply (backed_tick w ts own g f k).
  Qed.
  Lemma busy_atom s g f k v s' : busy s (Atom g f k) v s' ->
    exists s1, others s s1 /\ g (s_world s1) = true /\ busy (Sys (f (s_world s1)) (s_threads s1)) (k (s_world s1)) v s'.
  Proof.
    intros H. remember (Atom g f k) as p eqn:Ep. revert Ep. induction H as [s v|s s1 p v s2 H1 H IH|w ts g' f' k' v s2 Hg H IH]; intros Ep.
    - discriminate.
    - destruct (IH Ep) as (s3 & A & B). exists s3. split; [by eapply rtc_l|done].
    - injection Ep as -> -> ->. exists (Sys w ts). split; [apply rtc_refl|]. done.
  Qed.

  (** A step at which the process establishes [P], which its other steps and others leave alone. *)
  Fixpoint sure {R} (P : world -> Prop) (p : prog world R) : Prop :=
    match p with
    | Ret _ => False
    | Panic _ => True
    | Atom g f k => forall w, g w = true -> (me < w_next_pid w)%N ->
        (P (f w) /\ guar still (k w)) \/ (sure P (k w) /\ still w (f w))
    end.
  Definition stable (P : world -> Prop) : Prop := forall w w', (me < w_next_pid w)%N -> still w w' -> P w -> P w'.
  Lemma still_pid w w' : still w w' -> (me < w_next_pid w)%N -> (me < w_next_pid w')%N.
  Proof. intros H1 H2. by destruct (H1 H2) as [H _]. Qed.
  Lemma busy_sure P s p v s' : stable P -> (forall w, P w -> (me < w_next_pid w)%N) -> busy s p v s' -> sure P p -> quiet s -> (me < w_next_pid (s_world s))%N -> P (s_world s').
  Proof.
    intros HP HP'. induction 1 as [s v|s s1 p v s2 H1 H IH|w ts g f k v s2 Hg H IH]; intros Hs Hq Hm.
    - destruct Hs.
    - destruct (other_still _ _ H1 Hq) as [A B]. apply IH; [done|done|]. by eapply still_pid.
    - destruct (Hs w Hg Hm) as [[A B]|[A B]].
      + destruct (busy_touch _ _ _ _ _ H B Hq) as [C D]. eapply HP; [|exact C|exact A]. cbn. by apply HP'.
      + apply IH; [done|done|]. by eapply still_pid.
  Qed.
  Lemma sure_seq {A B} P (p : prog world A) (q : A -> prog world B) :
    guar still p -> (forall a, sure P (q a)) -> sure P (bind p q).
  Proof.
    induction p as [a|m|g f k IH]; cbn; intros Hp Hq; [apply Hq|done|]. intros w Hg Hm. right.
    destruct (Hp w Hg) as [H1 H2]. split; [|exact H1]. by apply IH.
  Qed.
  Lemma sure_now {B} (P : world -> Prop) f (q : prog world B) :
    (forall w, (me < w_next_pid w)%N -> P (f w)) -> guar still q -> sure P (bind (modify f) (fun _ => q)).
  Proof. intros HP Hq w _ Hm. left. cbn. auto. Qed.

  (** ** Idle processes *)
  Lemma loop_receive T f w1 w x : run (try_receive S me T f false) w = Done w1 (Some x) ->
    exists l l', w_loc w !! me = Some l /\ select S T f false l = (x, l') /\ w1 = up_loc (<[me := l']>) w.
  Proof.
    unfold try_receive. cbn [run atom]. unfold receive_op. destruct (w_loc w !! me) as [l|] eqn:E; [|discriminate].
    destruct (select S T f false l) as [y l'] eqn:Es. cbn [fst snd]. intros [= <- <-]. exists l, l'. done.
  Qed.
  Lemma backed_receive T f w w1 ts own x : run (try_receive S me T f false) w = Done w1 (Some x) ->
    backed (Sys w ts) own -> backed (Sys w1 ts) (Ret (VReceived (Some x)) :: own).
  Proof.
    intros E. apply (backed_run _ _ _ (CReceive me T f false)). cbn [call_prog]. unfold ret_as. rewrite run_bind, E. done.
  Qed.
End run.
