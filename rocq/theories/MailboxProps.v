(** Property theorems C26-C28 (and the mailbox half of C23): hydra/src/process_receiver.rs. *)
From stdpp Require Import base list gmap numbers strings countable.
From Coq Require Import Ascii.
From Verif Require Import Types Mailbox MailboxSpec MailboxProofs.

(** C26.  [select] returns the oldest pending message of the wanted type that passes the filter;
    everything older was not wanted, and the mailbox afterwards holds all other messages in
    arrival order (whatever arrives later comes after them); it waits exactly when nothing pending
    is wanted, and then loses nothing; it never panics.  "Holds" is [kept]: bytes that could be read
    as the wanted type may have been turned into the value.  To receivers of any type that is no
    change (C26_same_to_every_receiver_partial), provided no byte string is a valid encoding of two
    types; without that proviso the property fails (C26_retyping_refuted). *)
Theorem C26_select_partial :
  forall (S : serde) (T : N) (f : message -> bool) (l l' : plocal) (res : sel),
    serde_typed S ->
    select S T f false l = (res, l') ->
    match res with
    | Found m => forall new, exists older p newer,
        mailbox (arrive new l) = older ++ p :: newer /\
        Forall (fun q => wanted S T f q = false) older /\ read S T p = Some m /\ f m = true /\
        kept_mailbox S T (older ++ newer) (mailbox (arrive new l'))
    | Waiting => Forall (fun q => wanted S T f q = false) (mailbox l) /\
        forall new, kept_mailbox S T (mailbox (arrive new l)) (mailbox (arrive new l'))
    | TypePanic => False
    end.
Proof.
  intros S T f l l' res Hty H. pose proof H as H0.
  apply (select_spec S Hty) in H as (Hm & pre & pre' & Hsm & Hu & Hrd & Hmain).
  destruct res as [m| |].
  - destruct Hmain as (p & Hrp & Hf & Hx). intros new. destruct (Hx new) as (post & H1 & H2).
    exists pre, p, post. split; [exact H1|]. split; [exact Hu|]. split; [exact Hrp|]. split; [exact Hf|].
    rewrite H2. apply same_app; [exact Hsm|apply same_refl].
  - assert (Hw : waited S T f false l [] l') by (constructor; exact H0).
    apply (waited_same S Hty) in Hw as [H1 H2]. cbn in H1, H2. split; [|exact H2].
    unfold arrive in H1. rewrite app_nil_r in H1. destruct l; exact H1.
  - destruct Hmain as [[=] _].
Qed.
Print Assumptions C26_select_partial.

(** Keeping a message is invisible to receivers of the same type always, and to receivers of any
    type if encodings are unambiguous. *)
Theorem C26_same_to_every_receiver_partial :
  forall (S : serde) (T : N) (before after : list pend),
    serde_typed S -> kept_mailbox S T before after ->
    map (read S T) after = map (read S T) before /\
    (serde_unambiguous S -> same_mailbox S before after).
Proof.
  intros S T before after Hty H. split; [|intros Hun; eapply same_all; eauto].
  induction H as [|p q b a Hpq H IH]; cbn; [reflexivity|]. f_equal; [|exact IH]. eapply kept_read; eauto.
Qed.
Print Assumptions C26_same_to_every_receiver_partial.

(** C26.  receive() (strict: Process::receive): the oldest pending message comes out; it waits
    exactly when there is none; it panics exactly when the oldest one has another type. *)
Theorem C26_receive_in_order :
  forall (S : serde) (T : N) (l l' : plocal) (res : sel),
    serde_typed S ->
    receive S T true l = (res, l') ->
    match mailbox l with
    | [] => res = Waiting
    | p :: rest => match read S T p with
                   | Some m => res = Found m /\ mailbox l' = rest
                   | None => res = TypePanic
                   end
    end.
Proof.
  intros S T l l' res Hty H. unfold receive in H. pose proof H as H0.
  apply (select_spec S Hty) in H as (Hm & pre & pre' & Hsm & Hu & Hrd & Hmain).
  assert (Hpre : pre = []).
  { destruct pre as [|p pre]; [reflexivity|]. exfalso. inversion Hu as [|? ? Hp]; subst.
    specialize (Hrd eq_refl). inversion Hrd as [|? ? Hr]; subst. unfold wanted in Hp. unfold readable in Hr.
    destruct (read S T p); [discriminate|contradiction]. }
  subst pre. inversion Hsm; subst pre'.
  destruct res as [m| |].
  - destruct Hmain as (p & Hrp & Hf & Hx). destruct (Hx []) as (post & H1 & H2).
    unfold arrive in H1, H2. rewrite app_nil_r in H1, H2.
    assert (E1 : mailbox l = p :: post) by (destruct l; exact H1).
    assert (E2 : mailbox l' = post) by (destruct l'; exact H2).
    rewrite E1, Hrp, E2. split; reflexivity.
  - destruct Hmain as (Hch & Hst & Hq). unfold mailbox. specialize (Hq []). rewrite app_nil_r in Hq. cbn in Hq.
    rewrite Hq. reflexivity.
  - destruct Hmain as (_ & p & post & Hrp & E). rewrite E. cbn. rewrite Hrp. reflexivity.
Qed.
Print Assumptions C26_receive_in_order.

(** The assumption is needed: a receive for one type that merely looks at (and skips) a serialised
    message fixes its type, and a receiver of the other type never gets it (process_receiver.rs:178-186). *)
Theorem C26_retyping_refuted :
  exists (S : serde) (l l1 : plocal) (f : message -> bool),
    serde_typed S /\ fst (receive S 2 false l) = Found (MUser (Val 2 7)) /\
    select S 1 f false l = (Waiting, l1) /\
    fst (receive S 2 false l1) = Waiting.
Proof.
  set (S := Serde (fun _ => []) (fun T _ => Some (Val T 7))).
  set (l := PL [IUserRemote []] [] ∅ ∅).
  exists S, l, (snd (select S 1 (fun _ => false) false l)), (fun _ => false).
  split; [intros T b v [= <-]; reflexivity|]. repeat split.
Qed.
Print Assumptions C26_retyping_refuted.

Example C26_example :  (* an older message of another type and one rejected by the filter are kept *)
  let S := Serde (fun _ => []) (fun T b => if decide (T = N.of_nat (length b)) then Some (Val T 9) else None) in
  let is9 m := match m with MUser v => bool_decide (v_data v = 9%N) | _ => false end in
  let l := PL [IUserRemote ["a"; "b"]%char; IUserLocal (Val 1 5); IProcessDown (DPid (PLocal 3)) (RLocal 4) RNormal]
              [IUserLocal (Val 1 4); IUserRemote ["a"]%char] ∅ {[ RLocal 4 := MForProcess (Some (PLocal 3)) ]} in
  fst (select S 1 is9 false l) = Found (MUser (Val 1 9)) /\
  mailbox (snd (select S 1 is9 false l)) =
    [PVal (Val 1 4); PBytes ["a"; "b"]%char; PVal (Val 1 5); PSys (SProcessDown (DPid (PLocal 3)) (RLocal 4) RNormal)].
Proof. vm_compute. auto. Qed.
(** A serialisation satisfying both hypotheses exists and is non-trivial. *)
Example C26_serde_example :
  let S := Serde (fun v => replicate (N.to_nat (v_type v)) "x"%char)
                 (fun T b => if decide (T = N.of_nat (length b)) then Some (Val T 9) else None) in
  serde_typed S /\ serde_unambiguous S /\ de S 2 ["a"; "b"]%char = Some (Val 2 9).
Proof.
  cbn zeta. split; [|split; [|reflexivity]].
  - intros T b v. cbn. destruct (decide _); [|discriminate]. intros [= <-]. reflexivity.
  - intros T T' b v v'. cbn. destruct (decide _), (decide _); try discriminate. congruence.
Qed.

(** C27.  A receive abandoned after waiting through any number of arrivals has lost nothing: every
    pending message is still there, in order, together with whatever arrives later (for receivers of
    the same type always, and of every type under the proviso of C26). *)
Theorem C27_abandoned_receive_partial :
  forall (S : serde) (T : N) (f : message -> bool) (strict : bool) (l l' : plocal) (arrivals : list (list item)),
    serde_typed S ->
    waited S T f strict l arrivals l' ->
    forall new, let before := mailbox (arrive (concat arrivals ++ new) l) in
                let after := mailbox (arrive new l') in
      kept_mailbox S T before after /\
      map (read S T) after = map (read S T) before /\
      (serde_unambiguous S -> same_mailbox S before after).
Proof.
  intros S T f strict l l' cs Hty H new before after. apply (waited_same S Hty) in H as [_ H].
  split; [apply H|]. apply C26_same_to_every_receiver_partial; [exact Hty|apply H].
Qed.
Print Assumptions C27_abandoned_receive_partial.

Example C27_example :
  let S := Serde (fun _ => []) (fun T b => None) in
  let no _ := false in
  let l := PL [IUserLocal (Val 1 1)] [] ∅ ∅ in
  let l1 := snd (select S 1 no false l) in
  let l2 := snd (resume S 1 no false (arrive [IUserLocal (Val 1 2); IUserLocal (Val 3 3)] l1)) in
  waited S 1 no false l [[IUserLocal (Val 1 2); IUserLocal (Val 3 3)]] l2 /\
  mailbox l2 = [PVal (Val 1 1); PVal (Val 1 2); PVal (Val 3 3)].
Proof.
  cbn zeta. split; [|reflexivity]. eapply (waited_more _ _ _ _ _ _ []); [apply waited_start; reflexivity|reflexivity].
Qed.

(** C28.  remove deletes exactly the pending messages that are wanted, keeps all others in order and
    touches nothing that arrives later; without strict type checking it never panics. *)
Theorem C28_remove :
  forall (S : serde) (T : N) (f : message -> bool) (l : plocal),
    serde_typed S ->
    exists l', remove S T f false l = Some l' /\
      forall new, exists later, mailbox (arrive new l) = mailbox l ++ later /\
        kept_mailbox S T (filter (fun p => wanted S T f p = false) (mailbox l) ++ later) (mailbox (arrive new l')).
Proof.
  intros S T f l Hty. destruct (remove S T f false l) as [l'|] eqn:E; [|apply remove_total in E; contradiction].
  exists l'. split; [reflexivity|]. apply (remove_spec S Hty) in E as [_ E]. exact E.
Qed.
Print Assumptions C28_remove.

Example C28_example :
  let S := Serde (fun _ => []) (fun T b => None) in
  let l := PL [IUserLocal (Val 1 1); IUserLocal (Val 2 1)] [IUserLocal (Val 1 2); IUserLocal (Val 1 1); IUserRemote []] ∅ ∅ in
  let is1 m := match m with MUser v => bool_decide (v_data v = 1%N) | _ => false end in
  mailbox <$> remove S 1 is1 false l = Some [PVal (Val 1 2); PBytes []; PVal (Val 2 1)].
Proof. reflexivity. Qed.

(** The number of pending messages drops by exactly one with each successful receive. *)
Theorem C26_exactly_one_consumed :
  forall (S : serde) (T : N) (f : message -> bool) (l l' : plocal) (m : message),
    serde_typed S ->
    select S T f false l = (Found m, l') -> length (mailbox l) = Datatypes.S (length (mailbox l')).
Proof.
  intros S T f l l' m Hty H. apply C26_select_partial in H; [|assumption..].
  destruct (H []) as (older & p & newer & H1 & _ & _ & _ & H2).
  unfold arrive in H1, H2. rewrite app_nil_r in H1, H2.
  assert (E1 : mailbox l = older ++ p :: newer) by (destruct l; exact H1).
  assert (E2 : kept_mailbox S T (older ++ newer) (mailbox l')) by (destruct l'; exact H2).
  apply Forall2_length in E2. rewrite E1, <- E2, !app_length. cbn. lia.
Qed.
Print Assumptions C26_exactly_one_consumed.
