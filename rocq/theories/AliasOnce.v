(** C24 in every schedule: one message or one successful unalias. *)
From stdpp Require Import base list gmap numbers strings countable sorting relations.
From Coq Require Import Lia.
From Verif Require Import Prog ProgProofs ProgInv Types Mailbox World ProcApi NodeApi Api Steps Hist Labels SchedSpec SchedProofs AliasProofs SchedProps.

(** How many of the calls that returned returned [true]. *)
Definition trues (s : sys world val) : nat :=
  list_sum (map (fun p => match p with Ret (VBool true) => 1 | _ => 0 end) (s_threads s)).
(** The only calls that answer yes or no are [unalias] of this alias. *)
Definition asks_only (k : N) (c : call) : Prop :=
  match c with CUnalias _ r => ref_id r = k | CAlive _ | CFlags _ | CNodeAlive => False | _ => True end.

Section once.
  Context (S : serde) (k : N) (v : value).
  Definition yes (r : val) : nat := match r with VBool true => 1 | _ => 0 end.
  Notation inv := (al_inv S k v).
  Notation cnt := (al_cnt S k v).
  Definition returns {A} (Q : A -> Prop) (p : prog world A) : Prop := guarq (fun _ _ => True) Q p.
  Lemma returns_all {A} (p : prog world A) : returns (fun _ => True) p.
  Proof. unfold returns. induction p as [a|m|g f kk IH]; cbn; auto. Qed.
  Lemma returns_as {A} (f : A -> val) (q : prog world A) (Q : val -> Prop) : (forall a, Q (f a)) -> returns Q (ret_as f q).
  Proof. intros H. eapply guarq_bind; [apply returns_all|]. intros a _. apply H. Qed.
  Lemma tok_returns {A} (Q Q' : A -> nat -> Prop) (P : A -> Prop) h (p : prog world A) :
    tok inv cnt Q h p -> returns P p -> (forall a h, Q a h -> P a -> Q' a h) -> tok inv cnt Q' h p.
  Proof.
    intros Hp Hq HQ. revert h Hp. induction p as [a|m|g f kk IH]; intros h Hp; cbn in *; auto.
    intros w Hw Hg. destruct (Hp w Hw Hg) as (H1 & h' & H2 & H3). destruct (Hq w Hg) as [_ H4]. eauto.
  Qed.
  Lemma call_once c : only_via_alias S k v c -> asks_only k c -> tok inv cnt (fun r h => yes r <= h) 0 (call_prog S c).
  Proof.
    intros Ho Ha.
    assert (returns (fun r => yes r = 0) (call_prog S c) -> tok inv cnt (fun r h => yes r <= h) 0 (call_prog S c)) as Hn.
    { intros Hr. eapply tok_returns; [by apply call_tok_alias|exact Hr|]. cbn. intros a h _ ->. lia. }
    destruct c; cbn in Ha; try done; try (apply Hn; cbn [call_prog]; apply returns_as; by intros).
    - cbn [call_prog]. unfold unalias, ret_as. intros w Hw _. cbn. split.
      { destruct Hw as [I1 I2 I3]. by constructor. }
      exists 0. split; [unfold al_cnt, one_shot, carried; cbn; lia|]. intros w1 Hw1 _. cbn. split.
      { destruct Hw1 as [I1 I2 I3]. constructor; auto. intros o. cbn. rewrite lookup_delete_Some. intros [_ E]. exact (I2 o E). }
      rewrite Ha. exists (if bool_decide (is_Some (w_aliases w1 !! k)) then 1 else 0). split.
      + unfold al_cnt, one_shot, carried. cbn. rewrite lookup_delete. destruct (w_aliases w1 !! k); cbn; lia.
      + case_bool_decide; cbn; lia.
    - apply Hn. cbn [call_prog]. apply returns_as. intros [p [r|]]; reflexivity.
  Qed.
End once.

(** C24.  Take a one-shot alias and a message that is sent locally only to it.  In every schedule, the number of times
    the message gets into a mailbox and the number of calls of [Process::unalias] that say the alias was active are
    together at most one: of any number of senders, unaliases, timers and frames, one at most uses the alias up. *)
Theorem C24_used_up_once :
  forall S k v w0 s,
    (k < w_next_ref w0)%N -> (forall o, w_aliases w0 !! k <> Some (o, false)) ->
    timers_only_via_alias S k v w0 -> carried S v w0 = [] ->
    reach (calls_of S (fun c => only_via_alias S k v c /\ asks_only k c)) (Sys w0 []) s ->
    length (carried S v (s_world s)) + trues s <= 1 /\
    (w_aliases w0 !! k = None -> trues s = 0).
Proof.
  intros S k v w0 s Hk Ha Ht H0 Hr.
  pose proof (reach_tok (al_inv S k v) (al_cnt S k v) yes (calls_of S (fun c => only_via_alias S k v c /\ asks_only k c)) w0 s) as H.
  destruct H as [_ H]; [by constructor| |exact Hr|].
  - intros q (c & [Hc Hb] & ->). by apply call_once.
  - assert (list_sum (map (returned yes) (s_threads s)) = trues s) as E.
    { reflexivity. }
    rewrite E in H. unfold al_cnt in H. rewrite H0 in H. cbn in H. split.
    + unfold one_shot in H at 2. case_match; lia.
    + intros Ea. unfold one_shot in H at 2. rewrite Ea in H. lia.
Qed.
Print Assumptions C24_used_up_once.

(** non-vacuity: two senders and two unaliases at once: here an unalias wins, and both messages are lost *)
Example C24_used_up_example :
  let w0 := out_world (run (alias 1 true) two) in
  let snd := call_prog S0 (CSend (DsOne (DAlias (RLocal 1))) (Val 1 5)) in
  let un := fun p => call_prog S0 (CUnalias p (RLocal 1)) in
  exists s, exec [2; 3; 3; 0; 1; 2] (Sys w0 [snd; snd; un 1%N; un 2%N]) = Some s /\
    results s [VUnit; VUnit; VBool false; VBool true] /\ trues s = 1 /\ carried S0 (Val 1 5) (s_world s) = [].
Proof. apply exec_some. vm_compute. auto 6. Qed.
(** ... and here a sender *)
Example C24_used_up_example2 :
  let w0 := out_world (run (alias 1 true) two) in
  let snd := call_prog S0 (CSend (DsOne (DAlias (RLocal 1))) (Val 1 5)) in
  let un := fun p => call_prog S0 (CUnalias p (RLocal 1)) in
  exists s, exec [2; 3; 0; 3; 1; 0; 2; 0] (Sys w0 [snd; snd; un 1%N; un 2%N]) = Some s /\
    results s [VUnit; VUnit; VBool false; VBool false] /\ trues s = 0 /\ carried S0 (Val 1 5) (s_world s) = [(1%N, IUserLocal (Val 1 5))].
Proof. apply exec_some. vm_compute. auto 6. Qed.
