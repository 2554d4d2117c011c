(** Specification vocabulary for clients (C35, C36, C61). *)
From stdpp Require Import base list gmap numbers strings countable.
From Verif Require Import Prog Types Mailbox MailboxSpec World ProcApi NodeApi Api ProcSpec GenServer Client.
From Verif Require Super.

(** What the log [g] of deliveries says was put into the mailbox of [me]. *)
Definition arrivals (me : N) (g : list (N * item)) : list item :=
  omap (fun x => if decide (fst x = me) then Some (snd x) else None) g.
(** From [w] to [w'] exactly [xs] arrived for [me]. *)
Definition arrived (me : N) (xs : list item) (w w' : world) : Prop :=
  exists g, w_log w' = w_log w ++ g /\ xs = arrivals me g.

(** The pending message is a reply with tag [r]. *)
Definition is_reply {M} (S : serde) (G : gtype M) (r : reference) (p : pend) : Prop :=
  match read S (gt_id G) p with
  | Some (MUser v) => match gt_view G v with GReply tag _ => tag = r | _ => False end
  | _ => False
  end.
Global Instance is_reply_dec {M} S (G : gtype M) r p : Decision (is_reply S G r p).
Proof. unfold is_reply. repeat case_match; apply _. Defined.
(** The pending message says that the process watched by monitor [k] is gone. *)
Definition down_notice (k : N) (p : pend) : Prop := match p with PSys (SProcessDown _ r _) => r = RLocal k | _ => False end.
Global Instance down_notice_dec k p : Decision (down_notice k p).
Proof. destruct p as [| |[]]; cbn; apply _. Defined.
(** It belongs to the call with monitor reference [k]: its reply or its notice. *)
Definition of_call {M} (S : serde) (G : gtype M) (k : N) (p : pend) : Prop := down_notice k p \/ is_reply S G (RLocal k) p.
Global Instance of_call_dec {M} S (G : gtype M) k p : Decision (of_call S G k p).
Proof. unfold of_call. apply _. Defined.
(** Everything there is to receive for a process, in order: what its mailbox [l] held, then the arrivals
    [xs]; the monitor [k] counts as installed. *)
Definition seen (k : N) (l : plocal) (xs : list item) : list pend :=
  visible ({[RLocal k]} ∪ dom (l_monitors l)) (l_items l ++ l_chan l ++ xs).

(** What a call may return, and what it leaves in the mailbox.  [l]: the mailbox before, [xs]: what
    arrived during the call, [l']: the mailbox after it, [t0], [t1]: the time before and after. *)
Definition call_outcome {M} (S : serde) (G : gtype M) (k limit t0 t1 : N) (l : plocal) (xs : list item) (l' : plocal)
    (res : call_result M) : Prop :=
  let kept := kept_mailbox S (gt_id G) in
  match res with
  | CallOk x =>
      (* the first message of the call is a reply, and its content is returned; all other messages stay *)
      exists pre p post v, seen k l xs = pre ++ p :: post /\ Forall (fun q => ~ of_call S G k q) pre /\
        read S (gt_id G) p = Some (MUser v) /\ gt_view G v = GReply (RLocal k) x /\
        kept (filter (fun q => ~ about k q) (pre ++ post)) (mailbox l')
  | ServerDown why =>
      (* the first message of the call is the notice; all other messages stay *)
      exists pre d post, seen k l xs = pre ++ PSys (SProcessDown d (RLocal k) why) :: post /\
        Forall (fun q => ~ of_call S G k q) pre /\ kept (pre ++ post) (mailbox l')
  | CallTimeout =>
      (* the time is over; when it was, no message of the call had arrived; replies that arrived after
         that but before the end of the call are removed, all other messages stay *)
      (t0 + limit <= t1)%N /\
      exists xs1 xs2 xs3 late rest, xs = xs1 ++ xs2 ++ xs3 /\ Forall (fun q => ~ of_call S G k q) (seen k l xs1) /\
        seen k l (xs1 ++ xs2) = seen k l xs1 ++ late /\ seen k l xs = seen k l xs1 ++ late ++ rest /\
        kept (filter (fun q => ~ is_reply S G (RLocal k) q) (filter (fun q => ~ about k q) (seen k l xs1 ++ late)) ++
              filter (fun q => ~ about k q) rest) (mailbox l')
  end.
(** What the process does during a call. *)
Definition call_deeds {M} (G : gtype M) (me k : N) (d : dest) (m : M) (res : call_result M) (tr : list deed) : Prop :=
  exists rest sent, tr = Did (call_monitor me d) (VRef (RLocal k)) ::
      Did (CSend (DsOne d) (gt_val G (GCall (From (PLocal me) (RLocal k) (negb (dest_is_local d))) m))) sent :: rest /\
    match res with
    | CallOk x => exists v u, rest = [Got (MUser v); Did (CDemonitor me (RLocal k)) u] /\ gt_view G v = GReply (RLocal k) x
    | ServerDown why => exists d, rest = [Got (MSystem (SProcessDown d (RLocal k) why))]
    | CallTimeout => exists u, rest = [GaveUp; Did (CDemonitor me (RLocal k)) u; Flushed]
    end.
(** The pending message is an exit signal of [p]. *)
Definition exit_from (p : pid) (x : pend) : Prop := match x with PSys (SExit q _) => q = p | _ => False end.
Global Instance exit_from_dec p x : Decision (exit_from p x).
Proof. destruct x as [| |[]]; cbn; apply _. Defined.

(** ** stop: None = Ok, Some r = Err(r) *)
Definition stop_outcome {M} (S : serde) (G : gtype M) (k : N) (why : exit_reason) (limit : option N) (t0 t1 : N) (l : plocal) (xs : list item)
    (l' : plocal) (res : option exit_reason) : Prop :=
  let kept := kept_mailbox S (gt_id G) in
  (* the server went down; the notice is taken, all other messages stay *)
  (exists pre d actual post, seen k l xs = pre ++ PSys (SProcessDown d (RLocal k) actual) :: post /\
     Forall (fun q => ~ down_notice k q) pre /\ kept (pre ++ post) (mailbox l') /\
     (actual = why -> res = None) /\ (actual <> why -> res = Some actual)) \/
  (* the time is over, and until then there was no notice *)
  (exists t xs1 xs2, limit = Some t /\ (t0 + t <= t1)%N /\ xs = xs1 ++ xs2 /\ Forall (fun q => ~ down_notice k q) (seen k l xs1) /\
     res = Some (RCustom "timeout") /\ kept (filter (fun q => ~ about k q) (seen k l xs)) (mailbox l')).
Definition stop_deeds {M} (G : gtype M) (me k : N) (d : dest) (why : exit_reason) (tr : list deed) : Prop :=
  exists sent rest, tr = Did (CMonitor me d) (VRef (RLocal k)) :: Did (CSend (DsOne d) (gt_val G (GStop why))) sent :: rest /\
    ((exists d actual, rest = [Got (MSystem (SProcessDown d (RLocal k) actual))]) \/
     (exists u, rest = [GaveUp; Did (CDemonitor me (RLocal k)) u])).

(** ** shutdown *)
Definition shutdown_outcome (S : serde) (T k : N) (p : pid) (d : dest) (why : exit_reason) (l : plocal) (xs : list item) (l' : plocal) : Prop :=
  (* the child went down; the notice is taken; at the end ([xs2] came after it) every exit signal of the
     child is removed, and all other messages stay *)
  exists xs1 xs2 pre post rest, xs = xs1 ++ xs2 /\
    seen k l xs1 = pre ++ PSys (SProcessDown d (RLocal k) why) :: post /\ Forall (fun q => ~ down_notice k q) pre /\
    seen k l xs = seen k l xs1 ++ rest /\
    kept_mailbox S T (filter (fun q => ~ exit_from p q) (pre ++ post) ++ rest) (mailbox l').
Definition shutdown_deeds (me k : N) (p : pid) (how : Super.shutdown) (d : dest) (why : exit_reason) (t0 t1 : N) (tr : list deed) : Prop :=
  exists asked u, tr = Did (CMonitor me (DPid p)) (VRef (RLocal k)) :: asked ++
      [Got (MSystem (SProcessDown d (RLocal k) why)); Did (CUnlink me p) u; Flushed] /\
    match how with
    | Super.BrutalKill => exists v, asked = [Did (CExit me p RKill) v]
    | Super.Infinity => exists v, asked = [Did (CExit me p (RCustom "shutdown")) v]
    | Super.Within limit => exists v, asked = [Did (CExit me p (RCustom "shutdown")) v] \/
        ((t0 + limit <= t1)%N /\ exists v', asked = [Did (CExit me p (RCustom "shutdown")) v; GaveUp; Did (CExit me p RKill) v'])
    end.
