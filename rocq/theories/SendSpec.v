(** Specification vocabulary for [Process::send]: who is meant, what arrives, which frames leave. *)
From stdpp Require Import base list gmap numbers strings countable sorting.
From Verif Require Import Prog Types Mailbox MailboxSpec World ProcApi NodeApi Api SchedSpec ProcSpec.

(** The local process a destination means in [w], if it exists. *)
Definition recipient (w : world) (d : dest) : option N :=
  match d with
  | DPid (PLocal i) => match w_regs w !! i with Some _ => Some i | None => None end
  | DNamed n NLocal => match w_names w !! n with
                       | Some i => match w_regs w !! i with Some _ => Some i | None => None end
                       | None => None
                       end
  | DAlias (RLocal k) => match w_aliases w !! k with Some (o, _) => Some o | None => None end
  | _ => None
  end.
(** The destination is an alias that allows one message only. *)
Definition one_shot_alias (w : world) (d : dest) : bool :=
  match d with
  | DAlias (RLocal k) => match w_aliases w !! k with Some (_, b) => b | None => false end
  | _ => false
  end.

(** What arrives where when [x] is delivered to [d] by itself: a one-shot alias first tells its
    owner that it is used up. *)
Definition arrives (w : world) (d : dest) (x : item) : list (N * item) :=
  match recipient w d with
  | Some j => match d with
              | DAlias r => if one_shot_alias w d then [(j, IAliasDeactivated (ref_id r)); (j, x)] else [(j, x)]
              | _ => [(j, x)]
              end
  | None => []
  end.
(** The aliases that are left. *)
Definition aliases_after (w : world) (d : dest) : gmap N (N * bool) :=
  if one_shot_alias w d then match d with DAlias r => delete (ref_id r) (w_aliases w) | _ => w_aliases w end
  else w_aliases w.
(** Deliveries one after the other. *)
Fixpoint arrivals (w : world) (l : list (dest * item)) : list (N * item) :=
  match l with
  | [] => []
  | (d, x) :: l => arrives w d x ++ arrivals (up_aliases (fun _ => aliases_after w d) w) l
  end.
Fixpoint aliases_left (w : world) (l : list (dest * item)) : gmap N (N * bool) :=
  match l with
  | [] => w_aliases w
  | (d, x) :: l => aliases_left (up_aliases (fun _ => aliases_after w d) w) l
  end.
(** What of it is for process [j]. *)
Definition mail_for (j : N) (l : list (N * item)) : list item :=
  map snd (filter (fun x => fst x = j) l).

(** The local destinations in the order they are served: the first one last, because it gets the
    value itself while the others get serialised copies (process_kernel.rs:47-76). *)
Definition serve_order (S : serde) (v : value) (l : list dest) : list (dest * item) :=
  match filter (fun d => dest_is_local d = true) l with
  | [] => []
  | d :: rest => map (fun d => (d, IUserRemote (ser S v))) rest ++ [(d, IUserLocal v)]
  end.

(** ** Remote destinations *)
(** The node id and the target of a remote destination, by the node table of [w]. *)
Definition on_node (w : world) (d : dest) : option (N * send_target) :=
  match d with
  | DPid (PRemote i n) => Some (n, TPid i)
  | DNamed s (NRemote name addr) => match w_nmap w !! NRemote name addr with
                                    | Some n => Some (n, TNamed s)
                                    | None => None
                                    end
  | DAlias (RRemote i n) => Some (n, TAlias i)
  | _ => None
  end.
(** The targets on node [n], in order. *)
Definition targets_on (w : world) (n : N) (l : list dest) : list send_target :=
  map snd (filter (fun t => fst t = n) (omap (on_node w) l)).
Definition nodes_meant (w : world) (l : list dest) : gset N :=
  list_to_set (map fst (omap (on_node w) l)).
(** Where a frame for node [n] goes: to the connection's sender process, or into the pending queue
    while a connection is being made; nowhere if the node is only known, or forgotten. *)
Definition channel_of (w : world) (n : N) : option (N + node) :=
  match w_nregs w !! n with
  | None => None
  | Some r =>
      match n_sender r with
      | Some s => match w_regs w !! pid_id s with Some _ => Some (inl (pid_id s)) | None => None end
      | None => match n_state r with Known => None | _ => Some (inr (NRemote (n_name r) (n_addr r))) end
      end
  end.
(** The frames in such a channel. *)
Definition queued (w : world) (c : N + node) : list frame :=
  match c with inl s => default [] (w_out w !! s) | inr nd => default [] (w_pend w !! nd) end.
(** One frame per node, in node order. *)
Definition frames_for (S : serde) (v : value) (w : world) (l : list dest) (c : N + node) : list frame :=
  map (fun n => FSend (targets_on w n l) (ser S v))
      (filter (fun n => channel_of w n = Some c) (sorted_ids (nodes_meant w l))).
(** The nodes that a send mentions by name. *)
Definition names_node (nd : node) (d : dest) : Prop := match d with DNamed _ n => n = nd | _ => False end.

(** ** The effect of a send *)
Record sends (S : serde) (v : value) (l : list dest) (w w' : world) : Prop := Sends {
  (* mailboxes: each process receives exactly its mail *)
  sn_mail : forall j, w_loc w' !! j = after_arrival (mail_for j (arrivals w (serve_order S v l))) <$> w_loc w !! j;
  (* used one-shot aliases are gone *)
  sn_aliases : w_aliases w' = aliases_left w (serve_order S v l);
  (* frames: one per node meant *)
  sn_frames : forall c, queued w' c = queued w c ++ frames_for S v w' l c;
  (* nodes mentioned by name become known, and nothing else happens to the node tables *)
  sn_nmap_old : forall nd n, w_nmap w !! nd = Some n -> w_nmap w' !! nd = Some n;
  sn_nmap_new : forall nd n, w_nmap w' !! nd = Some n -> w_nmap w !! nd = None ->
                  (exists d, d ∈ l /\ names_node nd d) /\ (w_next_node w <= n < w_next_node w')%N /\
                  exists name addr, nd = NRemote name addr /\ w_nregs w' !! n = Some (new_nreg None Known name addr);
  sn_known : forall name addr d, d ∈ l -> names_node (NRemote name addr) d -> is_Some (w_nmap w' !! NRemote name addr);
  sn_nregs : forall n, (n < w_next_node w)%N \/ (w_next_node w' <= n)%N -> w_nregs w' !! n = w_nregs w !! n;
  (* and nothing else *)
  sn_regs : w_regs w' = w_regs w; sn_names : w_names w' = w_names w;
  sn_next_pid : w_next_pid w' = w_next_pid w; sn_next_ref : w_next_ref w' = w_next_ref w;
  sn_timers : w_timers w' = w_timers w; sn_tasks : w_tasks w' = w_tasks w;
  sn_links : w_links w' = w_links w; sn_mons : w_mons w' = w_mons w; sn_running : w_running w' = w_running w;
  sn_nmons : w_nmons w' = w_nmons w; sn_nlinks : w_nlinks w' = w_nlinks w; sn_now : w_now w' = w_now w }.
