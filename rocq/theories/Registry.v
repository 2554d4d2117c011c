(** Model of registry.rs: the table of registries, registry processes, and the functions a client calls.
    No proofs in this file.

    The table REGISTRY (registry.rs:34) is shared by all processes of the node.  A registry process handles one
    message at a time; clients on the same node read and remove entries directly.  A handler is
    one step here: while it runs, another process can only remove entries of the table (:285-296), and the
    handler reads and writes only the entry of its own key, which it has found absent (start) or removes itself.
    The outcome of the n-th call of a start routine is [answers n], a parameter.  Not modelled: start
    routines that themselves call the registry; how the processes told to exit react; the waiting of
    terminate (:378-384, see Shutdown.v); timeouts of calls; the order of BTreeMap and DashMap iteration. *)
From stdpp Require Import base list gmap numbers strings sets countable.
From Coq Require Import ZArith.
From Verif Require Import Types Super.

(** registry.rs:38-53. *)
Inductive rkey :=
| KI32 (n : Z) | KI64 (n : Z) | KI128 (n : Z) | KU32 (n : N) | KU64 (n : N) | KU128 (n : N) | KString (s : string).
Global Instance rkey_eq_dec : EqDecision rkey. Proof. solve_decision. Defined.
Global Program Instance rkey_countable : Countable rkey :=
  inj_countable' (fun k => match k with
                  | KI32 n => inl (inl (inl n)) | KI64 n => inl (inl (inr n)) | KI128 n => inl (inr n)
                  | KU32 n => inr (inl (inl n)) | KU64 n => inr (inl (inr n)) | KU128 n => inr (inr (inl n))
                  | KString s => inr (inr (inr s)) end)
                 (fun x => match x with
                  | inl (inl (inl n)) => KI32 n | inl (inl (inr n)) => KI64 n | inl (inr n) => KI128 n
                  | inr (inl (inl n)) => KU32 n | inr (inl (inr n)) => KU64 n | inr (inr (inl n)) => KU128 n
                  | inr (inr (inr s)) => KString s end) _.
Next Obligation. by intros []. Qed.

(** :95-110; [g_start]: a start routine was given. *)
Record reg := Reg { g_name : string; g_start : bool; g_shutdown : shutdown; g_lookup : gmap pid rkey }.
(** What a registry does to processes. *)
Inductive reg_effect :=
| GStarts (name : string) (k : rkey) (a : answer)     (* a call of the start routine of the registry [name] and what it returned *)
| GUnlinks (p : pid)
| GExits (p : pid) (r : exit_reason). (* Process::exit *)
(** REGISTRY; the running registry processes; the process names of registries; the number of calls of start
    routines; the casts on their way, with the process they were sent to (:293); the effects so far. *)
Record rworld := RWorld {
  t_tables : gmap string (gmap rkey pid); t_regs : gmap pid reg; t_names : gmap string pid;
  t_tick : nat; t_casts : list (pid * pid); t_log : list reg_effect }.
(** :83-94. *)
Inductive reg_error := GStartError (r : exit_reason) | GStartNotSupported | GAlreadyStarted (p : pid) | GNotFound | GServerDown.

Definition with_tables (f : gmap string (gmap rkey pid) -> gmap string (gmap rkey pid)) (w : rworld) : rworld :=
  RWorld (f (t_tables w)) (t_regs w) (t_names w) (t_tick w) (t_casts w) (t_log w).
Definition with_regs (f : gmap pid reg -> gmap pid reg) (w : rworld) : rworld :=
  RWorld (t_tables w) (f (t_regs w)) (t_names w) (t_tick w) (t_casts w) (t_log w).
Definition with_names (f : gmap string pid -> gmap string pid) (w : rworld) : rworld :=
  RWorld (t_tables w) (t_regs w) (f (t_names w)) (t_tick w) (t_casts w) (t_log w).
Definition glog (l : list reg_effect) (w : rworld) : rworld :=
  RWorld (t_tables w) (t_regs w) (t_names w) (t_tick w) (t_casts w) (t_log w ++ l).
(** A cast to a name that nobody has goes nowhere. *)
Definition gcast (name : string) (p : pid) (w : rworld) : rworld :=
  RWorld (t_tables w) (t_regs w) (t_names w) (t_tick w) (match t_names w !! name with Some srv => t_casts w ++ [(srv, p)] | None => t_casts w end) (t_log w).
Definition with_casts (f : list (pid * pid) -> list (pid * pid)) (w : rworld) : rworld :=
  RWorld (t_tables w) (t_regs w) (t_names w) (t_tick w) (f (t_casts w)) (t_log w).
Fixpoint take_one (x : pid * pid) (l : list (pid * pid)) : list (pid * pid) :=
  match l with [] => [] | y :: l => if decide (y = x) then l else y :: take_one x l end.
Definition with_lookup (f : gmap pid rkey -> gmap pid rkey) (g : reg) : reg := Reg (g_name g) (g_start g) (g_shutdown g) (f (g_lookup g)).
Definition set_lookup (srv : pid) (f : gmap pid rkey -> gmap pid rkey) : rworld -> rworld := with_regs (alter (with_lookup f) srv).

(** ** The table (:620-663) *)
Definition lookup_process (w : rworld) (name : string) (k : rkey) : option pid := t_tables w !! name ≫= fun t => t !! k.
Definition remove_process (name : string) (k : rkey) (w : rworld) : rworld := with_tables (alter (delete k) name) w.
Definition count_processes (w : rworld) (name : string) : nat := match t_tables w !! name with Some t => size t | None => 0 end.
Definition list_processes (w : rworld) (name : string) : list (rkey * pid) := match t_tables w !! name with Some t => map_to_list t | None => [] end.
Definition register_process (name : string) (k : rkey) (p : pid) (w : rworld) : rworld :=
  with_tables (fun t => <[name := <[k := p]> (default ∅ (t !! name))]> t) w.

(** ** The end of a registry process *)
(** :454-463 Drop, for a registry value [g]. *)
Definition drop_reg (g : reg) (w : rworld) : rworld :=
  glog (concat (map (fun '(p, _) => [GUnlinks p; GExits p RKill]) (map_to_list (g_lookup g)))) (with_tables (delete (g_name g)) w).
(** The process [srv] is gone with its name (process.rs:417-433), its value dropped. *)
Definition gone_reg (srv : pid) (w : rworld) : rworld :=
  match t_regs w !! srv with
  | Some g => drop_reg g (with_regs (delete srv) (with_names (filter (fun '(_, p) => p <> srv)) w))
  | None => w
  end.
(** :358-390 terminate_children. *)
Definition terminate_reg (srv : pid) (w : rworld) : rworld :=
  match t_regs w !! srv with
  | None => w
  | Some g =>
      match g_shutdown g with
      | BrutalKill => w
      | _ =>
          match t_tables w !! g_name g with
          | None => w
          | Some t =>
              let told := filter (fun '(_, k) => is_Some (t !! k)) (map_to_list (g_lookup g)) in
              set_lookup srv (fun _ => ∅) (glog (map (fun '(p, _) => GExits p (RCustom "shutdown")) told) (with_tables (delete (g_name g)) w))
          end
      end
  end.

(** ** Messages (:56-80) *)
Inductive rcall := CLookup (k : rkey) | CLookupOrStart (k : rkey) | CStart (k : rkey) | CStop (k : rkey) | CCount | CList | CRemove (k : rkey).
Inductive rreply :=
| PLookup (x : option pid) | PStart (x : reg_error + pid) | PStop (x : option reg_error) | PCount (n : nat) | PList (l : list (rkey * pid)) | PRemove (x : option pid)
| PPanic.                      (* the registry process panics and is gone *)

Section registry.
  Context (answers : nat -> answer).
  (** :329-356 start_by_key, lookup_or_start_by_key. *)
  Definition start_by_key (srv : pid) (g : reg) (k : rkey) (w : rworld) : rworld * rreply :=
    match lookup_process w (g_name g) k with
    | Some p => (w, PStart (inl (GAlreadyStarted p)))
    | None =>
        if g_start g then
          let a := answers (t_tick w) in
          let w1 := RWorld (t_tables w) (t_regs w) (t_names w) (S (t_tick w)) (t_casts w) (t_log w ++ [GStarts (g_name g) k a]) in
          match a with
          | Up p => (register_process (g_name g) k p (set_lookup srv (fun m => <[p := k]> m) w1), PStart (inr p))
          | Down r => (w1, PStart (inl (GStartError r)))
          end
        else (gone_reg srv w, PPanic)
    end.
  Definition lookup_or_start_by_key (srv : pid) (g : reg) (k : rkey) (w : rworld) : rworld * rreply :=
    match lookup_process w (g_name g) k with
    | Some p => (w, PStart (inr p))
    | None => start_by_key srv g k w
    end.
  (** :393-407 stop_by_key. *)
  Definition stop_by_key (srv : pid) (g : reg) (k : rkey) (w : rworld) : rworld * rreply :=
    match lookup_process w (g_name g) k with
    | None => (w, PStop (Some GNotFound))
    | Some p =>
        (remove_process (g_name g) k (set_lookup srv (delete p) (glog [GUnlinks p; GExits p (RCustom "shutdown")] w)), PStop None)
    end.
  (** :415-423 remove_by_key. *)
  Definition remove_by_key (srv : pid) (g : reg) (k : rkey) (w : rworld) : rworld * rreply :=
    match lookup_process w (g_name g) k with
    | None => (w, PRemove None)
    | Some p => (set_lookup srv (delete p) (glog [GUnlinks p] (remove_process (g_name g) k w)), PRemove (Some p))
    end.
  (** :493-542 handle_call. *)
  Definition handle_rcall (srv : pid) (g : reg) (m : rcall) (w : rworld) : rworld * rreply :=
    match m with
    | CLookup k => (w, PLookup (lookup_process w (g_name g) k))
    | CLookupOrStart k => lookup_or_start_by_key srv g k w
    | CStart k => start_by_key srv g k w
    | CStop k => stop_by_key srv g k w
    | CCount => (w, PCount (count_processes w (g_name g)))
    | CList => (w, PList (list_processes w (g_name g)))
    | CRemove k => remove_by_key srv g k w
    end.
  (** :478-491 handle_cast: RemoveLookup. *)
  Definition handle_rcast (srv : pid) (p : pid) (w : rworld) : rworld := set_lookup srv (delete p) (glog [GUnlinks p] w).
  (** :545-553 and :426-441 handle_info: an exit message. *)
  Definition handle_rexit (srv : pid) (g : reg) (p : pid) (w : rworld) : rworld :=
    match g_lookup g !! p with
    | None => w
    | Some k =>
        with_tables (alter (fun t => if decide (t !! k = Some p) then delete k t else t) (g_name g)) (set_lookup srv (delete p) w)
    end.
  (** :300-307 start (:311-317 start_link), with gen_server.rs:340-379: the new process [srv] takes the name or gives up. *)
  Definition start_registry (srv : pid) (g : reg) (opt : option string) (w : rworld) : rworld * (exit_reason + pid) :=
    let name := default (g_name g) opt in
    match t_names w !! name with
    | Some _ => (drop_reg g w, inl (RCustom "already_started"))
    | None => (with_names (<[name := srv]>) (with_regs (<[srv := g]>) w), inr srv)
    end.
  (** :113-124 Registry::new with :130-145 with_start, with_shutdown. *)
  Definition new_reg (name : string) (start : bool) (sh : shutdown) : reg := Reg name start sh ∅.

  (** ** What can happen *)
  Inductive revent :=
  | QStart (srv : pid) (name : string) (start : bool) (sh : shutdown) (opt : option string)  (* Registry::new(..).start in a new process *)
  | QCall (srv : pid) (m : rcall)         (* a call handled by the registry process [srv] *)
  | QCast (srv : pid) (p : pid)           (* a RemoveLookup on its way is handled *)
  | QExit (srv : pid) (p : pid)           (* an exit message from [p] handled *)
  | QEnd (srv : pid)                      (* stopped in an orderly way *)
  | QKill (srv : pid)                     (* killed *)
  | QLookup (name : string) (k : rkey)    (* Registry::lookup, count, list on the same node: :150-165, :251-283 *)
  | QRemove (name : string) (k : rkey).   (* Registry::remove on the same node: :285-300 *)
  Definition rstep (w : rworld) (e : revent) : rworld :=
    match e with
    | QStart srv name start sh opt => fst (start_registry srv (new_reg name start sh) opt w)
    | QCall srv m => match t_regs w !! srv with Some g => fst (handle_rcall srv g m w) | None => w end
    | QCast srv p =>
        match t_regs w !! srv with
        | Some _ => if decide ((srv, p) ∈ t_casts w) then handle_rcast srv p (with_casts (take_one (srv, p)) w) else w
        | None => w
        end
    | QExit srv p => match t_regs w !! srv with Some g => handle_rexit srv g p w | None => w end
    | QEnd srv => gone_reg srv (terminate_reg srv w)
    | QKill srv => gone_reg srv w
    | QLookup _ _ => w
    | QRemove name k =>
        match lookup_process w name k with
        | Some p => gcast name p (remove_process name k w)
        | None => w
        end
    end.
  Definition rplays (w : rworld) (es : list revent) : rworld := fold_left rstep es w.
  Definition rworld0 : rworld := RWorld ∅ ∅ ∅ 0 [] [].

  (** ** The functions a client calls, for a registry named [name] on its own node (:168-248): a look at the table, then
      a call to the registry process if that did not settle it. *)
  Definition call_named (name : string) (m : rcall) (w : rworld) : rworld * (reg_error + rreply) :=
    match t_names w !! name with
    | Some srv => match t_regs w !! srv with Some g => let '(w', r) := handle_rcall srv g m w in (w', inr r) | None => (w, inl GServerDown) end
    | None => (w, inl GServerDown)
    end.
  Definition reg_lookup_or_start (name : string) (k : rkey) (w : rworld) : rworld * (reg_error + pid) :=
    match lookup_process w name k with
    | Some p => (w, inr p)
    | None => match call_named name (CLookupOrStart k) w with
              | (w', inr (PStart (inr p))) => (w', inr p)
              | (w', inr (PStart (inl e))) => (w', inl e)
              | (w', _) => (w', inl GServerDown)
              end
    end.
  Definition reg_start_process (name : string) (k : rkey) (w : rworld) : rworld * (reg_error + pid) :=
    match lookup_process w name k with
    | Some p => (w, inl (GAlreadyStarted p))
    | None => match call_named name (CStart k) w with
              | (w', inr (PStart (inr p))) => (w', inr p)
              | (w', inr (PStart (inl e))) => (w', inl e)
              | (w', _) => (w', inl GServerDown)
              end
    end.
  Definition reg_stop_process (name : string) (k : rkey) (w : rworld) : rworld * option reg_error :=
    match lookup_process w name k with
    | None => (w, Some GNotFound)
    | Some _ => match call_named name (CStop k) w with
                | (w', inr (PStop x)) => (w', x)
                | (w', _) => (w', Some GServerDown)
                end
    end.
End registry.
