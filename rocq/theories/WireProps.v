(** C11, C13: identity of pids, references and nodes across the wire. *)
From stdpp Require Import base list gmap numbers strings countable relations.
From Coq Require Import Lia.
From Verif Require Import Prog ProgProofs ProgInv Types Mailbox World ProcApi NodeApi Api Steps Hist Play SchedSpec SchedProofs NetSpec NetFrames NetLife ConnProofs SchedProps ConnProps Wire.

(** ** What a value means on the node with state [w]: a process (or reference) number and the name and
    address of the node it is on; nothing if that node is not known here (or this node is not started). *)
Definition at_node (i : N) (l : option (string * sockaddr)) : option (N * string * sockaddr) :=
  match l with Some (n, a) => Some (i, n, a) | None => None end.
Definition pid_home (w : world) (p : pid) : option (N * string * sockaddr) :=
  match p with PLocal i => at_node i (lookup_local w) | PRemote i n => at_node i (lookup_remote n w) end.
Definition ref_home (w : world) (r : reference) : option (N * string * sockaddr) :=
  match r with RLocal i => at_node i (lookup_local w) | RRemote i n => at_node i (lookup_remote n w) end.
Definition node_home (w : world) (nd : node) : option (string * sockaddr) :=
  match nd with NLocal => lookup_local w | NRemote n a => Some (n, a) end.
(** The node runs under this name and address. *)
Definition runs_as (w : world) (nm : string) (ad : sockaddr) : Prop := lookup_local w = Some (nm, ad).
(** The address has no flow label and no scope id. *)
Definition plain (a : sockaddr) : Prop := match a with SA4 _ _ => True | SA6 _ _ fl sc => fl = 0%N /\ sc = 0%N end.

(** A value travels from the node with state [w] to the node with state [v], which is then in [v']. *)
Inductive travels {A X} (enc : A -> prog world X) (tr : X -> X) (dec : X -> prog world A) (w : world) (p : A) (v : world) (q : A) (v' : world) : Prop :=
| Travels x : run (enc p) w = Done w x -> run (dec (tr x)) v = Done v' q -> travels enc tr dec w p v q v'.
Definition pid_travels := travels pid_to_wire transmit pid_of_wire.
Definition ref_travels := travels ref_to_wire transmit ref_of_wire.
Definition node_travels := travels node_to_wire transmit_node node_of_wire.

Lemma wire_plain a : plain a -> wire_addr a = a.
Proof. destruct a; [done|]. by intros [-> ->]. Qed.
Lemma pid_enc p w : run (pid_to_wire p) w = Done w (wire_of (pid_id p) (match p with PLocal _ => lookup_local w | PRemote _ n => lookup_remote n w end)).
Proof. by destruct p. Qed.
Lemma ref_enc p w : run (ref_to_wire p) w = Done w (wire_of (ref_id p) (match p with RLocal _ => lookup_local w | RRemote _ n => lookup_remote n w end)).
Proof. by destruct p. Qed.

Lemma register_local nm ad c w : tables_ok w -> lookup_local (registers nm ad c w) = lookup_local w.
Proof.
  intros H. unfold registers, node_register_op. destruct (w_nmap w !! NRemote nm ad) as [id|] eqn:E.
  - cbn [fst]. destruct c; [|done]. destruct (w_nregs w !! id) as [r|] eqn:Er; [|done]. destruct (n_sup r); [done|].
    unfold lookup_local, lookup_remote. cbn. rewrite lookup_insert_ne; [done|]. destruct (to_map _ H _ _ E) as (r' & _ & Hm & _). done.
  - pose proof (to_next _ H). destruct c; cbn; unfold lookup_local, lookup_remote; cbn; rewrite lookup_insert_ne; try done; unfold LOCAL_NODE_ID; lia.
Qed.
Lemma register_home nm ad w n : tables_ok w -> run (node_register (NRemote nm ad) false) w = Done (registers nm ad false w) n ->
  lookup_remote n (registers nm ad false w) = Some (nm, ad).
Proof.
  intros H E. destruct (registers_spec nm ad false w) as (n' & E' & Em & _). rewrite E in E'. injection E' as <-.
  destruct (tables_entry (registers nm ad false w) nm ad n) as (r & Hr & _ & <- & <- & _); [by apply tables_register|done|].
  unfold lookup_remote. by rewrite Hr.
Qed.
Lemma register_keeps nm ad w i r : tables_ok w -> w_nregs w !! i = Some r -> w_nregs (registers nm ad false w) !! i = Some r.
Proof.
  intros H Hi. unfold registers, node_register_op. destruct (w_nmap w !! NRemote nm ad) as [id|]; [done|]. cbn.
  pose proof (to_below _ H _ _ Hi). rewrite lookup_insert_ne; [done|]. lia.
Qed.

Section wire.
  (** Pids and references alike: [mkL]/[mkR] are the two constructors. *)
  Context {A : Type} (mkL : N -> A) (mkR : N -> N -> A) (home : world -> A -> option (N * string * sockaddr)).
  Hypothesis home_L : forall w i, home w (mkL i) = at_node i (lookup_local w).
  Hypothesis home_R : forall w i n, home w (mkR i n) = at_node i (lookup_remote n w).
  Definition decode (x : id_wire) : prog world A :=
    match x with
    | WithNode i nm ad =>
        let! l := observe lookup_local in
        match l with
        | Some (n, a) => if decide (n = nm /\ a = ad) then Ret (mkL i)
                         else let! id := node_register (NRemote nm ad) false in Ret (mkR i id)
        | None => Ret (mkR i INVALID_NODE_ID)
        end
    | NodeUnavailable i => Ret (mkR i INVALID_NODE_ID)
    end.
  Lemma decode_ok i nm ad n a v : runs_as v n a -> tables_ok v ->
    exists v' q, run (decode (WithNode i nm ad)) v = Done v' q /\ home v' q = Some (i, nm, ad) /\ tables_ok v' /\ lookup_local v' = lookup_local v /\
      (forall j r, w_nregs v !! j = Some r -> w_nregs v' !! j = Some r) /\
      (if decide (n = nm /\ a = ad) then q = mkL i else exists m, q = mkR i m) /\
      w_regs v' = w_regs v /\ w_loc v' = w_loc v /\ w_out v' = w_out v /\ w_pend v' = w_pend v.
  Proof.
    intros Hv Ht. unfold decode. destruct (decide (n = nm /\ a = ad)) as [[-> ->]|Hne].
    - exists v, (mkL i). rewrite run_bind, run_observe. rewrite Hv. rewrite decide_True by done. rewrite home_L, Hv. split_and!; done.
    - destruct (registers_spec nm ad false v) as (m & E & _). exists (registers nm ad false v), (mkR i m).
      rewrite run_bind, run_observe. rewrite Hv. rewrite decide_False by done. rewrite run_bind, E. cbn [run]. split; [done|].
      rewrite home_R, (register_home nm ad v m Ht E). split; [done|]. split; [by apply tables_register|]. split; [rewrite register_local; done|].
      split; [intros j r; by apply register_keeps|]. split; [by exists m|].
      unfold registers, node_register_op. destruct (w_nmap v !! NRemote nm ad); done.
  Qed.
End wire.

(** ** C11. *)
(** A pid that means a process here means the same process there, and is local there exactly if that
    process is one of the receiving node; reading it changes nothing but (at most) that its node is
    known there.  In any state of the two nodes. *)
Theorem C11_pid_same_process :
  forall S w p v n a i nm ad, proper S v -> runs_as v n a -> pid_home w p = Some (i, nm, ad) -> plain ad ->
    exists q v', pid_travels w p v q v' /\ pid_home v' q = Some (i, nm, ad) /\
      (q = PLocal i <-> (n, a) = (nm, ad)) /\ tables_ok v' /\ runs_as v' n a /\
      (forall j r, w_nregs v !! j = Some r -> w_nregs v' !! j = Some r) /\
      w_regs v' = w_regs v /\ w_loc v' = w_loc v /\ w_out v' = w_out v /\ w_pend v' = w_pend v.
Proof.
  intros S w p v n a i nm ad Hp Hv Hh Ha. apply proper_tables in Hp.
  destruct (decode_ok PLocal PRemote pid_home (fun _ _ => eq_refl) (fun _ _ _ => eq_refl) i nm ad n a v Hv Hp) as (v' & q & E & Hq & Ht & Hl & Hk & Hc & Hrest).
  exists q, v'. split; [|split; [done|split; [|split; [done|split; [by unfold runs_as; rewrite Hl|split; [done|done]]]]]].
  - econstructor; [apply pid_enc|]. destruct p as [j|j m]; cbn in Hh |- *.
    + unfold lookup_local in *. destruct (lookup_remote LOCAL_NODE_ID w) as [[n' a']|]; [|discriminate]. cbn in *. injection Hh as -> -> ->. rewrite (wire_plain _ Ha). exact E.
    + destruct (lookup_remote m w) as [[n' a']|]; [|discriminate]. cbn in *. injection Hh as -> -> ->. rewrite (wire_plain _ Ha). exact E.
  - destruct (decide (n = nm /\ a = ad)) as [[-> ->]|Hne]; [by rewrite Hc|]. destruct Hc as [m ->]. split; [discriminate|]. intros [= -> ->]. tauto.
Qed.
Print Assumptions C11_pid_same_process.
Theorem C11_ref_same_reference :
  forall S w p v n a i nm ad, proper S v -> runs_as v n a -> ref_home w p = Some (i, nm, ad) -> plain ad ->
    exists q v', ref_travels w p v q v' /\ ref_home v' q = Some (i, nm, ad) /\
      (q = RLocal i <-> (n, a) = (nm, ad)) /\ tables_ok v' /\ runs_as v' n a /\
      (forall j r, w_nregs v !! j = Some r -> w_nregs v' !! j = Some r) /\
      w_regs v' = w_regs v /\ w_loc v' = w_loc v /\ w_out v' = w_out v /\ w_pend v' = w_pend v.
Proof.
  intros S w p v n a i nm ad Hp Hv Hh Ha. apply proper_tables in Hp.
  destruct (decode_ok RLocal RRemote ref_home (fun _ _ => eq_refl) (fun _ _ _ => eq_refl) i nm ad n a v Hv Hp) as (v' & q & E & Hq & Ht & Hl & Hk & Hc & Hrest).
  exists q, v'. split; [|split; [done|split; [|split; [done|split; [by unfold runs_as; rewrite Hl|split; [done|done]]]]]].
  - econstructor; [apply ref_enc|]. destruct p as [j|j m]; cbn in Hh |- *.
    + unfold lookup_local in *. destruct (lookup_remote LOCAL_NODE_ID w) as [[n' a']|]; [|discriminate]. cbn in *. injection Hh as -> -> ->. rewrite (wire_plain _ Ha). exact E.
    + destruct (lookup_remote m w) as [[n' a']|]; [|discriminate]. cbn in *. injection Hh as -> -> ->. rewrite (wire_plain _ Ha). exact E.
  - destruct (decide (n = nm /\ a = ad)) as [[-> ->]|Hne]; [by rewrite Hc|]. destruct Hc as [m ->]. split; [discriminate|]. intros [= -> ->]. tauto.
Qed.
Print Assumptions C11_ref_same_reference.
(** Determinism of the trip, to state the rest for any trip. *)
Lemma travels_det {A X} (enc : A -> prog world X) tr dec w p v q1 v1 q2 v2 :
  travels enc tr dec w p v q1 v1 -> travels enc tr dec w p v q2 v2 -> q1 = q2 /\ v1 = v2.
Proof. intros [x E1 E2] [y F1 F2]. rewrite E1 in F1. injection F1 as <-. rewrite E2 in F2. by injection F2 as -> ->. Qed.
(** Sent back home, to the node in any later state [u] in which it still runs under its name, it is the
    original local pid again. *)
Theorem C11_pid_back_home :
  forall S w nm ad i v n a q v' u q' u', runs_as w nm ad -> plain ad -> proper S v -> runs_as v n a -> proper S u -> runs_as u nm ad ->
    pid_travels w (PLocal i) v q v' -> pid_travels v' q u q' u' -> q' = PLocal i /\ u' = u.
Proof.
  intros S w nm ad i v n a q v' u q' u' Hw Ha Hv Hvn Hu Hun T1 T2.
  assert (pid_home w (PLocal i) = Some (i, nm, ad)) as Hh by (cbn; by rewrite Hw).
  destruct (C11_pid_same_process S w (PLocal i) v n a i nm ad Hv Hvn Hh Ha) as (q1 & v1 & T & Hq & _).
  destruct (travels_det _ _ _ _ _ _ _ _ _ _ T1 T) as [-> ->].
  destruct (C11_pid_same_process S v1 q1 u nm ad i nm ad Hu Hun Hq Ha) as (q2 & u2 & T' & _ & Hloc & _).
  destruct (travels_det _ _ _ _ _ _ _ _ _ _ T2 T') as [-> ->]. rewrite (proj2 Hloc eq_refl). split; [done|].
  destruct T' as [x E1 E2]. rewrite pid_enc in E1. injection E1 as <-.
  assert (wire_of (pid_id q1) match q1 with PLocal _ => lookup_local v1 | PRemote _ m => lookup_remote m v1 end = WithNode i nm ad) as Ew.
  { destruct q1 as [j|j m]; cbn in Hq |- *.
    - unfold lookup_local in *. destruct (lookup_remote LOCAL_NODE_ID v1) as [[]|]; [|discriminate]. by injection Hq as -> -> ->.
    - destruct (lookup_remote m v1) as [[]|]; [|discriminate]. by injection Hq as -> -> ->. }
  rewrite Ew in E2. cbn [transmit] in E2. rewrite (wire_plain _ Ha) in E2. cbn [pid_of_wire] in E2. rewrite run_bind, run_observe in E2. rewrite Hun in E2.
  rewrite decide_True in E2 by done. by injection E2 as ->.
Qed.
Print Assumptions C11_pid_back_home.
(** Two pids that mean different processes never become the same pid, whatever happened on the receiving
    node between their arrivals (as long as it forgets no node). *)
Theorem C11_pid_distinct :
  forall S w1 w2 p1 p2 v1 v2 n a q1 q2 u1 u2 h1 h2, proper S v1 -> proper S v2 -> runs_as v1 n a -> runs_as v2 n a ->
    pid_home w1 p1 = Some h1 -> plain (snd h1) -> pid_home w2 p2 = Some h2 -> plain (snd h2) ->
    pid_travels w1 p1 v1 q1 u1 -> pid_travels w2 p2 v2 q2 u2 ->
    (forall j r, w_nregs u1 !! j = Some r -> exists r', w_nregs v2 !! j = Some r' /\ n_name r' = n_name r /\ n_addr r' = n_addr r) ->
    h1 <> h2 -> q1 <> q2.
Proof.
  intros S w1 w2 p1 p2 v1 v2 n a q1 q2 u1 u2 [[i1 m1] a1] [[i2 m2] a2] Hv1 Hv2 R1 R2 Hh1 Ha1 Hh2 Ha2 T1 T2 Hk Hne ->. cbn in Ha1, Ha2. apply Hne.
  destruct (C11_pid_same_process S w1 p1 v1 n a i1 m1 a1 Hv1 R1 Hh1 Ha1) as (q & u & T & Hq & _ & _ & Rq & _).
  destruct (travels_det _ _ _ _ _ _ _ _ _ _ T1 T) as [<- <-].
  destruct (C11_pid_same_process S w2 p2 v2 n a i2 m2 a2 Hv2 R2 Hh2 Ha2) as (q' & u' & T' & Hq' & _ & _ & Rq' & Hk' & _).
  destruct (travels_det _ _ _ _ _ _ _ _ _ _ T2 T') as [<- <-].
  enough (Some (i1, m1, a1) = Some (i2, m2, a2)) as [= -> -> ->] by done. rewrite <- Hq'. destruct q2 as [j|j m]; cbn in *.
  - unfold runs_as in *. rewrite Rq in Hq. rewrite Rq'. congruence.
  - unfold lookup_remote in *. destruct (w_nregs u1 !! m) as [r|] eqn:E; [|discriminate]. destruct (Hk _ _ E) as (r' & E' & Hn & Had).
    rewrite (Hk' _ _ E') . cbn in *. congruence.
Qed.
Print Assumptions C11_pid_distinct.
(** A pid of a node that is not distributed (or of a node no longer known) becomes one that addresses no
    node: what is sent to it goes nowhere. *)
Theorem C11_undistributed :
  forall w p v, pid_home w p = None -> w_nregs v !! INVALID_NODE_ID = None ->
    pid_travels w p v (PRemote (pid_id p) INVALID_NODE_ID) v /\ pid_home v (PRemote (pid_id p) INVALID_NODE_ID) = None /\
    forall f, send_frame f INVALID_NODE_ID v = v.
Proof.
  intros w p v Hh Hv. split; [|split].
  - econstructor; [apply pid_enc|]. destruct p as [j|j m]; cbn in *.
    + unfold lookup_local in *. by destruct (lookup_remote LOCAL_NODE_ID w) as [[]|].
    + by destruct (lookup_remote m w) as [[]|].
  - cbn. unfold lookup_remote. by rewrite Hv.
  - intros f. unfold send_frame. by rewrite Hv.
Qed.
Print Assumptions C11_undistributed.
(** Without the condition on addresses the property fails: a node that broadcasts a link-local address
    with a scope id does not recognise its own pids. *)
Definition C11_statement (S : serde) : Prop :=
  forall w nm ad i v n a q v' u q' u', proper S w -> runs_as w nm ad -> proper S v -> runs_as v n a -> proper S u -> runs_as u nm ad ->
    pid_travels w (PLocal i) v q v' -> pid_travels v' q u q' u' -> q' = PLocal i.
Theorem C11_scope_refuted : ~ C11_statement S0.
Proof.
  intros H.
  destruct (proper_some S0 (fun w => runs_as w "me" (SA6 1 5 0 3)) [CNodeStart "me" (SA6 1 5 0 3)]) as (w & Hw & Rw); [repeat constructor|vm_compute; reflexivity|].
  destruct (proper_some S0 (fun v => runs_as v "you" (SA4 1 5) /\ w_nmap v !! NRemote "me" (SA6 1 5 0 0) = Some 1%N) [CNodeStart "you" (SA4 1 5); CConnect (NRemote "me" (SA6 1 5 0 0))]) as (v & Hv & Rv & Mv);
    [repeat constructor|vm_compute; auto|].
  assert (pid_travels w (PLocal 7) v (PRemote 7 1) v) as T1.
  { econstructor; [apply pid_enc|]. rewrite Rw. cbn [wire_of transmit wire_addr pid_id pid_of_wire]. rewrite run_bind, run_observe, Rv. rewrite decide_False by (intros [? _]; discriminate).
    rewrite run_bind, (run_known _ _ _ _ Mv). reflexivity. }
  destruct (tables_entry v _ _ _ (proper_tables _ _ Hv) Mv) as (r & Hr & _ & Hn & Ha & _).
  destruct (registers_spec "me" (SA6 1 5 0 0) false w) as (m & E & _).
  assert (pid_travels v (PRemote 7 1) w (PRemote 7 m) (registers "me" (SA6 1 5 0 0) false w)) as T2.
  { econstructor; [apply pid_enc|]. unfold lookup_remote. rewrite Hr, Hn, Ha. cbn [wire_of transmit wire_addr pid_id pid_of_wire]. rewrite run_bind, run_observe, Rw.
    rewrite decide_False by (intros [_ ?]; discriminate). rewrite run_bind, E. reflexivity. }
  pose proof (H w "me" (SA6 1 5 0 3) 7%N v "you" (SA4 1 5) _ _ w _ _ Hw Rw Hv Rv Hw Rw T1 T2). discriminate.
Qed.
Print Assumptions C11_scope_refuted.
(** A concrete trip: process 7 of "me" is remote on "you", and local again back home. *)
Example C11_example :
  exists w v, proper S0 w /\ runs_as w "me" (SA4 1 4) /\ proper S0 v /\ runs_as v "you" (SA4 1 5) /\
    exists q v' , pid_travels w (PLocal 7) v q v' /\ pid_home v' q = Some (7%N, "me", SA4 1 4) /\ q <> PLocal 7.
Proof.
  destruct (proper_some S0 (fun w => runs_as w "me" (SA4 1 4)) [CNodeStart "me" (SA4 1 4)]) as (w & Hw & Rw); [repeat constructor|vm_compute; reflexivity|].
  destruct (proper_some S0 (fun w => runs_as w "you" (SA4 1 5)) [CNodeStart "you" (SA4 1 5)]) as (v & Hv & Rv); [repeat constructor|vm_compute; reflexivity|].
  exists w, v. split_and!; try done.
  destruct (C11_pid_same_process S0 w (PLocal 7) v "you" (SA4 1 5) 7 "me" (SA4 1 4) Hv Rv ltac:(cbn; by rewrite Rw) I) as (q & v' & T & Hq & Hl & _).
  exists q, v'. split; [done|]. split; [done|]. intros ->. pose proof (proj1 Hl eq_refl). discriminate.
Qed.

(** ** C13. *)
Theorem C13_node_same :
  forall w nd v n a nm ad, runs_as v n a -> node_home w nd = Some (nm, ad) -> plain ad ->
    exists q, node_travels w nd v q v /\ node_home v q = Some (nm, ad) /\ (q = NLocal <-> (n, a) = (nm, ad)).
Proof.
  intros w nd v n a nm ad Hv Hh Ha. exists (if decide (nm = n /\ ad = a) then NLocal else NRemote nm ad). split; [|split].
  - apply (Travels _ _ _ _ _ _ _ _ (NodeWire nm (Some ad))).
    + destruct nd; cbn [node_to_wire]; [|cbn in Hh; by injection Hh as -> ->]. rewrite run_bind, run_observe. cbn in Hh. by rewrite Hh.
    + unfold transmit_node, node_of_wire. cbn [nw_name nw_addr fmap option_fmap option_map]. rewrite (wire_plain _ Ha). rewrite run_bind, run_observe, Hv.
      cbn [nw_name nw_addr]. destruct (decide (nm = n /\ ad = a)) as [[-> ->]|Hne]; [by rewrite decide_True by auto|].
      rewrite decide_False; [done|]. intros [-> [?|[= ->]]]; [discriminate|]. by apply Hne.
  - destruct (decide (nm = n /\ ad = a)) as [[-> ->]|]; done.
  - destruct (decide (nm = n /\ ad = a)) as [[-> ->]|Hne]; [done|]. split; [discriminate|]. intros [= -> ->]. tauto.
Qed.
Print Assumptions C13_node_same.
(** A node that is not started sends itself as "nohost"; a started node of another name panics on it. *)
Theorem C13_unstarted_sender_partial :
  forall w v n a, lookup_local w = None -> runs_as v n a ->
    exists x, run (node_to_wire NLocal) w = Done w x /\
      run (node_of_wire (transmit_node x)) v =
        if decide (n = "nohost") then Done v NLocal else Panicked v "called `Option::unwrap()` on a `None` value".
Proof.
  intros w v n a Hw Hv. exists (NodeWire "nohost" None). split; [cbn [node_to_wire]; rewrite run_bind, run_observe, Hw; done|].
  unfold node_of_wire, transmit_node. cbn [nw_name nw_addr fmap option_fmap option_map]. rewrite run_bind, run_observe, Hv.
  destruct (decide (n = "nohost")) as [->|Hn]; [by rewrite decide_True by auto|]. by rewrite decide_False by (intros [? _]; congruence).
Qed.
Print Assumptions C13_unstarted_sender_partial.
Definition C13_statement : Prop :=
  forall w nm ad v, runs_as w nm ad -> forall q v', node_travels w NLocal v q v' -> runs_as v nm ad -> q = NLocal.
Theorem C13_scope_refuted : ~ C13_statement.
Proof.
  intros H.
  destruct (proper_some S0 (fun w => runs_as w "me" (SA6 1 5 0 3)) [CNodeStart "me" (SA6 1 5 0 3)]) as (w & _ & Rw); [repeat constructor|vm_compute; reflexivity|].
  assert (node_travels w NLocal w (NRemote "me" (SA6 1 5 0 0)) w) as T.
  { apply (Travels _ _ _ _ _ _ _ _ (NodeWire "me" (Some (SA6 1 5 0 3)))).
    - cbn [node_to_wire]. by rewrite run_bind, run_observe, Rw.
    - unfold node_of_wire. rewrite run_bind, run_observe, Rw. rewrite decide_False; [done|]. intros [_ [?|?]]; discriminate. }
  pose proof (H _ _ _ _ Rw _ _ T Rw). discriminate.
Qed.
Print Assumptions C13_scope_refuted.
Example C13_example :
  exists w v, runs_as w "me" (SA4 1 4) /\ runs_as v "you" (SA4 1 5) /\
    node_travels w NLocal v (NRemote "me" (SA4 1 4)) v /\ node_travels w (NRemote "you" (SA4 1 5)) v NLocal v.
Proof.
  destruct (proper_some S0 (fun w => runs_as w "me" (SA4 1 4)) [CNodeStart "me" (SA4 1 4)]) as (w & _ & Rw); [repeat constructor|vm_compute; reflexivity|].
  destruct (proper_some S0 (fun w => runs_as w "you" (SA4 1 5)) [CNodeStart "you" (SA4 1 5)]) as (v & _ & Rv); [repeat constructor|vm_compute; reflexivity|].
  exists w, v. split_and!; try done.
  - apply (Travels _ _ _ _ _ _ _ _ (NodeWire "me" (Some (SA4 1 4)))); [cbn [node_to_wire]; by rewrite run_bind, run_observe, Rw|].
    unfold node_of_wire. rewrite run_bind, run_observe, Rv. rewrite decide_False; [done|]. intros [? _]; discriminate.
  - apply (Travels _ _ _ _ _ _ _ _ (NodeWire "you" (Some (SA4 1 5)))); [done|].
    unfold node_of_wire. rewrite run_bind, run_observe, Rv. rewrite decide_True; [done|]. auto.
Qed.
