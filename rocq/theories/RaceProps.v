(** C55: two nodes that dial each other at the same time. *)
From stdpp Require Import base list gmap numbers strings countable sorting relations.
From Coq Require Import Lia.
From Verif Require Import Prog ProgProofs ProgInv Types Mailbox World ProcApi NodeApi Api Steps Hist Play SchedSpec ProcSpec NetSpec ConnProofs SchedProps ConnProps.

(** Node A dials node B (connection 1) while B dials A (connection 2).  Both ends of a connection send
    their hello before they read the other's (node_remote.rs:331-348, 399-419), so all four processes
    can reach the point of accepting, in any order: A's dialler [A1], B's listener side of the same
    connection [B1], B's dialler [B2] and A's listener side [A2].  Sockets are not modelled; a
    connection lives on iff both its ends were accepted and stay on record. *)
Inductive end_ := A1 | A2 | B1 | B2.
Global Instance end_eq : EqDecision end_.
Proof. solve_decision. Defined.
Definition at_A (e : end_) : Prop := e = A1 \/ e = A2.
Definition at_B (e : end_) : Prop := e = B1 \/ e = B2.
Global Instance at_A_dec e : Decision (at_A e).
Proof. unfold at_A. apply _. Defined.
Global Instance at_B_dec e : Decision (at_B e).
Proof. unfold at_B. apply _. Defined.

Section race.
  Context (S : serde) (nmA nmB : string) (adA adB : sockaddr) (dialA listenA dialB listenB : N).
  Notation nodeA := (NRemote nmA adA).
  Notation nodeB := (NRemote nmB adB).
  (** The process of one end reaches node_remote_supervisor, unless it was killed before. *)
  Definition turn (me : N) (nm : string) (ad : sockaddr) (w : world) : world :=
    match w_regs w !! me with
    | Some g => if r_abort g then w else out_world (run (call_prog S (CSupervise me nm ad)) w)
    | None => w
    end.
  Definition act (e : end_) (ws : world * world) : world * world :=
    match e with
    | A1 => (turn dialA nmB adB (fst ws), snd ws)
    | A2 => (turn listenA nmB adB (fst ws), snd ws)
    | B1 => (fst ws, turn listenB nmA adA (snd ws))
    | B2 => (fst ws, turn dialB nmA adA (snd ws))
    end.
  Definition played (order : list end_) (ws : world * world) : world * world := fold_left (fun ws e => act e ws) order ws.
  Definition survives1 (ws : world * world) : Prop := established (fst ws) nodeB (PLocal dialA) /\ established (snd ws) nodeA (PLocal listenB).
  Definition survives2 (ws : world * world) : Prop := established (fst ws) nodeB (PLocal listenA) /\ established (snd ws) nodeA (PLocal dialB).

  (** Before the race: each node is dialling the other, and all four processes run. *)
  Definition running (w : world) (i : N) : Prop := exists g, w_regs w !! i = Some g /\ r_abort g = false.
  Record before_race (wA wB : world) : Prop := BeforeRace {
    br_A : proper S wA; br_B : proper S wB;
    br_dialA : dialling wA nodeB (PLocal dialA); br_dialB : dialling wB nodeA (PLocal dialB);
    br_runA : running wA dialA /\ running wA listenA; br_runB : running wB dialB /\ running wB listenB;
    br_diffA : dialA <> listenA; br_diffB : dialB <> listenB }.

  Lemma est_unique w nd p q : established w nd p -> established w nd q -> p = q.
  Proof. intros (r & H1 & H2 & _) (r' & H3 & H4 & _). rewrite H1 in H3. injection H3 as <-. congruence. Qed.
  Lemma accepts w nm ad d me : proper S w -> dialling w (NRemote nm ad) (PLocal d) -> running w me ->
    exists w' v, run (call_prog S (CSupervise me nm ad)) w = Done w' v /\ turn me nm ad w = w'.
  Proof.
    intros Hp (r & H1 & H2 & H3) (g & Hg & Ha).
    destruct (proj2 (C54_accepts_iff_free S w me nm ad Hp)) as (w' & v & E).
    - intros (s & r' & H4 & H5 & H6). rewrite H1 in H4. injection H4 as <-. done.
    - exists w', v. split; [done|]. unfold turn. by rewrite Hg, Ha, E.
  Qed.
  Lemma refuses w nm ad s me : established w (NRemote nm ad) s -> turn me nm ad w = w.
  Proof.
    intros He. unfold turn. destruct (w_regs w !! me) as [g|]; [|done]. destruct (r_abort g); [done|].
    by rewrite (C54_refused S w me nm ad s He).
  Qed.
  (** Whoever comes first keeps the node. *)
  Lemma first_keeps w nm ad d me other : proper S w -> dialling w (NRemote nm ad) (PLocal d) -> running w me ->
    established (turn other nm ad (turn me nm ad w)) (NRemote nm ad) (PLocal me).
  Proof.
    intros Hp Hd Hr. destruct (accepts w nm ad d me Hp Hd Hr) as (w' & v & E & ->).
    destruct (C54_accepted S w me nm ad w' v Hp E) as [He _]. by rewrite (refuses w' nm ad (PLocal me) other He).
  Qed.
  (** A dialler that comes second was killed. *)
  Lemma second_killed w nm ad d me : proper S w -> dialling w (NRemote nm ad) (PLocal d) -> running w me -> running w d -> d <> me ->
    exists g, w_regs (turn me nm ad w) !! d = Some g /\ r_abort g = true /\ r_exit g = Some RKill.
  Proof.
    intros Hp Hd Hr (g & Hg & _) Hne. destruct (accepts w nm ad d me Hp Hd Hr) as (w' & v & E & ->).
    destruct (C54_accepted S w me nm ad w' v Hp E) as (_ & Hk & _). exists (terminated RKill g). split; [by apply Hk|done].
  Qed.
  Lemma played_filter order wA wB :
    fst (played order (wA, wB)) = fold_left (fun w e => fst (act e (w, wB))) (filter at_A order) wA /\
    snd (played order (wA, wB)) = fold_left (fun w e => snd (act e (wA, w))) (filter at_B order) wB.
  Proof.
    revert wA wB. induction order as [|e order IH]; intros wA wB; [done|]. unfold played in *. cbn [fold_left].
    assert (forall l (a : world) b b', Forall at_A l -> fold_left (fun w e => fst (act e (w, b))) l a = fold_left (fun w e => fst (act e (w, b'))) l a) as HA.
    { intros l. induction l as [|e' l IHl]; intros a b b' Hl; [done|]. apply Forall_cons in Hl as [He Hl]. cbn.
      destruct He as [-> | ->]; cbn; by apply IHl. }
    assert (forall l (b : world) a a', Forall at_B l -> fold_left (fun w e => snd (act e (a, w))) l b = fold_left (fun w e => snd (act e (a', w))) l b) as HB.
    { intros l. induction l as [|e' l IHl]; intros a b b' Hl; [done|]. apply Forall_cons in Hl as [He Hl]. cbn.
      destruct He as [-> | ->]; cbn; by apply IHl. }
    assert (forall l, Forall at_A (filter at_A l)) as FA by (intros l; apply Forall_forall; intros x Hx; by apply elem_of_list_filter in Hx as [? _]).
    assert (forall l, Forall at_B (filter at_B l)) as FB by (intros l; apply Forall_forall; intros x Hx; by apply elem_of_list_filter in Hx as [? _]).
    destruct e; cbn [act fst snd]; rewrite (filter_cons at_A), (filter_cons at_B);
      [rewrite (decide_True (P := at_A A1)) by (by left) | rewrite (decide_True (P := at_A A2)) by (by right)
      |rewrite (decide_False (P := at_A B1)) by (by intros [|]) | rewrite (decide_False (P := at_A B2)) by (by intros [|])];
      [rewrite (decide_False (P := at_B A1)) by (by intros [|]) | rewrite (decide_False (P := at_B A2)) by (by intros [|])
      |rewrite (decide_True (P := at_B B1)) by (by left) | rewrite (decide_True (P := at_B B2)) by (by right)];
      cbn [fold_left act fst snd]; match goal with |- context [(?a, ?b)] => destruct (IH a b) as [E1 E2] end;
      rewrite E1, E2; split; auto.
  Qed.
  (** The outcome, for every order in which the four ends take their turn: connection 1 lives on iff
      on both nodes its end came first, likewise connection 2; never both; and if the two nodes
      disagree, neither does. *)
  Theorem C55_outcome_partial :
    forall wA wB, before_race wA wB -> forall order, order ≡ₚ [A1; A2; B1; B2] ->
      let ws := played order (wA, wB) in
      (survives1 ws <-> filter at_A order = [A1; A2] /\ filter at_B order = [B1; B2]) /\
      (survives2 ws <-> filter at_A order = [A2; A1] /\ filter at_B order = [B2; B1]) /\
      ~ (survives1 ws /\ survives2 ws).
  Proof.
    intros wA wB [PA PB DA DB [RA1 RA2] [RB1 RB2] NA NB] order Ho ws.
    assert (filter at_A order ≡ₚ [A1; A2]) as FA by (by rewrite Ho).
    assert (filter at_B order ≡ₚ [B1; B2]) as FB by (by rewrite Ho).
    destruct (played_filter order wA wB) as [EA EB]. unfold survives1, survives2. fold ws in EA, EB. rewrite EA, EB.
    assert (filter at_A order = [A1; A2] \/ filter at_A order = [A2; A1]) as CA by (symmetry in FA; by apply Permutation_length_2_inv in FA).
    assert (filter at_B order = [B1; B2] \/ filter at_B order = [B2; B1]) as CB by (symmetry in FB; by apply Permutation_length_2_inv in FB).
    assert (forall w nd p q, established w nd (PLocal p) -> established w nd (PLocal q) -> p = q) as HU.
    { intros w nd p q H1 H2. by injection (est_unique w nd _ _ H1 H2). }
    assert (established (turn listenA nmB adB (turn dialA nmB adB wA)) nodeB (PLocal dialA)) as KA1 by (by eapply first_keeps).
    assert (established (turn dialA nmB adB (turn listenA nmB adB wA)) nodeB (PLocal listenA)) as KA2 by (by eapply first_keeps).
    assert (established (turn dialB nmA adA (turn listenB nmA adA wB)) nodeA (PLocal listenB)) as KB1 by (by eapply first_keeps).
    assert (established (turn listenB nmA adA (turn dialB nmA adA wB)) nodeA (PLocal dialB)) as KB2 by (by eapply first_keeps).
    destruct CA as [-> | ->], CB as [-> | ->]; cbn [fold_left act fst snd]; split_and!; try split; try done; naive_solver.
  Qed.
End race.
Print Assumptions C55_outcome_partial.

(** The property: whatever the order, exactly one connection lives on. *)
Definition C55_statement (S : serde) : Prop :=
  forall nmA nmB adA adB dA lA dB lB wA wB, before_race S nmA nmB adA adB dA lA dB lB wA wB ->
    forall order, order ≡ₚ [A1; A2; B1; B2] ->
      let ws := played S nmA nmB adA adB dA lA dB lB order (wA, wB) in
      survives1 nmA nmB adA adB dA lB ws \/ survives2 nmA nmB adA adB lA dB ws.
(** A concrete race; the dialler is process 1 and the listener's process 2 on both nodes. *)
Lemma C55_race : exists wA wB, before_race S0 "a" "b" (SA4 1 5) (SA4 1 6) 1 2 1 2 wA wB.
Proof.
  destruct (proper_some S0 (fun w => dialling w (NRemote "b" (SA4 1 6)) (PLocal 1) /\
      w_regs w !! 1%N = Some (Reg None false None false) /\ w_regs w !! 2%N = Some (Reg None false None false))
    [CConnect (NRemote "b" (SA4 1 6)); CSpawn 0 false false]) as (wA & PA & DA & A1 & A2); [repeat constructor|vm_compute; eauto 10|].
  destruct (proper_some S0 (fun w => dialling w (NRemote "a" (SA4 1 5)) (PLocal 1) /\
      w_regs w !! 1%N = Some (Reg None false None false) /\ w_regs w !! 2%N = Some (Reg None false None false))
    [CConnect (NRemote "a" (SA4 1 5)); CSpawn 0 false false]) as (wB & PB & DB & B1 & B2); [repeat constructor|vm_compute; eauto 10|].
  exists wA, wB. constructor; try done; split; eexists; eauto.
Qed.
(** Each dialler comes first on its own node: each node refuses the other's connection, both die. *)
Theorem C55_refuted : ~ C55_statement S0.
Proof.
  intros H. destruct C55_race as (wA & wB & Hb).
  destruct (C55_outcome_partial S0 "a" "b" (SA4 1 5) (SA4 1 6) 1 2 1 2 wA wB Hb [A1; B2; A2; B1]) as (H1 & H2 & _).
  { apply (perm_skip A1). etrans; [apply perm_swap|]. apply (perm_skip A2). apply perm_swap. }
  destruct (H _ _ _ _ _ _ _ _ wA wB Hb [A1; B2; A2; B1]) as [Hs|Hs].
  { apply (perm_skip A1). etrans; [apply perm_swap|]. apply (perm_skip A2). apply perm_swap. }
  - apply H1 in Hs as [_ Hs]. discriminate.
  - apply H2 in Hs as [Hs _]. discriminate.
Qed.
Print Assumptions C55_refuted.
