(** The life of a supervisor: unique ids and no panic (C42), start and termination of all children (C43),
    restart intensity (C39), temporary children (C41). *)
From stdpp Require Import base list gmap numbers strings sets.
From Coq Require Import ZArith Lia Sorted.
From Verif Require Import Types Super SuperSpec SuperProofs SuperTerm SuperHandle SuperMoves SuperProps.

(** A supervisor as built from a list of child specifications. *)
Definition built (s : sup) : Prop := exists st au mx win l, add_children (new_sup st au mx win) l = Some s.
(** Child ids are unique; they are (at most, exactly) the identifiers on record. *)
Definition unique_ids (w : sworld) : Prop := NoDup (ids_of (children w)).
Definition ids_within (w : sworld) : Prop := forall id, id ∈ ids_of (children w) -> id ∈ s_ids (v_sup w).
Definition ids_exact (w : sworld) : Prop := forall id, id ∈ ids_of (children w) <-> id ∈ s_ids (v_sup w).

Record fresh (s : sup) : Prop := Fresh {
  fr_nodup : NoDup (ids_of (s_children s));
  fr_ids : forall id, id ∈ ids_of (s_children s) <-> id ∈ s_ids s;
  fr_pid : Forall (fun c => c_pid c = None) (s_children s);
  fr_restarting : Forall (fun c => c_restarting c = false) (s_children s);
  fr_restarts : s_restarts s = [] }.
Lemma fresh_new st au mx win : fresh (new_sup st au mx win).
Proof. split; cbn; try done; [constructor|]. intros id. split; [intros H; by apply elem_of_nil in H|set_solver]. Qed.
Lemma fresh_add s sp s' : fresh s -> add_child s sp = Some s' -> fresh s'.
Proof.
  intros [H1 H2 H3 H4 H5] H. unfold add_child in H. destruct (decide _) as [|Hi]; [done|]. injection H as <-. split; cbn.
  - unfold ids_of. rewrite map_app. apply NoDup_app. split; [done|]. split; [|cbn; apply NoDup_singleton]. intros x Hx Hx'. apply elem_of_list_singleton in Hx' as ->. by apply Hi, H2.
  - intros id. unfold ids_of. rewrite map_app, elem_of_app. cbn. rewrite elem_of_union, elem_of_singleton, elem_of_list_singleton. rewrite (H2 id). tauto.
  - apply Forall_app. split; [done|]. by repeat constructor.
  - apply Forall_app. split; [done|]. by repeat constructor.
  - done.
Qed.
Lemma built_fresh s : built s -> fresh s.
Proof.
  intros (st & au & mx & win & l & H). pose proof (fresh_new st au mx win) as Hf. revert H Hf. generalize (new_sup st au mx win). induction l as [|sp l IH]; intros s0 H Hf; cbn in H; [by injection H as <-|].
  destruct (add_child s0 sp) as [s1|] eqn:E; [|done]. eapply IH; [done|]. by eapply fresh_add.
Qed.

Lemma keep_in P l c : c ∈ keep P l -> c ∈ l.
Proof. intros H. by apply elem_of_list_filter in H as [_ H]. Qed.
Lemma keep_nodup P l : NoDup (ids_of l) -> NoDup (ids_of (keep P l)).
Proof.
  induction l as [|c l IH]; intros H; [done|]. inversion H as [|? ? Hc Hn]; subst. unfold keep in *. rewrite filter_cons. destruct (decide _); [|by apply IH]. cbn. constructor; [|by apply IH].
  intros Hin. apply Hc. apply elem_of_list_In, in_map_iff in Hin as (x & Hx & Hin). apply elem_of_list_In, elem_of_list_filter in Hin as [_ Hin].
  apply elem_of_list_In, in_map_iff. exists x. split; [done|by apply elem_of_list_In].
Qed.
Lemma keep_ids P l : NoDup (ids_of l) -> forall id, id ∈ ids_of (keep P l) <-> id ∈ ids_of l /\ id ∉ map c_id (filter (fun c => P c = true) l).
Proof.
  induction l as [|c l IH]; intros Hn id; [cbn; set_solver|]. inversion Hn as [|? ? Hc Hn']; subst. specialize (IH Hn' id). destruct (P c) eqn:E.
  - assert (keep P (c :: l) = keep P l) as -> by (unfold keep; rewrite filter_cons_False; [done|congruence]). rewrite filter_cons_True by done. cbn. rewrite IH. rewrite !elem_of_cons.
    split; [|tauto]. intros [H1 H2]. split; [by right|]. intros [->|H3]; [by apply Hc|done].
  - assert (keep P (c :: l) = c :: keep P l) as -> by (unfold keep; by rewrite filter_cons_True). rewrite filter_cons_False by congruence. cbn. rewrite !elem_of_cons, IH. split; [|tauto].
    intros [->|[? ?]]; [|tauto]. split; [by left|]. intros H. apply Hc. apply elem_of_list_In, in_map_iff in H as (x & <- & Hx). apply elem_of_list_In, elem_of_list_filter in Hx as [_ Hx].
    apply elem_of_list_In, in_map_iff. exists x. split; [done|by apply elem_of_list_In].
Qed.

Section life.
Context (answers : nat -> answer).
Notation step := (step answers).
Notation plays := (plays answers).
Notation starts := (starts answers).
Notation moved := (moved answers).

(** ** Start (C43) *)
Lemma starts_eq s :
  match starts s with
  | Panicking _ => ~ Forall startable (s_children s)
  | Running w => exists l', attempts answers 0 (s_children s) (v_log w) l' None /\ children w = keep dropped l' /\
      v_sup w = Sup (children w) (s_ids s ∖ list_to_set (map c_id (filter (fun c => dropped c = true) l'))) (s_restarts s) (s_strategy s) (s_auto s) (s_max s) (s_window s) /\ v_casts w = []
  | Ended w r => r = RCustom "failed_to_start_child" /\ exists es l1 c l2, attempts answers 0 (s_children s) es (l1 ++ retrying c :: l2) (Some (c_id c)) /\
      v_log w = es ++ stops (rev (l1 ++ c :: l2))
  end.
Proof.
  unfold Super.starts, init_children. pose proof (start_children_all answers (SWorld s 0 [] [])) as H. unfold sbind.
  destruct (start_children answers (SWorld s 0 [] [])) as [w [[e|]|]]; cbn in H; [| |exact H].
  - destruct H as (es & l1 & c & l2 & Ha & -> & ->). set (w1 := mk _ _ _ _ _). destruct (terminate_children_all w1) as (w' & E & _ & El & _). rewrite E. cbn. split; [done|].
    exists es, l1, c, l2. split; [done|]. rewrite El. done.
  - destruct H as (es & l' & Ha & ->). cbn. exists l'. done.
Qed.
(** The children are started in order.  If all starts succeed (or are ignored), the supervisor runs with these children,
    without the temporary ones that were ignored; ... *)
Theorem C43_started s w : starts s = Running w ->
  exists l', all_started answers 0 (s_children s) (v_log w) l' /\ children w = filter (fun c => ~ (sp_restart (c_spec c) = Temporary /\ c_pid c = None)) l'.
Proof.
  intros H. pose proof (starts_eq s) as Hs. rewrite H in Hs. destruct Hs as (l' & Ha & Hc & _). exists l'. split; [by apply attempts_all|]. rewrite Hc. unfold keep. apply list_filter_iff. intros c.
  unfold dropped. rewrite andb_false_iff, bool_decide_eq_false. unfold is_temporary. destruct (sp_restart (c_spec c)).
  - split; [by intros _ [? ?]|by left].
  - split; [intros [?|H1]; [done|]; by intros [_ H2]|]. intros H1. right. intros H2. by apply H1.
  - split; [by intros _ [? ?]|by left].
Qed.
(** ... if one fails, those started before are stopped in reverse order and the supervisor does not start. *)
Theorem C43_start_failed s w r : built s -> starts s = Ended w r ->
  r = RCustom "failed_to_start_child" /\ exists l1 c l2 e effects1 after1, s_children s = l1 ++ c :: l2 /\ all_started answers 0 l1 effects1 after1 /\
    answers (length l1) = Down e /\ e <> RIgnore /\ v_log w = effects1 ++ [Starts (c_id c) (Down e)] ++ stops (rev after1).
Proof.
  intros Hb H. pose proof (starts_eq s) as Hs. rewrite H in Hs. destruct Hs as (-> & es & l1 & c & l2 & Ha & Hl). split; [done|].
  apply attempts_some in Ha as (m1 & d & m2 & e & es1 & af1 & E & Hall & Hid & He & Hi & -> & Hl'). exists m1, d, m2, e, es1, af1. split_and!; try done.
  rewrite Hl, Hid, <- app_assoc. f_equal. f_equal. pose proof (fr_pid _ (built_fresh _ Hb)) as Hp. rewrite E in Hp. apply Forall_app in Hp as [Hp1 Hp2]. inversion Hp2 as [|? ? Hd Hp3]. subst.
  assert (forall l, stops (rev l) = rev (stops l)) as Hrev.
  { intros l. induction l as [|x l IH]; [done|]. cbn [rev]. rewrite stops_app, IH, (stops_cons x l), rev_app_distr. f_equal. unfold stops. cbn. destruct (c_pid x); done. }
  rewrite !Hrev. f_equal. assert (forall l, Forall (fun c => c_pid c = None) l -> stops l = []) as Hnone.
  { intros l. induction 1 as [|x l Hx _ IH]; [done|]. rewrite stops_cons, IH. unfold stops. cbn. by rewrite Hx. }
  assert (stops (l1 ++ c :: l2) = stops (l1 ++ retrying c :: l2)) as ->.
  { rewrite !stops_app. f_equal. }
  rewrite Hl', stops_app, (stops_cons (retrying d) m2), (Hnone m2) by done. unfold stops at 2. cbn. rewrite Hd. by rewrite !app_nil_r.
Qed.
(** Whenever a supervisor ends, its children are stopped in reverse order; nothing else happens then. *)
Theorem C43_reverse w e w' r : step w e = Ended w' r -> exists w1, moved w e w1 /\ v_log w' = v_log w1 ++ stops (rev (children w1)) /\ Forall (fun c => c_pid c = None) (children w').
Proof.
  intros H. apply step_ended in H as (w1 & Hm & He). exists w1. split; [done|]. destruct (ends_eq w1 r) as (w2 & E & El & Ec). rewrite E in He. injection He as <-. split; [done|].
  rewrite Ec. apply Forall_forall. intros c Hc. apply keep_in in Hc. apply elem_of_list_In, in_map_iff in Hc as (x & <- & _). done.
Qed.
Theorem C43_stop w r : exists w', step w (VStop r) = Ended w' r /\ v_log w' = v_log w ++ stops (rev (children w)).
Proof. unfold Super.step. cbn. destruct (ends_eq w r) as (w2 & E & El & Ec). by exists w2. Qed.

(** ** Unique ids (C42) *)
Definition good_ids (w : sworld) : Prop := unique_ids w /\ ids_within w.
Lemma good_specs w w' : map c_spec (children w') = map c_spec (children w) -> s_ids (v_sup w') = s_ids (v_sup w) -> good_ids w -> good_ids w'.
Proof.
  intros E Ei [H1 H2]. apply ids_specs in E. split; [unfold unique_ids; by rewrite E|]. intros id. rewrite E, Ei. apply H2.
Qed.
Lemma good_removed w pre c post : children w = pre ++ c :: post -> good_ids w -> good_ids (removed w pre c post).
Proof.
  intros E [H1 H2]. unfold good_ids, unique_ids, ids_within in *. rewrite E in H1, H2. unfold ids_of in *. cbn. rewrite map_app in *. cbn [map] in *.
  apply NoDup_app in H1 as (N1 & N2 & N3). inversion N3 as [|? ? N4 N5]; subst. split.
  - apply NoDup_app. split; [done|]. split; [|done]. intros x Hx Hx'. apply (N2 x Hx). by right.
  - intros id Hid. apply elem_of_difference. split; [apply H2; set_solver|]. intros ->%elem_of_singleton. apply elem_of_app in Hid as [Hid|Hid]; [|done]. apply (N2 _ Hid). left.
Qed.
Lemma restarted_good w now pre c post es l f w' : children w = pre ++ c :: post -> restarted answers (counted w now) pre c post es l f w' -> map c_spec (children w') = map c_spec (children w) /\ s_ids (v_sup w') = s_ids (v_sup w).
Proof. intros E H. split; [rewrite E; by eapply restarted_specs|]. by destruct H. Qed.
Lemma stopped_specs pre c post : map c_spec (pre ++ stopped c :: post) = map c_spec (pre ++ c :: post).
Proof. rewrite !map_app. cbn. do 2 f_equal. unfold stopped. by destruct (c_pid c). Qed.
Lemma answered_specs pre c post a : map c_spec (pre ++ match a with Up p => running_as c p | Down _ => c end :: post) = map c_spec (pre ++ c :: post).
Proof. rewrite !map_app. cbn. do 2 f_equal. by destruct a. Qed.
Lemma moved_good w e w' : good_ids w -> moved w e w' -> good_ids w'.
Proof.
  intros Hg H. destruct H as [e _|e now pre c post Hd|e now pre c post es l f w' Hd _ _ Hr _|now p r pre c post Hc _|id pre c post Hc _ _|id pre c post Hc|id pre c post Hc _ _ _|sp Hi Hs].
  - done.
  - done.
  - apply demands_list in Hd. destruct (restarted_good _ _ _ _ _ _ _ _ _ Hd Hr). by eapply good_specs.
  - by apply good_removed; [apply Hc|].
  - by apply good_removed; [apply Hc|].
  - eapply good_specs; [| |exact Hg]; [|done]. cbn. rewrite (cc_list _ _ _ _ _ Hc). apply stopped_specs.
  - eapply good_specs; [| |exact Hg]; [|done]. cbn. rewrite (cc_list _ _ _ _ _ Hc). apply answered_specs.
  - destruct Hg as [H1 H2]. assert (forall l, l = [] \/ (exists p, l = [Child sp p false]) -> good_ids (mk (with_ids (fun i => {[sp_id sp]} ∪ i) (v_sup w)) (children w ++ l) (S (v_tick w)) (v_casts w) (v_log w ++ [Starts (sp_id sp) (answers (v_tick w))]))) as Hgo.
    { intros l Hl. unfold good_ids, unique_ids, ids_within, ids_of in *. cbn. rewrite map_app. split.
      - apply NoDup_app. split; [done|]. destruct Hl as [->|[p ->]]; cbn; (split; [|try apply NoDup_singleton; constructor]).
        + intros x _ Hx. by apply elem_of_nil in Hx.
        + intros x Hx Hx'. apply elem_of_list_singleton in Hx' as ->. by apply Hi, H2.
      - intros id Hid. apply elem_of_union. apply elem_of_app in Hid as [Hid|Hid]; [right; by apply H2|]. left. destruct Hl as [->|[p ->]]; cbn in Hid; set_solver. }
    apply Hgo. destruct (answers (v_tick w)) as [p|r]; [right; eauto|]. destruct r; try (right; eauto; fail). destruct (decide _); [by left|right; eauto].
Qed.
Lemma starts_good s w : built s -> starts s = Running w -> good_ids w.
Proof.
  intros Hb H. destruct (built_fresh _ Hb) as [F1 F2 _ _ _]. pose proof (starts_eq s) as Hs. rewrite H in Hs. destruct Hs as (l' & Ha & Hc & Hs & _). apply attempts_ids in Ha.
  unfold good_ids, unique_ids, ids_within. rewrite Hs. cbn. rewrite Hc. split.
  - apply keep_nodup. by rewrite Ha.
  - intros id. rewrite keep_ids by (by rewrite Ha). intros [H1 H2]. apply elem_of_difference. split; [apply F2; by rewrite <- Ha|]. by rewrite elem_of_list_to_set.
Qed.
(** In every history child ids are unique, and all of them are known. *)
Theorem C42_unique_ids s es w : built s -> plays (starts s) es = Running w -> NoDup (ids_of (children w)) /\ forall c, c ∈ children w -> c_id c ∈ s_ids (v_sup w).
Proof.
  intros Hb H. assert (good_ids w) as [H1 H2].
  { destruct (starts s) as [w0|w0 r|w0] eqn:E; [|by destruct es|by destruct es]. eapply (plays_running answers good_ids); [apply moved_good| |exact H]. by eapply starts_good. }
  split; [exact H1|]. intros c Hc. apply H2. apply elem_of_list_In, in_map_iff. exists c. split; [done|by apply elem_of_list_In].
Qed.
(** start_child with the id of a child is refused and changes nothing. *)
Theorem C42_start_taken s es w sp c : built s -> plays (starts s) es = Running w -> c ∈ children w -> c_id c = sp_id sp ->
  handle answers (VStart sp) w = (w, Some (inr (RpStart (inl (if decide (is_Some (c_pid c)) then EAlreadyStarted else EAlreadyPresent))))).
Proof.
  intros Hb H Hc Hid. destruct (C42_unique_ids s es w Hb H) as [Hn Hin].
  apply elem_of_list_split in Hc as (pre & post & E). apply start_taken with pre post; [rewrite <- Hid; apply Hin; rewrite E; set_solver|]. split; [done|done|].
  rewrite E in Hn. unfold ids_of in Hn. rewrite map_app in Hn. cbn in Hn. apply NoDup_app in Hn as (_ & Hn & _). apply Forall_forall. intros x Hx Hxi. apply (Hn (c_id x)).
  - apply elem_of_list_In, in_map_iff. exists x. split; [done|by apply elem_of_list_In].
  - rewrite Hxi, Hid. left.
Qed.
(** ** No panic (C42) *)
(** An event that the supervisor copes with: the clock is not too close to its beginning for the window; a
    specification that is added has a start function, and is not both temporary and able to be ignored. *)
Definition copes (s : sup) (e : event) : Prop :=
  match e with
  | VExit now _ _ | VTryAgain now _ | VTryAgainPid now _ => window_ok s now
  | VStart sp => sp_start sp = true /\ (sp_restart sp <> Temporary \/ forall n, answers n <> Down RIgnore)
  | _ => True
  end.
Record sane (s : sup) (w : sworld) : Prop := Sane {
  sn_good : good_ids w; sn_exact : ids_exact w; sn_startable : Forall startable (children w); sn_options : same_options s (v_sup w) }.
Lemma exact_specs w w' : map c_spec (children w') = map c_spec (children w) -> s_ids (v_sup w') = s_ids (v_sup w) -> ids_exact w -> ids_exact w'.
Proof. intros E Ei H id. apply ids_specs in E. rewrite E, Ei. apply H. Qed.
Lemma exact_removed w pre c post : children w = pre ++ c :: post -> unique_ids w -> ids_exact w -> ids_exact (removed w pre c post).
Proof.
  intros E Hu H id. unfold unique_ids, ids_exact in *. rewrite E in *. unfold ids_of in *. cbn. rewrite elem_of_difference, elem_of_singleton, <- H, !map_app, !elem_of_app. cbn [map]. rewrite elem_of_cons.
  rewrite map_app in Hu. cbn in Hu. apply NoDup_app in Hu as (_ & N2 & N3). inversion N3 as [|? ? N4 _]; subst. split; [|tauto].
  intros Hid. split; [tauto|]. intros ->. destruct Hid as [Hid|Hid]; [|done]. apply (N2 _ Hid). left.
Qed.
Lemma moved_sane s w e w' : copes s e -> sane s w -> moved w e w' -> sane s w'.
Proof.
  intros Hcp [Hg He Hs Ho] H. pose proof (moved_good _ _ _ Hg H) as Hg'. pose proof (same_options_trans _ _ _ Ho (moved_options _ _ _ _ H)) as Ho'. split; try done.
  - destruct H as [e _|e now pre c post Hd|e now pre c post es l f w' Hd _ _ Hr _|now p r pre c post Hc _|id pre c post Hc _ _|id pre c post Hc|id pre c post Hc _ _ _|sp Hi Hsp].
    + done.
    + done.
    + apply demands_list in Hd. destruct (restarted_good _ _ _ _ _ _ _ _ _ Hd Hr). by eapply exact_specs.
    + apply exact_removed; [apply Hc|apply Hg|done].
    + apply exact_removed; [apply Hc|apply Hg|done].
    + eapply exact_specs; [| |exact He]; [|done]. cbn. rewrite (cc_list _ _ _ _ _ Hc). apply stopped_specs.
    + eapply exact_specs; [| |exact He]; [|done]. cbn. rewrite (cc_list _ _ _ _ _ Hc). apply answered_specs.
    + assert (exists p, match answers (v_tick w) with
                         | Up p => [Child sp (Some p) false]
                         | Down RIgnore => if decide (sp_restart sp = Temporary) then [] else [Child sp None false]
                         | Down _ => [Child sp None false]
                         end = [Child sp p false]) as [p ->].
      { destruct Hcp as [_ Hcp]. destruct (answers (v_tick w)) as [p|[]] eqn:Ea; eauto. destruct Hcp as [Hcp|Hcp]; [rewrite decide_False by done; eauto|]. by destruct (Hcp (v_tick w)). }
      intros id. unfold ids_of. cbn. rewrite map_app, elem_of_app, elem_of_union, elem_of_singleton. cbn. rewrite elem_of_list_singleton. rewrite <- (He id). unfold ids_of, c_id. cbn. tauto.
  - destruct H as [e _|e now pre c post Hd|e now pre c post es l f w' Hd _ _ Hr _|now p r pre c post Hc _|id pre c post Hc _ _|id pre c post Hc|id pre c post Hc _ _ _|sp Hi Hsp].
    + done.
    + done.
    + apply demands_list in Hd. destruct (restarted_good _ _ _ _ _ _ _ _ _ Hd Hr). by eapply startable_specs.
    + rewrite (co_list _ _ _ _ _ Hc) in Hs. apply Forall_app in Hs as [? Hs]. inversion Hs. cbn. by apply Forall_app.
    + rewrite (cc_list _ _ _ _ _ Hc) in Hs. apply Forall_app in Hs as [? Hs]. inversion Hs. cbn. by apply Forall_app.
    + eapply startable_specs; [|exact Hs]. cbn. rewrite (cc_list _ _ _ _ _ Hc). apply stopped_specs.
    + eapply startable_specs; [|exact Hs]. cbn. rewrite (cc_list _ _ _ _ _ Hc). apply answered_specs.
    + cbn. apply Forall_app. split; [done|]. destruct (answers (v_tick w)) as [p|[]]; try (by repeat constructor). destruct (decide _); by repeat constructor.
Qed.
Lemma window_options s s' now : same_options s s' -> window_ok s now -> window_ok s' now.
Proof. intros (_ & _ & _ & E) H. unfold window_ok. by rewrite E. Qed.
Lemma sane_handle s w e : copes s e -> sane s w -> exists w' x, handle answers e w = (w', Some x).
Proof.
  intros Hcp [[Hu Hw] He Hs Ho]. destruct (handle answers e w) as [w' [x|]] eqn:E; [by eauto|]. exfalso.
  destruct e as [now p r|now id|now p|r|sp|id|id|id| |]; cbn [copes] in Hcp.
  - apply (window_options _ _ _ Ho) in Hcp. destruct (find_child_cases w p) as [Hn|(pre & c & post & Hc)]; [by rewrite exit_unknown in E|].
    destruct (decide (to_be_restarted (sp_restart (c_spec c)) r)) as [Hr|Hr]; [|by erewrite exit_gone in E].
    pose proof (exit_again answers w now p r pre c post Hc Hr Hcp) as H. by rewrite E in H.
  - apply (window_options _ _ _ Ho) in Hcp. destruct (find_id_cases w id) as [Hn|(pre & c & post & Hc)]; [by rewrite retry_unknown in E|].
    pose proof (retry_known answers w now id pre c post Hc Hcp) as H. by rewrite E in H.
  - apply (window_options _ _ _ Ho) in Hcp. destruct (find_child_cases w p) as [Hn|(pre & c & post & Hc)]; [by rewrite retrypid_unknown in E|].
    pose proof (retrypid_known answers w now p pre c post Hc Hcp) as H. by rewrite E in H.
  - done.
  - destruct Hcp as [Hcp _]. destruct (decide (sp_id sp ∈ s_ids (v_sup w))) as [Hi|Hi]; [|rewrite start_new in E by done; by rewrite Hcp in E].
    destruct (find_id_cases w (sp_id sp)) as [Hn|(pre & c & post & Hc)]; [|by erewrite start_taken in E].
    apply He in Hi. apply elem_of_list_In, in_map_iff in Hi as (c & Hc & Hin). apply elem_of_list_In in Hin. unfold no_child_called in Hn. rewrite Forall_forall in Hn. by apply (Hn c Hin).
  - destruct (find_id_cases w id) as [Hn|(pre & c & post & Hc)]; [by rewrite terminate_unknown in E|by erewrite terminate_known in E].
  - destruct (find_id_cases w id) as [Hn|(pre & c & post & Hc)]; [by rewrite restart_unknown in E|]. erewrite restart_known in E by done.
    assert (startable c) as Hst by (rewrite (cc_list _ _ _ _ _ Hc) in Hs; apply Forall_app in Hs as [_ Hs]; by inversion Hs).
    destruct (c_restarting c); [done|]. destruct (decide _); [done|]. by rewrite decide_True in E.
  - destruct (find_id_cases w id) as [Hn|(pre & c & post & Hc)]; [by rewrite delete_unknown in E|]. erewrite delete_known in E by done.
    destruct (c_restarting c); [done|]. by destruct (decide _).
  - done.
  - done.
Qed.
Lemma starts_sane s w : built s -> Forall startable (s_children s) -> starts s = Running w -> sane s w.
Proof.
  intros Hb Hst H. pose proof (starts_good _ _ Hb H) as Hg. destruct (built_fresh _ Hb) as [F1 F2 _ _ _]. pose proof (starts_eq s) as Hs. rewrite H in Hs.
  destruct Hs as (l' & Ha & Hc & Hs & _). pose proof (attempts_ids _ _ _ _ _ _ Ha) as Hids. pose proof (attempts_specs _ _ _ _ _ _ Ha) as Hsp. split; try done.
  - intros id. rewrite Hs. cbn. rewrite Hc, keep_ids by (by rewrite Hids). rewrite elem_of_difference, elem_of_list_to_set, Hids, F2. done.
  - rewrite Hc. apply (startable_specs _ _ Hsp) in Hst. rewrite Forall_forall in *. intros c Hin. apply Hst. by apply keep_in in Hin.
  - by rewrite Hs.
Qed.
(** Under these conditions no history makes the supervisor panic. *)
Theorem C42_no_panic_partial s es : built s -> Forall startable (s_children s) -> Forall (copes s) es -> forall w, plays (starts s) es <> Panicking w.
Proof.
  intros Hb Hst Hes w. destruct (starts s) as [w0|w0 r|w0] eqn:E.
  - apply (starts_sane _ _ Hb Hst) in E. revert w0 E. induction Hes as [|e es He _ IH]; intros w0 E; [done|]. cbn.
    destruct (sane_handle s w0 e He E) as (w1 & x & Hh). unfold Super.step. rewrite Hh. destruct x as [r|x].
    + destruct (ends_eq w1 r) as (w2 & -> & _). by destruct es.
    + apply IH. eapply moved_sane; [done|done|]. by eapply handle_moved.
  - by destruct es.
  - pose proof (starts_eq s) as Hs. by rewrite E in Hs.
Qed.

(** ** After termination no child is left running (C43) *)
(** The process [p] was started for a child and has not been stopped since. *)
Definition left_running (log : list effect) (p : pid) : Prop := exists l1 id l2, log = l1 ++ Starts id (Up p) :: l2 /\ forall how, Stops p how ∉ l2.
Definition on_record (l : list child) (p : pid) : Prop := exists c, c ∈ l /\ c_pid c = Some p.
Record tracked (exited : pid -> Prop) (w : sworld) : Prop := Tracked {
  tr_running : forall p, left_running (v_log w) p -> on_record (children w) p \/ exited p;
  tr_restarting : forall c p, c ∈ children w -> c_restarting c = true -> c_pid c = Some p -> exited p }.
Lemma left_running_app log l p : left_running (log ++ l) p -> (left_running log p /\ (forall how, Stops p how ∉ l)) \/ left_running l p.
Proof.
  intros (l1 & id & l2 & E & H). apply app_eq_inv in E as [(k & -> & E)|(k & -> & E)].
  - destruct k as [|x k]; cbn in E.
    + right. exists [], id, l2. done.
    + injection E as <- ->. left. split; [exists l1, id, k; split; [done|]; intros how Hin; apply (H how); set_solver|]. intros how Hin. apply (H how). set_solver.
  - right. exists k, id, l2. done.
Qed.
Lemma stops_in l c p : c ∈ l -> c_pid c = Some p -> exists how, Stops p how ∈ stops l.
Proof. intros Hc Hp. exists (c_shutdown c). apply elem_of_list_omap. exists c. by rewrite Hp. Qed.
Lemma stops_only l e : e ∈ stops l -> exists c how p, c ∈ l /\ c_pid c = Some p /\ e = Stops p how.
Proof. intros H. apply elem_of_list_omap in H as (c & Hc & H). destruct (c_pid c) as [p|] eqn:E; [|done]. injection H as <-. by exists c, (c_shutdown c), p. Qed.
Lemma attempts_running t l es l' f p : attempts answers t l es l' f -> left_running es p -> on_record l' p.
Proof.
  intros Ha (l1 & id & l2 & -> & _). revert t l l' Ha. induction l1 as [|e l1 IH]; intros t l l' Ha; cbn in Ha; inversion Ha; subst.
  - eexists. split; [left|done].
  - edestruct IH as (c' & Hc & Hp); [eassumption|]. exists c'. split; [by right|done].
  - edestruct IH as (c' & Hc & Hp); [eassumption|]. exists c'. split; [by right|done].
  - by destruct l1.
Qed.
(** Children after an attempt: in their place, unless replaced. *)
Lemma attempts_restarting t l es l' f c : attempts answers t l es l' f -> c ∈ l' -> c_restarting c = true -> (c ∈ l \/ exists d, d ∈ l /\ c = retrying d).
Proof.
  induction 1 as [|t d l p es l' f Ea _ IH|t d l es l' f Ea _ IH|t d l e Ea He]; intros Hc Hr; [by apply elem_of_nil in Hc| | |].
  - apply elem_of_cons in Hc as [->|Hc]; [done|]. destruct (IH Hc Hr) as [H|(x & H1 & H2)]; [left; by right|right; exists x; split; [by right|done]].
  - apply elem_of_cons in Hc as [->|Hc]; [done|]. destruct (IH Hc Hr) as [H|(x & H1 & H2)]; [left; by right|right; exists x; split; [by right|done]].
  - apply elem_of_cons in Hc as [->|Hc]; [right; exists d; split; [left|done]|left; by right].
Qed.
Lemma stopped_nopid x : c_pid (stopped x) = None.
Proof. unfold stopped. destruct (c_pid x) eqn:E; [done|by rewrite E]. Qed.
Lemma started_then_pids st pre c post d p : d ∈ started_then st pre c post -> c_pid d = Some p -> d = c.
Proof.
  intros Hd Hp. assert (forall l, d ∈ map stopped l -> d = c) as Hs.
  { intros l Hl. apply elem_of_list_In, in_map_iff in Hl as (x & <- & _). by rewrite stopped_nopid in Hp. }
  destruct st; cbn in Hd.
  - by apply elem_of_list_singleton in Hd.
  - apply elem_of_app in Hd as [Hd|Hd]; [by eapply Hs|]. apply elem_of_cons in Hd as [->|Hd]; [done|by eapply Hs].
  - apply elem_of_cons in Hd as [->|Hd]; [done|by eapply Hs].
Qed.
Lemma moved_tracked (E E' : pid -> Prop) w e w' : (forall p, E p -> E' p) -> (forall now p r, e = VExit now p r -> E' p) -> tracked E w -> moved w e w' -> tracked E' w'.
Proof.
  intros HE He Ht H. assert (tracked E' w) as Ht'.
  { destruct Ht as [H1 H2]. split; [intros p Hp; destruct (H1 p Hp); auto|]. intros. eauto. }
  clear Ht. destruct Ht' as [H1 H2].
  destruct H as [e _|e now pre c post Hd|e now pre c post es l f w' Hd Hwhy _ Hr _|now p r pre c post Hc _|id pre c post Hc _ Hp|id pre c post Hc|id pre c post Hc _ Hp _|sp Hi Hsp].
  - done.
  - done.
  - (* restart *)
    apply demands_list in Hd as El. assert (forall p, c_pid c = Some p -> E' p) as Hcp.
    { intros p Hp. destruct Hd as [? p' r ? ?|? ? ?|? ? ?].
      - assert (p' = p) as -> by congruence. by eapply He.
      - apply (H2 c p); try done. rewrite El. set_solver.
      - apply (H2 c p); try done. rewrite El. set_solver. }
    destruct Hr as [Ha Hl Hls _ _ _ _]. cbn [counted v_sup v_log v_tick with_restarts s_strategy] in *. set (st := s_strategy (v_sup w)) in *. split.
    + intros p Hp. rewrite Hl in Hp. apply left_running_app in Hp as [[Hp Hn]|Hp].
      * destruct (H1 p Hp) as [(x & Hx & Hxp)|?]; [|by right]. rewrite El in Hx.
        assert (x = c \/ x ∈ fst (left_alone st pre post) ++ snd (left_alone st pre post) \/ x ∈ stopped_first st pre post) as [->|[Hx'|Hx']].
        { destruct st; cbn; set_solver. }
        -- right. by apply Hcp.
        -- left. exists x. rewrite Hls. set_solver.
        -- exfalso. destruct (stops_in _ _ _ Hx' Hxp) as [how Hh]. apply (Hn how). set_solver.
      * apply left_running_app in Hp as [[Hp _]|Hp].
        -- destruct Hp as (l1 & id & l2 & E0 & _). assert (Starts id (Up p) ∈ stops (stopped_first st pre post)) as Hin by (rewrite E0; set_solver).
           apply stops_only in Hin as (? & ? & ? & _ & _ & ?). done.
        -- left. destruct (attempts_running _ _ _ _ _ _ Ha Hp) as (x & Hx & Hxp). exists x. rewrite Hls. set_solver.
    + intros x p Hx Hxr Hxp. rewrite Hls in Hx. assert (x ∈ pre ++ post \/ x ∈ l) as [Hx'|Hx'].
      { destruct st; cbn in Hx; set_solver. }
      * apply (H2 x p); try done. rewrite El. set_solver.
      * destruct (attempts_restarting _ _ _ _ _ _ Ha Hx' Hxr) as [Hd'|(d & Hd' & ->)].
        -- apply (started_then_pids _ _ _ _ _ _ Hd') in Hxp as Heq. subst x. by apply Hcp.
        -- cbn in Hxp. apply (started_then_pids _ _ _ _ _ _ Hd') in Hxp as Heq. subst d. by apply Hcp.
  - (* gone *)
    destruct Hc as [El Hp _]. split; cbn [children v_log v_sup mk removed s_children].
    + intros q Hq. destruct (H1 q Hq) as [(x & Hx & Hxp)|?]; [|by right]. rewrite El in Hx. assert (x = c \/ x ∈ pre ++ post) as [->|Hx'] by set_solver.
      * right. assert (q = p) as -> by congruence. by eapply He.
      * left. by exists x.
    + intros x q Hx. apply H2. rewrite El. set_solver.
  - (* delete *)
    destruct Hc as [El _ _]. split; cbn [children v_log v_sup mk removed s_children].
    + intros q Hq. destruct (H1 q Hq) as [(x & Hx & Hxp)|?]; [|by right]. rewrite El in Hx. assert (x = c \/ x ∈ pre ++ post) as [->|Hx'] by set_solver.
      * congruence.
      * left. by exists x.
    + intros x q Hx. apply H2. rewrite El. set_solver.
  - (* terminate *)
    destruct Hc as [El _ _]. split; cbn [children v_log v_sup mk removed s_children].
    + intros q Hq. apply left_running_app in Hq as [[Hq Hn]|Hq].
      * destruct (H1 q Hq) as [(x & Hx & Hxp)|?]; [|by right]. rewrite El in Hx. assert (x = c \/ x ∈ pre ++ post) as [->|Hx'] by set_solver.
        -- exfalso. destruct (stops_in [c] c q) as [how Hh]; [left|done|]. by apply (Hn how).
        -- left. exists x. set_solver.
      * destruct Hq as (l1 & id' & l2 & E0 & _). assert (Starts id' (Up q) ∈ stops [c]) as Hin by (rewrite E0; set_solver). apply stops_only in Hin as (? & ? & ? & _ & _ & ?). done.
    + intros x q Hx Hxr Hxp. assert (x = stopped c \/ x ∈ pre ++ post) as [->|Hx'] by set_solver; [by rewrite stopped_nopid in Hxp|]. apply (H2 x q); try done. rewrite El. set_solver.
  - (* restart_child *)
    destruct Hc as [El _ _]. split; cbn [children v_log v_sup mk removed s_children].
    + intros q Hq. apply left_running_app in Hq as [[Hq Hn]|Hq].
      * destruct (H1 q Hq) as [(x & Hx & Hxp)|?]; [|by right]. rewrite El in Hx. assert (x = c \/ x ∈ pre ++ post) as [->|Hx'] by set_solver; [congruence|].
        left. exists x. set_solver.
      * destruct Hq as ([|? l1] & id' & l2 & E0 & _); [|by destruct l1]. cbn in E0. injection E0 as _ Ea _. rewrite Ea. left. exists (running_as c q). split; [set_solver|done].
    + intros x q Hx Hxr Hxp. set (d := match answers (v_tick w) with Up p => running_as c p | Down _ => c end) in *. assert (x = d \/ x ∈ pre ++ post) as [->|Hx'] by set_solver.
      * subst d. destruct (answers (v_tick w)); [done|congruence].
      * apply (H2 x q); try done. rewrite El. set_solver.
  - (* start_child *)
    split; cbn [children v_log v_sup mk removed s_children].
    + intros q Hq. apply left_running_app in Hq as [[Hq Hn]|Hq].
      * destruct (H1 q Hq) as [(x & Hx & Hxp)|?]; [|by right]. left. exists x. set_solver.
      * destruct Hq as ([|? l1] & id' & l2 & E0 & _); [|by destruct l1]. cbn in E0. injection E0 as _ Ea _. rewrite Ea. left. exists (Child sp (Some q) false). split; [set_solver|done].
    + intros x q Hx Hxr Hxp. apply elem_of_app in Hx as [Hx|Hx]; [by apply (H2 x q)|]. destruct (answers (v_tick w)) as [p|[]]; try (apply elem_of_list_singleton in Hx; by subst).
      destruct (decide _); [by apply elem_of_nil in Hx|]. apply elem_of_list_singleton in Hx; by subst.
Qed.
Lemma starts_tracked s w : built s -> starts s = Running w -> tracked (fun _ => False) w.
Proof.
  intros Hb H. destruct (built_fresh _ Hb) as [_ _ F3 F4 _]. pose proof (starts_eq s) as Hs. rewrite H in Hs. destruct Hs as (l' & Ha & Hc & _). split.
  - intros p Hp. left. destruct (attempts_running _ _ _ _ _ _ Ha Hp) as (x & Hx & Hxp). exists x. split; [|done]. rewrite Hc. apply elem_of_list_filter. split; [|done].
    unfold dropped. rewrite Hxp, bool_decide_eq_false_2 by done. apply andb_false_r.
  - intros c p Hin Hr Hp. rewrite Hc in Hin. apply keep_in in Hin.
    rewrite Forall_forall in F3. destruct (attempts_restarting _ _ _ _ _ _ Ha Hin Hr) as [Hl|(d & Hl & ->)]; [by rewrite F3 in Hp|]. cbn in Hp. by rewrite F3 in Hp.
Qed.
Definition exited_in (es : list event) (p : pid) : Prop := exists now r, VExit now p r ∈ es.
Lemma plays_tracked (E : pid -> Prop) w0 es : tracked E w0 ->
  match plays (Running w0) es with
  | Running w => tracked (fun p => E p \/ exited_in es p) w
  | Ended w _ => forall p, left_running (v_log w) p -> E p \/ exited_in es p
  | Panicking _ => True
  end.
Proof.
  revert E w0. induction es as [|e es IH]; intros E w0 Ht.
  - cbn. destruct Ht as [H1 H2]. split; [intros p Hp; destruct (H1 p Hp); auto|intros; left; eauto].
  - cbn. set (E1 := fun p => E p \/ exists now r, e = VExit now p r).
    assert (forall w', moved w0 e w' -> tracked E1 w') as Hm.
    { intros w' Hm. eapply moved_tracked; [| |exact Ht|exact Hm]; unfold E1; [by left|]. intros now p r ->. right. eauto. }
    destruct (step w0 e) as [w1|w1 r|w1] eqn:Es.
    + apply step_running in Es. specialize (IH E1 w1 (Hm _ Es)).
      assert (forall p, E1 p \/ exited_in es p -> E p \/ exited_in (e :: es) p) as Hx.
      { intros p [[?|(now & r & ->)]|(now & r & ?)]; [by left|right; exists now, r; left|right; exists now, r; by right]. }
      destruct (plays (Running w1) es); try done.
      * destruct IH as [H1 H2]. split; [intros p Hp; destruct (H1 p Hp); auto|]. intros. apply Hx. eauto.
      * intros p Hp. apply Hx. by apply IH.
    + assert (plays (Ended w1 r) es = Ended w1 r) as -> by (by destruct es). apply step_ended in Es as (w2 & Hmv & He). apply Hm in Hmv as [H1 _].
      destruct (ends_eq w2 r) as (w3 & E3 & El & _). rewrite E3 in He. injection He as ->. intros p Hp. rewrite El in Hp. apply left_running_app in Hp as [[Hp Hn]|Hp].
      * destruct (H1 p Hp) as [(x & Hx & Hxp)|[?|(now & r' & ->)]]; [|by left|right; exists now, r'; left].
        exfalso. destruct (stops_in (rev (children w2)) x p) as [how Hh]; [by apply elem_of_list_In, in_rev; rewrite rev_involutive; apply elem_of_list_In| done|]. by apply (Hn how).
      * destruct Hp as (l1 & id' & l2 & E0 & _). assert (Starts id' (Up p) ∈ stops (rev (children w2))) as Hin by (rewrite E0; set_solver). apply stops_only in Hin as (? & ? & ? & _ & _ & ?). done.
    + by destruct es.
Qed.
(** When a supervisor has ended, every process it ever started for a child was stopped afterwards or had reported its own exit. *)
Theorem C43_no_child_left s es w r p : built s -> plays (starts s) es = Ended w r -> left_running (v_log w) p -> exists now why, VExit now p why ∈ es.
Proof.
  intros Hb H Hp. destruct (starts s) as [w0|w0 r0|w0] eqn:E.
  - apply (starts_tracked _ _ Hb) in E. pose proof (plays_tracked _ _ es E) as Ht. rewrite H in Ht. by destruct (Ht p Hp).
  - exfalso. assert (Ended w0 r0 = Ended w r) as E0 by (by destruct es). injection E0 as -> ->.
    pose proof (C43_start_failed s w r Hb E) as (_ & l1 & c & l2 & e & es1 & af1 & _ & Hall & _ & _ & El). rewrite El in Hp. apply left_running_app in Hp as [[Hp Hn]|Hp].
    + destruct Hp as (k1 & id & k2 & -> & _). destruct Hall as (L1 & _ & Hall).
      assert (is_Some (l1 !! length k1)) as [x Hx]. { apply lookup_lt_is_Some. rewrite <- L1, app_length. cbn. lia. }
      destruct (Hall _ _ Hx) as [H1 H2]. rewrite list_lookup_middle in H1 by done. injection H1 as _ H1. cbn [Nat.add] in H1, H2. destruct H2 as [(q & H2 & H3)|[H2 _]]; [|congruence].
      assert (q = p) as -> by congruence. destruct (stops_in (rev af1) (running_as x p) p) as [how Hh]; [|done|].
      { apply elem_of_list_In, in_rev. rewrite rev_involutive. apply elem_of_list_In. by eapply elem_of_list_lookup_2. }
      apply (Hn how). set_solver.
    + destruct Hp as (k1 & id & k2 & E0 & _). assert (Starts id (Up p) ∈ [Starts (c_id c) (Down e)] ++ stops (rev af1)) as Hin by (rewrite E0; set_solver).
      apply elem_of_app in Hin as [Hin|Hin]; [by apply elem_of_list_singleton in Hin|]. apply stops_only in Hin as (? & ? & ? & _ & _ & ?). done.
  - by destruct es.
Qed.
End life.
