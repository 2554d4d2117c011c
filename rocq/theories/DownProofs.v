(** At most one down notice per monitor reference, under every schedule: the token argument. *)
From stdpp Require Import base list gmap numbers strings countable sorting.
From Coq Require Import Lia.
From Verif Require Import Prog ProgProofs ProgInv Types Mailbox World ProcApi NodeApi Api Steps Msum SchedSpec SchedProofs.

Section downs.
  Context (S : serde) (k : N).
  Notation r0 := (RLocal k).
  Definition has {A} (m : gmap reference A) : nat := match m !! r0 with Some _ => 1 | None => 0 end.
  Definition down_cnt (w : world) : nat :=
    unalloc (w_next_ref w) k + length (downs r0 w) + msum has (w_mons w) + msum has (w_nmons w).
  Notation calm := (step1 S (fun _ => True) False True True).

  Lemma has_delete {A} r (m : gmap reference A) : has (delete r m) <= has m.
  Proof.
    unfold has. destruct (decide (r = r0)) as [->|Hne]; [rewrite lookup_delete; lia|].
    rewrite lookup_delete_ne by exact Hne. lia.
  Qed.
  Lemma has_deletes {A} rs (m : gmap reference A) : has (foldr delete m rs) <= has m.
  Proof. induction rs as [|r rs IH]; cbn; [lia|]. pose proof (has_delete r (foldr delete m rs)). lia. Qed.
  Lemma has_insert {A} r a (m : gmap reference A) : has (<[r := a]> m) <= has m + if decide (r = r0) then 1 else 0.
  Proof.
    unfold has. destruct (decide (r = r0)) as [->|Hne]; [rewrite lookup_insert; lia|].
    rewrite lookup_insert_ne by exact Hne. lia.
  Qed.
  Lemma downs_push i x w :
    length (downs r0 (push i x w)) <= length (downs r0 w) + if decide (is_down r0 (i, x)) then 1 else 0.
  Proof.
    unfold downs, push. destruct (w_loc w !! i); cbn; [|lia].
    rewrite list.filter_app, app_length, filter_cons. destruct (decide (is_down r0 (i, x))); cbn; lia.
  Qed.
  Lemma push_fields i x w : w_next_ref (push i x w) = w_next_ref w /\ w_mons (push i x w) = w_mons w /\
    w_nmons (push i x w) = w_nmons w.
  Proof. unfold push. case_match; by split_and!. Qed.
  Lemma cnt_push i x w : down_cnt (push i x w) <= down_cnt w + if decide (is_down r0 (i, x)) then 1 else 0.
  Proof.
    unfold down_cnt. destruct (push_fields i x w) as (-> & -> & ->). pose proof (downs_push i x w). lia.
  Qed.
  Lemma cnt_send_to i x w : down_cnt (send_to i x w) <= down_cnt w + if decide (is_down r0 (i, x)) then 1 else 0.
  Proof. unfold send_to. case_match; [apply cnt_push | lia]. Qed.
  Lemma not_down i x : allowed (fun _ => True) False x -> ~ is_down r0 (i, x).
  Proof. destruct x; cbn; auto. Qed.
  Lemma cnt_same w w' : (w_next_ref w <= w_next_ref w')%N -> w_log w' = w_log w -> w_mons w' = w_mons w -> w_nmons w' = w_nmons w ->
    down_cnt w' <= down_cnt w.
  Proof.
    intros H1 H2 H3 H4. unfold down_cnt, downs. rewrite H2, H3, H4.
    pose proof (unalloc_mono _ _ k H1). lia.
  Qed.
  Lemma cnt_exit p f y w : down_cnt (exit_op p f y w) <= down_cnt w.
  Proof.
    unfold exit_op. repeat case_match; try (apply cnt_same; reflexivity || lia);
      pose proof (cnt_push (pid_id p) (ISystem (SExit f y)) w) as Hp; subst;
      rewrite decide_False in Hp by (cbn; tauto); cbn; lia.
  Qed.
  Lemma cnt_exit_linked p f y w : down_cnt (exit_linked_op p f y w) <= down_cnt w.
  Proof.
    unfold exit_linked_op. repeat case_match; try (apply cnt_same; reflexivity || lia);
      pose proof (cnt_push (pid_id p) (ISystem (SExit f y)) w) as Hp; subst;
      rewrite decide_False in Hp by (cbn; tauto); cbn; lia.
  Qed.
  Ltac csame := apply cnt_same; cbn; first [reflexivity | lia].

  Lemma calm_cnt w w' : calm w w' -> (True -> True) /\ down_cnt w' <= down_cnt w.
  Proof.
    intros H; split; [auto|]. destruct H; try tauto.
    all: try csame.
    - unfold receive_op. repeat case_match; csame.
    - unfold alias_take_op. repeat case_match; csame.
    - pose proof (cnt_push i x w) as Hp. rewrite decide_False in Hp by (by apply not_down). lia.
    - pose proof (cnt_send_to i x w) as Hp. rewrite decide_False in Hp by (by apply not_down). lia.
    - unfold node_register_op, spawn_op. repeat case_match; simplify_eq; csame.
    - unfold send_frame, hand_out. repeat case_match; csame.
    - unfold register_op. repeat case_match; csame.
    - apply cnt_exit.
    - apply cnt_exit_linked.
    - unfold down_cnt, del_mon; cbn. pose proof (msum_alter_le has (delete r) (w_mons w) i (has_delete r)).
      unfold downs; cbn. lia.
    - unfold down_cnt; cbn. pose proof (msum_delete has (w_mons w) i). unfold downs; cbn. lia.
    - unfold down_cnt, del_nmon; cbn. pose proof (msum_alter_le has (delete r) (w_nmons w) n (has_delete r)).
      unfold downs; cbn. lia.
    - unfold down_cnt, del_nmons; cbn. pose proof (msum_alter_le has (fun m => foldr delete m l) (w_nmons w) n (has_deletes l)).
      unfold downs; cbn. lia.
    - unfold down_cnt; cbn. pose proof (msum_delete has (w_nmons w) n). unfold downs; cbn. lia.
    - unfold node_start_op, spawn_op. repeat case_match; simplify_eq; csame.
    - unfold node_disconnect_op. case_match; [|lia]. case_match; [|lia]. case_match; [|csame].
      eapply Nat.le_trans; [|apply (cnt_exit p0 p RKill w)].
      apply cnt_same; cbn; unfold exit_op, push; cbn; repeat case_match; cbn; first [reflexivity | lia].
    - unfold node_accept_op. case_match; [|csame]. case_match; [|csame].
      match goal with |- context [if bool_decide _ then ?x else w] => set (w1 := if bool_decide (n_state n1 = Pending) then x else w) end.
      assert (down_cnt w1 <= down_cnt w) as H1.
      { unfold w1. repeat case_match; try lia. apply cnt_exit. }
      clearbody w1. eapply Nat.le_trans; [|exact H1]. case_match; csame.
    - unfold node_workers_op, hand_out. repeat case_match; csame.
    - unfold sup_down_op. repeat case_match; csame.
  Qed.

  Notation tk := (tok (fun _ : world => True) down_cnt).
  Lemma tk_any {A} h (q : prog world A) : guar calm q -> tk (fun _ h' => h' = h) h q.
  Proof. intros H. apply tok_of_guar; [|auto]. eapply guar_mono; [|exact H]. apply calm_cnt. Qed.
  Lemma tk_seq {A B} Q h (q : prog world A) (q' : A -> prog world B) :
    guar calm q -> (forall a, tk Q h (q' a)) -> tk Q h (bind q q').
  Proof. intros H H'. eapply tok_bind; [apply tk_any, H|]. intros a h' ->. apply H'. Qed.
  Lemma tk_end {A} (Q : A -> nat -> Prop) h (q : prog world A) : guar calm q -> (forall a, Q a h) -> tk Q h q.
  Proof. intros H HQ. eapply tok_mono; [|apply tk_any, H]. intros a h' ->. apply HQ. Qed.
  Definition is0 (r : reference) : nat := if decide (r = r0) then 1 else 0.

  Lemma tk_fresh h : tk (fun r h' => h' = h + is0 r) h fresh_ref.
  Proof.
    apply tok_atom. intros w _. cbn. split; [exact I|]. eexists. split; [|reflexivity].
    unfold is0, down_cnt; cbn. unfold downs; cbn.
    pose proof (unalloc_take (w_next_ref w) k) as Ht.
    destruct (decide (w_next_ref w = k)) as [<-|Hne]; [rewrite decide_True by reflexivity|rewrite decide_False by congruence]; lia.
  Qed.
  Lemma cnt_add_mon i r p d w : down_cnt (add_mon i r p d w) <= down_cnt w + is0 r.
  Proof.
    unfold down_cnt, add_mon; cbn. unfold downs; cbn.
    pose proof (msum_insert has (w_mons w) i (<[r := (p, d)]> (default ∅ (w_mons w !! i)))) as Hi.
    pose proof (has_insert r (p, d) (default ∅ (w_mons w !! i))) as Hj. fold (is0 r) in Hj.
    destruct (w_mons w !! i); cbn in *; [lia|].
    assert (has (∅ : gmap reference (pid * option dest)) = 0) as H0 by (unfold has; rewrite lookup_empty; reflexivity).
    rewrite H0 in Hj. lia.
  Qed.
  Lemma cnt_add_nmon n r x w : down_cnt (add_nmon n r x w) <= down_cnt w + is0 r.
  Proof.
    unfold down_cnt, add_nmon; cbn. unfold downs; cbn.
    pose proof (msum_insert has (w_nmons w) n (<[r := x]> (default ∅ (w_nmons w !! n)))) as Hi.
    pose proof (has_insert r x (default ∅ (w_nmons w !! n))) as Hj. fold (is0 r) in Hj.
    destruct (w_nmons w !! n); cbn in *; [lia|].
    assert (has (∅ : gmap reference nmonitor) = 0) as H0 by (unfold has; rewrite lookup_empty; reflexivity).
    rewrite H0 in Hj. lia.
  Qed.
  (** A step that may consume the token of [r]. *)
  Lemma tk_spend (Q : unit -> nat -> Prop) h r f :
    is0 r <= h -> (forall w, down_cnt (f w) <= down_cnt w + is0 r) -> Q tt (h - is0 r) -> tk Q h (modify f).
  Proof.
    intros Hh Hf HQ. apply tok_modify. intros w _. split; [exact I|]. exists (h - is0 r).
    split; [|exact HQ]. specialize (Hf w). lia.
  Qed.
  Notation anyQ := (fun _ _ => True).
  Definition down_of (x : item) : nat := if decide (is_down r0 (0%N, x)) then 1 else 0.
  Lemma cnt_send_down i d r y w : down_cnt (send_to i (IProcessDown d r y) w) <= down_cnt w + is0 r.
  Proof. exact (cnt_send_to i (IProcessDown d r y) w). Qed.
  Lemma cnt_send_ndown i n r w : down_cnt (send_to i (INodeDown n r) w) <= down_cnt w + is0 r.
  Proof. exact (cnt_send_to i (INodeDown n r) w). Qed.
  Lemma cnt_push_down i d r y w : down_cnt (push i (IProcessDown d r y) w) <= down_cnt w + is0 r.
  Proof. exact (cnt_push i (IProcessDown d r y) w). Qed.

  Lemma tk_self_down me d r s h : is0 r <= h -> tk anyQ h (self_down me d r s).
  Proof.
    intros Hh. unfold self_down. eapply tok_bind.
    { eapply (tk_spend anyQ _ r); [exact Hh | intros; apply cnt_push_down | exact I]. }
    intros _ h' _. apply tk_end; [|auto]. apply guar_bind; [apply guar_alias_destroy | intros; exact I].
  Qed.
  Lemma tk_monitor_remote me n a r d i nm h : is0 r <= h -> tk anyQ h (monitor_remote me n a r d i nm).
  Proof.
    intros Hh. unfold monitor_remote. eapply tok_bind.
    { eapply (tk_spend anyQ _ r); [exact Hh | intros; apply cnt_add_nmon | exact I]. }
    intros _ h' _. apply tk_end; [|auto]. apply guar_bind; [apply guar_register_node|].
    intros. apply guar_modify; intros; by constructor.
  Qed.
  Lemma tk_monitor_local me i r d h : is0 r <= h -> tk anyQ h (monitor_local me i r d).
  Proof.
    intros Hh. unfold monitor_local. apply tk_seq; [apply guar_observe; intros; apply st_none|].
    intros [|]; [|by apply tk_self_down].
    eapply (tk_spend anyQ _ r); [exact Hh | intros; apply cnt_add_mon | exact I].
  Qed.
  Lemma tk_own_monitor {B} me r x h (q : prog world B) : tk anyQ h q -> tk anyQ h (do! own_monitor me r x in q).
  Proof. intros Hq. apply tk_seq; [apply guar_modify; intros; by constructor|]. intros _. exact Hq. Qed.
  Lemma tk_monitor_install me d r h : is0 r <= h -> tk anyQ h (monitor_install me d r).
  Proof.
    intros Hh. unfold monitor_install. destruct d as [p|n [|nm a]|r'].
    - case_decide; [exact I|]. apply tk_own_monitor. case_match; [by apply tk_monitor_local|].
      apply tk_seq; [apply guar_observe; intros; apply st_none|]. intros [[n a]|]; [by apply tk_monitor_remote | by apply tk_self_down].
    - apply tk_seq; [apply guar_observe; intros; apply st_none|].
      intros [i|]; apply tk_own_monitor; [by apply tk_monitor_local | by apply tk_self_down].
    - apply tk_own_monitor. by apply tk_monitor_remote.
    - exact I.
  Qed.

  (** Removing a whole table entry hands its tokens to the caller. *)
  Lemma tk_take_mons i h :
    tk (fun (ms : option (gmap reference (pid * option dest))) h' => h' = h + match ms with Some m => has m | None => 0 end) h
       (atom (fun w => (up_mons (delete i) w, w_mons w !! i))).
  Proof.
    apply tok_atom. intros w _. cbn. split; [exact I|]. eexists. split; [|reflexivity].
    unfold down_cnt; cbn. unfold downs; cbn. pose proof (msum_delete has (w_mons w) i). lia.
  Qed.
  Lemma tk_take_nmons n h :
    tk (fun (ms : option (gmap reference nmonitor)) h' => h' = h + match ms with Some m => has m | None => 0 end) h
       (atom (fun w => (up_nmons (delete n) w, w_nmons w !! n))).
  Proof.
    apply tok_atom. intros w _. cbn. split; [exact I|]. eexists. split; [|reflexivity].
    unfold down_cnt; cbn. unfold downs; cbn. pose proof (msum_delete has (w_nmons w) n). lia.
  Qed.
  (** The tokens of a table are those of its entries, in whatever order they are visited. *)
  Lemma sum_permutation {A} (f : A -> nat) l l' : l ≡ₚ l' -> list_sum (map f l) = list_sum (map f l').
  Proof. unfold list_sum. induction 1; cbn in *; lia. Qed.
  Lemma sum_is0 {A} (m : gmap reference A) : list_sum (map (fun x => is0 (fst x)) (sorted_refs m)) = has m.
  Proof.
    unfold sorted_refs. rewrite (sum_permutation _ _ _ (merge_sort_Permutation _ _)).
    induction m as [|r a m Hr IH] using map_ind.
    - rewrite map_to_list_empty. unfold has. rewrite lookup_empty. reflexivity.
    - rewrite (sum_permutation _ _ _ (map_to_list_insert m r a Hr)).
      change (list_sum (map (fun x => is0 (fst x)) ((r, a) :: map_to_list m)))
        with (is0 r + list_sum (map (fun x => is0 (fst x)) (map_to_list m))). rewrite IH.
      unfold has, is0. destruct (decide (r = r0)) as [->|Hne].
      + rewrite lookup_insert, Hr. lia.
      + rewrite lookup_insert_ne by exact Hne. lia.
  Qed.

  Lemma tk_cond_alias_destroy (b : bool) r h : tk (fun _ h' => h' = h) h
    (if b then do! alias_destroy r in Ret tt else Ret tt).
  Proof. apply tk_any. destruct b; [apply guar_bind; [apply guar_alias_destroy | intros; exact I] | exact I]. Qed.

  Lemma tk_monitor_process_down p y h : tk anyQ h (monitor_process_down p y).
  Proof.
    unfold monitor_process_down. eapply tok_bind; [apply tk_take_mons|].
    intros [ms|] h' ->; [|exact I].
    eapply tok_bind.
    { apply (tok_each_spend _ _ (fun x => is0 (fst x))); [rewrite sum_is0; lia|].
      intros [r [p' d]] h' _ Hh. cbn [fst snd] in *. eapply tok_bind.
      { apply (tok_mono _ _ (fun _ h'' => h' - is0 r = h'' \/ h' = h'')); [intros a b H; exact H|].
        case_match; [|right; reflexivity]. destruct d as [d|].
        - eapply (tk_spend _ _ r); [exact Hh | intros; apply cnt_send_down | left; reflexivity].
        - apply tk_seq; [apply guar_observe; intros; apply st_none|]. intros [|]; cbn; [exact I | right; reflexivity]. }
      intros [] h'' Hx. eapply tok_mono; [|apply tk_cond_alias_destroy]. intros [] h3 ->. cbn. lia. }
    intros [] h'' _. apply tk_end; [|auto]. apply guar_each. intros x.
    apply guar_bind; [apply guar_observe; intros; apply st_none|]. intros n.
    apply guar_bind; [destruct n as [[? ?]|]; [apply guar_modify; intros; constructor | exact I]|].
    intros _. apply guar_modify; intros; constructor.
  Qed.
  Lemma guar_drop_head me : guar calm (atom (fun w => (up_regs (delete me) w, w_regs w !! me))).
  Proof. apply guar_atom; intros; constructor. Qed.
  Lemma tk_drop me h : tk anyQ h (drop_process me).
  Proof.
    unfold drop_process. apply tk_seq; [apply guar_drop_head|]. intros [y|].
    - apply tk_seq; [case_match; [apply guar_modify; intros; constructor | exact I]|]. intros _.
      apply tk_seq; [apply guar_link_process_down|]. intros _.
      eapply tok_bind; [apply tk_monitor_process_down|]. intros _ h' _.
      apply tk_end; [|auto]. apply guar_bind; [apply guar_observe; intros; apply st_none|]. intros l.
      apply guar_bind; [apply guar_monitor_destroy_all|]. intros _.
      apply guar_bind; [apply guar_alias_destroy_all|]. intros _. apply guar_modify; intros; constructor.
    - apply tk_end; [|auto]. apply guar_bind; [apply guar_modify; intros; constructor | intros; exact I].
  Qed.
  Lemma tk_supervisor_down nd p h : tk anyQ h (supervisor_down nd p).
  Proof.
    unfold supervisor_down. apply tk_seq; [apply guar_atom; intros; constructor|]. intros [|]; cbn [negb]; [|exact I].
    apply tk_seq; [apply guar_atom; intros; constructor|]. intros ls.
    apply tk_seq.
    { apply guar_each. intros x. apply guar_bind; [apply guar_link_destroy|]. intros _. apply guar_modify; intros; constructor. }
    intros _. eapply tok_bind; [apply tk_take_nmons|]. intros ms h' ->.
    eapply tok_bind.
    { apply (tok_each_spend _ _ (fun x => is0 (fst x))).
      { rewrite sum_is0. destruct ms; cbn; [lia|]. unfold has. rewrite lookup_empty. lia. }
      intros [r x] h' _ Hh. cbn [fst snd] in *. eapply tok_bind.
      { apply (tok_mono _ _ (fun _ h'' => h' - is0 r = h'' \/ h' = h'')); [intros a b H; exact H|].
        destruct x as [i|i d|i].
        - eapply (tk_spend _ _ r); [exact Hh | intros; apply cnt_send_ndown | left; reflexivity].
        - eapply (tk_spend _ _ r); [exact Hh | intros; apply cnt_send_down | left; reflexivity].
        - apply tk_end; [apply guar_monitor_destroy | right; reflexivity]. }
      intros [] h'' Hx. eapply tok_mono; [|apply tk_cond_alias_destroy]. intros [] h3 ->. cbn. lia. }
    intros [] h'' _. apply tk_end; [|auto]. apply guar_modify; intros; constructor.
  Qed.
  Lemma tk_node_process_monitor_down nd r y h : tk anyQ h (node_process_monitor_down nd r y).
  Proof.
    unfold node_process_monitor_down. eapply tok_bind.
    { apply (tok_atom _ _ (fun m h' => h' = h + match m with Some _ => is0 r | None => 0 end)).
      intros w _. cbn. split; [exact I|]. eexists. split; [|reflexivity].
      unfold down_cnt, del_nmon; cbn. unfold downs; cbn.
      destruct (w_nmons w !! nd) as [t|] eqn:E; [|pose proof (msum_alter_le has (delete r) (w_nmons w) nd (has_delete r)); lia].
      assert (alter (delete r) nd (w_nmons w) = <[nd := delete r t]> (w_nmons w)) as ->.
      { apply map_eq; intros j. destruct (decide (j = nd)) as [->|Hne].
        - rewrite lookup_alter, lookup_insert, E. reflexivity.
        - rewrite lookup_alter_ne, lookup_insert_ne by congruence. reflexivity. }
      pose proof (msum_insert has (w_nmons w) nd (delete r t)) as Hi. rewrite E in Hi.
      assert (has (delete r t) + match t !! r with Some _ => is0 r | None => 0 end <= has t) as Hd.
      { unfold has, is0. destruct (decide (r = r0)) as [->|Hne].
        - rewrite lookup_delete. destruct (t !! r0); lia.
        - rewrite lookup_delete_ne by exact Hne. destruct (t !! r); lia. }
      lia. }
    intros m h' ->. apply tk_seq; [apply guar_alias_destroy|]. intros _.
    destruct m as [[i|i d|i]|].
    - exact I.
    - eapply (tk_spend anyQ _ r); [lia | intros; apply cnt_send_down | exact I].
    - exact I.
    - exact I.
  Qed.
  Lemma tk_each_any {A} (l : list A) body : (forall x h, tk anyQ h (body x)) -> forall h, tk anyQ h (each l body).
  Proof.
    intros Hb. induction l as [|x l IH]; intros h; cbn; [exact I|].
    eapply tok_bind; [apply Hb|]. intros [] h' _. apply IH.
  Qed.
  Lemma tk_on_monitor nd n b p s f r h : tk anyQ h (on_monitor nd n b p s f r).
  Proof.
    unfold on_monitor. destruct f as [f|]; [|exact I].
    assert (is0 (RRemote r n) = 0) as H0 by reflexivity.
    destruct b.
    - destruct p as [i|].
      + apply tk_seq; [apply guar_observe; intros; apply st_none|]. intros [|].
        * eapply tok_bind; [eapply (tk_spend anyQ _ (RRemote r n)); [lia | intros; apply cnt_add_mon | exact I]|].
          intros _ h' _. eapply (tk_spend anyQ _ (RRemote r n)); [lia | intros; apply cnt_add_nmon | exact I].
        * apply tk_end; [|auto]. apply guar_modify; intros; constructor.
      + destruct s as [s|]; [|exact I].
        apply tk_seq; [apply guar_observe; intros; apply st_none|]. intros [i|].
        * eapply tok_bind; [eapply (tk_spend anyQ _ (RRemote r n)); [lia | intros; apply cnt_add_mon | exact I]|].
          intros _ h' _. apply tk_seq; [apply guar_modify; intros; constructor|].
          intros _. eapply (tk_spend anyQ _ (RRemote r n)); [lia | intros; apply cnt_add_nmon | exact I].
        * apply tk_end; [|auto]. apply guar_modify; intros; constructor.
    - destruct p as [i|]; [|exact I]. apply tk_end; [|auto].
      apply guar_bind; [apply guar_monitor_destroy|]. intros _. apply guar_modify; intros; constructor.
  Qed.
  Lemma tk_ret_as {A} (f : A -> val) (q : prog world A) h : tk anyQ h q -> tk anyQ h (ret_as f q).
  Proof. intros Hq. eapply tok_bind; [exact Hq|]. intros a h' _. exact I. Qed.

  Lemma call_tok_down c : tk anyQ 0 (call_prog S c).
  Proof.
    assert (permitted S (fun _ => True) False True True c -> tk anyQ 0 (call_prog S c)) as Hn.
    { intros Hp. apply tk_end; [|auto]. by apply call_steps_permitted. }
    destruct c; try (apply Hn; cbn; unfold can_send; by auto); cbn [call_prog].
    - destruct monitor; [|apply Hn; cbn; discriminate].
      apply tk_ret_as. unfold spawn. apply tk_seq; [apply guar_atom; intros; constructor|]. intros i.
      apply tk_seq.
      { destruct link; [|exact I]. apply guar_bind; [|intros]; apply guar_modify; intros; constructor. }
      intros _. eapply tok_bind.
      { eapply tok_bind; [apply tk_fresh|]. intros r h ->. apply tk_own_monitor.
        eapply tok_bind; [eapply (tk_spend anyQ _ r); [lia | intros; apply cnt_add_mon | exact I]|].
        intros _ h _. exact I. }
      intros r h _. apply tk_end; [|auto].
      apply guar_bind; [apply guar_modify; intros; constructor|]. intros _.
      apply guar_bind; [apply guar_modify; intros; constructor|]. intros _. exact I.
    - apply tk_ret_as. unfold monitor. eapply tok_bind; [apply tk_fresh|]. intros r h ->.
      eapply tok_bind; [apply tk_monitor_install; lia|]. intros _ h' _. exact I.
    - apply tk_ret_as. unfold monitor_alias. eapply tok_bind; [apply tk_fresh|]. intros r h ->.
      apply tk_seq; [apply guar_modify; intros; by constructor|]. intros _.
      eapply tok_bind; [apply tk_monitor_install; lia|]. intros _ h' _. exact I.
    - apply tk_ret_as, tk_drop.
    - apply tk_ret_as. unfold crash. apply tk_seq; [apply guar_modify; intros; constructor|]. intros _. apply tk_drop.
    - apply tk_ret_as. unfold node_monitor. destruct nd as [|n a]; [exact I|].
      eapply tok_bind; [apply tk_fresh|]. intros r h ->. apply tk_own_monitor.
      eapply tok_bind; [eapply (tk_spend anyQ _ r); [lia | intros; apply cnt_add_nmon | exact I]|].
      intros _ h' _. apply tk_end; [|auto].
      apply guar_bind; [apply guar_register_node | intros; exact I].
    - apply tk_ret_as, tk_supervisor_down.
    - destruct f; try (apply Hn; cbn; by auto); apply tk_ret_as; cbn [receive_frame].
      + apply tk_seq; [apply guar_register_node|]. intros n. apply tk_on_monitor.
      + apply tk_each_any. intros x h. apply tk_node_process_monitor_down.
  Qed.
End downs.
