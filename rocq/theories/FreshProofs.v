(** A reference nobody has been given yet is mentioned nowhere; a process that has not been
    allocated yet has nothing. *)
From stdpp Require Import base list gmap numbers strings countable sorting relations.
From Coq Require Import Lia.
From Verif Require Import Prog ProgProofs ProgInv Types Mailbox World ProcApi NodeApi Api Steps Hist SchedSpec Msum SchedProofs DownProofs RecvProofs ProcSpec ProcInv.

Section fresh.
  Context (S : serde).
  (** A down notice whose monitor has not been checked yet. *)
  Definition unripe (x : item) : Prop := match x with IProcessDown _ _ _ | INodeDown _ _ => True | _ => False end.
  Definition covered (w : world) : Prop :=
    forall j l x, w_loc w !! j = Some l -> x ∈ l_items l ++ l_chan l -> unripe x -> (j, x) ∈ w_log w.
  Lemma process_item_unripe T x l r x' l' : process_item S T x l = (r, x', l') ->
    l_items l' = l_items l /\ l_chan l' = l_chan l /\ (unripe x' -> x' = x).
  Proof. unfold process_item. intros H. destruct x; repeat case_match; simplify_eq; cbn; split_and!; (reflexivity || tauto). Qed.
  Lemma scan_items_unripe T f b its l s its' l' : scan_items S T f b its l = (s, its', l') ->
    l_chan l' = l_chan l /\ forall x, unripe x -> x ∈ its' -> x ∈ its.
  Proof.
    revert l s its' l'; induction its as [|y its IH]; intros l s its' l' H; cbn in H; [by simplify_eq|].
    destruct (process_item S T y l) as [[r y'] l1] eqn:E. apply process_item_unripe in E as (E1 & E2 & E3).
    destruct (scan_items S T f b its l1) as [[s1 i1] l2] eqn:E'. apply IH in E' as [F1 F2].
    assert (forall x i, unripe x -> (forall x, unripe x -> x ∈ i -> x ∈ its) -> x ∈ y' :: i -> x ∈ y :: its) as Hg.
    { intros x i Hx Hi. rewrite !elem_of_cons. intros [->|?]; [left; auto | right; auto]. }
    destruct r as [m| |]; [destruct (f m)| |destruct b]; simplify_eq; (split; [congruence|]); intros x Hx Hin; try (by eapply Hg; eauto).
    all: rewrite ?elem_of_cons in *; naive_solver.
  Qed.
  Lemma scan_chan_unripe T f b ch l s l' : scan_chan S T f b ch l = (s, l') ->
    forall x, unripe x -> x ∈ l_items l' ++ l_chan l' -> x ∈ l_items l ++ ch.
  Proof.
    revert l s l'; induction ch as [|y ch IH]; intros l s l' H x Hx Hin; cbn in H.
    - simplify_eq. exact Hin.
    - destruct (process_item S T y l) as [[r y'] l1] eqn:E. apply process_item_unripe in E as (E1 & E2 & E3).
      assert (forall s l2, scan_chan S T f b ch (set_items (l_items l1 ++ [y']) l1) = (s, l2) -> x ∈ l_items l2 ++ l_chan l2 -> x ∈ l_items l ++ y :: ch) as Hg.
      { intros s0 l2 E4 Hi. eapply IH in E4; [|exact Hx|exact Hi]. cbn in E4. rewrite E1 in E4.
        rewrite !elem_of_app, elem_of_list_singleton in E4. rewrite elem_of_app, elem_of_cons.
        destruct E4 as [[?| ->]|?]; auto. }
      destruct r as [m| |]; [destruct (f m)| |destruct b]; simplify_eq; try (by eapply Hg); cbn in Hin; rewrite ?E1 in Hin;
        try (rewrite elem_of_app in *; rewrite elem_of_cons; tauto).
      eapply IH in H; [|exact Hx|exact Hin]. rewrite E1 in H. rewrite elem_of_app in *; rewrite elem_of_cons; tauto.
  Qed.
  Lemma select_unripe T f b l s l' : select S T f b l = (s, l') ->
    forall x, unripe x -> x ∈ l_items l' ++ l_chan l' -> x ∈ l_items l ++ l_chan l.
  Proof.
    unfold select. intros H x Hx Hin. destruct (scan_items S T f b (l_items l) l) as [[s1 i1] l1] eqn:E.
    apply scan_items_unripe in E as [E1 E2].
    assert (x ∈ i1 ++ l_chan l1 -> x ∈ l_items l ++ l_chan l) as Hg.
    { rewrite !elem_of_app, E1. intros [?|?]; auto. }
    destruct s1; simplify_eq; try (by apply Hg). apply Hg. eapply scan_chan_unripe in H; [|exact Hx|exact Hin]. exact H.
  Qed.

  Lemma covered_same w w' : w_loc w' = w_loc w -> w_log w' = w_log w -> covered w -> covered w'.
  Proof. intros E1 E2 H j l x. rewrite E1, E2. apply H. Qed.
  Lemma covered_alter w (g : plocal -> plocal) i : (forall l, l_items (g l) = l_items l /\ l_chan (g l) = l_chan l) ->
    covered w -> covered (up_loc (alter g i) w).
  Proof.
    intros Hg H j l x. cbn. intros E. apply lookup_alter_Some in E as [(-> & l0 & E & ->)|[_ E]]; [|by apply H].
    destruct (Hg l0) as [-> ->]. by apply H.
  Qed.
  Lemma covered_push i x w : covered w -> covered (push i x w).
  Proof.
    intros H. unfold push. destruct (w_loc w !! i) as [l|] eqn:E; [|exact H]. intros j l1 y. cbn.
    rewrite lookup_insert_Some. intros [[<- <-]|[_ E1]] Hin Hy; apply elem_of_app.
    - cbn in Hin. rewrite !elem_of_app, elem_of_list_singleton in Hin. destruct Hin as [Hin|[Hin| ->]]; [| |right; set_solver].
      + left. eapply H; eauto. set_solver.
      + left. eapply H; eauto. set_solver.
    - left. by eapply H.
  Qed.
  Lemma covered_exit p f y w : covered w -> covered (exit_op p f y w).
  Proof. intros H. unfold exit_op. repeat case_match; try exact H; try (by apply covered_push); by apply (covered_same w). Qed.
  Lemma covered_exit_linked p f y w : covered w -> covered (exit_linked_op p f y w).
  Proof. intros H. unfold exit_linked_op. repeat case_match; try exact H; try (by apply covered_push); by apply (covered_same w). Qed.
  Lemma covered_new w i w' : w_loc w' = <[i := new_plocal]> (w_loc w) -> w_log w' = w_log w -> covered w -> covered w'.
  Proof.
    intros E1 E2 H j l x. rewrite E1, E2, lookup_insert_Some. intros [[<- <-]|[_ E]] Hin Hx; [|by eapply H].
    cbn in Hin. by apply elem_of_nil in Hin.
  Qed.
  Lemma step1_covered w w' : anystep S w w' -> covered w -> covered w'.
  Proof.
    intros H Hw. destruct H; try exact Hw;
      try (by (apply (covered_same w); [ops; cbn; repeat case_match; reflexivity | ops; cbn; repeat case_match; reflexivity | exact Hw]));
      try (by (apply covered_alter; [cbn; auto | exact Hw])).
    - unfold receive_op. destruct (w_loc w !! me) as [l|] eqn:E; [|exact Hw]. destruct (select S T f b l) as [s l'] eqn:Es.
      intros j l1 x. cbn. rewrite lookup_insert_Some. intros [[<- <-]|[_ E1]] Hin Hx; [|by eapply Hw].
      eapply Hw; [exact E| |exact Hx]. by eapply select_unripe.
    - by apply covered_push.
    - unfold send_to. case_match; [by apply covered_push | exact Hw].
    - unfold node_register_op, spawn_op. repeat case_match; cbn; simplify_eq; try exact Hw;
        first [by apply (covered_same w) | by apply (covered_new w (w_next_pid w))].
    - by apply (covered_new w (w_next_pid w)).
    - by apply covered_exit.
    - by apply covered_exit_linked.
    - intros j l x. cbn. rewrite lookup_delete_Some. intros [_ E]. by apply Hw.
    - unfold node_start_op, spawn_op. repeat case_match; cbn; simplify_eq; try exact Hw. by apply (covered_new w (w_next_pid w)).
    - unfold node_disconnect_op. repeat case_match; try exact Hw.
      match goal with |- covered (?g ?x) => apply (covered_same x); [reflexivity..|] end.
      apply covered_exit. by apply (covered_same w).
    - unfold node_accept_op. repeat case_match; cbn; simplify_eq; try exact Hw; try (by apply (covered_same w)); try (by apply covered_exit).
      all: match goal with |- covered (up_nregs ?g ?x) => apply (covered_same x); [reflexivity..|] end; by apply covered_exit.
    - apply (covered_same w); [| |exact Hw]; unfold node_workers_op, hand_out; repeat case_match; reflexivity.
    - apply (covered_same w); [| |exact Hw]; unfold sup_down_op; repeat case_match; reflexivity.
  Qed.
  Lemma occurs_covered w : occurs S w -> covered w.
  Proof. apply (occurs_inv S covered); [|apply step1_covered]. intros j l x. cbn. by rewrite lookup_empty. Qed.

  (** Process objects have been allocated. *)
  Definition allocated (w : world) : Prop := forall j, is_Some (w_loc w !! j) -> (j < w_next_pid w)%N.
  Lemma allocated_same w w' : w_next_pid w' = w_next_pid w -> (forall j, is_Some (w_loc w' !! j) -> is_Some (w_loc w !! j)) -> allocated w -> allocated w'.
  Proof. intros E1 E2 H j Hj. rewrite E1. auto. Qed.
  Lemma allocated_new w w' : w_next_pid w' = N.succ (w_next_pid w) -> w_loc w' = <[w_next_pid w := new_plocal]> (w_loc w) -> allocated w -> allocated w'.
  Proof.
    intros E1 E2 H j. rewrite E1, E2, lookup_insert_is_Some'. intros [<-|Hj]; [lia|]. specialize (H j Hj). lia.
  Qed.
  Lemma exit_op_locs p f y w : w_next_pid (exit_op p f y w) = w_next_pid w /\ forall j, is_Some (w_loc (exit_op p f y w) !! j) -> is_Some (w_loc w !! j).
  Proof.
    unfold exit_op, push. split; [by repeat case_match|]. intros j. repeat case_match; cbn; auto;
      rewrite lookup_insert_is_Some'; intros [<-|?]; auto; eauto.
  Qed.
  Lemma step1_allocated w w' : anystep S w w' -> allocated w -> allocated w'.
  Proof.
    intros H Hw. destruct H; try exact Hw;
      try (by (apply (allocated_same w); [ops; cbn; repeat case_match; reflexivity | intros j; ops; cbn; repeat case_match; cbn; auto using lookup_alter_is_Some;
         rewrite ?lookup_alter_is_Some, ?lookup_insert_is_Some', ?lookup_delete_is_Some; try tauto; intros [<-|?]; eauto | exact Hw])).
    - unfold node_register_op, spawn_op. repeat case_match; cbn; simplify_eq; try exact Hw;
        by apply (allocated_new w).
    - by apply (allocated_new w).
    - unfold node_start_op, spawn_op. repeat case_match; cbn; simplify_eq; try exact Hw. by apply (allocated_new w).
    - unfold node_disconnect_op. repeat case_match; try exact Hw.
      match goal with |- context [exit_op ?p ?f ?y ?x] => destruct (exit_op_locs p f y x) as [E1 E2] end.
      apply (allocated_same w); [exact E1 | exact E2 | exact Hw].
    - unfold node_accept_op. repeat case_match; cbn; simplify_eq; try exact Hw;
        match goal with |- context [exit_op ?p ?f ?y ?x] => destruct (exit_op_locs p f y x) as [E1 E2] end;
        (apply (allocated_same w); [exact E1 | exact E2 | exact Hw]).
    - apply (allocated_same w); [| |exact Hw]; unfold node_workers_op, hand_out; repeat case_match; cbn; auto.
    - apply (allocated_same w); [| |exact Hw]; unfold sup_down_op; repeat case_match; cbn; auto.
  Qed.
  Lemma occurs_allocated w : occurs S w -> allocated w.
  Proof. apply (occurs_inv S allocated); [|apply step1_allocated]. intros j. cbn. rewrite lookup_empty. intros [? ?]. discriminate. Qed.

  (** The next reference. *)
  Lemma down0 k : down_cnt k world0 <= 1.
  Proof. unfold down_cnt, unalloc; cbn. case_decide; cbn; unfold msum; rewrite ?map_fold_empty; cbn; lia. Qed.
  Lemma reachable_down k s : reachable S s -> down_cnt k (s_world s) <= 1.
  Proof.
    intros Hr.
    destruct (reach_tok_state (fun _ => True) (down_cnt k) (fun _ => 0) (any_call S) _ s []
      (fun p '(ex_intro _ c E) => ltac:(rewrite E; eapply tok_mono; [|apply call_tok_down]; cbn; lia)) Hr I)
      as (hs & _ & A2 & A3); [constructor|].
    pose proof (down0 k). cbn in *. unfold list_sum in *; cbn in *. lia.
  Qed.
  Record unmentioned (k : N) (w : world) : Prop := Unmentioned {
    um_mons : forall j, default ∅ (w_mons w !! j) !! RLocal k = None;
    um_nmons : forall nd, default ∅ (w_nmons w !! nd) !! RLocal k = None;
    um_tables : forall j l, w_loc w !! j = Some l -> l_monitors l !! RLocal k = None;
    um_items : forall j l x, w_loc w !! j = Some l -> x ∈ l_items l ++ l_chan l ->
      match x with IProcessDown _ r _ | INodeDown _ r | ISystem (SProcessDown _ r _) | ISystem (SNodeDown _ r) => r <> RLocal k | _ => True end }.
  Lemma list_sum_elem {A} (f : A -> nat) x l : x ∈ l -> f x <= list_sum (map f l).
  Proof. induction 1; cbn; unfold list_sum in *; cbn in *; lia. Qed.
  Lemma occurs_unmentioned k w : occurs S w -> (w_next_ref w <= k)%N -> unmentioned k w.
  Proof.
    intros Ho Hk. pose proof (occurs_covered w Ho) as Hcov. destruct Ho as [ts Hr].
    pose proof (reachable_down k _ Hr) as Hd. destruct (reachable_rcv S k _ Hr) as (hs & _ & Hv). cbn in Hd, Hv.
    unfold down_cnt, rcv_cnt, unalloc in *. rewrite decide_True in * by exact Hk.
    assert (msum (has k) (w_mons w) = 0 /\ msum (has k) (w_nmons w) = 0 /\ length (downs (RLocal k) w) = 0 /\ msum (mcount k) (w_loc w) = 0) as (H1 & H2 & H3 & H4) by lia.
    clear Hd Hv. constructor.
    - intros j. destruct (w_mons w !! j) as [m|] eqn:E; [|apply lookup_empty]. pose proof (msum_ge (has k) _ _ _ E) as Hg. cbn.
      unfold has in Hg, H1. destruct (m !! RLocal k); [lia|reflexivity].
    - intros j. destruct (w_nmons w !! j) as [m|] eqn:E; [|apply lookup_empty]. pose proof (msum_ge (has k) _ _ _ E) as Hg. cbn.
      unfold has in Hg, H2. destruct (m !! RLocal k); [lia|reflexivity].
    - intros j l E. pose proof (msum_ge (mcount k) _ _ _ E) as Hg. unfold mcount at 1 in Hg. unfold has in Hg.
      destruct (l_monitors l !! RLocal k); [lia|reflexivity].
    - intros j l x E Hin. apply nil_length_inv in H3.
      assert (unripe x -> ~ is_down (RLocal k) (j, x)) as Hun.
      { intros Hx Hd. specialize (Hcov j l x E Hin Hx). assert ((j, x) ∈ downs (RLocal k) w) as Hf.
        { apply elem_of_list_filter. auto. }
        rewrite H3 in Hf. by apply elem_of_nil in Hf. }
      assert (ripe k x = 0) as Hrp.
      { pose proof (msum_ge (mcount k) _ _ _ E) as Hg. unfold mcount at 1 in Hg. apply elem_of_app in Hin as [Hin|Hin];
          apply (list_sum_elem (ripe k)) in Hin; unfold ripes in Hg; lia. }
      destruct x as [| |[]| | | |]; cbn in Hrp; try exact I; try (intros ->; by apply Hun); intros ->; by rewrite decide_True in Hrp.
  Qed.
End fresh.
