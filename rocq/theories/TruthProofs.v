(** Down notices tell the truth, in every schedule: proofs. *)
From stdpp Require Import base list gmap numbers strings countable sorting relations.
From Coq Require Import Lia.
From Verif Require Import Prog ProgProofs ProgInv Types Mailbox World ProcApi NodeApi Api Steps Hist Labels SchedSpec SchedProofs ProcProofs Path TruthSpec.

Section truth.
  Context (S : serde) (X : N -> N -> exit_reason -> Prop) (ws : list world).
  Lemma ended_later m m' i why : ended_by ws m i why -> m <= m' -> ended_by ws m' i why.
  Proof. intros (n & w & w' & r & H & H') Hm. exists n, w, w', r. split; [lia|done]. Qed.
  Lemma since_later m m' k P : since ws m k P -> m <= m' -> since ws m' k P.
  Proof. intros (n & w & H & H') Hm. exists n, w. split; [lia|done]. Qed.
  Lemma truth_later m m' d k why : truth ws m d k why -> m <= m' -> truth ws m' d k why.
  Proof.
    intros H Hm. destruct d as [[i|i n]|n [|name addr]|r]; cbn in *; try done.
    - destruct H as [H|[-> H]]; [left; by eapply ended_later|right; split; [done|by eapply since_later]].
    - destruct H as [(i & H1 & H2)|[-> H]]; [left; exists i; split; [by eapply since_later|]|right; split; [done|by eapply since_later]].
      destruct H2 as [H2|[-> H2]]; [left; by eapply ended_later|right; split; [done|by eapply since_later]].
  Qed.
  (** The monitor with reference [r] on process [i] was made for [d]. *)
  Definition aimed (m : nat) (r : reference) (d : dest) (i : N) : Prop :=
    match d with
    | DPid q => q = PLocal i
    | DNamed n NLocal => since ws m (ref_id r) (owns_name n i)
    | _ => False
    end.
  Lemma aimed_later m m' r d i : aimed m r d i -> m <= m' -> aimed m' r d i.
  Proof. destruct d as [q|n [|]|]; cbn; try done. apply since_later. Qed.
  Lemma exit_later m m' o p why : exit_truth X ws m o p why -> m <= m' -> exit_truth X ws m' o p why.
  Proof.
    destruct p as [i|]; cbn; [|done]. intros [H|[H|(-> & n & n' & w & w' & H1 & H2 & H)]] Hm; [by left| |].
    - right; left. by eapply ended_later.
    - right; right. split; [done|]. exists n, n', w, w'. split; [done|]. split; [lia|done].
  Qed.
  Lemma node_later m m' nd : node_truth ws m nd -> m <= m' -> node_truth ws m' nd.
  Proof. intros (n & w & i & r & H & H') Hm. exists n, w, i, r. split; [lia|done]. Qed.
  Definition told (m : nat) (o : N) (x : item) : Prop :=
    match x with
    | IProcessDown d r why => truth ws m d (ref_id r) why
    | ISystem (SExit p why) => exit_truth X ws m o p why
    | ISystem _ => False
    | INodeDown nd _ => node_truth ws m nd
    | _ => True
    end.
  Lemma told_later m m' o x : told m o x -> m <= m' -> told m' o x.
  Proof. destruct x as [| |[]| | | |]; cbn; try done; [apply exit_later|apply truth_later|apply node_later]. Qed.
  (** Says nothing about processes and nodes. *)
  Definition mute (x : item) : Prop := match x with IProcessDown _ _ _ | ISystem _ | INodeDown _ _ => False | _ => True end.
  Definition abroad (d : dest) : Prop := match d with DPid (PRemote _ _) | DNamed _ (NRemote _ _) => True | _ => False end.
  Record inv (m : nat) (w : world) : Prop := Inv {
    iv_log : forall o x, (o, x) ∈ w_log w -> told m o x;
    iv_mons : forall i t r f d, w_mons w !! i = Some t -> t !! r = Some (f, Some d) -> aimed m r d i;
    iv_nmons : forall nd t r i d, w_nmons w !! nd = Some t -> t !! r = Some (NMProcess i d) -> abroad d;
    iv_nlinks : forall nd t p i, w_nlinks w !! nd = Some t -> (p, i) ∈ t -> pid_is_local p = false }.

  (** ** Steps *)
  (** No down notice is delivered, no monitor with a destination is added. *)
  Definition keeps (w w' : world) : Prop :=
    (exists g, w_log w' = w_log w ++ g /\ Forall (fun x => forall m, told m (fst x) (snd x)) g) /\
    (forall i t' r f d, w_mons w' !! i = Some t' -> t' !! r = Some (f, Some d) ->
       exists t, w_mons w !! i = Some t /\ t !! r = Some (f, Some d)) /\
    (forall nd t' r i d, w_nmons w' !! nd = Some t' -> t' !! r = Some (NMProcess i d) ->
       exists t, w_nmons w !! nd = Some t /\ t !! r = Some (NMProcess i d)) /\
    (forall nd t' p i, w_nlinks w' !! nd = Some t' -> (p, i) ∈ t' ->
       pid_is_local p = false \/ exists t, w_nlinks w !! nd = Some t /\ (p, i) ∈ t).
  Lemma keeps_inv m w w' : keeps w w' -> inv m w -> inv (Datatypes.S m) w'.
  Proof.
    intros ((g & Eg & Hg) & K2 & K3 & K4) [I1 I2 I3 I4]. split.
    - intros o x. rewrite Eg, elem_of_app. intros [H|H]; [eapply told_later; [by eapply I1|lia]|].
      rewrite Forall_forall in Hg. apply (Hg _ H).
    - intros i t r f d H1 H2. destruct (K2 _ _ _ _ _ H1 H2) as (t0 & H3 & H4). eapply aimed_later; [by eapply I2|lia].
    - intros nd t r i d H1 H2. destruct (K3 _ _ _ _ _ H1 H2) as (t0 & H3 & H4). by eapply I3.
    - intros nd t p i H1 H2. destruct (K4 _ _ _ _ H1 H2) as [H|(t0 & H3 & H4)]; [done|]. by eapply I4.
  Qed.
  Lemma keeps_refl w : keeps w w.
  Proof. split; [exists []; rewrite app_nil_r; auto|]. split_and!; intros; eauto. Qed.
  Lemma keeps_trans w1 w2 w3 : keeps w1 w2 -> keeps w2 w3 -> keeps w1 w3.
  Proof.
    intros ((g & Eg & Hg) & K2 & K3 & K4) ((g' & Eg' & Hg') & K2' & K3' & K4'). split.
    - exists (g ++ g'). rewrite Eg', Eg, app_assoc. split; [done|]. by apply Forall_app.
    - split_and!; intros; [edestruct K2' as (? & ? & ?)|edestruct K3' as (? & ? & ?)|edestruct K4' as [?|(? & ? & ?)]]; eauto.
  Qed.
  Lemma keeps_same w w' : w_log w' = w_log w -> w_mons w' = w_mons w -> w_nmons w' = w_nmons w -> w_nlinks w' = w_nlinks w -> keeps w w'.
  Proof. intros H1 H2 H3 H4. split; [exists []; rewrite app_nil_r; auto|]. rewrite H2, H3, H4. split_and!; intros; eauto. Qed.
  Lemma keeps_push i x w : (forall m, told m i x) -> keeps w (push i x w).
  Proof.
    intros Hx. unfold push. destruct (w_loc w !! i); [|apply keeps_refl]. split; [|cbn; split_and!; intros; eauto]. exists [(i, x)]. split; [done|]. repeat constructor. exact Hx.
  Qed.
  Lemma mute_told x : mute x -> forall m i, told m i x.
  Proof. by destruct x. Qed.
  Definition benign (a : act) : Prop :=
    match a with
    | APush _ x | ASendTo _ x => mute x
    | AAddMon _ _ _ (Some _) => False
    | AAddNmon _ _ (NMProcess _ _) => False
    | AExit p (PLocal i) r => r = RKill \/ X i (pid_id p) r
    | AExitLinked p f r => pid_is_local f = false
    | AAddNlink _ p _ => pid_is_local p = false
    | _ => True
    end.
  Lemma keeps_exit p f y w : (match f with PLocal i => y = RKill \/ X i (pid_id p) y | _ => True end) -> keeps w (exit_op p f y w).
  Proof.
    intros Hx. unfold exit_op. assert (y <> RKill -> keeps w (push (pid_id p) (ISystem (SExit f y)) w)) as Ht.
    { intros Hy. apply keeps_push. intros m. cbn. destruct f; [|done]. left. by destruct Hx. }
    repeat case_match; try apply keeps_refl; try (by apply Ht); by apply keeps_same.
  Qed.
  Lemma keeps_exit_linked p f y w : (forall m, exit_truth X ws m (pid_id p) f y) -> keeps w (exit_linked_op p f y w).
  Proof. intros Hx. unfold exit_linked_op. repeat case_match; try apply keeps_refl; try (by apply keeps_push); by apply keeps_same. Qed.
  Ltac ksame := apply keeps_same; cbn; reflexivity.
  Lemma benign_keeps a w : benign a -> keeps w (does S a w).
  Proof.
    destruct a; cbn [does benign]; intros Ha; try apply keeps_refl; try (by ksame).
    - unfold receive_op. destruct (w_loc w !! me) as [l|]; [|apply keeps_refl]. destruct (select S T f b l). ksame.
    - unfold alias_take_op. repeat case_match; ksame.
    - apply keeps_push. intros. by apply mute_told.
    - unfold send_to. destruct (w_regs w !! i); [apply keeps_push; intros; by apply mute_told | apply keeps_refl].
    - unfold node_register_op, spawn_op. repeat case_match; simplify_eq; ksame.
    - unfold send_frame, hand_out. repeat case_match; ksame.
    - unfold register_op. repeat case_match; ksame.
    - apply keeps_exit. by destruct f.
    - apply keeps_exit_linked. intros. by destruct f.
    - destruct d as [d|]; [done|]. split; [exists []; cbn; rewrite app_nil_r; auto|]. split; [|cbn; split; intros; eauto].
      cbn. intros j t' r' f d' H1 H2. destruct (decide (i = j)) as [<-|Hne].
      + rewrite lookup_insert in H1. injection H1 as <-. destruct (decide (r = r')) as [<-|Hr]; [rewrite lookup_insert in H2; discriminate|].
        rewrite lookup_insert_ne in H2 by done. destruct (w_mons w !! i) as [t|]; cbn in H2; [eauto|by rewrite lookup_empty in H2].
      + rewrite lookup_insert_ne in H1 by done. eauto.
    - split; [exists []; cbn; rewrite app_nil_r; auto|]. split; [|cbn; split; intros; eauto]. cbn. intros j t' r' f d' H1 H2.
      destruct (decide (i = j)) as [<-|Hne]; [|rewrite lookup_alter_ne in H1 by done; eauto].
      rewrite lookup_alter in H1. apply fmap_Some in H1 as (t & H1 & ->). apply lookup_delete_Some in H2 as [_ H2]. eauto.
    - split; [exists []; cbn; rewrite app_nil_r; auto|]. split; [|cbn; split; intros; eauto]. cbn. intros j t' r' f d' H1 H2. apply lookup_delete_Some in H1 as [_ H1]. eauto.
    - split; [exists []; cbn; rewrite app_nil_r; auto|]. split; [cbn; eauto|]. split; [cbn; eauto|]. cbn. intros nd t' q j H1 H2.
      destruct (decide (n = nd)) as [<-|Hne]; [|rewrite lookup_insert_ne in H1 by done; eauto].
      rewrite lookup_insert in H1. injection H1 as <-. apply elem_of_union in H2 as [H2|H2]; [apply elem_of_singleton in H2 as [= -> ->]; by left|].
      destruct (w_nlinks w !! n) as [t|]; cbn in H2; [eauto|set_solver].
    - split; [exists []; cbn; rewrite app_nil_r; auto|]. split; [cbn; eauto|]. split; [cbn; eauto|]. cbn. intros nd t' q j H1 H2.
      destruct (decide (n = nd)) as [<-|Hne]; [|rewrite lookup_alter_ne in H1 by done; eauto].
      rewrite lookup_alter in H1. apply fmap_Some in H1 as (t & H1 & ->). right. exists t. split; [done|]. set_solver.
    - split; [exists []; cbn; rewrite app_nil_r; auto|]. split; [cbn; eauto|]. split; [cbn; eauto|]. cbn. intros nd t' q j H1 H2. apply lookup_delete_Some in H1 as [_ H1]. eauto.
    - split; [exists []; cbn; rewrite app_nil_r; auto|]. split; [cbn; eauto|]. split; [cbn|cbn; intros; eauto]. intros j t' r' i d' H1 H2.
      destruct (decide (n = j)) as [<-|Hne].
      + rewrite lookup_insert in H1. injection H1 as <-. destruct (decide (r = r')) as [<-|Hr]; [rewrite lookup_insert in H2; injection H2 as ->; done|].
        rewrite lookup_insert_ne in H2 by done. destruct (w_nmons w !! n) as [t|]; cbn in H2; [eauto|by rewrite lookup_empty in H2].
      + rewrite lookup_insert_ne in H1 by done. eauto.
    - split; [exists []; cbn; rewrite app_nil_r; auto|]. split; [cbn; eauto|]. split; [cbn|cbn; intros; eauto]. intros j t' r' i d' H1 H2.
      destruct (decide (n = j)) as [<-|Hne]; [|rewrite lookup_alter_ne in H1 by done; eauto].
      rewrite lookup_alter in H1. apply fmap_Some in H1 as (t & H1 & ->). apply lookup_delete_Some in H2 as [_ H2]. eauto.
    - split; [exists []; cbn; rewrite app_nil_r; auto|]. split; [cbn; eauto|]. split; [cbn|cbn; intros; eauto]. intros j t' r' i d' H1 H2.
      destruct (decide (n = j)) as [<-|Hne]; [|rewrite lookup_alter_ne in H1 by done; eauto].
      rewrite lookup_alter in H1. apply fmap_Some in H1 as (t & H1 & ->). exists t. split; [done|].
      clear H1. induction l as [|x l IH]; cbn in H2; [done|]. apply lookup_delete_Some in H2 as [_ H2]. auto.
    - split; [exists []; cbn; rewrite app_nil_r; auto|]. split; [cbn; eauto|]. split; [cbn|cbn; intros; eauto]. intros j t' r' i d' H1 H2. apply lookup_delete_Some in H1 as [_ H1]. eauto.
    - unfold node_start_op, spawn_op. repeat case_match; simplify_eq; ksame.
    - unfold node_disconnect_op. case_match; [|apply keeps_refl]. case_match; [|apply keeps_refl]. case_match; [|ksame].
      eapply keeps_trans; [apply (keeps_exit p0 p RKill (up_pend (delete n) w)); destruct p; auto|]. ksame.
    - unfold node_accept_op. case_match; [|ksame]. case_match; [|ksame].
      match goal with |- context [if bool_decide _ then ?x else w] => set (w1 := if bool_decide (n_state n1 = Pending) then x else w) end.
      assert (keeps w w1) as H1.
      { unfold w1. repeat case_match; try apply keeps_refl. apply keeps_exit. destruct q; auto. }
      clearbody w1. eapply keeps_trans; [exact H1|]. case_match; [|ksame]. ksame.
    - unfold node_workers_op, hand_out. repeat case_match; ksame.
    - unfold sup_down_op. repeat case_match; ksame.
  Qed.
  (** ** Programs *)
  Notation know := (kp ws inv).
  Lemma k_guar {A} (F : act -> Prop) (n : nat) (p : prog world A) : (forall a, F a -> benign a) -> guar (lstep S F) p -> know (fun _ _ => True) n p.
  Proof.
    intros HF Hp. eapply kp_guar; [|exact Hp]. intros m w w' _ _ (a & Ha & ->) Hi. eapply keeps_inv; [by apply benign_keeps, HF|exact Hi].
  Qed.
  (** A step that neither adds monitors with a destination nor delivers down notices. *)
  Lemma k_atom {A} (Q : nat -> A -> Prop) n (op : world -> world * A) :
    (forall w, keeps w (fst (op w))) ->
    (forall m w, n <= m -> ws !! m = Some w -> ws !! (Datatypes.S m) = Some (fst (op w)) -> inv m w -> Q (Datatypes.S m) (snd (op w))) ->
    know Q n (atom op).
  Proof. intros Hk HQ. apply kp_atom. intros m w Hm H1 H2 Hi. split; [by eapply keeps_inv|by eapply HQ]. Qed.
  Lemma k_modify (Q : nat -> unit -> Prop) n (f : world -> world) :
    (forall w, keeps w (f w)) -> (forall m, n <= m -> Q m tt) -> know Q n (modify f).
  Proof. intros Hk HQ. apply k_atom; [exact Hk|]. intros m w Hm _ _ _. apply HQ. lia. Qed.
  Lemma k_observe {A} (Q : nat -> A -> Prop) n (f : world -> A) :
    (forall m w, n <= m -> ws !! m = Some w -> inv m w -> Q (Datatypes.S m) (f w)) -> know Q n (observe f).
  Proof. intros HQ. apply k_atom; [intros; apply keeps_refl|]. cbn. eauto. Qed.
  (** A down notice. *)
  Lemma inv_push m o x w : inv m w -> told (Datatypes.S m) o x -> inv (Datatypes.S m) (push o x w).
  Proof.
    intros Hi Hx. unfold push. destruct (w_loc w !! o); [|eapply keeps_inv; [apply keeps_refl|exact Hi]]. destruct Hi as [I1 I2 I3 I4].
    split; cbn; intros.
    - rewrite elem_of_app, elem_of_list_singleton in H. destruct H as [H|[= -> ->]]; [eapply told_later; [by eapply I1|lia]|done].
    - eapply aimed_later; [by eapply I2|lia].
    - by eapply I3.
    - by eapply I4.
  Qed.
  Lemma k_tell n o x : (forall m, n <= m -> told m o x) -> know (fun _ _ => True) n (modify (send_to o x)).
  Proof.
    intros Hx. apply kp_atom. intros m w Hm H1 H2 Hi. split; [|done]. cbn. unfold send_to. destruct (w_regs w !! o).
    - apply inv_push; [done|]. apply Hx. lia.
    - eapply keeps_inv; [apply keeps_refl|exact Hi].
  Qed.
  Lemma k_push n o x : (forall m, n <= m -> told m o x) -> know (fun _ _ => True) n (modify (push o x)).
  Proof. intros Hx. apply kp_atom. intros m w Hm H1 H2 Hi. split; [|done]. apply inv_push; [done|]. apply Hx. lia. Qed.

  (** The counter of references only grows. *)
  Definition grows : Prop := forall n n' w w', n <= n' -> ws !! n = Some w -> ws !! n' = Some w' -> (w_next_ref w <= w_next_ref w')%N.
  Context (Hgrow : grows).
  (** Reference [r] has been handed out by moment [m]. *)
  Definition out (m : nat) (r : reference) : Prop := exists w, ws !! m = Some w /\ (ref_id r < w_next_ref w)%N.
  Lemma out_at m m' w r : out m r -> m <= m' -> ws !! m' = Some w -> (ref_id r < w_next_ref w)%N.
  Proof. intros (w0 & H1 & H2) Hm Hw. pose proof (Hgrow _ _ _ _ Hm H1 Hw). lia. Qed.
  Lemma k_fresh n : know out n fresh_ref.
  Proof.
    apply kp_atom. intros m w Hm H1 H2 Hi. split; [apply (keeps_inv m w); [by apply keeps_same|exact Hi]|].
    exists (up_next_ref N.succ w). split; [exact H2|]. cbn. lia.
  Qed.
  Lemma k_alias_destroy n r : know (fun _ _ => True) n (do! alias_destroy r in Ret tt).
  Proof. eapply (kp_bind _ _ (fun _ _ => True)); [|cbn; done]. apply k_atom; [intros; by apply keeps_same|done]. Qed.
  Lemma k_frame n f i : know (fun _ _ => True) n (modify (send_frame f i)).
  Proof. apply k_modify; [|done]. intros w. apply (benign_keeps (ASendFrame f i)). exact I. Qed.
  Lemma k_node_register n nd c : know (fun _ _ => True) n (node_register nd c).
  Proof.
    destruct nd as [|name addr]; [exact I|]. apply k_atom; [|done]. intros w. apply (benign_keeps (ANodeRegister name addr c)). exact I.
  Qed.
  (** ** Monitoring *)
  Lemma k_self_down n me d r why : (forall m, n <= m -> truth ws m d (ref_id r) (RCustom why)) ->
    know (fun _ _ => True) n (self_down me d r why).
  Proof.
    intros H. eapply (kp_bind _ _ (fun _ _ => True)); [by apply k_push|]. intros. apply k_alias_destroy.
  Qed.
  Lemma inv_add_mon m i r p d w : inv m w -> aimed (Datatypes.S m) r d i -> inv (Datatypes.S m) (add_mon i r p (Some d) w).
  Proof.
    intros Hi Ha. destruct Hi as [I1 I2 I3 I4]. split; cbn.
    - intros o x H. eapply told_later; [by eapply I1|lia].
    - intros j t r' f d' H1 H2. destruct (decide (i = j)) as [<-|Hne].
      + rewrite lookup_insert in H1. injection H1 as <-. destruct (decide (r = r')) as [<-|Hr].
        * rewrite lookup_insert in H2. injection H2 as <- <-. exact Ha.
        * rewrite lookup_insert_ne in H2 by done. destruct (w_mons w !! i) as [t|] eqn:E; cbn in H2; [|by rewrite lookup_empty in H2].
          eapply aimed_later; [by eapply I2|lia].
      + rewrite lookup_insert_ne in H1 by done. eapply aimed_later; [by eapply I2|lia].
    - intros. by eapply I3.
    - intros. by eapply I4.
  Qed.
  Lemma k_add_mon n i r p d : (forall m, n <= m -> aimed m r d i) -> know (fun _ _ => True) n (modify (add_mon i r p (Some d))).
  Proof. intros Ha. apply kp_atom. intros m w Hm H1 H2 Hi. split; [|done]. apply inv_add_mon; [done|]. apply Ha. lia. Qed.
  Lemma k_monitor_local n me i r d : out n r -> (forall m, n <= m -> aimed m r d i) ->
    know (fun _ _ => True) n (monitor_local me i r d).
  Proof.
    intros Ho Ha. unfold monitor_local.
    apply (kp_bind _ _ (fun m (e : bool) => e = false -> since ws m (ref_id r) (absent i))).
    - apply k_observe. intros m w Hm Hw _ He. exists m, w. split; [lia|]. split; [done|]. split; [by eapply out_at|].
      unfold exists_proc in He. apply bool_decide_eq_false in He. unfold absent. destruct (w_regs w !! i) as [x|] eqn:E; [|done]. exfalso. apply He. by exists x.
    - intros m [|] Hm He; [apply k_add_mon; intros; apply Ha; lia|]. specialize (He eq_refl).
      apply k_self_down. intros m' Hm'. assert (aimed m' r d i) as Hd by (apply Ha; lia).
      assert (since ws m' (ref_id r) (absent i)) as Hs by by eapply since_later.
      destruct d as [q|s [|]|]; cbn in Hd |- *; try done; [subst q; eauto|]. left. exists i. eauto.
  Qed.
  Lemma k_monitor_remote n me name addr r d i s : abroad d ->
    know (fun _ _ => True) n (monitor_remote me name addr r d i s).
  Proof.
    intros Hd. unfold monitor_remote. apply (kp_bind _ _ (fun _ _ => True)).
    - apply kp_atom. intros m w Hm H1 H2 Hi. split; [|done]. destruct Hi as [I1 I2 I3 I4]. split; cbn.
      + intros o x H. eapply told_later; [by eapply I1|lia].
      + intros. eapply aimed_later; [by eapply I2|lia].
      + intros nd t r' j d' H3 H4. destruct (decide (NRemote name addr = nd)) as [<-|Hne].
        * rewrite lookup_insert in H3. injection H3 as <-. destruct (decide (r = r')) as [<-|Hr].
          -- rewrite lookup_insert in H4. injection H4 as <- <-. exact Hd.
          -- rewrite lookup_insert_ne in H4 by done. destruct (w_nmons w !! NRemote name addr) as [t|] eqn:E; cbn in H4; [|by rewrite lookup_empty in H4].
             by eapply I3.
        * rewrite lookup_insert_ne in H3 by done. by eapply I3.
      + intros. by eapply I4.
    - intros. eapply (kp_bind _ _ (fun _ _ => True)); [apply k_node_register|]. intros. apply k_frame.
  Qed.
  Lemma k_own n me f : know (fun _ _ => True) n (own me f).
  Proof. apply k_modify; [|done]. intros. by apply keeps_same. Qed.
  Lemma k_monitor_install n me d r : out n r -> know (fun _ _ => True) n (monitor_install me d r).
  Proof.
    intros Ho. assert (forall m, n <= m -> (exists w, ws !! m = Some w) -> out m r) as Hout.
    { intros m Hm [w Hw]. exists w. split; [done|]. by eapply out_at. }
    destruct d as [p|s [|name addr]|a]; cbn [monitor_install]; [| | |exact I].
    - destruct (decide (p = PLocal me)); [exact I|].
      (* the caller's own table: one step, after which the run still goes on *)
      apply (kp_bind _ _ (fun m _ => exists w, ws !! m = Some w)).
      { apply k_atom; [intros; by apply keeps_same|]. intros m w Hm H1 H2 _. eauto. }
      intros m _ Hm Hw. destruct p as [i|i j]; cbn [pid_is_local pid_id].
      + apply k_monitor_local; [by apply Hout|]. intros; reflexivity.
      + eapply (kp_bind _ _ (fun _ _ => True)); [apply k_observe; done|]. intros m' [[name addr]|] _ _.
        * by apply k_monitor_remote.
        * by apply k_self_down.
    - apply (kp_bind _ _ (fun m i => (exists w, ws !! m = Some w) /\ match i with Some i => since ws m (ref_id r) (owns_name s i) | None => since ws m (ref_id r) (unowned s) end)).
      { apply k_atom; [intros; apply keeps_refl|]. intros m w Hm H1 H2 _. split; [eauto|]. cbn.
        destruct (w_names w !! s) as [i|] eqn:E; exists m, w; (split; [lia|]; split; [done|]; split; [by eapply out_at|exact E]). }
      intros m [i|] Hm [Hw Hs].
      + apply (kp_bind _ _ (fun m _ => exists w, ws !! m = Some w)).
        { apply k_atom; [intros; by apply keeps_same|]. intros m' w Hm' H1 H2 _. eauto. }
        intros m' _ Hm' Hw'. apply k_monitor_local; [apply Hout; [lia|done]|]. intros m'' Hm''. cbn. eapply since_later; [exact Hs|lia].
      + eapply (kp_bind _ _ (fun _ _ => True)); [apply k_own|]. intros m' _ Hm' _. apply k_self_down. intros m'' Hm''. cbn.
        right. split; [done|]. eapply since_later; [exact Hs|lia].
    - eapply (kp_bind _ _ (fun _ _ => True)); [apply k_own|]. intros. by apply k_monitor_remote.
  Qed.
  Lemma k_monitor n me d : know (fun _ _ => True) n (monitor me d).
  Proof.
    eapply kp_bind; [apply k_fresh|]. intros m r Hm Ho. eapply (kp_bind _ _ (fun _ _ => True)); [by apply k_monitor_install|]. done.
  Qed.
  Lemma k_monitor_alias n me d b : know (fun _ _ => True) n (monitor_alias me d b).
  Proof.
    eapply kp_bind; [apply k_fresh|]. intros m r Hm Ho.
    apply (kp_bind _ _ (fun m _ => exists w, ws !! m = Some w)).
    { apply k_atom; [intros w; apply (benign_keeps (AAliasCreate me r b) w); exact I|]. intros m' w Hm' H1 H2 _. eauto. }
    intros m' _ Hm' [w Hw]. eapply (kp_bind _ _ (fun _ _ => True)); [apply k_monitor_install|done]. exists w. split; [done|]. by eapply out_at.
  Qed.
  Lemma k_spawn n me l b : know (fun _ _ => True) n (spawn me l b).
  Proof.
    unfold spawn. apply (kp_bind _ _ (fun _ _ => True)); [apply k_atom; [intros; by apply keeps_same|done]|]. intros m i Hm _.
    apply (kp_bind _ _ (fun _ _ => True)).
    { destruct l; [|exact I]. apply (kp_bind _ _ (fun _ _ => True)); [apply k_modify; [intros; by apply keeps_same|done]|].
      intros. apply k_modify; [intros; by apply keeps_same|done]. }
    intros m1 _ Hm1 _. apply (kp_bind _ _ (fun _ _ => True)).
    { destruct b; [|exact I]. eapply kp_bind; [apply k_fresh|]. intros m2 r Hm2 Ho.
      eapply (kp_bind _ _ (fun _ _ => True)); [apply k_own|]. intros.
      eapply (kp_bind _ _ (fun _ _ => True)); [by apply k_add_mon|done]. }
    intros. apply (kp_bind _ _ (fun _ _ => True)); [apply k_modify; [intros; by apply keeps_same|done]|]. intros.
    apply (kp_bind _ _ (fun _ _ => True)); [apply k_modify; [intros; by apply keeps_same|done]|]. done.
  Qed.
  (** ** The end of a process *)
  Lemma k_monitor_process_down n i why : ended_by ws n i why -> know (fun _ _ => True) n (monitor_process_down (PLocal i) why).
  Proof.
    intros He. unfold monitor_process_down. cbn [pid_id].
    apply (kp_bind _ _ (fun m ms => match ms with Some t => forall r f d, t !! r = Some (f, Some d) -> aimed m r d i | None => True end)).
    { apply k_atom; [intros w; apply (benign_keeps (AMonsDelete i) w); exact I|]. intros m w Hm H1 H2 [I1 I2 I3 I4]. cbn.
      destruct (w_mons w !! i) as [t|] eqn:E; [|done]. intros r f d H. eapply aimed_later; [by eapply I2|lia]. }
    intros m [t|] Hm Ht; [|exact I]. apply (kp_bind _ _ (fun _ _ => True)).
    - apply kp_each. intros [r [q d]] m1 Hx Hm1. apply sorted_refs_elem in Hx. cbn [fst snd].
      apply (kp_bind _ _ (fun _ _ => True)).
      + destruct (pid_is_local q); [|exact I]. destruct d as [d|].
        * apply k_tell. intros m2 Hm2. cbn. assert (aimed m2 r d i) as Ha by (eapply aimed_later; [by eapply Ht|lia]).
          assert (ended_by ws m2 i why) as He' by (eapply ended_later; [exact He|lia]).
          destruct d as [p|s [|]|]; cbn in Ha |- *; try done; [subst p; eauto|]. left. exists i. eauto.
        * apply (kp_bind _ _ (fun _ _ => True)); [by apply k_observe|]. intros m2 [|] _ _; exact I.
      + intros. destruct (ref_is_local r); [apply k_alias_destroy|exact I].
    - intros m1 _ Hm1 _. apply kp_each. intros g m2 _ _. apply (kp_bind _ _ (fun _ _ => True)); [by apply k_observe|].
      intros m3 [[name addr]|] _ _; (apply (kp_bind _ _ (fun _ _ => True)); [|intros; apply k_frame]); [|exact I].
      apply k_modify; [|done]. intros w. apply (benign_keeps (ADelNmons (NRemote name addr) (map fst g.2)) w). exact I.
  Qed.
  Lemma k_exit_linked n p f why : (forall m, n <= m -> exit_truth X ws m (pid_id p) f why) ->
    know (fun _ _ => True) n (modify (exit_linked_op p f why)).
  Proof.
    intros Hx. apply kp_atom. intros m w Hm H1 H2 Hi. split; [|done]. cbn.
    assert (forall w', keeps w w' -> inv (Datatypes.S m) w') as Hk by (intros; by eapply keeps_inv).
    unfold exit_linked_op. destruct (w_regs w !! pid_id p) as [r|]; [|apply Hk, keeps_refl].
    destruct (r_trap r); [apply inv_push; [done|apply Hx; lia]|]. destruct why; apply Hk; first [apply keeps_refl|by apply keeps_same].
  Qed.
  Lemma k_link_process_down n i why : ended_by ws n i why -> know (fun _ _ => True) n (link_process_down (PLocal i) why).
  Proof.
    intros He. unfold link_process_down. cbn [pid_id]. apply (kp_bind _ _ (fun _ _ => True)); [apply k_atom; [intros; by apply keeps_same|done]|].
    intros m [ls|] Hm _; [|exact I]. apply (kp_bind _ _ (fun _ _ => True)).
    - apply kp_each. intros p m1 _ Hm1. apply (kp_bind _ _ (fun _ _ => True)); [apply k_modify; [intros; by apply keeps_same|done]|].
      intros m2 _ Hm2 _. apply k_exit_linked. intros m3 Hm3. right; left. eapply ended_later; [exact He|lia].
    - intros. apply kp_each. intros. apply (kp_bind _ _ (fun _ _ => True)); [by apply k_observe|].
      intros m3 [[name addr]|] _ _; (apply (kp_bind _ _ (fun _ _ => True)); [|intros; apply k_frame]); [|exact I].
      apply k_modify; [|done]. intros w. apply (benign_keeps (ADelNlinks (NRemote name addr) (map (fun p => (p, i)) x.2)) w). exact I.
  Qed.
  Lemma k_finish n i : know (fun _ _ => True) n (drop_process i).
  Proof.
    unfold drop_process.
    apply (kp_bind _ _ (fun m r => match r with Some r => ended_by ws m i (default RNormal (r_exit r)) | None => True end)).
    { apply k_atom; [intros; by apply keeps_same|]. intros m w Hm H1 H2 _. cbn. destruct (w_regs w !! i) as [r|] eqn:E; [|done].
      exists m, w, (up_regs (delete i) w), r. split_and!; [lia|done|exact H2|done| |done]. cbn. apply lookup_delete. }
    intros m [r|] Hm He.
    - apply (kp_bind _ _ (fun _ _ => True)).
      { destruct (r_name r); [|exact I]. apply k_modify; [intros; by apply keeps_same|done]. }
      intros m1 _ Hm1 _. apply (kp_bind _ _ (fun _ _ => True)); [apply k_link_process_down; eapply ended_later; [exact He|lia]|].
      intros m2 _ Hm2 _. apply (kp_bind _ _ (fun _ _ => True)); [apply k_monitor_process_down; eapply ended_later; [exact He|lia]|].
      intros m3 _ _ _. apply (kp_bind _ _ (fun _ _ => True)); [by apply k_observe|]. intros m4 l _ _.
      apply (kp_bind _ _ (fun _ _ => True)).
      { apply kp_each. intros [r' x] m5 _ _. cbn [fst snd]. destruct x as [[p|]|nd]; [|exact I|].
        - apply (kp_bind _ _ (fun _ _ => True)).
          + destruct (pid_is_local p); [|apply k_frame]. apply k_modify; [|done]. intros w. apply (benign_keeps (ADelMon (pid_id p) r') w). exact I.
          + intros. destruct (ref_is_local r'); [apply k_alias_destroy|exact I].
        - apply (kp_bind _ _ (fun _ _ => True)).
          + apply k_modify; [|done]. intros w. apply (benign_keeps (ADelNmon nd r') w). exact I.
          + intros. destruct (ref_is_local r'); [apply k_alias_destroy|exact I]. }
      intros m5 _ _ _. apply (kp_bind _ _ (fun _ _ => True)); [apply kp_each; intros; apply k_modify; [intros; by apply keeps_same|done]|].
      intros. apply k_modify; [intros; by apply keeps_same|done].
    - apply (kp_bind _ _ (fun _ _ => True)); [apply k_modify; [intros; by apply keeps_same|done]|]. done.
  Qed.
  Lemma k_crash n i why : know (fun _ _ => True) n (crash i why).
  Proof.
    unfold crash. apply (kp_bind _ _ (fun _ _ => True)); [|intros; apply k_finish].
    apply k_modify; [|done]. intros w. apply (benign_keeps (ASetExit i why) w). exact I.
  Qed.
  (** ** What other nodes say *)
  Lemma k_npmd n nd r why : know (fun _ _ => True) n (node_process_monitor_down nd r why).
  Proof.
    unfold node_process_monitor_down.
    apply (kp_bind _ _ (fun _ x => match x with Some (NMProcess i d) => abroad d | _ => True end)).
    { apply k_atom; [intros w; apply (benign_keeps (ADelNmon nd r) w); exact I|]. intros m w Hm H1 H2 [I1 I2 I3 I4]. cbn.
      destruct (w_nmons w !! nd) as [t|] eqn:E; [|done]. destruct (t !! r) as [[]|] eqn:E'; try done. by eapply I3. }
    intros m x Hm Hx. apply (kp_bind _ _ (fun _ _ => True)); [apply k_atom; [intros; by apply keeps_same|done]|].
    intros. destruct x as [[|i d|]|]; try exact I. apply k_tell. intros m' _. destruct d as [[|]|s [|]|]; done.
  Qed.
  Lemma k_supdown n nd p : know (fun _ _ => True) n (supervisor_down nd p).
  Proof.
    unfold supervisor_down. apply (kp_bind _ _ (fun m (b : bool) => b = true -> node_truth ws m nd)).
    { apply k_atom; [intros w; apply (benign_keeps (ASupDown nd p) w); exact I|]. intros m w Hm H1 H2 _. unfold sup_down_op in H2 |- *.
      destruct (w_nmap w !! nd) as [i|] eqn:E1; [|done]. destruct (w_nregs w !! i) as [r|] eqn:E2; [|done].
      destruct (match n_sup r with Some s => _ | None => _ end); [done|]. intros _. cbn in H2.
      eexists (Datatypes.S m), _, i, _. split; [done|]. split; [exact H2|]. cbn. split; [done|]. split; [apply lookup_insert|done]. }
    intros m [|] _ Hn; [|exact I]. specialize (Hn eq_refl). cbn [negb].
    apply (kp_bind _ _ (fun _ ls => match ls with Some t => forall p i, (p, i) ∈ t -> pid_is_local p = false | None => True end)).
    { apply k_atom; [intros w; apply (benign_keeps (ANlinksDelete nd) w); exact I|]. intros m1 w Hm1 H1 H2 [I1 I2 I3 I4]. cbn.
      destruct (w_nlinks w !! nd) as [t|] eqn:E; [|done]. intros. by eapply I4. }
    intros m1 ls Hm1 Hls. apply (kp_bind _ _ (fun _ _ => True)).
    { apply kp_each. intros [q i] m2 Hx _. rewrite merge_sort_Permutation in Hx. apply elem_of_elements in Hx. cbn [fst snd].
      apply (kp_bind _ _ (fun _ _ => True)).
      - unfold link_destroy. cbn [pid_is_local]. apply k_modify; [intros; by apply keeps_same|done].
      - intros. apply k_exit_linked. intros. destruct ls as [t|]; cbn in Hx; [|set_solver]. specialize (Hls _ _ Hx). by destruct q. }
    intros m2 _ Hm2 _.
    apply (kp_bind _ _ (fun _ ms => match ms with Some t => forall r i d, t !! r = Some (NMProcess i d) -> abroad d | None => True end)).
    { apply k_atom; [intros w; apply (benign_keeps (ANmonsDelete nd) w); exact I|]. intros m3 w Hm H1 H2 [I1 I2 I3 I4]. cbn.
      destruct (w_nmons w !! nd) as [t|] eqn:E; [|done]. intros. by eapply I3. }
    intros m3 ms Hm3 Hms. apply (kp_bind _ _ (fun _ _ => True)).
    { apply kp_each. intros [r x] m4 Hx Hm4. apply sorted_refs_elem in Hx. cbn [fst snd]. apply (kp_bind _ _ (fun _ _ => True)).
      - destruct x as [i|i d|i].
        + apply k_tell. intros m5 Hm5. cbn. eapply node_later; [exact Hn|lia].
        + destruct ms as [t|]; cbn in Hx; [|by rewrite lookup_empty in Hx]. specialize (Hms _ _ _ Hx).
          apply k_tell. intros m' _. destruct d as [[|]|s [|]|]; done.
        + unfold monitor_destroy. cbn [pid_is_local pid_id]. apply k_modify; [|done]. intros w. apply (benign_keeps (ADelMon i r) w). exact I.
      - intros. destruct (ref_is_local r); [apply k_alias_destroy|exact I]. }
    intros. apply k_modify; [intros; by apply keeps_same|done].
  Qed.
  (** ** Links *)
  Definition ran (m : nat) (o : N) : Prop := exists n w, n <= m /\ ws !! n = Some w /\ is_Some (w_regs w !! o).
  Lemma k_link_create n p from : know (fun m (b : bool) =>
      if b then ran m (pid_id p) else exists w, n <= pred m /\ ws !! (pred m) = Some w /\ absent (pid_id p) w) n (link_create p from).
  Proof.
    unfold link_create.
    apply (kp_bind _ _ (fun m (b : bool) => exists w, n <= pred m /\ ws !! (pred m) = Some w /\ b = exists_proc (pid_id p) w)).
    { apply k_observe. intros m w Hm Hw _. exists w. cbn. done. }
    intros m b Hm (w & Em & Hw & ->). unfold exists_proc. case_bool_decide as He.
    - apply (kp_bind _ _ (fun _ _ => True)); [apply k_modify; [intros; by apply keeps_same|done]|]. intros m1 _ Hm1 _. cbn.
      exists (pred m), w. split; [lia|]. done.
    - cbn. exists w. split; [done|]. split; [done|]. unfold absent. destruct (w_regs w !! pid_id p) eqn:E; [|done]. exfalso. apply He. eauto.
  Qed.
  Lemma k_link n me p : know (fun _ _ => True) n (link me p).
  Proof.
    unfold link. destruct (decide (p = PLocal me)); [exact I|]. unfold link_install.
    eapply kp_bind; [apply k_link_create|]. intros m [|] Hm Hr; [|exact I]. cbn [negb]. destruct p as [i|i j]; cbn [pid_is_local].
    - eapply kp_bind; [apply k_link_create|]. intros m1 [|] Hm1 Ha; [exact I|]. apply k_exit_linked. intros m2 Hm2. cbn.
      right; right. split; [done|]. destruct Hr as (nr & w0 & R1 & R2 & R3), Ha as (w1 & A1 & A2 & A3).
      (* the process ran no later than the test *)
      destruct (decide (nr <= pred m1)) as [Hle|Hle]; [exists nr, (pred m1), w0, w1; split_and!; try done; lia|].
      exfalso. lia.
    - apply (kp_bind _ _ (fun _ _ => True)); [by apply k_observe|]. intros m1 [[name addr]|] _ _.
      + apply (kp_bind _ _ (fun _ _ => True)).
        { apply k_modify; [|done]. intros w. by apply (benign_keeps (AAddNlink (NRemote name addr) (PRemote i j) (pid_id (PLocal me))) w). }
        intros. apply (kp_bind _ _ (fun _ _ => True)); [apply k_node_register|]. intros. apply k_frame.
      + by apply k_exit_linked.
  Qed.
  (** The calls of exit are those of [X]. *)
  Definition exits_in (c : call) : Prop := match c with CExit i (PLocal o) why => X i o why | _ => True end.
  Lemma k_call n c : exits_in c -> know (fun _ _ => True) n (call_prog S c).
  Proof.
    intros Hc. assert ((forall a, fp S c a -> benign a) -> know (fun _ _ => True) n (call_prog S c)) as Hfp.
    { intros H. eapply k_guar; [exact H|]. apply call_fp. }
    destruct c; try (apply Hfp; clear Hfp Hgrow; intros a Ha; destruct a; cbn in Ha |- *; try exact I; try done; unfold msg_item, user_item, fp_monitor_alias, fp_crash, fp_exit in *; repeat case_match; naive_solver);
      cbn [call_prog]; unfold ret_as; (apply (kp_bind _ _ (fun _ _ => True)); [|done]).
    - apply k_spawn.
    - apply k_link.
    - apply k_monitor.
    - apply k_monitor_alias.
    - eapply k_guar; [|apply (l_exit S me p why)]. intros a Ha. destruct a as [| | | | | | | | | | | | | | | | | | | | | | | | | | |q f r| | | | | | | | | | | | | | | | | | | | | | | | | | |]; cbn in Ha |- *; try exact I; try done.
      destruct Ha as (-> & -> & -> & Hp). right. destruct p; done.
    - apply k_finish.
    - apply k_crash.
    - apply k_supdown.
    - destruct f; try (unfold receive_frame; exact I).
      1,2,4-7: (eapply k_guar; [|apply (l_frame S nd sup)]; intros a Ha; destruct a; cbn in Ha |- *; try exact I; try done; repeat case_match; naive_solver).
      cbn [receive_frame]. apply kp_each. intros. apply k_npmd.
  Qed.
End truth.
