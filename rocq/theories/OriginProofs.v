(** Where received messages come from: proofs. *)
From stdpp Require Import base list gmap numbers strings countable sorting relations.
From Coq Require Import Lia.
From Verif Require Import Prog ProgProofs ProgInv Types Mailbox World ProcApi NodeApi Api Steps Hist Labels SchedSpec Path OriginSpec.

Section origin.
  Context (S : serde).
  (** The item [x] of a mailbox is what became of the arrival [y]. *)
  Definition from_item (y x : item) : Prop :=
    y = x \/
    match y, x with
    | IUserRemote b, IUserLocal v => exists T, de S T b = Some v
    | IProcessDown d r why, ISystem m => m = SProcessDown d r why
    | INodeDown n r, ISystem m => m = SNodeDown n r
    | _, _ => False
    end.
  (** All items of [l] became of arrivals in [A]. *)
  Definition from (A : item -> Prop) (x : item) : Prop := exists y, A y /\ from_item y x.
  Definition all_from (A : item -> Prop) (l : list item) : Prop := Forall (from A) l.
  Lemma from_read (A : item -> Prop) y x m : A y -> from_item y x -> readable S x m -> exists z, A z /\ readable S z m.
  Proof.
    intros Hy [<-|Hf] Hr; [eauto|]. exists y. split; [done|].
    destruct y as [b|v|s|d r why|n r|r p|i], x as [b'|v'|s'|d' r' why'|n' r'|r' p'|i']; cbn in *; try done; try (by subst).
    destruct Hf as [T HT]. eauto.
  Qed.
  Lemma process_item_from (A : item -> Prop) T x l r x' l' : process_item S T x l = (r, x', l') -> from A x ->
    from A x' /\ l_items l' = l_items l /\ l_chan l' = l_chan l /\ (forall m, r = PMsg m -> exists z, A z /\ readable S z m).
  Proof.
    intros H (y & Hy & Hf).
    assert (forall b v, y = IUserRemote b -> from_item y (IUserLocal v) -> exists z, A z /\ readable S z (MUser v)) as Hb.
    { intros b v -> [?|[T' E]]; [done|]. exists (IUserRemote b). cbn. eauto. }
    unfold process_item in H.
    destruct x as [b|v|s|d k why|n k|k p|i]; cbn in H.
    - assert (y = IUserRemote b) as -> by (destruct Hf as [->|Hf]; [done|]; by destruct y).
      destruct (de S T b) as [v|] eqn:E; simplify_eq.
      + split; [exists (IUserRemote b); split; [done|right; cbn; eauto]|]. repeat split; auto. intros m. case_decide; [|done]. intros [= <-].
        exists (IUserRemote b). cbn. eauto.
      + split; [exists (IUserRemote b); split; [done|by left]|]. repeat split; auto. done.
    - simplify_eq. split; [by exists y|]. repeat split; auto. intros m. case_decide; [|done]. intros [= <-].
      eapply (from_read A y (IUserLocal v)); eauto. reflexivity.
    - simplify_eq. split; [by exists y|]. repeat split; auto. intros m [= <-]. eapply (from_read A y (ISystem s)); eauto. reflexivity.
    - assert (y = IProcessDown d k why) as -> by (destruct Hf as [->|Hf]; [done|]; by destruct y).
      destruct (l_monitors l !! k); simplify_eq; (split; [exists (IProcessDown d k why); split; [done|]; first [by left|by right]|]); repeat split; auto; [|done].
      intros m [= <-]. exists (IProcessDown d k why). done.
    - assert (y = INodeDown n k) as -> by (destruct Hf as [->|Hf]; [done|]; by destruct y).
      destruct (l_monitors l !! k); simplify_eq; (split; [exists (INodeDown n k); split; [done|]; first [by left|by right]|]); repeat split; auto; [|done].
      intros m [= <-]. exists (INodeDown n k). done.
    - simplify_eq. split; [by exists y|]. repeat split; auto. done.
    - simplify_eq. split; [by exists y|]. repeat split; auto. done.
  Qed.
  Lemma scan_items_from (A : item -> Prop) T f b its l s its' l' : scan_items S T f b its l = (s, its', l') -> all_from A its ->
    all_from A its' /\ l_chan l' = l_chan l /\ (forall m, s = Found m -> exists z, A z /\ readable S z m).
  Proof.
    revert l s its' l'; induction its as [|x its IH]; intros l s its' l' H Ha; cbn in H.
    - simplify_eq. repeat split; auto. done.
    - inversion Ha as [|? ? Hx Hits]; subst. destruct (process_item S T x l) as [[r x'] l1] eqn:E.
      destruct (process_item_from A _ _ _ _ _ _ E Hx) as (E1 & E2 & E3 & E4). destruct r as [m| |].
      + destruct (f m).
        * simplify_eq. split; [done|]. split; [done|]. intros m0 [= <-]. auto.
        * destruct (scan_items S T f b its l1) as [[s1 i1] l2] eqn:E'. simplify_eq. destruct (IH _ _ _ _ E' Hits) as (F1 & F2 & F3).
          split; [by constructor|]. split; [congruence|done].
      + destruct (scan_items S T f b its l1) as [[s1 i1] l2] eqn:E'. simplify_eq. destruct (IH _ _ _ _ E' Hits) as (F1 & F2 & F3).
        split; [by constructor|]. split; [congruence|done].
      + destruct b.
        * simplify_eq. split; [by constructor|]. split; [congruence|done].
        * destruct (scan_items S T f false its l1) as [[s1 i1] l2] eqn:E'. simplify_eq. destruct (IH _ _ _ _ E' Hits) as (F1 & F2 & F3).
          split; [by constructor|]. split; [congruence|done].
  Qed.
  Lemma scan_chan_from (A : item -> Prop) T f b ch l s l' : scan_chan S T f b ch l = (s, l') -> all_from A ch -> all_from A (l_items l) ->
    all_from A (l_items l' ++ l_chan l') /\ (forall m, s = Found m -> exists z, A z /\ readable S z m).
  Proof.
    revert l s l'; induction ch as [|x ch IH]; intros l s l' H Ha Hl; cbn in H.
    - simplify_eq. cbn. rewrite app_nil_r. split; [done|done].
    - inversion Ha as [|? ? Hx Hch]; subst. destruct (process_item S T x l) as [[r x'] l1] eqn:E.
      destruct (process_item_from A _ _ _ _ _ _ E Hx) as (E1 & E2 & E3 & E4).
      assert (all_from A (l_items l1)) as Hl1 by (by rewrite E2).
      assert (all_from A (l_items (set_items (l_items l1 ++ [x']) l1))) as Hl2 by (cbn; apply Forall_app; split; [done|by repeat constructor]).
      destruct r as [m| |].
      + destruct (f m).
        * simplify_eq. cbn. split; [by apply Forall_app|]. intros m0 [= <-]. auto.
        * by eapply IH.
      + by eapply IH.
      + destruct b; [|by eapply IH]. simplify_eq. cbn. split; [by apply Forall_app|done].
  Qed.
  Lemma select_from (A : item -> Prop) T f b l s l' : select S T f b l = (s, l') -> all_from A (l_items l ++ l_chan l) ->
    all_from A (l_items l' ++ l_chan l') /\ (forall m, s = Found m -> exists z, A z /\ readable S z m).
  Proof.
    intros H Ha. apply Forall_app in Ha as [Ha1 Ha2]. unfold select in H.
    destruct (scan_items S T f b (l_items l) l) as [[s1 i1] l1] eqn:E. destruct (scan_items_from A _ _ _ _ _ _ _ _ E Ha1) as (F1 & F2 & F3).
    destruct s1; simplify_eq.
    - cbn. split; [apply Forall_app; split; [done|by rewrite F2]|done].
    - eapply scan_chan_from; [exact H|by rewrite F2|exact F1].
    - cbn. split; [apply Forall_app; split; [done|by rewrite F2]|done].
  Qed.

  (** ** The state *)
  Context (P : value -> Prop).
  Definition fine (x : item) : Prop :=
    match x with IUserLocal v => P v | IUserRemote b => says S P b | _ => True end.
  Record sourced (w : world) : Prop := Sourced {
    so_box : forall i l, w_loc w !! i = Some l -> all_from (fun x => (i, x) ∈ w_log w) (l_items l ++ l_chan l);
    so_log : forall i x, (i, x) ∈ w_log w -> fine x;
    so_tasks : forall i t, w_tasks w !! i = Some t -> P (t_val t) }.
  Lemma all_from_mono (A B : item -> Prop) l : (forall x, A x -> B x) -> all_from A l -> all_from B l.
  Proof. intros H Hl. eapply Forall_impl; [exact Hl|]. intros x (y & Hy & Hf). exists y. auto. Qed.
  Lemma sourced_same w w' : w_log w' = w_log w -> w_tasks w' = w_tasks w -> w_loc w' = w_loc w -> sourced w -> sourced w'.
  Proof. intros E1 E2 E3 [H1 H2 H3]. split; rewrite ?E1, ?E2, ?E3; done. Qed.
  Lemma sourced_push i x w : fine x -> sourced w -> sourced (push i x w).
  Proof.
    intros Hx H. unfold push. destruct (w_loc w !! i) as [l|] eqn:E; [|done]. destruct H as [H1 H2 H3]. split; cbn; [| |done].
    - intros j l' Hj. destruct (decide (i = j)) as [<-|Hne].
      + rewrite lookup_insert in Hj. injection Hj as <-. cbn. specialize (H1 _ _ E). apply Forall_app in H1 as [H1 H1'].
        assert (forall y, (i, y) ∈ w_log w -> (i, y) ∈ w_log w ++ [(i, x)]) as Hm by set_solver.
        apply Forall_app. split; [eapply all_from_mono; [exact Hm|exact H1]|]. apply Forall_app. split; [eapply all_from_mono; [exact Hm|exact H1']|]. repeat constructor.
        exists x. split; [set_solver|by left].
      + rewrite lookup_insert_ne in Hj by done. eapply all_from_mono; [|by apply H1]. set_solver.
    - intros j y Hy. rewrite elem_of_app, elem_of_list_singleton in Hy. destruct Hy as [Hy|[= -> ->]]; [by eapply H2|done].
  Qed.
  Lemma sourced_loc i g w : (forall l, l_items (g l) ++ l_chan (g l) = l_items l ++ l_chan l) -> sourced w -> sourced (up_loc (alter g i) w).
  Proof.
    intros Hg [H1 H2 H3]. split; cbn; [|done|done]. intros j l Hj. destruct (decide (i = j)) as [<-|Hne].
    - rewrite lookup_alter in Hj. apply fmap_Some in Hj as (l0 & Hj & ->). rewrite Hg. by apply H1.
    - rewrite lookup_alter_ne in Hj by done. by apply H1.
  Qed.
  Lemma sourced_new i (h : world -> world) w : w_log (h w) = w_log w -> w_tasks (h w) = w_tasks w -> w_loc (h w) = <[i := new_plocal]> (w_loc w) -> sourced w -> sourced (h w).
  Proof.
    intros E1 E2 E3 [H1 H2 H3]. split; rewrite ?E1, ?E2, ?E3; [|done|done]. intros j l Hj. destruct (decide (i = j)) as [<-|Hne].
    - rewrite lookup_insert in Hj. injection Hj as <-. constructor.
    - rewrite lookup_insert_ne in Hj by done. by apply H1.
  Qed.
  Lemma sourced_exit p f y w : sourced w -> sourced (exit_op p f y w).
  Proof. intros H. unfold exit_op. repeat case_match; try done; try (by apply sourced_push); by apply (sourced_same w). Qed.
  Lemma sourced_exit_linked p f y w : sourced w -> sourced (exit_linked_op p f y w).
  Proof. intros H. unfold exit_linked_op. repeat case_match; try done; try (by apply sourced_push); by apply (sourced_same w). Qed.
  Definition decent (a : act) : Prop :=
    match a with APush _ x | ASendTo _ x => fine x | ATaskAdd _ _ v _ => P v | _ => True end.
  Lemma does_sourced a w : decent a -> sourced w -> sourced (does S a w).
  Proof.
    assert (forall w', w_log w' = w_log w -> w_tasks w' = w_tasks w -> w_loc w' = w_loc w -> sourced w -> sourced w') as Hs by (intros; by eapply sourced_same).
    destruct a; cbn [does decent]; intros Ha H; try done; try (by apply Hs).
    - by apply sourced_loc.
    - by apply sourced_loc.
    - by apply sourced_loc.
    - by apply sourced_loc.
    - unfold receive_op. destruct (w_loc w !! me) as [l|] eqn:E; [|done]. destruct (select S T f b l) as [s l'] eqn:Es. cbn.
      destruct H as [H1 H2 H3]. split; cbn; [|done|done]. intros j l0 Hj. destruct (decide (me = j)) as [<-|Hne].
      + rewrite lookup_insert in Hj. injection Hj as <-. destruct (select_from _ _ _ _ _ _ _ Es (H1 _ _ E)) as [? _]. done.
      + rewrite lookup_insert_ne in Hj by done. by apply H1.
    - unfold alias_take_op. repeat case_match; by apply Hs.
    - by apply sourced_push.
    - unfold send_to. destruct (w_regs w !! i); [by apply sourced_push|done].
    - unfold node_register_op, spawn_op. repeat case_match; simplify_eq; cbn; try (by apply Hs);
        destruct H as [J1 J2 J3]; (split; cbn; [|done|done]); intros j l Hj;
        (destruct (decide (w_next_pid w = j)) as [<-|Hne]; [rewrite lookup_insert in Hj; injection Hj as <-; constructor|rewrite lookup_insert_ne in Hj by done; by apply J1]).
    - unfold send_frame, hand_out. repeat case_match; by apply Hs.
    - destruct H as [H1 H2 H3]. split; cbn; [done|done|]. intros j t Hj. destruct (decide (i = j)) as [<-|Hne].
      + rewrite lookup_insert in Hj. injection Hj as <-. done.
      + rewrite lookup_insert_ne in Hj by done. by eapply H3.
    - destruct H as [H1 H2 H3]. split; cbn; [done|done|]. intros j t Hj. destruct (decide (i = j)) as [<-|Hne].
      + rewrite lookup_alter in Hj. apply fmap_Some in Hj as (t0 & Hj & ->). cbn. by eapply H3.
      + rewrite lookup_alter_ne in Hj by done. by eapply H3.
    - by apply (sourced_new (w_next_pid w) (fun w => up_loc (<[w_next_pid w := new_plocal]>) (up_next_pid N.succ w))).
    - unfold register_op. repeat case_match; by apply Hs.
    - by apply sourced_exit.
    - by apply sourced_exit_linked.
    - destruct H as [H1 H2 H3]. split; cbn; [|done|done]. intros j l Hj. apply lookup_delete_Some in Hj as [_ Hj]. by apply H1.
    - unfold node_start_op, spawn_op. repeat case_match; simplify_eq; cbn; try done.
      destruct H as [H1 H2 H3]; (split; cbn; [|done|done]); intros j l Hj;
        (destruct (decide (w_next_pid w = j)) as [<-|Hne]; [rewrite lookup_insert in Hj; injection Hj as <-; constructor|rewrite lookup_insert_ne in Hj by done; by apply H1]).
    - unfold node_disconnect_op. repeat case_match; try done; try (by apply Hs).
      eapply (sourced_same (exit_op p0 p RKill (up_pend (delete n) w))); try done. apply sourced_exit. by apply Hs.
    - unfold node_accept_op. case_match; [|by apply Hs]. case_match; [|by apply Hs].
      match goal with |- context [if bool_decide _ then ?x else w] => set (w1 := if bool_decide (n_state n1 = Pending) then x else w) end.
      assert (sourced w1) as J1. { unfold w1. repeat case_match; try done. by apply sourced_exit. }
      clearbody w1. case_match; [exact J1|]. by apply (sourced_same w1).
    - unfold node_workers_op, hand_out. repeat case_match; by apply Hs.
    - unfold sup_down_op. repeat case_match; by apply Hs.
  Qed.

  (** ** Programs *)
  Context (HP : serde_keeps S P) (ws : list world).
  Notation Inv := (fun (_ : nat) w => sourced w).
  (** What a returned call says. *)
  Definition heard (m : nat) (v : val) : Prop :=
    match v with
    | VReceived (Some (Found msg)) => exists n w i x, n <= m /\ ws !! n = Some w /\ (i, x) ∈ w_log w /\ readable S x msg /\ fine x
    | _ => True
    end.
  Lemma heard_later m m' v : heard m v -> m <= m' -> heard m' v.
  Proof. destruct v; cbn; try done. repeat case_match; try done. intros (n & w & i & x & H1 & H2) Hm. exists n, w, i, x. split; [lia|done]. Qed.
  Lemma o_guar {A} (F : act -> Prop) (n : nat) (p : prog world A) : (forall a, F a -> decent a) -> guar (lstep S F) p -> kp ws Inv (fun _ _ => True) n p.
  Proof. intros HF Hp. eapply kp_guar; [|exact Hp]. intros m w w' _ _ (a & Ha & ->) Hi. apply does_sourced; auto. Qed.
  Lemma send_decent ds v a : P v -> fp_send S ds v a -> decent a.
  Proof.
    intros Hv. assert (forall x, msg_item S v x -> fine x) as Hm by (intros x [->| ->]; cbn; [done|by apply HP]).
    destruct a; cbn; try done; try (by intros; apply Hm); intros [H|(r & _ & ->)]; [by apply Hm|done].
  Qed.
  Lemma o_ret {A} (f : A -> val) n (p : prog world A) : (forall a, match f a with VReceived _ => False | _ => True end) ->
    kp ws Inv (fun _ _ => True) n p -> kp ws Inv heard n (ret_as f p).
  Proof. intros Hf Hp. eapply kp_bind; [exact Hp|]. intros m a _ _. cbn. specialize (Hf a). by destruct (f a). Qed.
  Lemma o_call n c : sends_only S P c -> kp ws Inv heard n (call_prog S c).
  Proof.
    intros Hc.
    assert ((forall a, fp S c a -> decent a) -> (match c with CReceive _ _ _ _ => False | _ => True end) -> kp ws Inv heard n (call_prog S c)) as Hfp.
    { intros H Hr. assert (kp ws Inv (fun _ _ => True) n (call_prog S c)) as Hk by (eapply o_guar; [exact H|]; apply call_fp).
      assert (exists A (f : A -> val) p, call_prog S c = ret_as f p /\ forall a, match f a with VReceived _ => False | _ => True end) as (A & f & p & E & Hf).
      { destruct c; try done; cbn [call_prog]; eexists _, _, _; (split; [reflexivity|]); try (intros; exact I). intros a. cbn. by destruct (snd a). }
      rewrite E in Hk |- *. clear -Hk Hf. unfold ret_as in *. revert n Hk. induction p as [a|m|g h k IH]; intros n Hk; cbn in *; [specialize (Hf a); by destruct (f a)|done|].
      intros m w Hm H1 H2 Hg Hi. destruct (Hk m w Hm H1 H2 Hg Hi) as [H3 H4]. split; [done|]. by apply IH. }
    destruct c; try (apply Hfp; [|exact I]; clear Hfp; intros a Ha; destruct a; cbn in Ha |- *; try exact I; try done; unfold fp_monitor_alias, fp_crash, fp_exit in *; naive_solver).
    - apply Hfp; [|exact I]. intros a Ha. eapply send_decent; [exact Hc|exact Ha].
    - (* a timer *)
      cbn [call_prog]. apply o_ret; [done|]. unfold timer_fire.
      apply (kp_bind _ _ (fun _ (t : option task) => match t with Some t => P (t_val t) | None => True end)).
      { intros m w Hm H1 H2 Hg Hi. split; [by apply (does_sourced (ATaskKill id) w)|]. cbn. destruct (w_tasks w !! id) as [t|] eqn:E; [|done]. by apply (so_tasks _ Hi id). }
      intros m [t|] _ Ht; [|exact I]. apply (kp_bind _ _ (fun _ _ => True)).
      + eapply o_guar; [|apply l_send]. intros a Ha. eapply send_decent; [exact Ht|exact Ha].
      + intros m1 u _ _. eapply o_guar; [|apply (l_destroy_timer S)]. intros a Ha. destruct a; cbn in *; done.
    - (* receive *)
      cbn [call_prog]. unfold ret_as, try_receive. eapply kp_bind with (Q := fun m r => heard m (VReceived r)); [|intros; done].
      apply kp_atom. intros m w Hm H1 H2 Hi. split; [by apply (does_sourced (AReceive me T f strict) w)|]. unfold receive_op.
      destruct (w_loc w !! me) as [l|] eqn:E; [|done]. destruct (select S T f strict l) as [s l'] eqn:Es. cbn. destruct s as [msg| |]; try done.
      destruct (select_from _ _ _ _ _ _ _ Es (so_box _ Hi _ _ E)) as [_ Hf]. destruct (Hf _ eq_refl) as (z & Hz & Hr).
      exists m, w, me, z. split; [lia|]. split; [done|]. split; [done|]. split; [done|]. by apply (so_log _ Hi me).
    - apply Hfp; [|exact I]. intros a Ha. destruct a; cbn in Ha |- *; try exact I; try done. by destruct x.
    - apply Hfp; [|exact I]. intros a Ha. destruct f; cbn in Hc; destruct a; cbn in Ha |- *; try exact I; try done; try naive_solver.
  Qed.
End origin.
