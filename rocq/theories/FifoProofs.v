(** The order of messages: proofs. *)
From stdpp Require Import base list gmap numbers strings countable sorting relations.
From Coq Require Import Lia.
From Verif Require Import Prog ProgProofs ProgInv Types Mailbox MailboxSpec World ProcApi NodeApi Api Steps Hist Labels SchedSpec
  LiveProofs ClientRun OriginSpec OriginProofs OrderProps FifoSpec.

(** ** A system with a task of its own *)
Section evolves.
  Context (S : serde).
  (** Seen from outside, the calls in [own] are calls like any other. *)
  Definition evolves (s : sys world val) (own : list (prog world val)) (s' : sys world val) (own' : list (prog world val)) : Prop :=
    forall us, us ≡ₚ s_threads s ++ own ->
      exists us', reach (any_call S) (Sys (s_world s) us) (Sys (s_world s') us') /\ us' ≡ₚ s_threads s' ++ own'.
  Lemma evolves_refl s own : evolves s own s own.
  Proof. intros us H. exists us. split; [apply rtc_refl|done]. Qed.
  Lemma evolves_trans s1 o1 s2 o2 s3 o3 : evolves s1 o1 s2 o2 -> evolves s2 o2 s3 o3 -> evolves s1 o1 s3 o3.
  Proof.
    intros H1 H2 us Hus. destruct (H1 us Hus) as (us1 & R1 & P1). destruct (H2 us1 P1) as (us2 & R2 & P2).
    exists us2. split; [by etrans|done].
  Qed.
  Lemma evolves_step s s' own : sys_step (any_call S) s s' -> evolves s own s' own.
  Proof.
    intros Hs us Hus. destruct (step_more _ _ _ own Hs) as (us1 & H1 & H2).
    destruct (step_perm _ _ _ us H1 Hus) as (us2 & H3 & H4). exists us2. split; [by apply rtc_once|]. by rewrite H4.
  Qed.
  Lemma evolves_begin s own c : evolves s own s (call_prog S c :: own).
  Proof.
    intros us Hus. exists (us ++ [call_prog S c]). split.
    - apply rtc_once. apply (step_call (any_call S) (call_prog S c) (Sys _ us)). by exists c.
    - rewrite Hus, <- app_assoc. apply Permutation_app_head. symmetry. apply (Permutation_app_comm [_] own).
  Qed.
  Lemma evolves_tick w ts own g f k : g w = true -> evolves (Sys w ts) (Atom g f k :: own) (Sys (f w) ts) (k w :: own).
  Proof.
    intros Hg us Hus. cbn in Hus.
    assert (sys_step (any_call S) (Sys w (Atom g f k :: ts ++ own)) (Sys (f w) (k w :: ts ++ own))) as Hs.
    { eapply (step_tick _ 0). unfold tick; cbn. by rewrite Hg. }
    destruct (step_perm _ _ _ us Hs) as (us1 & H1 & H2); [cbn; rewrite Hus; symmetry; apply Permutation_middle|].
    exists us1. split; [by apply rtc_once|]. cbn in *. rewrite H2. apply Permutation_middle.
  Qed.
  Lemma narrow_step ok s s' : sys_step (calls_of S ok) s s' -> sys_step (any_call S) s s'.
  Proof. intros [i ? ? H|p ? (c & _ & ->)]; [by eapply step_tick|]. apply step_call. by exists c. Qed.
  Lemma evolves_carried ok s p v s' own : carried_out S ok s p v s' -> evolves s (p :: own) s' (Ret v :: own).
  Proof.
    induction 1 as [s v|s s1 p v s2 H1 H IH|w ts g f k v s2 Hg H IH]; [apply evolves_refl| |].
    - eapply evolves_trans; [apply evolves_step, (narrow_step ok), H1|exact IH].
    - eapply evolves_trans; [by apply (evolves_tick w ts own g f k)|exact IH].
  Qed.
  Lemma evolves_turns ok s cs s' own : in_turn S ok s cs s' -> exists own', evolves s own s' own'.
  Proof.
    intros H. revert own. induction H as [s|s s1 cs s2 H1 H IH|s c cs v s1 s2 H1 H IH]; intros own.
    - exists own. apply evolves_refl.
    - destruct (IH own) as [own' Ho]. exists own'. eapply evolves_trans; [apply evolves_step, (narrow_step ok), H1|exact Ho].
    - destruct (IH (Ret v :: own)) as [own' Ho]. exists own'. eapply evolves_trans; [apply evolves_begin|].
      eapply evolves_trans; [by apply (evolves_carried ok s (call_prog S c) v s1 own)|exact Ho].
  Qed.
  (** A process that has gone does not come back. *)
  Lemma gone_stays s own s1 own1 s2 own2 i : reachable S s -> own = [] -> is_Some (w_regs (s_world s) !! i) ->
    evolves s own s1 own1 -> w_regs (s_world s1) !! i = None -> evolves s1 own1 s2 own2 -> w_regs (s_world s2) !! i = None.
  Proof.
    intros Hr -> Hi H1 Hn H2. destruct (H1 (s_threads s)) as (u1 & R1 & P1); [by rewrite app_nil_r|].
    destruct (H2 u1 P1) as (u2 & R2 & _). destruct s as [w ts]. cbn in *.
    exact (gone_for_good S i (Sys w ts) (Sys (s_world s1) u1) (Sys (s_world s2) u2) Hr Hi R1 Hn R2).
  Qed.
End evolves.

(** ** What every step leaves alone *)
Section upon.
  Context {W : Type} {M : Type} (Inv : W -> Prop) (meas : W -> M).
  Fixpoint upon {R} (Q : R -> Prop) (p : prog W R) : Prop :=
    match p with
    | Ret r => Q r
    | Panic _ => True
    | Atom g f k => forall w, Inv w -> g w = true -> Inv (f w) /\ meas (f w) = meas w /\ upon Q (k w)
    end.
  Lemma upon_bind {A B} (Q : A -> Prop) (Q' : B -> Prop) (p : prog W A) (r : A -> prog W B) :
    upon Q p -> (forall a, Q a -> upon Q' (r a)) -> upon Q' (bind p r).
  Proof.
    intros Hp Hr. induction p as [a|m|g f k IH]; cbn in *; auto. intros w Hw Hg. destruct (Hp w Hw Hg) as (H1 & H2 & H3). auto.
  Qed.
  Lemma upon_guar {A} (G : W -> W -> Prop) (p : prog W A) :
    (forall w w', G w w' -> Inv w -> Inv w' /\ meas w' = meas w) -> guar G p -> upon (fun _ => True) p.
  Proof.
    intros HG. induction p as [a|m|g f k IH]; cbn; auto. intros Hp w Hw Hg. destruct (Hp w Hg) as [H1 H2].
    destruct (HG _ _ H1 Hw). auto.
  Qed.
  Definition calm {R} (s : sys W R) : Prop := Inv (s_world s) /\ Forall (upon (fun _ => True)) (s_threads s).
  Lemma calm_step {R} (api : prog W R -> Prop) s s' : (forall p, api p -> upon (fun _ => True) p) -> sys_step api s s' -> calm s ->
    calm s' /\ meas (s_world s') = meas (s_world s).
  Proof.
    intros Ha [i ? ? Ht|p ? Hp] [Hi Hts].
    - unfold tick in Ht. destruct (s_threads s0 !! i) as [[| |g f k]|] eqn:E; try discriminate.
      destruct (g (s_world s0)) eqn:Hg; [|discriminate]. injection Ht as <-. pose proof (Forall_lookup_1 _ _ _ _ Hts E) as Hk.
      destruct (Hk _ Hi Hg) as (H1 & H2 & H3). split; [|done]. split; [done|]. cbn. by apply Forall_insert.
    - split; [|done]. split; [done|]. cbn. apply Forall_app. split; [done|]. constructor; [by apply Ha|constructor].
  Qed.
  Lemma calm_reach {R} (api : prog W R -> Prop) s s' : (forall p, api p -> upon (fun _ => True) p) -> reach api s s' -> calm s ->
    calm s' /\ meas (s_world s') = meas (s_world s).
  Proof.
    intros Ha. induction 1 as [s|s1 s2 s3 H1 H IH]; intros Hc; [done|]. destruct (calm_step api s1 s2 Ha H1 Hc) as [H2 E].
    destruct (IH H2) as [H3 E']. split; [done|congruence].
  Qed.
End upon.

Section turns.
  Context {M : Type} (S : serde) (ok : call -> Prop) (Inv : world -> Prop) (meas : world -> M).
  Notation upon := (upon Inv meas (fun _ => True)).
  Context (Hok : forall c, ok c -> upon (call_prog S c)).
  Lemma ok_upon p : calls_of S ok p -> upon p.
  Proof. intros (c & Hc & ->). by apply Hok. Qed.
  Lemma calm_carried s p v s' : carried_out S ok s p v s' -> upon p -> calm Inv meas s -> calm Inv meas s' /\ meas (s_world s') = meas (s_world s).
  Proof.
    induction 1 as [s v|s s1 p v s2 H1 H IH|w ts g f k v s2 Hg H IH]; intros Hp Hc; [done| |].
    - destruct (calm_step _ _ _ _ _ ok_upon H1 Hc) as [H2 E]. destruct (IH Hp H2) as [H3 E']. split; [done|congruence].
    - destruct Hc as [Hi Hts]. destruct (Hp w Hi Hg) as (H2 & H3 & H4). destruct (IH H4) as [H5 E]; [by split|]. split; [done|]. cbn in *. congruence.
  Qed.
  Lemma carried_atom s g f k v s' : carried_out S ok s (Atom g f k) v s' ->
    exists s1, rtc (sys_step (calls_of S ok)) s s1 /\ g (s_world s1) = true /\
      carried_out S ok (Sys (f (s_world s1)) (s_threads s1)) (k (s_world s1)) v s'.
  Proof.
    intros H. remember (Atom g f k) as p eqn:Ep. revert Ep. induction H as [s v|s s1 p v s2 H1 H IH|w ts g' f' k' v s2 Hg H IH]; intros Ep.
    - discriminate.
    - destruct (IH Ep) as (s3 & A & B). exists s3. split; [by eapply rtc_l|done].
    - injection Ep as -> -> ->. exists (Sys w ts). split; [apply rtc_refl|]. done.
  Qed.
End turns.

(** ** Arrivals *)
Section arrivals.
  Context (S : serde) (Hty : serde_typed S) (T : N).
  Notation P := (fun v : value => v_type v <> T).
  Notation good := (fun x : N * item => fine S P (snd x)).
  Definition quiet_tasks (w : world) : Prop := forall i t, w_tasks w !! i = Some t -> v_type (t_val t) <> T.
  Definition adds (w w' : world) : Prop := exists xs, w_log w' = w_log w ++ xs /\ Forall good xs.
  Lemma adds_same w w' : w_log w' = w_log w -> adds w w'.
  Proof. intros E. exists []. by rewrite E, app_nil_r. Qed.
  Lemma adds_push i x w : fine S P x -> adds w (push i x w).
  Proof. intros Hx. unfold push. destruct (w_loc w !! i); [|by apply adds_same]. exists [(i, x)]. split; [done|]. by repeat constructor. Qed.
  Lemma adds_exit p f y w : adds w (exit_op p f y w).
  Proof. unfold exit_op. repeat case_match; try (by apply adds_same); cbn; by apply adds_push. Qed.
  Lemma does_adds a w : decent S P a -> adds w (does S a w).
  Proof.
    intros Ha. destruct a; cbn [does decent] in *; try (by apply adds_same); try (by apply adds_push); try apply adds_exit.
    - unfold receive_op. destruct (w_loc w !! me) as [l|]; [|by apply adds_same]. destruct (select S T0 f b l). by apply adds_same.
    - unfold alias_take_op. repeat case_match; by apply adds_same.
    - unfold send_to. destruct (w_regs w !! i); [by apply adds_push|by apply adds_same].
    - unfold node_register_op, spawn_op. repeat case_match; simplify_eq; by apply adds_same.
    - unfold send_frame, hand_out. repeat case_match; by apply adds_same.
    - unfold register_op. repeat case_match; by apply adds_same.
    - unfold exit_linked_op. repeat case_match; try (by apply adds_same); by apply adds_push.
    - unfold node_start_op, spawn_op. repeat case_match; simplify_eq; by apply adds_same.
    - unfold node_disconnect_op. repeat case_match; try (by apply adds_same).
      destruct (adds_exit p0 p RKill (up_pend (delete n) w)) as (xs & E & Hx). exists xs. done.
    - unfold node_accept_op. case_match; [|by apply adds_same]. case_match; [|by apply adds_same].
      match goal with |- context [if bool_decide _ then ?x else w] => set (w1 := if bool_decide (n_state n1 = Pending) then x else w) end.
      assert (adds w w1) as H1. { unfold w1. repeat case_match; try (by apply adds_same). apply adds_exit. }
      clearbody w1. case_match; [done|]. destruct H1 as (xs & E & Hx). exists xs. done.
    - unfold node_workers_op, hand_out. repeat case_match; by apply adds_same.
    - unfold sup_down_op. repeat case_match; by apply adds_same.
  Qed.
  Lemma exit_tasks p f y w : w_tasks (exit_op p f y w) = w_tasks w.
  Proof. unfold exit_op, push. repeat case_match; reflexivity. Qed.
  Lemma does_tasks a w : decent S P a -> quiet_tasks w -> quiet_tasks (does S a w).
  Proof.
    intros Ha Hw. assert (forall w', w_tasks w' = w_tasks w -> quiet_tasks w') as Hs by (intros w' E; unfold quiet_tasks; by rewrite E).
    destruct a; cbn [does decent] in *; try (by apply Hs); try (apply Hs; apply exit_tasks).
    - apply Hs. unfold receive_op. destruct (w_loc w !! me) as [l|]; [|done]. by destruct (select S T0 f b l).
    - apply Hs. unfold alias_take_op. repeat case_match; done.
    - apply Hs. unfold push. by case_match.
    - apply Hs. unfold send_to, push. by repeat case_match.
    - apply Hs. unfold node_register_op, spawn_op. repeat case_match; simplify_eq; done.
    - apply Hs. unfold send_frame, hand_out. repeat case_match; done.
    - intros j t. cbn. destruct (decide (i = j)) as [<-|Hne]; [rewrite lookup_insert; intros [= <-]; done|rewrite lookup_insert_ne by done; apply Hw].
    - intros j t. cbn. destruct (decide (i = j)) as [<-|Hne]; [|rewrite lookup_alter_ne by done; apply Hw].
      rewrite lookup_alter. intros (t0 & Hj & ->)%fmap_Some. cbn. by eapply Hw.
    - apply Hs. unfold register_op. repeat case_match; done.
    - apply Hs. unfold exit_linked_op, push. repeat case_match; done.
    - apply Hs. unfold node_start_op, spawn_op. repeat case_match; simplify_eq; done.
    - apply Hs. unfold node_disconnect_op. repeat case_match; try done. exact (exit_tasks p0 p RKill (up_pend (delete n) w)).
    - apply Hs. unfold node_accept_op. case_match; [|done]. case_match; [|done].
      match goal with |- context [if bool_decide _ then ?x else w] => set (w1 := if bool_decide (n_state n1 = Pending) then x else w) end.
      assert (w_tasks w1 = w_tasks w) as H1. { unfold w1. repeat case_match; try done. apply exit_tasks. }
      clearbody w1. case_match; done.
    - apply Hs. unfold node_workers_op, hand_out. repeat case_match; done.
    - apply Hs. unfold sup_down_op. repeat case_match; done.
  Qed.
  Lemma fine_none x : fine S P x -> reads_as S T x = None.
  Proof.
    destruct x as [b|v| | | | |]; cbn; try done; intros H.
    - destruct (de S T b) as [v|] eqn:E; [|done]. destruct (H _ _ E). by eapply Hty.
    - by rewrite decide_False.
  Qed.
  Lemma good_mail q xs : Forall good xs -> mail S T q xs = [].
  Proof.
    induction 1 as [|[i x] xs Hx _ IH]; [done|]. unfold mail in *. cbn. rewrite fine_none by done. by case_decide.
  Qed.
  Lemma mail_app q xs ys : mail S T q (xs ++ ys) = mail S T q xs ++ mail S T q ys.
  Proof. apply omap_app. Qed.
  Lemma adds_mail q w w' : adds w w' -> mail S T q (w_log w') = mail S T q (w_log w).
  Proof. intros (xs & -> & Hx). by rewrite mail_app, (good_mail q xs Hx), app_nil_r. Qed.

  Lemma call_decent c : serde_keeps S P -> other_types S T c -> match c with CFire _ => False | _ => True end -> forall a, fp S c a -> decent S P a.
  Proof.
    intros Hk Hc Hf. unfold other_types in Hc.
    destruct c; try (clear Hk; intros a Ha; destruct a; cbn in Ha |- *; try exact I; try done; unfold fp_monitor_alias, fp_crash, fp_exit in *; naive_solver).
    - intros a Ha. eapply (send_decent S P); [done|exact Hc|exact Ha].
    - intros a Ha. destruct a; cbn in Ha |- *; try exact I; try done. by destruct x.
    - intros a Ha. clear Hk. destruct f; cbn in Hc; destruct a; cbn in Ha |- *; try exact I; try done; try naive_solver.
  Qed.
  (** ** Calls of other types *)
  Context {M : Type} (Inv : world -> Prop) (meas : world -> M) (nice : act -> Prop).
  Context (Htasks : forall w, Inv w -> quiet_tasks w).
  Context (Hnice : forall a w, decent S P a -> nice a -> Inv w -> Inv (does S a w) /\ meas (does S a w) = meas w).
  Context (Hkeeps : serde_keeps S P).
  Lemma u_guar {A} (F : act -> Prop) (p : prog world A) : (forall a, F a -> decent S P a /\ nice a) -> guar (lstep S F) p -> upon Inv meas (fun _ => True) p.
  Proof. intros HF. apply upon_guar. intros w w' (a & Ha & ->) Hw. destruct (HF a Ha). by apply Hnice. Qed.
  Lemma u_call c : other_types S T c -> (forall a, fp S c a -> nice a) -> (forall ds v a, fp_send S ds v a -> P v -> nice a) ->
    (forall i a, fp_destroy_timer i a -> nice a) -> (forall i, nice (ATaskKill i)) ->
    upon Inv meas (fun _ => True) (call_prog S c).
  Proof.
    intros Hc Hn Hns Hnd Hnk.
    assert ((forall a, fp S c a -> decent S P a) -> upon Inv meas (fun _ => True) (call_prog S c)) as Hfp.
    { intros H. eapply u_guar; [|apply call_fp]. auto. }
    assert ((exists i, c = CFire i) \/ match c with CFire _ => False | _ => True end) as [[id ->]|Hf] by (destruct c; eauto).
    2: { apply Hfp. by apply call_decent. }
    cbn [call_prog]. unfold ret_as. eapply (upon_bind _ _ (fun _ => True)); [|done]. unfold timer_fire.
    eapply (upon_bind _ _ (fun t : option task => match t with Some t => P (t_val t) | None => True end)).
    { intros w Hw Hg. destruct (Hnice (ATaskKill id) w I (Hnk id) Hw) as [H1 H2]. split; [exact H1|]. split; [exact H2|].
      cbn. destruct (w_tasks w !! id) as [t|] eqn:E; [|done]. by apply (Htasks w Hw id). }
    intros [t|] Ht; [|exact I]. eapply (upon_bind _ _ (fun _ => True)).
    + eapply u_guar; [|apply l_send]. intros a Ha. split; [|by eapply Hns]. eapply (send_decent S P); [done|exact Ht|exact Ha].
    + intros u _. eapply u_guar; [|apply (l_destroy_timer S)]. intros a Ha. split; [|by eapply Hnd]. destruct a; cbn in *; done.
  Qed.
End arrivals.

(** ** Being there *)
From Verif Require Import SchedProofs FreshProofs.
Section there.
  Context (S : serde) (q : N).
  Notation there := (there q).
  Lemma there_or w : there w \/ w_loc w !! q = None \/ w_regs w !! q = None.
  Proof. unfold there. destruct (w_loc w !! q), (w_regs w !! q); eauto. Qed.
  Definition buried (w : world) : Prop := (q < w_next_pid w)%N /\ w_loc w !! q = None.
  Lemma buried_same w w' : w_next_pid w' = w_next_pid w -> (is_Some (w_loc w' !! q) -> is_Some (w_loc w !! q)) -> buried w -> buried w'.
  Proof. intros E1 E2 [H1 H2]. split; [by rewrite E1|]. destruct (w_loc w' !! q); [|done]. destruct E2 as [? E]; eauto. congruence. Qed.
  Lemma buried_new w w' : w_next_pid w' = N.succ (w_next_pid w) -> w_loc w' = <[w_next_pid w := new_plocal]> (w_loc w) -> buried w -> buried w'.
  Proof. intros E1 E2 [H1 H2]. split; [rewrite E1; lia|]. rewrite E2, lookup_insert_ne by lia. done. Qed.
  Lemma step1_buried w w' : anystep S w w' -> buried w -> buried w'.
  Proof.
    intros H Hw. destruct H; try exact Hw;
      try (by (apply (buried_same w); [ops; cbn; repeat case_match; reflexivity | ops; cbn; repeat case_match; cbn; auto using lookup_alter_is_Some;
         rewrite ?lookup_alter_is_Some, ?lookup_insert_is_Some', ?lookup_delete_is_Some; try tauto; intros [<-|?]; eauto | exact Hw])).
    - unfold node_register_op, spawn_op. repeat case_match; cbn; simplify_eq; try exact Hw;
        by apply (buried_new w).
    - by apply (buried_new w).
    - unfold node_start_op, spawn_op. repeat case_match; cbn; simplify_eq; try exact Hw. by apply (buried_new w).
    - unfold node_disconnect_op. repeat case_match; try exact Hw.
      match goal with |- context [exit_op ?p ?f ?y ?x] => destruct (exit_op_locs p f y x) as [E1 E2] end.
      apply (buried_same w); [exact E1 | apply E2 | exact Hw].
    - unfold node_accept_op. repeat case_match; cbn; simplify_eq; try exact Hw;
        match goal with |- context [exit_op ?p ?f ?y ?x] => destruct (exit_op_locs p f y x) as [E1 E2] end;
        (apply (buried_same w); [exact E1 | apply E2 | exact Hw]).
    - apply (buried_same w); [| |exact Hw]; unfold node_workers_op, hand_out; repeat case_match; cbn; auto.
    - apply (buried_same w); [| |exact Hw]; unfold sup_down_op; repeat case_match; cbn; auto.
  Qed.
  Lemma reach_any_inv (I : world -> Prop) s s' : (forall w w', anystep S w w' -> I w -> I w') -> reachable S s -> reach (any_call S) s s' -> I (s_world s) -> I (s_world s').
  Proof.
    intros HI H0 H1. pose proof (reachable_threads S s H0) as Ht.
    refine (proj1 (reach_guar (fun w w' => I w -> I w') (any_call S) s s' _ _ _ _ H1)); [auto|auto| |].
    - intros p (c & ->). eapply guar_mono; [|apply call_steps]. exact HI.
    - eapply List.Forall_impl; [|exact Ht]. intros p Hp. eapply guar_mono; [|exact Hp]. exact HI.
  Qed.
  (** Gone for good, whatever the task of its own does. *)
  Lemma not_there_again s s1 own1 s2 own2 : reachable S s -> there (s_world s) ->
    evolves S s [] s1 own1 -> ~ there (s_world s1) -> evolves S s1 own1 s2 own2 -> ~ there (s_world s2).
  Proof.
    intros Hr [Hl Hi] H1 Hn H2 [Hl2 Hi2]. destruct (there_or (s_world s1)) as [?|[Hg|Hg]]; [done| |].
    - destruct (H1 (s_threads s)) as (u1 & R1 & P1); [by rewrite app_nil_r|]. destruct (H2 u1 P1) as (u2 & R2 & _). destruct s as [w ts]. cbn in *.
      assert (reachable S (Sys (s_world s1) u1)) as Hr1 by (eapply rtc_transitive; [exact Hr|exact R1]).
      assert (q < w_next_pid (s_world s1))%N as Hq.
      { assert (q < w_next_pid w)%N as Hq by (apply (occurs_allocated S w); [by exists ts|exact Hl]).
        refine (reach_any_inv (fun w => q < w_next_pid w)%N (Sys w ts) (Sys (s_world s1) u1) _ Hr R1 Hq).
        intros x y Hxy Hx. pose proof (step1_next S x y Hxy). lia. }
      pose proof (reach_any_inv buried (Sys (s_world s1) u1) (Sys (s_world s2) u2) step1_buried Hr1 R2 (conj Hq Hg)) as [_ Hz].
      cbn in Hz. rewrite Hz in Hl2. by destruct Hl2.
    - pose proof (gone_stays S s [] s1 own1 s2 own2 q Hr eq_refl Hi H1 Hg H2) as Hz. rewrite Hz in Hi2. by destruct Hi2.
  Qed.
End there.

(** ** One message after the other *)
Section general.
  Context {X : Type} (S : serde) (ok : call -> Prop) (Inv : world -> Prop) (meas : world -> list X) (alive : world -> Prop) (msg : call -> option X).
  Context (Hok : forall c, ok c -> upon Inv meas (fun _ => True) (call_prog S c)).
  Context (Halive : forall w, alive w \/ ~ alive w).
  Context (Hmsg : forall c x, msg c = Some x -> exists f, call_prog S c = Atom (fun _ => true) f (fun _ => Ret VUnit) /\
    (forall w, Inv w -> Inv (f w)) /\ (forall w, Inv w -> alive w -> meas (f w) = meas w ++ [x]) /\ (forall w, Inv w -> ~ alive w -> meas (f w) = meas w)).
  (** The state from which on the receiver is there. *)
  Context (s0 : sys world val).
  Context (Hgone : forall s1 own1 s2 own2, evolves S s0 [] s1 own1 -> ~ alive (s_world s1) -> evolves S s1 own1 s2 own2 -> ~ alive (s_world s2)).
  Lemma in_turn_gen s cs s' own : evolves S s0 [] s own ->
    calm Inv meas s -> Forall (fun c => ok c /\ msg c = None \/ is_Some (msg c)) cs -> in_turn S ok s cs s' ->
    calm Inv meas s' /\
    (exists n, meas (s_world s') = meas (s_world s) ++ take n (omap msg cs)) /\
    (alive (s_world s') -> meas (s_world s') = meas (s_world s) ++ omap msg cs) /\
    (~ alive (s_world s) -> meas (s_world s') = meas (s_world s)).
  Proof.
    intros He Hc Hcs H. revert own He Hc Hcs. induction H as [s|s s1 cs s2 H1 H IH|s c cs v s1 s2 H1 H IH]; intros own He Hc Hcs.
    - split; [done|]. cbn. rewrite !app_nil_r. split; [exists 0; by rewrite app_nil_r|done].
    - destruct (calm_step Inv meas _ _ _ (ok_upon S ok Inv meas Hok) H1 Hc) as [Hc1 E1].
      assert (evolves S s own s1 own) as He1 by (apply evolves_step, (narrow_step S ok), H1).
      destruct (IH own) as (Hc2 & Hp & Hq & Hn); [by eapply evolves_trans|done|done|]. rewrite <- E1.
      split; [done|]. split; [done|]. split; [done|]. intros Hg. apply Hn. by eapply Hgone.
    - inversion Hcs as [|? ? Hc0 Hcs']; subst.
      assert (evolves S s own s1 (Ret v :: own)) as He1.
      { eapply evolves_trans; [apply (evolves_begin S s own c)|]. by apply (evolves_carried S ok). }
      assert (evolves S s0 [] s1 (Ret v :: own)) as He2 by (by eapply evolves_trans).
      destruct (msg c) as [x|] eqn:Ex; cbn [omap list_omap]; rewrite Ex.
      2: { assert (ok c) as Hmn by (destruct Hc0 as [[? _]|[? E]]; [done|discriminate]).
           destruct (calm_carried S ok Inv meas Hok _ _ _ _ H1 (Hok c Hmn) Hc) as [Hc1 E1].
           destruct (IH _ He2 Hc1 Hcs') as (Hc2 & Hp & Hq & Hn). cbn in E1. rewrite <- E1. split; [done|]. split; [done|]. split; [done|].
           intros Hg. apply Hn. exact (Hgone s own s1 _ He Hg He1). }
      destruct (Hmsg c x Ex) as (f & Ep & Hf1 & Hf2 & Hf3). rewrite Ep in H1.
      destruct (carried_atom S ok _ _ _ _ _ _ H1) as (s3 & R1 & _ & R2). 
      destruct (calm_reach Inv meas _ _ _ (ok_upon S ok Inv meas Hok) R1 Hc) as [Hc3 E3].
      assert (calm Inv meas (Sys (f (s_world s3)) (s_threads s3))) as Hc4.
      { destruct Hc3 as [Hi3 Hts]. split; [|done]. by apply Hf1. }
      destruct (calm_carried S ok Inv meas Hok _ _ _ _ R2 I Hc4) as [Hc1 E1].
      destruct (IH _ He2 Hc1 Hcs') as (Hc2 & (n & Hp) & Hq & Hn).
      assert (exists own3, evolves S s0 [] s3 own3 /\ evolves S s own s3 own3) as (own3 & He3 & Hss3).
      { assert (evolves S s own s3 own) as Hx.
        { clear -R1. induction R1 as [s|s s1 s2 H1 H IH]; [apply evolves_refl|]. eapply evolves_trans; [apply evolves_step, (narrow_step S ok), H1|exact IH]. }
        exists own. split; [eapply evolves_trans; [exact He|exact Hx]|done]. }
      assert (evolves S s3 (call_prog S c :: own3) s1 (Ret v :: own3)) as Hes.
      { rewrite Ep. eapply evolves_trans; [by apply (evolves_tick S (s_world s3) (s_threads s3))|]. destruct s3 as [w3 t3]. exact (evolves_carried S ok _ _ _ _ _ R2). }
      assert (evolves S s3 own3 s1 (Ret v :: own3)) as Hes' by (eapply evolves_trans; [apply evolves_begin|exact Hes]).
      split; [done|]. destruct Hc3 as [Hi3 _].
      destruct (Halive (s_world s3)) as [Hth|Hth].
      + cbn in E1. rewrite (Hf2 _ Hi3 Hth), E3 in E1. split.
        * exists (Datatypes.S n). cbn. rewrite Hp, E1, <- app_assoc. done.
        * split; [intros Hz; rewrite (Hq Hz), E1, <- app_assoc; done|].
          intros Hg. exfalso. revert Hth. exact (Hgone _ _ _ _ He Hg Hss3).
      + cbn in E1. rewrite (Hf3 _ Hi3 Hth), E3 in E1.
        assert (~ alive (s_world s1)) as Hth1 by exact (Hgone _ _ _ _ He3 Hth Hes').
        specialize (Hn Hth1). cbn in Hn. split; [exists 0; cbn; by rewrite app_nil_r, Hn, E1|].
        split; [|intros _; by rewrite Hn, E1]. intros Hz. exfalso. revert Hz.
        destruct (evolves_turns S ok _ _ _ (Ret v :: own3) H) as [own' Ho].
        assert (evolves S s0 [] s1 (Ret v :: own3)) as Hx by (eapply evolves_trans; [exact He3|exact Hes']).
        exact (Hgone s1 _ s2 own' Hx Hth1 Ho).
  Qed.
End general.

(** ** Mail *)
Section mail.
  Context (S : serde) (Hty : serde_typed S) (T q : N) (Hf : told_apart S T).
  Notation ok := (other_types S T).
  Notation P := (fun v : value => v_type v <> T).
  Notation meas := (fun w => mail S T q (w_log w)).
  Notation Inv := (quiet_tasks T).
  Lemma apart_keeps : serde_keeps S P.
  Proof. intros v Hv T' v' E Hv'. pose proof (Hty _ _ _ E) as Ht. rewrite Hv' in Ht. subst T'. rewrite (Hf v Hv) in E. done. Qed.
  Lemma mail_upon c : ok c -> upon Inv meas (fun _ => True) (call_prog S c).
  Proof.
    intros Hc. apply (u_call S T Inv meas (fun _ => True)); auto; [|apply apart_keeps].
    intros a w Ha _ Hw. split; [by apply (does_tasks S T)|]. apply (adds_mail S Hty T). by apply does_adds.
  Qed.
  Lemma message_step c v : message_for S T q c = Some v -> exists x, reads_as S T x = Some v /\
    call_prog S c = Atom (fun _ => true) (fun w => send_to q x w) (fun _ => Ret VUnit).
  Proof.
    destruct c; cbn; try done.
    - destruct ds as [[[i|]| |]|]; try done. case_decide as Hd; [|done]. intros [= ->]. destruct Hd as [-> Hv].
      exists (IUserLocal v). split; [cbn; by rewrite decide_True|reflexivity].
    - destruct f as [| | |ts m| | | | | |]; try done. destruct ts as [|[i| |] [|]]; try done. case_decide as Hd; [|done]. subst.
      intros Hv. exists (IUserRemote m). split; [done|reflexivity].
  Qed.
  Lemma send_there x v w : reads_as S T x = Some v -> there q w -> meas (send_to q x w) = meas w ++ [v].
  Proof.
    intros Hx [[l Hl] [r Hr]]. unfold send_to. rewrite Hr. unfold push. rewrite Hl. cbn [w_log up_log up_loc].
    rewrite mail_app. f_equal. unfold mail; cbn. rewrite decide_True by done. by rewrite Hx.
  Qed.
  Lemma send_nowhere x w : ~ there q w -> send_to q x w = w.
  Proof.
    unfold there, send_to, push. destruct (w_regs w !! q); [|done]. destruct (w_loc w !! q) eqn:E; [|done]. intros H. destruct H. split; eauto.
  Qed.
  Lemma send_tasks x w : w_tasks (send_to q x w) = w_tasks w.
  Proof. unfold send_to, push. by repeat case_match. Qed.
  Lemma in_turn_mail s cs s' : reachable S s -> there q (s_world s) ->
    calm Inv meas s -> Forall (fun c => ok c \/ is_Some (message_for S T q c)) cs -> in_turn S ok s cs s' ->
    (exists n, meas (s_world s') = meas (s_world s) ++ take n (omap (message_for S T q) cs)) /\
    (there q (s_world s') -> meas (s_world s') = meas (s_world s) ++ omap (message_for S T q) cs).
  Proof.
    intros Hr Ht Hc Hcs H.
    refine (match in_turn_gen S ok Inv meas (there q) (message_for S T q) mail_upon _ _ s _ s cs s' [] (evolves_refl S s []) Hc _ H
            with conj _ (conj A (conj B _)) => conj A B end).
    - intros w. destruct (there_or q w) as [?|[E|E]]; [by left| |]; right; intros [[? ?] [? ?]]; congruence.
    - intros c x Ex. destruct (message_step c x Ex) as (y & Hy & Ep). exists (send_to q y). split; [exact Ep|]. split_and!.
      + intros w Hw. unfold quiet_tasks. rewrite send_tasks. exact Hw.
      + intros w _ Hth. by apply send_there.
      + intros w _ Hth. by rewrite send_nowhere.
    - intros s1 own1 s2 own2 H1 H2 H3. exact (not_there_again S q s s1 own1 s2 own2 Hr Ht H1 H2 H3).
    - eapply List.Forall_impl; [|exact Hcs]. intros c. cbn. destruct (message_for S T q c) eqn:E; [by right; eauto|].
      intros [?|[? ?]]; [by left|done].
  Qed.
End mail.
