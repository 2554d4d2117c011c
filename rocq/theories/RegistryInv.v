(** Registries: what holds in every history. *)
From stdpp Require Import base list gmap numbers strings sets.
From Coq Require Import ZArith Lia.
From Verif Require Import Types Super Registry RegistrySpec RegistryProofs.

Section inv.
  Context (answers : nat -> answer) (Hnew : new_processes answers).
  Definition issued (w : rworld) (p : pid) : Prop := exists i, i < t_tick w /\ answers i = Up p.
  Record owned (used : pid -> Prop) (w : rworld) : Prop := {
    ow_used : forall srv g, t_regs w !! srv = Some g -> used srv;
    ow_named : forall srv g, t_regs w !! srv = Some g -> t_names w !! g_name g = Some srv;
    ow_entry : forall name k p, entry w name k = Some p -> exists srv g, t_regs w !! srv = Some g /\ g_name g = name /\ g_lookup g !! p = Some k;
    ow_issued : forall srv g p k, t_regs w !! srv = Some g -> g_lookup g !! p = Some k -> issued w p;
    ow_cast : forall srv p, (srv, p) ∈ t_casts w -> issued w p /\ forall name k, entry w name k <> Some p;
    ow_one : forall srv g srv' g' p k k', t_regs w !! srv = Some g -> g_lookup g !! p = Some k ->
               t_regs w !! srv' = Some g' -> g_lookup g' !! p = Some k' -> srv = srv' }.
  Lemma owned0 u : owned u rworld0.
  Proof. split; unfold entry; intros *; cbn; rewrite ?lookup_empty; try done; set_solver. Qed.
  Lemma owned_used (u u' : pid -> Prop) w : (forall x, u x -> u' x) -> owned u w -> owned u' w.
  Proof. intros H [A B C D E F]. split; eauto. Qed.
  (** Only the log differs, or the tables have fewer entries. *)
  Lemma owned_less u w w' : owned u w -> t_regs w' = t_regs w -> t_names w' = t_names w -> t_tick w' = t_tick w -> t_casts w' = t_casts w ->
    (forall name k p, entry w' name k = Some p -> entry w name k = Some p) -> owned u w'.
  Proof.
    intros [A B C D E F] Hr Hn Ht Hc He. split; rewrite ?Hr, ?Hn, ?Hc; eauto.
    - intros. destruct (D srv g p k) as (i & ? & ?); [done..|]. exists i. by rewrite Ht.
    - intros srv p H. destruct (E _ _ H) as [(i & ? & ?) E2]. split; [exists i; by rewrite Ht|]. intros name k H2. by apply (E2 name k), He.
  Qed.
  (** Some lookups shrink, without losing a registered process. *)
  Lemma lookup_set srv f w srv' g' : t_regs (set_lookup srv f w) !! srv' = Some g' ->
    exists g, t_regs w !! srv' = Some g /\ g_name g' = g_name g /\ g_start g' = g_start g /\ g_lookup g' = if decide (srv' = srv) then f (g_lookup g) else g_lookup g.
  Proof.
    cbn. destruct (decide (srv' = srv)) as [->|Hn].
    - rewrite lookup_alter. destruct (t_regs w !! srv) as [g|]; cbn; [|done]. intros H. injection H as <-. eauto.
    - rewrite lookup_alter_ne by congruence. eauto.
  Qed.
  Lemma set_lookup_get srv f w srv' g : t_regs w !! srv' = Some g ->
    t_regs (set_lookup srv f w) !! srv' = Some (if decide (srv' = srv) then with_lookup f g else g).
  Proof.
    intros H. cbn. destruct (decide (srv' = srv)) as [->|Hn].
    - by rewrite lookup_alter, H.
    - by rewrite lookup_alter_ne by congruence.
  Qed.
  Lemma owned_delete u w srv p : owned u w -> (forall name k, entry w name k <> Some p) -> owned u (set_lookup srv (delete p) w).
  Proof.
    intros [A B C D E F] Hp. split.
    - intros s g H. destruct (lookup_set _ _ _ _ _ H) as (g0 & H0 & _). eauto.
    - intros s g H. destruct (lookup_set _ _ _ _ _ H) as (g0 & H0 & Hn & _). rewrite Hn. cbn. eauto.
    - intros name k q H. destruct (C name k q H) as (s & g & Hs & Hn & Hl).
      assert (q <> p) as Hqp. { intros ->. by apply (Hp name k). }
      exists s, (if decide (s = srv) then with_lookup (delete p) g else g). rewrite (set_lookup_get _ _ _ _ _ Hs).
      destruct (decide (s = srv)); split_and!; try done. cbn. by rewrite lookup_delete_ne by congruence.
    - intros s g q k H Hl. destruct (lookup_set _ _ _ _ _ H) as (g0 & H0 & _ & _ & Hg).
      apply (D s g0 q k H0). rewrite Hg in Hl. destruct (decide (s = srv)); [|done]. by apply lookup_delete_Some in Hl as [_ ?].
    - exact E.
    - intros s g s' g' q k k' H Hl H' Hl'. destruct (lookup_set _ _ _ _ _ H) as (g0 & H0 & _ & _ & Hg). destruct (lookup_set _ _ _ _ _ H') as (g0' & H0' & _ & _ & Hg').
      apply (F s g0 s' g0' q k k' H0); [|done|].
      + rewrite Hg in Hl. destruct (decide (s = srv)); [|done]. by apply lookup_delete_Some in Hl as [_ ?].
      + rewrite Hg' in Hl'. destruct (decide (s' = srv)); [|done]. by apply lookup_delete_Some in Hl' as [_ ?].
  Qed.
  (** A process is registered under one key only. *)
  Lemma owned_key u w name k name' k' p : owned u w -> entry w name k = Some p -> entry w name' k' = Some p -> name = name' /\ k = k'.
  Proof.
    intros [A B C D E F] H H'. destruct (C _ _ _ H) as (s & g & Hs & Hn & Hl). destruct (C _ _ _ H') as (s' & g' & Hs' & Hn' & Hl').
    pose proof (F _ _ _ _ _ _ _ Hs Hl Hs' Hl') as ->. rewrite Hs in Hs'. injection Hs' as ->. split; congruence.
  Qed.
  Lemma owned_drop_tables u w name : owned u w -> owned u (with_tables (delete name) w).
  Proof. intros H. apply (owned_less u w); try done. intros n k p. rewrite entry_delete. by destruct (decide _). Qed.
  Lemma owned_log u w l : owned u w -> owned u (glog l w).
  Proof. intros H. by apply (owned_less u w). Qed.
  Lemma owned_gone u w srv : owned u w -> owned u (gone_reg srv w).
  Proof.
    intros H. unfold gone_reg. destruct (t_regs w !! srv) as [g|] eqn:Eg; [|done].
    destruct H as [A B C D E F]. split.
    - intros s g'. cbn. intros [_ H]%lookup_delete_Some. eauto.
    - intros s g'. cbn. intros [Hn H]%lookup_delete_Some. apply map_filter_lookup_Some. split; [eauto|congruence].
    - intros name k p. rewrite entry_drop. destruct (decide (name = g_name g)) as [|Hn]; [done|]. intros H.
      destruct (C name k p H) as (s & g' & Hs & Hg' & Hl). exists s, g'. split; [|done]. cbn. apply lookup_delete_Some. split; [|done].
      intros ->. congruence.
    - intros s g' p k. cbn. intros [_ H]%lookup_delete_Some. exact (D s g' p k H).
    - intros s p H. destruct (E s p H) as [E1 E2]. split; [exact E1|]. intros name k. rewrite entry_drop. destruct (decide _); [done|]. exact (E2 name k).
    - intros s g1 s' g2 p k k'. cbn. intros [_ H]%lookup_delete_Some Hl [_ H']%lookup_delete_Some Hl'. exact (F _ _ _ _ _ _ _ H Hl H' Hl').
  Qed.
  Lemma owned_terminate u w srv : owned u w -> owned u (terminate_reg srv w).
  Proof.
    intros H. unfold terminate_reg. destruct (t_regs w !! srv) as [g|] eqn:Eg; [|done].
    assert (forall l, owned u (set_lookup srv (fun _ => ∅) (glog l (with_tables (delete (g_name g)) w)))) as X.
    { intros l. apply (owned_drop_tables u w (g_name g)) in H as HX. destruct H as [A B C D E F]. split.
      - intros s g' H. destruct (lookup_set _ _ _ _ _ H) as (g0 & H0 & _). eauto.
      - intros s g' H. destruct (lookup_set _ _ _ _ _ H) as (g0 & H0 & Hn & _). rewrite Hn. cbn. eauto.
      - intros name k p H.
        assert (entry (with_tables (delete (g_name g)) w) name k = Some p) as H2 by exact H. rewrite entry_delete in H2. destruct (decide (name = g_name g)) as [|Hn]; [done|].
        destruct (C name k p H2) as (s & g' & Hs & Hg' & Hl). exists s, g'. split; [|done]. cbn. rewrite lookup_alter_ne; [done|]. intros ->. congruence.
      - intros s g' p k H Hl. destruct (lookup_set _ _ _ _ _ H) as (g0 & H0 & _ & _ & Hg). rewrite Hg in Hl. destruct (decide (s = srv)); [by rewrite lookup_empty in Hl|]. exact (D s g0 p k H0 Hl).
      - intros s p H. exact (ow_cast _ _ HX s p H).
      - intros s g1 s' g2 p k k' H Hl H' Hl'. destruct (lookup_set _ _ _ _ _ H) as (g0 & H0 & _ & _ & Hg). destruct (lookup_set _ _ _ _ _ H') as (g0' & H0' & _ & _ & Hg').
        rewrite Hg in Hl. rewrite Hg' in Hl'. destruct (decide (s = srv)); [by rewrite lookup_empty in Hl|]. destruct (decide (s' = srv)); [by rewrite lookup_empty in Hl'|].
        exact (F _ _ _ _ _ _ _ H0 Hl H0' Hl'). }
    destruct (g_shutdown g); [done| |]; (destruct (t_tables w !! g_name g); [apply X|done]).
  Qed.
  Lemma take_one_sub x y l : y ∈ take_one x l -> y ∈ l.
  Proof. induction l as [|z l IH]; cbn; [done|]. destruct (decide (z = x)); [by right|]. rewrite !elem_of_cons. intros [->|]; auto. Qed.
  Lemma owned_start u w srv g k : owned u w -> t_regs w !! srv = Some g -> owned u (fst (start_by_key answers srv g k w)).
  Proof.
    intros H Hg. unfold start_by_key. rewrite (entry_lookup w (g_name g) k). destruct (entry w (g_name g) k) as [q|] eqn:Ek; [done|].
    destruct (g_start g); [|by apply owned_gone].
    set (w1 := RWorld (t_tables w) (t_regs w) (t_names w) (S (t_tick w)) (t_casts w) (t_log w ++ [GStarts (g_name g) k (answers (t_tick w))])).
    assert (forall p, issued w p -> issued w1 p) as Hi. { intros p (i & Hi & Hp). exists i. split; [cbn; lia|done]. }
    assert (owned u w1) as [A B C D E F].
    { destruct H as [A B C D E F]. split; try exact A; try exact B; try exact C; try exact F; eauto.
      intros s p Hs. destruct (E s p Hs). auto. }
    destruct (answers (t_tick w)) as [p|r] eqn:Ea; cbn [fst]; [|by split].
    assert (~ issued w p) as Hni. { intros (i & Hi1 & Hp). pose proof (Hnew _ _ _ Hp Ea). lia. }
    assert (issued w1 p) as Hp1. { exists (t_tick w). split; [cbn; lia|done]. }
    split.
    - intros s g' H1. destruct (lookup_set _ _ _ _ _ H1) as (g0 & H0 & _). eauto.
    - intros s g' H1. destruct (lookup_set _ _ _ _ _ H1) as (g0 & H0 & Hn & _). rewrite Hn. exact (B s g0 H0).
    - intros name k' q. rewrite entry_register. destruct (decide ((name, k') = (g_name g, k))) as [X|X].
      + injection X as -> ->. intros Y. injection Y as <-. exists srv, (with_lookup (fun m => <[p := k]> m) g). split_and!; [|done|].
        * unfold register_process. cbn [t_regs with_tables]. change (t_regs w) with (t_regs w1) in Hg. rewrite (set_lookup_get srv (fun m => <[p:=k]> m) w1 srv g Hg). by rewrite decide_True.
        * cbn. by rewrite lookup_insert.
      + intros Y. change (entry w name k' = Some q) in Y. destruct (C name k' q Y) as (s & g' & Hs & Hn & Hl).
        exists s, (if decide (s = srv) then with_lookup (fun m => <[p := k]> m) g' else g'). split_and!.
        * unfold register_process. cbn [t_regs with_tables]. exact (set_lookup_get srv (fun m => <[p:=k]> m) w1 s g' Hs).
        * by destruct (decide (s = srv)).
        * destruct (decide (s = srv)); [|done]. cbn. rewrite lookup_insert_ne; [done|]. intros ->.
          apply Hni. exact (ow_issued _ _ H s g' q k' Hs Hl).
    - intros s g' q k' H1 Hl. destruct (lookup_set _ _ _ _ _ H1) as (g0 & H0 & _ & _ & Hgl). rewrite Hgl in Hl.
      destruct (decide (s = srv)) as [->|]; [|exact (D s g0 q k' H0 Hl)].
      destruct (decide (q = p)) as [->|Hq]; [done|]. rewrite lookup_insert_ne in Hl by congruence. exact (D srv g0 q k' H0 Hl).
    - intros s q Hs. destruct (ow_cast _ _ H s q Hs) as [E1 E2]. split; [by apply Hi|]. intros name k'. rewrite entry_register.
      destruct (decide _); [|exact (E2 name k')]. intros X. injection X as ->. done.
    - assert (forall s g' q k', t_regs (set_lookup srv (fun m => <[p:=k]> m) w1) !! s = Some g' -> g_lookup g' !! q = Some k' ->
         (q = p /\ s = srv) \/ (q <> p /\ exists g0, t_regs w !! s = Some g0 /\ g_lookup g0 !! q = Some k')) as Hc.
      { intros s g' q k' H1 Hl. destruct (lookup_set _ _ _ _ _ H1) as (g0 & H0 & _ & _ & Hgl). rewrite Hgl in Hl. destruct (decide (q = p)) as [->|Hq].
        - left. split; [done|]. destruct (decide (s = srv)); [done|]. destruct Hni. exact (ow_issued _ _ H s g0 p k' H0 Hl).
        - right. split; [done|]. exists g0. split; [done|]. destruct (decide (s = srv)); [|done]. by rewrite lookup_insert_ne in Hl by congruence. }
      intros s g1 s' g2 q k1 k2 H1 Hl1 H2 Hl2.
      destruct (Hc s g1 q k1 H1 Hl1) as [[-> ->]|[Hq (g0 & H0 & Hl0)]]; destruct (Hc s' g2 _ k2 H2 Hl2) as [[? ->]|[Hq' (g0' & H0' & Hl0')]]; try done.
      exact (F _ _ _ _ _ _ _ H0 Hl0 H0' Hl0').
  Qed.
  Lemma owned_remove u w srv name k p l : owned u w -> entry w name k = Some p ->
    owned u (set_lookup srv (delete p) (glog l (remove_process name k w))).
  Proof.
    intros H He. apply owned_delete; [apply owned_log|].
    - apply (owned_less u w); try done. intros n k' q. rewrite entry_remove. by destruct (decide _).
    - intros n k'. change (entry (remove_process name k w) n k' <> Some p). rewrite entry_remove. destruct (decide _) as [|Hn]; [done|]. intros H2.
      destruct (owned_key _ _ _ _ _ _ _ H He H2). subst. done.
  Qed.
  Lemma owned_step u w e : owned u w -> own_name e -> (match starts_as e with Some srv => ~ u srv | None => True end) ->
    owned (fun s => u s \/ starts_as e = Some s) (rstep answers w e).
  Proof.
    intros H Ho Hf. assert (owned (fun s => u s \/ starts_as e = Some s) w) as H' by (apply (owned_used u); [by left|done]).
    destruct e as [srv name start sh opt|srv m|srv p|srv p|srv|srv|name k|name k]; cbn [rstep starts_as] in *; [| |..].
    - cbn in Ho. subst opt. unfold start_registry. cbn [default new_reg g_name]. destruct (t_names w !! name) as [q|] eqn:En; cbn [fst].
      + apply owned_log, owned_drop_tables, H'.
      + assert (forall s g, t_regs w !! s = Some g -> s <> srv) as Hne. { intros s g Hs ->. apply Hf. exact (ow_used _ _ H _ _ Hs). }
        destruct H as [A B C D E F]. split.
        * intros s g. cbn. intros [[<- _]|[_ Hs]]%lookup_insert_Some; eauto.
        * intros s g. cbn. intros [[<- <-]|[Hn Hs]]%lookup_insert_Some; cbn; [by rewrite lookup_insert|].
          rewrite lookup_insert_ne; [eauto|]. intros Hx. specialize (B s g Hs). congruence.
        * intros n k p Hs. destruct (C n k p Hs) as (s & g & Hs' & Hg). exists s, g. split; [|done]. cbn. rewrite lookup_insert_ne; [done|]. intros ->. by apply (Hne s g).
        * intros s g p k. cbn. intros [[<- <-]|[Hn Hs]]%lookup_insert_Some; cbn; [by rewrite lookup_empty|]. exact (D s g p k Hs).
        * exact E.
        * intros s g s' g' p k k'. cbn. intros [[<- <-]|[Hn Hs]]%lookup_insert_Some; cbn; [by rewrite lookup_empty|]. intros Hl [[<- <-]|[Hn' Hs']]%lookup_insert_Some; cbn; [by rewrite lookup_empty|].
          intros Hl'. exact (F _ _ _ _ _ _ _ Hs Hl Hs' Hl').
    - destruct (t_regs w !! srv) as [g|] eqn:Eg; [|done]. destruct m as [k|k|k|k| | |k]; cbn [handle_rcall fst]; try done.
      + rewrite entry_lookup_or_start. by apply owned_start.
      + by apply owned_start.
      + unfold stop_by_key. rewrite (entry_lookup w (g_name g) k). destruct (entry w (g_name g) k) as [p|] eqn:Ek; [|done]. cbn [fst].
        exact (owned_remove _ w srv (g_name g) k p [GUnlinks p; GExits p (RCustom "shutdown")] H' Ek).
      + unfold remove_by_key. rewrite (entry_lookup w (g_name g) k). destruct (entry w (g_name g) k) as [p|] eqn:Ek; [|done]. cbn [fst].
        exact (owned_remove _ w srv (g_name g) k p [GUnlinks p] H' Ek).
    - destruct (t_regs w !! srv) as [g|] eqn:Eg; [|done]. destruct (decide ((srv, p) ∈ t_casts w)) as [Hin|]; [|done].
      unfold handle_rcast. apply owned_delete.
      + apply owned_log. destruct H' as [A B C D E F]. split; try done. intros s q Hs. apply (E s q). by apply (take_one_sub (srv, p)).
      + exact (proj2 (ow_cast _ _ H' _ _ Hin)).
    - destruct (t_regs w !! srv) as [g|] eqn:Eg; [|done]. unfold handle_rexit. destruct (g_lookup g !! p) as [k|] eqn:El; [|done].
      change (owned (fun s => u s \/ None = Some s) (set_lookup srv (delete p) (with_tables (alter (fun t => if decide (t !! k = Some p) then delete k t else t) (g_name g)) w))).
      apply owned_delete.
      + apply (owned_less _ w); try done. intros n k' q. rewrite entry_remove_if. by destruct (decide _).
      + intros n k'. rewrite entry_remove_if. destruct (decide _) as [|Hx]; [done|]. intros He. apply Hx.
        destruct (ow_entry _ _ H n k' p He) as (s & g' & Hs & Hn & Hl). pose proof (ow_one _ _ H _ _ _ _ _ _ _ Hs Hl Eg El) as ->.
        rewrite Eg in Hs. injection Hs as ->. rewrite El in Hl. injection Hl as ->. by subst.
    - by apply owned_gone, owned_terminate.
    - by apply owned_gone.
    - done.
    - rewrite (entry_lookup w name k). destruct (entry w name k) as [p|] eqn:Ek; [|done].
      assert (owned (fun s => u s \/ None = Some s) (remove_process name k w)) as [A B C D E F].
      { apply (owned_less _ w); try done. intros n k' q. rewrite entry_remove. by destruct (decide _). }
      split; try done. intros s q Hin. destruct (t_names (remove_process name k w) !! name) as [srv|] eqn:En.
      + cbn in Hin. cbn in En. rewrite En in Hin. apply elem_of_app in Hin as [Hin|Hin%elem_of_list_singleton]; [exact (E s q Hin)|]. injection Hin as -> ->.
        destruct (ow_entry _ _ H _ _ _ Ek) as (s & g & Hs & Hn & Hl). split; [exact (ow_issued _ _ H _ _ _ _ Hs Hl)|].
        intros n k'. change (entry (remove_process name k w) n k' <> Some p). rewrite entry_remove. destruct (decide _) as [|Hx]; [done|]. intros He.
        destruct (owned_key _ _ _ _ _ _ _ H Ek He). by subst.
      + cbn in Hin. cbn in En. rewrite En in Hin. exact (E s q Hin).
  Qed.
  Theorem owned_always es : proper_history es -> owned (fun s => s ∈ omap starts_as es) (rplays answers rworld0 es).
  Proof.
    intros [Hnd Ho]. induction es as [|e es IH] using rev_ind; [apply owned0|].
    unfold rplays. rewrite fold_left_app. cbn [fold_left]. rewrite omap_app in *. apply Forall_app in Ho as [Ho1 Ho2]. apply Forall_inv in Ho2. apply NoDup_app in Hnd as (Hnd1 & Hnd2 & Hnd3).
    eapply owned_used; [|apply (owned_step (fun s => s ∈ omap starts_as es)); [by apply IH|exact Ho2|]].
    - intros x. cbn beta. rewrite elem_of_app. intros [|Hx]; [by left|right]. cbn. rewrite Hx. by left.
    - destruct (starts_as e) as [s|] eqn:Es; [|done]. intros Hs. apply (Hnd2 s Hs). cbn. rewrite Es. by left.
  Qed.
End inv.
