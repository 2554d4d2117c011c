(** Every interleaving of hash ring calls (C06). *)
From stdpp Require Import base list gmap numbers sorting.
From Coq Require Import Lia ZifyNat ZifyN.
From Verif Require Import Prog ProgProofs HashRing HashRingSpec HashRingProofs.

Section conc.
  Context {K V : Type} (hash : K -> N).
  Notation rw := (rworld K V).
  Notation sorted l := (StronglySorted N.lt (map fst l)).
  Implicit Types (o : ring_op K V) (w : rw) (res : option V) (ov : gmap N V).

  Notation node_op := node_call.

  Definition winv ov w : Prop :=
    sorted (rw_ring w) /\ rw_over w = ov /\
    serial hash ov ∅ (rw_log w) /\
    tbl (rw_ring w) = fold_left (table_step hash) (rw_log w).*1 ∅.

  (** What a thread may assume and must guarantee; [h = Some l]: it holds the lock and
      the ring is [l]; [lg = Some r]: it took effect with result [r]. *)
  Definition holds (h : option (list (N * V))) w : Prop :=
    match h with Some l => rw_locked w = true /\ rw_ring w = l | None => True end.

  Fixpoint tsafe ov o (h : option (list (N * V))) (lg : option (option V))
      (p : prog rw (option V)) : Prop :=
    match p with
    | Ret r => h = None /\ lg = Some r
    | Panic _ => False
    | Atom g f k => forall w, winv ov w -> holds h w ->
        (is_Some h \/ rw_locked w = false -> g w = true) /\
        (g w = true -> winv ov (f w) /\
        exists h' lg',
          holds h' (f w) /\
          (h = None -> rw_ring (f w) = rw_ring w) /\
          match h, h' with
          | None, None => rw_locked (f w) = rw_locked w
          | None, Some _ => rw_locked w = false
          | Some _, None => rw_locked (f w) = false
          | Some _, Some _ => True
          end /\
          match lg, lg' with
          | None, None => rw_log (f w) = rw_log w
          | None, Some r => rw_log (f w) = rw_log w ++ [(o, r)]
          | Some r, Some r' => r = r' /\ rw_log (f w) = rw_log w
          | Some _, None => False
          end /\ tsafe ov o h' lg' (k w))
    end.

  Lemma tsafe_release ov o l r : tsafe ov o (Some l) (Some r) (do! rw_release in Ret r).
  Proof.
    cbn. intros w (Hs & Ho & Hser & Ht) [Hl Hr]. split; [auto|]. intros _. split; [repeat split; assumption|].
    exists None, (Some r). cbn. repeat split; auto.
  Qed.

  Lemma winv_store ov w o l res b :
    winv ov w -> sorted l ->
    tbl l = table_step hash (tbl (rw_ring w)) o ->
    serial hash ov (tbl (rw_ring w)) [(o, res)] ->
    winv ov (RW l (rw_over w) b (rw_log w ++ [(o, res)])).
  Proof.
    intros (Hs & Ho & Hser & Ht) Hl Htl Hres. repeat split; cbn; auto.
    - apply serial_app. rewrite <- Ht. auto.
    - rewrite fmap_app, fold_left_app. cbn. rewrite <- Ht. exact Htl.
  Qed.

  Lemma tsafe_store ov o l l' res :
    sorted l ->
    (sorted l' /\ tbl l' = table_step hash (tbl l) o) ->
    serial hash ov (tbl l) [(o, res)] ->
    tsafe ov o (Some l) None (do! rw_store l' o res in do! rw_release in Ret res).
  Proof.
    intros Hs [Hs' Ht'] Hres. cbn -[winv serial]. intros w Hw [Hl Hr]. split; [auto|]. intros _. split.
    - apply winv_store; auto; rewrite Hr; auto.
    - exists (Some l'), (Some res). cbn. split; [auto|]. split; [discriminate|].
      split; [exact I|]. split; [reflexivity|]. exact (tsafe_release ov o l' res).
  Qed.

  Lemma tsafe_acquire ov o (p : prog rw (option V)) :
    (forall l, sorted l -> tsafe ov o (Some l) None p) ->
    tsafe ov o None None (do! rw_acquire in p).
  Proof.
    intros Hp. cbn. intros w Hw _. split.
    { intros [[? ?]|Hf]; [discriminate|rewrite Hf; reflexivity]. }
    intros Hg. split.
    - destruct Hw as (Hs & Ho & Hser & Ht). repeat split; assumption.
    - exists (Some (rw_ring w)), None. cbn. repeat split; auto.
      + destruct (rw_locked w); [discriminate|reflexivity].
      + apply Hp. apply Hw.
  Qed.

  Lemma tsafe_load ov o l (q : list (N * V) -> prog rw (option V)) :
    tsafe ov o (Some l) None (q l) ->
    tsafe ov o (Some l) None (let! x := rw_load in q x).
  Proof.
    intros Hq. cbn. intros w Hw [Hl Hr]. split; [auto|]. intros _. split; [exact Hw|].
    exists (Some l), None. cbn. rewrite Hr. repeat split; auto.
  Qed.

  Lemma tsafe_prog ov o : node_op o = true -> tsafe ov o None None (ring_prog hash o).
  Proof.
    destruct o as [k v|k|kvs|kvs|k|k v|kvs|kvs|k|]; cbn [node_call]; intros Ho; try discriminate;
      unfold ring_prog.
    - (* add_node *)
      apply tsafe_acquire. intros l Hs. apply tsafe_load.
      destruct (vec_put_spec l (hash k) v Hs) as (H1 & H2 & H3).
      destruct (vec_put l (hash k) v) as [l' old]. cbn in H1, H2, H3.
      apply tsafe_store; cbn; auto.
    - (* remove_node *)
      apply tsafe_acquire. intros l Hs.
      destruct (vec_del_spec l (hash k) Hs) as (H1 & H2 & H3 & H4).
      unfold vec_del in *.
      destruct (binary_search (map fst l) (hash k)) as [i|i] eqn:Eb.
      + cbn -[winv serial take drop]. intros w Hw [Hl Hr]. rewrite Hr, Eb. split; [auto|]. intros _.
        split; [exact Hw|]. exists (Some l), None. cbn [holds].
        do 4 (split; [auto|]).
        exact (tsafe_store ov (RemoveNode k) l _ (snd <$> l !! i) Hs (conj H1 H2) (conj H3 I)).
      + cbn -[winv serial]. intros w Hw [Hl Hr]. rewrite Hr, Eb. split; [auto|]. intros _. destruct (H4 eq_refl) as [_ Hn]. split.
        * apply winv_store; auto; try rewrite Hr; auto; cbn; try rewrite H2; auto.
        * exists (Some l), (Some None). cbn [holds]. do 4 (split; [auto|]).
          exact (tsafe_release ov _ l None).
    - (* add_nodes *)
      apply tsafe_acquire. intros l Hs. apply tsafe_load.
      apply tsafe_store; cbn; auto. apply vec_put_all_spec, Hs.
    - (* set_nodes *)
      apply tsafe_acquire. intros l Hs.
      apply tsafe_store; cbn; auto. apply (vec_put_all_spec hash []). constructor.
    - (* find_node *)
      cbn -[winv serial]. intros w Hw _. split; [auto|]. intros _.
      destruct Hw as (Hs & Hov & Hser & Ht). rewrite Hov.
      destruct (ov !! hash k) as [v|] eqn:E.
      + split.
        * apply winv_store; [repeat split; auto|exact Hs|reflexivity|]. cbn. rewrite E. auto.
        * exists None, (Some (Some v)). cbn. auto 10.
      + split; [repeat split; auto|]. exists None, None. cbn -[winv serial].
        split; [exact I|]. split; [auto|]. split; [reflexivity|]. split; [reflexivity|].
        intros w2 Hw2 _. split; [auto|]. intros _. split.
        * apply winv_store; auto. { apply Hw2. } cbn. rewrite E. split; [|exact I].
          apply vec_find_spec, Hw2.
        * exists None, (Some (vec_find (rw_ring w2) (hash k))). cbn. auto 10.
    - (* clear *)
      apply tsafe_acquire. intros l Hs. apply tsafe_store; cbn; auto. split; [constructor|reflexivity].
  Qed.

  Definition logged (ops : list (ring_op K V)) (lgs : list (option (option V))) :=
    omap (fun '(o, lg) => pair o <$> lg) (zip ops lgs).

  Lemma logged_insert ops lgs i o r :
    ops !! i = Some o -> lgs !! i = Some None ->
    logged ops (<[i := Some r]> lgs) ≡ₚ logged ops lgs ++ [(o, r)].
  Proof.
    revert lgs i; induction ops as [|o' ops IH]; intros lgs i Ho Hl; [discriminate|].
    destruct lgs as [|lg lgs]; [discriminate|]. destruct i as [|i]; cbn in *.
    - injection Ho as ->. injection Hl as ->. unfold logged. cbn.
      apply Permutation_cons_append.
    - unfold logged in *. cbn. destruct (pair o' <$> lg); [|apply IH; auto].
      rewrite (IH lgs i Ho Hl). reflexivity.
  Qed.

  Definition sinv ov (ops : list (ring_op K V)) (s : sys rw (option V)) : Prop :=
    exists (hs : list (option (list (N * V)))) (lgs : list (option (option V))),
      length hs = length ops /\ length lgs = length ops /\ length (s_threads s) = length ops /\
      winv ov (s_world s) /\
      (forall i o p h lg, ops !! i = Some o -> s_threads s !! i = Some p ->
         hs !! i = Some h -> lgs !! i = Some lg ->
         tsafe ov o h lg p /\ holds h (s_world s)) /\
      (forall i j l l', hs !! i = Some (Some l) -> hs !! j = Some (Some l') -> i = j) /\
      (rw_locked (s_world s) = true -> exists i l, hs !! i = Some (Some l)) /\
      rw_log (s_world s) ≡ₚ logged ops lgs.

  Lemma sinv_tick ov ops i s s' : sinv ov ops s -> tick i s = Some s' -> sinv ov ops s'.
  Proof.
    intros (hs & lgs & Lh & Ll & Lt & Hw & Hth & Huniq & Hheld & Hlog) Hi.
    unfold tick in Hi. destruct (s_threads s !! i) as [[| |g f k]|] eqn:E; try discriminate.
    destruct (g (s_world s)) eqn:G; inversion Hi; subst; clear Hi.
    pose proof (lookup_lt_Some _ _ _ E) as Hlt.
    destruct (lookup_lt_is_Some_2 ops i ltac:(lia)) as [o Eo].
    destruct (lookup_lt_is_Some_2 hs i ltac:(lia)) as [h Eh].
    destruct (lookup_lt_is_Some_2 lgs i ltac:(lia)) as [lg El].
    destruct (Hth i o _ h lg Eo E Eh El) as [Hs Hh].
    cbn [tsafe] in Hs. destruct (proj2 (Hs _ Hw Hh) G) as (Hw' & h' & lg' & Hh' & Hring & Hlock & Hlg & Hk).
    set (w := s_world s) in *.
    exists (<[i := h']> hs), (<[i := lg']> lgs). cbn [s_threads s_world].
    rewrite !insert_length. repeat (split; [assumption|]). split; [|split; [|split]].
    - intros j oj pj hj lgj Ej1 Ej2 Ej3 Ej4.
      destruct (decide (i = j)) as [<-|Hne].
      + rewrite list_lookup_insert in Ej2 by lia. rewrite list_lookup_insert in Ej3 by lia.
        rewrite list_lookup_insert in Ej4 by lia. rewrite Eo in Ej1.
        simplify_eq. auto.
      + rewrite list_lookup_insert_ne in Ej2 by exact Hne. rewrite list_lookup_insert_ne in Ej3 by exact Hne.
        rewrite list_lookup_insert_ne in Ej4 by exact Hne.
        destruct (Hth j oj pj hj lgj Ej1 Ej2 Ej3 Ej4) as [H1 H2]. split; [exact H1|].
        destruct hj as [lj|]; [|exact I]. cbn in H2 |- *.
        destruct h as [l|].
        * exfalso. apply Hne. eapply Huniq; eauto.
        * rewrite (Hring eq_refl). destruct h' as [l'|].
          -- destruct H2. congruence.
          -- rewrite Hlock. exact H2.
    - intros a b la lb Ha Hb. destruct (decide (a = b)) as [|Hne]; [assumption|exfalso].
      assert (Hcase : forall c lc, hs !! c = Some (Some lc) -> c <> i -> is_Some h' -> False).
      { intros c lc Hc Hci [l' ->]. destruct h as [l|].
        - apply Hci. eapply Huniq; eauto.
        - pose proof (lookup_lt_Some _ _ _ Hc) as Hlc.
          destruct (lookup_lt_is_Some_2 ops c ltac:(lia)) as [oc Ec].
          destruct (lookup_lt_is_Some_2 (s_threads s) c ltac:(lia)) as [pc Epc].
          destruct (lookup_lt_is_Some_2 lgs c ltac:(lia)) as [lgc Elc].
          destruct (Hth c oc pc _ lgc Ec Epc Hc Elc) as [_ [Hc1 _]]. congruence. }
      destruct (decide (a = i)) as [->|Ha'], (decide (b = i)) as [->|Hb'].
      + congruence.
      + rewrite list_lookup_insert in Ha by lia. rewrite list_lookup_insert_ne in Hb by congruence.
        injection Ha as ->. eapply Hcase; eauto.
      + rewrite list_lookup_insert in Hb by lia. rewrite list_lookup_insert_ne in Ha by congruence.
        injection Hb as ->. eapply Hcase; eauto.
      + rewrite list_lookup_insert_ne in Ha by congruence. rewrite list_lookup_insert_ne in Hb by congruence. apply Hne. eapply Huniq; eauto.
    - intros Hl'. destruct h' as [l'|].
      { exists i, l'. apply list_lookup_insert. lia. }
      destruct h as [l|]; [congruence|]. rewrite Hlock in Hl'.
      destruct (Hheld Hl') as (j & lj & Hj). exists j, lj.
      rewrite list_lookup_insert_ne; [exact Hj|]. intros <-. congruence.
    - destruct lg as [r|], lg' as [r'|].
      + destruct Hlg as [<- ->]. rewrite list_insert_id by exact El. exact Hlog.
      + contradiction.
      + rewrite Hlg, Hlog. symmetry. apply logged_insert; assumption.
      + rewrite Hlg, list_insert_id by exact El. exact Hlog.
  Qed.

  Definition ring_sys ov (ops : list (ring_op K V)) : sys rw (option V) :=
    Sys (RW [] ov false []) (map (ring_prog hash) ops).

  Lemma sinv_init ov ops : Forall (fun o => node_op o = true) ops -> sinv ov ops (ring_sys ov ops).
  Proof.
    intros Hops. exists (replicate (length ops) None), (replicate (length ops) None).
    rewrite !replicate_length. cbn. rewrite map_length. repeat (split; [reflexivity|]).
    split; [|split; [|split; [|split]]].
    - repeat split; cbn; auto. constructor.
    - intros i o p h lg Ho Hp Hh Hl. apply lookup_replicate in Hh as [-> _].
      apply lookup_replicate in Hl as [-> _]. split; [|exact I].
      change (map (ring_prog hash) ops) with (ring_prog hash <$> ops) in Hp.
      rewrite list_lookup_fmap, Ho in Hp. cbn in Hp. injection Hp as <-.
      apply tsafe_prog. eapply Forall_lookup_1 in Hops; eauto.
    - intros i j l l' Hi. apply lookup_replicate in Hi as [? _]. discriminate.
    - discriminate.
    - induction ops as [|o ops IH]; [constructor|]. inversion Hops; subst. unfold logged in *. cbn. auto.
  Qed.

  Lemma reach_sinv ov ops s :
    Forall (fun o => node_op o = true) ops ->
    reach (fun _ => False) (ring_sys ov ops) s -> sinv ov ops s.
  Proof.
    intros Hops Hr. unfold reach in Hr. pose proof (sinv_init ov ops Hops) as H0.
    remember (ring_sys ov ops) as s0. clear Heqs0.
    induction Hr as [s|s1 s2 s3 Hst _ IH]; [exact H0|]. apply IH.
    destruct Hst as [i s s' Hi|p s []]. eapply sinv_tick; eauto.
  Qed.

  Lemma logged_full ops rs lgs :
    length lgs = length ops -> length rs = length ops ->
    (forall i r, rs !! i = Some r -> lgs !! i = Some (Some r)) ->
    logged ops lgs = zip ops rs.
  Proof.
    revert rs lgs; induction ops as [|o ops IH]; intros rs lgs L1 L2 H; [reflexivity|].
    destruct rs as [|r rs]; [discriminate|]. destruct lgs as [|lg lgs]; [discriminate|].
    pose proof (H 0%nat r eq_refl) as H0. injection H0 as ->. unfold logged. cbn. f_equal.
    apply IH; [cbn in *; lia..|]. intros i r' Hr. apply (H (S i) r' Hr).
  Qed.

  (** Linearisability. *)
  Lemma ring_linearizable ov ops s rs :
    Forall (fun o => node_op o = true) ops ->
    reach (fun _ => False) (ring_sys ov ops) s -> results s rs ->
    exists order, order ≡ₚ zip ops rs /\ serial hash ov ∅ order /\
      tbl (rw_ring (s_world s)) = fold_left (table_step hash) order.*1 ∅.
  Proof.
    intros Hops Hr Hres. destruct (reach_sinv _ _ _ Hops Hr) as (hs & lgs & Lh & Ll & Lt & Hw & Hth & _ & _ & Hlog).
    unfold results in Hres. exists (rw_log (s_world s)).
    destruct Hw as (_ & _ & Hser & Ht). split; [|split; assumption].
    rewrite Hlog. erewrite logged_full; [reflexivity|exact Ll| |].
    - rewrite Hres, map_length in Lt. exact Lt.
    - intros i r Hi. assert (Hi' : s_threads s !! i = Some (Ret r)).
      { rewrite Hres. change (map Ret rs) with (@Ret rw _ <$> rs). rewrite list_lookup_fmap, Hi. reflexivity. }
      pose proof (lookup_lt_Some _ _ _ Hi') as Hlt.
      destruct (lookup_lt_is_Some_2 ops i ltac:(lia)) as [o Eo].
      destruct (lookup_lt_is_Some_2 hs i ltac:(lia)) as [h Eh].
      destruct (lookup_lt_is_Some_2 lgs i ltac:(lia)) as [lg El].
      destruct (Hth _ _ _ _ _ Eo Hi' Eh El) as [[_ ->] _]. exact El.
  Qed.

  (** No deadlock: an unfinished system can always make a step. *)
  Lemma ring_progress ov ops s :
    Forall (fun o => node_op o = true) ops ->
    reach (fun _ => False) (ring_sys ov ops) s ->
    (exists rs, results s rs) \/ (exists i s', tick i s = Some s').
  Proof.
    intros Hops Hr. destruct (reach_sinv _ _ _ Hops Hr) as (hs & lgs & Lh & Ll & Lt & Hw & Hth & _ & Hheld & _).
    assert (Hget : forall i p, s_threads s !! i = Some p -> exists o h lg,
      ops !! i = Some o /\ hs !! i = Some h /\ lgs !! i = Some lg /\ tsafe ov o h lg p /\ holds h (s_world s)).
    { intros i p Hp. pose proof (lookup_lt_Some _ _ _ Hp) as Hlt.
      destruct (lookup_lt_is_Some_2 ops i ltac:(lia)) as [o Eo].
      destruct (lookup_lt_is_Some_2 hs i ltac:(lia)) as [h Eh].
      destruct (lookup_lt_is_Some_2 lgs i ltac:(lia)) as [lg El].
      destruct (Hth _ _ _ _ _ Eo Hp Eh El). exists o, h, lg. auto. }
    assert (Hgo : forall i g f k h lg o, s_threads s !! i = Some (Atom g f k) ->
       tsafe ov o h lg (Atom g f k) -> holds h (s_world s) -> is_Some h \/ rw_locked (s_world s) = false ->
       exists i s', tick i s = Some s').
    { intros i g f k h lg o Hi Hs Hh Hc. destruct (Hs _ Hw Hh) as [Hg _]. specialize (Hg Hc).
      exists i. unfold tick. rewrite Hi, Hg. eauto. }
    destruct (rw_locked (s_world s)) eqn:EL.
    - right. destruct (Hheld eq_refl) as (i & l & Hi).
      destruct (lookup_lt_is_Some_2 (s_threads s) i) as [p Ep].
      { apply lookup_lt_Some in Hi. lia. }
      destruct (Hget i p Ep) as (o & h & lg & Eo & Eh & El & Hs & Hh).
      rewrite Hi in Eh. injection Eh as <-.
      destruct p as [r|m|g f k]; [destruct Hs; discriminate|contradiction|].
      eapply Hgo; eauto.
    - clear Hheld. assert (Hdec : (exists i g f k, s_threads s !! i = Some (Atom g f k)) \/
        Forall (fun p => match p with Atom _ _ _ => False | _ => True end) (s_threads s)).
      { clear. induction (s_threads s) as [|p ts IH]; [right; constructor|].
        destruct p as [r|m|g f k]; [| |left; exists 0%nat, g, f, k; reflexivity];
          (destruct IH as [(i & g & f & k & Hi)|IH]; [left; exists (S i), g, f, k; exact Hi|right; constructor; auto]). }
      destruct Hdec as [(i & g & f & k & Hi)|Hall].
      + right. destruct (Hget i _ Hi) as (o & h & lg & Eo & Eh & El & Hs & Hh). eapply Hgo; eauto.
      + left. assert (Hret : forall i p, s_threads s !! i = Some p -> exists r, p = Ret r).
        { intros i p Hp. destruct (Hget i p Hp) as (o & h & lg & _ & _ & _ & Hs & _).
          eapply Forall_lookup_1 in Hall; [|exact Hp]. destruct p; [eauto|contradiction..]. }
        clear -Hret. unfold results. induction (s_threads s) as [|p ts IH]; [exists []; reflexivity|].
        destruct (Hret 0%nat p eq_refl) as [r ->].
        destruct IH as [rs ->]; [intros i q Hq; apply (Hret (S i) q Hq)|]. exists (r :: rs). reflexivity.
  Qed.
End conc.
