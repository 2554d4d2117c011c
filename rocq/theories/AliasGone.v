(** C24 in every schedule: an alias that is gone never comes back. *)
From stdpp Require Import base list gmap numbers strings countable sorting relations.
From Coq Require Import Lia.
From Verif Require Import Prog ProgProofs ProgInv Types Mailbox World ProcApi NodeApi Api Steps Hist Labels SchedSpec SchedProps ClientAlias KeepSpec KeepProofs KeepProps.

Section gone.
  Context (S : serde) (k me : N) (b : bool) (n : nat).
  Notation r0 := (RLocal k).
  Notation stA := (stA S me b).
  Notation stB := (stB me b).
  Notation stC := (stC me b).
  Inductive stage (s : sys world val) : Prop :=
  | stage_before : s_threads s !! n = Some stA -> stage s
  | stage_other r p : s_threads s !! n = Some p -> p = stB r \/ p = stC r \/ p = stD r -> r <> r0 -> stage s
  | stage_mine : (k < w_next_ref (s_world s))%N -> (forall i p, i <> n -> s_threads s !! i = Some p -> nc k p) ->
      s_threads s !! n = Some (stB r0) \/ s_threads s !! n = Some (stC r0) \/ s_threads s !! n = Some (stD r0) -> stage s.
  Lemma step_stage s s' : sys_step (any_call S) s s' -> reachable S s -> stage s -> stage s'.
  Proof.
    intros Hs Hr Hp. pose proof (reachable_nc S k s Hr) as Hu. destruct Hs as [i s s' Hi|p s (c & ->)].
    - apply tick_some in Hi as (g & f & kk & E & Hg & ->). destruct (decide (i = n)) as [->|Hin].
      + destruct Hp as [Hn|r p Hn Hq Hne|Hk Ho Hn].
        * rewrite Hn in E. injection E as <- <- <-. cbn [s_world s_threads] in *.
          destruct (decide (w_next_ref (s_world s) = k)) as [Ek|Ek].
          -- apply stage_mine; cbn [s_world s_threads].
             ++ cbn. lia.
             ++ intros j p Hj. rewrite list_lookup_insert_ne by congruence. intros E. exact (Forall_lookup_1 _ _ _ _ (Hu ltac:(lia)) E).
             ++ left. rewrite (insert_at n _ _ _ Hn), <- Ek. reflexivity.
          -- apply (stage_other _ (RLocal (w_next_ref (s_world s))) (stB (RLocal (w_next_ref (s_world s))))); cbn [s_world s_threads].
             ++ rewrite (insert_at n _ _ _ Hn). reflexivity.
             ++ by left.
             ++ congruence.
        * rewrite Hn in E. injection E as ->. destruct Hq as [E|[E|E]]; [| |discriminate]; injection E as -> -> ->.
          -- apply (stage_other _ r (stC r)); [cbn [s_world s_threads]; rewrite (insert_at n _ _ _ Hn); reflexivity|by right; left|exact Hne].
          -- apply (stage_other _ r (stD r)); [cbn [s_world s_threads]; rewrite (insert_at n _ _ _ Hn); reflexivity|by right; right|exact Hne].
        * destruct Hn as [Hn|[Hn|Hn]]; rewrite Hn in E; [| |discriminate]; injection E as <- <- <-; apply stage_mine; cbn [s_world s_threads].
          -- exact Hk.
          -- intros j p Hj. rewrite list_lookup_insert_ne by congruence. eauto.
          -- right; left. rewrite (insert_at n _ _ _ Hn). reflexivity.
          -- exact Hk.
          -- intros j p Hj. rewrite list_lookup_insert_ne by congruence. eauto.
          -- right; right. rewrite (insert_at n _ _ _ Hn). reflexivity.
      + destruct Hp as [Hn|r p Hn Hq Hne|Hk Ho Hn].
        * apply stage_before. cbn. by apply insert_n.
        * apply (stage_other _ r p); [cbn; by apply insert_n|exact Hq|exact Hne].
        * destruct (Ho i _ Hin E _ Hg) as (A1 & _ & A3). apply stage_mine; cbn.
          -- lia.
          -- intros j p Hj Ej. apply list_lookup_insert_Some in Ej as [(-> & <- & _)|[_ Ej]]; [|by eapply Ho]. apply A3. left. lia.
          -- destruct Hn as [Hn|[Hn|Hn]]; [left|right; left|right; right]; by apply insert_n.
    - assert (forall p, s_threads s !! n = Some p -> (s_threads s ++ [call_prog S c]) !! n = Some p) as Happ.
      { intros p Hn. apply lookup_app_l_Some. exact Hn. }
      destruct Hp as [Hn|r p Hn Hq Hne|Hk Ho Hn].
      + apply stage_before. cbn. by apply Happ.
      + apply (stage_other _ r p); [cbn; by apply Happ|exact Hq|exact Hne].
      + apply stage_mine; cbn; auto.
        * intros j p Hj Ej. apply lookup_app_Some in Ej as [Ej|[_ Ej]]; [by eapply Ho|].
          apply list_lookup_singleton_Some in Ej as [_ <-]. by apply nc_call.
        * destruct Hn as [Hn|[Hn|Hn]]; auto.
  Qed.
End gone.

(** Once the call of [Process::alias] that made it has returned, an alias that is inactive stays so for ever, whatever
    calls go on or begin. *)
Theorem C24_gone_for_good :
  forall S k me b s0 s s',
    reachable S s0 ->
    reach (any_call S) (Sys (s_world s0) (s_threads s0 ++ [call_prog S (CAlias me b)])) s ->
    s_threads s !! length (s_threads s0) = Some (Ret (VRef (RLocal k))) ->
    w_aliases (s_world s) !! k = None ->
    reach (any_call S) s s' ->
    w_aliases (s_world s') !! k = None /\
    (exists w', run (unalias me (RLocal k)) (s_world s') = Done w' false) /\
    forall v, run (send S (DsOne (DAlias (RLocal k))) v) (s_world s') = Done (s_world s') tt.
Proof.
  intros S k me b s0 s s' H0 H1 Hn Ha H2. set (n := length (s_threads s0)) in *.
  assert (w_aliases (s_world s') !! k = None) as Ha'.
  { assert (stage S k me b n s) as Hs.
    { assert (reachable S (Sys (s_world s0) (s_threads s0 ++ [call_prog S (CAlias me b)]))) as Hr.
      { eapply rtc_r; [exact H0|]. apply step_call. by exists (CAlias me b). }
      assert (stage S k me b n (Sys (s_world s0) (s_threads s0 ++ [call_prog S (CAlias me b)]))) as Hp.
      { apply stage_before. cbn. unfold n. by rewrite lookup_app_r, Nat.sub_diag by lia. }
      clear Hn Ha H2. induction H1 as [|x y z Hxy _ IH]; [exact Hp|]. apply IH; [by eapply rtc_r|by eapply step_stage]. }
    assert ((k < w_next_ref (s_world s))%N /\ Forall (nc k) (s_threads s)) as [Hk Hf].
    { destruct Hs as [Hm|r p Hm Hq Hne|Hk Ho Hm].
      - rewrite Hn in Hm. discriminate.
      - rewrite Hn in Hm. injection Hm as <-. destruct Hq as [Hq|[Hq|Hq]]; try discriminate. injection Hq as <-. by destruct Hne.
      - split; [exact Hk|]. apply Forall_lookup_2. intros i p E. destruct (decide (i = n)) as [->|Hi]; [|by eapply Ho].
        rewrite Hn in E. injection E as <-. exact I. }
    clear -Hk Hf Ha H2. induction H2 as [|x y z Hxy _ IH]; [exact Ha|].
    destruct (step_nc k _ _ _ Hxy) as (A1 & A2 & A3); [intros p (c & ->); apply nc_call|exact Hf|]. apply IH; [by apply A3|lia|]. apply A2. by left. }
  split; [exact Ha'|]. split.
  - destruct (C24_unalias me (RLocal k) (s_world s')) as (w' & E & _). exists w'. rewrite E. cbn [ref_id]. rewrite Ha'. reflexivity.
  - intros v. destruct (C24_send_to_alias S k v (s_world s')) as (w' & E & H). rewrite Ha' in H. rewrite E. f_equal. exact H.
Qed.
Print Assumptions C24_gone_for_good.

(** non-vacuity: process 1 makes an alias and gives it up while process 2 makes one of its own, sends to the first and
    monitors process 1 with a third; the first stays gone. *)
Example C24_gone_example :
  exists s0 s,
    reachable S0 s0 /\
    reach (any_call S0) (Sys (s_world s0) (s_threads s0 ++ [call_prog S0 (CAlias 1 true)])) s /\
    s_threads s !! length (s_threads s0) = Some (Ret (VRef (RLocal 1))) /\ s_threads s !! 3 = Some (Ret (VBool true)) /\
    w_aliases (s_world s) !! 1%N = None /\
    exists s', reach (any_call S0) s s' /\ w_aliases (s_world s') !! 2%N = Some (2%N, true) /\ w_aliases (s_world s') !! 3%N = Some (2%N, false).
Proof.
  destruct (keep_example S0 (fun _ => True) [CSpawn 0 false false; CSpawn 0 false false] [0; 0; 0; 1; 1; 1] 1 true
    [CUnalias 1 (RLocal 1); CAlias 2 true; CMonitorAlias 2 (DPid (PLocal 1)) false] [2; 4; 2; 4; 2; 3; 3]
    (fun s0 s => s_threads s !! length (s_threads s0) = Some (Ret (VRef (RLocal 1))) /\ s_threads s !! 3 = Some (Ret (VBool true)) /\
      w_aliases (s_world s) !! 1%N = None /\
      match exec [4; 5; 5; 5; 5; 5] s with
      | Some s' => w_aliases (s_world s') !! 2%N = Some (2%N, true) /\ w_aliases (s_world s') !! 3%N = Some (2%N, false)
      | None => False end)) as (s0 & s & H1 & H2 & H3 & H4 & H5 & H6).
  - by repeat constructor.
  - by repeat constructor.
  - vm_compute. auto 10.
  - assert (forall x y, reach (calls_of S0 (fun _ => True)) x y -> reach (any_call S0) x y) as Hany.
    { intros x y. induction 1 as [|x y z Hxy _ IH]; [apply rtc_refl|]. eapply rtc_l; [|exact IH].
      destruct Hxy as [i x y Hi|p x (c & _ & ->)]; [by eapply step_tick|apply step_call; by exists c]. }
    exists s0, s. split; [by apply Hany|]. split; [by apply Hany|]. split; [exact H3|]. split; [exact H4|]. split; [exact H5|].
    destruct (exec [4; 5; 5; 5; 5; 5] s) as [s'|] eqn:E; [|done]. exists s'. split; [by eapply exec_reach|exact H6].
Qed.
