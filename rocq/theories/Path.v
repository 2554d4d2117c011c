(** Statements about a whole run: what was true at which moment of it.  A proof method for programs whose
    knowledge refers to earlier moments of the run. *)
From stdpp Require Import base list strings relations numbers.
From Coq Require Import Lia.
From Verif Require Import Prog ProgProofs ProgInv.

Section path.
  Context {W R : Type} (api : prog W R -> Prop).
  (** The states a run passes through, from [s0] on, one step apart. *)
  Definition run_of (s0 : sys W R) (ss : list (sys W R)) : Prop :=
    ss !! 0 = Some s0 /\
    forall n s s', ss !! n = Some s -> ss !! (Datatypes.S n) = Some s' -> sys_step api s s'.
  (** Every reachable state is passed through by a run. *)
  Lemma reach_run s0 s : reach api s0 s -> exists ss, run_of s0 ss /\ list.last ss = Some s.
  Proof.
    intros Hr. refine (rtc_ind_r (fun s => exists ss, run_of s0 ss /\ list.last ss = Some s) s0 _ _ s Hr).
    - exists [s0]. split; [|done]. split; [done|]. intros [|n] a b Ha Hb; cbn in *; discriminate.
    - intros y z _ Hs (ss & [H0 H1] & Hl). exists (ss ++ [z]). split; [|by rewrite last_snoc].
      split; [rewrite lookup_app_l; [done|apply lookup_lt_is_Some; eauto]|].
      intros n a b Ha Hb. destruct (decide (Datatypes.S n < length ss)) as [Hn|Hn].
      + rewrite lookup_app_l in Ha, Hb by lia. eapply H1; eassumption.
      + assert (Datatypes.S n = length ss) as E.
        { apply lookup_lt_Some in Hb. rewrite app_length in Hb. cbn in Hb. lia. }
        rewrite lookup_app_r in Hb by lia. rewrite E, Nat.sub_diag in Hb. cbn in Hb. injection Hb as ->.
        rewrite lookup_app_l in Ha by lia. rewrite last_lookup, <- E in Hl. cbn in Hl. rewrite Ha in Hl. injection Hl as ->. exact Hs.
  Qed.
  (** A prefix of a run. *)
  Lemma run_reach_all s0 ss n s : run_of s0 ss -> ss !! n = Some s -> reach api s0 s.
  Proof.
    intros [H0 H1]. revert s. induction n as [|n IH]; intros s Hs; [rewrite H0 in Hs; injection Hs as ->; apply rtc_refl|].
    destruct (ss !! n) as [s1|] eqn:E; [|exfalso; apply lookup_ge_None_1 in E; apply lookup_lt_Some in Hs; lia].
    eapply rtc_r; [by apply IH|]. eapply H1; eassumption.
  Qed.
End path.

Section know.
  Context {W : Type} (ws : list W) (Inv : nat -> W -> Prop).
  (** [kp Q n p]: from moment [n] on, every step of [p] in the run [ws] keeps [Inv], and if [p] returns
      [r] at moment [m] then [Q m r]. *)
  Fixpoint kp {R} (Q : nat -> R -> Prop) (n : nat) (p : prog W R) : Prop :=
    match p with
    | Ret r => Q n r
    | Panic _ => True
    | Atom g f k => forall m w, n <= m -> ws !! m = Some w -> ws !! (Datatypes.S m) = Some (f w) -> g w = true -> Inv m w ->
        Inv (Datatypes.S m) (f w) /\ kp Q (Datatypes.S m) (k w)
    end.
  Lemma kp_bind {A B} (Q : nat -> A -> Prop) (Q' : nat -> B -> Prop) n (p : prog W A) (q : A -> prog W B) :
    kp Q n p -> (forall m a, n <= m -> Q m a -> kp Q' m (q a)) -> kp Q' n (bind p q).
  Proof.
    revert n. induction p as [a|m|g f k IH]; intros n Hp Hq; cbn in *; [by apply Hq|done|].
    intros m w Hm H1 H2 Hg Hi. destruct (Hp m w Hm H1 H2 Hg Hi) as [H3 H4]. split; [done|]. apply IH; [done|].
    intros m' a Hm'. apply Hq. lia.
  Qed.
  Lemma kp_later {A} (Q : nat -> A -> Prop) n m (p : prog W A) :
    (forall m m' a, Q m a -> m <= m' -> Q m' a) -> n <= m -> kp Q n p -> kp Q m p.
  Proof. intros HQ Hnm. destruct p as [a|e|g f k]; cbn; eauto. intros Hp m' w Hm. apply Hp. lia. Qed.
  Lemma kp_atom {A} (Q : nat -> A -> Prop) n (op : W -> W * A) :
    (forall m w, n <= m -> ws !! m = Some w -> ws !! (Datatypes.S m) = Some (fst (op w)) -> Inv m w ->
       Inv (Datatypes.S m) (fst (op w)) /\ Q (Datatypes.S m) (snd (op w))) -> kp Q n (atom op).
  Proof. intros H m w Hm H1 H2 _ Hi. apply (H m w Hm H1 H2 Hi). Qed.
  Lemma kp_each {A} n (l : list A) body :
    (forall x m, x ∈ l -> n <= m -> kp (fun _ _ => True) m (body x)) -> kp (fun _ _ => True) n (each l body).
  Proof.
    revert n. induction l as [|x l IH]; intros n H; cbn; [exact I|].
    eapply kp_bind; [apply H; [set_solver|lia]|]. intros m _ Hm _. apply IH. intros y m' Hy Hm'. apply H; [set_solver|lia].
  Qed.
  (** A program all of whose steps are in [G]. *)
  Lemma kp_guar {A} (G : W -> W -> Prop) n (p : prog W A) :
    (forall m w w', ws !! m = Some w -> ws !! (Datatypes.S m) = Some w' -> G w w' -> Inv m w -> Inv (Datatypes.S m) w') ->
    guar G p -> kp (fun _ _ => True) n p.
  Proof.
    intros H. revert n. induction p as [a|m|g f k IH]; intros n Hp; cbn; auto.
    intros m w Hm H1 H2 Hg Hi. destruct (Hp w Hg). split; eauto.
  Qed.
End know.

(** What every call keeps, holds at every moment of a run; and every call that has returned has returned
    something in [Q]. *)
Lemma run_inv_ret {W R} (api : prog W R -> Prop) s0 ss (Inv : nat -> W -> Prop) (Q : nat -> R -> Prop) :
  run_of api s0 ss -> Inv 0 (s_world s0) -> s_threads s0 = [] ->
  (forall m w, (s_world <$> ss) !! m = Some w -> Inv m w -> Inv (Datatypes.S m) w) ->
  (forall m m' a, Q m a -> m <= m' -> Q m' a) ->
  (forall p n, api p -> kp (s_world <$> ss) Inv Q n p) ->
  forall n s, ss !! n = Some s -> Inv n (s_world s) /\ forall v, Ret v ∈ s_threads s -> Q n v.
Proof.
  intros [H0 H1] Hi Ht Hst HQ Hapi n s Hs.
  enough (Inv n (s_world s) /\ Forall (kp (s_world <$> ss) Inv Q n) (s_threads s)) as [A B].
  { split; [done|]. intros v Hv. apply elem_of_list_lookup in Hv as [i Hv]. apply (Forall_lookup_1 _ _ _ _ B Hv). }
  revert s Hs. induction n as [|n IH]; intros s Hs.
  - rewrite H0 in Hs. injection Hs as <-. split; [done|]. rewrite Ht. constructor.
  - destruct (ss !! n) as [s1|] eqn:E; [|exfalso; apply lookup_ge_None_1 in E; apply lookup_lt_Some in Hs; lia].
    destruct (IH s1 eq_refl) as [A1 A2]. pose proof (H1 n s1 s E Hs) as Hstep.
    assert ((s_world <$> ss) !! n = Some (s_world s1)) as E1 by (rewrite list_lookup_fmap, E; done).
    assert ((s_world <$> ss) !! Datatypes.S n = Some (s_world s)) as E2 by (rewrite list_lookup_fmap, Hs; done).
    assert (forall ps, Forall (kp (s_world <$> ss) Inv Q n) ps -> Forall (kp (s_world <$> ss) Inv Q (Datatypes.S n)) ps) as Hl.
    { intros ps. apply Forall_impl. intros p. apply kp_later; [done|lia]. }
    destruct Hstep as [i s1 s Hi'|p s1 Hp].
    + unfold tick in Hi'. destruct (s_threads s1 !! i) as [[| |g f k]|] eqn:Et; try discriminate.
      destruct (g (s_world s1)) eqn:Hg; inversion Hi'; subst; cbn in *.
      pose proof (Forall_lookup_1 _ _ _ _ A2 Et) as Hk. cbn in Hk. destruct (Hk n _ (le_n _) E1 E2 Hg A1) as [B1 B2].
      split; [exact B1|]. apply Forall_insert; [by apply Hl|exact B2].
    + cbn in *. split; [by apply Hst|]. apply Forall_app. split; [by apply Hl|]. constructor; [by apply Hapi|constructor].
Qed.
Lemma run_inv {W R} (api : prog W R -> Prop) s0 ss (Inv : nat -> W -> Prop) :
  run_of api s0 ss -> Inv 0 (s_world s0) -> s_threads s0 = [] ->
  (forall m w, (s_world <$> ss) !! m = Some w -> Inv m w -> Inv (Datatypes.S m) w) ->
  (forall p n, api p -> kp (s_world <$> ss) Inv (fun _ _ => True) n p) ->
  forall n s, ss !! n = Some s -> Inv n (s_world s).
Proof. intros Hr H0 Ht Hst Hapi n s Hs. by apply (run_inv_ret api s0 ss Inv (fun _ _ => True) Hr H0 Ht Hst) with (n := n) in Hs as [H _]. Qed.
