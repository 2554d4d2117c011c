(** Proof method: at most one thread at a time owns a resource; the resource's state is the thread's. *)
From stdpp Require Import base list strings relations numbers.
From Coq Require Import Lia.
From Verif Require Import Prog ProgProofs ProgInv.

Section own.
  Context {W A : Type} (J : W -> option A -> Prop).
  (** [own Q st p]: a thread at [p] in state [st] (none: it does not own the resource) keeps [J],
      takes the resource only when nobody has it, and returns in [Q]. *)
  Fixpoint own {R} (Q : option A -> R -> Prop) (st : option A) (p : prog W R) : Prop :=
    match p with
    | Ret r => Q st r
    | Panic _ => True
    | Atom g f k => forall w x, g w = true -> J w x -> (forall a, st = Some a -> x = Some a) ->
        exists st', own Q st' (k w) /\ ((x = st /\ J (f w) st') \/ (st = None /\ st' = None /\ J (f w) x))
    end.
  Lemma own_bind {B C} (Q : option A -> B -> Prop) (Q' : option A -> C -> Prop) st (p : prog W B) (q : B -> prog W C) :
    own Q st p -> (forall st' a, Q st' a -> own Q' st' (q a)) -> own Q' st (bind p q).
  Proof.
    revert st. induction p as [a|m|g f k IH]; intros st Hp Hq; cbn in *; [by apply Hq|done|].
    intros w x Hg Hj Hx. destruct (Hp w x Hg Hj Hx) as (st' & H2 & H3). exists st'. split; [by apply IH|done].
  Qed.
  Lemma own_mono {B} (Q Q' : option A -> B -> Prop) st (p : prog W B) : (forall st a, Q st a -> Q' st a) -> own Q st p -> own Q' st p.
  Proof.
    intros H. revert st. induction p as [a|m|g f k IH]; intros st Hp; cbn in *; auto.
    intros w x Hg Hj Hx. destruct (Hp w x Hg Hj Hx) as (st' & H2 & H3). exists st'. split; [by apply IH|done].
  Qed.
  (** A step that leaves the resource as it is. *)
  Lemma own_keep {B} (Q : B -> Prop) st (op : W -> W * B) :
    (forall w x, J w x -> (forall a, st = Some a -> x = Some a) -> J (fst (op w)) x /\ Q (snd (op w))) ->
    own (fun st' b => st' = st /\ Q b) st (atom op).
  Proof.
    intros H w x _ Hj Hx. destruct (H w x Hj Hx) as (H2 & H3). exists st. cbn. split; [done|].
    destruct st as [a|]; [left; split; [by apply Hx|]; by rewrite <- (Hx a eq_refl)|by right].
  Qed.
  Lemma own_each {B} st (l : list B) body : (forall x, x ∈ l -> own (fun st' _ => st' = st) st (body x)) -> own (fun st' _ => st' = st) st (each l body).
  Proof.
    induction l as [|x l IH]; intros H; cbn; [done|]. eapply own_bind; [apply H; set_solver|]. cbn. intros st' _ ->. apply IH. intros; apply H; set_solver.
  Qed.
  (** A program all of whose steps are in [G], which leaves the resource as it is. *)
  Lemma own_guar {B} (G : W -> W -> Prop) st (p : prog W B) : (forall w x w', J w x -> G w w' -> J w' x) ->
    guar G p -> own (fun st' _ => st' = st) st p.
  Proof.
    intros H. induction p as [a|m|g f k IH]; intros Hp; cbn; auto. intros w x Hg Hj Hx. destruct (Hp w Hg) as [H1 H2].
    pose proof (H w x _ Hj H1) as H3. exists st. split; [by apply IH|].
    destruct st as [a|]; [left|by right]. pose proof (Hx a eq_refl) as ->. done.
  Qed.

  (** ** Systems *)
  Context {R : Type}.
  Definition owned (w : W) (ts : list (prog W R)) (x : option A) : Prop :=
    J w x /\ exists sts, Forall2 (own (fun _ _ => True)) sts ts /\
      (forall i a, sts !! i = Some (Some a) -> x = Some a) /\
      (forall i j a b, sts !! i = Some (Some a) -> sts !! j = Some (Some b) -> i = j).
  Lemma owned_begin w ts x p : own (fun _ _ => True) None p -> owned w ts x -> owned w (ts ++ [p]) x.
  Proof.
    intros Hp (Hj & sts & H1 & H2 & H3). split; [done|]. exists (sts ++ [None]). split; [apply Forall2_app; [done|by repeat constructor]|].
    assert (forall i a, (sts ++ [None]) !! i = Some (Some a) -> sts !! i = Some (Some a)) as Hl.
    { intros i a. destruct (decide (i < length sts)); [by rewrite lookup_app_l|]. rewrite lookup_app_r by lia. destruct (i - length sts); cbn; done. }
    split; eauto.
  Qed.
  Lemma owned_tick w ts x i g f k : owned w ts x -> ts !! i = Some (Atom g f k) -> g w = true ->
    exists x', owned (f w) (<[i := k w]> ts) x'.
  Proof.
    intros (Hj & sts & H1 & H2 & H3) Hi Hg. destruct (Forall2_lookup_r _ _ _ _ _ H1 Hi) as (st & Hst & Ho). cbn in Ho.
    destruct (Ho w x Hg Hj) as (st' & Hk & Hc); [intros a ->; by eapply H2|].
    assert (Forall2 (own (fun _ _ => True)) (<[i := st']> sts) (<[i := k w]> ts)) as HF by (by apply Forall2_insert).
    assert (forall j a, <[i := st']> sts !! j = Some (Some a) -> j = i /\ st' = Some a \/ j <> i /\ sts !! j = Some (Some a)) as Hl.
    { intros j a Hj'. destruct (decide (j = i)) as [->|Hne]; [|rewrite list_lookup_insert_ne in Hj' by done; auto].
      rewrite list_lookup_insert in Hj' by (eapply lookup_lt_Some; exact Hst). injection Hj' as ->. auto. }
    destruct Hc as [[-> Hj']|(-> & -> & Hj')].
    - exists st'. split; [done|]. exists (<[i := st']> sts). split; [done|].
      assert (forall j a, j <> i -> sts !! j = Some (Some a) -> False) as Hno.
      { intros j a Hne Ha. pose proof (H2 _ _ Ha) as ->. apply Hne. by eapply H3. }
      split; [intros j a Ha|intros j j' a b Ha Hb]; [destruct (Hl _ _ Ha) as [[-> ->]|[? ?]]; [done|exfalso; eauto]|].
      destruct (Hl _ _ Ha) as [[-> _]|[? ?]], (Hl _ _ Hb) as [[-> _]|[? ?]]; try done; exfalso; eauto.
    - exists x. split; [done|]. exists (<[i := None]> sts). split; [done|].
      split; [intros j a Ha|intros j j' a b Ha Hb]; [destruct (Hl _ _ Ha) as [[_ ?]|[_ ?]]; [done|by eapply H2]|].
      destruct (Hl _ _ Ha) as [[_ ?]|[_ ?]], (Hl _ _ Hb) as [[_ ?]|[_ ?]]; try done. by eapply H3.
  Qed.
  Lemma owned_reach (api : prog W R -> Prop) s s' x : (forall p, api p -> own (fun _ _ => True) None p) ->
    owned (s_world s) (s_threads s) x -> reach api s s' -> exists x', owned (s_world s') (s_threads s') x'.
  Proof.
    intros Hapi H0 Hr. refine (rtc_ind_r (fun s => exists x', owned (s_world s) (s_threads s) x') s _ _ s' Hr); [eauto|].
    intros y z _ Hs (x' & Hx). destruct Hs as [i y z Hi|p y Hp].
    - unfold tick in Hi. destruct (s_threads y !! i) as [[| |g f k]|] eqn:E; try discriminate.
      destruct (g (s_world y)) eqn:Hg; inversion Hi; subst; cbn. by eapply owned_tick.
    - cbn. exists x'. apply owned_begin; [by apply Hapi|done].
  Qed.
End own.
