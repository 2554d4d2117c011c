(** Proof method: whoever takes a step that creates an obligation has to meet it before it returns.  Like Own.v - at most
    one thread owns the obligation, and its state is the thread's - but here the owner cannot return (or panic) before it
    has given it up, so that when all calls have returned nothing is owed.  Beside that, a ghost value that is a function of
    the steps ([ev]), and a fact [K] that once true stays true, of which threads may know. *)
From stdpp Require Import base list strings relations numbers.
From Coq Require Import Lia.
From Verif Require Import Prog ProgProofs ProgInv.

Section debt.
  Context {W A G : Type} (ev : W -> W -> G -> G) (J : W -> G -> option A -> Prop) (K : W -> Prop).
  Definition moves (st : option A) (st' : option A) (x : option A) (w w' : W) (gh : G) : Prop :=
    (x = st /\ J w' (ev w w' gh) st') \/ (st = None /\ st' = None /\ J w' (ev w w' gh) x).
  Fixpoint owe {R} (Q : option A -> bool -> R -> Prop) (st : option A) (kn : bool) (p : prog W R) : Prop :=
    match p with
    | Ret r => Q st kn r
    | Panic _ => st = None
    | Atom g f k => forall w gh x, g w = true -> J w gh x -> (forall a, st = Some a -> x = Some a) -> (kn = true -> K w) ->
        (K w -> K (f w)) /\
        exists st' kn', owe Q st' kn' (k w) /\ (kn' = true -> K (f w)) /\ moves st st' x w (f w) gh
    end.
  Lemma owe_bind {B C} (Q : option A -> bool -> B -> Prop) (Q' : option A -> bool -> C -> Prop) st kn (p : prog W B) (q : B -> prog W C) :
    owe Q st kn p -> (forall st' kn' a, Q st' kn' a -> owe Q' st' kn' (q a)) -> owe Q' st kn (bind p q).
  Proof.
    revert st kn. induction p as [a|m|g f k IH]; intros st kn Hp Hq; cbn in *; [by apply Hq|done|].
    intros w gh x Hg Hj Hx Hk. destruct (Hp w gh x Hg Hj Hx Hk) as (H1 & st' & kn' & H2 & H3 & H4). split; [done|].
    exists st', kn'. split; [by apply IH|done].
  Qed.
  Lemma owe_mono {B} (Q Q' : option A -> bool -> B -> Prop) st kn (p : prog W B) :
    (forall st kn a, Q st kn a -> Q' st kn a) -> owe Q st kn p -> owe Q' st kn p.
  Proof.
    intros H. revert st kn. induction p as [a|m|g f k IH]; intros st kn Hp; cbn in *; auto.
    intros w gh x Hg Hj Hx Hk. destruct (Hp w gh x Hg Hj Hx Hk) as (H1 & st' & kn' & H2 & H3 & H4). split; [done|].
    exists st', kn'. split; [by apply IH|done].
  Qed.
  Lemma keep_moves st x w w' gh : (forall a, st = Some a -> x = Some a) -> J w' (ev w w' gh) x -> moves st st x w w' gh.
  Proof. intros Hx Hj. destruct st as [a|]; [left; rewrite (Hx a eq_refl) in *; done|by right]. Qed.
  (** A step that leaves the obligation as it is. *)
  Lemma owe_keep {B} (Q : B -> Prop) st kn (op : W -> W * B) :
    (forall w gh x, J w gh x -> (forall a, st = Some a -> x = Some a) -> (kn = true -> K w) ->
       (K w -> K (fst (op w))) /\ J (fst (op w)) (ev w (fst (op w)) gh) x /\ Q (snd (op w))) ->
    owe (fun st' kn' b => st' = st /\ kn' = kn /\ Q b) st kn (atom op).
  Proof.
    intros H w gh x _ Hj Hx Hk. destruct (H w gh x Hj Hx Hk) as (H1 & H2 & H3). split; [done|]. exists st, kn. cbn.
    split; [done|]. split; [auto|]. by apply keep_moves.
  Qed.
  Lemma owe_each {B} st kn (l : list B) body : (forall x, x ∈ l -> owe (fun st' kn' _ => st' = st /\ kn' = kn) st kn (body x)) ->
    owe (fun st' kn' _ => st' = st /\ kn' = kn) st kn (each l body).
  Proof.
    induction l as [|x l IH]; intros H; cbn; [done|]. eapply owe_bind; [apply H; set_solver|]. cbn. intros st' kn' _ [-> ->]. apply IH. intros; apply H; set_solver.
  Qed.
  (** A program all of whose steps are in [H], which leave the obligation as it is. *)
  Lemma owe_guar {B} (H : W -> W -> Prop) kn (p : prog W B) :
    (forall w gh x w', J w gh x -> (kn = true -> K w) -> H w w' -> (K w -> K w') /\ J w' (ev w w' gh) x) ->
    guar H p -> owe (fun st' kn' _ => st' = None /\ kn' = kn) None kn p.
  Proof.
    intros HH. induction p as [a|m|g f k IH]; intros Hp; cbn; auto. intros w gh x Hg Hj Hx Hk. destruct (Hp w Hg) as [H1 H2].
    destruct (HH w gh x _ Hj Hk H1) as [H3 H4]. split; [done|]. exists None, kn. split; [by apply IH|]. split; [auto|]. by apply keep_moves.
  Qed.

  (** ** Systems *)
  Context {R : Type} (ev_refl : forall w gh, ev w w gh = gh).
  Notation returns := (fun (st : option A) (_ : bool) (_ : R) => st = None).
  Definition owed (w : W) (ts : list (prog W R)) (gh : G) (x : option A) : Prop :=
    J w gh x /\ exists sts : list (option A * bool), Forall2 (fun s p => owe returns (fst s) (snd s) p) sts ts /\
      (forall i s a, sts !! i = Some s -> fst s = Some a -> x = Some a) /\
      (forall i s, sts !! i = Some s -> snd s = true -> K w) /\
      (forall i j s s' a b, sts !! i = Some s -> sts !! j = Some s' -> fst s = Some a -> fst s' = Some b -> i = j) /\
      (forall a, x = Some a -> exists i s, sts !! i = Some s /\ fst s = Some a).
  Lemma owed_begin w ts gh x p : owe returns None false p -> owed w ts gh x -> owed w (ts ++ [p]) gh x.
  Proof.
    intros Hp (Hj & sts & H1 & H2 & H3 & H4 & H5). split; [done|]. exists (sts ++ [(None, false)]).
    split; [apply Forall2_app; [done|by repeat constructor]|].
    assert (forall i s, (sts ++ [(None, false)]) !! i = Some s -> sts !! i = Some s \/ s = (None, false)) as Hl.
    { intros i s Hs. apply lookup_app_Some in Hs as [?|[_ Hs]]; [by left|]. right. apply list_lookup_singleton_Some in Hs as [_ <-]. done. }
    split_and!.
    - intros i s a Hs Ha. destruct (Hl _ _ Hs) as [?| ->]; [by eapply H2|done].
    - intros i s Hs Ha. destruct (Hl _ _ Hs) as [?| ->]; [by eapply H3|done].
    - intros i j s s' a b Hs Hs' Ha Hb. destruct (Hl _ _ Hs) as [?| ->]; [|done]. destruct (Hl _ _ Hs') as [?| ->]; [|done]. by eapply H4.
    - intros a Ha. destruct (H5 a Ha) as (i & s & Hi & Hs). exists i, s. split; [by apply lookup_app_l_Some|done].
  Qed.
  Lemma owed_tick w ts gh x i g f k : owed w ts gh x -> ts !! i = Some (Atom g f k) -> g w = true ->
    exists x', owed (f w) (<[i := k w]> ts) (ev w (f w) gh) x'.
  Proof.
    intros (Hj & sts & H1 & H2 & H3 & H4 & H5) Hi Hg. destruct (Forall2_lookup_r _ _ _ _ _ H1 Hi) as ([st kn] & Hst & Ho). cbn in Ho.
    destruct (Ho w gh x Hg Hj) as (HK & st' & kn' & Hk & Hk' & Hc); [intros a ->; by apply (H2 i (Some a, kn) a)|intros ->; by apply (H3 i (st, true))|].
    pose (sts' := <[i := (st', kn')]> sts).
    assert (Forall2 (fun s p => owe returns (fst s) (snd s) p) sts' (<[i := k w]> ts)) as HF by (by apply Forall2_insert).
    pose proof (lookup_lt_Some _ _ _ Hst) as Hlt.
    assert (forall j s, sts' !! j = Some s -> j = i /\ s = (st', kn') \/ j <> i /\ sts !! j = Some s) as Hl.
    { intros j s Hj'. unfold sts' in Hj'. destruct (decide (j = i)) as [->|Hne]; [|rewrite list_lookup_insert_ne in Hj' by done; auto].
      rewrite list_lookup_insert in Hj' by done. injection Hj' as <-. auto. }
    assert (forall j s, sts' !! j = Some s -> snd s = true -> K (f w)) as HK'.
    { intros j s Hs Ht. destruct (Hl _ _ Hs) as [[-> ->]|[? ?]]; [by apply Hk'|]. apply HK. by eapply H3. }
    destruct Hc as [[-> Hj']|(-> & -> & Hj')].
    - assert (forall j s a, j <> i -> sts !! j = Some s -> fst s = Some a -> False) as Hno.
      { intros j s a Hne Hs Ha. pose proof (H2 _ _ _ Hs Ha) as ->. apply Hne. exact (H4 j i s (Some a, kn) a a Hs Hst Ha eq_refl). }
      exists st'. split; [done|]. exists sts'. split; [done|]. split_and!; [|done| |].
      + intros j s a Hs Ha. destruct (Hl _ _ Hs) as [[-> ->]|[? ?]]; [done|exfalso; eauto].
      + intros j j' s s' a b Hs Hs' Ha Hb. destruct (Hl _ _ Hs) as [[-> _]|[? ?]], (Hl _ _ Hs') as [[-> _]|[? ?]]; try done; exfalso; eauto.
      + intros a ->. exists i, (Some a, kn'). split; [by apply list_lookup_insert|done].
    - exists x. split; [done|]. exists sts'. split; [done|]. split_and!; [|done| |].
      + intros j s a Hs Ha. destruct (Hl _ _ Hs) as [[_ ->]|[_ ?]]; [done|by eapply H2].
      + intros j j' s s' a b Hs Hs' Ha Hb. destruct (Hl _ _ Hs) as [[_ ->]|[_ ?]]; [done|]. destruct (Hl _ _ Hs') as [[_ ->]|[_ ?]]; [done|]. by eapply H4.
      + intros a Ha. destruct (H5 a Ha) as (j & s & Hs & Hb). exists j, s. split; [|done]. unfold sts'. rewrite list_lookup_insert_ne; [done|].
        intros <-. rewrite Hst in Hs. injection Hs as <-. done.
  Qed.
  Lemma owed_step (api : prog W R -> Prop) s s' gh x : (forall p, api p -> owe returns None false p) ->
    owed (s_world s) (s_threads s) gh x -> sys_step api s s' -> exists x', owed (s_world s') (s_threads s') (ev (s_world s) (s_world s') gh) x'.
  Proof.
    intros Hapi Hx Hs. destruct Hs as [i y z Hi|p y Hp].
    - unfold tick in Hi. destruct (s_threads y !! i) as [[| |g f k]|] eqn:E; try discriminate.
      destruct (g (s_world y)) eqn:Hg; inversion Hi; subst; cbn. by eapply owed_tick.
    - cbn. rewrite ev_refl. exists x. apply owed_begin; [by apply Hapi|done].
  Qed.
  (** When all calls have returned nothing is owed. *)
  Lemma owed_settled w ts gh x : owed w ts gh x -> Forall (fun p => match p with Atom _ _ _ => False | _ => True end) ts -> x = None.
  Proof.
    intros (Hj & sts & H1 & H2 & H3 & H4 & H5) Hf. destruct x as [a|]; [|done]. destruct (H5 a eq_refl) as (i & s & Hi & Hs).
    destruct (Forall2_lookup_l _ _ _ _ _ H1 Hi) as (p & Hp & Ho). pose proof (Forall_lookup_1 _ _ _ _ Hf Hp) as Hp'. destruct p; cbn in Ho; congruence || done.
  Qed.
End debt.
