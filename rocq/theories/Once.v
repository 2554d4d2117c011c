(** Proof method: something is settled once and for all (a ghost value that is given at most once), and
    threads may know it. *)
From stdpp Require Import base list strings relations numbers.
From Coq Require Import Lia.
From Verif Require Import Prog ProgProofs ProgInv.

Definition known {A} (st x : option A) : Prop := forall a, st = Some a -> x = Some a.
Lemma known_refl {A} (x : option A) : known x x. Proof. intros a Ha. exact Ha. Qed.
Lemma known_none {A} (x : option A) : known None x. Proof. intros a Ha. discriminate. Qed.
#[export] Hint Resolve known_refl known_none : core.
Lemma known_trans {A} (x y z : option A) : known x y -> known y z -> known x z.
Proof. intros H1 H2 a Ha. auto. Qed.

Section once.
  Context {W A : Type} (J : W -> option A -> Prop).
  (** [once Q st p]: a thread at [p] that knows [st] keeps [J], possibly settling the value, and returns in [Q]. *)
  Fixpoint once {R} (Q : option A -> R -> Prop) (st : option A) (p : prog W R) : Prop :=
    match p with
    | Ret r => Q st r
    | Panic _ => True
    | Atom g f k => forall w x, g w = true -> J w x -> known st x ->
        exists x' st', J (f w) x' /\ known x x' /\ known st st' /\ known st' x' /\ once Q st' (k w)
    end.
  Lemma once_bind {B C} (Q : option A -> B -> Prop) (Q' : option A -> C -> Prop) st (p : prog W B) (q : B -> prog W C) :
    once Q st p -> (forall st' a, known st st' -> Q st' a -> once Q' st' (q a)) -> once Q' st (bind p q).
  Proof.
    revert st. induction p as [a|m|g f k IH]; intros st Hp Hq; cbn in *; [by apply Hq|done|].
    intros w x Hg Hj Hx. destruct (Hp w x Hg Hj Hx) as (x' & st' & H1 & H2 & H3 & H4 & H5). exists x', st'. split_and!; try done.
    apply IH; [done|]. intros st2 a Hs. apply Hq. by eapply known_trans.
  Qed.
  Lemma once_mono {B} (Q Q' : option A -> B -> Prop) st (p : prog W B) : (forall st a, Q st a -> Q' st a) -> once Q st p -> once Q' st p.
  Proof.
    intros H. revert st. induction p as [a|m|g f k IH]; intros st Hp; cbn in *; auto.
    intros w x Hg Hj Hx. destruct (Hp w x Hg Hj Hx) as (x' & st' & H1 & H2 & H3 & H4 & H5). exists x', st'. split_and!; try done. by apply IH.
  Qed.
  (** A step after which the thread knows [st']. *)
  Lemma once_atom {B} (Q : option A -> B -> Prop) st (op : W -> W * B) :
    (forall w x, J w x -> known st x -> exists x' st', J (fst (op w)) x' /\ known x x' /\ known st st' /\ known st' x' /\ Q st' (snd (op w))) ->
    once Q st (atom op).
  Proof. intros H w x _ Hj Hx. cbn. by apply H. Qed.
  Lemma once_each {B} st (l : list B) body : (forall x st', x ∈ l -> known st st' -> once (fun _ _ => True) st' (body x)) ->
    once (fun _ _ => True) st (each l body).
  Proof.
    revert st. induction l as [|x l IH]; intros st H; cbn; [done|]. eapply once_bind; [apply H; [set_solver|done]|]. cbn. intros st' _ Hs _. apply IH.
    intros y st2 Hy Hs2. apply H; [set_solver|by eapply known_trans].
  Qed.
  (** A program all of whose steps are in [G]. *)
  Lemma once_guar {B} (G : W -> W -> Prop) st (p : prog W B) : (forall w x w', J w x -> G w w' -> exists x', J w' x' /\ known x x') ->
    guar G p -> once (fun _ _ => True) st p.
  Proof.
    intros H. revert st. induction p as [a|m|g f k IH]; intros st Hp; cbn; auto. intros w x Hg Hj Hx. destruct (Hp w Hg) as [H1 H2].
    destruct (H w x _ Hj H1) as (x' & H3 & H4). exists x', st. split_and!; [done|done|done|by eapply known_trans|by apply IH].
  Qed.

  (** ** Systems *)
  Context {R : Type}.
  Definition settled (s : sys W R) (x : option A) : Prop :=
    J (s_world s) x /\ Forall (fun p => exists st, known st x /\ once (fun _ _ => True) st p) (s_threads s).
  Lemma settled_world w w' ts x x' : settled (Sys w ts) x -> J w' x' -> known x x' -> settled (Sys w' ts) x'.
  Proof.
    intros [_ H] Hj Hx. split; [done|]. cbn. eapply Forall_impl; [|exact H]. intros p (st & H1 & H2). exists st. split; [by eapply known_trans|done].
  Qed.
  Lemma settled_step (api : prog W R -> Prop) s s' x : (forall p, api p -> once (fun _ _ => True) None p) ->
    sys_step api s s' -> settled s x -> exists x', settled s' x' /\ known x x'.
  Proof.
    intros Hapi Hs [Hj Ht]. destruct Hs as [i y z Hi|p y Hp].
    - unfold tick in Hi. destruct (s_threads y !! i) as [[| |g f k]|] eqn:E; try discriminate.
      destruct (g (s_world y)) eqn:Hg; inversion Hi; subst; cbn. destruct (Forall_lookup_1 _ _ _ _ Ht E) as (st & H1 & H2). cbn in H2.
      destruct (H2 _ x Hg Hj H1) as (x' & st' & A1 & A2 & A3 & A4 & A5). exists x'. split; [|done]. split; [done|]. cbn.
      apply Forall_insert; [|by exists st']. eapply Forall_impl; [|exact Ht]. intros q (st0 & B1 & B2). exists st0. split; [by eapply known_trans|done].
    - cbn. exists x. split; [|done]. split; [done|]. cbn. apply Forall_app. split; [done|]. constructor; [|constructor]. exists None. split; [done|by apply Hapi].
  Qed.
End once.
