(** Generic facts about programs and interleavings. *)
From stdpp Require Import base list strings relations.
From Verif Require Import Prog.

Section facts.
  Context {W : Type}.

  Lemma bind_assoc {A B C} (p : prog W A) (q : A -> prog W B) (r : B -> prog W C) w :
    run (bind (bind p q) r) w = run (bind p (fun a => bind (q a) r)) w.
  Proof.
    revert w; induction p as [a|m|g f k IH]; intros w; cbn; try reflexivity.
    destruct (g w); [apply IH | reflexivity].
  Qed.

  Lemma run_bind {A B} (p : prog W A) (q : A -> prog W B) w :
    run (bind p q) w =
    match run p w with
    | Done w' a => run (q a) w'
    | Panicked w' m => Panicked w' m
    | Blocked w' => Blocked w'
    end.
  Proof.
    revert w; induction p as [a|m|g f k IH]; intros w; cbn; try reflexivity.
    destruct (g w); [apply IH | reflexivity].
  Qed.

  Lemma run_atom {A} (op : W -> W * A) w :
    run (atom op) w = Done (fst (op w)) (snd (op w)).
  Proof. reflexivity. Qed.
  Lemma run_modify (f : W -> W) w : run (modify f) w = Done (f w) tt.
  Proof. reflexivity. Qed.
  Lemma run_observe {A} (f : W -> A) w : run (observe f) w = Done w (f w).
  Proof. reflexivity. Qed.

  (** A loop whose bodies all finish is a fold. *)
  Lemma run_each {A} (l : list A) (body : A -> prog W unit) (f : A -> W -> W) w :
    (forall x w, x ∈ l -> run (body x) w = Done (f x w) tt) ->
    run (each l body) w = Done (fold_left (fun w x => f x w) l w) tt.
  Proof.
    revert w; induction l as [|x l IH]; intros w H; cbn; [reflexivity|].
    rewrite run_bind, H by set_solver. apply IH. intros; apply H; set_solver.
  Qed.

  Lemma safe_bind {A B} (Inv : W -> Prop) (p : prog W A) (q : A -> prog W B) :
    safe Inv p -> (forall a, safe Inv (q a)) -> safe Inv (bind p q).
  Proof.
    intros Hp Hq; induction p as [a|m|g f k IH]; cbn in *; auto.
    intros w Hw Hg. destruct (Hp w Hw Hg) as [H1 H2]. split; auto.
  Qed.

  Lemma safe_atom {A} (Inv : W -> Prop) (op : W -> W * A) :
    (forall w, Inv w -> Inv (fst (op w))) -> safe Inv (atom op).
  Proof. intros H w Hw _. split; cbn; auto. Qed.
  Lemma safe_modify (Inv : W -> Prop) (f : W -> W) :
    (forall w, Inv w -> Inv (f w)) -> safe Inv (modify f).
  Proof. intros H w Hw _. split; cbn; auto. Qed.
  Lemma safe_observe {A} (Inv : W -> Prop) (f : W -> A) : safe Inv (observe f).
  Proof. intros w Hw _. split; cbn; auto. Qed.
  Lemma safe_each {A} (Inv : W -> Prop) (l : list A) body :
    (forall x, x ∈ l -> safe Inv (body x)) -> safe Inv (each l body).
  Proof.
    induction l as [|x l IH]; intros H; cbn; [exact I|].
    apply safe_bind; [apply H; set_solver | intros _; apply IH; intros; apply H; set_solver].
  Qed.

  (** The schedule theorem: if every call in progress and every call that may
      begin is safe, the invariant holds in every reachable state. *)
  Lemma reach_safe {R} (Inv : W -> Prop) (api : prog W R -> Prop) s s' :
    (forall p, api p -> safe Inv p) ->
    Inv (s_world s) -> Forall (safe Inv) (s_threads s) ->
    reach api s s' ->
    Inv (s_world s') /\ Forall (safe Inv) (s_threads s').
  Proof.
    intros Hapi Hw Ht Hr.
    induction Hr as [s|s1 s2 s3 Hstep _ IH]; [auto|].
    apply IH; clear IH.
    - destruct Hstep as [i s s' Hi|p s Hp]; [|exact Hw].
      unfold tick in Hi. destruct (s_threads s !! i) as [[| |g f k]|] eqn:E; try discriminate.
      destruct (g (s_world s)) eqn:G; inversion Hi; subst; cbn.
      pose proof (Forall_lookup_1 _ _ _ _ Ht E) as Hs. cbn in Hs. apply (Hs _ Hw G).
    - destruct Hstep as [i s s' Hi|p s Hp].
      + unfold tick in Hi. destruct (s_threads s !! i) as [[| |g f k]|] eqn:E; try discriminate.
        destruct (g (s_world s)) eqn:G; inversion Hi; subst; cbn.
        apply Forall_insert; [exact Ht|].
        pose proof (Forall_lookup_1 _ _ _ _ Ht E) as Hs. cbn in Hs. apply (Hs _ Hw G).
      + cbn. apply Forall_app; split; [exact Ht | constructor; [apply Hapi, Hp | constructor]].
  Qed.

  Lemma exec_reach {R} (api : prog W R -> Prop) sched (s s' : sys W R) :
    exec sched s = Some s' -> reach api s s'.
  Proof.
    revert s; induction sched as [|i sched IH]; intros s H; cbn in H.
    - injection H as <-. apply rtc_refl.
    - destruct (tick i s) as [s1|] eqn:E; [|discriminate].
      eapply rtc_l; [eapply step_tick; exact E | apply IH, H].
  Qed.
  Lemma exec_some {R} sched (s0 : sys W R) (P : sys W R -> Prop) :
    match exec sched s0 with Some s => P s | None => False end -> exists s, exec sched s0 = Some s /\ P s.
  Proof. destruct (exec sched s0) as [s|]; [eauto | intros []]. Qed.
End facts.
