(** Two more proof methods for interleaved programs (see ProgProofs.v for invariants):
    [guar R p]: every step of [p] is in the relation [R];
    [tok]: a potential argument, for "at most once" statements under every schedule. *)
From stdpp Require Import base list strings relations numbers.
From Coq Require Import Lia.
From Verif Require Import Prog ProgProofs.

Section guarantee.
  Context {W : Type}.
  Fixpoint guar {R} (G : W -> W -> Prop) (p : prog W R) : Prop :=
    match p with
    | Ret _ | Panic _ => True
    | Atom g f k => forall w, g w = true -> G w (f w) /\ guar G (k w)
    end.

  Lemma guar_ret {A} (G : W -> W -> Prop) (a : A) : guar G (Ret a). Proof. exact I. Qed.
  Lemma guar_panic {A} (G : W -> W -> Prop) m : guar G (Panic m : prog W A). Proof. exact I. Qed.
  Lemma guar_bind {A B} (G : W -> W -> Prop) (p : prog W A) (q : A -> prog W B) :
    guar G p -> (forall a, guar G (q a)) -> guar G (bind p q).
  Proof.
    intros Hp Hq; induction p as [a|m|g f k IH]; cbn in *; auto.
    intros w Hg. destruct (Hp w Hg) as [H1 H2]. split; auto.
  Qed.
  Lemma guar_atom {A} (G : W -> W -> Prop) (op : W -> W * A) : (forall w, G w (fst (op w))) -> guar G (atom op).
  Proof. intros H w _. split; cbn; auto. Qed.
  Lemma guar_modify (G : W -> W -> Prop) (f : W -> W) : (forall w, G w (f w)) -> guar G (modify f).
  Proof. intros H w _. split; cbn; auto. Qed.
  Lemma guar_observe {A} (G : W -> W -> Prop) (f : W -> A) : (forall w, G w w) -> guar G (observe f).
  Proof. intros H w _. split; cbn; auto. Qed.
  Lemma guar_each {A} (G : W -> W -> Prop) (l : list A) body : (forall x, guar G (body x)) -> guar G (each l body).
  Proof. intros H. induction l as [|x l IH]; cbn; [exact I|]. apply guar_bind; auto. Qed.
  Lemma guar_mono {A} (G G' : W -> W -> Prop) (p : prog W A) :
    (forall w w', G w w' -> G' w w') -> guar G p -> guar G' p.
  Proof.
    intros H Hp; induction p as [a|m|g f k IH]; cbn in *; auto.
    intros w Hg. destruct (Hp w Hg) as [H1 H2]. split; auto.
  Qed.

  Lemma guar_tick {R} (G : W -> W -> Prop) i (s s' : sys W R) :
    Forall (guar G) (s_threads s) -> tick i s = Some s' ->
    G (s_world s) (s_world s') /\ Forall (guar G) (s_threads s').
  Proof.
    intros Ht Hi. unfold tick in Hi.
    destruct (s_threads s !! i) as [[| |g f k]|] eqn:E; try discriminate.
    destruct (g (s_world s)) eqn:Hg; inversion Hi; subst; cbn.
    pose proof (Forall_lookup_1 _ _ _ _ Ht E) as Hs. cbn in Hs.
    destruct (Hs _ Hg). split; [assumption|]. apply Forall_insert; assumption.
  Qed.

  (** Every reachable state is related to the start by the (reflexive, transitive) guarantee. *)
  Lemma reach_guar {R} (G : W -> W -> Prop) (api : prog W R -> Prop) s s' :
    (forall w, G w w) -> (forall a b c, G a b -> G b c -> G a c) ->
    (forall p, api p -> guar G p) -> Forall (guar G) (s_threads s) ->
    reach api s s' -> G (s_world s) (s_world s') /\ Forall (guar G) (s_threads s').
  Proof.
    intros Hr Htr Hapi Ht Hreach.
    induction Hreach as [s|s1 s2 s3 Hstep _ IH]; [auto|].
    destruct Hstep as [i s s' Hi|p s Hp].
    - destruct (guar_tick _ _ _ _ Ht Hi) as [H1 H2].
      destruct (IH H2) as [H3 H4]. split; [eapply Htr; eauto | exact H4].
    - apply IH; cbn. apply Forall_app; split; [exact Ht|]. constructor; [auto | constructor].
  Qed.
  Lemma reach_guar_threads {R} (G : W -> W -> Prop) (api : prog W R -> Prop) s s' :
    (forall p, api p -> guar G p) -> Forall (guar G) (s_threads s) ->
    reach api s s' -> Forall (guar G) (s_threads s').
  Proof.
    intros Hapi Ht Hreach.
    induction Hreach as [s|s1 s2 s3 Hstep _ IH]; [auto|]. apply IH.
    destruct Hstep as [i s s' Hi|p s Hp].
    - eapply guar_tick; eauto.
    - cbn. apply Forall_app; split; [exact Ht|]. constructor; [auto | constructor].
  Qed.
  (** A call run alone. *)
  Lemma run_guar {R} (G : W -> W -> Prop) (p : prog W R) w :
    (forall w, G w w) -> (forall a b c, G a b -> G b c -> G a c) ->
    guar G p -> G w (out_world (run p w)).
  Proof.
    intros Hr Ht. revert w; induction p as [a|m|g f k IH]; intros w Hp; cbn in *; auto.
    destruct (g w) eqn:E; cbn; [|auto]. destruct (Hp w E). eapply Ht; [eassumption|]. auto.
  Qed.
End guarantee.

Section tokens.
  Context {W : Type} (Inv : W -> Prop) (cnt : W -> nat).

  (** [tok Q h p]: [p] holds [h] tokens; no step creates tokens (those in the world plus those held);
      when it returns [r] holding [h'], [Q r h']. *)
  Fixpoint tok {R} (Q : R -> nat -> Prop) (h : nat) (p : prog W R) : Prop :=
    match p with
    | Ret r => Q r h
    | Panic _ => True
    | Atom g f k => forall w, Inv w -> g w = true ->
        Inv (f w) /\ exists h', cnt (f w) + h' <= cnt w + h /\ tok Q h' (k w)
    end.

  Lemma tok_bind {A B} (Q : A -> nat -> Prop) (Q' : B -> nat -> Prop) h (p : prog W A) (q : A -> prog W B) :
    tok Q h p -> (forall a h', Q a h' -> tok Q' h' (q a)) -> tok Q' h (bind p q).
  Proof.
    intros Hp Hq; revert h Hp; induction p as [a|m|g f k IH]; intros h Hp; cbn in *; auto.
    intros w Hw Hg. destruct (Hp w Hw Hg) as (H1 & h' & H2 & H3). split; [auto|]. exists h'; auto.
  Qed.
  Lemma tok_mono {A} (Q Q' : A -> nat -> Prop) h (p : prog W A) :
    (forall a h, Q a h -> Q' a h) -> tok Q h p -> tok Q' h p.
  Proof.
    intros HQ; revert h; induction p as [a|m|g f k IH]; intros h Hp; cbn in *; auto.
    intros w Hw Hg. destruct (Hp w Hw Hg) as (H1 & h' & H2 & H3). split; [auto|]. exists h'; auto.
  Qed.
  Lemma tok_atom {A} (Q : A -> nat -> Prop) h (op : W -> W * A) :
    (forall w, Inv w -> Inv (fst (op w)) /\
       exists h', cnt (fst (op w)) + h' <= cnt w + h /\ Q (snd (op w)) h') -> tok Q h (atom op).
  Proof. intros H w Hw _. apply H, Hw. Qed.
  Lemma tok_modify (Q : unit -> nat -> Prop) h (f : W -> W) :
    (forall w, Inv w -> Inv (f w) /\ exists h', cnt (f w) + h' <= cnt w + h /\ Q tt h') -> tok Q h (modify f).
  Proof. intros H. apply tok_atom. exact H. Qed.
  (** A step that does not touch the tokens. *)
  Lemma tok_modify_same (Q : unit -> nat -> Prop) h (f : W -> W) :
    (forall w, Inv w -> Inv (f w)) -> (forall w, Inv w -> cnt (f w) <= cnt w) -> Q tt h -> tok Q h (modify f).
  Proof. intros H1 H2 HQ. apply tok_modify. intros w Hw. split; [auto|]. exists h. split; [|exact HQ]. specialize (H2 w Hw). lia. Qed.
  Lemma tok_atom_same {A} (Q : A -> nat -> Prop) h (op : W -> W * A) :
    (forall w, Inv w -> Inv (fst (op w))) -> (forall w, Inv w -> cnt (fst (op w)) <= cnt w) ->
    (forall a, Q a h) -> tok Q h (atom op).
  Proof. intros H1 H2 HQ. apply tok_atom. intros w Hw. split; [auto|]. exists h. split; [|auto]. specialize (H2 w Hw). lia. Qed.
  Lemma tok_observe {A} (Q : A -> nat -> Prop) h (f : W -> A) :
    (forall w, Inv w -> Q (f w) h) -> tok Q h (observe f).
  Proof. intros H. apply tok_atom. intros w Hw. cbn. split; [exact Hw|]. exists h. split; [lia | auto]. Qed.
  Lemma tok_each {A} h (l : list A) body :
    (forall x, tok (fun _ h' => h' = h) h (body x)) -> tok (fun _ h' => h' = h) h (each l body).
  Proof.
    intros H. induction l as [|x l IH]; cbn; [reflexivity|].
    eapply tok_bind; [apply H|]. intros _ h' ->. exact IH.
  Qed.
  (** A loop that spends [c x] tokens on element [x]. *)
  Lemma tok_each_spend {A} (c : A -> nat) (l : list A) body h :
    list_sum (map c l) <= h ->
    (forall x h, x ∈ l -> c x <= h -> tok (fun _ h' => h <= h' + c x) h (body x)) ->
    tok (fun _ h' => h <= h' + list_sum (map c l)) h (each l body).
  Proof.
    revert h; induction l as [|x l IH]; intros h Hh H; cbn; [lia|]. cbn in Hh.
    eapply tok_bind; [apply H; [set_solver | unfold list_sum in *; lia]|]. intros [] h' Hx; cbn in Hx.
    eapply tok_mono; [|apply IH; [unfold list_sum in *; lia | intros; apply H; [set_solver | assumption]]].
    cbn. intros [] h'' ?. unfold list_sum in *; lia.
  Qed.
  Lemma tok_weaken {A} (Q : A -> nat -> Prop) h h' (p : prog W A) :
    (forall a h1 h2, Q a h1 -> h1 <= h2 -> Q a h2) -> h <= h' -> tok Q h p -> tok Q h' p.
  Proof.
    intros HQ; revert h h'; induction p as [a|m|g f k IH]; intros h h' Hle Hp; cbn in *; eauto.
    intros w Hw Hg. destruct (Hp w Hw Hg) as (H1 & h1 & H2 & H3). split; [auto|].
    exists h1. split; [lia|auto].
  Qed.

  (** The schedule theorem: the tokens in the world plus those the returned calls account for
      never exceed what there was at the start. *)
  Definition returned {R} (out : R -> nat) (p : prog W R) : nat := match p with Ret r => out r | _ => 0 end.
  Lemma reach_tok {R} (out : R -> nat) (api : prog W R -> Prop) w0 s :
    Inv w0 -> (forall p, api p -> tok (fun r h => out r <= h) 0 p) ->
    reach api (Sys w0 []) s ->
    Inv (s_world s) /\ cnt (s_world s) + list_sum (map (returned out) (s_threads s)) <= cnt w0.
  Proof.
    intros H0 Hapi Hr.
    assert (forall s s', reach api s s' ->
              forall hs, Inv (s_world s) -> Forall2 (fun h p => tok (fun r h => out r <= h) h p) hs (s_threads s) ->
              cnt (s_world s) + list_sum hs <= cnt w0 ->
              exists hs', Inv (s_world s') /\ Forall2 (fun h p => tok (fun r h => out r <= h) h p) hs' (s_threads s') /\
                          cnt (s_world s') + list_sum hs' <= cnt w0) as Hmain.
    { clear s Hr. intros s s' Hr. induction Hr as [s|s1 s2 s3 Hstep _ IH]; intros hs Hi Hf Hc; [eauto|].
      destruct Hstep as [i s s' Ht|p s Hp].
      - unfold tick in Ht. destruct (s_threads s !! i) as [[| |g f k]|] eqn:E; try discriminate.
        destruct (g (s_world s)) eqn:Hg; inversion Ht; subst; clear Ht.
        destruct (Forall2_lookup_r _ _ _ _ _ Hf E) as (h & Eh & Htok).
        destruct (Htok _ Hi Hg) as (Hi' & h' & Hle & Htok').
        apply (IH (<[i := h']> hs)); cbn; [exact Hi' | apply Forall2_insert; assumption |].
        assert (list_sum (<[i := h']> hs) + h = list_sum hs + h') as Hs.
        { rewrite insert_take_drop by (eapply lookup_lt_Some; exact Eh).
          rewrite <- (take_drop_middle hs i h Eh) at 3.
          rewrite !list_sum_app. unfold list_sum; cbn. lia. }
        lia.
      - apply (IH (hs ++ [0])); cbn; [exact Hi| |rewrite list_sum_app; unfold list_sum in *; cbn; lia].
        apply Forall2_app; [exact Hf|]. constructor; [apply Hapi, Hp | constructor]. }
    destruct (Hmain _ _ Hr [] H0 (Forall2_nil _)) as (hs & Hi & Hf & Hc); [cbn; lia|].
    split; [exact Hi|].
    enough (list_sum (map (returned out) (s_threads s)) <= list_sum hs) by lia.
    clear -Hf. induction Hf as [|h p hs ps Hp Hf IH]; unfold list_sum in *; cbn; [lia|].
    destruct p as [r| |]; cbn in *; lia.
  Qed.
End tokens.
