(** Histories and schedules: complete calls run one after the other are schedules too, invariants
    hold along both, and thread-local knowledge ([post]) for invariants that need it. *)
From stdpp Require Import base list gmap numbers strings countable sorting relations.
From Coq Require Import Lia.
From Verif Require Import Prog ProgProofs ProgInv Types Mailbox World ProcApi NodeApi Api Steps.

Section generic.
  Context {W : Type}.
  (** [post Inv Q p]: every step of [p] preserves [Inv], whatever others that preserve [Inv] do in
      between, and if [p] returns [r] then [Q r]. *)
  Fixpoint post {R} (Inv : W -> Prop) (Q : R -> Prop) (p : prog W R) : Prop :=
    match p with
    | Ret r => Q r
    | Panic _ => True
    | Atom g f k => forall w, Inv w -> g w = true -> Inv (f w) /\ post Inv Q (k w)
    end.
  Lemma post_bind {A B} Inv (Q : A -> Prop) (Q' : B -> Prop) (p : prog W A) (q : A -> prog W B) :
    post Inv Q p -> (forall a, Q a -> post Inv Q' (q a)) -> post Inv Q' (bind p q).
  Proof.
    intros Hp Hq; induction p as [a|m|g f k IH]; cbn in *; auto.
    intros w Hw Hg. destruct (Hp w Hw Hg). split; auto.
  Qed.
  Lemma post_mono {A} Inv (Q Q' : A -> Prop) (p : prog W A) :
    (forall a, Q a -> Q' a) -> post Inv Q p -> post Inv Q' p.
  Proof.
    intros H; induction p as [a|m|g f k IH]; cbn; auto.
    intros Hp w Hw Hg. destruct (Hp w Hw Hg). split; auto.
  Qed.
  Lemma post_atom {A} (Inv : W -> Prop) (Q : A -> Prop) (op : W -> W * A) :
    (forall w, Inv w -> Inv (fst (op w)) /\ Q (snd (op w))) -> post Inv Q (atom op).
  Proof. intros H w Hw _. destruct (H w Hw). split; cbn; auto. Qed.
  Lemma post_modify (Inv : W -> Prop) (Q : unit -> Prop) (f : W -> W) :
    (forall w, Inv w -> Inv (f w)) -> Q tt -> post Inv Q (modify f).
  Proof. intros H HQ. apply post_atom. cbn. auto. Qed.
  Lemma post_observe {A} (Inv : W -> Prop) (Q : A -> Prop) (f : W -> A) :
    (forall w, Inv w -> Q (f w)) -> post Inv Q (observe f).
  Proof. intros H. apply post_atom. cbn. auto. Qed.
  Lemma post_each {A} Inv (l : list A) body :
    (forall x, x ∈ l -> post Inv (fun _ => True) (body x)) -> post Inv (fun _ => True) (each l body).
  Proof.
    induction l as [|x l IH]; intros H; cbn; [exact I|].
    eapply post_bind; [apply H; set_solver|]. intros _ _. apply IH. intros; apply H; set_solver.
  Qed.
  (** A program all of whose steps are in [G] preserves what [G] preserves. *)
  Lemma post_guar {A} (G : W -> W -> Prop) (Inv : W -> Prop) (p : prog W A) :
    (forall w w', G w w' -> Inv w -> Inv w') -> guar G p -> post Inv (fun _ => True) p.
  Proof.
    intros H; induction p as [a|m|g f k IH]; cbn; auto.
    intros Hp w Hw Hg. destruct (Hp w Hg). split; eauto.
  Qed.
  Lemma post_safe {A} Inv (Q : A -> Prop) (p : prog W A) : post Inv Q p -> safe Inv p.
  Proof.
    induction p as [a|m|g f k IH]; cbn; auto. intros Hp w Hw Hg. destruct (Hp w Hw Hg). split; auto.
  Qed.
  Lemma post_run {A} Inv (Q : A -> Prop) (p : prog W A) w : post Inv Q p -> Inv w ->
    match run p w with Done w' a => Inv w' /\ Q a | Panicked w' _ => Inv w' | Blocked w' => Inv w' end.
  Proof.
    revert w; induction p as [a|m|g f k IH]; intros w Hp Hw; cbn in *; auto.
    destruct (g w) eqn:E; [|exact Hw]. destruct (Hp w Hw E). apply IH; auto.
  Qed.

  (** A call run alone is a schedule. *)
  Lemma run_reach {R} (api : prog W R -> Prop) (ts : list (prog W R)) (p : prog W R) w :
    match run p w with
    | Done w' v => reach api (Sys w (ts ++ [p])) (Sys w' (ts ++ [Ret v]))
    | Panicked w' m => reach api (Sys w (ts ++ [p])) (Sys w' (ts ++ [Panic m]))
    | Blocked _ => True
    end.
  Proof.
    revert w; induction p as [a|m|g f k IH]; intros w; cbn; try apply rtc_refl.
    destruct (g w) eqn:E; [|exact I].
    assert (sys_step api (Sys w (ts ++ [Atom g f k])) (Sys (f w) (ts ++ [k w]))) as Hs.
    { eapply (step_tick _ (length ts)). unfold tick; cbn.
      rewrite lookup_app_r, Nat.sub_diag by lia. cbn. rewrite E.
      rewrite insert_app_r_alt, Nat.sub_diag by lia. reflexivity. }
    specialize (IH w (f w)). destruct (run (k w) (f w)); try exact I; (eapply rtc_l; [exact Hs | exact IH]).
  Qed.

  (** The token argument started in the middle of a run. *)
  Lemma reach_tok_state {R} (Inv : W -> Prop) (cnt : W -> nat) (out : R -> nat) (api : prog W R -> Prop) s s' hs :
    (forall p, api p -> tok Inv cnt (fun r h => out r <= h) 0 p) ->
    reach api s s' -> Inv (s_world s) ->
    Forall2 (fun h p => tok Inv cnt (fun r h => out r <= h) h p) hs (s_threads s) ->
    exists hs', Inv (s_world s') /\ Forall2 (fun h p => tok Inv cnt (fun r h => out r <= h) h p) hs' (s_threads s') /\
                cnt (s_world s') + list_sum hs' <= cnt (s_world s) + list_sum hs.
  Proof.
    intros Hapi Hr. revert hs. induction Hr as [s|s1 s2 s3 Hstep _ IH]; intros hs Hi Hf; [eauto|].
    destruct Hstep as [i s s' Ht|p s Hp].
    - unfold tick in Ht. destruct (s_threads s !! i) as [[| |g f k]|] eqn:E; try discriminate.
      destruct (g (s_world s)) eqn:Hg; inversion Ht; subst; clear Ht.
      destruct (Forall2_lookup_r _ _ _ _ _ Hf E) as (h & Eh & Htok).
      destruct (Htok _ Hi Hg) as (Hi' & h' & Hle & Htok').
      destruct (IH (<[i := h']> hs)) as (hs' & A1 & A2 & A3); cbn; [exact Hi' | apply Forall2_insert; assumption |].
      exists hs'. split; [exact A1|]. split; [exact A2|]. cbn in A3.
      assert (list_sum (<[i := h']> hs) + h = list_sum hs + h') as Hs.
      { rewrite insert_take_drop by (eapply lookup_lt_Some; exact Eh).
        rewrite <- (take_drop_middle hs i h Eh) at 3.
        rewrite !list_sum_app. unfold list_sum; cbn. lia. }
      lia.
    - destruct (IH (hs ++ [0])) as (hs' & A1 & A2 & A3); cbn; [exact Hi| |].
      + apply Forall2_app; [exact Hf|]. constructor; [apply Hapi, Hp | constructor].
      + exists hs'. split; [exact A1|]. split; [exact A2|]. cbn in A3.
        rewrite list_sum_app in A3. unfold list_sum in *; cbn in *. lia.
  Qed.
  Lemma returned_le {R} (Inv : W -> Prop) (cnt : W -> nat) (out : R -> nat) hs (ts : list (prog W R)) :
    Forall2 (fun h p => tok Inv cnt (fun r h => out r <= h) h p) hs ts ->
    list_sum (map (returned out) ts) <= list_sum hs.
  Proof.
    intros Hf. induction Hf as [|h p hs ps Hp Hf IH]; unfold list_sum in *; cbn; [lia|].
    destruct p as [r| |]; cbn in *; lia.
  Qed.
End generic.

(** Reached from the fresh node by any interleaving of any calls. *)
Definition reachable (S : serde) (s : sys world val) : Prop := reach (any_call S) (Sys world0 []) s.
(** A state of the shared tables that occurs in some interleaving. *)
Definition occurs (S : serde) (w : world) : Prop := exists ts, reachable S (Sys w ts).

Section hist.
  Context (S : serde).
  Lemma reachable_threads s : reachable S s -> Forall (guar (anystep S)) (s_threads s).
  Proof.
    intros H. refine (reach_guar_threads _ (any_call S) _ _ _ _ H); [|apply Forall_nil_2]. intros p [c ->]. apply call_steps.
  Qed.
  (** What every step preserves holds in every reachable state. *)
  Lemma reachable_inv (I : world -> Prop) s :
    I world0 -> (forall w w', anystep S w w' -> I w -> I w') -> reachable S s -> I (s_world s).
  Proof.
    intros H0 Hs H. refine (api_reach S (fun w w' => I w -> I w') _ s _ _ _ _ H H0); auto.
    apply Forall_nil_2.
  Qed.
  Lemma occurs_inv (I : world -> Prop) w :
    I world0 -> (forall w w', anystep S w w' -> I w -> I w') -> occurs S w -> I w.
  Proof. intros H0 Hs [ts H]. apply (reachable_inv I _ H0 Hs H). Qed.
  (** Complete calls one after the other are a schedule. *)
  Lemma occurs_run w c w' : occurs S w -> happens S c w w' -> occurs S w'.
  Proof.
    intros [ts H] Hc.
    assert (reachable S (Sys w (ts ++ [call_prog S c]))) as H1.
    { eapply rtc_r; [exact H|]. apply (step_call (any_call S) (call_prog S c) (Sys w ts)). by exists c. }
    pose proof (run_reach (any_call S) ts (call_prog S c) w) as H2.
    destruct Hc as [v E|m E]; rewrite E in H2; eexists; eapply rtc_transitive; eassumption.
  Qed.
  Lemma history_occurs ok w cs w' : occurs S w -> history S ok w cs w' -> occurs S w'.
  Proof. intros H Hh. induction Hh as [w|w cs w1 c w2 Hh IH Hok Hc]; [exact H|]. eapply occurs_run; [apply IH, H | exact Hc]. Qed.
  Lemma occurs0 : occurs S world0. Proof. exists []. apply rtc_refl. Qed.
  Lemma seq_occurs w : seq_reachable S w -> occurs S w.
  Proof. intros [cs H]. eapply history_occurs; [apply occurs0 | exact H]. Qed.
  Lemma happens_guar (G : world -> world -> Prop) c w w' :
    (forall w, G w w) -> (forall a b c, G a b -> G b c -> G a c) -> (forall w w', anystep S w w' -> G w w') ->
    happens S c w w' -> G w w'.
  Proof.
    intros Hr Ht Hs Hc.
    pose proof (run_guar G (call_prog S c) w Hr Ht (guar_mono _ _ _ Hs (call_steps S c))) as H.
    destruct Hc as [v E|m E]; rewrite E in H; exact H.
  Qed.
End hist.
