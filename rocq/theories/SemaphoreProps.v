(** Property theorems C69: semaphore.rs. *)
From stdpp Require Import base list gmap numbers strings countable sorting.
From Coq Require Import Lia.
From Verif Require Import Semaphore.

(** Permits handed out, and permits set aside for requests that still wait for more. *)
Definition granted (s : sem) : nat := map_fold (fun _ n t => n + t) 0 (s_granted s).
Definition set_aside (s : sem) : nat := sum_list (map q_has (s_queue s)).
(** Every request has a new number. *)
Definition request_of (c : sem_call) : list N := match c with SAcquire id _ | STryAcquire id => [id] | _ => [] end.
Definition proper (cs : list sem_call) : Prop := NoDup (concat (map request_of cs)).

Definition total (g : gmap N nat) : nat := map_fold (fun _ n t => n + t) 0 g.
Lemma total_insert g i n : g !! i = None -> total (<[i := n]> g) = n + total g.
Proof. intros H. unfold total. rewrite map_fold_insert_L; [done| |done]. intros; lia. Qed.
Lemma total_delete g i n : g !! i = Some n -> total g = n + total (delete i g).
Proof. intros H. rewrite <- (insert_delete g i n H) at 1. apply total_insert. apply lookup_delete. Qed.

(** Waiting requests get what they asked for in order: [served] have got all of it, of the others only
    the first may have got something. *)
Definition want (x : waiter) : nat := q_needs x + q_has x.
Definition serve (g : gmap N nat) (xs : list waiter) : gmap N nat := foldl (fun g x => <[q_id x := want x]> g) g xs.
Lemma hand_out_spec q : forall n g a q' g', hand_out n q g = (a, q', g') ->
  (forall x, x ∈ q -> 0 < q_needs x) ->
  exists served rest, q = served ++ rest /\ g' = serve g served /\ map q_id q' = map q_id rest /\ map want q' = map want rest /\
    a + sum_list (map q_has q') + sum_list (map want served) = n + sum_list (map q_has q) /\
    (q' <> [] -> a = 0) /\ (forall x, x ∈ q' -> 0 < q_needs x) /\ (rest <> [] -> sum_list (map q_needs served) + q_needs (hd (Waiter 0 0 0) rest) > n).
Proof.
  induction q as [|x q IH]; intros n g a q' g' H Hpos; cbn in H.
  - injection H as <- <- <-. exists [], []. split_and!; cbn; auto; try lia; try done.
  - destruct (decide (q_needs x <= n)) as [Hle|Hlt].
    + destruct (IH _ _ _ _ _ H) as (sv & rest & -> & -> & H1 & H2 & H3 & H4 & H5 & H6); [intros y Hy; apply Hpos; by right|].
      exists (x :: sv), rest. split_and!; auto; cbn in *; [unfold want at 1; lia|]. intros Hr. specialize (H6 Hr). lia.
    + injection H as <- <- <-. exists [], (x :: q). split_and!; cbn; auto; try lia.
      * f_equal. unfold want; cbn. lia.
      * intros y [->|Hy]%elem_of_cons; cbn; [lia|]. apply Hpos. by right.
Qed.
Lemma serve_lookup xs : forall g i, serve g xs !! i = None <-> g !! i = None /\ i ∉ map q_id xs.
Proof.
  induction xs as [|x xs IH]; intros g i; cbn; [set_solver|]. unfold serve in *. cbn. rewrite IH.
  destruct (decide (i = q_id x)) as [->|Hi].
  - rewrite lookup_insert. split; [by intros [? _]|]. intros [_ H]. exfalso. apply H. by left.
  - rewrite lookup_insert_ne by congruence. set_solver.
Qed.
Lemma serve_total xs : forall g, NoDup (map q_id xs) -> (forall x, x ∈ xs -> g !! q_id x = None) ->
  total (serve g xs) = total g + sum_list (map want xs).
Proof.
  induction xs as [|x xs IH]; intros g Hn Hd; cbn; [lia|]. inversion Hn as [|? ? Hx Hn']; subst.
  change (total (serve (<[q_id x := want x]> g) xs) = total g + (want x + sum_list (map want xs))). rewrite IH; auto.
  - rewrite total_insert; [lia|]. apply Hd. by left.
  - intros y Hy. rewrite lookup_insert_ne; [apply Hd; by right|]. intros Heq. apply Hx. rewrite Heq. by apply elem_of_list_fmap_1.
Qed.

Record ok (init : nat) (used : list N) (s : sem) : Prop := Ok {
  ok_sum : s_avail s + sum_list (map q_has (s_queue s)) + total (s_granted s) = init;
  ok_nodup : NoDup (map q_id (s_queue s));
  ok_disj : forall i, i ∈ map q_id (s_queue s) -> s_granted s !! i = None;
  ok_used : forall i, i ∈ map q_id (s_queue s) -> i ∈ used;
  ok_used' : forall i, is_Some (s_granted s !! i) -> i ∈ used;
  ok_fair : s_queue s <> [] -> s_avail s = 0;
  ok_needs : forall x, x ∈ s_queue s -> 0 < q_needs x }.
Lemma ok_weaken init u u' s : (forall i, i ∈ u -> i ∈ u') -> ok init u s -> ok init u' s.
Proof. intros H []. constructor; auto. Qed.
Lemma give_back_ok init used n s : ok init used s -> s_avail s + sum_list (map q_has (s_queue s)) + total (s_granted s) = init ->
  ok (n + init) used (give_back n s).
Proof.
  intros [H1 H2 H3 H4 H5 H6 H7] _. unfold give_back. destruct (hand_out n (s_queue s) (s_granted s)) as [[a q'] g'] eqn:E.
  apply hand_out_spec in E as (sv & rest & Hq & -> & Hid & Hw & Hsum & Hfair & Hpos & _); [|exact H7].
  rewrite Hq in H2, H3, H4. rewrite map_app in H2, H3, H4. apply NoDup_app in H2 as (N1 & N2 & N3).
  constructor; cbn.
  - rewrite serve_total; [|done|intros x Hx; apply H3; apply elem_of_app; left; by apply elem_of_list_fmap_1]. lia.
  - by rewrite Hid.
  - rewrite Hid. intros i Hi. apply serve_lookup. split; [apply H3; apply elem_of_app; by right|]. intros Hi'. by apply (N2 i).
  - rewrite Hid. intros i Hi. apply H4, elem_of_app. by right.
  - intros i [m Hm]. destruct (decide (i ∈ map q_id sv)) as [Hi|Hi]; [apply H4, elem_of_app; by left|].
    apply H5. destruct (s_granted s !! i) eqn:Eg; [by eexists|]. exfalso.
    assert (serve (s_granted s) sv !! i = None) as Hno by (by apply serve_lookup). congruence.
  - intros Hne. specialize (Hfair Hne). assert (s_queue s <> []) as Hs.
    { rewrite Hq. destruct rest; [by destruct q'|by destruct sv]. }
    specialize (H6 Hs). lia.
  - exact Hpos.
Qed.
Lemma sum_filter (P : waiter -> Prop) `{forall x, Decision (P x)} (l : list waiter) :
  sum_list (map q_has l) = sum_list (map q_has (filter P l)) + sum_list (map q_has (filter (fun x => ~ P x) l)).
Proof.
  induction l as [|x l IH]; [done|]. cbn [map sum_list]. destruct (decide (P x)) as [Hp|Hp].
  - rewrite (filter_cons_True P), (filter_cons_False (fun x => ~ P x)) by tauto. cbn. lia.
  - rewrite (filter_cons_False P), (filter_cons_True (fun x => ~ P x)) by tauto. cbn. lia.
Qed.
Lemma step_ok init used s c : ok init used s -> (forall i, i ∈ request_of c -> i ∉ used) ->
  ok init (request_of c ++ used) (default s (sem_step c s)).
Proof.
  intros Hok Hnew. pose proof Hok as [H1 H2 H3 H4 H5 H6 H7]. destruct c as [id n|id|id|id]; cbn [sem_step request_of app].
  - assert (id ∉ used) as Hid by (apply Hnew; by left).
    assert (s_granted s !! id = None) as Hg by (destruct (s_granted s !! id) eqn:E; [exfalso; apply Hid, H5; by eexists|done]).
    assert (id ∉ map q_id (s_queue s)) as Hq by (intros Hq; by apply Hid, H4).
    destruct (decide (n <= s_avail s)) as [Hle|Hlt]; cbn [from_option]; unfold Datatypes.id.
    + constructor; cbn; auto.
      * rewrite total_insert by done. lia.
      * intros i Hi. rewrite lookup_insert_ne by (intros <-; contradiction). auto.
      * intros i Hi. right. auto.
      * intros i Hi. destruct (decide (i = id)) as [->|Hne]; [by left|]. rewrite lookup_insert_ne in Hi by congruence. right. auto.
      * intros Hne. specialize (H6 Hne). lia.
    + constructor; cbn; rewrite ?map_app; cbn.
      * rewrite sum_list_with_app || rewrite sum_list_app. cbn. lia.
      * apply NoDup_app. split_and!; auto; [|apply NoDup_singleton]. intros i Hi ->%elem_of_list_singleton. contradiction.
      * intros i [Hi| ->%elem_of_list_singleton]%elem_of_app; auto.
      * intros i [Hi| ->%elem_of_list_singleton]%elem_of_app; [right; auto|by left].
      * intros i Hi. right. auto.
      * done.
      * intros x [Hx| ->%elem_of_list_singleton]%elem_of_app; auto. cbn. lia.
  - assert (id ∉ used) as Hid by (apply Hnew; by left).
    assert (s_granted s !! id = None) as Hg by (destruct (s_granted s !! id) eqn:E; [exfalso; apply Hid, H5; by eexists|done]).
    assert (id ∉ map q_id (s_queue s)) as Hq by (intros Hq; by apply Hid, H4).
    destruct (decide (1 <= s_avail s)) as [Hle|Hlt]; cbn [from_option]; unfold Datatypes.id.
    + constructor; cbn; auto.
      * rewrite total_insert by done. lia.
      * intros i Hi. rewrite lookup_insert_ne by (intros <-; contradiction). auto.
      * intros i Hi. right. auto.
      * intros i Hi. destruct (decide (i = id)) as [->|Hne]; [by left|]. rewrite lookup_insert_ne in Hi by congruence. right. auto.
      * intros Hne. specialize (H6 Hne). lia.
    + eapply ok_weaken; [|exact Hok]. intros i Hi. by right.
  - destruct (s_granted s !! id) as [n|] eqn:E; cbn [from_option]; unfold Datatypes.id; [|done].
    pose proof (total_delete _ _ _ E) as Ht.
    assert (ok (init - n) used (Sem (s_avail s) (s_queue s) (delete id (s_granted s)))) as Hok'.
    { constructor; cbn; auto; [lia| |].
      - intros i Hi. destruct (decide (i = id)) as [->|?]; [apply lookup_delete|]. rewrite lookup_delete_ne by congruence. auto.
      - intros i [m Hi]. apply lookup_delete_Some in Hi as [_ Hi]. eauto. }
    assert (init = n + (init - n)) as -> by lia. apply give_back_ok; [exact Hok'|]. apply Hok'.
  - cbn [from_option]; unfold Datatypes.id. match goal with |- context [give_back ?m _] => set (n := m) end.
    pose proof (sum_filter (fun x => q_id x = id) (s_queue s)) as Hs. 
    assert (sum_list (map q_has (s_queue s)) = n + sum_list (map q_has (filter (fun x => q_id x <> id) (s_queue s)))) as Hs' by exact Hs.
    clear Hs. rename Hs' into Hs.
    assert (ok (init - n) used (Sem (s_avail s) (filter (fun x => q_id x <> id) (s_queue s)) (s_granted s))) as Hok'.
    { assert (forall i, i ∈ map q_id (filter (fun x => q_id x <> id) (s_queue s)) -> i ∈ map q_id (s_queue s)) as Hsub.
      { intros i Hi. apply elem_of_list_fmap in Hi as (x & -> & Hx). apply elem_of_list_filter in Hx as [_ Hx]. by apply elem_of_list_fmap_1. }
      constructor; cbn; auto.
      - lia.
      - clear -H2. induction (s_queue s) as [|x l IH]; [constructor|]. cbn in H2. inversion H2 as [|? ? Hx Hl]; subst.
        destruct (decide (q_id x <> id)) as [Hp|Hp]; [rewrite filter_cons_True by done|rewrite filter_cons_False by done; auto].
        cbn. constructor; [|auto]. intros Hi. apply Hx. apply elem_of_list_fmap in Hi as (y & Hy & Hyl).
        apply elem_of_list_filter in Hyl as [_ Hyl]. rewrite Hy. by apply elem_of_list_fmap_1.
      - intros Hne. apply H6. intros Hq. rewrite Hq in Hne. done.
      - intros x Hx. apply elem_of_list_filter in Hx as [_ Hx]. auto. }
    assert (n <= init) as Hn by lia. clearbody n.
    assert (init = n + (init - n)) as E by lia. rewrite E. apply give_back_ok; [exact Hok'|]. apply Hok'.
Qed.
Lemma run_ok k cs : proper cs -> exists used, (forall i, i ∈ used -> i ∈ concat (map request_of cs)) /\ ok k used (sem_run cs (sem_new k)).
Proof.
  induction cs as [|c cs IH] using rev_ind; intros Hp.
  - exists []. split; [done|]. constructor; cbn.
    + unfold total. rewrite map_fold_empty. lia.
    + constructor.
    + done.
    + intros i Hi. by apply elem_of_nil in Hi.
    + intros i Hi. rewrite lookup_empty in Hi. by destruct Hi.
    + done.
    + intros x Hx. by apply elem_of_nil in Hx.
  - unfold proper in *. rewrite map_app, concat_app in Hp. apply NoDup_app in Hp as (P1 & P2 & P3).
    destruct (IH P1) as (used & Hu & Hok). exists (request_of c ++ used). split.
    + rewrite map_app, concat_app. intros i [Hi|Hi]%elem_of_app; apply elem_of_app; [right; cbn; by rewrite app_nil_r|left; auto].
    + unfold sem_run. rewrite foldl_snoc. apply (step_ok k used _ c Hok). intros i Hi Hi'. apply (P2 i); [by apply Hu|]. cbn. by rewrite app_nil_r.
Qed.

(** At every moment of every history the permits handed out, those available and those set aside for
    requests still waiting for more add up to the initial number. *)
Theorem C69_conserved : forall k cs, proper cs -> let s := sem_run cs (sem_new k) in granted s + s_avail s + set_aside s = k.
Proof. intros k cs Hp s. destruct (run_ok k cs Hp) as (u & _ & [H _ _ _ _ _ _]). unfold s, granted, set_aside. unfold total in H. lia. Qed.
Print Assumptions C69_conserved.
(** Never more permits are out than there are. *)
Theorem C69_bounded : forall k cs, proper cs -> granted (sem_run cs (sem_new k)) <= k.
Proof. intros k cs Hp. pose proof (C69_conserved k cs Hp). cbn in *. lia. Qed.
Print Assumptions C69_bounded.
(** If permits are requested one at a time, nothing is ever set aside. *)
Definition one_each (c : sem_call) : Prop := match c with SAcquire _ n => n = 1 | _ => True end.
Lemma hand_out_single n q g a q' g' : hand_out n q g = (a, q', g') -> Forall (fun x => q_needs x = 1 /\ q_has x = 0) q -> Forall (fun x => q_needs x = 1 /\ q_has x = 0) q'.
Proof.
  revert n g. induction q as [|x q IH]; intros n g; cbn; [by intros [= <- <- <-]|]. intros H Hf. inversion Hf as [|? ? [Hx Hx'] Hq]; subst.
  destruct (decide (q_needs x <= n)) as [Hle|Hlt]; [by eapply IH|]. injection H as <- <- <-. constructor; [cbn|done]. lia.
Qed.
Theorem C69_conserved_single : forall k cs, proper cs -> Forall one_each cs -> let s := sem_run cs (sem_new k) in granted s + s_avail s = k.
Proof.
  intros k cs Hp Ho s. pose proof (C69_conserved k cs Hp) as Hc. fold s in Hc. cbn in Hc.
  assert (Forall (fun x => q_needs x = 1 /\ q_has x = 0) (s_queue s)) as Hq.
  { subst s. clear Hp Hc. induction cs as [|c cs IH] using rev_ind; [constructor|]. apply Forall_app in Ho as [Ho Hc]. apply Forall_inv in Hc.
    specialize (IH Ho). unfold sem_run in *. rewrite foldl_snoc. set (s := foldl _ _ cs) in *.
    assert (forall n s, Forall (fun x => q_needs x = 1 /\ q_has x = 0) (s_queue s) -> Forall (fun x => q_needs x = 1 /\ q_has x = 0) (s_queue (give_back n s))) as Hg.
    { intros n s1 H. unfold give_back. destruct (hand_out n (s_queue s1) (s_granted s1)) as [[a q'] g'] eqn:E. by eapply hand_out_single. }
    destruct c as [id n|id|id|id]; cbn in Hc |- *.
    - subst n. destruct (decide (1 <= s_avail s)); cbn; [done|]. apply Forall_app; split; [done|]. repeat constructor; cbn; lia.
    - by destruct (decide (1 <= s_avail s)).
    - destruct (s_granted s !! id); cbn; [by apply Hg|done].
    - apply Hg; cbn. apply Forall_forall. intros x Hx. apply elem_of_list_filter in Hx as [_ Hx]. by apply (proj1 (Forall_forall _ _) IH). }
  assert (set_aside s = 0) as Hz; [|lia]. unfold set_aside. induction Hq as [|x q [_ Hx] Hq IH]; [done|]. cbn. lia.
Qed.
Print Assumptions C69_conserved_single.
(** try_acquire fails exactly when no permit is available; otherwise it takes one. *)
Theorem C69_try_acquire : forall s id,
  (sem_step (STryAcquire id) s = None <-> s_avail s = 0) /\
  (forall s', sem_step (STryAcquire id) s = Some s' -> s_avail s = S (s_avail s') /\ s_granted s' = <[id := 1]> (s_granted s) /\ s_queue s' = s_queue s).
Proof.
  intros s id. cbn. destruct (decide (1 <= s_avail s)); split; try (split; [discriminate|lia]); try (split; [lia|done]); try discriminate.
  intros s' [= <-]. cbn. split_and!; auto. lia.
Qed.
Print Assumptions C69_try_acquire.
(** Nobody waits while permits are available: a waiting request cannot be overtaken, not even by
    try_acquire. *)
Theorem C69_no_overtaking : forall k cs id, proper cs -> let s := sem_run cs (sem_new k) in
  s_queue s <> [] -> s_avail s = 0 /\ sem_step (STryAcquire id) s = None.
Proof.
  intros k cs id Hp s Hq. destruct (run_ok k cs Hp) as (u & _ & Hok). pose proof (ok_fair _ _ _ Hok Hq) as Ha. fold s in Ha.
  split; [done|]. by apply (proj1 (C69_try_acquire s id)).
Qed.
Print Assumptions C69_no_overtaking.
(** Dropping a permit of [n]: the waiting requests are served strictly in order - the first ones get
    all they asked for, the next one is short, the rest gets nothing. *)
Theorem C69_in_order : forall k cs id n, proper cs -> let s := sem_run cs (sem_new k) in s_granted s !! id = Some n ->
  exists s' served rest, sem_step (SDrop id) s = Some s' /\ s_queue s = served ++ rest /\ map q_id (s_queue s') = map q_id rest /\
    s_granted s' = serve (delete id (s_granted s)) served /\
    (rest <> [] -> sum_list (map q_needs served) + q_needs (hd (Waiter 0 0 0) rest) > n).
Proof.
  intros k cs id n Hp s Hg. destruct (run_ok k cs Hp) as (u & _ & Hok). fold s in Hok. cbn. rewrite Hg. unfold give_back. cbn.
  destruct (hand_out n (s_queue s) (delete id (s_granted s))) as [[a q'] g'] eqn:E.
  apply hand_out_spec in E as (sv & rest & Hq & -> & Hid & Hw & Hsum & Hfair & Hpos & Hshort); [|apply Hok].
  eexists _, sv, rest. split; [reflexivity|]. cbn. auto.
Qed.
Print Assumptions C69_in_order.
(** non-vacuity: two permits; three requests, the third waits; a fourth one for two waits behind it; a
    drop serves the third; another drop gives the fourth one half of what it needs. *)
Example C69_example :
  let s := sem_run [SAcquire 1 1; STryAcquire 2; SAcquire 3 1; SAcquire 4 2; SDrop 1] (sem_new 2) in
  s_avail s = 0 /\ s_granted s !! 3%N = Some 1 /\ s_queue s = [Waiter 4 2 0] /\ granted s = 2 /\
  let s' := sem_run [SDrop 2] s in s_queue s' = [Waiter 4 1 1] /\ granted s' = 1 /\ set_aside s' = 1 /\
  let s2 := sem_run [SCancel 4] s' in s_avail s2 = 1 /\ s_queue s2 = [].
Proof. vm_compute. auto 12. Qed.
