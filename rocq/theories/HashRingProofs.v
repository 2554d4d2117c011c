(** Proofs about the hash ring model. *)
From stdpp Require Import base list gmap numbers sorting.
From Coq Require Import Lia ZifyNat ZifyN.
From Verif Require Import Prog ProgProofs HashRing HashRingSpec.

Local Open Scope N_scope.

Notation ssorted := (StronglySorted N.lt).

Lemma ssorted_nth keys i j :
  ssorted keys -> (i < j)%nat -> (j < length keys)%nat ->
  nth i keys 0 < nth j keys 0.
Proof.
  intros Hs; revert i j; induction Hs as [|a l Hs IH Hall]; intros i j Hij Hj; cbn in Hj; [lia|].
  destruct j as [|j]; [lia|]. destruct i as [|i]; cbn.
  - rewrite Forall_forall in Hall. apply Hall. apply elem_of_list_In, nth_In. lia.
  - apply IH; lia.
Qed.

(** The loop invariant: everything before [base] is <= key (and base itself, if moved),
    everything from base+size on is > key. *)
Lemma bs_loop_spec fuel keys key base size :
  ssorted keys -> (size <= fuel)%nat -> (1 <= size)%nat ->
  (base + size <= length keys)%nat ->
  (base = 0%nat \/ nth base keys 0 <= key) ->
  (forall j, (base + size <= j < length keys)%nat -> key < nth j keys 0) ->
  let r := bs_loop fuel keys key base size in
  (r < length keys)%nat /\
  (r = 0%nat \/ nth r keys 0 <= key) /\
  (forall j, (r < j < length keys)%nat -> key < nth j keys 0).
Proof.
  intros Hs; revert base size; induction fuel as [|fuel IH]; intros base size Hf H1 Hlen Hlo Hhi; [lia|].
  cbn [bs_loop]. destruct (Nat.leb_spec size 1) as [Hle|Hgt].
  - cbn. split; [lia|]. split; [exact Hlo|]. intros j Hj. apply Hhi. lia.
  - pose proof (Nat.div2_odd size) as Hd.
    assert (Hh : (Nat.div2 size < size /\ 1 <= Nat.div2 size)%nat).
    { destruct (Nat.odd size); cbn in Hd; lia. }
    destruct (N.compare_spec (nth (base + Nat.div2 size) keys 0) key) as [He|Hl|Hg].
    + apply IH; try lia. intros j Hj. apply Hhi. lia.
    + apply IH; try lia. intros j Hj. apply Hhi. lia.
    + apply IH; try lia. intros j Hj.
      destruct (decide (j = base + Nat.div2 size)%nat) as [->|Hne]; [exact Hg|].
      assert (nth (base + Nat.div2 size) keys 0 < nth j keys 0) by (apply ssorted_nth; auto; lia). lia.
Qed.

Lemma binary_search_spec keys key :
  ssorted keys ->
  match binary_search keys key with
  | inl i => (i < length keys)%nat /\ nth i keys 0 = key
  | inr i => (i <= length keys)%nat /\
             (forall j, (j < i)%nat -> nth j keys 0 < key) /\
             (forall j, (i <= j < length keys)%nat -> key < nth j keys 0)
  end.
Proof.
  intros Hs. unfold binary_search. destruct (length keys) as [|n] eqn:E; [cbn; repeat split; lia|].
  pose proof (bs_loop_spec (S n) keys key 0 (S n) Hs) as H.
  cbv zeta in H. rewrite E in H. specialize (H ltac:(lia) ltac:(lia) ltac:(lia) ltac:(auto)
    ltac:(intros; lia)).
  set (b := bs_loop (S n) keys key 0 (S n)) in *. clearbody b.
  destruct H as (Hb & Hlo & Hhi).
  destruct (N.compare_spec (nth b keys 0) key) as [He|Hl|Hg].
  - auto.
  - split; [lia|]. split.
    + intros j Hj. destruct (decide (j = b)) as [->|]; [exact Hl|].
      assert (nth j keys 0 < nth b keys 0) by (apply ssorted_nth; auto; lia). lia.
    + intros j Hj. apply Hhi. lia.
  - split; [lia|]. split.
    + intros j Hj. assert (nth j keys 0 < nth b keys 0) by (apply ssorted_nth; auto; lia).
      destruct Hlo; [lia|]. lia.
    + intros j Hj. destruct (decide (j = b)) as [->|]; [exact Hg|]. apply Hhi. lia.
Qed.

Section proofs.
  Context {K V : Type} (hash : K -> N).

  (** Abstraction: the sorted vector as a finite map. *)
  Definition tbl (l : list (N * V)) : gmap N V := list_to_map l.
  Notation sorted l := (ssorted (map fst l)).

  Lemma nth_key (l : list (N * V)) i h v : l !! i = Some (h, v) -> nth i (map fst l) 0 = h.
  Proof. intros H. apply nth_lookup_Some. change (map fst l) with (l.*1). rewrite list_lookup_fmap, H. reflexivity. Qed.

  Lemma sorted_app (l1 l2 : list (N * V)) :
    sorted (l1 ++ l2) <->
    sorted l1 /\ sorted l2 /\
    forall a b, a ∈ l1 -> b ∈ l2 -> fst a < fst b.
  Proof.
    rewrite map_app. induction l1 as [|x l1 IH]; cbn.
    - split; [intros H; split; [constructor|split; [exact H|set_solver]] | intros (_ & H & _); exact H].
    - split.
      + intros H. inversion H as [|? ? Hs Hall]; subst. apply IH in Hs as (H1 & H2 & H3).
        rewrite Forall_app in Hall. destruct Hall as [Ha1 Ha2].
        split; [constructor; auto|]. split; [exact H2|].
        intros a b Ha Hb. apply elem_of_cons in Ha as [->|Ha]; [|auto].
        rewrite Forall_forall in Ha2. apply Ha2. apply elem_of_list_In, in_map, elem_of_list_In, Hb.
      + intros (H1 & H2 & H3). inversion H1 as [|? ? Hs Hall]; subst.
        constructor.
        * apply IH. split; [exact Hs|]. split; [exact H2|]. intros; apply H3; set_solver.
        * apply Forall_app; split; [exact Hall|]. rewrite Forall_forall. intros h Hh.
          apply elem_of_list_In, in_map_iff in Hh as (b & <- & Hb).
          apply H3; [set_solver | apply elem_of_list_In, Hb].
  Qed.

  Lemma sorted_nodup (l : list (N * V)) : sorted l -> NoDup (l.*1).
  Proof.
    intros H. change (l.*1) with (map fst l). induction H as [|a l' Hs IH Hall]; constructor; auto.
    intros Hin. rewrite Forall_forall in Hall. specialize (Hall _ Hin). lia.
  Qed.

  Lemma tbl_app l1 l2 : tbl (l1 ++ l2) = tbl l1 ∪ tbl l2.
  Proof. apply list_to_map_app. Qed.

  Lemma tbl_lookup_None (l : list (N * V)) h : (forall a, a ∈ l -> fst a <> h) -> tbl l !! h = None.
  Proof. intros H. apply not_elem_of_list_to_map. intros ((h', v) & -> & Hin)%elem_of_list_fmap.
    apply (H _ Hin). reflexivity. Qed.

  Lemma tbl_elem l h v : sorted l -> tbl l !! h = Some v <-> (h, v) ∈ l.
  Proof. intros H. symmetry. apply elem_of_list_to_map, sorted_nodup, H. Qed.

  (** Splitting the vector where the binary search points. *)
  Lemma search_split (l : list (N * V)) h :
    sorted l ->
    match binary_search (map fst l) h with
    | inl i => exists v, l = take i l ++ (h, v) :: drop (S i) l /\ l !! i = Some (h, v)
                 /\ (forall a, a ∈ take i l -> fst a < h) /\ (forall a, a ∈ drop (S i) l -> h < fst a)
                 /\ (i < length l)%nat
    | inr i => (forall a, a ∈ take i l -> fst a < h) /\ (forall a, a ∈ drop i l -> h < fst a)
                 /\ (i <= length l)%nat
    end.
  Proof.
    intros Hs. pose proof (binary_search_spec _ h Hs) as H.
    destruct (binary_search (map fst l) h) as [i|i].
    - destruct H as [Hi Hn]. rewrite map_length in Hi.
      destruct (l !! i) as [[h' v]|] eqn:E; [|apply lookup_ge_None in E; lia].
      assert (h' = h).
      { rewrite <- Hn, (nth_key _ _ _ _ E). reflexivity. }
      subst h'. exists v.
      assert (Hsplit : l = take i l ++ (h, v) :: drop (S i) l).
      { rewrite <- (take_drop i l) at 1. f_equal.
        apply drop_S. exact E. }
      split; [exact Hsplit|]. split; [reflexivity|].
      rewrite Hsplit in Hs. apply sorted_app in Hs as (H1 & H2 & H3).
      split; [intros a Ha; apply (H3 a (h, v)); [exact Ha|set_solver]|].
      split; [|exact Hi]. intros a Ha.
      change ((h, v) :: drop (S i) l) with ([(h, v)] ++ drop (S i) l) in H2.
      apply sorted_app in H2 as (_ & _ & H4). apply (H4 (h, v) a); [set_solver | exact Ha].
    - rewrite map_length in H. destruct H as (Hi & Hlo & Hhi). split; [|split; [|exact Hi]].
      + intros [a v] Ha. apply elem_of_take in Ha as (j & Hj & Hlt).
        specialize (Hlo j Hlt). rewrite (nth_key _ _ _ _ Hj) in Hlo. exact Hlo.
      + intros [a v] Ha. apply elem_of_list_lookup in Ha as (j & Hj). rewrite lookup_drop in Hj.
        pose proof (lookup_lt_Some _ _ _ Hj) as Hlt.
        specialize (Hhi (i + j)%nat ltac:(lia)). rewrite (nth_key _ _ _ _ Hj) in Hhi. exact Hhi.
  Qed.

  Lemma tbl_mid (l1 l2 : list (N * V)) h v :
    (forall a, a ∈ l1 -> fst a < h) -> tbl (l1 ++ (h, v) :: l2) = <[h := v]> (tbl (l1 ++ l2)).
  Proof.
    intros H. rewrite !tbl_app. cbn. rewrite <- insert_union_r; [reflexivity|].
    apply tbl_lookup_None. intros a Ha He. specialize (H a Ha). lia.
  Qed.

  Lemma sorted_mid (l1 l2 : list (N * V)) h v :
    sorted (l1 ++ l2) -> (forall a, a ∈ l1 -> fst a < h) -> (forall a, a ∈ l2 -> h < fst a) ->
    sorted (l1 ++ (h, v) :: l2).
  Proof.
    intros Hs Hlo Hhi. apply sorted_app in Hs as (H1 & H2 & H3). apply sorted_app.
    split; [exact H1|]. split.
    - cbn. constructor; [exact H2|]. rewrite Forall_forall. intros x Hx.
      apply elem_of_list_In, in_map_iff in Hx as (b & <- & Hb). apply Hhi, elem_of_list_In, Hb.
    - intros a b Ha [->|Hb]%elem_of_cons; [apply Hlo, Ha | apply H3; assumption].
  Qed.

  Lemma vec_put_spec l h v :
    sorted l ->
    sorted (fst (vec_put l h v)) /\ tbl (fst (vec_put l h v)) = <[h := v]> (tbl l) /\
    snd (vec_put l h v) = tbl l !! h.
  Proof.
    intros Hs. pose proof (search_split l h Hs) as H. unfold vec_put.
    destruct (binary_search (map fst l) h) as [i|i]; cbn.
    - destruct H as (v0 & Hl & Hn & Hlo & Hhi & _).
      assert (Hs' : sorted (take i l ++ drop (S i) l)).
      { rewrite Hl in Hs. apply sorted_app in Hs as (H1 & H2 & H3). apply sorted_app.
        split; [exact H1|]. split; [cbn in H2; inversion H2; assumption|]. intros; apply H3; set_solver. }
      split; [apply sorted_mid; assumption|]. rewrite tbl_mid by assumption.
      assert (Ht : tbl l = <[h := v0]> (tbl (take i l ++ drop (S i) l))).
      { rewrite Hl at 1. apply tbl_mid; assumption. }
      rewrite Ht, insert_insert, lookup_insert, Hn. split; reflexivity.
    - destruct H as (Hlo & Hhi & _).
      split; [apply sorted_mid; rewrite ?take_drop; assumption|].
      rewrite tbl_mid, take_drop by assumption. split; [reflexivity|].
      symmetry. apply tbl_lookup_None. intros a Ha He. rewrite <- (take_drop i l) in Ha.
      apply elem_of_app in Ha as [Ha|Ha]; [specialize (Hlo _ Ha) | specialize (Hhi _ Ha)]; lia.
  Qed.

  Lemma vec_del_spec l h :
    sorted l ->
    sorted (fst (vec_del l h)) /\ tbl (fst (vec_del l h)) = delete h (tbl l) /\
    snd (vec_del l h) = tbl l !! h /\
    (binary_search (map fst l) h = inr (match binary_search (map fst l) h with inl i => i | inr i => i end)
      -> fst (vec_del l h) = l /\ tbl l !! h = None).
  Proof.
    intros Hs. pose proof (search_split l h Hs) as H. unfold vec_del.
    destruct (binary_search (map fst l) h) as [i|i] eqn:Eb; cbn.
    - destruct H as (v0 & Hl & Hn & Hlo & Hhi & _).
      assert (Hs' : sorted (take i l ++ drop (S i) l)).
      { rewrite Hl in Hs. apply sorted_app in Hs as (H1 & H2 & H3). apply sorted_app.
        split; [exact H1|]. split; [cbn in H2; inversion H2; assumption|]. intros; apply H3; set_solver. }
      split; [assumption|].
      assert (Ht : tbl l = <[h := v0]> (tbl (take i l ++ drop (S i) l))).
      { rewrite Hl at 1. apply tbl_mid; assumption. }
      rewrite Ht, lookup_insert, Hn, delete_insert; [split; [reflexivity|split; [reflexivity|discriminate]]|].
      apply tbl_lookup_None. intros a Ha He.
      apply elem_of_app in Ha as [Ha|Ha]; [specialize (Hlo _ Ha) | specialize (Hhi _ Ha)]; lia.
    - destruct H as (Hlo & Hhi & _). split; [assumption|].
      assert (tbl l !! h = None).
      { apply tbl_lookup_None. intros a Ha He. rewrite <- (take_drop i l) in Ha.
        apply elem_of_app in Ha as [Ha|Ha]; [specialize (Hlo _ Ha) | specialize (Hhi _ Ha)]; lia. }
      rewrite delete_notin by assumption. auto.
  Qed.

  Lemma vec_put_all_spec l kvs :
    sorted l ->
    sorted (vec_put_all hash l kvs) /\
    tbl (vec_put_all hash l kvs) = over_put_all hash (tbl l) kvs.
  Proof.
    unfold vec_put_all, over_put_all. revert l; induction kvs as [|[k v] kvs IH]; intros l Hs; cbn [fold_left fst snd]; [auto|].
    destruct (vec_put_spec l (hash k) v Hs) as (H1 & H2 & _).
    destruct (IH _ H1) as [H3 H4]. split; [exact H3|]. etransitivity; [exact H4|]. rewrite H2. reflexivity.
  Qed.

  Lemma vec_find_spec l h : sorted l -> lookup_answer (tbl l) h (vec_find l h).
  Proof.
    intros Hs. unfold vec_find. destruct l as [|[h0 v0] l]; [reflexivity|].
    set (L := (h0, v0) :: l) in *.
    pose proof (search_split L h Hs) as H.
    assert (Hmin : forall x, is_Some (tbl L !! x) -> h0 <= x).
    { intros x [v Hv]. apply tbl_elem in Hv; [|exact Hs]. unfold L in Hv.
      apply elem_of_cons in Hv as [[= -> ->]|Hv]; [lia|].
      change L with ([(h0, v0)] ++ l) in Hs. apply sorted_app in Hs as (_ & _ & H3).
      specialize (H3 (h0, v0) (x, v) ltac:(set_solver) Hv). cbn in H3. lia. }
    destruct (binary_search (map fst L) h) as [i|i].
    - destruct H as (v & Hl & Hn & Hlo & Hhi & Hi).
      destruct (Nat.eqb_spec i (length L)) as [E|_]; [lia|]. rewrite Hn. cbn [fmap option_fmap option_map].
      exists h. split; [apply tbl_elem; [exact Hs|]; rewrite Hl; set_solver|].
      left. split; [lia|auto].
    - destruct H as (Hlo & Hhi & Hi).
      destruct (Nat.eqb_spec i (length L)) as [E|Hne].
      + exists h0. split; [apply tbl_elem; [exact Hs | set_solver]|]. right. split; [|exact Hmin].
        intros x [v Hv]. apply tbl_elem in Hv; [|exact Hs].
        rewrite take_ge in Hlo by lia. apply (Hlo _ Hv).
      + destruct (L !! i) as [[hi vi]|] eqn:En; [|apply lookup_ge_None in En; lia].
        cbn [fmap option_fmap option_map snd]. exists hi.
        assert (Hd : drop i L = (hi, vi) :: drop (S i) L).
        { apply drop_S. exact En. }
        split; [apply tbl_elem; [exact Hs|]; rewrite <- (take_drop i L), Hd; set_solver|].
        left. split; [specialize (Hhi (hi, vi)); cbn in Hhi; rewrite Hd in Hhi; specialize (Hhi ltac:(set_solver)); lia|].
        intros x [v Hv] Hx. apply tbl_elem in Hv; [|exact Hs].
        rewrite <- (take_drop i L) in Hv. apply elem_of_app in Hv as [Hv|Hv].
        * specialize (Hlo _ Hv). cbn in Hlo. lia.
        * rewrite Hd in Hv. apply elem_of_cons in Hv as [[= -> ->]|Hv]; [lia|].
          rewrite <- (take_drop i L), Hd in Hs. apply sorted_app in Hs as (_ & H2 & _).
          change ((hi, vi) :: drop (S i) L) with ([(hi, vi)] ++ drop (S i) L) in H2.
          apply sorted_app in H2 as (_ & _ & H3).
          specialize (H3 (hi, vi) (x, v) ltac:(set_solver) Hv). cbn in H3. lia.
  Qed.

  (** The answer is determined by the table. *)
  Lemma clockwise_owner_unique (m : gmap N V) h v v' :
    clockwise_owner m h v -> clockwise_owner m h v' -> v = v'.
  Proof.
    intros (x & Hx & Cx) (y & Hy & Cy).
    assert (x = y).
    { assert (is_Some (m !! x)) by eauto. assert (is_Some (m !! y)) by eauto.
      destruct Cx as [[Cx1 Cx2]|[Cx1 Cx2]], Cy as [[Cy1 Cy2]|[Cy1 Cy2]].
      - specialize (Cx2 y ltac:(auto) Cy1). specialize (Cy2 x ltac:(auto) Cx1). lia.
      - specialize (Cy1 x ltac:(auto)). lia.
      - specialize (Cx1 y ltac:(auto)). lia.
      - specialize (Cx2 y ltac:(auto)). specialize (Cy2 x ltac:(auto)). lia. }
    subst y. congruence.
  Qed.

  Lemma clockwise_owner_ne (m : gmap N V) h v : clockwise_owner m h v -> m <> ∅.
  Proof. intros (x & Hx & _) ->. rewrite lookup_empty in Hx. discriminate. Qed.

  Lemma lookup_answer_unique (m : gmap N V) h r r' :
    lookup_answer m h r -> lookup_answer m h r' -> r = r'.
  Proof.
    destruct r, r'; cbn; intros H1 H2; try reflexivity.
    - f_equal. eapply clockwise_owner_unique; eauto.
    - apply clockwise_owner_ne in H1. contradiction.
    - apply clockwise_owner_ne in H2. contradiction.
  Qed.

  (** ** Histories *)
  Definition rinv (r : ring V) : Prop := sorted (r_ring r).

  Lemma ring_step_inv r o : rinv r -> rinv (fst (ring_step hash r o)).
  Proof.
    unfold rinv; intros H. destruct o; cbn; auto.
    - pose proof (vec_put_spec (r_ring r) (hash k) v H) as (H1 & _).
      destruct (vec_put (r_ring r) (hash k) v); exact H1.
    - pose proof (vec_del_spec (r_ring r) (hash k) H) as (H1 & _).
      destruct (vec_del (r_ring r) (hash k)); exact H1.
    - apply vec_put_all_spec, H.
    - apply vec_put_all_spec. constructor.
    - constructor.
  Qed.

  Lemma exec_app (ops ops' : list (ring_op K V)) :
    ring_exec hash (ops ++ ops') = fold_left (fun r o => fst (ring_step hash r o)) ops' (ring_exec hash ops).
  Proof. unfold ring_exec. apply fold_left_app. Qed.

  Lemma exec_snoc (ops : list (ring_op K V)) o : ring_exec hash (ops ++ [o]) = fst (ring_step hash (ring_exec hash ops) o).
  Proof. rewrite exec_app. reflexivity. Qed.

  Lemma ring_exec_inv (ops : list (ring_op K V)) : rinv (ring_exec hash ops).
  Proof.
    induction ops as [|o ops IH] using rev_ind; [constructor|].
    rewrite exec_snoc. apply ring_step_inv, IH.
  Qed.

  Lemma ring_step_tbl r o :
    rinv r -> tbl (r_ring (fst (ring_step hash r o))) = table_step hash (tbl (r_ring r)) o.
  Proof.
    unfold rinv; intros H. destruct o; cbn; auto.
    - pose proof (vec_put_spec (r_ring r) (hash k) v H) as (_ & H1 & _).
      destruct (vec_put (r_ring r) (hash k) v); exact H1.
    - pose proof (vec_del_spec (r_ring r) (hash k) H) as (_ & H1 & _).
      destruct (vec_del (r_ring r) (hash k)); exact H1.
    - apply vec_put_all_spec, H.
    - apply (vec_put_all_spec []). constructor.
  Qed.

  Lemma ring_step_out r o :
    rinv r -> match o with
              | AddNode k _ | RemoveNode k => snd (ring_step hash r o) = tbl (r_ring r) !! hash k
              | _ => True end.
  Proof.
    unfold rinv; intros H. destruct o; cbn; auto.
    - pose proof (vec_put_spec (r_ring r) (hash k) v H) as (_ & _ & H1).
      destruct (vec_put (r_ring r) (hash k) v); exact H1.
    - pose proof (vec_del_spec (r_ring r) (hash k) H) as (_ & _ & H1 & _).
      destruct (vec_del (r_ring r) (hash k)); exact H1.
  Qed.

  Lemma over_put_all_lookup (m : gmap N V) kvs h :
    over_put_all hash m kvs !! h =
    match list_find (fun kv => hash (fst kv) = h) (rev kvs) with
    | Some (_, (_, v)) => Some v
    | None => m !! h
    end.
  Proof.
    unfold over_put_all. rewrite <- fold_left_rev_right.
    induction (rev kvs) as [|[k v] l IH]; cbn; [reflexivity|].
    destruct (decide (hash k = h)) as [->|Hne].
    - rewrite lookup_insert. reflexivity.
    - rewrite lookup_insert_ne by exact Hne. rewrite IH.
      destruct (list_find _ l) as [[? [? ?]]|]; reflexivity.
  Qed.

  Lemma serial_app (ov m : gmap N V) l l' :
    serial hash ov m (l ++ l') <->
    serial hash ov m l /\ serial hash ov (fold_left (table_step hash) (l.*1) m) l'.
  Proof.
    revert m; induction l as [|[o res] l IH]; intros m; cbn; [tauto|].
    rewrite IH. tauto.
  Qed.

  Lemma over_put_all_put_all (m : gmap N V) kvs : over_put_all hash m kvs = put_all hash m kvs.
  Proof. reflexivity. Qed.

  Lemma ring_exec_tbl (ops : list (ring_op K V)) : tbl (r_ring (ring_exec hash ops)) = table_after hash ops.
  Proof.
    induction ops as [|o ops IH] using rev_ind; [reflexivity|].
    rewrite exec_snoc, ring_step_tbl by apply ring_exec_inv.
    unfold table_after. rewrite fold_left_app. cbn. f_equal. exact IH.
  Qed.

  Lemma ring_exec_over (ops : list (ring_op K V)) : r_over (ring_exec hash ops) = overrides_after hash ops.
  Proof.
    induction ops as [|o ops IH] using rev_ind; [reflexivity|].
    rewrite exec_snoc. unfold overrides_after. rewrite fold_left_app. cbn.
    fold (overrides_after hash ops). rewrite <- IH. generalize (ring_exec hash ops); intros r.
    destruct o; cbn; try reflexivity.
    - destruct (vec_put _ _ _); reflexivity.
    - destruct (vec_del _ _); reflexivity.
  Qed.

  Lemma ring_result ops (o : ring_op K V) :
    result_ok hash (overrides_after hash ops) (table_after hash ops) o
              (snd (ring_step hash (ring_exec hash ops) o)).
  Proof.
    pose proof (ring_exec_inv ops) as Hi. rewrite <- ring_exec_tbl, <- ring_exec_over.
    pose proof (ring_step_out (ring_exec hash ops) o Hi) as Ho.
    destruct o; cbn -[ring_step] in *; try exact Ho; try reflexivity.
    cbn. destruct (r_over _ !! _); [reflexivity|]. apply vec_find_spec, Hi.
  Qed.

  (** Owners when the table gains or loses one position. *)
  Lemma clockwise_exists (m : gmap N V) h : m <> ∅ -> exists v, clockwise_owner m h v.
  Proof.
    intros Hne.

    pose proof (vec_find_spec) as Hv.
    (* build a sorted vector holding m with the model's own insertion *)
    assert (exists l, sorted l /\ tbl l = m) as (l' & Hs & Ht).
    { clear. induction m as [|i x m Hi IH] using map_ind.
      - exists []. split; [constructor|reflexivity].
      - destruct IH as (l & Hs & Ht). exists (fst (vec_put l i x)).
        destruct (vec_put_spec l i x Hs) as (H1 & H2 & _). rewrite H2, Ht. auto. }
    specialize (Hv l' h Hs). rewrite Ht in Hv. destruct (vec_find l' h); cbn in Hv; [eauto|contradiction].
  Qed.

  Lemma owner_insert (m : gmap N V) k v h r r' :
    lookup_answer m h r -> lookup_answer (<[k := v]> m) h r' -> r' <> r -> r' = Some v.
  Proof.
    intros H1 H2 Hne. destruct r' as [v'|].
    2:{ cbn in H2. exfalso. revert H2. apply insert_non_empty. }
    destruct H2 as (h' & Hh' & C). destruct (decide (h' = k)) as [->|Hk].
    { rewrite lookup_insert in Hh'. congruence. }
    exfalso. apply Hne. symmetry. eapply lookup_answer_unique; [exact H1|]. cbn.
    rewrite lookup_insert_ne in Hh' by congruence. exists h'. split; [exact Hh'|].
    destruct C as [[C1 C2]|[C1 C2]]; [left; split; [exact C1|]|right; split].
    - intros x Hx Hle. apply C2; [|exact Hle]. apply lookup_insert_is_Some'. auto.
    - intros x Hx. apply C1. apply lookup_insert_is_Some'. auto.
    - intros x Hx. apply C2. apply lookup_insert_is_Some'. auto.
  Qed.

  Lemma owner_delete (m : gmap N V) k h r r' :
    lookup_answer m h r -> lookup_answer (delete k m) h r' -> r' <> r ->
    exists v, m !! k = Some v /\ r = Some v.
  Proof.
    intros H1 H2 Hne. destruct r as [v'|].
    2:{ cbn in H1. subst m. rewrite delete_empty in H2. exfalso. apply Hne. destruct r'; [|reflexivity].
        apply clockwise_owner_ne in H2. contradiction. }
    destruct H1 as (h' & Hh' & C). destruct (decide (h' = k)) as [->|Hk]; [eauto|].
    exfalso. apply Hne. eapply lookup_answer_unique; [exact H2|]. cbn.
    exists h'. split; [rewrite lookup_delete_ne by congruence; exact Hh'|].
    assert (Hd : forall x, is_Some (delete k m !! x) -> is_Some (m !! x)).
    { intros x [y Hy]. apply lookup_delete_Some in Hy as [_ Hy]. eauto. }
    destruct C as [[C1 C2]|[C1 C2]]; [left|right]; split; auto.
  Qed.
End proofs.
