(** How the registration of a process and the table of names may change, action by action. *)
From stdpp Require Import base list gmap numbers strings countable sorting relations.
From Coq Require Import Lia.
From Verif Require Import Prog ProgProofs ProgInv Types Mailbox World ProcApi NodeApi Api Steps Hist Labels SchedSpec SchedProofs ProcSpec ProcProofs.

Definition renamed (n : option string) (r : registration) : registration := Reg n (r_trap r) (r_exit r) (r_abort r).
Definition retrapped (b : bool) (r : registration) : registration := Reg (r_name r) b (r_exit r) (r_abort r).
Definition reasoned (y : exit_reason) (r : registration) : registration := Reg (r_name r) (r_trap r) (Some y) (r_abort r).

Inductive regchange (i : N) (x : act) (w : world) (np : N) : option registration -> Prop :=
| rc_same : regchange i x w np (w_regs w !! i)
| rc_term why : regchange i x w np (terminated why <$> w_regs w !! i)
| rc_register n r : x = ARegister (PLocal i) n -> w_names w !! n = None -> w_regs w !! i = Some r -> r_name r = None ->
    regchange i x w np (Some (renamed (Some n) r))
| rc_unname : x = AUnname i -> regchange i x w np (renamed None <$> w_regs w !! i)
| rc_flags b : x = ASetFlags i b -> regchange i x w np (retrapped b <$> w_regs w !! i)
| rc_reason y : x = ASetExit i y -> regchange i x w np (reasoned y <$> w_regs w !! i)
| rc_delete : x = ARegDelete i -> regchange i x w np None
| rc_insert : x = AInsert i -> regchange i x w np (Some new_reg)
| rc_spawned : i = w_next_pid w -> (i < np)%N -> regchange i x w np (Some new_reg).
Inductive namechange (n : string) (x : act) (w : world) : option N -> Prop :=
| nc_same : namechange n x w (w_names w !! n)
| nc_register i r : x = ARegister (PLocal i) n -> w_names w !! n = None -> w_regs w !! i = Some r -> r_name r = None -> namechange n x w (Some i)
| nc_delete : x = ANameDelete n -> namechange n x w None.

Lemma rc_eq i x w np (m : gmap N registration) : m = w_regs w -> regchange i x w np (m !! i).
Proof. intros ->. constructor. Qed.
Lemma exit_op_reg i p f y w : w_regs (exit_op p f y w) !! i = w_regs w !! i \/ w_regs (exit_op p f y w) !! i = terminated y <$> w_regs w !! i.
Proof.
  unfold exit_op. destruct (w_regs w !! pid_id p) as [r|] eqn:E; [|auto].
  assert (w_regs (push (pid_id p) (ISystem (SExit f y)) w) = w_regs w) as Hp by (unfold push; case_match; reflexivity).
  destruct (decide (i = pid_id p)) as [->|Hne].
  - rewrite E. repeat case_match; rewrite ?Hp, ?E; cbn; rewrite ?lookup_insert, ?E; first [left; reflexivity | right; reflexivity | right; unfold terminated; congruence].
  - left. repeat case_match; rewrite ?Hp; cbn; rewrite ?lookup_insert_ne by congruence; reflexivity.
Qed.
Lemma exit_linked_op_reg i p f y w : w_regs (exit_linked_op p f y w) !! i = w_regs w !! i \/ w_regs (exit_linked_op p f y w) !! i = terminated y <$> w_regs w !! i.
Proof.
  unfold exit_linked_op. destruct (w_regs w !! pid_id p) as [r|] eqn:E; [|auto].
  assert (w_regs (push (pid_id p) (ISystem (SExit f y)) w) = w_regs w) as Hp by (unfold push; case_match; reflexivity).
  destruct (decide (i = pid_id p)) as [->|Hne].
  - rewrite E. repeat case_match; rewrite ?Hp, ?E; cbn; rewrite ?lookup_insert, ?E; first [left; reflexivity | right; reflexivity | right; unfold terminated; congruence].
  - left. repeat case_match; rewrite ?Hp; cbn; rewrite ?lookup_insert_ne by congruence; reflexivity.
Qed.
Lemma alter_reg (g : registration -> registration) (m : gmap N registration) i j :
  alter g j m !! i = if decide (i = j) then g <$> m !! i else m !! i.
Proof. case_decide; subst; [by rewrite lookup_alter | by rewrite lookup_alter_ne by congruence]. Qed.
Lemma spawned_reg i x w np (m : gmap N registration) : (w_next_pid w < np)%N -> m = <[w_next_pid w := new_reg]> (w_regs w) -> regchange i x w np (m !! i).
Proof.
  intros Hnp ->. destruct (decide (i = w_next_pid w)) as [->|Hne]; [rewrite lookup_insert; by apply rc_spawned|].
  rewrite lookup_insert_ne by congruence. constructor.
Qed.
Lemma regs_change S i x w : regchange i x w (w_next_pid (does S x w)) (w_regs (does S x w) !! i).
Proof.
  destruct x; cbn [does]; try (by apply rc_eq);
    try (by (apply rc_eq; ops; cbn; repeat case_match; reflexivity)).
  - unfold node_register_op, spawn_op. repeat case_match; simplify_eq; cbn; try (by apply rc_eq); (apply spawned_reg; [lia|reflexivity]).
  - cbn. destruct (decide (i = i0)) as [->|Hne]; [rewrite lookup_insert; by apply rc_insert | rewrite lookup_insert_ne by congruence; constructor].
  - unfold register_op. destruct p as [j|]; [|constructor]. destruct (w_names w !! n) eqn:En; [case_decide; constructor|].
    destruct (w_regs w !! j) as [r|] eqn:Er; [|constructor]. destruct (r_name r) eqn:Em; [constructor|]. cbn.
    destruct (decide (i = j)) as [->|Hne]; [rewrite lookup_insert; by eapply rc_register | rewrite lookup_insert_ne by congruence; constructor].
  - cbn. rewrite alter_reg. case_decide; subst; [by apply rc_unname | constructor].
  - cbn. rewrite alter_reg. case_decide; subst; [by apply rc_flags | constructor].
  - cbn. rewrite alter_reg. case_decide; subst; [by apply rc_reason | constructor].
  - destruct (exit_op_reg i p f r w) as [->| ->]; constructor.
  - destruct (exit_linked_op_reg i p f r w) as [->| ->]; constructor.
  - cbn. destruct (decide (i = i0)) as [->|Hne]; [rewrite lookup_delete; by apply rc_delete | rewrite lookup_delete_ne by congruence; constructor].
  - unfold node_start_op, spawn_op. repeat case_match; simplify_eq; cbn; try (by apply rc_eq); (apply spawned_reg; [lia|reflexivity]).
  - unfold node_disconnect_op. repeat case_match; cbn; try apply rc_same.
    match goal with |- context [exit_op ?p ?f ?y ?v] => destruct (exit_op_reg i p f y v) as [->| ->] end; cbn; first [apply rc_same | apply rc_term].
  - unfold node_accept_op. repeat case_match; cbn; try apply rc_same; simplify_eq;
      match goal with |- context [exit_op ?p ?f ?y ?v] => destruct (exit_op_reg i p f y v) as [->| ->] end; cbn; first [apply rc_same | apply rc_term].
  - apply rc_eq. unfold node_workers_op, hand_out. repeat case_match; reflexivity.
  - apply rc_eq. unfold sup_down_op. repeat case_match; reflexivity.
Qed.
Lemma nc_eq n x w (m : gmap string N) : m = w_names w -> namechange n x w (m !! n).
Proof. intros ->. constructor. Qed.
Lemma exit_op_names p f y w : w_names (exit_op p f y w) = w_names w.
Proof. unfold exit_op, push. repeat case_match; reflexivity. Qed.
Lemma names_change S n x w : namechange n x w (w_names (does S x w) !! n).
Proof.
  destruct x; cbn [does]; try (by apply nc_eq);
    try (by (apply nc_eq; ops; cbn; repeat case_match; reflexivity)).
  - apply nc_eq. unfold node_register_op, spawn_op. repeat case_match; simplify_eq; reflexivity.
  - unfold register_op. destruct p as [j|]; [|constructor]. destruct (w_names w !! n0) eqn:En; [case_decide; constructor|].
    destruct (w_regs w !! j) as [r|] eqn:Er; [|constructor]. destruct (r_name r) eqn:Em; [constructor|]. cbn.
    destruct (decide (n = n0)) as [->|Hne]; [rewrite lookup_insert; by eapply nc_register | rewrite lookup_insert_ne by congruence; constructor].
  - cbn. destruct (decide (n = n0)) as [->|Hne]; [rewrite lookup_delete; by apply nc_delete | rewrite lookup_delete_ne by congruence; constructor].
  - apply nc_eq. unfold node_start_op, spawn_op. repeat case_match; simplify_eq; reflexivity.
  - apply nc_eq. unfold node_disconnect_op. repeat case_match; cbn; rewrite ?exit_op_names; reflexivity.
  - apply nc_eq. unfold node_accept_op. repeat case_match; cbn; simplify_eq; rewrite ?exit_op_names; reflexivity.
  - apply nc_eq. unfold node_workers_op, hand_out. repeat case_match; reflexivity.
  - apply nc_eq. unfold sup_down_op. repeat case_match; reflexivity.
Qed.
Lemma exit_op_next p f y w : w_next_pid (exit_op p f y w) = w_next_pid w.
Proof. unfold exit_op, push. repeat case_match; reflexivity. Qed.
Lemma does_next_pid S x w : (w_next_pid w <= w_next_pid (does S x w))%N.
Proof.
  destruct x; cbn [does]; try (cbn; lia); try (by (ops; cbn; repeat case_match; cbn; lia)).
  - unfold node_register_op, spawn_op. repeat case_match; simplify_eq; cbn; lia.
  - unfold node_start_op, spawn_op. repeat case_match; simplify_eq; cbn; lia.
  - unfold node_disconnect_op. repeat case_match; cbn; rewrite ?exit_op_next; cbn; lia.
  - unfold node_accept_op. repeat case_match; cbn; simplify_eq; rewrite ?exit_op_next; cbn; lia.
  - unfold node_workers_op, hand_out. repeat case_match; cbn; lia.
  - unfold sup_down_op. repeat case_match; cbn; lia.
Qed.
