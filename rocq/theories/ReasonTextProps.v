(** C102: exit reasons made from and compared with texts. *)
From stdpp Require Import base strings.
From Verif Require Import Types ReasonText.

(** A reason equals a text exactly if it is the custom reason made from that text, in both directions. *)
Theorem C102_equality r s : (reason_is r s = true <-> r = reason_from s) /\ (is_reason s r = true <-> r = reason_from s).
Proof. unfold reason_from. destruct r as [| | |t]; cbn; rewrite ?bool_decide_eq_true; split; split; congruence. Qed.
Print Assumptions C102_equality.
Theorem C102_symmetric r s : reason_is r s = is_reason s r.
Proof. destruct r; cbn; try done. by apply bool_decide_ext. Qed.
Print Assumptions C102_symmetric.
(** A reason made from a text is custom, whatever the text; different texts make different reasons; no text equals
    Normal, Kill or Ignore. *)
Theorem C102_from s s' :
  is_custom (reason_from s) = true /\ reason_is (reason_from s) s = true /\
  (reason_from s = reason_from s' -> s = s') /\
  reason_is RNormal s = false /\ reason_is RKill s = false /\ reason_is RIgnore s = false.
Proof. cbn. rewrite bool_decide_true by done. split_and!; try done. by intros [=]. Qed.
Print Assumptions C102_from.
(** Every reason is of exactly one of the four kinds. *)
Theorem C102_kinds r :
  (is_normal r = true <-> r = RNormal) /\ (is_kill r = true <-> r = RKill) /\ (is_ignore r = true <-> r = RIgnore) /\
  (is_custom r = true <-> exists s, r = reason_from s).
Proof. destruct r as [| | |t]; cbn; split_and!; split; try done; try (by intros [s [=]]). intros _. by exists t. Qed.
Print Assumptions C102_kinds.
Example C102_example :
  reason_is (reason_from "normal") "normal" = true /\ reason_is RNormal "normal" = false /\ reason_from "kill" <> RKill /\
  is_reason "a" (reason_from "b") = false.
Proof. split_and!; done. Qed.
