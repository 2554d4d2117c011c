(** Sums over finite maps. *)
From stdpp Require Import base list gmap numbers.
From Coq Require Import Lia.
Section msum.
  Context `{Countable K} {A : Type} (f : A -> nat).
  Definition msum (m : gmap K A) : nat := map_fold (fun _ a n => f a + n) 0 m.
  Lemma msum_empty : msum ∅ = 0. Proof. reflexivity. Qed.
  Lemma msum_insert_fresh m k a : m !! k = None -> msum (<[k := a]> m) = f a + msum m.
  Proof. intros E. unfold msum. rewrite map_fold_insert_L; [reflexivity | intros; lia | exact E]. Qed.
  Lemma msum_lookup m k a : m !! k = Some a -> msum m = f a + msum (delete k m).
  Proof. intros E. rewrite <- (insert_delete m k a E) at 1. apply msum_insert_fresh, lookup_delete. Qed.
  Lemma msum_delete_none m k : m !! k = None -> msum (delete k m) = msum m.
  Proof. intros E. rewrite delete_notin by exact E. reflexivity. Qed.
  Lemma msum_delete m k : msum (delete k m) + match m !! k with Some a => f a | None => 0 end = msum m.
  Proof. destruct (m !! k) as [a|] eqn:E; [rewrite (msum_lookup m k a E); lia | rewrite msum_delete_none by exact E; lia]. Qed.
  Lemma msum_insert m k a :
    msum (<[k := a]> m) + match m !! k with Some b => f b | None => 0 end = f a + msum m.
  Proof.
    rewrite <- insert_delete_insert, msum_insert_fresh by apply lookup_delete.
    pose proof (msum_delete m k). lia.
  Qed.
  Lemma msum_alter_le g m k : (forall a, f (g a) <= f a) -> msum (alter g k m) <= msum m.
  Proof.
    intros Hg. destruct (m !! k) as [a|] eqn:E.
    - replace (alter g k m) with (<[k := g a]> m).
      + pose proof (msum_insert m k (g a)) as Hi. rewrite E in Hi. specialize (Hg a). lia.
      + apply map_eq; intros j. destruct (decide (j = k)) as [->|Hne].
        * rewrite lookup_insert, lookup_alter, E. reflexivity.
        * rewrite lookup_insert_ne, lookup_alter_ne by congruence. reflexivity.
    - replace (alter g k m) with m; [lia|].
      apply map_eq; intros j. destruct (decide (j = k)) as [->|Hne].
      + rewrite lookup_alter, E. reflexivity.
      + rewrite lookup_alter_ne by congruence. reflexivity.
  Qed.
  Lemma msum_ge m k a : m !! k = Some a -> f a <= msum m.
  Proof. intros E. rewrite (msum_lookup m k a E). lia. Qed.
End msum.
