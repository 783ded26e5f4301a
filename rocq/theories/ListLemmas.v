(** General list lemmas. *)
From Coq Require Import List Lia Arith.
Import ListNotations.

Lemma nth_error_ext {A} (l1 : list A) : forall l2,
  (forall i, nth_error l1 i = nth_error l2 i) -> l1 = l2.
Proof.
  induction l1 as [|a l1 IH]; intros [|b l2] H; auto.
  - specialize (H 0); discriminate.
  - specialize (H 0); discriminate.
  - f_equal.
    + specialize (H 0); simpl in H; congruence.
    + apply IH. intros i. apply (H (S i)).
Qed.

Lemma nth_error_seq n a i : i < n -> nth_error (seq a n) i = Some (a + i).
Proof.
  intros H. rewrite (nth_error_nth' _ 0) by (rewrite seq_length; lia). rewrite seq_nth; auto.
Qed.

Lemma nth_error_map_seq {A} (f : nat -> A) n a i :
  i < n -> nth_error (map f (seq a n)) i = Some (f (a + i)).
Proof. intros H. rewrite nth_error_map, nth_error_seq; auto. Qed.

Lemma nth_map_seq {A} (f : nat -> A) n a i d : i < n -> nth i (map f (seq a n)) d = f (a + i).
Proof. intros H. apply nth_error_nth. apply nth_error_map_seq; auto. Qed.
