(** Proofs about convection tensors. *)
From Coq Require Import ZArith List Bool String Lia.
From Verif Require Import Outcome ConfigModel ConfigProofs HdfModel HdfSpec HdfProofs LaBase TenModel TenSpec.
Import ListNotations.
Local Open Scope nat_scope.
Local Open Scope list_scope.

Lemma ofor_S' {A} n (f : A -> nat -> outcome A) s : ofor (S n) f s = let* s' := ofor n f s in f s' n.
Proof. unfold ofor. rewrite seq_S, ofold_app. cbn. destruct (ofold f (seq 0 n) s); cbn; auto. destruct (f a n); auto. Qed.

Lemma omap_snoc {A B} (f : A -> outcome B) l x : omap f (l ++ [x]) = let* a := omap f l in let* b := f x in Ok (a ++ [b]).
Proof.
  induction l as [|y l IH]; cbn.
  - destruct (f x); reflexivity.
  - destruct (f y); cbn; auto. rewrite IH. destruct (omap f l); cbn; auto. destruct (f x); reflexivity.
Qed.

Lemma omap_length {A B} (f : A -> outcome B) l ys : omap f l = Ok ys -> List.length ys = List.length l.
Proof.
  revert ys. induction l as [|x l IH]; cbn; intros ys E; [injection E as <-; auto|].
  apply obind_ok in E as (y & E1 & E2). apply obind_ok in E2 as (z & E2 & E3). injection E3 as <-. cbn. auto.
Qed.

Lemma omap_at {A B} (f : A -> outcome B) l ys i x : omap f l = Ok ys -> nth_error l i = Some x -> exists y, nth_error ys i = Some y /\ f x = Ok y.
Proof.
  revert ys i. induction l as [|z l IH]; cbn; intros ys i E Hi; [destruct i; discriminate|].
  apply obind_ok in E as (y & E1 & E2). apply obind_ok in E2 as (zs & E2 & E3). injection E3 as <-.
  destruct i; cbn in *; [injection Hi as <-; eauto|eauto].
Qed.

Lemma ofold_keep {A B} (f : A -> B -> outcome A) (I : list B -> A -> Prop) l s s' : I [] s ->
  (forall p x q a a', l = p ++ x :: q -> I p a -> f a x = Ok a' -> I (p ++ [x]) a') -> ofold f l s = Ok s' -> I l s'.
Proof.
  intros H0 H.
  assert (G : forall q p a, l = p ++ q -> I p a -> ofold f q a = Ok s' -> I l s').
  { induction q as [|x q IH]; intros p a El Ha E; cbn in E.
    - injection E as <-. rewrite El, app_nil_r. auto.
    - apply obind_ok in E as (a' & E1 & E2). apply (IH (p ++ [x]) a'); auto. rewrite <- app_assoc. auto. eapply H; eauto. }
  intros E. apply (G l [] s); auto.
Qed.

Lemma upd_split {A} (l1 l2 : list A) y x : upd (l1 ++ y :: l2) (List.length l1) x = l1 ++ x :: l2.
Proof. induction l1; cbn; [reflexivity|]. f_equal. auto. Qed.

Lemma skipn_cons {A} n (l : list A) : n < List.length l -> exists y, skipn n l = y :: skipn (S n) l.
Proof. revert l. induction n; intros [|y l] H; cbn in *; try lia; eauto. destruct (IHn l ltac:(lia)) as (z & E). exists z. rewrite E. destruct l; auto. Qed.

Section P.
  Context {D M : Type}.
  Notation solver := (solver D M).
  Notation obj := (obj D).

  Lemma fill_eq n gen (h : list obj) a : n <= List.length a ->
    fill n gen (h, a) = let* os := omap gen (seq 0 n) in Ok (h ++ os, map Some (seq (List.length h) n) ++ skipn n a).
  Proof.
    unfold fill. induction n as [|n IH]; intros H.
    - unfold ofor. cbn. rewrite app_nil_r. reflexivity.
    - rewrite ofor_S', IH by lia. clear IH. rewrite (seq_S n 0), omap_snoc. cbn [Nat.add].
      destruct (omap gen (seq 0 n)) as [os| |] eqn:Eo; cbn [obind]; auto.
      destruct (gen n) as [o| |]; cbn [obind fst snd]; auto.
      pose proof (omap_length _ _ _ Eo) as L. rewrite seq_length in L.
      destruct (skipn_cons n a ltac:(lia)) as (y & E). rewrite E.
      assert (L2 : List.length (map (@Some nat) (seq (List.length h) n)) = n) by (rewrite map_length, seq_length; auto).
      rewrite owrite_vec by (rewrite app_length, L2; cbn; lia). cbn [obind].
      rewrite <- L2 at 3. rewrite upd_split, app_length, L, (seq_S n), map_app, <- !app_assoc. reflexivity.
  Qed.

  Lemma fill_full n gen (h : list obj) a : List.length a = n ->
    fill n gen (h, a) = let* os := omap gen (seq 0 n) in Ok (h ++ os, map Some (seq (List.length h) n)).
  Proof. intros L. rewrite fill_eq by lia. rewrite skipn_all2 by lia. rewrite app_nil_r. reflexivity. Qed.

  Lemma fill_inv n gen (h : list obj) a h' a' : List.length a = n -> fill n gen (h, a) = Ok (h', a') ->
    exists os, omap gen (seq 0 n) = Ok os /\ List.length os = n /\ h' = h ++ os /\ a' = map Some (seq (List.length h) n).
  Proof.
    intros L E. rewrite fill_full in E by auto. apply obind_ok in E as (os & E1 & E2). injection E2 as <- <-.
    exists os. pose proof (omap_length _ _ _ E1) as L2. rewrite seq_length in L2. auto.
  Qed.

  Lemma nulls_length n : List.length (nulls n) = n.
  Proof. apply repeat_length. Qed.

  (** ** Pointers *)
  Definition ptrs (l : list (option nat)) : list nat := flat_map (fun p => match p with Some i => [i] | None => [] end) l.

  Lemma ptrs_app l1 l2 : ptrs (l1 ++ l2) = ptrs l1 ++ ptrs l2.
  Proof. apply flat_map_app. Qed.
  Lemma ptrs_some l : ptrs (map Some l) = l.
  Proof. induction l; cbn; [reflexivity|]. f_equal. auto. Qed.
  Lemma ptrs_nulls n : ptrs (nulls n) = [].
  Proof. induction n; cbn; auto. Qed.

  Lemma nth_upd_other {A} (l : list A) i j x : i <> j -> nth_error (upd l i x) j = nth_error l j.
  Proof. revert i j. induction l as [|y l IH]; intros [|i] [|j] H; cbn; auto; try lia. Qed.
  Lemma nth_upd_same {A} (l : list A) i x : i < List.length l -> nth_error (upd l i x) i = Some x.
  Proof. revert i. induction l as [|y l IH]; intros [|i] H; cbn in *; auto; try lia. apply IH. lia. Qed.
  Lemma upd_len {A} (l : list A) i x : List.length (upd l i x) = List.length l.
  Proof. revert i. induction l as [|y l IH]; intros [|i]; cbn; auto. Qed.

  Lemma free_all_ok l : forall fl, NoDup (ptrs l) -> (forall i, In i (ptrs l) -> nth_error fl i = Some false) ->
    exists fl', free_all l fl = Ok fl' /\ List.length fl' = List.length fl /\
      forall i, nth_error fl' i = if in_dec Nat.eq_dec i (ptrs l) then Some true else nth_error fl i.
  Proof.
    induction l as [|[j|] l IH]; intros fl Nd Hf.
    - exists fl. cbn. auto.
    - cbn in Nd, Hf. inversion Nd as [|? ? Hj Nd']; subst. cbn [free_all ofold].
      assert (Ej : nth_error fl j = Some false) by (apply Hf; auto).
      assert (Lj : j < List.length fl) by (apply nth_error_Some; congruence).
      unfold free at 1, oread. rewrite Ej. cbn [obind]. rewrite owrite_vec by auto. cbn [obind].
      destruct (IH (upd fl j true)) as (fl' & E & L & H); auto.
      { intros i Hi. rewrite nth_upd_other by (intros ->; contradiction). apply Hf. auto. }
      exists fl'. split; [exact E|]. rewrite upd_len in L. split; [auto|]. intros i. rewrite H. cbn [ptrs flat_map app].
      fold (ptrs l). destruct (in_dec Nat.eq_dec i (ptrs l)) as [Hi|Hi], (in_dec Nat.eq_dec i (j :: ptrs l)) as [K|K]; auto.
      + exfalso. apply K. right. auto.
      + destruct K as [->|K]; [apply nth_upd_same; auto|contradiction].
      + apply nth_upd_other. intros ->. apply K. left. auto.
    - cbn in Nd, Hf |- *. apply IH; auto.
  Qed.

  (** What the destructor releases. *)
  Definition members (c : setup) (s : solver) : list (option nat) :=
    match s_nl c with
    | NlTensor => v_ct s ++ (if is_component (s_level c) then [] else v_st s)
    | NlEqp => v_ce s ++ v_se s ++ [v_itf s]
    | NlNone => []
    end.

  Lemma destroy_eq c (s : solver) : s_rom c = true -> v_handler s = true ->
    destroy c s = free_all (members c s) (repeat false (List.length (v_heap s))).
  Proof.
    intros R H. unfold destroy, members. rewrite R, H. cbn [oguard]. unfold free_all. destruct (s_nl c).
    - reflexivity.
    - rewrite ofold_app. destruct (is_component (s_level c)); [|reflexivity]. cbn. reflexivity.
    - rewrite !ofold_app. destruct (ofold free (v_ce s) _); cbn [obind]; auto. rewrite ofold_app.
      destruct (ofold free (v_se s) _); cbn [obind]; auto. cbn [ofold]. destruct (free a0 (v_itf s)); auto.
  Qed.

  Record sane (c : setup) (s : solver) : Prop := {
    sa_nodup : NoDup (ptrs (members c s));
    sa_bound : forall i, In i (ptrs (members c s)) -> i < List.length (v_heap s);
    sa_st : v_st s = [] \/ List.length (v_st s) = num_sub c }.

  Lemma destroy_sane c s : s_rom c = true -> v_handler s = true -> sane c s ->
    exists fl, destroy c s = Ok fl /\ List.length fl = List.length (v_heap s) /\
      forall i, nth_error fl i = Some true <-> In i (ptrs (members c s)).
  Proof.
    intros R H [Nd B _]. rewrite destroy_eq by auto.
    assert (Hr : forall n i, i < n -> nth_error (repeat false n) i = Some false).
    { intros n. induction n; intros i Hi; [lia|]. destruct i; cbn; auto. apply IHn. lia. }
    destruct (free_all_ok (members c s) (repeat false (List.length (v_heap s))) Nd) as (fl & E & L & K).
    - intros i Hi. apply Hr. auto.
    - exists fl. rewrite repeat_length in L. split; [auto|]. split; [auto|]. intros i. rewrite K.
      destruct (in_dec Nat.eq_dec i (ptrs (members c s))) as [Hi|Hi]; [tauto|]. split; [|contradiction].
      intros E2. exfalso. assert (i < List.length (repeat false (List.length (v_heap s)))) by (apply nth_error_Some; congruence).
      rewrite repeat_length in H0. rewrite Hr in E2 by auto. discriminate.
  Qed.

  Lemma nodup_app {A} (l1 l2 : list A) : NoDup l1 -> NoDup l2 -> (forall x, In x l1 -> In x l2 -> False) -> NoDup (l1 ++ l2).
  Proof.
    induction l1 as [|x l IH]; intros H1 H2 H; cbn; auto. inversion H1; subst. constructor.
    - rewrite in_app_iff. intros [K|K]; [contradiction|]. apply (H x); cbn; auto.
    - apply IH; auto. intros y Hy. apply H. cbn. auto.
  Qed.
  Lemma nodup_app_inv {A} (l1 l2 : list A) : NoDup (l1 ++ l2) -> NoDup l1 /\ NoDup l2 /\ (forall x, In x l1 -> In x l2 -> False).
  Proof.
    induction l1 as [|x l IH]; cbn; intros H; [split; [constructor|]; split; auto|].
    inversion H as [|? ? Hx H']; subst. destruct (IH H') as (A1 & A2 & A3). rewrite in_app_iff in Hx.
    split; [constructor; tauto|]. split; auto. intros y [->|Hy] Hy2; [tauto|eauto].
  Qed.
End P.

Lemma nth_error_ext {A} (l : list A) : forall m, (forall i, nth_error l i = nth_error m i) -> l = m.
Proof.
  induction l as [|x l IH]; intros [|y m] H; auto; try (specialize (H 0); discriminate).
  f_equal; [specialize (H 0); cbn in H; congruence|]. apply IH. intros i. apply (H (S i)).
Qed.
