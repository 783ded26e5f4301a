(** Finite sums of reals, vectors as lists, counting loops. *)
From Coq Require Import Reals List Lia Lra Arith ZArith.
From Verif Require Import Outcome ListLemmas.
Import ListNotations.
Local Open Scope R_scope.

(** ** Sums *)

Fixpoint rsum (n : nat) (f : nat -> R) : R :=
  match n with O => 0 | S k => rsum k f + f k end.

Lemma rsum_ext n f g : (forall i, (i < n)%nat -> f i = g i) -> rsum n f = rsum n g.
Proof. induction n; intros H; simpl; auto. rewrite IHn, H; auto. Qed.

Lemma rsum_plus n f g : rsum n (fun i => f i + g i) = rsum n f + rsum n g.
Proof. induction n; simpl; [ring|]. rewrite IHn. ring. Qed.

Lemma rsum_minus n f g : rsum n (fun i => f i - g i) = rsum n f - rsum n g.
Proof. induction n; simpl; [ring|]. rewrite IHn. ring. Qed.

Lemma rsum_scal n a f : rsum n (fun i => a * f i) = a * rsum n f.
Proof. induction n; simpl; [ring|]. rewrite IHn. ring. Qed.

Lemma rsum_scal_r n a f : rsum n (fun i => f i * a) = rsum n f * a.
Proof. induction n; simpl; [ring|]. rewrite IHn. ring. Qed.

Lemma rsum_zero n : rsum n (fun _ => 0) = 0.
Proof. induction n; simpl; auto. rewrite IHn. ring. Qed.

Lemma rsum_const n a : rsum n (fun _ => a) = INR n * a.
Proof. induction n; [simpl; ring|]. rewrite S_INR. simpl. rewrite IHn. ring. Qed.

Lemma rsum_swap n m f : rsum n (fun i => rsum m (fun j => f i j)) = rsum m (fun j => rsum n (fun i => f i j)).
Proof.
  induction n; simpl.
  - rewrite rsum_zero. auto.
  - rewrite IHn, rsum_plus. auto.
Qed.

Lemma rsum_split n m f : rsum (n + m) f = rsum n f + rsum m (fun i => f (n + i)%nat).
Proof.
  induction m; simpl.
  - rewrite Nat.add_0_r. ring.
  - rewrite Nat.add_succ_r. simpl. rewrite IHm. ring.
Qed.

Lemma rsum_S_l n f : rsum (S n) f = f 0%nat + rsum n (fun i => f (S i)).
Proof. change (S n) with (1 + n)%nat. rewrite rsum_split. simpl. ring. Qed.

Lemma rsum_single n k f : (k < n)%nat -> (forall i, (i < n)%nat -> i <> k -> f i = 0) -> rsum n f = f k.
Proof.
  induction n; intros Hk H; [lia|]. simpl. destruct (Nat.eq_dec k n) as [->|N].
  - rewrite (rsum_ext n f (fun _ => 0)), rsum_zero; [ring|]. intros i Hi. apply H; lia.
  - rewrite IHn, (H n); [ring|lia|auto|lia|]. intros i Hi Hn. apply H; lia.
Qed.

Lemma rsum_nonneg n f : (forall i, (i < n)%nat -> 0 <= f i) -> 0 <= rsum n f.
Proof.
  induction n; intros H; simpl; [lra|]. specialize (H n ltac:(lia)) as Hn.
  assert (0 <= rsum n f) by (apply IHn; intros; apply H; lia). lra.
Qed.

Lemma rsum_nonneg_zero n f : (forall i, (i < n)%nat -> 0 <= f i) -> rsum n f = 0 ->
  forall i, (i < n)%nat -> f i = 0.
Proof.
  induction n; intros H E i Hi; [lia|]. simpl in E.
  assert (0 <= rsum n f) by (apply rsum_nonneg; intros; apply H; lia).
  assert (0 <= f n) by (apply H; lia).
  destruct (Nat.eq_dec i n) as [->|N]; [lra|]. apply IHn; [intros; apply H; lia|lra|lia].
Qed.

(** ** Vectors *)

Definition vec := list R.
Definition vnth (v : vec) (i : nat) : R := nth i v 0.
Definition dot (n : nat) (u v : vec) : R := rsum n (fun i => vnth u i * vnth v i).

Lemma vnth_nth_error v i x : nth_error v i = Some x -> vnth v i = x.
Proof. intros H. apply nth_error_nth; auto. Qed.

Lemma nth_error_vnth (v : vec) i : (i < length v)%nat -> nth_error v i = Some (vnth v i).
Proof. intros H. apply nth_error_nth'; auto. Qed.

Lemma oread_vnth (v : vec) i : (i < length v)%nat -> oread v i = Ok (vnth v i).
Proof. intros H. unfold oread. rewrite nth_error_vnth; auto. Qed.

Lemma owrite_vec {A} (v : list A) i x : (i < length v)%nat -> owrite v i x = Ok (upd v i x).
Proof. intros H. unfold owrite. destruct (Nat.ltb_spec i (length v)); [auto|lia]. Qed.

Lemma vnth_upd_eq v i x : (i < length v)%nat -> vnth (upd v i x) i = x.
Proof. intros H. unfold vnth. apply nth_upd_eq; auto. Qed.

Lemma vnth_upd_ne v i j x : i <> j -> vnth (upd v i x) j = vnth v j.
Proof. intros H. unfold vnth. apply nth_upd_ne; auto. Qed.

Lemma vec_ext (u v : vec) : length u = length v -> (forall i, (i < length u)%nat -> vnth u i = vnth v i) -> u = v.
Proof. intros L H. apply nth_ext with 0 0; auto. Qed.

Lemma skipn_plus {A} a b (l : list A) : skipn a (skipn b l) = skipn (b + a) l.
Proof. revert l. induction b; intros l; [auto|]. destruct l; [rewrite !skipn_nil; auto|]. simpl. auto. Qed.

(** ** Loops *)

(** [for (int i = 0; i < n; i++) s = f s i] *)
Definition ofor {S : Type} (n : nat) (f : S -> nat -> outcome S) (s : S) : outcome S := ofold f (seq 0 n) s.

Lemma ofor_inv {S} n (f : S -> nat -> outcome S) (I : nat -> S -> Prop) s :
  I 0%nat s ->
  (forall i s, (i < n)%nat -> I i s -> exists s', f s i = Ok s' /\ I (Datatypes.S i) s') ->
  exists s', ofor n f s = Ok s' /\ I n s'.
Proof.
  intros H0 Hs. unfold ofor.
  destruct (ofold_inv f (fun done s => I (length done) s) (seq 0 n) s) as (s' & E & H); auto.
  - intros p x q s1 El Hp. assert (Lp : (length p < n)%nat).
    { rewrite <- (seq_length n 0), El, app_length. simpl. lia. }
    assert (x = length p).
    { pose proof (f_equal (fun l => nth_error l (length p)) El) as E.
      simpl in E. rewrite nth_error_seq in E by auto. rewrite nth_error_app2, Nat.sub_diag in E by auto.
      simpl in E. congruence. }
    subst x. destruct (Hs _ _ Lp Hp) as (s2 & E2 & H2). exists s2. split; auto.
    rewrite app_length. simpl. rewrite Nat.add_1_r. auto.
  - rewrite seq_length in H. eauto.
Qed.

Lemma ofor_ext {S} n (f g : S -> nat -> outcome S) s : (forall s i, (i < n)%nat -> f s i = g s i) -> ofor n f s = ofor n g s.
Proof.
  intros H. unfold ofor. assert (F : forall i, In i (seq 0 n) -> (i < n)%nat) by (intros i Hi; apply in_seq in Hi; lia).
  revert s. induction (seq 0 n) as [|x l IH]; intros s; auto. cbn [ofold]. rewrite H by (apply F; left; auto).
  destruct (g s x); cbn [obind]; auto. apply IH. intros i Hi. apply F. right. auto.
Qed.

(** [for (int i = a; i < b; i++)] *)
Definition oforr {S : Type} (a b : nat) (f : S -> nat -> outcome S) (s : S) : outcome S := ofold f (seq a (b - a)) s.

Lemma oforr_inv {S} a b (f : S -> nat -> outcome S) (I : nat -> S -> Prop) s : (a <= b)%nat ->
  I a s ->
  (forall i s, (a <= i < b)%nat -> I i s -> exists s', f s i = Ok s' /\ I (Datatypes.S i) s') ->
  exists s', oforr a b f s = Ok s' /\ I b s'.
Proof.
  intros Hab H0 Hs. unfold oforr.
  destruct (ofold_inv f (fun done s => I (a + length done)%nat s) (seq a (b - a)) s) as (s' & E & H).
  - simpl. rewrite Nat.add_0_r. auto.
  - intros p x q s1 El Hp. assert (Lp : (length p < b - a)%nat).
    { rewrite <- (seq_length (b - a) a), El, app_length. simpl. lia. }
    assert (x = a + length p)%nat.
    { pose proof (f_equal (fun l => nth_error l (length p)) El) as E.
      simpl in E. rewrite nth_error_seq in E by auto. rewrite nth_error_app2, Nat.sub_diag in E by auto.
      simpl in E. congruence. }
    subst x. destruct (Hs (a + length p)%nat s1) as (s2 & E2 & H2); [lia|auto|]. exists s2. split; auto.
    rewrite app_length. simpl. replace (a + (length p + 1))%nat with (Datatypes.S (a + length p)) by lia. auto.
  - rewrite seq_length in H. exists s'. split; auto. replace b with (a + (b - a))%nat by lia. auto.
Qed.

(** Rewrite the first bound computation of the goal ([rewrite] fails on [vec] against [list R]). *)
Ltac rw_bind E :=
  match goal with |- context[obind ?x ?k] =>
    let r := match type of E with _ = ?r => r end in
    let H := fresh in
    assert (H : obind x k = obind r k) by (exact (f_equal (fun y => obind y k) E));
    rewrite H; clear H; cbn [obind] end.

(** ** Dense matrices *)

(** [mfem::DenseMatrix]: column-major; the buffer may be larger than the matrix. *)
Record dmat := DMat { dm_h : nat; dm_w : nat; dm_buf : vec }.
Definition dm_wf (m : dmat) : Prop := (dm_h m * dm_w m <= length (dm_buf m))%nat.
Definition mget (m : dmat) (i j : nat) : R := vnth (dm_buf m) (i + j * dm_h m).

Lemma mget_in m i j : dm_wf m -> (i < dm_h m)%nat -> (j < dm_w m)%nat -> (i + j * dm_h m < length (dm_buf m))%nat.
Proof. unfold dm_wf. intros W Hi Hj. assert (j * dm_h m + dm_h m <= dm_h m * dm_w m)%nat by nia. lia. Qed.

Lemma cm_inj h i j i' j' : (i < h)%nat -> (i' < h)%nat -> (i + j * h = i' + j' * h)%nat -> i = i' /\ j = j'.
Proof. intros H1 H2 E. assert (j = j') by nia. subst. lia. Qed.

(** Column [j]. *)
Definition dm_col (m : dmat) (j : nat) : vec := map (fun i => mget m i j) (seq 0 (dm_h m)).

Lemma dm_col_length m j : length (dm_col m j) = dm_h m.
Proof. unfold dm_col. rewrite map_length, seq_length. auto. Qed.

Lemma dm_col_nth m j i : (i < dm_h m)%nat -> vnth (dm_col m j) i = mget m i j.
Proof. intros H. unfold vnth, dm_col. rewrite nth_map_seq; auto. Qed.

(** [DenseMatrix::SetSize]: nothing if the size is the same; a buffer that is too small is replaced by
    zeros; otherwise the buffer is kept. *)
Definition dm_setsize (m : dmat) (h w : nat) : dmat :=
  if ((dm_h m =? h) && (dm_w m =? w))%nat%bool then m
  else DMat h w (if (length (dm_buf m) <? h * w)%nat then repeat 0 (h * w)%nat else dm_buf m).
