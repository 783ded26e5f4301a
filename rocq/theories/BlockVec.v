(** Block vectors: a data array cut into slices by offsets ([mfem::BlockVector]). *)
From Coq Require Import Reals List Bool Lia Arith ZArith.
From Verif Require Import Outcome ListLemmas LaBase.
Import ListNotations.
Local Open Scope R_scope.

(** [Array<int>::PartialSum]: data[i] += data[i-1]. *)
Fixpoint psum (acc : nat) (l : list nat) : list nat :=
  match l with [] => [] | x :: t => (acc + x)%nat :: psum (acc + x) t end.

Definition nsum (n : nat) (f : nat -> nat) : nat := fold_left (fun a i => a + f i)%nat (seq 0 n) 0%nat.

Lemma nsum_S n f : nsum (S n) f = (nsum n f + f n)%nat.
Proof. unfold nsum. rewrite seq_S, fold_left_app. reflexivity. Qed.
Lemma nsum_ext n f g : (forall i, (i < n)%nat -> f i = g i) -> nsum n f = nsum n g.
Proof. induction n; intros H; auto. rewrite !nsum_S, IHn, H; auto. Qed.
Lemma nsum_le n m f : (n <= m)%nat -> (nsum n f <= nsum m f)%nat.
Proof. intros H. induction H; auto. rewrite nsum_S. lia. Qed.

Lemma psum_length l : forall a, length (psum a l) = length l.
Proof. induction l; intros; simpl; auto. Qed.

Lemma psum_nth l : forall a i, (i < length l)%nat -> nth i (psum a l) 0%nat = (a + nsum (S i) (fun k => nth k l 0%nat))%nat.
Proof.
  induction l as [|x l IH]; intros a i H; simpl in H; [lia|]. destruct i; cbn [psum nth].
  - unfold nsum. simpl. lia.
  - rewrite IH by lia. rewrite <- Nat.add_assoc. f_equal.
    assert (E : forall n, nsum (S n) (fun k => nth k (x :: l) 0%nat) = (x + nsum n (fun k => nth k l 0%nat))%nat).
    { induction n; [unfold nsum; simpl; lia|]. rewrite nsum_S, IHn, (nsum_S n). simpl. lia. }
    rewrite E. reflexivity.
Qed.

(** Offsets of blocks with the given sizes. *)
Definition offsets (off : list nat) (n : nat) (size : nat -> nat) : Prop :=
  length off = S n /\ nth 0 off 0%nat = 0%nat /\
  forall i, (i < n)%nat -> nth (S i) off 0%nat = (nth i off 0 + size i)%nat.

Lemma offsets_nsum off n size i : offsets off n size -> (i <= n)%nat -> nth i off 0%nat = nsum i size.
Proof.
  intros (L & Z & H). induction i; intros Hi; [auto|]. rewrite H by lia. rewrite nsum_S. rewrite IHi; lia.
Qed.
Lemma offsets_mono off n size i j : offsets off n size -> (i <= j <= n)%nat -> (nth i off 0 <= nth j off 0)%nat.
Proof. intros O H. rewrite !(offsets_nsum off n size) by (auto; lia). apply nsum_le. lia. Qed.

Lemma psum_offsets sizes : offsets (psum 0 (0%nat :: sizes)) (length sizes) (fun i => nth i sizes 0%nat).
Proof.
  split; [rewrite psum_length; auto|]. split; [reflexivity|]. intros i Hi.
  rewrite !psum_nth by (simpl; lia). rewrite (nsum_S (S i)). reflexivity.
Qed.

(** ** Block vectors *)

Record bvec := BVec { bv_off : list nat; bv_dat : vec }.

(** [NumBlocks()] *)
Definition bv_n (b : bvec) : nat := (length (bv_off b) - 1)%nat.

(** [GetBlock(i)]: a view of entries offset[i] .. offset[i+1]. *)
Definition bv_get (b : bvec) (i : nat) : outcome vec :=
  let* a := oread (bv_off b) i in
  let* e := oread (bv_off b) (i + 1) in
  oguard ((a <=? e) && (e <=? length (bv_dat b)))%nat%bool (Ok (firstn (e - a) (skipn a (bv_dat b)))).

(** Overwriting all entries of that view. *)
Definition bv_put (b : bvec) (i : nat) (v : vec) : outcome bvec :=
  let* a := oread (bv_off b) i in
  let* e := oread (bv_off b) (i + 1) in
  oguard ((a <=? e) && (e <=? length (bv_dat b)) && (length v =? e - a))%nat%bool
    (Ok (BVec (bv_off b) (firstn a (bv_dat b) ++ v ++ skipn e (bv_dat b)))).

Definition bv_wf (b : bvec) (n : nat) (size : nat -> nat) : Prop :=
  offsets (bv_off b) n size /\ length (bv_dat b) = nsum n size.

(** Block [i] of a well formed vector. *)
Definition blk (b : bvec) (i : nat) : vec :=
  firstn (nth (S i) (bv_off b) 0 - nth i (bv_off b) 0)%nat (skipn (nth i (bv_off b) 0%nat) (bv_dat b)).

Section Wf.
  Variables (b : bvec) (n : nat) (size : nat -> nat).
  Hypothesis W : bv_wf b n size.

  Lemma bv_n_wf : bv_n b = n.
  Proof. destruct W as ((L & _) & _). unfold bv_n. rewrite L. lia. Qed.

  Lemma off_read i : (i <= n)%nat -> oread (bv_off b) i = Ok (nth i (bv_off b) 0%nat).
  Proof.
    intros H. destruct W as ((L & _) & _). unfold oread.
    rewrite (nth_error_nth' (bv_off b) 0%nat) by lia. reflexivity.
  Qed.

  Lemma off_step i : (i < n)%nat -> (nth (S i) (bv_off b) 0 = nth i (bv_off b) 0 + size i)%nat.
  Proof. intros H. destruct W as ((_ & _ & O) & _). auto. Qed.
  Lemma off_le i j : (i <= j <= n)%nat -> (nth i (bv_off b) 0 <= nth j (bv_off b) 0)%nat.
  Proof. intros H. destruct W as (O & _). eapply offsets_mono; eauto. Qed.
  Lemma off_end : nth n (bv_off b) 0%nat = length (bv_dat b).
  Proof. destruct W as (O & L). rewrite L. eapply offsets_nsum; eauto. Qed.

  Lemma blk_length i : (i < n)%nat -> length (blk b i) = size i.
  Proof.
    intros H. unfold blk. rewrite firstn_length, skipn_length, off_step by auto.
    pose proof (off_le (S i) n ltac:(lia)). rewrite off_end, off_step in H0 by auto. lia.
  Qed.

  Lemma bv_get_ok i : (i < n)%nat -> bv_get b i = Ok (blk b i).
  Proof.
    intros H. unfold bv_get. rewrite off_read by lia. cbn [obind]. rewrite Nat.add_1_r, off_read by lia. cbn [obind].
    pose proof (off_le i (S i) ltac:(lia)). pose proof (off_le (S i) n ltac:(lia)). rewrite off_end in H1.
    rewrite (proj2 (Nat.leb_le _ _) H0), (proj2 (Nat.leb_le _ _) H1). reflexivity.
  Qed.

  Lemma blk_nth i k : (i < n)%nat -> (k < size i)%nat -> vnth (blk b i) k = vnth (bv_dat b) (nth i (bv_off b) 0 + k)%nat.
  Proof.
    intros H K. unfold blk, vnth. rewrite off_step by auto.
    replace (nth i (bv_off b) 0 + size i - nth i (bv_off b) 0)%nat with (size i) by lia.
    assert (E : forall (l : list R) m q, (q < m)%nat -> nth q (firstn m l) 0 = nth q l 0).
    { clear. induction l; intros [|m] [|q] H; simpl; auto; try lia. apply IHl. lia. }
    rewrite E by auto. clear E. generalize (nth i (bv_off b) 0%nat) (bv_dat b). clear.
    induction n; intros l; simpl; auto. destruct l; simpl; auto. destruct k; auto.
  Qed.

  Lemma bv_put_ok i v : (i < n)%nat -> length v = size i ->
    exists b', bv_put b i v = Ok b' /\ bv_wf b' n size /\ bv_off b' = bv_off b /\ blk b' i = v /\
      (forall j, (j < n)%nat -> j <> i -> blk b' j = blk b j).
  Proof.
    intros H L. unfold bv_put. rewrite off_read by lia. cbn [obind]. rewrite Nat.add_1_r, off_read by lia. cbn [obind].
    pose proof (off_le i (S i) ltac:(lia)) as A. pose proof (off_le (S i) n ltac:(lia)) as B. rewrite off_end in B.
    pose proof (off_step i H) as St.
    rewrite (proj2 (Nat.leb_le _ _) A), (proj2 (Nat.leb_le _ _) B). cbn [andb].
    assert (Lv : length v = (nth (S i) (bv_off b) 0 - nth i (bv_off b) 0)%nat) by (rewrite L, St; lia).
    rewrite (proj2 (Nat.eqb_eq _ _) Lv). cbn [oguard]. eexists. split; [reflexivity|].
    assert (Lf : length (firstn (nth i (bv_off b) 0%nat) (bv_dat b)) = nth i (bv_off b) 0%nat)
      by (rewrite firstn_length; lia).
    split; [|split; [reflexivity|split]].
    - split; [exact (proj1 W)|]. cbn [bv_dat]. rewrite !app_length, skipn_length, Lf, <- (proj2 W). lia.
    - unfold blk. cbn [bv_off bv_dat]. rewrite skipn_app, Lf, Nat.sub_diag, skipn_all2 by (rewrite Lf; lia).
      cbn [app skipn]. rewrite firstn_app, <- Lv, Nat.sub_diag, firstn_O, app_nil_r. apply firstn_all.
    - intros j Hj N. pose proof (off_step j Hj) as Sj.
      assert (C : (S j <= i \/ S i <= j)%nat) by lia. destruct C as [C|C].
      + pose proof (off_le (S j) i ltac:(lia)) as D. unfold blk. cbn [bv_off bv_dat]. rewrite Sj.
        rewrite skipn_app, Lf. replace (nth j (bv_off b) 0 - nth i (bv_off b) 0)%nat with 0%nat by lia. cbn [skipn].
        rewrite firstn_app, skipn_length, Lf.
        replace (nth j (bv_off b) 0 + size j - nth j (bv_off b) 0 - (nth i (bv_off b) 0 - nth j (bv_off b) 0))%nat with 0%nat by lia.
        rewrite firstn_O, app_nil_r. rewrite skipn_firstn_comm, firstn_firstn. f_equal. lia.
      + pose proof (off_le (S i) j ltac:(lia)) as D. unfold blk. cbn [bv_off bv_dat]. f_equal.
        rewrite skipn_app, Lf, skipn_all2 by (rewrite Lf; lia). cbn [app].
        rewrite skipn_app, skipn_all2 by lia. cbn [app]. rewrite skipn_plus. f_equal. lia.
  Qed.
End Wf.

(** Two block vectors with the same offsets and equal blocks are equal. *)
Lemma blk_ext a b n size : bv_wf a n size -> bv_wf b n size -> bv_off a = bv_off b ->
  (forall i, (i < n)%nat -> blk a i = blk b i) -> a = b.
Proof.
  intros Wa Wb Eo H. destruct a as [oa da], b as [ob db]. cbn [bv_off] in Eo. subst ob. f_equal.
  apply vec_ext; [rewrite (proj2 Wa : length da = _), (proj2 Wb : length db = _); auto|].
  intros p Hp.
  assert (F : forall m, (m <= n)%nat -> (p < nth m oa 0)%nat -> exists i k, (i < m)%nat /\ (k < size i)%nat /\ p = (nth i oa 0 + k)%nat).
  { induction m; intros Hm Hq.
    - destruct Wa as ((_ & Z & _) & _). cbn in Z. rewrite Z in Hq. lia.
    - pose proof (off_step _ _ _ Wa m ltac:(lia)) as St. cbn [bv_off] in St. rewrite St in Hq.
      destruct (Nat.lt_ge_cases p (nth m oa 0%nat)) as [C|C].
      + destruct IHm as (i & k & ? & ? & ?); try lia. exists i, k. auto with arith.
      + exists m, (p - nth m oa 0)%nat. lia. }
  pose proof (off_end _ _ _ Wa) as En. cbn [bv_off bv_dat] in En.
  destruct (F n ltac:(lia)) as (i & k & Hi & Hk & ->); [rewrite En; auto|].
  pose proof (blk_nth _ _ _ Wa i k Hi Hk) as Ea. pose proof (blk_nth _ _ _ Wb i k Hi Hk) as Eb. cbn [bv_off bv_dat] in Ea, Eb.
  rewrite <- Ea, <- Eb, H; auto.
Qed.

(** A fresh block vector. *)
Lemma bv_fresh_wf off n size (d : vec) : offsets off n size -> length d = nth n off 0%nat -> bv_wf (BVec off d) n size.
Proof. intros O L. split; auto. cbn [bv_dat]. rewrite L. eapply offsets_nsum; eauto. Qed.

(** Filling blocks one by one, block [p i] with [F i]. *)
Lemma bv_fill N size n (p : nat -> nat) (F : nat -> vec) f b0 : bv_wf b0 N size ->
  (forall i, (i < n)%nat -> (p i < N)%nat /\ length (F i) = size (p i)) ->
  (forall i j, (i < n)%nat -> (j < n)%nat -> p i = p j -> i = j) ->
  (forall b i, (i < n)%nat -> bv_wf b N size -> bv_off b = bv_off b0 -> f b i = bv_put b (p i) (F i)) ->
  exists b, ofor n f b0 = Ok b /\ bv_wf b N size /\ bv_off b = bv_off b0 /\
    (forall i, (i < n)%nat -> blk b (p i) = F i) /\
    (forall j, (j < N)%nat -> (forall i, (i < n)%nat -> p i <> j) -> blk b j = blk b0 j).
Proof.
  intros W Hp Inj Hf.
  destruct (ofor_inv n f (fun k b => bv_wf b N size /\ bv_off b = bv_off b0 /\
     (forall i, (i < k)%nat -> blk b (p i) = F i) /\
     (forall j, (j < N)%nat -> (forall i, (i < k)%nat -> p i <> j) -> blk b j = blk b0 j)) b0) as (b & E & I).
  - split; [auto|]. split; [auto|]. split; [intros; lia|auto].
  - intros k b Hk (Wb & Eo & Hd & Ho). rewrite Hf by auto. destruct (Hp k Hk) as (Hpk & Lk).
    destruct (bv_put_ok b N size Wb (p k) (F k) Hpk Lk) as (b' & E & W' & O' & V & Oth). exists b'. split; [auto|].
    split; [auto|]. split; [congruence|]. split.
    + intros i Hi. destruct (Nat.eq_dec i k) as [->|Ne]; auto. rewrite Oth.
      * apply Hd. lia.
      * apply Hp. lia.
      * intros C. apply Ne. apply Inj; auto; lia.
    + intros j Hj Hn. rewrite Oth; auto. intros C. apply (Hn k); auto.
  - exists b. auto.
Qed.

(** Sizes read off the offsets. *)
Definition sz (off : list nat) (b : nat) : nat := (nth (S b) off 0 - nth b off 0)%nat.
