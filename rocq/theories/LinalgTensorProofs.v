(** Proofs: third-order tensors. *)
From Coq Require Import Reals List Bool ZArith Lia Lra Arith.
From Verif Require Import Outcome ListLemmas LaBase LinalgModel LinalgSpec LinalgProofs.
Import ListNotations.
Local Open Scope R_scope.

Lemma upd_upd {A} (l : list A) i a b : upd (upd l i a) i b = upd l i b.
Proof. revert i; induction l as [|h t IH]; destruct i; simpl; auto. rewrite IH. auto. Qed.

Lemma upd_same (v : vec) i : upd v i (vnth v i) = v.
Proof. revert i; induction v as [|h t IH]; destruct i; simpl; auto. unfold vnth in *. simpl. rewrite IH. auto. Qed.

Ltac close_upd :=
  match goal with |- Ok (upd _ _ ?a, ?t) = Ok (upd _ _ ?b, ?t') =>
    replace a with b by ring; replace t with t' by lia; reflexivity end.

(** Accumulating into one entry while a pointer runs. *)
Lemma acc_loop n f (b : vec) d t0 stride g : (d < length b)%nat ->
  (forall v ax, (ax < n)%nat -> f (upd b d v, (t0 + ax * stride)%nat) ax = Ok (upd b d (v + g ax), (t0 + S ax * stride)%nat)) ->
  ofor n f (b, t0) = Ok (upd b d (vnth b d + rsum n g), (t0 + n * stride)%nat).
Proof.
  intros Hd H. pose (st := fun i => (upd b d (vnth b d + rsum i g), (t0 + i * stride)%nat)).
  assert (E : ofor n f (st 0%nat) = Ok (st n)).
  { apply ofor_eq. intros i Hi. unfold st. rewrite H by auto. simpl. rewrite Rplus_assoc. auto. }
  unfold st in E. simpl in E. rewrite Rplus_0_r, Nat.add_0_r, upd_same in E. exact E.
Qed.

Lemma t_index T i j k : (i < t_i T)%nat -> (j < t_j T)%nat -> (k < t_k T)%nat -> t_wf T ->
  (i + j * t_i T + k * (t_i T * t_j T) < length (t_buf T))%nat.
Proof. intros Hi Hj Hk ->. assert (i + j * t_i T < t_i T * t_j T)%nat by nia. nia. Qed.

Lemma tread T i j k t : (i < t_i T)%nat -> (j < t_j T)%nat -> (k < t_k T)%nat -> t_wf T ->
  t = (i + j * t_i T + k * (t_i T * t_j T))%nat -> oread (t_buf T) t = Ok (tget T i j k).
Proof. intros Hi Hj Hk W ->. rewrite oread_vnth; auto. apply t_index; auto. Qed.

(** ** Contractions *)

Lemma contract_k w T xi xj (y : vec) k : t_wf T -> length xi = t_i T -> length xj = t_j T -> (k < t_k T)%nat -> (k < length y)%nat ->
  ofor (t_j T) (fun '(y, t) j =>
      ofor (t_i T) (fun '(y, t) i =>
        let* tv := oread (t_buf T) t in
        let* a := oread xi i in
        let* b := oread xj j in
        let* yk := oread y k in
        let* y := owrite y k (yk + w * tv * a * b) in
        Ok (y, t + 1)%nat) (y, t)) (y, (k * (t_i T * t_j T))%nat)
  = Ok (upd y k (vnth y k + w * contraction T (vnth xi) (vnth xj) k), (S k * (t_i T * t_j T))%nat).
Proof.
  intros W Li Lj Hk Hy.
  rewrite (acc_loop (t_j T) _ y k _ (t_i T) (fun j => w * rsum (t_i T) (fun i => tget T i j k * vnth xi i * vnth xj j))).
  - f_equal. f_equal; [|lia]. f_equal. f_equal. unfold contraction. rewrite rsum_scal. auto.
  - auto.
  - intros v j Hj.
    rewrite (acc_loop (t_i T) _ (upd y k v) k _ 1 (fun i => w * (tget T i j k * vnth xi i * vnth xj j))).
    + rewrite upd_upd, vnth_upd_eq by auto. rewrite rsum_scal. do 2 f_equal. lia.
    + rewrite upd_length. auto.
    + intros v' i Hi. rewrite upd_upd. rewrite (tread T i j k) by (auto; lia). cbn [obind].
      rewrite oread_vnth by lia. cbn [obind]. rewrite oread_vnth by lia. cbn [obind].
      rewrite oread_vnth by (rewrite upd_length; auto). cbn [obind]. rewrite vnth_upd_eq by auto.
      rewrite owrite_vec by (rewrite upd_length; auto). cbn [obind]. rewrite !upd_upd. close_upd.
Qed.

Lemma tensor_contract_ok T xi xj junk : t_wf T -> length xi = t_i T -> length xj = t_j T -> length junk = t_k T ->
  exists y, tensor_contract T xi xj junk = Ok y /\ length y = t_k T /\
    forall k, (k < t_k T)%nat -> vnth y k = contraction T (vnth xi) (vnth xj) k.
Proof.
  intros W Li Lj Lk. unfold tensor_contract. rewrite Li, Lj, !Nat.eqb_refl. cbn [oassert].
  match goal with |- context[ofor (t_k T) ?f _] =>
    destruct (ofor_inv (t_k T) f (fun k s => snd s = (k * (t_i T * t_j T))%nat /\ length (fst s) = t_k T /\
      forall k', (k' < k)%nat -> vnth (fst s) k' = contraction T (vnth xi) (vnth xj) k') (junk, 0%nat)) as ([y t] & E & H) end.
  - cbn [fst snd]. split; auto. split; auto. intros; lia.
  - intros k [y t] Hk (Ht & Ly & V). cbn [fst snd] in *. rewrite owrite_vec by lia. cbn [obind]. rewrite Ht.
    pose proof (contract_k 1 T xi xj (upd y k 0) k W Li Lj Hk) as E. rewrite upd_length in E. specialize (E ltac:(lia)).
    rewrite upd_upd, vnth_upd_eq in E by lia.
    eexists. split.
    + etransitivity; [|exact E]. apply ofor_ext. intros [y1 t1] j _. apply ofor_ext. intros [y2 t2] i _.
      destruct (oread (t_buf T) t2); cbn [obind]; auto. rewrite Rmult_1_l. auto.
    + cbn [fst snd]. split; auto. split; [rewrite upd_length; auto|]. intros k' Hk'.
      destruct (Nat.eq_dec k' k) as [->|N]; [rewrite vnth_upd_eq by lia; ring|rewrite vnth_upd_ne by auto; apply V; lia].
  - cbn [fst snd] in *. destruct H as (_ & Ly & V). rw_bind E. exists y. auto.
Qed.

Lemma tensor_add_scaled_contract_ok T w xi xj y junk : t_wf T -> length xi = t_i T -> length xj = t_j T -> length y = t_k T ->
  exists z, tensor_add_scaled_contract T w xi xj y junk = Ok z /\ length z = t_k T /\
    forall k, (k < t_k T)%nat -> vnth z k = vnth y k + w * contraction T (vnth xi) (vnth xj) k.
Proof.
  intros W Li Lj Lk. unfold tensor_add_scaled_contract. rewrite Li, Lj, Lk, !Nat.eqb_refl. cbn [oassert].
  match goal with |- context[ofor (t_k T) ?f _] =>
    destruct (ofor_inv (t_k T) f (fun k s => snd s = (k * (t_i T * t_j T))%nat /\ length (fst s) = t_k T /\
      forall k', (k' < t_k T)%nat -> vnth (fst s) k' = vnth y k' + if (k' <? k)%nat then w * contraction T (vnth xi) (vnth xj) k' else 0) (y, 0%nat)) as ([z t] & E & H) end.
  - cbn [fst snd]. split; auto. split; auto. intros k' _. simpl. ring.
  - intros k [z t] Hk (Ht & Ly & V). cbn [fst snd] in *. rewrite Ht.
    eexists. split; [exact (contract_k w T xi xj z k W Li Lj Hk ltac:(lia))|].
    cbn [fst snd]. split; auto. split; [rewrite upd_length; auto|]. intros k' Hk'.
    destruct (Nat.eq_dec k' k) as [->|N].
    + rewrite vnth_upd_eq, V by lia. rewrite Nat.ltb_irrefl. destruct (Nat.ltb_spec k (S k)); [ring|lia].
    + rewrite vnth_upd_ne, V by auto. destruct (Nat.ltb_spec k' k), (Nat.ltb_spec k' (S k)); auto; lia.
  - cbn [fst snd] in *. destruct H as (_ & Ly & V). rw_bind E. exists z. split; auto. split; auto. intros k Hk.
    rewrite V by auto. destruct (Nat.ltb_spec k (t_k T)); [auto|lia].
Qed.

(** ** Transposed products *)

Lemma transpose_loop_ok scale T x size_ax size_nx offset stride M :
  length x = size_ax -> (t_k T * size_nx <= length (dm_buf M))%nat ->
  (forall k nx ax, (k < t_k T)%nat -> (nx < size_nx)%nat -> (ax < size_ax)%nat ->
     (k * (t_i T * t_j T) + offset * nx + ax * stride < length (t_buf T))%nat) ->
  exists m, tensor_transpose_loop scale T x size_ax size_nx offset stride M = Ok m /\ dm_h m = dm_h M /\ dm_w m = dm_w M /\
    length (dm_buf m) = length (dm_buf M) /\
    (forall k nx, (k < t_k T)%nat -> (nx < size_nx)%nat ->
       vnth (dm_buf m) (k + nx * t_k T) = vnth (dm_buf M) (k + nx * t_k T) +
         rsum size_ax (fun ax => scale (vnth (t_buf T) (k * (t_i T * t_j T) + offset * nx + ax * stride)) * vnth x ax)) /\
    (forall p, (t_k T * size_nx <= p)%nat -> vnth (dm_buf m) p = vnth (dm_buf M) p).
Proof.
  intros Lx LM HT. unfold tensor_transpose_loop. set (K := t_k T) in *.
  pose (G := fun p => rsum size_ax (fun ax => scale (vnth (t_buf T) (p mod K * (t_i T * t_j T) + offset * (p / K) + ax * stride)) * vnth x ax)).
  match goal with |- context[ofor size_nx ?f _] =>
    destruct (ofor_inv size_nx f (fun nx s => snd s = (nx * K)%nat /\ length (fst s) = length (dm_buf M) /\
      forall p, vnth (fst s) p = vnth (dm_buf M) p + if (p <? nx * K)%nat then G p else 0) (dm_buf M, 0%nat)) as ([b d] & E & H) end.
  - cbn [fst snd]. split; auto. split; auto. intros p. simpl. ring.
  - intros nx [b d] Hnx (Hd & Lb & V). cbn [fst snd] in *.
    match goal with |- context[ofor K ?f _] =>
      destruct (ofor_inv K f (fun k s => snd s = (nx * K + k)%nat /\ length (fst s) = length (dm_buf M) /\
        forall p, vnth (fst s) p = vnth (dm_buf M) p + if (p <? nx * K + k)%nat then G p else 0) (b, d)) as ([b1 d1] & E1 & H1) end.
    + cbn [fst snd]. split; [lia|]. split; auto. rewrite Nat.add_0_r. auto.
    + intros k [b1 d1] Hk (Hd1 & L1 & V1). cbn [fst snd] in *.
      assert (Bd : (d1 < length b1)%nat) by nia.
      rewrite (acc_loop size_ax _ b1 d1 _ stride (fun ax => scale (vnth (t_buf T) (k * (t_i T * t_j T) + offset * nx + ax * stride)) * vnth x ax)).
      * cbn [obind]. eexists; split; [reflexivity|]. cbn [fst snd]. split; [lia|]. split; [rewrite upd_length; auto|].
        intros p. destruct (Nat.eq_dec p d1) as [->|N].
        -- rewrite vnth_upd_eq, V1 by auto. rewrite Hd1. rewrite Nat.ltb_irrefl. destruct (Nat.ltb_spec (nx * K + k) (nx * K + S k)); [|lia].
           unfold G. rewrite (Nat.add_comm (nx * K) k). rewrite Nat.mod_add, Nat.mod_small by lia.
           rewrite Nat.div_add, Nat.div_small by lia. rewrite Nat.add_0_l. ring.
        -- rewrite vnth_upd_ne, V1 by auto. destruct (Nat.ltb_spec p (nx * K + k)), (Nat.ltb_spec p (nx * K + S k)); auto; lia.
      * auto.
      * intros v ax Hax. rewrite oread_vnth by (apply HT; auto). cbn [obind].
        rewrite oread_vnth by lia. cbn [obind]. rewrite oread_vnth by (rewrite upd_length; auto). cbn [obind].
        rewrite vnth_upd_eq by auto. rewrite owrite_vec by (rewrite upd_length; auto). cbn [obind]. rewrite upd_upd. close_upd.
    + destruct H1 as (Hd1 & L1 & V1). cbn [fst snd] in *. exists (b1, d1). split; [exact E1|]. cbn [fst snd]. split; [lia|].
      split; auto. intros p. rewrite V1. rewrite (Nat.add_comm (nx * K) K). auto.
  - cbn [fst snd] in *. destruct H as (Hd & L & V). rw_bind E. eexists; split; [reflexivity|]. cbn [dm_h dm_w dm_buf].
    split; auto. split; auto. split; auto. split.
    + intros k nx Hk Hnx. rewrite V. destruct (Nat.ltb_spec (k + nx * K) (size_nx * K)); [|nia]. f_equal. unfold G.
      rewrite Nat.mod_add, Nat.mod_small by lia. rewrite Nat.div_add, Nat.div_small by lia. rewrite Nat.add_0_l. auto.
    + intros p Hp. rewrite V. destruct (Nat.ltb_spec p (size_nx * K)); [lia|]. ring.
Qed.

(** Axis 0: row k, column j gains sum_i T_ijk x_i; axis 1: row k, column i gains sum_j T_ijk x_j. *)
Lemma tensor_transpose_0_ok scale T x M : t_wf T -> dm_wf M -> length x = t_i T -> dm_h M = t_k T -> dm_w M = t_j T ->
  exists m, tensor_transpose scale T x 0 M = Ok m /\ dm_wf m /\ dm_h m = t_k T /\ dm_w m = t_j T /\
    forall k j, (k < t_k T)%nat -> (j < t_j T)%nat ->
      mget m k j = mget M k j + rsum (t_i T) (fun i => scale (tget T i j k) * vnth x i).
Proof.
  intros W WM Lx Hh Hw. unfold tensor_transpose. cbn [Z.eqb]. rewrite Lx, Hh, Hw, !Nat.eqb_refl. cbn [oassert].
  unfold dm_wf in WM. rewrite Hh, Hw in WM.
  destruct (transpose_loop_ok scale T x (t_i T) (t_j T) (t_i T) 1 M) as (m & E & H1 & H2 & L & V & _); auto.
  { intros k nx ax Hk Hn Ha. pose proof (t_index T ax nx k Ha Hn Hk W). lia. }
  exists m. split; auto. split; [unfold dm_wf; rewrite H1, H2, L, Hh, Hw; auto|]. split; [congruence|]. split; [congruence|].
  intros k j Hk Hj. unfold mget. rewrite H1, Hh, V by auto. f_equal. apply rsum_ext. intros i Hi. unfold tget.
  do 3 f_equal. lia.
Qed.

Lemma tensor_transpose_1_ok scale T x M : t_wf T -> dm_wf M -> length x = t_j T -> dm_h M = t_k T -> dm_w M = t_i T ->
  exists m, tensor_transpose scale T x 1 M = Ok m /\ dm_wf m /\ dm_h m = t_k T /\ dm_w m = t_i T /\
    forall k i, (k < t_k T)%nat -> (i < t_i T)%nat ->
      mget m k i = mget M k i + rsum (t_j T) (fun j => scale (tget T i j k) * vnth x j).
Proof.
  intros W WM Lx Hh Hw. unfold tensor_transpose. cbn [Z.eqb]. rewrite Lx, Hh, Hw, !Nat.eqb_refl. cbn [oassert].
  unfold dm_wf in WM. rewrite Hh, Hw in WM.
  destruct (transpose_loop_ok scale T x (t_j T) (t_i T) 1 (t_i T) M) as (m & E & H1 & H2 & L & V & _); auto.
  { intros k nx ax Hk Hn Ha. pose proof (t_index T nx ax k Hn Ha Hk W). lia. }
  exists m. split; auto. split; [unfold dm_wf; rewrite H1, H2, L, Hh, Hw; auto|]. split; [congruence|]. split; [congruence|].
  intros k i Hk Hi. unfold mget. rewrite H1, Hh, V by auto. f_equal. apply rsum_ext. intros j Hj. unfold tget.
  do 3 f_equal. lia.
Qed.

(** ** Contraction over the last index *)

Lemma vnth_zero_app n (l : vec) p : (p < n)%nat -> vnth (repeat 0 n ++ l) p = 0.
Proof. intros H. unfold vnth. rewrite app_nth1 by (rewrite repeat_length; auto). apply nth_repeat. Qed.

Lemma tensor_mult_ok T x M : t_wf T -> dm_wf M -> length x = t_k T -> dm_h M = t_i T -> dm_w M = t_j T ->
  exists m, tensor_mult T x M = Ok m /\ dm_wf m /\ dm_h m = t_i T /\ dm_w m = t_j T /\
    forall i j, (i < t_i T)%nat -> (j < t_j T)%nat -> mget m i j = rsum (t_k T) (fun k => tget T i j k * vnth x k).
Proof.
  intros W WM Lx Hh Hw. unfold tensor_mult. unfold dm_wf in WM. rewrite Hh, Hw in WM.
  set (N := (t_i T * t_j T)%nat) in *.
  set (b0 := dm_buf (dm_zero M)).
  assert (L0 : length b0 = length (dm_buf M)).
  { unfold b0, dm_zero. cbn [dm_buf]. rewrite app_length, repeat_length, skipn_length, Hh, Hw. fold N. lia. }
  assert (Z0 : forall p, (p < N)%nat -> vnth b0 p = 0).
  { intros p Hp. unfold b0, dm_zero. cbn [dm_buf]. rewrite Hh, Hw. apply vnth_zero_app. auto. }
  pose (tv := fun k p => vnth (t_buf T) (k * N + p)).
  match goal with |- context[ofor (t_k T) ?f _] =>
    destruct (ofor_inv (t_k T) f (fun k s => snd s = (k * N)%nat /\ length (fst s) = length (dm_buf M) /\
      forall p, (p < N)%nat -> vnth (fst s) p = rsum k (fun k => tv k p * vnth x k)) (b0, 0%nat)) as ([b t] & E & H) end.
  - cbn [fst snd]. split; auto.
  - intros k [b t] Hk (Ht & Lb & V). cbn [fst snd] in *.
    match goal with |- context[ofor (t_j T) ?f _] =>
      destruct (ofor_inv (t_j T) f (fun j s => let '(b', t', d) := s in d = (j * t_i T)%nat /\ t' = (k * N + d)%nat /\ length b' = length (dm_buf M) /\
        forall p, (p < N)%nat -> vnth b' p = vnth b p + if (p <? d)%nat then tv k p * vnth x k else 0) (b, t, 0%nat)) as (((b1 & t1) & d1) & E1 & H1) end.
    + split; auto. split; [lia|]. split; auto. intros p _. simpl. ring.
    + intros j ((b1 & t1) & d1) Hj (Hd1 & Ht1 & L1 & V1).
      match goal with |- context[ofor (t_i T) ?f _] =>
        destruct (ofor_inv (t_i T) f (fun i s => let '(b', t', d) := s in d = (j * t_i T + i)%nat /\ t' = (k * N + d)%nat /\ length b' = length (dm_buf M) /\
          forall p, (p < N)%nat -> vnth b' p = vnth b p + if (p <? d)%nat then tv k p * vnth x k else 0) (b1, t1, d1)) as (((b2 & t2) & d2) & E2 & H2) end.
      * split; [lia|]. split; [lia|]. split; auto.
      * intros i ((b2 & t2) & d2) Hi (Hd2 & Ht2 & L2 & V2).
        assert (BN : (d2 < N)%nat) by (unfold N; nia).
        rewrite oread_vnth. 2:{ rewrite W. unfold N in *. nia. }
        cbn [obind]. rewrite oread_vnth by lia. cbn [obind]. rewrite oread_vnth by lia. cbn [obind].
        rewrite owrite_vec by lia. cbn [obind]. eexists; split; [reflexivity|]. cbn beta iota. split; [lia|]. split; [lia|].
        split; [rewrite upd_length; auto|]. intros p Hp. destruct (Nat.eq_dec p d2) as [->|Np].
        -- rewrite vnth_upd_eq, V2 by lia. rewrite Nat.ltb_irrefl. destruct (Nat.ltb_spec d2 (d2 + 1)); [|lia].
           unfold tv. rewrite Ht2. ring.
        -- rewrite vnth_upd_ne, V2 by auto. destruct (Nat.ltb_spec p d2), (Nat.ltb_spec p (d2 + 1)); auto; lia.
      * destruct H2 as (Hd2 & Ht2 & L2 & V2). eexists; split; [exact E2|]. cbn beta iota. split; [lia|]. auto.
    + destruct H1 as (Hd1 & Ht1 & L1 & V1). rw_bind E1. eexists; split; [reflexivity|]. cbn [fst snd].
      assert (EN : d1 = N) by (unfold N; lia). split; [lia|]. split; auto. intros p Hp. rewrite V1, V by auto. rewrite EN.
      destruct (Nat.ltb_spec p N); [|lia]. simpl. auto.
  - cbn [fst snd] in *. destruct H as (_ & Lb & V). rw_bind E. eexists; split; [reflexivity|]. cbn [dm_h dm_w dm_buf].
    split; [unfold dm_wf; cbn [dm_h dm_w dm_buf]; rewrite Hh, Hw, Lb; auto|]. split; auto. split; auto.
    intros i j Hi Hj. unfold mget. cbn [dm_h dm_buf]. rewrite Hh. rewrite V by (unfold N; nia).
    apply rsum_ext. intros k Hk. f_equal. unfold tv, tget. f_equal. unfold N. lia.
Qed.

(** ** Product over the middle index, as coded *)

Lemma tensor_add_mult_on_j_ok T x M : t_wf T -> dm_wf M -> (0 < length x)%nat -> dm_h M = t_i T -> dm_w M = t_k T ->
  exists m, tensor_add_mult_on_j T x M = Ok m /\ dm_wf m /\ dm_h m = t_i T /\ dm_w m = t_k T /\
    forall i k, (i < t_i T)%nat -> (k < t_k T)%nat ->
      mget m i k = mget M i k + rsum (t_j T) (fun j => tget T i j k * vnth x 0).
Proof.
  intros W WM Lx Hh Hw. unfold tensor_add_mult_on_j. unfold dm_wf in WM. rewrite Hh, Hw in WM.
  pose (G := fun i k => rsum (t_j T) (fun j => tget T i j k * vnth x 0)).
  match goal with |- context[ofor (t_k T) ?f _] =>
    destruct (ofor_inv (t_k T) f (fun k s => snd s = (k * t_i T)%nat /\ length (fst s) = length (dm_buf M) /\
      forall i k', (i < t_i T)%nat -> vnth (fst s) (i + k' * t_i T) = vnth (dm_buf M) (i + k' * t_i T) + if (k' <? k)%nat then G i k' else 0) (dm_buf M, 0%nat)) as ([b d] & E & H) end.
  - cbn [fst snd]. split; auto. split; auto. intros i k' _. simpl. ring.
  - intros k [b d] Hk (Hd & Lb & V). cbn [fst snd] in *.
    match goal with |- context[ofor (t_i T) ?f _] =>
      destruct (ofor_inv (t_i T) f (fun i s => snd s = (k * t_i T + i)%nat /\ length (fst s) = length (dm_buf M) /\
        forall i' k', (i' < t_i T)%nat -> vnth (fst s) (i' + k' * t_i T) = vnth b (i' + k' * t_i T) +
          if ((k' =? k) && (i' <? i))%nat%bool then G i' k' else 0) (b, d)) as ([b1 d1] & E1 & H1) end.
    + cbn [fst snd]. split; [lia|]. split; auto. intros i' k' _. rewrite andb_false_r. ring.
    + intros i [b1 d1] Hi (Hd1 & L1 & V1). cbn [fst snd] in *.
      assert (Bd : (d1 < length b1)%nat) by nia.
      rewrite (acc_loop (t_j T) _ b1 d1 _ (t_i T) (fun j => tget T i j k * vnth x 0)).
      * cbn [obind]. eexists; split; [reflexivity|]. cbn [fst snd]. split; [lia|]. split; [rewrite upd_length; auto|].
        intros i' k' Hi'. destruct (Nat.eq_dec (i' + k' * t_i T) d1) as [Ed|N].
        -- assert (i' = i /\ k' = k) as (-> & ->) by (apply (cm_inj (t_i T)); auto; lia).
           rewrite Ed, vnth_upd_eq by auto. rewrite <- Ed, V1 by auto. rewrite Nat.eqb_refl, Nat.ltb_irrefl. cbn [andb].
           destruct (Nat.ltb_spec i (S i)); [|lia]. unfold G. ring.
        -- rewrite vnth_upd_ne, V1 by auto. destruct (Nat.eqb_spec k' k) as [->|Nk]; cbn [andb]; auto.
           destruct (Nat.ltb_spec i' i), (Nat.ltb_spec i' (S i)); auto; try lia.
      * auto.
      * intros v j Hj. rewrite (tread T i j k) by (auto; lia). cbn [obind].
        rewrite oread_vnth by lia. cbn [obind]. rewrite oread_vnth by (rewrite upd_length; auto). cbn [obind].
        rewrite vnth_upd_eq by auto. rewrite owrite_vec by (rewrite upd_length; auto). cbn [obind]. rewrite upd_upd. close_upd.
    + destruct H1 as (Hd1 & L1 & V1). cbn [fst snd] in *. exists (b1, d1). split; [exact E1|]. cbn [fst snd]. split; [lia|].
      split; auto. intros i k' Hi. rewrite V1, V by auto. destruct (Nat.ltb_spec i (t_i T)); [|lia]. rewrite andb_true_r.
      destruct (Nat.eqb_spec k' k), (Nat.ltb_spec k' k), (Nat.ltb_spec k' (S k)); try lia; ring.
  - cbn [fst snd] in *. destruct H as (Hd & L & V). rw_bind E. eexists; split; [reflexivity|]. cbn [dm_h dm_w dm_buf].
    split; [unfold dm_wf; cbn [dm_h dm_w dm_buf]; rewrite Hh, Hw, L; auto|]. split; auto. split; auto.
    intros i k Hi Hk. unfold mget. cbn [dm_h dm_buf]. rewrite Hh, V by auto. destruct (Nat.ltb_spec k (t_k T)); [auto|lia].
Qed.

(** ** Tangent *)

Lemma contraction_add T x1 x2 y k : contraction T (fun i => x1 i + x2 i) y k = contraction T x1 y k + contraction T x2 y k.
Proof.
  unfold contraction. rewrite <- rsum_plus. apply rsum_ext. intros j _. rewrite <- rsum_plus. apply rsum_ext. intros i _. ring.
Qed.

Lemma contraction_add_r T x y1 y2 k : contraction T x (fun i => y1 i + y2 i) k = contraction T x y1 k + contraction T x y2 k.
Proof.
  unfold contraction. rewrite <- rsum_plus. apply rsum_ext. intros j _. rewrite <- rsum_plus. apply rsum_ext. intros i _. ring.
Qed.

Lemma contraction_scal T a x y k : contraction T (fun i => a * x i) y k = a * contraction T x y k.
Proof.
  unfold contraction. rewrite <- rsum_scal. apply rsum_ext. intros j _. rewrite <- rsum_scal. apply rsum_ext. intros i _. ring.
Qed.

Lemma contraction_scal_r T a x y k : contraction T x (fun i => a * y i) k = a * contraction T x y k.
Proof.
  unfold contraction. rewrite <- rsum_scal. apply rsum_ext. intros j _. rewrite <- rsum_scal. apply rsum_ext. intros i _. ring.
Qed.

(** The two transposed products, applied one after the other to a zero matrix, give the derivative of
    x -> T(x, x). *)
Lemma tensor_tangent T w x : t_wf T -> t_i T = t_j T -> length x = t_i T ->
  forall M, dm_wf M -> dm_h M = t_k T -> dm_w M = t_i T ->
  exists m1 m2, tensor_add_scaled_mult_transpose T w x 0 M = Ok m1 /\ tensor_add_scaled_mult_transpose T w x 1 m1 = Ok m2 /\
    dm_h m2 = t_k T /\ dm_w m2 = t_i T /\
    forall (h : nat -> R) k, (k < t_k T)%nat ->
      w * contraction T (fun i => vnth x i + h i) (fun i => vnth x i + h i) k =
      w * contraction T (vnth x) (vnth x) k + rsum (t_i T) (fun i => (mget m2 k i - mget M k i) * h i) + w * contraction T h h k.
Proof.
  intros W Sq Lx M WM Hh Hw.
  destruct (tensor_transpose_0_ok (fun tv => w * tv) T x M) as (m1 & E1 & W1 & H1 & H1' & V1); auto; try congruence.
  destruct (tensor_transpose_1_ok (fun tv => w * tv) T x m1) as (m2 & E2 & W2 & H2 & H2' & V2); auto; try congruence.
  exists m1, m2. split; [exact E1|]. split; [exact E2|]. split; auto. split; auto. intros h k Hk.
  rewrite contraction_add, !contraction_add_r.
  assert (EJ : rsum (t_i T) (fun i => (mget m2 k i - mget M k i) * h i) =
          w * contraction T (vnth x) h k + w * contraction T h (vnth x) k).
  { rewrite (rsum_ext _ _ (fun i => rsum (t_i T) (fun l => w * tget T l i k * vnth x l) * h i + rsum (t_j T) (fun j => w * tget T i j k * vnth x j) * h i)).
    2:{ intros i Hi. rewrite V2, V1 by (auto; lia). ring. }
    rewrite rsum_plus. f_equal.
    - unfold contraction. rewrite <- rsum_scal, <- Sq. apply rsum_ext. intros j Hj. rewrite <- rsum_scal, <- rsum_scal_r.
      apply rsum_ext. intros i Hi. ring.
    - unfold contraction. rewrite rsum_swap, <- rsum_scal. apply rsum_ext. intros i Hi. rewrite <- rsum_scal, <- rsum_scal_r.
      apply rsum_ext. intros j Hj. ring. }
  rewrite EJ. ring.
Qed.
