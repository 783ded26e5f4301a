(** The reduced steady Navier-Stokes operators: values and tangents. *)
From Coq Require Import Reals List Bool Lia Arith ZArith Lra.
From Verif Require Import Outcome ListLemmas LaBase LinalgModel LinalgSpec LinalgTensorProofs BlockVec TagsModel RomModel RomSpec RomProofs HdfProofs IntegProofs NsModel NsSpec NsProofs.
Import ListNotations.
Local Open Scope R_scope.

Section Rom.
  Variables (h : rom) (off : list nat) (size : nat -> nat) (lin : smat).
  Hypothesis W : flow_rom h off size lin.
  Local Notation N := (nsum (blocks h) size).
  Local Notation ns := (rh_nsub h).
  Local Notation u m := (vsize h size m).
  Local Notation o m := (vel h off m).
  Local Notation st := (ns_of h off size lin).

  Lemma mid_read m : (m < ns)%nat -> oread (nr_mid st) m = Ok (place h m 0).
  Proof. intros H. exact (oread_map_seq (fun m => place h m 0) ns m H). Qed.
  Lemma idx_read m : (m < ns)%nat -> oread (nr_idx st) m = Ok (seq (o m) (u m)).
  Proof. intros H. exact (oread_map_seq (fun m => seq (o m) (u m)) ns m H). Qed.
  Lemma x_read x m : List.length x = N -> (m < ns)%nat -> bv_get (BVec (nr_off st) x) (place h m 0) = Ok (vel_of h off size x m).
  Proof.
    intros L H. rewrite (bv_get_ok _ _ _ (bwf h off size lin W x L)) by (apply (vplace_lt h off size lin W); auto).
    rewrite (blk_vel h off size lin W) by auto. reflexivity.
  Qed.
  Lemma vel_of_length x m : List.length (vel_of h off size x m) = u m.
  Proof. unfold vel_of. rewrite map_length, seq_length. reflexivity. Qed.
  Lemma vel_of_nth x m k : (k < u m)%nat -> vnth (vel_of h off size x m) k = vnth x (o m + k).
  Proof. intros H. unfold vel_of. unfold vnth at 1. rewrite (nth_map_seq (fun k => vnth x (o m + k))) by auto. reflexivity. Qed.

  Lemma tensor_value hs x : tensors_fit h size hs -> List.length x = N ->
    exists y, tensor_rom_mult st hs x = Ok y /\ List.length y = N /\
      (forall m k, (m < ns)%nat -> (k < u m)%nat -> vnth y (o m + k) = rsum N (fun b => sm_val lin (o m + k) b * vnth x b) +
         contraction (nth m hs (Tensor 0 0 0 [])) (fun i => vnth x (o m + i)) (fun i => vnth x (o m + i)) k) /\
      (forall p, (p < N)%nat -> no_velocity h off size p -> vnth y p = rsum N (fun b => sm_val lin p b * vnth x b)).
  Proof.
    intros (Lh & Ht) Lx. unfold tensor_rom_mult. destruct (lin_mult h off size lin W x Lx) as (y & E & Ly & Vy). change (nr_lin st) with lin. rw_bind E.
    change (nr_nsub st) with ns. change (nr_off st) with off.
    set (T := fun m => nth m hs (Tensor 0 0 0 [])).
    set (Z := fun m => map (fun k => contraction (T m) (fun i => vnth x (o m + i)) (fun i => vnth x (o m + i)) k) (seq 0 (u m))).
    match goal with |- context[ofor ns ?f _] => destruct (add_blocks h off size lin W Z f y Ly) as (b & Eb & Ob & Lb & Vb & Nb) end.
    - intros m Hm. unfold Z. rewrite map_length, seq_length. auto.
    - intros b m Hm Wb Ob. pose proof (vplace_lt h off size lin W m Hm) as P.
      destruct (Ht m Hm) as (Tw & T1 & T2 & T3). fold (T m) in Tw, T1, T2, T3.
      rewrite mid_read by auto. cbn [obind]. pose proof (x_read x m Lx Hm) as Ex. cbn [nr_off ns_of] in Ex. rewrite Ex. cbn [obind].
      rewrite (bv_get_ok _ _ _ Wb) by auto. cbn [obind].
      assert (Er : oread hs m = Ok (T m)) by (unfold oread, T; rewrite (nth_error_nth' hs (Tensor 0 0 0 [])) by lia; reflexivity). rewrite Er. cbn [obind].
      rewrite (blk_length _ _ _ Wb) by auto. rewrite T3. fold (u m). change (size (place h m 0)) with (u m). rewrite Nat.eqb_refl. cbn [oguard].
      destruct (tensor_add_scaled_contract_ok (T m) 1 (vel_of h off size x m) (vel_of h off size x m) (blk b (place h m 0)) []) as (z & Ez & Lz & Vz);
        try rewrite vel_of_length; try rewrite (blk_length _ _ _ Wb); auto.
      rw_bind Ez. f_equal. apply vec_ext; [rewrite map_length, seq_length; congruence|]. intros k Hk. rewrite Lz, T3 in Hk. rewrite Vz by lia.
      unfold vnth at 4. rewrite (nth_map_seq (fun k => vnth (blk b (place h m 0)) k + vnth (Z m) k)) by auto. f_equal. unfold Z. unfold vnth at 3.
      rewrite (nth_map_seq (fun k => contraction (T m) (fun i => vnth x (o m + i)) (fun i => vnth x (o m + i)) k)) by auto. rewrite Rmult_1_l.
      unfold contraction. apply rsum_ext. intros j Hj. apply rsum_ext. intros i Hi. rewrite !vel_of_nth by lia. reflexivity.
    - rw_bind Eb. exists (bv_dat b). split; auto. split; auto. split.
      + intros m k Hm Hk. rewrite Vb, Vy by (auto; pose proof (vel_end h off size lin W m Hm); lia). f_equal. unfold Z. unfold vnth at 1.
        rewrite (nth_map_seq (fun k => contraction (T m) (fun i => vnth x (o m + i)) (fun i => vnth x (o m + i)) k)) by auto. reflexivity.
      + intros p Hp Np. rewrite Nb, Vy by auto. reflexivity.
  Qed.

  Lemma zero_mat n : dm_wf (DMat n n (repeat 0 (n * n))) /\ forall i j, mget (DMat n n (repeat 0 (n * n))) i j = 0.
  Proof.
    split; [unfold dm_wf; cbn; rewrite repeat_length; lia|]. intros i j. unfold mget, vnth. cbn. destruct (Nat.lt_ge_cases (i + j * n) (n * n)).
    - rewrite nth_repeat. reflexivity.
    - apply nth_overflow. rewrite repeat_length. lia.
  Qed.

  Lemma tensor_grad hs x : tensors_fit h size hs -> takes_velocity h off size lin -> List.length x = N ->
    exists J, tensor_rom_grad st hs x = Ok J /\ sm_h J = N /\ sm_w J = N /\ sm_fin J = true /\
      (forall m k (v : nat -> R), (m < ns)%nat -> (k < u m)%nat -> rsum N (fun b => sm_val J (o m + k) b * v b) =
         rsum N (fun b => sm_val lin (o m + k) b * v b) +
         (contraction (nth m hs (Tensor 0 0 0 [])) (fun i => vnth x (o m + i)) (fun i => v (o m + i)%nat) k +
          contraction (nth m hs (Tensor 0 0 0 [])) (fun i => v (o m + i)%nat) (fun i => vnth x (o m + i)) k)) /\
      (forall p (v : nat -> R), no_velocity h off size p -> rsum N (fun b => sm_val J p b * v b) = rsum N (fun b => sm_val lin p b * v b)).
  Proof.
    intros (Lh & Ht) Tk Lx. unfold tensor_rom_grad. change (nr_nsub st) with ns. change (nr_lin st) with lin.
    set (T := fun m => nth m hs (Tensor 0 0 0 [])).
    assert (Ex : exists A : nat -> dmat, forall m, (m < ns)%nat ->
      (let* A0 := tensor_add_mult_transpose (T m) (vel_of h off size x m) 0 (DMat (u m) (u m) (repeat 0 (u m * u m))) in
       tensor_add_mult_transpose (T m) (vel_of h off size x m) 1 A0) = Ok (A m) /\
      forall k j, (k < u m)%nat -> (j < u m)%nat -> mget (A m) k j =
        rsum (u m) (fun i => tget (T m) i j k * vnth x (o m + i)) + rsum (u m) (fun i => tget (T m) j i k * vnth x (o m + i))).
    { exists (fun m => match (let* A0 := tensor_add_mult_transpose (T m) (vel_of h off size x m) 0 (DMat (u m) (u m) (repeat 0 (u m * u m))) in
        tensor_add_mult_transpose (T m) (vel_of h off size x m) 1 A0) with Ok A => A | _ => DMat 0 0 [] end).
      intros m Hm. destruct (Ht m Hm) as (Tw & T1 & T2 & T3). fold (T m) in Tw, T1, T2, T3. pose proof (vel_of_length x m) as Lv. destruct (zero_mat (u m)) as (Zw & Zv).
      destruct (tensor_transpose_0_ok (fun tv => tv) (T m) (vel_of h off size x m) (DMat (u m) (u m) (repeat 0 (u m * u m)))) as (m1 & E1 & W1 & H1 & H1' & V1); auto; try (cbn [dm_h dm_w]; congruence).
      destruct (tensor_transpose_1_ok (fun tv => tv) (T m) (vel_of h off size x m) m1) as (m2 & E2 & W2 & H2 & H2' & V2); auto; try congruence.
      unfold tensor_add_mult_transpose. rewrite E1. cbn [obind]. rewrite E2. split; auto. intros k j Hk Hj. rewrite V2, V1, Zv by lia. rewrite Rplus_0_l. rewrite T1, T2.
      f_equal; apply rsum_ext; intros i Hi; rewrite vel_of_nth by auto; reflexivity. }
    destruct Ex as (A & HA).
    match goal with |- context[ofor ns ?f lin] => destruct (add_mats h off size lin W A f lin) as (J & EJ & GJ & Vv & Vn) end.
    - apply W.
    - apply W.
    - auto.
    - intros J m Hm GJ. rewrite mid_read by auto. cbn [obind]. rewrite x_read by auto. cbn [obind]. rewrite vel_of_length.
      assert (Er : oread hs m = Ok (T m)) by (unfold oread, T; rewrite (nth_error_nth' hs (Tensor 0 0 0 [])) by lia; reflexivity). rewrite Er. cbn [obind].
      destruct (HA m Hm) as (EA & _). destruct (tensor_add_mult_transpose (T m) (vel_of h off size x m) 0 _) as [A0| |]; try discriminate. cbn [obind] in *. rewrite EA. cbn [obind].
      rewrite idx_read by auto. reflexivity.
    - rw_bind EJ. exists (sm_finalize J). split; auto. destruct GJ as (G1 & G2 & _). destruct W as (_ & _ & _ & Wh & Ww).
      split; [cbn; congruence|]. split; [cbn; congruence|]. split; [reflexivity|]. split.
      + intros m k v Hm Hk. etransitivity; [exact (Vv m k v Hm Hk)|]. f_equal. destruct (HA m Hm) as (_ & VA).
        destruct (Ht m Hm) as (Tw & T1 & T2 & T3). fold (T m) in Tw, T1, T2, T3. change (nth m hs (Tensor 0 0 0 [])) with (T m). unfold contraction. rewrite T1, T2.
        rewrite (rsum_ext _ _ (fun j => rsum (u m) (fun i => tget (T m) i j k * vnth x (o m + i)) * v (o m + j)%nat + rsum (u m) (fun i => tget (T m) j i k * vnth x (o m + i)) * v (o m + j)%nat)).
        2:{ intros j Hj. rewrite VA by auto. ring. }
        rewrite rsum_plus. f_equal.
        * apply rsum_ext. intros j Hj. rewrite <- rsum_scal_r. reflexivity.
        * rewrite (rsum_swap (u m) (u m)). apply rsum_ext. intros i Hi. rewrite <- rsum_scal_r. apply rsum_ext. intros j Hj. ring.
      + intros p v Np. exact (Vn p v Np).
  Qed.

  Lemma vplus_length n x d t : List.length (vplus n x d t) = n.
  Proof. unfold vplus. rewrite map_length, seq_length. reflexivity. Qed.
  Lemma vplus_nth n x d t i : (i < n)%nat -> vnth (vplus n x d t) i = vnth x i + t * vnth d i.
  Proof. intros H. unfold vplus. unfold vnth at 1. rewrite (nth_map_seq (fun i => vnth x i + t * vnth d i)) by auto. reflexivity. Qed.

  Lemma contraction_ext T x y x' y' k : (forall i, (i < t_i T)%nat -> x i = x' i) -> (forall j, (j < t_j T)%nat -> y j = y' j) ->
    contraction T x y k = contraction T x' y' k.
  Proof. intros Hx Hy. unfold contraction. apply rsum_ext. intros j Hj. apply rsum_ext. intros i Hi. rewrite Hx, Hy by auto. reflexivity. Qed.

  (** The value along a line is a quadratic polynomial whose linear coefficient is the Jacobian *)
  Lemma tensor_line hs x d J : tensors_fit h size hs -> takes_velocity h off size lin -> List.length x = N -> tensor_rom_grad st hs x = Ok J ->
    forall p, (p < N)%nat -> exists c q, forall t, exists y, tensor_rom_mult st hs (vplus N x d t) = Ok y /\ List.length y = N /\
      vnth y p = c + t * rsum N (fun b => sm_val J p b * vnth d b) + t * t * q.
  Proof.
    intros Ht Tk Lx EJ p Hp. destruct (tensor_grad hs x Ht Tk Lx) as (J' & EJ' & _ & _ & _ & Gv & Gn). rewrite EJ in EJ'. injection EJ' as <-.
    destruct (vel_or_not h off size lin W p Hp) as [(m & k & Hm & Hk & ->)|(Np & _)].
    - set (T := nth m hs (Tensor 0 0 0 [])). destruct Ht as (Lh & Ht). destruct (Ht m Hm) as (Tw & T1 & T2 & T3). fold T in Tw, T1, T2, T3.
      exists (rsum N (fun b => sm_val lin (o m + k) b * vnth x b) + contraction T (fun i => vnth x (o m + i)) (fun i => vnth x (o m + i)) k).
      exists (contraction T (fun i => vnth d (o m + i)) (fun i => vnth d (o m + i)) k). intros t.
      destruct (tensor_value hs (vplus N x d t) (conj Lh Ht) (vplus_length _ _ _ _)) as (y & E & Ly & Vy & _). exists y. split; auto. split; auto.
      rewrite Vy, Gv by auto. fold T. pose proof (vel_end h off size lin W m Hm) as En.
      rewrite (contraction_ext T _ _ (fun i => vnth x (o m + i) + t * vnth d (o m + i)) (fun i => vnth x (o m + i) + t * vnth d (o m + i))).
      2,3: intros i Hi; apply vplus_nth; lia.
      rewrite (contraction_add T (fun i => vnth x (o m + i)) (fun i => t * vnth d (o m + i))).
      rewrite !(contraction_add_r T _ (fun i => vnth x (o m + i)) (fun i => t * vnth d (o m + i))).
      rewrite !(contraction_scal_r T t). 
      assert (Cl : forall y k, contraction T (fun i => t * vnth d (o m + i)) y k = t * contraction T (fun i => vnth d (o m + i)) y k).
      { intros z k'. unfold contraction. rewrite <- rsum_scal. apply rsum_ext. intros j _. rewrite <- rsum_scal. apply rsum_ext. intros i _. ring. }
      rewrite !Cl.
      rewrite (rsum_ext N _ (fun b => sm_val lin (o m + k) b * vnth x b + t * (sm_val lin (o m + k) b * vnth d b))) by (intros b Hb; rewrite vplus_nth by auto; ring).
      rewrite rsum_plus, rsum_scal. ring.
    - exists (rsum N (fun b => sm_val lin p b * vnth x b)), 0. intros t.
      destruct (tensor_value hs (vplus N x d t) Ht (vplus_length _ _ _ _)) as (y & E & Ly & _ & Ny). exists y. split; auto. split; auto.
      rewrite Ny, Gn by auto. rewrite (rsum_ext N _ (fun b => sm_val lin p b * vnth x b + t * (sm_val lin p b * vnth d b))) by (intros b Hb; rewrite vplus_nth by auto; ring).
      rewrite rsum_plus, rsum_scal. ring.
  Qed.
End Rom.
