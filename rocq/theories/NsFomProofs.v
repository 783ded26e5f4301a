(** The full-order Navier-Stokes operator and its gradient. *)
From Coq Require Import Reals List Bool Lia Arith ZArith Lra.
From Verif Require Import Outcome ListLemmas HdfModel LaBase LinalgModel LinalgSpec BlockVec MbModel IntegModel IntegSpec IntegProofs NsProofs NsTensorModel NsTensorSpec.
Import ListNotations.
Local Open Scope R_scope.

Lemma rsum_blocks n size f : rsum (nsum n size) f = rsum n (fun j => rsum (size j) (fun q => f (nsum j size + q)%nat)).
Proof. induction n; [reflexivity|]. rewrite nsum_S, rsum_split, IHn. reflexivity. Qed.

Definition inside (h w ro co i j : nat) : bool := ((ro <=? i) && (i <? ro + h) && (co <=? j) && (j <? co + w))%nat.
Lemma add_matrix_val A h w ro co M i j : add_matrix 1 A h w ro co M i j = M i j + (if inside h w ro co i j then A (i - ro)%nat (j - co)%nat else 0).
Proof. unfold add_matrix, inside. destruct (_ && _)%bool; ring. Qed.
Lemma inside_in h w ro co i j : (i < h)%nat -> (j < w)%nat -> inside h w ro co (ro + i) (co + j) = true.
Proof. intros Hi Hj. unfold inside. rewrite !andb_true_iff, !Nat.leb_le, !Nat.ltb_lt. lia. Qed.
Lemma inside_at h w ro co i j : (ro <= i < ro + h)%nat -> (co <= j < co + w)%nat -> inside h w ro co i j = true.
Proof. intros Hi Hj. unfold inside. rewrite !andb_true_iff, !Nat.leb_le, !Nat.ltb_lt. lia. Qed.
Lemma inside_out h w ro co i j : (i < ro \/ ro + h <= i \/ j < co \/ co + w <= j)%nat -> inside h w ro co i j = false.
Proof. intros H. apply not_true_is_false. unfold inside. rewrite !andb_true_iff, !Nat.leb_le, !Nat.ltb_lt. lia. Qed.

Lemma nsum_in ns size m k : (m < ns)%nat -> (k < size m)%nat -> (nsum m size + k < nsum ns size)%nat.
Proof. intros Hm Hk. pose proof (nsum_le (S m) ns size ltac:(lia)) as Q. rewrite nsum_S in Q. lia. Qed.
Lemma nsum_split ns size p : (p < nsum ns size)%nat -> exists m k, (m < ns)%nat /\ (k < size m)%nat /\ p = (nsum m size + k)%nat.
Proof.
  induction ns; intros H; [cbn in H; lia|]. rewrite nsum_S in H. destruct (Nat.lt_ge_cases p (nsum ns size)) as [L|G].
  - destruct (IHns L) as (m & k & ? & ? & ?). exists m, k. split; [lia|auto].
  - exists ns, (p - nsum ns size)%nat. split; [lia|]. split; lia.
Qed.
Lemma nsum_other m m' size k : (k < size m)%nat -> m <> m' -> (nsum m size + k < nsum m' size \/ nsum m' size + size m' <= nsum m size + k)%nat.
Proof.
  intros Hk Ne. destruct (Nat.lt_trichotomy m m') as [L|[E|G]]; [|lia|].
  - left. pose proof (nsum_le (S m) m' size ltac:(lia)) as Q. rewrite nsum_S in Q. lia.
  - right. pose proof (nsum_le (S m') m size ltac:(lia)) as Q. rewrite nsum_S in Q. lia.
Qed.

Section Fom.
  Variables (op : nsop) (ns : nat) (size : nat -> nat).
  Hypothesis W : fom_ok op ns size.
  Local Notation nu := (nsum ns size).
  Local Notation n := (no_n op).
  Local Notation o m := (nsum m size).

  Lemma fom_sub : no_sub op = ns.
  Proof. destruct W as ((L & _) & _). unfold no_sub. lia. Qed.
  Lemma fom_nu : no_nu op = nu.
  Proof.
    destruct W as (O & _). unfold no_nu. rewrite <- (offsets_nsum _ _ _ ns O) by lia. destruct O as (L & _).
    rewrite (nth_indep _ 0%nat (last (no_off op) 0%nat)) by lia. destruct (no_off op) as [|a l] eqn:E; [discriminate|]. rewrite <- E in *.
    assert (G : forall l a, nth (List.length l) (a :: l) (last (a :: l) 0%nat) = last (a :: l) 0%nat).
    { clear. induction l as [|b l IH]; intros a; [reflexivity|]. change (last (a :: b :: l) 0%nat) with (last (b :: l) 0%nat). exact (IH b). }
    rewrite E in *. cbn [List.length] in L. injection L as L. rewrite <- L. symmetry. apply G.
  Qed.
  Lemma fom_off i : (i <= ns)%nat -> oread (no_off op) i = Ok (o i).
  Proof. intros Hi. destruct W as (O & _). unfold oread. rewrite (nth_error_nth' _ 0%nat) by (rewrite (proj1 O); lia). cbn. f_equal. apply (offsets_nsum _ _ _ i O Hi). Qed.
  Lemma part_length x m : List.length (part size x m) = size m.
  Proof. unfold part. rewrite map_length, seq_length. reflexivity. Qed.
  Lemma part_nth x m k : (k < size m)%nat -> vnth (part size x m) k = vnth x (o m + k).
  Proof. intros H. unfold part. unfold vnth at 1. rewrite (nth_map_seq (fun k => vnth x (o m + k))) by auto. reflexivity. Qed.
  Lemma first_nth (x : vec) i : (i < nu)%nat -> vnth (firstn nu x) i = vnth x i.
  Proof.
    intros H. unfold vnth. rewrite <- (firstn_skipn nu x) at 2. destruct (Nat.lt_ge_cases i (List.length (firstn nu x))); [rewrite app_nth1 by auto; reflexivity|].
    rewrite nth_overflow by auto. rewrite firstn_length in *. symmetry. rewrite firstn_skipn. apply nth_overflow. lia.
  Qed.
  (** Reading block [m] of [x] or of its velocities *)
  Lemma part_read x m : (nu <= List.length x)%nat -> (m < ns)%nat -> bv_get (BVec (no_off op) x) m = Ok (part size x m).
  Proof.
    intros L Hm. unfold bv_get. cbn [bv_off bv_dat]. rewrite !fom_off by lia. cbn [obind]. replace (m + 1)%nat with (S m) by lia. rewrite nsum_S.
    pose proof (nsum_le (S m) ns size ltac:(lia)) as Q. rewrite nsum_S in Q.
    rewrite (proj2 (Nat.leb_le _ _)) by lia. rewrite (proj2 (Nat.leb_le _ _)) by lia. cbn [andb oguard]. f_equal. apply vec_ext.
    - rewrite part_length, firstn_length, skipn_length. lia.
    - intros k Hk. rewrite firstn_length, skipn_length in Hk. rewrite part_nth by lia. unfold vnth. rewrite <- (firstn_skipn (o m) x) at 2.
      rewrite app_nth2 by (rewrite firstn_length; lia). rewrite firstn_length, Nat.min_l by lia. replace (o m + k - o m)%nat with k by lia.
      rewrite <- (firstn_skipn (o m + size m - o m) (skipn (o m) x)) at 2. rewrite app_nth1; [reflexivity|]. rewrite firstn_length, skipn_length. lia.
  Qed.

  Definition itf_val (itf : option (vec -> vec)) (x : vec) (p : nat) : R := match itf with None => 0 | Some f => vnth (f (firstn nu x)) p end.

  Lemma lin_row x p : (p < n)%nat -> rsum n (fun q => lin_entry op nu p q * vnth x q) =
    if (p <? nu)%nat then mult nu (no_M op) (vnth x) p + mult (n - nu) (no_Bt op) (fun j => vnth x (nu + j)) p
    else mult nu (no_B op) (vnth x) (p - nu)%nat + match no_C op with None => 0 | Some C => mult (n - nu) C (fun j => vnth x (nu + j)) (p - nu)%nat end.
  Proof.
    intros Hp. destruct W as (_ & Hn). replace n with (nu + (n - nu))%nat at 1 by lia. rewrite rsum_split. unfold lin_entry, mult. destruct (Nat.ltb_spec p nu).
    - f_equal; apply rsum_ext; intros q Hq; [rewrite (proj2 (Nat.ltb_lt _ _)) by lia; reflexivity|].
      rewrite (proj2 (Nat.ltb_ge _ _)) by lia. replace (nu + q - nu)%nat with q by lia. reflexivity.
    - f_equal; [apply rsum_ext; intros q Hq; rewrite (proj2 (Nat.ltb_lt _ _)) by lia; reflexivity|]. destruct (no_C op) as [C|].
      + apply rsum_ext; intros q Hq. rewrite (proj2 (Nat.ltb_ge _ _)) by lia. replace (nu + q - nu)%nat with q by lia. reflexivity.
      + apply rsum_0. intros q Hq. rewrite (proj2 (Nat.ltb_ge _ _)) by lia. ring.
  Qed.

  Lemma fom_value hs itf x : List.length x = n -> (forall m v, (m < ns)%nat -> List.length v = size m -> List.length (hs m v) = size m) ->
    (forall f v, itf = Some f -> List.length v = nu -> List.length (f v) = nu) ->
    exists y, fom_mult op hs itf x = Ok y /\ List.length y = n /\
      (forall m k, (m < ns)%nat -> (k < size m)%nat -> vnth y (o m + k) = rsum n (fun q => lin_entry op nu (o m + k) q * vnth x q) +
         vnth (hs m (part size x m)) k + itf_val itf x (o m + k)) /\
      (forall p, (nu <= p < n)%nat -> vnth y p = rsum n (fun q => lin_entry op nu p q * vnth x q)).
  Proof.
    intros Lx Hh Hf. pose proof W as (O & Hn). unfold fom_mult. rewrite fom_nu, fom_sub. rewrite (proj2 (Nat.leb_le _ _) Hn), Lx, Nat.eqb_refl. cbn [andb oguard].
    assert (Lu : List.length (firstn nu x) = nu) by (rewrite firstn_length; lia).
    assert (Pp : forall m, (m < ns)%nat -> part size (firstn nu x) m = part size x m).
    { intros m Hm. apply map_ext_in. intros k Hk. apply in_seq in Hk. apply first_nth. apply nsum_in; auto. lia. }
    assert (W0 : bv_wf (BVec (no_off op) (repeat 0 nu)) ns size) by (split; [auto|apply repeat_length]).
    match goal with |- context[ofor ns ?f ?b0] => destruct (bv_fill ns size ns (fun m => m) (fun m => hs m (part size x m)) f b0 W0) as (b & E & Wb & Ob & Vb & _) end.
    - intros m Hm. split; auto. apply Hh; auto. apply part_length.
    - auto.
    - intros b m Hm Wb Ob. rewrite part_read by (auto; rewrite Lu; auto). rewrite Pp by auto. cbn [obind]. rewrite (bv_get_ok _ _ _ Wb) by auto. cbn [obind].
      rewrite Hh by (auto using part_length). rewrite (blk_length _ _ _ Wb), Nat.eqb_refl by auto. reflexivity.
    - rw_bind E. cbn [bv_off] in Ob.
      assert (Vd : forall m k, (m < ns)%nat -> (k < size m)%nat -> vnth (bv_dat b) (o m + k) = vnth (hs m (part size x m)) k).
      { intros m k Hm Hk. rewrite <- Vb by auto. rewrite (blk_nth _ _ _ Wb) by auto. rewrite Ob, (offsets_nsum _ _ _ m O) by lia. reflexivity. }
      assert (Ey : exists yu, match itf with None => Ok (bv_dat b) | Some f => oguard (List.length (f (firstn nu x)) =? nu)%nat (Ok (map (fun i => vnth (bv_dat b) i + vnth (f (firstn nu x)) i) (seq 0 nu))) end = Ok yu /\
        forall i, (i < nu)%nat -> vnth yu i = vnth (bv_dat b) i + itf_val itf x i).
      { destruct itf as [f|].
        - rewrite (Hf f) by auto. rewrite Nat.eqb_refl. cbn [oguard]. eexists. split; [reflexivity|]. intros i Hi. unfold vnth at 1.
          rewrite (nth_map_seq (fun i => vnth (bv_dat b) i + vnth (f (firstn nu x)) i)) by auto. reflexivity.
        - eexists. split; [reflexivity|]. intros. cbn. lra. }
      destruct Ey as (yu & Ey & Vy). rw_bind Ey. eexists. split; [reflexivity|]. split; [rewrite map_length, seq_length; auto|].
      match goal with |- context[map ?g (seq 0 n)] => set (gg := g) end.
      assert (Vg : forall p, (p < n)%nat -> vnth (map gg (seq 0 n)) p = gg p) by (intros p Hp; unfold vnth; apply (nth_map_seq gg); auto).
      split.
      + intros m k Hm Hk. pose proof (nsum_in ns size m k Hm Hk) as Lt. rewrite Vg, lin_row by lia. unfold gg. rewrite (proj2 (Nat.ltb_lt _ _) Lt), Vy, Vd by auto. ring.
      + intros p Hp. rewrite Vg, lin_row by lia. unfold gg. rewrite (proj2 (Nat.ltb_ge _ _)) by lia. ring.
  Qed.

  Definition itf_grow (ig : option (vec -> nat -> nat -> fm)) (x : vec) (m k : nat) (v : nat -> R) : R :=
    match ig with None => 0 | Some g => rsum ns (fun j => rsum (size j) (fun q => g (firstn nu x) m j k q * v (o j + q)%nat)) end.

  Lemma fom_gradient hg ig x : List.length x = n ->
    exists J, fom_grad op hg ig x = Ok J /\
      (forall m k (v : nat -> R), (m < ns)%nat -> (k < size m)%nat -> rsum n (fun q => J (o m + k)%nat q * v q) =
         rsum n (fun q => lin_entry op nu (o m + k) q * v q) + rsum (size m) (fun j => hg m (part size x m) k j * v (o m + j)%nat) + itf_grow ig x m k v) /\
      (forall p q, (nu <= p < n)%nat -> (q < n)%nat -> J p q = if (q <? nu)%nat then no_B op (p - nu)%nat q else 0).
  Proof.
    intros Lx. pose proof W as (O & Hn). unfold fom_grad. rewrite fom_nu, fom_sub. rewrite (proj2 (Nat.leb_le _ _) Hn), Lx, Nat.eqb_refl. cbn [andb oguard].
    set (A := fun i j : nat => let A := if (i =? j)%nat then hg i (part size x i) else zero_m in match ig with None => A | Some g => add_m 1 (g (firstn nu x) i j) A end).
    set (term := fun i j a b => if inside (size i) (size j) (o i) (o j) a b then A i j (a - o i)%nat (b - o j)%nat else 0).
    match goal with |- context[ofor ns ?f zero_m] => destruct (ofor_inv ns f (fun r H => forall a b, H a b = rsum r (fun i => rsum ns (fun j => term i j a b))) zero_m) as (H & E & VH) end.
    - reflexivity.
    - intros i H Hi VH.
      match goal with |- context[ofor ns ?f H] => destruct (ofor_inv ns f (fun r H' => forall a b, H' a b = H a b + rsum r (fun j => term i j a b)) H) as (H' & E & VH') end.
      + intros. cbn. lra.
      + intros j H' Hj VH'. rewrite !fom_off by lia. cbn [obind].
        assert (EA : (if (i =? j)%nat then let* xc := bv_get (BVec (no_off op) x) i in Ok (hg i xc) else Ok zero_m) = Ok (if (i =? j)%nat then hg i (part size x i) else zero_m)).
        { destruct (i =? j)%nat; auto. rewrite part_read by (auto; lia). reflexivity. }
        rw_bind EA. eexists. split; [reflexivity|]. intros a b. replace (i + 1)%nat with (S i) by lia. replace (j + 1)%nat with (S j) by lia. rewrite !nsum_S.
        replace (o i + size i - o i)%nat with (size i) by lia. replace (o j + size j - o j)%nat with (size j) by lia.
        rewrite add_matrix_val, VH', rsum_snoc. unfold term, A. ring.
      + exists H'. split; auto. intros a b. rewrite VH', VH, rsum_snoc. reflexivity.
    - rw_bind E. eexists. split; [reflexivity|]. split.
      + intros m k v Hm Hk. pose proof (nsum_in ns size m k Hm Hk) as Lt.
        assert (Hrow : forall j q, (j < ns)%nat -> (q < size j)%nat -> H (o m + k)%nat (o j + q)%nat = A m j k q).
        { intros j q Hj Hq. rewrite VH. rewrite (rsum_single _ m); auto.
          - rewrite (rsum_single _ j); auto.
            + unfold term. rewrite inside_in by auto. replace (o m + k - o m)%nat with k by lia. replace (o j + q - o j)%nat with q by lia. reflexivity.
            + intros j' Hj' Ne. unfold term. rewrite inside_out; auto. pose proof (nsum_other j j' size q Hq ltac:(lia)). lia.
          - intros i' Hi' Ne. apply rsum_0. intros j' Hj'. unfold term. rewrite inside_out; auto. pose proof (nsum_other m i' size k Hk ltac:(lia)). lia. }
        rewrite (rsum_ext n _ (fun q => (lin_entry op nu (o m + k) q + if (q <? nu)%nat then H (o m + k)%nat q else 0) * v q)).
        * rewrite (rsum_ext n _ (fun q => lin_entry op nu (o m + k) q * v q + (if (q <? nu)%nat then H (o m + k)%nat q else 0) * v q)) by (intros; ring).
          rewrite rsum_plus, Rplus_assoc. f_equal. replace n with (nu + (n - nu))%nat by lia. rewrite rsum_split.
          rewrite (rsum_0 (n - nu)) by (intros q Hq; rewrite (proj2 (Nat.ltb_ge _ _)) by lia; ring). rewrite Rplus_0_r, rsum_blocks.
          rewrite (rsum_ext ns _ (fun j => rsum (size j) (fun q => (if (m =? j)%nat then hg m (part size x m) k q else 0) * v (o j + q)%nat) +
             match ig with None => 0 | Some g => rsum (size j) (fun q => g (firstn nu x) m j k q * v (o j + q)%nat) end)).
          -- rewrite rsum_plus. f_equal.
             ++ rewrite (rsum_single _ m); auto.
                ** rewrite Nat.eqb_refl. reflexivity.
                ** intros j Hj Ne. apply rsum_0. intros q _. destruct (Nat.eqb_spec m j); [lia|ring].
             ++ unfold itf_grow. destruct ig; [reflexivity|apply rsum_zero].
          -- intros j Hj.
             rewrite (rsum_ext (size j) _ (fun q => A m j k q * v (o j + q)%nat)) by (intros q Hq; rewrite (proj2 (Nat.ltb_lt _ _)) by (apply nsum_in; auto); rewrite Hrow by auto; reflexivity).
             unfold A. destruct ig as [g|].
             ++ rewrite <- rsum_plus. apply rsum_ext. intros q _. unfold add_m. destruct (m =? j)%nat; unfold zero_m; ring.
             ++ rewrite Rplus_0_r. apply rsum_ext. intros q _. destruct (m =? j)%nat; reflexivity.
        * intros q Hq. f_equal. rewrite !add_matrix_val. unfold zero_m, lin_entry. rewrite (proj2 (Nat.ltb_lt _ _) Lt). destruct (Nat.ltb_spec q nu).
          -- rewrite (inside_at nu nu 0 0) by lia. rewrite (inside_out nu (n - nu) 0 nu) by lia. rewrite (inside_out (n - nu) nu nu 0) by lia.
             rewrite !Nat.sub_0_r. unfold add_m. ring.
          -- rewrite (inside_out nu nu 0 0) by lia. rewrite (inside_out (n - nu) nu nu 0) by lia.
             rewrite (inside_at nu (n - nu) 0 nu) by lia. rewrite Nat.sub_0_r. ring.
      + intros p q Hp Hq. rewrite !add_matrix_val. unfold zero_m. rewrite (inside_out nu nu 0 0) by lia. rewrite (inside_out nu (n - nu) 0 nu) by lia. destruct (Nat.ltb_spec q nu).
        * rewrite (inside_at (n - nu) nu nu 0) by lia. rewrite Nat.sub_0_r. ring.
        * rewrite (inside_out (n - nu) nu nu 0) by lia. ring.
  Qed.

  Lemma along_length x d t N : List.length (along N x d t) = N.
  Proof. unfold along. rewrite map_length, seq_length. reflexivity. Qed.
  Lemma along_nth x d t N i : (i < N)%nat -> vnth (along N x d t) i = vnth x i + t * vnth d i.
  Proof. intros H. unfold along, vnth at 1. rewrite (nth_map_seq (fun i => vnth x i + t * vnth d i)) by auto. reflexivity. Qed.
  Lemma along_part x d t m : (m < ns)%nat -> part size (along n x d t) m = along (size m) (part size x m) (part size d m) t.
  Proof.
    intros Hm. apply vec_ext; [rewrite part_length, along_length; auto|]. intros k Hk. rewrite part_length in Hk. destruct W as (_ & Hn). pose proof (nsum_in ns size m k Hm Hk).
    rewrite part_nth, !along_nth, !part_nth by (auto; lia). reflexivity.
  Qed.
  Lemma along_first x d t : List.length x = n -> List.length d = n -> firstn nu (along n x d t) = along nu (firstn nu x) (firstn nu d) t.
  Proof.
    intros Lx Ld. destruct W as (_ & Hn). apply vec_ext; [rewrite firstn_length, !along_length; lia|]. intros k Hk. rewrite firstn_length, along_length in Hk.
    rewrite first_nth, !along_nth, !first_nth by lia. reflexivity.
  Qed.

  Lemma fom_line hs itf hg ig x d J : List.length x = n -> List.length d = n -> no_C op = None ->
    (forall m v, (m < ns)%nat -> List.length v = size m -> List.length (hs m v) = size m) ->
    (forall f v, itf = Some f -> List.length v = nu -> List.length (f v) = nu) ->
    (forall m k, (m < ns)%nat -> (k < size m)%nat -> derivable_pt_lim (fun t => vnth (hs m (along (size m) (part size x m) (part size d m) t)) k) 0
       (rsum (size m) (fun j => hg m (part size x m) k j * vnth d (o m + j)))) ->
    match itf, ig with
    | None, None => True
    | Some f, Some g => forall m k, (m < ns)%nat -> (k < size m)%nat -> derivable_pt_lim (fun t => vnth (f (along nu (firstn nu x) (firstn nu d) t)) (o m + k)) 0
        (rsum ns (fun j => rsum (size j) (fun q => g (firstn nu x) m j k q * vnth d (o j + q))))
    | _, _ => False
    end ->
    fom_grad op hg ig x = Ok J ->
    forall p, (p < n)%nat -> exists F, (forall t, exists y, fom_mult op hs itf (along n x d t) = Ok y /\ vnth y p = F t) /\
      derivable_pt_lim F 0 (rsum n (fun q => J p q * vnth d q)).
  Proof.
    intros Lx Ld Nc Hh Hf Dh Di EJ p Hp. destruct (fom_gradient hg ig x Lx) as (J' & EJ' & Gv & Gn). rewrite EJ in EJ'. injection EJ' as <-.
    assert (Dl : forall p, (p < n)%nat -> derivable_pt_lim (fun t => rsum n (fun q => lin_entry op nu p q * vnth (along n x d t) q)) 0 (rsum n (fun q => lin_entry op nu p q * vnth d q))).
    { intros r Hr. apply (quadratic_derivative _ (rsum n (fun q => lin_entry op nu r q * vnth x q)) _ 0). intros t.
      rewrite (rsum_ext n _ (fun q => lin_entry op nu r q * vnth x q + t * (lin_entry op nu r q * vnth d q))) by (intros b Hb; rewrite along_nth by auto; ring).
      rewrite rsum_plus, rsum_scal. ring. }
    destruct (Nat.lt_ge_cases p nu) as [Lt|Ge].
    - destruct (nsum_split ns size p Lt) as (m & k & Hm & Hk & ->).
      exists (fun t => rsum n (fun q => lin_entry op nu (o m + k) q * vnth (along n x d t) q) + vnth (hs m (along (size m) (part size x m) (part size d m) t)) k + itf_val itf (along n x d t) (o m + k)). split.
      + intros t. destruct (fom_value hs itf (along n x d t)) as (y & E & _ & Vy & _); auto; [apply along_length|]. exists y. split; auto. rewrite Vy by auto. rewrite along_part by auto. reflexivity.
      + rewrite Gv by auto. apply derivable_pt_lim_plus; [apply derivable_pt_lim_plus|].
        * apply Dl. auto.
        * apply Dh; auto.
        * destruct itf as [f|], ig as [g|]; try contradiction; cbn [itf_val itf_grow].
          -- intros e He. destruct (Di m k Hm Hk e He) as (dl & Q). exists dl. intros t Nt Ht. rewrite !along_first by auto. apply Q; auto.
          -- apply derivable_pt_lim_const.
    - exists (fun t => rsum n (fun q => lin_entry op nu p q * vnth (along n x d t) q)). split.
      + intros t. destruct (fom_value hs itf (along n x d t)) as (y & E & _ & _ & Ny); auto; [apply along_length|]. exists y. split; auto.
      + rewrite (rsum_ext n _ (fun q => lin_entry op nu p q * vnth d q)); [apply Dl; auto|]. intros q Hq. rewrite Gn by lia. unfold lin_entry.
        rewrite (proj2 (Nat.ltb_ge p nu)), Nc by lia. reflexivity.
  Qed.
End Fom.
