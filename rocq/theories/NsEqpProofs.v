(** The hyper-reduced steady Navier-Stokes operator: velocity blocks, values, tangents. *)
From Coq Require Import Reals List Bool Lia Arith ZArith Lra.
From Verif Require Import Outcome ListLemmas LaBase LinalgModel LinalgSpec BlockVec TagsModel RomModel RomSpec RomProofs HdfProofs IntegProofs NsModel NsSpec NsProofs NsRomProofs.
Import ListNotations.
Local Open Scope R_scope.

(** Vectors one after the other *)
Lemma flat_length (F : nat -> vec) sz n : (forall i, (i < n)%nat -> List.length (F i) = sz i) -> List.length (flat_map F (seq 0 n)) = nsum n sz.
Proof.
  induction n; intros H; [reflexivity|]. rewrite seq_S, flat_map_app, app_length, nsum_S, IHn by (intros; apply H; lia).
  cbn [flat_map Nat.add]. rewrite app_nil_r, H by lia. reflexivity.
Qed.
Lemma flat_nth (F : nat -> vec) sz n i k : (forall i, (i < n)%nat -> List.length (F i) = sz i) -> (i < n)%nat -> (k < sz i)%nat ->
  vnth (flat_map F (seq 0 n)) (nsum i sz + k) = vnth (F i) k.
Proof.
  induction n; intros H Hi Hk; [lia|]. rewrite seq_S, flat_map_app. cbn [flat_map Nat.add]. rewrite app_nil_r.
  pose proof (flat_length F sz n ltac:(intros; apply H; lia)) as L. unfold vnth in *. destruct (Nat.eq_dec i n) as [->|Ne].
  - rewrite app_nth2; rewrite L; [|lia]. f_equal. lia.
  - rewrite app_nth1; [apply IHn; auto; try lia; intros; apply H; lia|]. rewrite L. pose proof (nsum_le (S i) n sz ltac:(lia)) as Q. rewrite nsum_S in Q. lia.
Qed.

Section Eqp.
  Variables (h : rom) (off : list nat) (size : nat -> nat) (lin : smat).
  Hypothesis W : flow_rom h off size lin.
  Local Notation N := (nsum (blocks h) size).
  Local Notation ns := (rh_nsub h).
  Local Notation u m := (vsize h size m).
  Local Notation o m := (vel h off m).
  Local Notation st := (ns_of h off size lin).
  Local Notation U := (nsum ns (vsize h size)).
  Hypothesis P : alternate h size.

  Lemma velocities_length x : List.length (velocities h off size x) = U.
  Proof. apply flat_length. intros m Hm. apply vel_of_length. Qed.
  Lemma velocities_nth x m k : (m < ns)%nat -> (k < u m)%nat -> vnth (velocities h off size x) (ustart h size m + k) = vnth x (o m + k).
  Proof.
    intros Hm Hk. unfold velocities, ustart. rewrite (flat_nth _ (vsize h size)) by (auto; intros; apply vel_of_length). apply vel_of_nth. auto.
  Qed.

  Lemma whole : rh_sep h = false -> blocks h = ns /\ (forall m, u m = size m) /\ (forall m, o m = nth m off 0%nat).
  Proof. intros Es. unfold blocks, vsize, vel, place. rewrite Es. split; [lia|auto]. Qed.
  Lemma whole_start m : rh_sep h = false -> (m <= ns)%nat -> o m = ustart h size m.
  Proof.
    intros Es Hm. destruct (whole Es) as (Eb & Eu & Eo). rewrite Eo. destruct W as (_ & _ & Of & _). rewrite (offsets_nsum off (blocks h) size m Of) by lia.
    apply nsum_ext. intros i Hi. auto.
  Qed.
  Lemma whole_sum : rh_sep h = false -> N = U.
  Proof. intros Es. destruct (whole Es) as (Eb & Eu & _). rewrite Eb. apply nsum_ext. auto. Qed.
  Lemma velocities_whole x : rh_sep h = false -> List.length x = N -> velocities h off size x = x.
  Proof.
    intros Es L. apply vec_ext; [rewrite velocities_length, L; symmetry; apply whole_sum; auto|]. intros p Hp. rewrite velocities_length, <- whole_sum in Hp by auto.
    destruct (block_of off (blocks h) size p) as (m & k & Hm & Hk & ->); [apply W|auto|]. destruct (whole Es) as (Eb & Eu & Eo). rewrite <- Eo.
    rewrite (whole_start m) at 1 by (auto; lia). apply velocities_nth; [lia|rewrite Eu; auto].
  Qed.

  (** [u_offsets] *)
  Lemma eqp_offsets_ok : exists uoff, eqp_offsets st = Ok uoff /\ offsets uoff ns (vsize h size).
  Proof.
    unfold eqp_offsets. change (nr_sep st) with (rh_sep h). change (nr_off st) with off. change (nr_nsub st) with ns. destruct (rh_sep h) eqn:Es; cbn [negb].
    - rewrite (omap_map _ (vsize h size)).
      + cbn [obind]. eexists. split; [reflexivity|]. pose proof (psum_offsets (map (vsize h size) (seq 0 ns))) as Q. rewrite map_length, seq_length in Q.
        destruct Q as (Q1 & Q2 & Q3). split; auto. split; auto. intros i Hi. rewrite Q3 by auto. f_equal. rewrite nth_map_seq by auto. reflexivity.
      + intros m Hm. apply in_seq in Hm. destruct W as (_ & Hv & Of & _). 
        assert (B : blocks h = (ns * 2)%nat) by (unfold blocks; rewrite Es, Hv; auto).
        assert (Rd : forall i, (i <= blocks h)%nat -> oread off i = Ok (nth i off 0%nat)).
        { intros i Hi. unfold oread. rewrite (nth_error_nth' off 0%nat) by (rewrite (proj1 Of); lia). reflexivity. }
        rewrite !Rd by lia. cbn [obind]. destruct Of as (_ & _ & St). change (1 + m * 2)%nat with (S (m * 2)). rewrite St by lia.
        replace (m * 2)%nat with (2 * m)%nat by lia. rewrite (P Es) by lia. f_equal. lia.
    - exists off. split; auto. destruct (whole Es) as (Eb & Eu & _). destruct W as (_ & _ & (O1 & O2 & O3) & _). rewrite Eb in *. split; auto. split; auto.
      intros i Hi. rewrite O3 by auto. rewrite Eu. reflexivity.
  Qed.

  Lemma get_vel_ok uoff x xu : offsets uoff ns (vsize h size) -> List.length x = N -> List.length xu = U ->
    get_vel st uoff x xu = Ok (velocities h off size x).
  Proof.
    intros Ou Lx Lu. unfold get_vel. change (nr_sep st) with (rh_sep h). change (nr_nsub st) with ns. destruct (rh_sep h) eqn:Es; cbn [negb].
    - assert (Rd : oread uoff ns = Ok U).
      { unfold oread. rewrite (nth_error_nth' uoff 0%nat) by (rewrite (proj1 Ou); lia). cbn. f_equal. apply (offsets_nsum uoff ns (vsize h size) ns Ou). lia. }
      rewrite Rd. cbn [obind]. rewrite firstn_all2 by lia.
      assert (W0 : bv_wf (BVec uoff xu) ns (vsize h size)) by (split; auto).
      match goal with |- context[ofor ns ?f _] => destruct (bv_update ns (vsize h size) ns (fun m => m) (fun m _ => vel_of h off size x m) f (BVec uoff xu) W0) as (b & E & Wb & Ob & Vb & _) end.
      + intros m v Hm. split; auto. intros _. apply vel_of_length.
      + auto.
      + intros b m Hm Wb Ob. rewrite (mid_read h off size lin) by auto. cbn [obind]. rewrite (x_read h off size lin W) by auto. cbn [obind].
        rewrite (bv_get_ok _ _ _ Wb) by auto. cbn [obind]. f_equal. unfold view_assign. rewrite vel_of_length, (blk_length _ _ _ Wb) by auto.
        rewrite Nat.leb_refl, skipn_all2, app_nil_r by (rewrite (blk_length _ _ _ Wb); auto). reflexivity.
      + rw_bind E. f_equal.
        assert (Eb : b = BVec uoff (velocities h off size x)).
        { assert (Wv : bv_wf (BVec uoff (velocities h off size x)) ns (vsize h size)) by (split; [auto|apply velocities_length]).
          apply (blk_ext _ _ ns (vsize h size)); auto. intros m Hm. rewrite Vb by auto. symmetry. apply vec_ext.
          - rewrite (blk_length _ _ _ Wv), vel_of_length by auto. reflexivity.
          - intros k Hk. rewrite (blk_length _ _ _ Wv) in Hk by auto. rewrite (blk_nth _ _ _ Wv) by auto. cbn [bv_dat bv_off].
            rewrite (offsets_nsum uoff ns (vsize h size) m Ou) by lia. rewrite vel_of_nth by auto. apply velocities_nth; auto. }
        rewrite Eb. reflexivity.
    - rewrite velocities_whole by auto. reflexivity.
  Qed.

  Lemma add_vel_ok uoff yu y : offsets uoff ns (vsize h size) -> List.length y = N -> List.length yu = U ->
    exists z, add_vel st uoff yu y = Ok z /\ List.length z = N /\
      (forall m k, (m < ns)%nat -> (k < u m)%nat -> vnth z (o m + k) = vnth y (o m + k) + vnth yu (ustart h size m + k)) /\
      (forall p, (p < N)%nat -> no_velocity h off size p -> vnth z p = vnth y p).
  Proof.
    intros Ou Ly Lu. unfold add_vel. change (nr_sep st) with (rh_sep h). change (nr_nsub st) with ns. change (nr_off st) with off. destruct (rh_sep h) eqn:Es; cbn [negb].
    - match goal with |- context[ofor ns ?f _] =>
        destruct (add_blocks h off size lin W (fun m => map (fun k => vnth yu (ustart h size m + k)) (seq 0 (u m))) f y Ly) as (b & E & Ob & Lb & Vb & Nb) end.
      + intros m Hm. rewrite map_length, seq_length. reflexivity.
      + intros b m Hm Wb Ob. pose proof (vplace_lt h off size lin W m Hm) as B. rewrite (mid_read h off size lin) by auto. cbn [obind].
        rewrite (bv_get_ok _ _ _ Wb) by auto. cbn [obind].
        assert (Rd : oread uoff m = Ok (ustart h size m)).
        { unfold oread. rewrite (nth_error_nth' uoff 0%nat) by (rewrite (proj1 Ou); lia). cbn. f_equal. apply (offsets_nsum uoff ns (vsize h size) m Ou). lia. }
        rewrite Rd. cbn [obind]. rewrite (blk_length _ _ _ Wb) by auto. change (size (place h m 0)) with (u m).
        rewrite (omap_map _ (fun k => vnth (blk b (place h m 0)) k + vnth yu (ustart h size m + k))).
        * cbn [obind]. f_equal. apply map_ext_in. intros k Hk. apply in_seq in Hk. f_equal. unfold vnth at 2.
          rewrite (nth_map_seq (fun k => vnth yu (ustart h size m + k))) by lia. reflexivity.
        * intros k Hk. apply in_seq in Hk. rewrite oread_vnth; [reflexivity|]. rewrite Lu. pose proof (nsum_le (S m) ns (vsize h size) ltac:(lia)) as Q. rewrite nsum_S in Q. unfold ustart. lia.
      + rw_bind E. exists (bv_dat b). split; auto. split; auto. split; auto. intros m k Hm Hk. rewrite Vb by auto. f_equal. unfold vnth at 1.
        rewrite (nth_map_seq (fun k => vnth yu (ustart h size m + k))) by auto. reflexivity.
    - pose proof (whole_sum Es) as EN. rewrite Lu, Ly, <- EN, Nat.eqb_refl. cbn [oguard]. eexists. split; [reflexivity|]. split; [rewrite map_length, seq_length; auto|].
      assert (V : forall p, (p < N)%nat -> vnth (map (fun i => vnth y i + vnth yu i) (seq 0 N)) p = vnth y p + vnth yu p).
      { intros p Hp. unfold vnth at 1. rewrite (nth_map_seq (fun i => vnth y i + vnth yu i)) by auto. reflexivity. }
      split.
      + intros m k Hm Hk. rewrite V by (pose proof (vel_end h off size lin W m Hm); lia). f_equal. rewrite (whole_start m) by (auto; lia). reflexivity.
      + intros p Hp Np. exfalso. destruct (block_of off (blocks h) size p) as (m & k & Hm & Hk & Ep); [apply W|auto|]. destruct (whole Es) as (Eb & Eu & Eo).
        apply (Np m k); [lia|rewrite Eu; auto|rewrite Eo; auto].
  Qed.

  Definition itf_at (itf : option (vec -> vec)) (x : vec) (i : nat) : R := match itf with None => 0 | Some f => vnth (f (velocities h off size x)) i end.

  Lemma eqp_value hs itf x xu : List.length x = N -> List.length xu = U ->
    (forall m v, (m < ns)%nat -> List.length v = u m -> List.length (hs m v) = u m) ->
    (forall f v, itf = Some f -> List.length v = U -> List.length (f v) = U) ->
    exists y, eqp_rom_mult st hs itf x xu = Ok y /\ List.length y = N /\
      (forall m k, (m < ns)%nat -> (k < u m)%nat -> vnth y (o m + k) = rsum N (fun b => sm_val lin (o m + k) b * vnth x b) +
         vnth (hs m (vel_of h off size x m)) k + itf_at itf x (ustart h size m + k)) /\
      (forall p, (p < N)%nat -> no_velocity h off size p -> vnth y p = rsum N (fun b => sm_val lin p b * vnth x b)).
  Proof.
    intros Lx Lu Hh Hf. unfold eqp_rom_mult. destruct (lin_mult h off size lin W x Lx) as (y & E & Ly & Vy). change (nr_lin st) with lin. rw_bind E.
    change (nr_nsub st) with ns. change (nr_off st) with off.
    match goal with |- context[ofor ns ?f _] => destruct (add_blocks h off size lin W (fun m => hs m (vel_of h off size x m)) f y Ly) as (b & Eb & Ob & Lb & Vb & Nb) end.
    - intros m Hm. apply Hh; auto. apply vel_of_length.
    - intros b m Hm Wb Ob. pose proof (vplace_lt h off size lin W m Hm) as B. rewrite (mid_read h off size lin) by auto. cbn [obind].
      pose proof (x_read h off size lin W x m Lx Hm) as Ex. cbn [nr_off ns_of] in Ex. rewrite Ex. cbn [obind]. rewrite (bv_get_ok _ _ _ Wb) by auto. cbn [obind].
      rewrite Hh by (auto using vel_of_length). rewrite (blk_length _ _ _ Wb) by auto. change (size (place h m 0)) with (u m). rewrite Nat.eqb_refl. reflexivity.
    - rw_bind Eb. destruct itf as [f|].
      + destruct eqp_offsets_ok as (uoff & Eo & Ou). rw_bind Eo. pose proof (get_vel_ok uoff x xu Ou Lx Lu) as Eg. rw_bind Eg.
        destruct (add_vel_ok uoff (f (velocities h off size x)) (bv_dat b) Ou Lb) as (z & Ez & Lz & Vz & Nz); [apply Hf; auto using velocities_length|].
        exists z. split; auto. split; auto. split.
        * intros m k Hm Hk. rewrite Vz, Vb, Vy by (auto; pose proof (vel_end h off size lin W m Hm); lia). reflexivity.
        * intros p Hp Np. rewrite Nz, Nb, Vy by auto. reflexivity.
      + exists (bv_dat b). split; auto. split; auto. split.
        * intros m k Hm Hk. rewrite Vb, Vy by (auto; pose proof (vel_end h off size lin W m Hm); lia). cbn [itf_at]. lra.
        * intros p Hp Np. rewrite Nb, Vy by auto. reflexivity.
  Qed.

  (** The interface blocks as one matrix *)
  Definition inter (G : nat -> nat -> smat) (n : nat) (a b : nat) : R :=
    rsum n (fun i => rsum ns (fun j => rsum (u i) (fun p => rsum (u j) (fun q => hit a (o i + p) (hit b (o j + q) (gval (sm_ent (G i j) p q))))))).
  Definition reach (G : nat -> nat -> smat) (a b : nat) : Prop :=
    exists i j p q, (i < ns)%nat /\ (j < ns)%nat /\ (p < u i)%nat /\ (q < u j)%nat /\ sm_ent (G i j) p q <> None /\ a = (o i + p)%nat /\ b = (o j + q)%nat.

  Lemma off_read i : (i <= blocks h)%nat -> oread (nr_off st) i = Ok (nth i off 0%nat).
  Proof. intros Hi. cbn [nr_off ns_of]. destruct W as (_ & _ & (L & _) & _). unfold oread. rewrite (nth_error_nth' off 0%nat) by lia. reflexivity. Qed.

  Lemma itf_mono_ok G : blocks_fit h off size lin G ->
    exists B, itf_mono st G = Ok B /\ sm_h B = N /\ sm_w B = N /\ (forall a b, sm_val B a b = inter G ns a b) /\ forall a b, sm_has B a b = true -> reach G a b.
  Proof.
    intros F. unfold itf_mono. change (nr_nsub st) with ns. change (nr_lin st) with lin. set (B0 := SMat (sm_h lin) (sm_w lin) false (fun _ _ => None)).
    destruct W as (_ & _ & _ & Hh & Hw).
    assert (G0 : sm_h B0 = N /\ sm_w B0 = N /\ sm_fin B0 = false) by (cbn; auto).
    match goal with |- context[ofor ns ?f B0] => destruct (ofor_inv ns f (fun n B => (sm_h B = N /\ sm_w B = N /\ sm_fin B = false) /\
      (forall a b, sm_val B a b = inter G n a b) /\ forall a b, sm_has B a b = true -> reach G a b) B0) as (B & E & (B1 & B2 & _) & VB & RB) end.
    - split; auto. split; [reflexivity|]. intros a b C. discriminate C.
    - intros i B Hi (D & V & Rc).
      match goal with |- context[ofor ns ?f B] => destruct (ofor_inv ns f (fun n B' => (sm_h B' = N /\ sm_w B' = N /\ sm_fin B' = false) /\
        (forall a b, sm_val B' a b = sm_val B a b + rsum n (fun j => rsum (u i) (fun p => rsum (u j) (fun q => hit a (o i + p) (hit b (o j + q) (gval (sm_ent (G i j) p q))))))) /\
        forall a b, sm_has B' a b = true -> reach G a b) B) as (B' & E & D' & V' & R') end.
      + split; auto. split; auto. intros. cbn. lra.
      + intros j C Hj ((D1 & D2 & D3) & V1 & R1). rewrite !(mid_read h off size lin) by auto. cbn [obind].
        rewrite !off_read by (apply Nat.lt_le_incl; apply (vplace_lt h off size lin W); auto). cbn [obind]. change (nth (place h i 0) off 0%nat) with (o i). change (nth (place h j 0) off 0%nat) with (o j).
        destruct (F i j Hi Hj) as (F1 & F2 & F3). rewrite F1, F2. pose proof (vel_end h off size lin W i Hi) as E1. pose proof (vel_end h off size lin W j Hj) as E2.
        destruct (sm_adds_ok (u i) (u j) (fun p => Ok (o i + p)%nat) (fun q => Ok (o j + q)%nat) (fun p => o i + p)%nat (fun q => o j + q)%nat (sm_ent (G i j)) C) as (C' & EC & (Gr1 & Gr2 & Gr3 & _) & VC).
        * intros p Hp. split; [auto|lia].
        * intros q Hq. split; [auto|lia].
        * intros. left. auto.
        * exists C'. split; auto. split; [rewrite Gr1, Gr2, Gr3; auto|]. split.
          -- intros a b. rewrite VC, V1, rsum_snoc. lra.
          -- intros a b Ha. apply (sm_adds_new _ _ _ _ (fun p => o i + p)%nat (fun q => o j + q)%nat _ C C' (fun _ _ => eq_refl) (fun _ _ => eq_refl) EC) in Ha.
             destruct Ha as [Ha|(p & q & Hp & Hq & Hg & -> & ->)]; [apply R1; auto|]. exists i, j, p, q. tauto.
      + exists B'. split; auto. split; auto. split; auto. intros a b. rewrite V', V. unfold inter. rewrite rsum_snoc. reflexivity.
    - rw_bind E. eexists. split; [reflexivity|]. cbn [sm_h sm_w sm_finalize]. split; auto.
  Qed.

  Lemma inter_row G p (v : nat -> R) : rsum N (fun b => inter G ns p b * v b) =
    rsum ns (fun i => rsum (u i) (fun k => hit p (o i + k) (rsum ns (fun j => rsum (u j) (fun q => gval (sm_ent (G i j) k q) * v (o j + q)%nat))))).
  Proof.
    unfold inter.
    rewrite (rsum_ext N _ (fun b => rsum ns (fun i => rsum ns (fun j => rsum (u i) (fun k => hit p (o i + k) (rsum (u j) (fun q => hit b (o j + q) (gval (sm_ent (G i j) k q))) * v b)))))).
    2:{ intros b _. rewrite <- rsum_scal_r. apply rsum_ext. intros i _. rewrite <- rsum_scal_r. apply rsum_ext. intros j _. rewrite <- rsum_scal_r. apply rsum_ext. intros k _.
        rewrite hit_sum. apply hit_scal. }
    rewrite rsum_swap. apply rsum_ext. intros i Hi. rewrite rsum_swap.
    rewrite (rsum_ext ns _ (fun j => rsum (u i) (fun k => hit p (o i + k) (rsum (u j) (fun q => gval (sm_ent (G i j) k q) * v (o j + q)%nat))))).
    - rewrite rsum_swap. apply rsum_ext. intros k _. apply hit_sum.
    - intros j Hj. rewrite rsum_swap. apply rsum_ext. intros k _. rewrite hit_sum. f_equal. apply rsum_pick. apply (vel_end h off size lin W). auto.
  Qed.
  Lemma inter_vel G m k (v : nat -> R) : (m < ns)%nat -> (k < u m)%nat -> rsum N (fun b => inter G ns (o m + k) b * v b) =
    rsum ns (fun j => rsum (u j) (fun q => sm_val (G m j) k q * v (o j + q)%nat)).
  Proof.
    intros Hm Hk. rewrite inter_row, (rsum_single _ m); auto.
    - apply (rsum_hit (u m) (fun k => rsum ns (fun j => rsum (u j) (fun q => gval (sm_ent (G m j) k q) * v (o j + q)%nat)))). auto.
    - intros m' Hm' Ne. apply rsum_no_hit. intros i Hi C. apply (vel_unique h off size lin W) in C; auto. lia.
  Qed.
  Lemma inter_not G p (v : nat -> R) : no_velocity h off size p -> rsum N (fun b => inter G ns p b * v b) = 0.
  Proof. intros Np. rewrite inter_row. apply rsum_0. intros m Hm. apply rsum_no_hit. intros i Hi. apply Np; auto. Qed.

  Lemma plus_ok G : blocks_fit h off size lin G -> exists J, (let* B := itf_mono st G in sm_plus lin B) = Ok J /\ grows lin J /\
    forall p (v : nat -> R), (p < N)%nat -> rsum N (fun b => sm_val J p b * v b) = rsum N (fun b => sm_val lin p b * v b) + rsum N (fun b => inter G ns p b * v b).
  Proof.
    intros F. destruct (itf_mono_ok G F) as (B & E & Bh & Bw & VB & RB). rw_bind E. unfold sm_plus. rewrite Bh, Bw. destruct W as (_ & _ & _ & Hh & Hw).
    destruct (sm_adds_ok N N (fun i => Ok i) (fun j => Ok j) (fun i => i) (fun j => j) (sm_ent B) lin) as (J & EJ & Gr & V).
    - intros i Hi. split; [auto|lia].
    - intros i Hi. split; [auto|lia].
    - intros i j Hi Hj C. destruct (RB i j) as (m & n & p & q & Hm & Hn & Hp & Hq & Hs & -> & ->).
      + unfold sm_has. destruct (sm_ent B i j); congruence.
      + destruct (F m n Hm Hn) as (_ & _ & F3). apply F3; auto.
    - exists J. split; auto. split; auto. intros p v Hp. rewrite <- rsum_plus. apply rsum_ext. intros b Hb. rewrite V, <- VB. rewrite (rsum_single _ p); auto.
      + rewrite (rsum_single _ b); auto.
        * unfold hit. rewrite !Nat.eqb_refl. unfold sm_val at 3. unfold gval. ring.
        * intros j Hj Ne. unfold hit. rewrite Nat.eqb_refl. destruct (Nat.eqb_spec b j); [lia|auto].
      + intros i Hi Ne. apply rsum_0. intros j Hj. unfold hit. destruct (Nat.eqb_spec p i); [lia|auto].
  Qed.

  Definition itf_row (ig : option (vec -> nat -> nat -> smat)) (x : vec) (m k : nat) (v : nat -> R) : R :=
    match ig with None => 0 | Some f => rsum ns (fun j => rsum (u j) (fun q => sm_val (f (velocities h off size x) m j) k q * v (o j + q)%nat)) end.

  Lemma eqp_grad hg ig x xu : List.length x = N -> List.length xu = U -> takes_velocity h off size lin ->
    (forall f, ig = Some f -> blocks_fit h off size lin (f (velocities h off size x))) ->
    exists J, eqp_rom_grad st hg ig x xu = Ok J /\ sm_h J = N /\ sm_w J = N /\ sm_fin J = true /\
      (forall m k (v : nat -> R), (m < ns)%nat -> (k < u m)%nat -> rsum N (fun b => sm_val J (o m + k) b * v b) =
         rsum N (fun b => sm_val lin (o m + k) b * v b) + rsum (u m) (fun j => mget (hg m (vel_of h off size x m)) k j * v (o m + j)%nat) + itf_row ig x m k v) /\
      (forall p (v : nat -> R), (p < N)%nat -> no_velocity h off size p -> rsum N (fun b => sm_val J p b * v b) = rsum N (fun b => sm_val lin p b * v b)).
  Proof.
    intros Lx Lu Tk F. unfold eqp_rom_grad. change (nr_nsub st) with ns. change (nr_lin st) with lin.
    assert (Ex : exists J0, match ig with None => Ok lin | Some f => let* uoff := eqp_offsets st in let* xu := get_vel st uoff x xu in let* B := itf_mono st (f xu) in sm_plus lin B end = Ok J0 /\
      grows lin J0 /\ (forall m k v, (m < ns)%nat -> (k < u m)%nat -> rsum N (fun b => sm_val J0 (o m + k) b * v b) = rsum N (fun b => sm_val lin (o m + k) b * v b) + itf_row ig x m k v) /\
      (forall p v, (p < N)%nat -> no_velocity h off size p -> rsum N (fun b => sm_val J0 p b * v b) = rsum N (fun b => sm_val lin p b * v b))).
    { destruct ig as [f|].
      - destruct eqp_offsets_ok as (uoff & Eo & Ou). rw_bind Eo. pose proof (get_vel_ok uoff x xu Ou Lx Lu) as Eg. rw_bind Eg.
        destruct (plus_ok (f (velocities h off size x)) (F f eq_refl)) as (J0 & E & Gr & V). exists J0. split; auto. split; auto. split.
        + intros m k v Hm Hk. rewrite V by (pose proof (vel_end h off size lin W m Hm); lia). f_equal. apply inter_vel; auto.
        + intros p v Hp Np. rewrite V, inter_not by auto. lra.
      - exists lin. split; auto. split; [apply grows_refl|]. split; auto. intros. cbn [itf_row]. lra. }
    destruct Ex as (J0 & E0 & Gr & V0 & N0). rw_bind E0. destruct W as (_ & _ & _ & Hh & Hw). pose proof Gr as (G1 & G2 & _).
    match goal with |- context[ofor ns ?f J0] => destruct (add_mats h off size lin W (fun m => hg m (vel_of h off size x m)) f J0) as (J & E & (D1 & D2 & _) & V & Vn) end.
    - congruence.
    - congruence.
    - intros m i j Hm Hi Hj. eapply grows_take; [exact Gr|]. apply Tk; auto.
    - intros J m Hm _. rewrite (mid_read h off size lin) by auto. cbn [obind]. rewrite (x_read h off size lin W) by auto. cbn [obind].
      rewrite (idx_read h off size lin) by auto. reflexivity.
    - rw_bind E. eexists. split; [reflexivity|]. cbn [sm_finalize sm_h sm_w sm_fin]. split; [congruence|]. split; [congruence|]. split; auto. split.
      + intros m k v Hm Hk. etransitivity; [exact (V m k v Hm Hk)|]. rewrite V0 by auto. lra.
      + intros p v Hp Np. etransitivity; [exact (Vn p v Np)|]. auto.
  Qed.

  (** Along a line *)
  Lemma line_vel x d t m : (m < ns)%nat -> vel_of h off size (vplus N x d t) m = vplus (u m) (vel_of h off size x m) (vel_of h off size d m) t.
  Proof.
    intros Hm. pose proof (vel_end h off size lin W m Hm) as En. apply vec_ext; [rewrite vel_of_length, vplus_length; auto|].
    intros k Hk. rewrite vel_of_length in Hk. rewrite vel_of_nth, !vplus_nth, !vel_of_nth by (auto; lia). reflexivity.
  Qed.
  Lemma line_velocities x d t : velocities h off size (vplus N x d t) = vplus U (velocities h off size x) (velocities h off size d) t.
  Proof.
    apply vec_ext; [rewrite velocities_length, vplus_length; auto|]. intros p Hp. rewrite velocities_length in Hp. rewrite vplus_nth by auto.
    pose proof (psum_offsets (map (vsize h size) (seq 0 ns))) as Q. rewrite map_length, seq_length in Q. set (l := psum _ _) in Q.
    assert (Oq : offsets l ns (vsize h size)).
    { destruct Q as (Q1 & Q2 & Q3). split; auto. split; auto. intros i Hi. rewrite Q3 by auto. f_equal. rewrite nth_map_seq by auto. reflexivity. }
    destruct (block_of l ns (vsize h size) p Oq Hp) as (m & k & Hm & Hk & ->). rewrite (offsets_nsum l ns (vsize h size) m Oq) by lia.
    change (nsum m (vsize h size)) with (ustart h size m). rewrite !velocities_nth by auto. apply vplus_nth. pose proof (vel_end h off size lin W m Hm). lia.
  Qed.

  Lemma eqp_line hs itf hg ig x d xu J : List.length x = N -> List.length xu = U -> takes_velocity h off size lin ->
    (forall m v, (m < ns)%nat -> List.length v = u m -> List.length (hs m v) = u m) ->
    (forall f v, itf = Some f -> List.length v = U -> List.length (f v) = U) ->
    (forall f, ig = Some f -> blocks_fit h off size lin (f (velocities h off size x))) ->
    (forall m k, (m < ns)%nat -> (k < u m)%nat -> has_derivative (u m) (hs m) (vel_of h off size x m) (vel_of h off size d m) k
       (rsum (u m) (fun j => mget (hg m (vel_of h off size x m)) k j * vnth d (o m + j)))) ->
    match itf, ig with
    | None, None => True
    | Some f, Some g => forall m k, (m < ns)%nat -> (k < u m)%nat -> has_derivative U f (velocities h off size x) (velocities h off size d) (ustart h size m + k)
        (rsum ns (fun j => rsum (u j) (fun q => sm_val (g (velocities h off size x) m j) k q * vnth d (o j + q))))
    | _, _ => False
    end ->
    eqp_rom_grad st hg ig x xu = Ok J ->
    forall p, (p < N)%nat -> exists F, (forall t, exists y, eqp_rom_mult st hs itf (vplus N x d t) xu = Ok y /\ vnth y p = F t) /\
      derivable_pt_lim F 0 (rsum N (fun b => sm_val J p b * vnth d b)).
  Proof.
    intros Lx Lu Tk Hh Hf Fit Dh Di EJ p Hp. destruct (eqp_grad hg ig x xu Lx Lu Tk Fit) as (J' & EJ' & _ & _ & _ & Gv & Gn). rewrite EJ in EJ'. injection EJ' as <-.
    assert (Dl : forall p, (p < N)%nat -> derivable_pt_lim (fun t => rsum N (fun b => sm_val lin p b * vnth (vplus N x d t) b)) 0 (rsum N (fun b => sm_val lin p b * vnth d b))).
    { intros q Hq. apply (quadratic_derivative _ (rsum N (fun b => sm_val lin q b * vnth x b)) _ 0). intros t.
      rewrite (rsum_ext N _ (fun b => sm_val lin q b * vnth x b + t * (sm_val lin q b * vnth d b))) by (intros b Hb; rewrite vplus_nth by auto; ring).
      rewrite rsum_plus, rsum_scal. ring. }
    destruct (vel_or_not h off size lin W p Hp) as [(m & k & Hm & Hk & ->)|(Np & _)].
    - exists (fun t => rsum N (fun b => sm_val lin (o m + k) b * vnth (vplus N x d t) b) + vnth (hs m (vplus (u m) (vel_of h off size x m) (vel_of h off size d m) t)) k +
        itf_at itf (vplus N x d t) (ustart h size m + k)). split.
      + intros t. destruct (eqp_value hs itf (vplus N x d t) xu) as (y & E & _ & Vy & _); auto; [apply vplus_length|]. exists y. split; auto. rewrite Vy by auto.
        rewrite line_vel by auto. reflexivity.
      + rewrite Gv by auto. apply derivable_pt_lim_plus; [apply derivable_pt_lim_plus|].
        * apply Dl. auto.
        * apply Dh; auto.
        * destruct itf as [f|], ig as [g|]; try contradiction; cbn [itf_at itf_row].
          -- intros e He. destruct (Di m k Hm Hk e He) as (dl & Q). exists dl. intros t Nt Ht. rewrite !line_velocities. apply Q; auto.
          -- apply derivable_pt_lim_const.
    - exists (fun t => rsum N (fun b => sm_val lin p b * vnth (vplus N x d t) b)). split.
      + intros t. destruct (eqp_value hs itf (vplus N x d t) xu) as (y & E & _ & _ & Ny); auto; [apply vplus_length|]. exists y. split; auto.
      + rewrite Gn by auto. apply Dl. auto.
  Qed.
End Eqp.
