(** Proofs on the block smoothers. *)
From Coq Require Import Reals List Bool Lia Arith ZArith Lra.
From Verif Require Import Outcome ListLemmas LaBase BlockVec RomProofs RomBasisProofs MbModel MbSpec MbVecProofs MbMiscProofs SmoothModel SmoothSpec.
Import ListNotations.
Local Open Scope nat_scope.

Lemma fm_mult_ok M (v : vec) : fm_w M = List.length v -> exists w, fm_mult M v = Ok w /\ List.length w = fm_h M /\
  forall p, p < fm_h M -> vnth w p = rsum (fm_w M) (fun q => fm_val M p q * vnth v q)%R.
Proof.
  intros H. unfold fm_mult. rewrite H, Nat.eqb_refl. cbn [oguard]. eexists. split; [reflexivity|].
  rewrite map_length, seq_length. split; [auto|]. intros p Hp. unfold vnth at 1. rewrite nth_map_seq by auto. reflexivity.
Qed.

Lemma fm_sub_mult_ok M (v tmp : vec) : fm_w M = List.length v -> fm_h M = List.length tmp -> exists w, fm_sub_mult M v tmp = Ok w /\ List.length w = List.length tmp /\
  forall p, p < List.length tmp -> vnth w p = (vnth tmp p - rsum (fm_w M) (fun q => fm_val M p q * vnth v q))%R.
Proof.
  intros H H2. unfold fm_sub_mult. destruct (fm_mult_ok M v H) as (w & E & L & V). rewrite E. cbn [obind]. rewrite L, H2, Nat.eqb_refl. cbn [oguard].
  eexists. split; [reflexivity|]. rewrite map_length, seq_length. split; [auto|]. intros p Hp. unfold vnth at 1. rewrite nth_map_seq by auto.
  rewrite Nat.add_0_l, V by lia. reflexivity.
Qed.

Lemma vec_add_ok (a b : vec) : List.length a = List.length b -> exists w, vec_add a b = Ok w /\ List.length w = List.length a /\
  forall p, p < List.length a -> vnth w p = (vnth a p + vnth b p)%R.
Proof.
  intros H. unfold vec_add. rewrite H, Nat.eqb_refl. cbn [oguard]. eexists. split; [reflexivity|]. rewrite map_length, seq_length. split; [auto|].
  intros p Hp. unfold vnth at 1. rewrite nth_map_seq by auto. reflexivity.
Qed.

(** The inverse applied to a vector solves the system. *)
Lemma inverse_solves n M W (t w : vec) : inverse_of n M W -> List.length t = n -> fm_mult W t = Ok w ->
  List.length w = n /\ forall p, p < n -> rsum n (fun q => fm_val M p q * vnth w q)%R = vnth t p.
Proof.
  intros (Hh & Hw & R & _) Lt E. destruct (fm_mult_ok W t) as (w' & E' & L & V); [lia|]. rewrite E in E'. injection E' as <-.
  split; [lia|]. intros p Hp.
  rewrite (rsum_ext n _ (fun q => rsum n (fun r => fm_val M p q * (fm_val W q r * vnth t r)))%R).
  2:{ intros q Hq. rewrite V, Hw, rsum_scal by lia. reflexivity. }
  rewrite rsum_swap. rewrite (rsum_ext n _ (fun r => delta p r * vnth t r)%R).
  2:{ intros r Hr. rewrite <- R by auto. rewrite <- rsum_scal_r. apply rsum_ext. intros. ring. }
  rewrite (rsum_single n p); auto.
  - unfold delta. rewrite Nat.eqb_refl. ring.
  - intros i Hi N. unfold delta. destruct (Nat.eqb_spec p i); [congruence|ring].
Qed.

(** A solution of the system with an inverse is what the inverse gives. *)
Lemma inverse_unique n M W (t w v : vec) : inverse_of n M W -> List.length t = n -> fm_mult W t = Ok w -> List.length v = n ->
  (forall p, p < n -> rsum n (fun q => fm_val M p q * vnth v q)%R = vnth t p) -> w = v.
Proof.
  intros (Hh & Hw & _ & Lf) Lt E Lv H. destruct (fm_mult_ok W t) as (w' & E' & L & V); [lia|]. rewrite E in E'. injection E' as <-.
  apply vec_ext; [congruence|]. intros p Hp. rewrite V, Hw by lia. rewrite L, Hh in Hp.
  rewrite (rsum_ext n _ (fun r => rsum n (fun q => fm_val W p r * (fm_val M r q * vnth v q)))%R).
  2:{ intros r Hr. rewrite <- H, rsum_scal by auto. reflexivity. }
  rewrite rsum_swap. rewrite (rsum_ext n _ (fun q => delta p q * vnth v q)%R).
  2:{ intros q Hq. rewrite <- Lf by auto. rewrite <- rsum_scal_r. apply rsum_ext. intros. ring. }
  rewrite (rsum_single n p); auto.
  - unfold delta. rewrite Nat.eqb_refl. ring.
  - intros i Hi N. unfold delta. destruct (Nat.eqb_spec p i); [congruence|ring].
Qed.

Lemma bv_get_vnth (b : bvec) n size i : bv_wf b n size -> i < n -> exists v, bv_get b i = Ok v /\ List.length v = size i /\
  forall q, q < size i -> vnth v q = ent (bv_off b) (bv_dat b) i q.
Proof.
  intros W Hi. exists (blk b i). split; [apply (bv_get_ok b n size); auto|]. split; [apply (blk_length b n size); auto|].
  intros q Hq. apply (blk_nth b n size W i q Hi Hq).
Qed.

Section Sweep.
  Variables (A : blockmat) (n : nat) (size : nat -> nat) (off : list nat) (inv : list fmat).
  Hypothesis F : bm_fits n size A.
  Hypothesis O : offsets off n size.
  Hypothesis Li : List.length inv = n.
  Hypothesis I : forall i M, i < n -> A i i = Some M -> inverse_of (size i) M (nth i inv (FMat 0 0 (fun _ _ => 0%R))).
  Variable x : vec.
  Hypothesis Lx : List.length x = nth n off 0.

  Let s := Smoother (Some A) (Z.of_nat n) off off inv.
  Definition wfv (y : vec) : Prop := List.length y = nth n off 0.

  Lemma wf_bv y : wfv y -> bv_wf (BVec off y) n size.
  Proof. intros H. apply bv_fresh_wf; auto. Qed.

  Definition part (js : list nat) (y : vec) (i k : nat) : R :=
    fold_right (fun j a => (a + ind (negb (i =? j)) (rsum (size j) (fun q => val (A i j) k q * ent off y j q)))%R) 0%R js.

  Lemma tmp_loop y i js tmp : wfv y -> i < n -> (forall j, In j js -> j < n) -> List.length tmp = size i ->
    exists tmp', ofold (fun tmp j =>
      if i =? j then Ok tmp
      else match A i j with
           | None => Ok tmp
           | Some M => let* yj := bv_get (BVec off y) j in fm_sub_mult M yj tmp
           end) js tmp = Ok tmp' /\ List.length tmp' = size i /\ forall k, k < size i -> vnth tmp' k = (vnth tmp k - part js y i k)%R.
  Proof.
    intros Wy Hi. revert tmp. induction js as [|j js IH]; intros tmp Hj Lt.
    - exists tmp. split; [reflexivity|]. split; [auto|]. intros. cbn. ring.
    - assert (Hj' : forall j', In j' js -> j' < n) by (intros; apply Hj; right; auto). specialize (Hj j (or_introl eq_refl)).
      cbn [ofold]. destruct (Nat.eqb_spec i j) as [->|N].
      + cbn [obind]. destruct (IH tmp Hj' Lt) as (t & E & L & V). exists t. split; [exact E|]. split; [auto|]. intros k Hk. rewrite V by auto.
        unfold part at 2. cbn [fold_right]. fold (part js y j k). rewrite Nat.eqb_refl. cbn [negb ind]. ring.
      + destruct (A i j) as [M|] eqn:EM.
        * destruct (bv_get_vnth (BVec off y) n size j (wf_bv y Wy) Hj) as (v & Ev & Lv & Vv). rewrite Ev. cbn [obind].
          destruct (proj1 F i j M Hi Hj EM) as (Dh & Dw). destruct (fm_sub_mult_ok M v tmp) as (t & Et & Lt' & Vt); [lia|lia|]. rewrite Et. cbn [obind].
          destruct (IH t Hj' ltac:(lia)) as (t' & E' & L' & V'). exists t'. split; [exact E'|]. split; [auto|]. intros k Hk. rewrite V', Vt by lia.
          unfold part at 2. cbn [fold_right]. fold (part js y i k). destruct (Nat.eqb_spec i j); [congruence|]. cbn [negb ind]. rewrite EM, Dw. cbn [val].
          rewrite (rsum_ext (size j) (fun q => fm_val M k q * vnth v q)%R (fun q => fm_val M k q * ent off y j q)%R) by (intros q Hq; rewrite Vv by auto; reflexivity).
          ring.
        * cbn [obind]. destruct (IH tmp Hj' Lt) as (t & E & L & V). exists t. split; [exact E|]. split; [auto|]. intros k Hk. rewrite V by auto.
          unfold part at 2. cbn [fold_right]. fold (part js y i k). destruct (Nat.eqb_spec i j); [congruence|]. cbn [negb ind]. rewrite EM. cbn [val].
          rewrite (rsum_ext (size j) _ (fun _ => 0%R)) by (intros; ring). rewrite rsum_zero. ring.
  Qed.

  Lemma part_app js js' y i k : part (js ++ js') y i k = (part js y i k + part js' y i k)%R.
  Proof.
    unfold part. rewrite fold_right_app. generalize (fold_right (fun j a => (a + ind (negb (i =? j)) (rsum (size j) (fun q => val (A i j) k q * ent off y j q)))%R) 0%R js').
    intros z. induction js; cbn [fold_right]; [ring|]. rewrite IHjs. ring.
  Qed.
  Lemma part_seq y i k m : part (seq 0 m) y i k = rsum m (fun j => ind (negb (i =? j)) (rsum (size j) (fun q => val (A i j) k q * ent off y j q)%R)).
  Proof. induction m; [reflexivity|]. rewrite seq_S, part_app, IHm. cbn [rsum part fold_right Nat.add]. ring. Qed.
  Lemma part_rev js y i k : part (rev js) y i k = part js y i k.
  Proof. induction js; [reflexivity|]. cbn [rev]. rewrite part_app, IHjs. cbn [part fold_right]. fold (part js y i k). ring. Qed.

  (** The order of the columns does not matter. *)
  Definition col_order (js : list nat) : Prop := (forall j, In j js -> j < n) /\ forall y i k, part js y i k = part (seq 0 n) y i k.
  Lemma order_forw : col_order (seq 0 n).
  Proof. split; auto. intros j Hj. apply in_seq in Hj. lia. Qed.
  Lemma order_back : col_order (rev (seq 0 n)).
  Proof. split; [|intros; apply part_rev]. intros j Hj. apply in_rev, in_seq in Hj. lia. Qed.

  Lemma block_row_split y i k : i < n -> block_row n size A i k (ent off y) =
    (part (seq 0 n) y i k + rsum (size i) (fun q => val (A i i) k q * ent off y i q))%R.
  Proof.
    intros Hi. rewrite part_seq. unfold block_row.
    rewrite (rsum_ext n _ (fun j => ind (negb (i =? j)) (rsum (size j) (fun q => val (A i j) k q * ent off y j q)) +
       ind (i =? j) (rsum (size j) (fun q => val (A i j) k q * ent off y j q)))%R).
    2:{ intros j Hj. destruct (i =? j); cbn [negb ind]; ring. }
    rewrite rsum_plus. f_equal. rewrite (rsum_single n i); auto.
    - rewrite Nat.eqb_refl. reflexivity.
    - intros j Hj N. destruct (Nat.eqb_spec i j); [congruence|reflexivity].
  Qed.

  (** One row: block [i] becomes the solution of row [i], all others stay. *)
  Lemma row_ok js y i : col_order js -> wfv y -> i < n ->
    exists y', gs_row s A js x y i = Ok y' /\ wfv y' /\
      (forall j q, j < n -> j <> i -> q < size j -> ent off y' j q = ent off y j q) /\
      (forall k, k < size i -> block_row n size A i k (ent off y') = ent off x i k).
  Proof.
    intros (Jn & Je) Wy Hi. pose proof O as (Lo & _ & So). unfold gs_row, s. cbn [sm_rows sm_cols sm_inv].
    rewrite (oread_nth off i 0), (oread_nth off (i + 1) 0) by lia. cbn [obind].
    assert (D : nth (i + 1) off 0 - nth i off 0 = size i) by (rewrite Nat.add_1_r, So by auto; lia). rewrite D.
    destruct (tmp_loop y i js (repeat 0%R (size i)) Wy Hi Jn (repeat_length _ _)) as (t & Et & Lt & Vt). rewrite Et. cbn [obind].
    destruct (bv_get_vnth (BVec off x) n size i (wf_bv x Lx) Hi) as (xi & Ex & Lxi & Vx). rewrite Ex. cbn [obind bv_off bv_dat] in *.
    destruct (vec_add_ok t xi) as (b & Eb & Lb & Vb); [lia|]. rewrite Eb. cbn [obind].
    rewrite (oread_nth inv i (FMat 0 0 (fun _ _ => 0%R))) by lia. cbn [obind].
    destruct (A i i) as [M|] eqn:EM; [|exfalso; apply (proj2 F i Hi); auto]. pose proof (I i M Hi EM) as IM.
    set (W := nth i inv (FMat 0 0 (fun _ _ => 0%R))) in *.
    destruct (fm_mult_ok W b) as (yi & Ey & _); [destruct IM as (_ & Q & _); lia|]. rewrite Ey. cbn [obind].
    destruct (inverse_solves (size i) M W b yi IM ltac:(lia) Ey) as (Lyi & Sol).
    destruct (bv_put_ok (BVec off y) n size (wf_bv y Wy) i yi Hi ltac:(auto)) as (B' & EB & WB & OB & Same & Other).
    rewrite EB. cbn [obind]. exists (bv_dat B'). split; [reflexivity|]. cbn [bv_off] in OB.
    assert (Wy' : wfv (bv_dat B')). { unfold wfv. rewrite (proj2 WB). symmetry. apply (offsets_nsum off n size n); auto. }
    split; [exact Wy'|].
    assert (Ent : forall j q, j < n -> q < size j -> ent off (bv_dat B') j q = vnth (blk B' j) q).
    { intros j q Hj Hq. rewrite (blk_nth B' n size WB j q Hj Hq), OB. reflexivity. }
    assert (Oth : forall j q, j < n -> j <> i -> q < size j -> ent off (bv_dat B') j q = ent off y j q).
    { intros j q Hj N Hq. rewrite Ent, Other by auto. apply (blk_nth (BVec off y) n size (wf_bv y Wy) j q Hj Hq). }
    split; [exact Oth|]. intros k Hk. rewrite block_row_split by auto.
    rewrite EM. cbn [val]. rewrite (rsum_ext (size i) _ (fun q => fm_val M k q * vnth yi q)%R) by (intros q Hq; rewrite Ent, Same by auto; reflexivity).
    rewrite Sol, Vb, Vt, Vx by lia. rewrite Je. unfold vnth at 1. rewrite nth_repeat.
    assert (P : part (seq 0 n) (bv_dat B') i k = part (seq 0 n) y i k).
    { rewrite !part_seq. apply rsum_ext. intros j Hj. destruct (Nat.eqb_spec i j); cbn [negb ind]; auto. apply rsum_ext. intros q Hq. rewrite Oth; auto. }
    rewrite P. ring.
  Qed.

  (** A row that already holds is not changed. *)
  Lemma row_fixed js y i : col_order js -> wfv y -> i < n ->
    (forall k, k < size i -> block_row n size A i k (ent off y) = ent off x i k) -> gs_row s A js x y i = Ok y.
  Proof.
    intros J Wy Hi H. destruct (row_ok js y i J Wy Hi) as (y' & E & Wy' & Oth & Row). rewrite E. f_equal.
    assert (X : BVec off y' = BVec off y); [|injection X; auto]. apply (blk_ext _ _ n size); auto using wf_bv. intros j Hj.
    apply vec_ext; [rewrite !(blk_length _ n size); auto using wf_bv|]. intros q Hq. rewrite (blk_length _ n size) in Hq by auto using wf_bv.
    rewrite !(blk_nth _ n size) by auto using wf_bv. cbn [bv_off bv_dat]. change (ent off y' j q = ent off y j q). destruct (Nat.eq_dec j i) as [->|N]; [|apply Oth; auto].
    destruct (A i i) as [M|] eqn:EM; [|exfalso; apply (proj2 F i Hi); auto]. pose proof (I i M Hi EM) as (_ & _ & _ & Lf).
    set (W := nth i inv (FMat 0 0 (fun _ _ => 0%R))) in *.
    assert (Eq : forall k, k < size i -> rsum (size i) (fun q => fm_val M k q * ent off y' i q)%R = rsum (size i) (fun q => fm_val M k q * ent off y i q)%R).
    { intros k Hk. specialize (Row k Hk). rewrite <- (H k Hk), !block_row_split in Row by auto. rewrite EM in Row. cbn [val] in Row.
      assert (P : part (seq 0 n) y' i k = part (seq 0 n) y i k).
      { rewrite !part_seq. apply rsum_ext. intros j Hj'. destruct (Nat.eqb_spec i j); cbn [negb ind]; auto. apply rsum_ext. intros q' Hq'. rewrite Oth; auto. }
      rewrite P in Row. lra. }
    assert (Rec : forall f, ent off f i q = rsum (size i) (fun k => fm_val W q k * rsum (size i) (fun r => fm_val M k r * ent off f i r))%R).
    { intros f. rewrite (rsum_ext (size i) _ (fun k => rsum (size i) (fun r => fm_val W q k * (fm_val M k r * ent off f i r)))%R) by (intros; rewrite rsum_scal; reflexivity).
      rewrite rsum_swap. rewrite (rsum_ext (size i) _ (fun r => delta q r * ent off f i r)%R).
      2:{ intros r Hr. rewrite <- Lf by auto. rewrite <- rsum_scal_r. apply rsum_ext. intros. ring. }
      rewrite (rsum_single (size i) q); auto.
      - unfold delta. rewrite Nat.eqb_refl. ring.
      - intros z Hz N. unfold delta. destruct (Nat.eqb_spec q z); [congruence|ring]. }
    rewrite (Rec y'), (Rec y). apply rsum_ext. intros k Hk. rewrite Eq; auto.
  Qed.

  (** A sweep: row [r] holds with the blocks visited so far new and the others old. *)
  Lemma sweep_ok js l y : col_order js -> wfv y -> NoDup l -> (forall i, In i l -> i < n) ->
    exists y', ofold (gs_row s A js x) l y = Ok y' /\ wfv y' /\
      (forall j q, j < n -> ~ In j l -> q < size j -> ent off y' j q = ent off y j q) /\
      (forall p1 r p2, l = p1 ++ r :: p2 -> forall k, k < size r ->
         block_row n size A r k (fun j q => if in_dec Nat.eq_dec j (p1 ++ [r]) then ent off y' j q else ent off y j q) = ent off x r k).
  Proof.
    intros J Wy. induction l as [|r l IH] using rev_ind; intros ND Hl.
    - exists y. split; [reflexivity|]. split; [auto|]. split; [auto|]. intros p1 r p2 E. destruct p1; discriminate.
    - assert (ND' : NoDup l /\ ~ In r l). { apply NoDup_remove in ND. rewrite app_nil_r in ND. auto. } destruct ND' as (ND1 & ND2).
      destruct IH as (y1 & E1 & W1 & O1 & R1); auto. { intros; apply Hl; apply in_or_app; auto. }
      assert (Hr : r < n) by (apply Hl, in_or_app; right; left; auto).
      destruct (row_ok js y1 r J W1 Hr) as (y2 & E2 & W2 & O2 & R2). exists y2. rewrite ofold_app2, E1. cbn [obind ofold]. rewrite E2. cbn [obind].
      split; [reflexivity|]. split; [auto|]. split.
      + intros j q Hj N Hq. rewrite O2; auto.
        * apply O1; auto. intros Q. apply N, in_or_app. auto.
        * intros ->. apply N, in_or_app. right; left; auto.
      + intros p1 r' p2 E k Hk. destruct p2 as [|z p2] using rev_ind.
        * apply app_inj_tail in E as (-> & ->). rewrite <- (R2 k Hk). unfold block_row. apply rsum_ext. intros j Hj. apply rsum_ext. intros q Hq.
          destruct (in_dec Nat.eq_dec j (p1 ++ [r'])) as [|N]; auto. f_equal. symmetry. rewrite O2; auto.
          -- apply O1; auto. intros Q. apply N, in_or_app. auto.
          -- intros ->. apply N, in_or_app. right; left; auto.
        * clear IHp2. rewrite app_comm_cons, app_assoc in E. apply app_inj_tail in E as (-> & ->).
          rewrite <- (R1 p1 r' p2 eq_refl k Hk). unfold block_row. apply rsum_ext. intros j Hj. apply rsum_ext. intros q Hq.
          destruct (in_dec Nat.eq_dec j (p1 ++ [r'])) as [Q|]; auto. f_equal. apply O2; auto. intros ->. apply ND2.
          apply in_app_or in Q as [Q|[Q|[]]]; apply in_or_app; [left; auto|right; left; auto].
  Qed.

  Lemma sweep_fixed js l y : col_order js -> wfv y -> (forall i, In i l -> i < n) ->
    (forall i k, i < n -> k < size i -> block_row n size A i k (ent off y) = ent off x i k) -> ofold (gs_row s A js x) l y = Ok y.
  Proof.
    intros J Wy Hl H. induction l as [|r l IH]; [reflexivity|]. cbn [ofold]. rewrite row_fixed; auto.
    - cbn [obind]. apply IH. intros; apply Hl; right; auto.
    - apply Hl. left; auto.
    - intros k Hk. apply H; auto. apply Hl. left; auto.
  Qed.
End Sweep.

Section Smoother.
  Variables (A : blockmat) (n : nat) (size : nat -> nat) (off : list nat) (invert : fmat -> outcome fmat).
  Hypothesis F : bm_fits n size A.
  Hypothesis O : offsets off n size.
  Hypothesis V : inverts invert n size A.

  Lemma make_ok : exists inv, make_smoother invert A off off = Ok (Smoother (Some A) (Z.of_nat n) off off inv) /\ List.length inv = n /\
    forall i M, i < n -> A i i = Some M -> inverse_of (size i) M (nth i inv (FMat 0 0 (fun _ _ => 0%R))).
  Proof.
    unfold make_smoother. assert (Ln : List.length off - 1 = n) by (destruct O; lia). rewrite Ln, Nat.eqb_refl. cbn [oassert].
    assert (H : forall b, b < n -> exists W, match A b b with None => Abort | Some M => invert M end = Ok W).
    { intros b Hb. destruct (A b b) as [M|] eqn:E; [|exfalso; apply (proj2 F b Hb); auto]. destruct (V b M Hb E) as (W & EW & _). eauto. }
    set (g := fun b => match A b b with None => Abort | Some M => invert M end) in *.
    set (d := FMat 0 0 (fun _ _ => 0%R)).
    set (l := map (fun b => match g b with Ok W => W | _ => d end) (seq 0 n)).
    assert (El : omap g (seq 0 n) = Ok l).
    { apply omap_map_ok. intros b Hb. apply in_seq in Hb. destruct (H b) as (W & EW); [lia|]. change (g b = Ok W) in EW. rewrite EW. reflexivity. }
    rewrite El. cbn [obind]. exists l. split; [reflexivity|]. split; [unfold l; rewrite map_length, seq_length; auto|].
    intros i M Hi E. unfold l. rewrite nth_map_seq by auto. unfold g. rewrite Nat.add_0_l, E. destruct (V i M Hi E) as (W & EW & IW). rewrite EW. exact IW.
  Qed.

  Variables (s : smoother) (x : vec).
  Hypothesis S : make_smoother invert A off off = Ok s.
  Hypothesis Lx : List.length x = nth n off 0.

  Lemma made : exists inv, s = Smoother (Some A) (Z.of_nat n) off off inv /\ List.length inv = n /\
    forall i M, i < n -> A i i = Some M -> inverse_of (size i) M (nth i inv (FMat 0 0 (fun _ _ => 0%R))).
  Proof. destruct make_ok as (inv & E & L & I). rewrite S in E. injection E as ->. eauto. Qed.

  Lemma forw_ok y : List.length y = nth n off 0 -> exists y', gs_forw s x y = Ok y' /\ forward_step n size off A x y y'.
  Proof.
    intros Ly. destruct made as (inv & -> & L & I). unfold gs_forw. cbn [sm_n sm_op]. rewrite Nat2Z.id.
    destruct (sweep_ok A n size off inv F O L I x Lx (seq 0 n) (seq 0 n) y) as (y' & E & W & Oth & Row); auto.
    - eapply order_forw; eauto.
    - apply seq_NoDup.
    - intros i Hi. apply in_seq in Hi. lia.
    - exists y'. split; [exact E|]. split; [exact W|]. intros i k Hi Hk.
      rewrite <- (Row (seq 0 i) i (seq (i + 1) (n - i - 1))) with (k := k); auto.
      + unfold block_row. apply rsum_ext. intros j Hj. apply rsum_ext. intros q Hq. f_equal.
        destruct (in_dec Nat.eq_dec j (seq 0 i ++ [i])) as [Q|Q]; destruct (Nat.leb_spec j i); auto; exfalso.
        * apply in_app_or in Q as [Q|[Q|[]]]; [apply in_seq in Q|]; lia.
        * apply Q, in_or_app. destruct (Nat.eq_dec i j); [right; left; auto|left; apply in_seq; lia].
      + replace n with (i + (1 + (n - i - 1))) at 1 by lia. rewrite seq_app. cbn [seq Nat.add app]. do 2 f_equal. replace (i + 1) with (Datatypes.S i) by lia. reflexivity.
  Qed.

  Lemma back_ok y : List.length y = nth n off 0 -> exists y', gs_back s x y = Ok y' /\ backward_step n size off A x y y'.
  Proof.
    intros Ly. destruct made as (inv & -> & L & I). unfold gs_back. cbn [sm_n sm_op]. rewrite Nat2Z.id.
    destruct (sweep_ok A n size off inv F O L I x Lx (rev (seq 0 n)) (rev (seq 0 n)) y) as (y' & E & W & Oth & Row); auto.
    - eapply order_back; eauto.
    - apply NoDup_rev, seq_NoDup.
    - intros i Hi. apply in_rev, in_seq in Hi. lia.
    - exists y'. split; [exact E|]. split; [exact W|]. intros i k Hi Hk.
      rewrite <- (Row (rev (seq (i + 1) (n - i - 1))) i (rev (seq 0 i))) with (k := k); auto.
      + unfold block_row. apply rsum_ext. intros j Hj. apply rsum_ext. intros q Hq. f_equal.
        destruct (in_dec Nat.eq_dec j (rev (seq (i + 1) (n - i - 1)) ++ [i])) as [Q|Q]; destruct (Nat.leb_spec i j); auto; exfalso.
        * apply in_app_or in Q as [Q|[Q|[]]]; [apply in_rev, in_seq in Q|]; lia.
        * apply Q, in_or_app. destruct (Nat.eq_dec i j); [right; left; auto|left; apply in_rev; rewrite rev_involutive; apply in_seq; lia].
      + replace n with (i + (1 + (n - i - 1))) at 1 by lia. rewrite seq_app, rev_app_distr. cbn [seq Nat.add app rev]. rewrite <- app_assoc. cbn [app].
        replace (i + 1) with (Datatypes.S i) by lia. reflexivity.
  Qed.

  Lemma mult_ok ty it mode y : (0 <= ty <= 2)%Z -> List.length y = nth n off 0 -> exists y', gs_mult s ty it mode x y = Ok y' /\
    gs_run (forward_step n size off A x) (backward_step n size off A x) ty (Z.to_nat it) (if mode then y else repeat 0%R (nth n off 0)) y'.
  Proof.
    intros Hty Ly. unfold gs_mult.
    assert (EQ : (if mode then y else map (fun _ : R => 0%R) y) = (if mode then y else repeat 0%R (nth n off 0))).
    { destruct mode; auto. rewrite <- Ly. clear. induction y; cbn [map repeat List.length]; congruence. }
    cbv zeta. match goal with |- context [ofor _ _ ?z] => change z with (if mode then y else map (fun _ : R => 0%R) y : list R) end.
    rewrite EQ. clear EQ.
    set (y0 := if mode then y else repeat 0%R (nth n off 0)).
    assert (L0 : List.length y0 = nth n off 0) by (unfold y0; destruct mode; auto; apply repeat_length).
    assert (G : forall m, exists y', ofor m (fun y _ => let* y := (if negb (ty =? 2)%Z then gs_forw s x y else Ok y) in
        if negb (ty =? 1)%Z then gs_back s x y else Ok y) y0 = Ok y' /\ List.length y' = nth n off 0 /\
        gs_run (forward_step n size off A x) (backward_step n size off A x) ty m y0 y').
    { induction m.
      - exists y0. split; [reflexivity|]. split; [auto|constructor].
      - destruct IHm as (y1 & E1 & L1 & R1). rewrite ofor_S, E1. cbn [obind].
        assert (C : ty = 0%Z \/ ty = 1%Z \/ ty = 2%Z) by lia. destruct C as [->|[->| ->]]; cbn [Z.eqb Pos.eqb negb].
        + destruct (forw_ok y1 L1) as (y2 & E2 & S2). rewrite E2. cbn [obind]. destruct (back_ok y2 (proj1 S2)) as (y3 & E3 & S3). rewrite E3.
          exists y3. split; [reflexivity|]. split; [apply S3|]. eapply run_sym; eauto.
        + destruct (forw_ok y1 L1) as (y2 & E2 & S2). rewrite E2. cbn [obind]. exists y2. split; [reflexivity|]. split; [apply S2|]. eapply run_fwd; eauto.
        + cbn [obind]. destruct (back_ok y1 L1) as (y2 & E2 & S2). rewrite E2. exists y2. split; [reflexivity|]. split; [apply S2|]. eapply run_bwd; eauto. }
    destruct (G (Z.to_nat it)) as (y' & E & _ & R). exists y'. split; [exact E|exact R].
  Qed.

  Lemma mult_fixed ty it y : List.length y = nth n off 0 -> bm_solves n size off A x y -> gs_mult s ty it true x y = Ok y.
  Proof.
    intros Ly H. destruct made as (inv & -> & L & I). unfold gs_mult.
    assert (Ef : gs_forw (Smoother (Some A) (Z.of_nat n) off off inv) x y = Ok y).
    { unfold gs_forw. cbn [sm_n sm_op]. rewrite Nat2Z.id. apply (sweep_fixed A n size off inv F O L I x Lx); auto; [eapply order_forw; eauto|].
      intros i Hi. apply in_seq in Hi. lia. }
    assert (Eb : gs_back (Smoother (Some A) (Z.of_nat n) off off inv) x y = Ok y).
    { unfold gs_back. cbn [sm_n sm_op]. rewrite Nat2Z.id. apply (sweep_fixed A n size off inv F O L I x Lx); auto; [eapply order_back; eauto|].
      intros i Hi. apply in_rev, in_seq in Hi. lia. }
    induction (Z.to_nat it); [reflexivity|]. rewrite ofor_S, IHn0. cbn [obind].
    destruct (negb (ty =? 2)%Z); [rewrite Ef|]; cbn [obind]; destruct (negb (ty =? 1)%Z); auto.
  Qed.

  Lemma bd_ok y : List.length y = nth n off 0 -> exists y', bd_mult s 0 1 false x y = Ok y' /\ List.length y' = nth n off 0 /\
    forall i k, i < n -> k < size i -> rsum (size i) (fun q => val (A i i) k q * ent off y' i q)%R = ent off x i k.
  Proof.
    intros Ly. destruct made as (inv & -> & L & I). unfold bd_mult. cbn [negb andb Z.eqb Pos.eqb sm_n sm_rows sm_inv]. rewrite Nat2Z.id.
    destruct (ofor_inv n
      (fun y i => let* xi := bv_get (BVec off x) i in let* W := oread inv i in let* yi := fm_mult W xi in
        let* b := bv_put (BVec off y) i yi in Ok (bv_dat b))
      (fun m (y : vec) => List.length y = nth n off 0 /\ forall i k, i < m -> k < size i ->
        rsum (size i) (fun q => val (A i i) k q * ent off y i q)%R = ent off x i k) y) as (y' & E & Q1 & Q2).
    - split; auto. intros; lia.
    - intros m z Hm (Lz & Hz).
      destruct (bv_get_vnth (BVec off x) n size m (wf_bv n size off O x Lx) Hm) as (xi & Ex & Lxi & Vx). rewrite Ex. cbn [obind bv_off bv_dat] in *.
      rewrite (oread_nth inv m (FMat 0 0 (fun _ _ => 0%R))) by lia. cbn [obind].
      destruct (A m m) as [M|] eqn:EM; [|exfalso; apply (proj2 F m Hm); auto]. pose proof (I m M Hm EM) as IM.
      set (W := nth m inv (FMat 0 0 (fun _ _ => 0%R))) in *.
      destruct (fm_mult_ok W xi) as (yi & Ey & _); [destruct IM as (_ & Q & _); lia|]. rewrite Ey. cbn [obind].
      destruct (inverse_solves (size m) M W xi yi IM ltac:(lia) Ey) as (Lyi & Sol).
      destruct (bv_put_ok (BVec off z) n size (wf_bv n size off O z Lz) m yi Hm ltac:(auto)) as (B' & EB & WB & OB & Same & Other).
      rewrite EB. cbn [obind]. exists (bv_dat B'). split; [reflexivity|]. cbn [bv_off] in OB.
      split. { rewrite (proj2 WB). symmetry. apply (offsets_nsum off n size n); auto. }
      assert (Ent : forall j q, j < n -> q < size j -> ent off (bv_dat B') j q = vnth (blk B' j) q).
      { intros j q Hj Hq. rewrite (blk_nth B' n size WB j q Hj Hq), OB. reflexivity. }
      intros i k Hi Hk. destruct (Nat.eq_dec i m) as [->|N].
      + rewrite EM. cbn [val]. rewrite (rsum_ext (size m) _ (fun q => fm_val M k q * vnth yi q)%R) by (intros q Hq; rewrite Ent, Same by auto; reflexivity).
        rewrite Sol by auto. apply Vx; auto.
      + rewrite <- (Hz i k) by lia. apply rsum_ext. intros q Hq. rewrite Ent, Other by lia. f_equal. apply (blk_nth (BVec off z) n size (wf_bv n size off O z Lz) i q); lia.
    - exists y'. split; [exact E|]. split; auto.
  Qed.
End Smoother.
