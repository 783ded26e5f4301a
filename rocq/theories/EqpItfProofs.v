(** Proofs about hyper-reduced interface terms. *)
From Coq Require Import Reals List Bool Lia Arith ZArith Lra.
From Verif Require Import Outcome ListLemmas HdfModel LaBase BlockVec LinalgModel LinalgSpec LinalgProofs LinalgSubProofs ItfModel ItfSpec EqpModel EqpSpec EqpItfModel EqpItfSpec.
From Verif Require Import CompProofs RomProofs MbFlowProofs EqpProofs EqpSetupProofs EqpEvalProofs EqpAccProofs.
Import ListNotations.
Local Open Scope nat_scope.

(** Steps that add. *)
Lemma fold_sum {S K A} (Inv : S -> Prop) (dom : K -> Prop) (rd : S -> K -> R) (f : S -> A -> outcome S) (c : A -> K -> R) l :
  (forall a s, In a l -> Inv s -> exists s', f s a = Ok s' /\ Inv s' /\ forall k, dom k -> rd s' k = (rd s k + c a k)%R) ->
  forall s, Inv s -> exists s', ofold f l s = Ok s' /\ Inv s' /\ forall k, dom k -> rd s' k = (rd s k + lsum (fun a => c a k) l)%R.
Proof.
  induction l as [|a l IH]; intros H s I.
  - exists s. split; [reflexivity|]. split; [auto|]. intros k _. cbn [lsum fold_right]. ring.
  - destruct (H a s (or_introl eq_refl) I) as (s1 & E & I1 & V). cbn [ofold]. rewrite E. cbn [obind].
    destruct (IH (fun a' s' Ha => H a' s' (or_intror Ha)) s1 I1) as (s2 & E2 & I2 & V2). exists s2. split; [exact E2|]. split; [auto|].
    intros k Hk. rewrite V2, V by auto. change (lsum (fun a0 => c a0 k) (a :: l)) with (c a k + lsum (fun a0 => c a0 k) l)%R. ring.
Qed.

Lemma for_sum {S K} (Inv : S -> Prop) (dom : K -> Prop) (rd : S -> K -> R) (f : S -> nat -> outcome S) (c : nat -> K -> R) n :
  (forall a s, a < n -> Inv s -> exists s', f s a = Ok s' /\ Inv s' /\ forall k, dom k -> rd s' k = (rd s k + c a k)%R) ->
  forall s, Inv s -> exists s', ofor n f s = Ok s' /\ Inv s' /\ forall k, dom k -> rd s' k = (rd s k + rsum n (fun a => c a k))%R.
Proof.
  intros H s I. destruct (fold_sum Inv dom rd f c (seq 0 n)) with (s := s) as (s' & E & I' & V); auto.
  - intros a t Ha It. apply in_seq in Ha. apply H; auto. lia.
  - exists s'. split; [exact E|]. split; [auto|]. intros k Hk. rewrite V, lsum_seq by auto. reflexivity.
Qed.

Lemma on_len v ds : List.length (on_dofs v ds) = List.length ds.
Proof. apply map_length. Qed.

Lemma on_plain v ds : (forall d, In d ds -> (0 <= d)%Z) -> forall r, r < List.length ds -> vnth (on_dofs v ds) r = v (Z.to_nat (nth r ds 0%Z)).
Proof.
  intros P r Hr. unfold on_dofs, vnth. rewrite (nth_indep _ 0%R (dofs 0 * v (dofn 0))%R) by (rewrite map_length; auto).
  rewrite (map_nth (fun d => (dofs d * v (dofn d))%R)). specialize (P (nth r ds 0%Z) (nth_In _ _ Hr)).
  unfold dofs, dofn. destruct (Z.leb_spec 0 (nth r ds 0%Z)); [ring|lia].
Qed.

(** ** One side *)

Definition side_ok (B : dmat) (o n : nat) (ds : list Z) : Prop :=
  dm_wf B /\ 0 < dm_w B /\ o + n <= dm_h B /\ ds <> [] /\ (forall d, In d ds -> (0 <= d)%Z) /\ (forall d, In d ds -> dofn d < n).

Lemma shift_eq o ds : shift_dofs o ds = map (fun d => (d + Z.of_nat o)%Z) ds.
Proof.
  unfold shift_dofs. destruct (Nat.ltb_spec 0 o); auto. assert (o = 0) by lia. subst o. rewrite (map_ext _ (fun d => d)); [rewrite map_id; auto|]. intros; lia.
Qed.
Lemma shift_len o ds : List.length (shift_dofs o ds) = List.length ds.
Proof. rewrite shift_eq. apply map_length. Qed.

Lemma shift_rows B o n ds : side_ok B o n ds -> rows_of (dm_h B) (shift_dofs o ds).
Proof.
  intros (_ & _ & H & N & P & D). rewrite shift_eq. split; [destruct ds; [congruence|discriminate]|].
  intros z Hz. apply in_map_iff in Hz. destruct Hz as (d & <- & Hd). specialize (P d Hd). specialize (D d Hd). unfold dofn in D. destruct (Z.leb_spec 0 d); lia.
Qed.

Lemma shift_sel B o n ds r c : side_ok B o n ds -> r < List.length ds -> sel B (shift_dofs o ds) r c = mget B (o + Z.to_nat (nth r ds 0%Z)) c.
Proof.
  intros (_ & _ & _ & _ & P & _) Hr. unfold sel. rewrite shift_eq. rewrite (nth_indep _ 0%Z (0 + Z.of_nat o)%Z) by (rewrite map_length; auto).
  rewrite (map_nth (fun d => (d + Z.of_nat o)%Z)). specialize (P _ (nth_In _ 0%Z Hr)). f_equal. lia.
Qed.

Lemma side_lift B o n ds x : side_ok B o n ds -> List.length x = dm_w B ->
  mult_sub_matrix B (shift_dofs o ds) x (repeat 0%R (List.length (shift_dofs o ds))) = Ok (on_dofs (lift B o x) ds).
Proof.
  intros K Lx. pose proof K as (W & Hw & _ & _ & P & _).
  destruct (mult_sub_matrix_ok B (shift_dofs o ds) x (repeat 0%R (List.length (shift_dofs o ds)))) as (y & E & L & V); auto.
  - eapply shift_rows; eauto.
  - apply repeat_length.
  - rewrite E. f_equal. rewrite shift_len in L, V. apply vec_ext; [rewrite on_len; auto|]. intros i Hi. rewrite L in Hi. rewrite V, on_plain by auto.
    unfold lift. apply rsum_ext. intros c Hc. erewrite shift_sel; eauto.
Qed.

Lemma side_add B o n ds q y : side_ok B o n ds -> List.length q = List.length ds -> List.length y = dm_w B ->
  exists z, add_mult_transpose_sub B (shift_dofs o ds) q y = Ok z /\ List.length z = dm_w B /\
    forall c, c < dm_w B -> vnth z c = (vnth y c + dot (List.length ds) q (on_dofs (mode B o c) ds))%R.
Proof.
  intros K Lq Ly. pose proof K as (W & _ & _ & _ & P & _).
  destruct (add_mult_transpose_sub_ok B (shift_dofs o ds) q y) as (z & E & L & V); auto; [eapply shift_rows; eauto|rewrite shift_len; auto|].
  exists z. split; [exact E|]. split; [auto|]. intros c Hc. rewrite V by auto. f_equal. rewrite shift_len. unfold dot. apply rsum_ext. intros r Hr.
  rewrite on_plain by auto. erewrite shift_sel by eauto. unfold mode. ring.
Qed.

Lemma block_add n size i B o nn ds q y : bv_wf y n size -> i < n -> size i = dm_w B -> side_ok B o nn ds -> List.length q = List.length ds ->
  exists y1 y2 y', bv_get y i = Ok y1 /\ add_mult_transpose_sub B (shift_dofs o ds) q y1 = Ok y2 /\ bv_put y i y2 = Ok y' /\ bv_wf y' n size /\ bv_off y' = bv_off y /\
    forall i' j, i' < n -> j < size i' -> vnth (blk y' i') j = (vnth (blk y i') j + if i' =? i then dot (List.length ds) q (on_dofs (mode B o j) ds) else 0)%R.
Proof.
  intros W Hi Hs K Lq. pose proof (bv_get_ok y n size W i Hi) as G. pose proof (blk_length y n size W i Hi) as L.
  destruct (side_add B o nn ds q (blk y i)) as (z & E & Lz & V); auto; [congruence|].
  destruct (bv_put_ok y n size W i z) as (y' & P & W' & O' & B1 & B2); auto; [congruence|].
  exists (blk y i), z, y'. repeat (split; [auto; fail|]). intros i' j Hi' Hj. destruct (Nat.eqb_spec i' i) as [->|N].
  - rewrite B1. apply V. congruence.
  - rewrite B2 by auto. ring.
Qed.

(** ** One port *)

Definition port_at B1 B2 o1 o2 m1 m2 (st : list (option isite)) x1 x2 (i j : nat) (s : sinfo R) : R :=
  match isite_of st s with
  | None => 0%R
  | Some t =>
      ((if i =? m1 then iform_at t (Z.to_nat (si_qp s)) (si_qw s) (lift B1 o1 x1) (lift B2 o2 x2) true (mode B1 o1 j) else 0) +
       (if i =? m2 then iform_at t (Z.to_nat (si_qp s)) (si_qw s) (lift B1 o1 x1) (lift B2 o2 x2) false (mode B2 o2 j) else 0))%R
  end.

Lemma fits_read nq n1 n2 st s t : isample_fits n1 n2 nq st s -> isite_of st s = Some t -> zread st (si_el s) = Ok (Some t).
Proof.
  intros (He & _) E. unfold isite_of in E. unfold zread. destruct (Z.ltb_spec (si_el s) 0); [lia|]. rewrite <- E. apply oread_nth.
  destruct (Nat.lt_ge_cases (Z.to_nat (si_el s)) (List.length st)); auto. rewrite nth_overflow in E by auto. discriminate.
Qed.

Section Port.
  Context (B1 B2 : dmat) (o1 o2 m1 m2 nq n1 n2 : nat) (st : list (option isite)) (x1 x2 : vec) (n : nat) (size : nat -> nat).
  Context (W1 : dm_wf B1) (W2 : dm_wf B2) (P1 : 0 < dm_w B1) (P2 : 0 < dm_w B2) (H1 : o1 + n1 <= dm_h B1) (H2 : o2 + n2 <= dm_h B2).
  Context (L1 : List.length x1 = dm_w B1) (L2 : List.length x2 = dm_w B2) (Hm1 : m1 < n) (Hm2 : m2 < n) (S1 : size m1 = dm_w B1) (S2 : size m2 = dm_w B2).

  Lemma fits_sides s t : isample_fits n1 n2 nq st s -> isite_of st s = Some t -> side_ok B1 o1 n1 (is_d1 t) /\ side_ok B2 o2 n2 (is_d2 t).
  Proof. intros (_ & (t' & E & (D1 & D2 & _) & (N1 & N2 & Q1 & Q2)) & _) E'. rewrite E in E'. injection E' as ->. split; repeat (split; [assumption|]); assumption. Qed.

  Lemma port_mult_ok l y : bv_wf y n size -> (forall s, In s l -> isample_fits n1 n2 nq st s) ->
    exists y', port_mult B1 B2 o1 o2 m1 m2 nq st x1 x2 l y = Ok y' /\ bv_wf y' n size /\ bv_off y' = bv_off y /\
      forall i j, i < n -> j < size i -> vnth (blk y' i) j = (vnth (blk y i) j + lsum (port_at B1 B2 o1 o2 m1 m2 st x1 x2 i j) l)%R.
  Proof.
    intros Wy Hf. unfold port_mult.
    match goal with |- context[ofold ?f _ _] =>
      destruct (fold_sum (K := nat * nat) (fun s : Z * option (option isite) * bvec => let '(prev, tr, b) := s in bv_wf b n size /\ bv_off b = bv_off y /\
          ((prev = (-1)%Z /\ tr = None) \/ ((0 <= prev)%Z /\ exists t, nth (Z.to_nat prev) st None = Some t /\ tr = Some (Some t))))
        (fun k => fst k < n /\ snd k < size (fst k)) (fun s k => vnth (blk (snd s) (fst k)) (snd k)) f
        (fun s k => port_at B1 B2 o1 o2 m1 m2 st x1 x2 (fst k) (snd k) s) l) with (s := ((-1)%Z, @None (option isite), y)) as (((p', c'), y') & E & (I1 & I2 & I3) & V) end.
    - intros s ((prev, tr), b) Hs (Wb & Ob & C). pose proof (Hf s Hs) as F. pose proof F as (He & (t & Et & (D1 & D2 & Hq) & _) & Hqp).
      destruct (fits_sides s t F Et) as (K1 & K2).
      assert (Er : (if (si_el s =? prev)%Z then match tr with Some t0 => Ok t0 | None => UB end else zread st (si_el s)) = Ok (Some t)).
      { destruct (Z.eqb_spec (si_el s) prev) as [Q|Q]; [|apply (fits_read nq n1 n2 st s t F Et)]. destruct C as [(C & _)|(C & t' & C1 & ->)]; [lia|]. rewrite <- Q in C1.
        unfold isite_of in Et. rewrite Et in C1. injection C1 as <-. reflexivity. }
      rewrite Er. cbn [obind]. pose proof (side_lift B1 o1 n1 _ x1 K1 L1) as E1. pose proof (side_lift B2 o2 n2 _ x2 K2 L2) as E2. rw_bind E1. rw_bind E2.
      rewrite int_point_ok by auto. cbn [obind].
      destruct (Hq (Z.to_nat (si_qp s)) (si_qw s) (on_dofs (lift B1 o1 x1) (is_d1 t)) (on_dofs (lift B2 o2 x2) (is_d2 t))) as (Lq1 & Lq2); try apply on_len.
      destruct (block_add n size m1 B1 o1 n1 (is_d1 t) _ b Wb Hm1 S1 K1 Lq1) as (a1 & a2 & b1 & A1 & A2 & A3 & Wb1 & Ob1 & V1).
      rw_bind A1. rw_bind A2. rw_bind A3.
      destruct (block_add n size m2 B2 o2 n2 (is_d2 t) _ b1 Wb1 Hm2 S2 K2 Lq2) as (c1 & c2 & b2 & C1 & C2 & C3 & Wb2 & Ob2 & V2).
      rw_bind C1. rw_bind C2. rw_bind C3. eexists. split; [reflexivity|]. cbn beta iota. split.
      + split; [auto|]. split; [congruence|]. right. split; [auto|]. exists t. auto.
      + intros (i, j) (Hi & Hj). cbn [fst snd] in *. rewrite V2, V1 by auto. unfold port_at. rewrite Et. unfold iform_at. ring.
    - cbn beta iota. auto.
    - exists y'. split; [|split; [auto|split; [auto|]]].
      + rewrite E. reflexivity.
      + intros i j Hi Hj. apply (V (i, j)). auto.
  Qed.
End Port.

(** ** The whole form *)

Lemma bas_nth F i B : nth_error (fo_bases F) i = Some (Some B) -> bas F i = B.
Proof. intros E. unfold bas. rewrite (nth_error_nth _ _ None E). reflexivity. Qed.

Lemma block_offsets_ok F nd : form_fits F nd -> exists off, block_offsets (fo_bases F) = Ok off /\ offsets off (List.length (fo_bases F)) (width F) /\ forall i, i <= List.length (fo_bases F) -> nth i off 0 = start F i.
Proof.
  intros (_ & HB & _). unfold block_offsets.
  assert (E : omap (fun b => match b with None => Abort | Some B => Ok (dm_w B) end) (fo_bases F) = Ok (map (width F) (seq 0 (List.length (fo_bases F))))).
  { apply omap_ok. apply Forall2_of_nth; [rewrite map_length, seq_length; auto|]. intros i a b Ha Hb. assert (Hi : i < List.length (fo_bases F)) by (apply nth_error_Some; congruence).
    rewrite nth_error_map_seq in Hb by auto. injection Hb as <-. cbn [Nat.add]. destruct (HB i Hi) as (B & EB & _). rewrite EB in Ha. injection Ha as <-. unfold width. rewrite (bas_nth _ _ _ EB). reflexivity. }
  rewrite E. cbn [obind]. eexists. split; [reflexivity|].
  assert (O : offsets (psum 0 (0 :: map (width F) (seq 0 (List.length (fo_bases F))))) (List.length (fo_bases F)) (width F)).
  { pose proof (psum_offsets (map (width F) (seq 0 (List.length (fo_bases F))))) as (A & A0 & A1). rewrite map_length, seq_length in A, A1. split; [auto|]. split; [auto|]. intros i Hi. rewrite A1 by auto.
    rewrite nth_map_seq by auto. reflexivity. }
  split; [exact O|]. intros i Hi. destruct O as (_ & O0 & O1). induction i; [exact O0|]. rewrite O1, IHi by lia. reflexivity.
Qed.

Lemma coefs_blk F nd off x i : form_fits F nd -> offsets off (List.length (fo_bases F)) (width F) -> (forall i, i <= List.length (fo_bases F) -> nth i off 0 = start F i) ->
  bv_wf (BVec off x) (List.length (fo_bases F)) (width F) -> i < List.length (fo_bases F) -> blk (BVec off x) i = coefs F x i.
Proof.
  intros K O Hs W Hi. unfold coefs. apply vec_ext.
  - rewrite map_length, seq_length. eapply blk_length; eauto.
  - intros c Hc. assert (Hc' : c < width F i) by (rewrite <- (blk_length _ _ _ W i Hi); exact Hc). rewrite (blk_nth _ _ _ W) by auto. cbn [bv_off bv_dat]. rewrite Hs by lia.
    unfold vnth at 2. rewrite nth_map_seq by auto. reflexivity.
Qed.

Theorem itf_add_mult_ok F nd x y : form_fits F nd -> List.length x = start F (List.length (fo_bases F)) -> List.length y = List.length x ->
  exists off z, block_offsets (fo_bases F) = Ok off /\ itf_add_mult F off x y = Ok z /\ List.length z = List.length y /\
    forall i j, i < List.length (fo_bases F) -> j < width F i -> vnth z (start F i + j) =
      (vnth y (start F i + j) + rsum (List.length (fo_rules F)) (fun k => rsum (List.length (fo_ports F)) (fun p => lsum (isample_form F x k p i j) (ismp F k p))))%R.
Proof.
  intros K Lx Ly. set (n := List.length (fo_bases F)) in *. destruct (block_offsets_ok F nd K) as (off & Eo & O & Hs). fold n in O, Hs. exists off.
  pose proof K as (LO & HB & LS & HP & HR). fold n in LO, HB, HP.
  assert (Ll : last off 0 = start F n). { rewrite <- (Hs n) by lia. destruct O as (Lo & _). rewrite (last_nth off). f_equal. lia. }
  unfold itf_add_mult. rewrite Ll, Lx, Ly, Lx, Nat.eqb_refl. cbn [oassert].
  assert (En : start F n = nsum n (width F)). { rewrite <- (Hs n), (offsets_nsum off n (width F)) by auto; auto. }
  assert (Wx : bv_wf (BVec off x) n (width F)) by (split; [exact O|cbn [bv_dat]; congruence]).
  assert (Wy : bv_wf (BVec off y) n (width F)) by (split; [exact O|cbn [bv_dat]; congruence]).
  match goal with |- context[ofor (List.length (fo_rules F)) ?f _] =>
    destruct (for_sum (K := nat * nat) (fun b => bv_wf b n (width F) /\ bv_off b = off) (fun k => fst k < n /\ snd k < width F (fst k)) (fun b k => vnth (blk b (fst k)) (snd k)) f
      (fun k ij => rsum (List.length (fo_ports F)) (fun p => lsum (isample_form F x k p (fst ij) (snd ij)) (ismp F k p))) (List.length (fo_rules F))) with (s := BVec off y) as (b & E & (Wb & Ob) & V) end.
  - intros k b Hk Ib. destruct (HR k Hk) as (nq & Er & Hsm). unfold oread at 1. rewrite Er. cbn [obind].
    match goal with |- context[ofor (List.length (fo_ports F)) ?f _] =>
      apply (for_sum (K := nat * nat) (fun b => bv_wf b n (width F) /\ bv_off b = off) (fun k => fst k < n /\ snd k < width F (fst k)) (fun b k => vnth (blk b (fst k)) (snd k)) f
        (fun p ij => lsum (isample_form F x k p (fst ij) (snd ij)) (ismp F k p)) (List.length (fo_ports F))); auto end.
    clear b Ib. intros p b Hp (Wb & Ob). destruct (HP p Hp) as (M1 & M2). specialize (Hsm p Hp).
    destruct (HB _ M1) as (B1 & E1 & W1 & P1 & Q1). destruct (HB _ M2) as (B2 & E2 & W2 & P2 & Q2).
    assert (Ep : oread (fo_ports F) p = Ok (iport F p)) by (apply oread_nth; auto). rw_bind Ep.
    unfold oread at 1. rewrite E1. cbn [obind]. unfold oread at 1. rewrite E2. cbn [obind].
    rewrite (oread_nth (fo_offs F) _ 0) by lia. cbn [obind]. rewrite (oread_nth (fo_offs F) _ 0) by lia. cbn [obind].
    rewrite (bv_get_ok _ _ _ Wx) by auto. cbn [obind]. rewrite (bv_get_ok _ _ _ Wx) by auto. cbn [obind].
    assert (Es : oread (fo_smp F) (p + k * List.length (fo_ports F)) = Ok (nth (p + k * List.length (fo_ports F)) (fo_smp F) None)).
    { apply oread_nth. rewrite LS, (Nat.mul_comm (List.length (fo_ports F))), Nat.add_comm. apply lin_lt; auto. }
    rw_bind Es. unfold ismp in *. destruct (nth (p + k * List.length (fo_ports F)) (fo_smp F) None) as [l|].
    + rewrite !(coefs_blk F nd off x) by auto.
      destruct (port_mult_ok B1 B2 (voff F (rp_m1 (iport F p))) (voff F (rp_m2 (iport F p))) (rp_m1 (iport F p)) (rp_m2 (iport F p)) nq (nd (rp_m1 (iport F p))) (nd (rp_m2 (iport F p))) (fo_sites F k p)
        (coefs F x (rp_m1 (iport F p))) (coefs F x (rp_m2 (iport F p))) n (width F)) with (l := l) (y := b) as (b' & E & Wb' & Ob' & V); auto.
      * unfold coefs. rewrite map_length, seq_length. unfold width. rewrite (bas_nth _ _ _ E1). auto.
      * unfold coefs. rewrite map_length, seq_length. unfold width. rewrite (bas_nth _ _ _ E2). auto.
      * unfold width. rewrite (bas_nth _ _ _ E1). auto.
      * unfold width. rewrite (bas_nth _ _ _ E2). auto.
      * exists b'. split; [exact E|]. split; [split; [auto|congruence]|]. intros (i, j) (Hi & Hj). cbn [fst snd] in *. rewrite V by auto. f_equal. apply lsum_ext. intros s _.
        unfold port_at, isample_form, istate, imode. destruct (isite_of (fo_sites F k p) s) as [t|]; auto. rewrite (bas_nth _ _ _ E1), (bas_nth _ _ _ E2).
        f_equal; [destruct (Nat.eqb_spec i (rp_m1 (iport F p))) as [->|]; [rewrite (bas_nth _ _ _ E1); auto|auto]|].
        destruct (Nat.eqb_spec i (rp_m2 (iport F p))) as [->|]; [rewrite (bas_nth _ _ _ E2); auto|auto].
    + exists b. split; [reflexivity|]. split; [auto|]. intros ij _. cbn [lsum fold_right]. ring.
  - auto.
  - exists (bv_dat b). rw_bind E. split; [exact Eo|]. split; [reflexivity|]. split; [destruct Wb as (_ & Lb); congruence|].
    intros i j Hi Hj. pose proof (V (i, j) (conj Hi Hj)) as V'. cbn [fst snd] in V'. rewrite (blk_nth _ _ _ Wb), (blk_nth _ _ _ Wy) in V' by auto. cbn [bv_off bv_dat] in V'. rewrite Ob, Hs in V' by lia. exact V'.
Qed.

(** ** Gradient *)

Definition gok (n : nat) (size : nat -> nat) (g : grid) : Prop :=
  gr_n g = n /\ forall i j, i < n -> j < n -> sm_h (gr_at g i j) = size i /\ sm_w (gr_at g i j) = size j /\
    (sm_fin (gr_at g i j) = true -> forall a b, a < size i -> b < size j -> sm_has (gr_at g i j) a b = true).

Definition gdom (n : nat) (size : nat -> nat) (k : nat * nat * nat * nat) : Prop := let '(i, j, a, b) := k in i < n /\ j < n /\ a < size i /\ b < size j.
Definition grd (g : grid) (k : nat * nat * nat * nat) : R := let '(i, j, a, b) := k in sm_val (gr_at g i j) a b.

Lemma grad_block_ok n size L P ol op nl np dl dp A i j g : gok n size g -> i < n -> j < n -> size i = dm_w L -> size j = dm_w P ->
  side_ok L ol nl dl -> side_ok P op np dp -> dm_wf A -> dm_h A = List.length dl -> dm_w A = List.length dp ->
  exists g', grad_block L P (shift_dofs ol dl) (shift_dofs op dp) A i j g = Ok g' /\ gok n size g' /\
    forall i' j' a b, gdom n size (i', j', a, b) -> grd g' (i', j', a, b) = (grd g (i', j', a, b) +
      if (i' =? i) && (j' =? j) then rap (List.length dl) (List.length dp) (fun k _ => vnth (on_dofs (mode L ol a) dl) k) (mget A) (fun k _ => vnth (on_dofs (mode P op b) dp) k) 0 0 else 0)%R.
Proof.
  intros (Gn & G) Hi Hj Si Sj KL KP WA H1 H2. pose proof KL as (WL & _ & _ & _ & PL & _). pose proof KP as (WP & _ & _ & _ & PP & _). destruct (G i j Hi Hj) as (D1 & D2 & D3).
  unfold grad_block, gr_get. rewrite Gn, (proj2 (Nat.ltb_lt _ _) Hi), (proj2 (Nat.ltb_lt _ _) Hj). cbn [andb oguard obind].
  destruct (add_sub_rtap_sparse_full L (shift_dofs ol dl) A P (shift_dofs op dp) (gr_at g i j) (repeat 0%R (List.length (shift_dofs ol dl)))) as (m & E & M1 & M2 & M3 & M4 & V); auto.
  - eapply shift_rows; eauto.
  - eapply shift_rows; eauto.
  - rewrite shift_len; auto.
  - rewrite shift_len; auto.
  - apply repeat_length.
  - congruence.
  - congruence.
  - rewrite <- Si, <- Sj. exact D3.
  - rw_bind E. unfold gr_put. rewrite Gn, (proj2 (Nat.ltb_lt _ _) Hi), (proj2 (Nat.ltb_lt _ _) Hj). cbn [andb oguard]. eexists. split; [reflexivity|]. split.
    + split; [reflexivity|]. intros i' j' Hi' Hj'. cbn [gr_at]. destruct (Nat.eqb_spec i' i) as [->|Ni]; [|apply G; auto]. destruct (Nat.eqb_spec j' j) as [->|Nj]; [|apply G; auto]. cbn [andb].
      split; [congruence|]. split; [congruence|]. rewrite M3, Si, Sj. exact M4.
    + intros i' j' a b (Hi' & Hj' & Ha & Hb). unfold grd. cbn [gr_at]. destruct (Nat.eqb_spec i' i) as [->|Ni]; cbn [andb]; [|ring]. destruct (Nat.eqb_spec j' j) as [->|Nj]; [|ring].
      rewrite Si in Ha. rewrite Sj in Hb. rewrite V by auto. f_equal. rewrite !shift_len. unfold rap. apply rsum_ext. intros k Hk. rewrite on_plain by auto. erewrite shift_sel by eauto. unfold mode at 1. f_equal.
      apply rsum_ext. intros q Hq. rewrite on_plain by auto. erewrite shift_sel by eauto. reflexivity.
Qed.

Definition port_gat B1 B2 o1 o2 m1 m2 (st : list (option isite)) x1 x2 (k : nat * nat * nat * nat) (s : sinfo R) : R :=
  let '(i, i', a, b) := k in
  match isite_of st s with
  | None => 0%R
  | Some t =>
      let f := fun u v phi psi => igrad_at t (Z.to_nat (si_qp s)) (si_qw s) (lift B1 o1 x1) (lift B2 o2 x2) u v phi psi in
      ((if (i =? m1) && (i' =? m1) then f true true (mode B1 o1 a) (mode B1 o1 b) else 0) + (if (i =? m1) && (i' =? m2) then f true false (mode B1 o1 a) (mode B2 o2 b) else 0) +
       (if (i =? m2) && (i' =? m1) then f false true (mode B2 o2 a) (mode B1 o1 b) else 0) + (if (i =? m2) && (i' =? m2) then f false false (mode B2 o2 a) (mode B2 o2 b) else 0))%R
  end.

Section PortGrad.
  Context (B1 B2 : dmat) (o1 o2 m1 m2 nq n1 n2 : nat) (st : list (option isite)) (x1 x2 : vec) (n : nat) (size : nat -> nat).
  Context (W1 : dm_wf B1) (W2 : dm_wf B2) (P1 : 0 < dm_w B1) (P2 : 0 < dm_w B2) (H1 : o1 + n1 <= dm_h B1) (H2 : o2 + n2 <= dm_h B2).
  Context (L1 : List.length x1 = dm_w B1) (L2 : List.length x2 = dm_w B2) (Hm1 : m1 < n) (Hm2 : m2 < n) (S1 : size m1 = dm_w B1) (S2 : size m2 = dm_w B2).

  Definition gcache (t : isite) := (shift_dofs o1 (is_d1 t), shift_dofs o2 (is_d2 t), on_dofs (lift B1 o1 x1) (is_d1 t), on_dofs (lift B2 o2 x2) (is_d2 t)).

  Lemma port_grad_ok l g : gok n size g -> (forall s, In s l -> isample_fits n1 n2 nq st s) -> (forall s t, In s l -> isite_of st s = Some t -> isite_grad_ok t) ->
    exists g', port_grad B1 B2 o1 o2 m1 m2 nq st x1 x2 l g = Ok g' /\ gok n size g' /\
      forall k, gdom n size k -> grd g' k = (grd g k + lsum (port_gat B1 B2 o1 o2 m1 m2 st x1 x2 k) l)%R.
  Proof.
    intros Gg Hf Hg. unfold port_grad.
    match goal with |- context[ofold ?f _ _] =>
      destruct (fold_sum (K := nat * nat * nat * nat) (fun s : Z * option (list Z * list Z * vec * vec) * grid => let '(prev, c, b) := s in gok n size b /\
          ((prev = (-1)%Z /\ c = None) \/ ((0 <= prev)%Z /\ exists t, nth (Z.to_nat prev) st None = Some t /\ c = Some (gcache t))))
        (gdom n size) (fun s k => grd (snd s) k) f
        (fun s k => port_gat B1 B2 o1 o2 m1 m2 st x1 x2 k s) l) with (s := ((-1)%Z, @None (list Z * list Z * vec * vec), g)) as (((p', c'), g') & E & (I1 & I2) & V) end.
    - intros s ((prev, c), b) Hs (Gb & C). pose proof (Hf s Hs) as F. pose proof F as (He & (t & Et & (D1 & D2 & Hq) & _) & Hqp).
      destruct (fits_sides B1 B2 o1 o2 nq n1 n2 st W1 W2 P1 P2 H1 H2 s t F Et) as (K1 & K2).
      rewrite (fits_read nq n1 n2 st s t F Et). cbn [obind]. rewrite int_point_ok by auto. cbn [obind].
      match goal with |- context[let* c := ?e in _] => assert (Er : e = Ok (gcache t)) end.
      { destruct (Z.eqb_spec (si_el s) prev) as [Q|Q].
        - destruct C as [(C & _)|(C & t' & C1 & ->)]; [lia|]. rewrite <- Q in C1. unfold isite_of in Et. rewrite Et in C1. injection C1 as <-. reflexivity.
        - pose proof (side_lift B1 o1 n1 _ x1 K1 L1) as E1. pose proof (side_lift B2 o2 n2 _ x2 K2 L2) as E2. rw_bind E1. rw_bind E2. reflexivity. }
      rw_bind Er. unfold gcache at 1. cbn beta iota zeta.
      pose proof (fun u v => Hg s t Hs Et (Z.to_nat (si_qp s)) (si_qw s) (on_dofs (lift B1 o1 x1) (is_d1 t)) (on_dofs (lift B2 o2 x2) (is_d2 t)) u v (on_len _ _) (on_len _ _)) as GG.
      destruct (GG true true) as (A1 & A2 & A3). destruct (GG true false) as (A4 & A5 & A6). destruct (GG false true) as (A7 & A8 & A9). destruct (GG false false) as (A10 & A11 & A12).
      destruct (grad_block_ok n size B1 B1 o1 o1 n1 n1 (is_d1 t) (is_d1 t) _ m1 m1 b Gb Hm1 Hm1 S1 S1 K1 K1 A1 A2 A3) as (b1 & F1 & Gb1 & V1). rw_bind F1.
      destruct (grad_block_ok n size B1 B2 o1 o2 n1 n2 (is_d1 t) (is_d2 t) _ m1 m2 b1 Gb1 Hm1 Hm2 S1 S2 K1 K2 A4 A5 A6) as (b2 & F2 & Gb2 & V2). rw_bind F2.
      destruct (grad_block_ok n size B2 B1 o2 o1 n2 n1 (is_d2 t) (is_d1 t) _ m2 m1 b2 Gb2 Hm2 Hm1 S2 S1 K2 K1 A7 A8 A9) as (b3 & F3 & Gb3 & V3). rw_bind F3.
      destruct (grad_block_ok n size B2 B2 o2 o2 n2 n2 (is_d2 t) (is_d2 t) _ m2 m2 b3 Gb3 Hm2 Hm2 S2 S2 K2 K2 A10 A11 A12) as (b4 & F4 & Gb4 & V4). rw_bind F4.
      eexists. split; [reflexivity|]. cbn beta iota. split.
      + split; [auto|]. right. split; [auto|]. exists t. auto.
      + intros (((i, j), a), q) D. cbn [fst snd] in *. rewrite V4, V3, V2, V1 by auto. unfold port_gat. rewrite Et. unfold igrad_at. ring.
    - cbn beta iota. auto.
    - exists g'. split; [rewrite E; reflexivity|]. split; [auto|]. exact V.
  Qed.
End PortGrad.

Theorem itf_gradient_ok F nd x g : form_fits F nd -> form_grad_fits F -> grid_fits F g -> List.length x = start F (List.length (fo_bases F)) ->
  exists off g', block_offsets (fo_bases F) = Ok off /\ itf_get_gradient F off x g = Ok g' /\ grid_fits F g' /\
    forall i i' a b, i < List.length (fo_bases F) -> i' < List.length (fo_bases F) -> a < width F i -> b < width F i' -> sm_val (gr_at g' i i') a b =
      (sm_val (gr_at g i i') a b + rsum (List.length (fo_rules F)) (fun k => rsum (List.length (fo_ports F)) (fun p => lsum (isample_grad F x k p i i' a b) (ismp F k p))))%R.
Proof.
  intros K KG (Gn & Gd) Lx. set (n := List.length (fo_bases F)) in *. destruct (block_offsets_ok F nd K) as (off & Eo & O & Hs). fold n in O, Hs. exists off.
  pose proof K as (LO & HB & LS & HP & HR). fold n in LO, HB, HP.
  assert (En : start F n = nsum n (width F)). { rewrite <- (Hs n), (offsets_nsum off n (width F)) by auto; auto. }
  assert (Wx : bv_wf (BVec off x) n (width F)) by (split; [exact O|cbn [bv_dat]; congruence]).
  unfold itf_get_gradient. fold n. rewrite Gn, Nat.eqb_refl. cbn [oassert]. assert (Gg : gok n (width F) g) by (split; [auto|rewrite Gn in Gd; exact Gd]).
  match goal with |- context[ofor (List.length (fo_rules F)) ?f _] =>
    destruct (for_sum (K := nat * nat * nat * nat) (gok n (width F)) (gdom n (width F)) grd f
      (fun k q => let '(i, i', a, b) := q in rsum (List.length (fo_ports F)) (fun p => lsum (isample_grad F x k p i i' a b) (ismp F k p))) (List.length (fo_rules F))) with (s := g) as (g' & E & Gg' & V) end.
  - intros k h Hk Ih. destruct (HR k Hk) as (nq & Er & Hsm). unfold oread at 1. rewrite Er. cbn [obind].
    match goal with |- context[ofor (List.length (fo_ports F)) ?f _] =>
      destruct (for_sum (K := nat * nat * nat * nat) (gok n (width F)) (gdom n (width F)) grd f
        (fun p q => let '(i, i', a, b) := q in lsum (isample_grad F x k p i i' a b) (ismp F k p)) (List.length (fo_ports F))) with (s := h) as (h' & E & Ih' & V) end.
    + clear h Ih. intros p h Hp Ih. destruct (HP p Hp) as (M1 & M2). specialize (Hsm p Hp).
      destruct (HB _ M1) as (B1 & E1 & W1 & P1 & Q1). destruct (HB _ M2) as (B2 & E2 & W2 & P2 & Q2).
      assert (Ep : oread (fo_ports F) p = Ok (iport F p)) by (apply oread_nth; auto). rw_bind Ep.
      unfold oread at 1. rewrite E1. cbn [obind]. unfold oread at 1. rewrite E2. cbn [obind].
      rewrite (oread_nth (fo_offs F) _ 0) by lia. cbn [obind]. rewrite (oread_nth (fo_offs F) _ 0) by lia. cbn [obind].
      rewrite (bv_get_ok _ _ _ Wx) by auto. cbn [obind]. rewrite (bv_get_ok _ _ _ Wx) by auto. cbn [obind].
      assert (Es : oread (fo_smp F) (p + k * List.length (fo_ports F)) = Ok (nth (p + k * List.length (fo_ports F)) (fo_smp F) None)).
      { apply oread_nth. rewrite LS, (Nat.mul_comm (List.length (fo_ports F))), Nat.add_comm. apply lin_lt; auto. }
      rw_bind Es. assert (KG' : forall s t, In s (ismp F k p) -> isite_of (fo_sites F k p) s = Some t -> isite_grad_ok t) by (intros; eapply KG; eauto).
      unfold ismp in *. destruct (nth (p + k * List.length (fo_ports F)) (fo_smp F) None) as [l|].
      * rewrite !(coefs_blk F nd off x) by auto.
        destruct (port_grad_ok B1 B2 (voff F (rp_m1 (iport F p))) (voff F (rp_m2 (iport F p))) (rp_m1 (iport F p)) (rp_m2 (iport F p)) nq (nd (rp_m1 (iport F p))) (nd (rp_m2 (iport F p))) (fo_sites F k p)
          (coefs F x (rp_m1 (iport F p))) (coefs F x (rp_m2 (iport F p))) n (width F)) with (l := l) (g := h) as (h' & E & Ih' & V); auto.
        -- unfold coefs. rewrite map_length, seq_length. unfold width. rewrite (bas_nth _ _ _ E1). auto.
        -- unfold coefs. rewrite map_length, seq_length. unfold width. rewrite (bas_nth _ _ _ E2). auto.
        -- unfold width. rewrite (bas_nth _ _ _ E1). auto.
        -- unfold width. rewrite (bas_nth _ _ _ E2). auto.
        -- exists h'. split; [exact E|]. split; [auto|]. intros (((i, j), a), q) D. rewrite V by auto. f_equal. apply lsum_ext. intros s _.
           unfold port_gat, isample_grad, istate, imode. destruct (isite_of (fo_sites F k p) s) as [t|]; auto. rewrite (bas_nth _ _ _ E1), (bas_nth _ _ _ E2).
           assert (X : forall (G : (nat -> R) -> (nat -> R) -> R) u v Bu Bv, bas F u = Bu -> bas F v = Bv ->
             (if (i =? u) && (j =? v) then G (mode Bu (voff F u) a) (mode Bv (voff F v) q) else 0%R) = (if (i =? u) && (j =? v) then G (mode (bas F i) (voff F i) a) (mode (bas F j) (voff F j) q) else 0%R)).
           { intros G u v Bu Bv <- <-. destruct (Nat.eqb_spec i u) as [->|]; auto. destruct (Nat.eqb_spec j v) as [->|]; auto. }
           rewrite (X _ _ _ _ _ (bas_nth _ _ _ E1) (bas_nth _ _ _ E1)). rewrite (X _ _ _ _ _ (bas_nth _ _ _ E1) (bas_nth _ _ _ E2)).
           rewrite (X _ _ _ _ _ (bas_nth _ _ _ E2) (bas_nth _ _ _ E1)). rewrite (X _ _ _ _ _ (bas_nth _ _ _ E2) (bas_nth _ _ _ E2)). reflexivity.
      * exists h. split; [reflexivity|]. split; [auto|]. intros (((i, j), a), q) _. cbn [lsum fold_right]. ring.
    + auto.
    + exists h'. split; [exact E|]. split; [auto|]. intros (((i, j), a), q) D. rewrite V by auto. reflexivity.
  - auto.
  - exists g'. split; [exact Eo|]. split; [exact E|]. split; [destruct Gg' as (N' & D'); split; [auto|rewrite N'; exact D']|].
    intros i i' a b Hi Hi' Ha Hb. exact (V (i, i', a, b) (conj Hi (conj Hi' (conj Ha Hb)))).
Qed.
