(** The reduced time integration does what it is supposed to do. *)
From Coq Require Import Reals List Bool Lia Arith ZArith String Lra.
From Verif Require Import Outcome ListLemmas ProfilerProofs LaBase LinalgModel LinalgSpec BlockVec RomModel RomSpec RomProofs RomBasisProofs MbModel MbSpec MbVecProofs MbFlowProofs MbAsmProofs IntegModel NsProofs NsTensorModel NsTensorSpec NsFomProofs UnsteadyModel UnsteadySpec UnsteadyStepProofs UnsteadyRunProofs UromModel UromSpec.
Import ListNotations.
Local Open Scope list_scope.
Local Open Scope R_scope.

Lemma sub_array_ok l from n : (from + n <= List.length l)%nat -> sub_array l from n = Ok (map (fun k => nth (from + k) l 0%nat) (seq 0 n)).
Proof.
  intros H. unfold sub_array. assert (G : forall n a, (from + a + n <= List.length l)%nat -> omap (fun k => oread l (from + k)) (seq a n) = Ok (map (fun k => nth (from + k) l 0%nat) (seq a n))).
  { clear. induction n; intros a H; [reflexivity|]. cbn [seq omap map]. rewrite (oread_nth l (from + a) 0%nat) by lia. cbn [obind]. rewrite IHn by lia. reflexivity. }
  apply G. lia.
Qed.
Lemma offsets_ext a b n size : offsets a n size -> offsets b n size -> a = b.
Proof.
  intros A B. apply (nth_ext _ _ 0%nat 0%nat); [destruct A, B; congruence|]. intros i Hi. assert (i <= n)%nat by (destruct A as (L & _); lia).
  rewrite (offsets_nsum _ _ _ i A), (offsets_nsum _ _ _ i B) by auto. reflexivity.
Qed.

Section Setup.
  Variables (s : romst) (dim : nat -> nat) (c : ucfg) (o : uops).
  Hypothesis OK : rom_setup s dim c o.
  Local Notation h := (rs_h s).
  Local Notation ns := (rh_nsub h).
  Local Notation vs := (basis_size h).
  Local Notation NU := (nu ns vs).
  Local Notation NP := (np ns vs).
  Local Notation us := (fun m => vs m 0%nat).
  Local Notation ps := (fun m => vs m 1%nat).
  Local Notation off := (rs_off s).

  Lemma place_eq m v : place h m v = (v * ns + m)%nat.
  Proof. destruct OK as (_ & A & B & C & _). unfold place. rewrite A, C. reflexivity. Qed.
  Lemma blocks_eq : blocks h = (2 * ns)%nat.
  Proof. destruct OK as (_ & A & B & C & _). unfold blocks. rewrite A, B. lia. Qed.
  Lemma unknown_iff m v : unknown h m v <-> (m < ns)%nat /\ (v < 2)%nat.
  Proof. destruct OK as (_ & A & B & C & _). unfold unknown. rewrite A, B. reflexivity. Qed.
  Lemma rom_tiles : tiles h (place h) vs off.
  Proof. destruct OK as ((_ & _ & _ & _ & T & _) & _). exact T. Qed.
  Lemma off_u m : (m <= ns)%nat -> nth m off 0%nat = nsum m us.
  Proof.
    destruct rom_tiles as (L & Z & T). induction m; intros H; [rewrite Z; reflexivity|]. rewrite nsum_S, <- IHm by lia.
    specialize (T m 0%nat ltac:(apply unknown_iff; lia)). rewrite place_eq in T. exact T.
  Qed.
  Lemma off_p m : (m <= ns)%nat -> nth (ns + m) off 0%nat = (NU + nsum m ps)%nat.
  Proof.
    destruct rom_tiles as (L & Z & T). induction m; intros H; [rewrite !Nat.add_0_r; apply (off_u ns); lia|]. rewrite nsum_S, Nat.add_assoc, <- IHm by lia.
    specialize (T m 1%nat ltac:(apply unknown_iff; lia)). rewrite place_eq in T. rewrite Nat.mul_1_l in T. rewrite <- Nat.add_succ_r in T. exact T.
  Qed.
  Lemma off_length : List.length off = S (2 * ns).
  Proof. destruct rom_tiles as (L & _). rewrite L, blocks_eq. reflexivity. Qed.
  Lemma off_total : nth (2 * ns) off 0%nat = (NU + NP)%nat.
  Proof. replace (2 * ns)%nat with (ns + ns)%nat by lia. apply off_p. lia. Qed.

  Lemma at_u a m k : bv_off a = off -> (m < ns)%nat -> at_ s a m 0 k = vnth (bv_dat a) (vpos vs m k).
  Proof. intros E H. unfold at_, entry. rewrite E, place_eq. cbn [Nat.mul Nat.add]. rewrite off_u by lia. reflexivity. Qed.
  Lemma at_p a m k : bv_off a = off -> (m < ns)%nat -> at_ s a m 1 k = vnth (bv_dat a) (ppos ns vs m k).
  Proof. intros E H. unfold at_, entry. rewrite E, place_eq, Nat.mul_1_l, off_p by lia. unfold ppos. f_equal. lia. Qed.
  Lemma reduced_of (d : vec) : List.length d = (NU + NP)%nat -> reduced s (BVec off d).
  Proof. intros L. split; [reflexivity|]. split; [exact rom_tiles|]. cbn [bv_off bv_dat]. rewrite L, blocks_eq, off_total. reflexivity. Qed.
  Lemma reduced_length a : reduced s a -> List.length (bv_dat a) = (NU + NP)%nat.
  Proof. intros (E & _ & L). rewrite L, E, blocks_eq, off_total. reflexivity. Qed.
  Lemma reduced_eta a : reduced s a -> a = BVec off (bv_dat a).
  Proof. intros (E & _). destruct a. cbn in *. rewrite E. reflexivity. Qed.

  (** A configuration whose layouts are the reduced ones, for the lemmas about the full-order step. *)
  Lemma fake : exists c', setup_ok c' o vs /\ uc_ns c' = ns.
  Proof.
    destruct OK as (_ & _ & _ & _ & _ & _ & A & B & C). destruct (flow_offsets_ok ns 0 vs (fun _ _ => 0%nat) (fun _ => 0%nat) eq_refl) as (fo & E & _).
    exists (UCfg ns fo 0 1 (SolCfg false "" "" (fun _ => true)) 0 false 0 false 0 0 true). split; [|reflexivity].
    split; [exists 0%nat, (fun _ _ => 0%nat), (fun _ => 0%nat); split; [reflexivity|exact E]|]. cbn [uc_dt uc_ns]. split; [lra|]. auto.
  Qed.
  Lemma velocity_vpart a m : bv_off a = off -> (m < ns)%nat -> velocity s a m = vpart vs (bv_dat a) m.
  Proof. intros E H. unfold velocity, vpart. apply map_ext. intros k. apply at_u; auto. Qed.
  Lemma velocities_firstn a : reduced s a -> velocities s a = firstn NU (bv_dat a).
  Proof.
    intros Ra. pose proof (reduced_length a Ra) as L. destruct Ra as (E & _). unfold velocities.
    assert (G : forall n, (n <= ns)%nat -> flat_map (velocity s a) (seq 0 n) = firstn (nsum n us) (bv_dat a)).
    { induction n; intros H; [reflexivity|]. rewrite seq_S, flat_map_app, IHn by lia. cbn [flat_map Nat.add]. rewrite app_nil_r, velocity_vpart by (auto; lia). rewrite nsum_S.
      assert (Q : (nsum n us + vs n 0%nat <= NU)%nat) by (pose proof (nsum_le (S n) ns us H) as Q; rewrite nsum_S in Q; exact Q).
      apply vec_ext; [rewrite app_length, !firstn_length, vpart_length; lia|]. intros i Hi. rewrite app_length, firstn_length, vpart_length in Hi. unfold vnth.
      rewrite MbFlowProofs.nth_firstn by lia. destruct (Nat.lt_ge_cases i (nsum n us)) as [Hl|Hl].
      - rewrite app_nth1 by (rewrite firstn_length; lia). apply MbFlowProofs.nth_firstn. lia.
      - rewrite app_nth2 by (rewrite firstn_length; lia). rewrite firstn_length, Nat.min_l by lia. fold (vnth (vpart vs (bv_dat a) n) (i - nsum n us)).
        rewrite vpart_nth by lia. unfold vpos, vnth. f_equal. lia. }
    apply G. lia.
  Qed.

  Lemma rom_offsets_ok : exists uo po, rom_offsets ns off = Ok (uo, po, [0; NU; NU + NP]%nat) /\ offsets uo ns us /\ offsets po ns ps.
  Proof.
    pose proof off_length as L. unfold rom_offsets. rewrite !sub_array_ok by lia. cbn [obind].
    set (uo := map (fun k => nth (0 + k) off 0%nat) (seq 0 (ns + 1))). set (p0 := map (fun k => nth (ns + k) off 0%nat) (seq 0 (ns + 1))).
    assert (Up : forall k, (k <= ns)%nat -> nth k p0 0%nat = (NU + nsum k ps)%nat).
    { intros k Hk. unfold p0. rewrite (nth_map_seq (fun k => nth (ns + k) off 0%nat)) by lia. apply off_p. exact Hk. }
    assert (Lp : List.length p0 = S ns) by (unfold p0; rewrite map_length, seq_length; lia).
    destruct (ofor_inv (ns + 1) (fun po k => let* x := oread po (ns - k) in let* x0 := oread po 0 in owrite po (ns - k) (x - x0)%nat)
      (fun n po => List.length po = S ns /\ forall i, (i <= ns)%nat -> nth i po 0%nat = if (i + n <=? ns)%nat then (NU + nsum i ps)%nat else nsum i ps) p0) as (po & E & Lo & V).
    - split; [exact Lp|]. intros i Hi. rewrite Nat.add_0_r, (proj2 (Nat.leb_le _ _) Hi). apply Up. exact Hi.
    - intros n po Hn (Lo & V). rewrite (oread_nth po (ns - n) 0%nat) by lia. cbn [obind]. rewrite (oread_nth po 0 0%nat) by lia. cbn [obind].
      rewrite owrite_some by lia. eexists. split; [reflexivity|]. split; [rewrite upd_length; exact Lo|]. intros i Hi. rewrite (V (ns - n)%nat), (V 0%nat) by lia.
      rewrite !(proj2 (Nat.leb_le _ _)) by lia. change (nsum 0 ps) with 0%nat. destruct (Nat.eq_dec (ns - n) i) as [<-|N].
      + rewrite nth_upd_eq by lia. destruct (Nat.leb_spec (ns - n + S n) ns); [lia|]. lia.
      + rewrite nth_upd_ne by exact N. rewrite V by exact Hi. destruct (Nat.leb_spec (i + n) ns), (Nat.leb_spec (i + S n) ns); try reflexivity; lia.
    - rw_bind E. rewrite (oread_nth off ns 0%nat), (oread_nth off (2 * ns) 0%nat) by lia. cbn [obind]. rewrite off_total, off_u by lia. exists uo, po. split; [reflexivity|]. split.
      + split; [unfold uo; rewrite map_length, seq_length; lia|]. unfold uo. split; [rewrite (nth_map_seq (fun k => nth (0 + k) off 0%nat)) by lia; apply (off_u 0); lia|].
        intros i Hi. rewrite !(nth_map_seq (fun k => nth (0 + k) off 0%nat)) by lia. rewrite !Nat.add_0_l. rewrite !off_u by lia. rewrite nsum_S. reflexivity.
      + split; [exact Lo|]. split; [|intros i Hi]; rewrite !V by lia.
        * destruct (Nat.leb_spec (0 + (ns + 1)) ns); [lia|reflexivity].
        * destruct (Nat.leb_spec (S i + (ns + 1)) ns); [lia|]. destruct (Nat.leb_spec (i + (ns + 1)) ns); [lia|]. exact (nsum_S i ps).
  Qed.

  Lemma fom_p : offsets (fo_p (uc_fo c)) ns (fun m => full_size h dim m 1).
  Proof.
    destruct OK as (_ & _ & _ & _ & _ & (udim & ndofs & vdim & Hu & E) & _). destruct (flow_offsets_ok ns udim (full_size h dim) ndofs vdim Hu) as (fo' & E' & _ & _ & _ & _ & Ou & Op & _).
    rewrite E in E'. injection E' as <-. exact Op.
  Qed.
  Lemma basis_h m v : unknown h m v -> dm_h (basis_of s m v) = full_size h dim m v /\ dm_w (basis_of s m v) = vs m v.
  Proof.
    intros U. destruct OK as (B & _). destruct B as (_ & W & Lr & Hb & _). pose proof (ref_place_in _ _ _ W U) as I.
    specialize (Hb _ I). cbv zeta in Hb. destruct Hb as (_ & A & B). unfold basis_of. rewrite A, B. split; reflexivity.
  Qed.
  Lemma project_dom_vec_ok m v x n : unknown h m v -> List.length x = full_size h dim m v -> n = vs m v ->
    project_dom_vec s (place h m v) x n = Ok (dm_multt (basis_of s m v) x).
  Proof.
    intros U Lx ->. destruct OK as (B & _). pose proof B as (Ld & _). unfold project_dom_vec. rewrite Ld. cbn [oassert]. rewrite num_blocks_blocks.
    rewrite (proj2 (Nat.ltb_lt _ _) (place_lt _ _ _ U)). cbn [oassert]. rewrite (get_dom_ok s dim m v B U). cbn [obind]. destruct (basis_h m v U) as (-> & ->).
    rewrite Lx, !Nat.eqb_refl. reflexivity.
  Qed.

  Lemma reduced_ones_ok po : offsets po ns ps -> exists ones, reduced_ones s ns (fo_p (uc_fo c)) po (uc_pdbc c) = Ok ones /\ List.length ones = NP /\
    (uc_pdbc c = false -> forall m k, (m < ns)%nat -> (k < vs m 1)%nat -> vnth ones (nsum m ps + k) = one_ s dim m k).
  Proof.
    intros Op. unfold reduced_ones. rewrite (oread_nth po ns 0%nat) by (destruct Op as (L & _); lia). cbn [obind]. rewrite (offsets_nsum _ _ _ ns Op) by lia. fold NP. cbn [bv_dat].
    destruct (uc_pdbc c); [exists (repeat 0 NP); split; [reflexivity|]; split; [apply repeat_length|discriminate]|].
    pose proof fom_p as Fp. rewrite (oread_nth _ ns 0%nat) by (destruct Fp as (L & _); lia). cbn [obind]. rewrite (offsets_nsum _ _ _ ns Fp) by lia.
    assert (Wf : bv_wf (BVec (fo_p (uc_fo c)) (repeat 1 (nsum ns (fun m => full_size h dim m 1)))) ns (fun m => full_size h dim m 1)) by (split; [exact Fp|apply repeat_length]).
    assert (W0 : bv_wf (BVec po (repeat 0 NP)) ns ps) by (split; [exact Op|apply repeat_length]).
    set (X := fun m => blk (BVec (fo_p (uc_fo c)) (repeat 1 (nsum ns (fun m => full_size h dim m 1)))) m).
    assert (U1 : forall m, (m < ns)%nat -> unknown h m 1) by (intros; apply unknown_iff; lia).
    match goal with |- context[ofor ns ?f ?b0] => destruct (bv_fill ns ps ns (fun m => m) (fun m => dm_multt (basis_of s m 1) (X m)) f b0 W0) as (b & E & Wb & Ob & Vb & _) end.
    - intros m Hm. split; [exact Hm|]. rewrite dm_multt_length. apply basis_h. auto.
    - auto.
    - intros b m Hm Wb Ob. change 1%Z with (Z.of_nat 1). rewrite (block_index_place h m 1) by auto. cbn [obind]. rewrite (bv_get_ok _ _ _ Wf) by auto. cbn [obind]. fold (X m).
      rewrite (bv_get_ok _ _ _ Wb) by auto. cbn [obind]. rewrite (blk_length _ _ _ Wb) by auto.
      rewrite project_dom_vec_ok by (auto; unfold X; rewrite (blk_length _ _ _ Wf) by auto; reflexivity). reflexivity.
    - rw_bind E. exists (bv_dat b). split; [reflexivity|]. split; [exact (proj2 Wb)|]. intros _ m k Hm Hk. cbn [bv_off] in Ob.
      transitivity (vnth (blk b m) k); [rewrite (blk_nth _ _ _ Wb) by auto; rewrite Ob, (offsets_nsum _ _ _ m Op) by lia; reflexivity|]. rewrite Vb by auto.
      destruct (basis_h m 1 (U1 m Hm)) as (H1 & H2). rewrite dm_multt_nth by (rewrite H2; exact Hk). unfold mat_t_vec, one_. rewrite H1. apply rsum_ext. intros i Hi.
      unfold X. rewrite (blk_nth _ _ _ Wf) by auto. cbn [bv_dat bv_off]. rewrite (offsets_nsum _ _ _ m Fp) by lia. unfold vnth. rewrite nth_repeat_lt; [ring|].
      exact (nsum_in ns (fun m => full_size h dim m 1) m i Hm Hi).
  Qed.

  Lemma rom_step_ok uo ones base a t : offsets uo ns us -> List.length ones = NP ->
    (uc_pdbc c = false -> forall m k, (m < ns)%nat -> (k < vs m 1)%nat -> vnth ones (nsum m ps + k) = one_ s dim m k) ->
    reduced s base -> reduced s a ->
    exists a', rom_step ns uo [0; NU; NU + NP]%nat o (uc_dt c) (uc_pdbc c) ones (np ns (full_size h dim)) (bv_dat base) (bv_dat a, t) = Ok (bv_dat a', t + uc_dt c) /\
      rom_advances s dim c o base t a a'.
  Proof.
    intros Ou Lo Vo Rb Ra. pose proof (reduced_length a Ra) as Ly. pose proof (reduced_length base Rb) as Lb. unfold rom_step.
    destruct fake as (c' & OK' & Ec). pose proof (layouts c' o vs OK') as (Ou' & _). rewrite Ec in Ou'.
    assert (Eu : uo = fo_u (uc_fo c')) by (eapply offsets_ext; eauto). clear Ou'.
    assert (W2 : forall d : vec, List.length d = (NU + NP)%nat -> bv_wf (BVec [0; NU; NU + NP]%nat d) 2 (fun i => if (i =? 0)%nat then NU else NP)).
    { intros d Ld. pose proof (vb_wf c' vs d) as Q. rewrite Ec in Q. exact (Q Ld). }
    pose proof (W2 _ Ly) as Wy. rewrite (bv_get_ok _ _ _ Wy) by lia. cbn [obind].
    set (y := bv_dat a) in *.
    set (u := blk (BVec [0; NU; NU + NP]%nat y) 0). assert (Lu : List.length u = NU) by (unfold u; rewrite (blk_length _ _ _ Wy) by lia; reflexivity).
    assert (Vu : forall i, (i < NU)%nat -> vnth u i = vnth y i) by (intros i Hi; unfold u; rewrite (blk_nth _ _ _ Wy) by (auto; lia); reflexivity).
    assert (Uf : u = firstn NU y).
    { apply vec_ext; [rewrite Lu, firstn_length; lia|]. intros i Hi. rewrite Vu by (rewrite Lu in Hi; auto). unfold vnth. rewrite MbFlowProofs.nth_firstn by (rewrite Lu in Hi; auto). reflexivity. }
    pose proof (convect_ok c' o vs OK' t u y) as CO. rewrite Ec, <- Eu in CO. destruct (CO Lu Vu) as (C & EC & LC & VC). clear CO. rw_bind EC.
    pose proof (W2 _ Lb) as Wr. rewrite (bv_get_ok _ _ _ Wr) by lia. cbn [obind]. set (r := bv_dat base) in *.
    set (r0 := blk (BVec [0; NU; NU + NP]%nat r) 0). assert (L0 : List.length r0 = NU) by (unfold r0; rewrite (blk_length _ _ _ Wr) by lia; reflexivity).
    assert (Vr0 : forall i, (i < NU)%nat -> vnth r0 i = vnth r i) by (intros i Hi; unfold r0; rewrite (blk_nth _ _ _ Wr) by (auto; lia); reflexivity).
    rewrite L0, LC, Nat.eqb_refl. cbn [oguard].
    set (z := map (fun i => vnth r0 i + - ab1 * vnth C i) (seq 0 NU) : vec). assert (Lz : List.length z = NU) by (unfold z; rewrite map_length, seq_length; reflexivity).
    pose proof (mass_addmult_ok c' o vs OK' (- bd1 / uc_dt c) u y z) as MO. rewrite Ec, <- Eu in MO. destruct (MO Lu Lz Vu) as (q & Eq & Lq & Vq). clear MO. rw_bind Eq.
    destruct (bv_put_ok _ _ _ Wr 0 q ltac:(lia) Lq) as (r1 & E1 & W1 & O1 & B1 & Oth). rw_bind E1. cbn [bv_off] in O1.
    assert (L1 : List.length (bv_dat r1) = (NU + NP)%nat) by (destruct W1 as (_ & ->); reflexivity).
    assert (Va : forall i, (i < NU)%nat -> vnth (bv_dat r1) i = vnth q i).
    { intros i Hi. rewrite <- B1. rewrite (blk_nth _ _ _ W1) by (auto; lia). rewrite O1. reflexivity. }
    assert (Vc : forall i, (i < NP)%nat -> vnth (bv_dat r1) (NU + i) = vnth r (NU + i)).
    { intros i Hi. pose proof (blk_nth _ _ _ W1 1 i ltac:(lia) Hi) as Q1. rewrite O1 in Q1. cbn [nth] in Q1. rewrite <- Q1. rewrite Oth by lia.
      rewrite (blk_nth _ _ _ Wr) by (auto; lia). reflexivity. }
    assert (Vlt : forall m k, (m < ns)%nat -> (k < vs m 0)%nat -> (vpos vs m k < NU)%nat) by (intros m k Hm Hk; exact (nsum_in ns us m k Hm Hk)).
    assert (Plt : forall m k, (m < ns)%nat -> (k < vs m 1)%nat -> (nsum m ps + k < NP)%nat) by (intros m k Hm Hk; exact (nsum_in ns ps m k Hm Hk)).
    assert (SR : rom_rhs s c o base t a (BVec off (bv_dat r1))).
    { split; [apply reduced_of; exact L1|]. split.
      - intros m k Hm Hk. pose proof (Vlt m k Hm Hk) as Hp. rewrite (at_u (BVec off (bv_dat r1))) by auto. cbn [bv_dat]. rewrite Va, Vq by auto. unfold z.
        rewrite (vnth_map_seq (fun i => vnth r0 i + - ab1 * vnth C i)) by auto. rewrite Vr0, VC by auto. rewrite (at_u base) by (auto; apply Rb). unfold convection.
        rewrite (velocities_firstn a Ra), (velocity_vpart a) by (auto; apply Ra). fold y. fold r. rewrite Uf.
        replace (rsum (vs m 0%nat) (fun j => uo_mass o m k j * at_ s a m 0 j)) with (rsum (vs m 0%nat) (fun j => uo_mass o m k j * vnth y (vpos vs m j))).
        + unfold ab1, bd1, Rdiv. ring.
        + apply rsum_ext. intros j Hj. rewrite (at_u a) by (auto; apply Ra). reflexivity.
      - intros m k Hm Hk. rewrite (at_p (BVec off (bv_dat r1))), (at_p base) by (auto; apply Rb). cbn [bv_dat]. unfold ppos. apply Vc. auto. }
    cbv zeta. assert (Ls : List.length (uo_solve o (bv_dat r1)) = (NU + NP)%nat) by (destruct OK as (_ & _ & _ & _ & _ & _ & _ & _ & Hs); apply Hs; exact L1).
    rewrite Ls, L1, Nat.eqb_refl. cbn [oguard]. set (x := uo_solve o (bv_dat r1)) in *.
    assert (Rx : reduced s (BVec off x)) by (apply reduced_of; exact Ls).
    destruct (uc_pdbc c) eqn:Ep.
    - exists (BVec off x). split; [reflexivity|]. split; [exact Rx|]. exists (BVec off (bv_dat r1)), (BVec off x). split; [exact SR|]. split; [exact Rx|]. split; [reflexivity|]. split; [reflexivity|].
      intros m k Hm Hk. unfold shift. rewrite Ep. ring.
    - pose proof (W2 _ Ls) as Wx. rewrite (bv_get_ok _ _ _ Wx) by lia. cbn [obind]. set (p := blk (BVec [0; NU; NU + NP]%nat x) 1).
      assert (Lp : List.length p = NP) by (unfold p; rewrite (blk_length _ _ _ Wx) by lia; reflexivity). rewrite Lo, Lp, Nat.eqb_refl. cbn [oguard].
      assert (Vp : forall i, (i < NP)%nat -> vnth p i = vnth x (NU + i)) by (intros i Hi; unfold p; rewrite (blk_nth _ _ _ Wx) by (auto; lia); reflexivity).
      cbv zeta. set (cst := dot NP ones p / INR (np ns (full_size h dim))).
      set (p' := map (fun i => vnth p i + - cst * vnth ones i) (seq 0 NP)). assert (Lp' : List.length p' = NP) by (unfold p'; rewrite map_length, seq_length; reflexivity).
      destruct (bv_put_ok _ _ _ Wx 1 p' ltac:(lia) Lp') as (b & Eb & Wb & Ob & Bb & Bo). rw_bind Eb. cbn [bv_off] in Ob.
      assert (Lb' : List.length (bv_dat b) = (NU + NP)%nat) by (destruct Wb as (_ & ->); reflexivity).
      assert (D0 : forall i, (i < NU)%nat -> vnth (bv_dat b) i = vnth x i).
      { intros i Hi. pose proof (blk_nth _ _ _ Wb 0 i ltac:(lia) Hi) as Q1. rewrite Ob in Q1. cbn [nth] in Q1. change (0 + i)%nat with i in Q1. rewrite <- Q1. rewrite Bo by lia.
        rewrite (blk_nth _ _ _ Wx) by (auto; lia). reflexivity. }
      assert (D1 : forall i, (i < NP)%nat -> vnth (bv_dat b) (NU + i) = vnth x (NU + i) - cst * vnth ones i).
      { intros i Hi. pose proof (blk_nth _ _ _ Wb 1 i ltac:(lia) Hi) as Q1. rewrite Ob in Q1. cbn [nth] in Q1. rewrite <- Q1. rewrite Bb. unfold p'.
        rewrite (vnth_map_seq (fun i => vnth p i + - cst * vnth ones i)) by auto. rewrite Vp by auto. ring. }
      assert (Ecst : cst = shift s dim c (BVec off x)).
      { unfold shift. rewrite Ep. unfold cst. f_equal. unfold dot. unfold np at 1. rewrite rsum_blocks. apply rsum_ext. intros m Hm. apply rsum_ext. intros k Hk.
        rewrite Vo, Vp by auto. rewrite (at_p (BVec off x)) by auto. reflexivity. }
      exists (BVec off (bv_dat b)). split; [reflexivity|]. split; [apply reduced_of; exact Lb'|]. exists (BVec off (bv_dat r1)), (BVec off x).
      split; [exact SR|]. split; [exact Rx|]. split; [reflexivity|]. split.
      + intros m k Hm Hk. rewrite !at_u by auto. cbn [bv_dat]. apply D0. auto.
      + intros m k Hm Hk. rewrite !at_p by auto. cbn [bv_dat]. unfold ppos. rewrite D1 by auto. rewrite Vo by auto. rewrite Ecst. reflexivity.
  Qed.

  Lemma urom_ok base restart ic junk st first t0 u0 f0 : reduced s base -> writable c ->
    fits h (fom_place h) (full_size h dim) (us_U st) -> starts c restart ic st first t0 u0 f0 -> List.length junk = (NU + NP)%nat ->
    let n := Z.to_nat (uc_nt c - first) in
    exists st' A, urom_solve s c o true base restart ic junk st = Ok st' /\ (forall i, (i <= n)%nat -> reduced s (A i)) /\ projected s dim u0 (A O) /\
      (forall i, (i < n)%nat -> rom_advances s dim c o base (t0 + INR i * uc_dt c) (A i) (A (S i))) /\
      fits h (fom_place h) (full_size h dim) (us_U st') /\ lifted s dim (A n) (us_U st') /\ us_time st' = t0 + INR n * uc_dt c /\
      (forall x, us_files st' x = f0 x) /\ us_step st' = us_step st /\ us_rhs st' = us_rhs st /\ us_snaps st' = us_snaps st /\ us_vis st' = us_vis st.
  Proof.
    intros Rb Hw Fu St Lj n. destruct OK as (B & Sep & Nv & Ord & Ens & _). unfold urom_solve, by_variable. rewrite Ord. cbn [oassert].
    destruct (UnsteadyRunProofs.setup_initial_ok c restart ic st first t0 u0 f0 Hw St) as (f & Ei & Hf). rw_bind Ei. cbn [us_U us_time us_step us_rhs us_files us_snaps us_vis]. rewrite Ens.
    destruct rom_offsets_ok as (uo & po & Eo & Ou & Op). rw_bind Eo.
    assert (Fu0 : fits h (fom_place h) (full_size h dim) u0).
    { destruct Fu as (T & L). unfold starts in St. destruct restart; [destruct St as (_ & O & L' & _)|destruct St as (_ & _ & O & _ & L' & _)]; split; rewrite ?O, ?L'; auto. }
    destruct (project_global_ok s dim B u0 junk Fu0) as (a & Ea & Fa & Va); [rewrite blocks_eq, off_total; exact Lj|]. pose proof Ea as Ea'. rw_bind Ea.
    assert (Oa : bv_off a = off) by (destruct (project_global_blocks s dim B u0 junk Fu0) as (a' & E' & _ & O' & _); [rewrite blocks_eq, off_total; exact Lj|]; rewrite Ea' in E'; injection E' as <-; exact O').
    assert (Ra : reduced s a) by (split; [exact Oa|exact Fa]). cbn [oguard].
    destruct (reduced_ones_ok po Op) as (ones & E1 & L1 & V1). rw_bind E1.
    pose proof fom_p as Fp. rewrite (oread_nth _ ns 0%nat) by (destruct Fp as (L & _); lia). cbn [obind]. rewrite (offsets_nsum _ _ _ ns Fp) by lia.
    change (nsum ns (fun m => full_size h dim m 1)) with (np ns (full_size h dim)).
    match goal with |- context[ofor ?k ?g ?x0] =>
      destruct (ofor_inv k g (fun i x => exists A, A O = a /\ x = (bv_dat (A i), t0 + INR i * uc_dt c) /\ (forall j, (j <= i)%nat -> reduced s (A j)) /\
        forall j, (j < i)%nat -> rom_advances s dim c o base (t0 + INR j * uc_dt c) (A j) (A (S j))) x0) as (x & Ex & A & A0 & -> & AR & AS) end.
    - exists (fun _ => a). split; [reflexivity|]. split; [f_equal; cbn; ring|]. split; [intros; exact Ra|]. intros; lia.
    - intros i x Hi (A & A0 & -> & AR & AS).
      destruct (rom_step_ok uo ones base (A i) (t0 + INR i * uc_dt c) Ou L1 V1 Rb (AR i (le_n _))) as (a' & Es & Ad). exists (bv_dat a', t0 + INR i * uc_dt c + uc_dt c). split; [exact Es|].
      exists (fun j => if (j <=? i)%nat then A j else a'). split; [exact A0|]. split; [|split].
      + destruct (Nat.leb_spec (S i) i); [lia|]. f_equal. rewrite S_INR. ring.
      + intros j Hj. destruct (Nat.leb_spec j i); [apply AR; auto|]. exact (proj1 Ad).
      + intros j Hj. rewrite (proj2 (Nat.leb_le j i)) by lia. destruct (Nat.leb_spec (S j) i); [apply AS; lia|]. assert (j = i) by lia. subst j. exact Ad.
    - rw_bind Ex. fold n in A0, AR, AS |- *. pose proof (AR n (le_n _)) as Rn. rewrite Oa. rewrite <- (reduced_eta _ Rn).
      destruct (lift_global_ok s dim B (A n) u0 (proj2 Rn) Fu0) as (u' & El & Fl & Vl). rw_bind El. eexists. exists A. split; [reflexivity|]. cbn [us_U us_time us_step us_rhs us_files us_snaps us_vis].
      split; [exact AR|]. split; [rewrite A0; exact Va|]. split; [exact AS|]. split; [exact Fl|]. split; [exact Vl|]. split; [reflexivity|]. split; [exact Hf|]. auto.
  Qed.

  (** The equations of a step. *)
  Lemma over_split f : over h f = rsum ns (fun m => rsum (vs m 0%nat) (f m 0%nat)) + rsum ns (fun m => rsum (vs m 1%nat) (f m 1%nat)).
  Proof. unfold over. rewrite <- rsum_plus. apply rsum_ext. intros m Hm. cbn [rsum]. ring. Qed.
End Setup.

(** ** The reduced matrix *)
Section Matrix.
  Variables (a : asm) (ess : nat -> nat -> bool) (mass : list fmat) (dt : R).
  Local Notation h := (as_rom a).
  Local Notation ns := (rh_nsub h).
  Local Notation vs := (basis_size h).
  Hypothesis OK : asm_ok a.
  Hypothesis D : forall m b, (m < rh_nsub (as_rom a))%nat -> (b < List.length (nth m (as_c2g a) []))%nat -> ess m b = true <-> essential a m b.
  Hypothesis Sep : rh_sep h = true.
  Hypothesis Nv : rh_nvar h = 2%nat.
  Hypothesis Ord : rh_ord h = ByVariable.
  Hypothesis MO : mass_ok h mass.

  Lemma plc m v : place h m v = (v * ns + m)%nat.
  Proof. unfold place. rewrite Sep, Ord. reflexivity. Qed.
  Lemma unk m v : unknown h m v <-> (m < ns)%nat /\ (v < 2)%nat.
  Proof. unfold unknown. rewrite Sep, Nv. reflexivity. Qed.
  Lemma blks : blocks h = (2 * ns)%nat.
  Proof. unfold blocks. rewrite Sep, Nv. lia. Qed.
  Definition size_at (i : nat) : nat := vs (i mod ns)%nat (i / ns)%nat.
  Lemma size_at_plc m v : (m < ns)%nat -> size_at (place h m v) = vs m v.
  Proof. intros H. rewrite plc. unfold size_at. rewrite Nat.add_comm, Nat.mod_add, Nat.div_add by lia. rewrite Nat.mod_small, Nat.div_small by lia. reflexivity. Qed.

  Lemma single_add off nb (B : blockmat) i M : (List.length off = S nb /\ nth 0 off 0%nat = 0%nat /\ forall i, (i < nb)%nat -> nth (S i) off 0%nat = (nth i off 0 + size_at i)%nat) ->
    (i < nb)%nat -> fm_h M = size_at i -> fm_w M = size_at i -> sized nb size_at B ->
    exists B', add_to_block_matrix off [i] [i] (single M) B = Ok B' /\ sized nb size_at B' /\
      forall I J p q, val (B' I J) p q = val (B I J) p q + ind ((i =? I) && (i =? J))%nat (fm_val M p q).
  Proof.
    intros Ho Hi Hh Hw Sz. destruct (add_ok off nb size_at [i] [i] (single M) Ho eq_refl eq_refl) with (B := B) as (B' & E & S' & V); auto.
    - intros [|k] Hk; cbn in *; [exact Hi|lia].
    - intros [|k] Hk; cbn in *; [exact Hi|lia].
    - intros [|x] [|y] X Hx Hy; cbn in Hx, Hy; try lia. cbn. intros Q. injection Q as <-. auto.
    - exists B'. split; [exact E|]. split; [exact S'|]. intros I J p q. rewrite V. cbn [List.length rsum]. unfold term. cbn [nth single mb_get val Nat.eqb andb]. ring.
  Qed.

  Lemma assemble_unsteady_ok : exists B Mb, assemble_unsteady a mass dt = Ok (B, Mb) /\
    (forall m v m' v' p q, unknown h m v -> unknown h m' v' ->
       val (B (place h m v) (place h m' v')) p q = rom_entry a ess m v m' v' p q + ind ((m =? m') && (v =? 0) && (v' =? 0))%nat (/ dt * mass_of h mass m p q)) /\
    (forall m m' p q, (m < ns)%nat -> (m' < ns)%nat -> val (Mb m m') p q = ind (m =? m')%nat (mass_of h mass m p q)).
  Proof.
    pose proof OK as OK0. destruct OK as (W & T & _). destruct (assemble_ok a ess OK0 D) as (B & E & HB). unfold assemble_unsteady. rw_bind E.
    unfold by_variable. rewrite Ord. cbn [oassert].
    assert (Lo : List.length (as_off a) = S (2 * ns)) by (destruct T as (L & _); rewrite L, blks; reflexivity). rewrite sub_array_ok by lia. cbn [obind].
    assert (P0 : (0 < ns)%nat) by (destruct W as (P & _); exact P).
    assert (Dec : forall i, (i < 2 * ns)%nat -> exists m v, (m < ns)%nat /\ (v < 2)%nat /\ i = place h m v).
    { intros i Hi. exists (i mod ns)%nat, (i / ns)%nat. split; [apply Nat.mod_upper_bound; lia|]. split; [apply Nat.div_lt_upper_bound; lia|]. rewrite plc. rewrite (Nat.div_mod i ns) at 1 by lia. lia. }
    assert (Of : List.length (as_off a) = S (2 * ns) /\ nth 0 (as_off a) 0%nat = 0%nat /\ forall i, (i < 2 * ns)%nat -> nth (S i) (as_off a) 0%nat = (nth i (as_off a) 0 + size_at i)%nat).
    { split; [exact Lo|]. split; [apply T|]. intros i Hi. destruct (Dec i Hi) as (m & v & Hm & Hv & ->). rewrite size_at_plc by auto. apply T. apply unk. auto. }
    set (uo := map (fun k => nth (0 + k) (as_off a) 0%nat) (seq 0 (ns + 1))).
    assert (Ou : List.length uo = S ns /\ nth 0 uo 0%nat = 0%nat /\ forall i, (i < ns)%nat -> nth (S i) uo 0%nat = (nth i uo 0 + size_at i)%nat).
    { unfold uo. split; [rewrite map_length, seq_length; lia|]. split; [rewrite (nth_map_seq (fun k => nth (0 + k) (as_off a) 0%nat)) by lia; apply Of|].
      intros i Hi. rewrite !(nth_map_seq (fun k => nth (0 + k) (as_off a) 0%nat)) by lia. rewrite !Nat.add_0_l. apply Of. lia. }
    assert (SB : sized (2 * ns) size_at B).
    { intros I J X HI HJ EX. destruct (Dec I HI) as (m & v & Hm & Hv & ->), (Dec J HJ) as (m' & v' & Hm' & Hv' & ->). rewrite !size_at_plc by auto.
      destruct (HB m v m' v') as (Q & _); [apply unk; auto|apply unk; auto|]. apply Q. exact EX. }
    set (F := fun '(B, Mb) m => let* c := oread (rh_types h) m in let* i := block_index h m 0 in let* M := oread mass c in
      let* Mb := add_to_block_matrix uo [i] [i] (single M) Mb in let* B := add_to_block_matrix (as_off a) [i] [i] (single (scaled (bd0 / dt) M)) B in Ok (B, Mb)).
    destruct (ofor_inv ns F (fun n x => sized (2 * ns) size_at (fst x) /\ sized ns size_at (snd x) /\
       (forall I J p q, val (fst x I J) p q = val (B I J) p q + rsum n (fun m => ind ((m =? I) && (m =? J))%nat (/ dt * mass_of h mass m p q))) /\
       (forall I J p q, val (snd x I J) p q = rsum n (fun m => ind ((m =? I) && (m =? J))%nat (mass_of h mass m p q)))) (B, fun _ _ => None)) as ((B' & Mb) & EF & _ & _ & VB & VM).
    - split; [exact SB|]. split; [intros I J X _ _ Q; discriminate Q|]. split; intros; cbn [fst snd rsum val]; ring.
    - intros m (B1, M1) Hm (S1 & S2 & V1 & V2). cbn [fst snd] in S1, S2, V1, V2. unfold F. destruct W as (_ & _ & Lt & Ct & _). destruct MO as (Lm & Hmm).
      rewrite (oread_nth (rh_types h) m 0%nat) by lia. cbn [obind]. change 0%Z with (Z.of_nat 0). rewrite (block_index_place h m 0) by (apply unk; lia). cbn [obind].
      fold (comp_of h m). rewrite (oread_nth mass (comp_of h m) (FMat 0 0 (fun _ _ => 0))) by (rewrite Lm; apply Ct; exact Hm). cbn [obind].
      assert (Pm : place h m 0 = m) by (rewrite plc; lia). rewrite Pm. destruct (Hmm m Hm) as (M1h & M1w). set (M := nth (comp_of h m) mass (FMat 0 0 (fun _ _ => 0))) in *.
      assert (Sm : size_at m = vs m 0%nat) by (rewrite <- Pm at 1; apply size_at_plc; exact Hm).
      destruct (single_add uo ns M1 m M Ou Hm) as (M2 & E2 & S3 & V3); [congruence|congruence|exact S2|]. rw_bind E2.
      destruct (single_add (as_off a) (2 * ns) B1 m (scaled (bd0 / dt) M) Of ltac:(lia)) as (B2 & E3 & S4 & V4); [cbn; congruence|cbn; congruence|exact S1|]. rw_bind E3.
      exists (B2, M2). split; [reflexivity|]. cbn [fst snd]. split; [exact S4|]. split; [exact S3|]. split; intros I J p q; [rewrite V4, V1|rewrite V3, V2]; cbn [rsum].
      + unfold mass_of. fold M. cbn [scaled fm_val]. unfold bd0, Rdiv. rewrite Rmult_1_l. ring.
      + unfold mass_of. fold M. ring.
    - cbn [fst snd] in VB, VM.
      exists B', Mb. split; [exact EF|].
      assert (Pick : forall I J (g : nat -> R), rsum ns (fun m => ind ((m =? I) && (m =? J))%nat (g m)) = ind ((I =? J) && (I <? ns))%nat (g I)).
      { intros I J g. destruct (Nat.ltb_spec I ns) as [HI|HI].
        - rewrite (rsum_ext ns _ (fun m => ind (m =? I)%nat (ind (I =? J)%nat (g I)))).
          + rewrite (rsum_single ns I); [|exact HI|intros k Hk Nk; rewrite (proj2 (Nat.eqb_neq k I) Nk); reflexivity]. rewrite Nat.eqb_refl, andb_true_r. reflexivity.
          + intros m _. destruct (Nat.eqb_spec m I); [subst; reflexivity|reflexivity].
        - rewrite andb_false_r. cbn [ind]. apply rsum_0. intros m Hm. destruct (Nat.eqb_spec m I); [lia|reflexivity]. }
      split.
      + intros m v m' v' p q U U'. rewrite VB, Pick. destruct (HB m v m' v' U U') as (_ & ->). f_equal. apply unk in U as (Hm & Hv), U' as (Hm' & Hv').
        rewrite !plc. destruct v as [|[|v]]; [| |lia].
        * cbn [Nat.mul Nat.add]. rewrite (proj2 (Nat.ltb_lt m ns) Hm), andb_true_r. cbn [Nat.eqb]. rewrite andb_true_r.
          destruct v' as [|[|v']]; [| |lia]; cbn [Nat.mul Nat.add Nat.eqb]; rewrite ?andb_true_r, ?andb_false_r; [reflexivity|].
          destruct (Nat.eqb_spec m (ns + 0 + m')); [lia|reflexivity].
        * destruct (Nat.ltb_spec (1 * ns + m) ns); [lia|]. cbn [Nat.eqb]. rewrite !andb_false_r. reflexivity.
      + intros m m' p q Hm Hm'. rewrite VM, Pick. rewrite (proj2 (Nat.ltb_lt m ns) Hm), andb_true_r. reflexivity.
  Qed.
End Matrix.
