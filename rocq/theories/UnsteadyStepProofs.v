(** One time step. *)
From Coq Require Import Reals List Bool Lia Arith ZArith String Lra.
From Verif Require Import Outcome ListLemmas LaBase BlockVec MbModel MbSpec MbVecProofs MbFlowProofs IntegModel NsProofs NsTensorModel NsTensorSpec NsFomProofs UnsteadyModel UnsteadySpec.
Import ListNotations.
Local Open Scope list_scope.
Local Open Scope R_scope.

Lemma vnth_map_seq (f : nat -> R) n i : (i < n)%nat -> vnth (map f (seq 0 n)) i = f i.
Proof. intros H. unfold vnth. rewrite (nth_map_seq f) by auto. reflexivity. Qed.

Section Step.
  Variables (c : ucfg) (o : uops) (vs : nat -> nat -> nat).
  Hypothesis OK : setup_ok c o vs.
  Local Notation ns := (uc_ns c).
  Local Notation uo := (fo_u (uc_fo c)).
  Local Notation NU := (nu ns vs).
  Local Notation NP := (np ns vs).
  Local Notation us := (fun m => vs m 0%nat).
  Local Notation ps := (fun m => vs m 1%nat).

  Lemma layouts : offsets uo ns us /\ offsets (fo_p (uc_fo c)) ns ps /\ fo_vblock (uc_fo c) = [0; NU; NU + NP]%nat.
  Proof.
    destruct OK as ((udim & ndofs & vdim & Hu & E) & _). destruct (flow_offsets_ok ns udim vs ndofs vdim Hu) as (fo' & E' & _ & _ & _ & _ & Ou & Op & Vb & _).
    rewrite E in E'. injection E' as <-. split; [exact Ou|]. split; [exact Op|]. rewrite Vb. rewrite (offsets_nsum _ _ _ ns Ou), (offsets_nsum _ _ _ ns Op) by lia. reflexivity.
  Qed.
  Lemma var_total : nth (2 * ns) (fo_var (uc_fo c)) 0%nat = (NU + NP)%nat.
  Proof.
    destruct OK as ((udim & ndofs & vdim & Hu & E) & _). destruct (flow_offsets_ok ns udim vs ndofs vdim Hu) as (fo' & E' & _ & _ & _ & _ & Ou & Op & Vb & Tot & _).
    rewrite E in E'. injection E' as <-. rewrite <- Tot. rewrite (offsets_nsum _ _ _ ns Ou), (offsets_nsum _ _ _ ns Op) by lia. reflexivity.
  Qed.

  Lemma vpart_length y m : List.length (vpart vs y m) = vs m 0%nat.
  Proof. unfold vpart. rewrite map_length, seq_length. reflexivity. Qed.
  Lemma vpart_nth y m k : (k < vs m 0)%nat -> vnth (vpart vs y m) k = vnth y (vpos vs m k).
  Proof. intros H. unfold vpart. rewrite (vnth_map_seq (fun k => vnth y (vpos vs m k))) by auto. reflexivity. Qed.
  Lemma vpos_lt m k : (m < ns)%nat -> (k < vs m 0)%nat -> (vpos vs m k < NU)%nat.
  Proof. intros Hm Hk. unfold vpos, nu. apply nsum_in; auto. Qed.
  Lemma vpos_onto i : (i < NU)%nat -> exists m k, (m < ns)%nat /\ (k < vs m 0)%nat /\ i = vpos vs m k.
  Proof. intros H. exact (nsum_split ns us i H). Qed.
  Lemma ppos_lt m k : (m < ns)%nat -> (k < vs m 1)%nat -> (ppos ns vs m k < NU + NP)%nat.
  Proof. intros Hm Hk. unfold ppos, np. pose proof (nsum_in ns ps m k Hm Hk). lia. Qed.
  Lemma ppos_onto i : (NU <= i < NU + NP)%nat -> exists m k, (m < ns)%nat /\ (k < vs m 1)%nat /\ i = ppos ns vs m k.
  Proof. intros H. destruct (nsum_split ns ps (i - NU)) as (m & k & Hm & Hk & E); [unfold np in H; lia|]. exists m, k. split; auto. split; auto. unfold ppos. lia. Qed.

  Lemma u_wf (u : vec) : List.length u = NU -> bv_wf (BVec uo u) ns us.
  Proof. destruct layouts as (Ou & _). intros L. split; [exact Ou|exact L]. Qed.
  Lemma u_blk (u y : vec) m : List.length u = NU -> (m < ns)%nat -> (forall i, (i < NU)%nat -> vnth u i = vnth y i) -> blk (BVec uo u) m = vpart vs y m.
  Proof.
    intros L Hm V. pose proof (u_wf u L) as W. destruct layouts as (Ou & _). apply vec_ext; [rewrite (blk_length _ _ _ W), vpart_length by auto; reflexivity|].
    intros k Hk. rewrite (blk_length _ _ _ W) in Hk by auto. rewrite (blk_nth _ _ _ W) by auto. cbn [bv_dat bv_off]. rewrite (offsets_nsum _ _ _ m Ou) by lia.
    rewrite vpart_nth by auto. unfold vpos. apply V. apply vpos_lt; auto.
  Qed.

  Lemma convect_ok t (u y : vec) : List.length u = NU -> (forall i, (i < NU)%nat -> vnth u i = vnth y i) ->
    exists C, convect ns uo o t u = Ok C /\ List.length C = NU /\
      forall m k, (m < ns)%nat -> (k < vs m 0)%nat -> vnth C (vpos vs m k) = vnth (uo_hs o t m (vpart vs y m)) k + vnth (uo_itf o t u) (vpos vs m k).
  Proof.
    intros L V. destruct OK as (_ & _ & Hh & Hi & _). destruct layouts as (Ou & _). unfold convect.
    assert (W0 : bv_wf (BVec uo (repeat 0 (List.length u))) ns us) by (apply u_wf; rewrite repeat_length; auto).
    match goal with |- context[ofor ns ?f ?b0] => destruct (bv_fill ns us ns (fun m => m) (fun m => uo_hs o t m (vpart vs y m)) f b0 W0) as (b & E & Wb & Ob & Vb & _) end.
    - intros m Hm. split; auto. apply Hh; auto. apply vpart_length.
    - auto.
    - intros b m Hm Wb Ob. rewrite (bv_get_ok _ _ _ (u_wf u L)) by auto. rewrite (u_blk u y) by auto. cbn [obind]. rewrite (bv_get_ok _ _ _ Wb) by auto. cbn [obind].
      rewrite Hh by (auto using vpart_length). rewrite (blk_length _ _ _ Wb), Nat.eqb_refl by auto. reflexivity.
    - rw_bind E. cbv zeta. rewrite Hi, L, Nat.eqb_refl by auto. cbn [oguard]. eexists. split; [reflexivity|]. split; [rewrite map_length, seq_length; reflexivity|].
      intros m k Hm Hk. rewrite (vnth_map_seq (fun i => vnth (bv_dat b) i + vnth (uo_itf o t u) i)) by (apply vpos_lt; auto). f_equal.
      cbn [bv_off] in Ob. rewrite <- Vb by auto. rewrite (blk_nth _ _ _ Wb) by auto. rewrite Ob, (offsets_nsum _ _ _ m Ou) by lia. reflexivity.
  Qed.

  Lemma mass_addmult_ok a (u y z : vec) : List.length u = NU -> List.length z = NU -> (forall i, (i < NU)%nat -> vnth u i = vnth y i) ->
    exists w, mass_addmult ns uo (uo_mass o) a u z = Ok w /\ List.length w = NU /\
      forall m k, (m < ns)%nat -> (k < vs m 0)%nat -> vnth w (vpos vs m k) = vnth z (vpos vs m k) + a * rsum (vs m 0%nat) (fun j => uo_mass o m k j * vnth y (vpos vs m j)).
  Proof.
    intros L Lz V. destruct layouts as (Ou & _). unfold mass_addmult. pose proof (u_wf z Lz) as W0.
    set (F := fun m (v : vec) => map (fun k => vnth v k + a * mult (vs m 0%nat) (uo_mass o m) (vnth (vpart vs y m)) k) (seq 0 (List.length v)) : vec).
    match goal with |- context[ofor ns ?f ?b0] => destruct (bv_update ns us ns (fun m => m) F f b0 W0) as (b & E & Wb & Ob & Vb & _) end.
    - intros m v Hm. split; auto. intros Lv. unfold F. rewrite map_length, seq_length. auto.
    - auto.
    - intros b m Hm Wb Ob. rewrite (bv_get_ok _ _ _ (u_wf u L)) by auto. rewrite (u_blk u y) by auto. cbn [obind]. rewrite (bv_get_ok _ _ _ Wb) by auto. cbn [obind].
      rewrite vpart_length. reflexivity.
    - rw_bind E. exists (bv_dat b). split; [reflexivity|]. cbn [bv_off] in Ob. split; [exact (proj2 Wb)|].
      intros m k Hm Hk. assert (Q : forall b', bv_wf b' ns us -> bv_off b' = uo -> vnth (bv_dat b') (vpos vs m k) = vnth (blk b' m) k).
      { intros b' W' O'. rewrite (blk_nth _ _ _ W') by auto. rewrite O', (offsets_nsum _ _ _ m Ou) by lia. reflexivity. }
      rewrite (Q b Wb Ob), Vb by auto. unfold F. rewrite (blk_length _ _ _ W0) by auto.
      rewrite (vnth_map_seq (fun k => vnth (blk (BVec uo z) m) k + a * mult (vs m 0%nat) (uo_mass o m) (vnth (vpart vs y m)) k)) by auto.
      rewrite <- (Q (BVec uo z) W0 eq_refl). f_equal. f_equal. unfold mult. apply rsum_ext. intros j Hj. rewrite vpart_nth by auto. reflexivity.
  Qed.

  (** The vectors of the step, sorted by variable *)
  Lemma by_variable_off : exists off, offsets_byvar ns 2 uo (fo_p (uc_fo c)) = Ok off /\
    (forall d : vec, List.length d = (NU + NP)%nat -> var_shaped ns 2 vs (BVec off d)) /\
    (forall (d : vec) m k, (m < ns)%nat -> bentry (BVec off d) (by_var ns m 0) k = vnth d (vpos vs m k)) /\
    (forall (d : vec) m k, (m < ns)%nat -> bentry (BVec off d) (by_var ns m 1) k = vnth d (ppos ns vs m k)) /\ nth (2 * ns) off 0%nat = (NU + NP)%nat.
  Proof.
    destruct layouts as (Ou & Op & _). destruct (offsets_byvar_ok ns _ _ _ _ Ou Op) as (off & E & _ & _ & OA & OB). exists off. split; [exact E|].
    pose proof (offsets_nsum _ _ _ ns Ou (le_n _)) as Un. pose proof (offsets_nsum _ _ _ ns Op (le_n _)) as Pn. fold (nu ns vs) in Un. fold (np ns vs) in Pn. cbn beta in Un, Pn.
    split; [intros d Hd; apply (offsets_byvar_shape ns _ _ vs d off Ou Op E); rewrite Un, Pn; exact Hd|]. split; [|split].
    - intros d m k Hm. unfold bentry, by_var, vpos. cbn [bv_off bv_dat]. rewrite OA by lia. rewrite (offsets_nsum _ _ _ _ Ou) by lia. reflexivity.
    - intros d m k Hm. unfold bentry, by_var, ppos. cbn [bv_off bv_dat]. rewrite Nat.mul_1_l, OB by lia. rewrite Un, (offsets_nsum _ _ _ m Op) by lia. f_equal. lia.
    - replace (2 * ns)%nat with (ns + ns)%nat by lia. rewrite OB by lia. rewrite Un, Pn. reflexivity.
  Qed.

  Lemma var_length b : var_shaped ns 2 vs b -> bv_off b = bv_off b -> nth (2 * ns) (bv_off b) 0%nat = (NU + NP)%nat -> List.length (bv_dat b) = (NU + NP)%nat.
  Proof. intros (s & (_ & _ & _ & L) & _) _ E. rewrite L. exact E. Qed.

  Lemma vb_wf (d : vec) : List.length d = (NU + NP)%nat -> bv_wf (BVec [0; NU; NU + NP]%nat d) 2 (fun i => if (i =? 0)%nat then NU else NP).
  Proof.
    intros L. split.
    - split; [reflexivity|]. split; [reflexivity|]. intros [|[|i]] Hi; cbn; lia.
    - cbn [bv_dat]. rewrite L. reflexivity.
  Qed.

  Lemma time_step_ok off rhs (y w : vec) s : sub_shaped ns 2 vs rhs -> offsets_byvar ns 2 uo (fo_p (uc_fo c)) = Ok off ->
    us_step s = BVec off y -> us_rhs s = BVec off w -> List.length y = (NU + NP)%nat -> List.length w = (NU + NP)%nat ->
    exists y' w', time_step c o rhs s = Ok (USt (us_U s) (BVec off y') (BVec off w') (us_time s + uc_dt c) (us_files s) (us_snaps s) (us_vis s)) /\
      List.length w' = (NU + NP)%nat /\ advances c o vs rhs (us_time s) y y'.
  Proof.
    intros Sr Eo Es Ew Ly Lw. destruct layouts as (Ou & Op & Vb). destruct by_variable_off as (off' & Eo' & Sh & V0 & V1 & Tot). rewrite Eo in Eo'. injection Eo' as <-.
    unfold time_step. rewrite Es, Ew, Vb. cbn [bv_dat bv_off].
    pose proof (vb_wf y Ly) as Wy. rewrite (bv_get_ok _ _ _ Wy) by lia. cbn [obind].
    set (u := blk (BVec [0; NU; NU + NP]%nat y) 0). assert (Lu : List.length u = NU) by (unfold u; rewrite (blk_length _ _ _ Wy) by lia; reflexivity).
    assert (Vu : forall i, (i < NU)%nat -> vnth u i = vnth y i) by (intros i Hi; unfold u; rewrite (blk_nth _ _ _ Wy) by (auto; lia); reflexivity).
    assert (Uf : u = firstn NU y).
    { apply vec_ext; [rewrite Lu, firstn_length; lia|]. intros i Hi. rewrite Vu by (rewrite Lu in Hi; auto). unfold vnth. rewrite MbFlowProofs.nth_firstn by (rewrite Lu in Hi; auto). reflexivity. }
    destruct (convect_ok (us_time s) u y Lu Vu) as (C & EC & LC & VC). rw_bind EC.
    destruct (sort_vars_ok ns 2 vs rhs (BVec off w) Sr (Sh w Lw)) as (r & Er & Shr & Or & Vr). rw_bind Er. destruct r as [ro r]. cbn [bv_off] in Or. subst ro.
    assert (Lr : List.length r = (NU + NP)%nat) by (apply (var_length (BVec off r)); auto). cbn [bv_dat].
    pose proof (vb_wf r Lr) as Wr. rewrite (bv_get_ok _ _ _ Wr) by lia. cbn [obind].
    set (r0 := blk (BVec [0; NU; NU + NP]%nat r) 0). assert (L0 : List.length r0 = NU) by (unfold r0; rewrite (blk_length _ _ _ Wr) by lia; reflexivity).
    assert (Vr0 : forall i, (i < NU)%nat -> vnth r0 i = vnth r i) by (intros i Hi; unfold r0; rewrite (blk_nth _ _ _ Wr) by (auto; lia); reflexivity).
    rewrite L0, LC, Nat.eqb_refl. cbn [oguard].
    set (z := map (fun i => vnth r0 i + - ab1 * vnth C i) (seq 0 NU) : vec). assert (Lz : List.length z = NU) by (unfold z; rewrite map_length, seq_length; reflexivity).
    destruct (mass_addmult_ok (- bd1 / uc_dt c) u y z Lu Lz Vu) as (q & Eq & Lq & Vq). rw_bind Eq.
    destruct (bv_put_ok _ _ _ Wr 0 q ltac:(lia) Lq) as (r1 & E1 & W1 & O1 & B1 & Oth). rw_bind E1. cbn [bv_off] in O1.
    assert (L1 : List.length (bv_dat r1) = (NU + NP)%nat) by (destruct W1 as (_ & ->); reflexivity).
    assert (Va : forall i, (i < NU)%nat -> vnth (bv_dat r1) i = vnth q i).
    { intros i Hi. rewrite <- B1. rewrite (blk_nth _ _ _ W1) by (auto; lia). rewrite O1. reflexivity. }
    assert (Vc : forall i, (i < NP)%nat -> vnth (bv_dat r1) (NU + i) = vnth r (NU + i)).
    { intros i Hi. pose proof (blk_nth _ _ _ W1 1 i ltac:(lia) Hi) as Q1. rewrite O1 in Q1. cbn [nth] in Q1. rewrite <- Q1. rewrite Oth by lia.
      rewrite (blk_nth _ _ _ Wr) by (auto; lia). reflexivity. }
    assert (SR : step_rhs c o vs rhs (us_time s) y (bv_dat r1)).
    { split; [exact L1|]. split.
      - intros m k Hm Hk. pose proof (vpos_lt m k Hm Hk) as Hp. rewrite Va, Vq by auto. unfold z. rewrite (vnth_map_seq (fun i => vnth r0 i + - ab1 * vnth C i)) by auto.
        rewrite Vr0, VC by auto. rewrite <- V0 by auto. rewrite Vr by (auto; lia). rewrite Uf. unfold ab1, bd1. unfold Rdiv. ring.
      - intros m k Hm Hk. pose proof (ppos_lt m k Hm Hk) as Hp. unfold ppos in *. rewrite Vc by lia. pose proof (V1 r m k Hm) as Q. unfold ppos in Q. rewrite <- Q. apply Vr; auto. }
    destruct OK as (_ & _ & _ & _ & Hs). pose proof (Hs (bv_dat r1) L1) as Ls. rewrite Ls, L1, Nat.eqb_refl. cbn [oguard].
    destruct (uc_pdbc c) eqn:Ep.
    - cbn [obind]. exists (uo_solve o (bv_dat r1)), (bv_dat r1). split; [reflexivity|]. split; [auto|]. split; [auto|]. exists (bv_dat r1). split; [auto|]. split; [auto|].
      intros i Hi. rewrite Ep. ring.
    - destruct (remove_mean_ok NU (NU + NP) (uo_solve o (bv_dat r1)) 0 ltac:(lia) Ls) as (q' & E' & L' & Vp & Vm). rw_bind E'.
      exists q', (bv_dat r1). split; [reflexivity|]. split; [auto|]. split; [auto|]. exists (bv_dat r1). split; [auto|]. split; [auto|].
      intros i Hi. rewrite Ep. rewrite Vm by lia. replace (NU + NP - NU)%nat with NP by lia. reflexivity.
  Qed.

  (** The next state is determined. *)
  Lemma step_rhs_unique rhs t y r r' : step_rhs c o vs rhs t y r -> step_rhs c o vs rhs t y r' -> r = r'.
  Proof.
    intros (L & A & B) (L' & A' & B'). apply vec_ext; [congruence|]. intros i Hi. rewrite L in Hi. destruct (Nat.lt_ge_cases i NU) as [H|H].
    - destruct (vpos_onto i H) as (m & k & Hm & Hk & ->). rewrite A, A' by auto. reflexivity.
    - destruct (ppos_onto i (conj H Hi)) as (m & k & Hm & Hk & ->). rewrite B, B' by auto. reflexivity.
  Qed.
  Lemma advances_unique rhs t y a b : advances c o vs rhs t y a -> advances c o vs rhs t y b -> a = b.
  Proof.
    intros (La & r & Ra & A1 & A2) (Lb & r' & Rb & B1 & B2). assert (r' = r) by (eapply step_rhs_unique; eauto). subst r'.
    apply vec_ext; [congruence|]. intros i Hi. rewrite La in Hi. destruct (Nat.lt_ge_cases i NU) as [H|H]; [rewrite A1, B1 by auto; reflexivity|].
    replace i with (NU + (i - NU))%nat by lia. rewrite A2, B2 by lia. reflexivity.
  Qed.

  (** Copying back. *)
  Lemma sync_ok off (y : vec) s : offsets_byvar ns 2 uo (fo_p (uc_fo c)) = Ok off -> us_step s = BVec off y -> List.length y = (NU + NP)%nat ->
    sub_shaped ns 2 vs (us_U s) ->
    exists u, sync c s = Ok (USt u (us_step s) (us_rhs s) (us_time s) (us_files s) (us_snaps s) (us_vis s)) /\
      same_solution ns vs y u /\ bv_off u = bv_off (us_U s).
  Proof.
    intros Eo Es Ly Su. destruct by_variable_off as (off' & Eo' & Sh & V0 & V1 & _). rewrite Eo in Eo'. injection Eo' as <-.
    unfold sync. rewrite Es. destruct (sort_subs_ok ns 2 vs (BVec off y) (us_U s) (Sh y Ly) Su) as (u & E & Su' & Ou & Vu). rw_bind E.
    exists u. split; [reflexivity|]. split; [|exact Ou]. split; [auto|]. split; [auto|]. split.
    - intros m k Hm Hk. rewrite Vu by (auto; lia). rewrite V0 by auto. reflexivity.
    - intros m k Hm Hk. rewrite Vu by (auto; lia). rewrite V1 by auto. reflexivity.
  Qed.
  Lemma same_unique y u u' : same_solution ns vs y u -> same_solution ns vs y u' -> bv_off u = bv_off u' -> u = u'.
  Proof.
    intros (_ & S1 & A & B) (_ & S2 & A' & B') O. apply (sub_ext ns 2 vs u u' S1 S2 O). intros m v k Hm Hv Hk. destruct v as [|[|v]]; [| |lia].
    - rewrite <- A, <- A' by auto. reflexivity.
    - rewrite <- B, <- B' by auto. reflexivity.
  Qed.
  Lemma same_unique_var y y' u : same_solution ns vs y u -> same_solution ns vs y' u -> y = y'.
  Proof.
    intros (L & _ & A & B) (L' & _ & A' & B'). apply vec_ext; [congruence|]. intros i Hi. rewrite L in Hi. destruct (Nat.lt_ge_cases i NU) as [H|H].
    - destruct (vpos_onto i H) as (m & k & Hm & Hk & ->). rewrite A, A' by auto. reflexivity.
    - destruct (ppos_onto i (conj H Hi)) as (m & k & Hm & Hk & ->). rewrite B, B' by auto. reflexivity.
  Qed.
  Lemma sort_in off (junk : vec) u : offsets_byvar ns 2 uo (fo_p (uc_fo c)) = Ok off -> List.length junk = (NU + NP)%nat -> sub_shaped ns 2 vs u ->
    exists y, sort_by_variables ns 2 u (BVec off junk) = Ok (BVec off y) /\ same_solution ns vs y u.
  Proof.
    intros Eo Lj Su. destruct by_variable_off as (off' & Eo' & Sh & V0 & V1 & Tot). rewrite Eo in Eo'. injection Eo' as <-.
    destruct (sort_vars_ok ns 2 vs u (BVec off junk) Su (Sh junk Lj)) as (r & Er & Shr & Or & Vr). destruct r as [ro r]. cbn [bv_off] in Or. subst ro.
    assert (Lr : List.length r = (NU + NP)%nat) by (apply (var_length (BVec off r)); auto). exists r. split; [exact Er|]. split; [auto|]. split; [auto|]. split.
    - intros m k Hm Hk. rewrite <- V0 by auto. apply Vr; auto.
    - intros m k Hm Hk. rewrite <- V1 by auto. apply Vr; auto.
  Qed.
End Step.
