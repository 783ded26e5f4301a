(** Whole runs; restarting. *)
From Coq Require Import Reals List Bool Lia Arith ZArith Ascii String Lra Sorted.
From Verif Require Import Outcome ListLemmas ConfigModel LaBase BlockVec MbModel MbSpec MbVecProofs MbFlowProofs MbMiscProofs IntegModel NsProofs NsFomProofs UnsteadyModel UnsteadySpec UnsteadyStepProofs UnsteadyLoopProofs.
Import ListNotations.
Local Open Scope list_scope.
Local Open Scope R_scope.

Lemma shaped_same ns vs (u v : bvec) : sub_shaped ns 2 vs u -> bv_off v = bv_off u -> List.length (bv_dat v) = List.length (bv_dat u) -> sub_shaped ns 2 vs v.
Proof. intros (sz & (A & B & C & D) & E) O L. exists sz. split; [|exact E]. unfold shaped. rewrite O, L. auto. Qed.

Lemma setup_initial_ok c restart ic s first t0 u0 f0 : writable c -> starts c restart ic s first t0 u0 f0 ->
  exists f, setup_initial c restart ic s = Ok (USt u0 (us_step s) (us_rhs s) t0 f (us_snaps s) (us_vis s), first) /\ forall x, f x = f0 x.
Proof.
  intros Wr H. destruct u0 as [o0 d0]. unfold starts in H. destruct restart as [name|]; unfold setup_initial.
  - destruct H as (E & O & L & ->). cbn [bv_off bv_dat] in *. unfold load_with_time, load_solution. rewrite E. unfold restart_file. cbn [sf_sol sf_step sf_time bv_dat].
    rewrite L, Nat.eqb_refl. cbn [obind sf_step sf_time]. rewrite O. eexists. split; [reflexivity|]. reflexivity.
  - destruct H as (-> & -> & O & D & L & F1 & F2). cbn [bv_off bv_dat] in *.
    assert (E : match ic with Some d => oguard (List.length d =? List.length (bv_dat (us_U s)))%nat (Ok d) | None => Ok (bv_dat (us_U s)) end = Ok d0).
    { destruct ic as [d|]; subst d0; [|reflexivity]. rewrite L, Nat.eqb_refl. reflexivity. }
    rw_bind E. cbv zeta. destruct (sc_save (uc_sol c)) eqn:Sv.
    + match goal with |- context[save_restart c 0 ?st] => destruct (save_restart_ok c 0 st Sv (Wr _)) as (fs & E1 & G1 & G2) end. rw_bind E1.
      cbn [us_U us_step us_rhs us_time us_files us_snaps us_vis bv_dat] in *. rewrite <- O. eexists. split; [reflexivity|]. intros x.
      destruct (String.string_dec x (restart_name (uc_sol c) 0)) as [->|Ne].
      * rewrite F1 by auto. rewrite G1. reflexivity.
      * rewrite G2, F2 by auto. reflexivity.
    + cbn [obind]. rewrite <- O. eexists. split; [reflexivity|]. intros x. symmetry. apply F2. auto.
Qed.

Lemma starts_fresh c ic s : (forall d, ic = Some d -> List.length d = List.length (bv_dat (us_U s))) ->
  exists u0 f0, starts c None ic s 0 0 u0 f0.
Proof.
  intros H. set (u0 := BVec (bv_off (us_U s)) (match ic with Some d => d | None => bv_dat (us_U s) end)).
  exists u0, (fun x => if sc_save (uc_sol c) && String.eqb x (restart_name (uc_sol c) 0) then Some (restart_file u0 0 0) else us_files s x).
  cbn. split; [auto|]. split; [auto|]. split; [auto|]. split; [auto|]. split; [destruct ic; auto|]. split.
  - intros ->. rewrite String.eqb_refl. reflexivity.
  - intros x [->|N]; [reflexivity|]. destruct (String.eqb_spec x (restart_name (uc_sol c) 0)); [contradiction|]. rewrite andb_false_r. reflexivity.
Qed.

Section Run.
  Variables (c : ucfg) (o : uops) (vs : nat -> nat -> nat).
  Hypothesis OK : setup_ok c o vs.
  Hypothesis Wr : writable c.
  Variable rhs : bvec.
  Hypothesis Sr : sub_shaped (uc_ns c) 2 vs rhs.
  Local Notation ns := (uc_ns c).
  Local Notation N := (nu ns vs + np ns vs)%nat.

  (** The outcome of a run from [first], [t0], [u0] *)
  Record ran (first : Z) (t0 : R) (u0 : bvec) (f0 : files) (p0 : list bvec) (v0 : list (Z * R * bvec)) (s : ust) (Y : nat -> vec) (Us : nat -> bvec) : Prop := {
    rn_traj : trajectory c o vs rhs u0 t0 (Z.to_nat (uc_nt c - first)) Y Us;
    rn_U : us_U s = Us (Z.to_nat (uc_nt c - first));
    rn_time : us_time s = t0 + INR (Z.to_nat (uc_nt c - first)) * uc_dt c;
    rn_snaps : exists l, us_snaps s = p0 ++ map Us l /\ picks l (Z.to_nat (uc_nt c - first)) (fun i => sampled c (first + Z.of_nat i));
    rn_vis : exists l, us_vis s = v0 ++ (if uc_vsave c then [(0%Z, t0, u0)] else []) ++ map (fun i => ((first + Z.of_nat i)%Z, t0 + INR i * uc_dt c, Us i)) l /\
      picks l (Z.to_nat (uc_nt c - first)) (fun i => uc_vsave c = true /\ on_schedule (uc_vint c) (first + Z.of_nat i));
    rn_file : forall i, (1 <= i <= Z.to_nat (uc_nt c - first))%nat -> saved c (first + Z.of_nat i) ->
      exists j, copied c first i j /\ us_files s (restart_name (uc_sol c) (first + Z.of_nat i)) = Some (restart_file (Us j) (first + Z.of_nat i) (t0 + INR i * uc_dt c));
    rn_others : forall x, (forall i, (1 <= i <= Z.to_nat (uc_nt c - first))%nat -> saved c (first + Z.of_nat i) -> x <> restart_name (uc_sol c) (first + Z.of_nat i)) -> us_files s x = f0 x
  }.

  Lemma run_ok restart ic junk junk' s first t0 u0 f0 : sub_shaped ns 2 vs (us_U s) -> starts c restart ic s first t0 u0 f0 -> (0 <= first)%Z ->
    List.length junk = N -> List.length junk' = N ->
    exists s' Y Us, unsteady_solve c o rhs restart ic junk junk' s = Ok s' /\ ran first t0 u0 f0 (us_snaps s) (us_vis s) s' Y Us.
  Proof.
    intros Su St Hf Lj Lj'. assert (S0 : sub_shaped ns 2 vs u0).
    { apply (shaped_same ns vs (us_U s)); auto; destruct restart; cbn [starts] in St; tauto. }
    destruct (setup_initial_ok c restart ic s first t0 u0 f0 Wr St) as (f & E1 & Ef). unfold unsteady_solve. rw_bind E1.
    destruct OK as (_ & Hdt & _). destruct (Rlt_dec 0 (uc_dt c)) as [_|C]; [|contradiction].
    destruct (by_variable_off c o vs OK) as (off & Eo & _). rw_bind Eo. cbn [us_U us_step us_rhs us_time us_files us_snaps us_vis].
    destruct (sort_in c o vs OK off junk u0 Eo Lj S0) as (y & Ey & Sy). rw_bind Ey.
    pose proof Sy as (Ly & _).
    destruct (sync_ok c o vs OK off y (USt u0 (BVec off y) (BVec off junk') t0 f (us_snaps s) (us_vis s)) Eo eq_refl Ly S0) as (u & Eu & Su' & Ou).
    cbn [us_U us_step us_rhs us_time us_files us_snaps us_vis] in Eu, Ou. assert (u = u0) by (apply (same_unique c vs y); auto). subst u.
    set (v0 := us_vis s ++ (if uc_vsave c then [(0%Z, t0, u0)] else [])).
    assert (Ev : visualize c 0 (USt u0 (BVec off y) (BVec off junk') t0 f (us_snaps s) (us_vis s)) = Ok (USt u0 (BVec off y) (BVec off junk') t0 f (us_snaps s) v0)).
    { unfold visualize. rw_bind Eu. unfold v0. destruct (uc_vsave c); [reflexivity|]. rewrite app_nil_r. reflexivity. }
    rw_bind Ev.
    destruct (loop_ok c o vs OK off rhs Eo Sr first t0 u0 f0 (us_snaps s) v0 Hf Wr (Z.to_nat (uc_nt c - first)) (USt u0 (BVec off y) (BVec off junk') t0 f (us_snaps s) v0) (fun _ => y) (fun _ => u0)) as (s' & Y & Us & El & Iv & Y0).
    { split; cbn [us_U us_step us_rhs us_time us_files us_snaps us_vis].
      - split; [auto|]. split; [auto|]. intros k Hk. lia.
      - reflexivity.
      - exists junk'. auto.
      - cbn. ring.
      - exists O. split; auto. split; [lia|]. split; [auto|]. intros i Hi. lia.
      - exists []. split; [cbn; rewrite app_nil_r; auto|apply picks_0].
      - exists []. split; [cbn; rewrite app_nil_r; auto|apply picks_0].
      - intros i Hi. lia.
      - intros x _. apply Ef. }
    rw_bind El. destruct Iv as [Tr Es (w & Ew & Lw) Et (j & Ej & Sj) Sn Vi Fi Fo]. pose proof Tr as (T0 & T1 & T2).
    set (n := Z.to_nat (uc_nt c - first)) in *. destruct (T1 n (le_n _)) as (Sn' & On). destruct (T1 j (proj1 Sj)) as ((_ & Suj & _) & Oj).
    destruct (sync_ok c o vs OK off (Y n) s' Eo Es (proj1 Sn') ltac:(rewrite Ej; auto)) as (uf & Euf & Suf & Ouf). rewrite Ej, Oj in Ouf.
    assert (uf = Us n) by (apply (same_unique c vs (Y n)); auto; congruence). subst uf.
    eexists. exists Y, Us. split; [exact Euf|]. split; cbn [us_U us_step us_rhs us_time us_files us_snaps us_vis]; fold n; auto.
    destruct Vi as (l & Q1 & Q2). exists l. split; auto. rewrite Q1. unfold v0. rewrite <- app_assoc. reflexivity.
  Qed.

  (** ** Restart *)

  Lemma copied_unique first k j j' : copied c first k j -> copied c first k j' -> j = j'.
  Proof.
    assert (G : forall j j', copied c first k j -> copied c first k j' -> ~ (j < j')%nat).
    { intros a b (A1 & A2 & A3) (B1 & B2 & B3) H. destruct (A3 b ltac:(lia)) as (N1 & N2). destruct B2 as [->|[B|(B & B')]]; [lia|auto|]. apply N2; auto. }
    intros H H'. pose proof (G _ _ H H'). pose proof (G _ _ H' H). lia.
  Qed.
  Lemma copied_shift first k i j : (k = O \/ on_schedule (uc_vint c) (first + Z.of_nat k)) -> copied c (first + Z.of_nat k) i j -> copied c first (k + i) (k + j).
  Proof.
    intros Hk (A & B & C). assert (Q : forall a, (first + Z.of_nat k + Z.of_nat a = first + Z.of_nat (k + a))%Z) by (intros; lia). rewrite Q in B.
    split; [lia|]. split.
    - destruct B as [->|[B|(B & B')]]; [rewrite Nat.add_0_r; destruct Hk; auto|auto|]. right. right. split; [lia|auto].
    - intros a Ha. specialize (C (a - k)%nat ltac:(lia)). rewrite Q in C. replace (k + (a - k))%nat with a in C by lia. destruct C as (C1 & C2). split; auto. intros. apply C2. lia.
  Qed.

  Lemma traj_shift u0 t0 n Y Us k u1 t1 m Y' Us' : trajectory c o vs rhs u0 t0 n Y Us -> (k <= n)%nat -> trajectory c o vs rhs u1 t1 m Y' Us' -> (k + m <= n)%nat ->
    u1 = Us k -> t1 = t0 + INR k * uc_dt c -> forall i, (i <= m)%nat -> Y' i = Y (k + i)%nat /\ Us' i = Us (k + i)%nat.
  Proof.
    intros (A0 & A1 & A2) Hk (B0 & B1 & B2) Hm -> ->. assert (G : forall i, (i <= m)%nat -> Y' i = Y (k + i)%nat).
    { induction i as [|i IH]; intros Hi.
      - rewrite Nat.add_0_r. destruct (B1 O ltac:(lia)) as (S1 & _). rewrite B0 in S1. destruct (A1 k ltac:(lia)) as (S2 & _). eapply same_unique_var; eauto.
      - pose proof (B2 i ltac:(lia)) as P. rewrite IH in P by lia. pose proof (A2 (k + i)%nat ltac:(lia)) as Q. rewrite Nat.add_succ_r.
        replace (t0 + INR (k + i) * uc_dt c) with (t0 + INR k * uc_dt c + INR i * uc_dt c) in Q by (rewrite plus_INR; ring). eapply advances_unique; eauto. }
    intros i Hi. split; [auto|]. destruct (B1 i Hi) as (S1 & O1). destruct (A1 (k + i)%nat ltac:(lia)) as (S2 & O2). destruct (A1 k Hk) as (_ & O3).
    rewrite G in S1 by auto. apply (same_unique c vs (Y (k + i)%nat)); auto. congruence.
  Qed.

  Lemma restart_ok first t0 u0 f0 p0 v0 s1 Y Us k : ran first t0 u0 f0 p0 v0 s1 Y Us -> (0 <= first)%Z -> (first + Z.of_nat k <= uc_nt c)%Z -> sc_save (uc_sol c) = true ->
    (k = O /\ f0 (restart_name (uc_sol c) first) = Some (restart_file u0 first t0) \/ (1 <= k)%nat /\ saved c (first + Z.of_nat k) /\ on_schedule (uc_vint c) (first + Z.of_nat k)) ->
    forall s2 ic junk junk', us_files s2 = us_files s1 -> bv_off (us_U s2) = bv_off u0 -> sub_shaped ns 2 vs (us_U s2) -> List.length junk = N -> List.length junk' = N ->
    exists s3, unsteady_solve c o rhs (Some (restart_name (uc_sol c) (first + Z.of_nat k))) ic junk junk' s2 = Ok s3 /\
      us_U s3 = us_U s1 /\ us_time s3 = us_time s1 /\ (forall x, us_files s3 x = us_files s1 x) /\
      exists la lb, us_snaps s1 = p0 ++ map Us la ++ map Us lb /\ us_snaps s3 = us_snaps s2 ++ map Us lb /\
        (forall i, In i la -> (i <= k)%nat) /\ (forall i, In i lb -> (k < i)%nat).
  Proof.
    intros [Tr RU RT (lp & Ep & Pp) RV RF RO] Hf Hn Sv Hk s2 ic junk junk' Ef Oo S2 Lj Lj'. set (n := Z.to_nat (uc_nt c - first)) in *.
    assert (Kn : (k <= n)%nat) by (unfold n; lia). pose proof Tr as (T0 & T1 & T2). destruct (T1 k Kn) as (Sk & Ok_).
    assert (Lk : List.length (bv_dat (Us k)) = List.length (bv_dat (us_U s2))).
    { destruct Sk as (_ & (sz & (_ & _ & _ & D) & _) & _). destruct S2 as (sz' & (_ & _ & _ & D') & _). rewrite D, D', Ok_, Oo. reflexivity. }
    (* the file holds step k *)
    assert (Fk : us_files s2 (restart_name (uc_sol c) (first + Z.of_nat k)) = Some (restart_file (Us k) (first + Z.of_nat k) (t0 + INR k * uc_dt c))).
    { rewrite Ef. destruct Hk as [(-> & F)|(K1 & Sd & On)].
      - rewrite RO.
        + rewrite Z.add_0_r, F, T0. f_equal. unfold restart_file. cbn. do 2 f_equal. ring.
        + intros i Hi _ C. apply restart_name_inj in C; lia.
      - destruct (RF k ltac:(lia) Sd) as (j & Cj & Q). assert (j = k). { eapply copied_unique; [exact Cj|]. split; [lia|]. split; [auto|]. intros i Hi. lia. }
        subst j. exact Q. }
    assert (Hk' : k = O \/ on_schedule (uc_vint c) (first + Z.of_nat k)) by (destruct Hk as [(A & _)|(_ & _ & A)]; auto).
    destruct (run_ok (Some (restart_name (uc_sol c) (first + Z.of_nat k))) ic junk junk' s2 (first + Z.of_nat k) (t0 + INR k * uc_dt c) (Us k) (us_files s2)) as (s3 & Y' & Us' & E & R3); auto.
    { split; [auto|]. split; [congruence|]. auto. }
    { lia. }
    exists s3. split; [exact E|]. destruct R3 as [Tr3 RU3 RT3 (lp3 & Ep3 & Pp3) RV3 RF3 RO3].
    assert (Em : Z.to_nat (uc_nt c - (first + Z.of_nat k)) = (n - k)%nat) by (unfold n; lia). rewrite Em in *.
    pose proof (traj_shift u0 t0 n Y Us k _ _ (n - k) Y' Us' Tr Kn Tr3 ltac:(lia) eq_refl eq_refl) as Sh.
    split; [rewrite RU3, RU; rewrite (proj2 (Sh (n - k)%nat (le_n _))); f_equal; lia|].
    split; [rewrite RT3, RT; replace n with (k + (n - k))%nat at 2 by lia; rewrite plus_INR; ring|]. split.
    - intros x. destruct (in_dec Nat.eq_dec 0%nat []) as [[]|_].
      assert (D : (exists i, (1 <= i <= n - k)%nat /\ saved c (first + Z.of_nat k + Z.of_nat i) /\ x = restart_name (uc_sol c) (first + Z.of_nat k + Z.of_nat i)) \/
                  (forall i, (1 <= i <= n - k)%nat -> saved c (first + Z.of_nat k + Z.of_nat i) -> x <> restart_name (uc_sol c) (first + Z.of_nat k + Z.of_nat i))).
      { generalize (n - k)%nat as m. clear. induction m as [|m IH]; [right; intros; lia|]. destruct IH as [(i & Hi & A)|No]; [left; exists i; split; [lia|auto]|].
        destruct (String.string_dec x (restart_name (uc_sol c) (first + Z.of_nat k + Z.of_nat (S m)))) as [->|Ne].
        - destruct (sc_save (uc_sol c)) eqn:Sv; [|right; intros i Hi (Q & _); congruence].
          destruct (due (uc_restart c) (first + Z.of_nat k + Z.of_nat (S m))) eqn:D.
          + left. exists (S m). split; [lia|]. split; [|auto]. split; [auto|]. apply due_iff. auto.
          + right. intros i Hi Hs. destruct (Nat.eq_dec i (S m)) as [->|Ni]; [|apply No; [lia|auto]]. apply due_not in D. destruct Hs as (_ & Hs). contradiction.
        - right. intros i Hi Hs. destruct (Nat.eq_dec i (S m)) as [->|Ni]; [auto|apply No; [lia|auto]]. }
      destruct D as [(i & Hi & Hs & ->)|No].
      + destruct (RF3 i Hi Hs) as (j & Cj & Q). rewrite Q. assert (Qz : (first + Z.of_nat k + Z.of_nat i = first + Z.of_nat (k + i))%Z) by lia. rewrite Qz in *.
        destruct (RF (k + i)%nat ltac:(lia) Hs) as (j' & Cj' & Q'). rewrite Q'. pose proof (copied_shift first k i j Hk' Cj) as Cs.
        pose proof (copied_unique _ _ _ _ Cs Cj') as <-. rewrite (proj2 (Sh j ltac:(destruct Cj; lia))). unfold restart_file. do 2 f_equal. f_equal. rewrite plus_INR. ring.
      + rewrite RO3 by auto. congruence.
    - exists (filter (fun i => (i <=? k)%nat) lp), (filter (fun i => negb (i <=? k)%nat) lp).
      assert (Sp : filter (fun i => (i <=? k)%nat) lp ++ filter (fun i => negb (i <=? k)%nat) lp = lp).
      { destruct Pp as (Ss & _). clear - Ss. induction Ss as [|a l S IH F]; [reflexivity|]. cbn. destruct (Nat.leb_spec a k); cbn; [f_equal; auto|].
        assert (G : forall l, Forall (lt a) l -> filter (fun i => (i <=? k)%nat) l = [] /\ filter (fun i => negb (i <=? k)%nat) l = l).
        { clear - H. induction l as [|b l IH]; intros F; [auto|]. inversion F; subst. cbn. destruct (Nat.leb_spec b k); [lia|]. cbn. destruct (IH H3) as (-> & ->). auto. }
        destruct (G l F) as (-> & ->). reflexivity. }
      split; [rewrite <- map_app, Sp; auto|]. split; [|split].
      + rewrite Ep3. f_equal. rewrite (map_ext_in Us' (fun i => Us (k + i)%nat)) by (intros i Hi; apply Sh; apply (proj2 Pp3) in Hi; lia).
        rewrite <- (map_map (fun i => (k + i)%nat) Us). f_equal.
        (* two increasing lists with the same members *)
        assert (Un : forall a b, StronglySorted lt a -> StronglySorted lt b -> (forall i, In i a <-> In i b) -> a = b).
        { clear. induction a as [|x a IH]; intros [|y b] Sa Sb M; auto.
          - exfalso. apply (proj2 (M y)). left. auto.
          - exfalso. apply (proj1 (M x)). left. auto.
          - inversion Sa as [|? ? Sa' Fa]; inversion Sb as [|? ? Sb' Fb]; subst. rewrite Forall_forall in Fa, Fb.
            assert (x = y). { destruct (proj1 (M x) (or_introl eq_refl)) as [|I1]; auto. destruct (proj2 (M y) (or_introl eq_refl)) as [|I2]; auto.
              pose proof (Fa _ I2). pose proof (Fb _ I1). lia. }
            subst y. f_equal. apply IH; auto. intros i. split; intros I0.
            + destruct (proj1 (M i) (or_intror I0)) as [->|]; auto. pose proof (Fa _ I0). lia.
            + destruct (proj2 (M i) (or_intror I0)) as [->|]; auto. pose proof (Fb _ I0). lia. }
        apply Un.
        * destruct Pp3 as (Ss & _). clear - Ss. induction Ss; cbn; constructor; auto. rewrite Forall_map. eapply Forall_impl; [|exact H]. cbn. intros. lia.
        * destruct Pp as (Ss & _). clear - Ss. induction Ss; cbn; [constructor|]. destruct (negb (a <=? k)%nat); auto. constructor; auto.
          rewrite Forall_forall in *. intros x Hx. apply filter_In in Hx. apply H. apply Hx.
        * intros i. rewrite in_map_iff, filter_In, (proj2 Pp), negb_true_iff, Nat.leb_gt. split.
          -- intros (a & <- & Ha). apply (proj2 Pp3) in Ha. destruct Ha as (Ha & Sa). replace (first + Z.of_nat k + Z.of_nat a)%Z with (first + Z.of_nat (k + a))%Z in Sa by lia.
             split; [split; [lia|auto]|lia].
          -- intros ((Ha & Sa) & Hb). exists (i - k)%nat. split; [lia|]. apply (proj2 Pp3). split; [lia|]. replace (first + Z.of_nat k + Z.of_nat (i - k))%Z with (first + Z.of_nat i)%Z by lia. auto.
      + intros i Hi. apply filter_In in Hi. destruct Hi as (_ & Hi). apply Nat.leb_le in Hi. auto.
      + intros i Hi. apply filter_In in Hi. destruct Hi as (_ & Hi). rewrite negb_true_iff, Nat.leb_gt in Hi. auto.
  Qed.

  (** ** The scheme *)
  Lemma uu_entry visc uu : uu_matrix ns (fo_u (uc_fo c)) (uo_mass o) (uc_dt c) visc = Ok uu ->
    forall m k m' j, (m < ns)%nat -> (k < vs m 0)%nat -> (m' < ns)%nat -> (j < vs m' 0)%nat ->
      uu (vpos vs m k) (vpos vs m' j) = visc (vpos vs m k) (vpos vs m' j) + if (m =? m')%nat then / uc_dt c * uo_mass o m k j else 0.
  Proof.
    destruct (layouts c o vs OK) as (Ou & _). unfold uu_matrix. intros E.
    assert (Rd : forall i, (i <= ns)%nat -> oread (fo_u (uc_fo c)) i = Ok (nsum i (fun m => vs m 0%nat))).
    { intros i Hi. unfold oread. rewrite (nth_error_nth' _ 0%nat) by (rewrite (proj1 Ou); lia). cbn. f_equal. apply (offsets_nsum _ _ _ i Ou Hi). }
    match type of E with context[ofor ns ?f ?b0] => destruct (ofor_inv ns f (fun n J => forall m k m' j, (m < ns)%nat -> (k < vs m 0)%nat -> (m' < ns)%nat -> (j < vs m' 0)%nat ->
      J (vpos vs m k) (vpos vs m' j) = if (m =? m')%nat && (m <? n)%nat then uo_mass o m k j else 0) b0) as (J & EJ & VJ) end.
    - intros. rewrite andb_false_r. reflexivity.
    - intros n J Hn IH. rewrite !Rd by lia. cbn [obind]. eexists. split; [reflexivity|]. intros m k m' j Hm Hk Hm' Hj. rewrite add_matrix_val, IH by auto.
      rewrite Nat.add_1_r, nsum_S. replace (nsum n (fun m => vs m 0%nat) + vs n 0%nat - nsum n (fun m => vs m 0%nat))%nat with (vs n 0%nat) by lia. unfold vpos.
      destruct (Nat.eq_dec m n) as [->|Ne].
      + destruct (Nat.eq_dec m' n) as [->|Ne'].
        * rewrite inside_at by lia. rewrite Nat.eqb_refl, Nat.ltb_irrefl, (proj2 (Nat.ltb_lt n (S n))) by lia. cbn [andb].
          replace (nsum n (fun m => vs m 0%nat) + k - nsum n (fun m => vs m 0%nat))%nat with k by lia. replace (nsum n (fun m => vs m 0%nat) + j - nsum n (fun m => vs m 0%nat))%nat with j by lia. ring.
        * rewrite (proj2 (Nat.eqb_neq n m')) by auto. cbn [andb]. rewrite inside_out; [ring|]. pose proof (nsum_other m' n (fun m => vs m 0%nat) j Hj Ne'). lia.
      + rewrite inside_out by (pose proof (nsum_other m n (fun m => vs m 0%nat) k Hk Ne); lia).
        assert ((m <? S n)%nat = (m <? n)%nat) as -> by (destruct (Nat.ltb_spec m n), (Nat.ltb_spec m (S n)); auto; lia). ring.
    - rewrite EJ in E. cbn [obind] in E. injection E as <-. intros m k m' j Hm Hk Hm' Hj. unfold add_m, zero_m, bd0. rewrite VJ by auto.
      rewrite (proj2 (Nat.ltb_lt m ns)) by auto. rewrite andb_true_r. destruct (m =? m')%nat; field; destruct OK as (_ & D & _); lra.
  Qed.

  Lemma scheme_ok visc Bt B uu t y y' : uu_matrix ns (fo_u (uc_fo c)) (uo_mass o) (uc_dt c) visc = Ok uu ->
    (forall r, step_rhs c o vs rhs t y r -> solves (nu ns vs) (np ns vs) uu Bt B (uo_solve o r) r) ->
    (uc_pdbc c = false -> forall i, (i < nu ns vs)%nat -> rsum (np ns vs) (fun q => Bt i q) = 0) ->
    advances c o vs rhs t y y' ->
    (forall m k, (m < ns)%nat -> (k < vs m 0)%nat ->
       / uc_dt c * rsum (vs m 0%nat) (fun j => uo_mass o m k j * (vnth y' (vpos vs m j) - vnth y (vpos vs m j)))
       + rsum (nu ns vs) (fun q => visc (vpos vs m k) q * vnth y' q) + rsum (np ns vs) (fun q => Bt (vpos vs m k) q * vnth y' (nu ns vs + q))
       + (vnth (uo_hs o t m (vpart vs y m)) k + vnth (uo_itf o t (firstn (nu ns vs) y)) (vpos vs m k)) = bentry rhs (by_sub 2 m 0) k) /\
    (forall m k, (m < ns)%nat -> (k < vs m 1)%nat ->
       rsum (nu ns vs) (fun q => B (nsum m (fun m => vs m 1%nat) + k)%nat q * vnth y' q) = bentry rhs (by_sub 2 m 1) k) /\
    (uc_pdbc c = false -> (0 < np ns vs)%nat -> rsum (np ns vs) (fun q => vnth y' (nu ns vs + q)) = 0).
  Proof.
    intros Eu Hs Hb (Ly & r & Rr & A1 & A2). destruct (Hs r Rr) as (S1 & S2). destruct Rr as (Lr & R1 & R2). cbv zeta in *.
    set (x := uo_solve o r) in *. set (NU := nu ns vs) in *. set (NP := np ns vs) in *.
    split; [|split].
    - intros m k Hm Hk. pose proof (vpos_lt c vs m k Hm Hk) as Hp. fold NU in Hp. specialize (S1 _ Hp). rewrite R1 in S1 by auto.
      assert (P : rsum NP (fun q => Bt (vpos vs m k) q * vnth y' (NU + q)) = rsum NP (fun q => Bt (vpos vs m k) q * vnth x (NU + q))).
      { destruct (uc_pdbc c) eqn:Ep; [apply rsum_ext; intros q Hq; rewrite A2 by auto; ring|].
        set (mn := rsum NP (fun j => vnth x (NU + j)) / INR NP) in *.
        rewrite (rsum_ext _ _ (fun q => Bt (vpos vs m k) q * vnth x (NU + q) - Bt (vpos vs m k) q * mn)) by (intros q Hq; rewrite A2 by auto; ring).
        rewrite rsum_minus, rsum_scal_r, Hb by auto. ring. }
      rewrite P. set (q0 := rsum NP (fun q => Bt (vpos vs m k) q * vnth x (NU + q))) in *.
      rewrite (rsum_ext NU (fun q => visc (vpos vs m k) q * vnth y' q) (fun q => visc (vpos vs m k) q * vnth x q)) by (intros q Hq; rewrite A1 by auto; reflexivity).
      assert (U : rsum NU (fun q => uu (vpos vs m k) q * vnth x q) = rsum NU (fun q => visc (vpos vs m k) q * vnth x q) + / uc_dt c * rsum (vs m 0%nat) (fun j => uo_mass o m k j * vnth x (vpos vs m j))).
      { unfold NU, nu. rewrite !rsum_blocks. rewrite (rsum_ext ns _ (fun a => rsum (vs a 0%nat) (fun j => visc (vpos vs m k) (vpos vs a j) * vnth x (vpos vs a j)) +
          if (m =? a)%nat then rsum (vs m 0%nat) (fun j => / uc_dt c * (uo_mass o m k j * vnth x (vpos vs m j))) else 0)).
        - rewrite rsum_plus. f_equal. rewrite (rsum_single ns m) by (auto; intros a Ha Ne; rewrite (proj2 (Nat.eqb_neq m a)) by auto; reflexivity).
          rewrite Nat.eqb_refl, rsum_scal. reflexivity.
        - intros a Ha. destruct (Nat.eqb_spec m a) as [<-|Ne].
          + rewrite <- rsum_plus. apply rsum_ext. intros j Hj. fold (vpos vs m j). rewrite (uu_entry visc uu Eu) by auto. rewrite Nat.eqb_refl. ring.
          + rewrite Rplus_0_r. apply rsum_ext. intros j Hj. fold (vpos vs a j). rewrite (uu_entry visc uu Eu) by auto. rewrite (proj2 (Nat.eqb_neq m a)) by auto. ring. }
      rewrite U in S1.
      assert (D : rsum (vs m 0%nat) (fun j => uo_mass o m k j * (vnth y' (vpos vs m j) - vnth y (vpos vs m j))) =
        rsum (vs m 0%nat) (fun j => uo_mass o m k j * vnth x (vpos vs m j)) - rsum (vs m 0%nat) (fun j => uo_mass o m k j * vnth y (vpos vs m j))).
      { rewrite <- rsum_minus. apply rsum_ext. intros j Hj. rewrite A1 by (apply vpos_lt; auto). ring. }
      rewrite D. set (a1 := rsum (vs m 0%nat) (fun j => uo_mass o m k j * vnth x (vpos vs m j))) in *. set (a2 := rsum (vs m 0%nat) (fun j => uo_mass o m k j * vnth y (vpos vs m j))) in *.
      rewrite Rmult_minus_distr_l. lra.
    - intros m k Hm Hk. rewrite <- R2 by auto. unfold ppos. rewrite <- S2 by (unfold NP, np; apply nsum_in; auto). apply rsum_ext. intros q Hq. rewrite A1 by auto. reflexivity.
    - intros Ep Hp. rewrite Ep in A2. set (sm := rsum NP (fun j => vnth x (NU + j))) in *.
      rewrite (rsum_ext _ _ (fun q => vnth x (NU + q) - sm / INR NP)) by (intros q Hq; rewrite A2 by auto; reflexivity).
      rewrite rsum_minus, rsum_const. fold sm. field. apply not_0_INR. lia.
  Qed.
End Run.
