(** The loop: schedules, files, restart. *)
From Coq Require Import Reals List Bool Lia Arith ZArith Ascii String DecimalString DecimalNat DecimalFacts Lra Sorted.
From Verif Require Import Outcome ListLemmas ConfigModel ConfigProofs LaBase BlockVec MbModel MbSpec MbVecProofs MbFlowProofs MbMiscProofs IntegModel UnsteadyModel UnsteadySpec UnsteadyStepProofs.
Import ListNotations.
Local Open Scope list_scope.
Local Open Scope R_scope.

(** ** Names *)

Lemma string_app_inv_l a x y : (a ++ x)%string = (a ++ y)%string -> x = y.
Proof. induction a; cbn; intros H; [auto|]. injection H. auto. Qed.
Lemma string_length_app x y : String.length (x ++ y)%string = (String.length x + String.length y)%nat.
Proof. induction x; cbn; auto. Qed.
Lemma string_app_inv_r x y b : (x ++ b)%string = (y ++ b)%string -> x = y.
Proof.
  intros H. assert (L : String.length x = String.length y).
  { apply (f_equal String.length) in H. rewrite !string_length_app in H. lia. }
  revert y H L. induction x as [|c x IH]; intros [|d y] H L; try discriminate; auto. cbn in H, L. injection H as -> H. f_equal. apply IH; auto.
Qed.

Fixpoint dzeros (n : nat) (d : Decimal.uint) : Decimal.uint := match n with O => d | S k => Decimal.D0 (dzeros k d) end.
Lemma zeros_uint n d : (zeros n ++ NilEmpty.string_of_uint d)%string = NilEmpty.string_of_uint (dzeros n d).
Proof. induction n; cbn; [reflexivity|]. rewrite IHn. reflexivity. Qed.
Lemma of_dzeros n d : Nat.of_uint (dzeros n d) = Nat.of_uint d.
Proof. induction n; [reflexivity|]. cbn [dzeros]. rewrite <- IHn. reflexivity. Qed.
Lemma padded_inj w a b : padded w a = padded w b -> a = b.
Proof.
  unfold padded, index_key. cbv zeta. rewrite !zeros_uint. intros H. apply (f_equal NilEmpty.uint_of_string) in H. rewrite !NilEmpty.usu in H. injection H as H.
  apply (f_equal Nat.of_uint) in H. rewrite !of_dzeros in H. rewrite !Unsigned.of_to in H. exact H.
Qed.
Lemma restart_name_inj c a b : (0 <= a)%Z -> (0 <= b)%Z -> restart_name c a = restart_name c b -> a = b.
Proof.
  intros Ha Hb H. unfold restart_name in H. do 2 apply string_app_inv_l in H. apply string_app_inv_l in H. apply string_app_inv_l in H. apply string_app_inv_r in H.
  unfold print08 in H. rewrite (proj2 (Z.ltb_ge a 0) Ha), (proj2 (Z.ltb_ge b 0) Hb) in H. apply padded_inj in H. lia.
Qed.
Lemma restart_name_nonempty c a : restart_name c a <> ""%string.
Proof. unfold restart_name. destruct (sc_dir c); discriminate. Qed.

(** ** Schedules *)

Lemma due_iff i s : due i s = true <-> on_schedule i s.
Proof.
  unfold due, on_schedule. rewrite andb_true_iff, negb_true_iff, Z.eqb_neq, Z.eqb_eq. split; intros (A & B); (split; [auto|]); apply Z.rem_divide; auto.
Qed.
Lemma due_not i s : due i s = false <-> ~ on_schedule i s.
Proof. rewrite <- due_iff. destruct (due i s); split; congruence. Qed.
Definition samplingb (c : ucfg) (step : Z) : bool := uc_gen c && negb (uc_sint c =? 0)%Z && (uc_boot c <? step)%Z && (Z.rem step (uc_sint c) =? 0)%Z.
Lemma sampling_iff c step : samplingb c step = true <-> sampled c step.
Proof.
  unfold samplingb, sampled. rewrite <- due_iff. unfold due. rewrite !andb_true_iff, Z.ltb_lt. tauto.
Qed.
Lemma sampling_not c step : samplingb c step = false <-> ~ sampled c step.
Proof. rewrite <- sampling_iff. destruct (samplingb c step); split; congruence. Qed.

Lemma save_restart_ok c step s : sc_save (uc_sol c) = true -> sc_can (uc_sol c) (restart_name (uc_sol c) step) = true ->
  exists fs, save_restart c step s = Ok (USt (us_U s) (us_step s) (us_rhs s) (us_time s) fs (us_snaps s) (us_vis s)) /\
    fs (restart_name (uc_sol c) step) = Some (SFile (Some ([List.length (bv_dat (us_U s))], bv_dat (us_U s))) (Some step) (Some (us_time s))) /\
    forall x, x <> restart_name (uc_sol c) step -> fs x = us_files s x.
Proof.
  intros Hs Hc. set (nm := restart_name (uc_sol c) step) in *. assert (Nm : sol_name (uc_sol c) nm = nm).
  { unfold sol_name. destruct (String.eqb_spec nm ""); [|reflexivity]. exfalso. apply (restart_name_nonempty (uc_sol c) step). exact e. }
  unfold save_restart. fold nm. unfold save_with_time, save_solution. rewrite Hs. cbn [negb]. cbv zeta. rewrite Nm, Hc. cbn [oassert obind]. rewrite fput_eq.
  unfold add_step, add_time. cbn [sf_step sf_time sf_sol obind]. eexists. split; [reflexivity|]. split; [apply fput_eq|].
  intros x Hx. rewrite !fput_ne by auto. reflexivity.
Qed.

(** Increasing lists that grow at the end *)
Lemma sorted_snoc l x : StronglySorted lt l -> (forall k, In k l -> (k < x)%nat) -> StronglySorted lt (l ++ [x]).
Proof.
  induction l as [|a l IH]; intros H B; cbn; [repeat constructor|]. inversion H as [|? ? H1 H2]; subst. constructor.
  - apply IH; auto. intros k Hk. apply B. right. auto.
  - rewrite Forall_app. split; auto. constructor; [|constructor]. apply B. left. reflexivity.
Qed.
Lemma picks_yes l n P : picks l n P -> P (S n) -> picks (l ++ [S n]) (S n) P.
Proof.
  intros (H & I) Y. split; [apply sorted_snoc; auto; intros k Hk; apply I in Hk; lia|]. intros k. rewrite in_app_iff, I. cbn. split.
  - intros [((A & B) & C)|[<-|[]]]; split; auto; lia.
  - intros (A & B). destruct (Nat.eq_dec k (S n)) as [->|]; [right; auto|left; split; [lia|auto]].
Qed.
Lemma picks_no l n P : picks l n P -> ~ P (S n) -> picks l (S n) P.
Proof.
  intros (H & I) N. split; auto. intros k. rewrite I. split; intros (A & B); (split; [|auto]); try lia. destruct (Nat.eq_dec k (S n)) as [->|]; [contradiction|lia].
Qed.
Lemma picks_0 P : picks [] 0 P.
Proof. split; [constructor|]. intros k. cbn. lia. Qed.

Section Loop.
  Variables (c : ucfg) (o : uops) (vs : nat -> nat -> nat).
  Hypothesis OK : setup_ok c o vs.
  Local Notation ns := (uc_ns c).
  Local Notation NU := (nu ns vs).
  Local Notation NP := (np ns vs).
  Variables (off : list nat) (rhs : bvec).
  Hypothesis Eo : offsets_byvar ns 2 (fo_u (uc_fo c)) (fo_p (uc_fo c)) = Ok off.
  Hypothesis Sr : sub_shaped ns 2 vs rhs.
  Variables (first : Z) (t0 : R) (u0 : bvec) (f0 : files) (p0 : list bvec) (v0 : list (Z * R * bvec)).
  Hypothesis F0 : (0 <= first)%Z.
  Hypothesis Wr : writable c.
  Local Notation at_ k := (first + Z.of_nat k)%Z.
  Local Notation time_ k := (t0 + INR k * uc_dt c).

  Definition synced (k j : nat) : Prop := (j <= k)%nat /\ (j = O \/ on_schedule (uc_vint c) (at_ j) \/ sampled c (at_ j)) /\
    forall i, (j < i <= k)%nat -> ~ on_schedule (uc_vint c) (at_ i) /\ ~ sampled c (at_ i).

  Definition file_of (u : bvec) (k : nat) : sfile := restart_file u (at_ k) (time_ k).

  Record inv (k : nat) (s : ust) (Y : nat -> vec) (Us : nat -> bvec) : Prop := {
    iv_traj : trajectory c o vs rhs u0 t0 k Y Us;
    iv_step : us_step s = BVec off (Y k);
    iv_rhs : exists w, us_rhs s = BVec off w /\ List.length w = (NU + NP)%nat;
    iv_time : us_time s = time_ k;
    iv_U : exists j, us_U s = Us j /\ synced k j;
    iv_snaps : exists l, us_snaps s = p0 ++ map Us l /\ picks l k (fun i => sampled c (at_ i));
    iv_vis : exists l, us_vis s = v0 ++ map (fun i => (at_ i, time_ i, Us i)) l /\ picks l k (fun i => uc_vsave c = true /\ on_schedule (uc_vint c) (at_ i));
    iv_file : forall i, (1 <= i <= k)%nat -> saved c (at_ i) -> exists j, copied c first i j /\ us_files s (restart_name (uc_sol c) (at_ i)) = Some (file_of (Us j) i);
    iv_others : forall x, (forall i, (1 <= i <= k)%nat -> saved c (at_ i) -> x <> restart_name (uc_sol c) (at_ i)) -> us_files s x = f0 x
  }.

  Lemma synced_copied k j : synced k j -> ~ on_schedule (uc_vint c) (at_ (S k)) -> copied c first (S k) j.
  Proof.
    intros (A & B & C) N. split; [lia|]. split.
    - destruct B as [->|[B|B]]; auto. right. right. split; [lia|auto].
    - intros i Hi. destruct (Nat.eq_dec i (S k)) as [->|Ne].
      + split; [auto|]. intros H. lia.
      + destruct (C i ltac:(lia)) as (C1 & C2). auto.
  Qed.
  Lemma vis_copied k : on_schedule (uc_vint c) (at_ (S k)) -> copied c first (S k) (S k).
  Proof. intros H. split; [lia|]. split; [auto|]. intros i Hi. lia. Qed.
  Lemma copied_synced k j : copied c first k j -> ~ sampled c (at_ k) -> synced k j.
  Proof.
    intros (A & B & C) N. split; [auto|]. split; [destruct B as [B|[B|(_ & B)]]; auto|]. intros i Hi. destruct (C i Hi) as (C1 & C2). split; auto.
    destruct (Nat.eq_dec i k) as [->|Ne]; auto. apply C2. lia.
  Qed.
  Lemma sampled_synced k : sampled c (at_ k) -> synced k k.
  Proof. intros H. split; [lia|]. split; [auto|]. intros i Hi. lia. Qed.

  Lemma names_differ i j : i <> j -> restart_name (uc_sol c) (at_ i) <> restart_name (uc_sol c) (at_ j).
  Proof. intros N E. apply restart_name_inj in E; lia. Qed.

  Lemma traj_snoc k Y Us y u : trajectory c o vs rhs u0 t0 k Y Us -> advances c o vs rhs (time_ k) (Y k) y -> same_solution ns vs y u -> bv_off u = bv_off u0 ->
    trajectory c o vs rhs u0 t0 (S k) (fun i => if (i =? S k)%nat then y else Y i) (fun i => if (i =? S k)%nat then u else Us i).
  Proof.
    intros (A & B & C) Ad Sa Of. split; [exact A|]. split.
    - intros i Hi. destruct (Nat.eqb_spec i (S k)) as [->|N]; [auto|]. apply B. lia.
    - intros i Hi. destruct (Nat.eqb_spec i (S k)) as [->|N]; [lia|]. destruct (Nat.eqb_spec (S i) (S k)) as [E|N']; [|apply C; lia].
      injection E as ->. exact Ad.
  Qed.
  Lemma map_same {B} (f g : nat -> B) l k : picks l k (fun _ => True) \/ (forall i, In i l -> (i <= k)%nat) -> (forall i, (i <= k)%nat -> f i = g i) -> map f l = map g l.
  Proof. intros H E. apply map_ext_in. intros i Hi. apply E. destruct H as [(_ & H)|H]; [apply H in Hi; lia|auto]. Qed.

  Lemma body_ok k s Y Us : inv k s Y Us -> exists s' Y' Us', loop_body c o rhs s (at_ k) = Ok s' /\ inv (S k) s' Y' Us' /\ (forall i, (i <= k)%nat -> Y' i = Y i /\ Us' i = Us i).
  Proof.
    intros [Tr Es (w & Ew & Lw) Et (j & Ej & Sj) (lp & Ep & Pp) (lv & Ev & Pv) Fi Fo]. pose proof Tr as (T0 & T1 & T2).
    destruct (T1 k (le_n _)) as ((Ly & Suk & _) & _).
    destruct (time_step_ok c o vs OK off rhs (Y k) w s Sr Eo Es Ew Ly Lw) as (y & w' & E1 & Lw' & Ad). unfold loop_body. rw_bind E1.
    pose proof (proj1 Ad) as Lyn. cbv beta zeta in Lyn.
    assert (Suj : sub_shaped ns 2 vs (us_U s) /\ bv_off (us_U s) = bv_off u0).
    { rewrite Ej. destruct Sj as (Hj & _). destruct (T1 j Hj) as ((_ & S1 & _) & S2). auto. }
    destruct Suj as (Suj & Ouj). rewrite Et in Ad |- *.
    set (s1 := USt (us_U s) (BVec off y) (BVec off w') (time_ k + uc_dt c) (us_files s) (us_snaps s) (us_vis s)).
    destruct (sync_ok c o vs OK off y s1 Eo eq_refl Lyn Suj) as (u & Ey & Sy & Oy). cbn [s1 us_U us_step us_rhs us_time us_files us_snaps us_vis] in Ey, Oy.
    assert (Tn : time_ k + uc_dt c = time_ (S k)) by (rewrite S_INR; ring).
    set (Y' := fun i => if (i =? S k)%nat then y else Y i). set (Us' := fun i => if (i =? S k)%nat then u else Us i).
    assert (Old : forall i, (i <= k)%nat -> Y' i = Y i /\ Us' i = Us i) by (intros i Hi; unfold Y', Us'; rewrite (proj2 (Nat.eqb_neq i (S k))) by lia; auto).
    assert (Tr' : trajectory c o vs rhs u0 t0 (S k) Y' Us') by (apply traj_snoc; auto; congruence).
    assert (Yn : Y' (S k) = y) by (unfold Y'; rewrite Nat.eqb_refl; reflexivity). assert (Un : Us' (S k) = u) by (unfold Us'; rewrite Nat.eqb_refl; reflexivity).
    replace (at_ k + 1)%Z with (at_ (S k)) by lia.
    (* visualization *)
    assert (V : exists s2, (if due (uc_vint c) (at_ (S k)) then visualize c (at_ (S k)) s1 else Ok s1) = Ok s2 /\
      us_step s2 = BVec off y /\ us_rhs s2 = BVec off w' /\ us_time s2 = time_ (S k) /\ us_files s2 = us_files s /\ us_snaps s2 = us_snaps s /\
      (exists j', us_U s2 = Us' j' /\ copied c first (S k) j') /\
      (exists l, us_vis s2 = v0 ++ map (fun i => (at_ i, time_ i, Us' i)) l /\ picks l (S k) (fun i => uc_vsave c = true /\ on_schedule (uc_vint c) (at_ i)))).
    { assert (Ev' : us_vis s = v0 ++ map (fun i => (at_ i, time_ i, Us' i)) lv).
      { rewrite Ev. f_equal. apply (map_same _ _ lv k); [right; intros i Hi; apply (proj2 Pv) in Hi; lia|]. intros i Hi. rewrite (proj2 (Old i Hi)). reflexivity. }
      destruct (due (uc_vint c) (at_ (S k))) eqn:Dv.
      - apply due_iff in Dv. unfold visualize. rw_bind Ey. cbn [us_U us_step us_rhs us_time us_files us_snaps us_vis s1]. destruct (uc_vsave c) eqn:Sv.
        + eexists. split; [reflexivity|]. cbn [us_U us_step us_rhs us_time us_files us_snaps us_vis]. split; [auto|]. split; [auto|]. split; [auto|]. split; [auto|]. split; [auto|].
          split; [exists (S k); split; [auto|apply vis_copied; auto]|]. exists (lv ++ [S k]). split; [|apply picks_yes; auto].
          rewrite map_app, app_assoc, Ev', Tn. cbn [map]. rewrite Un. reflexivity.
        + eexists. split; [reflexivity|]. cbn [us_U us_step us_rhs us_time us_files us_snaps us_vis]. split; [auto|]. split; [auto|]. split; [auto|]. split; [auto|]. split; [auto|].
          split; [exists (S k); split; [auto|apply vis_copied; auto]|]. exists lv. split; [exact Ev'|]. apply picks_no; auto. intros (Q & _). discriminate.
      - apply due_not in Dv. eexists. split; [reflexivity|]. cbn [us_U us_step us_rhs us_time us_files us_snaps us_vis s1]. split; [auto|]. split; [auto|]. split; [auto|]. split; [auto|]. split; [auto|].
        split; [exists j; split; [rewrite Ej; symmetry; apply Old; destruct Sj; auto|apply synced_copied; auto]|]. exists lv. split; [exact Ev'|]. apply picks_no; auto. intros (_ & Q). auto. }
    destruct V as (s2 & E2 & A1 & A2 & A3 & A4 & A5 & (j2 & A6 & C2) & A7). rw_bind E2. clear E2.
    (* restart file *)
    assert (V : exists s3, (if sc_save (uc_sol c) && due (uc_restart c) (at_ (S k)) then save_restart c (at_ (S k)) s2 else Ok s2) = Ok s3 /\
      us_U s3 = us_U s2 /\ us_step s3 = us_step s2 /\ us_rhs s3 = us_rhs s2 /\ us_time s3 = us_time s2 /\ us_snaps s3 = us_snaps s2 /\ us_vis s3 = us_vis s2 /\
      (forall i, (1 <= i <= S k)%nat -> saved c (at_ i) -> exists j, copied c first i j /\ us_files s3 (restart_name (uc_sol c) (at_ i)) = Some (file_of (Us' j) i)) /\
      (forall x, (forall i, (1 <= i <= S k)%nat -> saved c (at_ i) -> x <> restart_name (uc_sol c) (at_ i)) -> us_files s3 x = f0 x)).
    { assert (Fi' : forall i, (1 <= i <= k)%nat -> saved c (at_ i) -> exists j, copied c first i j /\ us_files s (restart_name (uc_sol c) (at_ i)) = Some (file_of (Us' j) i)).
      { intros i Hi Hs. destruct (Fi i Hi Hs) as (ji & Ci & Q). exists ji. split; auto. rewrite Q. rewrite (proj2 (Old ji ltac:(destruct Ci; lia))). reflexivity. }
      destruct (sc_save (uc_sol c) && due (uc_restart c) (at_ (S k)))%bool eqn:Ds.
      - apply andb_true_iff in Ds. destruct Ds as (D1 & D2). apply due_iff in D2. destruct (save_restart_ok c (at_ (S k)) s2 D1 (Wr _)) as (fs & E3 & G1 & G2).
        eexists. split; [exact E3|]. cbn [us_U us_step us_rhs us_time us_files us_snaps us_vis]. do 6 (split; [reflexivity|]). split.
        + intros i Hi Hs. destruct (Nat.eq_dec i (S k)) as [->|Ne].
          * exists j2. split; auto. rewrite G1, A3, A6. reflexivity.
          * destruct (Fi' i ltac:(lia) Hs) as (ji & Ci & Q). exists ji. split; auto. rewrite G2 by (apply names_differ; auto). rewrite A4. exact Q.
        + intros x Hx. rewrite G2 by (apply Hx; [lia|split; auto]). rewrite A4. apply Fo. intros i Hi. apply Hx. lia.
      - assert (Nn : ~ saved c (at_ (S k))). { intros (D1 & D2). apply due_iff in D2. rewrite D1, D2 in Ds. discriminate. }
        eexists. split; [reflexivity|]. do 6 (split; [reflexivity|]). rewrite A4. split.
        + intros i Hi Hs. destruct (Nat.eq_dec i (S k)) as [->|Ne]; [contradiction|]. apply Fi'; auto. lia.
        + intros x Hx. apply Fo. intros i Hi. apply Hx. lia. }
    destruct V as (s3 & E3 & B1 & B2 & B3 & B4 & B5 & B6 & B7 & B8). rw_bind E3. clear E3.
    (* snapshot *)
    assert (Ep' : us_snaps s = p0 ++ map Us' lp).
    { rewrite Ep. f_equal. apply (map_same _ _ lp k); [right; intros i Hi; apply (proj2 Pp) in Hi; lia|]. intros i Hi. rewrite (proj2 (Old i Hi)). reflexivity. }
    change (uc_gen c && negb (uc_sint c =? 0)%Z && (uc_boot c <? at_ (S k))%Z && (Z.rem (at_ (S k)) (uc_sint c) =? 0)%Z)%bool with (samplingb c (at_ (S k))).
    destruct (samplingb c (at_ (S k))) eqn:Dp.
    - apply sampling_iff in Dp.
      assert (Su3 : sub_shaped ns 2 vs (us_U s3) /\ bv_off (us_U s3) = bv_off u0).
      { rewrite B1, A6. destruct Tr' as (_ & T1' & _). destruct (T1' j2 (proj1 C2)) as ((_ & S1 & _) & S2). auto. }
      destruct Su3 as (Su3 & Ou3). destruct (sync_ok c o vs OK off y s3 Eo ltac:(congruence) Lyn Su3) as (u3 & E3 & S3 & O3).
      assert (u3 = u) by (apply (same_unique c vs y); auto; congruence). subst u3.
      unfold snapshot. rw_bind E3. cbn [us_U us_step us_rhs us_time us_files us_snaps us_vis]. eexists. exists Y', Us'. split; [reflexivity|]. split; [|exact Old].
      split; cbn [us_U us_step us_rhs us_time us_files us_snaps us_vis].
      + exact Tr'.
      + rewrite B2, A1, Yn. reflexivity.
      + exists w'. split; [congruence|auto].
      + congruence.
      + exists (S k). split; [auto|apply sampled_synced; auto].
      + exists (lp ++ [S k]). split; [|apply picks_yes; auto]. rewrite B5, A5, Ep', map_app, app_assoc. cbn [map]. rewrite Un. reflexivity.
      + destruct A7 as (l & Q1 & Q2). exists l. split; [congruence|auto].
      + exact B7.
      + exact B8.
    - apply sampling_not in Dp. eexists. exists Y', Us'. split; [reflexivity|]. split; [|exact Old]. split.
      + exact Tr'.
      + rewrite B2, A1, Yn. reflexivity.
      + exists w'. split; [congruence|auto].
      + congruence.
      + exists j2. split; [congruence|]. apply copied_synced; auto.
      + exists lp. split; [congruence|apply picks_no; auto].
      + destruct A7 as (l & Q1 & Q2). exists l. split; [congruence|auto].
      + exact B7.
      + exact B8.
  Qed.

  Lemma loop_ok n s Y Us : inv 0 s Y Us -> exists s' Y' Us', ofor n (fun s k => loop_body c o rhs s (at_ k)) s = Ok s' /\ inv n s' Y' Us' /\ Y' O = Y O.
  Proof.
    intros H. destruct (ofor_inv n (fun s k => loop_body c o rhs s (at_ k)) (fun k s => exists Y' Us', inv k s Y' Us' /\ Y' O = Y O) s) as (s' & E & Y' & Us' & I' & Z).
    - exists Y, Us. auto.
    - intros k t Hk (Y1 & U1 & I1 & Z1). destruct (body_ok k t Y1 U1 I1) as (t' & Y2 & U2 & E & I2 & Old). exists t'. split; auto. exists Y2, U2. split; auto.
      rewrite <- Z1. apply Old. lia.
    - exists s', Y', Us'. auto.
  Qed.
End Loop.
