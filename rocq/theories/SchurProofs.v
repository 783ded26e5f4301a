From Coq Require Import Reals List Bool Lia Arith ZArith Lra.
From Verif Require Import Outcome ListLemmas LaBase BlockVec IntegModel LinalgModel LinalgSpec LinalgProofs LinalgGsProofs MbModel MbSpec MbVecProofs MbFlowProofs StdySpec StdyProofs SchurModel SchurSpec.
Import ListNotations.
Local Open Scope list_scope.
Local Open Scope R_scope.

Lemma amul_length h w A x : List.length (amul h w A x) = h.
Proof. unfold amul. rewrite map_length, seq_length. auto. Qed.
Lemma amul_t_length h w A x : List.length (amul_t h w A x) = w.
Proof. unfold amul_t. rewrite map_length, seq_length. auto. Qed.

Lemma vnth_map_seq (f : nat -> R) n i : (i < n)%nat -> vnth (map f (seq 0 n)) i = f i.
Proof.
  intros H. unfold vnth. rewrite (nth_indep _ 0 (f 0%nat)) by (rewrite map_length, seq_length; auto). rewrite map_nth, seq_nth by auto. auto.
Qed.
Lemma amul_nth h w A x i : (i < h)%nat -> vnth (amul h w A x) i = rsum w (fun j => A i j * vnth x j).
Proof. apply (vnth_map_seq (fun i => rsum w (fun j => A i j * vnth x j))). Qed.
Lemma amul_t_nth h w A x j : (j < w)%nat -> vnth (amul_t h w A x) j = rsum h (fun i => A i j * vnth x i).
Proof. apply (vnth_map_seq (fun j => rsum h (fun i => A i j * vnth x i))). Qed.

Lemma vscale_nth a (v : vec) i : (i < List.length v)%nat -> vnth (vscale a v) i = a * vnth v i.
Proof. intros H. unfold vnth, vscale. rewrite (nth_indep _ 0 (a * 0)) by (rewrite map_length; auto). rewrite (map_nth (fun x => a * x)). auto. Qed.
Lemma vscale_length a (v : vec) : List.length (vscale a v) = List.length v.
Proof. apply map_length. Qed.

Lemma ortho_length v : List.length (orthogonalize v) = List.length v.
Proof. apply map_length. Qed.
Lemma ortho_nth v i : (i < List.length v)%nat -> vnth (orthogonalize v) i = vnth v i - rsum (List.length v) (vnth v) / INR (List.length v).
Proof.
  intros H. unfold orthogonalize. set (c := _ / _). unfold vnth. rewrite (nth_indep _ 0 (0 - c)) by (rewrite map_length; auto). rewrite (map_nth (fun x => x - c)). auto.
Qed.
Lemma ortho_sum v : (0 < List.length v)%nat -> rsum (List.length v) (vnth (orthogonalize v)) = 0.
Proof.
  intros H. set (n := List.length v) in *. rewrite (rsum_ext n _ (fun i => vnth v i - rsum n (vnth v) / INR n)).
  - rewrite rsum_minus, rsum_const. field. apply not_0_INR. lia.
  - intros i Hi. apply ortho_nth. auto.
Qed.

Section Solve.
  Variables (ns udim : nat) (vs : nat -> nat -> nat) (ndofs : nat -> nat -> nat) (vdim : nat -> nat) (fo : flow_off).
  Hypothesis Hu : udim = (vdim 0 + vdim 1)%nat.
  Hypothesis Ef : flow_offsets ns 2 udim vs ndofs vdim = Ok fo.
  Let nu := nsum ns (fun m => vs m 0%nat).
  Let np := nsum ns (fun m => vs m 1%nat).
  Variables (pres_dbc : bool) (M B : fm) (cg cgs : vec -> vec -> vec * bool) (minres : (vec -> outcome vec) -> vec -> vec -> outcome vec) (tol : R) (rhs u : bvec).
  Hypothesis Sr : sub_shaped ns 2 vs rhs.
  Hypothesis Su : sub_shaped ns 2 vs u.
  Hypothesis Hcg : cg_sound nu M tol cg.
  Hypothesis Hsz : solver_sized np minres.

  Lemma off_facts : nth ns (fo_u fo) 0%nat = nu /\ nth ns (fo_p fo) 0%nat = np /\
    (forall d : vec, List.length d = nu -> shaped ns (fun m => vs m 0%nat) (BVec (fo_u fo) d)) /\
    (forall d : vec, List.length d = np -> shaped ns (fun m => vs m 1%nat) (BVec (fo_p fo) d)) /\
    (forall m, (m <= ns)%nat -> nth m (fo_u fo) 0%nat = nsum m (fun m => vs m 0%nat)) /\ (forall m, (m <= ns)%nat -> nth m (fo_p fo) 0%nat = nsum m (fun m => vs m 1%nat)).
  Proof.
    destruct (flow_offsets_ok ns udim vs ndofs vdim Hu) as (fo' & E' & _ & _ & _ & _ & Ou & Op & _). rewrite Ef in E'. injection E' as <-.
    assert (U : forall m, (m <= ns)%nat -> nth m (fo_u fo) 0%nat = nsum m (fun m => vs m 0%nat)) by (intros m Hm; apply (offsets_nsum _ _ _ m Ou Hm)).
    assert (P : forall m, (m <= ns)%nat -> nth m (fo_p fo) 0%nat = nsum m (fun m => vs m 1%nat)) by (intros m Hm; apply (offsets_nsum _ _ _ m Op Hm)).
    split; [apply U; lia|]. split; [apply P; lia|]. split; [|split; [|auto]].
    - intros d Hd. destruct Ou as (L & Z & H). split; [exact L|]. split; [exact Z|]. split; [exact H|]. cbn [bv_dat bv_off]. rewrite U by lia. exact Hd.
    - intros d Hd. destruct Op as (L & Z & H). split; [exact L|]. split; [exact Z|]. split; [exact H|]. cbn [bv_dat bv_off]. rewrite P by lia. exact Hd.
  Qed.

  (** What a successful solve has done *)
  Lemma schur_run u' : schur_solve ns (fo_u fo) (fo_p fo) pres_dbc M B cg cgs minres rhs u = Ok u' ->
    exists (f g r1 p v : vec), sub_shaped ns 2 vs u' /\ ordered ns vs rhs (f ++ g) /\ ordered ns vs u' (v ++ p) /\
      List.length f = nu /\ List.length g = np /\ List.length v = nu /\ List.length p = np /\
      cg f (repeat 0 nu) = (r1, true) /\ cg (vadd (vscale (-1) (amul_t np nu B p)) 1 f) (repeat 0 nu) = (v, true) /\
      (let r2 := vadd (amul np nu B r1) (-1) g in
       if pres_dbc then minres (schur_mult nu np B cgs) r2 (repeat 0 np) = Ok p
       else exists p', minres (schur_mult nu np B cgs) (orthogonalize r2) (repeat 0 np) = Ok p' /\ List.length p' = np /\ p = orthogonalize p').
  Proof.
    destruct off_facts as (Nu & Np & Shu & Shp & U & P). intros E. unfold schur_solve in E. rewrite Nu, Np in E.
    destruct (get_var_ok ns 2 vs 0 rhs (BVec (fo_u fo) (repeat 0 nu)) ltac:(lia) Sr (Shu _ (repeat_length _ _))) as ([ou f] & E1 & S1 & O1 & V1).
    destruct (get_var_ok ns 2 vs 1 rhs (BVec (fo_p fo) (repeat 0 np)) ltac:(lia) Sr (Shp _ (repeat_length _ _))) as ([op g] & E2 & S2 & O2 & V2).
    cbn [bv_off] in O1, O2. subst ou op. change (Z.of_nat 0) with 0%Z in E1. change (Z.of_nat 1) with 1%Z in E2. rewrite E1, E2 in E. cbn [obind bv_dat] in E.
    assert (Lf : List.length f = nu). { destruct S1 as (_ & _ & _ & L). cbn [bv_dat bv_off] in L. rewrite L, U by lia. reflexivity. }
    assert (Lg : List.length g = np). { destruct S2 as (_ & _ & _ & L). cbn [bv_dat bv_off] in L. rewrite L, P by lia. reflexivity. }
    destruct (cg f (repeat 0 nu)) as [r1 [|]] eqn:C1; [|discriminate]. cbn [negb] in E.
    apply obind_ok in E as (p & Ep & E).
    assert (L2 : List.length (vadd (amul np nu B r1) (-1) g) = np). { rewrite vadd_length; rewrite amul_length; auto. }
    assert (Hp : List.length p = np /\ if pres_dbc then minres (schur_mult nu np B cgs) (vadd (amul np nu B r1) (-1) g) (repeat 0 np) = Ok p
       else exists p', minres (schur_mult nu np B cgs) (orthogonalize (vadd (amul np nu B r1) (-1) g)) (repeat 0 np) = Ok p' /\ List.length p' = np /\ p = orthogonalize p').
    { destruct pres_dbc.
      - split; [|exact Ep]. eapply Hsz; [exact L2|apply repeat_length|exact Ep].
      - unfold ortho_mult in Ep. apply obind_ok in Ep as (p' & Ep & E3). injection E3 as <-. assert (L' : List.length p' = np).
        { eapply Hsz; [|apply repeat_length|exact Ep]. rewrite ortho_length. exact L2. }
        rewrite ortho_length. split; auto. exists p'. auto. }
    destruct Hp as (Lp & Hp).
    assert (Lt : List.length (vscale (-1) (amul_t np nu B p)) = nu) by (rewrite vscale_length; apply amul_t_length).
    destruct (cg (vadd (vscale (-1) (amul_t np nu B p)) 1 f) (repeat 0 nu)) as [v [|]] eqn:C2; [|discriminate]. cbn [negb] in E.
    assert (LF : List.length (vadd (vscale (-1) (amul_t np nu B p)) 1 f) = nu) by (rewrite vadd_length; congruence).
    destruct (Hcg _ _ _ LF (repeat_length 0 nu) C2) as (Lv & _).
    destruct (set_var_ok ns 2 vs 0 u (BVec (fo_u fo) v) ltac:(lia) Su (Shu _ Lv)) as (u1 & E3 & S3 & O3 & V3 & W3).
    change (Z.of_nat 0) with 0%Z in E3. rewrite E3 in E. cbn [obind] in E.
    destruct (set_var_ok ns 2 vs 1 u1 (BVec (fo_p fo) p) ltac:(lia) S3 (Shp _ Lp)) as (u2 & E4 & S4 & O4 & V4 & W4).
    change (Z.of_nat 1) with 1%Z in E4. rewrite E4 in E. injection E as <-.
    exists f, g, r1, p, v. split; [exact S4|].
    assert (Ord : forall (a c : vec) b, List.length a = nu -> List.length c = np ->
      (forall m k, (m < ns)%nat -> (k < vs m 0)%nat -> bentry (BVec (fo_u fo) a) m k = bentry b (by_sub 2 m 0) k) ->
      (forall m k, (m < ns)%nat -> (k < vs m 1)%nat -> bentry (BVec (fo_p fo) c) m k = bentry b (by_sub 2 m 1) k) -> ordered ns vs b (a ++ c)).
    { intros a c b La Lc Ha Hc. split; [rewrite app_length, La, Lc; reflexivity|]. split; intros m k Hm Hk.
      - rewrite <- Ha by auto. unfold bentry, vnth. cbn [bv_dat bv_off]. rewrite U by lia. apply app_nth1. rewrite La. apply (nsum_inside ns (fun m => vs m 0%nat)); auto.
      - rewrite <- Hc by auto. unfold bentry, vnth. cbn [bv_dat bv_off]. rewrite P by lia. fold nu. rewrite app_nth2 by lia. f_equal. lia. }
    split; [apply Ord; auto|]. split; [apply Ord; auto|].
    - intros m k Hm Hk. rewrite W4 by (auto; lia). symmetry. apply V3; auto.
    - intros m k Hm Hk. symmetry. apply V4; auto.
    - do 4 (split; [assumption|]). split; [exact C1|]. split; [exact C2|]. exact Hp.
  Qed.

  Lemma vnth_app1 (a c : vec) i : (i < List.length a)%nat -> vnth (a ++ c) i = vnth a i.
  Proof. apply app_nth1. Qed.
  Lemma vnth_app2 (a c : vec) i n : List.length a = n -> vnth (a ++ c) (n + i) = vnth c i.
  Proof. intros <-. unfold vnth. rewrite app_nth2 by lia. f_equal. lia. Qed.

  (** The momentum equation holds to the tolerance of the velocity solver. *)
  Lemma schur_momentum u' : schur_solve ns (fo_u fo) (fo_p fo) pres_dbc M B cg cgs minres rhs u = Ok u' ->
    exists b x, sub_shaped ns 2 vs u' /\ ordered ns vs rhs b /\ ordered ns vs u' x /\ forall i, (i < nu)%nat -> Rabs (momentum nu np M B b x i) <= tol.
  Proof.
    intros E. destruct (schur_run u' E) as (f & g & r1 & p & v & S' & Of & Ov & Lf & Lg & Lv & Lp & _ & C2 & _).
    exists (f ++ g), (v ++ p). do 3 (split; [assumption|]). intros i Hi.
    assert (Lt : List.length (vscale (-1) (amul_t np nu B p)) = nu) by (rewrite vscale_length; apply amul_t_length).
    assert (LF : List.length (vadd (vscale (-1) (amul_t np nu B p)) 1 f) = nu) by (rewrite vadd_length; congruence).
    destruct (Hcg _ _ _ LF (repeat_length 0 nu) C2) as (_ & H). specialize (H i Hi).
    rewrite vadd_nth in H by congruence. rewrite vscale_nth in H by (rewrite amul_t_length; auto). rewrite amul_t_nth in H by auto.
    unfold momentum. rewrite (vnth_app1 f) by lia.
    rewrite (rsum_ext nu _ (fun k => M i k * vnth v k)) by (intros k Hk; rewrite vnth_app1 by lia; auto).
    rewrite (rsum_ext np _ (fun q => B q i * vnth p q)) by (intros q Hq; rewrite (vnth_app2 v p q nu) by auto; auto).
    replace (rsum nu (fun k => M i k * vnth v k) + rsum np (fun q => B q i * vnth p q) - vnth f i)
      with (rsum nu (fun k => M i k * vnth v k) - (-1 * rsum np (fun i0 => B i0 i * vnth p i0) + 1 * vnth f i)) by lra. exact H.
  Qed.

  Lemma schur_divergence u' : tol = 0 -> injective nu M -> cg_sound nu M 0 cgs -> solver_exact np minres ->
    (pres_dbc = false -> constants_free nu np B /\ (0 < np)%nat) ->
    schur_solve ns (fo_u fo) (fo_p fo) pres_dbc M B cg cgs minres rhs u = Ok u' ->
    exists b x, sub_shaped ns 2 vs u' /\ ordered ns vs rhs b /\ ordered ns vs u' x /\
      (forall i, (i < nu)%nat -> momentum nu np M B b x i = 0) /\
      (forall q, (q < np)%nat -> divergence nu B b x q = if pres_dbc then 0 else - mean_p nu np b) /\
      (pres_dbc = false -> rsum np (fun q => vnth x (nu + q)) = 0).
  Proof.
    intros Ht Hinj Hcgs Hex Hfree E. destruct (schur_run u' E) as (f & g & r1 & p & v & S' & Of & Ov & Lf & Lg & Lv & Lp & C1 & C2 & Hp).
    destruct (schur_momentum u' E) as (b & x & _ & Ob & Ox & Hm). rewrite (ordered_unique _ _ _ _ _ Ob Of) in Hm. rewrite (ordered_unique _ _ _ _ _ Ox Ov) in Hm. clear b x Ob Ox.
    exists (f ++ g), (v ++ p). do 3 (split; [assumption|]).
    assert (Hm0 : forall i, (i < nu)%nat -> momentum nu np M B (f ++ g) (v ++ p) i = 0).
    { intros i Hi. specialize (Hm i Hi). rewrite Ht in Hm. pose proof (Rabs_pos (momentum nu np M B (f ++ g) (v ++ p) i)) as Q.
      destruct (Req_dec (momentum nu np M B (f ++ g) (v ++ p) i) 0) as [|N]; auto. apply Rabs_pos_lt in N. lra. }
    split; [exact Hm0|].
    (* the pressure [p'] that the Schur complement was solved for, and its right-hand side *)
    assert (Hz : forall h, cg_sound nu M 0 h -> forall b x, List.length b = nu -> h b (repeat 0 nu) = (x, true) -> List.length x = nu /\ forall i, (i < nu)%nat -> rsum nu (fun k => M i k * vnth x k) = vnth b i).
    { intros h Hh b x Lb Eh. destruct (Hh b _ x Lb (repeat_length 0 nu) Eh) as (Lx & H). split; auto. intros i Hi. specialize (H i Hi).
      set (d := _ - _) in H. assert (d = 0); [|unfold d in *; lra]. pose proof (Rabs_pos d). destruct (Req_dec d 0) as [|N]; auto. apply Rabs_pos_lt in N. lra. }
    assert (Hcg0 : cg_sound nu M 0 cg) by (rewrite <- Ht; exact Hcg).
    destruct (Hz cg Hcg0 f r1 Lf C1) as (Lr1 & Hr1).
    set (r2 := vadd (amul np nu B r1) (-1) g) in Hp. cbn zeta in Hp.
    assert (L2 : List.length r2 = np). { unfold r2. rewrite vadd_length; rewrite amul_length; auto. }
    assert (N2 : forall q, (q < np)%nat -> vnth r2 q = rsum nu (fun k => B q k * vnth r1 k) - vnth g q).
    { intros q Hq. unfold r2. rewrite vadd_nth by (rewrite amul_length; auto). rewrite amul_nth by auto. lra. }
    assert (Core : exists p' r, List.length p' = np /\ List.length r = np /\ minres (schur_mult nu np B cgs) r (repeat 0 np) = Ok p' /\
      (forall i, (i < nu)%nat -> rsum np (fun q => B q i * vnth p' q) = rsum np (fun q => B q i * vnth p q)) /\
      forall q, (q < np)%nat -> vnth r q = vnth r2 q - if pres_dbc then 0 else rsum np (vnth r2) / INR np).
    { destruct pres_dbc.
      - exists p, r2. do 3 (split; auto). split; auto. intros; lra.
      - destruct Hp as (p' & Ep & Lp' & ->). exists p', (orthogonalize r2). split; auto. split; [rewrite ortho_length; auto|]. split; auto. split.
        + intros i Hi. destruct (Hfree eq_refl) as (Hc & _).
          rewrite (rsum_ext np (fun q => B q i * vnth (orthogonalize p') q) (fun q => B q i * vnth p' q - rsum np (vnth p') / INR np * B q i)).
          * rewrite rsum_minus, rsum_scal, Hc by auto. lra.
          * intros q Hq. rewrite ortho_nth by lia. rewrite Lp'. lra.
        + intros q Hq. rewrite ortho_nth by lia. rewrite L2. auto. }
    destruct Core as (p' & r & Lp' & Lr & Ep & HBp & Hr).
    pose proof (Hex _ _ _ _ Lr (repeat_length 0 np) Ep) as Es. unfold schur_mult in Es.
    destruct (cgs (amul_t np nu B p') (repeat 0 nu)) as [y1 [|]] eqn:Cs; [|discriminate]. injection Es as Es.
    destruct (Hz cgs Hcgs _ _ (amul_t_length _ _ _ _) Cs) as (Ly1 & Hy1).
    assert (Hv : forall i, (i < nu)%nat -> vnth v i - (vnth r1 i - vnth y1 i) = 0).
    { apply (Hinj (fun i => vnth v i - (vnth r1 i - vnth y1 i))). intros i Hi.
      rewrite (rsum_ext nu _ (fun k => M i k * vnth v k - (M i k * vnth r1 k - M i k * vnth y1 k))) by (intros; lra).
      rewrite rsum_minus, rsum_minus, Hr1, Hy1 by auto. rewrite amul_t_nth, HBp by auto. specialize (Hm0 i Hi). unfold momentum in Hm0.
      rewrite (vnth_app1 f) in Hm0 by lia.
      rewrite (rsum_ext nu _ (fun k => M i k * vnth v k)) in Hm0 by (intros k Hk; rewrite vnth_app1 by lia; auto).
      rewrite (rsum_ext np (fun q => B q i * vnth (v ++ p) (nu + q)) (fun q => B q i * vnth p q)) in Hm0 by (intros q Hq; rewrite (vnth_app2 v p q nu) by auto; auto).
      lra. }
    split.
    - intros q Hq. unfold divergence. rewrite (vnth_app2 f g q nu Lf).
      rewrite (rsum_ext nu _ (fun k => B q k * vnth r1 k - B q k * vnth y1 k)).
      2:{ intros k Hk. rewrite vnth_app1 by lia. specialize (Hv k Hk). replace (vnth v k) with (vnth r1 k - vnth y1 k) by lra. lra. }
      rewrite rsum_minus. assert (Eq : rsum nu (fun k => B q k * vnth y1 k) = vnth r q) by (rewrite <- Es; symmetry; apply amul_nth; auto).
      rewrite Eq, Hr, N2 by auto. destruct pres_dbc; [lra|]. destruct (Hfree eq_refl) as (Hc & Hn).
      assert (Em : rsum np (vnth r2) = - rsum np (vnth g)).
      { rewrite (rsum_ext np _ (fun q => rsum nu (fun k => B q k * vnth r1 k) - vnth g q)) by (intros; apply N2; auto). rewrite rsum_minus.
        rewrite rsum_swap. rewrite (rsum_ext nu _ (fun _ => 0)). { rewrite (rsum_zero nu) by auto. lra. }
        intros k Hk. rewrite (rsum_ext np _ (fun q => vnth r1 k * B q k)) by (intros; lra). rewrite rsum_scal, Hc by auto. lra. }
      rewrite Em. unfold mean_p. rewrite (rsum_ext np (fun q => vnth (f ++ g) (nu + q)) (vnth g)) by (intros; apply vnth_app2; auto).
      unfold Rdiv. lra.
    - intros Hd. rewrite Hd in Hp. destruct Hp as (p2 & _ & L' & Ep2). destruct (Hfree Hd) as (_ & Hn).
      rewrite (rsum_ext np _ (vnth p)) by (intros; apply vnth_app2; auto). rewrite Ep2. rewrite <- L'. apply ortho_sum. lia.
  Qed.
End Solve.
