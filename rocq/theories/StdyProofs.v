(** Iterations and steady solves. *)
From Coq Require Import Reals List Bool Lia Arith ZArith Lra String.
From Verif Require Import Outcome ListLemmas LaBase BlockVec LinalgModel LinalgSpec LinalgProofs LinalgGsProofs LinalgBrentProofs RomModel RomSpec MbModel MbSpec MbVecProofs MbFlowProofs
  NsTensorModel NsTensorSpec NsTensorProofs NsFomProofs CgoModel StdyModel StdySpec.
Import ListNotations.
Local Open Scope list_scope.
Local Open Scope R_scope.

(** ** The iteration *)
Section Newton.
  Variables (n : nat) (F : vec -> outcome vec) (next : list vec -> vec -> outcome vec) (b : vec).
  Hypothesis Lb : List.length b = n.
  Hypothesis HF : forall x, List.length x = n -> exists y, F x = Ok y /\ List.length y = n.

  Lemma residual_ok x y : F x = Ok y -> List.length y = n ->
    residual F b x = Ok (vadd y (-1) b) /\ List.length (vadd y (-1) b) = n /\ norm (vadd y (-1) b) = distance n y b /\
    forall i, vnth (vadd y (-1) b) i = vnth y i - vnth b i.
  Proof.
    intros E L. assert (Q : forall i, vnth (vadd y (-1) b) i = vnth y i - vnth b i) by (intros i; rewrite vadd_nth by congruence; ring).
    assert (Lr : List.length (vadd y (-1) b) = n) by (rewrite vadd_length by congruence; exact L).
    split; [unfold residual; rewrite E; cbn [obind]; rewrite L, Lb, Nat.eqb_refl; reflexivity|]. split; [exact Lr|]. split; [|exact Q].
    unfold norm, distance, dot. rewrite Lr. f_equal. apply rsum_ext. intros i _. rewrite Q. reflexivity.
  Qed.

  Lemma history (Xs : nat -> vec) x xs k : map (fun j => match j with O => x | S j => Xs j end) (rev (seq 0 (S (S k)))) ++ xs = map Xs (rev (seq 0 (S k))) ++ x :: xs.
  Proof.
    rewrite (map_rev _ (seq 0 (S (S k)))). rewrite (map_rev Xs). change (seq 0 (S (S k))) with (O :: seq 1 (S k)). cbn [map rev]. rewrite <- app_assoc. cbn [app]. f_equal.
    rewrite <- seq_shift, map_map. reflexivity.
  Qed.

  Definition steps (goal : R) (xs : list vec) (N : nat) (Xs : nat -> vec) : Prop := forall k, (k < N)%nat -> exists y r c, F (Xs k) = Ok y /\ goal < distance n y b /\
    List.length r = n /\ (forall i, (i < n)%nat -> vnth r i = vnth y i - vnth b i) /\ next (map Xs (rev (seq 0 (S k))) ++ xs) r = Ok c /\
    forall i, (i < n)%nat -> vnth (Xs (S k)) i = vnth (Xs k) i - vnth c i.

  Lemma loop_ok goal todo : forall xs (x r x' : vec) cv, List.length x = n -> residual F b x = Ok r -> newton_loop todo F next goal b xs x r = Ok (x', cv) ->
    exists N Xs, Xs O = x /\ Xs N = x' /\ (forall k, (k <= N)%nat -> List.length (Xs k) = n) /\ steps goal xs N Xs /\ ended n F b x' goal todo N cv.
  Proof.
    induction todo as [|todo IH]; intros xs x r x' cv Lx Er E; destruct (HF x Lx) as (y & Ey & Ly); destruct (residual_ok x y Ey Ly) as (Er' & Lr & Nr & Vr);
      rewrite Er in Er'; injection Er' as ->; cbn [newton_loop] in E; rewrite Nr in E; destruct (rltb goal (distance n y b)) eqn:Q.
    - injection E as <- <-. apply rltb_true in Q. exists O, (fun _ => x). repeat split; auto; [intros k Hk; lia|]. exists y. auto.
    - injection E as <- <-. apply rltb_false in Q. exists O, (fun _ => x). repeat split; auto; [intros k Hk; lia|]. exists y. auto.
    - apply rltb_true in Q. apply obind_ok in E as (c & Ec & E). apply oguard_ok in E as (Lc & E). apply Nat.eqb_eq in Lc.
      apply obind_ok in E as (r' & Er' & E). assert (Lx' : List.length (vadd x (-1) c) = n) by (rewrite vadd_length; congruence).
      destruct (IH _ _ _ _ _ Lx' Er' E) as (N & Xs & X0 & XN & XL & St & (En & En')). exists (S N), (fun j => match j with O => x | S j => Xs j end).
      split; [reflexivity|]. split; [exact XN|]. split; [intros [|k] Hk; [exact Lx|apply XL; lia]|]. split.
      + intros [|k] Hk.
        * exists y, (vadd y (-1) b), c. repeat split; auto. intros i _. rewrite X0. rewrite vadd_nth by congruence. ring.
        * destruct (St k ltac:(lia)) as (y1 & r1 & c1 & A1 & A2 & A3 & A4 & A5 & A6). exists y1, r1, c1. repeat split; auto. rewrite history. exact A5.
      + split; [lia|]. destruct En' as (y1 & Ey1 & C). exists y1. split; [exact Ey1|]. destruct cv; [exact C|]. destruct C as (-> & C). auto.
    - injection E as <- <-. apply rltb_false in Q. exists O, (fun _ => x). repeat split; auto; [intros k Hk; lia|lia|]. exists y. auto.
  Qed.

  Lemma loop_total goal todo : (forall xs r, List.length r = n -> exists c, next xs r = Ok c /\ List.length c = n) ->
    forall xs (x r : vec), List.length x = n -> residual F b x = Ok r -> exists x' cv, newton_loop todo F next goal b xs x r = Ok (x', cv).
  Proof.
    intros Hn. induction todo as [|todo IH]; intros xs x r Lx Er; destruct (HF x Lx) as (y & Ey & Ly); destruct (residual_ok x y Ey Ly) as (Er' & Lr & _);
      rewrite Er in Er'; injection Er' as ->; cbn [newton_loop]; destruct (rltb goal _); eauto.
    destruct (Hn (x :: xs) _ Lr) as (c & -> & Lc). cbn [obind]. rewrite Lc, Lx, Nat.eqb_refl. cbn [oguard].
    assert (Lx' : List.length (vadd x (-1) c) = n) by (rewrite vadd_length; congruence). destruct (HF _ Lx') as (y' & Ey' & Ly'). destruct (residual_ok _ _ Ey' Ly') as (Er' & _).
    rewrite Er'. cbn [obind]. apply IH; auto.
  Qed.

  Lemma newton_ok rtol atol maxit x0 y0 x cv : List.length x0 = n -> F x0 = Ok y0 -> newton rtol atol maxit F next b x0 = Ok (x, cv) ->
    let goal := Rmax (rtol * distance n y0 b) atol in
    exists N Xs, iterates n F next b x0 goal N Xs /\ Xs N = x /\ ended n F b x goal maxit N cv.
  Proof.
    intros Lx Ey E goal. assert (Ly : List.length y0 = n) by (destruct (HF x0 Lx) as (y & Ey' & L); congruence). destruct (residual_ok x0 y0 Ey Ly) as (Er & _ & Nr & _). unfold newton in E. rewrite Er in E. cbn [obind] in E. rewrite Nr in E. fold goal in E.
    destruct (loop_ok goal maxit [] x0 _ x cv Lx Er E) as (N & Xs & X0 & XN & XL & St & En). exists N, Xs. split; [|auto]. split; auto.
    intros k Hk. destruct (St k Hk) as (y1 & r1 & c1 & A1 & A2 & A3 & A4 & A5 & A6). rewrite app_nil_r in A5. exists y1, r1, c1. auto 10.
  Qed.

  Lemma newton_total rtol atol maxit x0 : (forall xs r, List.length r = n -> exists c, next xs r = Ok c /\ List.length c = n) -> List.length x0 = n ->
    exists x cv, newton rtol atol maxit F next b x0 = Ok (x, cv).
  Proof. intros Hn Lx. destruct (HF x0 Lx) as (y & Ey & Ly). destruct (residual_ok x0 y Ey Ly) as (Er & _). unfold newton. rewrite Er. cbn [obind]. apply loop_total; auto. Qed.
End Newton.

(** ** Constant pressures *)
Lemma shift_same op ns size hs itf x x' c : fom_ok op ns size -> no_C op = None -> no_force op (nsum ns size) (no_n op) -> List.length x = no_n op -> List.length x' = no_n op ->
  (forall i, (i < nsum ns size)%nat -> vnth x' i = vnth x i) -> (forall i, (nsum ns size <= i < no_n op)%nat -> vnth x' i = vnth x i - c) ->
  fom_mult op hs itf x' = fom_mult op hs itf x.
Proof.
  intros W Hc Hf L L' Hu Hp. pose proof W as (O & Hn). assert (Nu : no_nu op = nsum ns size) by (apply (fom_nu op ns size W)). unfold fom_mult. rewrite Nu, L, L'. destruct (_ && _)%bool; [|reflexivity]. cbn [oguard].
  assert (E : firstn (nsum ns size) x' = firstn (nsum ns size) x).
  { apply vec_ext; [rewrite !firstn_length; congruence|]. intros i Hi. rewrite firstn_length in Hi. unfold vnth in *. rewrite !nth_firstn by lia. apply Hu. lia. }
  rewrite E. match goal with |- obind ?a _ = _ => destruct a as [z| |]; cbn [obind]; [|reflexivity|reflexivity] end. match goal with |- obind ?a _ = _ => destruct a as [yu| |]; cbn [obind]; [|reflexivity|reflexivity] end.
  f_equal. apply map_ext_in. intros i Hi. apply in_seq in Hi. rewrite Hc. unfold IntegModel.mult. destruct (Nat.ltb_spec i (nsum ns size)) as [Q|Q].
  - f_equal; [f_equal; apply rsum_ext; intros j Hj; rewrite Hu by exact Hj; reflexivity|].
    transitivity (rsum (no_n op - nsum ns size) (fun j => no_Bt op i j * vnth x (nsum ns size + j)) - c * rsum (no_n op - nsum ns size) (fun j => no_Bt op i j)).
    + rewrite <- rsum_scal, <- rsum_minus. apply rsum_ext. intros j Hj. rewrite Hp by lia. ring.
    + rewrite (Hf i Q), Rmult_0_r, Rminus_0_r. reflexivity.
  - f_equal. f_equal. apply rsum_ext. intros j Hj. rewrite Hu by exact Hj. reflexivity.
Qed.

(** ** The two orders *)
Section Order.
  Variables (ns udim : nat) (vs ndofs : nat -> nat -> nat) (vdim : nat -> nat) (fo : flow_off) (off : list nat).
  Hypothesis Hu : udim = (vdim 0 + vdim 1)%nat.
  Hypothesis E : flow_offsets ns 2 udim vs ndofs vdim = Ok fo.
  Hypothesis Eo : offsets_byvar ns 2 (fo_u fo) (fo_p fo) = Ok off.
  Let nu := nsum ns (fun m => vs m 0%nat).
  Let np := nsum ns (fun m => vs m 1%nat).

  Lemma fo_facts : nth ns (fo_u fo) 0%nat = nu /\ nth ns (fo_p fo) 0%nat = np /\ (nu + np)%nat = nth (2 * ns) (fo_var fo) 0%nat /\ fo_vblock fo = [0%nat; nu; (nu + np)%nat] /\
    (forall d : vec, List.length d = (nu + np)%nat -> var_shaped ns 2 vs (BVec off d)) /\
    (forall m, (m <= ns)%nat -> nth m off 0%nat = nsum m (fun m => vs m 0%nat)) /\ (forall m, (m <= ns)%nat -> nth (ns + m) off 0%nat = (nu + nsum m (fun m => vs m 1%nat))%nat).
  Proof.
    destruct (flow_offsets_ok ns udim vs ndofs vdim Hu) as (fo' & E' & _ & _ & _ & _ & Ou & Op & Vb & Tot & _). rewrite E in E'. injection E' as <-.
    assert (U : forall m, (m <= ns)%nat -> nth m (fo_u fo) 0%nat = nsum m (fun m => vs m 0%nat)) by (intros m Hm; apply (offsets_nsum _ _ _ m Ou Hm)).
    assert (P : forall m, (m <= ns)%nat -> nth m (fo_p fo) 0%nat = nsum m (fun m => vs m 1%nat)) by (intros m Hm; apply (offsets_nsum _ _ _ m Op Hm)).
    rewrite (U ns), (P ns) in * by lia. fold nu np in Vb, Tot. split; [reflexivity|]. split; [reflexivity|]. split; [exact Tot|]. split; [exact Vb|].
    assert (Sh : forall d : vec, List.length d = (nu + np)%nat -> var_shaped ns 2 vs (BVec off d) /\ (forall m, (m <= ns)%nat -> nth (ns + m) off 0%nat = (nth ns (fo_u fo) 0 + nth m (fo_p fo) 0)%nat) /\
      (forall m, (m <= ns)%nat -> nth m off 0%nat = nth m (fo_u fo) 0%nat)).
    { intros d Hd. destruct (offsets_byvar_shape ns _ _ vs d off Ou Op Eo) as (A & _ & B & C); [rewrite (U ns), (P ns) by lia; exact Hd|]. auto. }
    split; [intros d Hd; apply Sh, Hd|]. destruct (Sh (repeat 0 (nu + np))) as (_ & B & C); [apply repeat_length|]. split; [intros m Hm; rewrite C by exact Hm; apply U, Hm|].
    intros m Hm. rewrite B by exact Hm. rewrite U, P by lia. reflexivity.
  Qed.

  Lemma ordered_entry b (x : vec) : List.length x = (nu + np)%nat ->
    ((forall m v k, (m < ns)%nat -> (v < 2)%nat -> (k < vs m v)%nat -> bentry (BVec off x) (by_var ns m v) k = bentry b (by_sub 2 m v) k) <-> ordered ns vs b x).
  Proof.
    intros Lx. destruct fo_facts as (_ & _ & _ & _ & _ & A & B). unfold ordered. fold nu np. unfold bentry at 1. cbn [bv_dat bv_off]. unfold by_var. split.
    - intros H. split; [exact Lx|]. split; intros m k Hm Hk.
      + rewrite <- (H m 0%nat k Hm) by (auto; lia). cbn [Nat.mul Nat.add]. rewrite A by lia. reflexivity.
      + rewrite <- (H m 1%nat k Hm) by (auto; lia). rewrite Nat.mul_1_l, B by lia. reflexivity.
    - intros (_ & H0 & H1) m [|[|v]] k Hm Hv Hk; [| |lia].
      + cbn [Nat.mul Nat.add]. rewrite A by lia. apply H0; auto.
      + rewrite Nat.mul_1_l, B by lia. apply H1; auto.
  Qed.

  Lemma entry_v (x : vec) m k : (m < ns)%nat -> bentry (BVec off x) (by_var ns m 0) k = vnth x (nsum m (fun m => vs m 0%nat) + k).
  Proof. intros Hm. destruct fo_facts as (_ & _ & _ & _ & _ & A & B). unfold bentry, by_var. cbn [bv_dat bv_off Nat.mul Nat.add]. rewrite A by lia. reflexivity. Qed.
  Lemma entry_p (x : vec) m k : (m < ns)%nat -> bentry (BVec off x) (by_var ns m 1) k = vnth x (nu + nsum m (fun m => vs m 1%nat) + k).
  Proof. intros Hm. destruct fo_facts as (_ & _ & _ & _ & _ & A & B). unfold bentry, by_var. cbn [bv_dat bv_off]. rewrite Nat.mul_1_l, B by lia. reflexivity. Qed.

  (** *** The whole solve *)
  Variables (op : nsop) (hs : nat -> vec -> vec) (itf : option (vec -> vec)) (pres_dbc : bool) (c : scfg) (next : list vec -> vec -> outcome vec) (fs : files) (rnd : nat -> R) (gen : bool)
    (rhs u : bvec) (junk junk2 : vec).
  Hypothesis Sr : sub_shaped ns 2 vs rhs.
  Hypothesis Su : sub_shaped ns 2 vs u.
  Hypothesis Lj : List.length junk = (nu + np)%nat.
  Hypothesis Lj2 : List.length junk2 = (nu + np)%nat.
  Hypothesis W : fom_ok op ns (fun m => vs m 0%nat).
  Hypothesis Wn : no_n op = (nu + np)%nat.
  Hypothesis Wc : no_C op = None.
  Hypothesis Wh : forall m v, (m < ns)%nat -> List.length v = vs m 0%nat -> List.length (hs m v) = vs m 0%nat.
  Hypothesis Wi : forall f v, itf = Some f -> List.length v = nu -> List.length (f v) = nu.
  Hypothesis Wp : pres_dbc = false -> no_force op nu (nu + np) /\ (0 < np)%nat.
  Hypothesis Wx : forall xs r, List.length r = (nu + np)%nat -> exists d, next xs r = Ok d /\ List.length d = (nu + np)%nat.
  Hypothesis Wr : forall name, sc_restart c = Some name -> exists d, load_solution fs name (bv_dat u) = Ok d /\ List.length d = List.length (bv_dat u).

  Let F := fom_mult op hs itf.

  Lemma F_ok x : List.length x = (nu + np)%nat -> exists y, F x = Ok y /\ List.length y = (nu + np)%nat.
  Proof. intros L. rewrite <- Wn in *. destruct (fom_value op ns _ W hs itf x L Wh Wi) as (y & Ey & Ly & _). exists y. auto. Qed.

  Lemma steady_ok : exists u' cv b x0 y0 x N Xs y,
    steady_solve ns fo pres_dbc c F next fs rnd gen rhs u junk junk2 = Ok (u', cv, cv && gen) /\ sub_shaped ns 2 vs u' /\ ordered ns vs rhs b /\ ordered ns vs u' x /\
    match sc_restart c with
    | None => List.length x0 = (nu + np)%nat /\ forall k, (k < nu + np)%nat -> vnth x0 k = rnd k / 100000
    | Some name => exists d, load_solution fs name (bv_dat u) = Ok d /\ ordered ns vs (BVec (bv_off u) d) x0
    end /\
    F x0 = Ok y0 /\ iterates (nu + np) F next b x0 (Rmax (sc_rtol c * distance (nu + np) y0 b) (sc_atol c)) N Xs /\
    ended (nu + np) F b (Xs N) (Rmax (sc_rtol c * distance (nu + np) y0 b) (sc_atol c)) (sc_maxit c) N cv /\
    F (Xs N) = Ok y /\ F x = Ok y /\
    (forall i, (i < nu)%nat -> vnth x i = vnth (Xs N) i) /\
    (if pres_dbc then x = Xs N else (exists p, forall i, (nu <= i < nu + np)%nat -> vnth x i = vnth (Xs N) i - p) /\ rsum np (fun j => vnth x (nu + j)) = 0).
  Proof.
    destruct fo_facts as (_ & _ & Tot & Vb & Sh & _ & _). 
    destruct (sort_vars_ok ns 2 vs rhs (BVec off junk) Sr (Sh junk Lj)) as ([ro b] & Er & Shr & Or & Vr). cbn [bv_off] in Or. subst ro.
    assert (Lsh : forall d : vec, var_shaped ns 2 vs (BVec off d) -> List.length d = (nu + np)%nat).
    { intros d (s1 & (_ & _ & _ & L1) & _). destruct (Sh junk Lj) as (s2 & (_ & _ & _ & L2) & _). cbn [bv_dat bv_off] in *. congruence. }
    pose proof (Lsh b Shr) as Lb. apply (ordered_entry rhs b Lb) in Vr.
    unfold steady_solve. rewrite Eo. cbn [obind]. rewrite Er. cbn [obind bv_dat].
    assert (Start : exists u1 x0, match sc_restart c with
      | Some name => let* d := load_solution fs name (bv_dat u) in let* y := sort_by_variables ns 2 (BVec (bv_off u) d) (BVec off junk2) in Ok (BVec (bv_off u) d, bv_dat y)
      | None => Ok (u, map (fun k => / 100000 * rnd k) (seq 0 (List.length junk2))) end = Ok (u1, x0) /\ sub_shaped ns 2 vs u1 /\ List.length x0 = (nu + np)%nat /\
      match sc_restart c with
      | None => List.length x0 = (nu + np)%nat /\ forall k, (k < nu + np)%nat -> vnth x0 k = rnd k / 100000
      | Some name => exists d, load_solution fs name (bv_dat u) = Ok d /\ ordered ns vs (BVec (bv_off u) d) x0
      end).
    { destruct (sc_restart c) as [name|].
      - destruct (Wr name eq_refl) as (d & Ed & Ld). rewrite Ed. cbn [obind].
        assert (Sd : sub_shaped ns 2 vs (BVec (bv_off u) d)) by (destruct Su as (s & (S1 & S2 & S3 & S4) & S5); exists s; repeat split; auto; cbn [bv_dat bv_off]; congruence).
        destruct (sort_vars_ok ns 2 vs (BVec (bv_off u) d) (BVec off junk2) Sd (Sh junk2 Lj2)) as ([ro x0] & -> & Sx & Or & Vx). cbn [bv_off] in Or. subst ro. cbn [obind bv_dat].
        pose proof (Lsh x0 Sx) as Lx. apply (ordered_entry _ x0 Lx) in Vx. eexists _, _. split; [reflexivity|]. split; [exact Sd|]. split; [exact Lx|]. exists d. auto.
      - eexists _, _. split; [reflexivity|]. split; [exact Su|]. rewrite map_length, seq_length, Lj2. split; [reflexivity|]. split; [reflexivity|]. intros k Hk. unfold vnth.
        rewrite (nth_indep _ 0 ((fun k => / 100000 * rnd k) 0%nat)) by (rewrite map_length, seq_length; exact Hk). rewrite (map_nth (fun k => / 100000 * rnd k)), seq_nth by exact Hk. cbn [Nat.add]. unfold Rdiv. ring. }
    destruct Start as (u1 & x0 & -> & Su1 & Lx0 & St). cbn [obind]. destruct (F_ok x0 Lx0) as (y0 & Ey0 & Ly0).
    destruct (newton_total (nu + np) F next b Lb F_ok (sc_rtol c) (sc_atol c) (sc_maxit c) x0 Wx Lx0) as (xn & cv & En). rewrite En. cbn [obind].
    destruct (newton_ok (nu + np) F next b Lb F_ok _ _ _ x0 y0 xn cv Lx0 Ey0 En) as (N & Xs & It & XN & Ed).
    assert (Ln : List.length xn = (nu + np)%nat) by (rewrite <- XN; apply (it_len _ _ _ _ _ _ _ _ It); lia). destruct (F_ok xn Ln) as (y & Ey & Ly).
    assert (Fin : exists x, (if pres_dbc then Ok xn else remove_mean (fo_vblock fo) xn) = Ok x /\ List.length x = (nu + np)%nat /\ F x = Ok y /\
      (forall i, (i < nu)%nat -> vnth x i = vnth xn i) /\
      (if pres_dbc then x = xn else (exists p, forall i, (nu <= i < nu + np)%nat -> vnth x i = vnth xn i - p) /\ rsum np (fun j => vnth x (nu + j)) = 0)).
    { destruct pres_dbc; [exists xn; auto|]. destruct (Wp eq_refl) as (Hf & Hp). rewrite Vb.
      destruct (remove_mean_ok nu (nu + np) xn 0 ltac:(lia) Ln) as (x & Ex & Lx & Xu & Xp). exists x. split; [exact Ex|]. split; [exact Lx|]. split.
      - unfold F. rewrite (shift_same op ns (fun m => vs m 0%nat) hs itf xn x (rsum (nu + np - nu) (fun k => vnth xn (nu + k)) / INR (nu + np - nu)) W Wc ltac:(rewrite Wn; exact Hf) ltac:(rewrite Wn; exact Ln) ltac:(rewrite Wn; exact Lx) Xu); [exact Ey|].
        rewrite Wn. intros i Hi. fold nu in Hi. apply Xp; lia.
      - split; [exact Xu|]. split; [eexists; intros i Hi; apply Xp; lia|]. replace (nu + np - nu)%nat with np in Xp by lia.
        rewrite (rsum_ext np _ (fun j => vnth xn (nu + j) - rsum np (fun k => vnth xn (nu + k)) / INR np)) by (intros j Hj; apply Xp; lia).
        rewrite rsum_minus, rsum_const. apply lt_0_INR in Hp. field. lra. }
    destruct Fin as (x & -> & Lx & Fx & Xu & Xp). cbn [obind]. destruct (sort_subs_ok ns 2 vs (BVec off x) u1 (Sh x Lx) Su1) as (u' & -> & Su' & _ & Vu). cbn [obind].
    assert (Ou : ordered ns vs u' x) by (apply (ordered_entry u' x Lx); intros m v k Hm Hv Hk; symmetry; apply Vu; auto).
    exists u', cv, b, x0, y0, x, N, Xs, y. rewrite XN. auto 20.
  Qed.
End Order.

(** ** Positions *)
Lemma nsum_inside ns (f : nat -> nat) m k : (m < ns)%nat -> (k < f m)%nat -> (nsum m f + k < nsum ns f)%nat.
Proof. intros Hm Hk. pose proof (nsum_le (S m) ns f Hm) as Q. rewrite nsum_S in Q. lia. Qed.
Lemma nsum_find ns (f : nat -> nat) p : (p < nsum ns f)%nat -> exists m k, (m < ns)%nat /\ (k < f m)%nat /\ p = (nsum m f + k)%nat.
Proof.
  induction ns as [|ns IH]; intros Hp; [cbn in Hp; lia|]. rewrite nsum_S in Hp. destruct (Nat.lt_ge_cases p (nsum ns f)) as [Q|Q].
  - destruct (IH Q) as (m & k & Hm & Hk & E). exists m, k. split; [lia|auto].
  - exists ns, (p - nsum ns f)%nat. split; [lia|]. split; lia.
Qed.
Lemma ordered_unique ns vs b x x' : ordered ns vs b x -> ordered ns vs b x' -> x = x'.
Proof.
  intros (L & V & P) (L' & V' & P'). apply vec_ext; [congruence|]. intros i Hi. rewrite L in Hi. destruct (Nat.lt_ge_cases i (nsum ns (fun m => vs m 0%nat))) as [Q|Q].
  - destruct (nsum_find _ _ _ Q) as (m & k & Hm & Hk & ->). rewrite V, V' by auto. reflexivity.
  - destruct (nsum_find ns (fun m => vs m 1%nat) (i - nsum ns (fun m => vs m 0%nat)) ltac:(lia)) as (m & k & Hm & Hk & E).
    replace i with (nsum ns (fun m => vs m 0%nat) + nsum m (fun m => vs m 1%nat) + k)%nat by lia. rewrite P, P' by auto. reflexivity.
Qed.
