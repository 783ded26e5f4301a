(** The interface integrators assemble the interior penalty forms. *)
From Coq Require Import Reals List Bool Lia Lra Arith ZArith.
From Verif Require Import Outcome ListLemmas LaBase EqpSpec IntegModel IntegProofs DgModel DgSpec DgAddProofs DgKernelProofs.
Import ListNotations.
Local Open Scope R_scope.

(** ** Diffusion *)

Definition dn_1 (dim : nat) (p : dpt) : fv := mult dim (sd_dshape (d_1 p)) (mult dim (sd_adj (d_1 p)) (diff_ni dim (d_w p / sd_W (d_1 p) / 2) (d_nor p) (d_1 p))).
Definition dn_2 (dim : nat) (p : dpt) : fv := mult dim (sd_dshape (d_2 p)) (mult dim (sd_adj (d_2 p)) (diff_ni dim (d_w p / 2 / sd_W (d_2 p)) (d_nor p) (d_2 p))).
Definition dwq (dim : nat) (kappa : R) (p : dpt) : R :=
  (inner dim (diff_ni dim (d_w p / sd_W (d_1 p) / 2) (d_nor p) (d_1 p)) (d_nor p) + inner dim (diff_ni dim (d_w p / 2 / sd_W (d_2 p)) (d_nor p) (d_2 p)) (d_nor p)) * kappa.
Definition dk (dim : nat) (kappa : R) (p : dpt) : kern :=
  Kern (fun i _ => sd_shape (d_1 p) i) (fun i _ => - sd_shape (d_2 p) i) (fun j _ => dn_1 dim p j) (fun j _ => dn_2 dim p j) (dwq dim kappa p).

Lemma adds_outer h w n k v : n = h -> (forall i, (i < h)%nat -> (k i <= w)%nat) ->
  adds h w (fun m => add_outer n k v m) (fun i j => if ((i <? h) && (j <? k i))%nat then v i j else 0).
Proof.
  intros -> Hk. unfold add_outer. eapply adds_ext.
  - apply (adds_ofor h w h (fun m i => ofor (k i) (fun m j => sadd m i j (v i j)) m) (fun a i j => rsum (k a) (fun b => delta a b (v a b) i j))).
    intros a Ha. apply (adds_ofor h w (k a) (fun m j => sadd m a j (v a j)) (fun b => delta a b (v a b))). intros b Hb. apply adds_sadd; auto.
    specialize (Hk a Ha). lia.
  - intros i j. cbv beta. unfold delta.
    rewrite (rsum_ext h _ (fun a => if (i =? a)%nat then (if (j <? k a)%nat then v a j else 0) else 0)).
    + rewrite (pick1 h i (fun a => if (j <? k a)%nat then v a j else 0)). destruct (i <? h)%nat; auto.
    + intros a _. rewrite <- (pick1 (k a) j (fun b => v a b)). rewrite <- rsum_if. apply rsum_ext. intros b _.
      destruct (i =? a)%nat, (j =? b)%nat; auto.
Qed.

Lemma adds_row h w n r v : (r < h)%nat -> (n <= w)%nat ->
  adds h w (fun m => ofor n (fun m j => sadd m r j (v j)) m) (fun i j => if ((i =? r) && (j <? n))%nat then v j else 0).
Proof.
  intros Hr Hn. eapply adds_ext.
  - apply (adds_ofor h w n (fun m j => sadd m r j (v j)) (fun b => delta r b (v b))). intros b Hb. apply adds_sadd; lia.
  - intros i j. cbv beta. unfold delta. rewrite (rsum_ext n _ (fun b => if (i =? r)%nat then (if (j =? b)%nat then v b else 0) else 0)).
    + rewrite rsum_if, (pick1 n j v). destruct (i =? r)%nat; auto.
    + intros b _. destruct (i =? r)%nat, (j =? b)%nat; auto.
Qed.

Lemma pair_loop h1 w1 h2 w2 n f g F G : (forall k, (k < n)%nat -> adds h1 w1 (fun m => f m k) (F k)) -> (forall k, (k < n)%nat -> adds h2 w2 (fun m => g m k) (G k)) ->
  forall a b, s_h a = h1 -> s_w a = w1 -> s_h b = h2 -> s_w b = w2 ->
  exists a' b', ofor n (fun '(a, b) k => let* a := f a k in let* b := g b k in Ok (a, b)) (a, b) = Ok (a', b') /\
    s_h a' = h1 /\ s_w a' = w1 /\ s_h b' = h2 /\ s_w b' = w2 /\
    (forall i j, s_at a' i j = s_at a i j + rsum n (fun k => F k i j)) /\ (forall i j, s_at b' i j = s_at b i j + rsum n (fun k => G k i j)).
Proof.
  intros Hf Hg a b A1 A2 A3 A4.
  match goal with |- context[ofor n ?ff _] =>
  destruct (ofor_inv n ff (fun k s => s_h (fst s) = h1 /\ s_w (fst s) = w1 /\ s_h (snd s) = h2 /\ s_w (snd s) = w2 /\
    (forall i j, s_at (fst s) i j = s_at a i j + rsum k (fun k => F k i j)) /\ (forall i j, s_at (snd s) i j = s_at b i j + rsum k (fun k => G k i j))) (a, b))
    as ([a' b'] & E & B) end.
  - cbn [fst snd]. repeat split; auto; intros; simpl; ring.
  - intros k [x y] Hk (B1 & B2 & B3 & B4 & B5 & B6). cbn [fst snd] in *.
    destruct (Hf k Hk x B1 B2) as (x' & E1 & C1 & C2 & C3). destruct (Hg k Hk y B3 B4) as (y' & E2 & D1 & D2 & D3).
    exists (x', y'). rewrite E1. cbn [obind]. rewrite E2. cbn [obind fst snd]. repeat split; auto; intros; rewrite ?C3, ?D3, ?B5, ?B6; simpl; ring.
  - cbn [fst snd] in B. exists a', b'. tauto.
Qed.

Lemma pr1 A B i j : pr 1 A B i j = A i 0%nat * B j 0%nat.
Proof. unfold pr. simpl. ring. Qed.

Ltac in_range := match goal with Hi : (?i < ?n)%nat |- context[(?i <? ?n)%nat] => rewrite (proj2 (Nat.ltb_lt i n) Hi) end.

Lemma diff_step dim nd1 nd2 kappa p : step_ok 1 nd1 nd2 kappa (dk dim kappa) (diff_point dim nd1 nd2 kappa) p.
Proof.
  intros s ((H00 & H01 & H10 & H11) & HJ). unfold diff_point. cbv zeta.
  change (mult dim (sd_dshape (d_1 p)) (mult dim (sd_adj (d_1 p)) (diff_ni dim (d_w p / sd_W (d_1 p) / 2) (d_nor p) (d_1 p)))) with (dn_1 dim p).
  change (mult dim (sd_dshape (d_2 p)) (mult dim (sd_adj (d_2 p)) (diff_ni dim (d_w p / 2 / sd_W (d_2 p)) (d_nor p) (d_2 p)))) with (dn_2 dim p).
  fold (dwq dim kappa p).
  destruct (adds_outer nd1 nd1 nd1 (fun _ => nd1) (fun i j => sd_shape (d_1 p) i * dn_1 dim p j) eq_refl ltac:(auto) (b00 (ib s)) ltac:(tauto) ltac:(tauto)) as (e00 & E0 & P0 & Q0 & R0).
  destruct (adds_outer nd1 nd2 nd1 (fun _ => nd2) (fun i j => sd_shape (d_1 p) i * dn_2 dim p j) eq_refl ltac:(auto) (b01 (ib s)) ltac:(tauto) ltac:(tauto)) as (e01 & E1 & P1 & Q1 & R1).
  destruct (adds_outer nd2 nd1 nd2 (fun _ => nd1) (fun i j => - (sd_shape (d_2 p) i * dn_1 dim p j)) eq_refl ltac:(auto) (b10 (ib s)) ltac:(tauto) ltac:(tauto)) as (e10 & E2 & P2 & Q2 & R2).
  destruct (adds_outer nd2 nd2 nd2 (fun _ => nd2) (fun i j => - (sd_shape (d_2 p) i * dn_2 dim p j)) eq_refl ltac:(auto) (b11 (ib s)) ltac:(tauto) ltac:(tauto)) as (e11 & E3 & P3 & Q3 & R3).
  rewrite E0. cbn [obind]. rewrite E1. cbn [obind]. rewrite E2. cbn [obind]. rewrite E3. cbn [obind].
  assert (X : forall J0 J1 J2 J3, let b := IBuf (Blocks e00 e01 e10 e11) J0 J1 J2 J3 in
    (forall i j, (i < nd1)%nat -> (j < nd1)%nat -> s_at (b00 (ib b)) i j = s_at (b00 (ib s)) i j + pr 1 (kS1 (dk dim kappa p)) (kT1 (dk dim kappa p)) i j) /\
    (forall i j, (i < nd1)%nat -> (j < nd2)%nat -> s_at (b01 (ib b)) i j = s_at (b01 (ib s)) i j + pr 1 (kS1 (dk dim kappa p)) (kT2 (dk dim kappa p)) i j) /\
    (forall i j, (i < nd2)%nat -> (j < nd1)%nat -> s_at (b10 (ib b)) i j = s_at (b10 (ib s)) i j + pr 1 (kS2 (dk dim kappa p)) (kT1 (dk dim kappa p)) i j) /\
    (forall i j, (i < nd2)%nat -> (j < nd2)%nat -> s_at (b11 (ib b)) i j = s_at (b11 (ib s)) i j + pr 1 (kS2 (dk dim kappa p)) (kT2 (dk dim kappa p)) i j)).
  { intros J0 J1 J2 J3 b. cbn [ib b00 b01 b10 b11 b]. repeat split; intros i j Hi Hj; rewrite pr1, ?R0, ?R1, ?R2, ?R3; repeat in_range; cbn [andb dk kS1 kS2 kT1 kT2]; ring. }
  destruct (Req_EM_T kappa 0) as [K|K].
  - eexists. split; [reflexivity|]. split; [split|].
    + cbn [ib]. repeat split; auto.
    + intros N. contradiction.
    + destruct (X (j00 s) (j01 s) (j10 s) (j11 s)) as (X0 & X1 & X2 & X3). repeat split; auto; contradiction.
  - destruct (HJ K) as ((m00 & M00 & Mh0 & Mw0) & (m10 & M10 & Mh1 & Mw1) & (m11 & M11 & Mh2 & Mw2)).
    rewrite M00, M10, M11. cbn [ojm obind].
    destruct (adds_outer nd1 nd1 nd1 (fun i => S i) (fun i j => dwq dim kappa p * sd_shape (d_1 p) i * sd_shape (d_1 p) j) eq_refl ltac:(intros; cbv beta; lia) m00 Mh0 Mw0) as (x00 & F0 & G0 & I0 & L0).
    rewrite F0. cbn [obind].
    destruct (pair_loop nd2 nd1 nd2 nd2 nd2 (fun m i => ofor nd1 (fun m j => sadd m i j (- (dwq dim kappa p * sd_shape (d_2 p) i * sd_shape (d_1 p) j))) m)
      (fun m i => ofor (S i) (fun m j => sadd m i j (dwq dim kappa p * sd_shape (d_2 p) i * sd_shape (d_2 p) j)) m)
      (fun r i j => if ((i =? r) && (j <? nd1))%nat then - (dwq dim kappa p * sd_shape (d_2 p) r * sd_shape (d_1 p) j) else 0)
      (fun r i j => if ((i =? r) && (j <? S r))%nat then dwq dim kappa p * sd_shape (d_2 p) r * sd_shape (d_2 p) j else 0)
      ltac:(intros; apply (adds_row nd2 nd1 nd1 k (fun j => - (dwq dim kappa p * sd_shape (d_2 p) k * sd_shape (d_1 p) j))); lia)
      ltac:(intros; apply (adds_row nd2 nd2 (S k) k (fun j => dwq dim kappa p * sd_shape (d_2 p) k * sd_shape (d_2 p) j)); lia)
      m10 m11 Mh1 Mw1 Mh2 Mw2) as (x10 & x11 & F1 & G1 & I1 & G2 & I2 & L1 & L2).
    rewrite F1. cbn [obind]. eexists. split; [reflexivity|]. split; [split|].
    + cbn [ib]. repeat split; auto.
    + intros _. cbn [j00 j10 j11]. repeat split; eexists; repeat split; auto.
    + destruct (X (Some x00) (j01 s) (Some x10) (Some x11)) as (X0 & X1 & X2 & X3).
      split; [auto|]. split; [auto|]. split; [auto|]. split; [auto|]. intros _. cbn [j00 j10 j11 jat].
      repeat split; intros i j Hi Hj; rewrite pr1; cbn [dk kS1 kS2 kj].
      * rewrite L0. in_range. destruct (Nat.ltb_spec j (S i)); [|lia]. cbn [andb]. ring.
      * rewrite L1. rewrite (rsum_ext nd2 _ (fun r => if (i =? r)%nat then - (dwq dim kappa p * sd_shape (d_2 p) r * sd_shape (d_1 p) j) else 0)).
        -- rewrite pick1. in_range. ring.
        -- intros r _. in_range. rewrite andb_true_r. auto.
      * rewrite L2. rewrite (rsum_ext nd2 _ (fun r => if (i =? r)%nat then dwq dim kappa p * sd_shape (d_2 p) r * sd_shape (d_2 p) j else 0)).
        -- rewrite pick1. in_range. ring.
        -- intros r _. destruct (Nat.eqb_spec i r); auto. cbn [andb]. destruct (Nat.ltb_spec j (S r)); [auto|lia].
Qed.

Lemma diff_itf_entries dim nd1 nd2 sigma kappa rule : (0 < nd2)%nat ->
  exists b, diff_itf dim nd1 nd2 true sigma kappa rule = Ok b /\ sized nd1 nd2 nd1 nd2 b /\ itf_entries 1 nd1 nd2 sigma (dk dim kappa) rule b.
Proof.
  intros Hn. unfold diff_itf. rewrite (proj2 (Nat.ltb_lt _ _) Hn). cbn [oassert].
  destruct (points_ok 1 nd1 nd2 kappa (dk dim kappa) (diff_point dim nd1 nd2 kappa) rule ltac:(intros; apply diff_step)) as (s & E & A & B).
  rewrite E. cbn [obind]. destruct (itf_final_ok 1 nd1 nd2 sigma kappa (dk dim kappa) rule s) as (b & F & C & D); auto.
  - intros -> p _. cbn [dk kj]. unfold dwq. ring.
  - exists b. auto.
Qed.

(** A weighted flux of the basis functions *)
Lemma flux_ap dim n a nor s u : sd_W s <> 0 ->
  rsum n (fun j => mult dim (sd_dshape s) (mult dim (sd_adj s) (diff_ni dim (a / sd_W s) nor s)) j * u j) = a * flux dim n nor s u.
Proof.
  intros W. unfold flux, slope, diff_ni. destruct (sd_mq s) as [M|].
  - unfold mult, mult_t, scale.
    transitivity (rsum n (fun j => rsum dim (fun l => rsum dim (fun m => a * (nor l * M l m * (u j * (rsum dim (fun k => sd_dshape s j k * sd_adj s k m) / sd_W s))))))).
    + apply rsum_ext. intros j _.
      transitivity (rsum dim (fun m => (rsum dim (fun k => sd_dshape s j k * sd_adj s k m) / sd_W s) * (a * rsum dim (fun l => M l m * nor l)) * u j)).
      * rewrite <- rsum_scal_r.
        transitivity (rsum dim (fun k => rsum dim (fun m => sd_dshape s j k * sd_adj s k m / sd_W s * (a * rsum dim (fun l => M l m * nor l)) * u j))).
        -- apply rsum_ext. intros k _. rewrite <- rsum_scal, <- rsum_scal_r. apply rsum_ext. intros m _.
           rewrite (rsum_ext dim (fun k0 => M k0 m * (a / sd_W s * nor k0)) (fun k0 => a / sd_W s * (M k0 m * nor k0))) by (intros; ring).
           rewrite rsum_scal. field. auto.
        -- rewrite rsum_swap. apply rsum_ext. intros m _. rewrite (rsum_ext dim _ (fun k => sd_dshape s j k * sd_adj s k m * (/ sd_W s * (a * rsum dim (fun l => M l m * nor l)) * u j))) by (intros; unfold Rdiv; ring).
           rewrite rsum_scal_r. unfold Rdiv. ring.
      * symmetry. rewrite rsum_swap. apply rsum_ext. intros m _.
        rewrite (rsum_ext dim _ (fun l => M l m * nor l * (a * (u j * (rsum dim (fun k => sd_dshape s j k * sd_adj s k m) / sd_W s))))) by (intros; ring).
        rewrite rsum_scal_r. ring.
    + rewrite rsum_swap. rewrite <- rsum_scal. apply rsum_ext. intros l _. rewrite rsum_swap, <- rsum_scal. apply rsum_ext. intros m _.
      rewrite !rsum_scal. auto.
  - unfold mult, scale. fold (val (sd_mu s)).
    replace (match sd_mu s with Some q => a / sd_W s * q | None => a / sd_W s end) with (a / sd_W s * val (sd_mu s)) by (unfold val; destruct (sd_mu s); ring).
    transitivity (rsum n (fun j => rsum dim (fun m => a * (val (sd_mu s) * (nor m * (u j * (rsum dim (fun k => sd_dshape s j k * sd_adj s k m) / sd_W s))))))).
    + apply rsum_ext. intros j _.
      transitivity (rsum dim (fun k => rsum dim (fun m => sd_dshape s j k * sd_adj s k m / sd_W s * (a * val (sd_mu s) * nor m * u j)))).
      * rewrite <- rsum_scal_r. apply rsum_ext. intros k _. rewrite <- rsum_scal, <- rsum_scal_r. apply rsum_ext. intros m _. field. auto.
      * rewrite rsum_swap. apply rsum_ext. intros m _. rewrite rsum_scal_r.
        rewrite (rsum_ext dim _ (fun k => sd_dshape s j k * sd_adj s k m * / sd_W s)) by (intros; unfold Rdiv; ring). rewrite rsum_scal_r. unfold Rdiv. ring.
    + rewrite rsum_swap. rewrite <- !rsum_scal. apply rsum_ext. intros m _. rewrite !rsum_scal. auto.
Qed.

Lemma stiff_ni dim a nor s : sd_W s <> 0 -> inner dim (diff_ni dim (a / sd_W s) nor s) nor = a * (stiff dim nor s / sd_W s).
Proof.
  intros W. unfold stiff, diff_ni, inner, sq. destruct (sd_mq s) as [M|].
  - unfold mult_t, scale. transitivity (rsum dim (fun m => rsum dim (fun l => a / sd_W s * (nor l * M l m * nor m)))).
    + apply rsum_ext. intros m _. rewrite <- rsum_scal_r. apply rsum_ext. intros l _. ring.
    + rewrite rsum_swap. rewrite (rsum_ext dim _ (fun l => a / sd_W s * rsum dim (fun m => nor l * M l m * nor m))) by (intros; apply rsum_scal).
      rewrite rsum_scal. unfold Rdiv. ring.
  - unfold scale. rewrite (rsum_ext dim _ (fun m => a / sd_W s * val (sd_mu s) * (nor m * nor m))).
    + rewrite rsum_scal. unfold Rdiv. ring.
    + intros m _. unfold val. destruct (sd_mu s); ring.
Qed.

Lemma diff_form dim nd1 nd2 sigma kappa rule u1 u2 v1 v2 b : (forall p, In p rule -> sd_W (d_1 p) <> 0 /\ sd_W (d_2 p) <> 0) ->
  itf_entries 1 nd1 nd2 sigma (dk dim kappa) rule b -> form nd1 nd2 nd1 nd2 b u1 u2 v1 v2 = ip_form dim nd1 nd2 sigma kappa rule u1 u2 v1 v2.
Proof.
  intros W H. rewrite (form_entries _ _ _ _ _ _ _ u1 u2 v1 v2 H). unfold ip_form. apply lsum_ext_in. intros p Hp.
  destruct (W p Hp) as [W1 W2]. unfold ip_point. cbv zeta. cbn [rsum]. rewrite Rplus_0_l. cbn [dk kS1 kS2 kT1 kT2 kj].
  assert (T1 : forall x, ap nd1 (fun j _ => dn_1 dim p j) x 0 = d_w p / 2 * flux dim nd1 (d_nor p) (d_1 p) x).
  { intros x. unfold ap, dn_1. replace (d_w p / sd_W (d_1 p) / 2) with (d_w p / 2 / sd_W (d_1 p)) by (field; auto). apply flux_ap. auto. }
  assert (T2 : forall x, ap nd2 (fun j _ => dn_2 dim p j) x 0 = d_w p / 2 * flux dim nd2 (d_nor p) (d_2 p) x).
  { intros x. unfold ap, dn_2. apply flux_ap. auto. }
  assert (S2 : forall x, ap nd2 (fun i _ => - sd_shape (d_2 p) i) x 0 = - trace nd2 (d_2 p) x).
  { intros x. unfold ap, trace. rewrite (rsum_ext nd2 _ (fun i => -1 * (sd_shape (d_2 p) i * x i))) by (intros; ring). rewrite rsum_scal. ring. }
  assert (S1 : forall x, ap nd1 (fun i _ => sd_shape (d_1 p) i) x 0 = trace nd1 (d_1 p) x) by reflexivity.
  rewrite !T1, !T2, !S1, !S2. unfold dwq.
  replace (d_w p / sd_W (d_1 p) / 2) with (d_w p / 2 / sd_W (d_1 p)) by (field; auto). rewrite !stiff_ni by auto. field. auto.
Qed.

(** ** Vector functions *)

Lemma rsum_prod dim n f : rsum (dim * n) f = rsum dim (fun d => rsum n (fun a => f (d * n + a)%nat)).
Proof. induction dim; [auto|]. replace (S dim * n)%nat with (dim * n + n)%nat by lia. rewrite rsum_split, IHdim. simpl. auto. Qed.

Lemma ap_vS dim n s x c : (c < dim)%nat -> (0 < n)%nat -> ap (dim * n) (vS n s) x c = rsum n (fun a => s a * comp n c x a).
Proof.
  intros Hc Hn. unfold ap. rewrite rsum_prod, (rsum_single dim c); auto.
  - apply rsum_ext. intros a Ha. unfold vS, comp. destruct (divmod_of n c a Ha) as [-> ->]. rewrite Nat.eqb_refl. auto.
  - intros d Hd N. rewrite (rsum_ext n _ (fun _ => 0)), rsum_zero; auto. intros a Ha. unfold vS. destruct (divmod_of n d a Ha) as [-> ->].
    destruct (Nat.eqb_spec d c); [lia|ring].
Qed.

(** Contributions of the penalty loops *)
Lemma iv_jblock_ok h w dim rn cn ro co jc rs cs j : (0 < rn)%nat -> (0 < cn)%nat -> h = (dim * rn)%nat -> w = (dim * cn)%nat ->
  ((ro = co /\ rn = cn) \/ (dim * cn + co <= ro)%nat) -> (jc <> 0 -> exists m, j = Some m /\ s_h m = h /\ s_w m = w) ->
  exists j', iv_jblock dim rn cn ro co jc rs cs j = Ok j' /\ (forall m, j = Some m -> s_h m = h -> s_w m = w -> exists m', j' = Some m' /\ s_h m' = h /\ s_w m' = w) /\
    forall i k, (i < h)%nat -> (k < w)%nat -> (k + co <= i + ro)%nat -> jat j' i k = jat j i k + jc * pr dim (vS rn rs) (vS cn cs) i k.
Proof.
  intros Hr Hc Hh Hw Hcase Hj. unfold iv_jblock. destruct (Req_EM_T jc 0) as [E|E].
  - exists j. split; auto. split; [eauto|]. intros. rewrite E. ring.
  - destruct (Hj E) as (m & -> & Mh & Mw). cbn [ojm obind].
    rewrite (ofor_ext dim _ (fun jm d => ofor cn (fun jm jd =>
      oforr ((if d * cn + jd + co <? d * rn + ro then d * rn else d * cn + jd) - d * rn) rn
        (fun jm id => sadd jm (d * rn + id) (0 + d * cn + jd) (rs id * (jc * cs jd))) jm) jm)).
    2:{ intros m0 d Hd. apply ofor_ext. intros m1 jd Hjd.
        assert (G : (d * rn <=? (if d * cn + jd + co <? d * rn + ro then d * rn else d * cn + jd) = true)%nat).
        { apply Nat.leb_le. destruct (Nat.ltb_spec (d * cn + jd + co) (d * rn + ro)); [lia|]. destruct Hcase as [[H1 H2]|H1]; nia. }
        rewrite G. reflexivity. }
    destruct (tri_block h w dim rn cn 0 0 rs cs jc (fun d => (d * rn)%nat)
      (fun d jd => ((if d * cn + jd + co <? d * rn + ro then d * rn else d * cn + jd) - d * rn)%nat) (fun i k => (k + co <=? i + ro)%nat)
      Hr Hc ltac:(lia) ltac:(lia) ltac:(auto)) with (m := m) as (m' & F & A & B & C); auto.
    + intros d id jd Hd Hid Hjd. rewrite Nat.leb_le. destruct (Nat.ltb_spec (d * cn + jd + co) (d * rn + ro)).
      * split; intros; lia.
      * destruct Hcase as [[H1 H2]|H1]; [subst; lia|nia].
    + match goal with |- context[obind ?x _] => assert (F' : x = Ok m') by exact F; rewrite F' end. cbn [obind]. exists (Some m'). split; [auto|]. split.
      * intros. exists m'. auto.
      * intros i k Hi Hk Hl. cbn [jat]. rewrite C. rewrite (proj2 (Nat.leb_le _ _) Hl). unfold at_block, inb. rewrite <- Hh, <- Hw.
        cbn [Nat.leb Nat.add andb]. repeat in_range. cbn [andb]. rewrite !Nat.sub_0_r. auto.
Qed.

Definition ivn (w : R) (s : side) : R := w / 2 / sd_W s * val (sd_mu s).
Definition vdn (dim : nat) (a : R) (nor : fv) (s : side) : fv := mult dim (mult_ab dim (sd_dshape s) (sd_adj s)) (scale a nor).
Definition vkj (dim : nat) (kappa : R) (p : dpt) : R := kappa * inner dim (d_nor p) (d_nor p) * (ivn (d_w p) (d_2 p) + ivn (d_w p) (d_1 p)).
Definition vk (dim nd1 nd2 : nat) (kappa : R) (p : dpt) : kern :=
  Kern (vS nd1 (sd_shape (d_1 p))) (vS nd2 (scale (-1) (sd_shape (d_2 p))))
    (vS nd1 (vdn dim (ivn (d_w p) (d_1 p)) (d_nor p) (d_1 p))) (vS nd2 (vdn dim (ivn (d_w p) (d_2 p)) (d_nor p) (d_2 p))) (vkj dim kappa p).

Lemma ocoef_val c : c <> None -> ocoef c = Ok (val c).
Proof. destruct c; [auto|contradiction]. Qed.

(** The blocks of one point from the loops over elements and the penalty loops *)
Lemma blocks_step dim nd1 nd2 kappa (k : dpt -> kern) p (f00 f01 f10 f11 : smat -> outcome smat) s :
  (0 < nd1)%nat -> (0 < nd2)%nat -> (kappa = 0 -> kj (k p) = 0) ->
  kS1 (k p) = vS nd1 (sd_shape (d_1 p)) -> kS2 (k p) = vS nd2 (scale (-1) (sd_shape (d_2 p))) ->
  (forall i j, (i < dim * nd1)%nat -> (j < dim * nd1)%nat -> True) ->
  (exists F, adds (dim * nd1) (dim * nd1) f00 F /\ forall i j, (i < dim * nd1)%nat -> (j < dim * nd1)%nat -> F i j = pr dim (kS1 (k p)) (kT1 (k p)) i j) ->
  (exists F, adds (dim * nd1) (dim * nd2) f01 F /\ forall i j, (i < dim * nd1)%nat -> (j < dim * nd2)%nat -> F i j = pr dim (kS1 (k p)) (kT2 (k p)) i j) ->
  (exists F, adds (dim * nd2) (dim * nd1) f10 F /\ forall i j, (i < dim * nd2)%nat -> (j < dim * nd1)%nat -> F i j = pr dim (kS2 (k p)) (kT1 (k p)) i j) ->
  (exists F, adds (dim * nd2) (dim * nd2) f11 F /\ forall i j, (i < dim * nd2)%nat -> (j < dim * nd2)%nat -> F i j = pr dim (kS2 (k p)) (kT2 (k p)) i j) ->
  let n1 := (dim * nd1)%nat in let n2 := (dim * nd2)%nat in
  ibuf_ok n1 n2 kappa s -> exists s',
  (let* (e00, m00) := (let* e := f00 (b00 (ib s)) in let* j := iv_jblock dim nd1 nd1 0 0 (kj (k p)) (sd_shape (d_1 p)) (sd_shape (d_1 p)) (j00 s) in Ok (e, j)) in
   let* (e01, m01) := (let* e := f01 (b01 (ib s)) in let* j := iv_jblock dim nd1 nd2 0 n1 0 (sd_shape (d_1 p)) (scale (-1) (sd_shape (d_2 p))) (j01 s) in Ok (e, j)) in
   let* (e10, m10) := (let* e := f10 (b10 (ib s)) in let* j := iv_jblock dim nd2 nd1 n1 0 (kj (k p)) (scale (-1) (sd_shape (d_2 p))) (sd_shape (d_1 p)) (j10 s) in Ok (e, j)) in
   let* (e11, m11) := (let* e := f11 (b11 (ib s)) in let* j := iv_jblock dim nd2 nd2 n1 n1 (kj (k p)) (scale (-1) (sd_shape (d_2 p))) (scale (-1) (sd_shape (d_2 p))) (j11 s) in Ok (e, j)) in
   Ok (IBuf (Blocks e00 e01 e10 e11) m00 m01 m10 m11)) = Ok s' /\ ibuf_ok n1 n2 kappa s' /\
  (forall i j, (i < n1)%nat -> (j < n1)%nat -> s_at (b00 (ib s')) i j = s_at (b00 (ib s)) i j + pr dim (kS1 (k p)) (kT1 (k p)) i j) /\
  (forall i j, (i < n1)%nat -> (j < n2)%nat -> s_at (b01 (ib s')) i j = s_at (b01 (ib s)) i j + pr dim (kS1 (k p)) (kT2 (k p)) i j) /\
  (forall i j, (i < n2)%nat -> (j < n1)%nat -> s_at (b10 (ib s')) i j = s_at (b10 (ib s)) i j + pr dim (kS2 (k p)) (kT1 (k p)) i j) /\
  (forall i j, (i < n2)%nat -> (j < n2)%nat -> s_at (b11 (ib s')) i j = s_at (b11 (ib s)) i j + pr dim (kS2 (k p)) (kT2 (k p)) i j) /\
  (kappa <> 0 ->
    (forall i j, (i < n1)%nat -> (j <= i)%nat -> jat (j00 s') i j = jat (j00 s) i j + kj (k p) * pr dim (kS1 (k p)) (kS1 (k p)) i j) /\
    (forall i j, (i < n2)%nat -> (j < n1)%nat -> jat (j10 s') i j = jat (j10 s) i j + kj (k p) * pr dim (kS2 (k p)) (kS1 (k p)) i j) /\
    (forall i j, (i < n2)%nat -> (j <= i)%nat -> jat (j11 s') i j = jat (j11 s) i j + kj (k p) * pr dim (kS2 (k p)) (kS2 (k p)) i j)).
Proof.
  intros H1 H2 K0 S1 S2 _ (F0 & A0 & B0) (F1 & A1 & B1) (F2 & A2 & B2) (F3 & A3 & B3) n1 n2 ((H00 & H01 & H10 & H11) & HJ).
  destruct (A0 (b00 (ib s))) as (e00 & E0 & P0 & Q0 & R0); try tauto. destruct (A1 (b01 (ib s))) as (e01 & E1 & P1 & Q1 & R1); try tauto.
  destruct (A2 (b10 (ib s))) as (e10 & E2 & P2 & Q2 & R2); try tauto. destruct (A3 (b11 (ib s))) as (e11 & E3 & P3 & Q3 & R3); try tauto.
  rewrite E0, E1, E2, E3. cbn [obind].
  assert (NJ : kj (k p) <> 0 -> kappa <> 0) by (intros N ->; apply N; auto).
  destruct (iv_jblock_ok n1 n1 dim nd1 nd1 0 0 (kj (k p)) (sd_shape (d_1 p)) (sd_shape (d_1 p)) (j00 s)) as (m00 & J0 & X0 & Y0); auto.
  { intros N. apply (HJ (NJ N)). }
  destruct (iv_jblock_ok n2 n1 dim nd2 nd1 n1 0 (kj (k p)) (scale (-1) (sd_shape (d_2 p))) (sd_shape (d_1 p)) (j10 s)) as (m10 & J2 & X2 & Y2); auto.
  { right. unfold n1. lia. } { intros N. apply (HJ (NJ N)). }
  destruct (iv_jblock_ok n2 n2 dim nd2 nd2 n1 n1 (kj (k p)) (scale (-1) (sd_shape (d_2 p))) (scale (-1) (sd_shape (d_2 p))) (j11 s)) as (m11 & J3 & X3 & Y3); auto.
  { intros N. apply (HJ (NJ N)). }
  rewrite J0. cbn [obind]. unfold iv_jblock at 1. destruct (Req_EM_T 0 0) as [_|N]; [|contradiction]. cbn [obind]. rewrite J2. cbn [obind]. rewrite J3. cbn [obind].
  eexists. split; [reflexivity|]. cbn [ib b00 b01 b10 b11 j00 j01 j10 j11]. split; [split|].
  - repeat split; auto.
  - intros K. destruct (HJ K) as ((m0 & M0 & Z0 & W0) & (m1 & M1 & Z1 & W1) & (m2 & M2 & Z2 & W2)). cbn [j00 j10 j11].
    split; [apply (X0 m0); auto|]. split; [apply (X2 m1); auto|apply (X3 m2); auto].
  - split; [intros i j Hi Hj; rewrite R0, B0; auto|]. split; [intros i j Hi Hj; rewrite R1, B1; auto|].
    split; [intros i j Hi Hj; rewrite R2, B2; auto|]. split; [intros i j Hi Hj; rewrite R3, B3; auto|].
    intros K. rewrite S1, S2. split; [intros i j Hi Hj; apply Y0; lia|]. split; [intros i j Hi Hj; apply Y2; lia|intros i j Hi Hj; apply Y3; lia].
Qed.

Lemma eblock0 h w dim rn cn (rs cd : fv) : (0 < rn)%nat -> (0 < cn)%nat -> h = (dim * rn)%nat -> w = (dim * cn)%nat ->
  exists F, adds h w (fun e => ofor dim (fun e d => ofor cn (fun e jdof => ofor rn (fun e idof =>
    sadd e (d * rn + idof) (d * cn + jdof) (rs idof * cd jdof)) e) e) e) F /\
    forall i j, (i < h)%nat -> (j < w)%nat -> F i j = pr dim (vS rn rs) (vS cn cd) i j.
Proof.
  intros Hr Hc Hh Hw. eexists. split.
  - exact (vd_eblock h w dim rn cn 0 0 rs cd Hr Hc ltac:(lia) ltac:(lia)).
  - intros i j Hi Hj. unfold at_block, inb. rewrite <- Hh, <- Hw. cbn [Nat.leb Nat.add andb]. repeat in_range. cbn [andb]. rewrite !Nat.sub_0_r. auto.
Qed.

Lemma vd_step dim nd1 nd2 kappa p : (0 < nd1)%nat -> (0 < nd2)%nat -> sd_mu (d_1 p) <> None -> sd_mu (d_2 p) <> None ->
  step_ok dim (dim * nd1) (dim * nd2) kappa (vk dim nd1 nd2 kappa) (ivd_point dim nd1 nd2 kappa) p.
Proof.
  intros H1 H2 M1 M2 s Hs. unfold ivd_point. cbv zeta. rewrite !ocoef_val by auto. cbn [obind].
  change (d_w p / 2 / sd_W (d_1 p) * val (sd_mu (d_1 p))) with (ivn (d_w p) (d_1 p)).
  change (d_w p / 2 / sd_W (d_2 p) * val (sd_mu (d_2 p))) with (ivn (d_w p) (d_2 p)). fold (vkj dim kappa p).
  change (mult dim (mult_ab dim (sd_dshape (d_1 p)) (sd_adj (d_1 p))) (scale (ivn (d_w p) (d_1 p)) (d_nor p))) with (vdn dim (ivn (d_w p) (d_1 p)) (d_nor p) (d_1 p)).
  change (mult dim (mult_ab dim (sd_dshape (d_2 p)) (sd_adj (d_2 p))) (scale (ivn (d_w p) (d_2 p)) (d_nor p))) with (vdn dim (ivn (d_w p) (d_2 p)) (d_nor p) (d_2 p)).
  unfold ivd_block.
  refine (blocks_step dim nd1 nd2 kappa (vk dim nd1 nd2 kappa) p _ _ _ _ s H1 H2 _ eq_refl eq_refl (fun _ _ _ _ => Logic.I) _ _ _ _ Hs).
  - intros ->. cbn [vk kj]. unfold vkj. ring.
  - apply eblock0; auto.
  - apply eblock0; auto.
  - apply eblock0; auto.
  - apply eblock0; auto.
Qed.

Lemma ivd_itf_entries dim nd1 nd2 alpha kappa rule : (0 < nd1)%nat -> (0 < nd2)%nat ->
  (forall p, In p rule -> sd_mu (d_1 p) <> None /\ sd_mu (d_2 p) <> None) ->
  exists b, ivd_itf dim nd1 nd2 true true alpha kappa rule = Ok b /\ sized (dim * nd1) (dim * nd2) (dim * nd1) (dim * nd2) b /\
    itf_entries dim (dim * nd1) (dim * nd2) alpha (vk dim nd1 nd2 kappa) rule b.
Proof.
  intros H1 H2 M. unfold ivd_itf. rewrite (proj2 (Nat.ltb_lt _ _) H2). cbn [oassert].
  destruct (points_ok dim (dim * nd1) (dim * nd2) kappa (vk dim nd1 nd2 kappa) (ivd_point dim nd1 nd2 kappa) rule) as (s & E & A & B).
  { intros p Hp. destruct (M p Hp). apply vd_step; auto. }
  rewrite E. cbn [obind]. destruct (itf_final_ok dim (dim * nd1) (dim * nd2) alpha kappa (vk dim nd1 nd2 kappa) rule s) as (b & F & C & D); auto.
  - intros -> p _. cbn [vk kj]. unfold vkj. ring.
  - exists b. auto.
Qed.

(** Weighted normal derivatives of the basis functions *)
Lemma vdn_ap dim n a nor s (x : fv) : sd_W s <> 0 ->
  rsum n (fun j => vdn dim a nor s j * x j) = a * sd_W s * rsum dim (fun m => nor m * slope dim n s x m).
Proof.
  intros W. unfold vdn, mult, mult_ab, scale, slope.
  transitivity (rsum n (fun j => rsum dim (fun m => a * sd_W s * (nor m * (x j * (rsum dim (fun k => sd_dshape s j k * sd_adj s k m) / sd_W s)))))).
  - apply rsum_ext. intros j _. rewrite <- rsum_scal_r. apply rsum_ext. intros m _. field. auto.
  - rewrite rsum_swap, <- rsum_scal. apply rsum_ext. intros m _. rewrite !rsum_scal. auto.
Qed.

Lemma ap_S1 dim n s x c : (c < dim)%nat -> (0 < n)%nat -> ap (dim * n) (vS n (sd_shape s)) x c = trace n s (comp n c x).
Proof. intros Hc Hn. rewrite (ap_vS dim); auto. Qed.
Lemma ap_S2 dim n s x c : (c < dim)%nat -> (0 < n)%nat -> ap (dim * n) (vS n (scale (-1) (sd_shape s))) x c = - trace n s (comp n c x).
Proof.
  intros Hc Hn. rewrite (ap_vS dim) by auto. unfold trace, scale. rewrite (rsum_ext n _ (fun i => -1 * (sd_shape s i * comp n c x i))) by (intros; ring).
  rewrite rsum_scal. ring.
Qed.
Lemma ap_T dim n w nor s x c : (c < dim)%nat -> (0 < n)%nat -> sd_W s <> 0 -> sd_mq s = None ->
  ap (dim * n) (vS n (vdn dim (ivn w s) nor s)) x c = w / 2 * flux dim n nor s (comp n c x).
Proof.
  intros Hc Hn W Q. rewrite (ap_vS dim), vdn_ap by auto. unfold ivn, flux. rewrite Q. field. auto.
Qed.

Lemma ivd_form dim nd1 nd2 alpha kappa rule u1 u2 v1 v2 b : (0 < nd1)%nat -> (0 < nd2)%nat ->
  (forall p, In p rule -> (has_mu (d_1 p) /\ has_mu (d_2 p)) /\ sd_W (d_1 p) <> 0 /\ sd_W (d_2 p) <> 0) ->
  itf_entries dim (dim * nd1) (dim * nd2) alpha (vk dim nd1 nd2 kappa) rule b ->
  form (dim * nd1) (dim * nd2) (dim * nd1) (dim * nd2) b u1 u2 v1 v2 =
  rsum dim (fun c => ip_form dim nd1 nd2 alpha kappa rule (comp nd1 c u1) (comp nd2 c u2) (comp nd1 c v1) (comp nd2 c v2)).
Proof.
  intros H1 H2 W H. rewrite (form_entries _ _ _ _ _ _ _ u1 u2 v1 v2 H). unfold ip_form. rewrite <- lsum_rsum. apply lsum_ext_in. intros p Hp.
  destruct (W p Hp) as (((_ & Q1) & (_ & Q2)) & W1 & W2). apply rsum_ext. intros c Hc. unfold ip_point. cbv zeta. cbn [vk kS1 kS2 kT1 kT2 kj].
  rewrite !ap_S1, !ap_S2, !ap_T by auto. unfold vkj, ivn, stiff, inner, sq. rewrite Q1, Q2. field. auto.
Qed.

(** ** Elasticity *)

Definition eT (n dim : nat) (a b : R) (nor : fv) (s : side) : fm := fun k c =>
  let cps := mult_ab dim (sd_dshape s) (sd_adj s) in
  cps (k mod n)%nat (k / n)%nat * (a * nor c) + (if (c =? k / n)%nat then vdn dim b nor s (k mod n)%nat else 0) + cps (k mod n)%nat c * (b * nor (k / n)%nat).
Definition eL (w : R) (s : side) : R := w / 2 / sd_W s * val (sd_lam s).
Definition ekj (dim : nat) (kappa : R) (p : dpt) : R :=
  kappa * inner dim (d_nor p) (d_nor p) * (eL (d_w p) (d_2 p) + 2 * ivn (d_w p) (d_2 p) + (eL (d_w p) (d_1 p) + 2 * ivn (d_w p) (d_1 p))).
Definition ek (dim nd1 nd2 : nat) (kappa : R) (p : dpt) : kern :=
  Kern (vS nd1 (sd_shape (d_1 p))) (vS nd2 (scale (-1) (sd_shape (d_2 p))))
    (eT nd1 dim (eL (d_w p) (d_1 p)) (ivn (d_w p) (d_1 p)) (d_nor p) (d_1 p)) (eT nd2 dim (eL (d_w p) (d_2 p)) (ivn (d_w p) (d_2 p)) (d_nor p) (d_2 p)) (ekj dim kappa p).

Lemma elblock h w dim rn cn (rs nL nM cd : fv) (cps : fm) : (0 < rn)%nat -> (0 < cn)%nat -> h = (dim * rn)%nat -> w = (dim * cn)%nat ->
  exists F, adds h w (fun e => ofor dim (fun e jm => ofor cn (fun e jdof => ofor dim (fun e im => ofor rn (fun e idof =>
    sadd e (im * rn + idof) (jm * cn + jdof) (rs idof * (cps jdof jm * nL im + (if (im =? jm)%nat then cd jdof else 0) + cps jdof im * nM jm))) e) e) e) e) F /\
    forall i j, (i < h)%nat -> (j < w)%nat -> F i j = pr dim (vS rn rs) (fun k c => cps (k mod cn)%nat (k / cn)%nat * nL c +
      (if (c =? k / cn)%nat then cd (k mod cn)%nat else 0) + cps (k mod cn)%nat c * nM (k / cn)%nat) i j.
Proof.
  intros Hr Hc Hh Hw. eexists. split.
  - exact (quad h w dim rn cn (fun im idof jm jdof => rs idof * (cps jdof jm * nL im + (if (im =? jm)%nat then cd jdof else 0) + cps jdof im * nM jm)) Hr Hc Hh Hw).
  - intros i j Hi Hj. cbv beta. repeat in_range. cbn [andb]. unfold pr. destruct (divmod_lt rn dim i) as (A & _); [lia|].
    rewrite (rsum_single dim (i / rn)); auto.
    + unfold vS. rewrite Nat.eqb_refl. auto.
    + intros c _ N. unfold vS. destruct (Nat.eqb_spec (i / rn) c); [lia|ring].
Qed.

Lemma el_step dim nd1 nd2 kappa p : (0 < nd1)%nat -> (0 < nd2)%nat -> has_lame (d_1 p) -> has_lame (d_2 p) ->
  step_ok dim (dim * nd1) (dim * nd2) kappa (ek dim nd1 nd2 kappa) (iel_point dim nd1 nd2 kappa) p.
Proof.
  intros H1 H2 (M1 & L1) (M2 & L2) s Hs. unfold iel_point. cbv zeta. rewrite (proj2 (Nat.eqb_neq nd2 0)) by lia.
  rewrite !ocoef_val by auto. cbn [obind].
  change (d_w p / 2 / sd_W (d_1 p) * val (sd_mu (d_1 p))) with (ivn (d_w p) (d_1 p)).
  change (d_w p / 2 / sd_W (d_2 p) * val (sd_mu (d_2 p))) with (ivn (d_w p) (d_2 p)).
  change (d_w p / 2 / sd_W (d_1 p) * val (sd_lam (d_1 p))) with (eL (d_w p) (d_1 p)).
  change (d_w p / 2 / sd_W (d_2 p) * val (sd_lam (d_2 p))) with (eL (d_w p) (d_2 p)). fold (ekj dim kappa p).
  change (mult dim (mult_ab dim (sd_dshape (d_1 p)) (sd_adj (d_1 p))) (scale (ivn (d_w p) (d_1 p)) (d_nor p))) with (vdn dim (ivn (d_w p) (d_1 p)) (d_nor p) (d_1 p)).
  change (mult dim (mult_ab dim (sd_dshape (d_2 p)) (sd_adj (d_2 p))) (scale (ivn (d_w p) (d_2 p)) (d_nor p))) with (vdn dim (ivn (d_w p) (d_2 p)) (d_nor p) (d_2 p)).
  unfold iel_block. cbv zeta.
  refine (blocks_step dim nd1 nd2 kappa (ek dim nd1 nd2 kappa) p _ _ _ _ s H1 H2 _ eq_refl eq_refl (fun _ _ _ _ => Logic.I) _ _ _ _ Hs).
  - intros ->. cbn [ek kj]. unfold ekj. ring.
  - apply (elblock _ _ dim nd1 nd1 (sd_shape (d_1 p)) (scale (eL (d_w p) (d_1 p)) (d_nor p)) (scale (ivn (d_w p) (d_1 p)) (d_nor p))); auto.
  - apply (elblock _ _ dim nd1 nd2 (sd_shape (d_1 p)) (scale (eL (d_w p) (d_2 p)) (d_nor p)) (scale (ivn (d_w p) (d_2 p)) (d_nor p))); auto.
  - apply (elblock _ _ dim nd2 nd1 (scale (-1) (sd_shape (d_2 p))) (scale (eL (d_w p) (d_1 p)) (d_nor p)) (scale (ivn (d_w p) (d_1 p)) (d_nor p))); auto.
  - apply (elblock _ _ dim nd2 nd2 (scale (-1) (sd_shape (d_2 p))) (scale (eL (d_w p) (d_2 p)) (d_nor p)) (scale (ivn (d_w p) (d_2 p)) (d_nor p))); auto.
Qed.

Lemma iel_itf_entries dim nd1 nd2 alpha kappa rule : (0 < nd1)%nat -> (0 < nd2)%nat ->
  (forall p, In p rule -> has_lame (d_1 p) /\ has_lame (d_2 p)) ->
  exists b, iel_itf dim nd1 nd2 true alpha kappa rule = Ok b /\ sized (dim * nd1) (dim * nd2) (dim * nd1) (dim * nd2) b /\
    itf_entries dim (dim * nd1) (dim * nd2) alpha (ek dim nd1 nd2 kappa) rule b.
Proof.
  intros H1 H2 M. unfold iel_itf. cbn [oassert].
  destruct (points_ok dim (dim * nd1) (dim * nd2) kappa (ek dim nd1 nd2 kappa) (iel_point dim nd1 nd2 kappa) rule) as (s & E & A & B).
  { intros p Hp. destruct (M p Hp). apply el_step; auto. }
  rewrite E. cbn [obind]. destruct (itf_final_ok dim (dim * nd1) (dim * nd2) alpha kappa (ek dim nd1 nd2 kappa) rule s) as (b & F & C & D); auto.
  - intros -> p _. cbn [ek kj]. unfold ekj. ring.
  - exists b. auto.
Qed.

Lemma ap_eT dim n w nor s x c : (c < dim)%nat -> (0 < n)%nat -> sd_W s <> 0 ->
  ap (dim * n) (eT n dim (eL w s) (ivn w s) nor s) x c = w / 2 * traction dim n nor s x c.
Proof.
  intros Hc Hn W. unfold ap. rewrite rsum_prod.
  set (G := mult_ab dim (sd_dshape s) (sd_adj s)).
  assert (SL : forall l m, rsum n (fun a => G a m * x (l * n + a)%nat) = sd_W s * slope dim n s (comp n l x) m).
  { intros l m. unfold slope, comp, G, mult_ab. rewrite <- rsum_scal. apply rsum_ext. intros a _. field. auto. }
  transitivity (rsum dim (fun l => eL w s * nor c * (sd_W s * slope dim n s (comp n l x) l)
    + (if (c =? l)%nat then rsum n (fun a => vdn dim (ivn w s) nor s a * comp n l x a) else 0)
    + ivn w s * nor l * (sd_W s * slope dim n s (comp n l x) c))).
  - apply rsum_ext. intros l Hl. rewrite <- !SL. rewrite <- !rsum_scal. rewrite <- rsum_if. rewrite <- !rsum_plus. apply rsum_ext. intros a Ha.
    unfold eT. cbv zeta. fold G. destruct (divmod_of n l a Ha) as [-> ->]. unfold comp. destruct (c =? l)%nat; ring.
  - rewrite !rsum_plus. rewrite (pick1 dim c (fun l => rsum n (fun a => vdn dim (ivn w s) nor s a * comp n l x a))). rewrite (proj2 (Nat.ltb_lt _ _) Hc).
    rewrite vdn_ap by auto. unfold traction.
    rewrite (rsum_ext dim (fun l => (slope dim n s (comp n c x) l + slope dim n s (comp n l x) c) * nor l)
      (fun l => nor l * slope dim n s (comp n c x) l + nor l * slope dim n s (comp n l x) c)) by (intros; ring).
    rewrite rsum_plus. rewrite rsum_scal.
    rewrite (rsum_ext dim (fun l => ivn w s * nor l * (sd_W s * slope dim n s (comp n l x) c)) (fun l => ivn w s * sd_W s * (nor l * slope dim n s (comp n l x) c))) by (intros; ring).
    rewrite !rsum_scal. unfold eL, ivn. field. auto.
Qed.

Lemma iel_form dim nd1 nd2 alpha kappa rule u1 u2 v1 v2 b : (0 < nd1)%nat -> (0 < nd2)%nat ->
  (forall p, In p rule -> sd_W (d_1 p) <> 0 /\ sd_W (d_2 p) <> 0) ->
  itf_entries dim (dim * nd1) (dim * nd2) alpha (ek dim nd1 nd2 kappa) rule b ->
  form (dim * nd1) (dim * nd2) (dim * nd1) (dim * nd2) b u1 u2 v1 v2 = lsum (el_point dim nd1 nd2 alpha kappa u1 u2 v1 v2) rule.
Proof.
  intros H1 H2 W H. rewrite (form_entries _ _ _ _ _ _ _ u1 u2 v1 v2 H). apply lsum_ext_in. intros p Hp.
  destruct (W p Hp) as (W1 & W2). unfold el_point. cbv zeta. rewrite <- rsum_scal. apply rsum_ext. intros c Hc. cbn [ek kS1 kS2 kT1 kT2 kj].
  rewrite !ap_S1, !ap_S2, !ap_eT by auto. unfold ekj, eL, ivn, inner, sq. field. auto.
Qed.
