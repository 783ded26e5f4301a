(** The face integrators: vector diffusion on inner and boundary faces, normal flux on faces and interfaces. *)
From Coq Require Import Reals List Bool Lia Lra Arith ZArith.
From Verif Require Import Outcome ListLemmas LaBase EqpSpec IntegModel IntegProofs DgModel DgSpec DgAddProofs DgKernelProofs DgItfProofs.
Import ListNotations.
Local Open Scope R_scope.

(** ** Vector diffusion *)

Lemma vd_block_ok n dim rn cn ro co jc rs cs cd e j : (0 < rn)%nat -> (0 < cn)%nat -> (ro + dim * rn <= n)%nat -> (co + dim * cn <= n)%nat ->
  s_h e = n -> s_w e = n -> (jc <> 0 -> exists m, j = Some m) -> (forall m, j = Some m -> s_h m = n /\ s_w m = n) ->
  exists e' j', vd_block dim rn cn ro co jc rs cs cd e j = Ok (e', j') /\ s_h e' = n /\ s_w e' = n /\
    ((exists m, j = Some m) -> exists m, j' = Some m) /\ (forall m, j' = Some m -> s_h m = n /\ s_w m = n) /\
    (forall i k, s_at e' i k = s_at e i k + at_block ro (dim * rn) co (dim * cn) (pr dim (vS rn rs) (vS cn cd)) i k) /\
    (forall i k, (k <= i)%nat -> jat j' i k = jat j i k + at_block ro (dim * rn) co (dim * cn) (fun a b => jc * pr dim (vS rn rs) (vS cn cs) a b) i k).
Proof.
  intros Hr Hc Hro Hco He Hw Hj Hs. unfold vd_block.
  destruct (vd_eblock n n dim rn cn ro co rs cd Hr Hc Hro Hco e He Hw) as (e' & E & A & B & C). rewrite E. cbn [obind].
  destruct (Req_EM_T jc 0) as [Z|Z].
  - exists e', j. repeat split; auto; try (apply (Hs m); auto).
    intros i k _. unfold at_block. destruct (_ && _)%bool; rewrite ?Z; ring.
  - destruct (Hj Z) as (m & ->). destruct (Hs m eq_refl) as (Mh & Mw). cbn [ojm obind].
    destruct (tri_block n n dim rn cn ro co rs cs jc (fun d => (ro + d * rn)%nat) (fun d jd => (Nat.max (ro + d * rn) (co + d * cn + jd) - (ro + d * rn))%nat)
      (fun i k => (k <=? i)%nat) Hr Hc Hro Hco ltac:(auto)) with (m := m) as (m' & F & A' & B' & C'); auto.
    + intros d id jd _ _ _. rewrite Nat.leb_le. lia.
    + match goal with |- context[obind ?x _] => assert (F' : x = Ok m') by exact F; rewrite F' end. cbn [obind].
      exists e', (Some m'). split; [auto|]. split; [auto|]. split; [auto|]. split; [eauto|]. split.
      * intros x Hx. injection Hx as <-. auto.
      * split; [auto|]. intros i k Hk. cbn [jat]. rewrite C', (proj2 (Nat.leb_le _ _) Hk). auto.
Qed.

Definition ivw (w : R) (s : side) : R := w / sd_W s * val (sd_mu s).
Definition fwt (nd2 : nat) (w : R) : R := if (nd2 =? 0)%nat then w else w / 2.
Definition fS (dim nd1 nd2 : nat) (p : dpt) : fm := fun g c =>
  if (g <? dim * nd1)%nat then vS nd1 (sd_shape (d_1 p)) g c else vS nd2 (scale (-1) (sd_shape (d_2 p))) (g - dim * nd1)%nat c.
Definition fT (dim nd1 nd2 : nat) (p : dpt) : fm := fun g c =>
  if (g <? dim * nd1)%nat then vS nd1 (vdn dim (ivw (fwt nd2 (d_w p)) (d_1 p)) (d_nor p) (d_1 p)) g c
  else vS nd2 (vdn dim (ivw (fwt nd2 (d_w p)) (d_2 p)) (d_nor p) (d_2 p)) (g - dim * nd1)%nat c.
Definition fj (dim nd2 : nat) (kappa : R) (p : dpt) : R :=
  kappa * inner dim (d_nor p) (d_nor p) * ((if (nd2 =? 0)%nat then 0 else ivw (fwt nd2 (d_w p)) (d_2 p)) + ivw (fwt nd2 (d_w p)) (d_1 p)).

Definition fbuf_ok (n : nat) (kappa : R) (s : smat * option smat) : Prop :=
  s_h (fst s) = n /\ s_w (fst s) = n /\ (kappa <> 0 -> exists m, snd s = Some m) /\ (forall m, snd s = Some m -> s_h m = n /\ s_w m = n).
Definition fstep (dim nd1 nd2 : nat) (kappa : R) (p : dpt) : Prop := let n := (dim * (nd1 + nd2))%nat in forall s, fbuf_ok n kappa s ->
  exists s', vd_point dim nd1 nd2 kappa s p = Ok s' /\ fbuf_ok n kappa s' /\
    (forall i j, (i < n)%nat -> (j < n)%nat -> s_at (fst s') i j = s_at (fst s) i j + pr dim (fS dim nd1 nd2 p) (fT dim nd1 nd2 p) i j) /\
    (forall i j, (i < n)%nat -> (j <= i)%nat -> jat (snd s') i j = jat (snd s) i j + fj dim nd2 kappa p * pr dim (fS dim nd1 nd2 p) (fS dim nd1 nd2 p) i j).

Lemma inb_lo n i : inb 0 n i = (i <? n)%nat.
Proof. reflexivity. Qed.
Lemma inb_hi n m i : (i < n + m)%nat -> inb n m i = negb (i <? n)%nat.
Proof. intros H. unfold inb. rewrite (proj2 (Nat.ltb_lt _ _) H), andb_true_r. destruct (Nat.leb_spec n i); destruct (Nat.ltb_spec i n); auto; lia. Qed.

Lemma fstep_ok dim nd1 nd2 kappa p : (0 < nd1)%nat -> sd_mu (d_1 p) <> None -> (nd2 <> 0%nat -> sd_mu (d_2 p) <> None) -> fstep dim nd1 nd2 kappa p.
Proof.
  intros H1 M1 M2. unfold fstep. set (n := (dim * (nd1 + nd2))%nat). intros [e j] HS. destruct HS as (Se & Sw & Sj & Sm). cbn [fst snd] in *. unfold vd_point. cbv zeta. cbn [fst snd].
  assert (NZ : fj dim nd2 kappa p <> 0 -> kappa <> 0) by (intros N K; apply N; unfold fj; rewrite K; ring).
  destruct (Nat.eqb_spec nd2 0) as [Z|Z].
  - cbn [obind]. rewrite !ocoef_val by auto. cbn [obind].
    set (dn1 := mult dim (mult_ab dim (sd_dshape (d_1 p)) (sd_adj (d_1 p))) (scale (d_w p / sd_W (d_1 p) * val (sd_mu (d_1 p))) (d_nor p))).
    assert (J : fj dim nd2 kappa p = kappa * inner dim (d_nor p) (d_nor p) * (0 + d_w p / sd_W (d_1 p) * val (sd_mu (d_1 p)))).
    { unfold fj, fwt, ivw. subst nd2. reflexivity. }
    rewrite <- J. subst nd2.
    destruct (vd_block_ok n dim nd1 nd1 0 0 (fj dim 0 kappa p) (sd_shape (d_1 p)) (sd_shape (d_1 p)) dn1 e j) as (e1 & j1 & E & A & B & C & D & F & G); auto 10; try (unfold n; lia).
    rewrite E. cbn [obind]. exists (e1, j1). split; [auto|]. split; [repeat split; cbn [fst snd]; auto; apply (D m); auto|].
    assert (N : n = (dim * nd1)%nat) by (unfold n; lia). cbn [fst snd]. split.
    + intros i k Hi Hk. rewrite F. f_equal. unfold at_block. rewrite !inb_lo, <- N. rewrite (proj2 (Nat.ltb_lt _ _) Hi), (proj2 (Nat.ltb_lt _ _) Hk).
      cbn [andb]. rewrite !Nat.sub_0_r. apply rsum_ext. intros c _. unfold fS, fT. rewrite <- N. rewrite (proj2 (Nat.ltb_lt _ _) Hi), (proj2 (Nat.ltb_lt _ _) Hk). auto.
    + intros i k Hi Hk. rewrite G by auto. f_equal. unfold at_block. rewrite !inb_lo, <- N. rewrite (proj2 (Nat.ltb_lt _ _) Hi), (proj2 (Nat.ltb_lt k n) ltac:(lia)).
      cbn [andb]. rewrite !Nat.sub_0_r. f_equal. apply rsum_ext. intros c _. unfold fS. rewrite <- N.
      rewrite (proj2 (Nat.ltb_lt _ _) Hi), (proj2 (Nat.ltb_lt k n) ltac:(lia)). auto.
  - rewrite !ocoef_val by auto. cbn [obind].
    set (dn1 := mult dim (mult_ab dim (sd_dshape (d_1 p)) (sd_adj (d_1 p))) (scale (d_w p / 2 / sd_W (d_1 p) * val (sd_mu (d_1 p))) (d_nor p))).
    set (dn2 := mult dim (mult_ab dim (sd_dshape (d_2 p)) (sd_adj (d_2 p))) (scale (d_w p / 2 / sd_W (d_2 p) * val (sd_mu (d_2 p))) (d_nor p))).
    assert (J : fj dim nd2 kappa p = kappa * inner dim (d_nor p) (d_nor p) * (d_w p / 2 / sd_W (d_2 p) * val (sd_mu (d_2 p)) + d_w p / 2 / sd_W (d_1 p) * val (sd_mu (d_1 p)))).
    { unfold fj, fwt, ivw. rewrite (proj2 (Nat.eqb_neq _ _) Z). reflexivity. }
    rewrite <- J. set (sh1 := sd_shape (d_1 p)). set (sh2 := scale (-1) (sd_shape (d_2 p))).
    destruct (vd_block_ok n dim nd1 nd1 0 0 (fj dim nd2 kappa p) sh1 sh1 dn1 e j) as (e1 & j1 & E1 & A1 & B1 & C1 & D1 & F1 & G1); auto 10; try (unfold n; lia).
    rewrite E1. cbn [obind].
    destruct (vd_block_ok n dim nd1 nd2 0 (dim * nd1) (fj dim nd2 kappa p) sh1 sh2 dn2 e1 j1) as (e2 & j2 & E2 & A2 & B2 & C2 & D2 & F2 & G2); auto 10; try (unfold n; lia).
    rewrite E2. cbn [obind].
    destruct (vd_block_ok n dim nd2 nd1 (dim * nd1) 0 (fj dim nd2 kappa p) sh2 sh1 dn1 e2 j2) as (e3 & j3 & E3 & A3 & B3 & C3 & D3 & F3 & G3); auto 10; try (unfold n; lia).
    rewrite E3. cbn [obind].
    destruct (vd_block_ok n dim nd2 nd2 (dim * nd1) (dim * nd1) (fj dim nd2 kappa p) sh2 sh2 dn2 e3 j3) as (e4 & j4 & E4 & A4 & B4 & C4 & D4 & F4 & G4); auto 10; try (unfold n; lia).
    rewrite E4. exists (e4, j4). split; [auto|]. split; [repeat split; cbn [fst snd]; auto 12; apply (D4 m); auto|].
    assert (N : n = (dim * nd1 + dim * nd2)%nat) by (unfold n; lia). cbn [fst snd].
    assert (T1 : vdn dim (ivw (fwt nd2 (d_w p)) (d_1 p)) (d_nor p) (d_1 p) = dn1).
    { unfold fwt. rewrite (proj2 (Nat.eqb_neq _ _) Z). reflexivity. }
    assert (T2 : vdn dim (ivw (fwt nd2 (d_w p)) (d_2 p)) (d_nor p) (d_2 p) = dn2).
    { unfold fwt. rewrite (proj2 (Nat.eqb_neq _ _) Z). reflexivity. }
    split.
    + intros i k Hi Hk. rewrite F4, F3, F2, F1. unfold at_block. rewrite !inb_lo, !inb_hi by lia.
      unfold pr, fS, fT. rewrite T1, T2. fold sh1 sh2. rewrite !Nat.sub_0_r.
      destruct (i <? dim * nd1)%nat, (k <? dim * nd1)%nat; cbn [andb negb]; ring.
    + intros i k Hi Hk. rewrite G4, G3, G2, G1 by auto. unfold at_block. rewrite !inb_lo, !inb_hi by lia.
      unfold pr, fS. fold sh1 sh2. rewrite !Nat.sub_0_r.
      destruct (i <? dim * nd1)%nat, (k <? dim * nd1)%nat; cbn [andb negb]; ring.
Qed.

Lemma vd_face_entries dim nd1 nd2 alpha kappa rule : (0 < nd1)%nat ->
  (forall p, In p rule -> sd_mu (d_1 p) <> None /\ (nd2 <> 0%nat -> sd_mu (d_2 p) <> None)) ->
  exists m, vd_face dim nd1 nd2 alpha kappa rule = Ok m /\ s_h m = (dim * (nd1 + nd2))%nat /\ s_w m = (dim * (nd1 + nd2))%nat /\
    forall i j, (i < dim * (nd1 + nd2))%nat -> (j < dim * (nd1 + nd2))%nat ->
      s_at m i j = lsum (fun p => entry dim alpha (fj dim nd2 kappa p) (fS dim nd1 nd2 p) (fT dim nd1 nd2 p) (fS dim nd1 nd2 p) (fT dim nd1 nd2 p) i j) rule.
Proof.
  intros H1 M. unfold vd_face. cbv zeta. set (n := (dim * (nd1 + nd2))%nat). set (s0 := (szero n n, if Req_EM_T kappa 0 then None else Some (szero n n))).
  assert (P : exists s, ofold (vd_point dim nd1 nd2 kappa) rule s0 = Ok s /\ fbuf_ok n kappa s /\
    (forall i j, (i < n)%nat -> (j < n)%nat -> s_at (fst s) i j = lsum (fun p => pr dim (fS dim nd1 nd2 p) (fT dim nd1 nd2 p) i j) rule) /\
    (forall i j, (i < n)%nat -> (j <= i)%nat -> jat (snd s) i j = lsum (fun p => fj dim nd2 kappa p * pr dim (fS dim nd1 nd2 p) (fS dim nd1 nd2 p) i j) rule)).
  { revert M. induction rule as [|p rule IH] using rev_ind; intros M.
    - exists s0. split; [auto|]. split; [|split].
      + unfold s0. repeat split; cbn [fst snd]; destruct (Req_EM_T kappa 0); try contradiction; eauto; try discriminate; injection H as <-; auto.
      + auto.
      + intros. unfold s0. cbn [snd]. destruct (Req_EM_T kappa 0); auto.
    - destruct IH as (s & E & A & B & C). { intros q Hq. apply M. apply in_or_app. auto. }
      destruct (M p) as (M1 & M2). { apply in_or_app. simpl. auto. }
      destruct (fstep_ok dim nd1 nd2 kappa p H1 M1 M2 s A) as (s' & E' & A' & B' & C').
      exists s'. rewrite ofold_app, E. cbn [obind ofold]. rewrite E'. split; [auto|]. split; [auto|]. split.
      + intros i j Hi Hj. rewrite lsum_snoc_d, B', B; auto.
      + intros i j Hi Hj. rewrite lsum_snoc_d, C', C; auto. }
  destruct P as ([e j] & E & (Se & Sw & Sj & Sm) & B & C). rewrite E. cbn [obind]. cbn [fst snd] in *.
  destruct (Req_EM_T kappa 0) as [K|K].
  - destruct (fin_diag_0_ok n alpha e Se Sw) as (m & F & F1 & F2 & F3). exists m. split; [auto|]. split; [auto|]. split; [auto|].
    intros a b Ha Hb. rewrite lsum_entry, F3 by auto. unfold fin_val. rewrite !B by auto.
    rewrite (lsum_0 (fun p => fj dim nd2 kappa p * _)); auto. intros p _. unfold fj. rewrite K. ring.
  - destruct (Sj K) as (m & ->). destruct (Sm m eq_refl) as (Mh & Mw). cbn [ojm obind jat] in *.
    destruct (fin_diag_j_ok n alpha m e Se Sw Mh Mw) as (m' & F & F1 & F2 & F3). exists m'. split; [auto|]. split; [auto|]. split; [auto|].
    intros a b Ha Hb. rewrite lsum_entry, F3 by auto. unfold fin_val. rewrite !B by auto.
    rewrite (sym_j dim (fj dim nd2 kappa) (fS dim nd1 nd2) rule (s_at m) n a b C Ha Hb). auto.
Qed.

Lemma entry_ext nc alpha g A TA B TB i j g' A' TA' B' TB' i' j' : g = g' ->
  (forall c, A i c = A' i' c /\ TA i c = TA' i' c /\ B j c = B' j' c /\ TB j c = TB' j' c) ->
  entry nc alpha g A TA B TB i j = entry nc alpha g' A' TA' B' TB' i' j'.
Proof. intros -> H. apply rsum_ext. intros c _. destruct (H c) as (-> & -> & -> & ->). auto. Qed.

Lemma ivd_parts dim nd1 nd2 alpha kappa rule : (0 < nd1)%nat -> (0 < nd2)%nat ->
  (forall p, In p rule -> sd_mu (d_1 p) <> None /\ sd_mu (d_2 p) <> None) ->
  exists m b, vd_face dim nd1 nd2 alpha kappa rule = Ok m /\ ivd_itf dim nd1 nd2 true true alpha kappa rule = Ok b /\
    sized (dim * nd1) (dim * nd2) (dim * nd1) (dim * nd2) b /\ parts (dim * nd1) (dim * nd2) (dim * nd1) (dim * nd2) m b.
Proof.
  intros H1 H2 M. destruct (vd_face_entries dim nd1 nd2 alpha kappa rule H1) as (m & E & A & B & C).
  { intros p Hp. destruct (M p Hp). auto. }
  destruct (ivd_itf_entries dim nd1 nd2 alpha kappa rule H1 H2 M) as (b & F & S & (I00 & I01 & I10 & I11)).
  exists m, b. split; [auto|]. split; [auto|]. split; [auto|]. unfold parts. split; [rewrite A; lia|]. split; [rewrite B; lia|].
  assert (Z : (nd2 =? 0)%nat = false) by (apply Nat.eqb_neq; lia).
  assert (L : forall p g c, (g < dim * nd1)%nat -> fS dim nd1 nd2 p g c = kS1 (vk dim nd1 nd2 kappa p) g c /\ fT dim nd1 nd2 p g c = kT1 (vk dim nd1 nd2 kappa p) g c).
  { intros p g c Hg. unfold fS, fT, fwt, ivw. rewrite (proj2 (Nat.ltb_lt _ _) Hg), Z. auto. }
  assert (U : forall p g c, fS dim nd1 nd2 p (dim * nd1 + g)%nat c = kS2 (vk dim nd1 nd2 kappa p) g c /\ fT dim nd1 nd2 p (dim * nd1 + g)%nat c = kT2 (vk dim nd1 nd2 kappa p) g c).
  { intros p g c. unfold fS, fT, fwt, ivw. rewrite (proj2 (Nat.ltb_ge _ _)), Z by lia. replace (dim * nd1 + g - dim * nd1)%nat with g by lia. auto. }
  assert (J : forall p, kj (vk dim nd1 nd2 kappa p) = fj dim nd2 kappa p).
  { intros p. unfold fj, fwt, ivw. rewrite Z. reflexivity. }
  split; [|split; [|split]].
  - intros i j Hi Hj. rewrite I00, C by lia. apply lsum_ext_in. intros p _. apply entry_ext; [apply J|]. intros c.
    destruct (L p i c Hi) as (-> & ->). destruct (L p j c Hj) as (-> & ->). auto.
  - intros i j Hi Hj. rewrite I01, C by lia. apply lsum_ext_in. intros p _. apply entry_ext; [apply J|]. intros c.
    destruct (L p i c Hi) as (-> & ->). destruct (U p j c) as (-> & ->). auto.
  - intros i j Hi Hj. rewrite I10, C by lia. apply lsum_ext_in. intros p _. apply entry_ext; [apply J|]. intros c.
    destruct (U p i c) as (-> & ->). destruct (L p j c Hj) as (-> & ->). auto.
  - intros i j Hi Hj. rewrite I11, C by lia. apply lsum_ext_in. intros p _. apply entry_ext; [apply J|]. intros c.
    destruct (U p i c) as (-> & ->). destruct (U p j c) as (-> & ->). auto.
Qed.

(** ** Boundary faces *)

Lemma vd_bdr dim nd alpha kappa rule u v m : (0 < nd)%nat -> (forall p, In p rule -> has_mu (d_1 p) /\ sd_W (d_1 p) <> 0) ->
  vd_face dim nd 0 alpha kappa rule = Ok m ->
  s_h m = (dim * nd)%nat /\ s_w m = (dim * nd)%nat /\
  paired (dim * nd) (dim * nd) m v u = rsum dim (fun c => lsum (nitsche_point dim nd alpha kappa (comp nd c u) (comp nd c v)) rule).
Proof.
  intros Hn W E. destruct (vd_face_entries dim nd 0 alpha kappa rule Hn) as (m' & E' & A & B & C).
  { intros p Hp. destruct (W p Hp) as ((M & _) & _). split; [auto|]. intros N. contradiction. }
  rewrite E in E'. injection E' as <-. replace (dim * (nd + 0))%nat with (dim * nd)%nat in * by lia. split; [auto|]. split; [auto|].
  rewrite (paired_entry dim alpha (dim * nd) (dim * nd) m _ _ _ _ _ rule v u C). rewrite <- lsum_rsum. apply lsum_ext_in. intros p Hp.
  destruct (W p Hp) as ((M & Q) & W1). apply rsum_ext. intros c Hc.
  assert (S1 : forall x, ap (dim * nd) (fS dim nd 0 p) x c = trace nd (d_1 p) (comp nd c x)).
  { intros x. rewrite <- (ap_S1 dim) by auto. unfold ap. apply rsum_ext. intros i Hi. unfold fS. rewrite (proj2 (Nat.ltb_lt _ _) Hi). auto. }
  assert (T1 : forall x, ap (dim * nd) (fT dim nd 0 p) x c = d_w p * flux dim nd (d_nor p) (d_1 p) (comp nd c x)).
  { intros x. transitivity (ap (dim * nd) (vS nd (vdn dim (ivw (d_w p) (d_1 p)) (d_nor p) (d_1 p))) x c).
    - unfold ap. apply rsum_ext. intros i Hi. unfold fT, fwt. rewrite (proj2 (Nat.ltb_lt _ _) Hi). auto.
    - rewrite (ap_vS dim), vdn_ap by auto. unfold ivw, flux. rewrite Q. field. auto. }
  rewrite !S1, !T1. unfold nitsche_point, fj, fwt, ivw, stiff, sq, inner. rewrite Q. cbn [Nat.eqb]. field. auto.
Qed.

(** ** Normal flux *)

(** What one loop adds at row [r0 + i], column [c0 + j] *)
Lemma nf_loop_ok h w dim rn cn r0 c0 wnor rs cs sg : (0 < cn)%nat -> (r0 + rn <= h)%nat -> (c0 + dim * cn <= w)%nat ->
  adds h w (fun e => nf_loop dim rn cn r0 c0 wnor rs cs sg e)
    (fun i j => if (inb r0 rn i && inb c0 (dim * cn) j)%bool then sg * (wnor ((j - c0) / cn)%nat * rs (i - r0)%nat * cs ((j - c0) mod cn)%nat) else 0).
Proof.
  intros Hc Hr Hw. unfold nf_loop. eapply adds_ext.
  - apply (adds_ofor h w dim (fun e jm => ofor cn (fun e jd => ofor rn (fun e id => sadd e (r0 + id) (c0 + jm * cn + jd) (sg * (wnor jm * rs id * cs jd))) e) e)
      (fun jm i j => rsum cn (fun jd => rsum rn (fun id => delta (r0 + id) (c0 + jm * cn + jd) (sg * (wnor jm * rs id * cs jd)) i j)))).
    intros jm Hjm. apply (adds_ofor h w cn (fun e jd => ofor rn (fun e id => sadd e (r0 + id) (c0 + jm * cn + jd) (sg * (wnor jm * rs id * cs jd))) e)
      (fun jd i j => rsum rn (fun id => delta (r0 + id) (c0 + jm * cn + jd) (sg * (wnor jm * rs id * cs jd)) i j))).
    intros jd Hjd. apply (adds_ofor h w rn (fun e id => sadd e (r0 + id) (c0 + jm * cn + jd) (sg * (wnor jm * rs id * cs jd)))
      (fun id => delta (r0 + id) (c0 + jm * cn + jd) (sg * (wnor jm * rs id * cs jd)))).
    intros id Hid. apply adds_sadd; nia.
  - intros i j. cbv beta. unfold delta.
    rewrite (rsum_ext dim _ (fun jm => rsum cn (fun jd => if (j =? c0 + jm * cn + jd)%nat then (if inb r0 rn i then sg * (wnor jm * rs (i - r0)%nat * cs jd) else 0) else 0))).
    + destruct (Nat.leb_spec c0 j) as [L|L].
      * rewrite (rsum_ext dim _ (fun jm => rsum cn (fun jd => if (j - c0 =? jm * cn + jd)%nat then (if inb r0 rn i then sg * (wnor jm * rs (i - r0)%nat * cs jd) else 0) else 0))).
        -- rewrite (pick2 dim cn (j - c0) (fun jm jd => if inb r0 rn i then sg * (wnor jm * rs (i - r0)%nat * cs jd) else 0)) by auto.
           unfold inb at 3. rewrite (proj2 (Nat.leb_le _ _) L). cbn [andb].
           destruct (Nat.ltb_spec (j - c0) (dim * cn)); destruct (Nat.ltb_spec j (c0 + dim * cn)); try lia; destruct (inb r0 rn i); auto.
        -- intros jm _. apply rsum_ext. intros jd _. destruct (Nat.eqb_spec j (c0 + jm * cn + jd)); destruct (Nat.eqb_spec (j - c0) (jm * cn + jd)); auto; lia.
      * rewrite (rsum_ext dim _ (fun _ => 0)), rsum_zero.
        -- unfold inb at 2. rewrite (proj2 (Nat.leb_gt _ _) L). cbn [andb]. rewrite andb_false_r. auto.
        -- intros jm _. rewrite (rsum_ext cn _ (fun _ => 0)), rsum_zero; auto. intros jd _. destruct (Nat.eqb_spec j (c0 + jm * cn + jd)); [lia|auto].
    + intros jm _. apply rsum_ext. intros jd _.
      destruct (j =? c0 + jm * cn + jd)%nat.
      * rewrite (rsum_ext rn _ (fun id => if (i =? r0 + id)%nat then sg * (wnor jm * rs id * cs jd) else 0)) by (intros; rewrite andb_true_r; auto).
        unfold inb. destruct (Nat.leb_spec r0 i) as [L|L]; cbn [andb].
        -- rewrite (rsum_ext rn _ (fun id => if (i - r0 =? id)%nat then sg * (wnor jm * rs id * cs jd) else 0)).
           ++ rewrite pick1. destruct (Nat.ltb_spec (i - r0) rn); destruct (Nat.ltb_spec i (r0 + rn)); auto; lia.
           ++ intros id _. destruct (Nat.eqb_spec i (r0 + id)); destruct (Nat.eqb_spec (i - r0) id); auto; lia.
        -- rewrite (rsum_ext rn _ (fun _ => 0)), rsum_zero; auto. intros id _. destruct (Nat.eqb_spec i (r0 + id)); [lia|auto].
      * rewrite (rsum_ext rn _ (fun _ => 0)), rsum_zero; auto. intros id _. rewrite andb_false_r. auto.
Qed.

(** One entry of the normal flux: pressure function [i] of one side, velocity function [j] of one side *)
Definition nfe (cn : nat) (w sg : R) (nor te tr : fv) (i j : nat) : R := sg * (w * nor (j / cn)%nat * te i * tr (j mod cn)%nat).
Definition nfw (tr2 : nat) (w : R) : R := if (tr2 =? 0)%nat then w else w * (1 / 2).

Definition nf_entries (dim tr1 tr2 te1 te2 : nat) (rule : list npt) (m : smat) : Prop :=
  s_h m = (te1 + te2)%nat /\ s_w m = (dim * tr1 + dim * tr2)%nat /\
  (forall i j, (i < te1)%nat -> (j < dim * tr1)%nat -> s_at m i j = lsum (fun p => nfe tr1 (nfw tr2 (n_w p)) 1 (n_nor p) (n_te1 p) (n_tr1 p) i j) rule) /\
  (forall i j, (i < te1)%nat -> (j < dim * tr2)%nat -> s_at m i (dim * tr1 + j)%nat = lsum (fun p => nfe tr2 (nfw tr2 (n_w p)) (-1) (n_nor p) (n_te1 p) (n_tr2 p) i j) rule) /\
  (forall i j, (i < te2)%nat -> (j < dim * tr1)%nat -> s_at m (te1 + i)%nat j = lsum (fun p => nfe tr1 (nfw tr2 (n_w p)) 1 (n_nor p) (n_te2 p) (n_tr1 p) i j) rule) /\
  (forall i j, (i < te2)%nat -> (j < dim * tr2)%nat -> s_at m (te1 + i)%nat (dim * tr1 + j)%nat = lsum (fun p => nfe tr2 (nfw tr2 (n_w p)) (-1) (n_nor p) (n_te2 p) (n_tr2 p) i j) rule).

Lemma inb_in o n i : (i < n)%nat -> inb o n (o + i) = true.
Proof. intros H. unfold inb. rewrite (proj2 (Nat.leb_le _ _)), (proj2 (Nat.ltb_lt _ _)) by lia. auto. Qed.
Lemma inb_in0 n i : (i < n)%nat -> inb 0 n i = true.
Proof. apply (inb_in 0). Qed.
Lemma inb_below o n i : (i < o)%nat -> inb o n i = false.
Proof. intros H. unfold inb. rewrite (proj2 (Nat.leb_gt _ _)) by lia. auto. Qed.
Lemma inb_above o n i : inb 0 o (o + i + n) = false.
Proof. unfold inb. rewrite (proj2 (Nat.ltb_ge _ _)) by lia. apply andb_false_r. Qed.
Lemma inb_above0 o i : inb 0 o (o + i) = false.
Proof. unfold inb. rewrite (proj2 (Nat.ltb_ge _ _)) by lia. apply andb_false_r. Qed.

Lemma nf_face_entries dim tr1 tr2 te1 te2 rule : (0 < tr1)%nat -> (tr2 = 0%nat -> te2 = 0%nat) ->
  exists m, ofold (nf_point dim tr1 tr2 te1 te2) rule (szero (te1 + te2) (dim * tr1 + dim * tr2)) = Ok m /\ nf_entries dim tr1 tr2 te1 te2 rule m.
Proof.
  intros H1 Hz. induction rule as [|p rule IH] using rev_ind.
  - eexists. split; [reflexivity|]. unfold nf_entries. repeat split; auto.
  - destruct IH as (m & E & (Sh & Sw & I00 & I01 & I10 & I11)). rewrite ofold_app, E. cbn [obind ofold]. unfold nf_point. cbv zeta.
    fold (nfw tr2 (n_w p)). set (wn := scale (nfw tr2 (n_w p)) (n_nor p)).
    destruct (nf_loop_ok (te1 + te2) (dim * tr1 + dim * tr2) dim te1 tr1 0 0 wn (n_te1 p) (n_tr1 p) 1 H1 ltac:(lia) ltac:(lia) m Sh Sw) as (m1 & E1 & A1 & B1 & C1).
    rewrite E1. cbn [obind]. destruct (Nat.eqb_spec tr2 0) as [Z|Z].
    + exists m1. split; [auto|]. specialize (Hz Z). subst tr2 te2. unfold nf_entries. split; [auto|]. split; [auto|]. split; [|split; [|split]].
      * intros i j Hi Hj. rewrite lsum_snoc_d, C1, I00, !inb_in0 by auto. cbn [andb]. rewrite !Nat.sub_0_r. unfold nfe, wn, scale. auto.
      * intros i j Hi Hj. lia.
      * intros i j Hi Hj. lia.
      * intros i j Hi Hj. lia.
    + destruct (nf_loop_ok (te1 + te2) (dim * tr1 + dim * tr2) dim te2 tr1 te1 0 wn (n_te2 p) (n_tr1 p) 1 ltac:(lia) ltac:(lia) ltac:(lia) m1 A1 B1) as (m2 & E2 & A2 & B2 & C2).
      rewrite E2. cbn [obind].
      destruct (nf_loop_ok (te1 + te2) (dim * tr1 + dim * tr2) dim te2 tr2 te1 (dim * tr1) wn (n_te2 p) (n_tr2 p) (-1) ltac:(lia) ltac:(lia) ltac:(lia) m2 A2 B2) as (m3 & E3 & A3 & B3 & C3).
      rewrite E3. cbn [obind].
      destruct (nf_loop_ok (te1 + te2) (dim * tr1 + dim * tr2) dim te1 tr2 0 (dim * tr1) wn (n_te1 p) (n_tr2 p) (-1) ltac:(lia) ltac:(lia) ltac:(lia) m3 A3 B3) as (m4 & E4 & A4 & B4 & C4).
      rewrite E4. exists m4. split; [auto|]. unfold nf_entries. split; [auto|]. split; [auto|]. split; [|split; [|split]].
      * intros i j Hi Hj. rewrite lsum_snoc_d, C4, C3, C2, C1, I00 by auto. rewrite !inb_in0 by auto. rewrite !inb_below by auto.
        rewrite ?andb_false_r, ?andb_false_l. cbn [andb]. rewrite !Nat.sub_0_r. unfold nfe, wn, scale. ring.
      * intros i j Hi Hj. rewrite lsum_snoc_d, C4, C3, C2, C1, I01 by auto. rewrite (inb_in0 te1), (inb_below te1), inb_above0, inb_in by auto.
        rewrite ?andb_false_r, ?andb_false_l. cbn [andb]. rewrite !Nat.sub_0_r. replace (dim * tr1 + j - dim * tr1)%nat with j by lia. unfold nfe, wn, scale. ring.
      * intros i j Hi Hj. rewrite lsum_snoc_d, C4, C3, C2, C1, I10 by auto. rewrite (inb_in0 (dim * tr1)), (inb_below (dim * tr1)), inb_above0, inb_in by auto.
        rewrite ?andb_false_r, ?andb_false_l. cbn [andb]. rewrite !Nat.sub_0_r. replace (te1 + i - te1)%nat with i by lia. unfold nfe, wn, scale. ring.
      * intros i j Hi Hj. rewrite lsum_snoc_d, C4, C3, C2, C1, I11 by auto. rewrite !inb_above0, !inb_in by auto.
        rewrite ?andb_false_r, ?andb_false_l. cbn [andb]. replace (te1 + i - te1)%nat with i by lia.
        replace (dim * tr1 + j - dim * tr1)%nat with j by lia. unfold nfe, wn, scale. ring.
Qed.


Definition inf_entries (dim tr1 tr2 te1 te2 : nat) (rule : list npt) (b : blocks) : Prop :=
  sized te1 te2 (dim * tr1) (dim * tr2) b /\
  (forall i j, (i < te1)%nat -> (j < dim * tr1)%nat -> s_at (b00 b) i j = lsum (fun p => nfe tr1 (nfw tr2 (n_w p)) 1 (n_nor p) (n_te1 p) (n_tr1 p) i j) rule) /\
  (forall i j, (i < te1)%nat -> (j < dim * tr2)%nat -> s_at (b01 b) i j = lsum (fun p => nfe tr2 (nfw tr2 (n_w p)) (-1) (n_nor p) (n_te1 p) (n_tr2 p) i j) rule) /\
  (forall i j, (i < te2)%nat -> (j < dim * tr1)%nat -> s_at (b10 b) i j = lsum (fun p => nfe tr1 (nfw tr2 (n_w p)) 1 (n_nor p) (n_te2 p) (n_tr1 p) i j) rule) /\
  (forall i j, (i < te2)%nat -> (j < dim * tr2)%nat -> s_at (b11 b) i j = lsum (fun p => nfe tr2 (nfw tr2 (n_w p)) (-1) (n_nor p) (n_te2 p) (n_tr2 p) i j) rule).

Lemma inf_itf_entries dim tr1 tr2 te1 te2 rule : (0 < tr1)%nat -> (0 < tr2)%nat -> (0 < te2)%nat ->
  exists b, inf_itf dim tr1 tr2 te1 te2 true true rule = Ok b /\ inf_entries dim tr1 tr2 te1 te2 rule b.
Proof.
  intros H1 H2 H3. unfold inf_itf. rewrite (proj2 (Nat.ltb_lt _ _) H2), (proj2 (Nat.ltb_lt _ _) H3). cbn [andb oassert].
  induction rule as [|p rule IH] using rev_ind.
  - eexists. split; [reflexivity|]. unfold inf_entries, sized. repeat split; auto.
  - destruct IH as (b & E & ((S00 & S01 & S10 & S11) & I00 & I01 & I10 & I11)). rewrite ofold_app, E. cbn [obind ofold]. unfold inf_point. cbv zeta.
    fold (nfw tr2 (n_w p)). set (wn := scale (nfw tr2 (n_w p)) (n_nor p)).
    destruct (nf_loop_ok te1 (dim * tr1) dim te1 tr1 0 0 wn (n_te1 p) (n_tr1 p) 1 ltac:(lia) ltac:(lia) ltac:(lia) (b00 b) ltac:(tauto) ltac:(tauto)) as (m1 & E1 & A1 & B1 & C1).
    destruct (nf_loop_ok te2 (dim * tr1) dim te2 tr1 0 0 wn (n_te2 p) (n_tr1 p) 1 ltac:(lia) ltac:(lia) ltac:(lia) (b10 b) ltac:(tauto) ltac:(tauto)) as (m2 & E2 & A2 & B2 & C2).
    destruct (nf_loop_ok te2 (dim * tr2) dim te2 tr2 0 0 wn (n_te2 p) (n_tr2 p) (-1) ltac:(lia) ltac:(lia) ltac:(lia) (b11 b) ltac:(tauto) ltac:(tauto)) as (m3 & E3 & A3 & B3 & C3).
    destruct (nf_loop_ok te1 (dim * tr2) dim te1 tr2 0 0 wn (n_te1 p) (n_tr2 p) (-1) ltac:(lia) ltac:(lia) ltac:(lia) (b01 b) ltac:(tauto) ltac:(tauto)) as (m4 & E4 & A4 & B4 & C4).
    rewrite E1. cbn [obind]. rewrite (proj2 (Nat.eqb_neq tr2 0)) by lia. rewrite E2. cbn [obind]. rewrite E3. cbn [obind]. rewrite E4. cbn [obind].
    eexists. split; [reflexivity|]. unfold inf_entries, sized. cbn [b00 b01 b10 b11].
    split; [repeat split; auto|]. split; [|split; [|split]].
    + intros i j Hi Hj. rewrite lsum_snoc_d, C1, I00, !inb_in0 by auto. cbn [andb]. rewrite !Nat.sub_0_r. auto.
    + intros i j Hi Hj. rewrite lsum_snoc_d, C4, I01, !inb_in0 by auto. cbn [andb]. rewrite !Nat.sub_0_r. auto.
    + intros i j Hi Hj. rewrite lsum_snoc_d, C2, I10, !inb_in0 by auto. cbn [andb]. rewrite !Nat.sub_0_r. auto.
    + intros i j Hi Hj. rewrite lsum_snoc_d, C3, I11, !inb_in0 by auto. cbn [andb]. rewrite !Nat.sub_0_r. auto.
Qed.

Lemma inf_parts dim tr1 tr2 te1 te2 rule : (0 < tr1)%nat -> (0 < tr2)%nat -> (0 < te2)%nat ->
  exists m b, nf_face dim tr1 tr2 te1 te2 true rule = Ok m /\ inf_itf dim tr1 tr2 te1 te2 true true rule = Ok b /\
    sized te1 te2 (dim * tr1) (dim * tr2) b /\ parts te1 te2 (dim * tr1) (dim * tr2) m b.
Proof.
  intros H1 H2 H3. destruct (nf_face_entries dim tr1 tr2 te1 te2 rule H1) as (m & E & A & B & C00 & C01 & C10 & C11); [lia|].
  destruct (inf_itf_entries dim tr1 tr2 te1 te2 rule H1 H2 H3) as (b & F & S & I00 & I01 & I10 & I11).
  exists m, b. split; [exact E|]. split; [auto|]. split; [auto|]. unfold parts. split; [auto|]. split; [auto|].
  repeat split; intros i j Hi Hj.
  - rewrite I00, C00; auto.
  - rewrite I01, C01; auto.
  - rewrite I10, C10; auto.
  - rewrite I11, C11; auto.
Qed.

(** The same as forms *)
Lemma paired_nfe dim te tr w sg (nor tev trv : fv) q u : (0 < tr)%nat ->
  rsum te (fun i => rsum (dim * tr) (fun j => q i * nfe tr w sg nor tev trv i j * u j)) =
  sg * (w * (rsum te (fun i => tev i * q i) * rsum dim (fun m => nor m * rsum tr (fun a => trv a * comp tr m u a)))).
Proof.
  intros Hn.
  transitivity (rsum te (fun i => tev i * q i * (sg * (w * rsum dim (fun m => nor m * rsum tr (fun a => trv a * comp tr m u a)))))).
  - apply rsum_ext. intros i _. rewrite rsum_prod, <- !rsum_scal. apply rsum_ext. intros m _. rewrite <- !rsum_scal. apply rsum_ext. intros a Ha.
    unfold nfe, comp. destruct (divmod_of tr m a Ha) as [-> ->]. ring.
  - rewrite rsum_scal_r. ring.
Qed.

Lemma paired_lsum {A} h w m (f : A -> nat -> nat -> R) (rule : list A) v u : (forall i j, (i < h)%nat -> (j < w)%nat -> s_at m i j = lsum (fun p => f p i j) rule) ->
  paired h w m v u = lsum (fun p => rsum h (fun i => rsum w (fun j => v i * f p i j * u j))) rule.
Proof.
  intros H. unfold paired. rewrite lsum_rsum. apply rsum_ext. intros i Hi. rewrite lsum_rsum. apply rsum_ext. intros j Hj. rewrite H by auto.
  rewrite (lsum_ext_in (fun p => v i * f p i j * u j) (fun p => u j * (v i * f p i j))) by (intros; ring). rewrite !lsum_mul. ring.
Qed.
