(** Forms with precomputed coefficients. *)
From Coq Require Import Reals List Bool Lia Arith Lra ZArith FunctionalExtensionality.
From Verif Require Import Outcome ListLemmas HdfModel LaBase LinalgModel LinalgSpec LinalgProofs CompProofs RomProofs RomOpProofs ItfModel ItfSpec ItfProofs IntegModel EqpModel EqpSpec EqpEvalProofs
  IntegSpec IntegProofs IntegDomProofs IntegMoreProofs IntegFastModel IntegFormSpec IntegFastProofs.
Import ListNotations.
Local Open Scope R_scope.

Lemma tab_length n f : List.length (tab n f) = n.
Proof. unfold tab. rewrite map_length, seq_length. reflexivity. Qed.
Lemma tab_nth n f i : (i < n)%nat -> vnth (tab n f) i = f i.
Proof. intros H. unfold tab, vnth. rewrite (nth_map_seq f); auto. Qed.
Lemma tab_ext n f g : (forall i, (i < n)%nat -> f i = g i) -> tab n f = tab n g.
Proof. intros H. unfold tab. apply map_ext_in. intros i Hi. apply in_seq in Hi. apply H. lia. Qed.
Lemma vnth_out v i : (List.length v <= i)%nat -> vnth v i = 0.
Proof. intros H. unfold vnth. apply nth_overflow. auto. Qed.

Lemma tabm_at n f : dm_wf (tabm n f) /\ dm_h (tabm n f) = n /\ dm_w (tabm n f) = n /\ forall i j, (i < n)%nat -> (j < n)%nat -> mget (tabm n f) i j = f i j.
Proof.
  split; [unfold dm_wf; cbn; rewrite (flat_map_len (fun j i => f i j)); lia|]. split; [reflexivity|]. split; [reflexivity|].
  intros i j Hi Hj. unfold mget, vnth. cbn [dm_buf dm_h tabm]. rewrite (flat_map_nth 0 (fun j i => f i j)); auto.
Qed.

(** ** Places *)
Definition pl_pre (pl : place) : vec -> vec := match pl_spot pl with Elem _ _ p _ _ => p | Face _ _ _ => fun v => v end.
Definition pl_post (pl : place) : vec -> vec := match pl_spot pl with Elem _ _ _ q _ => q | Face _ _ _ => fun v => v end.
Definition pl_postm (pl : place) : dmat -> dmat := match pl_spot pl with Elem _ _ _ _ q => q | Face _ _ _ => fun v => v end.

Lemma transforms_id n : transforms n (fun v => v) (fun v => v) (fun m => m).
Proof.
  assert (K : forall (g : nat -> R) r, (r < n)%nat -> rsum n (fun s => (if (r =? s)%nat then 1 else 0) * g s) = g r).
  { intros g r Hr. rewrite <- (rsum_delta' n r g Hr). apply rsum_ext. intros s _. rewrite Nat.eqb_sym. destruct (s =? r)%nat; ring. }
  assert (K' : forall (g : nat -> R) r, (r < n)%nat -> rsum n (fun s => (if (s =? r)%nat then 1 else 0) * g s) = g r).
  { intros g r Hr. rewrite <- (K g r Hr). apply rsum_ext. intros s _. rewrite Nat.eqb_sym. reflexivity. }
  exists (fun r s => if (r =? s)%nat then 1 else 0). split; [|split].
  - intros v L. split; auto. intros r Hr. symmetry. apply K. auto.
  - intros v L. split; auto. intros r Hr. symmetry. apply K'. auto.
  - intros M W H1 H2. repeat (split; auto). intros a b Ha Hb. rewrite K' by auto. symmetry.
    rewrite <- (K' (fun t => mget M a t) b Hb). apply rsum_ext. intros t _. ring.
Qed.
Lemma place_transforms k dim pl : place_fits k dim pl -> transforms (List.length (pl_dofs pl)) (pl_pre pl) (pl_post pl) (pl_postm pl).
Proof.
  intros (H & _). unfold pl_pre, pl_post, pl_postm. destruct k, (pl_spot pl); try contradiction; cbn in H.
  - destruct H as (-> & T & _). auto.
  - destruct H as (-> & T). auto.
  - apply transforms_id.
Qed.

Section Place.
  Context (B : dmat) (x : vec) (k : nlf) (dim : nat) (pl : place) (WB : dm_wf B) (Lx : List.length x = dm_w B) (HP : place_fits k dim pl)
          (HD : forall d, In d (pl_dofs pl) -> (Z.to_nat d < dm_h B)%nat).
  Let N := List.length (pl_dofs pl).
  Let n := dm_w B.

  Lemma pl_dofn d : In d (pl_dofs pl) -> (dofn d < dm_h B)%nat.
  Proof. intros H. destruct HP as (_ & _ & P). specialize (P d H). specialize (HD d H). unfold dofn. destruct (Z.leb_spec 0 d); lia. Qed.

  Lemma basis_elem_ok : exists bel, basis_elem B pl = Ok bel /\
    (forall i r, (i < n)%nat -> bel r i = vnth (pl_pre pl (on_dofs (mode B 0 i) (pl_dofs pl))) r).
  Proof.
    set (g := fun i => pl_pre pl (on_dofs (mode B 0 i) (pl_dofs pl))).
    assert (E : omap (fun i => let* c := dm_colref B i in let* v := get_sub c (pl_dofs pl) in
      Ok (match pl_spot pl with Elem _ _ p _ _ => p v | Face _ _ _ => v end)) (seq 0 (dm_w B)) = Ok (map g (seq 0 n))).
    { apply omap_ok. apply Forall2_of_nth; [rewrite map_length; auto|]. intros i a b Ha Hb.
      assert (Hi : (i < n)%nat) by (rewrite <- (seq_length n 0); apply nth_error_Some; unfold n; congruence).
      rewrite nth_error_seq in Ha by auto. injection Ha as <-. rewrite nth_error_map_seq in Hb by auto. injection Hb as <-. cbn [Nat.add].
      rewrite dm_colref_ok by auto. cbn [obind]. rewrite (get_sub_ok _ (mode B 0 i)).
      - cbn [obind]. unfold g, pl_pre, on_dofs. destruct (pl_spot pl); reflexivity.
      - intros d Hd. rewrite dm_col_length. apply pl_dofn. auto.
      - intros r Hr. rewrite dm_col_length in Hr. rewrite dm_col_nth by auto. reflexivity. }
    unfold basis_elem. rw_bind E. eexists. split; [reflexivity|]. intros i r Hi. cbv beta. rewrite (nth_map_seq g) by auto. reflexivity.
  Qed.

  Lemma pre_len v : List.length (pl_pre pl (on_dofs v (pl_dofs pl))) = N.
  Proof. destruct (place_transforms _ _ _ HP) as (D & HT & _). apply HT. unfold on_dofs. rewrite map_length. reflexivity. Qed.

  Lemma pre_comb bel : (forall i r, (i < n)%nat -> bel r i = vnth (pl_pre pl (on_dofs (mode B 0 i) (pl_dofs pl))) r) ->
    vnth (pl_pre pl (on_dofs (lift B 0 x) (pl_dofs pl))) = comb n bel (vnth x).
  Proof.
    intros Hb. apply functional_extensionality. intros r. unfold comb.
    rewrite (rsum_ext n _ (fun i => vnth (pl_pre pl (on_dofs (mode B 0 i) (pl_dofs pl))) r * vnth x i)) by (intros; rewrite Hb; auto).
    destruct (Nat.lt_ge_cases r N) as [Hr|Hr].
    - destruct (place_transforms _ _ _ HP) as (D & HT & _).
      assert (L : forall v, List.length (on_dofs v (pl_dofs pl)) = List.length (pl_dofs pl)) by (intros; apply map_length).
      rewrite (proj2 (HT _ (L _))) by auto.
      rewrite (rsum_ext n _ (fun i => rsum N (fun s => D r s * vnth (on_dofs (mode B 0 i) (pl_dofs pl)) s * vnth x i))).
      2:{ intros i _. rewrite (proj2 (HT _ (L _))) by auto. rewrite <- rsum_scal_r. reflexivity. }
      rewrite rsum_swap. apply rsum_ext. intros s Hs.
      assert (O : forall v, vnth (on_dofs v (pl_dofs pl)) s = dofs (nth s (pl_dofs pl) 0%Z) * v (dofn (nth s (pl_dofs pl) 0%Z))).
      { intros v. unfold on_dofs, vnth. rewrite (nth_indep _ 0 (dofs 0 * v (dofn 0))) by (rewrite map_length; auto). apply (map_nth (fun d => dofs d * v (dofn d))). }
      rewrite O. unfold lift. rewrite <- !rsum_scal. apply rsum_ext. intros i _. rewrite O. unfold mode. ring.
    - rewrite vnth_out by (rewrite pre_len; auto). symmetry. rewrite <- (rsum_zero n). apply rsum_ext. intros i _. rewrite vnth_out by (rewrite pre_len; auto). ring.
  Qed.

  Lemma form_tested old m w v phi : form_at (site_at k dim old pl) m w v phi =
    tested N (vnth (pl_pre pl (on_dofs phi (pl_dofs pl)))) (quad_of k dim (pl_spot pl) old m w (vnth (pl_pre pl (on_dofs v (pl_dofs pl))))).
  Proof.
    destruct (place_transforms _ _ _ HP) as (D & H1 & H2 & _). unfold form_at. cbn [st_dofs st_pre st_post st_quad st_fe site_at].
    change (match pl_spot pl with Elem _ _ p _ _ => p | Face _ _ _ => fun v => v end) with (pl_pre pl).
    change (match pl_spot pl with Elem _ _ _ q _ => q | Face _ _ _ => fun v => v end) with (pl_post pl). fold N.
    set (q := quad_of k dim (pl_spot pl) old m w (vnth (pl_pre pl (on_dofs v (pl_dofs pl))))).
    assert (L : forall v, List.length (on_dofs v (pl_dofs pl)) = List.length (pl_dofs pl)) by (intros; apply map_length).
    unfold dot, tested.
    rewrite (rsum_ext N _ (fun r => rsum N (fun s => D s r * q s * vnth (on_dofs phi (pl_dofs pl)) r))).
    2:{ intros r Hr. rewrite (proj2 (H2 _ (tab_length N q))) by auto. rewrite <- rsum_scal_r. apply rsum_ext. intros s Hs. rewrite tab_nth by auto. reflexivity. }
    rewrite rsum_swap. apply rsum_ext. intros s Hs. rewrite (proj2 (H1 _ (L _))) by auto. rewrite <- rsum_scal_r. apply rsum_ext. intros. ring.
  Qed.

  Lemma grad_tested old m w v phi psi : grad_at (site_at k dim old pl) m w v phi psi =
    rap N N (fun r _ => vnth (pl_pre pl (on_dofs phi (pl_dofs pl))) r) (qgrad_of k dim (pl_spot pl) old m w (vnth (pl_pre pl (on_dofs v (pl_dofs pl)))))
      (fun r _ => vnth (pl_pre pl (on_dofs psi (pl_dofs pl))) r) 0 0.
  Proof.
    destruct (place_transforms _ _ _ HP) as (D & H1 & _ & H3). unfold grad_at. cbn [st_dofs st_pre st_postm st_qgrad st_fe site_at].
    change (match pl_spot pl with Elem _ _ p _ _ => p | Face _ _ _ => fun v => v end) with (pl_pre pl).
    change (match pl_spot pl with Elem _ _ _ _ q => q | Face _ _ _ => fun v => v end) with (pl_postm pl). fold N.
    set (q := qgrad_of k dim (pl_spot pl) old m w (vnth (pl_pre pl (on_dofs v (pl_dofs pl))))).
    assert (L : forall v, List.length (on_dofs v (pl_dofs pl)) = List.length (pl_dofs pl)) by (intros; apply map_length).
    destruct (tabm_at N q) as (TW & Th & Tw & TV). destruct (H3 _ TW Th Tw) as (_ & _ & _ & V).
    set (F := vnth (on_dofs phi (pl_dofs pl))). set (P := vnth (on_dofs psi (pl_dofs pl))).
    assert (A1 : forall s, (s < N)%nat -> vnth (pl_pre pl (on_dofs phi (pl_dofs pl))) s = rsum N (fun a => D s a * F a)) by (intros; apply (H1 _ (L phi)); auto).
    assert (A2 : forall s, (s < N)%nat -> vnth (pl_pre pl (on_dofs psi (pl_dofs pl))) s = rsum N (fun a => D s a * P a)) by (intros; apply (H1 _ (L psi)); auto).
    unfold rap.
    transitivity (rsum N (fun a => rsum N (fun s => F a * D s a * rsum N (fun t => q s t * rsum N (fun b => D t b * P b))))).
    - apply rsum_ext. intros a Ha.
      transitivity (F a * rsum N (fun s => D s a * rsum N (fun t => q s t * rsum N (fun b => D t b * P b)))).
      2:{ rewrite <- rsum_scal. apply rsum_ext. intros. ring. }
      f_equal.
      transitivity (rsum N (fun b => rsum N (fun s => D s a * (rsum N (fun t => q s t * D t b) * P b)))).
      + apply rsum_ext. intros b Hb. rewrite V by auto. rewrite <- rsum_scal_r. apply rsum_ext. intros s Hs. rewrite Rmult_assoc. f_equal. f_equal. apply rsum_ext. intros t Ht. rewrite TV; auto.
      + rewrite rsum_swap. apply rsum_ext. intros s Hs. rewrite rsum_scal. f_equal.
        transitivity (rsum N (fun b => rsum N (fun t => q s t * D t b * P b))); [apply rsum_ext; intros; rewrite <- rsum_scal_r; reflexivity|].
        rewrite rsum_swap. apply rsum_ext. intros t Ht. rewrite <- rsum_scal. apply rsum_ext. intros. ring.
    - rewrite rsum_swap. apply rsum_ext. intros s Hs. rewrite A1 by auto. rewrite rsum_scal_r.
      rewrite (rsum_ext N (fun t => q s t * vnth (pl_pre pl (on_dofs psi (pl_dofs pl))) t) (fun t => q s t * rsum N (fun b => D t b * P b))) by (intros; rewrite A2; auto).
      f_equal. apply rsum_ext. intros. ring.
  Qed.
End Place.

(** ** Samples, integrators, forms *)
Lemma lsum_snoc {A} (f : A -> R) l a : lsum f (l ++ [a]) = lsum f l + f a.
Proof. induction l as [|b l IH]; [symmetry; etransitivity; [apply Rplus_comm|reflexivity]|]. cbn [lsum fold_right app]. fold (@lsum A). change (fold_right (fun a s => f a + s) 0 (l ++ [a])) with (lsum f (l ++ [a])). rewrite IH. unfold lsum. ring. Qed.
Lemma firstn_next {A} (l : list A) i a : nth_error l i = Some a -> firstn (S i) l = firstn i l ++ [a].
Proof. revert i. induction l as [|b l IH]; intros i H; destruct i; try discriminate. - injection H as <-. reflexivity. - cbn [firstn app]. rewrite <- IH by exact H. reflexivity. Qed.
Lemma firstn_full {A} (l : list A) : firstn (List.length l) l = l.
Proof. apply firstn_all. Qed.

Lemma sample_place_ok vsize dim I s : fsample_fits vsize dim I s -> exists pl, sample_place I s = Ok (Some pl) /\
  nth_error (fi_places I) (Z.to_nat (si_el s)) = Some (Some pl) /\ place_fits (fi_kind I) dim pl /\ forall d, In d (pl_dofs pl) -> (Z.to_nat d < vsize)%nat.
Proof.
  intros (He & (pl & Ep & HP & HD) & _ & M). exists pl. split; [|auto].
  assert (Z : zread (fi_places I) (si_el s) = Ok (Some pl)) by (unfold zread; destruct (Z.ltb_spec (si_el s) 0); [lia|]; unfold oread; rewrite Ep; reflexivity).
  unfold sample_place. destruct (fi_mark I) as [mk|]; auto. destruct M as (a & m & A & A1 & K & Nz).
  unfold zread at 1. destruct (Z.ltb_spec (si_el s) 0); [lia|]. unfold oread at 1. rewrite A. cbn [obind].
  unfold zread at 1. destruct (Z.ltb_spec (a - 1) 0); [lia|]. unfold oread at 1. rewrite K. cbn [obind].
  rewrite (proj2 (Z.eqb_neq _ _)) by auto. cbn [negb oassert]. exact Z.
Qed.

Lemma to_integ_site dim old I s pl : nth_error (fi_places I) (Z.to_nat (si_el s)) = Some (Some pl) ->
  site_of (to_integ dim old I) s = Some (site_at (fi_kind I) dim old pl).
Proof.
  intros E. unfold site_of. cbn [in_sites to_integ]. apply nth_error_nth. rewrite nth_error_map, E. reflexivity.
Qed.

Lemma place_site_ok k dim old vsize pl : place_fits k dim pl -> (forall d, In d (pl_dofs pl) -> (Z.to_nat d < vsize)%nat) ->
  site_ok vsize (site_at k dim old pl) /\ plain (site_at k dim old pl) /\ site_grad_ok (site_at k dim old pl).
Proof.
  intros HP HD. destruct (place_transforms _ _ _ HP) as (D & H1 & H2 & H3). pose proof HP as (_ & Ne & Pos). split; [|split].
  - split; [|split; [|split]].
    + intros d Hd. specialize (Pos d Hd). specialize (HD d Hd). unfold dofn. destruct (Z.leb_spec 0 d); lia.
    + intros v L. apply (H1 v L).
    + intros v L. apply (H2 v L).
    + intros m w v L. apply tab_length.
  - split; auto.
  - intros m w v L. cbv zeta. cbn [st_postm st_qgrad st_dofs st_fe site_at].
    destruct (tabm_at (List.length (pl_dofs pl)) (qgrad_of k dim (pl_spot pl) old m w (vnth v))) as (A & A1 & A2 & _).
    destruct (H3 _ A A1 A2) as (W & W1 & W2 & _). auto.
Qed.

Lemma to_integ_fits vsize dim old I : fint_fits vsize dim I -> integ_fits vsize (to_integ dim old I) /\ integ_grad_fits (to_integ dim old I).
Proof.
  intros (Hr & l & El & Hs). split.
  - split; auto. exists l. split; auto. intros s Hin. pose proof (Hs s Hin) as F. destruct (sample_place_ok _ _ _ _ F) as (pl & _ & Ep & HP & HD).
    pose proof F as (He & _ & Hq & Hm). destruct (place_site_ok _ _ old _ _ HP HD) as (S1 & S2 & _).
    split; auto. split; [exists (site_at (fi_kind I) dim old pl); split; [apply to_integ_site; auto|auto]|]. split; auto.
  - intros s st Hin Es. unfold samples_of in Hin. cbn [in_smp to_integ] in Hin. rewrite El in Hin. destruct (sample_place_ok _ _ _ _ (Hs s Hin)) as (pl & _ & Ep & HP & HD).
    rewrite (to_integ_site _ _ _ _ _ Ep) in Es. injection Es as <-. apply (place_site_ok _ _ old _ _ HP HD).
Qed.

Section Forms.
  Context (B : dmat) (x : vec) (dim : nat) (old old' : fv) (WB : dm_wf B) (Lx : List.length x = dm_w B).
  Let n := dm_w B.

  (** Coefficients that evaluate to the sampled term of the form, and of its derivative *)
  Definition pre_good (I : fint) (s : sinfo R) (p : pre) : Prop := forall pl, nth_error (fi_places I) (Z.to_nat (si_el s)) = Some (Some pl) ->
    (forall y j, (j < n)%nat -> fast_at (fi_kind I) n dim (pl_spot pl) old' (Z.to_nat (si_qp s)) (si_qw s) p (vnth x) y j =
       y j + sample_form (to_integ dim old I) (lift B 0 x) (mode B 0 j) s) /\
    (forall memb jac, place_smooth (fi_kind I) dim pl (Z.to_nat (si_qp s)) (lift B 0 x) ->
       (forall nd1 nd2 pts, pl_spot pl = Face nd1 nd2 pts -> nd2 <> 0%nat -> memb = true) ->
       exists J, fast_grad_at (fi_kind I) n dim memb (pl_spot pl) old' (Z.to_nat (si_qp s)) (si_qw s) p (vnth x) jac = Some J /\
       forall i j, (i < n)%nat -> (j < n)%nat -> J i j = jac i j + sample_grad (to_integ dim old I) (lift B 0 x) (mode B 0 i) (mode B 0 j) s).

  Lemma pre_one I s nq : fsample_fits (dm_h B) dim I s -> fi_rule I = Some nq -> exists p,
    (let* po := sample_place I s in
     let* qp := int_point nq (si_qp s) in
     match po with
     | None => Abort
     | Some pl => let* bel := basis_elem B pl in
         Ok (match pl_spot pl with Elem nd pts _ _ _ => pre_elem nd dim (pts qp) bel | Face nd1 nd2 pts => pre_face nd1 nd2 dim (pts qp) bel end)
     end) = Ok p /\ pre_good I s p.
  Proof.
    intros F Er. destruct (sample_place_ok _ _ _ _ F) as (pl & Es & Ep & HP & HD). pose proof F as (_ & _ & (nq' & Er' & Hq) & _).
    rewrite Er in Er'. injection Er' as <-. rewrite Es. cbn [obind]. rewrite int_point_ok by auto. cbn [obind].
    destruct (basis_elem_ok B x (fi_kind I) dim pl WB Lx HP HD) as (bel & Eb & Vb). rw_bind Eb. eexists. split; [reflexivity|].
    set (m := Z.to_nat (si_qp s)). set (w := si_qw s). set (N := List.length (pl_dofs pl)).
    intros pl' Ep'. rewrite Ep in Ep'. injection Ep' as <-.
    pose proof (pre_comb B x (fi_kind I) dim pl HP bel Vb) as C. fold n in C.
    assert (TE : forall j f, (j < n)%nat -> tested N (vnth (pl_pre pl (on_dofs (mode B 0 j) (pl_dofs pl)))) f = tested N (colf bel j) f).
    { intros j f Hj. unfold tested. apply rsum_ext. intros r _. unfold colf. rewrite Vb by auto. reflexivity. }
    assert (FE : forall j, (j < n)%nat -> sample_form (to_integ dim old I) (lift B 0 x) (mode B 0 j) s = tested N (colf bel j) (quad_of (fi_kind I) dim (pl_spot pl) old m w (comb n bel (vnth x)))).
    { intros j Hj. unfold sample_form. rewrite (to_integ_site _ _ _ _ _ Ep). rewrite (form_tested (fi_kind I) dim pl HP). rewrite C. apply TE. auto. }
    assert (GE : forall i j, (i < n)%nat -> (j < n)%nat -> sample_grad (to_integ dim old I) (lift B 0 x) (mode B 0 i) (mode B 0 j) s =
      rap N N bel (qgrad_of (fi_kind I) dim (pl_spot pl) old m w (comb n bel (vnth x))) bel i j).
    { intros i j Hi Hj. unfold sample_grad. rewrite (to_integ_site _ _ _ _ _ Ep). rewrite (grad_tested (fi_kind I) dim pl HP). rewrite C. unfold rap. fold N.
      apply rsum_ext. intros r _. rewrite <- Vb by auto. f_equal. apply rsum_ext. intros q _. rewrite <- Vb by auto. reflexivity. }
    pose proof HP as (HK & _). unfold place_smooth. destruct (fi_kind I) as [| |ud] eqn:EK; destruct (pl_spot pl) as [nd pts prim dual dualm|nd1 nd2 pts] eqn:ES; try contradiction; cbn [fast_at fast_grad_at quad_of qgrad_of] in *.
    - destruct HK as (HN & _ & HV). assert (HN' : N = (nd * dim)%nat) by exact HN. destruct (HV m) as (V & Ge). split.
      + intros y j Hj. rewrite FE, HN' by auto. apply conv_fast_ok. auto.
      + intros memb jac _ _. eexists. split; [reflexivity|]. intros i j Hi Hj. rewrite GE, HN' by auto. apply conv_fast_grad_ok; auto.
    - destruct HK as (HN & _). assert (HN' : N = (nd * dim)%nat) by exact HN. split.
      + intros y j Hj. rewrite FE, HN' by auto. apply visc_fast_ok.
      + intros memb jac _ _. eexists. split; [reflexivity|]. intros i j Hi Hj. rewrite GE, HN' by auto. apply visc_fast_grad_ok; auto.
    - assert (HN' : N = (nd1 * dim + nd2 * dim)%nat) by exact HK. split.
      + intros y j Hj. rewrite FE, HN' by auto. apply lf_fast_ok.
      + intros memb jac Sm Hm. assert (C' : vnth (on_dofs (lift B 0 x) (pl_dofs pl)) = comb n bel (vnth x)) by (rewrite <- C; unfold pl_pre; rewrite ES; reflexivity).
        rewrite C' in Sm. destruct (lf_fast_grad_ok n nd1 nd2 dim ud memb (pts m) w bel (vnth x) jac old' old (Hm nd1 nd2 pts eq_refl) Sm) as (G & J & EG & EJ & V).
        exists J. split; [exact EJ|]. intros i j Hi Hj. rewrite GE, HN' by auto. rewrite EG. apply V. auto.
  Qed.

  Lemma precompute_integ_ok I : fint_fits (dm_h B) dim I -> exists l ps, fi_smp I = Some l /\ precompute_integ dim B I = Ok ps /\ Forall2 (pre_good I) l ps.
  Proof.
    intros (Hr & l & El & Hs). destruct (fi_rule I) as [nq|] eqn:Er; [|congruence]. exists l. unfold precompute_integ. rewrite Er, El.
    enough (K : forall l', (forall s, In s l' -> In s l) -> exists ps, omap (fun s => let* po := sample_place I s in let* qp := int_point nq (si_qp s) in
     match po with | None => Abort | Some pl => let* bel := basis_elem B pl in
         Ok (match pl_spot pl with Elem nd pts _ _ _ => pre_elem nd dim (pts qp) bel | Face nd1 nd2 pts => pre_face nd1 nd2 dim (pts qp) bel end) end) l' = Ok ps /\ Forall2 (pre_good I) l' ps).
    { destruct (K l) as (ps & E & F); auto. exists ps. auto. }
    induction l' as [|s l' IH]; intros Hl; cbn [omap]; [exists []; auto|].
    destruct (pre_one I s nq (Hs s (Hl s (or_introl eq_refl))) Er) as (p & E & Hp). rw_bind E.
    destruct IH as (ps & E' & F); [intros; apply Hl; right; auto|]. rw_bind E'. exists (p :: ps). split; [reflexivity|]. constructor; auto.
  Qed.

  Lemma fast_integ_ok I l ps y : fint_fits (dm_h B) dim I -> fi_smp I = Some l -> Forall2 (pre_good I) l ps -> List.length y = n ->
    exists y', fast_integ n dim old' x y (I, ps) = Ok y' /\ List.length y' = n /\
    forall j, (j < n)%nat -> vnth y' j = vnth y j + lsum (sample_form (to_integ dim old I) (lift B 0 x) (mode B 0 j)) l.
  Proof.
    intros (Hr & l' & El' & Hs) El F Ly. rewrite El in El'. injection El' as <-. unfold fast_integ. destruct (fi_rule I) as [nq|] eqn:Er; [|congruence]. rewrite El.
    destruct (ofor_inv (List.length l) (fun y i => let* s := oread l i in let* po := sample_place I s in let* p := oread ps i in let* qp := int_point nq (si_qp s) in
        match po with None => UB | Some pl => Ok (tab n (fast_at (fi_kind I) n dim (pl_spot pl) old' qp (si_qw s) p (vnth x) (vnth y))) end)
      (fun i y' => List.length y' = n /\ forall j, (j < n)%nat -> vnth y' j = vnth y j + lsum (sample_form (to_integ dim old I) (lift B 0 x) (mode B 0 j)) (firstn i l)) y) as (y' & E & L & V).
    - split; auto. intros j Hj. cbn. ring.
    - intros i y1 Hi (L1 & V1). apply Forall2_nth_error in F. destruct F as (FL & F).
      destruct (nth_error l i) as [s|] eqn:Es; [|apply nth_error_None in Es; lia]. destruct (nth_error ps i) as [p|] eqn:Eps; [|apply nth_error_None in Eps; lia].
      pose proof (F _ _ _ Es Eps) as Hg. pose proof (Hs s (nth_error_In _ _ Es)) as Fs. destruct (sample_place_ok _ _ _ _ Fs) as (pl & Ea & Ep & HP & HD).
      pose proof Fs as (_ & _ & (nq' & Er' & Hq) & _). rewrite Er in Er'. injection Er' as <-.
      unfold oread. rewrite Es. cbn [obind]. rewrite Ea. cbn [obind]. rewrite Eps. cbn [obind]. rewrite int_point_ok by auto. cbn [obind].
      eexists. split; [reflexivity|]. split; [apply tab_length|]. intros j Hj. rewrite tab_nth by auto. destruct (Hg pl Ep) as (H1 & _). rewrite H1, V1 by auto.
      rewrite (firstn_next _ _ _ Es), lsum_snoc. ring.
    - exists y'. split; [exact E|]. split; auto. intros j Hj. rewrite V by auto. rewrite firstn_all. reflexivity.
  Qed.

  Lemma precompute_ok ints : (forall I, In I ints -> fint_fits (dm_h B) dim I) -> exists pres, omap (precompute_integ dim B) ints = Ok pres /\
    Forall2 (fun I ps => exists l, fi_smp I = Some l /\ Forall2 (pre_good I) l ps) ints pres.
  Proof.
    induction ints as [|I ints IH]; intros Hf; cbn [omap]; [exists []; auto|].
    destruct (precompute_integ_ok I (Hf I (or_introl eq_refl))) as (l & ps & El & E & F). rw_bind E.
    destruct IH as (pres & E' & F'); [intros; apply Hf; right; auto|]. rw_bind E'. exists (ps :: pres). split; [reflexivity|]. constructor; eauto.
  Qed.

  Lemma fast_integs_ok ints pres : (forall I, In I ints -> fint_fits (dm_h B) dim I) ->
    Forall2 (fun I ps => exists l, fi_smp I = Some l /\ Forall2 (pre_good I) l ps) ints pres -> forall y, List.length y = n ->
    exists y', ofold (fast_integ n dim old' x) (combine ints pres) y = Ok y' /\ List.length y' = n /\
    forall j, (j < n)%nat -> vnth y' j = vnth y j + lsum (fun I => lsum (sample_form I (lift B 0 x) (mode B 0 j)) (samples_of I)) (map (to_integ dim old) ints).
  Proof.
    intros Hf F. induction F as [|I ps ints pres (l & El & G) F IH]; intros y Ly; cbn [combine ofold map].
    - exists y. split; auto. split; auto. intros. cbn. ring.
    - destruct (fast_integ_ok I l ps y (Hf I (or_introl eq_refl)) El G Ly) as (y1 & E1 & L1 & V1). rw_bind E1.
      destruct (IH (fun K HK => Hf K (or_intror HK)) y1 L1) as (y' & E & L & V). exists y'. split; [exact E|]. split; auto. intros j Hj.
      rewrite V, V1 by auto. rewrite lsum_cons. unfold samples_of at 2. cbn [in_smp to_integ]. rewrite El. ring.
  Qed.

  (** Gradients *)
  Lemma fast_ginteg_ok memb I l ps J : fint_fits (dm_h B) dim I -> fint_smooth dim I (lift B 0 x) -> (memb = true \/ one_sided I) ->
    fi_smp I = Some l -> Forall2 (pre_good I) l ps -> dm_wf J -> dm_h J = n -> dm_w J = n ->
    exists J', fast_ginteg n dim memb old' x (Some J) (I, ps) = Ok (Some J') /\ dm_wf J' /\ dm_h J' = n /\ dm_w J' = n /\
    forall i j, (i < n)%nat -> (j < n)%nat -> mget J' i j = mget J i j + lsum (sample_grad (to_integ dim old I) (lift B 0 x) (mode B 0 i) (mode B 0 j)) l.
  Proof.
    intros (Hr & l' & El' & Hs) Sm Hm El F WJ HJ WJ'. rewrite El in El'. injection El' as <-. unfold fast_ginteg. destruct (fi_rule I) as [nq|] eqn:Er; [|congruence]. rewrite El.
    destruct (ofor_inv (List.length l) (fun J i => let* s := oread l i in let* po := sample_place I s in let* p := oread ps i in let* qp := int_point nq (si_qp s) in
        match po with None => UB | Some pl => Ok (match J with None => None | Some J =>
           option_map (tabm n) (fast_grad_at (fi_kind I) n dim memb (pl_spot pl) old' qp (si_qw s) p (vnth x) (mget J)) end) end)
      (fun i o => exists J', o = Some J' /\ dm_wf J' /\ dm_h J' = n /\ dm_w J' = n /\ forall a b, (a < n)%nat -> (b < n)%nat ->
         mget J' a b = mget J a b + lsum (sample_grad (to_integ dim old I) (lift B 0 x) (mode B 0 a) (mode B 0 b)) (firstn i l)) (Some J)) as (o & E & J' & -> & W1 & W2 & W3 & V).
    - exists J. repeat (split; auto). intros a b Ha Hb. cbn. ring.
    - intros i o Hi (J1 & -> & A1 & A2 & A3 & V1). apply Forall2_nth_error in F. destruct F as (FL & F).
      destruct (nth_error l i) as [s|] eqn:Es; [|apply nth_error_None in Es; lia]. destruct (nth_error ps i) as [p|] eqn:Eps; [|apply nth_error_None in Eps; lia].
      pose proof (F _ _ _ Es Eps) as Hg. pose proof (Hs s (nth_error_In _ _ Es)) as Fs. destruct (sample_place_ok _ _ _ _ Fs) as (pl & Ea & Ep & HP & HD).
      pose proof Fs as (_ & _ & (nq' & Er' & Hq) & _). rewrite Er in Er'. injection Er' as <-.
      unfold oread. rewrite Es. cbn [obind]. rewrite Ea. cbn [obind]. rewrite Eps. cbn [obind]. rewrite int_point_ok by auto. cbn [obind].
      destruct (Hg pl Ep) as (_ & H2). destruct (H2 memb (mget J1)) as (J2 & EJ & VJ).
      + apply (Sm l s pl El (nth_error_In _ _ Es) Ep).
      + intros nd1 nd2 pts Esp Hn. destruct Hm as [Hm|Hm]; auto. exfalso. apply Hn. apply (Hm pl nd1 nd2 pts (nth_error_In _ _ Ep) Esp).
      + rewrite EJ. cbn [option_map]. eexists. split; [reflexivity|]. destruct (tabm_at n J2) as (T1 & T2 & T3 & T4). eexists. split; [reflexivity|]. repeat (split; auto).
        intros a b Ha Hb. rewrite T4, VJ, V1 by auto. rewrite (firstn_next _ _ _ Es), lsum_snoc. ring.
    - exists J'. split; [exact E|]. repeat (split; auto). intros a b Ha Hb. rewrite V by auto. rewrite firstn_all. reflexivity.
  Qed.

  Lemma fast_gintegs_ok memb ints pres : (forall I, In I ints -> fint_fits (dm_h B) dim I /\ fint_smooth dim I (lift B 0 x) /\ (memb = true \/ one_sided I)) ->
    Forall2 (fun I ps => exists l, fi_smp I = Some l /\ Forall2 (pre_good I) l ps) ints pres -> forall J, dm_wf J -> dm_h J = n -> dm_w J = n ->
    exists J', ofold (fast_ginteg n dim memb old' x) (combine ints pres) (Some J) = Ok (Some J') /\ dm_wf J' /\ dm_h J' = n /\ dm_w J' = n /\
    forall i j, (i < n)%nat -> (j < n)%nat -> mget J' i j = mget J i j + lsum (fun I => lsum (sample_grad I (lift B 0 x) (mode B 0 i) (mode B 0 j)) (samples_of I)) (map (to_integ dim old) ints).
  Proof.
    intros Hf F. induction F as [|I ps ints pres (l & El & G) F IH]; intros J WJ HJ WJ'; cbn [combine ofold map].
    - exists J. split; auto. repeat (split; auto). intros. cbn. ring.
    - destruct (Hf I (or_introl eq_refl)) as (F1 & F2 & F3).
      destruct (fast_ginteg_ok memb I l ps J F1 F2 F3 El G WJ HJ WJ') as (J1 & E1 & A1 & A2 & A3 & V1). rw_bind E1.
      destruct (IH (fun K HK => Hf K (or_intror HK)) J1 A1 A2 A3) as (J' & E & W1 & W2 & W3 & V). exists J'. split; [exact E|]. repeat (split; auto). intros i j Hi Hj.
      rewrite V, V1 by auto. rewrite lsum_cons. unfold samples_of at 2. cbn [in_smp to_integ]. rewrite El. ring.
  Qed.
End Forms.

(** The precomputed evaluation of a form gives what the evaluation by lifting and projecting gives *)
Theorem fast_mult_ok n dim B ints x y old old' : dm_wf B -> dm_w B = n -> (0 < n)%nat -> List.length x = n -> List.length y = n ->
  (forall I, In I ints -> fint_fits (dm_h B) dim I) ->
  exists pres z, precompute_form dim n (Some B) ints = Ok pres /\ fast_mult n dim (Some B) ints pres old' x y = Ok z /\
    form_mult n (Some B) (map (to_integ dim old) ints) x y = Ok z.
Proof.
  intros WB Hw Hn Lx Ly Hf. rewrite <- Hw in Lx.
  destruct (precompute_ok B x dim old old' WB Lx ints Hf) as (pres & Ep & F). exists pres.
  destruct (fast_integs_ok B x dim old old' Lx ints pres Hf F (repeat 0 n)) as (z & E & L & V); [rewrite repeat_length; auto|].
  destruct (mult_integs_ok B x WB Lx ltac:(lia) (map (to_integ dim old) ints)) with (y := repeat 0 n) as (z' & E' & L' & V').
  { intros I HI. apply in_map_iff in HI. destruct HI as (J & <- & HJ). apply to_integ_fits. auto. }
  { rewrite repeat_length. auto. }
  exists z. split; [unfold precompute_form; rewrite Hw, Nat.eqb_refl; exact Ep|].
  assert (EE : z = z') by (apply vec_ext; [congruence|]; intros j Hj; rewrite V, V' by lia; reflexivity).
  unfold fast_mult, form_mult. rewrite Lx, Ly, Hw, Nat.eqb_refl. cbn [oassert]. rewrite Hw in E. split; [exact E|]. rewrite EE. exact E'.
Qed.

Theorem fast_gradient_ok n dim B ints x memb old old' G : dm_wf B -> dm_w B = n -> (0 < n)%nat -> List.length x = n ->
  (forall M, G = Some M -> dm_wf M /\ dm_h M = n /\ dm_w M = n) ->
  (forall I, In I ints -> fint_fits (dm_h B) dim I /\ fint_smooth dim I (lift B 0 x) /\ (memb = true \/ one_sided I)) ->
  exists pres J J', precompute_form dim n (Some B) ints = Ok pres /\ fast_gradient n dim memb ints pres old' x = Ok (Some J) /\
    form_gradient n (Some B) (map (to_integ dim old) ints) G x = Ok J' /\
    dm_h J = n /\ dm_w J = n /\ dm_h J' = n /\ dm_w J' = n /\ forall i j, (i < n)%nat -> (j < n)%nat -> mget J i j = mget J' i j.
Proof.
  intros WB Hw Hn Lx HG Hf.
  destruct (precompute_ok B x dim old old' WB (eq_trans Lx (eq_sym Hw)) ints (fun I HI => proj1 (Hf I HI))) as (pres & Ep & F). exists pres.
  destruct (fast_gintegs_ok B x dim old old' (eq_trans Lx (eq_sym Hw)) memb ints pres Hf F (DMat n n (repeat 0 (n * n)))) as (J & E & W1 & W2 & W3 & V).
  { unfold dm_wf. cbn. rewrite repeat_length. lia. } { cbn. auto. } { cbn. auto. }
  assert (W0 : dm_wf (match G with None => DMat n n (repeat 0 (n * n)) | Some G => DMat (dm_h G) (dm_w G) (map (fun _ => 0) (dm_buf G)) end) /\
    dm_h (match G with None => DMat n n (repeat 0 (n * n)) | Some G => DMat (dm_h G) (dm_w G) (map (fun _ => 0) (dm_buf G)) end) = n /\
    dm_w (match G with None => DMat n n (repeat 0 (n * n)) | Some G => DMat (dm_h G) (dm_w G) (map (fun _ => 0) (dm_buf G)) end) = n /\
    forall i j, mget (match G with None => DMat n n (repeat 0 (n * n)) | Some G => DMat (dm_h G) (dm_w G) (map (fun _ => 0) (dm_buf G)) end) i j = 0).
  { destruct G as [M|].
    - destruct (HG M eq_refl) as (A & A1 & A2). split; [unfold dm_wf in *; cbn; rewrite map_length; exact A|]. split; auto. split; auto. intros. unfold mget, vnth. cbn [dm_buf dm_h].
      set (k := (i + j * dm_h M)%nat). destruct (Nat.lt_ge_cases k (List.length (dm_buf M))); [|apply nth_overflow; rewrite map_length; auto].
      apply (map_nth (fun _ : R => 0) (dm_buf M) 0 k).
    - split; [unfold dm_wf; cbn; rewrite repeat_length; lia|]. split; auto. split; auto. intros. apply nth_repeat. }
  set (J0 := match G with None => _ | Some G => _ end) in W0. destruct W0 as (A & A1 & A2 & A3).
  destruct (grad_integs_ok B x WB (eq_trans Lx (eq_sym Hw)) ltac:(lia) (map (to_integ dim old) ints)) with (J := J0) as (J' & E' & B1 & B2 & B3 & V'); try congruence.
  { intros I HI. apply in_map_iff in HI. destruct HI as (K & <- & HK). apply to_integ_fits. apply Hf. auto. }
  exists J, J'. split; [unfold precompute_form; rewrite Hw, Nat.eqb_refl; exact Ep|].
  split; [unfold fast_gradient; rewrite Lx, Nat.eqb_refl; cbn [oassert]; rewrite Hw in E; exact E|].
  split.
  { unfold form_gradient. rewrite Lx, Nat.eqb_refl. cbn [oassert]. fold J0. destruct (map (to_integ dim old) ints) eqn:Em; [exact E'|rewrite <- Em; rewrite <- Em in E'; exact E']. }
  repeat (split; [congruence|]). intros i j Hi Hj. rewrite V, V' by lia. rewrite A3. unfold mget at 1, vnth. cbn [dm_buf dm_h]. rewrite nth_repeat. reflexivity.
Qed.
