(** Proofs about the face maps and the boundary elements of the subdomains. *)
From Coq Require Import ZArith List Bool Lia Reals String Sorting.Sorted.
From Verif Require Import Outcome TopoModel TopoSpec TopoProofs LaBase SplitModel SplitSpec SplitProofs.
Import ListNotations.
Local Open Scope nat_scope.

Lemma omap_nth {A B} (f : A -> outcome B) l : (forall x, In x l -> exists y, f x = Ok y) ->
  exists ys, omap f l = Ok ys /\ List.length ys = List.length l /\
    (forall i x, nth_error l i = Some x -> exists y, nth_error ys i = Some y /\ f x = Ok y) /\
    (forall i y, nth_error ys i = Some y -> exists x, nth_error l i = Some x /\ f x = Ok y).
Proof.
  induction l as [|x l IH]; intros H.
  - exists []. repeat split; intros [|i] z K; discriminate.
  - destruct (H x) as (y & Ey); [left; auto|]. destruct IH as (ys & E & L & F & G); [intros z Hz; apply H; right; auto|]. exists (y :: ys). cbn [omap]. rewrite Ey. cbn [obind]. rewrite E. cbn [obind].
    split; auto. split; [cbn; auto|]. split; intros [|i] z K; cbn in K.
    + injection K as <-. exists y. auto.
    + apply F in K. exact K.
    + injection K as <-. exists x. auto.
    + apply G in K. exact K.
Qed.

Lemma local_side els e x l : nth_error els e = Some x -> l < List.length (el_vert x) -> side els e l (fst (local_edge (el_vert x) l)) (snd (local_edge (el_vert x) l)).
Proof.
  intros H L. apply side_use. unfold side_uses. apply in_flat_map. assert (He : e < List.length els) by (apply nth_error_Some; congruence). exists e. split; [apply in_seq; lia|].
  rewrite (nth_error_nth _ _ _ H). apply in_map_iff. exists l. split; [reflexivity|apply in_seq; lia].
Qed.

Lemma side_local els e x l a b : nth_error els e = Some x -> side els e l a b -> l < List.length (el_vert x) /\ local_edge (el_vert x) l = (a, b).
Proof.
  intros H S. assert (L : l < List.length (el_vert x)). { destruct S as (y & Hy & Ha & _). assert (y = x) by congruence. subst. apply nth_error_Some. congruence. }
  split; auto. destruct (side_fun _ _ _ _ _ _ _ S (local_side _ _ _ _ H L)) as (-> & ->). apply surjective_pairing.
Qed.

Lemma element_edges_ok els fs e x : FI (side_uses els) fs -> nth_error els e = Some x -> exists ks, element_edges fs x = Ok ks /\ List.length ks = List.length (el_vert x) /\
  forall l, l < List.length (el_vert x) -> exists k f, nth_error ks l = Some k /\ find_face fs (local_edge (el_vert x) l) = Some k /\ nth_error fs k = Some f /\ same_edge (fi_edge f) (local_edge (el_vert x) l) = true.
Proof.
  intros F H. unfold element_edges.
  assert (K : forall l, l < List.length (el_vert x) -> exists k f, find_face fs (local_edge (el_vert x) l) = Some k /\ nth_error fs k = Some f /\ same_edge (fi_edge f) (local_edge (el_vert x) l) = true).
  { intros l L. destruct (side_face els fs e l _ _ F (or_introl (local_side _ _ _ _ H L))) as (k & f & H1 & H2). rewrite <- surjective_pairing in H2. exists k, f. split; auto. apply (find_face_iff _ _ _ _ F). exists f. auto. }
  destruct (omap_nth (fun l => match find_face fs (local_edge (el_vert x) l) with Some k => Ok k | None => UB end) (seq 0 (List.length (el_vert x)))) as (ks & E & L & G & _).
  { intros l Hl. apply in_seq in Hl. destruct (K l) as (k & f & E & _); [lia|]. rewrite E. eauto. }
  exists ks. split; auto. rewrite seq_length in L. split; auto. intros l Hl. destruct (G l l) as (k & Nk & Ek). { rewrite nth_error_nth' with (d := 0) by (rewrite seq_length; auto). rewrite seq_nth; auto. }
  destruct (K l Hl) as (k' & f & E' & H1 & H2). rewrite E' in Ek. injection Ek as ->. exists k, f. auto.
Qed.

(** A face of a submesh and the ends of its edge in the mesh. *)
Definition edge_up (sm : smesh) (f : finfo) (a b : nat) : Prop := nth_error (sm_vert sm) (fst (fi_edge f)) = Some a /\ nth_error (sm_vert sm) (snd (fi_edge f)) = Some b.
Definition pmatch (sm : smesh) (pfs : list finfo) (f : finfo) (pk : nat) : Prop :=
  exists g a b, nth_error pfs pk = Some g /\ edge_up sm f a b /\ same_edge (fi_edge g) (a, b) = true.

Section Maps.
  Variables (pm : mesh2) (pfs : list finfo) (dom : Z -> Prop) (sm : smesh).
  Hypothesis MO : mesh_ok pm.
  Hypothesis PF : FI (side_uses (m_elems pm)) pfs.
  Hypothesis SO : sub_ok pm dom sm.

  Lemma ss_side i l a' b' : side (sm_elems sm) i l a' b' <->
    exists e a b, nth_error (sm_pel sm) i = Some e /\ side (m_elems pm) e l a b /\ nth_error (sm_vert sm) a' = Some a /\ nth_error (sm_vert sm) b' = Some b.
  Proof using SO. clear MO PF. apply sub_side; [apply (so_len _ _ _ SO)|apply (so_vert _ _ _ SO)|apply (so_el _ _ _ SO)]. Qed.

  Lemma ss_side_on i l a' b' : side_on (sm_elems sm) i l a' b' <->
    exists e a b, nth_error (sm_pel sm) i = Some e /\ side_on (m_elems pm) e l a b /\ nth_error (sm_vert sm) a' = Some a /\ nth_error (sm_vert sm) b' = Some b.
  Proof using SO. clear MO PF. apply sub_side_on; [apply (so_len _ _ _ SO)|apply (so_vert _ _ _ SO)|apply (so_el _ _ _ SO)]. Qed.

  Lemma vert_inj c c' w : nth_error (sm_vert sm) c = Some w -> nth_error (sm_vert sm) c' = Some w -> c = c'.
  Proof using SO. clear MO PF. intros H H'. apply (proj1 (NoDup_nth_error _) (so_vert _ _ _ SO)); [apply nth_error_Some|]; congruence. Qed.

  Lemma pel_inj c c' w : nth_error (sm_pel sm) c = Some w -> nth_error (sm_pel sm) c' = Some w -> c = c'.
  Proof using SO. clear MO PF. intros H H'. apply (proj1 (NoDup_nth_error _) (sorted_nodup _ (so_sorted _ _ _ SO))); [apply nth_error_Some|]; congruence. Qed.

  Lemma face_up q f : nth_error (sm_faces sm) q = Some f -> exists e l a b, nth_error (sm_pel sm) (fi_el1 f) = Some e /\ edge_up sm f a b /\ side (m_elems pm) e l a b /\
    fi_inf1 f = inf_encode (Z.of_nat l) 0 /\ side (sm_elems sm) (fi_el1 f) l (fst (fi_edge f)) (snd (fi_edge f)).
  Proof using SO.
    clear MO PF. intros H. destruct (face_side1 _ _ _ _ (so_fi _ _ _ SO) H) as (l & I & S). pose proof S as S'. apply ss_side in S as (e & a & b & H1 & H2 & H3 & H4). exists e, l, a, b. repeat split; auto.
  Qed.

  (** Edges of the submesh are the same when they are in the mesh. *)
  Lemma same_up f f' a b a' b' : edge_up sm f a b -> edge_up sm f' a' b' -> same_edge (a, b) (a', b') = true -> same_edge (fi_edge f) (fi_edge f') = true.
  Proof using SO.
    clear MO PF. intros (A & B) (A' & B') S. apply same_edge_iff. rewrite (surjective_pairing (fi_edge f)), (surjective_pairing (fi_edge f')). unfold rev_edge. cbn [fst snd].
    apply same_edge_iff in S as [Q|Q]; unfold rev_edge in Q; cbn in Q; injection Q as -> ->; [left|right]; f_equal; eapply vert_inj; eauto.
  Qed.

  Lemma same_up_conv f a b u w x y : edge_up sm f a b -> nth_error (sm_vert sm) u = Some x -> nth_error (sm_vert sm) w = Some y -> same_edge (fi_edge f) (u, w) = true -> same_edge (a, b) (x, y) = true.
  Proof using.
    clear. intros (A & B) U W S. apply same_edge_iff in S as [Q|Q]; rewrite Q in A, B; cbn in A, B; apply same_edge_iff; [left|right; unfold rev_edge; cbn]; congruence.
  Qed.

  Let good (pf : list (option nat)) : Prop := List.length pf = List.length (sm_faces sm) /\
    forall q x f, nth_error pf q = Some (Some x) -> nth_error (sm_faces sm) q = Some f -> pmatch sm pfs f x.
  Let done (pf : list (option nat)) (i l : nat) : Prop := forall x q, nth_error (sm_elems sm) i = Some x -> l < List.length (el_vert x) -> find_face (sm_faces sm) (local_edge (el_vert x) l) = Some q -> nth_error pf q <> Some None.

  Lemma face_map_ok : exists pf, build_face_map pm pfs sm = Ok pf /\ List.length pf = List.length (sm_faces sm) /\
    forall q f, nth_error (sm_faces sm) q = Some f -> exists pk, nth_error pf q = Some (Some pk) /\ pmatch sm pfs f pk.
  Proof.
    unfold build_face_map. destruct (ofor_inv (List.length (sm_elems sm)) (fun pf i =>
    let* peid := oread (sm_pel sm) i in
    let* se := oread (sm_elems sm) i in
    let* pe := oread (m_elems pm) peid in
    let* sel_faces := element_edges (sm_faces sm) se in
    let* pel_faces := element_edges pfs pe in
    ofor (List.length sel_faces) (fun pf j =>
      let* a := oread sel_faces j in
      let* b := oread pel_faces j in
      owrite pf a (Some b)) pf) (fun i pf => good pf /\ forall i' l, i' < i -> done pf i' l) (repeat None (List.length (sm_faces sm)))) as (pf & E & (G & P) & D).
    - split; [|intros; lia]. split; [apply repeat_length|]. intros q x f H. apply nth_error_In, repeat_spec in H. discriminate.
    - intros i pf Hi (G & D). assert (Q : exists x, nth_error (sm_elems sm) i = Some x) by (destruct (nth_error (sm_elems sm) i) eqn:Q; eauto; apply nth_error_None in Q; lia).
      destruct Q as (x & Ex). destruct (so_el _ _ _ SO i x Ex) as (e & px & Ee & Ep & _ & M). pose proof Ex as Rx. pose proof Ee as Re. pose proof Ep as Rp. apply oread_ok in Rx, Re, Rp.
      rewrite Re. cbn [obind]. rewrite Rx. cbn [obind]. rewrite Rp. cbn [obind].
      destruct (element_edges_ok _ _ _ _ (so_fi _ _ _ SO) Ex) as (ks & Ek & Lk & Hk). destruct (element_edges_ok _ _ _ _ PF Ep) as (ps & Eq & Lp & Hp). rewrite Ek. cbn [obind]. rewrite Eq. cbn [obind].
      destruct (map_nth_vs _ _ _ M) as (Lx & _ & _).
      destruct (ofor_inv (List.length ks) (fun pf j => let* a := oread ks j in let* b := oread ps j in owrite pf a (Some b))
        (fun j pf' => good pf' /\ (forall i' l, i' < i -> done pf' i' l) /\ forall l, l < j -> done pf' i l) pf) as (pf' & E' & G' & D1 & D2).
      + split; auto. split; auto. intros; lia.
      + intros j pf' Hj ((Lg & Hg) & D1 & D2). rewrite Lk in Hj. destruct (Hk j Hj) as (k & f & Nk & Fk & Nf & Sf). destruct (Hp j ltac:(lia)) as (pk & g & Npk & Fpk & Ng & Sg).
        pose proof Nk as Rk. pose proof Npk as Rpk. apply oread_ok in Rk, Rpk. rewrite Rk. cbn [obind]. rewrite Rpk. cbn [obind].
        assert (Lk' : k < List.length pf') by (rewrite Lg; apply nth_error_Some; congruence). unfold owrite. rewrite (proj2 (Nat.ltb_lt _ _) Lk'). eexists. split; [reflexivity|].
        assert (Keep : forall i' l, done pf' i' l -> done (upd pf' k (Some pk)) i' l).
        { intros i' l H y q H1 H2 H3. destruct (Nat.eq_dec k q) as [<-|N]; [rewrite nth_error_upd_eq by auto; discriminate|]. rewrite nth_error_upd_ne by auto. eauto. }
        split; [split|split].
        * rewrite upd_length. auto.
        * intros q y f' Hq Hf'. destruct (Nat.eq_dec k q) as [<-|N]; [|rewrite nth_error_upd_ne in Hq by auto; eauto]. rewrite nth_error_upd_eq in Hq by auto. injection Hq as <-. assert (f' = f) by congruence. subst f'.
          destruct (face_up _ _ Nf) as (_ & _ & a & b & _ & Eu & _). exists g, a, b. split; auto. split; auto.
          destruct (proj1 (ss_side _ _ _ _) (local_side _ _ _ _ Ex Hj)) as (e' & u & w & Ee' & Su & Vu & Vw). assert (e' = e) by congruence. subst e'.
          destruct (side_local _ _ _ _ _ _ Ep Su) as (_ & Qp). rewrite Qp in Sg. rewrite (surjective_pairing (local_edge (el_vert x) j)) in Sf.
          pose proof (same_up_conv _ _ _ _ _ _ _ Eu Vu Vw Sf) as K. eapply same_trans; [exact Sg|]. rewrite same_sym. exact K.
        * intros i' l L. auto.
        * intros l L. destruct (Nat.eq_dec l j) as [->|N]; [|apply Keep, D2; lia]. intros y q H1 H2 H3. assert (y = x) by congruence. subst y. assert (q = k) by congruence. subst q. rewrite nth_error_upd_eq by auto. discriminate.
      + exists pf'. split; auto. split; auto. intros i' l L. destruct (Nat.eq_dec i' i) as [->|N]; [|apply D1; lia]. intros y q H1 H2 H3. assert (y = x) by congruence. subst y. apply (D2 l ltac:(lia) x q); auto.
    - exists pf. split; auto. split; auto. intros q f Hf. destruct (face_up _ _ Hf) as (e & l & a & b & _ & _ & _ & _ & S). pose proof S as (x & Ex & _).
      assert (Hi : fi_el1 f < List.length (sm_elems sm)) by (apply nth_error_Some; congruence). destruct (side_local _ _ _ _ _ _ Ex S) as (Ll & Ql).
      assert (K : nth_error pf q <> Some None). { apply (D (fi_el1 f) l Hi x q Ex Ll). rewrite Ql. apply (find_face_iff _ _ _ _ (so_fi _ _ _ SO)). exists f. split; auto. rewrite <- surjective_pairing. apply same_refl. }
      assert (Lq : q < List.length pf) by (rewrite G; apply nth_error_Some; congruence). destruct (nth_error pf q) as [[pk|]|] eqn:Q; [|congruence|apply nth_error_None in Q; lia]. exists pk. split; auto. eapply P; eauto.
  Qed.

  (** Boundary elements. *)
  Lemma bdr_in q : In q (sm_bdr sm) <-> exists f, nth_error (sm_faces sm) q = Some f /\ fi_el2 f = None.
  Proof using SO.
    clear MO PF. rewrite (so_bdr _ _ _ SO), filter_In, in_seq. split.
    - intros (_ & H). destruct (nth_error (sm_faces sm) q) as [f|]; [|discriminate]. cbn in H. exists f. destruct (fi_el2 f); [discriminate|auto].
    - intros (f & H & N). rewrite H. cbn. rewrite N. split; auto. split; [lia|]. apply nth_error_Some. congruence.
  Qed.

  Lemma bdr_nodup : NoDup (sm_bdr sm).
  Proof using SO. clear MO PF. rewrite (so_bdr _ _ _ SO). apply NoDup_filter, seq_NoDup. Qed.

  (** The boundary element on an edge, in both directions. *)
  Lemma bdr_on_iff be e l a b : bdr_on sm be e l a b <-> exists q f x y, nth_error (sm_bdr sm) be = Some q /\ nth_error (sm_faces sm) q = Some f /\ edge_up sm f x y /\ same_edge (x, y) (a, b) = true /\
    nth_error (sm_pel sm) (fi_el1 f) = Some e /\ fi_inf1 f = inf_encode (Z.of_nat l) 0 /\ side_on (m_elems pm) e l a b.
  Proof using SO.
    clear MO PF. split.
    - intros (q & f & i & a' & b' & Hq & Hf & Hi & He & S & Sm & Va & Vb). exists q, f. destruct (face_up _ _ Hf) as (e0 & l0 & x & y & He0 & Eu & Sp & I & _). exists x, y. subst i. assert (e0 = e) by congruence. subst e0.
      split; auto. split; auto. split; auto. rewrite same_sym in Sm. split; [eapply same_up_conv; eauto|]. split; auto.
      assert (In q (sm_bdr sm)) as Iq by (eapply nth_error_In; eauto). apply bdr_in in Iq as (f' & Hf' & N). assert (f' = f) by congruence. subst f'.
      assert (S' : side_on (sm_elems sm) (fi_el1 f) l (fst (fi_edge f)) (snd (fi_edge f))). { rewrite same_sym in Sm. eapply side_on_same; [|exact S]. rewrite <- surjective_pairing. auto. }
      split; [eapply face_single; eauto; apply (so_fi _ _ _ SO)|].
      apply ss_side_on in S as (e1 & u & w & He1 & Sp1 & Vu & Vw). assert (e1 = e) by congruence. subst e1. assert (u = a) by congruence. assert (w = b) by congruence. subst. auto.
    - intros (q & f & x & y & Hq & Hf & Eu & Sm & He & I & S). destruct (face_up _ _ Hf) as (e0 & l0 & x' & y' & He0 & Eu' & Sp & I' & Ss). assert (e0 = e) by congruence. subst e0.
      assert (l0 = l) by (rewrite I in I'; unfold inf_encode in I'; lia). subst l0. destruct Eu as (Ux & Uy).
      apply same_edge_iff in Sm as [Q|Q]; unfold rev_edge in Q; cbn in Q; injection Q as -> ->.
      + exists q, f, (fi_el1 f), (fst (fi_edge f)), (snd (fi_edge f)). repeat split; auto; [left; auto|]. rewrite <- surjective_pairing. apply same_refl.
      + exists q, f, (fi_el1 f), (snd (fi_edge f)), (fst (fi_edge f)). repeat split; auto; [right; auto|]. apply same_edge_iff. right. reflexivity.
  Qed.

  Lemma bdr_on_in be e l a b : bdr_on sm be e l a b -> In e (sm_pel sm) /\ side_on (m_elems pm) e l a b /\
    forall e' l', side_on (m_elems pm) e' l' a b -> In e' (sm_pel sm) -> (e', l') = (e, l).
  Proof using SO.
    clear MO PF. intros H. apply bdr_on_iff in H as (q & f & x & y & Hq & Hf & Eu & Sm & He & I & S). split; [eapply nth_error_In; eauto|]. split; auto. intros e' l' S' Ie.
    apply In_nth_error in Ie as (i & Hi). assert (Iq : In q (sm_bdr sm)) by (eapply nth_error_In; eauto). apply bdr_in in Iq as (f' & Hf' & N). assert (f' = f) by congruence. subst f'.
    assert (S2 : side_on (sm_elems sm) i l' (fst (fi_edge f)) (snd (fi_edge f))).
    { apply ss_side_on. destruct Eu as (Ux & Uy). exists e', x, y. split; auto. split; auto. eapply side_on_same; [|exact S']. rewrite same_sym. auto. }
    destruct (face_single _ _ _ _ _ _ (so_fi _ _ _ SO) Hf N S2) as (-> & I2). assert (l' = l) by (rewrite I in I2; unfold inf_encode in I2; lia). subst. f_equal. congruence.
  Qed.

  Lemma lift_side i e l a b : nth_error (sm_pel sm) i = Some e -> side (m_elems pm) e l a b ->
    exists a' b', side (sm_elems sm) i l a' b' /\ nth_error (sm_vert sm) a' = Some a /\ nth_error (sm_vert sm) b' = Some b.
  Proof using SO.
    clear MO PF. intros Hi S. destruct (nth_error (sm_elems sm) i) as [x|] eqn:Ex; [|apply nth_error_None in Ex; pose proof (so_len _ _ _ SO); assert (i < List.length (sm_pel sm)) by (apply nth_error_Some; congruence); lia].
    destruct (so_el _ _ _ SO i x Ex) as (e0 & px & He0 & Ep & _ & M). assert (e0 = e) by congruence. subst e0. destruct (map_nth_vs _ _ _ M) as (Lx & _ & _).
    destruct (side_local _ _ _ _ _ _ Ep S) as (Ll & Ql). pose proof (local_side _ _ _ _ Ex ltac:(rewrite Lx; exact Ll)) as S1. pose proof S1 as S1'. apply ss_side in S1 as (e1 & u & w & He1 & Sp & Vu & Vw).
    assert (e1 = e) by congruence. subst e1. destruct (side_fun _ _ _ _ _ _ _ S Sp) as (<- & <-). eauto.
  Qed.

  Lemma lift_side_on i e l a b : nth_error (sm_pel sm) i = Some e -> side_on (m_elems pm) e l a b ->
    exists a' b', side_on (sm_elems sm) i l a' b' /\ nth_error (sm_vert sm) a' = Some a /\ nth_error (sm_vert sm) b' = Some b.
  Proof using SO.
    clear MO PF. intros Hi [S|S]; destruct (lift_side _ _ _ _ _ Hi S) as (a' & b' & H1 & H2 & H3); [exists a', b'|exists b', a']; split; auto; [left|right]; auto.
  Qed.

  Lemma bdr_on_exists e l a b : side_on (m_elems pm) e l a b -> In e (sm_pel sm) ->
    (forall e' l', side_on (m_elems pm) e' l' a b -> In e' (sm_pel sm) -> (e', l') = (e, l)) -> exists be, bdr_on sm be e l a b.
  Proof using SO.
    clear MO PF. intros S Ie Un. apply In_nth_error in Ie as (i & Hi). destruct (lift_side_on _ _ _ _ _ Hi S) as (a' & b' & So & Va & Vb). destruct (side_face _ _ _ _ _ _ (so_fi _ _ _ SO) So) as (q & f & Hf & Sm).
    assert (Sm' : same_edge (fst (fi_edge f), snd (fi_edge f)) (a', b') = true) by (rewrite <- surjective_pairing; exact Sm).
    assert (N : fi_el2 f = None).
    { destruct (fi_el2 f) as [(e2, i2)|] eqn:N2; auto. exfalso. destruct (face_double _ _ _ _ _ _ (so_fi _ _ _ SO) Hf N2) as (l1 & l2 & Ne & _ & S1 & S2).
      assert (T1 : side_on (sm_elems sm) (fi_el1 f) l1 a' b') by (eapply side_on_same; [exact Sm'|left; exact S1]).
      assert (T2 : side_on (sm_elems sm) e2 l2 a' b') by (eapply side_on_same; [exact Sm'|]; destruct S2 as [(S2 & _)|(S2 & _)]; [right|left]; exact S2).
      apply ss_side_on in T1 as (p1 & u1 & w1 & P1 & Q1 & V1 & W1). apply ss_side_on in T2 as (p2 & u2 & w2 & P2 & Q2 & V2 & W2). assert (u1 = a) by congruence. assert (w1 = b) by congruence. assert (u2 = a) by congruence. assert (w2 = b) by congruence. subst.
      pose proof (Un _ _ Q1 (nth_error_In _ _ P1)) as R1. pose proof (Un _ _ Q2 (nth_error_In _ _ P2)) as R2. injection R1 as -> ->. injection R2 as -> ->. apply Ne. f_equal. eapply pel_inj; eauto. }
    assert (Iq : In q (sm_bdr sm)) by (apply bdr_in; exists f; auto). apply In_nth_error in Iq as (be & Hbe). exists be.
    assert (Ei : fi_el1 f = i) by (symmetry; eapply face_single; [apply (so_fi _ _ _ SO)|exact Hf|exact N|eapply side_on_same; [|exact So]; rewrite same_sym; exact Sm']).
    exists q, f, i, a', b'. repeat split; auto. rewrite same_sym. auto.
  Qed.

  Lemma bdr_on_unique be be' e l a b e' l' : bdr_on sm be e l a b -> bdr_on sm be' e' l' a b -> be = be'.
  Proof using SO.
    clear MO PF. intros H H'. apply bdr_on_iff in H as (q & f & x & y & Hq & Hf & Eu & Sm & _). apply bdr_on_iff in H' as (q' & f' & x' & y' & Hq' & Hf' & Eu' & Sm' & _).
    assert (q = q'). { eapply (fi_inj _ _ (so_fi _ _ _ SO)); [exact Hf|exact Hf'|]. eapply same_up; eauto. eapply same_trans; [exact Sm|]. rewrite same_sym. auto. }
    subst q'. apply (proj1 (NoDup_nth_error _) bdr_nodup); [apply nth_error_Some|]; congruence.
  Qed.

  (** What [bdr_elems] computes. *)
  Lemma bdr_elems_ok pf : List.length pf = List.length (sm_faces sm) ->
    (forall q f, nth_error (sm_faces sm) q = Some f -> exists pk, nth_error pf q = Some (Some pk) /\ pmatch sm pfs f pk) ->
    exists bs, bdr_elems sm pf = Ok bs /\ List.length bs = List.length (sm_bdr sm) /\
      forall be pk e, nth_error bs be = Some (BdrElem pk e) <-> exists l a b g, bdr_on sm be e l a b /\ nth_error pfs pk = Some g /\ same_edge (fi_edge g) (a, b) = true.
  Proof.
    intros Lp Hp. unfold bdr_elems. set (F := fun b : nat => let* p := oread pf b in _).
    assert (Get : forall q, In q (sm_bdr sm) -> exists f pk e, nth_error (sm_faces sm) q = Some f /\ nth_error pf q = Some (Some pk) /\ pmatch sm pfs f pk /\ nth_error (sm_pel sm) (fi_el1 f) = Some e /\ F q = Ok (BdrElem pk e)).
    { intros q Iq. apply bdr_in in Iq as (f & Hf & _). destruct (Hp _ _ Hf) as (pk & Ep & Pm). destruct (face_up _ _ Hf) as (e & l & a & b & He & _). exists f, pk, e. repeat split; auto.
      unfold F. rewrite (proj2 (oread_ok _ _ _) Ep). cbn [obind]. rewrite (proj2 (oread_ok _ _ _) Hf). cbn [obind]. rewrite (proj2 (oread_ok _ _ _) He). reflexivity. }
    destruct (omap_nth F (sm_bdr sm)) as (bs & E & L & G1 & G2). { intros q Iq. destruct (Get q Iq) as (f & pk & e & _ & _ & _ & _ & H). eauto. }
    exists bs. split; auto. split; auto. intros be pk e. split.
    - intros H. destruct (G2 _ _ H) as (q & Hq & Eq). destruct (Get q (nth_error_In _ _ Hq)) as (f & pk' & e' & Hf & _ & (g & x & y & Hg & Eu & Sm) & He & E'). rewrite E' in Eq. injection Eq as -> ->.
      destruct (face_up _ _ Hf) as (e0 & l & x' & y' & He0 & Eu' & Sp & I & _). assert (e0 = e) by congruence. subst e0. exists l, x, y, g. split; auto. apply bdr_on_iff. exists q, f, x, y.
      repeat split; auto; try apply Eu; [apply same_refl|]. left. destruct Eu as (U1 & U2), Eu' as (U1' & U2'). assert (x' = x) by congruence. assert (y' = y) by congruence. subst. auto.
    - intros (l & a & b & g & H & Hg & Sg). apply bdr_on_iff in H as (q & f & x & y & Hq & Hf & Eu & Sm & He & I & S). destruct (G1 _ _ Hq) as (z & Hz & Ez). rewrite Hz. f_equal.
      destruct (Get q (nth_error_In _ _ Hq)) as (f' & pk' & e' & Hf' & _ & (g' & x' & y' & Hg' & Eu' & Sm') & He' & E'). assert (f' = f) by congruence. subst f'. assert (e' = e) by congruence. subst e'. rewrite Ez in E'. injection E' as ->. f_equal.
      eapply (fi_inj _ _ PF); [exact Hg'|exact Hg|]. destruct Eu as (U1 & U2), Eu' as (U1' & U2'). assert (x' = x) by congruence. assert (y' = y) by congruence. subst. eapply same_trans; [exact Sm'|]. eapply same_trans; [exact Sm|]. rewrite same_sym. auto.
  Qed.
End Maps.
