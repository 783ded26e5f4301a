(** Proofs about the handler: subdomains, interfaces, transformations, transfer. *)
From Coq Require Import ZArith List Bool Lia Reals String Sorting.Sorted Lra.
From Verif Require Import Outcome TopoModel TopoSpec TopoProofs LaBase SplitModel SplitSpec SplitProofs SplitMapProofs.
Import ListNotations.
Local Open Scope nat_scope.

Lemma sub_ok_dom pm dom dom' sm : (forall e z, has_attr (m_elems pm) e z -> (dom z <-> dom' z)) -> sub_ok pm dom sm -> sub_ok pm dom' sm.
Proof.
  intros D []. split; auto. intros e. rewrite so_in. split; intros (z & H1 & H2); exists z; split; auto; eapply D; eauto.
Qed.

(** An element has one side on an edge. *)
Lemma side_once pm e l l' a b : mesh_ok pm -> side_on (m_elems pm) e l a b -> side_on (m_elems pm) e l' a b -> l = l'.
Proof.
  intros MO.
  assert (G : forall l l' a b c d, side (m_elems pm) e l a b -> side (m_elems pm) e l' c d -> (a = c /\ b = d \/ a = d /\ b = c) -> l = l').
  { clear l l' a b. intros l l' a b c d (x & Hx & Ha & Hb) (x' & Hx' & Hc & Hd) Q. assert (x' = x) by congruence. subst x'.
    pose proof (nth_error_In _ _ Hx) as Ix. pose proof (mo_distinct pm MO x Ix) as N. pose proof (mo_shape pm MO x Ix) as Sh.
    assert (U : forall i j w, nth_error (el_vert x) i = Some w -> nth_error (el_vert x) j = Some w -> i = j).
    { intros i j w H H'. apply (proj1 (NoDup_nth_error _) N); [apply nth_error_Some|]; congruence. }
    destruct Q as [(-> & ->)|(-> & ->)]; [eapply U; eauto|].
    assert (l < List.length (el_vert x)) by (apply nth_error_Some; congruence). assert (l' < List.length (el_vert x)) by (apply nth_error_Some; congruence).
    destruct Hb as [Hb|(Q & Hb)], Hd as [Hd|(Q' & Hd)]; pose proof (U _ _ _ Ha Hd); pose proof (U _ _ _ Hb Hc); lia. }
  intros [H|H] [H'|H']; eapply G; eauto.
Qed.

Record handler_ok (mode : dd_mode) (pm : mesh2) (h : handler) (pb : parent_bdr) : Prop := {
  ho_pfs : FI (side_uses (m_elems pm)) (h_pfs h);
  ho_sub : forall k sm, nth_error (h_subs h) k = Some sm -> sub_ok pm (in_domain mode k) sm;
  ho_lmap : List.length (h_maps h) = List.length (h_subs h);
  ho_map : forall k sm pf, nth_error (h_subs h) k = Some sm -> nth_error (h_maps h) k = Some pf -> List.length pf = List.length (sm_faces sm) /\
    forall q f, nth_error (sm_faces sm) q = Some f -> exists pk, nth_error pf q = Some (Some pk) /\ pmatch sm (h_pfs h) f pk;
  ho_side : forall i be pk e, on_side (h_bels h) i be pk e <->
    exists sm l a b g, nth_error (h_subs h) i = Some sm /\ bdr_on sm be e l a b /\ nth_error (h_pfs h) pk = Some g /\ same_edge (fi_edge g) (a, b) = true;
  ho_pb : forall k z, In (k, z) pb <-> exists a b g, In (a, b, z) (m_bdr pm) /\ nth_error (h_pfs h) k = Some g /\ same_edge (fi_edge g) (a, b) = true;
  ho_pbn : pb <> [];
  ho_st : build_interface_infos (pface_of (List.length (m_elems pm)) (h_pfs h)) pb (h_bels h) = Ok (h_st h) }.

Section Top.
  Variables (mode : dd_mode) (pm : mesh2) (subs : list smesh) (pfs : list finfo) (bels : list submesh).
  Hypothesis MO : mesh_ok pm.
  Hypothesis PF : FI (side_uses (m_elems pm)) pfs.
  Hypothesis SO : forall k sm, nth_error subs k = Some sm -> sub_ok pm (in_domain mode k) sm.
  Hypothesis SD : forall i be pk e, on_side bels i be pk e <->
    exists sm l a b g, nth_error subs i = Some sm /\ bdr_on sm be e l a b /\ nth_error pfs pk = Some g /\ same_edge (fi_edge g) (a, b) = true.

  Lemma dom_inj i j si sj e : nth_error subs i = Some si -> nth_error subs j = Some sj -> In e (sm_pel si) -> In e (sm_pel sj) -> i = j.
  Proof.
    clear MO PF SD. intros Hi Hj Ii Ij. apply (so_in _ _ _ (SO _ _ Hi)) in Ii as (z & (x & Hx & Ez) & Di). apply (so_in _ _ _ (SO _ _ Hj)) in Ij as (z' & (x' & Hx' & Ez') & Dj).
    assert (x' = x) by congruence. subst. unfold in_domain in *. destruct mode; lia.
  Qed.

  Lemma on_face_side i ib f : on_face bels i ib f <-> exists e, on_side bels i ib f e.
  Proof.
    clear. split.
    - intros (m & b & H1 & H2 & <-). exists (be_elem b), m. destruct b. auto.
    - intros (e & m & H1 & H2). exists m, (BdrElem f e). auto.
  Qed.

  (** Two boundary elements on a face of the mesh: the same edge. *)
  Lemma side_pair i ib f : on_face bels i ib f -> exists sm e l g, nth_error subs i = Some sm /\ nth_error pfs f = Some g /\ bdr_on sm ib e l (fst (fi_edge g)) (snd (fi_edge g)).
  Proof.
    intros H. apply on_face_side in H as (e & H). apply SD in H as (sm & l & a & b & g & Hs & Hb & Hg & S). exists sm, e, l, g. split; auto. split; auto.
    pose proof Hb as Hb'. apply (bdr_on_iff pm _ _ (SO _ _ Hs)) in Hb. apply (bdr_on_iff pm _ _ (SO _ _ Hs)). destruct Hb as (q & f' & x & y & H1 & H2 & H3 & H4 & H5 & H6 & H7). exists q, f', x, y. rewrite <- surjective_pairing.
    repeat split; auto; try apply H3.
    - eapply same_trans; [exact H4|]. rewrite same_sym. auto.
    - eapply side_on_same; [|exact H7]. rewrite <- surjective_pairing, same_sym. auto.
  Qed.

  Lemma sub_conforming : conforming bels.
  Proof.
    split.
    - intros i ib ib' f H H'. apply side_pair in H as (sm & e & l & g & Hs & Hg & B). apply side_pair in H' as (sm' & e' & l' & g' & Hs' & Hg' & B'). assert (sm' = sm) by congruence. assert (g' = g) by congruence. subst.
      eapply bdr_on_unique; eauto.
    - intros i j k ib jb kb f H1 H2 H3. apply side_pair in H1 as (s1 & e1 & l1 & g & Hs1 & Hg & B1). apply side_pair in H2 as (s2 & e2 & l2 & g2 & Hs2 & Hg2 & B2). apply side_pair in H3 as (s3 & e3 & l3 & g3 & Hs3 & Hg3 & B3).
      assert (g2 = g) by congruence. assert (g3 = g) by congruence. subst. destruct (bdr_on_in _ _ _ (SO _ _ Hs1) _ _ _ _ _ B1) as (I1 & S1 & _). destruct (bdr_on_in _ _ _ (SO _ _ Hs2) _ _ _ _ _ B2) as (I2 & S2 & _). destruct (bdr_on_in _ _ _ (SO _ _ Hs3) _ _ _ _ _ B3) as (I3 & S3 & _).
      destruct (mo_two pm MO _ _ _ _ _ _ _ _ S1 S2 S3) as [Q|[Q|Q]]; injection Q as -> _; [left|right; left|right; right]; eapply dom_inj; eauto.
  Qed.

  Lemma sub_recorded : sides_recorded (pface_of (List.length (m_elems pm)) pfs) bels.
  Proof.
    intros i j ib jb f ei ej N H1 H2. apply SD in H1 as (s1 & l1 & a1 & b1 & g & Hs1 & B1 & Hg & S1). apply SD in H2 as (s2 & l2 & a2 & b2 & g2 & Hs2 & B2 & Hg2 & S2). assert (g2 = g) by congruence. subst g2.
    destruct (bdr_on_in _ _ _ (SO _ _ Hs1) _ _ _ _ _ B1) as (I1 & T1 & _). destruct (bdr_on_in _ _ _ (SO _ _ Hs2) _ _ _ _ _ B2) as (I2 & T2 & _).
    assert (Ne : (ei, l1) <> (ej, l2)). { intros Q. injection Q as -> _. apply N. eapply dom_inj; eauto. }
    destruct (face_two _ _ _ _ _ _ _ _ PF Hg Ne) as (e2 & i2 & E2 & Q).
    { eapply side_on_same; [|exact T1]. rewrite <- surjective_pairing, same_sym. auto. } { eapply side_on_same; [|exact T2]. rewrite <- surjective_pairing, same_sym. auto. }
    unfold pface_of. rewrite Hg, E2. cbn [pf_el1 pf_el2]. tauto.
  Qed.
End Top.

Lemma dd_mode_ok dd mode : dd_mode_of dd = Ok mode -> mode = NODD \/ mode = IP.
Proof. destruct mode; auto. Qed.

Definition top_attr (pm : mesh2) (n : nat) : Prop := (forall x, In x (m_elems pm) -> (el_attr x <= Z.of_nat n)%Z) /\ exists x, In x (m_elems pm) /\ el_attr x = Z.of_nat n.

Lemma build_ok dd mode pm0 pm : dd_mode_of dd = Ok mode -> mesh_ok pm -> m_elems pm <> [] ->
  (forall z, In z (map el_attr (m_elems pm0)) <-> In z (map el_attr (m_elems pm))) ->
  exists h n pb, build_handler dd pm0 pm = Ok h /\ top_attr pm n /\ List.length (h_subs h) = match mode with NODD => 1 | IP => n end /\ handler_ok mode pm h pb.
Proof.
  intros Ed MO Ne At. unfold build_handler. rewrite Ed. cbn [obind]. destruct (update_attributes_complete (map el_attr (m_elems pm0))) as (_ & _ & Iu).
  destruct (zmax_nonempty (update_attributes (map el_attr (m_elems pm0)))) as (top & Et).
  { intros Q. destruct (m_elems pm) as [|x t] eqn:Em; [congruence|]. assert (K : In (el_attr x) (update_attributes (map el_attr (m_elems pm0)))) by (apply Iu, At; left; auto). rewrite Q in K. destruct K. }
  rewrite Et. cbn [obind]. apply zmax_spec in Et as (It & Mt). apply Iu, At, in_map_iff in It as (x0 & E0 & I0). pose proof (mo_attr pm MO _ I0) as P0.
  assert (Mt' : forall x, In x (m_elems pm) -> (el_attr x <= top)%Z) by (intros x Hx; apply Mt, Iu, At, in_map; auto).
  unfold oassert. rewrite (proj2 (Z.leb_le 0 top)) by lia. set (n := Z.to_nat top). assert (Qn : Z.of_nat n = top) by lia.
  destruct (mesh_faces_ok (m_elems pm)) as (pfs & Ef & PF). { intros a b e1 l1 e2 l2 e3 l3. apply (mo_two pm MO). } rewrite Ef. cbn [obind].
  destruct (omap_nth (create_from_domain pm) (domains mode n)) as (subs & Es & Ls & _ & Gs). { intros d _. destruct (create_ok pm d MO) as (sm & E & _). eauto. } rewrite Es. cbn [obind].
  assert (SO : forall k sm, nth_error subs k = Some sm -> sub_ok pm (in_domain mode k) sm).
  { intros k sm H. destruct (Gs _ _ H) as (d & Hd & Ec). destruct (create_ok pm d MO) as (sm' & Ec' & S). assert (sm' = sm) by congruence. subst sm'. eapply sub_ok_dom; [|exact S].
    intros e z (x & Hx & <-). apply nth_error_In in Hx. pose proof (mo_attr pm MO x Hx). pose proof (Mt' x Hx). unfold domains in Hd. destruct mode; cbn [in_domain].
    - destruct k as [|k]; [|destruct k; discriminate]. injection Hd as <-. split; auto. intros _. apply in_map_iff. exists (Z.to_nat (el_attr x - 1)). split; [lia|]. apply in_seq. lia.
    - rewrite nth_error_map in Hd. destruct (nth_error (seq 0 n) k) as [k'|] eqn:K; [|discriminate]. injection Hd as <-. assert (k' = k).
      { assert (L : k < List.length (seq 0 n)) by (apply nth_error_Some; congruence). pose proof L as L'. rewrite seq_length in L'. pose proof (nth_error_nth' (seq 0 n) 0 L) as K'. rewrite seq_nth in K' by auto. cbn in K'. congruence. }
      subst k'. cbn [In]. split; [intros [Q|[]]; auto|intros ->; auto]. }
  destruct (omap_nth (build_face_map pm pfs) subs) as (maps & Em & Lm & Gm1 & Gm2). { intros sm Hs. apply In_nth_error in Hs as (k & Hk). destruct (face_map_ok pm pfs _ sm PF (SO _ _ Hk)) as (pf & E & _). eauto. } rewrite Em. cbn [obind].
  assert (HM : forall k sm pf, nth_error subs k = Some sm -> nth_error maps k = Some pf -> List.length pf = List.length (sm_faces sm) /\ forall q f, nth_error (sm_faces sm) q = Some f -> exists pk, nth_error pf q = Some (Some pk) /\ pmatch sm pfs f pk).
  { intros k sm pf Hk Hp. destruct (Gm1 _ _ Hk) as (pf' & Hp' & E). assert (pf' = pf) by congruence. subst pf'. destruct (face_map_ok pm pfs _ sm PF (SO _ _ Hk)) as (pf' & E' & H). assert (pf' = pf) by congruence. subst pf'. exact H. }
  unfold parent_bdr_of. destruct (omap_nth (fun b : nat * nat * Z => match find_face pfs (fst b) with Some k => Ok (k, snd b) | None => UB end) (m_bdr pm)) as (pb & Eb & Lb & Gb1 & Gb2).
  { intros ((a, b), z) Hb. destruct (mo_bdr pm MO a b z Hb) as (_ & e & l & S). destruct (side_face _ _ _ _ _ _ PF S) as (k & f & H1 & H2). cbn [fst snd]. rewrite (proj2 (find_face_iff _ _ _ k PF)); eauto. }
  rewrite Eb. cbn [obind].
  assert (Hc : forall k x, nth_error (combine subs maps) k = Some x -> nth_error subs k = Some (fst x) /\ nth_error maps k = Some (snd x)).
  { clear. revert maps. induction subs as [|s t IH]; intros [|m u] k x H; try (destruct k; discriminate). destruct k as [|k]; cbn in H; [injection H as <-; auto|]. exact (IH _ _ _ H). }
  destruct (omap_nth (fun x => bdr_elems (fst x) (snd x)) (combine subs maps)) as (bels & El & Ll & Gl1 & Gl2).
  { intros x Hx. apply In_nth_error in Hx as (k & Hk). destruct (Hc _ _ Hk) as (H1 & H2). destruct (HM _ _ _ H1 H2) as (L & F). destruct (bdr_elems_ok pm pfs _ (fst x) PF (SO _ _ H1) (snd x) L F) as (bs & E & _). eauto. }
  rewrite El. cbn [obind].
  assert (SD : forall i be pk e, on_side bels i be pk e <-> exists sm l a b g, nth_error subs i = Some sm /\ bdr_on sm be e l a b /\ nth_error pfs pk = Some g /\ same_edge (fi_edge g) (a, b) = true).
  { intros i be pk e. split.
    - intros (m & Hm & Hb). pose proof (Gl2 _ _ Hm) as K0. destruct K0 as (x & Hx & Ex). destruct (Hc _ _ Hx) as (H1 & H2). destruct (HM _ _ _ H1 H2) as (L & F). destruct (bdr_elems_ok pm pfs _ (fst x) PF (SO _ _ H1) (snd x) L F) as (bs & E & _ & Iff).
      assert (bs = m) by congruence. subst bs. destruct (proj1 (Iff _ _ _) Hb) as (l & a & b & g & K1 & K2 & K3). exists (fst x), l, a, b, g. auto.
    - intros (sm & l & a & b & g & Hs & K1 & K2 & K3). destruct (nth_error (combine subs maps) i) as [x|] eqn:Hx.
      2:{ exfalso. apply nth_error_None in Hx. rewrite combine_length in Hx. assert (i < List.length subs) by (apply nth_error_Some; congruence). lia. }
      destruct (Gl1 _ _ Hx) as (bs & Hb & Ex). destruct (Hc _ _ Hx) as (H1 & H2). assert (fst x = sm) by congruence. subst sm. destruct (HM _ _ _ H1 H2) as (L & F). destruct (bdr_elems_ok pm pfs _ (fst x) PF (SO _ _ H1) (snd x) L F) as (bs' & E & _ & Iff).
      assert (bs' = bs) by congruence. subst bs'. exists bs. split; auto. apply Iff. exists l, a, b, g. auto. }
  assert (PB : forall k z, In (k, z) pb <-> exists a b g, In (a, b, z) (m_bdr pm) /\ nth_error pfs k = Some g /\ same_edge (fi_edge g) (a, b) = true).
  { intros k z. split.
    - intros H. apply In_nth_error in H as (i & H). destruct (Gb2 _ _ H) as (((a, b), z') & Hx & Ex). cbn [fst snd] in Ex. destruct (find_face pfs (a, b)) as [k'|] eqn:Fk; [|discriminate]. injection Ex as -> ->.
      destruct (find_face_some _ _ _ Fk) as (g & K1 & K2). exists a, b, g. split; auto. eapply nth_error_In; eauto.
    - intros (a & b & g & Hb & Hg & S). apply In_nth_error in Hb as (i & Hb). destruct (Gb1 _ _ Hb) as (y & Hy & Ey). cbn [fst snd] in Ey. rewrite (proj2 (find_face_iff _ _ (a, b) k PF)) in Ey by eauto. injection Ey as <-. eapply nth_error_In; eauto. }
  assert (Pn : pb <> []). { intros Q. apply (mo_some pm MO). destruct (m_bdr pm); auto. subst pb. cbn in Lb. discriminate. }
  destruct (build_interface_infos_correct (pface_of (List.length (m_elems pm)) pfs) pb bels) as (st & Est & _).
  { eapply sub_conforming; eauto. } { exact Pn. } { intros f a H. apply PB in H as (x & y & g & H & _). apply (mo_bdr pm MO _ _ _ H). }
  rewrite Est. cbn [obind]. exists (Handler subs maps bels st pfs), n, pb. split; [reflexivity|]. split; [|split].
  - split; [rewrite Qn; auto|]. exists x0. rewrite Qn. auto.
  - cbn [h_subs]. rewrite Ls. unfold domains. destruct mode; [reflexivity|]. rewrite map_length, seq_length. reflexivity.
  - split; cbn [h_pfs h_subs h_maps h_bels h_st]; auto.
Qed.

(** ** Interfaces *)
Section Interfaces.
  Variables (mode : dd_mode) (pm : mesh2) (h : handler) (pb : parent_bdr).
  Hypothesis MO : mesh_ok pm.
  Hypothesis HO : handler_ok mode pm h pb.

  Lemma itf_spec : (conforming (h_bels h) /\ sides_recorded (pface_of (List.length (m_elems pm)) (h_pfs h)) (h_bels h)) /\
    pb <> [] /\ (forall f a, In (f, a) pb -> (0 < a)%Z).
  Proof.
    destruct HO. split; [split|split; auto].
    - eapply sub_conforming; eauto.
    - eapply sub_recorded; eauto.
    - intros f a H. apply ho_pb0 in H as (x & y & g & H & _). apply (mo_bdr pm MO _ _ _ H).
  Qed.

  Lemma bdr_side i si be e l a b : nth_error (h_subs h) i = Some si -> bdr_on si be e l a b -> exists pk g, nth_error (h_pfs h) pk = Some g /\ same_edge (fi_edge g) (a, b) = true /\ on_side (h_bels h) i be pk e.
  Proof.
    intros Hi B. destruct (bdr_on_in _ _ _ (ho_sub _ _ _ _ HO _ _ Hi) _ _ _ _ _ B) as (_ & S & _). destruct (side_face _ _ _ _ _ _ (ho_pfs _ _ _ _ HO) S) as (k & g & H1 & H2).
    exists k, g. split; auto. split; auto. apply (ho_side _ _ _ _ HO). exists si, l, a, b, g. auto.
  Qed.

  Lemma interior_iff pk g a b : nth_error (h_pfs h) pk = Some g -> same_edge (fi_edge g) (a, b) = true -> interior pb pk <-> no_bdr pm a b.
  Proof.
    intros Hg S. unfold interior, no_bdr. split.
    - intros H z. split; intros K; apply (H z), (ho_pb _ _ _ _ HO).
      + exists a, b, g. auto.
      + exists b, a, g. split; auto. split; auto. eapply same_trans; [exact S|]. apply same_edge_iff. right. reflexivity.
    - intros H z K. apply (ho_pb _ _ _ _ HO) in K as (x & y & g' & K & Hg' & S'). assert (g' = g) by congruence. subst g'. rewrite same_sym in S. pose proof (same_trans _ _ _ S S') as Q.
      destruct (H z) as (H1 & H2). apply same_edge_iff in Q as [Q|Q]; unfold rev_edge in Q; cbn in Q; injection Q as -> ->; auto.
  Qed.

  (** The boundary elements of two subdomains that share an edge. *)
  Lemma cross_bdr i j si sj e1 l1 e2 l2 a b : i <> j -> nth_error (h_subs h) i = Some si -> nth_error (h_subs h) j = Some sj -> In e1 (sm_pel si) -> In e2 (sm_pel sj) ->
    side_on (m_elems pm) e1 l1 a b -> side_on (m_elems pm) e2 l2 a b -> exists be, bdr_on si be e1 l1 a b.
  Proof.
    intros N Hi Hj I1 I2 S1 S2. apply (bdr_on_exists pm _ si (ho_sub _ _ _ _ HO _ _ Hi)); auto. intros e' l' S' I'.
    destruct (mo_two pm MO _ _ _ _ _ _ _ _ S' S1 S2) as [Q|[Q|Q]]; auto; exfalso; apply N; injection Q as -> _; apply (dom_inj mode pm (h_subs h) (ho_sub _ _ _ _ HO) i j si sj e2 Hi Hj); auto.
  Qed.

  (** The face shared by two different sides. *)
  Lemma side_codes pk g e1 l1 e2 l2 inf1 inf2 a b : nth_error (h_pfs h) pk = Some g -> same_edge (fi_edge g) (a, b) = true -> e1 <> e2 ->
    side_on (m_elems pm) e1 l1 a b -> side_on (m_elems pm) e2 l2 a b ->
    side_code (pface_of (List.length (m_elems pm)) (h_pfs h) pk) e1 inf1 -> side_code (pface_of (List.length (m_elems pm)) (h_pfs h) pk) e2 inf2 ->
    exists o1 o2 x y, inf1 = inf_encode (Z.of_nat l1) o1 /\ inf2 = inf_encode (Z.of_nat l2) o2 /\ same_edge (x, y) (a, b) = true /\
      (o1 = 0%Z /\ side (m_elems pm) e1 l1 x y \/ o1 = 1%Z /\ side (m_elems pm) e1 l1 y x) /\
      (o2 = 0%Z /\ side (m_elems pm) e2 l2 x y \/ o2 = 1%Z /\ side (m_elems pm) e2 l2 y x).
  Proof.
    intros Hg Sg N S1 S2 C1 C2. assert (Sg' : same_edge (a, b) (fst (fi_edge g), snd (fi_edge g)) = true) by (rewrite <- surjective_pairing, same_sym; auto).
    assert (N' : (e1, l1) <> (e2, l2)) by congruence.
    destruct (face_two _ _ _ _ _ _ _ _ (ho_pfs _ _ _ _ HO) Hg N' (side_on_same _ _ _ _ _ _ _ Sg' S1) (side_on_same _ _ _ _ _ _ _ Sg' S2)) as (e2' & i2 & E2 & Q).
    destruct (face_double _ _ _ _ _ _ (ho_pfs _ _ _ _ HO) Hg E2) as (m1 & m2 & _ & I1 & T1 & T2).
    unfold pface_of in C1, C2. rewrite Hg, E2 in C1, C2. unfold side_code in C1, C2. cbn [pf_el1 pf_el2 pf_inf1 pf_inf2] in C1, C2.
    assert (T1' : side_on (m_elems pm) (fi_el1 g) m1 a b) by (eapply side_on_same; [rewrite same_sym; exact Sg'|left; auto]).
    assert (T2' : side_on (m_elems pm) e2' m2 a b) by (eapply side_on_same; [rewrite same_sym; exact Sg'|destruct T2 as [(T2 & _)|(T2 & _)]; [right|left]; auto]).
    assert (Sx : same_edge (fst (fi_edge g), snd (fi_edge g)) (a, b) = true) by (rewrite same_sym; auto).
    destruct Q as [(-> & ->)|(-> & ->)].
    - rewrite (side_once pm _ _ _ _ _ MO T1' S1) in *. rewrite (side_once pm _ _ _ _ _ MO T2' S2) in *. destruct C1 as [(_ & ->)|(Q & _)]; [|congruence]. destruct C2 as [(Q & _)|(_ & ->)]; [congruence|].
      destruct T2 as [(T2 & ->)|(T2 & _ & ->)]; [exists 0%Z, 1%Z|exists 0%Z, 0%Z]; exists (fst (fi_edge g)), (snd (fi_edge g)); auto 10.
    - rewrite (side_once pm _ _ _ _ _ MO T1' S2) in *. rewrite (side_once pm _ _ _ _ _ MO T2' S1) in *. destruct C1 as [(Q & _)|(_ & ->)]; [congruence|]. destruct C2 as [(_ & ->)|(Q & _)]; [|congruence].
      destruct T2 as [(T2 & ->)|(T2 & _ & ->)]; [exists 1%Z, 0%Z|exists 0%Z, 0%Z]; exists (fst (fi_edge g)), (snd (fi_edge g)); auto 10.
  Qed.

  Let st := h_st h.

  (** What an entry of a port stands for. *)
  Lemma entry_ok k p l x : nth_error (bs_ports st) k = Some p -> nth_error (bs_infos st) k = Some l -> In x l ->
    pi_mesh1 p < pi_mesh2 p /\
    exists si sj e1 l1 e2 l2 a b, nth_error (h_subs h) (pi_mesh1 p) = Some si /\ nth_error (h_subs h) (pi_mesh2 p) = Some sj /\
      bdr_on si (ii_be1 x) e1 l1 a b /\ bdr_on sj (ii_be2 x) e2 l2 a b /\ e1 <> e2 /\ no_bdr pm a b /\
      exists o1 o2 u w, ii_inf1 x = inf_encode (Z.of_nat l1) o1 /\ ii_inf2 x = inf_encode (Z.of_nat l2) o2 /\ same_edge (u, w) (a, b) = true /\
        (o1 = 0%Z /\ side (m_elems pm) e1 l1 u w \/ o1 = 1%Z /\ side (m_elems pm) e1 l1 w u) /\
        (o2 = 0%Z /\ side (m_elems pm) e2 l2 u w \/ o2 = 1%Z /\ side (m_elems pm) e2 l2 w u).
  Proof.
    intros Hp Hl Hx. destruct itf_spec as ((Cf & Rec) & Pn & Pp). destruct (build_interface_infos_correct (pface_of (List.length (m_elems pm)) (h_pfs h)) pb (h_bels h) Cf Pn Pp) as (st' & E & Ports & _ & _ & Infos & _).
    assert (st' = st) by (pose proof (ho_st _ _ _ _ HO) as E'; unfold st; congruence). subst st'.
    destruct (proj1 (Ports (pi_mesh1 p) (pi_mesh2 p))) as (Lt & _). { exists p. split; auto. eapply nth_error_In; eauto. } split; auto.
    destruct (Infos k p l Hp Hl) as (_ & Iff & Codes). destruct (proj1 (Iff (ii_be1 x) (ii_be2 x))) as (f & F1 & F2 & Int). { apply in_map_iff. exists x. auto. }
    apply on_face_side in F1 as (e1 & F1). apply on_face_side in F2 as (e2 & F2). destruct (Codes Rec x f e1 e2 Hx F1 F2) as (C1 & C2).
    apply (ho_side _ _ _ _ HO) in F1 as (si & l1 & a & b & g & Hi & B1 & Hg & S). apply (ho_side _ _ _ _ HO) in F2 as (sj & l2 & a' & b' & g' & Hj & B2 & Hg' & S'). assert (g' = g) by congruence. subst g'.
    assert (B2' : bdr_on sj (ii_be2 x) e2 l2 a b).
    { apply (bdr_on_iff pm _ _ (ho_sub _ _ _ _ HO _ _ Hj)) in B2 as (q & f' & u & w & K1 & K2 & K3 & K4 & K5 & K6 & K7). apply (bdr_on_iff pm _ _ (ho_sub _ _ _ _ HO _ _ Hj)). exists q, f', u, w.
      assert (Q : same_edge (a', b') (a, b) = true) by (rewrite same_sym in S'; eapply same_trans; eauto). repeat split; auto; try apply K3; [eapply same_trans; eauto|eapply side_on_same; eauto]. }
    destruct (bdr_on_in _ _ _ (ho_sub _ _ _ _ HO _ _ Hi) _ _ _ _ _ B1) as (I1 & T1 & _). destruct (bdr_on_in _ _ _ (ho_sub _ _ _ _ HO _ _ Hj) _ _ _ _ _ B2') as (I2 & T2 & _).
    assert (N : e1 <> e2). { intros ->. assert (pi_mesh1 p = pi_mesh2 p); [|lia]. eapply (dom_inj mode pm (h_subs h) (ho_sub _ _ _ _ HO)); eauto. }
    exists si, sj, e1, l1, e2, l2, a, b. do 5 (split; [assumption|]). split; [apply (interior_iff f g a b Hg S); auto|].
    eapply side_codes; eauto.
  Qed.

  (** Every edge between two subdomains is an entry. *)
  Lemma entry_exists i j si sj e1 l1 e2 l2 a b : i < j -> nth_error (h_subs h) i = Some si -> nth_error (h_subs h) j = Some sj ->
    In e1 (sm_pel si) -> In e2 (sm_pel sj) -> side_on (m_elems pm) e1 l1 a b -> side_on (m_elems pm) e2 l2 a b -> no_bdr pm a b ->
    exists k p l x, nth_error (bs_ports st) k = Some p /\ nth_error (bs_infos st) k = Some l /\ In x l /\ pi_mesh1 p = i /\ pi_mesh2 p = j /\
      bdr_on si (ii_be1 x) e1 l1 a b /\ bdr_on sj (ii_be2 x) e2 l2 a b /\
      attr_at (bs_attrs st) i (ii_be1 x) = pi_attr p /\ attr_at (bs_attrs st) j (ii_be2 x) = pi_attr p.
  Proof.
    intros Lt Hi Hj I1 I2 S1 S2 Nb. destruct (cross_bdr i j si sj e1 l1 e2 l2 a b ltac:(lia) Hi Hj I1 I2 S1 S2) as (b1 & B1). destruct (cross_bdr j i sj si e2 l2 e1 l1 a b ltac:(lia) Hj Hi I2 I1 S2 S1) as (b2 & B2).
    destruct (bdr_side _ _ _ _ _ _ _ Hi B1) as (pk & g & Hg & Sg & O1). destruct (bdr_side _ _ _ _ _ _ _ Hj B2) as (pk' & g' & Hg' & Sg' & O2).
    assert (pk' = pk). { eapply (fi_inj _ _ (ho_pfs _ _ _ _ HO)); [exact Hg'|exact Hg|]. eapply same_trans; [exact Sg'|]. rewrite same_sym. auto. } subst pk'.
    assert (Sh : shared pb (h_bels h) i b1 j b2 pk). { split; [apply on_face_side; eauto|]. split; [apply on_face_side; eauto|]. apply (interior_iff pk g a b Hg Sg). auto. }
    destruct itf_spec as ((Cf & Rec) & Pn & Pp). destruct (build_interface_infos_correct (pface_of (List.length (m_elems pm)) (h_pfs h)) pb (h_bels h) Cf Pn Pp) as (st' & E & Ports & _ & Ln & Infos & _ & _ & At & _).
    assert (st' = st) by (pose proof (ho_st _ _ _ _ HO) as E'; unfold st; congruence). subst st'.
    destruct (proj2 (Ports i j)) as (p & Ip & P1 & P2). { split; auto. exists b1, b2, pk. auto. }
    destruct (In_nth_error _ _ Ip) as (k & Hk). destruct (nth_error (bs_infos st) k) as [l|] eqn:Hl. 2:{ exfalso. apply nth_error_None in Hl. assert (k < List.length (bs_ports st)) by (apply nth_error_Some; congruence). lia. }
    destruct (Infos k p l Hk Hl) as (_ & Iff & _). rewrite P1, P2 in Iff. assert (Ix : In (b1, b2) (map (fun x => (ii_be1 x, ii_be2 x)) l)) by (apply Iff; eauto). apply in_map_iff in Ix as (x & Qx & Ix). injection Qx as Q1 Q2.
    exists k, p, l, x. rewrite Q1, Q2. destruct (At p b1 b2 pk Ip) as (A1 & A2); [rewrite P1, P2; auto|]. rewrite P1 in A1. rewrite P2 in A2. repeat (split; auto).
  Qed.

  (** No edge is listed twice. *)
  Lemma entry_once k p l q x k' p' l' q' x' si si' e m a b e' m' : nth_error (bs_ports st) k = Some p -> nth_error (bs_infos st) k = Some l -> nth_error l q = Some x ->
    nth_error (bs_ports st) k' = Some p' -> nth_error (bs_infos st) k' = Some l' -> nth_error l' q' = Some x' ->
    nth_error (h_subs h) (pi_mesh1 p) = Some si -> nth_error (h_subs h) (pi_mesh1 p') = Some si' -> bdr_on si (ii_be1 x) e m a b -> bdr_on si' (ii_be1 x') e' m' a b -> k = k' /\ q = q'.
  Proof.
    intros Hp Hl Hx Hp' Hl' Hx' Hs Hs' B B'.
    destruct itf_spec as ((Cf & Rec) & Pn & Pp). destruct (build_interface_infos_correct (pface_of (List.length (m_elems pm)) (h_pfs h)) pb (h_bels h) Cf Pn Pp) as (st' & E & _ & Nd & _ & Infos & _).
    assert (st' = st) by (pose proof (ho_st _ _ _ _ HO) as E'; unfold st; congruence). subst st'.
    destruct (entry_ok k p l x Hp Hl (nth_error_In _ _ Hx)) as (Lt & s1 & s2 & e1 & l1 & e2 & l2 & u & w & H1 & H2 & B1 & B2 & N12 & _). destruct (entry_ok k' p' l' x' Hp' Hl' (nth_error_In _ _ Hx')) as (Lt' & s1' & s2' & e1' & l1' & e2' & l2' & u' & w' & H1' & H2' & B1' & B2' & N12' & _).
    assert (s1 = si) by congruence. assert (s1' = si') by congruence. subst s1 s1'.
    assert (Tr : forall i s be c d c' d' e l e' l', nth_error (h_subs h) i = Some s -> bdr_on s be e l c d -> bdr_on s be e' l' c' d' -> same_edge (c, d) (c', d') = true).
    { clear - HO. intros i s be c d c' d' e l e' l' H K K'. apply (bdr_on_iff pm _ _ (ho_sub _ _ _ _ HO _ _ H)) in K as (q & f & x & y & A1 & A2 & A3 & A4 & _). apply (bdr_on_iff pm _ _ (ho_sub _ _ _ _ HO _ _ H)) in K' as (q' & f' & x' & y' & A1' & A2' & A3' & A4' & _).
      assert (q' = q) by congruence. subst q'. assert (f' = f) by congruence. subst f'. destruct A3 as (V1 & V2), A3' as (V1' & V2'). assert (x' = x) by congruence. assert (y' = y) by congruence. subst. rewrite same_sym in A4. eapply same_trans; eauto. }
    assert (Q : same_edge (u, w) (a, b) = true) by (apply (Tr _ _ _ _ _ _ _ _ _ _ _ H1 B1 B)). assert (Q' : same_edge (u', w') (a, b) = true) by (apply (Tr _ _ _ _ _ _ _ _ _ _ _ H1' B1' B')).
    assert (Si : forall i s be c d e l, nth_error (h_subs h) i = Some s -> bdr_on s be e l c d -> same_edge (c, d) (a, b) = true -> In e (sm_pel s) /\ side_on (m_elems pm) e l a b).
    { clear - HO. intros i s be c d e l H K S. destruct (bdr_on_in _ _ _ (ho_sub _ _ _ _ HO _ _ H) _ _ _ _ _ K) as (I & T & _). split; auto. eapply side_on_same; eauto. }
    destruct (Si _ _ _ _ _ _ _ H1 B1 Q) as (I1 & T1). destruct (Si _ _ _ _ _ _ _ H2 B2 Q) as (I2 & T2). destruct (Si _ _ _ _ _ _ _ H1' B1' Q') as (I1' & T1'). destruct (Si _ _ _ _ _ _ _ H2' B2' Q') as (I2' & T2').
    assert (DI := dom_inj mode pm (h_subs h) (ho_sub _ _ _ _ HO)).
    assert (PM : pi_mesh1 p = pi_mesh1 p' /\ pi_mesh2 p = pi_mesh2 p').
    { destruct (mo_two pm MO _ _ _ _ _ _ _ _ T1 T2 T1') as [Z|[Z|Z]]; [injection Z; congruence| |].
      - injection Z as <- _. pose proof (DI _ _ _ _ _ H2 H1' I2 I1') as D. destruct (mo_two pm MO _ _ _ _ _ _ _ _ T1 T2 T2') as [Z|[Z|Z]]; [injection Z; congruence| |].
        + injection Z as <- _. pose proof (DI _ _ _ _ _ H2 H2' I2 I2'). lia.
        + injection Z as <- _. pose proof (DI _ _ _ _ _ H1 H2' I1 I2'). lia.
      - injection Z as <- _. pose proof (DI _ _ _ _ _ H1 H1' I1 I1') as D. split; auto. destruct (mo_two pm MO _ _ _ _ _ _ _ _ T1 T2 T2') as [Z|[Z|Z]]; [injection Z; congruence| |].
        + injection Z as <- _. apply (DI _ _ _ _ _ H2 H2' I2 I2').
        + injection Z as <- _. pose proof (DI _ _ _ _ _ H1 H2' I1 I2'). lia. }
    destruct PM as (PM1 & PM2). assert (Kk : k = k').
    { apply (proj1 (NoDup_nth_error _) Nd); [rewrite map_length; apply nth_error_Some; congruence|]. rewrite !nth_error_map, Hp, Hp'. cbn. congruence. }
    subst k'. assert (p' = p) by congruence. assert (l' = l) by congruence. subst p' l'. split; auto. destruct (Infos k p l Hp Hl) as (Nl & _).
    assert (si' = si) by congruence. assert (s2' = s2) by congruence. subst si' s2'.
    apply (proj1 (NoDup_nth_error _) Nl); [rewrite map_length; apply nth_error_Some; congruence|]. rewrite !nth_error_map, Hx, Hx'. cbn. f_equal. f_equal.
    - exact (bdr_on_unique pm _ si (ho_sub _ _ _ _ HO _ _ H1) _ _ _ _ _ _ _ _ B B').
    - assert (Mv : bdr_on s2 (ii_be2 x') e2' l2' u w).
      { apply (bdr_on_iff pm _ _ (ho_sub _ _ _ _ HO _ _ H2)) in B2' as (z & f' & c & d & K1 & K2 & K3 & K4 & K5 & K6 & K7). apply (bdr_on_iff pm _ _ (ho_sub _ _ _ _ HO _ _ H2)). exists z, f', c, d.
        assert (QQ : same_edge (u', w') (u, w) = true) by (rewrite same_sym in Q; eapply same_trans; eauto). repeat split; auto; try apply K3; [eapply same_trans; eauto|eapply side_on_same; eauto]. }
      exact (bdr_on_unique pm _ s2 (ho_sub _ _ _ _ HO _ _ H2) _ _ _ _ _ _ _ _ B2 Mv).
  Qed.

  (** Attributes. *)
  Lemma outer_attr i si be e l a b z : nth_error (h_subs h) i = Some si -> bdr_on si be e l a b -> (In (a, b, z) (m_bdr pm) \/ In (b, a, z) (m_bdr pm)) ->
    (forall z', In (a, b, z') (m_bdr pm) \/ In (b, a, z') (m_bdr pm) -> z' = z) -> attr_at (bs_attrs st) i be = z.
  Proof.
    intros Hi B Hz Un. destruct itf_spec as ((Cf & Rec) & Pn & Pp). destruct (build_interface_infos_correct (pface_of (List.length (m_elems pm)) (h_pfs h)) pb (h_bels h) Cf Pn Pp) as (st' & E & _ & _ & _ & _ & _ & _ & _ & At & _).
    assert (st' = st) by (pose proof (ho_st _ _ _ _ HO) as E'; unfold st; congruence). subst st'.
    destruct (bdr_side _ _ _ _ _ _ _ Hi B) as (pk & g & Hg & Sg & O). assert (Rv : same_edge (fi_edge g) (b, a) = true) by (eapply same_trans; [exact Sg|]; apply same_edge_iff; right; reflexivity).
    apply (At i be pk z); [apply on_face_side; eauto| |].
    - apply (ho_pb _ _ _ _ HO). destruct Hz as [Hz|Hz]; [exists a, b, g|exists b, a, g]; auto.
    - intros z' H. apply (ho_pb _ _ _ _ HO) in H as (x & y & g' & H & Hg' & S'). assert (g' = g) by congruence. subst g'. apply Un. rewrite same_sym in Sg. pose proof (same_trans _ _ _ Sg S') as Q.
      apply same_edge_iff in Q as [Q|Q]; unfold rev_edge in Q; cbn in Q; injection Q as -> ->; auto.
  Qed.

  Lemma port_attrs : NoDup (map pi_attr (bs_ports st)) /\ forall p a b z, In p (bs_ports st) -> In (a, b, z) (m_bdr pm) -> (z < pi_attr p)%Z.
  Proof.
    destruct itf_spec as ((Cf & Rec) & Pn & Pp). destruct (build_interface_infos_correct (pface_of (List.length (m_elems pm)) (h_pfs h)) pb (h_bels h) Cf Pn Pp) as (st' & E & _ & _ & _ & _ & Nd & Gt & _).
    assert (st' = st) by (pose proof (ho_st _ _ _ _ HO) as E'; unfold st; congruence). subst st'. split; auto. intros p a b z Hp Hz.
    destruct (mo_bdr pm MO a b z Hz) as (_ & e & l & S). destruct (side_face _ _ _ _ _ _ (ho_pfs _ _ _ _ HO) S) as (k & g & H1 & H2). assert (In (k, z) pb) by (apply (ho_pb _ _ _ _ HO); exists a, b, g; auto). pose proof (Gt p k z Hp H). lia.
  Qed.

  (** ** Transformations *)
  Lemma itf_side_ok i si be e l a b inf o : nth_error (h_subs h) i = Some si -> bdr_on si be e l a b -> inf = inf_encode (Z.of_nat l) o -> (o = 0 \/ o = 1)%Z ->
    exists t, itf_side si be inf = Ok t /\ forall X xi u w, (side (m_elems pm) e l u w) ->
      side_point X si t xi = (let z := if (o =? 0)%Z then xi else (1 - xi)%R in ((1 - z) * fst (X u) + z * fst (X w), (1 - z) * snd (X u) + z * snd (X w)))%R.
  Proof.
    intros Hi B Ei Ho. pose proof (ho_sub _ _ _ _ HO _ _ Hi) as SO. apply (bdr_on_iff pm _ _ SO) in B as (q & f & x & y & Hq & Hf & Eu & Sm & He & I & S).
    destruct (face_up _ _ _ SO _ _ Hf) as (e0 & l0 & x' & y' & He0 & _ & Sp & I0 & Ss). assert (l0 = l) by (rewrite I in I0; unfold inf_encode in I0; lia). subst l0. assert (e0 = e) by congruence. subst e0.
    pose proof Ss as (xe & Ex & _). destruct (so_el _ _ _ SO _ _ Ex) as (e1 & px & He1 & Ep & _ & M). assert (e1 = e) by congruence. subst e1. destruct (map_nth_vs _ _ _ M) as (Lx & F1 & _). destruct (side_local _ _ _ _ _ _ Ex Ss) as (Ll & _).
    pose proof (mo_shape pm MO px (nth_error_In _ _ Ep)) as Sh.
    assert (Co : forall X : nat -> R * R, map (fun v => X (nth v (sm_vert si) 0)) (el_vert xe) = map X (el_vert px)).
    { intros X. clear - M. revert M. generalize (el_vert xe) (el_vert px). induction l as [|v l IH]; intros [|p t] M; try discriminate; auto. cbn in M. injection M as M1 M2. cbn. rewrite (IH _ M2). rewrite (nth_error_nth _ _ _ M1). auto. }
    assert (Loc : forall o', (o' = 0 \/ o' = 1)%Z -> exists loc, local_face (List.length (el_vert xe)) (inf_encode (Z.of_nat l) o') = Ok loc /\
      forall X xi u w, side (m_elems pm) e l u w -> elem_map (map X (el_vert px)) ((1 - xi) * fst (fst loc) + xi * fst (snd loc), (1 - xi) * snd (fst loc) + xi * snd (snd loc))%R =
        (let z := if (o' =? 0)%Z then xi else (1 - xi)%R in ((1 - z) * fst (X u) + z * fst (X w), (1 - z) * snd (X u) + z * snd (X w)))%R).
    { intros o' Ho'. assert (Dec : inf_face (inf_encode (Z.of_nat l) o') = Z.of_nat l /\ inf_ori (inf_encode (Z.of_nat l) o') = o') by (apply inf_roundtrip; lia). destruct Dec as (D1 & D2).
      unfold local_face. rewrite D1, D2, Nat2Z.id. unfold oguard. rewrite (proj2 (Z.leb_le _ _)) by (unfold inf_encode; lia). rewrite (proj2 (Nat.ltb_lt _ _) Ll). rewrite Lx in *.
      assert (Sd : forall u w, side (m_elems pm) e l u w -> local_edge (el_vert px) l = (u, w)) by (intros u w K; eapply side_local; eauto).
      destruct (el_vert px) as [|v0 [|v1 [|v2 [|v3 [|? ?]]]]]; cbn [List.length] in *; try lia.
      - destruct l as [|[|[|l]]]; try lia; destruct Ho' as [-> | ->]; cbn [ref_vertex obind Nat.eqb Nat.add Z.eqb]; eexists; (split; [reflexivity|]); intros X xi u w K; apply Sd in K; cbn in K; injection K as <- <-; cbn [map elem_map fst snd]; f_equal; ring.
      - destruct l as [|[|[|[|l]]]]; try lia; destruct Ho' as [-> | ->]; cbn [ref_vertex obind Nat.eqb Nat.add Z.eqb]; eexists; (split; [reflexivity|]); intros X xi u w K; apply Sd in K; cbn in K; injection K as <- <-; cbn [map elem_map fst snd]; f_equal; ring. }
    unfold itf_side. rewrite (proj2 (oread_ok _ _ _) Hq). cbn [obind]. rewrite (proj2 (oread_ok _ _ _) Hf). cbn [obind]. rewrite (proj2 (oread_ok _ _ _) Ex). cbn [obind]. cbv zeta.
    destruct (Loc 0%Z (or_introl eq_refl)) as (loc0 & E0 & P0). destruct (Loc o Ho) as (loc & E1 & P1). rewrite I, E0. cbn [obind]. destruct (Z.eqb_spec (inf_encode (Z.of_nat l) 0) inf) as [Q|Q].
    - assert (o = 0%Z) by (subst inf; unfold inf_encode in Q; lia). subst o. eexists. split; [reflexivity|]. intros X xi u w K. unfold side_point. cbn [is_el is_loc]. rewrite (nth_error_nth _ _ _ Ex), Co.
      pose proof (P0 X xi u w K) as R. destruct loc0 as (c, d). exact R.
    - rewrite Ei, E1. cbn [obind]. eexists. split; [reflexivity|]. intros X xi u w K. unfold side_point. cbn [is_el is_loc]. rewrite (nth_error_nth _ _ _ Ex), Co. pose proof (P1 X xi u w K) as R. destruct loc as (c, d). exact R.
  Qed.

  Lemma points_ok k p l x : nth_error (bs_ports st) k = Some p -> nth_error (bs_infos st) k = Some l -> In x l ->
    exists si sj t1 t2 e1 l1 e2 l2 a b, nth_error (h_subs h) (pi_mesh1 p) = Some si /\ nth_error (h_subs h) (pi_mesh2 p) = Some sj /\
      interface_transformations (h_subs h) (pi_mesh1 p) (pi_mesh2 p) x = Ok (t1, t2) /\
      bdr_on si (ii_be1 x) e1 l1 a b /\ bdr_on sj (ii_be2 x) e2 l2 a b /\
      forall X xi, side_point X si t1 xi = ((1 - xi) * fst (X a) + xi * fst (X b), (1 - xi) * snd (X a) + xi * snd (X b))%R /\ side_point X sj t2 xi = side_point X si t1 xi.
  Proof.
    intros Hp Hl Hx. destruct (entry_ok k p l x Hp Hl Hx) as (Lt & si & sj & e1 & l1 & e2 & l2 & a & b & Hi & Hj & B1 & B2 & N & _ & o1 & o2 & u & w & C1 & C2 & Q & O1 & O2).
    assert (Mv : forall i s be e m, nth_error (h_subs h) i = Some s -> bdr_on s be e m a b -> bdr_on s be e m u w).
    { intros i s be e m H K. apply (bdr_on_iff pm _ _ (ho_sub _ _ _ _ HO _ _ H)) in K as (z & f' & c & d & K1 & K2 & K3 & K4 & K5 & K6 & K7). apply (bdr_on_iff pm _ _ (ho_sub _ _ _ _ HO _ _ H)). exists z, f', c, d.
      rewrite same_sym in Q. repeat split; auto; try apply K3; [eapply same_trans; eauto|eapply side_on_same; eauto]. }
    destruct (itf_side_ok _ _ _ _ _ _ _ (ii_inf1 x) o1 Hi B1 C1) as (t1 & E1 & P1); [tauto|]. destruct (itf_side_ok _ _ _ _ _ _ _ (ii_inf2 x) o2 Hj B2 C2) as (t2 & E2 & P2); [tauto|].
    exists si, sj, t1, t2, e1, l1, e2, l2, u, w. split; auto. split; auto. split.
    { unfold interface_transformations. rewrite (proj2 (Nat.eqb_neq _ _)) by lia. rewrite (proj2 (oread_ok _ _ _) Hi). cbn [obind]. rewrite (proj2 (oread_ok _ _ _) Hj). cbn [obind]. rewrite E1. cbn [obind]. rewrite E2. reflexivity. }
    split; [eapply Mv; eauto|]. split; [eapply Mv; eauto|]. intros X xi.
    assert (Q1 : side_point X si t1 xi = ((1 - xi) * fst (X u) + xi * fst (X w), (1 - xi) * snd (X u) + xi * snd (X w))%R).
    { destruct O1 as [(-> & O1)|(-> & O1)]; rewrite (P1 X xi _ _ O1); cbn; auto. f_equal; ring. }
    split; auto. rewrite Q1. destruct O2 as [(-> & O2)|(-> & O2)]; rewrite (P2 X xi _ _ O2); cbn; auto. f_equal; ring.
  Qed.
End Interfaces.
