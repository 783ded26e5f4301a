(** Proofs about subdomains assembled from components. *)
From Coq Require Import ZArith QArith Qreals Qabs List Bool Lia Lra Reals String Permutation.
From Verif Require Import Outcome TopoModel TopoProofs CompModel CompSpec CompProofs CompBuildProofs CompPortProofs LaBase SplitModel SplitSpec SplitProofs SplitMapProofs SplitTopProofs AsmModel AsmSpec.
Import ListNotations.
Local Open Scope nat_scope.

Lemma zread_zth {A} (l : list A) z a : zread l z = Ok a <-> zth l z a.
Proof. exact (zread_ok l z a). Qed.

(** ** The topology of a component *)
Record topo_ok (c : cmesh) (s : smesh) : Prop := {
  to_vert : sm_vert s = seq 0 (cm_nv c);
  to_elems : sm_elems s = m_elems (cm_mesh c);
  to_fi : FI (side_uses (m_elems (cm_mesh c))) (sm_faces s);
  to_len : List.length (sm_bdr s) = List.length (m_bdr (cm_mesh c));
  to_bdr : forall i a b z, nth_error (m_bdr (cm_mesh c)) i = Some (a, b, z) -> exists k f, nth_error (sm_bdr s) i = Some k /\
    nth_error (sm_faces s) k = Some f /\ same_edge (fi_edge f) (a, b) = true }.

Lemma topology_ok c : comp_ok c -> exists s, comp_topology c = Ok s /\ topo_ok c s.
Proof.
  intros (MO & V). destruct (mesh_faces_ok (m_elems (cm_mesh c)) (mo_two _ MO)) as (fs & E & F). unfold comp_topology. rewrite E. cbn [obind].
  set (g := fun b : nat * nat * Z => match find_face fs (fst b) with Some k => Ok k | None => UB end).
  destruct (omap_nth g (m_bdr (cm_mesh c))) as (bs & Eb & Lb & H).
  { intros ((a, b), z) Hb. destruct (mo_bdr _ MO a b z Hb) as (_ & e & l & S). destruct (side_face _ _ _ _ _ _ F S) as (k & f & H1 & H2). exists k. unfold g. cbn [fst].
    rewrite (proj2 (find_face_iff _ _ _ _ F) (ex_intro _ f (conj H1 H2))). reflexivity. }
  rewrite Eb. cbn [obind]. eexists. split; [reflexivity|]. constructor; cbn; auto.
  intros i a b z Hi. destruct (proj1 H _ _ Hi) as (k & Hk & Hg). exists k. unfold g in Hg. cbn [fst] in Hg. destruct (find_face fs (a, b)) as [k'|] eqn:Hf; [|discriminate]. injection Hg as ->.
  apply find_face_some in Hf as (f & F1 & F2). exists f. auto.
Qed.

(** ** The transformation of one side *)
Lemma itf_side_comp c s be k f inf o : comp_ok c -> topo_ok c s -> nth_error (sm_bdr s) be = Some k -> nth_error (sm_faces s) k = Some f ->
  inf = inf_encode (inf_face (fi_inf1 f)) o -> (o = 0 \/ o = 1)%Z ->
  exists t, itf_side s be inf = Ok t /\ forall X xi, side_point X s t xi = along (X (fst (fi_edge f))) (X (snd (fi_edge f))) (if (o =? 0)%Z then xi else (1 - xi)%R).
Proof.
  intros (MO & V) TO Hq Hf Ei Ho. destruct (face_side1 _ _ _ _ (to_fi _ _ TO) Hf) as (l & I & Ss). pose proof Ss as (x & Ex & _).
  destruct (side_local _ _ _ _ _ _ Ex Ss) as (Ll & Le). pose proof (mo_shape _ MO x (nth_error_In _ _ Ex)) as Sh.
  assert (Dec : forall o', (o' = 0 \/ o' = 1)%Z -> inf_face (inf_encode (Z.of_nat l) o') = Z.of_nat l /\ inf_ori (inf_encode (Z.of_nat l) o') = o') by (intros o' Ho'; apply inf_roundtrip; lia).
  rewrite I, (proj1 (Dec 0%Z (or_introl eq_refl))) in Ei.
  assert (Co : forall X : nat -> R * R, map (fun v => X (nth v (sm_vert s) 0)) (el_vert x) = map X (el_vert x)).
  { intros X. apply map_ext_in. intros v Hv. rewrite (to_vert _ _ TO), seq_nth; [auto|]. apply (V x v (nth_error_In _ _ Ex) Hv). }
  assert (Loc : forall o', (o' = 0 \/ o' = 1)%Z -> exists loc, local_face (List.length (el_vert x)) (inf_encode (Z.of_nat l) o') = Ok loc /\
    forall X xi, elem_map (map X (el_vert x)) ((1 - xi) * fst (fst loc) + xi * fst (snd loc), (1 - xi) * snd (fst loc) + xi * snd (snd loc))%R =
      along (X (fst (fi_edge f))) (X (snd (fi_edge f))) (if (o' =? 0)%Z then xi else (1 - xi)%R)).
  { intros o' Ho'. destruct (Dec o' Ho') as (D1 & D2). unfold local_face. rewrite D1, D2, Nat2Z.id. unfold oguard. rewrite (proj2 (Z.leb_le _ _)) by (unfold inf_encode; lia). rewrite (proj2 (Nat.ltb_lt _ _) Ll).
    clear V Ss Ex Co Dec. destruct (fi_edge f) as (u, w). cbn [fst snd] in *. unfold along.
    destruct (el_vert x) as [|v0 [|v1 [|v2 [|v3 [|? ?]]]]]; cbn [List.length] in *; try lia.
    - destruct l as [|[|[|l]]]; try lia; cbn in Le; injection Le as <- <-; destruct Ho' as [-> | ->]; cbn [ref_vertex obind Nat.eqb Nat.add Z.eqb]; eexists; (split; [reflexivity|]); intros X xi; cbn [map elem_map fst snd]; f_equal; ring.
    - destruct l as [|[|[|[|l]]]]; try lia; cbn in Le; injection Le as <- <-; destruct Ho' as [-> | ->]; cbn [ref_vertex obind Nat.eqb Nat.add Z.eqb]; eexists; (split; [reflexivity|]); intros X xi; cbn [map elem_map fst snd]; f_equal; ring. }
  unfold itf_side. rewrite (proj2 (oread_ok _ _ _) Hq). cbn [obind]. rewrite (proj2 (oread_ok _ _ _) Hf). cbn [obind]. rewrite <- (to_elems _ _ TO) in Ex. rewrite (proj2 (oread_ok _ _ _) Ex). cbn [obind]. cbv zeta.
  destruct (Loc 0%Z (or_introl eq_refl)) as (loc0 & E0 & P0). destruct (Loc o Ho) as (loc & E1 & P1). rewrite I, E0. cbn [obind]. destruct (Z.eqb_spec (inf_encode (Z.of_nat l) 0) inf) as [Q|Q].
  - assert (o = 0%Z) by (subst inf; unfold inf_encode in Q; lia). subst o. eexists. split; [reflexivity|]. intros X xi. unfold side_point. cbn [is_el is_loc]. rewrite (nth_error_nth _ _ _ Ex), Co.
    pose proof (P0 X xi) as R. destruct loc0 as (c0, d0). exact R.
  - rewrite Ei, E1. cbn [obind]. eexists. split; [reflexivity|]. intros X xi. unfold side_point. cbn [is_el is_loc]. rewrite (nth_error_nth _ _ _ Ex), Co. pose proof (P1 X xi) as R. destruct loc as (c0, d0). exact R.
Qed.

(** ** The interfaces of a reference port *)
Lemma belems_nth c b e : nth_error (bdr_belems c) b = Some e -> exists u w z, nth_error (m_bdr (cm_mesh c)) b = Some (u, w, z) /\ e = BElem z [Z.of_nat u; Z.of_nat w].
Proof.
  unfold bdr_belems. rewrite nth_error_map. destruct (nth_error (m_bdr (cm_mesh c)) b) as [((u, w), z)|]; [|discriminate]. intros H. injection H as <-. eauto.
Qed.

Lemma edge_distinct c s k f : comp_ok c -> topo_ok c s -> nth_error (sm_faces s) k = Some f -> fst (fi_edge f) <> snd (fi_edge f).
Proof.
  intros (MO & _) TO Hf. destruct (face_side1 _ _ _ _ (to_fi _ _ TO) Hf) as (l & I & x & Ex & H1 & H2). pose proof (mo_distinct _ MO x (nth_error_In _ _ Ex)) as Nd. pose proof (mo_shape _ MO x (nth_error_In _ _ Ex)) as Sh.
  intros Q. rewrite <- Q in H2. assert (l < List.length (el_vert x)) by (apply nth_error_Some; congruence). rewrite NoDup_nth_error in Nd. destruct H2 as [H2|(Lq & H2)].
  - assert (l = l + 1) by (apply Nd; [auto|congruence]). lia.
  - assert (l = 0) by (apply Nd; [auto|congruence]). lia.
Qed.

(** The pair of faces on which two matched boundary elements lie, with the orientation. *)
Record info_ok (s1 s2 : smesh) (pd : port_data) (x : itf_info) (f1 f2 : finfo) (o : Z) : Prop := {
  io_1 : exists k, nth_error (sm_bdr s1) (ii_be1 x) = Some k /\ nth_error (sm_faces s1) k = Some f1;
  io_2 : exists k, nth_error (sm_bdr s2) (ii_be2 x) = Some k /\ nth_error (sm_faces s2) k = Some f2;
  io_inf1 : ii_inf1 x = fi_inf1 f1;
  io_inf2 : ii_inf2 x = inf_encode (inf_face (fi_inf1 f2)) o;
  io_o : (o = 0 \/ o = 1)%Z;
  io_ends : forall w v, In (w, v) (if (o =? 0)%Z then [(fst (fi_edge f1), fst (fi_edge f2)); (snd (fi_edge f1), snd (fi_edge f2))]
                                   else [(fst (fi_edge f1), snd (fi_edge f2)); (snd (fi_edge f1), fst (fi_edge f2))]) ->
             zlookup (pd_vtx pd) (Z.of_nat v) = Some (Z.of_nat w) }.

Lemma info_built c1 c2 s1 s2 thr pd x1 x2 pair : comp_ok c1 -> comp_ok c2 -> topo_ok c1 s1 -> topo_ok c2 s2 ->
  build_port 2 thr (pd_comp1 pd) (pd_comp2 pd) (pd_attr1 pd) (pd_attr2 pd) (bdr_belems c1) (bdr_belems c2) x1 x2 = Ok pd -> In pair (pd_be pd) ->
  exists x f1 f2 o a b, ref_itf_info s1 s2 (pd_vtx pd) pair = Ok x /\ pair = (Z.of_nat (ii_be1 x), Z.of_nat (ii_be2 x)) /\ info_ok s1 s2 pd x f1 f2 o /\
    nth_error (m_bdr (cm_mesh c1)) (ii_be1 x) = Some (a, b, pd_attr1 pd) /\ same_edge (fi_edge f1) (a, b) = true.
Proof.
  intros C1 C2 T1 T2 B Hp. destruct (build_port_sound _ _ _ _ _ _ _ _ _ _ _ B) as (_ & _ & _ & _ & _ & _ & _ & Inj & _ & _ & Pairs & _).
  destruct (Pairs _ Hp) as (b1 & b2 & e1 & e2 & ws & -> & H1 & A1 & H2 & A2 & F & Pm). destruct (belems_nth _ _ _ H1) as (u1 & w1 & z1 & N1 & ->). destruct (belems_nth _ _ _ H2) as (u2 & w2 & z2 & N2 & ->). cbn [e_attr e_vtx] in *.
  destruct (to_bdr _ _ T1 _ _ _ _ N1) as (k1 & f1 & K1 & F1 & S1). destruct (to_bdr _ _ T2 _ _ _ _ N2) as (k2 & f2 & K2 & F2 & S2).
  inversion F as [|? y1 ? ? L1 F']; subst. inversion F' as [|? y2 ? ? L2 F'']; subst. inversion F''; subst. clear F F' F''.
  pose proof (edge_distinct _ _ _ _ C1 T1 F1) as D1. pose proof (edge_distinct _ _ _ _ C2 T2 F2) as D2.
  assert (W : (y1 = Z.of_nat u1 /\ y2 = Z.of_nat w1) \/ (y1 = Z.of_nat w1 /\ y2 = Z.of_nat u1)).
  { apply Permutation_length_2_inv in Pm as [Q|Q]; injection Q as -> ->; auto. }
  unfold ref_itf_info. cbn [fst snd]. 
  assert (Z1 : zread (sm_bdr s1) (Z.of_nat b1) = Ok k1) by (apply zread_ok; rewrite Nat2Z.id; split; [lia|auto]).
  assert (Z2 : zread (sm_bdr s2) (Z.of_nat b2) = Ok k2) by (apply zread_ok; rewrite Nat2Z.id; split; [lia|auto]). rewrite Z1, Z2, !Nat2Z.id. cbn [obind]. rewrite (proj2 (oread_ok _ _ _) F1), (proj2 (oread_ok _ _ _) F2). cbn [obind omap].
  assert (Fin : forall o p q, zlookup (pd_vtx pd) (Z.of_nat (fst (fi_edge f2))) = Some p -> zlookup (pd_vtx pd) (Z.of_nat (snd (fi_edge f2))) = Some q -> (o = 0 \/ o = 1)%Z ->
     p = Z.of_nat (if (o =? 0)%Z then fst (fi_edge f1) else snd (fi_edge f1)) -> q = Z.of_nat (if (o =? 0)%Z then snd (fi_edge f1) else fst (fi_edge f1)) ->
     exists x f1' f2' o' a b, (let* v2 := let* a0 := match zlookup (pd_vtx pd) (Z.of_nat (fst (fi_edge f2))) with Some w => Ok w | None => Abort end in
           let* l := let* a1 := match zlookup (pd_vtx pd) (Z.of_nat (snd (fi_edge f2))) with Some w => Ok w | None => Abort end in Ok [a1] in Ok (a0 :: l) in
         let* ori := segment_orientation [Z.of_nat (fst (fi_edge f1)); Z.of_nat (snd (fi_edge f1))] v2 in
         Ok (ItfInfo b1 b2 (fi_inf1 f1) (inf_set_orientation (fi_inf1 f2) ori))) = Ok x /\ (Z.of_nat b1, Z.of_nat b2) = (Z.of_nat (ii_be1 x), Z.of_nat (ii_be2 x)) /\ info_ok s1 s2 pd x f1' f2' o' /\
         nth_error (m_bdr (cm_mesh c1)) (ii_be1 x) = Some (a, b, pd_attr1 pd) /\ same_edge (fi_edge f1') (a, b) = true).
  { intros o p q Lp Lq Ho Ep Eq. exists (ItfInfo b1 b2 (fi_inf1 f1) (inf_set_orientation (fi_inf1 f2) o)), f1, f2, o, u1, w1. rewrite Lp, Lq. cbn [obind]. split.
    - unfold segment_orientation. cbn [List.length Nat.eqb oassert oread nth_error obind]. subst p q. destruct Ho as [-> | ->]; cbn [Z.eqb].
      + rewrite (proj2 (Z.eqb_neq (Z.of_nat (snd (fi_edge f1))) (Z.of_nat (fst (fi_edge f1))))) by lia. cbn [andb]. rewrite !Z.eqb_refl. reflexivity.
      + rewrite !Z.eqb_refl. reflexivity.
    - cbn [ii_be1 ii_be2]. split; [auto|]. split; [|rewrite N1; split; auto; congruence]. constructor; cbn; eauto.
      intros w v Hi. destruct Ho as [-> | ->]; cbn [Z.eqb] in *; cbn in Hi; destruct Hi as [Q|[Q|[]]]; injection Q as <- <-; congruence. }
  apply same_edge_iff in S1. apply same_edge_iff in S2. unfold rev_edge in *. cbn [fst snd] in *.
  destruct S1 as [Q1|Q1], S2 as [Q2|Q2], W as [(-> & ->)|(-> & ->)]; rewrite Q1, Q2 in *; cbn [fst snd] in *;
    first [apply (Fin 0%Z _ _ L1 L2); cbn; auto; fail | apply (Fin 1%Z _ _ L1 L2); cbn; auto; fail | apply (Fin 0%Z _ _ L2 L1); cbn; auto; fail | apply (Fin 1%Z _ _ L2 L1); cbn; auto; fail].
Qed.

(** ** Points *)
Lemma transform_along cf p q xi : transform2d cf (along p q xi) = along (transform2d cf p) (transform2d cf q) xi.
Proof. destruct p as (a, b), q as (c, d). unfold transform2d, along. cbn [fst snd]. f_equal; ring. Qed.

Lemma dist2_transform cf p q : dist2 (transform2d cf p) (transform2d cf q) = dist2 p q.
Proof. exact (transform2d_isometry cf p q). Qed.

Lemma lerp_bound D d e xi : (Rabs d <= D -> Rabs e <= D -> 0 <= xi <= 1 -> Rabs ((1 - xi) * d + xi * e) <= D)%R.
Proof.
  intros Hd He Hx. apply Rabs_le. assert (- D <= d <= D)%R by (split; [pose proof (Rle_abs (- d)); rewrite Rabs_Ropp in *; lra|pose proof (Rle_abs d); lra]).
  assert (- D <= e <= D)%R by (split; [pose proof (Rle_abs (- e)); rewrite Rabs_Ropp in *; lra|pose proof (Rle_abs e); lra]). split; nra.
Qed.

Definition near (D : R) (p q : R * R) : Prop := (Rabs (fst p - fst q) <= D /\ Rabs (snd p - snd q) <= D)%R.

Lemma along_near D p q p' q' xi : near D p p' -> near D q q' -> (0 <= xi <= 1)%R -> (dist2 (along p q xi) (along p' q' xi) <= 2 * (D * D))%R.
Proof.
  intros (A1 & A2) (B1 & B2) Hx. unfold dist2, along. cbn [fst snd].
  pose proof (lerp_bound D _ _ xi A1 B1 Hx) as K1. pose proof (lerp_bound D _ _ xi A2 B2 Hx) as K2.
  replace ((1 - xi) * fst p + xi * fst q - ((1 - xi) * fst p' + xi * fst q'))%R with ((1 - xi) * (fst p - fst p') + xi * (fst q - fst q'))%R by ring.
  replace ((1 - xi) * snd p + xi * snd q - ((1 - xi) * snd p' + xi * snd q'))%R with ((1 - xi) * (snd p - snd p') + xi * (snd q - snd q'))%R by ring.
  set (u := ((1 - xi) * (fst p - fst p') + xi * (fst q - fst q'))%R) in *. set (w := ((1 - xi) * (snd p - snd p') + xi * (snd q - snd q'))%R) in *.
  assert (Sq : forall y, (Rabs y <= D -> y * y <= D * D)%R). { intros y Hy. pose proof (Rabs_pos y). rewrite <- (Rabs_pos_eq (y * y)) by nra. rewrite Rabs_mult. apply Rmult_le_compat; auto. }
  pose proof (Sq _ K1). pose proof (Sq _ K2). lra.
Qed.

Lemma Q2R_abs q : Q2R (Qabs q) = Rabs (Q2R q).
Proof.
  destruct q as (n, d). unfold Qabs, Q2R. cbn [Qnum Qden]. rewrite abs_IZR, Rabs_mult. f_equal. symmetry. apply Rabs_pos_eq. apply Rlt_le, Rinv_0_lt_compat. apply (IZR_lt 0). lia.
Qed.

Lemma near_match thr eps x1 x2 X1 X2 v w : stored eps x1 X1 -> stored eps x2 X2 -> within 2 thr (x1 (Z.of_nat w)) (x2 (Z.of_nat v)) -> near (Q2R thr + 2 * eps) (X1 w) (X2 v).
Proof.
  intros S1 S2 W. assert (G : forall d (y1 y2 : R), d < 2 -> (Rabs (Q2R (x1 (Z.of_nat w) d) - y1) <= eps -> Rabs (Q2R (x2 (Z.of_nat v) d) - y2) <= eps -> Rabs (y1 - y2) <= Q2R thr + 2 * eps)%R).
  { intros d y1 y2 Ld H1 H2. pose proof (Qlt_Rlt _ _ (W d Ld)) as H. rewrite Q2R_abs, Q2R_minus in H. set (a := Q2R (x1 (Z.of_nat w) d)) in *. set (b := Q2R (x2 (Z.of_nat v) d)) in *.
    replace (y1 - y2)%R with (- (a - y1) + (a - b) + (b - y2))%R by ring. pose proof (Rabs_triang (- (a - y1) + (a - b)) (b - y2)). pose proof (Rabs_triang (- (a - y1)) (a - b)). rewrite Rabs_Ropp in *. lra. }
  destruct (S1 w) as (A0 & A1), (S2 v) as (B0 & B1). split; [apply (G 0)|apply (G 1)]; auto.
Qed.

(** ** Everything *)
Section Assembly.
  Variables (thr : Q) (eps : R) (comps : list cmesh) (X : Z -> nat -> R * R) (P : Z -> mesh_config) (refs : list port_data) (types : list Z).
  Hypothesis CO : forall c, In c comps -> comp_ok c.
  Hypothesis BU : forall r pd, zth refs r pd -> built thr eps comps X (P r) pd.
  Hypothesis TY : forall t, In t types -> exists c, zth comps t c.

  Lemma zth_in {A} (l : list A) z a : zth l z a -> In a l.
  Proof. intros (_ & H). eapply nth_error_In; eauto. Qed.

  Lemma zth_fun {A} (l : list A) z a b : zth l z a -> zth l z b -> a = b.
  Proof. intros (_ & H) (_ & K). congruence. Qed.

  Lemma sub_meshes_ok : exists subs, sub_meshes comps types = Ok subs /\ List.length subs = List.length types /\
    forall m t, nth_error types m = Some t -> exists c s, nth_error subs m = Some s /\ zth comps t c /\ comp_topology c = Ok s /\ topo_ok c s.
  Proof.
    unfold sub_meshes. destruct (omap_nth (fun t => let* c := zread comps t in comp_topology c) types) as (subs & E & L & F & _).
    { intros t Ht. destruct (TY t Ht) as (c & Hc). rewrite (proj2 (zread_zth _ _ _) Hc). cbn [obind]. destruct (topology_ok c (CO c (zth_in _ _ _ Hc))) as (s & Es & _). eauto. }
    exists subs. split; auto. split; auto. intros m t Hm. destruct (F _ _ Hm) as (s & Hs & Es). destruct (TY t (nth_error_In _ _ Hm)) as (c & Hc). rewrite (proj2 (zread_zth _ _ _) Hc) in Es. cbn [obind] in Es.
    destruct (topology_ok c (CO c (zth_in _ _ _ Hc))) as (s' & Es' & T). assert (s' = s) by congruence. subst s'. exists c, s. auto.
  Qed.

  (** The interface entries of reference port [r]. *)
  Definition port_infos (r : Z) (pd : port_data) (l : list itf_info) : Prop :=
    exists c1 c2 s1 s2 x1 x2, zth comps (pd_comp1 pd) c1 /\ zth comps (pd_comp2 pd) c2 /\ comp_topology c1 = Ok s1 /\ comp_topology c2 = Ok s2 /\ topo_ok c1 s1 /\ topo_ok c2 s2 /\
    stored eps x1 (X (pd_comp1 pd)) /\ stored eps x2 (fun v => transform2d (P r) (X (pd_comp2 pd) v)) /\
    (forall v w, zlookup (pd_vtx pd) v = Some w -> within 2 thr (x1 w) (x2 v)) /\
    map (fun x => (Z.of_nat (ii_be1 x), Z.of_nat (ii_be2 x))) l = pd_be pd /\
    forall x, In x l -> exists f1 f2 o a b, info_ok s1 s2 pd x f1 f2 o /\ nth_error (m_bdr (cm_mesh c1)) (ii_be1 x) = Some (a, b, pd_attr1 pd) /\ same_edge (fi_edge f1) (a, b) = true.

  Lemma nth_error_eq {A} (l m : list A) : (forall i, nth_error l i = nth_error m i) -> l = m.
  Proof. revert m. induction l as [|a l IH]; intros [|b m] H; auto; [discriminate (H 0)|discriminate (H 0)|]. pose proof (H 0) as H0. cbn in H0. injection H0 as ->. f_equal. apply IH. intros i. exact (H (S i)). Qed.

  Lemma omap_map {A B} (f : A -> outcome B) (g : B -> A) l : (forall a, In a l -> exists b, f a = Ok b /\ a = g b) -> exists bs, omap f l = Ok bs /\ map g bs = l /\ forall b, In b bs -> exists a, In a l /\ f a = Ok b.
  Proof.
    intros H. destruct (omap_nth f l) as (bs & E & L & F & G). { intros a Ha. destruct (H a Ha) as (b & Eb & _). eauto. }
    exists bs. split; auto. split.
    - apply nth_error_eq. intros i. rewrite nth_error_map. destruct (nth_error bs i) as [b|] eqn:Hb; cbn.
      + destruct (G _ _ Hb) as (a & Ha & Eb). destruct (H a (nth_error_In _ _ Ha)) as (b' & Eb' & Q). rewrite Ha. congruence.
      + symmetry. apply nth_error_None. apply nth_error_None in Hb. lia.
    - intros b Hb. apply In_nth_error in Hb as (i & Hi). destruct (G _ _ Hi) as (a & Ha & Eb). exists a. split; [eapply nth_error_In; eauto|auto].
  Qed.

  Lemma refs_ok : exists infos, ref_interfaces comps refs = Ok infos /\ List.length infos = List.length refs /\ forall r pd, zth refs r pd -> exists l, zth infos r l /\ port_infos r pd l.
  Proof.
    unfold ref_interfaces. set (g := fun pd : port_data => obind _ _).
    assert (One : forall r pd, zth refs r pd -> exists l, g pd = Ok l /\ port_infos r pd l).
    { intros r pd Hr. destruct (BU r pd Hr) as (c1 & c2 & x1 & x2 & H1 & H2 & S1 & S2 & B). destruct (topology_ok c1 (CO c1 (zth_in _ _ _ H1))) as (s1 & E1 & T1). destruct (topology_ok c2 (CO c2 (zth_in _ _ _ H2))) as (s2 & E2 & T2).
      unfold g. rewrite (proj2 (zread_zth _ _ _) H1), (proj2 (zread_zth _ _ _) H2). cbn [obind]. rewrite E1, E2. cbn [obind].
      destruct (omap_map (ref_itf_info s1 s2 (pd_vtx pd)) (fun x => (Z.of_nat (ii_be1 x), Z.of_nat (ii_be2 x))) (pd_be pd)) as (l & El & Ml & Fl).
      { intros pair Hp. destruct (info_built c1 c2 s1 s2 thr pd x1 x2 pair (CO c1 (zth_in _ _ _ H1)) (CO c2 (zth_in _ _ _ H2)) T1 T2 B Hp) as (x & f1 & f2 & o & a & b & Ex & Q & _). eauto. }
      exists l. split; auto. exists c1, c2, s1, s2, x1, x2. do 8 (split; [assumption|]). split; [|split; [assumption|]].
      - destruct (build_port_sound _ _ _ _ _ _ _ _ _ _ _ B) as (_ & _ & _ & _ & _ & _ & W & _). exact W.
      - intros x Hx. destruct (Fl x Hx) as (pair & Hp & Ex). destruct (info_built c1 c2 s1 s2 thr pd x1 x2 pair (CO c1 (zth_in _ _ _ H1)) (CO c2 (zth_in _ _ _ H2)) T1 T2 B Hp) as (x' & f1 & f2 & o & a & b & Ex' & Q & K).
        assert (x' = x) by congruence. subst x'. exists f1, f2, o, a, b. exact K. }
    destruct (omap_nth g refs) as (infos & E & L & F & _).
    { intros pd Hp. apply In_nth_error in Hp as (i & Hi). destruct (One (Z.of_nat i) pd) as (l & El & _); [split; [lia|rewrite Nat2Z.id; auto]|]. eauto. }
    exists infos. split; auto. split; auto. intros r pd Hr. destruct (One r pd Hr) as (l & El & K). exists l. split; auto. destruct Hr as (Pr & Hr). split; auto. destruct (F _ _ Hr) as (l' & Hl & El'). congruence.
  Qed.

  Lemma setup_port_ok p t r : setup_port types refs (p, t) = Ok r -> r = t /\ exists pd, zth refs r pd /\ zth types (gp_mesh1 p) (pd_comp1 pd) /\ zth types (gp_mesh2 p) (pd_comp2 pd) /\
    gp_attr1 p = pd_attr1 pd /\ gp_attr2 p = pd_attr2 pd /\ gp_mesh1 p <> gp_mesh2 p.
  Proof.
    unfold setup_port. intros H. apply obind_ok in H as (pd & H0 & H). apply obind_ok in H as (t1 & H1 & H). apply obind_ok in H as (t2 & H2 & H). apply zread_zth in H0, H1, H2.
    apply oassert_ok in H as (A1 & H). apply oassert_ok in H as (A2 & H). apply oassert_ok in H as (A3 & H). apply oassert_ok in H as (A4 & H). apply oassert_ok in H as (A5 & H). injection H as <-.
    apply Z.eqb_eq in A1, A2, A3, A4. subst t1 t2. split; auto. exists pd. do 5 (split; [assumption|]). intros Q. rewrite Q in H1. rewrite (zth_fun _ _ _ _ H1 H2), Q, !Z.eqb_refl in A5. discriminate.
  Qed.

  Lemma points_same : forall ports ptypes idx, setup_ports types refs ports ptypes = Ok idx ->
    exists infos subs, ref_interfaces comps refs = Ok infos /\ sub_meshes comps types = Ok subs /\
    forall k p r, nth_error ports k = Some p -> nth_error idx k = Some r ->
    exists pd l c1 s1 s2, zth refs r pd /\ zth infos r l /\ gp_attr1 p = pd_attr1 pd /\ gp_attr2 p = pd_attr2 pd /\
      map (fun x => (Z.of_nat (ii_be1 x), Z.of_nat (ii_be2 x))) l = pd_be pd /\
      zth types (gp_mesh1 p) (pd_comp1 pd) /\ zth types (gp_mesh2 p) (pd_comp2 pd) /\ zth comps (pd_comp1 pd) c1 /\ zth subs (gp_mesh1 p) s1 /\ zth subs (gp_mesh2 p) s2 /\
      forall x, In x l -> exists t1 t2 a b, interface_transformations subs (Z.to_nat (gp_mesh1 p)) (Z.to_nat (gp_mesh2 p)) x = Ok (t1, t2) /\
        (nth_error (m_bdr (cm_mesh c1)) (ii_be1 x) = Some (a, b, pd_attr1 pd) \/ nth_error (m_bdr (cm_mesh c1)) (ii_be1 x) = Some (b, a, pd_attr1 pd)) /\
        forall cf1 cf2 xi, fits cf1 (P r) cf2 -> (0 <= xi <= 1)%R ->
          side_point (place cf1 (X (pd_comp1 pd))) s1 t1 xi = along (place cf1 (X (pd_comp1 pd)) a) (place cf1 (X (pd_comp1 pd)) b) xi /\
          (dist2 (side_point (place cf1 (X (pd_comp1 pd))) s1 t1 xi) (side_point (place cf2 (X (pd_comp2 pd))) s2 t2 xi) <= 2 * ((Q2R thr + 2 * eps) * (Q2R thr + 2 * eps)))%R.
  Proof.
    intros ports ptypes idx E. destruct refs_ok as (infos & Ei & Li & Ri). destruct sub_meshes_ok as (subs & Es & Ls & Ss). exists infos, subs. split; auto. split; auto. intros k p r Hp Hr.
    unfold setup_ports in E. apply oassert_ok in E as (Lt & E). apply Nat.eqb_eq in Lt.
    assert (K : exists t, setup_port types refs (p, t) = Ok r).
    { revert E Hp Hr. clear - Lt. intros E. assert (Len : forall (l : list (gport * Z)) ys, omap (setup_port types refs) l = Ok ys -> forall i x y, nth_error l i = Some x -> nth_error ys i = Some y -> setup_port types refs x = Ok y).
      { induction l as [|q l IH]; intros ys H; cbn in H. { injection H as <-. intros [|i]; discriminate. } apply obind_ok in H as (y & H1 & H). apply obind_ok in H as (t & H2 & H). injection H as <-. intros [|i] x y' Hx Hy; cbn in Hx, Hy; [congruence|eapply IH; eauto]. }
      intros Hp Hr. assert (Hc : exists t, nth_error (combine ports ptypes) k = Some (p, t)).
      { destruct (nth_error ptypes k) as [t|] eqn:Ht. 2:{ apply nth_error_None in Ht. assert (k < List.length ports) by (apply nth_error_Some; congruence). lia. }
        exists t. clear - Hp Ht. revert ports ptypes Hp Ht. induction k as [|k IH]; intros [|a l] [|b m] H1 H2; try discriminate; cbn in *; [congruence|apply IH; auto]. }
      destruct Hc as (t & Hc). exists t. eapply Len; eauto. }
    destruct K as (t & K). destruct (setup_port_ok _ _ _ K) as (_ & pd & Hpd & T1 & T2 & A1 & A2 & Nm). destruct (Ri r pd Hpd) as (l & Hl & c1 & c2 & s1 & s2 & x1 & x2 & C1 & C2 & E1 & E2 & O1 & O2 & S1 & S2 & W & Ml & Fx).
    destruct (Ss _ _ (proj2 T1)) as (c1' & s1' & G1 & C1' & E1' & _). destruct (Ss _ _ (proj2 T2)) as (c2' & s2' & G2 & C2' & E2' & _). rewrite (zth_fun _ _ _ _ C1' C1) in E1'. rewrite (zth_fun _ _ _ _ C2' C2) in E2'.
    assert (s1' = s1) by congruence. assert (s2' = s2) by congruence. subst s1' s2'. exists pd, l, c1, s1, s2. do 8 (split; [assumption|]). split; [split; [apply T1|auto]|]. split; [split; [apply T2|auto]|].
    intros x Hx. destruct (Fx x Hx) as (f1 & f2 & o & a0 & b0 & IO & Hb & Sm). destruct (io_1 _ _ _ _ _ _ _ IO) as (k1 & K1 & F1). destruct (io_2 _ _ _ _ _ _ _ IO) as (k2 & K2 & F2).
    assert (I1 : ii_inf1 x = inf_encode (inf_face (fi_inf1 f1)) 0). { rewrite (io_inf1 _ _ _ _ _ _ _ IO). destruct (face_side1 _ _ _ _ (to_fi _ _ O1) F1) as (q & Iq & _). rewrite Iq. rewrite (proj1 (inf_roundtrip (Z.of_nat q) 0 ltac:(lia) ltac:(lia))). reflexivity. }
    destruct (itf_side_comp c1 s1 _ _ _ _ 0%Z (CO _ (zth_in _ _ _ C1)) O1 K1 F1 I1 (or_introl eq_refl)) as (t1 & Et1 & P1). destruct (itf_side_comp c2 s2 _ _ _ _ o (CO _ (zth_in _ _ _ C2)) O2 K2 F2 (io_inf2 _ _ _ _ _ _ _ IO) (io_o _ _ _ _ _ _ _ IO)) as (t2 & Et2 & P2).
    exists t1, t2, (fst (fi_edge f1)), (snd (fi_edge f1)). split; [|split].
    - unfold interface_transformations. rewrite (proj2 (Nat.eqb_neq _ _)). 2:{ destruct T1, T2. lia. } rewrite (proj2 (oread_ok _ _ _) G1), (proj2 (oread_ok _ _ _) G2). cbn [obind]. rewrite Et1, Et2. reflexivity.
    - apply same_edge_iff in Sm. unfold rev_edge in Sm. cbn [fst snd] in Sm. destruct Sm as [Q|Q]; rewrite Q; cbn; auto.
    - intros cf1 cf2 xi Fi Hx01. rewrite P1, P2. cbn [Z.eqb]. split; [reflexivity|]. unfold place. rewrite !Fi.
      set (X1 := X (pd_comp1 pd)) in *. set (X2 := X (pd_comp2 pd)) in *. rewrite <- !transform_along, dist2_transform, (transform_along (P r)).
      assert (Nr : forall w v, zlookup (pd_vtx pd) (Z.of_nat v) = Some (Z.of_nat w) -> near (Q2R thr + 2 * eps) (X1 w) (transform2d (P r) (X2 v))) by (intros w v Hz; apply (near_match thr eps x1 x2 X1 _ v w S1 S2), W, Hz).
      destruct (io_o _ _ _ _ _ _ _ IO) as [Eo|Eo]; pose proof (io_ends _ _ _ _ _ _ _ IO) as En; rewrite Eo in *; cbn [Z.eqb] in *.
      + apply along_near; auto; apply Nr, En; cbn; auto.
      + replace (along (transform2d (P r) (X2 (fst (fi_edge f2)))) (transform2d (P r) (X2 (snd (fi_edge f2)))) (1 - xi)) with (along (transform2d (P r) (X2 (snd (fi_edge f2)))) (transform2d (P r) (X2 (fst (fi_edge f2)))) xi) by (unfold along; f_equal; ring).
        apply along_near; auto; apply Nr, En; cbn; auto.
  Qed.
End Assembly.

(** Which placements fit. *)
Lemma fits_iff cf1 P cf2 :
  mc_r0 cf2 = (mc_r0 cf1 + mc_r0 P)%R ->
  (fits cf1 P cf2 <-> (mc_t0 cf2, mc_t1 cf2) = transform2d cf1 (mc_t0 P, mc_t1 P)).
Proof.
  intros Hr. unfold fits, transform2d. rewrite Hr, sin_plus, cos_plus. cbn [fst snd]. split.
  - intros H. specialize (H (0, 0)%R). cbn [fst snd] in H. injection H as H1 H2. f_equal; lra.
  - intros H (a, b). injection H as -> ->. cbn [fst snd]. f_equal; ring.
Qed.

(** ** Component files *)
Lemma read_components_ok cn num l cs : read_components cn num l = Ok cs -> List.length cs = num /\
  forall c, c < num -> match nth_error cs c with
                       | Some (Some m) => last_file cn l c m
                       | Some None => forall s m, In (s, m) l -> slookup cn s <> Some (Z.of_nat c)
                       | None => False end.
Proof.
  revert cs. unfold read_components. induction l as [|(s, m) l IH] using rev_ind; intros cs H.
  - injection H as <-. split; [apply repeat_length|]. intros c Hc. destruct (nth_error (repeat None num) c) as [o|] eqn:E; [|apply nth_error_None in E; rewrite repeat_length in E; lia].
    apply nth_error_In, repeat_spec in E. subst o. intros s m [].
  - rewrite ofold_app in H. apply obind_ok in H as (cs0 & H0 & H). destruct (IH _ H0) as (L & F). cbn [ofold fst snd] in H. destruct (slookup cn s) as [i|] eqn:Ei; cbn [obind] in H.
    + apply obind_ok in H as (cs' & H & Q). injection Q as ->. apply oguard_ok in H as (Pi & H). apply Z.leb_le in Pi. apply owrite_ok in H as (Li & ->). split; [rewrite upd_length; auto|]. intros c Hc. destruct (Nat.eq_dec (Z.to_nat i) c) as [Q|N].
      * rewrite Q, nth_error_upd_eq by lia. exists l, s, []. repeat split; [rewrite Ei; f_equal; lia|intros ? ? []].
      * rewrite nth_error_upd_ne by auto. specialize (F c Hc). destruct (nth_error cs0 c) as [[m'|]|]; auto.
        -- destruct F as (pre & s' & post & -> & E' & N'). exists pre, s', (post ++ [(s, m)]). split; [rewrite <- app_assoc; auto|]. split; auto. intros s2 m2 K. apply in_app_or in K as [K|[K|[]]]; [eapply N'; eauto|]. injection K as <- <-. rewrite Ei. intros Q. injection Q as Q. lia.
        -- intros s2 m2 K. apply in_app_or in K as [K|[K|[]]]; [eapply F; eauto|]. injection K as <- <-. rewrite Ei. intros Q. injection Q as Q. lia.
    + injection H as <-. split; auto. intros c Hc. specialize (F c Hc). destruct (nth_error cs0 c) as [[m'|]|]; auto.
      * destruct F as (pre & s' & post & -> & E' & N'). exists pre, s', (post ++ [(s, m)]). split; [rewrite <- app_assoc; auto|]. split; auto. intros s2 m2 K. apply in_app_or in K as [K|[K|[]]]; [eapply N'; eauto|]. injection K as <- <-. rewrite Ei. discriminate.
      * intros s2 m2 K. apply in_app_or in K as [K|[K|[]]]; [eapply F; eauto|]. injection K as <- <-. rewrite Ei. discriminate.
Qed.

Lemma load_ok cn num nsub l ms : load_components cn num nsub l = Ok ms ->
  exists files, l = Some files /\ List.length ms = num /\ 0 < num /\ 0 < nsub /\
  (forall c m, nth_error ms c = Some m -> last_file cn files c m) /\
  (exists name, forall m, In m ms -> mf_coll m = Some name) /\
  (exists m, nth_error ms 0 = Some m /\ (mf_dim m = 2 \/ mf_dim m = 3)).
Proof.
  unfold load_components, setup_components. intros H. apply obind_ok in H as (ms' & H & K). apply oassert_ok in H as (Pn & H). apply Nat.ltb_lt in Pn. destruct l as [files|]; [|discriminate].
  apply obind_ok in H as (cs & Hc & H). apply obind_ok in H as (name & Hn & H). apply obind_ok in H as (u & Hl & H). apply obind_ok in K as (tf & Ht & K). apply obind_ok in K as (v & Hp & K). injection K as ->.
  destruct (read_components_ok _ _ _ _ Hc) as (Lc & Fc). exists files. split; auto.
  assert (Ml : List.length ms = List.length cs /\ forall i m, nth_error ms i = Some m -> nth_error cs i = Some (Some m)).
  { clear - H. revert ms H. induction cs as [|[m|] cs IH]; intros ms H; cbn in H; [injection H as <-; split; auto; intros [|i]; discriminate| |discriminate]. apply obind_ok in H as (t & H & Q). injection Q as <-. destruct (IH _ H) as (L & F). split; [cbn; auto|]. intros [|i] x E; cbn in *; [congruence|auto]. }
  destruct Ml as (Lm & Fm). split; [lia|]. split; auto. split; [|split; [|split]].
  - unfold place_meshes in Hp. apply oassert_ok in Hp as (Q & _). apply Nat.ltb_lt in Q. auto.
  - intros c m E. pose proof (Fm _ _ E) as E'. assert (c < num) by (rewrite <- Lc, <- Lm; apply nth_error_Some; congruence). pose proof (Fc c H0) as F. rewrite E' in F. exact F.
  - exists name. intros m Hm. apply In_nth_error in Hm as (i & Hi). pose proof (Fm _ _ Hi) as Ei. assert (Li : i < num) by (rewrite <- Lc, <- Lm; apply nth_error_Some; congruence).
    assert (Q : forall k, k <= num -> forall w, ofor k (fun (_ : unit) c => let* s := coll_name cs c in if string_dec name s then Ok tt else Abort) tt = Ok w -> forall c, c < k -> coll_name cs c = Ok name).
    { induction k as [|k IHk]; intros Lk w E c Lcc; [lia|]. unfold ofor in *. rewrite seq_S, ofold_app in E. apply obind_ok in E as (w' & E1 & E2). cbn [ofold] in E2. apply obind_ok in E2 as (w2 & E2 & _). apply obind_ok in E2 as (s & E2 & E3). destruct (Nat.eq_dec c k) as [->|]; [|eapply IHk; eauto; lia]. destruct (string_dec name s) as [->|]; [auto|discriminate]. }
    pose proof (Q num (le_n _) _ Hl i Li) as C. unfold coll_name in C. rewrite (proj2 (oread_ok _ _ _) Ei) in C. cbn [obind] in C. destruct (mf_coll m); congruence.
  - unfold choose_transform in Ht. apply obind_ok in Ht as (m & Hm & Ht). apply oread_ok in Hm. exists m. split; auto. injection Ht as <-. unfold place_meshes in Hp. apply oassert_ok in Hp as (_ & Hp). destruct (mf_dim m) as [|[|[|[|d]]]]; try discriminate; auto.
Qed.

Lemma setup_not_ub names files : NoDup names -> 0 < List.length names -> (forall n, In n names -> exists m, In (n, m) files) ->
  (forall n m, In (n, m) files -> In n names -> exists c, mf_coll m = Some c) ->
  setup_components (name_map names) (List.length names) (Some files) <> UB.
Proof.
  intros Nd Pn Fi No. unfold setup_components, oassert. rewrite (proj2 (Nat.ltb_lt _ _) Pn).
  assert (Rd : exists cs, read_components (name_map names) (List.length names) files = Ok cs).
  { unfold read_components. assert (G : forall l cs0, List.length cs0 = List.length names -> exists cs, ofold (fun cs (e : string * mesh_file) => match slookup (name_map names) (fst e) with
        | None => Ok cs | Some i => oguard (0 <=? i)%Z (owrite cs (Z.to_nat i) (Some (snd e))) end) l cs0 = Ok cs).
    { induction l as [|(n, m) l IH]; intros cs0 L0; cbn [ofold fst snd]; eauto. destruct (slookup (name_map names) n) as [i|] eqn:E; cbn [obind]; auto.
      apply (name_map_ok _ _ _ Nd) in E as (Pi & E). unfold oguard. rewrite (proj2 (Z.leb_le 0 i) Pi). unfold owrite. assert (Z.to_nat i < List.length names) by (apply nth_error_Some; congruence). rewrite (proj2 (Nat.ltb_lt _ _)) by lia. cbn [obind]. apply IH. rewrite upd_length. auto. }
    apply G. apply repeat_length. }
  destruct Rd as (cs & Rd). rewrite Rd. cbn [obind]. destruct (read_components_ok _ _ _ _ Rd) as (Lc & Fc).
  assert (Co : forall c, c < List.length names -> exists s, coll_name cs c = Ok s).
  { intros c Hc. pose proof (Fc c Hc) as F. destruct (nth_error names c) as [n|] eqn:En; [|apply nth_error_None in En; lia]. assert (Nm : slookup (name_map names) n = Some (Z.of_nat c)) by (apply (name_map_ok _ _ _ Nd); split; [lia|rewrite Nat2Z.id; auto]).
    destruct (nth_error cs c) as [[m|]|] eqn:E; [|exfalso|destruct F].
    - destruct F as (pre & s & post & Ef & Es & _). destruct (No s m) as (t & Et). { rewrite Ef. apply in_or_app. right. left. auto. } { apply (name_map_ok _ _ _ Nd) in Es as (_ & Es). eapply nth_error_In; eauto. }
      exists t. unfold coll_name. rewrite (proj2 (oread_ok _ _ _) E). cbn [obind]. rewrite Et. auto.
    - destruct (Fi n (nth_error_In _ _ En)) as (m & Hm). exact (F n m Hm Nm). }
  destruct (Co 0 Pn) as (name & En). rewrite En. cbn [obind].
  assert (Lo : forall k, k <= List.length names -> ofor k (fun (_ : unit) c => let* s := coll_name cs c in if string_dec name s then Ok tt else Abort) tt <> UB).
  { induction k as [|k IHk]; intros Lk; [discriminate|]. unfold ofor in *. rewrite seq_S, ofold_app. destruct (ofold _ (seq 0 k) tt) as [w| |]; [|discriminate|exfalso; apply IHk; [lia|auto]]. cbn [obind ofold Nat.add]. destruct (Co k ltac:(lia)) as (s & Es). rewrite Es. cbn [obind]. destruct (string_dec name s); discriminate. }
  specialize (Lo _ (le_n _)). destruct (ofor _ _ tt) as [w| |]; [|discriminate|congruence]. cbn [obind]. clear. induction cs as [|[m|] cs IH]; cbn; try discriminate. destruct (omap _ cs); try discriminate. congruence.
Qed.
