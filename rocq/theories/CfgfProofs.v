From Coq Require Import ZArith QArith Reals List Bool String Ascii Lia.
From Verif Require Import Outcome ConfigModel CompModel CompSpec CompProofs CompPortProofs HdfModel HdfSpec HdfProofs CfgfModel CfgfSpec.
Import ListNotations.
Open Scope nat_scope.
Open Scope list_scope.

Lemma omap_rows {A} (f : nat -> outcome A) (l : list A) : (forall i x, nth_error l i = Some x -> f i = Ok x) -> omap f (seq 0 (List.length l)) = Ok l.
Proof.
  intros H. apply omap_ok. revert f H. induction l as [|a l IH]; intros f H; cbn [List.length seq]; constructor; [apply (H 0); auto|].
  rewrite <- seq_shift. assert (X : Forall2 (fun i b => f (S i) = Ok b) (seq 0 (List.length l)) l) by (apply (IH (fun i => f (S i))); intros i x Hx; apply (H (S i)); auto).
  clear - X. induction X; cbn; constructor; auto.
Qed.

Lemma read_names_ok g key names : has_names g key names ->
  h5_read_attr (sg_h g) key = Ok (Z.of_nat (List.length names)) /\ read_names (Z.of_nat (List.length names)) (sg_str g) = Ok names.
Proof.
  intros (Hn & Hs). unfold h5_read_attr. rewrite Hn. split; auto. unfold read_names. rewrite (proj2 (Z.leb_le 0 _)) by lia. cbn [oassert].
  rewrite Nat2Z.id. apply omap_rows. intros i x Hi. unfold str_attr. rewrite (Hs _ _ Hi). auto.
Qed.

Section Table.
  Context {X T : Type}.
  Variables (pick : hdata R -> option (list T)) (e : elem R T) (g : hgroup R) (name : string) (k : nat) (item : X -> nat -> option T) (items : list X) (w : nat).
  Hypothesis Pick : forall d l, pick d = Some l -> unpack _ e d = Ok l.
  Hypothesis H : has_table pick g name k item items w.

  Lemma table_read : 0 < w -> exists a, read_array2d e g name = Ok a /\ a2_nr a = List.length items /\ a2_nc a = w /\ List.length (a2_data a) = List.length items * w /\
    forall m x d, nth_error items m = Some x -> d < k -> d < w -> nth_error (a2_data a) (m * w + d) = item x d.
  Proof.
    intros Hw. destruct H as (data & l & Ef & Ep & Ll & Hl). unfold read_array2d, h5_open_dset. rewrite Ef. cbn [obind].
    destruct (Nat.eqb_spec (List.length items) 0) as [E0|N0]; cbn [orb].
    - eexists. split; [reflexivity|]. cbn [a2_nr a2_nc a2_data]. split; [auto|]. split; [auto|]. split; [cbn; lia|].
      intros m x d Hm. destruct items; [destruct m; discriminate|discriminate].
    - destruct (Nat.eqb_spec w 0); [lia|]. rewrite (Pick _ _ Ep). cbn [obind]. eexists. split; [reflexivity|]. cbn [a2_nr a2_nc a2_data].
      split; [auto|]. split; [auto|]. split; [auto|]. intros m x d Hm Hd Hdw. specialize (Hl m x d Hm Hd Hdw). unfold stored, flat in Hl. cbn [fold_right] in Hl.
      rewrite !Nat.mul_1_r, Nat.add_0_r in Hl. exact Hl.
  Qed.
End Table.

Lemma doubles_unpack d l : doubles d = Some l -> unpack _ e_dbl d = Ok l.
Proof. destruct d; cbn; congruence. Qed.
Lemma ints_unpack d l : ints d = Some l -> unpack _ (@e_int R) d = Ok l.
Proof. destruct d; cbn; congruence. Qed.

Lemma entry_ok {T} (a : array2d T) m d v : nth_error (a2_data a) (m * a2_nc a + d) = Some v -> row_entry a m d = Ok v.
Proof. intros E. unfold row_entry, oread. rewrite E. auto. Qed.

Lemma components_ok f w names types places : stores_components f w names types places -> 6 <= w -> List.length places = List.length types ->
  (forall t, In t types -> (0 <= t < Z.of_nat (List.length names))%Z) ->
  exists idx cnt, read_components f = Ok (CompConf names types places idx cnt) /\ count_instances (List.length names) types = Ok (idx, cnt).
Proof.
  intros (g & Eg & Hn & Em & Ht) Hw Hl Hr. destruct (read_names_ok _ _ _ Hn) as (E1 & E2).
  destruct (table_read doubles e_dbl _ _ _ _ _ _ doubles_unpack Ht ltac:(lia)) as (a & Ea & Rn & Rc & Rl & Hat).
  destruct (numbering (List.length names) types Hr) as (idx & cnt & Ec & _).
  exists idx, cnt. split; auto. unfold read_components. rewrite Eg, E1. cbn [obind]. rewrite E2. cbn [obind].
  assert (E3 : read_array e_int (sg_h g) "meshes" = Ok types).
  { unfold read_array, h5_open_dset. rewrite Em. cbn [obind]. destruct types; reflexivity. }
  rewrite E3. cbn [obind]. rewrite Ea. cbn [obind]. rewrite Rn, Hl, Nat.eqb_refl. cbn [oassert]. rewrite Ec. cbn [obind].
  rewrite <- Hl. rewrite (omap_rows (read_place a) places); auto. intros m c Hm.
  assert (X : forall d v, d < 6 -> place_at c d = Some v -> row_entry a m d = Ok v).
  { intros d v Hd Ev. apply entry_ok. rewrite Rc. rewrite (Hat m c d) by (auto; lia). auto. }
  unfold read_place. rewrite (X 0 _ ltac:(lia) eq_refl), (X 1 _ ltac:(lia) eq_refl), (X 2 _ ltac:(lia) eq_refl), (X 3 _ ltac:(lia) eq_refl),
    (X 4 _ ltac:(lia) eq_refl), (X 5 _ ltac:(lia) eq_refl). destruct c; reflexivity.
Qed.

Lemma components_mismatch f w names types places : stores_components f w names types places -> 0 < w -> List.length places <> List.length types -> read_components f = Abort.
Proof.
  intros (g & Eg & Hn & Em & Ht) Hw Hl. destruct (read_names_ok _ _ _ Hn) as (E1 & E2).
  destruct (table_read doubles e_dbl _ _ _ _ _ _ doubles_unpack Ht ltac:(lia)) as (a & Ea & Rn & _).
  unfold read_components. rewrite Eg, E1. cbn [obind]. rewrite E2. cbn [obind].
  assert (E3 : read_array e_int (sg_h g) "meshes" = Ok types).
  { unfold read_array, h5_open_dset. rewrite Em. cbn [obind]. destruct types; reflexivity. }
  rewrite E3. cbn [obind]. rewrite Ea. cbn [obind]. rewrite Rn. destruct (Nat.eqb_spec (List.length types) (List.length places)); [congruence|reflexivity].
Qed.

(** A row that is too short is not noticed; reading the last row runs past the end. *)
Lemma omap_ub {A B} (f : A -> outcome B) l : (exists a, In a l /\ f a = UB) -> (forall a, In a l -> f a <> Abort) -> omap f l = UB.
Proof.
  intros (a & Ha & Ea) Hn. induction l as [|b l IH]; [destruct Ha|]. cbn [omap]. destruct (f b) eqn:Eb.
  - cbn [obind]. rewrite IH; auto. { destruct Ha as [->|]; [congruence|auto]. } intros; apply Hn; right; auto.
  - exfalso. apply (Hn b); [left; auto|auto].
  - reflexivity.
Qed.

Lemma components_short f w names types places : stores_components f w names types places -> 0 < w < 6 -> List.length places = List.length types -> types <> [] ->
  (forall t, In t types -> (0 <= t < Z.of_nat (List.length names))%Z) -> read_components f = UB.
Proof.
  intros (g & Eg & Hn & Em & Ht) Hw Hl Hne Hr. destruct (read_names_ok _ _ _ Hn) as (E1 & E2).
  destruct (table_read doubles e_dbl _ _ _ _ _ _ doubles_unpack Ht ltac:(lia)) as (a & Ea & Rn & Rc & Rl & _).
  destruct (numbering (List.length names) types Hr) as (idx & cnt & Ec & _).
  unfold read_components. rewrite Eg, E1. cbn [obind]. rewrite E2. cbn [obind].
  assert (E3 : read_array e_int (sg_h g) "meshes" = Ok types).
  { unfold read_array, h5_open_dset. rewrite Em. cbn [obind]. destruct types; reflexivity. }
  rewrite E3. cbn [obind]. rewrite Ea. cbn [obind]. rewrite Rn, Hl, Nat.eqb_refl. cbn [oassert]. rewrite Ec. cbn [obind].
  rewrite (omap_ub (read_place a)); auto.
  - exists (List.length types - 1). assert (0 < List.length types) by (destruct types; [congruence|cbn; lia]). split; [apply in_seq; lia|].
    unfold read_place, row_entry, oread. assert (E : nth_error (a2_data a) ((List.length types - 1) * a2_nc a + 5) = None).
    { apply nth_error_None. rewrite Rl, Rc, Hl. nia. }
    rewrite E. repeat (match goal with |- context [nth_error ?l ?i] => destruct (nth_error l i); cbn [obind]; auto end).
  - intros m _. unfold read_place, row_entry, oread. repeat (match goal with |- context [nth_error ?l ?i] => destruct (nth_error l i); cbn [obind]; try discriminate end).
Qed.

Lemma dict_ok g s p d : find_name (sg_sub g) s = Some p -> stores_dict p d -> d_name d = s -> read_dict g s = Ok d.
Proof.
  intros Ep (H1 & H2 & H3 & H4 & H5) En. unfold read_dict. rewrite Ep. unfold str_attr. rewrite H1. cbn [obind]. rewrite H2. cbn [obind].
  unfold h5_read_attr. rewrite H3. cbn [obind]. rewrite H4. cbn [obind].
  assert (E : read_array e_dbl (lf_h p) "comp2_configuration" = Ok (d_conf d)).
  { unfold read_array, h5_open_dset. rewrite H5. cbn [obind]. destruct (d_conf d); reflexivity. }
  rewrite E. cbn [obind]. subst s. destruct d; reflexivity.
Qed.

Lemma ports_ok f w refs rows : stores_ports f w refs rows -> 5 <= w -> refs <> [] -> read_port_lists f = Ok (map fst refs, map snd refs, rows).
Proof.
  intros (g & Eg & Hn & Hd & Ht) Hw Hne. destruct (read_names_ok _ _ _ Hn) as (E1 & E2).
  destruct (table_read ints e_int _ _ _ _ _ _ ints_unpack Ht ltac:(lia)) as (a & Ea & Rn & Rc & Rl & Hat).
  unfold read_port_lists. rewrite Eg, E1. cbn [obind]. rewrite E2. cbn [obind].
  assert (E3 : omap (fun s => if path_exists g s then let* d := read_dict g s in Ok (Some d) else Ok None) (map fst refs) = Ok (map snd refs)).
  { clear - Hd. induction refs as [|[s o] refs IH]; cbn [map omap fst snd]; auto.
    assert (E : (if path_exists g s then let* d := read_dict g s in Ok (Some d) else Ok None) = Ok o).
    { specialize (Hd s o (or_introl eq_refl)). unfold path_exists. destruct o as [d|].
      - destruct Hd as (En & p & Ep & Hp). rewrite Ep. rewrite (dict_ok g s p d Ep Hp En). reflexivity.
      - destruct Hd as (A & B). rewrite (proj2 (find_name_none _ _) A), (proj2 (find_name_none _ _) B). reflexivity. }
    rewrite E. cbn [obind]. rewrite IH; [reflexivity|]. intros; apply Hd; right; auto. }
  rewrite E3. cbn [obind]. rewrite map_length. destruct (Z.eqb_spec (Z.of_nat (List.length refs)) 0) as [Q|_]. { destruct refs; [congruence|cbn in Q; lia]. }
  rewrite Ea. cbn [obind]. rewrite Rn. rewrite (omap_rows (read_row a) rows); auto. intros m r Hm.
  assert (X : forall d v, d < 5 -> row_at r d = Some v -> row_entry a m d = Ok v).
  { intros d v Hd' Ev. apply entry_ok. rewrite Rc. rewrite (Hat m r d) by (auto; lia). auto. }
  unfold read_row. rewrite (X 0 _ ltac:(lia) eq_refl), (X 1 _ ltac:(lia) eq_refl), (X 2 _ ltac:(lia) eq_refl), (X 3 _ ltac:(lia) eq_refl), (X 4 _ ltac:(lia) eq_refl).
  destruct r; reflexivity.
Qed.

Lemma ports_none f w rows : stores_ports f w [] rows -> read_port_lists f = Ok ([], [], []).
Proof.
  intros (g & Eg & Hn & _ & _). destruct (read_names_ok _ _ _ Hn) as (E1 & E2). unfold read_port_lists. rewrite Eg, E1. cbn [obind]. rewrite E2. reflexivity.
Qed.

(** Ports from descriptions *)
Lemma build_port_fields dim thr c1 c2 a1 a2 l1 l2 x1 x2 p : build_port dim thr c1 c2 a1 a2 l1 l2 x1 x2 = Ok p ->
  pd_comp1 p = c1 /\ pd_comp2 p = c2 /\ pd_attr1 p = a1 /\ pd_attr2 p = a2.
Proof.
  unfold build_port. intros E. apply oassert_ok in E as (_ & E). apply oassert_ok in E as (_ & E). cbn zeta in E. apply oassert_ok in E as (_ & E). apply oassert_ok in E as (_ & E).
  apply obind_ok in E as (m & _ & E). apply obind_ok in E as (ps & _ & E). injection E as <-. auto.
Qed.

Lemma build_dict_ok dim thr names comps tf d p : NoDup names -> build_dict dim thr names comps tf d = Ok p ->
  named names (pd_comp1 p) (d_comp1 d) /\ named names (pd_comp2 p) (d_comp2 d) /\ pd_attr1 p = d_attr1 d /\ pd_attr2 p = d_attr2 d /\
  exists k1 k2 c, nth_error comps (Z.to_nat (pd_comp1 p)) = Some k1 /\ nth_error comps (Z.to_nat (pd_comp2 p)) = Some k2 /\
    List.length (d_conf d) = 6 /\ (forall i, i < 6 -> nth_error (d_conf d) i = place_at c i) /\
    build_port dim thr (pd_comp1 p) (pd_comp2 p) (d_attr1 d) (d_attr2 d) (cm_elems k1) (cm_elems k2) (cm_x k1) (tf c k2) = Ok p.
Proof.
  intros Nd E. unfold build_dict in E. apply oassert_ok in E as (_ & E). apply oassert_ok in E as (_ & E).
  destruct (slookup (name_map names) (d_comp1 d)) as [i1|] eqn:L1; [|discriminate]. destruct (slookup (name_map names) (d_comp2 d)) as [i2|] eqn:L2; [|discriminate].
  apply obind_ok in E as (k1 & Z1 & E). apply obind_ok in E as (k2 & Z2 & E). apply zread_ok in Z1 as (_ & Z1). apply zread_ok in Z2 as (_ & Z2).
  destruct (d_conf d) as [|t0 [|t1 [|t2 [|r0 [|r1 [|r2 [|]]]]]]] eqn:Ec; try discriminate.
  pose proof (build_port_fields _ _ _ _ _ _ _ _ _ _ _ E) as (F1 & F2 & F3 & F4). rewrite F1, F2.
  apply name_map_ok in L1; auto. apply name_map_ok in L2; auto. split; auto. split; auto. split; auto. split; auto.
  exists k1, k2, (MeshConfig t0 t1 t2 r0 r1 r2). split; auto.
Qed.

Lemma build_dict_unknown dim thr names comps tf d : NoDup names -> ~ In (d_comp1 d) names \/ ~ In (d_comp2 d) names \/ List.length (d_conf d) <> 6 ->
  forall p, build_dict dim thr names comps tf d <> Ok p.
Proof.
  intros Nd H p E.
  apply build_dict_ok in E as ((_ & A) & (_ & B) & _ & _ & k1 & k2 & c & _ & _ & L & _); auto.
  destruct H as [H|[H|H]]; [apply H; eapply nth_error_In; eauto|apply H; eapply nth_error_In; eauto|auto].
Qed.
