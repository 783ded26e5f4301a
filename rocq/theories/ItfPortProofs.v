(** The matrices of reference ports make up the global ones. *)
From Coq Require Import Reals List Bool Lia Arith ZArith Lra.
From Verif Require Import Outcome ListLemmas LaBase BlockVec RomProofs RomBasisProofs MbModel MbSpec MbVecProofs ItfModel ItfSpec ItfProofs ItfAlgProofs.
Import ListNotations.
Local Open Scope nat_scope.

Lemma mat_at_seq (c : nat -> list mcontrib) n p q : mat_at (flat_map c (seq 0 n)) p q = rsum n (fun i => mat_at (c i) p q).
Proof. induction n; [reflexivity|]. rewrite seq_S, flat_map_app, mat_at_app, IHn. cbn [rsum flat_map Nat.add]. rewrite app_nil_r. reflexivity. Qed.
Lemma mat_at_map_seq (h : nat -> mcontrib) n p q : mat_at (map h (seq 0 n)) p q = rsum n (fun i => ind (place_eqb p (fst (fst (h i))) && place_eqb q (snd (fst (h i)))) (snd (h i))).
Proof.
  induction n; [reflexivity|]. rewrite seq_S, map_app, mat_at_app, IHn. cbn [rsum map Nat.add mat_at fold_right].
  destruct (place_eqb p _ && _); cbn [ind]; ring.
Qed.

Lemma face_at test trial p f E I r J c : mat_at (face_contribs test trial p f E) (I, r) (J, c) =
  rsum 2 (fun i => rsum 2 (fun j => ind ((side_mesh p i =? I) && (side_mesh p j =? J))
    (rsum (List.length (side_dofs test p f i)) (fun k => rsum (List.length (side_dofs trial p f j)) (fun l =>
      ind ((r =? dofn (zth (side_dofs test p f i) k)) && (c =? dofn (zth (side_dofs trial p f j) l)))
        (dofs (zth (side_dofs test p f i) k) * dofs (zth (side_dofs trial p f j) l) * fm_val (E i j) k l)%R))))).
Proof.
  unfold face_contribs. change [0; 1] with (seq 0 2). rewrite mat_at_seq. apply rsum_ext. intros i Hi. rewrite mat_at_seq. apply rsum_ext. intros j Hj.
  rewrite mat_at_seq. rewrite (Nat.eqb_sym _ I), (Nat.eqb_sym _ J).
  destruct (Nat.eqb_spec I (side_mesh p i)) as [->|N1]; [destruct (Nat.eqb_spec J (side_mesh p j)) as [->|N2]|]; cbn [andb ind].
  - apply rsum_ext. intros k Hk. rewrite mat_at_map_seq. apply rsum_ext. intros l Hl. unfold place_eqb. cbn [fst snd]. rewrite !Nat.eqb_refl. reflexivity.
  - rewrite (rsum_ext _ _ (fun _ => 0%R)); [apply rsum_zero|]. intros k Hk. rewrite mat_at_map_seq.
    rewrite (rsum_ext _ _ (fun _ => 0%R)); [apply rsum_zero|]. intros l Hl. unfold place_eqb. cbn [fst snd].
    destruct (Nat.eqb_spec J (side_mesh p j)); [congruence|]. cbn [andb]. rewrite andb_false_r. reflexivity.
  - rewrite (rsum_ext _ _ (fun _ => 0%R)); [apply rsum_zero|]. intros k Hk. rewrite mat_at_map_seq.
    rewrite (rsum_ext _ _ (fun _ => 0%R)); [apply rsum_zero|]. intros l Hl. unfold place_eqb. cbn [fst snd].
    destruct (Nat.eqb_spec I (side_mesh p i)); [congruence|]. reflexivity.
Qed.

Section Port.
  Variables (test trial ctest ctrial : list fespace) (itgs : list mat_integ) (p r : itf_port).
  Hypothesis L : like_ref test trial ctest ctrial itgs p r.
  Let q := ItfPort 0 1 [].
  Let tt := [fth ctest (ip_m1 r); fth ctest (ip_m2 r)].
  Let tr := [fth ctrial (ip_m1 r); fth ctrial (ip_m2 r)].

  Lemma q_spaces i : i < 2 -> fth tt (side_mesh q i) = fth test (side_mesh p i) /\ fth tr (side_mesh q i) = fth trial (side_mesh p i).
  Proof.
    intros Hi. destruct L as (_ & _ & H & _). destruct (H i Hi) as (-> & ->). destruct i as [|[|i]]; try lia; split; reflexivity.
  Qed.
  Lemma q_dofs f f' i : f_e1 f = f_e1 f' -> f_e2 f = f_e2 f' -> i < 2 ->
    side_dofs tt q f' i = side_dofs test p f i /\ side_dofs tr q f' i = side_dofs trial p f i.
  Proof.
    intros E1 E2 Hi. unfold side_dofs. fold (side_mesh q i) (side_mesh p i). destruct (q_spaces i Hi) as (-> & ->).
    destruct i as [|[|i]]; try lia; unfold side; cbn [Nat.eqb]; rewrite E1 || rewrite E2; auto.
  Qed.

  Lemma face_like f f' g I a J b : In g itgs -> same_face itgs (Some f) (Some f') ->
    mat_at (face_contribs test trial p f (g f)) (I, a) (J, b) =
    rsum 2 (fun i => rsum 2 (fun j => ind ((side_mesh p i =? I) && (side_mesh p j =? J)) (mat_at (face_contribs tt tr q f' (g f')) (i, a) (j, b)))).
  Proof.
    intros Hg (E1 & E2 & S). rewrite face_at. apply rsum_ext. intros i Hi. apply rsum_ext. intros j Hj. f_equal. rewrite face_at.
    assert (Q : forall i, i < 2 -> side_mesh q i = i) by (intros [|[|z]] Hz; try lia; reflexivity).
    rewrite (rsum_single 2 i); auto.
    - rewrite (rsum_single 2 j); auto.
      + rewrite !Q, !Nat.eqb_refl by auto. cbn [andb ind]. destruct (q_dofs f f' i E1 E2 Hi) as (-> & _). destruct (q_dofs f f' j E1 E2 Hj) as (_ & ->).
        apply rsum_ext. intros k Hk. apply rsum_ext. intros l Hl. destruct (S g i j Hg Hi Hj) as (_ & _ & ->). reflexivity.
      + intros z Hz N. rewrite !Q by auto. destruct (Nat.eqb_spec z j); [congruence|]. rewrite andb_false_r. reflexivity.
    - intros z Hz N. rewrite (rsum_ext _ _ (fun _ => 0%R)); [apply rsum_zero|]. intros y Hy. rewrite !Q by auto. destruct (Nat.eqb_spec z i); [congruence|]. reflexivity.
  Qed.

  Definition fcon (te tr : list fespace) (p : itf_port) (fo : option face) : list mcontrib :=
    match fo with Some f => flat_map (fun g => face_contribs te tr p f (g f)) itgs | None => [] end.

  Lemma port_like I a J b : mat_at (flat_map (fcon test trial p) (ip_faces p)) (I, a) (J, b) =
    rsum 2 (fun i => rsum 2 (fun j => ind ((side_mesh p i =? I) && (side_mesh p j =? J)) (mat_at (flat_map (fcon tt tr q) (ip_faces r)) (i, a) (j, b)))).
  Proof.
    assert (ZZ : forall (P : nat -> nat -> bool), (0 = rsum 2 (fun i => rsum 2 (fun j => ind (P i j) 0)))%R).
    { intros P. cbn [rsum]. destruct (P 0 0), (P 0 1), (P 1 0), (P 1 1); cbn [ind]; ring. }
    assert (AA : forall (P : nat -> nat -> bool) (u v : nat -> nat -> R), (rsum 2 (fun i => rsum 2 (fun j => ind (P i j) (u i j))) + rsum 2 (fun i => rsum 2 (fun j => ind (P i j) (v i j))) =
       rsum 2 (fun i => rsum 2 (fun j => ind (P i j) (u i j + v i j))))%R).
    { intros P u v. cbn [rsum]. destruct (P 0 0), (P 0 1), (P 1 0), (P 1 1); cbn [ind]; ring. }
    pose proof L as (_ & _ & _ & F). revert F. generalize (ip_faces p) (ip_faces r). intros lp lr F. induction F as [|x y l l' Hxy F IH].
    - cbn [flat_map mat_at fold_right]. apply (ZZ (fun i j => (side_mesh p i =? I) && (side_mesh p j =? J))).
    - cbn [flat_map]. rewrite mat_at_app, IH. clear IH.
      assert (X : mat_at (fcon test trial p x) (I, a) (J, b) = rsum 2 (fun i => rsum 2 (fun j => ind ((side_mesh p i =? I) && (side_mesh p j =? J)) (mat_at (fcon tt tr q y) (i, a) (j, b))))).
      { destruct x as [f|], y as [f'|]; [|destruct Hxy|destruct Hxy|cbn [fcon mat_at fold_right]; apply (ZZ (fun i j => (side_mesh p i =? I) && (side_mesh p j =? J)))].
        unfold fcon. assert (Hin : forall g, In g itgs -> In g itgs) by auto. revert Hin. generalize itgs at 1 3 4. intros gs. induction gs as [|g gs IH]; intros Hin.
        - cbn [flat_map mat_at fold_right]. apply (ZZ (fun i j => (side_mesh p i =? I) && (side_mesh p j =? J))).
        - cbn [flat_map]. rewrite mat_at_app, IH by (intros; apply Hin; right; auto). rewrite (face_like f f' g); [|apply Hin; left; auto|exact Hxy].
          rewrite (AA (fun i j => (side_mesh p i =? I) && (side_mesh p j =? J))). apply rsum_ext. intros i Hi. apply rsum_ext. intros j Hj. rewrite mat_at_app. reflexivity. }
      rewrite X, (AA (fun i j => (side_mesh p i =? I) && (side_mesh p j =? J))). apply rsum_ext. intros i Hi. apply rsum_ext. intros j Hj. rewrite mat_at_app. reflexivity.
  Qed.

  Hypothesis Lc : List.length ctest = List.length ctrial.
  Hypothesis Dt : forall f i d, In (Some f) (ip_faces p) -> i < 2 -> In d (side_dofs test p f i) -> dofn d < fe_size (fth test (side_mesh p i)).
  Hypothesis Dc : forall f i d, In (Some f) (ip_faces p) -> i < 2 -> In d (side_dofs trial p f i) -> dofn d < fe_size (fth trial (side_mesh p i)).
  Hypothesis De : forall g f i j, In (Some f) (ip_faces p) -> In g itgs -> i < 2 -> j < 2 ->
    List.length (side_dofs test p f i) <= fm_h (g f i j) /\ List.length (side_dofs trial p f j) <= fm_w (g f i j).

  Lemma ref_face f' : In (Some f') (ip_faces r) -> exists f, In (Some f) (ip_faces p) /\ same_face itgs (Some f) (Some f').
  Proof.
    pose proof L as (_ & _ & _ & F). revert F. generalize (ip_faces p) (ip_faces r). intros lp lr F. induction F as [|x y l l' Hxy F IH]; intros H; [destruct H|]. destruct H as [->|H].
    - destruct x as [f|]; [|destruct Hxy]. exists f. split; [left; auto|auto].
    - destruct (IH H) as (f & A & B). exists f. split; [right; auto|auto].
  Qed.

  Lemma port_ok : exists P, port_matrix ctest ctrial itgs (ip_m1 r) (ip_m2 r) (ip_faces r) = Ok P /\ mats_fit tt tr P /\
    forall i a j b, i < 2 -> j < 2 -> bm_entry P (i, a) (j, b) = mat_at (flat_map (fcon tt tr q) (ip_faces r)) (i, a) (j, b).
  Proof.
    pose proof L as (C1 & C2 & Sp & _). unfold port_matrix.
    rewrite (oread_nth ctest (ip_m1 r) (Fes 0 (fun _ => []))), (oread_nth ctest (ip_m2 r) (Fes 0 (fun _ => []))),
      (oread_nth ctrial (ip_m1 r) (Fes 0 (fun _ => []))), (oread_nth ctrial (ip_m2 r) (Fes 0 (fun _ => []))) by lia. cbn [obind].
    fold (fth ctest (ip_m1 r)) (fth ctest (ip_m2 r)) (fth ctrial (ip_m1 r)) (fth ctrial (ip_m2 r)).
    set (Z := fun i j : nat => if (i <? 2) && (j <? 2) then Some (FMat (fe_size (if i =? 0 then fth ctest (ip_m1 r) else fth ctest (ip_m2 r)))
      (fe_size (if j =? 0 then fth ctrial (ip_m1 r) else fth ctrial (ip_m2 r))) (fun _ _ => 0%R)) else None).
    destruct (asm_faces_ok tt tr itgs q (ip_faces r) Z) as (P & E & F & V).
    - split; [reflexivity|]. intros [|[|i]] [|[|j]] Hi Hj; try (cbn in Hi, Hj; lia); eexists; (split; [reflexivity|]); split; reflexivity.
    - cbn; lia.
    - cbn; lia.
    - intros f' i d Hf Hi Hd. destruct (ref_face f' Hf) as (f & A & (E1 & E2 & S)). destruct (q_dofs f f' i E1 E2 Hi) as (X & _). rewrite X in Hd.
      destruct (q_spaces i Hi) as (-> & _). apply (Dt f i d A Hi Hd).
    - intros f' i d Hf Hi Hd. destruct (ref_face f' Hf) as (f & A & (E1 & E2 & S)). destruct (q_dofs f f' i E1 E2 Hi) as (_ & X). rewrite X in Hd.
      destruct (q_spaces i Hi) as (_ & ->). apply (Dc f i d A Hi Hd).
    - intros g f' i j Hf Hg Hi Hj. destruct (ref_face f' Hf) as (f & A & (E1 & E2 & S)). destruct (q_dofs f f' i E1 E2 Hi) as (-> & _). destruct (q_dofs f f' j E1 E2 Hj) as (_ & ->).
      destruct (S g i j Hg Hi Hj) as (H1 & H2 & _). rewrite <- H1, <- H2. apply (De g f i j A Hg Hi Hj).
    - exists P. split; [exact E|]. split; [exact F|]. intros i a j b Hi Hj. specialize (V ((i, a), (j, b)) Logic.I). cbn [fst snd] in V. rewrite V. unfold mat2. cbn [fst snd].
      replace (bm_entry Z (i, a) (j, b)) with 0%R; [unfold fcon; ring|]. unfold bm_entry, Z. cbn [fst snd]. destruct (_ && _); reflexivity.
  Qed.
End Port.

Definition sum_list {A} (l : list A) (f : A -> R) : R := fold_right (fun a s => (f a + s)%R) 0%R l.

Lemma ports_sum test trial ctest ctrial itgs (prs : list (itf_port * itf_port)) B : List.length ctest = List.length ctrial ->
  ports_fit test (map fst prs) -> ports_fit trial (map fst prs) -> mats_fit test trial B ->
  (forall g, In g itgs -> elem_fits test trial (map fst prs) (fun _ => g)) ->
  (forall p r, In (p, r) prs -> like_ref test trial ctest ctrial itgs p r) ->
  exists B' (P : itf_port -> blockmat), mixed_matrices test trial itgs (map fst prs) B = Ok B' /\
    (forall p r, In (p, r) prs -> port_matrix ctest ctrial itgs (ip_m1 r) (ip_m2 r) (ip_faces r) = Ok (P r)) /\
    forall I a J b, bm_entry B' (I, a) (J, b) = (bm_entry B (I, a) (J, b) + sum_list prs (fun pr =>
      rsum 2 (fun i => rsum 2 (fun j => ind ((side_mesh (fst pr) i =? I) && (side_mesh (fst pr) j =? J)) (bm_entry (P (snd pr)) (i, a) (j, b))))))%R.
Proof.
  intros Lc P1 P2 FB Dim H. destruct (mixed_ok test trial itgs (map fst prs) B P1 P2 FB Dim) as (B' & E & _ & V).
  set (P := fun r => match port_matrix ctest ctrial itgs (ip_m1 r) (ip_m2 r) (ip_faces r) with Ok P => P | _ => fun _ _ => None end).
  assert (PP : forall p r, In (p, r) prs -> port_matrix ctest ctrial itgs (ip_m1 r) (ip_m2 r) (ip_faces r) = Ok (P r) /\
    forall i a j b, i < 2 -> j < 2 -> bm_entry (P r) (i, a) (j, b) =
      mat_at (flat_map (fcon itgs [fth ctest (ip_m1 r); fth ctest (ip_m2 r)] [fth ctrial (ip_m1 r); fth ctrial (ip_m2 r)] (ItfPort 0 1 [])) (ip_faces r)) (i, a) (j, b)).
  { intros p r Hpr. assert (Hp : In p (map fst prs)) by (apply (in_map fst) in Hpr; auto).
    destruct (port_ok test trial ctest ctrial itgs p r (H p r Hpr) Lc) as (Q & EQ & _ & VQ).
    - intros f i d Hf Hi. apply (proj2 P1); auto. apply real_faces_in. auto.
    - intros f i d Hf Hi. apply (proj2 P2); auto. apply real_faces_in. auto.
    - intros g f i j Hf Hg Hi Hj. apply (Dim g Hg); auto. apply real_faces_in. auto.
    - unfold P. rewrite EQ. split; [reflexivity|exact VQ]. }
  exists B', P. split; [exact E|]. split; [intros p r Hpr; apply (PP p r Hpr)|]. intros I a J b. specialize (V ((I, a), (J, b)) Logic.I). cbn [fst snd] in V. rewrite V. f_equal.
  unfold mat2, all_contribs. cbn [fst snd]. rewrite real_faces_flat. cbn [fst snd]. clear V E FB Dim P1 P2. induction prs as [|(p, r) prs IH]; [reflexivity|].
  cbn [map flat_map sum_list fold_right fst snd]. rewrite mat_at_app, IH.
  - f_equal. pose proof (port_like test trial ctest ctrial itgs p r (H p r (or_introl eq_refl)) I a J b) as X. unfold fcon at 1 in X. rewrite X.
    apply rsum_ext. intros i Hi. apply rsum_ext. intros j Hj. rewrite (proj2 (PP p r (or_introl eq_refl)) i a j b Hi Hj). reflexivity.
  - intros; apply H; right; auto.
  - intros p' r' Hpr. apply (PP p' r'). right; auto.
Qed.
