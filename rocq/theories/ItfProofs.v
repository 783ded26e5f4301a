(** Proofs on interface assembly. *)
From Coq Require Import Reals List Bool Lia Arith ZArith Lra.
From Verif Require Import Outcome ListLemmas LaBase BlockVec RomProofs RomBasisProofs MbModel MbSpec MbVecProofs ItfModel ItfSpec.
Import ListNotations.
Local Open Scope nat_scope.

Lemma dof_is_fun d : dof_is d (dofn d) (dofs d) /\ forall r s, dof_is d r s -> r = dofn d /\ s = dofs d.
Proof.
  unfold dof_is, dofn, dofs. split; [destruct (Z.leb_spec 0 d); [left|right]; (split; [lia|reflexivity])|].
  intros r s [(-> & ->)|(-> & ->)]; destruct (Z.leb_spec 0 (Z.of_nat r)); destruct (Z.leb_spec 0 (-1 - Z.of_nat r)); try lia; split; auto; lia.
Qed.
Lemma dof_idx_n d : dof_idx d = dofn d.
Proof. unfold dof_idx, dofn. destruct (Z.ltb_spec d 0); destruct (Z.leb_spec 0 d); lia. Qed.
Lemma dof_sgn_s d : dof_sgn d = dofs d.
Proof. unfold dof_sgn, dofs. destruct (Z.ltb_spec d 0); destruct (Z.leb_spec 0 d); auto; lia. Qed.

Lemma place_eqb_spec a b : reflect (a = b) (place_eqb a b).
Proof.
  destruct a as [a1 a2], b as [b1 b2]. unfold place_eqb. cbn [fst snd]. destruct (Nat.eqb_spec a1 b1); destruct (Nat.eqb_spec a2 b2); cbn [andb]; constructor; congruence.
Qed.
Lemma vat_app l l' p : vat (l ++ l') p = (vat l p + vat l' p)%R.
Proof.
  induction l as [|c l IH]; [cbn [app]; change (vat [] p) with 0%R; ring|].
  change (vat ((c :: l) ++ l') p) with (if place_eqb p (fst c) then snd c + vat (l ++ l') p else vat (l ++ l') p)%R.
  change (vat (c :: l) p) with (if place_eqb p (fst c) then snd c + vat l p else vat l p)%R.
  rewrite IH. destruct (place_eqb p (fst c)); ring.
Qed.
Lemma mat_at_app l l' p q : mat_at (l ++ l') p q = (mat_at l p q + mat_at l' p q)%R.
Proof.
  induction l as [|c l IH]; [cbn [app]; change (mat_at [] p q) with 0%R; ring|].
  change (mat_at ((c :: l) ++ l') p q) with (if place_eqb p (fst (fst c)) && place_eqb q (snd (fst c)) then snd c + mat_at (l ++ l') p q else mat_at (l ++ l') p q)%R.
  change (mat_at (c :: l) p q) with (if place_eqb p (fst (fst c)) && place_eqb q (snd (fst c)) then snd c + mat_at l p q else mat_at l p q)%R.
  rewrite IH. destruct (place_eqb p _ && _); ring.
Qed.

(** Every step adds its contributions, so all together add all. *)
Lemma fold_at {S A K C} (Inv : S -> Prop) (P : K -> Prop) (rd : S -> K -> R) (at_ : list C -> K -> R)
  (at_nil : forall k, at_ [] k = 0%R) (at_app : forall l l' k, at_ (l ++ l') k = (at_ l k + at_ l' k)%R)
  (f : S -> A -> outcome S) (c : A -> list C) l : forall s, Inv s ->
  (forall s a, In a l -> Inv s -> exists s', f s a = Ok s' /\ Inv s' /\ forall k, P k -> rd s' k = (rd s k + at_ (c a) k)%R) ->
  exists s', ofold f l s = Ok s' /\ Inv s' /\ forall k, P k -> rd s' k = (rd s k + at_ (flat_map c l) k)%R.
Proof.
  induction l as [|a l IH]; intros s Hs H.
  - exists s. split; [reflexivity|]. split; [auto|]. intros. cbn [flat_map]. rewrite at_nil. ring.
  - destruct (H s a (or_introl eq_refl) Hs) as (s1 & E1 & I1 & R1). destruct (IH s1 I1) as (s2 & E2 & I2 & R2). { intros; apply H; auto; right; auto. }
    exists s2. cbn [ofold]. rewrite E1. cbn [obind]. split; [auto|]. split; [auto|]. intros k Hk. rewrite R2, R1 by auto. cbn [flat_map]. rewrite at_app. ring.
Qed.

Definition mat2 (l : list mcontrib) (k : (nat * nat) * (nat * nat)) : R := mat_at l (fst k) (snd k).
Definition fold_mat {A} Inv f (c : A -> list mcontrib) l B :=
  @fold_at blockmat A _ mcontrib Inv (fun _ => True) (fun B k => bm_entry B (fst k) (snd k)) mat2 (fun _ => eq_refl) (fun l l' k => mat_at_app l l' (fst k) (snd k)) f c l B.

(** ** Matrices *)
Section Mats.
  Variables (test trial : list fespace).
  Definition mfit (B : blockmat) : Prop := mats_fit test trial B.

  (** One submatrix. *)
  Lemma add_sub_ok M rows cols E : (forall d, In d rows -> dofn d < fm_h M) -> (forall d, In d cols -> dofn d < fm_w M) ->
    List.length rows <= fm_h E -> List.length cols <= fm_w E ->
    exists M', add_sub M rows cols E = Ok M' /\ fm_h M' = fm_h M /\ fm_w M' = fm_w M /\
      forall i j r q, fm_val M' r q = (fm_val M r q + mat_at (flat_map (fun k => map (fun l =>
        (((i, dofn (zth rows k)), (j, dofn (zth cols l))), (dofs (zth rows k) * dofs (zth cols l) * fm_val E k l)%R))
        (seq 0 (List.length cols))) (seq 0 (List.length rows))) (i, r) (j, q))%R.
  Proof.
    intros Hr Hc Lr Lc. unfold add_sub.
    set (c1 := fun i j k l => [(((i, dofn (zth rows k)), (j, dofn (zth cols l))), (dofs (zth rows k) * dofs (zth cols l) * fm_val E k l)%R)] : list mcontrib).
    destruct (@fold_at fmat nat (nat * nat * nat * nat) mcontrib (fun M' => fm_h M' = fm_h M /\ fm_w M' = fm_w M) (fun _ => True)
      (fun M' k => let '(i, j, r, q) := k in fm_val M' r q) (fun l k => let '(i, j, r, q) := k in mat_at (map (fun c : mcontrib => (((i, snd (fst (fst c))), (j, snd (snd (fst c)))), snd c)) l) (i, r) (j, q)))
      with (f := fun M k => ofor (List.length cols) (fun M l =>
        let* d := oread rows k in let* c := oread cols l in
        oguard ((dof_idx d <? fm_h M) && (dof_idx c <? fm_w M) && (k <? fm_h E) && (l <? fm_w E)) (
        Ok (FMat (fm_h M) (fm_w M) (fun r q =>
          if (r =? dof_idx d) && (q =? dof_idx c) then (fm_val M r q + dof_sgn d * dof_sgn c * fm_val E k l)%R else fm_val M r q)))) M)
      (c := fun k => flat_map (c1 0 0 k) (seq 0 (List.length cols))) (l := seq 0 (List.length rows)) (s := M)
      as (M' & EM & (I1 & I2) & V).
    - intros (((i, j), r), q). reflexivity.
    - intros l l' (((i, j), r), q). rewrite map_app, mat_at_app. reflexivity.
    - auto.
    - intros M1 k Hk (Ih & Iw). apply in_seq in Hk. unfold ofor.
      apply (@fold_at fmat nat (nat * nat * nat * nat) mcontrib (fun M' => fm_h M' = fm_h M /\ fm_w M' = fm_w M) (fun _ => True)
        (fun M' k => let '(i, j, r, q) := k in fm_val M' r q) (fun l k => let '(i, j, r, q) := k in mat_at (map (fun c : mcontrib => (((i, snd (fst (fst c))), (j, snd (snd (fst c)))), snd c)) l) (i, r) (j, q))).
      + intros (((i, j), r), q). reflexivity.
      + intros l l' (((i, j), r), q). rewrite map_app, mat_at_app. reflexivity.
      + auto.
      + intros M2 l Hl (Jh & Jw). apply in_seq in Hl. rewrite (oread_nth rows k 0%Z), (oread_nth cols l 0%Z) by lia. cbn [obind].
        fold (zth rows k) (zth cols l). rewrite !dof_idx_n, !dof_sgn_s.
        assert (D1 : dofn (zth rows k) < fm_h M2) by (rewrite Jh; apply Hr, nth_In; lia).
        assert (D2 : dofn (zth cols l) < fm_w M2) by (rewrite Jw; apply Hc, nth_In; lia).
        rewrite (proj2 (Nat.ltb_lt _ _) D1), (proj2 (Nat.ltb_lt _ _) D2), (proj2 (Nat.ltb_lt k (fm_h E))), (proj2 (Nat.ltb_lt l (fm_w E))) by lia. cbn [andb oguard].
        eexists. split; [reflexivity|]. split; [auto|]. intros (((i, j), r), q) _. cbn [fm_val c1 map fst snd mat_at fold_right].
        unfold place_eqb. cbn [fst snd]. rewrite !Nat.eqb_refl. cbn [andb]. destruct (r =? dofn (zth rows k)); destruct (q =? dofn (zth cols l)); cbn [andb]; ring.
    - exists M'. split; [exact EM|]. split; [auto|]. split; [auto|]. intros i j r q. specialize (V (i, j, r, q) Logic.I). cbn [fst snd] in V. rewrite V. do 2 f_equal.
      clear. induction (seq 0 (List.length rows)) as [|k l IH]; [reflexivity|]. cbn [flat_map]. rewrite map_app, IH. f_equal. clear.
      induction (seq 0 (List.length cols)) as [|k' l IH]; [reflexivity|]. cbn [flat_map map app c1]. rewrite IH. reflexivity.
  Qed.

  Lemma block_add_ok B i j rows cols E : mfit B -> i < List.length test -> j < List.length trial ->
    (forall d, In d rows -> dofn d < fe_size (fth test i)) -> (forall d, In d cols -> dofn d < fe_size (fth trial j)) ->
    List.length rows <= fm_h E -> List.length cols <= fm_w E ->
    exists B', block_add B i j rows cols E = Ok B' /\ mfit B' /\
      forall k, True -> bm_entry B' (fst k) (snd k) = (bm_entry B (fst k) (snd k) + mat2 (flat_map (fun k => map (fun l =>
        (((i, dofn (zth rows k)), (j, dofn (zth cols l))), (dofs (zth rows k) * dofs (zth cols l) * fm_val E k l)%R))
        (seq 0 (List.length cols))) (seq 0 (List.length rows))) k)%R.
  Proof.
    intros (Ln & FB) Hi Hj Hr Hc Lr Lc. unfold block_add. destruct (FB i j Hi Hj) as (M & EM & Mh & Mw). rewrite EM.
    destruct (add_sub_ok M rows cols E) as (M' & E' & Mh' & Mw' & V); auto. { rewrite Mh; auto. } { rewrite Mw; auto. }
    rewrite E'. cbn [obind]. eexists. split; [reflexivity|]. split.
    - split; [auto|]. intros i' j' Hi' Hj'. unfold bm_set. destruct (Nat.eqb_spec i' i); destruct (Nat.eqb_spec j' j); cbn [andb]; auto.
      subst. exists M'. split; [auto|]. split; congruence.
    - intros ((p1, p2), (q1, q2)) _. unfold mat2, bm_entry, bm_set. cbn [fst snd].
      destruct (Nat.eqb_spec p1 i) as [->|N1]; [destruct (Nat.eqb_spec q1 j) as [->|N2]|]; cbn [andb].
      + cbn [val]. rewrite EM. cbn [val]. rewrite (V i j p2 q2). reflexivity.
      + assert (Z : forall l : list mcontrib, (forall c, In c l -> fst (snd (fst c)) = j) -> mat_at l (i, p2) (q1, q2) = 0%R).
        { induction l as [|c l IH]; intros Hl; [reflexivity|]. cbn [mat_at fold_right]. fold (mat_at l (i, p2) (q1, q2)). rewrite IH by (intros; apply Hl; right; auto).
          unfold place_eqb at 2. cbn [fst]. rewrite (Hl c) by (left; auto). destruct (Nat.eqb_spec q1 j); [congruence|]. cbn [andb]. rewrite andb_false_r. reflexivity. }
        rewrite Z; [ring|]. intros c Hc'. apply in_flat_map in Hc' as (k & _ & Hc'). apply in_map_iff in Hc' as (l & <- & _). reflexivity.
      + assert (Z : forall l : list mcontrib, (forall c, In c l -> fst (fst (fst c)) = i) -> mat_at l (p1, p2) (q1, q2) = 0%R).
        { induction l as [|c l IH]; intros Hl; [reflexivity|]. cbn [mat_at fold_right]. fold (mat_at l (p1, p2) (q1, q2)). rewrite IH by (intros; apply Hl; right; auto).
          unfold place_eqb at 1. cbn [fst]. rewrite (Hl c) by (left; auto). destruct (Nat.eqb_spec p1 i); [congruence|]. cbn [andb]. reflexivity. }
        rewrite Z; [ring|]. intros c Hc'. apply in_flat_map in Hc' as (k & _ & Hc'). apply in_map_iff in Hc' as (l & <- & _). reflexivity.
  Qed.

  Lemma four_eq {S} (F : S -> nat -> nat -> outcome S) B :
    ofor 2 (fun B i => ofor 2 (fun B j => F B i j) B) B =
    (let* B := F B 0 0 in let* B := F B 0 1 in let* B := F B 1 0 in F B 1 1).
  Proof.
    unfold ofor. cbn [seq ofold].
    destruct (F B 0 0) as [a| |]; cbn [obind]; auto. destruct (F a 0 1) as [b| |]; cbn [obind]; auto.
    destruct (F b 1 0) as [c| |]; cbn [obind]; auto. destruct (F c 1 1); cbn [obind]; auto.
  Qed.

  (** One integrator on one face. *)
  Lemma sides_ok B p f E : mfit B -> ip_m1 p < List.length test -> ip_m2 p < List.length test ->
    (forall i d, i < 2 -> In d (side_dofs test p f i) -> dofn d < fe_size (fth test (side_mesh p i))) ->
    (forall i d, i < 2 -> In d (side_dofs trial p f i) -> dofn d < fe_size (fth trial (side_mesh p i))) ->
    (forall i j, i < 2 -> j < 2 -> List.length (side_dofs test p f i) <= fm_h (E i j) /\ List.length (side_dofs trial p f j) <= fm_w (E i j)) ->
    exists B', ofor 2 (fun B i => ofor 2 (fun B j => block_add B (side_mesh p i) (side_mesh p j) (side_dofs test p f i) (side_dofs trial p f j) (E i j)) B) B = Ok B' /\
      mfit B' /\ forall k, True -> bm_entry B' (fst k) (snd k) = (bm_entry B (fst k) (snd k) + mat2 (face_contribs test trial p f E) k)%R.
  Proof.
    intros FB H1 H2 Dr Dc Dim. pose proof (proj1 FB) as Ln. unfold ofor, face_contribs.
    assert (Hm : forall i, i < 2 -> side_mesh p i < List.length test) by (intros i Hi; unfold side_mesh, side; destruct (i =? 0); auto).
    apply fold_mat; auto. intros B1 i Hi F1. change (seq 0 2) with [0; 1] in *.
    apply fold_mat; auto. intros B2 j Hj F2.
    assert (Hi' : i < 2) by (destruct Hi as [<-|[<-|[]]]; lia). assert (Hj' : j < 2) by (destruct Hj as [<-|[<-|[]]]; lia).
    apply block_add_ok; auto.
    - rewrite <- Ln. auto.
    - apply Dim; auto.
    - apply Dim; auto.
  Qed.

  Lemma real_faces_flat {C} (h : itf_port * face -> list C) ports :
    flat_map h (real_faces ports) = flat_map (fun p => flat_map (fun fo => match fo with Some f => h (p, f) | None => [] end) (ip_faces p)) ports.
  Proof.
    unfold real_faces. induction ports as [|p ports IH]; [reflexivity|]. cbn [flat_map]. rewrite flat_map_app, IH. f_equal. clear.
    induction (ip_faces p) as [|[f|] l IH]; [reflexivity| |]; cbn [flat_map app]; rewrite ?flat_map_app, IH; reflexivity.
  Qed.
  Lemma real_faces_in p f ports : In (p, f) (real_faces ports) <-> In p ports /\ In (Some f) (ip_faces p).
  Proof.
    unfold real_faces. rewrite in_flat_map. split.
    - intros (p' & Hp & H). apply in_flat_map in H as ([f'|] & Hf & H); [|destruct H]. destruct H as [H|[]]. injection H as -> ->. auto.
    - intros (Hp & Hf). exists p. split; auto. apply in_flat_map. exists (Some f). split; auto. left. auto.
  Qed.

  Lemma asm_faces_ok itgs p faces B : mfit B -> ip_m1 p < List.length test -> ip_m2 p < List.length test ->
    (forall f i d, In (Some f) faces -> i < 2 -> In d (side_dofs test p f i) -> dofn d < fe_size (fth test (side_mesh p i))) ->
    (forall f i d, In (Some f) faces -> i < 2 -> In d (side_dofs trial p f i) -> dofn d < fe_size (fth trial (side_mesh p i))) ->
    (forall g f i j, In (Some f) faces -> In g itgs -> i < 2 -> j < 2 -> List.length (side_dofs test p f i) <= fm_h (g f i j) /\ List.length (side_dofs trial p f j) <= fm_w (g f i j)) ->
    exists B', asm_matrix (fth test (ip_m1 p)) (fth test (ip_m2 p)) (fth trial (ip_m1 p)) (fth trial (ip_m2 p)) itgs (ip_m1 p) (ip_m2 p) faces B = Ok B' /\
      mfit B' /\ forall k, True -> bm_entry B' (fst k) (snd k) = (bm_entry B (fst k) (snd k) +
        mat2 (flat_map (fun fo => match fo with Some f => flat_map (fun g => face_contribs test trial p f (g f)) itgs | None => [] end) faces) k)%R.
  Proof.
    intros FB H1 H2 Dr Dc Dim. unfold asm_matrix. apply fold_mat; auto. intros B1 [f|] Hf F1.
    2:{ exists B1. split; [reflexivity|]. split; [auto|]. intros k _. unfold mat2. cbn [mat_at fold_right]. ring. }
    unfold asm_face. apply fold_mat; auto. intros B2 g Hg F2.
    destruct (sides_ok B2 p f (g f) F2 H1 H2) as (B3 & E & F3 & V); [intros; eapply Dr; eauto|intros; eapply Dc; eauto|intros; apply Dim; auto|].
    exists B3. split; [|auto]. rewrite <- E. unfold side_mesh, side_dofs, side. rewrite !four_eq. reflexivity.
  Qed.

  Lemma mixed_ok itgs ports B : ports_fit test ports -> ports_fit trial ports -> mats_fit test trial B ->
    (forall g, In g itgs -> elem_fits test trial ports (fun _ => g)) ->
    exists B', mixed_matrices test trial itgs ports B = Ok B' /\ mats_fit test trial B' /\
      forall k, True -> bm_entry B' (fst k) (snd k) = (bm_entry B (fst k) (snd k) + mat2 (all_contribs test trial ports itgs (fun g _ => g)) k)%R.
  Proof.
    intros (P1 & P2) (Q1 & Q2) FB Dim. unfold all_contribs. rewrite real_faces_flat. unfold mixed_matrices. apply fold_mat; auto.
    intros B1 p Hp F1. destruct (P1 p Hp) as (A1 & A2). destruct (Q1 p Hp) as (A3 & A4).
    rewrite (oread_nth test (ip_m1 p) (Fes 0 (fun _ => []))), (oread_nth test (ip_m2 p) (Fes 0 (fun _ => []))),
      (oread_nth trial (ip_m1 p) (Fes 0 (fun _ => []))), (oread_nth trial (ip_m2 p) (Fes 0 (fun _ => []))) by auto. cbn [obind].
    apply asm_faces_ok; auto.
    - intros f i d Hf Hi. apply P2; auto. apply real_faces_in. auto.
    - intros f i d Hf Hi. apply Q2; auto. apply real_faces_in. auto.
    - intros g f i j Hf Hg Hi Hj. apply (Dim g Hg); auto. apply real_faces_in. auto.
  Qed.
End Mats.

Lemma all_there fes B : mats_fit fes fes B ->
  forallb (fun i => forallb (fun j => match B i j with Some _ => true | None => false end) (seq 0 (List.length fes))) (seq 0 (List.length fes)) = true.
Proof.
  intros (_ & H). apply forallb_forall. intros i Hi. apply forallb_forall. intros j Hj. apply in_seq in Hi, Hj.
  destruct (H i j) as (M & -> & _); auto; lia.
Qed.

Lemma itf_ok fes itgs ports B : ports_fit fes ports -> mats_fit fes fes B -> (forall g, In g itgs -> elem_fits fes fes ports (fun _ => g)) ->
  exists B', itf_matrices fes itgs ports B = Ok B' /\ mats_fit fes fes B' /\
    forall k, True -> bm_entry B' (fst k) (snd k) = (bm_entry B (fst k) (snd k) + mat2 (all_contribs fes fes ports itgs (fun g _ => g)) k)%R.
Proof. intros P F D. unfold itf_matrices. rewrite all_there by auto. cbn [oassert]. apply mixed_ok; auto. Qed.

(** ** Vectors *)
Section Vecs.
  Variable fes : list fespace.
  Definition fsize (m : nat) : nat := fe_size (fth fes m).

  Lemma itf_off_wf : offsets (itf_offsets fes) (List.length fes) fsize.
  Proof.
    unfold itf_offsets. pose proof (psum_offsets (map fe_size fes)) as (A & B & C). rewrite map_length in *. split; [auto|]. split; [auto|].
    intros i Hi. rewrite C by auto. f_equal. unfold fsize, fth. rewrite (nth_indep _ 0 (fe_size (Fes 0 (fun _ => [])))) by (rewrite map_length; auto). apply map_nth.
  Qed.

  Lemma fe_start_off m : m <= List.length fes -> nth m (itf_offsets fes) 0 = fe_start fes m.
  Proof.
    intros Hm. rewrite (offsets_nsum _ _ _ m itf_off_wf Hm). unfold fe_start, fsize, fth. revert Hm. generalize fes as l. clear.
    intros l. induction m as [|m IH]; intros Hm; [reflexivity|]. rewrite nsum_S, IH by lia.
    clear IH. revert m Hm. induction l as [|a l IH]; intros m Hm; [cbn in Hm; lia|]. destruct m as [|m]; [cbn; lia|].
    cbn [firstn fold_right nth]. cbn [List.length] in Hm. cbn [firstn] in IH. specialize (IH m ltac:(lia)). destruct l; [cbn in Hm; lia|]. lia.
  Qed.

  Definition vfit (b : bvec) : Prop := bv_off b = itf_offsets fes /\ List.length (bv_dat b) = v_size fes.
  Lemma vfit_wf b : vfit b -> bv_wf b (List.length fes) fsize.
  Proof.
    intros (E & L). destruct b as [o d]. cbn [bv_off bv_dat] in *. subst o. apply bv_fresh_wf; [apply itf_off_wf|]. rewrite fe_start_off by auto. exact L.
  Qed.

  Definition vrd (b : bvec) (k : nat * nat) : R := v_entry fes (bv_dat b) k.

  Lemma v_place_inj p q : in_range fes p -> in_range fes q -> fe_start fes (fst p) + snd p = fe_start fes (fst q) + snd q -> p = q.
  Proof.
    destruct p as [a b], q as [c d]. unfold in_range. cbn [fst snd]. intros (A & B) (C & D) E. pose proof itf_off_wf as O.
    rewrite <- !fe_start_off in E by lia.
    assert (X : forall i j, i < j -> j <= List.length fes -> nth i (itf_offsets fes) 0 + fsize i <= nth j (itf_offsets fes) 0).
    { intros i j Hij Hj. pose proof O as (_ & _ & St). rewrite <- St by lia. apply (offsets_mono _ _ _ (S i) j O). lia. }
    destruct (lt_eq_lt_dec a c) as [[L|L]|L].
    - specialize (X a c L ltac:(lia)). unfold fsize in X. lia.
    - subst. f_equal. lia.
    - specialize (X c a L ltac:(lia)). unfold fsize in X. lia.
  Qed.
  Lemma v_place_lt p : in_range fes p -> fe_start fes (fst p) + snd p < v_size fes.
  Proof.
    destruct p as [a b]. unfold in_range, v_size. cbn [fst snd]. intros (A & B). pose proof itf_off_wf as O. rewrite <- !fe_start_off by lia.
    pose proof (offsets_mono _ _ _ (S a) (List.length fes) O ltac:(lia)) as M. destruct O as (_ & _ & St). rewrite St in M by auto. unfold fsize in M. lia.
  Qed.

  Lemma fold_vec {A} (f : bvec -> A -> outcome bvec) (c : A -> list vcontrib) l b : vfit b ->
    (forall s a, In a l -> vfit s -> exists s', f s a = Ok s' /\ vfit s' /\ forall k, in_range fes k -> vrd s' k = (vrd s k + vat (c a) k)%R) ->
    exists s', ofold f l b = Ok s' /\ vfit s' /\ forall k, in_range fes k -> vrd s' k = (vrd b k + vat (flat_map c l) k)%R.
  Proof. apply (@fold_at bvec A _ vcontrib vfit (in_range fes) vrd vat (fun _ => eq_refl) vat_app). Qed.

  Lemma add_elem_ok b m vd e : vfit b -> m < List.length fes -> (forall d, In d vd -> dofn d < fsize m) -> List.length vd <= List.length e ->
    exists b', add_elem b m vd e = Ok b' /\ vfit b' /\ forall k, in_range fes k -> vrd b' k = (vrd b k +
      vat (map (fun k => ((m, dofn (zth vd k)), (dofs (zth vd k) * vnth e k)%R)) (seq 0 (List.length vd))) k)%R.
  Proof.
    intros F Hm Hd L. unfold add_elem, ofor.
    replace (map (fun k => ((m, dofn (zth vd k)), (dofs (zth vd k) * vnth e k)%R)) (seq 0 (List.length vd)))
      with (flat_map (fun k => [((m, dofn (zth vd k)), (dofs (zth vd k) * vnth e k)%R)]) (seq 0 (List.length vd))).
    2:{ clear. induction (seq 0 (List.length vd)); [reflexivity|]. cbn [flat_map map app]. rewrite IHl. reflexivity. }
    apply fold_vec; auto. intros s k Hk (Eo & Ld). apply in_seq in Hk.
    rewrite (oread_nth vd k 0%Z), (oread_nth e k 0%R) by lia. cbn [obind]. fold (zth vd k). rewrite Eo.
    pose proof itf_off_wf as (Lo & _ & So). rewrite (oread_nth (itf_offsets fes) m 0), (oread_nth (itf_offsets fes) (m + 1) 0) by lia. cbn [obind].
    rewrite Nat.add_1_r, So by auto. replace (nth m (itf_offsets fes) 0 + fsize m - nth m (itf_offsets fes) 0) with (fsize m) by lia.
    rewrite !dof_idx_n, !dof_sgn_s. assert (D : dofn (zth vd k) < fsize m) by (apply Hd, nth_In; lia).
    rewrite (proj2 (Nat.ltb_lt _ _) D). cbn [oguard]. rewrite fe_start_off by lia.
    assert (R0 : in_range fes (m, dofn (zth vd k))) by (split; auto). pose proof (v_place_lt _ R0) as Lt. cbn [fst snd] in Lt.
    rewrite (oread_nth (bv_dat s) _ 0%R) by lia. cbn [obind]. unfold owrite. rewrite (proj2 (Nat.ltb_lt _ _)) by lia. cbn [obind].
    eexists. split; [reflexivity|]. split; [split; [reflexivity|cbn [bv_dat]; rewrite upd_length; auto]|].
    intros q Hq. unfold vrd, v_entry. cbn [bv_dat vat fold_right fst snd]. destruct (place_eqb_spec q (m, dofn (zth vd k))) as [->|N].
    - cbn [fst snd]. rewrite vnth_upd_eq by lia. unfold vnth. ring.
    - rewrite vnth_upd_ne. { ring. } intros Q. apply N. apply v_place_inj; auto.
  Qed.

  Lemma get_sub_ok x m vd : (forall d, In d vd -> dofn d < List.length x) -> (forall r, r < List.length x -> vnth x r = m r) ->
    get_sub x vd = Ok (map (fun d => (dofs d * m (dofn d))%R) vd).
  Proof.
    intros H V. unfold get_sub. apply omap_map_ok. intros d Hd. rewrite dof_idx_n, dof_sgn_s, (oread_nth x _ 0%R) by auto. cbn [obind].
    change (nth (dofn d) x 0%R) with (vnth x (dofn d)). rewrite V by auto. reflexivity.
  Qed.

  Lemma get_block x m : List.length x = v_size fes -> m < List.length fes -> exists v, bv_get (BVec (itf_offsets fes) x) m = Ok v /\
    List.length v = fsize m /\ forall r, r < List.length v -> vnth v r = v_entry fes x (m, r).
  Proof.
    intros L Hm. assert (F : vfit (BVec (itf_offsets fes) x)) by (split; auto). pose proof (vfit_wf _ F) as W.
    exists (blk (BVec (itf_offsets fes) x) m). split; [apply (bv_get_ok _ _ fsize W); auto|].
    assert (Lb : List.length (blk (BVec (itf_offsets fes) x) m) = fsize m) by (apply (blk_length _ (List.length fes)); auto). split; [auto|].
    intros r Hr. rewrite Lb in Hr. rewrite (blk_nth _ _ fsize W m r Hm Hr). cbn [bv_off bv_dat]. rewrite fe_start_off by lia. reflexivity.
  Qed.

  Lemma add_mult_ok itgs ports x y : ports_fit fes ports -> List.length x = v_size fes -> List.length y = v_size fes ->
    (forall g f p e1 e2, In (p, f) (real_faces ports) -> In g itgs -> List.length e1 = List.length (side_dofs fes p f 0) -> List.length e2 = List.length (side_dofs fes p f 1) ->
       List.length (side_dofs fes p f 0) <= List.length (fst (g f e1 e2)) /\ List.length (side_dofs fes p f 1) <= List.length (snd (g f e1 e2))) ->
    exists y', itf_add_mult fes itgs ports x y = Ok y' /\ List.length y' = v_size fes /\ forall k, in_range fes k ->
      v_entry fes y' k = (v_entry fes y k + vat (all_vcontribs fes ports itgs (v_entry fes x) (fun g => g)) k)%R.
  Proof.
    intros (P1 & P2) Lx Ly Dim. unfold itf_add_mult. cbv zeta.
    destruct (fold_vec (fun y p =>
      let* s1 := oread fes (ip_m1 p) in let* s2 := oread fes (ip_m2 p) in
      asm_vector s1 s2 itgs (ip_m1 p) (ip_m2 p) (ip_faces p) (BVec (itf_offsets fes) x) y)
      (fun p => flat_map (fun fo => match fo with Some f => flat_map (fun g => face_vcontribs fes p f (g f (local fes (v_entry fes x) p f 0) (local fes (v_entry fes x) p f 1))) itgs | None => [] end) (ip_faces p))
      ports (BVec (itf_offsets fes) y)) as (y' & E & (Eo & Ld) & V).
    - split; auto.
    - intros s p Hp Fs. destruct (P1 p Hp) as (A1 & A2).
      rewrite (oread_nth fes (ip_m1 p) (Fes 0 (fun _ => []))), (oread_nth fes (ip_m2 p) (Fes 0 (fun _ => []))) by auto. cbn [obind]. unfold asm_vector.
      destruct (get_block x (ip_m1 p) Lx A1) as (x1 & E1 & L1 & V1). destruct (get_block x (ip_m2 p) Lx A2) as (x2 & E2 & L2 & V2). rewrite E1, E2. cbn [obind].
      rewrite !(bv_get_ok _ _ fsize (vfit_wf s Fs)) by auto. cbn [obind]. rewrite !(blk_length _ _ fsize (vfit_wf s Fs)) by auto. rewrite L1, L2.
      fold (fth fes (ip_m1 p)) (fth fes (ip_m2 p)). fold (fsize (ip_m1 p)) (fsize (ip_m2 p)). rewrite !Nat.eqb_refl. cbn [oassert].
      apply fold_vec; auto. intros s1 [f|] Hf F1.
      2:{ exists s1. split; [reflexivity|]. split; [auto|]. intros. cbn [vat fold_right]. ring. }
      assert (Rf : In (p, f) (real_faces ports)) by (apply real_faces_in; auto).
      unfold asm_vec_face.
      rewrite (get_sub_ok x1 (fun r => v_entry fes x (ip_m1 p, r)) (fe_dofs (fth fes (ip_m1 p)) (f_e1 f))); auto.
      2:{ intros d Hd. rewrite L1. apply (P2 p f 0 Rf ltac:(lia) d Hd). }
      cbn [obind]. rewrite (get_sub_ok x2 (fun r => v_entry fes x (ip_m2 p, r)) (fe_dofs (fth fes (ip_m2 p)) (f_e2 f))); auto.
      2:{ intros d Hd. rewrite L2. apply (P2 p f 1 Rf ltac:(lia) d Hd). }
      cbn [obind].
      change (map (fun d => (dofs d * v_entry fes x (ip_m1 p, dofn d))%R) (fe_dofs (fth fes (ip_m1 p)) (f_e1 f))) with (local fes (v_entry fes x) p f 0).
      change (map (fun d => (dofs d * v_entry fes x (ip_m2 p, dofn d))%R) (fe_dofs (fth fes (ip_m2 p)) (f_e2 f))) with (local fes (v_entry fes x) p f 1).
      apply fold_vec; auto. intros s2 g Hg F2.
      set (e := g f (local fes (v_entry fes x) p f 0) (local fes (v_entry fes x) p f 1)).
      destruct (Dim g f p (local fes (v_entry fes x) p f 0) (local fes (v_entry fes x) p f 1) Rf Hg) as (D1 & D2); try (unfold local; rewrite map_length; reflexivity). fold e in D1, D2.
      destruct (add_elem_ok s2 (ip_m1 p) (side_dofs fes p f 0) (fst e) F2 A1) as (s3 & E3 & F3 & V3); auto. { intros d Hd. apply (P2 p f 0 Rf ltac:(lia) d Hd). }
      destruct (add_elem_ok s3 (ip_m2 p) (side_dofs fes p f 1) (snd e) F3 A2) as (s4 & E4 & F4 & V4); auto. { intros d Hd. apply (P2 p f 1 Rf ltac:(lia) d Hd). }
      exists s4. split.
      { change (fe_dofs (fth fes (ip_m1 p)) (f_e1 f)) with (side_dofs fes p f 0). change (fe_dofs (fth fes (ip_m2 p)) (f_e2 f)) with (side_dofs fes p f 1).
        rewrite E3. cbn [obind]. exact E4. }
      split; [auto|]. intros k Hk. rewrite V4, V3 by auto. unfold face_vcontribs. cbn [flat_map]. rewrite !vat_app. cbn [vat fold_right]. unfold side_mesh. cbn [side Nat.eqb]. fold e.
      rewrite Rplus_0_r. unfold vat. ring.
    - unfold vec in *. rewrite E. cbn [obind]. exists (bv_dat y'). split; [reflexivity|]. split; [auto|]. intros k Hk. unfold all_vcontribs. rewrite (real_faces_flat (fun pf => _)). cbn [fst snd]. apply V. auto.
  Qed.
End Vecs.
