(** Matrices, vectors and gradients assembled over interfaces fit together. *)
From Coq Require Import Reals List Bool Lia Arith ZArith Lra.
From Verif Require Import Outcome ListLemmas LaBase BlockVec RomProofs RomBasisProofs MbModel MbSpec MbVecProofs ItfModel ItfSpec ItfProofs.
Import ListNotations.
Local Open Scope nat_scope.

Lemma vat_seq (c : nat -> list vcontrib) n p : vat (flat_map c (seq 0 n)) p = rsum n (fun i => vat (c i) p).
Proof. induction n; [reflexivity|]. rewrite seq_S, flat_map_app, vat_app, IHn. cbn [rsum flat_map Nat.add]. rewrite app_nil_r. reflexivity. Qed.
Lemma vat_cons c l p : vat (c :: l) p = (ind (place_eqb p (fst c)) (snd c) + vat l p)%R.
Proof. cbn [vat fold_right]. fold (vat l p). destruct (place_eqb p (fst c)); cbn [ind]; ring. Qed.
Lemma vat_map_seq (h : nat -> vcontrib) n p : vat (map h (seq 0 n)) p = rsum n (fun i => ind (place_eqb p (fst (h i))) (snd (h i))).
Proof.
  induction n; [reflexivity|]. rewrite seq_S, map_app, vat_app, IHn. cbn [rsum map Nat.add]. rewrite vat_cons. cbn [vat fold_right]. ring.
Qed.

(** The contributions of a matrix applied to [x]. *)
Definition mapply (x : nat * nat -> R) (l : list mcontrib) : list vcontrib := map (fun c : mcontrib => (fst (fst c), (snd c * x (snd (fst c)))%R)) l.

Lemma mapply_flat {A} x (h : A -> list mcontrib) l : mapply x (flat_map h l) = flat_map (fun a => mapply x (h a)) l.
Proof. unfold mapply. induction l; [reflexivity|]. cbn [flat_map]. rewrite map_app, IHl. reflexivity. Qed.

Section Alg.
  Variable fes : list fespace.

  Lemma rsum_place (x : nat * nat -> R) q : in_range fes q ->
    rsum (List.length fes) (fun J => rsum (fe_size (fth fes J)) (fun c => ind (place_eqb (J, c) q) (x (J, c)))) = x q.
  Proof.
    destruct q as [a b]. intros (A & B). cbn [fst snd] in *. rewrite (rsum_single _ a).
    - rewrite (rsum_single _ b).
      + destruct (place_eqb_spec (a, b) (a, b)); [reflexivity|congruence].
      + auto.
      + intros i Hi N. destruct (place_eqb_spec (a, i) (a, b)) as [E|]; [congruence|reflexivity].
    - auto.
    - intros i Hi N. rewrite (rsum_ext _ _ (fun _ => 0%R)); [apply rsum_zero|]. intros c Hc. destruct (place_eqb_spec (i, c) (a, b)) as [E|]; [congruence|reflexivity].
  Qed.

  Lemma mat_action l (x : nat * nat -> R) p : (forall c, In c l -> in_range fes (snd (fst c))) ->
    rsum (List.length fes) (fun J => rsum (fe_size (fth fes J)) (fun c => mat_at l p (J, c) * x (J, c))%R) = vat (mapply x l) p.
  Proof.
    induction l as [|c l IH]; intros H.
    - cbn [mapply map vat fold_right mat_at]. rewrite (rsum_ext _ _ (fun _ => 0%R)); [apply rsum_zero|]. intros J HJ.
      rewrite (rsum_ext _ _ (fun _ => 0%R)); [apply rsum_zero|]. intros. ring.
    - change (mapply x (c :: l)) with ((fst (fst c), (snd c * x (snd (fst c)))%R) :: mapply x l). rewrite vat_cons. cbn [fst snd].
      rewrite <- IH by (intros; apply H; right; auto).
      rewrite <- (rsum_place x (snd (fst c))) by (apply H; left; auto).
      rewrite (rsum_ext _ _ (fun J => ind (place_eqb p (fst (fst c))) (snd c) * rsum (fe_size (fth fes J)) (fun q => ind (place_eqb (J, q) (snd (fst c))) (x (J, q))) +
         rsum (fe_size (fth fes J)) (fun q => mat_at l p (J, q) * x (J, q)))%R).
      + rewrite rsum_plus. f_equal. rewrite rsum_scal. destruct (place_eqb p (fst (fst c))); cbn [ind]; ring.
      + intros J HJ. rewrite <- rsum_scal, <- rsum_plus. apply rsum_ext. intros q Hq. cbn [mat_at fold_right]. fold (mat_at l p (J, q)).
        destruct (place_eqb p (fst (fst c))); destruct (place_eqb (J, q) (snd (fst c))); cbn [andb ind]; ring.
  Qed.

  Lemma face_range ports p f E : ports_fit fes ports -> In (p, f) (real_faces ports) -> forall c, In c (face_contribs fes fes p f E) -> in_range fes (snd (fst c)).
  Proof.
    intros (P1 & P2) H c Hc. unfold face_contribs in Hc. apply in_flat_map in Hc as (i & Hi & Hc). apply in_flat_map in Hc as (j & Hj & Hc).
    apply in_flat_map in Hc as (k & Hk & Hc). apply in_map_iff in Hc as (l & <- & Hl). cbn [fst snd].
    assert (j < 2) by (destruct Hj as [<-|[<-|[]]]; lia). apply in_seq in Hl. split; cbn [fst snd].
    - destruct (P1 p) as (A & B). { apply real_faces_in in H as (? & _). auto. } unfold side_mesh, side. destruct (j =? 0); auto.
    - apply (P2 p f j); auto. apply nth_In. lia.
  Qed.
  Lemma all_range {I} ports (itgs : list I) E : ports_fit fes ports -> forall c, In c (all_contribs fes fes ports itgs E) -> in_range fes (snd (fst c)).
  Proof.
    intros P c Hc. unfold all_contribs in Hc. apply in_flat_map in Hc as ((p, f) & Hpf & Hc). apply in_flat_map in Hc as (g & Hg & Hc). cbn [fst snd] in Hc.
    eapply face_range; eauto.
  Qed.

  (** Element matrices times element vectors. *)
  Lemma face_action x p f E (e : vec * vec) q :
    (forall i k, i < 2 -> k < List.length (side_dofs fes p f i) -> vnth (side i (fst e) (snd e)) k = elem_row E (local fes x p f 0) (local fes x p f 1) i k) ->
    vat (mapply x (face_contribs fes fes p f E)) q = vat (face_vcontribs fes p f e) q.
  Proof.
    intros H. unfold face_contribs, face_vcontribs. change [0; 1] with (seq 0 2). rewrite mapply_flat, !vat_seq. apply rsum_ext. intros i Hi.
    rewrite mapply_flat, vat_seq, vat_map_seq. cbn [fst snd].
    rewrite (rsum_ext (List.length (side_dofs fes p f i)) _ (fun k => rsum 2 (fun j => rsum (List.length (side_dofs fes p f j)) (fun l =>
      ind (place_eqb q (side_mesh p i, dofn (zth (side_dofs fes p f i) k)))
        (dofs (zth (side_dofs fes p f i) k) * dofs (zth (side_dofs fes p f j) l) * fm_val (E i j) k l * x (side_mesh p j, dofn (zth (side_dofs fes p f j) l))))))%R).
    - rewrite rsum_swap. apply rsum_ext. intros j Hj. rewrite mapply_flat, vat_seq. apply rsum_ext. intros k Hk. unfold mapply. rewrite map_map, vat_map_seq. reflexivity.
    - intros k Hk. rewrite H by auto. unfold elem_row.
      assert (X : forall j, j < 2 -> side j (local fes x p f 0) (local fes x p f 1) = local fes x p f j) by (intros [|[|j]] Hj; try lia; reflexivity).
      destruct (place_eqb q _); cbn [ind].
      + rewrite <- rsum_scal. apply rsum_ext. intros j Hj. rewrite X by auto. unfold local at 1. rewrite map_length, <- rsum_scal. apply rsum_ext. intros l Hl.
        assert (Y : vnth (local fes x p f j) l = (dofs (zth (side_dofs fes p f j) l) * x (side_mesh p j, dofn (zth (side_dofs fes p f j) l)))%R).
        { unfold local, vnth. rewrite (nth_indep _ 0%R ((fun d => (dofs d * x (side_mesh p j, dofn d))%R) 0%Z)) by (rewrite map_length; auto).
          rewrite (map_nth (fun d => (dofs d * x (side_mesh p j, dofn d))%R)). reflexivity. }
        rewrite Y. ring.
      + symmetry. rewrite (rsum_ext 2 _ (fun _ => 0%R)); [apply rsum_zero|]. intros j Hj. apply rsum_zero.
  Qed.

  Lemma vat_flat_ext {A} (h h' : A -> list vcontrib) l q : (forall a, In a l -> vat (h a) q = vat (h' a) q) -> vat (flat_map h l) q = vat (flat_map h' l) q.
  Proof.
    induction l; intros H; [reflexivity|]. cbn [flat_map]. rewrite !vat_app, H, IHl; auto; [|left; auto]. intros; apply H; right; auto.
  Qed.
  Lemma vat_flat_plus {A} (h h1 h2 : A -> list vcontrib) l q : (forall a, In a l -> vat (h a) q = (vat (h1 a) q + vat (h2 a) q)%R) ->
    vat (flat_map h l) q = (vat (flat_map h1 l) q + vat (flat_map h2 l) q)%R.
  Proof.
    induction l as [|a l IH]; intros H; [cbn; ring|]. cbn [flat_map]. rewrite !vat_app, H, IH by (try (left; reflexivity); intros; apply H; right; auto). ring.
  Qed.

  (** Gradients assemble like matrices. *)
  Lemma grad_ok itgs ports x B : ports_fit fes ports -> List.length x = v_size fes -> mats_fit fes fes B ->
    (forall g, In g itgs -> elem_fits fes fes ports (fun p f => g f (local fes (v_entry fes x) p f 0) (local fes (v_entry fes x) p f 1))) ->
    exists B', itf_gradient fes itgs ports x B = Ok B' /\ mats_fit fes fes B' /\
      forall k, True -> bm_entry B' (fst k) (snd k) = (bm_entry B (fst k) (snd k) +
        mat2 (all_contribs fes fes ports itgs (fun g p f => g f (local fes (v_entry fes x) p f 0) (local fes (v_entry fes x) p f 1))) k)%R.
  Proof.
    intros (P1 & P2) Lx FB Dim. unfold itf_gradient. rewrite all_there by auto. cbn [oassert]. unfold all_contribs. rewrite real_faces_flat. cbn [fst snd].
    apply fold_mat; auto. intros B1 p Hp F1. destruct (P1 p Hp) as (A1 & A2).
    rewrite (oread_nth fes (ip_m1 p) (Fes 0 (fun _ => []))), (oread_nth fes (ip_m2 p) (Fes 0 (fun _ => []))) by auto. cbn [obind].
    destruct (get_block fes x (ip_m1 p) Lx A1) as (x1 & E1 & L1 & V1). destruct (get_block fes x (ip_m2 p) Lx A2) as (x2 & E2 & L2 & V2). rewrite E1, E2. cbn [obind].
    rewrite L1, L2. fold (fth fes (ip_m1 p)) (fth fes (ip_m2 p)). fold (fsize fes (ip_m1 p)) (fsize fes (ip_m2 p)). rewrite !Nat.eqb_refl. cbn [oassert].
    apply fold_mat; auto. intros B2 [f|] Hf F2.
    2:{ exists B2. split; [reflexivity|]. split; [auto|]. intros k _. unfold mat2. cbn [mat_at fold_right]. ring. }
    assert (Rf : In (p, f) (real_faces ports)) by (apply real_faces_in; auto). unfold asm_grad_face.
    rewrite (get_sub_ok x1 (fun r => v_entry fes x (ip_m1 p, r)) (fe_dofs (fth fes (ip_m1 p)) (f_e1 f))); auto.
    2:{ intros d Hd. rewrite L1. apply (P2 p f 0 Rf ltac:(lia) d Hd). }
    cbn [obind]. rewrite (get_sub_ok x2 (fun r => v_entry fes x (ip_m2 p, r)) (fe_dofs (fth fes (ip_m2 p)) (f_e2 f))); auto.
    2:{ intros d Hd. rewrite L2. apply (P2 p f 1 Rf ltac:(lia) d Hd). }
    cbn [obind].
    change (map (fun d => (dofs d * v_entry fes x (ip_m1 p, dofn d))%R) (fe_dofs (fth fes (ip_m1 p)) (f_e1 f))) with (local fes (v_entry fes x) p f 0).
    change (map (fun d => (dofs d * v_entry fes x (ip_m2 p, dofn d))%R) (fe_dofs (fth fes (ip_m2 p)) (f_e2 f))) with (local fes (v_entry fes x) p f 1).
    apply fold_mat; auto. intros B3 g Hg F3.
    destruct (sides_ok fes fes B3 p f (g f (local fes (v_entry fes x) p f 0) (local fes (v_entry fes x) p f 1)) F3 A1 A2) as (B4 & E & F4 & V).
    - intros i d Hi. apply P2; auto.
    - intros i d Hi. apply P2; auto.
    - intros i j Hi Hj. apply (Dim g Hg p f i j Rf Hi Hj).
    - exists B4. split; [|auto]. rewrite <- E, four_eq. reflexivity.
  Qed.
End Alg.

Lemma vnth_vplus a b k : k < List.length a -> vnth (vplus a b) k = (vnth a k + vnth b k)%R.
Proof. intros H. unfold vplus. unfold vnth at 1. rewrite nth_map_seq by auto. reflexivity. Qed.

Lemma vplus_entry fes a b k : List.length a = v_size fes -> in_range fes k -> v_entry fes (vplus a b) k = (v_entry fes a k + v_entry fes b k)%R.
Proof. intros La Hk. unfold v_entry, vplus. unfold vnth at 1. rewrite nth_map_seq by (rewrite La; apply v_place_lt; auto). reflexivity. Qed.

Lemma zero_fit test trial : List.length test = List.length trial -> mats_fit test trial (zero_mats test trial).
Proof.
  intros L. split; [auto|]. intros i j Hi Hj. unfold zero_mats. rewrite (proj2 (Nat.ltb_lt _ _) Hi), (proj2 (Nat.ltb_lt _ _) Hj). cbn [andb]. eexists. split; [reflexivity|]. auto.
Qed.
Lemma zero_entry test trial p q : bm_entry (zero_mats test trial) p q = 0%R.
Proof. unfold bm_entry, zero_mats. destruct (_ && _); reflexivity. Qed.

(** The assembled gradient is the tangent of the assembled vector, up to the assembled remainders. *)
Lemma tangent_sum {I} fes ports (itgs : list I) x h (F : I -> vec_integ) (G : I -> grad_integ) (Rm : I -> face -> vec -> vec -> vec -> vec -> vec * vec) q :
  ports_fit fes ports -> in_range fes q -> List.length x = v_size fes ->
  (forall g p f i k, In g itgs -> In (p, f) (real_faces ports) -> i < 2 -> k < List.length (side_dofs fes p f i) ->
    let e1 := local fes (v_entry fes x) p f 0 in let e2 := local fes (v_entry fes x) p f 1 in
    let h1 := local fes (v_entry fes h) p f 0 in let h2 := local fes (v_entry fes h) p f 1 in
    vnth (side i (fst (F g f (vplus e1 h1) (vplus e2 h2))) (snd (F g f (vplus e1 h1) (vplus e2 h2)))) k =
    (vnth (side i (fst (F g f e1 e2)) (snd (F g f e1 e2))) k + elem_row (G g f e1 e2) h1 h2 i k + vnth (side i (fst (Rm g f e1 e2 h1 h2)) (snd (Rm g f e1 e2 h1 h2))) k)%R) ->
  vat (all_vcontribs fes ports itgs (v_entry fes (vplus x h)) F) q =
  (vat (all_vcontribs fes ports itgs (v_entry fes x) F) q +
   vat (mapply (v_entry fes h) (all_contribs fes fes ports itgs (fun g p f => G g f (local fes (v_entry fes x) p f 0) (local fes (v_entry fes x) p f 1)))) q +
   vat (flat_map (fun pf => flat_map (fun g => face_vcontribs fes (fst pf) (snd pf)
     (Rm g (snd pf) (local fes (v_entry fes x) (fst pf) (snd pf) 0) (local fes (v_entry fes x) (fst pf) (snd pf) 1)
        (local fes (v_entry fes h) (fst pf) (snd pf) 0) (local fes (v_entry fes h) (fst pf) (snd pf) 1))) itgs) (real_faces ports)) q)%R.
Proof.
  intros P Hq Lx H. unfold all_vcontribs, all_contribs. rewrite mapply_flat.
  rewrite <- (vat_flat_plus (fun pf => flat_map (fun g => face_vcontribs fes (fst pf) (snd pf) (F g (snd pf) (local fes (v_entry fes x) (fst pf) (snd pf) 0) (local fes (v_entry fes x) (fst pf) (snd pf) 1)) ++
      mapply (v_entry fes h) (face_contribs fes fes (fst pf) (snd pf) (G g (snd pf) (local fes (v_entry fes x) (fst pf) (snd pf) 0) (local fes (v_entry fes x) (fst pf) (snd pf) 1)))) itgs)).
  2:{ intros pf Hpf. rewrite mapply_flat. apply vat_flat_plus. intros g Hg. apply vat_app. }
  apply vat_flat_plus. intros (p, f) Hpf. cbn [fst snd]. apply vat_flat_plus. intros g Hg. rewrite vat_app.
  set (e1 := local fes (v_entry fes x) p f 0). set (e2 := local fes (v_entry fes x) p f 1).
  set (h1 := local fes (v_entry fes h) p f 0). set (h2 := local fes (v_entry fes h) p f 1).
  assert (S : forall i, i < 2 -> local fes (v_entry fes (vplus x h)) p f i = vplus (local fes (v_entry fes x) p f i) (local fes (v_entry fes h) p f i)).
  { intros i Hi. apply vec_ext. { unfold vplus, local. rewrite !map_length, seq_length. reflexivity. }
    intros k Hk. unfold local in Hk. rewrite map_length in Hk.
    assert (Y : forall z, vnth (local fes (v_entry fes z) p f i) k =
      (dofs (zth (side_dofs fes p f i) k) * v_entry fes z (side_mesh p i, dofn (zth (side_dofs fes p f i) k)))%R).
    { intros z. unfold local, vnth. rewrite (nth_indep _ 0%R ((fun d => (dofs d * v_entry fes z (side_mesh p i, dofn d))%R) 0%Z)) by (rewrite map_length; auto).
      rewrite (map_nth (fun d => (dofs d * v_entry fes z (side_mesh p i, dofn d))%R)). reflexivity. }
    rewrite Y, vnth_vplus, !Y by (unfold local; rewrite map_length; auto). rewrite vplus_entry; auto; [ring|].
    split; cbn [fst snd].
    - destruct (proj1 P p) as (A & B). { apply real_faces_in in Hpf as (? & _). auto. } unfold side_mesh, side. destruct (i =? 0); auto.
    - apply (proj2 P p f i); auto. apply nth_In; auto. }
  rewrite !S by lia. fold e1 e2 h1 h2. clear S. specialize (H g p f). cbv zeta in H. fold e1 e2 h1 h2 in H.
  pose (el := (fun i => map (fun k => elem_row (G g f e1 e2) h1 h2 i k) (seq 0 (List.length (side_dofs fes p f i)))) : nat -> vec).
  rewrite (face_action fes (v_entry fes h) p f (G g f e1 e2) (el 0, el 1)).
  - unfold face_vcontribs. change [0; 1] with (seq 0 2). rewrite !vat_seq, <- !rsum_plus. apply rsum_ext. intros i Hi.
    rewrite !vat_map_seq, <- !rsum_plus. apply rsum_ext. intros k Hk. cbn [fst snd]. rewrite (H i k Hg Hpf Hi Hk).
    assert (X : vnth (side i (el 0) (el 1)) k = elem_row (G g f e1 e2) h1 h2 i k).
    { destruct i as [|[|i]]; try lia; unfold side; cbn [Nat.eqb]; unfold el, vnth; rewrite nth_map_seq by auto; reflexivity. }
    rewrite X. destruct (place_eqb q _); cbn [ind]; ring.
  - intros i k Hi Hk. fold h1 h2. destruct i as [|[|i]]; try lia; unfold side; cbn [Nat.eqb fst snd]; unfold el, vnth; rewrite nth_map_seq by auto; reflexivity.
Qed.
