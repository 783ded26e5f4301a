(** Properties of interface assembly. *)
From Coq Require Import Reals List Bool Lia Arith ZArith Lra.
From Verif Require Import Outcome ListLemmas LaBase BlockVec RomProofs MbModel MbSpec ItfModel ItfSpec ItfProofs ItfAlgProofs ItfPortProofs.
Import ListNotations.
Local Open Scope nat_scope.

(** Matrices, of mixed forms too: every contribution once, at its place, and nothing else. *)
Theorem C49_matrices : forall test trial itgs ports B, ports_fit test ports -> ports_fit trial ports -> mats_fit test trial B ->
  (forall g, In g itgs -> elem_fits test trial ports (fun _ => g)) ->
  exists B', mixed_matrices test trial itgs ports B = Ok B' /\ mats_fit test trial B' /\ (test = trial -> itf_matrices test itgs ports B = Ok B') /\
    forall p q, bm_entry B' p q = (bm_entry B p q + mat_at (all_contribs test trial ports itgs (fun g _ => g)) p q)%R.
Proof.
  intros test trial itgs ports B P1 P2 F D. destruct (mixed_ok test trial itgs ports B P1 P2 F D) as (B' & E & F' & V). exists B'. split; [auto|]. split; [auto|]. split.
  - intros ->. unfold itf_matrices. rewrite all_there by auto. exact E.
  - intros p q. apply (V (p, q) Logic.I).
Qed.
Print Assumptions C49_matrices.

(** Vectors. *)
Theorem C49_vectors : forall fes itgs ports x y, ports_fit fes ports -> List.length x = v_size fes -> List.length y = v_size fes ->
  (forall g f p e1 e2, In (p, f) (real_faces ports) -> In g itgs ->
     List.length e1 = List.length (side_dofs fes p f 0) -> List.length e2 = List.length (side_dofs fes p f 1) ->
     List.length (side_dofs fes p f 0) <= List.length (fst (g f e1 e2)) /\ List.length (side_dofs fes p f 1) <= List.length (snd (g f e1 e2))) ->
  exists y', itf_add_mult fes itgs ports x y = Ok y' /\ List.length y' = v_size fes /\ forall k, in_range fes k ->
    v_entry fes y' k = (v_entry fes y k + vat (all_vcontribs fes ports itgs (v_entry fes x) (fun g => g)) k)%R.
Proof. intros fes itgs ports x y. apply add_mult_ok. Qed.
Print Assumptions C49_vectors.

(** For linear integrators both agree: applying the form adds the product with its matrices. *)
Theorem C49_matrix_vector : forall fes (itgs : list (mat_integ * vec_integ)) ports x y, ports_fit fes ports ->
  List.length x = v_size fes -> List.length y = v_size fes ->
  (forall g, In g itgs -> elem_fits fes fes ports (fun _ => fst g)) ->
  (forall g p f e1 e2 i, In g itgs -> In (p, f) (real_faces ports) -> i < 2 ->
     List.length e1 = List.length (side_dofs fes p f 0) -> List.length e2 = List.length (side_dofs fes p f 1) ->
     let e := side i (fst (snd g f e1 e2)) (snd (snd g f e1 e2)) in
     List.length e = List.length (side_dofs fes p f i) /\
     forall k, k < List.length e -> vnth e k = elem_row (fst g f) e1 e2 i k) ->
  exists B y', itf_matrices fes (map fst itgs) ports (zero_mats fes fes) = Ok B /\ itf_add_mult fes (map snd itgs) ports x y = Ok y' /\
    forall k, in_range fes k -> v_entry fes y' k = (v_entry fes y k + bm_row fes B x k)%R.
Proof.
  intros fes itgs ports x y P Lx Ly D Hl.
  destruct (itf_ok fes (map fst itgs) ports (zero_mats fes fes) P (zero_fit fes fes eq_refl)) as (B & EB & FB & VB).
  { intros g Hg. apply in_map_iff in Hg as (gg & <- & Hg). apply D; auto. }
  destruct (add_mult_ok fes (map snd itgs) ports x y P Lx Ly) as (y' & Ey & Ly' & Vy).
  { intros g f p e1 e2 Hf Hg L1 L2. apply in_map_iff in Hg as (gg & <- & Hg).
    destruct (Hl gg p f e1 e2 0 Hg Hf ltac:(lia) L1 L2) as (A & _). destruct (Hl gg p f e1 e2 1 Hg Hf ltac:(lia) L1 L2) as (A' & _). split; apply Nat.eq_le_incl; symmetry; [exact A|exact A']. }
  exists B, y'. split; [auto|]. split; [auto|]. intros k Hk. rewrite Vy by auto. f_equal. unfold bm_row.
  rewrite (rsum_ext _ _ (fun J => rsum (fe_size (fth fes J)) (fun c => mat_at (all_contribs fes fes ports (map fst itgs) (fun g _ => g)) k (J, c) * v_entry fes x (J, c))%R)).
  2:{ intros J HJ. apply rsum_ext. intros c Hc. pose proof (VB (k, (J, c)) Logic.I) as Q. cbn [fst snd] in Q. rewrite Q. clear Q. rewrite zero_entry, Rplus_0_l. reflexivity. }
  rewrite mat_action by (apply all_range; auto). unfold all_vcontribs, all_contribs. rewrite mapply_flat. apply vat_flat_ext. intros (p, f) Hf. cbn [fst snd].
  rewrite !flat_map_concat_map, !map_map, <- !flat_map_concat_map, mapply_flat. apply vat_flat_ext. intros g Hg. symmetry. apply face_action. intros i j Hi Hj.
  destruct (Hl g p f (local fes (v_entry fes x) p f 0) (local fes (v_entry fes x) p f 1) i Hg Hf Hi) as (A & A'); try (unfold local; rewrite map_length; reflexivity).
  apply A'. lia.
Qed.
Print Assumptions C49_matrix_vector.

(** The gradient at [x] is the tangent of the form at [x] whenever the gradients of the integrators are: the remainder is
    the assembled remainder of the integrators. *)
Theorem C49_gradient : forall (I : Type) fes (itgs : list I) (F : I -> vec_integ) (G : I -> grad_integ) (Rm : I -> face -> vec -> vec -> vec -> vec -> vec * vec) ports x h y,
  ports_fit fes ports -> List.length x = v_size fes -> List.length h = v_size fes -> List.length y = v_size fes ->
  (forall g, In g itgs -> elem_fits fes fes ports (fun p f => G g f (local fes (v_entry fes x) p f 0) (local fes (v_entry fes x) p f 1))) ->
  (forall g p f e1 e2, In g itgs -> In (p, f) (real_faces ports) ->
     List.length e1 = List.length (side_dofs fes p f 0) -> List.length e2 = List.length (side_dofs fes p f 1) ->
     List.length (fst (F g f e1 e2)) = List.length (side_dofs fes p f 0) /\ List.length (snd (F g f e1 e2)) = List.length (side_dofs fes p f 1)) ->
  (forall g p f i k, In g itgs -> In (p, f) (real_faces ports) -> i < 2 -> k < List.length (side_dofs fes p f i) ->
     let e1 := local fes (v_entry fes x) p f 0 in let e2 := local fes (v_entry fes x) p f 1 in
     let h1 := local fes (v_entry fes h) p f 0 in let h2 := local fes (v_entry fes h) p f 1 in
     let at_ z1 z2 := vnth (side i (fst (F g f z1 z2)) (snd (F g f z1 z2))) k in
     at_ (vplus e1 h1) (vplus e2 h2) =
       (at_ e1 e2 + elem_row (G g f e1 e2) h1 h2 i k + vnth (side i (fst (Rm g f e1 e2 h1 h2)) (snd (Rm g f e1 e2 h1 h2))) k)%R) ->
  exists B y1 y2, itf_gradient fes (map G itgs) ports x (zero_mats fes fes) = Ok B /\
    itf_add_mult fes (map F itgs) ports x y = Ok y1 /\ itf_add_mult fes (map F itgs) ports (vplus x h) y = Ok y2 /\
    forall k, in_range fes k -> v_entry fes y2 k = (v_entry fes y1 k + bm_row fes B h k +
      vat (flat_map (fun pf => flat_map (fun g => face_vcontribs fes (fst pf) (snd pf)
        (Rm g (snd pf) (local fes (v_entry fes x) (fst pf) (snd pf) 0) (local fes (v_entry fes x) (fst pf) (snd pf) 1)
           (local fes (v_entry fes h) (fst pf) (snd pf) 0) (local fes (v_entry fes h) (fst pf) (snd pf) 1))) itgs) (real_faces ports)) k)%R.
Proof.
  intros I fes itgs F G Rm ports x h y P Lx Lh Ly D Lf T.
  assert (Lxh : List.length (vplus x h) = v_size fes) by (unfold vplus; rewrite map_length, seq_length; auto).
  destruct (grad_ok fes (map G itgs) ports x (zero_mats fes fes) P Lx (zero_fit fes fes eq_refl)) as (B & EB & FB & VB).
  { intros g Hg. apply in_map_iff in Hg as (gg & <- & Hg). apply (D gg Hg). }
  assert (DF : forall g f p e1 e2, In (p, f) (real_faces ports) -> In g (map F itgs) -> List.length e1 = List.length (side_dofs fes p f 0) -> List.length e2 = List.length (side_dofs fes p f 1) ->
     List.length (side_dofs fes p f 0) <= List.length (fst (g f e1 e2)) /\ List.length (side_dofs fes p f 1) <= List.length (snd (g f e1 e2))).
  { intros g f p e1 e2 Hf Hg L1 L2. apply in_map_iff in Hg as (gg & <- & Hg). destruct (Lf gg p f e1 e2 Hg Hf L1 L2). lia. }
  destruct (add_mult_ok fes (map F itgs) ports x y P Lx Ly DF) as (y1 & E1 & L1 & V1).
  destruct (add_mult_ok fes (map F itgs) ports (vplus x h) y P Lxh Ly DF) as (y2 & E2 & L2 & V2).
  exists B, y1, y2. split; [auto|]. split; [auto|]. split; [auto|]. intros k Hk. rewrite V1, V2 by auto. unfold bm_row.
  set (C := all_contribs fes fes ports itgs (fun g p f => G g f (local fes (v_entry fes x) p f 0) (local fes (v_entry fes x) p f 1))).
  assert (X : forall z, vat (all_vcontribs fes ports (map F itgs) z (fun g => g)) k = vat (all_vcontribs fes ports itgs z F) k).
  { intros z. unfold all_vcontribs. apply vat_flat_ext. intros (p, f) Hf. rewrite !flat_map_concat_map, map_map. reflexivity. }
  assert (XC : all_contribs fes fes ports (map G itgs) (fun g p f => g f (local fes (v_entry fes x) p f 0) (local fes (v_entry fes x) p f 1)) = C).
  { unfold C, all_contribs. apply flat_map_ext. intros (p, f). rewrite !flat_map_concat_map, map_map. reflexivity. }
  rewrite !X. rewrite (tangent_sum fes ports itgs x h F G Rm k P Hk Lx T).
  rewrite (rsum_ext _ _ (fun J => rsum (fe_size (fth fes J)) (fun c => mat_at C k (J, c) * v_entry fes h (J, c))%R)).
  2:{ intros J HJ. apply rsum_ext. intros c Hc. pose proof (VB (k, (J, c)) Logic.I) as Q. cbn [fst snd] in Q. rewrite Q. clear Q. rewrite zero_entry, Rplus_0_l. unfold mat2. cbn [fst snd]. rewrite <- XC. reflexivity. }
  rewrite (mat_action fes C (v_entry fes h)) by (apply all_range; auto). fold C. ring.
Qed.
Print Assumptions C49_gradient.

(** The matrices of the reference ports, placed for every port that looks like one, make up the global matrices. *)
Theorem C49_port_matrices : forall test trial ctest ctrial itgs (prs : list (itf_port * itf_port)) B, List.length ctest = List.length ctrial ->
  ports_fit test (map fst prs) -> ports_fit trial (map fst prs) -> mats_fit test trial B ->
  (forall g, In g itgs -> elem_fits test trial (map fst prs) (fun _ => g)) ->
  (forall p r, In (p, r) prs -> like_ref test trial ctest ctrial itgs p r) ->
  exists B' (P : itf_port -> blockmat), mixed_matrices test trial itgs (map fst prs) B = Ok B' /\
    (forall p r, In (p, r) prs -> port_matrix ctest ctrial itgs (ip_m1 r) (ip_m2 r) (ip_faces r) = Ok (P r)) /\
    forall I a J b, bm_entry B' (I, a) (J, b) = (bm_entry B (I, a) (J, b) + sum_list prs (fun pr =>
      rsum 2 (fun i => rsum 2 (fun j => if (side_mesh (fst pr) i =? I) && (side_mesh (fst pr) j =? J) then bm_entry (P (snd pr)) (i, a) (j, b) else 0))))%R.
Proof.
  intros test trial ctest ctrial itgs prs B Lc P1 P2 F D H. exact (ports_sum test trial ctest ctrial itgs prs B Lc P1 P2 F D H).
Qed.
Print Assumptions C49_port_matrices.

(** Applying a mixed form does nothing, whatever its integrators. *)
Theorem C49_mixed_vector_refuted : exists fes (itgs : list vec_integ) ports x y, ports_fit fes ports /\ List.length x = v_size fes /\ List.length y = v_size fes /\
  mixed_add_mult itgs ports x y = Ok y /\ exists y', itf_add_mult fes itgs ports x y = Ok y' /\ y' <> y.
Proof.
  exists [Fes 1 (fun _ => [0]%Z); Fes 1 (fun _ => [0]%Z)], [fun _ a b => (a, b)], [ItfPort 0 1 [Some (Face 0 0 0)]], [1; 1]%R, [0; 0]%R.
  split.
  { split.
    - intros p [<-|[]]. cbn. lia.
    - intros p f i H Hi d Hd. cbn in H. destruct H as [H|[]]. injection H as <- <-. destruct i as [|[|i]]; try lia; cbn in Hd; destruct Hd as [<-|[]]; cbn; lia. }
  split; [reflexivity|]. split; [reflexivity|]. split; [reflexivity|]. eexists. split; [reflexivity|]. intros E. injection E as E _. cbn in E. lra.
Qed.
Print Assumptions C49_mixed_vector_refuted.
