(** Proofs about direct solves. *)
From Coq Require Import Reals List Bool Lia Arith ZArith String Lra.
From Verif Require Import Outcome ListLemmas LaBase EqpSpec IntegModel DgModel DgSpec DgProperties MbModel MbSpec ItfModel ItfSpec ItfProofs ItfAlgProofs ItfPortProofs
  ItfProperties DirModel DirSpec.
Import ListNotations.
Local Open Scope nat_scope.

Lemma place_le_total p q : place_le q p = false -> place_le p q = true.
Proof.
  destruct p as [a b], q as [c d]. unfold place_le. cbn [fst snd].
  destruct (Nat.ltb_spec c a), (Nat.eqb_spec c a), (Nat.leb_spec d b), (Nat.ltb_spec a c), (Nat.eqb_spec a c), (Nat.leb_spec b d); cbn; auto; lia.
Qed.
Lemma place_le_anti p q : place_le q p = true -> place_le p q = true -> p = q.
Proof.
  destruct p as [a b], q as [c d]. unfold place_le. cbn [fst snd].
  destruct (Nat.ltb_spec c a), (Nat.eqb_spec c a), (Nat.leb_spec d b), (Nat.ltb_spec a c), (Nat.eqb_spec a c), (Nat.leb_spec b d); cbn; intros; try discriminate; try lia; f_equal; lia.
Qed.

Lemma read_symmetric fes ty A : ty = UNSYMMETRIC \/ symmetric_on fes A ->
  forall p q, in_range fes p -> in_range fes q -> mumps_matrix ty A p q = A p q.
Proof.
  intros [->|S0] p q Hp Hq; [reflexivity|]. destruct ty; cbn [mumps_matrix]; auto; destruct (place_le q p); auto.
Qed.

Lemma mult_solves fes ty A b x : ty = UNSYMMETRIC \/ symmetric_on fes A -> mumps_mult fes ty A b x <-> solves fes A b x.
Proof.
  intros H. unfold mumps_mult, solves. split; intros K p Hp; rewrite <- (K p Hp); apply rsum_ext; intros J HJ; apply rsum_ext; intros c Hc;
    rewrite (read_symmetric fes ty A H) by (auto; split; auto); reflexivity.
Qed.

(** The unit vector at a place shows a column of the matrix. *)
Lemma unit_column fes (M : place -> place -> R) p q : in_range fes q ->
  rsum (List.length fes) (fun J => rsum (fe_size (fth fes J)) (fun c => M p (J, c) * (if place_eqb (J, c) q then 1 else 0))%R) = M p q.
Proof.
  intros Hq. rewrite <- (rsum_place fes (M p) q Hq). apply rsum_ext. intros J HJ. apply rsum_ext. intros c Hc.
  unfold ind. destruct (place_eqb (J, c) q); ring.
Qed.

Lemma mult_wrong fes ty A p q : ty <> UNSYMMETRIC -> in_range fes p -> in_range fes q -> A p q <> A q p ->
  exists b x, mumps_mult fes ty A b x /\ ~ solves fes A b x.
Proof.
  intros Ht.
  assert (G : forall p q, in_range fes p -> in_range fes q -> A p q <> A q p -> place_le q p = false ->
    exists b x, mumps_mult fes ty A b x /\ ~ solves fes A b x).
  { clear p q. intros p q Hp Hq N L. exists (fun r => mumps_matrix ty A r q), (fun r => if place_eqb r q then 1%R else 0%R). split.
    - intros r Hr. apply unit_column. exact Hq.
    - intros S0. specialize (S0 p Hp). cbn beta in S0. rewrite (unit_column fes A p q Hq) in S0.
      apply N. rewrite S0. destruct ty; [congruence| |]; cbn [mumps_matrix]; rewrite L; reflexivity. }
  intros Hp Hq N. destruct (place_le q p) eqn:L; [|apply (G p q); auto].
  destruct (place_le p q) eqn:L'; [exfalso; apply N; rewrite (place_le_anti p q L L'); reflexivity|].
  apply (G q p); auto.
Qed.

(** ** Interfaces *)
Definition sym_integ (fes : list fespace) (ports : list itf_port) (g : mat_integ) : Prop :=
  forall p f i j k l, In (p, f) (real_faces ports) -> i < 2 -> j < 2 ->
    k < List.length (side_dofs fes p f i) -> l < List.length (side_dofs fes p f j) ->
    fm_val (g f i j) k l = fm_val (g f j i) l k.

Lemma face_sym fes p f (E : nat -> nat -> fmat) :
  (forall i j k l, i < 2 -> j < 2 -> k < List.length (side_dofs fes p f i) -> l < List.length (side_dofs fes p f j) ->
    fm_val (E i j) k l = fm_val (E j i) l k) ->
  forall a b, mat_at (face_contribs fes fes p f E) a b = mat_at (face_contribs fes fes p f E) b a.
Proof.
  intros H a b.
  assert (X : forall a b, mat_at (face_contribs fes fes p f E) a b =
    rsum 2 (fun i => rsum 2 (fun j => rsum (List.length (side_dofs fes p f i)) (fun k => rsum (List.length (side_dofs fes p f j)) (fun l =>
      ind (place_eqb a (side_mesh p i, dofn (zth (side_dofs fes p f i) k)) && place_eqb b (side_mesh p j, dofn (zth (side_dofs fes p f j) l)))
        (ItfSpec.dofs (zth (side_dofs fes p f i) k) * ItfSpec.dofs (zth (side_dofs fes p f j) l) * fm_val (E i j) k l)%R))))).
  { intros a0 b0. unfold face_contribs. change [0; 1] with (seq 0 2). rewrite mat_at_seq. apply rsum_ext. intros i Hi.
    rewrite mat_at_seq. apply rsum_ext. intros j Hj. rewrite mat_at_seq. apply rsum_ext. intros k Hk. rewrite mat_at_map_seq. reflexivity. }
  rewrite !X. rewrite rsum_swap. apply rsum_ext. intros j Hj. apply rsum_ext. intros i Hi. rewrite rsum_swap.
  apply rsum_ext. intros l Hl. apply rsum_ext. intros k Hk. rewrite (H i j k l) by auto.
  rewrite andb_comm. f_equal. ring.
Qed.

Lemma contribs_sym fes ports itgs : (forall g, In g itgs -> sym_integ fes ports g) -> forall a b,
  mat_at (all_contribs fes fes ports itgs (fun g _ => g)) a b = mat_at (all_contribs fes fes ports itgs (fun g _ => g)) b a.
Proof.
  intros H a b. unfold all_contribs.
  assert (G : forall fs, (forall pf, In pf fs -> In pf (real_faces ports)) -> forall a b,
    mat_at (flat_map (fun pf => flat_map (fun g : mat_integ => face_contribs fes fes (fst pf) (snd pf) (g (snd pf))) itgs) fs) a b =
    mat_at (flat_map (fun pf => flat_map (fun g : mat_integ => face_contribs fes fes (fst pf) (snd pf) (g (snd pf))) itgs) fs) b a).
  { induction fs as [|[p f] fs IH]; intros Hin a0 b0; [reflexivity|]. cbn [flat_map fst snd]. rewrite !mat_at_app, (IH (fun x Hx => Hin x (or_intror Hx)) a0 b0). f_equal.
    specialize (Hin (p, f) (or_introl eq_refl)). revert H. clear -Hin. induction itgs as [|g gs IH]; intros H; [reflexivity|].
    cbn [flat_map]. rewrite !mat_at_app, IH by (intros; apply H; right; auto). f_equal. apply face_sym. intros. apply (H g (or_introl eq_refl) p f); auto. }
  apply G. auto.
Qed.

Lemma assembled_symmetric fes itgs ports A : ports_fit fes ports -> mats_fit fes fes A ->
  (forall g, In g itgs -> elem_fits fes fes ports (fun _ => g)) -> (forall g, In g itgs -> sym_integ fes ports g) ->
  symmetric_on fes (bm_entry A) ->
  exists B, itf_matrices fes itgs ports A = Ok B /\ symmetric_on fes (bm_entry B).
Proof.
  intros P F D Sg Sa. destruct (C49_matrices fes fes itgs ports A P P F D) as (B & _ & _ & E & V). exists B. split; [apply E; reflexivity|].
  intros p q Hp Hq. rewrite (V p q), (V q p), (Sa p q Hp Hq), (contribs_sym fes ports itgs Sg). reflexivity.
Qed.

Lemma blocks_sym fes ports bs : blocks_fit fes ports (fun n1 n2 f => sized n1 n2 n1 n2 (bs f) /\ sym_blocks n1 n2 (bs f)) ->
  elem_fits fes fes ports (fun _ => block_integ bs) /\ sym_integ fes ports (block_integ bs).
Proof.
  intros H. split.
  - intros p f i j Hf Hi Hj. destruct (H p f Hf) as [((A1 & A2) & (B1 & B2) & (C1 & C2) & D1 & D2) _].
    destruct i as [|[|i]]; [| |lia]; (destruct j as [|[|j]]; [| |lia]); cbn [block_integ fm_h fm_w]; lia.
  - intros p f i j k l Hf Hi Hj Hk Hl. destruct (H p f Hf) as [_ (S1 & S2 & S3)].
    destruct i as [|[|i]]; [| |lia]; (destruct j as [|[|j]]; [| |lia]); cbn [block_integ fm_val]; auto. symmetry. auto.
Qed.

Lemma flow_symmetric fes M B : symmetric_on fes (flow_matrix M B) <-> (forall i j, in_range fes (0, i) -> in_range fes (0, j) -> M i j = M j i).
Proof.
  split.
  - intros H i j Hi Hj. apply (H (0, i) (0, j) Hi Hj).
  - intros H [[|a] i] [[|c] j] Hi Hj; cbn [flow_matrix fst snd]; auto.
Qed.
