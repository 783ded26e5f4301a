(** C135: the file of the positions of quadrature points. *)
From Coq Require Import ZArith List Bool String Ascii Reals Lia.
From Verif Require Import Outcome HdfModel HdfSpec EqcModel EqcSpec EqcProofs EqcExamples.
Import ListNotations.
Open Scope list_scope.

(** The file has the number of components, and for each component a table whose rows are the positions of the samples of its rule, in
    order; it has no table for another name. *)
Theorem C135_positions dim lf full_dg stk names fs ss : dim <= 3 -> (forall c i, List.length (stk c i) = 3) -> (lf = true -> full_dg = false) ->
  NoDup names -> List.length names = List.length fs -> Forall2 (trained dim) fs ss ->
  exists file, save_coords dim 0 true lf full_dg stk names (map Some fs) = Ok (Some file) /\ count file = Ok (Z.of_nat (List.length names)) /\
    (forall k n f s, nth_error names k = Some n -> nth_error fs k = Some f -> nth_error ss k = Some s ->
       exists m, table file n = Ok m /\ positions dim f s m) /\
    (forall n, ~ In n names -> table file n = Abort).
Proof.
  intros Hd Hk Hlf Hn Hl Ht. destruct (save_coords_ok dim lf full_dg stk names fs ss Hd Hk Hlf Hn Hl Ht) as (file & E & Ec & H & Ho).
  exists file. split; auto. split; auto. split; auto. intros k n f s E1 E2 E3. destruct (H k n f s E1 E2 E3) as (m & Em & Hp & _). eauto.
Qed.
Print Assumptions C135_positions.

(** In space, the file depends on the rules only. *)
Theorem C135_space rank component lf full_dg stk stk' names fs : (forall c i, List.length (stk c i) = 3) -> (forall c i, List.length (stk' c i) = 3) ->
  (forall f, In (Some f) fs -> forall el qp, List.length (q_pos f el qp) = 3) ->
  save_coords 3 rank component lf full_dg stk names fs = save_coords 3 rank component lf full_dg stk' names fs.
Proof. apply save_coords_memory. Qed.
Print Assumptions C135_space.

(** In the plane, the third column is whatever was in the memory. *)
Theorem C135_plane_refuted : exists names fs ss stk stk' file file' n m m',
  NoDup names /\ Forall2 (trained 2) fs ss /\ (forall c i, List.length (stk c i) = 3) /\ (forall c i, List.length (stk' c i) = 3) /\
  save_coords 2 0 true false false stk names (map Some fs) = Ok (Some file) /\ table file n = Ok m /\
  save_coords 2 0 true false false stk' names (map Some fs) = Ok (Some file') /\ table file' n = Ok m' /\
  dense_at m 0 2 <> dense_at m' 0 2.
Proof.
  destruct (xq_plane 0) as (file & m & E & Em & _ & _ & H). destruct (xq_plane 1) as (file' & m' & E' & Em' & _ & _ & H').
  exists ["square"; "circle"]%string, [xq_form 2 1 xq_s1; xq_form 2 2 xq_s2], [xq_s1; xq_s2], (xq_mem 0), (xq_mem 1), file, file', "circle"%string, m, m'.
  split; [apply xq_names|]. split; [apply xq_trained; lia|]. do 2 (split; [auto|]). do 4 (split; [assumption|]). rewrite H, H'.
  intros X. injection X as X. symmetry in X. exact (R1_neq_R0 X).
Qed.
Print Assumptions C135_plane_refuted.

(** A file is only written by the first process, by a flow solver with component-wise trained quadrature rules, and only if every component
    has its rule. *)
Theorem C135_guarded use_rom nonlinear comp_level submesh eqp flow load dim rank component lf full_dg stk names file :
  print_coords use_rom nonlinear comp_level submesh eqp flow load dim rank component lf full_dg stk names = Ok (Some file) ->
  (use_rom = true /\ nonlinear = true /\ comp_level = true /\ submesh = false /\ eqp = true /\ flow = true /\ component = true /\ rank = 0) /\
  exists fs, load = Ok fs /\ List.length fs = List.length names /\ Forall complete fs.
Proof.
  intros E. unfold print_coords in E. apply oassert_ok in E as (H1 & E). destruct nonlinear; [|discriminate]. cbn [negb] in E.
  apply oassert_ok in E as (H2 & E). apply oassert_ok in E as (H3 & E). apply oassert_ok in E as (H4 & E). apply obind_ok in E as (fs & E1 & E).
  destruct flow; [|discriminate]. apply save_coords_complete in E as (H5 & H6 & H7 & H8). split; [|exists fs; auto].
  destruct submesh; [discriminate|]. auto 10.
Qed.
Print Assumptions C135_guarded.

(** The other processes write nothing, whatever the rules. *)
Theorem C135_other_ranks dim rank lf full_dg stk names fs : 0 < rank -> save_coords dim rank true lf full_dg stk names fs = Ok None.
Proof. intros H. unfold save_coords. destruct (Nat.eqb_spec rank 0); [lia|reflexivity]. Qed.
Print Assumptions C135_other_ranks.

(** A trained rule without samples cannot be written. *)
Theorem C135_empty_refuted : exists names fs stk, NoDup names /\ (forall c i, List.length (stk c i) = 3) /\
  (forall f, In (Some f) fs -> exists q np, q_dnfi f = [q] /\ qi_rule q = Some np /\ qi_samples q = Some []) /\
  save_coords 3 0 true false false stk names fs = UB.
Proof.
  exists ["square"]%string, [Some (xq_form 3 1 [])], (xq_mem 0). split; [repeat constructor; intros []|]. split; auto. split; [|exact xq_empty].
  intros f [E|[]]. injection E as <-. eexists. exists 4. split; reflexivity || (split; reflexivity).
Qed.
Print Assumptions C135_empty_refuted.
