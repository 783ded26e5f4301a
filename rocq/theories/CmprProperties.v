(** C139: copying, comparing and cutting solutions. *)
From Coq Require Import Reals List Bool Lia Arith ZArith String Lra.
From Verif Require Import Outcome ListLemmas LaBase BlockVec TagsModel SnapshotModel RomModel RomProofs MbModel MbSpec MbVecProofs MbMiscProofs
  CmprModel CmprSpec CmprProofs.
Import ListNotations.
Local Open Scope nat_scope.

(** C139: a solution is copied, entry for entry, exactly when it has the blocks of the solver; copying or comparing
    any other stops the program. *)
Theorem C139_layout : forall ns nv fes sv fields u t n s n' s', shaped n s u -> shaped n' s' t ->
  (bv_off t = bv_off u -> copy_solution u t = Ok t) /\
  (bv_off t <> bv_off u -> copy_solution u t = Abort /\ compare_solution ns nv fes sv fields u t = Abort).
Proof.
  intros ns nv fes sv fields u t n s n' s' Su St. destruct (copy_cases u t n s n' s' Su St) as [A B].
  split; auto. intros H. split; auto. apply (compare_refused ns nv fes sv fields u t n s n' s' Su St H).
Qed.
Print Assumptions C139_layout.

(** C139: the relative error of each variable is the root of the ratio of the integrals of the squared difference and
    of the squared solution, over all subdomains together; the error fields, when asked for, hold test minus solution. *)
Theorem C139_error : forall ns nv size fes sv fields u t,
  sub_shaped ns nv size u -> sub_shaped ns nv size t -> spaces_ok ns nv size fes ->
  (sv = true -> exists es, fields = Some es /\ List.length es = nv * ns) ->
  exists r fields', compare_solution ns nv fes sv fields u t = Ok (r, fields') /\ List.length r = nv /\
  (forall v, v < nv ->
     let tot := total_square ns fes nv v in
     (0 < tot (fun m v i => bentry u (by_sub nv m v) i) -> 0 <= vnth r v /\
      vnth r v * vnth r v * tot (fun m v i => bentry u (by_sub nv m v) i) =
      tot (fun m v i => bentry u (by_sub nv m v) i - bentry t (by_sub nv m v) i))%R) /\
  (sv = false -> fields' = fields) /\
  (sv = true -> exists es, fields' = Some es /\ List.length es = nv * ns /\ forall m v, m < ns -> v < nv ->
     List.length (nth (by_sub nv m v) es []) = size m v /\
     forall k, k < size m v -> vnth (nth (by_sub nv m v) es []) k = (bentry t (by_sub nv m v) k - bentry u (by_sub nv m v) k)%R).
Proof.
  intros ns nv size fes sv fields u t Su St SP HF. destruct (compare_ok ns nv size fes sv fields u t Su St SP HF) as (r & f & E & L & V & F).
  exists r, f. split; auto. split; auto. split; auto. intros v Hv tot Ht. rewrite V by auto.
  apply quotient; auto. eapply total_nonneg; eauto.
Qed.
Print Assumptions C139_error.

(** C139: a variable has error zero exactly when the two fields agree at every point with positive weight. *)
Theorem C139_zero : forall ns nv size fes sv fields u t r fields',
  sub_shaped ns nv size u -> sub_shaped ns nv size t -> spaces_ok ns nv size fes ->
  (sv = true -> exists es, fields = Some es /\ List.length es = nv * ns) ->
  compare_solution ns nv fes sv fields u t = Ok (r, fields') -> forall v, v < nv ->
  (0 < total_square ns fes nv v (fun m v i => bentry u (by_sub nv m v) i))%R ->
  (vnth r v = 0%R <-> forall m q d, m < ns -> q < fs_np (fes (by_sub nv m v)) -> d < fs_vdim (fes (by_sub nv m v)) ->
     (0 < fs_w (fes (by_sub nv m v)) q)%R ->
     rsum (size m v) (fun i => fs_shape (fes (by_sub nv m v)) q d i * bentry u (by_sub nv m v) i)%R =
     rsum (size m v) (fun i => fs_shape (fes (by_sub nv m v)) q d i * bentry t (by_sub nv m v) i)%R).
Proof.
  intros ns nv size fes sv fields u t r fields' Su St SP HF E v Hv Ht.
  destruct (C139_error ns nv size fes sv fields u t Su St SP HF) as (r' & f' & E' & L & V & _).
  rewrite E in E'. injection E' as <- <-. destruct (V v Hv Ht) as [N Q]. clear V.
  set (D := total_square ns fes nv v (fun m v i => bentry u (by_sub nv m v) i - bentry t (by_sub nv m v) i)%R) in *.
  assert (Z : (vnth r v = 0 <-> D = 0)%R).
  { split; intros H; [rewrite H in Q; lra|]. rewrite H in Q. apply Rmult_integral in Q as [Q|Q]; [|lra].
    apply Rmult_integral in Q as [Q|Q]; exact Q. }
  rewrite Z. unfold D. apply (total_zero ns nv size fes v (fun m v i => bentry u (by_sub nv m v) i) (fun m v i => bentry t (by_sub nv m v) i) SP Hv).
Qed.
Print Assumptions C139_zero.

(** C139: a test solution off by the factor [1 + e] everywhere has error [|e|] in every variable. *)
Theorem C139_scaled : forall ns nv size fes sv fields u t e r fields',
  sub_shaped ns nv size u -> sub_shaped ns nv size t -> spaces_ok ns nv size fes ->
  (sv = true -> exists es, fields = Some es /\ List.length es = nv * ns) ->
  (forall m v k, m < ns -> v < nv -> k < size m v -> bentry t (by_sub nv m v) k = ((1 + e) * bentry u (by_sub nv m v) k)%R) ->
  compare_solution ns nv fes sv fields u t = Ok (r, fields') -> forall v, v < nv ->
  (0 < total_square ns fes nv v (fun m v i => bentry u (by_sub nv m v) i))%R -> vnth r v = Rabs e.
Proof.
  intros ns nv size fes sv fields u t e r fields' Su St SP HF HT E v Hv Ht.
  destruct (C139_error ns nv size fes sv fields u t Su St SP HF) as (r' & f' & E' & L & V & _).
  rewrite E in E'. injection E' as <- <-. destruct (V v Hv Ht) as [N Q]. clear V.
  set (U := total_square ns fes nv v (fun m v i => bentry u (by_sub nv m v) i)) in *.
  assert (S0 : total_square ns fes nv v (fun m v i => bentry u (by_sub nv m v) i - bentry t (by_sub nv m v) i)%R = (e * e * U)%R).
  { unfold U, total_square. rewrite <- rsum_scal. apply rsum_ext. intros m Hm. rewrite <- square_scale.
    transitivity (square_integral (fes (by_sub nv m v)) (fun i => - e * bentry u (by_sub nv m v) i)%R).
    - apply square_ext. intros i Hi. destruct (SP m v Hm Hv) as [Sz _]. rewrite Sz in Hi. rewrite HT by auto. ring.
    - rewrite !square_scale. ring. }
  rewrite S0 in Q. apply Rmult_eq_reg_r in Q; [|lra].
  rewrite <- (Rabs_right (vnth r v)) by lra. apply Rsqr_eq_abs_0. exact Q.
Qed.
Print Assumptions C139_scaled.

(** C139 for the error fields is false without a comparison: what is saved is what the memory held, while any
    comparison leaves nothing of it. *)
Theorem C139_uncompared_refuted : forall ns nv size, 0 < ns -> 0 < nv -> 0 < size 0 0 ->
  exists mem1 mem2 : list vec, List.length mem1 = nv * ns /\ List.length mem2 = nv * ns /\
  (forall m v, m < ns -> v < nv -> List.length (nth (by_sub nv m v) mem1 []) = size m v /\
                                   List.length (nth (by_sub nv m v) mem2 []) = size m v) /\
  init_error_fields true mem1 <> init_error_fields true mem2 /\
  forall fes u t, sub_shaped ns nv size u -> sub_shaped ns nv size t -> spaces_ok ns nv size fes -> exists c,
    compare_solution ns nv fes true (init_error_fields true mem1) u t = Ok c /\
    compare_solution ns nv fes true (init_error_fields true mem2) u t = Ok c.
Proof.
  intros ns nv size Hn Hv Hs.
  set (mem := fun x : R => map (fun k => repeat x (size (k / nv) (k mod nv))) (seq 0 (nv * ns))).
  assert (Lm : forall x, List.length (mem x) = nv * ns) by (intros; unfold mem; rewrite map_length, seq_length; auto).
  assert (Nm : forall x m v, m < ns -> v < nv -> nth (by_sub nv m v) (mem x) [] = repeat x (size m v)).
  { intros x m v Hm Hvv. pose proof (sub_lt ns nv m v Hm Hvv) as B. unfold mem.
    set (g := fun k => repeat x (size (k / nv) (k mod nv))). rewrite nth_indep with (d' := g 0) by (rewrite map_length, seq_length; auto).
    rewrite (map_nth g), seq_nth by auto. unfold g, by_sub. cbn [Nat.add].
    rewrite (Nat.add_comm (m * nv)), Nat.div_add, Nat.mod_add, Nat.div_small, Nat.mod_small by lia. reflexivity. }
  exists (mem 0%R), (mem 1%R). split; auto. split; auto.
  split. { intros. rewrite !Nm, !repeat_length; auto. }
  split.
  { intros E. cbn [init_error_fields] in E. assert (X : mem 0%R = mem 1%R) by congruence.
    pose proof (Nm 0%R 0 0 Hn Hv) as A. pose proof (Nm 1%R 0 0 Hn Hv) as B. rewrite X, B in A.
    destruct (size 0 0); [lia|]. cbn [repeat] in A. injection A as A _. lra. }
  intros fes u t Su St SP.
  destruct (same_fields ns nv size fes u t (mem 0%R) (mem 1%R) Su St SP (Lm 0%R) (Lm 1%R)) as (c & A & B). exists c. auto.
Qed.
Print Assumptions C139_uncompared_refuted.

(** C139: with a basis for each variable, each block of each subdomain is a snapshot, under the name of the component
    and of the variable. *)
Theorem C139_snapshots : forall ns nv size topo vars dom u, sub_shaped ns nv size u ->
  List.length (t_names topo) = ns -> List.length vars = nv ->
  exists blocks tags, prepare_snapshots true topo vars (bv_off u) dom u = Ok (blocks, tags) /\
  List.length blocks = nv * ns /\ List.length tags = nv * ns /\
  forall m v nm x, nth_error (t_names topo) m = Some nm -> nth_error vars v = Some x ->
    nth_error tags (by_sub nv m v) = Some {| comp := nm; var := x |} /\
    exists b, nth_error blocks (by_sub nv m v) = Some b /\ List.length b = size m v /\
    forall k, k < size m v -> vnth b k = bentry u (by_sub nv m v) k.
Proof. exact prepare_separate. Qed.
Print Assumptions C139_snapshots.

(** ... with one basis for all variables, the snapshot of a subdomain is its variables one after the other. *)
Theorem C139_unified_snapshots : forall ns nv size topo vars var_off dom u, sub_shaped ns nv size u ->
  List.length (t_names topo) = ns -> offsets dom ns (fun m => nsum nv (size m)) ->
  exists blocks tags, prepare_snapshots false topo vars var_off dom u = Ok (blocks, tags) /\
  List.length blocks = ns /\ List.length tags = ns /\
  forall m nm, nth_error (t_names topo) m = Some nm ->
    nth_error tags m = Some {| comp := nm; var := EmptyString |} /\
    exists b, nth_error blocks m = Some b /\ List.length b = nsum nv (size m) /\
    forall v k, v < nv -> k < size m v -> vnth b (nsum v (size m) + k) = bentry u (by_sub nv m v) k.
Proof. exact prepare_unified. Qed.
Print Assumptions C139_unified_snapshots.
