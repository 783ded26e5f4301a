(** Properties of subdomains assembled from components. *)
From Coq Require Import ZArith QArith Qreals List Bool Lia Lra Reals String.
From Verif Require Import Outcome TopoModel CompModel LaBase SplitModel SplitSpec AsmModel AsmSpec AsmProofs AsmExamples.
Import ListNotations.
Local Open Scope nat_scope.

(** C122: the interfaces of the reference ports are built whenever the ports are; every port of the configuration joins two
    subdomains along the boundary elements of its reference port, and where the second subdomain is placed as the reference port
    says, the two sides of the interface are at the same point for every coordinate, up to the tolerance of the ports and
    rounding.  [AsmExamples.ax_comps] meets the hypotheses. *)
Theorem C122_same_points : forall thr eps comps X P refs types, (forall c, In c comps -> comp_ok c) ->
  (forall r pd, zth refs r pd -> built thr eps comps X (P r) pd) -> (forall t, In t types -> exists c, zth comps t c) ->
  forall ports ptypes idx, setup_ports types refs ports ptypes = Ok idx ->
  exists infos subs, ref_interfaces comps refs = Ok infos /\ sub_meshes comps types = Ok subs /\
  forall k p r, nth_error ports k = Some p -> nth_error idx k = Some r ->
  exists pd l c1 s1 s2, zth refs r pd /\ zth infos r l /\ gp_attr1 p = pd_attr1 pd /\ gp_attr2 p = pd_attr2 pd /\
    map (fun x => (Z.of_nat (ii_be1 x), Z.of_nat (ii_be2 x))) l = pd_be pd /\
    zth types (gp_mesh1 p) (pd_comp1 pd) /\ zth types (gp_mesh2 p) (pd_comp2 pd) /\ zth comps (pd_comp1 pd) c1 /\
    zth subs (gp_mesh1 p) s1 /\ zth subs (gp_mesh2 p) s2 /\
    forall x, In x l -> exists t1 t2 a b,
      interface_transformations subs (Z.to_nat (gp_mesh1 p)) (Z.to_nat (gp_mesh2 p)) x = Ok (t1, t2) /\
      (nth_error (m_bdr (cm_mesh c1)) (ii_be1 x) = Some (a, b, pd_attr1 pd) \/ nth_error (m_bdr (cm_mesh c1)) (ii_be1 x) = Some (b, a, pd_attr1 pd)) /\
      forall cf1 cf2 xi, fits cf1 (P r) cf2 -> (0 <= xi <= 1)%R ->
        side_point (place cf1 (X (pd_comp1 pd))) s1 t1 xi = along (place cf1 (X (pd_comp1 pd)) a) (place cf1 (X (pd_comp1 pd)) b) xi /\
        (dist2 (side_point (place cf1 (X (pd_comp1 pd))) s1 t1 xi) (side_point (place cf2 (X (pd_comp2 pd))) s2 t2 xi)
          <= 2 * ((Q2R thr + 2 * eps) * (Q2R thr + 2 * eps)))%R.
Proof. intros. eapply points_same; eauto. Qed.
Print Assumptions C122_same_points.

(** C122: the placements that fit: the angles add up and the translation is that of the port, turned and moved by the first
    placement. *)
Theorem C122_placements : forall cf1 P cf2, mc_r0 cf2 = (mc_r0 cf1 + mc_r0 P)%R ->
  (fits cf1 P cf2 <->
   mc_t0 cf2 = (cos (mc_r0 cf1) * mc_t0 P - sin (mc_r0 cf1) * mc_t1 P + mc_t0 cf1)%R /\
   mc_t1 cf2 = (sin (mc_r0 cf1) * mc_t0 P + cos (mc_r0 cf1) * mc_t1 P + mc_t1 cf1)%R).
Proof.
  intros cf1 P cf2 H. rewrite (fits_iff _ _ _ H). unfold transform2d. cbn [fst snd]. split; [intros Q; injection Q as -> ->; auto|intros (-> & ->); auto].
Qed.
Print Assumptions C122_placements.

(** C123: a configuration that places the second subdomain elsewhere is not refused: here its side of the interface is five units
    away from the other. *)
Theorem C123_misplaced_refuted : exists comps X P refs types ports ptypes p infos subs l x s1 s2 t1 t2 cf1 cf2,
  (forall c, In c comps -> comp_ok c) /\ (forall r pd, zth refs r pd -> built ax_thr 0 comps X P pd) /\
  setup_ports types refs ports ptypes = Ok [0%Z] /\ ref_interfaces comps refs = Ok infos /\ sub_meshes comps types = Ok subs /\
  nth_error ports 0 = Some p /\ nth_error infos 0 = Some l /\ In x l /\ zth subs (gp_mesh1 p) s1 /\ zth subs (gp_mesh2 p) s2 /\
  interface_transformations subs (Z.to_nat (gp_mesh1 p)) (Z.to_nat (gp_mesh2 p)) x = Ok (t1, t2) /\
  forall xi, dist2 (side_point (place cf1 (X 0%Z)) s1 t1 xi) (side_point (place cf2 (X 1%Z)) s2 t2 xi) = 25%R.
Proof.
  exists ax_comps, ax_X, ax_P, [ax_pd], ax_types, [ax_port], [0%Z], ax_port, [[ItfInfo 1 2 64 129]], ax_subs, [ItfInfo 1 2 64 129], (ItfInfo 1 2 64 129),
    (nth 0 ax_subs (SMesh [] [] [] [] [])), (nth 1 ax_subs (SMesh [] [] [] [] [])), ax_t1, ax_t2, ax_cf1, ax_far.
  split; [exact ax_comps_ok|]. split; [exact ax_built|]. split; [exact ax_setup|]. split; [exact ax_infos|]. split; [exact ax_meshes|]. split; [reflexivity|]. split; [reflexivity|]. split; [left; reflexivity|].
  split; [split; [cbn; lia|reflexivity]|]. split; [split; [cbn; lia|reflexivity]|]. split; [exact ax_trans|]. exact ax_gap.
Qed.
Print Assumptions C123_misplaced_refuted.

(** C124: when the component meshes are accepted, every component has the mesh of the last entry with its name, and all have the
    same kind of nodes. *)
Theorem C124_loaded : forall cn num nsub l ms, load_components cn num nsub l = Ok ms ->
  exists files, l = Some files /\ List.length ms = num /\ 0 < num /\ 0 < nsub /\
  (forall c m, nth_error ms c = Some m -> last_file cn files c m) /\
  (exists name, forall m, In m ms -> mf_coll m = Some name) /\
  (exists m, nth_error ms 0 = Some m /\ (mf_dim m = 2 \/ mf_dim m = 3)).
Proof. exact load_ok. Qed.
Print Assumptions C124_loaded.

(** C124: components with different nodes are refused, if every component has a file with nodes. *)
Theorem C124_refused_partial : forall names files, NoDup names -> 0 < List.length names -> (forall n, In n names -> exists m, In (n, m) files) ->
  (forall n m, In (n, m) files -> In n names -> exists c, mf_coll m = Some c) ->
  setup_components (name_map names) (List.length names) (Some files) <> UB.
Proof. exact setup_not_ub. Qed.
Print Assumptions C124_refused_partial.

Example C124_refused_example : setup_components (name_map ["a"; "b"]%string) 2 (Some [("a"%string, MeshFile (Some "H1"%string) 2); ("b"%string, MeshFile (Some "L2"%string) 2)]) = Abort.
Proof. reflexivity. Qed.

(** C124: a component without file, a mesh without nodes and a one-dimensional mesh are not refused: the null pointer is used. *)
Theorem C124_missing_file_refuted : exists names files n, In n names /\ (forall m, ~ In (n, m) files) /\
  load_components (name_map names) (List.length names) 1 (Some files) = UB.
Proof.
  exists ["a"; "b"]%string, [("a"%string, MeshFile (Some "H1"%string) 2)], "b"%string. split; [cbn; auto|]. split; [intros m [Q|[]]; discriminate|reflexivity].
Qed.
Print Assumptions C124_missing_file_refuted.

Theorem C124_no_nodes_refuted : exists names files n m, In (n, m) files /\ In n names /\ mf_coll m = None /\
  load_components (name_map names) (List.length names) 1 (Some files) = UB.
Proof. exists ["a"]%string, [("a"%string, MeshFile None 2)], "a"%string, (MeshFile None 2). cbn. auto. Qed.
Print Assumptions C124_no_nodes_refuted.

Theorem C124_one_dimension_refuted : exists names files, (forall n m, In (n, m) files -> mf_dim m = 1 /\ mf_coll m = Some "H1"%string) /\ (forall n, In n names -> exists m, In (n, m) files) /\
  load_components (name_map names) (List.length names) 1 (Some files) = UB.
Proof.
  exists ["a"]%string, [("a"%string, MeshFile (Some "H1"%string) 1)]. split; [intros n m [Q|[]]; injection Q as <- <-; auto|]. split; [intros n [<-|[]]; eexists; left; reflexivity|reflexivity].
Qed.
Print Assumptions C124_one_dimension_refuted.
