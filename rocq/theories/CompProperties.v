(** Properties C23–C27 and C72–C77: configurations built from components. *)
From Coq Require Import ZArith QArith Qabs List Bool String Lia Permutation Reals.
From Verif Require Import Outcome TopoModel TopoSpec CompModel CompSpec CompProofs CompPortProofs CompBuildProofs CompExamples.
Import ListNotations.
Local Open Scope nat_scope.
Local Open Scope list_scope.

(** C23: numbering of component instances. *)
Theorem C23_instances_numbered : forall nc types,
  (forall t, In t types -> (0 <= t < Z.of_nat nc)%Z) ->
  exists idx cnt, count_instances nc types = Ok (idx, cnt) /\
  List.length idx = List.length types /\ List.length cnt = nc /\
  (forall m t, nth_error types m = Some t -> nth_error idx m = Some (occurrences types t m)) /\
  (forall t, t < nc -> nth_error cnt t = Some (count_occ Z.eq_dec types (Z.of_nat t))) /\
  (forall m m' t i, nth_error types m = Some t -> nth_error types m' = Some t ->
     nth_error idx m = Some i -> nth_error idx m' = Some i -> m = m') /\
  (forall t n c, nth_error cnt t = Some c ->
     (n < c <-> exists m, nth_error types m = Some (Z.of_nat t) /\ nth_error idx m = Some n)).
Proof. exact numbering. Qed.
Print Assumptions C23_instances_numbered.

(** C76: a component type that does not exist is not rejected: the array of counts is accessed out of range. *)
Theorem C76_unknown_type_refuted : exists nc types,
  ~ (forall t, In t types -> (0 <= t < Z.of_nat nc)%Z) /\ count_instances nc types = UB.
Proof.
  exists 2, [0; 2; 1]%Z. split; [|reflexivity]. intros H. specialize (H 2%Z). simpl in H. lia.
Qed.
Print Assumptions C76_unknown_type_refuted.

Theorem C76_unknown_type_is_undefined : forall nc types,
  ~ (forall t, In t types -> (0 <= t < Z.of_nat nc)%Z) -> count_instances nc types = UB.
Proof. exact numbering_bad. Qed.
Print Assumptions C76_unknown_type_is_undefined.

(** C24, C27: an accepted configuration. *)
Theorem C24_port_attributes : forall comps types brows prows battrs ports attrs,
  configure comps types brows prows = Ok (battrs, ports, attrs) ->
  Forall2 port_of_row prows ports /\
  NoDup (map gp_attr ports) /\
  (forall p b, In p ports -> In b battrs -> (b + 1 < gp_attr p)%Z) /\
  (forall p k a, In p ports -> In k comps -> In a (c_attrs k) -> (a < gp_attr p)%Z).
Proof.
  intros comps types brows prows battrs ports attrs H.
  apply configure_ok in H as (_ & A & B & C & D & _). auto.
Qed.
Print Assumptions C24_port_attributes.

(** C24: each port is an instance of its reference port and connects two different subdomains. *)
Theorem C24_ports_fit_their_reference : forall types refs ports ptypes res,
  setup_ports types refs ports ptypes = Ok res ->
  res = ptypes /\ List.length ptypes = List.length ports /\
  forall n p t, nth_error ports n = Some p -> nth_error ptypes n = Some t ->
    exists r, (0 <= t)%Z /\ nth_error refs (Z.to_nat t) = Some r /\
      nth_error types (Z.to_nat (gp_mesh1 p)) = Some (pd_comp1 r) /\
      nth_error types (Z.to_nat (gp_mesh2 p)) = Some (pd_comp2 r) /\
      gp_attr1 p = pd_attr1 r /\ gp_attr2 p = pd_attr2 r /\ gp_mesh1 p <> gp_mesh2 p.
Proof. exact setup_ports_ok. Qed.
Print Assumptions C24_ports_fit_their_reference.

(** C24: and a port that fits its reference port is accepted. *)
Theorem C24_fitting_ports_are_accepted : forall types refs ports ptypes,
  List.length ptypes = List.length ports ->
  (forall n p t, nth_error ports n = Some p -> nth_error ptypes n = Some t ->
    exists r, (0 <= t)%Z /\ nth_error refs (Z.to_nat t) = Some r /\ (0 <= gp_mesh1 p)%Z /\ (0 <= gp_mesh2 p)%Z /\
      nth_error types (Z.to_nat (gp_mesh1 p)) = Some (pd_comp1 r) /\
      nth_error types (Z.to_nat (gp_mesh2 p)) = Some (pd_comp2 r) /\
      gp_attr1 p = pd_attr1 r /\ gp_attr2 p = pd_attr2 r /\ gp_mesh1 p <> gp_mesh2 p) ->
  setup_ports types refs ports ptypes = Ok ptypes.
Proof. exact setup_ports_accepts. Qed.
Print Assumptions C24_fitting_ports_are_accepted.

(** C27: every boundary element carries the attribute of the last line or port that mentions it. *)
Theorem C27_boundary_attributes : forall comps types brows prows battrs ports attrs,
  configure comps types brows prows = Ok (battrs, ports, attrs) ->
  first_occurrences (map (fun r => fst (fst r)) brows) battrs /\
  List.length attrs = List.length types /\
  forall m k r, instance_of comps types m k -> nth_error attrs (Z.to_nat m) = Some r ->
    Forall2 (fun a g => assigned (boundary_assignments brows ++ port_assignments ports) m a g /\ (0 <= g)%Z)
            (c_elems k) r.
Proof.
  intros comps types brows prows battrs ports attrs H.
  apply configure_ok in H as (A & _ & _ & _ & _ & B & C). auto.
Qed.
Print Assumptions C27_boundary_attributes.

(** C27: a configuration that mentions every boundary, with existing subdomains and boundaries only, is
    accepted. *)
Theorem C27_complete_configuration_accepted : forall comps types brows prows,
  (forall t, In t types -> (0 <= t < Z.of_nat (List.length comps))%Z) ->
  (forall k, In k comps -> c_attrs k <> [] /\ incl (c_elems k) (c_attrs k)) ->
  brows <> [] ->
  (forall g m a, In (g, m, a) brows -> (0 <= g)%Z /\ has_boundary comps types m a) ->
  (forall r, In r prows -> has_boundary comps types (pr_mesh1 r) (pr_attr1 r) /\
                           has_boundary comps types (pr_mesh2 r) (pr_attr2 r)) ->
  (forall m k a, instance_of comps types m k -> In a (c_elems k) ->
     (exists g, In (g, m, a) brows) \/
     (exists r, In r prows /\ ((pr_mesh1 r = m /\ pr_attr1 r = a) \/ (pr_mesh2 r = m /\ pr_attr2 r = a)))) ->
  exists battrs ports attrs, configure comps types brows prows = Ok (battrs, ports, attrs).
Proof. exact configure_accepts. Qed.
Print Assumptions C27_complete_configuration_accepted.

(** C25: writing reference port data and reading it back, in whatever order the map is traversed. *)
Theorem C25_port_file_round_trip : forall names pnames p entries nm idx refs,
  NoDup names -> NoDup pnames ->
  (exists n1, named names (pd_comp1 p) n1) -> (exists n2, named names (pd_comp2 p) n2) ->
  NoDup (map fst (pd_vtx p)) -> Permutation entries (pd_vtx p) ->
  named pnames idx nm -> nth_error refs (Z.to_nat idx) = Some None ->
  exists f p', write_port_file names p entries nm = Ok f /\
  read_port_file (name_map pnames) (refs, name_map names) f = Ok (upd refs (Z.to_nat idx) (Some p'), name_map names) /\
  pd_comp1 p' = pd_comp1 p /\ pd_comp2 p' = pd_comp2 p /\ pd_attr1 p' = pd_attr1 p /\ pd_attr2 p' = pd_attr2 p /\
  same_map (pd_vtx p') (pd_vtx p) /\ pd_be p' = pd_be p.
Proof. exact port_file_roundtrip. Qed.
Print Assumptions C25_port_file_round_trip.

(** C72: port data naming unknown components is not rejected. *)
Theorem C72_unknown_component_refuted :
  exists names pnames r p cn, NoDup names /\ NoDup pnames /\ ~ In (rec_comp1 r) names /\ ~ In (rec_comp2 r) names /\
  read_port_file (name_map pnames) ([None], name_map names) [r] = Ok ([Some p], cn) /\
  pd_comp1 p = 0%Z /\ pd_comp2 p = 0%Z.
Proof. exact unknown_component_accepted. Qed.
Print Assumptions C72_unknown_component_refuted.

(** C77: every reference port has data, from its first definition. *)
Theorem C77_first_definition : forall pnames cn sources ps, NoDup pnames ->
  setup_reference_ports pnames cn sources = Ok ps ->
  List.length ps = List.length pnames /\
  forall i n p, nth_error pnames i = Some n -> nth_error ps i = Some p ->
    exists d, first_definition (definitions sources) n d /\ gives cn d p.
Proof. exact reference_ports_first. Qed.
Print Assumptions C77_first_definition.

(** C26: what a built port guarantees. *)
Theorem C26_built_port : forall dim thr c1 c2 a1 a2 l1 l2 x1 x2 pd,
  build_port dim thr c1 c2 a1 a2 l1 l2 x1 x2 = Ok pd ->
  pd_comp1 pd = c1 /\ pd_comp2 pd = c2 /\ pd_attr1 pd = a1 /\ pd_attr2 pd = a2 /\
  (forall v, port_vertex l2 a2 v <-> exists w, zlookup (pd_vtx pd) v = Some w) /\
  (forall w, port_vertex l1 a1 w <-> exists v, zlookup (pd_vtx pd) v = Some w) /\
  (forall v w, zlookup (pd_vtx pd) v = Some w -> within dim thr (x1 w) (x2 v)) /\
  (forall v v' w, zlookup (pd_vtx pd) v = Some w -> zlookup (pd_vtx pd) v' = Some w -> v = v') /\
  NoDup (map snd (pd_be pd)) /\
  (forall b, elem_with l2 a2 b <-> In (Z.of_nat b) (map snd (pd_be pd))) /\
  (forall p, In p (pd_be pd) -> exists b1 b2 e1 e2 ws, p = (Z.of_nat b1, Z.of_nat b2) /\
     nth_error l1 b1 = Some e1 /\ e_attr e1 = a1 /\ nth_error l2 b2 = Some e2 /\ e_attr e2 = a2 /\
     Forall2 (fun v w => zlookup (pd_vtx pd) v = Some w) (e_vtx e2) ws /\ Permutation ws (e_vtx e1)) /\
  ((forall b b' e e', nth_error l2 b = Some e -> nth_error l2 b' = Some e' -> e_attr e = a2 -> e_attr e' = a2 ->
      Permutation (e_vtx e) (e_vtx e') -> b = b') ->
   NoDup (map fst (pd_be pd)) /\ (forall b, elem_with l1 a1 b <-> In (Z.of_nat b) (map fst (pd_be pd)))).
Proof. exact build_port_sound. Qed.
Print Assumptions C26_built_port.

(** C73: a port that fits is not always built ... *)
Theorem C73_fitting_port_refuted : exists dim thr c1 c2 a1 a2 l1 l2 x1 x2 f,
  port_match dim thr l1 l2 a1 a2 x1 x2 f /\ build_port dim thr c1 c2 a1 a2 l1 l2 x1 x2 = Abort.
Proof. exact greedy_fails. Qed.
Print Assumptions C73_fitting_port_refuted.

(** ... but it is when the port's vertices are at least two tolerances apart, and then the vertex map is the
    given one. *)
Theorem C73_fitting_port_built_partial : forall dim thr c1 c2 a1 a2 l1 l2 x1 x2 f,
  port_match dim thr l1 l2 a1 a2 x1 x2 f ->
  (forall w w', port_vertex l1 a1 w -> port_vertex l1 a1 w' -> w <> w' -> apart dim (2 * thr) (x1 w) (x1 w')) ->
  exists pd, build_port dim thr c1 c2 a1 a2 l1 l2 x1 x2 = Ok pd /\
  (forall w, port_vertex l1 a1 w -> zlookup (pd_vtx pd) (f w) = Some w).
Proof. exact port_match_builds. Qed.
Print Assumptions C73_fitting_port_built_partial.

(** C74: transformations and their inverses. *)
Theorem C74_inverse_2d : forall c x,
  inverse_transform2d c (transform2d c x) = x /\ transform2d c (inverse_transform2d c x) = x.
Proof. intros c x. split; [apply inverse_transform2d_ok|apply transform2d_inverse_ok]. Qed.
Print Assumptions C74_inverse_2d.

Theorem C74_distance_2d : forall c x y,
  let d p q := ((fst p - fst q) * (fst p - fst q) + (snd p - snd q) * (snd p - snd q))%R in
  d (transform2d c x) (transform2d c y) = d x y.
Proof. exact transform2d_isometry. Qed.
Print Assumptions C74_distance_2d.

Theorem C74_inverse_3d : forall c x,
  inverse_transform3d c (transform3d c x) = x /\ transform3d c (inverse_transform3d c x) = x.
Proof. exact transform3d_inverse_ok. Qed.
Print Assumptions C74_inverse_3d.

(** C75: three-dimensional rotations are ignored. *)
Theorem C75_rotation_applied_refuted : exists c x y,
  mc_t0 c = 0%R /\ mc_t1 c = 0%R /\ mc_t2 c = 0%R /\
  mc_r0 c = (PI / 2)%R /\ mc_r1 c = (PI / 2)%R /\ mc_r2 c = (PI / 2)%R /\
  x = (1, 0, 0)%R /\ y = (1, 0, 0)%R /\ transform3d c x = y.
Proof. exact rotation_lost. Qed.
Print Assumptions C75_rotation_applied_refuted.

(** C75: in two dimensions, the point at (r, angle 0) goes to (r cos, r sin) plus the translation. *)
Theorem C75_rotation_2d_partial : forall t0 t1 t2 r0 r1 r2 r,
  transform2d (MeshConfig t0 t1 t2 r0 r1 r2) (r, 0)%R = (r * cos r0 + t0, r * sin r0 + t1)%R /\
  transform2d (MeshConfig t0 t1 t2 r0 r1 r2) (0, r)%R = (- (r * sin r0) + t0, r * cos r0 + t1)%R.
Proof. intros. unfold transform2d; simpl. split; f_equal; ring. Qed.
Print Assumptions C75_rotation_2d_partial.
