(** Properties C20–C22: orientation codes, attribute lists, ports between subdomains. *)
From Coq Require Import ZArith List Bool Lia.
From Verif Require Import Outcome TopoModel TopoSpec TopoProofs TopoExamples.
Import ListNotations.
Local Open Scope nat_scope.

(** C20: the code of (local face, orientation) decodes to the same pair; decoding loses nothing. *)
Theorem C20_code_decodes : forall face ori, (0 <= face -> 0 <= ori < 64 ->
  inf_face (inf_encode face ori) = face /\ inf_ori (inf_encode face ori) = ori)%Z.
Proof. exact inf_roundtrip. Qed.
Print Assumptions C20_code_decodes.

Theorem C20_decoding_is_lossless : forall inf, (0 <= inf ->
  0 <= inf_ori inf < 64 /\ inf_encode (inf_face inf) (inf_ori inf) = inf)%Z.
Proof. exact inf_decode_encode. Qed.
Print Assumptions C20_decoding_is_lossless.

(** C20: giving the second side of a reference interface its orientation keeps the local face. *)
Theorem C20_orientation_replaced : forall face ori ori',
  (0 <= face -> 0 <= ori < 64 -> 0 <= ori' < 64 ->
   inf_set_orientation (inf_encode face ori) ori' = inf_encode face ori')%Z.
Proof. exact inf_set_orientation_spec. Qed.
Print Assumptions C20_orientation_replaced.

(** C20: the orientation of a segment says whether the two vertices are swapped; anything else is an error. *)
Theorem C20_segment_orientation : forall a b c d o, a <> b ->
  (segment_orientation [a; b] [c; d] = Ok o <-> (o = 0%Z /\ c = a /\ d = b) \/ (o = 1%Z /\ c = b /\ d = a)) /\
  segment_orientation [a; b] [c; d] <> UB.
Proof. exact segment_orientation_spec. Qed.
Print Assumptions C20_segment_orientation.

(** C21: attribute lists. *)
Theorem C21_attribute_list : forall elems,
  first_occurrences elems (update_attributes elems) /\ NoDup (update_attributes elems) /\
  (forall x, In x (update_attributes elems) <-> In x elems).
Proof. exact update_attributes_complete. Qed.
Print Assumptions C21_attribute_list.

(** C22, for faces that carry no boundary element of the parent mesh: one port per pair of adjacent
    subdomains, every shared face listed once with the codes of its two sides, fresh attributes, and the
    attributes of the boundary elements after the call.
    Missing: shared faces that do carry a boundary element of the parent mesh (refuted below). *)
Theorem C22_one_port_per_interface_partial : forall faces pb meshes,
  conforming meshes -> pb <> [] -> (forall f a, In (f, a) pb -> (0 < a)%Z) ->
  exists st, build_interface_infos faces pb meshes = Ok st /\
  (forall i j, (exists p, In p (bs_ports st) /\ pi_mesh1 p = i /\ pi_mesh2 p = j) <->
               i < j /\ adjacent pb meshes i j) /\
  NoDup (map (fun p => (pi_mesh1 p, pi_mesh2 p)) (bs_ports st)) /\
  length (bs_infos st) = length (bs_ports st) /\
  (forall k p l, nth_error (bs_ports st) k = Some p -> nth_error (bs_infos st) k = Some l ->
     NoDup (map (fun x => (ii_be1 x, ii_be2 x)) l) /\
     (forall ib jb, In (ib, jb) (map (fun x => (ii_be1 x, ii_be2 x)) l) <->
                    exists f, shared pb meshes (pi_mesh1 p) ib (pi_mesh2 p) jb f) /\
     (sides_recorded faces meshes ->
      forall x f ei ej, In x l ->
        on_side meshes (pi_mesh1 p) (ii_be1 x) f ei -> on_side meshes (pi_mesh2 p) (ii_be2 x) f ej ->
        side_code (faces f) ei (ii_inf1 x) /\ side_code (faces f) ej (ii_inf2 x))) /\
  NoDup (map pi_attr (bs_ports st)) /\
  (forall p f a, In p (bs_ports st) -> In (f, a) pb -> (a + 1 < pi_attr p)%Z) /\
  (forall p ib jb f, In p (bs_ports st) -> shared pb meshes (pi_mesh1 p) ib (pi_mesh2 p) jb f ->
     attr_at (bs_attrs st) (pi_mesh1 p) ib = pi_attr p /\ attr_at (bs_attrs st) (pi_mesh2 p) jb = pi_attr p) /\
  (forall i ib f a, on_face meshes i ib f -> In (f, a) pb -> (forall a', In (f, a') pb -> a' = a) ->
     attr_at (bs_attrs st) i ib = a) /\
  (forall p i ib f, In p (bs_ports st) -> on_face meshes i ib f ->
     attr_at (bs_attrs st) i ib = pi_attr p ->
     (i = pi_mesh1 p /\ exists jb, shared pb meshes i ib (pi_mesh2 p) jb f) \/
     (i = pi_mesh2 p /\ exists jb, shared pb meshes i ib (pi_mesh1 p) jb f)).
Proof. exact build_interface_infos_correct. Qed.
Print Assumptions C22_one_port_per_interface_partial.

(** C22 fails for a shared face on which the parent mesh has a boundary element: the two subdomains are
    adjacent, the call succeeds, and there is no port. *)
Theorem C22_internal_boundary_refuted : exists faces pb meshes i j ib jb f st,
  conforming meshes /\ pb <> [] /\ (forall f a, In (f, a) pb -> (0 < a)%Z) /\
  i < j /\ on_face meshes i ib f /\ on_face meshes j jb f /\
  build_interface_infos faces pb meshes = Ok st /\ bs_ports st = [].
Proof. exact internal_boundary_face_lost. Qed.
Print Assumptions C22_internal_boundary_refuted.
