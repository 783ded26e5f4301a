(** Assembling subdomains from component meshes: the geometry of ports.

    Modelled: [SetupComponents], the placement of the component meshes ([SetupMeshes]), the interfaces of the reference
    ports ([SetupReferenceInterfaces]) and, through [SplitModel], the transformations that the forms integrate with.
    Ports themselves are [CompModel.build_port] and [CompModel.setup_ports].
    Meshes are two-dimensional (triangles and quadrilaterals) and straight; the faces are MFEM's as in [SplitModel].
    Simplified: a mesh with nodes is given by its vertices; the copy of a component mesh made for a subdomain has the same
    numbering. *)
From Coq Require Import ZArith List Bool Lia Reals String.
From Verif Require Import Outcome TopoModel CompModel LaBase SplitModel.
Import ListNotations.
Local Open Scope nat_scope.

(** A component mesh: number of vertices, elements and boundary elements. *)
Record cmesh := CMesh { cm_nv : nat; cm_mesh : mesh2 }.

(** ** Component meshes *)

(** A mesh file: name of the collection of the nodes ([None]: a mesh without nodes), dimension. *)
Record mesh_file := MeshFile { mf_coll : option string; mf_dim : nat }.

(** src/component_topology_handler.cpp:111-126: the files of the components that the configuration uses, later entries
    replace earlier ones. *)
Definition read_components (cn : list (string * Z)) (num : nat) (l : list (string * mesh_file)) : outcome (list (option mesh_file)) :=
  ofold (fun cs (e : string * mesh_file) =>
    match slookup cn (fst e) with
    | None => Ok cs
    | Some i => oguard (0 <=? i)%Z (owrite cs (Z.to_nat i) (Some (snd e)))
    end) l (repeat None num).

(** [components[c]->GetNodalFESpace()->FEColl()->Name()] *)
Definition coll_name (cs : list (option mesh_file)) (c : nat) : outcome string :=
  let* m := oread cs c in
  match m with
  | Some m => match mf_coll m with Some s => Ok s | None => UB end
  | None => UB
  end.

(** src/component_topology_handler.cpp:102-147 [SetupComponents]. *)
Definition setup_components (cn : list (string * Z)) (num : nat) (l : option (list (string * mesh_file))) : outcome (list mesh_file) :=
  oassert (0 <? num)
  (match l with
   | None => Abort
   | Some l =>
     let* cs := read_components cn num l in
     let* name := coll_name cs 0 in
     let* _ := ofor num (fun _ c => let* s := coll_name cs c in if string_dec name s then Ok tt else Abort) tt in
     omap (fun m => match m with Some m => Ok m | None => Abort end) cs
   end).

(** src/component_topology_handler.cpp:29-48: the transformation of points, chosen by the dimension of the first
    component; 585-596: it is called for every subdomain (a null pointer for other dimensions). *)
Inductive tf_kind := TF2 | TF3.
Definition choose_transform (ms : list mesh_file) : outcome (option tf_kind) :=
  let* m := oread ms 0 in
  Ok (match mf_dim m with 2 => Some TF2 | 3 => Some TF3 | _ => None end).

Definition place_meshes (tf : option tf_kind) (num_sub : nat) : outcome unit :=
  oassert (0 <? num_sub) (match tf with Some _ => Ok tt | None => UB end).

(** The constructor up to the placed meshes. *)
Definition load_components (cn : list (string * Z)) (num num_sub : nat) (l : option (list (string * mesh_file))) : outcome (list mesh_file) :=
  let* ms := setup_components cn num l in
  let* tf := choose_transform ms in
  let* _ := place_meshes tf num_sub in
  Ok ms.

(** ** Faces of a component *)

(** MFEM: the faces of a component and the face of each boundary element ([GetBdrFace]). *)
Definition comp_topology (c : cmesh) : outcome smesh :=
  let* fs := mesh_faces (m_elems (cm_mesh c)) in
  let* bs := omap (fun b : nat * nat * Z => match find_face fs (fst b) with Some k => Ok k | None => UB end) (m_bdr (cm_mesh c)) in
  Ok (SMesh (seq 0 (cm_nv c)) (m_elems (cm_mesh c)) (seq 0 (List.length (m_elems (cm_mesh c)))) fs bs).

(** The boundary elements as [CompModel.build_port] takes them. *)
Definition bdr_belems (c : cmesh) : list belem :=
  map (fun b : nat * nat * Z => BElem (snd b) [Z.of_nat (fst (fst b)); Z.of_nat (snd (fst b))]) (m_bdr (cm_mesh c)).

(** src/component_topology_handler.cpp:652-687: one pair of boundary elements. *)
Definition ref_itf_info (s1 s2 : smesh) (vtx : list (Z * Z)) (pair : Z * Z) : outcome itf_info :=
  let* k1 := zread (sm_bdr s1) (fst pair) in
  let* k2 := zread (sm_bdr s2) (snd pair) in
  let* f1 := oread (sm_faces s1) k1 in
  let* f2 := oread (sm_faces s2) k2 in
  let* v2 := omap (fun v => match zlookup vtx v with Some w => Ok w | None => Abort end)
                  [Z.of_nat (fst (fi_edge f2)); Z.of_nat (snd (fi_edge f2))] in
  let* ori := segment_orientation [Z.of_nat (fst (fi_edge f1)); Z.of_nat (snd (fi_edge f1))] v2 in
  Ok (ItfInfo (Z.to_nat (fst pair)) (Z.to_nat (snd pair)) (fi_inf1 f1) (inf_set_orientation (fi_inf1 f2) ori)).

(** src/component_topology_handler.cpp:636-718 [SetupReferenceInterfaces]. *)
Definition ref_interfaces (comps : list cmesh) (refs : list port_data) : outcome (list (list itf_info)) :=
  omap (fun pd =>
    let* c1 := zread comps (pd_comp1 pd) in
    let* c2 := zread comps (pd_comp2 pd) in
    let* s1 := comp_topology c1 in
    let* s2 := comp_topology c2 in
    omap (ref_itf_info s1 s2 (pd_vtx pd)) (pd_be pd)) refs.

(** src/component_topology_handler.cpp:577-597 [SetupMeshes]: the meshes of the subdomains and the points of their
    vertices; [X] has the points of the component. *)
Definition sub_meshes (comps : list cmesh) (types : list Z) : outcome (list smesh) :=
  omap (fun t => let* c := zread comps t in comp_topology c) types.

Definition place (cf : mesh_config) (X : nat -> R * R) (v : nat) : R * R := transform2d cf (X v).
