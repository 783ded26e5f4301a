(** Splitting a two-dimensional mesh into subdomains: [SubMeshTopologyHandler] from the mesh to the ports, the
    transformations of an interface, and the transfer of fields to the whole mesh.

    Modelled: the constructor (decomposition mode, one subdomain per attribute, element and face maps), [BuildFaceMap2D],
    the parent faces of the boundary elements, [GetInterfaceTransformations], [TransferToGlobal].  [BuildInterfaceInfos]
    is [TopoModel.build_interface_infos].
    Of MFEM (not part of the repository) modelled as documented by the library: faces of a 2-D mesh are numbered in the
    order in which the elements use them; the first element that uses a face is its element 1 with orientation 0, the
    second has orientation 1 if it runs through the two vertices in the other order; a submesh takes the elements with
    the wanted attributes in order, numbers their vertices in the order of use, and its boundary elements are its faces
    with one element only, in the order of the faces.
    Not modelled: three-dimensional meshes, curved elements, the refinement itself (the model takes the mesh before and
    after it), the orders of the degrees of freedom inside an element. *)
From Coq Require Import ZArith List Bool Lia Reals String.
From Verif Require Import Outcome TopoModel LaBase.
Import ListNotations.
Local Open Scope nat_scope.

(** Triangles and quadrilaterals: attribute and vertices. *)
Record elem := Elem { el_attr : Z; el_vert : list nat }.

(** A mesh: elements, and boundary elements as (vertex, vertex, attribute). *)
Record mesh2 := Mesh2 { m_elems : list elem; m_bdr : list (nat * nat * Z) }.

(** MFEM: [tri_t::Edges] and [quad_t::Edges]: edge [l] joins the vertices [l] and [l + 1] (cyclically). *)
Definition local_edge (v : list nat) (l : nat) : nat * nat := (nth l v 0, nth (if l + 1 =? List.length v then 0 else l + 1) v 0).

Definition same_edge (p q : nat * nat) : bool :=
  (fst p =? fst q) && (snd p =? snd q) || (fst p =? snd q) && (snd p =? fst q).

(** MFEM: an entry of [faces_info] with the vertices of the face. *)
Record finfo := FInfo { fi_edge : nat * nat; fi_el1 : nat; fi_inf1 : Z; fi_el2 : option (nat * Z) }.

Fixpoint find_face (fs : list finfo) (p : nat * nat) : option nat :=
  match fs with
  | [] => None
  | f :: t => if same_edge (fi_edge f) p then Some 0 else option_map S (find_face t p)
  end.

(** MFEM: [Mesh::AddSegmentFaceElement]. *)
Definition add_face (fs : list finfo) (u : nat * nat * (nat * nat)) : outcome (list finfo) :=
  let '(el, lf, p) := u in
  match find_face fs p with
  | None => Ok (fs ++ [FInfo p el (inf_encode (Z.of_nat lf) 0) None])
  | Some k =>
    let* f := oread fs k in
    match fi_el2 f with
    | Some _ => Abort
    | None =>
      let ori := if (fst p =? snd (fi_edge f)) && (snd p =? fst (fi_edge f)) then 1%Z else 0%Z in
      owrite fs k (FInfo (fi_edge f) (fi_el1 f) (fi_inf1 f) (Some (el, inf_encode (Z.of_nat lf) ori)))
    end
  end.

(** The sides of the elements in the order of the elements. *)
Definition side_uses (els : list elem) : list (nat * nat * (nat * nat)) :=
  flat_map (fun e => let v := el_vert (nth e els (Elem 0 [])) in map (fun l => (e, l, local_edge v l)) (seq 0 (List.length v))) (seq 0 (List.length els)).

(** MFEM: [Mesh::GenerateFaces] (with the numbering of [GetElementToEdgeTable]). *)
Definition mesh_faces (els : list elem) : outcome (list finfo) := ofold add_face (side_uses els) [].

(** MFEM: [Mesh::GetElementEdges]. *)
Definition element_edges (fs : list finfo) (e : elem) : outcome (list nat) :=
  omap (fun l => match find_face fs (local_edge (el_vert e) l) with Some k => Ok k | None => UB end) (seq 0 (List.length (el_vert e))).

(** MFEM: [SubMesh]: parent vertices and elements, own elements, faces, boundary elements (by face). *)
Record smesh := SMesh { sm_vert : list nat; sm_elems : list elem; sm_pel : list nat; sm_faces : list finfo; sm_bdr : list nat }.

Definition uniq (l : list nat) : list nat := fold_left (fun acc a => if existsb (Nat.eqb a) acc then acc else acc ++ [a]) l [].

Fixpoint vpos (vs : list nat) (v : nat) : nat :=
  match vs with [] => 0 | a :: t => if a =? v then 0 else S (vpos t v) end.

(** MFEM: [SubMesh::CreateFromDomain]. *)
Definition create_from_domain (pm : mesh2) (attrs : list Z) : outcome smesh :=
  let el i := nth i (m_elems pm) (Elem 0 []) in
  let ids := filter (fun i => existsb (Z.eqb (el_attr (el i))) attrs) (seq 0 (List.length (m_elems pm))) in
  let vs := uniq (flat_map (fun i => el_vert (el i)) ids) in
  let els := map (fun i => Elem (el_attr (el i)) (map (vpos vs) (el_vert (el i)))) ids in
  let* fs := mesh_faces els in
  Ok (SMesh vs els ids fs (filter (fun k => match option_map fi_el2 (nth_error fs k) with Some None => true | _ => false end) (seq 0 (List.length fs)))).

(** src/topology_handler.cpp:31-50 [TopologyHandler::TopologyHandler]. *)
Inductive dd_mode := NODD | IP.
Definition dd_mode_of (s : string) : outcome dd_mode :=
  if string_dec s "interior_penalty" then Ok IP
  else if string_dec s "feti" then Abort
  else if string_dec s "none" then Ok NODD
  else Abort.

(** src/topology_handler.cpp:287-313 [BuildFaceMap2D] (the assertions are those of debug builds only). *)
Definition build_face_map (pm : mesh2) (pfs : list finfo) (sm : smesh) : outcome (list (option nat)) :=
  ofor (List.length (sm_elems sm)) (fun pf i =>
    let* peid := oread (sm_pel sm) i in
    let* se := oread (sm_elems sm) i in
    let* pe := oread (m_elems pm) peid in
    let* sel_faces := element_edges (sm_faces sm) se in
    let* pel_faces := element_edges pfs pe in
    ofor (List.length sel_faces) (fun pf j =>
      let* a := oread sel_faces j in
      let* b := oread pel_faces j in
      owrite pf a (Some b)) pf)
  (repeat None (List.length (sm_faces sm))).

(** src/topology_handler.cpp:338, 378, 385, 430-437: the parent face of each boundary element and the parent element next to it
    ([-1] in the face map is outside the array of the parent faces). *)
Definition bdr_elems (sm : smesh) (pf : list (option nat)) : outcome (list bdr_elem) :=
  omap (fun b =>
    let* p := oread pf b in
    let* f := oread (sm_faces sm) b in
    let* e := oread (sm_pel sm) (fi_el1 f) in
    match p with Some k => Ok (BdrElem k e) | None => UB end) (sm_bdr sm).

(** src/topology_handler.cpp:331-335: boundary elements of the parent mesh by face ([GetBdrElementEdgeIndex]). *)
Definition parent_bdr_of (pfs : list finfo) (bdr : list (nat * nat * Z)) : outcome parent_bdr :=
  omap (fun b : nat * nat * Z => match find_face pfs (fst b) with Some k => Ok (k, snd b) | None => UB end) bdr.

(** MFEM: [GetFaceInformation], [GetFaceInfos] of the parent mesh (no second element: an index that no element has). *)
Definition pface_of (ne : nat) (pfs : list finfo) (k : nat) : pface :=
  match nth_error pfs k with
  | Some f => match fi_el2 f with Some (e, i) => PFace (fi_el1 f) e (fi_inf1 f) i | None => PFace (fi_el1 f) ne (fi_inf1 f) (-1) end
  | None => PFace ne ne (-1) (-1)
  end.

(** The handler: submeshes, face maps, boundary elements, result of [BuildInterfaceInfos], faces of the parent mesh. *)
Record handler := Handler { h_subs : list smesh; h_maps : list (list (option nat)); h_bels : list submesh; h_st : bstate; h_pfs : list finfo }.

(** src/topology_handler.cpp:170-254 [SubMeshTopologyHandler]: [pm0] is the mesh as given, [pm] the mesh after the refinements.
    [attributes.Max()] sets the number of subdomains. *)
Definition domains (mode : dd_mode) (top : nat) : list (list Z) :=
  match mode with
  | NODD => [map (fun k => (Z.of_nat k + 1)%Z) (seq 0 top)]
  | IP => map (fun k => [(Z.of_nat k + 1)%Z]) (seq 0 top)
  end.

Definition build_handler (dd : string) (pm0 pm : mesh2) : outcome handler :=
  let* mode := dd_mode_of dd in
  let* top := zmax (update_attributes (map el_attr (m_elems pm0))) in
  oassert (0 <=? top)%Z
  (let* pfs := mesh_faces (m_elems pm) in
   let* subs := omap (create_from_domain pm) (domains mode (Z.to_nat top)) in
   let* maps := omap (build_face_map pm pfs) subs in
   let* pb := parent_bdr_of pfs (m_bdr pm) in
   let* bels := omap (fun x => bdr_elems (fst x) (snd x)) (combine subs maps) in
   let* st := build_interface_infos (pface_of (List.length (m_elems pm)) pfs) pb bels in
   Ok (Handler subs maps bels st pfs)).

(** ** Interface transformations *)
Local Open Scope R_scope.

(** MFEM: [Geometries.GetVertices] of the triangle and of the square. *)
Definition ref_vertex (nv i : nat) : outcome (R * R) :=
  match nv, i with
  | 3%nat, 0%nat => Ok (0, 0) | 3%nat, 1%nat => Ok (1, 0) | 3%nat, 2%nat => Ok (0, 1)
  | 4%nat, 0%nat => Ok (0, 0) | 4%nat, 1%nat => Ok (1, 0) | 4%nat, 2%nat => Ok (1, 1) | 4%nat, 3%nat => Ok (0, 1)
  | _, _ => UB
  end.

(** MFEM: [Mesh::GetLocalSegToTriTransformation], [GetLocalSegToQuadTransformation]: the images of the two ends of the
    reference segment; [seg_t::Orient] is [{0, 1}, {1, 0}]. *)
Definition local_face (nv : nat) (inf : Z) : outcome ((R * R) * (R * R)) :=
  let l := Z.to_nat (inf_face inf) in
  oguard (0 <=? inf)%Z (oguard (l <? nv)%nat
  (let* a := ref_vertex nv l in
   let* b := ref_vertex nv (if (l + 1 =? nv)%nat then 0 else l + 1) in
   match inf_ori inf with 0%Z => Ok (a, b) | 1%Z => Ok (b, a) | _ => UB end)).

(** One side of an interface: element of the submesh and local map. *)
Record iside := ISide { is_el : nat; is_loc : (R * R) * (R * R) }.

(** src/topology_handler.cpp:60-79 (and 81-96): the transformation of the boundary face, corrected when the code of the
    submesh differs from the one stored. *)
Definition itf_side (sm : smesh) (be : nat) (inf : Z) : outcome iside :=
  let* face := oread (sm_bdr sm) be in
  let* f := oread (sm_faces sm) face in
  let* e := oread (sm_elems sm) (fi_el1 f) in
  let nv := List.length (el_vert e) in
  let* loc := local_face nv (fi_inf1 f) in
  if (fi_inf1 f =? inf)%Z then Ok (ISide (fi_el1 f) loc)
  else (let* loc' := local_face nv inf in Ok (ISide (fi_el1 f) loc')).

(** src/topology_handler.cpp:53-98 [GetInterfaceTransformations] for the submeshes [i] and [j]. *)
Definition interface_transformations (subs : list smesh) (i j : nat) (info : itf_info) : outcome (iside * iside) :=
  if (i =? j)%nat then Abort
  else (let* m1 := oread subs i in
        let* m2 := oread subs j in
        let* t1 := itf_side m1 (ii_be1 info) (ii_inf1 info) in
        let* t2 := itf_side m2 (ii_be2 info) (ii_inf2 info) in
        Ok (t1, t2)).

(** MFEM: a point of the reference element mapped to the plane (linear triangles, bilinear quadrilaterals). *)
Definition elem_map (x : list (R * R)) (p : R * R) : R * R :=
  let '(s, t) := p in
  match x with
  | [a; b; c] => (fst a * (1 - s - t) + fst b * s + fst c * t, snd a * (1 - s - t) + snd b * s + snd c * t)
  | [a; b; c; d] =>
      (fst a * ((1 - s) * (1 - t)) + fst b * (s * (1 - t)) + fst c * (s * t) + fst d * ((1 - s) * t),
       snd a * ((1 - s) * (1 - t)) + snd b * (s * (1 - t)) + snd c * (s * t) + snd d * ((1 - s) * t))
  | _ => (0, 0)
  end.

(** The point of the plane at the coordinate [xi] of the interface, seen from one side; [X] has the coordinates of the
    vertices of the parent mesh. *)
Definition side_point (X : nat -> R * R) (sm : smesh) (t : iside) (xi : R) : R * R :=
  let e := nth (is_el t) (sm_elems sm) (Elem 0 []) in
  let '(a, b) := is_loc t in
  elem_map (map (fun v => X (nth v (sm_vert sm) 0%nat)) (el_vert e))
    ((1 - xi) * fst a + xi * fst b, (1 - xi) * snd a + xi * snd b).

(** ** Transfer to the whole mesh *)

(** MFEM: [SubMesh::Transfer] to the parent mesh for fields given element by element: a field is the list of the values
    in each element. *)
Definition transfer {V} (sm : smesh) (src dst : list V) : outcome (list V) :=
  ofor (List.length (sm_pel sm)) (fun d i =>
    let* e := oread (sm_pel sm) i in
    let* x := oread src i in
    owrite d e x) dst.

(** src/topology_handler.cpp:449-457 [TransferToGlobal]. *)
Definition transfer_to_global {V} (subs : list smesh) (us gs : list (list V)) (nvar : nat) : outcome (list (list V)) :=
  oassert (List.length us =? nvar * List.length subs)%nat (oassert (List.length gs =? nvar)%nat
  (ofor (List.length subs) (fun g m =>
     ofor nvar (fun g v =>
       let* sm := oread subs m in
       let* u := oread us (m * nvar + v) in
       let* d := oread g v in
       let* d' := transfer sm u d in
       owrite g v d') g) gs)).
