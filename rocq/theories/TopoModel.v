(** Splitting a mesh into subdomains: attribute lists, interfaces, ports.

    Modelled: [TopologyHandler::UpdateAttributes/UpdateBdrAttributes], the boundary attributes of the
    submeshes ([BuildSubMeshBoundary2D]), [BuildInterfaceInfos], [FindParentInterfaceInfo], the encoding
    of (local face, orientation) in one [int].
    Not modelled: the MFEM mesh itself.  A submesh is reduced to its list of boundary elements, each with
    the parent face it lies on and the parent element next to it (what [parent_face_map] with
    [GetBdrFace], and [parent_elem_map] with [GetBdrElementAdjacentElement], return).  [int] overflow of
    attributes is not modelled. *)
From Coq Require Import ZArith List Bool Lia.
From Verif Require Import Outcome.
Import ListNotations.
Local Open Scope nat_scope.

(** [mfem::Array<int>::Find]: first position holding [x], or none (−1 in C++). *)
Fixpoint zfind (l : list Z) (x : Z) : option nat :=
  match l with
  | [] => None
  | a :: t => if (a =? x)%Z then Some 0 else option_map S (zfind t x)
  end.

(** [mfem::Array<int>::Max]: reads element 0 without looking at the size. *)
Definition zmax (l : list Z) : outcome Z :=
  match l with
  | [] => UB
  | a :: t => Ok (fold_left Z.max t a)
  end.

(** src/topology_handler.cpp:100-109 [UpdateAttributes], 111-120 [UpdateBdrAttributes]: the argument lists
    the attributes of the (boundary) elements; the result is the new attribute array. *)
Definition update_attributes (elems : list Z) : list Z :=
  fold_left (fun acc a => match zfind acc a with None => acc ++ [a] | Some _ => acc end) elems [].

(** Encoding of a face of an element; include/topology_handler.hpp InterfaceInfo comment
    ("Inf = 64 * LocalFaceIndex + FaceOrientation"), used at src/topology_handler.cpp:70-97 and
    src/component_topology_handler.cpp:685, 700-702.  C++ [/] and [%] truncate. *)
Definition inf_encode (face ori : Z) : Z := (64 * face + ori)%Z.
Definition inf_face (inf : Z) : Z := Z.quot inf 64.
Definition inf_ori (inf : Z) : Z := Z.rem inf 64.

(** src/component_topology_handler.cpp:685 [tmp.Inf2 = 64 * (Inf2 / 64) + ori2]. *)
Definition inf_set_orientation (inf ori : Z) : Z := inf_encode (inf_face inf) ori.

(** src/component_topology_handler.cpp:937-985 [GetOrientation], case SEGMENT. *)
Definition segment_orientation (vtx1 vtx2 : list Z) : outcome Z :=
  oassert (length vtx1 =? length vtx2)
    (let* a0 := oread vtx1 0 in
     let* a1 := oread vtx1 1 in
     let* b0 := oread vtx2 0 in
     let* b1 := oread vtx2 1 in
     if (a1 =? b0)%Z && (a0 =? b1)%Z then Ok 1%Z
     else if (a0 =? b0)%Z && (a1 =? b1)%Z then Ok 0%Z
     else Abort).

(** ** Submeshes *)

(** A face of the parent mesh: [Mesh::GetFaceInformation(f).element[0/1].index] and
    [Mesh::GetFaceInfos(f)]. *)
Record pface := PFace { pf_el1 : nat; pf_el2 : nat; pf_inf1 : Z; pf_inf2 : Z }.

(** A boundary element of a submesh: its parent face and the parent element next to it. *)
Record bdr_elem := BdrElem { be_face : nat; be_elem : nat }.
Definition submesh := list bdr_elem.

(** Boundary elements of the parent mesh: (face, attribute). *)
Definition parent_bdr := list (nat * Z).

(** src/topology_handler.cpp:327-335 [parent_face_to_be]: filled in element order, so the last boundary
    element on a face is the one found. *)
Definition parent_face_attr (pb : parent_bdr) (f : nat) : option Z :=
  fold_left (fun acc p => if fst p =? f then Some (snd p) else acc) pb None.

(** src/topology_handler.cpp:321-322, 336-352 [BuildSubMeshBoundary2D]. *)
Definition generated_battr (pb : parent_bdr) : outcome Z :=
  let* m := zmax (update_attributes (map snd pb)) in Ok (m + 1)%Z.

Definition submesh_attr (pb : parent_bdr) (gen : Z) (b : bdr_elem) : Z :=
  match parent_face_attr pb (be_face b) with Some a => a | None => gen end.

Definition submesh_attrs (pb : parent_bdr) (gen : Z) (meshes : list submesh) : list (list Z) :=
  map (map (submesh_attr pb gen)) meshes.

(** include/topology_handler.hpp PortInfo, InterfaceInfo. *)
Record port_info := PortInfo { pi_attr : Z; pi_mesh1 : nat; pi_mesh2 : nat; pi_attr1 : Z; pi_attr2 : Z }.
Record itf_info := ItfInfo { ii_be1 : nat; ii_be2 : nat; ii_inf1 : Z; ii_inf2 : Z }.

(** src/topology_handler.cpp:422-447 [FindParentInterfaceInfo]: [eli] is the parent element on the side of
    the first mesh ([elj] is computed but not used). *)
Definition find_parent_interface_info (f : pface) (eli : nat) : Z * Z :=
  if eli =? pf_el1 f then (pf_inf1 f, pf_inf2 f) else (pf_inf2 f, pf_inf1 f).

(** Local state of [BuildInterfaceInfos]: boundary attributes of the submeshes (mutated by
    [SetBdrAttribute]), the two result arrays, [interface_attributes] (initialised with −1),
    [interface_map] (never initialised: [None] is an indeterminate value) and [if_attr]. *)
Record bstate := BState {
  bs_attrs : list (list Z);
  bs_ports : list port_info;
  bs_infos : list (list itf_info);
  bs_ia : nat -> nat -> Z;
  bs_im : nat -> nat -> option nat;
  bs_next : Z }.

(** Indices come from loops bounded by the sizes of these very arrays, hence the unchecked access. *)
Definition attr_at (attrs : list (list Z)) (i ib : nat) : Z := nth ib (nth i attrs []) 0%Z.
Definition set_attr (attrs : list (list Z)) (i ib : nat) (a : Z) : list (list Z) :=
  upd attrs i (upd (nth i attrs []) ib a).
Definition elem_at (meshes : list submesh) (i ib : nat) : bdr_elem :=
  nth ib (nth i meshes []) (BdrElem 0 0).
Definition set2 {A} (f : nat -> nat -> A) (i j : nat) (a : A) : nat -> nat -> A :=
  fun i' j' => if (i' =? i) && (j' =? j) then a else f i' j'.

(** src/topology_handler.cpp:387-399: the first face met between two subdomains opens a port. *)
Definition open_port (i j : nat) (st : bstate) : bstate :=
  if (bs_ia st i j <=? 0)%Z then
    BState (bs_attrs st)
           (bs_ports st ++ [PortInfo (bs_next st) i j (bs_next st) (bs_next st)])
           (bs_infos st ++ [[]])
           (set2 (bs_ia st) i j (bs_next st))
           (set2 (bs_im st) i j (Some (length (bs_ports st))))
           (bs_next st + 1)%Z
  else st.

(** src/topology_handler.cpp:380-411: body of the innermost loop. *)
Definition visit_pair (faces : nat -> pface) (meshes : list submesh) (gen : Z)
    (i ib : nat) (st : bstate) (q : nat * nat) : outcome bstate :=
  let '(j, jb) := q in
  let bi := elem_at meshes i ib in
  let bj := elem_at meshes j jb in
  if be_face bi =? be_face bj then
    oassert (attr_at (bs_attrs st) j jb =? gen)%Z
      (let st1 := open_port i j st in
       match bs_im st1 i j with
       | None => UB
       | Some k =>
         let a := bs_ia st1 i j in
         let (inf1, inf2) := find_parent_interface_info (faces (be_face bi)) (be_elem bi) in
         oguard (k <? length (bs_infos st1))
           (Ok (BState (set_attr (set_attr (bs_attrs st1) i ib a) j jb a)
                       (bs_ports st1)
                       (upd (bs_infos st1) k (nth k (bs_infos st1) [] ++ [ItfInfo ib jb inf1 inf2]))
                       (bs_ia st1) (bs_im st1) (bs_next st1)))
       end)
  else Ok st.

(** Loop headers: [for (j = i+1; j < numSub; j++) for (jb < GetNBE of j)] and
    [for (i < numSub) for (ib < GetNBE of i)]. *)
Definition bdr_indices (meshes : list submesh) (from : nat) : list (nat * nat) :=
  flat_map (fun j => map (pair j) (seq 0 (length (nth j meshes []))))
           (seq from (length meshes - from)).

(** src/topology_handler.cpp:371-414. *)
Definition visit_elem (faces : nat -> pface) (meshes : list submesh) (gen : Z)
    (st : bstate) (p : nat * nat) : outcome bstate :=
  let '(i, ib) := p in
  if (attr_at (bs_attrs st) i ib =? gen)%Z
  then ofold (visit_pair faces meshes gen i ib) (bdr_indices meshes (i + 1)) st
  else Ok st.

(** src/topology_handler.cpp:357-420 [BuildInterfaceInfos] on the submeshes of 170-254. *)
Definition build_interface_infos (faces : nat -> pface) (pb : parent_bdr) (meshes : list submesh)
  : outcome bstate :=
  let* gen := generated_battr pb in
  ofold (visit_elem faces meshes gen) (bdr_indices meshes 0)
        (BState (submesh_attrs pb gen meshes) [] [] (fun _ _ => (-1)%Z) (fun _ _ => None) (gen + 1)%Z).

(** src/topology_handler.cpp:418-419: final attribute arrays of the submeshes. *)
Definition final_bdr_attributes (st : bstate) : list (list Z) := map update_attributes (bs_attrs st).
