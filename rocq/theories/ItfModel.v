(** Model of src/interface_form.cpp: assembly over the interfaces between subdomains.

    Simplifications: entries are exact reals; sparse matrices are their values ([skip_zeros] only affects which zeros
    are stored); meshes, elements and transformations are what the integrators and the tables of degrees of freedom
    make of a face. Timers are left out. *)
From Coq Require Import Reals List Bool Lia Arith ZArith.
From Verif Require Import Outcome LaBase BlockVec MbModel.
Import ListNotations.
Local Open Scope nat_scope.

(** The two elements next to an interface face ([tr1->Elem1No], [tr2->Elem1No]); [f_id] stands for all else about it. *)
Record face := Face { f_e1 : nat; f_e2 : nat; f_id : nat }.
(** include/topology_handler.hpp [PortInfo] and [GetInterfaceInfos]; [None] for a face without transformations *)
Record itf_port := ItfPort { ip_m1 : nat; ip_m2 : nat; ip_faces : list (option face) }.

(** A space per subdomain: number of degrees of freedom and those of an element, negative [-1-d] for [d] flipped. *)
Record fespace := Fes { fe_size : nat; fe_dofs : nat -> list Z }.

(** [InterfaceNonlinearFormIntegrator]: element matrices of sides [i], [j]; element vectors; their gradients. *)
Definition mat_integ := face -> nat -> nat -> fmat.
Definition vec_integ := face -> vec -> vec -> vec * vec.
Definition grad_integ := face -> vec -> vec -> nat -> nat -> fmat.

(** ** mfem pieces *)
Definition dof_idx (d : Z) : nat := if (d <? 0)%Z then Z.to_nat (-1 - d) else Z.to_nat d.
Definition dof_sgn (d : Z) : R := if (d <? 0)%Z then (-1)%R else 1%R.

(** [Vector::GetSubVector] *)
Definition get_sub (x : vec) (vd : list Z) : outcome vec :=
  omap (fun d => let* v := oread x (dof_idx d) in Ok (dof_sgn d * v)%R) vd.

(** [Vector::AddElementVector] on block [m] of [b] *)
Definition add_elem (b : bvec) (m : nat) (vd : list Z) (e : vec) : outcome bvec :=
  ofor (List.length vd) (fun b k =>
    let* d := oread vd k in
    let* v := oread e k in
    let* o := oread (bv_off b) m in
    let* o' := oread (bv_off b) (m + 1) in
    oguard (dof_idx d <? o' - o) (
    let* old := oread (bv_dat b) (o + dof_idx d) in
    let* dat := owrite (bv_dat b) (o + dof_idx d) (old + dof_sgn d * v)%R in
    Ok (BVec (bv_off b) dat))) b.

(** [SparseMatrix::AddSubMatrix] *)
Definition add_sub (M : fmat) (rows cols : list Z) (E : fmat) : outcome fmat :=
  ofor (List.length rows) (fun M k => ofor (List.length cols) (fun M l =>
    let* d := oread rows k in
    let* c := oread cols l in
    oguard ((dof_idx d <? fm_h M) && (dof_idx c <? fm_w M) && (k <? fm_h E) && (l <? fm_w E)) (
    Ok (FMat (fm_h M) (fm_w M) (fun r q =>
      if (r =? dof_idx d) && (q =? dof_idx c) then (fm_val M r q + dof_sgn d * dof_sgn c * fm_val E k l)%R else fm_val M r q)))) M) M.

(** [mats(i, j)->AddSubMatrix(...)], a null pointer being [None] *)
Definition block_add (B : blockmat) (i j : nat) (rows cols : list Z) (E : fmat) : outcome blockmat :=
  match B i j with
  | None => UB
  | Some M => let* M := add_sub M rows cols E in Ok (bm_set B i j M)
  end.

(** ** Matrices *)

(** src/interface_form.cpp:163-206 [AssembleInterfaceMatrix] ([test] = [trial]) and 439-488 (mixed form); the matrices
    of sides [i], [j] are blocks [midx i], [midx j] of [B] *)
Definition asm_face (test1 test2 trial1 trial2 : fespace) (itgs : list mat_integ) (m1 m2 : nat) (B : blockmat) (fo : option face) : outcome blockmat :=
  match fo with
  | None => Ok B
  | Some f =>
    let rows i := if i =? 0 then fe_dofs test1 (f_e1 f) else fe_dofs test2 (f_e2 f) in
    let cols j := if j =? 0 then fe_dofs trial1 (f_e1 f) else fe_dofs trial2 (f_e2 f) in
    let midx i := if i =? 0 then m1 else m2 in
    ofold (fun B (g : mat_integ) =>
      ofor 2 (fun B i => ofor 2 (fun B j => block_add B (midx i) (midx j) (rows i) (cols j) (g f i j)) B) B) itgs B
  end.
Definition asm_matrix (test1 test2 trial1 trial2 : fespace) (itgs : list mat_integ) (m1 m2 : nat) (faces : list (option face)) (B : blockmat) : outcome blockmat :=
  ofold (asm_face test1 test2 trial1 trial2 itgs m1 m2) faces B.

(** src/interface_form.cpp:398-437 [MixedInterfaceForm::AssembleInterfaceMatrices] *)
Definition mixed_matrices (test trial : list fespace) (itgs : list mat_integ) (ports : list itf_port) (B : blockmat) : outcome blockmat :=
  ofold (fun B p =>
    let* s1 := oread test (ip_m1 p) in
    let* s2 := oread test (ip_m2 p) in
    let* t1 := oread trial (ip_m1 p) in
    let* t2 := oread trial (ip_m2 p) in
    asm_matrix s1 s2 t1 t2 itgs (ip_m1 p) (ip_m2 p) (ip_faces p) B) ports B.

(** src/interface_form.cpp:32-65 [InterfaceForm::AssembleInterfaceMatrices] *)
Definition itf_matrices (fes : list fespace) (itgs : list mat_integ) (ports : list itf_port) (B : blockmat) : outcome blockmat :=
  let n := List.length fes in
  oassert (forallb (fun i => forallb (fun j => match B i j with Some _ => true | None => false end) (seq 0 n)) (seq 0 n)) (
  mixed_matrices fes fes itgs ports B).

(** src/interface_form.cpp:208-249 and 490-534 [AssembleInterfaceMatrixAtPort]: [c1], [c2] are the components of the
    reference port, [faces] its faces; the matrices are new *)
Definition port_matrix (test trial : list fespace) (itgs : list mat_integ) (c1 c2 : nat) (faces : list (option face)) : outcome blockmat :=
  let* s1 := oread test c1 in
  let* s2 := oread test c2 in
  let* t1 := oread trial c1 in
  let* t2 := oread trial c2 in
  let hs i := fe_size (if i =? 0 then s1 else s2) in
  let ws j := fe_size (if j =? 0 then t1 else t2) in
  asm_matrix s1 s2 t1 t2 itgs 0 1 faces
    (fun i j => if (i <? 2) && (j <? 2) then Some (FMat (hs i) (ws j) (fun _ _ => 0%R)) else None).

(** ** Vectors *)

(** src/interface_form.cpp:251-304 [AssembleInterfaceVector] *)
Definition asm_vec_face (s1 s2 : fespace) (itgs : list vec_integ) (m1 m2 : nat) (x1 x2 : vec) (y : bvec) (fo : option face) : outcome bvec :=
  match fo with
  | None => Ok y
  | Some f =>
    let vd1 := fe_dofs s1 (f_e1 f) in
    let vd2 := fe_dofs s2 (f_e2 f) in
    let* e1 := get_sub x1 vd1 in
    let* e2 := get_sub x2 vd2 in
    ofold (fun y (g : vec_integ) =>
      let* y := add_elem y m1 vd1 (fst (g f e1 e2)) in
      add_elem y m2 vd2 (snd (g f e1 e2))) itgs y
  end.
Definition asm_vector (s1 s2 : fespace) (itgs : list vec_integ) (m1 m2 : nat) (faces : list (option face)) (x y : bvec) : outcome bvec :=
  let* x1 := bv_get x m1 in
  let* x2 := bv_get x m2 in
  let* y1 := bv_get y m1 in
  let* y2 := bv_get y m2 in
  oassert (List.length x1 =? fe_size s1) (
  oassert (List.length x2 =? fe_size s2) (
  oassert (List.length y1 =? List.length x1) (
  oassert (List.length y2 =? List.length x2) (
  ofold (asm_vec_face s1 s2 itgs m1 m2 x1 x2) faces y)))).

(** src/interface_form.cpp:13-25, the block offsets of the form *)
Definition itf_offsets (fes : list fespace) : list nat := psum 0 (0 :: map fe_size fes).

(** src/interface_form.cpp:67-112 [InterfaceAddMult]; [Update] of a block vector takes any data, blocks beyond it are
    caught by [bv_get] *)
Definition itf_add_mult (fes : list fespace) (itgs : list vec_integ) (ports : list itf_port) (x y : vec) : outcome vec :=
  let off := itf_offsets fes in
  let* y := ofold (fun y p =>
    let* s1 := oread fes (ip_m1 p) in
    let* s2 := oread fes (ip_m2 p) in
    asm_vector s1 s2 itgs (ip_m1 p) (ip_m2 p) (ip_faces p) (BVec off x) y) ports (BVec off y) in
  Ok (bv_dat y).

(** ** Gradients *)

(** src/interface_form.cpp:306-366 [AssembleInterfaceGrad] *)
Definition asm_grad_face (s1 s2 : fespace) (itgs : list grad_integ) (m1 m2 : nat) (x1 x2 : vec) (B : blockmat) (fo : option face) : outcome blockmat :=
  match fo with
  | None => Ok B
  | Some f =>
    let vd1 := fe_dofs s1 (f_e1 f) in
    let vd2 := fe_dofs s2 (f_e2 f) in
    let* e1 := get_sub x1 vd1 in
    let* e2 := get_sub x2 vd2 in
    ofold (fun B (g : grad_integ) =>
      let* B := block_add B m1 m1 vd1 vd1 (g f e1 e2 0 0) in
      let* B := block_add B m1 m2 vd1 vd2 (g f e1 e2 0 1) in
      let* B := block_add B m2 m1 vd2 vd1 (g f e1 e2 1 0) in
      block_add B m2 m2 vd2 vd2 (g f e1 e2 1 1)) itgs B
  end.

(** src/interface_form.cpp:114-161 [InterfaceGetGradient] *)
Definition itf_gradient (fes : list fespace) (itgs : list grad_integ) (ports : list itf_port) (x : vec) (B : blockmat) : outcome blockmat :=
  let n := List.length fes in
  let off := itf_offsets fes in
  oassert (forallb (fun i => forallb (fun j => match B i j with Some _ => true | None => false end) (seq 0 n)) (seq 0 n)) (
  ofold (fun B p =>
    let* s1 := oread fes (ip_m1 p) in
    let* s2 := oread fes (ip_m2 p) in
    let* x1 := bv_get (BVec off x) (ip_m1 p) in
    let* x2 := bv_get (BVec off x) (ip_m2 p) in
    oassert (List.length x1 =? fe_size s1) (
    oassert (List.length x2 =? fe_size s2) (
    ofold (asm_grad_face s1 s2 itgs (ip_m1 p) (ip_m2 p) x1 x2) (ip_faces p) B))) ports B).

(** include/interface_form.hpp:142-146: the mixed form's [InterfaceAddMult] consists of a string that is thrown away *)
Definition mixed_add_mult (itgs : list vec_integ) (ports : list itf_port) (x y : vec) : outcome vec := Ok y.
