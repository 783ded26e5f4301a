(** Model of the reduced convection tensor and of the full-order operator (src/steady_ns_solver.cpp).

    Simplifications: the nonlinear form of one component is a loop over its elements, each with its degrees of freedom and
    integration points; true and local degrees of freedom coincide (serial, conforming); sparse matrices are their values, for the
    matrices summed here are new ones. *)
From Coq Require Import Reals List Bool Lia Arith ZArith.
From Verif Require Import Outcome HdfModel LaBase LinalgModel BlockVec MbModel ItfModel EqpModel IntegModel.
Import ListNotations.
Local Open Scope R_scope.

(** ** Tensor *)

(** One element: degrees of freedom, number of scalar shape functions, integration points (without wind) *)
Record celem := CElem { ce_dofs : list Z; ce_nd : nat; ce_rule : list qpt }.

(** [VectorGridFunctionCoefficient]: the wind at an integration point is the field with the given coefficients *)
Definition at_wind (nd : nat) (w : fv) (p : qpt) : qpt :=
  Qpt (q_w p) (q_shape p) (q_dref p) (q_inv p) (q_adj p) (q_J p) (q_Q p) (Some (mult_t nd (view 0 nd w) (q_shape p))).

(** [Vector::AddElementVector] *)
Definition add_elvec (y : vec) (vd : list Z) (e : fv) : outcome vec :=
  ofor (List.length vd) (fun y k =>
    let* d := oread vd k in
    let* old := oread y (dof_idx d) in
    owrite y (dof_idx d) (old + dof_sgn d * e k)) y.

(** [NonlinearForm::Mult] with a [VectorConvectionTrilinearFormIntegrator] as the only domain integrator *)
Definition conv_form (n dim : nat) (els : list celem) (wind : option vec) (x : vec) : outcome vec :=
  ofold (fun y el =>
    let* ex := get_sub x (ce_dofs el) in
    let* rule := match wind with
                 | None => Ok (ce_rule el)
                 | Some w => let* ew := get_sub w (ce_dofs el) in Ok (map (at_wind (ce_nd el) (vnth ew)) (ce_rule el))
                 end in
    add_elvec y (ce_dofs el) (conv_vector (ce_nd el) dim rule (vnth ex))) els (repeat 0 n).

(** src/steady_ns_solver.cpp:1380-1425 [GetReducedTensor]; [junk] is the new tensor's memory *)
Definition reduced_tensor (n dim : nat) (els : list celem) (B : dmat) (junk : vec) : outcome tensor :=
  let nb := dm_w B in
  oassert (n <=? dm_h B)%nat (
  let* buf := ofor nb (fun buf i =>
    let* ui := col_view B i 0 n in
    ofor nb (fun buf j =>
      let* uj := col_view B j 0 n in
      let* tmp := conv_form n dim els (Some ui) uj in
      ofor nb (fun buf k =>
        let* uk := col_view B k 0 n in
        owrite buf (i + j * nb + k * (nb * nb)) (dot n uk tmp)) buf) buf) junk in
  Ok (Tensor nb nb nb buf)).

(** ** Full order *)

(** src/steady_ns_solver.cpp:22-49 [SteadyNSOperator]: the offsets of the velocities, the size, the blocks of the linear operator *)
Record nsop := NsOp { no_off : list nat; no_n : nat; no_M : fm; no_Bt : fm; no_B : fm; no_C : option fm }.

(** [u_offsets.Last()] *)
Definition no_nu (op : nsop) : nat := last (no_off op) 0%nat.
Definition no_sub (op : nsop) : nat := (List.length (no_off op) - 1)%nat.

(** src/steady_ns_solver.cpp:63-87 [SteadyNSOperator::Mult] *)
Definition fom_mult (op : nsop) (hs : nat -> vec -> vec) (itf : option (vec -> vec)) (x : vec) : outcome vec :=
  let nu := no_nu op in let n := no_n op in
  oguard ((nu <=? n) && (List.length x =? n))%nat (
  let xu := firstn nu x in
  let* b := ofor (no_sub op) (fun b m =>
    let* xc := bv_get (BVec (no_off op) xu) m in
    let* yc := bv_get b m in
    let z := hs m xc in
    oguard (List.length z =? List.length yc)%nat (bv_put b m z)) (BVec (no_off op) (repeat 0 nu)) in
  let* yu := match itf with
             | None => Ok (bv_dat b)
             | Some f => oguard (List.length (f xu) =? nu)%nat (Ok (map (fun i => vnth (bv_dat b) i + vnth (f xu) i) (seq 0 nu)))
             end in
  Ok (map (fun i =>
    let y := if (i <? nu)%nat then vnth yu i else 0 in
    if (i <? nu)%nat then y + mult nu (no_M op) (vnth x) i + mult (n - nu) (no_Bt op) (fun j => vnth x (nu + j)) i
    else y + mult nu (no_B op) (vnth x) (i - nu)%nat +
      match no_C op with None => 0 | Some C => mult (n - nu) C (fun j => vnth x (nu + j)) (i - nu)%nat end) (seq 0 n))).

(** src/steady_ns_solver.cpp:89-152 [SteadyNSOperator::GetGradient]; [hg m x] is the gradient of form [m], [ig xu i j] what the
    interface form adds to block (i, j) *)
Definition fom_grad (op : nsop) (hg : nat -> vec -> fm) (ig : option (vec -> nat -> nat -> fm)) (x : vec) : outcome fm :=
  let nu := no_nu op in let n := no_n op in
  oguard ((nu <=? n) && (List.length x =? n))%nat (
  let xu := firstn nu x in
  let* H := ofor (no_sub op) (fun H i => ofor (no_sub op) (fun H j =>
    let* r0 := oread (no_off op) i in
    let* r1 := oread (no_off op) (i + 1) in
    let* c0 := oread (no_off op) j in
    let* c1 := oread (no_off op) (j + 1) in
    let* A := if (i =? j)%nat then let* xc := bv_get (BVec (no_off op) x) i in Ok (hg i xc) else Ok zero_m in
    let A := match ig with None => A | Some g => add_m 1 (g xu i j) A end in
    Ok (add_matrix 1 A (r1 - r0) (c1 - c0) r0 c0 H)) H) zero_m in
  let uu := add_m 1 H (no_M op) in
  let J := add_matrix 1 uu nu nu 0 0 zero_m in
  let J := add_matrix 1 (no_Bt op) nu (n - nu) 0 nu J in
  Ok (add_matrix 1 (no_B op) (n - nu) nu nu 0 J)).
