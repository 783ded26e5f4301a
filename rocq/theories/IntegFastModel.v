(** Hyper-reduced forms with precomputed coefficients: precomputation, evaluation, Jacobians. *)
From Coq Require Import Reals List Bool Lia Arith ZArith.
From Verif Require Import Outcome HdfModel LaBase LinalgModel ItfModel EqpModel IntegModel.
Import ListNotations.
Local Open Scope R_scope.

(** include/hyperreduction_integ.hpp:33-57 [EQPSample]: the matrices [shape1], [shape2] (dimension by basis functions) and
    [dshape1] (one square matrix for each basis function) *)
Record pre := Pre { pe_s1 : fm; pe_s2 : fm; pe_d1 : nat -> fm }.

(** src/rom_nonlinearform.cpp:1388-1428 [PrecomputeDomainEQPSample]; column [i] of [bel] is basis function [i] on the element *)
Definition pre_elem (nd dim : nat) (p : qpt) (bel : fm) : pre :=
  let EF := fun i => view 0 nd (fun k => bel k i) in
  Pre (fun d i => mult_t nd (EF i) (q_shape p) d) zero_m (fun i => mult_atb nd (EF i) (phys dim p)).

(** src/rom_nonlinearform.cpp:1430-1497 [PrecomputeFaceEQPSample] *)
Definition pre_face (nd1 nd2 dim : nat) (p : fpt) (bel : fm) : pre :=
  let el := fun i => (fun k => bel k i) in
  Pre (fun d i => mult_t nd1 (view 0 nd1 (el i)) (f_s1 p) d)
      (if negb (nd2 =? 0)%nat then fun d i => mult_t nd2 (view (nd1 * dim) nd2 (el i)) (f_s2 p) d else zero_m)
      (fun _ => zero_m).

(** src/rom_interfaceform.cpp:826-889 [PrecomputeEQPSample] *)
Definition pre_itf (nd1 nd2 : nat) (p : fpt) (bel1 bel2 : fm) : pre :=
  Pre (fun d i => mult_t nd1 (view 0 nd1 (fun k => bel1 k i)) (f_s1 p) d)
      (fun d i => mult_t nd2 (view 0 nd2 (fun k => bel2 k i)) (f_s2 p) d)
      (fun _ => zero_m).

(** src/hyperreduction_integ.cpp:466-491 [VectorConvectionTrilinearFormIntegrator::AddAssembleVector_Fast]; [nb] basis functions *)
Definition conv_fast (nb dim : nat) (p : qpt) (qw : R) (s : pre) (x : fv) (y : fv) : fv :=
  let w := with_q (q_Q p) (qw * q_J p) in
  let vec1 := mult nb (pe_s1 s) x in
  let gradEF := fun d e => rsum nb (fun k => x k * pe_d1 s k d e) in
  let vec2 := mult dim gradEF vec1 in
  fun j => y j + w * mult_t dim (pe_s1 s) vec2 j.

(** src/hyperreduction_integ.cpp:493-533 [AddAssembleGrad_Fast] *)
Definition conv_fast_grad (nb dim : nat) (p : qpt) (qw : R) (s : pre) (x : fv) (jac : fm) : fm :=
  let w := with_q (q_Q p) (qw * q_J p) in
  let vec1 := mult nb (pe_s1 s) x in
  let gradEF := fun d e => w * rsum nb (fun k => x k * pe_d1 s k d e) in
  let ELV := mult_ab dim gradEF (pe_s1 s) in
  let ELV := fun d k => ELV d k + w * mult dim (pe_d1 s k) vec1 d in
  fun i k => jac i k + mult_t dim (pe_s1 s) (fun d => ELV d k) i.

(** src/hyperreduction_integ.cpp:729-753 [IncompressibleInviscidFluxNLFIntegrator::AddAssembleVector_Fast] *)
Definition visc_fast (nb dim : nat) (p : qpt) (qw : R) (s : pre) (x : fv) (y : fv) : fv :=
  let w := with_q (q_Q p) (qw * q_J p) in
  let u1 := mult nb (pe_s1 s) x in
  fun k => y k + w * inner dim u1 (mult dim (pe_d1 s k) u1).

(** src/hyperreduction_integ.cpp:755-788 [AddAssembleGrad_Fast] *)
Definition visc_fast_grad (nb dim : nat) (p : qpt) (qw : R) (s : pre) (x : fv) (jac : fm) : fm :=
  let w := with_q (q_Q p) (qw * q_J p) in
  let u1 := scale w (mult nb (pe_s1 s) x) in
  fun i j =>
    let vec1 := fun d => mult dim (pe_d1 s i) u1 d + mult_t dim (pe_d1 s i) u1 d in
    let vec2 := mult_t dim (pe_s1 s) vec1 in
    jac i j + vec2 j.

(** src/linalg_utils.cpp:125-136 [AddwRtAP] on functions; the matrix [A] has size [dim] *)
Definition add_rtap (dim : nat) (r a p : fm) (w : R) (jac : fm) : fm := fun i j =>
  jac i j + w * rsum dim (fun d => r d i * rsum dim (fun e => a d e * p e j)).

(** src/interfaceinteg.cpp:1742-1755, 1803-1822 *)
Definition lf_fast_u2 (nb : nat) (el2 ud : bool) (p : fpt) (s : pre) (x old : fv) : fv :=
  if el2 then mult nb (pe_s2 s) x else if ud then f_UD p else old.

(** src/interfaceinteg.cpp:1728-1787 [DGLaxFriedrichsFluxIntegrator::AddAssembleVector_Fast] on a face *)
Definition lf_fast (nb dim : nat) (el2 ud : bool) (p : fpt) (qw : R) (s : pre) (x old : fv) (y : fv) : fv :=
  let u1 := mult nb (pe_s1 s) x in
  let u2 := lf_fast_u2 nb el2 ud p s x old in
  let flux := lf_flux dim u1 u2 (f_nor p) (el2 || ud) in
  let w := with_q (f_Q p) qw in
  fun j => let y := y j + - w * mult_t dim (pe_s1 s) flux j in
    if el2 then y + w * mult_t dim (pe_s2 s) flux j else y.

(** src/interfaceinteg.cpp:1789-1844 [AddAssembleGrad_Fast] on a face; [memb]: the member [ndofs2] is not zero (1825; it keeps
    the value of the last element by element evaluation) *)
Definition lf_fast_grad (nb dim : nat) (el2 ud memb : bool) (p : fpt) (qw : R) (s : pre) (x old : fv) (jac : fm) : option fm :=
  let u1 := mult nb (pe_s1 s) x in
  let u2 := lf_fast_u2 nb el2 ud p s x old in
  match lf_grad dim u1 u2 (f_nor p) (el2 || ud) memb with
  | None => None
  | Some (g1, g2) =>
      let w := with_q (f_Q p) qw in
      let jac := add_rtap dim (pe_s1 s) g1 (pe_s1 s) (- w) jac in
      Some (if el2 then
        let jac := add_rtap dim (pe_s2 s) g1 (pe_s1 s) w jac in
        let jac := add_rtap dim (pe_s1 s) g2 (pe_s2 s) (- w) jac in
        add_rtap dim (pe_s2 s) g2 (pe_s2 s) w jac
      else jac)
  end.

(** src/interfaceinteg.cpp:2073-2133 [AddAssembleVector_Fast] on an interface *)
Definition lf_fast_itf (nb1 nb2 dim : nat) (p : fpt) (qw : R) (s : pre) (x1 x2 : fv) (y1 y2 : fv) : fv * fv :=
  let u1 := mult nb1 (pe_s1 s) x1 in
  let u2 := mult nb2 (pe_s2 s) x2 in
  let flux := lf_flux dim u1 u2 (f_nor p) true in
  let w := with_q (f_Q p) qw in
  (fun j => y1 j + - w * mult_t dim (pe_s1 s) flux j, fun j => y2 j + w * mult_t dim (pe_s2 s) flux j).

(** src/interfaceinteg.cpp:2135-2207 [AddAssembleGrad_Fast] on an interface *)
Definition lf_fast_itf_grad (nb1 nb2 dim : nat) (p : fpt) (qw : R) (s : pre) (x1 x2 : fv) (jac : mats) : option mats :=
  let u1 := mult nb1 (pe_s1 s) x1 in
  let u2 := mult nb2 (pe_s2 s) x2 in
  match lf_grad dim u1 u2 (f_nor p) true true with
  | None => None
  | Some (g1, g2) =>
      let w := with_q (f_Q p) qw in
      Some (Mats (add_rtap dim (pe_s1 s) g1 (pe_s1 s) (- w) (m11 jac)) (add_rtap dim (pe_s1 s) g2 (pe_s2 s) (- w) (m12 jac))
                 (add_rtap dim (pe_s2 s) g1 (pe_s1 s) w (m21 jac)) (add_rtap dim (pe_s2 s) g2 (pe_s2 s) w (m22 jac)))
  end.

(** ** Forms *)

(** The integrators with a fast evaluation; [ud]: whether the boundary velocity is set *)
Inductive nlf := NConv | NVisc | NLax (ud : bool).
(** An element with its points and the transformations of its degrees of freedom ([InvTransformPrimal], [TransformDual] of
    vectors and matrices), or a face *)
Inductive spot :=
| Elem (nd : nat) (pts : nat -> qpt) (prim dual : vec -> vec) (dualm : dmat -> dmat)
| Face (nd1 nd2 : nat) (pts : nat -> fpt).
Record place := Place { pl_dofs : list Z; pl_spot : spot }.

(** A function as a vector, as a matrix *)
Definition tab (n : nat) (f : fv) : vec := map f (seq 0 n).
Definition tabm (n : nat) (f : fm) : dmat := DMat n n (flat_map (fun j => map (fun i => f i j) (seq 0 n)) (seq 0 n)).

(** What the integrators compute element by element; [old] is what the member [u2] holds; NaN is excluded below *)
Definition quad_of (k : nlf) (dim : nat) (sp : spot) (old : fv) (m : nat) (w : R) (x : fv) : fv :=
  match k, sp with
  | NConv, Elem nd pts _ _ _ => conv_qvector nd dim (pts m) w x
  | NVisc, Elem nd pts _ _ _ => visc_qvector nd dim (pts m) w x
  | NLax ud, Face nd1 nd2 pts => lf_face_qvector nd1 nd2 dim ud (pts m) w x old
  | _, _ => fun _ => 0
  end.
Definition qgrad_of (k : nlf) (dim : nat) (sp : spot) (old : fv) (m : nat) (w : R) (x : fv) : fm :=
  match k, sp with
  | NConv, Elem nd pts _ _ _ => conv_qgrad nd dim (pts m) w x
  | NVisc, Elem nd pts _ _ _ => visc_qgrad nd dim (pts m) w x
  | NLax ud, Face nd1 nd2 pts => match lf_face_qgrad nd1 nd2 dim ud (pts m) w x old with Some J => J | None => zero_m end
  | _, _ => zero_m
  end.

(** The place as the general model of hyper-reduced forms sees it *)
Definition site_at (k : nlf) (dim : nat) (old : fv) (pl : place) : site :=
  let n := List.length (pl_dofs pl) in
  Site (pl_dofs pl) 0
    (match pl_spot pl with Elem _ _ p _ _ => p | Face _ _ _ => fun v => v end)
    (match pl_spot pl with Elem _ _ _ q _ => q | Face _ _ _ => fun v => v end)
    (match pl_spot pl with Elem _ _ _ _ qm => qm | Face _ _ _ => fun v => v end)
    (fun _ m w x => tab n (quad_of k dim (pl_spot pl) old m w (vnth x)))
    (fun _ m w x => tabm n (qgrad_of k dim (pl_spot pl) old m w (vnth x))).

Record fint := FInt { fi_kind : nlf; fi_rule : option nat; fi_places : list (option place); fi_attr : list Z;
                      fi_mark : option (list Z); fi_smp : option (list (sinfo R)) }.
Definition to_integ (dim : nat) (old : fv) (I : fint) : integ :=
  Integ (fi_rule I) (map (option_map (site_at (fi_kind I) dim old)) (fi_places I)) (fi_attr I) (fi_mark I) (fi_smp I).

(** src/linalg_utils.cpp:948-955 [GetBasisElement] of all columns *)
Definition basis_elem (B : dmat) (pl : place) : outcome fm :=
  let* cols := omap (fun i =>
    let* c := dm_colref B i in
    let* v := get_sub c (pl_dofs pl) in
    Ok (match pl_spot pl with Elem _ _ p _ _ => p v | Face _ _ _ => v end)) (seq 0 (dm_w B)) in
  Ok (fun k i => vnth (nth i cols []) k).

(** The place of a sample: src/rom_nonlinearform.cpp:696-705 (precomputation), 268-284 *)
Definition sample_place (I : fint) (s : sinfo R) : outcome (option place) :=
  match fi_mark I with
  | None => zread (fi_places I) (si_el s)
  | Some mk =>
      let* a := zread (fi_attr I) (si_el s) in
      let* m := zread mk (a - 1) in
      oassert (negb (m =? 0)%Z) (zread (fi_places I) (si_el s))
  end.

(** src/rom_nonlinearform.cpp:626-711 [PrecomputeCoefficients], 1499-1525 *)
Definition precompute_integ (dim : nat) (B : dmat) (I : fint) : outcome (list pre) :=
  match fi_rule I, fi_smp I with
  | Some nq, Some l =>
      omap (fun s =>
        let* po := sample_place I s in
        let* qp := int_point nq (si_qp s) in
        match po with
        | None => Abort
        | Some pl =>
            let* bel := basis_elem B pl in
            Ok (match pl_spot pl with
                | Elem nd pts _ _ _ => pre_elem nd dim (pts qp) bel
                | Face nd1 nd2 pts => pre_face nd1 nd2 dim (pts qp) bel
                end)
        end) l
  | _, _ => Abort
  end.
Definition precompute_form (dim n : nat) (B : option dmat) (ints : list fint) : outcome (list (list pre)) :=
  match B with
  | None => Abort
  | Some B => oassert (dm_w B =? n)%nat (omap (precompute_integ dim B) ints)
  end.

(** One sample of one integrator *)
Definition fast_at (k : nlf) (nb dim : nat) (sp : spot) (old : fv) (m : nat) (w : R) (s : pre) (x y : fv) : fv :=
  match k, sp with
  | NConv, Elem _ pts _ _ _ => conv_fast nb dim (pts m) w s x y
  | NVisc, Elem _ pts _ _ _ => visc_fast nb dim (pts m) w s x y
  | NLax ud, Face _ nd2 pts => lf_fast nb dim (negb (nd2 =? 0)%nat) ud (pts m) w s x old y
  | _, _ => y
  end.
Definition fast_grad_at (k : nlf) (nb dim : nat) (memb : bool) (sp : spot) (old : fv) (m : nat) (w : R) (s : pre) (x : fv) (jac : fm) : option fm :=
  match k, sp with
  | NConv, Elem _ pts _ _ _ => Some (conv_fast_grad nb dim (pts m) w s x jac)
  | NVisc, Elem _ pts _ _ _ => Some (visc_fast_grad nb dim (pts m) w s x jac)
  | NLax ud, Face _ nd2 pts => lf_fast_grad nb dim (negb (nd2 =? 0)%nat) ud memb (pts m) w s x old jac
  | _, _ => Some jac
  end.

(** src/rom_nonlinearform.cpp:97-128, 165-188, 249-291: [Mult] with precomputed coefficients, one integrator; a missing
    transformation is dereferenced, missing coefficients ([shape1] is [NULL]) as well *)
Definition fast_integ (n dim : nat) (old : fv) (x : vec) (y : vec) (Ip : fint * list pre) : outcome vec :=
  let (I, ps) := Ip in
  match fi_rule I, fi_smp I with
  | Some nq, Some l =>
      ofold (fun y i =>
        let* s := oread l i in
        let* po := sample_place I s in
        let* p := oread ps i in
        let* qp := int_point nq (si_qp s) in
        match po with
        | None => UB
        | Some pl => Ok (tab n (fast_at (fi_kind I) n dim (pl_spot pl) old qp (si_qw s) p (vnth x) (vnth y)))
        end) (seq 0 (List.length l)) y
  | _, _ => Abort
  end.
Definition fast_mult (n dim : nat) (B : option dmat) (ints : list fint) (pres : list (list pre)) (old : fv) (x y : vec) : outcome vec :=
  oassert (List.length x =? n)%nat (
  oassert (List.length y =? n)%nat (
  match B with
  | None => Abort
  | Some B => oassert (dm_w B =? n)%nat (ofold (fast_integ n dim old x) (combine ints pres) (repeat 0 n))
  end)).

(** src/rom_nonlinearform.cpp:347-624 [GetGradient] with precomputed coefficients; [None]: not a number *)
Definition fast_ginteg (n dim : nat) (memb : bool) (old : fv) (x : vec) (J : option dmat) (Ip : fint * list pre) : outcome (option dmat) :=
  let (I, ps) := Ip in
  match fi_rule I, fi_smp I with
  | Some nq, Some l =>
      ofold (fun J i =>
        let* s := oread l i in
        let* po := sample_place I s in
        let* p := oread ps i in
        let* qp := int_point nq (si_qp s) in
        match po with
        | None => UB
        | Some pl => Ok (match J with
            | None => None
            | Some J => option_map (tabm n) (fast_grad_at (fi_kind I) n dim memb (pl_spot pl) old qp (si_qw s) p (vnth x) (mget J))
            end)
        end) (seq 0 (List.length l)) J
  | _, _ => Abort
  end.
Definition fast_gradient (n dim : nat) (memb : bool) (ints : list fint) (pres : list (list pre)) (old : fv) (x : vec) : outcome (option dmat) :=
  oassert (List.length x =? n)%nat (ofold (fast_ginteg n dim memb old x) (combine ints pres) (Some (DMat n n (repeat 0 (n * n))))).
