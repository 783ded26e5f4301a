(** Model of the nonlinear integrators: src/hyperreduction_integ.cpp (convection, inviscid flux), src/nonlinear_integ.cpp
    (Temam forms) and src/interfaceinteg.cpp (Temam and Lax-Friedrichs interface fluxes).

    Simplifications: entries are exact reals. A vector is a function of the index, a matrix a function of row and column;
    only indices within the sizes the code sets are meaningful, and the sizes are arguments of the loops. What MFEM
    computes at an integration point (shape functions, derivatives, Jacobians, normals, coefficients) is data. MFEM's
    dense kernels are given by the sums they compute. Timers are left out. *)
From Coq Require Import Reals List Bool Lia Arith.
From Verif Require Import LaBase.
Import ListNotations.
Local Open Scope R_scope.

Definition fv := nat -> R.
Definition fm := nat -> nat -> R.

(** [for (i = 0; i < n; i++)] *)
Definition floop {S : Type} (n : nat) (f : nat -> S -> S) (s : S) : S := fold_left (fun s i => f i s) (seq 0 n) s.

(** [UseExternalData(v.GetData() + o, nd, dim)]: the column-major view of a vector, and the vector a filled view is *)
Definition view (o nd : nat) (v : fv) : fm := fun k d => v (o + k + d * nd)%nat.
Definition unview (nd : nat) (M : fm) : fv := fun i => M (i mod nd)%nat (i / nd)%nat.

(** MFEM: [A.MultTranspose(x)] with [n] rows, [A.Mult(x)] with [n] columns, [MultAtB] with [n] rows, [Mult] with inner size
    [n], the inner product, [MultVWt], a transposed copy, scaling *)
Definition mult_t (n : nat) (A : fm) (x : fv) : fv := fun d => rsum n (fun k => A k d * x k).
Definition mult (n : nat) (A : fm) (x : fv) : fv := fun i => rsum n (fun j => A i j * x j).
Definition mult_atb (n : nat) (A B : fm) : fm := fun i j => rsum n (fun k => A k i * B k j).
Definition mult_ab (n : nat) (A B : fm) : fm := fun i j => rsum n (fun k => A i k * B k j).
Definition inner (n : nat) (u v : fv) : R := rsum n (fun i => u i * v i).
Definition vwt (v w : fv) : fm := fun i j => v i * w j.
Definition transpose (A : fm) : fm := fun i j => A j i.
Definition scale (a : R) (v : fv) : fv := fun i => a * v i.
Definition zero_m : fm := fun _ _ => 0.
(** [AddMult_a_VWt(a, v, w, M)], [AddMult_a(a, A, B, M)], [AddMult_a_ABt(a, A, B, M)] with inner size [n], [M.Add(a, A)] *)
Definition add_vwt (a : R) (v w : fv) (M : fm) : fm := fun i j => M i j + a * (v i * w j).
Definition add_ab (n : nat) (a : R) (A B : fm) (M : fm) : fm := fun i j => M i j + a * rsum n (fun k => A i k * B k j).
Definition add_abt (n : nat) (a : R) (A B : fm) (M : fm) : fm := fun i j => M i j + a * rsum n (fun k => A i k * B j k).
Definition add_m (a : R) (A M : fm) : fm := fun i j => M i j + a * A i j.
(** [M.AddMatrix(a, A, ro, co)] with [A] of [h] rows and [w] columns *)
Definition add_matrix (a : R) (A : fm) (h w ro co : nat) (M : fm) : fm := fun i j =>
  if ((ro <=? i) && (i <? ro + h) && (co <=? j) && (j <? co + w))%nat then M i j + a * A (i - ro)%nat (j - co)%nat else M i j.

(** ** Domain integrators *)

(** One integration point of an element: [ip.weight], the shape functions, their reference derivatives, the inverse and
    adjugate of the Jacobian, [T.Weight()], the values of the coefficients [Q] and [vQ] (when set) *)
Record qpt := Qpt { q_w : R; q_shape : fv; q_dref : fm; q_inv : fm; q_adj : fm; q_J : R; q_Q : option R; q_vQ : option fv }.

(** MFEM: [CalcPhysDShape] is the product of the reference derivatives and the inverse Jacobian *)
Definition phys (dim : nat) (p : qpt) : fm := mult_ab dim (q_dref p) (q_inv p).
(** [if (Q) w *= Q->Eval(T, ip)] *)
Definition with_q (q : option R) (w : R) : R := match q with Some c => w * c | None => w end.

(** src/hyperreduction_integ.cpp:224-239, 304-323: value to be spread over the shape functions at one point *)
Definition conv_flux (nd dim : nat) (p : qpt) (iw : R) (EF : fm) : fv :=
  let dshape := phys dim p in
  let w := with_q (q_Q p) (iw * q_J p) in
  let gradEF := mult_atb nd EF dshape in
  let vec1 := match q_vQ p with Some v => v | None => mult_t nd EF (q_shape p) end in
  scale w (mult dim gradEF vec1).

(** src/hyperreduction_integ.cpp:195-241 [VectorConvectionTrilinearFormIntegrator::AssembleElementVector] *)
Definition conv_vector (nd dim : nat) (rule : list qpt) (elfun : fv) : fv :=
  unview nd (fold_left (fun ELV p => add_vwt 1 (q_shape p) (conv_flux nd dim p (q_w p) (view 0 nd elfun)) ELV) rule zero_m).

(** src/hyperreduction_integ.cpp:286-324 [AssembleQuadratureVector] *)
Definition conv_qvector (nd dim : nat) (p : qpt) (iw : R) (eltest : fv) : fv :=
  unview nd (vwt (q_shape p) (conv_flux nd dim p iw (view 0 nd eltest))).

(** src/hyperreduction_integ.cpp:354-394, 425-463: what one point adds to the element matrix *)
Definition conv_gpoint (nd dim : nat) (p : qpt) (iw : R) (EF : fm) (elmat : fm) : fm :=
  let dshapex := mult_ab dim (q_dref p) (q_inv p) in
  let w := with_q (q_Q p) iw in
  let gradEF := mult_atb nd EF dshapex in
  let vec1 := mult_t nd EF (q_shape p) in
  let vec2 := scale w (mult dim (q_adj p) vec1) in
  let vec3 := mult dim (q_dref p) vec2 in
  let elmat := floop dim (fun ii m => add_matrix 1 (vwt (q_shape p) vec3) nd nd (ii * nd) (ii * nd) m) elmat in
  let w := with_q (q_Q p) (iw * q_J p) in
  floop dim (fun ii m => floop dim (fun jj m =>
    add_matrix (w * gradEF ii jj) (vwt (q_shape p) (q_shape p)) nd nd (ii * nd) (jj * nd) m) m) elmat.

(** src/hyperreduction_integ.cpp:326-395 [AssembleElementGrad], 397-464 [AssembleQuadratureGrad] *)
Definition conv_grad (nd dim : nat) (rule : list qpt) (elfun : fv) : fm :=
  fold_left (fun m p => conv_gpoint nd dim p (q_w p) (view 0 nd elfun) m) rule zero_m.
Definition conv_qgrad (nd dim : nat) (p : qpt) (iw : R) (elfun : fv) : fm :=
  conv_gpoint nd dim p iw (view 0 nd elfun) zero_m.

(** src/hyperreduction_integ.cpp:546-581 [IncompressibleInviscidFluxNLFIntegrator::AssembleElementVector] *)
Definition visc_vector (nd dim : nat) (rule : list qpt) (elfun : fv) : fv :=
  unview nd (fold_left (fun ELV p =>
    let w := with_q (q_Q p) (q_w p * q_J p) in
    let u1 := mult_t nd (view 0 nd elfun) (q_shape p) in
    add_abt dim w (phys dim p) (vwt u1 u1) ELV) rule zero_m).

(** src/hyperreduction_integ.cpp:643-673 [AssembleQuadratureVector] *)
Definition visc_qvector (nd dim : nat) (p : qpt) (iw : R) (eltest : fv) : fv :=
  let w := with_q (q_Q p) (iw * q_J p) in
  let u1 := mult_t nd (view 0 nd eltest) (q_shape p) in
  unview nd (add_ab dim w (phys dim p) (vwt u1 u1) zero_m).

(** src/hyperreduction_integ.cpp:610-639, 696-726 *)
Definition visc_gpoint (nd dim : nat) (p : qpt) (iw : R) (EF : fm) (elmat : fm) : fm :=
  let dshape := phys dim p in
  let w := with_q (q_Q p) (iw * q_J p) in
  let vec1 := scale w (mult_t nd EF (q_shape p)) in
  let vec2 := mult dim dshape vec1 in
  let elmat := floop dim (fun d m => add_matrix 1 (vwt vec2 (q_shape p)) nd nd (d * nd) (d * nd) m) elmat in
  floop dim (fun di m => floop dim (fun dj m =>
    let vec3 := fun k => vec1 di * dshape k dj in
    add_matrix 1 (vwt vec3 (q_shape p)) nd nd (di * nd) (dj * nd) m) m) elmat.

(** src/hyperreduction_integ.cpp:583-641 [AssembleElementGrad], 675-727 [AssembleQuadratureGrad] *)
Definition visc_grad (nd dim : nat) (rule : list qpt) (elfun : fv) : fm :=
  fold_left (fun m p => visc_gpoint nd dim p (q_w p) (view 0 nd elfun) m) rule zero_m.
Definition visc_qgrad (nd dim : nat) (p : qpt) (iw : R) (elfun : fv) : fm :=
  visc_gpoint nd dim p iw (view 0 nd elfun) zero_m.

(** src/nonlinear_integ.cpp:20-57 [TemamTrilinearFormIntegrator::AssembleElementVector] *)
Definition temam_vector (nd dim : nat) (rule : list qpt) (elfun : fv) : fv :=
  let EF := view 0 nd elfun in
  unview nd (fold_left (fun ELV p =>
    let dshape := phys dim p in
    let w := with_q (q_Q p) (1 / 2 * q_w p * q_J p) in
    let u1 := mult_t nd EF (q_shape p) in
    let gradEF := mult_atb nd EF dshape in
    let ELV := add_vwt 1 (q_shape p) (scale w (mult dim gradEF u1)) ELV in
    let vec1 := mult dim dshape u1 in
    add_vwt 1 vec1 (scale (- w) u1) ELV) rule zero_m).

(** src/nonlinear_integ.cpp:59-120 [TemamTrilinearFormIntegrator::AssembleElementGrad] *)
Definition temam_grad (nd dim : nat) (rule : list qpt) (elfun : fv) : fm :=
  let EF := view 0 nd elfun in
  fold_left (fun m p =>
    let dshape := phys dim p in
    let u1 := mult_t nd EF (q_shape p) in
    let gradEF := mult_atb nd EF dshape in
    let w := with_q (q_Q p) (1 / 2 * q_w p * q_J p) in
    let vec2 := mult dim dshape u1 in
    let m := floop dim (fun d m => add_matrix (- w) (vwt vec2 (q_shape p)) nd nd (d * nd) (d * nd) m) m in
    let m := floop dim (fun d m => add_matrix w (vwt (q_shape p) vec2) nd nd (d * nd) (d * nd) m) m in
    floop dim (fun di m => floop dim (fun dj m =>
      let vec3 := fun k => u1 di * dshape k dj in
      let m := add_matrix (- w) (vwt vec3 (q_shape p)) nd nd (di * nd) (dj * nd) m in
      add_matrix (w * gradEF di dj) (vwt (q_shape p) (q_shape p)) nd nd (di * nd) (dj * nd) m) m) m) rule zero_m.

(** ** Face integrators *)

(** One integration point of a face: [ip.weight], the shape functions of the elements on the two sides, the normal, the
    value of [Q] when set, the value of the boundary coefficient [UD] *)
Record fpt := Fpt { f_w : R; f_s1 : fv; f_s2 : fv; f_nor : fv; f_Q : option R; f_UD : fv }.

(** src/nonlinear_integ.cpp:188-190, 287-289: the scaled normal *)
Definition temam_nor (p : fpt) : fv := scale (with_q (f_Q p) (1 / 2 * f_w p)) (f_nor p).

(** src/nonlinear_integ.cpp:126-212 [DGTemamFluxIntegrator::AssembleFaceVector]; the two views of the element vector *)
Definition temam_face_views (nd1 nd2 dim : nat) (rule : list fpt) (elfun : fv) : fm * fm :=
  fold_left (fun '(elv1, elv2) p =>
    let u1 := mult_t nd1 (view 0 nd1 elfun) (f_s1 p) in
    let u2 := mult_t nd2 (view (nd1 * dim) nd2 elfun) (f_s2 p) in
    let nor := temam_nor p in
    let un := inner dim nor u1 in
    let flux := scale un u1 in
    if (nd2 =? 0)%nat then (add_vwt 1 (f_s1 p) flux elv1, elv2)
    else (add_vwt 1 (f_s1 p) (scale (- un) u2) elv1, add_vwt 1 (f_s2 p) flux elv2)) rule (zero_m, zero_m).

(** The vector behind two views placed one after the other *)
Definition join (nd1 nd2 dim : nat) (vs : fm * fm) : fv := fun i =>
  if (i <? nd1 * dim)%nat then unview nd1 (fst vs) i else unview nd2 (snd vs) (i - nd1 * dim)%nat.

Definition temam_face_vector (nd1 nd2 dim : nat) (rule : list fpt) (elfun : fv) : fv :=
  join nd1 nd2 dim (temam_face_views nd1 nd2 dim rule elfun).

(** src/nonlinear_integ.cpp:214-320 [DGTemamFluxIntegrator::AssembleFaceGrad] *)
Definition temam_face_grad (nd1 nd2 dim : nat) (rule : list fpt) (elfun : fv) : fm :=
  fold_left (fun m p =>
    let u1 := mult_t nd1 (view 0 nd1 elfun) (f_s1 p) in
    let u2 := mult_t nd2 (view (nd1 * dim) nd2 elfun) (f_s2 p) in
    let nor := temam_nor p in
    let un := inner dim nor u1 in
    let c11 := vwt (f_s1 p) (f_s1 p) in
    let c12 := vwt (f_s1 p) (f_s2 p) in
    let c21 := transpose c12 in
    if (nd2 =? 0)%nat then
      floop dim (fun di m =>
        let m := add_matrix un c11 nd1 nd1 (di * nd1) (di * nd1) m in
        floop dim (fun dj m => add_matrix (u1 di * nor dj) c11 nd1 nd1 (di * nd1) (dj * nd1) m) m) m
    else
      floop dim (fun di m =>
        let m := add_matrix un c21 nd2 nd1 (di * nd2 + dim * nd1) (di * nd1) m in
        let m := add_matrix (- un) c12 nd1 nd2 (di * nd1) (di * nd2 + dim * nd1) m in
        floop dim (fun dj m =>
          let m := add_matrix (u1 di * nor dj) c21 nd2 nd1 (di * nd2 + dim * nd1) (dj * nd1) m in
          add_matrix (- u2 di * nor dj) c11 nd1 nd1 (di * nd1) (dj * nd1) m) m) m) rule zero_m.

(** src/interfaceinteg.cpp:843-920 [InterfaceDGTemamFluxIntegrator::AssembleInterfaceVector] *)
Definition temam_itf_vector (nd1 nd2 dim : nat) (rule : list fpt) (elfun1 elfun2 : fv) : fv * fv :=
  let '(elv1, elv2) := fold_left (fun '(elv1, elv2) p =>
    let u1 := mult_t nd1 (view 0 nd1 elfun1) (f_s1 p) in
    let u2 := mult_t nd2 (view 0 nd2 elfun2) (f_s2 p) in
    let nor := temam_nor p in
    let un := inner dim nor u1 in
    (add_vwt 1 (f_s1 p) (scale (- un) u2) elv1, add_vwt 1 (f_s2 p) (scale un u1) elv2)) rule (zero_m, zero_m) in
  (unview nd1 elv1, unview nd2 elv2).

(** The four matrices of an interface *)
Record mats := Mats { m11 : fm; m12 : fm; m21 : fm; m22 : fm }.
Definition zero_ms : mats := Mats zero_m zero_m zero_m zero_m.

(** src/interfaceinteg.cpp:922-1020 [InterfaceDGTemamFluxIntegrator::AssembleInterfaceGrad] *)
Definition temam_itf_grad (nd1 nd2 dim : nat) (rule : list fpt) (elfun1 elfun2 : fv) : mats :=
  fold_left (fun m p =>
    let u1 := mult_t nd1 (view 0 nd1 elfun1) (f_s1 p) in
    let u2 := mult_t nd2 (view 0 nd2 elfun2) (f_s2 p) in
    let nor := temam_nor p in
    let un := inner dim nor u1 in
    let c11 := vwt (f_s1 p) (f_s1 p) in
    let c12 := vwt (f_s1 p) (f_s2 p) in
    let c21 := transpose c12 in
    floop dim (fun di m =>
      let m := Mats (m11 m) (m12 m) (add_matrix un c21 nd2 nd1 (di * nd2) (di * nd1) (m21 m)) (m22 m) in
      let m := Mats (m11 m) (add_matrix (- un) c12 nd1 nd2 (di * nd1) (di * nd2) (m12 m)) (m21 m) (m22 m) in
      floop dim (fun dj m =>
        let m := Mats (m11 m) (m12 m) (add_matrix (u1 di * nor dj) c21 nd2 nd1 (di * nd2) (dj * nd1) (m21 m)) (m22 m) in
        Mats (add_matrix (- u2 di * nor dj) c11 nd1 nd1 (di * nd1) (dj * nd1) (m11 m)) (m12 m) (m21 m) (m22 m)) m) m) rule zero_ms.

(** ** Lax-Friedrichs flux *)

(** src/interfaceinteg.cpp:1311-1333 [ComputeFluxDotN] *)
Definition lf_flux (dim : nat) (u1 u2 nor : fv) (eval2 : bool) : fv :=
  let un1 := inner dim nor u1 in
  let un2 := if eval2 then inner dim nor u2 else 0 in
  let flux := scale un1 u1 in
  let flux := if eval2 then fun d => flux d * (1 / 2) + 1 / 2 * un2 * u2 d else flux in
  if eval2 then
    let un := Rmax (sqrt (inner dim u1 u1)) (sqrt (inner dim u2 u2)) in
    let un := un * sqrt (inner dim nor nor) in
    fun d => flux d + un * u1 d + - un * u2 d
  else flux.

(** src/interfaceinteg.cpp:1335-1392 [ComputeGradFluxDotN]; [None]: a quotient with zero divisor was added, which is not a
    number (1387-1390, the two velocities being equal to zero, is [0 * inf] or [0 * (0/0)]) *)
Definition lf_grad (dim : nat) (u1 u2 nor : fv) (eval2 ndofs2 : bool) : option (fm * fm) :=
  let u1mag := sqrt (inner dim u1 u1) in
  let u2mag := sqrt (inner dim u2 u2) in
  let normag := sqrt (inner dim nor nor) in
  let u1_lg_u2 := if Rle_dec u2mag u1mag then true else false in
  let un := Rmax u1mag u2mag * normag in
  let nor_ := if eval2 then scale (1 / 2) nor else nor in
  let un1 := inner dim nor_ u1 in
  let un2 := if eval2 then inner dim nor_ u2 else 0 in
  let diag a (g : fm) : fm := fun i j => if (i =? j)%nat then g i j + a else g i j in
  let gradu1 := add_vwt 1 u1 nor_ (diag un1 zero_m) in
  let gradu2 := zero_m in
  if negb eval2 then Some (gradu1, gradu2) else
  let gradu1 := diag un gradu1 in
  let gradu2 := if ndofs2 then diag (un2 - un) gradu2 else gradu2 in
  let gradu2 := if ndofs2 then add_vwt 1 u2 nor_ gradu2 else gradu2 in
  if negb ndofs2 && negb u1_lg_u2 then Some (gradu1, gradu2) else
  let du := fun d => u1 d + -1 * u2 d in
  if u1_lg_u2 then
    if Req_EM_T u1mag 0 then None else Some (add_vwt (normag / u1mag) du u1 gradu1, gradu2)
  else
    if Req_EM_T u2mag 0 then None else Some (gradu1, add_vwt (normag / u2mag) du u2 gradu2).

(** src/interfaceinteg.cpp:1436-1447, 1507-1514: the velocity on the other side; [old] is what the member holds before *)
Definition lf_u2 (nd2 : nat) (ud : bool) (p : fpt) (elfun2 : fm) (old : fv) : fv :=
  if negb (nd2 =? 0)%nat then mult_t nd2 elfun2 (f_s2 p) else if ud then f_UD p else old.

(** src/interfaceinteg.cpp:1394-1465 [AssembleQuadVectorBase]; [ud]: the coefficient [UD] is set *)
Definition lf_base (nd1 nd2 dim : nat) (ud : bool) (p : fpt) (iw : R) (elfun1 elfun2 : fm) (old : fv) (elv : fm * fm) : fm * fm :=
  let eval2 := negb (nd2 =? 0)%nat || ud in
  let u1 := mult_t nd1 elfun1 (f_s1 p) in
  let u2 := lf_u2 nd2 ud p elfun2 old in
  let flux := lf_flux dim u1 u2 (f_nor p) eval2 in
  let w := with_q (f_Q p) iw in
  (add_vwt (- w) (f_s1 p) flux (fst elv),
   if negb (nd2 =? 0)%nat then add_vwt w (f_s2 p) flux (snd elv) else snd elv).

(** src/interfaceinteg.cpp:1467-1532 [AssembleQuadGradBase]: the weight and the two gradients *)
Definition lf_gbase (nd1 nd2 dim : nat) (ud : bool) (p : fpt) (iw : R) (elfun1 elfun2 : fm) (old : fv) : option (R * fm * fm) :=
  let eval2 := negb (nd2 =? 0)%nat || ud in
  let u1 := mult_t nd1 elfun1 (f_s1 p) in
  let u2 := lf_u2 nd2 ud p elfun2 old in
  match lf_grad dim u1 u2 (f_nor p) eval2 (negb (nd2 =? 0)%nat) with
  | None => None
  | Some (g1, g2) => Some (with_q (f_Q p) iw, g1, g2)
  end.

(** src/interfaceinteg.cpp:1534-1576 [AssembleFaceVector], 1648-1676 [AssembleQuadratureVector] *)
Definition lf_face_vector (nd1 nd2 dim : nat) (ud : bool) (rule : list fpt) (elfun old : fv) : fv :=
  join nd1 nd2 dim (fold_left (fun elv p =>
    lf_base nd1 nd2 dim ud p (f_w p) (view 0 nd1 elfun) (view (nd1 * dim) nd2 elfun) old elv) rule (zero_m, zero_m)).
Definition lf_face_qvector (nd1 nd2 dim : nat) (ud : bool) (p : fpt) (iw : R) (elfun old : fv) : fv :=
  join nd1 nd2 dim (lf_base nd1 nd2 dim ud p iw (view 0 nd1 elfun) (view (nd1 * dim) nd2 elfun) old (zero_m, zero_m)).

(** src/interfaceinteg.cpp:1622-1642, 1711-1724 *)
Definition lf_face_gpoint (nd1 nd2 dim : nat) (ud : bool) (p : fpt) (iw : R) (elfun old : fv) (m : fm) : option fm :=
  match lf_gbase nd1 nd2 dim ud p iw (view 0 nd1 elfun) (view (nd1 * dim) nd2 elfun) old with
  | None => None
  | Some (w, g1, g2) =>
      let c11 := vwt (f_s1 p) (f_s1 p) in
      let c12 := vwt (f_s1 p) (f_s2 p) in
      let c21 := transpose c12 in
      let c22 := vwt (f_s2 p) (f_s2 p) in
      Some (floop dim (fun di m => floop dim (fun dj m =>
        let m := add_matrix (- w * g1 di dj) c11 nd1 nd1 (di * nd1) (dj * nd1) m in
        if negb (nd2 =? 0)%nat then
          let m := add_matrix (- w * g2 di dj) c12 nd1 nd2 (di * nd1) (dj * nd2 + dim * nd1) m in
          let m := add_matrix (w * g1 di dj) c21 nd2 nd1 (di * nd2 + dim * nd1) (dj * nd1) m in
          add_matrix (w * g2 di dj) c22 nd2 nd2 (di * nd2 + dim * nd1) (dj * nd2 + dim * nd1) m
        else m) m) m)
  end.

(** Steps that may produce something that is not a number *)
Definition fold_opt {A S : Type} (f : A -> S -> option S) (l : list A) (s : S) : option S :=
  fold_left (fun s a => match s with Some s => f a s | None => None end) l (Some s).

(** src/interfaceinteg.cpp:1578-1646 [AssembleFaceGrad], 1678-1726 [AssembleQuadratureGrad] *)
Definition lf_face_grad (nd1 nd2 dim : nat) (ud : bool) (rule : list fpt) (elfun old : fv) : option fm :=
  fold_opt (fun p m => lf_face_gpoint nd1 nd2 dim ud p (f_w p) elfun old m) rule zero_m.
Definition lf_face_qgrad (nd1 nd2 dim : nat) (ud : bool) (p : fpt) (iw : R) (elfun old : fv) : option fm :=
  lf_face_gpoint nd1 nd2 dim ud p iw elfun old zero_m.

(** src/interfaceinteg.cpp:1846-1898 [AssembleInterfaceVector], 1983-2014 [AssembleQuadratureVector] *)
Definition lf_itf_vector (nd1 nd2 dim : nat) (ud : bool) (rule : list fpt) (elfun1 elfun2 old : fv) : fv * fv :=
  let elv := fold_left (fun elv p =>
    lf_base nd1 nd2 dim ud p (f_w p) (view 0 nd1 elfun1) (view 0 nd2 elfun2) old elv) rule (zero_m, zero_m) in
  (unview nd1 (fst elv), unview nd2 (snd elv)).
Definition lf_itf_qvector (nd1 nd2 dim : nat) (ud : bool) (p : fpt) (iw : R) (elfun1 elfun2 old : fv) : fv * fv :=
  let elv := lf_base nd1 nd2 dim ud p iw (view 0 nd1 elfun1) (view 0 nd2 elfun2) old (zero_m, zero_m) in
  (unview nd1 (fst elv), unview nd2 (snd elv)).

(** src/interfaceinteg.cpp:1954-1972, 2053-2069 *)
Definition lf_itf_gpoint (nd1 nd2 dim : nat) (ud : bool) (p : fpt) (iw : R) (elfun1 elfun2 old : fv) (m : mats) : option mats :=
  match lf_gbase nd1 nd2 dim ud p iw (view 0 nd1 elfun1) (view 0 nd2 elfun2) old with
  | None => None
  | Some (w, g1, g2) =>
      let c11 := vwt (f_s1 p) (f_s1 p) in
      let c12 := vwt (f_s1 p) (f_s2 p) in
      let c21 := transpose c12 in
      let c22 := vwt (f_s2 p) (f_s2 p) in
      Some (floop dim (fun di m => floop dim (fun dj m =>
        let m := Mats (add_matrix (- w * g1 di dj) c11 nd1 nd1 (di * nd1) (dj * nd1) (m11 m)) (m12 m) (m21 m) (m22 m) in
        if negb (nd2 =? 0)%nat then
          Mats (m11 m)
               (add_matrix (- w * g2 di dj) c12 nd1 nd2 (di * nd1) (dj * nd2) (m12 m))
               (add_matrix (w * g1 di dj) c21 nd2 nd1 (di * nd2) (dj * nd1) (m21 m))
               (add_matrix (w * g2 di dj) c22 nd2 nd2 (di * nd2) (dj * nd2) (m22 m))
        else m) m) m)
  end.

(** src/interfaceinteg.cpp:1900-1981 [AssembleInterfaceGrad], 2016-2071 [AssembleQuadratureGrad] *)
Definition lf_itf_grad (nd1 nd2 dim : nat) (ud : bool) (rule : list fpt) (elfun1 elfun2 old : fv) : option mats :=
  fold_opt (fun p m => lf_itf_gpoint nd1 nd2 dim ud p (f_w p) elfun1 elfun2 old m) rule zero_ms.
Definition lf_itf_qgrad (nd1 nd2 dim : nat) (ud : bool) (p : fpt) (iw : R) (elfun1 elfun2 old : fv) : option mats :=
  lf_itf_gpoint nd1 nd2 dim ud p iw elfun1 elfun2 old zero_ms.
