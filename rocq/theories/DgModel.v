(** Model of the linear discontinuous Galerkin integrators: the interface integrators of src/interfaceinteg.cpp (diffusion,
    vector diffusion, normal flux, elasticity), the face integrators of src/dg_bilinear.cpp and src/dg_mixed_bilin.cpp, the
    boundary right-hand sides of src/dg_linear.cpp and the choice of boundary faces of [MixedBilinearFormDGExtension].

    Simplifications: entries are exact reals. What MFEM computes at an integration point (shape functions, their
    derivatives, adjugate and determinant of the Jacobian, the normal of the first face, coefficients) is data; vectors of
    such values are functions of the index. Matrices that are assembled have a size, and an access outside of it is
    undefined. [*jmats(0,1)] (a null reference that is formed on every call) is only undefined when it is accessed. *)
From Coq Require Import Reals List Bool Lia Arith ZArith.
From Verif Require Import Outcome LaBase IntegModel.
Import ListNotations.
Local Open Scope R_scope.

(** ** Matrices with bounds *)

Record smat := SMat { s_h : nat; s_w : nat; s_at : fm }.
(** [SetSize(h, w); = 0.0] *)
Definition szero (h w : nat) : smat := SMat h w (fun _ _ => 0).
Definition sin (m : smat) (i j : nat) : bool := ((i <? s_h m) && (j <? s_w m))%nat.
Definition sget (m : smat) (i j : nat) : outcome R := oguard (sin m i j) (Ok (s_at m i j)).
Definition sset (m : smat) (i j : nat) (x : R) : outcome smat :=
  oguard (sin m i j) (Ok (SMat (s_h m) (s_w m) (fun a b => if ((a =? i) && (b =? j))%nat then x else s_at m a b))).
(** [m(i, j) += x] *)
Definition sadd (m : smat) (i j : nat) (x : R) : outcome smat := let* y := sget m i j in sset m i j (y + x).

(** ** Data of an integration point *)

(** One side of a face: shape functions and their reference derivatives in the element, adjugate and determinant of its
    Jacobian, the values of the coefficients [mu] (or [Q]), [lambda] and [MQ] there; [None]: the integrator was built
    without the coefficient *)
Record side := Side { sd_shape : fv; sd_dshape : fm; sd_adj : fm; sd_W : R; sd_mu : option R; sd_lam : option R; sd_mq : option fm }.
(** [ip.weight], the normal of the (first) face, the two sides *)
Record dpt := DPt { d_w : R; d_nor : fv; d_1 : side; d_2 : side }.

(** A coefficient that is dereferenced without a check *)
Definition ocoef (c : option R) : outcome R := match c with Some x => Ok x | None => UB end.

(** ** The final step shared by the diffusion and elasticity integrators

    src/interfaceinteg.cpp:340-354, 377-388 (diffusion), 577-591, 611-622 (vector diffusion), 1199-1213, 1233-1246
    (elasticity), src/dg_bilinear.cpp:164-190: [elmat := -elmat + alpha*elmat^t + jmat] in place on a square matrix *)
Definition fin_diag_j (n : nat) (alpha : R) (j : smat) (e : smat) : outcome smat :=
  ofor n (fun e i =>
    let* e := ofor i (fun e k =>
      let* aij := sget e i k in
      let* aji := sget e k i in
      let* mij := sget j i k in
      let* e := sset e i k (alpha * aji - aij + mij) in
      sset e k i (alpha * aij - aji + mij)) e in
    let* aii := sget e i i in
    let* mii := sget j i i in
    sset e i i ((alpha - 1) * aii + mii)) e.
Definition fin_diag_0 (n : nat) (alpha : R) (e : smat) : outcome smat :=
  ofor n (fun e i =>
    let* e := ofor i (fun e k =>
      let* aij := sget e i k in
      let* aji := sget e k i in
      let* e := sset e i k (alpha * aji - aij) in
      sset e k i (alpha * aij - aji)) e in
    let* aii := sget e i i in
    sset e i i (aii * (alpha - 1))) e.

(** src/interfaceinteg.cpp:356-369, 391-401 (diffusion), 593-606, 625-635 (vector diffusion), 1215-1228, 1248-1258
    (elasticity): the same on the two off-diagonal blocks, [e10] and [e01] *)
Definition fin_off_j (n1 n2 : nat) (alpha : R) (j : smat) (es : smat * smat) : outcome (smat * smat) :=
  ofor n2 (fun es i => ofor n1 (fun '(e10, e01) k =>
    let* aij := sget e10 i k in
    let* aji := sget e01 k i in
    let* mij := sget j i k in
    let* e10 := sset e10 i k (alpha * aji - aij + mij) in
    let* e01 := sset e01 k i (alpha * aij - aji + mij) in
    Ok (e10, e01)) es) es.
Definition fin_off_0 (n1 n2 : nat) (alpha : R) (es : smat * smat) : outcome (smat * smat) :=
  ofor n2 (fun es i => ofor n1 (fun '(e10, e01) k =>
    let* aij := sget e10 i k in
    let* aji := sget e01 k i in
    let* e10 := sset e10 i k (alpha * aji - aij) in
    let* e01 := sset e01 k i (alpha * aij - aji) in
    Ok (e10, e01)) es) es.

(** The four blocks of an interface *)
Record blocks := Blocks { b00 : smat; b01 : smat; b10 : smat; b11 : smat }.
(** The blocks and the penalty matrices, allocated only when [kappa] is not zero; [jmats(0,1)] is never allocated *)
Record ibuf := IBuf { ib : blocks; j00 : option smat; j01 : option smat; j10 : option smat; j11 : option smat }.

(** src/interfaceinteg.cpp:128-153, 424-447, 1047-1069: sizes, zeros, allocation *)
Definition ibuf0 (n1 n2 : nat) (kappa : R) : ibuf :=
  let e := Blocks (szero n1 n1) (szero n1 n2) (szero n2 n1) (szero n2 n2) in
  if Req_EM_T kappa 0 then IBuf e None None None None
  else IBuf e (Some (szero n1 n1)) None (Some (szero n2 n1)) (Some (szero n2 n2)).

Definition ojm (j : option smat) : outcome smat := match j with Some m => Ok m | None => UB end.

(** src/interfaceinteg.cpp:330-403, 566-636, 1188-1258 *)
Definition itf_final (n1 n2 : nat) (alpha kappa : R) (s : ibuf) : outcome blocks :=
  let e := ib s in
  if Req_EM_T kappa 0 then
    let* e00 := fin_diag_0 n1 alpha (b00 e) in
    let* e11 := fin_diag_0 n2 alpha (b11 e) in
    let* (e10, e01) := fin_off_0 n1 n2 alpha (b10 e, b01 e) in
    Ok (Blocks e00 e01 e10 e11)
  else
    let* m00 := ojm (j00 s) in
    let* e00 := fin_diag_j n1 alpha m00 (b00 e) in
    let* m11 := ojm (j11 s) in
    let* e11 := fin_diag_j n2 alpha m11 (b11 e) in
    oassert (match j10 s with Some _ => true | None => false end)
      (let* m10 := ojm (j10 s) in
       let* (e10, e01) := fin_off_j n1 n2 alpha m10 (b10 e, b01 e) in
       Ok (Blocks e00 e01 e10 e11)).

(** ** Diffusion *)

(** src/interfaceinteg.cpp:209-227, 252-271: the vector [ni], from a matrix, a scalar or no coefficient; [w] is the weight
    before the coefficient *)
Definition diff_ni (dim : nat) (w : R) (nor : fv) (s : side) : fv :=
  match sd_mq s with
  | None => scale (match sd_mu s with Some q => w * q | None => w end) nor
  | Some mq => mult_t dim mq (scale w nor)
  end.

(** [m(i, j) += v(i) * w(j)] for [i] below [h] and [j] below [k i] *)
Definition add_outer (h : nat) (k : nat -> nat) (v : nat -> nat -> R) (m : smat) : outcome smat :=
  ofor h (fun m i => ofor (k i) (fun m j => sadd m i j (v i j)) m) m.

(** src/interfaceinteg.cpp:176-328: one integration point *)
Definition diff_point (dim nd1 nd2 : nat) (kappa : R) (s : ibuf) (p : dpt) : outcome ibuf :=
  let nor := d_nor p in
  let s1 := d_1 p in
  let s2 := d_2 p in
  let shape1 := sd_shape s1 in
  let shape2 := sd_shape s2 in
  let w := d_w p / sd_W s1 / 2 in
  let ni := diff_ni dim w nor s1 in
  let nh := mult dim (sd_adj s1) ni in
  let wq := inner dim ni nor in
  let dshape1dn := mult dim (sd_dshape s1) nh in
  let e := ib s in
  let* e00 := add_outer nd1 (fun _ => nd1) (fun i j => shape1 i * dshape1dn j) (b00 e) in
  let w := d_w p / 2 / sd_W s2 in
  let ni := diff_ni dim w nor s2 in
  let nh := mult dim (sd_adj s2) ni in
  let wq := wq + inner dim ni nor in
  let dshape2dn := mult dim (sd_dshape s2) nh in
  let* e01 := add_outer nd1 (fun _ => nd2) (fun i j => shape1 i * dshape2dn j) (b01 e) in
  let* e10 := add_outer nd2 (fun _ => nd1) (fun i j => - (shape2 i * dshape1dn j)) (b10 e) in
  let* e11 := add_outer nd2 (fun _ => nd2) (fun i j => - (shape2 i * dshape2dn j)) (b11 e) in
  let e := Blocks e00 e01 e10 e11 in
  if Req_EM_T kappa 0 then Ok (IBuf e (j00 s) (j01 s) (j10 s) (j11 s))
  else
    let wq := wq * kappa in
    let* m00 := ojm (j00 s) in
    let* m00 := add_outer nd1 (fun i => S i) (fun i j => wq * shape1 i * shape1 j) m00 in
    let* m10 := ojm (j10 s) in
    let* m11 := ojm (j11 s) in
    let* (m10, m11) := ofor nd2 (fun '(m10, m11) i =>
      let* m10 := ofor nd1 (fun m j => sadd m i j (- (wq * shape2 i * shape1 j))) m10 in
      let* m11 := ofor (S i) (fun m j => sadd m i j (wq * shape2 i * shape2 j)) m11 in
      Ok (m10, m11)) (m10, m11) in
    Ok (IBuf e (Some m00) (j01 s) (Some m10) (Some m11)).

(** src/interfaceinteg.cpp:86-404 [InterfaceDGDiffusionIntegrator::AssembleInterfaceMatrix] with four matrices given; the
    rule is the given one or that of twice the larger order on the geometry of the first face, which the assertion of 173
    compares with that of the second (both are data: [rule], [same_geom]) *)
Definition diff_itf (dim nd1 nd2 : nat) (same_geom : bool) (sigma kappa : R) (rule : list dpt) : outcome blocks :=
  oassert (0 <? nd2)%nat (oassert same_geom
    (let* s := ofold (diff_point dim nd1 nd2 kappa) rule (ibuf0 nd1 nd2 kappa) in itf_final nd1 nd2 sigma kappa s)).

(** ** Vector diffusion *)

(** src/dg_bilinear.cpp:193-227 [DGVectorDiffusionIntegrator::AssembleBlock]: offsets into one matrix *)
Definition vd_block (dim rn cn ro co : nat) (jc : R) (rs cs cd : fv) (e : smat) (j : option smat) : outcome (smat * option smat) :=
  let* e := ofor dim (fun e d => ofor cn (fun e jdof => ofor rn (fun e idof =>
    sadd e (ro + d * rn + idof) (co + d * cn + jdof) (rs idof * cd jdof)) e) e) e in
  if Req_EM_T jc 0 then Ok (e, j) else
  let* jm := ojm j in
  let* jm := ofor dim (fun jm d => ofor cn (fun jm jdof =>
    let io := (ro + d * rn)%nat in
    let jj := (co + d * cn + jdof)%nat in
    let sj := jc * cs jdof in
    oforr (Nat.max io jj - io) rn (fun jm idof => sadd jm (io + idof) jj (rs idof * sj)) jm) jm) jm in
  Ok (e, Some jm).

(** src/interfaceinteg.cpp:639-674 [InterfaceDGVectorDiffusionIntegrator::AssembleBlock], 1291-1309: the penalty part of
    [InterfaceDGElasticityIntegrator::AssembleBlock]. The offsets only decide where the lower triangle starts. A start
    above the rows of the component would be a negative index. *)
Definition iv_jblock (dim rn cn ro co : nat) (jc : R) (rs cs : fv) (j : option smat) : outcome (option smat) :=
  if Req_EM_T jc 0 then Ok j else
  let* jm := ojm j in
  let* jm := ofor dim (fun jm d => ofor cn (fun jm jdof =>
    let io := (d * rn)%nat in
    let jj := (d * cn + jdof)%nat in
    let sj := jc * cs jdof in
    let i_start := (if jj + co <? io + ro then io else jj)%nat in
    oguard (io <=? i_start)%nat
      (oforr (i_start - io) rn (fun jm idof => sadd jm (io + idof) jj (rs idof * sj)) jm)) jm) jm in
  Ok (Some jm).
Definition ivd_block (dim rn cn ro co : nat) (jc : R) (rs cs cd : fv) (e : smat) (j : option smat) : outcome (smat * option smat) :=
  let* e := ofor dim (fun e d => ofor cn (fun e jdof => ofor rn (fun e idof =>
    sadd e (d * rn + idof) (d * cn + jdof) (rs idof * cd jdof)) e) e) e in
  let* j := iv_jblock dim rn cn ro co jc rs cs j in
  Ok (e, j).

(** src/dg_bilinear.cpp:76-162: one point of a face; [nd2] is zero on the boundary *)
Definition vd_point (dim nd1 nd2 : nat) (kappa : R) (s : smat * option smat) (p : dpt) : outcome (smat * option smat) :=
  let s1 := d_1 p in
  let s2 := d_2 p in
  let nor := d_nor p in
  let ps1 := mult_ab dim (sd_dshape s1) (sd_adj s1) in
  let ps2 := mult_ab dim (sd_dshape s2) (sd_adj s2) in
  let* (w, wLM, dn2) :=
    if (nd2 =? 0)%nat then Ok (d_w p, 0, fun _ => 0)
    else
      let w := d_w p / 2 in
      let* mu2 := ocoef (sd_mu s2) in
      let wM2 := w / sd_W s2 * mu2 in
      Ok (w, wM2, mult dim ps2 (scale wM2 nor)) in
  let* mu1 := ocoef (sd_mu s1) in
  let wM1 := w / sd_W s1 * mu1 in
  let wLM := wLM + wM1 in
  let dn1 := mult dim ps1 (scale wM1 nor) in
  let jc := kappa * inner dim nor nor * wLM in
  let* (e, j) := vd_block dim nd1 nd1 0 0 jc (sd_shape s1) (sd_shape s1) dn1 (fst s) (snd s) in
  if (nd2 =? 0)%nat then Ok (e, j) else
  let shape2 := scale (-1) (sd_shape s2) in
  let* (e, j) := vd_block dim nd1 nd2 0 (dim * nd1) jc (sd_shape s1) shape2 dn2 e j in
  let* (e, j) := vd_block dim nd2 nd1 (dim * nd1) 0 jc shape2 (sd_shape s1) dn1 e j in
  vd_block dim nd2 nd2 (dim * nd1) (dim * nd1) jc shape2 shape2 dn2 e j.

(** src/dg_bilinear.cpp:13-191 [DGVectorDiffusionIntegrator::AssembleFaceMatrix]; the matrix [jmat] keeps its old size when
    [kappa] is zero and is not used then *)
Definition vd_face (dim nd1 nd2 : nat) (alpha kappa : R) (rule : list dpt) : outcome smat :=
  let n := (dim * (nd1 + nd2))%nat in
  let j := if Req_EM_T kappa 0 then None else Some (szero n n) in
  let* (e, j) := ofold (vd_point dim nd1 nd2 kappa) rule (szero n n, j) in
  if Req_EM_T kappa 0 then fin_diag_0 n alpha e else let* j := ojm j in fin_diag_j n alpha j e.

(** src/interfaceinteg.cpp:476-564: one point of an interface *)
Definition ivd_point (dim nd1 nd2 : nat) (kappa : R) (s : ibuf) (p : dpt) : outcome ibuf :=
  let s1 := d_1 p in
  let s2 := d_2 p in
  let nor := d_nor p in
  let ps1 := mult_ab dim (sd_dshape s1) (sd_adj s1) in
  let ps2 := mult_ab dim (sd_dshape s2) (sd_adj s2) in
  let w := d_w p / 2 in
  let w2 := w / sd_W s2 in
  let* mu2 := ocoef (sd_mu s2) in
  let wM2 := w2 * mu2 in
  let wLM := wM2 in
  let dn2 := mult dim ps2 (scale wM2 nor) in
  let w1 := w / sd_W s1 in
  let* mu1 := ocoef (sd_mu s1) in
  let wM1 := w1 * mu1 in
  let wLM := wLM + wM1 in
  let dn1 := mult dim ps1 (scale wM1 nor) in
  let jc := kappa * inner dim nor nor * wLM in
  let nv1 := (dim * nd1)%nat in
  let shape1 := sd_shape s1 in
  let* (e00, m00) := ivd_block dim nd1 nd1 0 0 jc shape1 shape1 dn1 (b00 (ib s)) (j00 s) in
  let shape2 := scale (-1) (sd_shape s2) in
  let* (e01, m01) := ivd_block dim nd1 nd2 0 nv1 0 shape1 shape2 dn2 (b01 (ib s)) (j01 s) in
  let* (e10, m10) := ivd_block dim nd2 nd1 nv1 0 jc shape2 shape1 dn1 (b10 (ib s)) (j10 s) in
  let* (e11, m11) := ivd_block dim nd2 nd2 nv1 nv1 jc shape2 shape2 dn2 (b11 (ib s)) (j11 s) in
  Ok (IBuf (Blocks e00 e01 e10 e11) m00 m01 m10 m11).

(** src/interfaceinteg.cpp:405-637 [InterfaceDGVectorDiffusionIntegrator::AssembleInterfaceMatrix]; [has2]: the second face
    has an element *)
Definition ivd_itf (dim nd1 nd2 : nat) (has2 same_geom : bool) (alpha kappa : R) (rule : list dpt) : outcome blocks :=
  let nd2 := if has2 then nd2 else 0%nat in
  oassert (0 <? nd2)%nat (oassert same_geom
    (let* s := ofold (ivd_point dim nd1 nd2 kappa) rule (ibuf0 (dim * nd1) (dim * nd2) kappa) in
     itf_final (dim * nd1) (dim * nd2) alpha kappa s)).

(** ** Elasticity *)

(** src/interfaceinteg.cpp:1261-1310 [InterfaceDGElasticityIntegrator::AssembleBlock] *)
Definition iel_block (dim rn cn ro co : nat) (jc : R) (nL nM rs cs cd : fv) (cps : fm) (e : smat) (j : option smat) : outcome (smat * option smat) :=
  let* e := ofor dim (fun e jm => ofor cn (fun e jdof =>
    let t2 := cd jdof in
    ofor dim (fun e im =>
      let t1 := cps jdof jm * nL im in
      let t3 := cps jdof im * nM jm in
      let tt := t1 + (if (im =? jm)%nat then t2 else 0) + t3 in
      ofor rn (fun e idof => sadd e (im * rn + idof) (jm * cn + jdof) (rs idof * tt)) e) e) e) e in
  let* j := iv_jblock dim rn cn ro co jc rs cs j in
  Ok (e, j).

(** src/interfaceinteg.cpp:1098-1186: one point *)
Definition iel_point (dim nd1 nd2 : nat) (kappa : R) (s : ibuf) (p : dpt) : outcome ibuf :=
  let s1 := d_1 p in
  let s2 := d_2 p in
  let nor := d_nor p in
  let ps1 := mult_ab dim (sd_dshape s1) (sd_adj s1) in
  let* (w, wLM, ps2, nL2, nM2, dn2) :=
    if (nd2 =? 0)%nat then Ok (d_w p, 0, fun _ _ => 0, fun _ => 0, fun _ => 0, fun _ => 0)
    else
      let ps2 := mult_ab dim (sd_dshape s2) (sd_adj s2) in
      let w := d_w p / 2 in
      let w2 := w / sd_W s2 in
      let* lam2 := ocoef (sd_lam s2) in
      let* mu2 := ocoef (sd_mu s2) in
      let wL2 := w2 * lam2 in
      let wM2 := w2 * mu2 in
      Ok (w, wL2 + 2 * wM2, ps2, scale wL2 nor, scale wM2 nor, mult dim ps2 (scale wM2 nor)) in
  let w1 := w / sd_W s1 in
  let* lam1 := ocoef (sd_lam s1) in
  let* mu1 := ocoef (sd_mu s1) in
  let wL1 := w1 * lam1 in
  let wM1 := w1 * mu1 in
  let nL1 := scale wL1 nor in
  let nM1 := scale wM1 nor in
  let wLM := wLM + (wL1 + 2 * wM1) in
  let dn1 := mult dim ps1 nM1 in
  let jc := kappa * inner dim nor nor * wLM in
  let nv1 := (dim * nd1)%nat in
  let shape1 := sd_shape s1 in
  let* (e00, m00) := iel_block dim nd1 nd1 0 0 jc nL1 nM1 shape1 shape1 dn1 ps1 (b00 (ib s)) (j00 s) in
  if (nd2 =? 0)%nat then Ok (IBuf (Blocks e00 (b01 (ib s)) (b10 (ib s)) (b11 (ib s))) m00 (j01 s) (j10 s) (j11 s)) else
  let shape2 := scale (-1) (sd_shape s2) in
  let* (e01, m01) := iel_block dim nd1 nd2 0 nv1 0 nL2 nM2 shape1 shape2 dn2 ps2 (b01 (ib s)) (j01 s) in
  let* (e10, m10) := iel_block dim nd2 nd1 nv1 0 jc nL1 nM1 shape2 shape1 dn1 ps1 (b10 (ib s)) (j10 s) in
  let* (e11, m11) := iel_block dim nd2 nd2 nv1 nv1 jc nL2 nM2 shape2 shape2 dn2 ps2 (b11 (ib s)) (j11 s) in
  Ok (IBuf (Blocks e00 e01 e10 e11) m00 m01 m10 m11).

(** src/interfaceinteg.cpp:1022-1259 [InterfaceDGElasticityIntegrator::AssembleInterfaceMatrix]; an element without degrees
    of freedom is not refused *)
Definition iel_itf (dim nd1 nd2 : nat) (same_geom : bool) (alpha kappa : R) (rule : list dpt) : outcome blocks :=
  oassert same_geom
    (let* s := ofold (iel_point dim nd1 nd2 kappa) rule (ibuf0 (dim * nd1) (dim * nd2) kappa) in
     itf_final (dim * nd1) (dim * nd2) alpha kappa s).

(** ** Normal flux *)

(** One point: weight, normal, velocity and pressure shape functions on the two sides *)
Record npt := NPt { n_w : R; n_nor : fv; n_tr1 : fv; n_tr2 : fv; n_te1 : fv; n_te2 : fv }.

(** src/dg_mixed_bilin.cpp:253-259, 268-274, 281-287, 294-300, src/interfaceinteg.cpp:781-787, 796-803, 810-817, 824-831:
    [elmat(i, j) += wn * shape(idof) * trshape(jdof)] with rows from [r0] and columns from [c0] *)
Definition nf_loop (dim rn cn r0 c0 : nat) (wnor rs cs : fv) (sg : R) (e : smat) : outcome smat :=
  ofor dim (fun e jm => ofor cn (fun e jdof => ofor rn (fun e idof =>
    sadd e (r0 + idof) (c0 + jm * cn + jdof) (sg * (wnor jm * rs idof * cs jdof))) e) e) e.

(** src/dg_mixed_bilin.cpp:225-308: one point of a face *)
Definition nf_point (dim tr1 tr2 te1 te2 : nat) (e : smat) (p : npt) : outcome smat :=
  let w := if (tr2 =? 0)%nat then n_w p else n_w p * (1 / 2) in
  let wnor := scale w (n_nor p) in
  let* e := nf_loop dim te1 tr1 0 0 wnor (n_te1 p) (n_tr1 p) 1 e in
  if (tr2 =? 0)%nat then Ok e else
  let* e := nf_loop dim te2 tr1 te1 0 wnor (n_te2 p) (n_tr1 p) 1 e in
  let* e := nf_loop dim te2 tr2 te1 (dim * tr1) wnor (n_te2 p) (n_tr2 p) (-1) e in
  nf_loop dim te1 tr2 0 (dim * tr1) wnor (n_te1 p) (n_tr2 p) (-1) e.

(** src/dg_mixed_bilin.cpp:167-312 [DGNormalFluxIntegrator::AssembleFaceMatrix]; [inner_face]: [Elem2No >= 0] *)
Definition nf_face (dim tr1 tr2 te1 te2 : nat) (inner_face : bool) (rule : list npt) : outcome smat :=
  let tr2 := if inner_face then tr2 else 0%nat in
  let te2 := if inner_face then te2 else 0%nat in
  ofold (nf_point dim tr1 tr2 te1 te2) rule (szero (te1 + te2) (dim * tr1 + dim * tr2)).

(** src/interfaceinteg.cpp:749-841: one point of an interface *)
Definition inf_point (dim tr1 tr2 te1 te2 : nat) (e : blocks) (p : npt) : outcome blocks :=
  let w := if (tr2 =? 0)%nat then n_w p else n_w p * (1 / 2) in
  let wnor := scale w (n_nor p) in
  let* e00 := nf_loop dim te1 tr1 0 0 wnor (n_te1 p) (n_tr1 p) 1 (b00 e) in
  if (tr2 =? 0)%nat then Ok (Blocks e00 (b01 e) (b10 e) (b11 e)) else
  let* e10 := nf_loop dim te2 tr1 0 0 wnor (n_te2 p) (n_tr1 p) 1 (b10 e) in
  let* e11 := nf_loop dim te2 tr2 0 0 wnor (n_te2 p) (n_tr2 p) (-1) (b11 e) in
  let* e01 := nf_loop dim te1 tr2 0 0 wnor (n_te1 p) (n_tr2 p) (-1) (b01 e) in
  Ok (Blocks e00 e01 e10 e11).

(** src/interfaceinteg.cpp:676-842 [InterfaceDGNormalFluxIntegrator::AssembleInterfaceMatrix] *)
Definition inf_itf (dim tr1 tr2 te1 te2 : nat) (has2 same_geom : bool) (rule : list npt) : outcome blocks :=
  let tr2 := if has2 then tr2 else 0%nat in
  let te2 := if has2 then te2 else 0%nat in
  oassert ((0 <? tr2) && (0 <? te2))%nat (oassert same_geom
    (ofold (inf_point dim tr1 tr2 te1 te2) rule
       (Blocks (szero te1 (dim * tr1)) (szero te1 (dim * tr2)) (szero te2 (dim * tr1)) (szero te2 (dim * tr2))))).

(** ** Boundary right-hand sides; a vector is a matrix with one column *)

(** One point of a boundary face: the side, [ip.weight], the normal, the value of the boundary coefficient there (a velocity
    or the entries of a stress, column after column), [Tr.Face->Weight()], the value of [Z] when set *)
Record bpt := BPt { b_w : R; b_nor : fv; b_side : side; b_val : fv; b_fw : R; b_Z : option R }.

(** src/dg_linear.cpp:16-144 [DGVectorDirichletLFIntegrator::AssembleRHSElementVect] *)
Definition vdl_point (dim nd : nat) (alpha kappa : R) (v : smat) (p : bpt) : outcome smat :=
  let s := b_side p in
  let ps := mult_ab dim (sd_dshape s) (sd_adj s) in
  let w := b_w p / sd_W s in
  let* mu := ocoef (sd_mu s) in
  let wM := w * mu in
  let jcoef := kappa * wM * inner dim (b_nor p) (b_nor p) in
  let dn := mult dim ps (b_nor p) in
  let wM := wM * alpha in
  ofor dim (fun v im =>
    let t2 := wM * b_val p im in
    let tj := jcoef * b_val p im in
    ofor nd (fun v idof => sadd v (im * nd + idof) 0 (t2 * dn idof + tj * sd_shape s idof)) v) v.
Definition vdl_rhs (dim nd : nat) (alpha kappa : R) (rule : list bpt) : outcome smat :=
  ofold (vdl_point dim nd alpha kappa) rule (szero (dim * nd) 1).

(** MFEM: [v.Add(a, w)] and [AddMult_a_VWt(a, v, w, ELV)] on the view of a vector as [nd] rows and [dim] columns *)
Definition vadd (nd : nat) (a : R) (w : fv) (v : smat) : outcome smat :=
  ofor nd (fun v i => sadd v i 0 (a * w i)) v.
Definition vadd_vwt (nd dim : nat) (a : R) (s g : fv) (v : smat) : outcome smat :=
  ofor dim (fun v d => ofor nd (fun v i => sadd v (i + d * nd) 0 (a * g d * s i)) v) v.

(** src/dg_linear.cpp:150-189, 191-231 [DGBoundaryNormalLFIntegrator::AssembleRHSElementVect]; the two differ in where shape
    functions, normal and value come from *)
Definition bn_point (dim nd : nat) (v : smat) (p : bpt) : outcome smat :=
  vadd nd (b_w p * inner dim (b_val p) (b_nor p)) (sd_shape (b_side p)) v.
Definition bn_rhs (dim nd : nat) (rule : list bpt) : outcome smat := ofold (bn_point dim nd) rule (szero nd 1).

(** src/dg_linear.cpp:237-281, 283-333 [BoundaryNormalStressLFIntegrator::AssembleRHSElementVect] *)
Definition bns_point (dim nd : nat) (v : smat) (p : bpt) : outcome smat :=
  let Fmat : fm := fun i j => b_val p (i + j * dim)%nat in
  let Fn := scale (b_w p) (mult dim Fmat (b_nor p)) in
  ofor dim (fun v k => ofor nd (fun v jdof => sadd v (k * nd + jdof) 0 (Fn k * sd_shape (b_side p) jdof)) v) v.
Definition bns_rhs (dim nd : nat) (rule : list bpt) : outcome smat := ofold (bns_point dim nd) rule (szero (dim * nd) 1).

(** src/dg_linear.cpp:335-388 [DGBdrLaxFriedrichsLFIntegrator::AssembleRHSElementVect] on a face; 390-435, the overload for
    boundary elements, aborts *)
Definition lfl_point (dim nd : nat) (v : smat) (p : bpt) : outcome smat :=
  let un := inner dim (b_val p) (b_nor p) in
  let gn := fun d => 1 / 2 * un * b_val p d + - Rabs un * b_val p d in
  let w := with_q (b_Z p) (b_w p * b_fw p) in
  vadd_vwt nd dim w (sd_shape (b_side p)) gn v.
Definition lfl_rhs (dim nd : nat) (rule : list bpt) : outcome smat := ofold (lfl_point dim nd) rule (szero (dim * nd) 1).
Definition lfl_bdr_rhs (dim nd : nat) (rule : list bpt) : outcome smat := Abort.

(** src/dg_linear.cpp:437-487, 489-539 [DGBdrTemamLFIntegrator::AssembleRHSElementVect] *)
Definition tl_point (dim nd : nat) (v : smat) (p : bpt) : outcome smat :=
  let w := with_q (b_Z p) (b_w p) in
  let un := inner dim (b_val p) (b_nor p) in
  let gn := scale un (b_val p) in
  vadd_vwt nd dim w (sd_shape (b_side p)) gn v.
Definition tl_rhs (dim nd : nat) (rule : list bpt) : outcome smat := ofold (tl_point dim nd) rule (szero (dim * nd) 1).

(** ** Which boundary faces a mixed form integrates over *)

(** src/dg_mixed_bilin.cpp:112-132: the attributes that any integrator needs; [None]: added without a marker. A marker
    that is too short is read out of range (the check is a debug assertion). *)
Fixpoint mb_marker (marks : list (option (list Z))) (acc : list Z) : outcome (list Z) :=
  match marks with
  | [] => Ok acc
  | None :: _ => Ok (map (fun _ => 1%Z) acc)
  | Some mk :: t =>
      let* acc := ofor (length acc) (fun acc i =>
        let* a := oread acc i in
        let* b := oread mk i in
        owrite acc i (Z.lor a b)) acc in
      mb_marker t acc
  end.

(** src/dg_mixed_bilin.cpp:103-161: the pairs (boundary element, integrator) that are assembled, in order; [attrs]: the
    attribute of each boundary element; [faces]: whether it has a face transformation; [nattr]: the largest attribute, zero
    when there is none. The list is what [AssembleFaceMatrix] and [AddSubMatrix] are called for. *)
Definition mb_faces (nattr : nat) (marks : list (option (list Z))) (bdr : list (nat * bool)) : outcome (list (nat * nat)) :=
  match marks with
  | [] => Ok []
  | _ =>
    let* mark := mb_marker marks (repeat 0%Z nattr) in
    let* out := omap (fun '(i, (attr, face)) =>
      oguard (0 <? attr)%nat
      (let* m := oread mark (attr - 1) in
       if (m =? 0)%Z then Ok [] else
       if negb face then Ok [] else
       let* ks := omap (fun '(k, mk) =>
         match mk with
         | None => Ok [(i, k)]
         | Some mk => let* x := oread mk (attr - 1) in if (x =? 0)%Z then Ok [] else Ok [(i, k)]
         end) (combine (seq 0 (length marks)) marks) in
       Ok (List.concat ks))) (combine (seq 0 (length bdr)) bdr) in
    Ok (List.concat out)
  end.
