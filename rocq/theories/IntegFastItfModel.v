(** Hyper-reduced interface terms of the Lax-Friedrichs flux with precomputed coefficients. *)
From Coq Require Import Reals List Bool Lia Arith ZArith.
From Verif Require Import Outcome HdfModel LaBase BlockVec LinalgModel ItfModel EqpModel IntegModel EqpItfModel IntegFastModel.
Import ListNotations.
Local Open Scope R_scope.

(** A face of an interface: degrees of freedom, shape functions and points of the two elements *)
Record iplace := IPlace { ip_d1 : list Z; ip_d2 : list Z; ip_n1 : nat; ip_n2 : nat; ip_pts : nat -> fpt }.

Definition tabr (h w : nat) (f : fm) : dmat := DMat h w (flat_map (fun j => map (fun i => f i j) (seq 0 h)) (seq 0 w)).
(** As the general model of hyper-reduced interface forms sees it; [old], [ud] as for faces; NaN is excluded below *)
Definition isite_at (dim : nat) (ud : bool) (old : fv) (t : iplace) : isite :=
  let l1 := List.length (ip_d1 t) in
  let l2 := List.length (ip_d2 t) in
  ISite (ip_d1 t) (ip_d2 t)
    (fun m w x1 x2 => let q := lf_itf_qvector (ip_n1 t) (ip_n2 t) dim ud (ip_pts t m) w (vnth x1) (vnth x2) old in (tab l1 (fst q), tab l2 (snd q)))
    (fun m w x1 x2 a b =>
       let M := match lf_itf_qgrad (ip_n1 t) (ip_n2 t) dim ud (ip_pts t m) w (vnth x1) (vnth x2) old with Some M => M | None => zero_ms end in
       tabr (if a then l1 else l2) (if b then l1 else l2) (if a then if b then m11 M else m12 M else if b then m21 M else m22 M)).

(** src/rom_interfaceform.cpp:806-815 with 826-889 [PrecomputeEQPSample]: the samples of one port. The rows of the basis where the
    variable starts are not taken into account *)
Definition port_pre (B1 B2 : dmat) (nq : nat) (st : list (option iplace)) (l : list (sinfo R)) : outcome (list pre) :=
  omap (fun s =>
    let* tr := zread st (si_el s) in
    match tr with
    | None => UB
    | Some t =>
        let* qp := int_point nq (si_qp s) in
        let* bel1 := basis_elem B1 (Place (ip_d1 t) (Face (ip_n1 t) 0 (ip_pts t))) in
        let* bel2 := basis_elem B2 (Place (ip_d2 t) (Face (ip_n2 t) 0 (ip_pts t))) in
        Ok (pre_itf (ip_n1 t) (ip_n2 t) (ip_pts t qp) bel1 bel2)
    end) l.

(** src/rom_interfaceform.cpp:153-173: the samples of one port in [InterfaceAddMult] with precomputed coefficients; [nb1], [nb2]
    are the widths of the coefficient matrices *)
Definition port_fast (dim nb1 nb2 m1 m2 nq : nat) (st : list (option iplace)) (x1 x2 : vec) (l : list (sinfo R)) (ps : list pre) (y : bvec) : outcome bvec :=
  let* (_, _, y) := ofold (fun '(prev, tr, y) i =>
    let* s := oread l i in
    let* tr := if (si_el s =? prev)%Z then match tr with Some t => Ok t | None => UB end else zread st (si_el s) in
    match tr with
    | None => UB
    | Some t =>
        let* p := oread ps i in
        let* qp := int_point nq (si_qp s) in
        let* y1 := bv_get y m1 in
        let* y := bv_put y m1 (tab nb1 (fst (lf_fast_itf nb1 nb2 dim (ip_pts t qp) (si_qw s) p (vnth x1) (vnth x2) (vnth y1) (fun _ => 0)))) in
        let* y2 := bv_get y m2 in
        let* y := bv_put y m2 (tab nb2 (snd (lf_fast_itf nb1 nb2 dim (ip_pts t qp) (si_qw s) p (vnth x1) (vnth x2) (fun _ => 0) (vnth y2)))) in
        Ok (si_el s, Some tr, y)
    end) (seq 0 (List.length l)) ((-1)%Z, None, y) in
  Ok y.
