(** Model of hyper-reduced interface terms: src/rom_interfaceform.cpp:63-380. See EqpModel.v for what is abstracted. *)
From Coq Require Import Reals List Bool Lia Arith ZArith.
From Verif Require Import Outcome HdfModel LaBase BlockVec LinalgModel ItfModel EqpModel.
Import ListNotations.
Local Open Scope nat_scope.

(** What a port connects: two subdomains. *)
Record rport := RPort { rp_m1 : nat; rp_m2 : nat }.
(** Basis of a subdomain ([NULL] is [None]) and the row where its variable starts. *)
Definition rbases := list (option dmat).

(** The form: integration rules of its integrators; [fnfi_sample], in the order port + integrator * ports; the ports; the faces
    of port [p] as integrator [k] sees them *)
Record iform := IForm { fo_rules : list (option nat); fo_smp : list (option (list (sinfo R))); fo_ports : list rport;
                        fo_sites : nat -> nat -> list (option isite); fo_bases : rbases; fo_offs : list nat }.

(** src/rom_interfaceform.cpp:63-74 [UpdateBlockOffsets] *)
Definition block_offsets (bs : rbases) : outcome (list nat) :=
  let* ws := omap (fun b => match b with None => Abort | Some B => Ok (dm_w B) end) bs in Ok (psum 0 (0 :: ws)).

(** src/rom_interfaceform.cpp:176-181 *)
Definition shift_dofs (o : nat) (ds : list Z) : list Z := if 0 <? o then map (fun d => (d + Z.of_nat o)%Z) ds else ds.

(** src/rom_interfaceform.cpp:145-206: the samples of one port *)
Definition port_mult (B1 B2 : dmat) (o1 o2 m1 m2 nq : nat) (st : list (option isite)) (x1 x2 : vec) (l : list (sinfo R)) (y : bvec) : outcome bvec :=
  let* (_, _, y) := ofold (fun '(prev, tr, y) s =>
    let* tr := if (si_el s =? prev)%Z then match tr with Some t => Ok t | None => UB end else zread st (si_el s) in
    match tr with
    | None => Abort
    | Some t =>
        let d1 := shift_dofs o1 (is_d1 t) in
        let d2 := shift_dofs o2 (is_d2 t) in
        let* e1 := mult_sub_matrix B1 d1 x1 (repeat 0%R (List.length d1)) in
        let* e2 := mult_sub_matrix B2 d2 x2 (repeat 0%R (List.length d2)) in
        let* qp := int_point nq (si_qp s) in
        let q := is_quad t qp (si_qw s) e1 e2 in
        let* y1 := bv_get y m1 in
        let* y1 := add_mult_transpose_sub B1 d1 (fst q) y1 in
        let* y := bv_put y m1 y1 in
        let* y2 := bv_get y m2 in
        let* y2 := add_mult_transpose_sub B2 d2 (snd q) y2 in
        let* y := bv_put y m2 y2 in
        Ok (si_el s, Some tr, y)
    end) l ((-1)%Z, None, y) in
  Ok y.

(** src/rom_interfaceform.cpp:76-225 [InterfaceAddMult] without precomputed coefficients; [off] is [block_offsets] *)
Definition itf_add_mult (F : iform) (off : list nat) (x y : vec) : outcome vec :=
  oassert (List.length x =? last off 0) (
  oassert (List.length y =? last off 0) (
  let xb := BVec off x in
  let* yb := ofor (List.length (fo_rules F)) (fun y k =>
    let* rule := oread (fo_rules F) k in
    match rule with
    | None => Abort
    | Some nq =>
        ofor (List.length (fo_ports F)) (fun y p =>
          let* pt := oread (fo_ports F) p in
          let* b1 := oread (fo_bases F) (rp_m1 pt) in
          let* b2 := oread (fo_bases F) (rp_m2 pt) in
          let* o1 := oread (fo_offs F) (rp_m1 pt) in
          let* o2 := oread (fo_offs F) (rp_m2 pt) in
          let* x1 := bv_get xb (rp_m1 pt) in
          let* x2 := bv_get xb (rp_m2 pt) in
          let* smp := oread (fo_smp F) (p + k * List.length (fo_ports F)) in
          match smp with
          | None => Ok y
          | Some l => match b1, b2 with
              | Some B1, Some B2 => port_mult B1 B2 o1 o2 (rp_m1 pt) (rp_m2 pt) nq (fo_sites F k p) x1 x2 l y
              | _, _ => UB
              end
          end) y
    end) (BVec off y) in
  Ok (bv_dat yb))).

(** ** Gradient *)

(** A square array of sparse matrices; entries outside are not accessible *)
Record grid := Grid { gr_n : nat; gr_at : nat -> nat -> smat }.
Definition gr_get (g : grid) (i j : nat) : outcome smat := oguard ((i <? gr_n g) && (j <? gr_n g)) (Ok (gr_at g i j)).
Definition gr_put (g : grid) (i j : nat) (m : smat) : outcome grid :=
  oguard ((i <? gr_n g) && (j <? gr_n g)) (Ok (Grid (gr_n g) (fun a b => if (a =? i) && (b =? j) then m else gr_at g a b))).

(** src/rom_interfaceform.cpp:361-364: one of the four products *)
Definition grad_block (L P : dmat) (dl dp : list Z) (A : dmat) (i j : nat) (g : grid) : outcome grid :=
  let* m := gr_get g i j in
  let* m := add_sub_rtap_sparse L dl A P dp m (repeat 0%R (List.length dl)) in
  gr_put g i j m.

(** src/rom_interfaceform.cpp:310-367: degrees of freedom and values are kept while the face is the same *)
Definition port_grad (B1 B2 : dmat) (o1 o2 m1 m2 nq : nat) (st : list (option isite)) (x1 x2 : vec) (l : list (sinfo R)) (g : grid) : outcome grid :=
  let* (_, _, g) := ofold (fun '(prev, c, g) s =>
    let* tr := zread st (si_el s) in
    let* qp := int_point nq (si_qp s) in
    let* c := if (si_el s =? prev)%Z then match c with Some c => Ok c | None => UB end
      else match tr with
      | None => Abort
      | Some t =>
          let d1 := shift_dofs o1 (is_d1 t) in
          let d2 := shift_dofs o2 (is_d2 t) in
          let* e1 := mult_sub_matrix B1 d1 x1 (repeat 0%R (List.length d1)) in
          let* e2 := mult_sub_matrix B2 d2 x2 (repeat 0%R (List.length d2)) in
          Ok (d1, d2, e1, e2)
      end in
    match tr with
    | None => UB
    | Some t =>
        let '(d1, d2, e1, e2) := c in
        let q := is_grad t qp (si_qw s) e1 e2 in
        let* g := grad_block B1 B1 d1 d1 (q true true) m1 m1 g in
        let* g := grad_block B1 B2 d1 d2 (q true false) m1 m2 g in
        let* g := grad_block B2 B1 d2 d1 (q false true) m2 m1 g in
        let* g := grad_block B2 B2 d2 d2 (q false false) m2 m2 g in
        Ok (si_el s, Some c, g)
    end) l ((-1)%Z, None, g) in
  Ok g.

(** src/rom_interfaceform.cpp:227-380 [InterfaceGetGradient] without precomputed coefficients *)
Definition itf_get_gradient (F : iform) (off : list nat) (x : vec) (g : grid) : outcome grid :=
  let xb := BVec off x in
  oassert (gr_n g =? List.length (fo_bases F)) (
  ofor (List.length (fo_rules F)) (fun g k =>
    let* rule := oread (fo_rules F) k in
    match rule with
    | None => Abort
    | Some nq =>
        ofor (List.length (fo_ports F)) (fun g p =>
          let* pt := oread (fo_ports F) p in
          let* b1 := oread (fo_bases F) (rp_m1 pt) in
          let* b2 := oread (fo_bases F) (rp_m2 pt) in
          let* o1 := oread (fo_offs F) (rp_m1 pt) in
          let* o2 := oread (fo_offs F) (rp_m2 pt) in
          let* x1 := bv_get xb (rp_m1 pt) in
          let* x2 := bv_get xb (rp_m2 pt) in
          let* smp := oread (fo_smp F) (p + k * List.length (fo_ports F)) in
          match smp with
          | None => Ok g
          | Some l => match b1, b2 with
              | Some B1, Some B2 => port_grad B1 B2 o1 o2 (rp_m1 pt) (rp_m2 pt) nq (fo_sites F k p) x1 x2 l g
              | _, _ => UB
              end
          end) g
    end) g).
