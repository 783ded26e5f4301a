(** What the nonlinear term of the Navier-Stokes solver and its hyper-reduction are supposed to be, stated without the functions of
    the model. *)
From Coq Require Import Reals List Bool Lia Arith ZArith Ascii String Permutation.
From Verif Require Import Outcome TagsSpec HdfModel LaBase LinalgModel BlockVec RomModel RomSpec MbModel MbSpec EqpSpec ItfModel ItfSpec ProbModel BcModel BupModel BupSpec EqpModel NeqModel.
Import ListNotations.
Local Open Scope nat_scope.

(** Data of global boundary [gi]: none where the boundary is open. *)
Definition condition (types : list btype) (bdr : list (option coeff)) (gi : nat) : option coeff :=
  match nth gi types BNone with BNeumann => None | _ => nth gi bdr None end.
(** Data for every boundary that is not open. *)
Definition closed (g : geometry) (types : list btype) (bdr : list (option coeff)) : Prop :=
  List.length types = List.length (g_gattr g) /\ List.length bdr = List.length (g_gattr g) /\
  forall gi, gi < List.length (g_gattr g) -> nth gi types BNone <> BNeumann -> nth gi bdr None <> None.

(** Walls are the boundaries with zero velocity. *)
Definition wall (types : list btype) (gi : nat) : nat := match nth gi types BNone with BZero => 1 | _ => 0 end.

(** The integrator on the elements. *)
Definition flow (o : oper) : nint := match o with OBase => NConvection | OLax => NFlux end.

(** Contribution of a sample and of a rule. *)
Definition point (nm : nnum) (at_ : locus) (t : itype) (I : nint) (v phi : nat -> R) (s : sinfo R) : R :=
  match nth (Z.to_nat (si_el s)) (nn_sites nm at_ t I) None with
  | Some st => form_at st (Z.to_nat (si_qp s)) (si_qw s) v phi
  | None => 0%R
  end.
Definition rule_value (nm : nnum) (at_ : locus) (t : itype) (I : nint) (v phi : nat -> R) (l : list (sinfo R)) : R := lsum (point nm at_ t I v phi) l.
Definition dpoint (nm : nnum) (at_ : locus) (t : itype) (I : nint) (v phi psi : nat -> R) (s : sinfo R) : R :=
  match nth (Z.to_nat (si_el s)) (nn_sites nm at_ t I) None with
  | Some st => grad_at st (Z.to_nat (si_qp s)) (si_qw s) v phi psi
  | None => 0%R
  end.

(** The sum of [val t I l] over the parts of subdomain [m]: elements, interior faces, each boundary that is global. [tr c t k] is the
    rule trained for integrator [k] of type [t] of component [c]; boundary [b] of a component has the rules [2 b] and [2 b + 1], the
    latter for walls. *)
Definition over_parts (g : geometry) (o : oper) (full_dg : bool) (types : list btype) (bdr : list (option coeff))
    (tr : nat -> itype -> nat -> list (sinfo R)) (m : nat) (val : itype -> nint -> list (sinfo R) -> R) : R :=
  let c := type_of g m in
  (val Domain (flow o) (tr c Domain 0%nat)
   + match o with
     | OBase => 0
     | OLax =>
        (if full_dg then val InteriorFace (NLax None) (tr c InteriorFace 0%nat) else 0)
        + rsum (List.length (row_of g m)) (fun b => rsum (List.length (g_gattr g)) (fun gi =>
            ind (nth b (row_of g m) 0 =? nth gi (g_gattr g) 0)%Z
              (val BdrFace (NLax (condition types bdr gi))
                 (tr c BdrFace (2 * b + wall types gi)%nat))))
     end)%R.

(** A sample of an existing place and quadrature point. *)
Definition lies (nm : nnum) (vsize : nat) (at_ : locus) (t : itype) (I : nint) (s : sinfo R) : Prop :=
  (0 <= si_el s)%Z /\ (0 <= si_qp s < Z.of_nat (List.length (nn_w nm I)))%Z /\
  exists st, nth (Z.to_nat (si_el s)) (nn_sites nm at_ t I) None = Some st /\ site_ok vsize st /\ plain st /\ site_grad_ok st.
(** Boundary element [e] of component [c] is on its boundary [b]. *)
Definition on_boundary (g : geometry) (c b : nat) (e : nat) : Prop :=
  exists x, nth_error (me_bdr (mesh_of g c)) e = Some x /\ nth_error (attrs_of g c) b = Some (fst x).

(** The rules of the component have samples in subdomain [m], those of a boundary on that boundary. *)
Definition rules_fit (nm : nnum) (g : geometry) (o : oper) (full_dg : bool) (types : list btype) (bdr : list (option coeff)) (cu : list fespace)
    (tr : nat -> itype -> nat -> list (sinfo R)) (m : nat) : Prop :=
  let c := type_of g m in let n := fe_size (fth cu c) in
  (forall s, In s (tr c Domain 0) -> lies nm n (AtSub m) Domain (flow o) s) /\
  (o = OLax -> full_dg = true -> forall s, In s (tr c InteriorFace 0) -> lies nm n (AtSub m) InteriorFace (NLax None) s) /\
  (o = OLax -> forall b gi s, b < List.length (row_of g m) -> gi < List.length (g_gattr g) -> nth b (row_of g m) 0%Z = nth gi (g_gattr g) 0%Z ->
     In s (tr c BdrFace (2 * b + wall types gi)) -> on_boundary g c b (Z.to_nat (si_el s)) /\ lies nm n (AtSub m) BdrFace (NLax (condition types bdr gi)) s).

(** All the quadrature points of the places selected by [sel], with their weights. *)
Definition all_points (nm : nnum) (at_ : locus) (t : itype) (I : nint) (sel : nat -> bool) : list (sinfo R) :=
  flat_map (fun e => if sel e then
      match nth e (nn_sites nm at_ t I) None with
      | Some _ => map (fun q => {| si_el := Z.of_nat e; si_qp := Z.of_nat q; si_qw := nth q (nn_w nm I) 0%R |}) (seq 0 (List.length (nn_w nm I)))
      | None => []
      end else []) (seq 0 (List.length (nn_sites nm at_ t I))).
Definition is_attr (g : geometry) (c b : nat) (e : nat) : bool :=
  (fst (nth e (me_bdr (mesh_of g c)) (0%Z, false)) =? nth b (attrs_of g c) 0)%Z.
(** Rules of all quadrature points. *)
Definition rules_complete (nm : nnum) (g : geometry) (o : oper) (full_dg : bool) (types : list btype) (bdr : list (option coeff))
    (tr : nat -> itype -> nat -> list (sinfo R)) (m : nat) : Prop :=
  let c := type_of g m in
  Permutation (tr c Domain 0) (all_points nm (AtSub m) Domain (flow o) (fun _ => true)) /\
  (o = OLax -> full_dg = true -> Permutation (tr c InteriorFace 0) (all_points nm (AtSub m) InteriorFace (NLax None) (fun _ => true))) /\
  (o = OLax -> forall b gi, b < List.length (row_of g m) -> gi < List.length (g_gattr g) -> nth b (row_of g m) 0%Z = nth gi (g_gattr g) 0%Z ->
     Permutation (tr c BdrFace (2 * b + wall types gi)) (all_points nm (AtSub m) BdrFace (NLax (condition types bdr gi)) (is_attr g c b))).
(** As many boundary places as boundary elements. *)
Definition places_match (nm : nnum) (g : geometry) : Prop :=
  forall m I, m < nsub g -> List.length (nn_sites nm (AtSub m) BdrFace I) = List.length (me_bdr (mesh_of g (type_of g m))).

(** What an integrator yields on a place, tested with [phi]: the weighted sum over its quadrature points. *)
Definition place_term (nm : nnum) (at_ : locus) (t : itype) (I : nint) (v phi : nat -> R) (e : nat) : R :=
  match nth e (nn_sites nm at_ t I) None with
  | Some s => rsum (List.length (nn_w nm I)) (fun q => form_at s q (nth q (nn_w nm I) 0%R) v phi)
  | None => 0%R
  end.

(** The full-order term of subdomain [m] in state [v], tested with [phi]: every element; every interior face of the discontinuous
    form; every face of a global boundary, with the data of that boundary. *)
Definition full_term (nm : nnum) (g : geometry) (o : oper) (full_dg : bool) (types : list btype) (bdr : list (option coeff)) (m : nat) (v phi : nat -> R) : R :=
  let c := type_of g m in
  let all t I := rsum (List.length (nn_sites nm (AtSub m) t I)) (place_term nm (AtSub m) t I v phi) in
  (all Domain (flow o)
   + match o with
     | OBase => 0
     | OLax =>
        (if full_dg then all InteriorFace (NLax None) else 0)
        + rsum (List.length (me_bdr (mesh_of g c))) (fun e => rsum (List.length (row_of g m)) (fun b => rsum (List.length (g_gattr g)) (fun gi =>
            ind (is_attr g c b e && (nth b (row_of g m) 0 =? nth gi (g_gattr g) 0)%Z)%bool
              (place_term nm (AtSub m) BdrFace (NLax (condition types bdr gi)) v phi e))))
     end)%R.


(** ** Files *)

(** Integrator [i] of type [t] belongs to the form of a component with [nb] boundaries: the elements, the interior faces of the
    discontinuous form, two for each boundary. *)
Definition owned (o : oper) (full_dg : bool) (nb : nat) (t : itype) (i : nat) : Prop :=
  (t = Domain /\ i = 0) \/ (o = OLax /\ ((full_dg = true /\ t = InteriorFace /\ i = 0) \/ (t = BdrFace /\ i < 2 * nb))).
(** The form of a component has these integrators and a rule for each. *)
Definition has_integs (o : oper) (full_dg : bool) (nb : nat) (F : eform) : Prop := forall t i, owned o full_dg nb t i -> exists r, get_rule F t i = Ok r.
Definition has_rules (o : oper) (full_dg : bool) (nb : nat) (F : eform) : Prop := forall t i, owned o full_dg nb t i -> exists l, get_rule F t i = Ok (Some l).
(** A reference port: components and attributes. *)
Definition ref_ok (names : list string) (p : nat * nat * nat * nat) : Prop := let '(c1, c2, a1, a2) := p in c1 < List.length names /\ c2 < List.length names.
Definition same_port (names names' : list string) (p p' : nat * nat * nat * nat) : Prop :=
  let '(c1, c2, a1, a2) := p in let '(c1', c2', a1', a2') := p' in
  nth_error names c1 = nth_error names' c1' /\ nth_error names c2 = nth_error names' c2' /\ a1 = a1' /\ a2 = a2'.
(** Same number of basis vectors, integrators, markers and basis. *)
Definition same_shape (F F' : eform) : Prop :=
  ef_n F = ef_n F' /\ map fst (ef_dom F) = map fst (ef_dom F') /\ map fst (ef_int F) = map fst (ef_int F') /\ map fst (ef_bdr F) = map fst (ef_bdr F') /\
  ef_basis F = ef_basis F'.
(** What is written: components of distinct names with a rule for each integrator; distinct reference ports with a rule each. *)
Definition can_save (o : oper) (full_dg : bool) (names : list string) (nbs : list nat) (refs : list (nat * nat * nat * nat)) (E : list eform) (rs : list rule) : Prop :=
  List.length E = List.length names /\ List.length nbs = List.length names /\
  (forall c F nb, nth_error E c = Some F -> nth_error nbs c = Some nb -> has_rules o full_dg nb F) /\
  (o = OLax -> NoDup refs /\ (forall p, In p refs -> ref_ok names p) /\ (forall n, In n names -> no_char ":"%char n) /\ List.length rs = List.length refs /\ ~ In None rs).
(** What is to be filled: components among those written, with no more boundaries, reference ports among those written. *)
Definition can_load (o : oper) (full_dg : bool) (names : list string) (nbs : list nat) (refs : list (nat * nat * nat * nat))
    (names' : list string) (nbs' : list nat) (refs' : list (nat * nat * nat * nat)) (E' : list eform) (rs' : list rule) : Prop :=
  List.length names' <= List.length names /\ List.length E' = List.length names' /\ List.length nbs' = List.length names' /\
  (forall c' n nb', nth_error names' c' = Some n -> nth_error nbs' c' = Some nb' -> exists c nb, nth_error names c = Some n /\ nth_error nbs c = Some nb /\ nb' <= nb) /\
  (forall c F nb, nth_error E' c = Some F -> nth_error nbs' c = Some nb -> has_integs o full_dg nb F) /\
  (o = OLax -> List.length rs' = List.length refs' /\ forall p', In p' refs' -> ref_ok names' p' /\ exists p, In p refs /\ same_port names names' p p').

(** ** Training *)

(** Sum over the places selected. *)
Definition places_sum (nm : nnum) (at_ : locus) (t : itype) (I : nint) (v phi : nat -> R) (sel : nat -> bool) : R :=
  rsum (List.length (nn_sites nm at_ t I)) (fun e => ind (sel e) (place_term nm at_ t I v phi e)).
(** The rules of component [c] reproduce in state [v], tested with [phi], what they are trained on: the integral of each integrator of
    its form [F] over the elements, the interior faces or the marked boundary faces of the component. *)
Definition trained_exact (nm : nnum) (g : geometry) (F : eform) (tr : nat -> itype -> nat -> list (sinfo R)) (c : nat) (v phi : nat -> R) : Prop :=
  (forall k I r, nth_error (ef_dom F) k = Some (I, r) ->
     rule_value nm (AtComp c) Domain I v phi (tr c Domain k) = places_sum nm (AtComp c) Domain I v phi (fun _ => true)) /\
  (forall k I r, nth_error (ef_int F) k = Some (I, r) ->
     rule_value nm (AtComp c) InteriorFace I v phi (tr c InteriorFace k) = places_sum nm (AtComp c) InteriorFace I v phi (fun _ => true)) /\
  (forall k I mk r, nth_error (ef_bdr F) k = Some (I, mk, r) ->
     rule_value nm (AtComp c) BdrFace I v phi (tr c BdrFace k) =
     places_sum nm (AtComp c) BdrFace I v phi (fun e => negb (nth (Z.to_nat (fst (nth e (me_bdr (mesh_of g c)) (0%Z, false)) - 1)) mk 0 =? 0)%Z)).
(** What integrators yield in a subdomain is what they yield in its component. *)
Definition same_sites (nm : nnum) (g : geometry) : Prop := forall m t I, m < nsub g -> nn_sites nm (AtSub m) t I = nn_sites nm (AtComp (type_of g m)) t I.
(** Every boundary is open or a wall. *)
Definition open_or_wall (g : geometry) (types : list btype) (bdr : list (option coeff)) : Prop :=
  forall gi, gi < List.length (g_gattr g) -> nth gi types BNone = BNeumann \/ (nth gi types BNone = BZero /\ nth gi bdr None = Some CZero).
