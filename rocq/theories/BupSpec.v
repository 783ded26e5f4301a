(** What the full-order and the reduced systems are supposed to be, stated without the functions of the model. *)
From Coq Require Import Reals List Bool Lia Arith ZArith.
From Verif Require Import Outcome LaBase LinalgModel LinalgSpec BlockVec RomModel RomSpec MbModel MbSpec EqpSpec ItfModel ItfSpec ProbModel BcModel BupModel.
Import ListNotations.
Local Open Scope nat_scope.

Definition nsub (g : geometry) : nat := List.length (g_types g).
Definition ncomp (g : geometry) : nat := List.length (g_comps g).
Definition type_of (g : geometry) (m : nat) : nat := nth m (g_types g) 0.
Definition mesh_of (g : geometry) (c : nat) : mesh := nth c (g_comps g) (Mesh 0 0 []).
Definition attrs_of (g : geometry) (c : nat) : list Z := nth c (g_attrs g) [].
Definition row_of (g : geometry) (m : nat) : list Z := nth m (g_c2g g) [].
Definition sub_spaces (g : geometry) (cfes : list fespace) : list fespace := map (fth cfes) (g_types g).
Definition ref_of (g : geometry) (k : nat) : itf_port := nth (nth k (g_ptype g) 0) (g_refs g) (ItfPort 0 0 []).
Definition port_of (g : geometry) (k : nat) : itf_port := nth k (g_ports g) (ItfPort 0 0 []).

(** Components list the attributes of their boundaries once; every boundary of a subdomain has a positive global number;
    global boundaries are distinct and found on some subdomain; ports join subdomains of the components of their type. *)
Definition geo_ok (g : geometry) : Prop :=
  0 < nsub g /\ List.length (g_attrs g) = ncomp g /\ List.length (g_c2g g) = nsub g /\
  (forall m, m < nsub g -> type_of g m < ncomp g) /\
  (forall c, c < ncomp g -> NoDup (attrs_of g c) /\ attrs_of g c <> [] /\ (forall a, In a (attrs_of g c) -> (0 < a)%Z) /\
     forall a, In a (attrs_of g c) <-> In a (map fst (me_bdr (mesh_of g c)))) /\
  (forall m, m < nsub g -> List.length (row_of g m) = List.length (attrs_of g (type_of g m)) /\ forall a, In a (row_of g m) -> (0 < a)%Z) /\
  NoDup (g_gattr g) /\ (forall a, In a (g_gattr g) -> exists m, m < nsub g /\ In a (row_of g m)) /\
  List.length (g_ptype g) = List.length (g_ports g) /\
  (forall k, k < List.length (g_ports g) -> nth k (g_ptype g) 0 < List.length (g_refs g) /\
     forall i, i < 2 -> side_mesh (port_of g k) i < nsub g /\ side_mesh (ref_of g k) i = type_of g (side_mesh (port_of g k) i)).

(** What integrators yield in a subdomain is what they yield in its component. *)
Definition copied (nu : numerics) (g : geometry) (dom int : list itg) (bd : itg) : Prop :=
  forall m e p q, m < nsub g ->
    (forall I, In I dom -> nu_dom nu I (AtSub m) e p q = nu_dom nu I (AtComp (type_of g m)) e p q) /\
    (forall I, In I int -> nu_int nu I (AtSub m) e p q = nu_int nu I (AtComp (type_of g m)) e p q) /\
    nu_bdr nu bd (AtSub m) e p q = nu_bdr nu bd (AtComp (type_of g m)) e p q.

(** Reference ports fit the spaces of the components and ports look like their reference ports. *)
Definition itf_ok (nu : numerics) (g : geometry) (ctest ctrial : list fespace) (it : itg) : Prop :=
  List.length ctest = ncomp g /\ List.length ctrial = ncomp g /\ ports_fit ctest (g_refs g) /\ ports_fit ctrial (g_refs g) /\
  elem_fits ctest ctrial (g_refs g) (fun _ => nu_itf nu it) /\
  forall k, k < List.length (g_ports g) -> Forall2 (same_face [nu_itf nu it]) (ip_faces (port_of g k)) (ip_faces (ref_of g k)).

(** A global boundary with a condition that is imposed weakly. *)
Definition weak (g : geometry) (types : list btype) (bdr : list (option coeff)) (a : Z) : Prop :=
  exists b, nth_error (g_gattr g) b = Some a /\ nth b bdr None <> None /\ nth b types BNone <> BNeumann.

(** Where the elasticity solver adds boundary terms to its full-order matrix. *)
Definition displaces (g : geometry) (full_dg : bool) (ls : lsolver) (a : Z) : Prop :=
  full_dg = true /\ exists b, nth_error (g_gattr g) b = Some a /\ nth b (le_bdr ls) None <> None /\ nth b (le_types ls) BNone = BDirichlet.

(** Entry (i, j) of block (m, m') of the full-order matrix: elements, interior faces, the faces of the boundaries selected by
    [enf] (boundary [b] of the component is global boundary number [b] of the row), interfaces. *)
Definition full_entry (nu : numerics) (g : geometry) (ctest ctrial : list fespace) (dom int : list itg) (bd it : itg) (enf : Z -> bool) (m m' i j : nat) : R :=
  let me := mesh_of g (type_of g m) in
  (ind (m =? m')%nat
    (lsum (fun I => rsum (me_nel me) (fun e => nu_dom nu I (AtSub m) e i j)) dom
     + lsum (fun I => rsum (me_nface me) (fun e => nu_int nu I (AtSub m) e i j)) int
     + rsum (List.length (row_of g m)) (fun b => ind (enf (nth b (row_of g m) 0%Z))
         (rsum (List.length (me_bdr me)) (fun e => let x := nth e (me_bdr me) (0%Z, false) in
            ind (snd x && (fst x =? nth b (attrs_of g (type_of g m)) 0)%Z)%bool (nu_bdr nu bd (AtSub m) e i j)))))
   + mat_at (all_contribs (sub_spaces g ctest) (sub_spaces g ctrial) (g_ports g) [nu_itf nu it] (fun h _ => h)) (m, i) (m', j))%R.

(** The blocks of [B] are the Galerkin projections of those of [a]. *)
Definition reduces (s : romst) (dim : nat -> nat) (a : nat -> nat -> nat -> nat -> nat -> nat -> R) (B : blockmat) : Prop :=
  let h := rs_h s in
  forall m v m' v' p q, unknown h m v -> unknown h m' v' -> p < basis_size h m v -> q < basis_size h m' v' ->
    val (B (place h m v) (place h m' v')) p q =
    rap (full_size h dim m v) (full_size h dim m' v') (mget (basis_of s m v)) (a m v m' v') (mget (basis_of s m' v')) p q.

(** The bases of a solver with one variable. *)
Definition scalar_bases (s : romst) (g : geometry) (cfes : list fespace) (dim : nat -> nat) : Prop :=
  bases_ok s dim /\ rh_nvar (rs_h s) = 1 /\ rh_types (rs_h s) = g_types g /\ rh_ncomp (rs_h s) = ncomp g /\ rh_nsub (rs_h s) = nsub g /\
  forall c, c < ncomp g -> dim c = fe_size (fth cfes c).

(** The bases of the Stokes solver: one for each variable, or one for both, velocity first. *)
Definition stokes_bases (s : romst) (g : geometry) (cu cp : list fespace) (dim : nat -> nat) : Prop :=
  bases_ok s dim /\ rh_nvar (rs_h s) = 2 /\ rh_types (rs_h s) = g_types g /\ rh_ncomp (rs_h s) = ncomp g /\ rh_nsub (rs_h s) = nsub g /\
  forall c, c < ncomp g -> if rh_sep (rs_h s) then dim (2 * c) = fe_size (fth cu c) /\ dim (2 * c + 1) = fe_size (fth cp c)
                           else dim c = fe_size (fth cu c) + fe_size (fth cp c).

(** Blocks of the Stokes system: velocity [M], divergence [B] and its transpose, zero; for one basis of both variables, the
    four blocks of a pair of subdomains as one. *)
Definition saddle_block (M B : blockmat) (sep : bool) (nu_ : nat -> nat) (m v m' v' i j : nat) : R :=
  if sep then match v, v' with
    | 0, 0 => val (M m m') i j | 1, 0 => val (B m m') i j | 0, 1 => val (B m' m) j i | _, _ => 0%R end
  else if i <? nu_ m then if j <? nu_ m' then val (M m m') i j else val (B m' m) (j - nu_ m') i
       else if j <? nu_ m' then val (B m m') (i - nu_ m) j else 0%R.
