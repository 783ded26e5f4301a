(** Model of hyper-reduction: src/rom_nonlinearform.cpp and src/rom_interfaceform.cpp (training system, samples, evaluation).

    Simplifications: entries are exact reals. An element, interior face or boundary element is what the code obtains from
    it: its degrees of freedom, the kind of finite element, the degree-of-freedom transformation and the values of the
    integrator at a quadrature point. libROM's nonnegative least-squares solver is left out: its solution is an argument.
    The values of freshly allocated storage are arguments ([junk]). Printing and timers are left out. *)
From Coq Require Import Reals List Bool Lia Arith ZArith.
From Verif Require Import Outcome HdfModel LaBase BlockVec LinalgModel ItfModel.
Import ListNotations.
Local Open Scope nat_scope.

(** [st_pre] is [InvTransformPrimal], [st_post] and [st_postm] are [TransformDual] of vectors and matrices (identities when
    there is no transformation); [st_quad fe qp w] is [AssembleQuadratureVector] with the transformation of this place,
    [st_qgrad] is [AssembleQuadratureGrad]. *)
Record site := Site { st_dofs : list Z; st_fe : nat; st_pre : vec -> vec; st_post : vec -> vec; st_postm : dmat -> dmat;
                      st_quad : nat -> nat -> R -> vec -> vec; st_qgrad : nat -> nat -> R -> vec -> dmat }.
(** A face without transformation ([NULL]) is [None]. *)
Definition sites := list (option site).

(** ** Samples from weights *)

(** src/rom_nonlinearform.cpp:883 [eqpSol_global(i) > 1.0e-12] *)
Definition above (w : R) : bool := if Rlt_dec (/ 10 ^ 12) w then true else false.

(** src/rom_nonlinearform.cpp:873-874: libROM [get_global_offsets] (prefix sums over the processes) and the counts *)
Definition rank_offsets (dims : list nat) : list nat := psum 0 (0 :: dims).
Definition rank_counts (off : list nat) : outcome (list nat) :=
  omap (fun k => let* a := oread off k in let* b := oread off (k + 1) in Ok (b - a)) (seq 0 (List.length off - 1)).

(** [MPI_Allgatherv]: the part of process [r] is put at [displs[r]] *)
Definition allgatherv (parts : list vec) (cnts displs : list nat) (recv : vec) : outcome vec :=
  ofor (List.length parts) (fun g r =>
    let* p := oread parts r in
    let* c := oread cnts r in
    let* d := oread displs r in
    oguard (List.length p =? c) (
    ofor c (fun g i => let* x := oread p i in owrite g (d + i) x) g)) recv.

(** src/rom_nonlinearform.cpp:872-878; src/rom_interfaceform.cpp:677-683 *)
Definition gather_weights (parts : list vec) (junk : vec) : outcome vec :=
  let off := rank_offsets (map (@List.length R) parts) in
  let* cnts := rank_counts off in
  oguard (List.length junk =? last off 0) (allgatherv parts cnts off junk).

(** src/rom_nonlinearform.cpp:880-888; src/rom_interfaceform.cpp:685-693 *)
Definition extract_samples (nqe : nat) (w : vec) : outcome (list (sinfo R)) :=
  ofor (List.length w) (fun l i =>
    let* x := oread w i in
    if above x then
      oguard (negb (nqe =? 0)) (Ok (l ++ [{| si_el := Z.of_nat (i / nqe); si_qp := Z.of_nat (i mod nqe); si_qw := x |}]))
    else Ok l) [].

(** src/rom_nonlinearform.cpp:755-756, 787-788 [samples[s].el = fidxs[samples[s].el]] *)
Definition rename_samples (fidxs : list nat) (l : list (sinfo R)) : outcome (list (sinfo R)) :=
  omap (fun s => let* f := zread fidxs (si_el s) in Ok {| si_el := Z.of_nat f; si_qp := si_qp s; si_qw := si_qw s |}) l.

(** src/rom_nonlinearform.cpp:745-791, after the solver: from the solution to the samples of an integrator.
    [ids] is [fidxs], or [None] for a domain integrator. *)
Definition solution_samples (nqe : nat) (parts : list vec) (ids : option (list nat)) (junk : vec) : outcome (list (sinfo R)) :=
  let* w := gather_weights parts junk in
  let* l := extract_samples nqe w in
  match ids with None => Ok l | Some f => rename_samples f l end.

(** ** Places an integrator is trained on *)

(** src/rom_nonlinearform.cpp:1041-1047 *)
Definition interior_faces (st : sites) : outcome (list nat) :=
  ofor (List.length st) (fun l f => let* s := oread st f in match s with Some _ => Ok (l ++ [f]) | None => Ok l end) [].

(** src/rom_nonlinearform.cpp:770-783: the marker of a boundary integrator, all ones without one *)
Definition bdr_marker (nattr : nat) (m : option (list Z)) : outcome (list Z) :=
  match m with None => Ok (repeat 1%Z nattr) | Some mk => omap (fun i => let* v := oread mk i in Ok (Z.lor 0 v)) (seq 0 nattr) end.

(** src/rom_nonlinearform.cpp:1169-1179; [attr] are the attributes of the boundary elements *)
Definition bdr_faces (st : sites) (attr : list Z) (mark : list Z) : outcome (list nat) :=
  ofor (List.length st) (fun l b =>
    let* a := oread attr b in
    let* m := zread mark (a - 1) in
    if (m =? 0)%Z then Ok l else
    let* s := oread st b in match s with Some _ => Ok (l ++ [b]) | None => Ok l end) [].

(** ** Training system *)

(** src/rom_nonlinearform.cpp:713-722 [SetBasis]: the rows [off, off + vsize) of the given basis; [n] is the size of the form *)
Definition set_basis (n vsize : nat) (B : dmat) (off : nat) : outcome dmat :=
  oassert (dm_w B =? n) (
  oassert (vsize + off <=? dm_h B) (
  ofor vsize (fun M i => ofor n (fun M j => let* x := dm_get B (off + i) j in dm_put M i j x) M) (DMat vsize n (repeat 0%R (vsize * n))))).

(** [Vector v(basis.GetColumn(j) + off, n)] *)
Definition col_view (B : dmat) (j off n : nat) : outcome vec :=
  oguard (j * dm_h B + off + n <=? List.length (dm_buf B)) (Ok (firstn n (skipn (j * dm_h B + off) (dm_buf B)))).

(** src/rom_nonlinearform.cpp:977-986, 1103-1112, 1237-1246; src/rom_interfaceform.cpp:556-575: the columns of one snapshot for
    the points of one element; [quads] are the columns of [el_quad]. *)
Definition fill_cols (G : rmat) (B : dmat) (boff vsize : nat) (dofs : list Z) (quads : list vec) (nqe nb col0 eidx : nat) : outcome rmat :=
  ofor nb (fun G j =>
    let* v := col_view B j boff vsize in
    let* el_tr := get_sub v dofs in
    let* r := omap (fun m => let* q := oread quads m in
                oguard (List.length q =? List.length el_tr) (Ok (dot (List.length q) q el_tr))) (seq 0 nqe) in
    ofor nqe (fun G m => let* x := oread r m in rm_set G (m + eidx * nqe) (j + col0) x) G) G.

(** src/rom_nonlinearform.cpp:944-995, 1071-1120, 1203-1254: the loop of one process over snapshots and its elements *)
Definition setup_rank (nqe : nat) (st : sites) (ids : list nat) (B : dmat) (vsize : nat) (snap : rmat) (e0 e1 : nat) (G : rmat) : outcome rmat :=
  ofor (rm_c snap) (fun G i =>
    let* v := omap (fun k => rm_get snap k i) (seq 0 vsize) in
    oforr e0 e1 (fun G e =>
      let* id := oread ids e in
      let* so := oread st id in
      match so with
      | None => Abort
      | Some s =>
          let* x := get_sub v (st_dofs s) in
          let x := st_pre s x in
          let quads := map (fun m => st_post s (st_quad s (st_fe s) m 1%R x)) (seq 0 nqe) in
          fill_cols G B 0 vsize (st_dofs s) quads nqe (dm_w B) (i * dm_w B) (e - e0)
      end) G) G.

(** src/rom_nonlinearform.cpp:998-1002 *)
Definition fom_weights (ne nqe : nat) (w_el : vec) (junk : vec) : outcome vec :=
  ofor ne (fun w i => ofor nqe (fun w j => let* x := oread w_el j in owrite w (j + i * nqe) x) w) junk.

(** libROM [transposeMult] of a distributed matrix and vector, as specified: the sum over all rows of all processes *)
Definition transpose_mult (cols : nat) (parts : list (rmat * vec)) : vec :=
  map (fun c => fold_right Rplus 0%R (map (fun p => rsum (rm_r (fst p)) (fun r =>
    (vnth (rm_buf (fst p)) (r * rm_c (fst p) + c) * vnth (snd p) r)%R)) parts)) (seq 0 cols).

(** src/rom_nonlinearform.cpp:896-1010 and the two variants for faces: all processes together. [split] are the numbers of
    elements of the processes ([split_dimension]); [jg r], [jw r] the fresh storage of process [r]. *)
Definition setup_system (nqe : nat) (w_el : vec) (st : sites) (ids : list nat) (B : dmat) (vsize : nat) (snap : rmat)
    (split : list nat) (jg jw : nat -> vec) : outcome (list rmat * vec) :=
  let off := rank_offsets split in
  let cols := dm_w B * rm_c snap in
  oassert (vsize <=? rm_r snap) (
  oassert (last off 0 =? List.length ids) (
  let* parts := omap (fun r =>
    let* e0 := oread off r in
    let* e1 := oread off (r + 1) in
    let* ne := oread split r in
    let* G := setup_rank nqe st ids B vsize snap e0 e1 (RMat (ne * nqe) cols true (jg r)) in
    let* w := fom_weights ne nqe w_el (jw r) in
    Ok (G, w)) (seq 0 (List.length split)) in
  Ok (map fst parts, transpose_mult cols parts))).

(** ** Training system of a reference port *)

(** Both sides of an interface face; missing transformations are [None]. [is_quad qp w] is [AssembleQuadratureVector];
    [is_grad qp w x1 x2 a b] the block of [AssembleQuadratureGrad], [true] being the first side. *)
Record isite := ISite { is_d1 : list Z; is_d2 : list Z; is_quad : nat -> R -> vec -> vec -> vec * vec;
                        is_grad : nat -> R -> vec -> vec -> bool -> bool -> dmat }.

(** src/rom_interfaceform.cpp:517-583 *)
Definition setup_rank_itf (nqe : nat) (st : list (option isite)) (B1 B2 : dmat) (o1 o2 n1 n2 : nat) (snap1 snap2 : rmat)
    (pairs : list (nat * nat)) (e0 e1 : nat) (G : rmat) : outcome rmat :=
  let NB := dm_w B1 + dm_w B2 in
  ofor (List.length pairs) (fun G i =>
    let* p := oread pairs i in
    let* v1 := omap (fun k => rm_get snap1 k (fst p)) (seq 0 n1) in
    let* v2 := omap (fun k => rm_get snap2 k (snd p)) (seq 0 n2) in
    oforr e0 e1 (fun G e =>
      let* so := oread st e in
      match so with
      | None => Abort
      | Some s =>
          let* x1 := get_sub v1 (is_d1 s) in
          let* x2 := get_sub v2 (is_d2 s) in
          let q1 := map (fun m => fst (is_quad s m 1%R x1 x2)) (seq 0 nqe) in
          let q2 := map (fun m => snd (is_quad s m 1%R x1 x2)) (seq 0 nqe) in
          let* G := fill_cols G B1 o1 n1 (is_d1 s) q1 nqe (dm_w B1) (i * NB) (e - e0) in
          fill_cols G B2 o2 n2 (is_d2 s) q2 nqe (dm_w B2) (dm_w B1 + i * NB) (e - e0)
      end) G) G.

(** src/rom_interfaceform.cpp:436-605 [SetupEQPSystem] *)
Definition setup_system_itf (nqe : nat) (w_el : vec) (st : list (option isite)) (B1 B2 : dmat) (o1 o2 n1 n2 : nat)
    (snap1 snap2 : rmat) (pairs : list (nat * nat)) (split : list nat) (jg jw : nat -> vec) : outcome (list rmat * vec) :=
  let off := rank_offsets split in
  let cols := (dm_w B1 + dm_w B2) * List.length pairs in
  oassert (n1 <=? rm_r snap1) (
  oassert (n2 <=? rm_r snap2) (
  oassert (last off 0 =? List.length st) (
  let* parts := omap (fun r =>
    let* e0 := oread off r in
    let* e1 := oread off (r + 1) in
    let* ne := oread split r in
    let* G := setup_rank_itf nqe st B1 B2 o1 o2 n1 n2 snap1 snap2 pairs e0 e1 (RMat (ne * nqe) cols true (jg r)) in
    let* w := fom_weights ne nqe w_el (jw r) in
    Ok (G, w)) (seq 0 (List.length split)) in
  Ok (map fst parts, transpose_mult cols parts)))).

(** src/rom_nonlinearform.cpp:814-825; src/rom_interfaceform.cpp:626-637: the bounds [rhs_lb], [rhs_ub] given to the solver *)
Definition eqp_bounds (tol : R) (rhs : vec) : vec * vec :=
  (map (fun r => (r - tol * Rabs r)%R) rhs, map (fun r => (r + tol * Rabs r)%R) rhs).

(** ** Evaluation from samples *)

(** An integrator of a form: number of quadrature points of its rule ([None] without a rule), its places, the boundary
    attributes and marker ([None] except for marked boundary integrators), its samples ([None] before training). *)
Record integ := Integ { in_rule : option nat; in_sites : sites; in_attr : list Z; in_mark : option (list Z);
                        in_smp : option (list (sinfo R)) }.

(** What is kept while consecutive samples are on the same element: kind of element, degrees of freedom, dual
    transformations, values *)
Record cache := Cache { ca_fe : nat; ca_dofs : list Z; ca_post : vec -> vec; ca_postm : dmat -> dmat; ca_x : vec }.

(** src/rom_nonlinearform.cpp:268-282 (boundary integrators), 119-121, 182-183, 284: the place of a sample *)
Definition sample_site (I : integ) (s : sinfo R) : outcome (option site) :=
  match in_mark I with
  | None => zread (in_sites I) (si_el s)
  | Some mk =>
      let* a := zread (in_attr I) (si_el s) in
      let* m := zread mk (a - 1) in
      oassert (negb (m =? 0)%Z) (zread (in_sites I) (si_el s))
  end.

(** src/rom_nonlinearform.cpp:132-144, 195-220, 297-322 *)
Definition sample_cache (B : dmat) (x : vec) (el : Z) (so : option site) (prev : Z) (c : option cache) : outcome cache :=
  if (el =? prev)%Z then match c with Some c => Ok c | None => UB end
  else match so with
  | None => Abort
  | Some s =>
      let* ex := mult_sub_matrix B (st_dofs s) x (repeat 0%R (List.length (st_dofs s))) in
      Ok (Cache (st_fe s) (st_dofs s) (st_post s) (st_postm s) (st_pre s ex))
  end.

(** [ir->IntPoint(qp)] *)
Definition int_point (nq : nat) (qp : Z) : outcome nat := oguard ((0 <=? qp) && (qp <? Z.of_nat nq))%Z (Ok (Z.to_nat qp)).

(** src/rom_nonlinearform.cpp:97-156, 165-226, 249-330: [Mult] without precomputed coefficients, one integrator *)
Definition mult_integ (B : dmat) (x : vec) (y : vec) (I : integ) : outcome vec :=
  match in_rule I, in_smp I with
  | Some nq, Some l =>
      let* (_, _, y) := ofold (fun '(prev, c, y) s =>
        let* so := sample_site I s in
        let* qp := int_point nq (si_qp s) in
        let* c := sample_cache B x (si_el s) so prev c in
        match so with
        | None => UB
        | Some st =>
            let ey := ca_post c (st_quad st (ca_fe c) qp (si_qw s) (ca_x c)) in
            let* y := add_mult_transpose_sub B (ca_dofs c) ey y in
            Ok (si_el s, Some c, y)
        end) l ((-1)%Z, None, y) in
      Ok y
  | _, _ => Abort
  end.

(** src/rom_nonlinearform.cpp:46-345 [Mult]; the form has [n] basis functions; [ints] are the domain, interior face and
    boundary face integrators in this order. The marker computed in lines 239-261 is not used. *)
Definition form_mult (n : nat) (B : option dmat) (ints : list integ) (x y : vec) : outcome vec :=
  oassert (List.length x =? n) (
  oassert (List.length y =? n) (
  match B with
  | None => Abort
  | Some B => oassert (dm_w B =? n) (ofold (mult_integ B x) ints (repeat 0%R n))
  end)).

(** src/rom_nonlinearform.cpp:393-450, 455-520, 545-615: [GetGradient], one integrator *)
Definition grad_integ (B : dmat) (x : vec) (J : dmat) (I : integ) : outcome dmat :=
  match in_rule I, in_smp I with
  | Some nq, Some l =>
      let* (_, _, J) := ofold (fun '(prev, c, J) s =>
        let* so := sample_site I s in
        let* qp := int_point nq (si_qp s) in
        let* c := sample_cache B x (si_el s) so prev c in
        match so with
        | None => UB
        | Some st =>
            let em := ca_postm c (st_qgrad st (ca_fe c) qp (si_qw s) (ca_x c)) in
            let* J := add_sub_rtap B (ca_dofs c) em B (ca_dofs c) J (repeat 0%R (List.length (ca_dofs c))) in
            Ok (si_el s, Some c, J)
        end) l ((-1)%Z, None, J) in
      Ok J
  | _, _ => Abort
  end.

(** src/rom_nonlinearform.cpp:347-624 [GetGradient]; [G] is the matrix of an earlier call *)
Definition form_gradient (n : nat) (B : option dmat) (ints : list integ) (G : option dmat) (x : vec) : outcome dmat :=
  oassert (List.length x =? n) (
  let J := match G with None => DMat n n (repeat 0%R (n * n)) | Some G => DMat (dm_h G) (dm_w G) (map (fun _ => 0%R) (dm_buf G)) end in
  match ints, B with
  | [], _ => Ok J
  | _, None => UB
  | _, Some B => ofold (grad_integ B x) ints J
  end).
