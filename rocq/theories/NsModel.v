(** Model of the operators of the steady Navier-Stokes solver (src/steady_ns_solver.cpp): full order, tensor ROM, hyper-reduced ROM.

    Simplifications: timers and the copy of the Jacobian to hypre are left out; the nonlinear forms and the interface form enter as
    functions, they are modelled elsewhere; [Finalize] keeps zero entries. *)
From Coq Require Import Reals List Bool Lia Arith ZArith.
From Verif Require Import Outcome LaBase LinalgModel BlockVec TagsModel RomModel.
Import ListNotations.
Local Open Scope R_scope.

(** ** Sparse matrices *)

(** [SparseMatrix::Mult]; the sizes are checked in debug builds only *)
Definition sm_mult (m : smat) (x : vec) : outcome vec :=
  oguard (List.length x =? sm_w m)%nat (Ok (map (fun i => rsum (sm_w m) (fun j => sm_val m i j * vnth x j)) (seq 0 (sm_h m)))).
(** Adding entries row by row, those that are not [None] *)
Definition sm_adds (nr nc : nat) (r c : nat -> outcome nat) (g : nat -> nat -> option R) (m : smat) : outcome smat :=
  ofor nr (fun m i => ofor nc (fun m j =>
    match g i j with
    | None => Ok m
    | Some v => let* a := r i in let* b := c j in sm_add m a b v
    end) m) m.
Definition isz (x : R) : bool := if Req_EM_T x 0 then true else false.
(** [SparseMatrix::AddSubMatrix(idx, idx, A)]: with the default argument a zero is skipped when the transposed entry is zero *)
Definition sm_add_sub (idx : list nat) (A : dmat) (m : smat) : outcome smat :=
  sm_adds (List.length idx) (List.length idx) (oread idx) (oread idx)
    (fun i j => if isz (mget A i j) && isz (mget A j i) then None else Some (mget A i j)) m.
(** [SparseMatrix::operator+=] *)
Definition sm_plus (m b : smat) : outcome smat := sm_adds (sm_h b) (sm_w b) (fun i => Ok i) (fun j => Ok j) (sm_ent b) m.
Definition sm_finalize (m : smat) : smat := SMat (sm_h m) (sm_w m) true (sm_ent m).

(** ** Reduced operators *)

(** include/steady_ns_solver.hpp:58-87 [SteadyNSROM] *)
Record nsrom := NsRom { nr_lin : smat; nr_nsub : nat; nr_off : list nat; nr_sep : bool; nr_mid : list nat; nr_idx : list (list nat) }.

(** src/steady_ns_solver.cpp:162-188 [SteadyNSROM::SteadyNSROM] *)
Definition ns_init (h : rom) (off : list nat) (lin : smat) (nsub : nat) : outcome nsrom :=
  let sep := (List.length off =? 2 * nsub + 1)%nat in
  oassert (sep || (List.length off =? nsub + 1)%nat) (
  let* mid := omap (fun m => block_index h m 0) (seq 0 nsub) in
  let* idx := omap (fun b => let* a := oread off b in let* e := oread off (b + 1) in Ok (seq a (e - a))) mid in
  Ok (NsRom lin nsub off sep mid idx)).

(** src/steady_ns_solver.cpp:199-212 [SteadyNSTensorROM::Mult]; the tensors have the size of the blocks *)
Definition tensor_rom_mult (s : nsrom) (hs : list tensor) (x : vec) : outcome vec :=
  let* y := sm_mult (nr_lin s) x in
  let* b := ofor (nr_nsub s) (fun b m =>
    let* mid := oread (nr_mid s) m in
    let* xc := bv_get (BVec (nr_off s) x) mid in
    let* yc := bv_get b mid in
    let* T := oread hs m in
    oguard (t_k T =? List.length yc)%nat (
    let* z := tensor_add_scaled_contract T 1 xc xc yc [] in
    bv_put b mid z)) (BVec (nr_off s) y) in
  Ok (bv_dat b).

(** src/steady_ns_solver.cpp:214-242 [SteadyNSTensorROM::GetGradient] *)
Definition tensor_rom_grad (s : nsrom) (hs : list tensor) (x : vec) : outcome smat :=
  let* J := ofor (nr_nsub s) (fun J m =>
    let* mid := oread (nr_mid s) m in
    let* xc := bv_get (BVec (nr_off s) x) mid in
    let n := List.length xc in
    let* T := oread hs m in
    let* A := tensor_add_mult_transpose T xc 0 (DMat n n (repeat 0 (n * n))) in
    let* A := tensor_add_mult_transpose T xc 1 A in
    let* idx := oread (nr_idx s) m in
    sm_add_sub idx A J) (nr_lin s) in
  Ok (sm_finalize J).

(** ** Hyper-reduced operator *)

(** src/steady_ns_solver.cpp:248-272 [SteadyNSEQPROM::SteadyNSEQPROM]: [u_offsets] *)
Definition eqp_offsets (s : nsrom) : outcome (list nat) :=
  if negb (nr_sep s) then Ok (nr_off s)
  else
    let* sizes := omap (fun k =>
      let* e := oread (nr_off s) (1 + k * 2) in
      let* a := oread (nr_off s) (k * 2) in Ok (e - a)%nat) (seq 0 (nr_nsub s)) in
    Ok (psum 0 (0%nat :: sizes)).

(** [Vector::operator=] on a view: a shorter vector overwrites the beginning, for a longer one new memory is allocated and the
    viewed data do not change *)
Definition view_assign (dst src : vec) : vec :=
  if (List.length src <=? List.length dst)%nat then src ++ skipn (List.length src) dst else dst.

(** src/steady_ns_solver.cpp:378-395 [SteadyNSEQPROM::GetVel]; [xu] is the vector written to *)
Definition get_vel (s : nsrom) (uoff : list nat) (x xu : vec) : outcome vec :=
  if negb (nr_sep s) then Ok x
  else
    let* n := oread uoff (nr_nsub s) in
    let* b := ofor (nr_nsub s) (fun b m =>
      let* mid := oread (nr_mid s) m in
      let* xc := bv_get (BVec (nr_off s) x) mid in
      let* tmp := bv_get b m in
      bv_put b m (view_assign tmp xc)) (BVec uoff (firstn n xu)) in
    Ok (bv_dat b).

(** src/steady_ns_solver.cpp:397-413 [SteadyNSEQPROM::AddVel]; the sum runs over the block of [y] *)
Definition add_vel (s : nsrom) (uoff : list nat) (yu y : vec) : outcome vec :=
  if negb (nr_sep s) then
    oguard (List.length yu =? List.length y)%nat (Ok (map (fun i => vnth y i + vnth yu i) (seq 0 (List.length y))))
  else
    let* b := ofor (nr_nsub s) (fun b m =>
      let* mid := oread (nr_mid s) m in
      let* tmp := bv_get b mid in
      let* a := oread uoff m in
      let* tmp := omap (fun k => let* v := oread yu (a + k) in Ok (vnth tmp k + v)) (seq 0 (List.length tmp)) in
      bv_put b mid tmp) (BVec (nr_off s) y) in
    Ok (bv_dat b).

(** src/steady_ns_solver.cpp:274-310 [SteadyNSEQPROM::Mult]; [hs m x] is what [hs[m]->AddMult] adds, [itf xu] what
    [InterfaceAddMult] adds to a zero vector *)
Definition eqp_rom_mult (s : nsrom) (hs : nat -> vec -> vec) (itf : option (vec -> vec)) (x xu : vec) : outcome vec :=
  let* y := sm_mult (nr_lin s) x in
  let* b := ofor (nr_nsub s) (fun b m =>
    let* mid := oread (nr_mid s) m in
    let* xc := bv_get (BVec (nr_off s) x) mid in
    let* yc := bv_get b mid in
    let z := hs m xc in
    oguard (List.length z =? List.length yc)%nat (
    bv_put b mid (map (fun k => vnth yc k + vnth z k) (seq 0 (List.length yc))))) (BVec (nr_off s) y) in
  match itf with
  | None => Ok (bv_dat b)
  | Some f =>
      let* uoff := eqp_offsets s in
      let* xu := get_vel s uoff x xu in
      add_vel s uoff (f xu) (bv_dat b)
  end.

(** src/steady_ns_solver.cpp:325-346: the interface blocks placed by [AddToBlockMatrix], as one matrix *)
Definition itf_mono (s : nsrom) (G : nat -> nat -> smat) : outcome smat :=
  let* B := ofor (nr_nsub s) (fun B i => ofor (nr_nsub s) (fun B j =>
    let* r := oread (nr_mid s) i in
    let* c := oread (nr_mid s) j in
    let* r0 := oread (nr_off s) r in
    let* c0 := oread (nr_off s) c in
    sm_adds (sm_h (G i j)) (sm_w (G i j)) (fun p => Ok (r0 + p)%nat) (fun q => Ok (c0 + q)%nat) (sm_ent (G i j)) B) B)
    (SMat (sm_h (nr_lin s)) (sm_w (nr_lin s)) false (fun _ _ => None)) in
  Ok (sm_finalize B).

(** src/steady_ns_solver.cpp:312-376 [SteadyNSEQPROM::GetGradient]; [hg m x] is the matrix [hs[m]->GetGradient], [ig xu] the blocks
    [InterfaceGetGradient] fills *)
Definition eqp_rom_grad (s : nsrom) (hg : nat -> vec -> dmat) (ig : option (vec -> nat -> nat -> smat)) (x xu : vec) : outcome smat :=
  let* J := match ig with
            | None => Ok (nr_lin s)
            | Some f =>
                let* uoff := eqp_offsets s in
                let* xu := get_vel s uoff x xu in
                let* B := itf_mono s (f xu) in
                sm_plus (nr_lin s) B
            end in
  let* J := ofor (nr_nsub s) (fun J m =>
    let* mid := oread (nr_mid s) m in
    let* xc := bv_get (BVec (nr_off s) x) mid in
    let* idx := oread (nr_idx s) m in
    sm_add_sub idx (hg m xc) J) J in
  Ok (sm_finalize J).
