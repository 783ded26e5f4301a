(** Dense linear algebra of src/linalg_utils.cpp over the exact reals.

    Simplifications: [double] is [R] (no rounding, no NaN: a division by zero is [UB]); sizes are [nat];
    row indices and the [int] arguments of [SetBlock] are [Z]. Memory returned by [new double[n]] is an
    explicit argument [junk], so that nothing may depend on it. *)
From Coq Require Import Reals List Bool ZArith Lia Arith.
From Verif Require Import Outcome LaBase.
Import ListNotations.
Local Open Scope R_scope.

(** ** libROM matrices *)

(** [CAROM::Matrix]: row-major, [distributed()] flag. *)
Record rmat := RMat { rm_r : nat; rm_c : nat; rm_dist : bool; rm_buf : vec }.

(** [item(i, j)] / [operator()(i, j)]: no bounds check in a release build of libROM, only the buffer
    itself is finite. *)
Definition rm_get (m : rmat) (i j : nat) : outcome R := oread (rm_buf m) (i * rm_c m + j).
Definition rm_set (m : rmat) (i j : nat) (x : R) : outcome rmat :=
  let* b := owrite (rm_buf m) (i * rm_c m + j) x in Ok (RMat (rm_r m) (rm_c m) (rm_dist m) b).

(** src/linalg_utils.cpp:46-73 CAROM::SetBlock (matrix) *)
Definition set_block_mat (b : rmat) (is ie js je : Z) (g : rmat) : outcome rmat :=
  oassert (negb (rm_dist b) && negb (rm_dist g)) (
  oassert (rm_r b <=? rm_r g)%nat (
  oassert (rm_c b <=? rm_c g)%nat (
  oassert ((0 <=? is)%Z && (is <? Z.of_nat (rm_r g))%Z) (
  oassert ((0 <=? js)%Z && (js <? Z.of_nat (rm_c g))%Z) (
  oassert ((0 <=? ie)%Z && (ie <=? Z.of_nat (rm_r g))%Z) (
  oassert ((0 <=? je)%Z && (je <=? Z.of_nat (rm_c g))%Z) (
  oforr (Z.to_nat is) (Z.to_nat ie) (fun g i =>
    oforr (Z.to_nat js) (Z.to_nat je) (fun g j =>
      let* x := rm_get b (i - Z.to_nat is) (j - Z.to_nat js) in rm_set g i j x) g) g))))))).

(** src/linalg_utils.cpp:75-88 CAROM::SetBlock (vector) *)
Definition set_block_vec (b : vec) (is ie : Z) (g : vec) : outcome vec :=
  oassert (length b <=? length g)%nat (
  oassert ((0 <=? is)%Z && (is <? Z.of_nat (length g))%Z) (
  oassert ((0 <=? ie)%Z && (ie <=? Z.of_nat (length g))%Z) (
  oforr (Z.to_nat is) (Z.to_nat ie) (fun g i =>
    let* x := oread b (i - Z.to_nat is) in owrite g i x) g))).

(** [DenseMatrix::operator()(i, j)] *)
Definition dm_get (m : dmat) (i j : nat) : outcome R := oread (dm_buf m) (i + j * dm_h m).
Definition dm_put (m : dmat) (i j : nat) (x : R) : outcome dmat :=
  let* b := owrite (dm_buf m) (i + j * dm_h m) x in Ok (DMat (dm_h m) (dm_w m) b).

(** src/linalg_utils.cpp:90-101 CAROM::CopyMatrix *)
Definition copy_matrix (c : rmat) (m : dmat) : outcome dmat :=
  ofor (rm_r c) (fun m i =>
    ofor (rm_c c) (fun m j => let* x := rm_get c i j in dm_put m i j x) m)
    (dm_setsize m (rm_r c) (rm_c c)).

(** [DenseMatrix::GetColumnReference(j, v)]: [v] is the slice of the buffer holding column [j]. *)
Definition dm_colref (m : dmat) (j : nat) : outcome vec :=
  oguard ((j + 1) * dm_h m <=? length (dm_buf m))%nat
    (Ok (firstn (dm_h m) (skipn (j * dm_h m) (dm_buf m)))).

(** Writing through such a reference. *)
Definition dm_putcol (m : dmat) (j : nat) (v : vec) : dmat :=
  DMat (dm_h m) (dm_w m)
    (firstn (j * dm_h m) (dm_buf m) ++ v ++ skipn (j * dm_h m + length v) (dm_buf m)).

(** [mfem::Operator]: a size and what [Mult(x, y)] stores in [y] (overwriting it). *)
Record operator := Op { op_h : nat; op_w : nat; op_mul : vec -> vec }.

(** src/linalg_utils.cpp:14-44 CAROM::ComputeCtAB. The last line uses libROM's [transposeMult], taken as
    specified: entry (i, j) is the product of column i of C and column j of AB, a matrix of size
    cols(C) x cols(B), rows-major; libROM asserts that both have the same number of rows. *)
Definition compute_ctab (A : operator) (B C : rmat) (dist_res : bool) (junkB junkAB : vec) : outcome rmat :=
  oassert (rm_dist B && rm_dist C && negb dist_res) (
  oassert (rm_r C =? op_h A)%nat (
  let* (_, ab) := ofor (rm_c B) (fun '(bv, ab) i =>
      let* bv := ofor (rm_r B) (fun bv j => let* x := rm_get B j i in owrite bv j x) bv in
      let av := op_mul A bv in
      let* ab := ofor (op_h A) (fun ab j => let* x := oread av j in rm_set ab j i x) ab in
      Ok (bv, ab)) (junkB, RMat (op_h A) (rm_c B) true junkAB) in
  Ok (RMat (rm_c C) (rm_c B) dist_res
       (flat_map (fun i => map (fun j =>
          rsum (rm_r C) (fun r => vnth (rm_buf C) (r * rm_c C + i) * vnth (rm_buf ab) (r * rm_c B + j)))
          (seq 0 (rm_c B))) (seq 0 (rm_c C)))))).

(** ** Triple products *)

(** src/linalg_utils.cpp:211-234 RtAP (dense); 236-242 DenseRtAP is this on a fresh matrix. *)
Definition rtap (L : dmat) (A : operator) (P : dmat) (RAP : dmat) : outcome dmat :=
  oassert (dm_h L =? op_h A)%nat (
  oassert (op_w A =? dm_h P)%nat (
  ofor (dm_w L) (fun m i =>
    ofor (dm_w P) (fun m j =>
      let* vi := dm_colref L i in
      let* vj := dm_colref P j in
      let tmp := op_mul A vj in
      dm_put m i j (dot (dm_h L) vi tmp)) m)
    (dm_setsize RAP (dm_w L) (dm_w P)))).

(** [mfem::SparseMatrix] as a partial map; a finalized matrix has a fixed pattern. *)
Record smat := SMat { sm_h : nat; sm_w : nat; sm_fin : bool; sm_ent : nat -> nat -> option R }.
Definition sm_val (m : smat) (i j : nat) : R := match sm_ent m i j with Some x => x | None => 0 end.
Definition sm_put (m : smat) (i j : nat) (x : R) : smat :=
  SMat (sm_h m) (sm_w m) (sm_fin m)
    (fun a b => if ((a =? i) && (b =? j))%nat%bool then Some x else sm_ent m a b).
(** [SparseMatrix::Add(i, j, x)] / [Set(i, j, x)]: [MFEM_ABORT("entry not found")] when the matrix is
    finalized and (i, j) is not in its pattern. *)
Definition sm_has (m : smat) (i j : nat) : bool := match sm_ent m i j with Some _ => true | None => false end.
Definition sm_add (m : smat) (i j : nat) (x : R) : outcome smat :=
  oguard ((i <? sm_h m) && (j <? sm_w m))%nat%bool (
  oassert (negb (sm_fin m) || sm_has m i j) (Ok (sm_put m i j (sm_val m i j + x)))).
Definition sm_set (m : smat) (i j : nat) (x : R) : outcome smat :=
  oguard ((i <? sm_h m) && (j <? sm_w m))%nat%bool (
  oassert (negb (sm_fin m) || sm_has m i j) (Ok (sm_put m i j x))).

(** src/linalg_utils.cpp:244-269 SparseRtAP *)
Definition sparse_rtap (L : dmat) (A : operator) (P : dmat) : outcome smat :=
  oassert (dm_h L =? op_h A)%nat (
  oassert (op_w A =? dm_h P)%nat (
  let* m := ofor (dm_w L) (fun m i =>
    ofor (dm_w P) (fun m j =>
      let* vi := dm_colref L i in
      let* vj := dm_colref P j in
      sm_set m i j (dot (dm_h L) vi (op_mul A vj))) m)
    (SMat (dm_w L) (dm_w P) false (fun _ _ => None)) in
  Ok (SMat (sm_h m) (sm_w m) true (sm_ent m)))).

(** src/linalg_utils.cpp:271-295 AddwRtAP (dense) *)
Definition addw_rtap (L : dmat) (A : operator) (P : dmat) (RAP : dmat) (w : R) : outcome dmat :=
  oassert (dm_h L =? op_h A)%nat (
  oassert (op_w A =? dm_h P)%nat (
  oassert (dm_h RAP =? dm_w L)%nat (
  oassert (dm_w RAP =? dm_w P)%nat (
  ofor (dm_w L) (fun m i =>
    ofor (dm_w P) (fun m j =>
      let* vi := dm_colref L i in
      let* vj := dm_colref P j in
      let* x := dm_get m i j in
      dm_put m i j (x + w * dot (dm_h L) vi (op_mul A vj))%R) m) RAP)))).

(** src/linalg_utils.cpp:297-321 AddwRtAP (sparse) *)
Definition addw_rtap_sparse (L : dmat) (A : operator) (P : dmat) (RAP : smat) (w : R) : outcome smat :=
  oassert (dm_h L =? op_h A)%nat (
  oassert (op_w A =? dm_h P)%nat (
  oassert (sm_h RAP =? dm_w L)%nat (
  oassert (sm_w RAP =? dm_w P)%nat (
  ofor (dm_w L) (fun m i =>
    ofor (dm_w P) (fun m j =>
      let* vi := dm_colref L i in
      let* vj := dm_colref P j in
      sm_add m i j (w * dot (dm_h L) vi (op_mul A vj))%R) m) RAP)))).

(** ** Selected rows *)

(** [Array<int>::Min()], [Max()]: read element 0 of an empty array. *)
Definition array_min (l : list Z) : outcome Z :=
  match l with [] => UB | z :: t => Ok (fold_left (fun m x => if (x <? m)%Z then x else m) t z) end.
Definition array_max (l : list Z) : outcome Z :=
  match l with [] => UB | z :: t => Ok (fold_left (fun m x => if (m <? x)%Z then x else m) t z) end.

(** src/linalg_utils.cpp:431-433 (and 460-462, 486-488, 519-525) *)
Definition rows_check {A} (height : nat) (rows : list Z) (k : outcome A) : outcome A :=
  let* rmin := array_min rows in
  let* rmax := array_max rows in
  oassert ((0 <=? rmin)%Z && (rmin <? Z.of_nat height)%Z) (
  oassert ((0 <=? rmax)%Z && (rmax <? Z.of_nat height)%Z) k).

(** [d_mat[d_rows[r]]] after [d_mat] was advanced by [off] entries *)
Definition row_read (buf : vec) (off : nat) (rows : list Z) (r : nat) : outcome R :=
  let* rr := oread rows r in zread buf (Z.of_nat off + rr)%Z.

(** src/linalg_utils.cpp:425-452 MultSubMatrix; [junk] is [y] after [SetSize(nrow)] *)
Definition mult_sub_matrix (m : dmat) (rows : list Z) (x junk : vec) : outcome vec :=
  let nrow := length rows in
  oassert (length x =? dm_w m)%nat (
  rows_check (dm_h m) rows (
  let* xc := oread x 0 in
  let* y := ofor nrow (fun y r => let* a := row_read (dm_buf m) 0 rows r in owrite y r (a * xc)) junk in
  let* (y, _) := oforr 1 (dm_w m) (fun '(y, off) c =>
    let* xc := oread x c in
    let* y := ofor nrow (fun y r =>
      let* a := row_read (dm_buf m) off rows r in
      let* yr := oread y r in owrite y r (yr + a * xc)) y in
    Ok (y, off + dm_h m)%nat) (y, dm_h m) in
  Ok y)).

(** src/linalg_utils.cpp:470-477, 496-503: the two transposed products differ in [=] against [+=] *)
Definition sub_matrix_loop (accumulate : bool) (m : dmat) (rows : list Z) (x y : vec) : outcome vec :=
  let* (y, _) := ofor (dm_w m) (fun '(y, off) c =>
    let* yc := ofor (length rows) (fun yc r =>
      let* a := row_read (dm_buf m) off rows r in
      let* xr := oread x r in Ok (yc + a * xr)) 0 in
    let* old := oread y c in
    let* y := owrite y c (if accumulate then old + yc else yc) in
    Ok (y, off + dm_h m)%nat) (y, 0%nat) in
  Ok y.

(** src/linalg_utils.cpp:454-478 AddMultTransposeSubMatrix *)
Definition add_mult_transpose_sub (m : dmat) (rows : list Z) (x y : vec) : outcome vec :=
  oassert (length x =? length rows)%nat (
  oassert (length y =? dm_w m)%nat (
  rows_check (dm_h m) rows (sub_matrix_loop true m rows x y))).

(** src/linalg_utils.cpp:480-504 MultTransposeSubMatrix *)
Definition mult_transpose_sub (m : dmat) (rows : list Z) (x y : vec) : outcome vec :=
  oassert (length x =? length rows)%nat (
  oassert (length y =? dm_w m)%nat (
  rows_check (dm_h m) rows (sub_matrix_loop false m rows x y))).

(** src/linalg_utils.cpp:506-559 AddSubMatrixRtAP (dense); [junk] is the uninitialised [tmp(Arow)] *)
Definition add_sub_rtap (L : dmat) (rrows : list Z) (A : dmat) (P : dmat) (prows : list Z)
    (RAP : dmat) (junk : vec) : outcome dmat :=
  oassert (dm_h A =? length rrows)%nat (
  oassert (dm_w A =? length prows)%nat (
  rows_check (dm_h L) rrows (
  rows_check (dm_h P) prows (
  let* (m, _, _) := ofor (dm_w P) (fun '(m, tmp, offP) j =>
    (* step 1 *)
    let* pr := row_read (dm_buf P) offP prows 0 in
    let* tmp := ofor (length rrows) (fun tmp r =>
      let* a := oread (dm_buf A) r in owrite tmp r (a * pr)) tmp in
    let* (tmp, _) := oforr 1 (length prows) (fun '(tmp, offA) c =>
      let* pr := row_read (dm_buf P) offP prows c in
      let* tmp := ofor (length rrows) (fun tmp r =>
        let* a := oread (dm_buf A) (offA + r) in
        let* t := oread tmp r in owrite tmp r (t + a * pr)) tmp in
      Ok (tmp, offA + length rrows)%nat) (tmp, length rrows) in
    (* step 2 *)
    let* col := dm_colref m j in
    let* col := add_mult_transpose_sub L rrows tmp col in
    Ok (dm_putcol m j col, tmp, offP + dm_h P)%nat)
    (dm_setsize RAP (dm_w L) (dm_w P), junk, 0%nat) in
  Ok m)))).

(** src/linalg_utils.cpp:561-575 AddSubMatrixRtAP (sparse); [tmp] is a default-constructed matrix *)
Definition add_sub_rtap_sparse (L : dmat) (rrows : list Z) (A : dmat) (P : dmat) (prows : list Z)
    (RAP : smat) (junk : vec) : outcome smat :=
  let* tmp := add_sub_rtap L rrows A P prows (DMat 0 0 []) junk in
  oassert (dm_h tmp =? sm_h RAP)%nat (
  oassert (dm_w tmp =? sm_w RAP)%nat (
  let* (s, _) := ofor (dm_w tmp) (fun '(s, d) j =>
    ofor (dm_h tmp) (fun '(s, d) i =>
      let* x := oread (dm_buf tmp) d in
      let* s := sm_add s i j x in
      Ok (s, d + 1)%nat) (s, d)) (RAP, 0%nat) in
  Ok s)).

(** ** Tensors *)

(** [mfem::DenseTensor]: matrix [k] starts at [k * I * J], column-major *)
Record tensor := Tensor { t_i : nat; t_j : nat; t_k : nat; t_buf : vec }.

(** src/linalg_utils.cpp:577-602 TensorContract; [junk] is [yk] after [SetSize(K)] *)
Definition tensor_contract (T : tensor) (xi xj junk : vec) : outcome vec :=
  oassert (length xi =? t_i T)%nat (
  oassert (length xj =? t_j T)%nat (
  let* (y, _) := ofor (t_k T) (fun '(y, t) k =>
    let* y := owrite y k 0 in
    ofor (t_j T) (fun '(y, t) j =>
      ofor (t_i T) (fun '(y, t) i =>
        let* tv := oread (t_buf T) t in
        let* a := oread xi i in
        let* b := oread xj j in
        let* yk := oread y k in
        let* y := owrite y k (yk + tv * a * b) in
        Ok (y, t + 1)%nat) (y, t)) (y, t)) (junk, 0%nat) in
  Ok y)).

(** src/linalg_utils.cpp:604-627 TensorAddScaledContract; [SetSize] keeps [yk] if it has size K, else
    the contents are [junk] *)
Definition tensor_add_scaled_contract (T : tensor) (w : R) (xi xj yk junk : vec) : outcome vec :=
  oassert (length xi =? t_i T)%nat (
  oassert (length xj =? t_j T)%nat (
  let* (y, _) := ofor (t_k T) (fun '(y, t) k =>
    ofor (t_j T) (fun '(y, t) j =>
      ofor (t_i T) (fun '(y, t) i =>
        let* tv := oread (t_buf T) t in
        let* a := oread xi i in
        let* b := oread xj j in
        let* yk := oread y k in
        let* y := owrite y k (yk + w * tv * a * b) in
        Ok (y, t + 1)%nat) (y, t)) (y, t))
    (if (length yk =? t_k T)%nat then yk else junk, 0%nat) in
  Ok y)).

(** [M = 0.0]: the first h * w entries of the buffer *)
Definition dm_zero (m : dmat) : dmat :=
  DMat (dm_h m) (dm_w m) (repeat 0 (dm_h m * dm_w m) ++ skipn (dm_h m * dm_w m) (dm_buf m)).

(** src/linalg_utils.cpp:629-646 TensorMult *)
Definition tensor_mult (T : tensor) (x : vec) (M : dmat) : outcome dmat :=
  let* (b, _) := ofor (t_k T) (fun '(b, t) k =>
    let* (b, t, _) := ofor (t_j T) (fun '(b, t, d) j =>
      ofor (t_i T) (fun '(b, t, d) i =>
        let* tv := oread (t_buf T) t in
        let* xk := oread x k in
        let* old := oread b d in
        let* b := owrite b d (old + tv * xk) in
        Ok (b, t + 1, d + 1)%nat) (b, t, d)) (b, t, 0%nat) in
    Ok (b, t)) (dm_buf (dm_zero M), 0%nat) in
  Ok (DMat (dm_h M) (dm_w M) b).

(** src/linalg_utils.cpp:648-670 TensorAddMultOnJ: [dx] is not advanced in the loop over [j] *)
Definition tensor_add_mult_on_j (T : tensor) (x : vec) (M : dmat) : outcome dmat :=
  let* (b, _) := ofor (t_k T) (fun '(b, d) k =>
    ofor (t_i T) (fun '(b, d) i =>
      let* (b, _) := ofor (t_j T) (fun '(b, t) j =>
        let* tv := oread (t_buf T) t in
        let* x0 := oread x 0 in
        let* old := oread b d in
        let* b := owrite b d (old + tv * x0) in
        Ok (b, t + t_i T)%nat) (b, (k * (t_i T * t_j T) + i)%nat) in
      Ok (b, d + 1)%nat) (b, d)) (dm_buf M, 0%nat) in
  Ok (DMat (dm_h M) (dm_w M) b).

(** src/linalg_utils.cpp:704-725, 760-781: the loops of the two transposed products; the unscaled
    routine is the one without [w *] *)
Definition tensor_transpose_loop (scale : R -> R) (T : tensor) (x : vec) (size_ax size_nx offset stride : nat)
    (M : dmat) : outcome dmat :=
  let* (b, _) := ofor size_nx (fun '(b, d) nx =>
    ofor (t_k T) (fun '(b, d) k =>
      let* (b, _) := ofor size_ax (fun '(b, t) ax =>
        let* tv := oread (t_buf T) t in
        let* xa := oread x ax in
        let* old := oread b d in
        let* b := owrite b d (old + scale tv * xa) in
        Ok (b, t + stride)%nat) (b, (k * (t_i T * t_j T) + offset * nx)%nat) in
      Ok (b, d + 1)%nat) (b, d)) (dm_buf M, 0%nat) in
  Ok (DMat (dm_h M) (dm_w M) b).

(** src/linalg_utils.cpp:674-702, 730-758: sizes, offset and stride by axis *)
Definition tensor_transpose (scale : R -> R) (T : tensor) (x : vec) (axis : Z) (M : dmat) : outcome dmat :=
  if (axis =? 0)%Z then
    oassert (length x =? t_i T)%nat (
    oassert (dm_h M =? t_k T)%nat (
    oassert (dm_w M =? t_j T)%nat (
    tensor_transpose_loop scale T x (t_i T) (t_j T) (t_i T) 1 M)))
  else if (axis =? 1)%Z then
    oassert (length x =? t_j T)%nat (
    oassert (dm_h M =? t_k T)%nat (
    oassert (dm_w M =? t_i T)%nat (
    tensor_transpose_loop scale T x (t_j T) (t_i T) 1 (t_i T) M)))
  else Abort.

(** src/linalg_utils.cpp:672-726 TensorAddMultTranspose *)
Definition tensor_add_mult_transpose (T : tensor) (x : vec) (axis : Z) (M : dmat) : outcome dmat :=
  tensor_transpose (fun tv => tv) T x axis M.

(** src/linalg_utils.cpp:728-782 TensorAddScaledMultTranspose *)
Definition tensor_add_scaled_mult_transpose (T : tensor) (w : R) (x : vec) (axis : Z) (M : dmat) : outcome dmat :=
  tensor_transpose (fun tv => w * tv) T x axis M.

(** ** Gram-Schmidt *)

(** A [DenseMatrix] of height [n] as the list of its columns ([GetColumnReference] aliases them). *)
Definition vscale (a : R) (v : vec) : vec := map (fun x => a * x) v.
(** [u.Add(a, v)] *)
Definition vadd (u : vec) (a : R) (v : vec) : vec := map (fun p => fst p + a * snd p) (combine u v).

Definition req (x y : R) : bool := if Req_EM_T x y then true else false.

(** src/linalg_utils.cpp:167-184 modifiedGramSchmidt *)
Definition mgs (n : nat) (cols : list vec) : outcome (list vec) :=
  ofor (length cols) (fun cols c =>
    let* vc := oread cols c in
    oguard (negb (req (dot n vc vc) 0)) (
    let* cols := owrite cols c (vscale (/ sqrt (dot n vc vc)) vc) in
    oforr (c + 1) (length cols) (fun cols i =>
      let* tmp := oread cols i in
      let* vc := oread cols c in
      owrite cols i (vadd tmp (- dot n tmp vc) vc)) cols)) cols.

(** src/linalg_utils.cpp:186-209 Orthonormalize; [n], [n1] are the heights *)
Definition orthonormalize (n1 : nat) (mat1 : list vec) (n : nat) (mat : list vec) : outcome (list vec) :=
  oassert (n =? n1)%nat (
  let* mat := ofor (length mat1) (fun mat i =>
    let* tmp := oread mat1 i in
    let tmp_dot := dot n tmp tmp in
    ofor (length mat) (fun mat c =>
      let* vc := oread mat c in
      oguard (negb (req tmp_dot 0)) (
      owrite mat c (vadd vc (- dot n tmp vc / tmp_dot) tmp))) mat) mat in
  mgs n mat).

(** ** Line search of the CG optimizer *)

Definition rltb (x y : R) : bool := if Rlt_dec x y then true else false.

(** [phi t] is [Objective(rhs, sol + t * xi)]. *)

(** src/linalg_utils.cpp:817-825: shrink [b0] until the objective does not exceed its value at 0. The
    loop has no bound: [None] when [fuel] iterations do not suffice. *)
Fixpoint brent_shrink (fuel : nat) (golden : R) (phi : R -> R) (b0 : R) : option R :=
  if rltb (phi 0) (phi b0) then
    match fuel with O => None | S f => brent_shrink f golden phi (b0 / golden) end
  else Some b0.

(** src/linalg_utils.cpp:827-843: bracketing. [step] has N+1 entries, [J_brak] has N; [todo] counts the
    remaining iterations, [j] is the loop variable. The result is (a, b, c, fa, fb, fc) or [None] when the
    loop ends without a break, which leaves these variables uninitialised. *)
Fixpoint brent_bracket (todo : nat) (golden : R) (phi : R -> R) (j : nat) (amp : R) (step jb : vec)
  : outcome (option (R * R * R * R * R * R)) :=
  match todo with
  | O => Ok None
  | S todo' =>
      let* step := owrite step j amp in
      let* jb := owrite jb j (phi amp) in
      let* fj := oread jb j in
      let* fj1 := zread jb (Z.of_nat j - 1) in
      if rltb fj1 fj then
        let* a := zread step (Z.of_nat j - 2) in
        let* b := zread step (Z.of_nat j - 1) in
        let* c := oread step j in
        let* fa := zread jb (Z.of_nat j - 2) in
        let* fb := zread jb (Z.of_nat j - 1) in
        let* fc := oread jb j in
        Ok (Some (a, b, c, fa, fb, fc))
      else brent_bracket todo' golden phi (j + 1) (amp * golden) step jb
  end.

(** [Array<double>::Min()] and [Find] of a list *)
Definition rmin_list (l : vec) : R := match l with [] => 0 | x :: t => fold_left (fun m y => if rltb y m then y else m) t x end.
Fixpoint rfind (l : vec) (x : R) (k : nat) : Z :=
  match l with [] => -1 | y :: t => if req y x then Z.of_nat k else rfind t x (k + 1) end.

(** src/linalg_utils.cpp:849-880: one step of the refinement, given the new trial point [bn] (lines
    853-858 compute it from the bracket by a parabola or a golden section; here it is an arbitrary number). *)
Definition brent_step (phi : R -> R) (bn : R) (s : R * R * R * R * R * R) : outcome (R * R * R * R * R * R) :=
  let '(a, b, c, fa, fb, fc) := s in
  let fbx := phi bn in
  let xs := if rltb b bn then [a; b; bn; c] else [a; bn; b; c] in
  let js := if rltb b bn then [fa; fb; fbx; fc] else [fa; fbx; fb; fc] in
  let fm := rmin_list js in
  let idx := rfind js fm 0 in
  oassert (0 <? idx)%Z (
  let* fa := zread js (idx - 1) in
  let* fc := zread js (idx + 1) in
  let* a := zread xs (idx - 1) in
  let* b := zread xs idx in
  let* c := zread xs (idx + 1) in
  Ok (a, b, c, fa, fm, fc)).

(** the loop over [j < N_para]: [stop] and [propose] stand for lines 851 and 853-858 *)
Fixpoint brent_refine (todo : nat) (phi : R -> R) (stop : R * R * R * R * R * R -> bool)
    (propose : R * R * R * R * R * R -> R) (s : R * R * R * R * R * R) : outcome (R * R * R * R * R * R) :=
  match todo with
  | O => Ok s
  | S todo' =>
      if stop s then Ok s
      else let* s := brent_step phi (propose s) s in brent_refine todo' phi stop propose s
  end.

(** src/linalg_utils.cpp:808-885 CGOptimizer::Brent; [nb] is N_mnbrak, [np] is N_para. [None]: the first
    loop is still running after [fuel] iterations. Reading the uninitialised bracket is [UB]. *)
Definition brent (fuel nb np : nat) (golden : R) (phi : R -> R) (stop : R * R * R * R * R * R -> bool)
    (propose : R * R * R * R * R * R -> R) (b0 : R) : option (outcome R) :=
  match brent_shrink fuel golden phi b0 with
  | None => None
  | Some b0 => Some (
      let* jb := owrite (repeat 0 nb) 0 (phi 0) in
      let* br := brent_bracket nb golden phi 1 b0 (repeat 0 (nb + 1)) jb in
      match br with
      | None => UB
      | Some s =>
          let '(a, b, c, _, _, _) := s in
          oassert (negb (rltb a 0) && rltb a b && rltb b c) (
          let* r := brent_refine np phi stop propose s in
          let '(_, b, _, _, _, _) := r in Ok b)
      end)
  end.
