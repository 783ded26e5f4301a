(** Model of src/block_smoother.cpp: block Gauss-Seidel and block Jacobi.

    Simplifications: entries are exact reals, so the checks for NaN are left out; the inverse of a dense matrix
    ([DenseMatrix::Invert]) is a parameter. *)
From Coq Require Import Reals List Bool Lia Arith ZArith.
From Verif Require Import Outcome LaBase BlockVec MbModel.
Import ListNotations.
Local Open Scope nat_scope.

(** include/block_smoother.hpp:16-39; [sm_n] is [num_row_blocks] (= [num_col_blocks]), -1 without a matrix *)
Record smoother := Smoother { sm_op : option blockmat; sm_n : Z; sm_rows : list nat; sm_cols : list nat; sm_inv : list fmat }.

(** include/block_smoother.hpp:27 [BlockSmoother()] *)
Definition empty_smoother : smoother := Smoother None (-1) [] [] [].

(** src/block_smoother.cpp:18-35 [BlockSmoother(a)]; [GetBlock] of a zero block stops the program *)
Definition make_smoother (invert : fmat -> outcome fmat) (A : blockmat) (rows cols : list nat) : outcome smoother :=
  let n := List.length rows - 1 in
  oassert (n =? List.length cols - 1) (
  let* inv := omap (fun b => match A b b with None => Abort | Some M => invert M end) (seq 0 n) in
  Ok (Smoother (Some A) (Z.of_nat n) rows cols inv)).

(** src/block_smoother.cpp:42-51 [SetOperator]: only the matrix is replaced *)
Definition set_operator (s : smoother) (A : blockmat) : smoother :=
  Smoother (Some A) (sm_n s) (sm_rows s) (sm_cols s) (sm_inv s).

(** [Matrix::Mult], [Matrix::AddMult(v, tmp, -1)] *)
Definition fm_mult (M : fmat) (v : vec) : outcome vec :=
  oguard (fm_w M =? List.length v) (Ok (map (fun p => rsum (fm_w M) (fun q => fm_val M p q * vnth v q)%R) (seq 0 (fm_h M)))).
Definition fm_sub_mult (M : fmat) (v tmp : vec) : outcome vec :=
  let* w := fm_mult M v in
  oguard (List.length w =? List.length tmp) (Ok (map (fun p => vnth tmp p - vnth w p)%R (seq 0 (List.length tmp)))).

Definition vec_add (a b : vec) : outcome vec :=
  oguard (List.length a =? List.length b) (Ok (map (fun p => vnth a p + vnth b p)%R (seq 0 (List.length a)))).

(** src/block_smoother.cpp:93-127, 134-168: one row [i]; [js] is the order of the columns *)
Definition gs_row (s : smoother) (A : blockmat) (js : list nat) (x y : vec) (i : nat) : outcome vec :=
  let* o0 := oread (sm_rows s) i in
  let* o1 := oread (sm_rows s) (i + 1) in
  let* tmp := ofold (fun tmp j =>
    if i =? j then Ok tmp
    else match A i j with
         | None => Ok tmp
         | Some M => let* yj := bv_get (BVec (sm_cols s) y) j in fm_sub_mult M yj tmp
         end) js (repeat 0%R (o1 - o0)) in
  let* xi := bv_get (BVec (sm_rows s) x) i in
  let* tmp := vec_add tmp xi in
  let* W := oread (sm_inv s) i in
  let* yi := fm_mult W tmp in
  let* b := bv_put (BVec (sm_rows s) y) i yi in
  Ok (bv_dat b).

(** src/block_smoother.cpp:89-128 [BlockGaussSeidelForw] *)
Definition gs_forw (s : smoother) (x y : vec) : outcome vec :=
  let n := Z.to_nat (sm_n s) in
  match sm_op s with
  | None => oguard (n =? 0) (Ok y)
  | Some A => ofold (gs_row s A (seq 0 n) x) (seq 0 n) y
  end.

(** src/block_smoother.cpp:130-169 [BlockGaussSeidelBack] *)
Definition gs_back (s : smoother) (x y : vec) : outcome vec :=
  let n := Z.to_nat (sm_n s) in
  match sm_op s with
  | None => oguard (n =? 0) (Ok y)
  | Some A => ofold (gs_row s A (rev (seq 0 n)) x) (rev (seq 0 n)) y
  end.

(** src/block_smoother.cpp:70-87 [BlockGSSmoother::Mult]; [mode] is [iterative_mode] *)
Definition gs_mult (s : smoother) (ty : Z) (iterations : Z) (mode : bool) (x y : vec) : outcome vec :=
  let y := if mode then y else map (fun _ => 0%R) y in
  ofor (Z.to_nat iterations) (fun y _ =>
    let* y := (if negb (ty =? 2)%Z then gs_forw s x y else Ok y) in
    if negb (ty =? 1)%Z then gs_back s x y else Ok y) y.

(** src/block_smoother.cpp:185-202 [BlockDSmoother::Mult] *)
Definition bd_mult (s : smoother) (ty : Z) (iterations : Z) (mode : bool) (x y : vec) : outcome vec :=
  if negb mode && (ty =? 0)%Z && (iterations =? 1)%Z then
    ofor (Z.to_nat (sm_n s)) (fun y i =>
      let* xi := bv_get (BVec (sm_rows s) x) i in
      let* W := oread (sm_inv s) i in
      let* yi := fm_mult W xi in
      let* b := bv_put (BVec (sm_rows s) y) i yi in
      Ok (bv_dat b)) y
  else Abort.
