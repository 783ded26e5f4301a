(** What the block smoothers are supposed to do, stated without the functions of the model. *)
From Coq Require Import Reals List Bool Lia Arith ZArith.
From Verif Require Import Outcome LaBase BlockVec MbModel MbSpec SmoothModel.
Import ListNotations.
Local Open Scope nat_scope.

(** Entry [k] of block row [i] of the product of [A] with the block vector of entries [f j q]. *)
Definition block_row (n : nat) (size : nat -> nat) (A : blockmat) (i k : nat) (f : nat -> nat -> R) : R :=
  rsum n (fun j => rsum (size j) (fun q => val (A i j) k q * f j q)%R).

(** The blocks of [A] have the sizes [size], the diagonal ones exist. *)
Definition bm_fits (n : nat) (size : nat -> nat) (A : blockmat) : Prop :=
  (forall i j X, i < n -> j < n -> A i j = Some X -> fm_h X = size i /\ fm_w X = size j) /\
  (forall i, i < n -> A i i <> None).

(** [W] is the inverse of [M], both of size [n]. *)
Definition delta (p q : nat) : R := if p =? q then 1%R else 0%R.
Definition inverse_of (n : nat) (M W : fmat) : Prop :=
  fm_h W = n /\ fm_w W = n /\
  (forall p q, p < n -> q < n -> rsum n (fun r => fm_val M p r * fm_val W r q)%R = delta p q) /\
  (forall p q, p < n -> q < n -> rsum n (fun r => fm_val W p r * fm_val M r q)%R = delta p q).

(** [invert] inverts the diagonal blocks of [A]. *)
Definition inverts (invert : fmat -> outcome fmat) (n : nat) (size : nat -> nat) (A : blockmat) : Prop :=
  forall i M, i < n -> A i i = Some M -> exists W, invert M = Ok W /\ inverse_of (size i) M W.

(** Entries of a vector laid out by the offsets [off]. *)
Definition ent (off : list nat) (y : vec) (j q : nat) : R := vnth y (nth j off 0 + q).

(** A forward sweep: with [A = L + D + U], [(L + D) y' = x - U y]; a backward one: [(D + U) y' = x - L y]. *)
Definition forward_step (n : nat) (size : nat -> nat) (off : list nat) (A : blockmat) (x y y' : vec) : Prop :=
  List.length y' = nth n off 0 /\ forall i k, i < n -> k < size i ->
    block_row n size A i k (fun j q => if j <=? i then ent off y' j q else ent off y j q) = ent off x i k.
Definition backward_step (n : nat) (size : nat -> nat) (off : list nat) (A : blockmat) (x y y' : vec) : Prop :=
  List.length y' = nth n off 0 /\ forall i k, i < n -> k < size i ->
    block_row n size A i k (fun j q => if i <=? j then ent off y' j q else ent off y j q) = ent off x i k.

(** [m] sweeps: symmetric for type 0, forward for 1, backward for 2. *)
Inductive gs_run (fwd bwd : vec -> vec -> Prop) (ty : Z) : nat -> vec -> vec -> Prop :=
| run_0 y : gs_run fwd bwd ty 0 y y
| run_sym m y y1 y2 y3 : ty = 0%Z -> gs_run fwd bwd ty m y y1 -> fwd y1 y2 -> bwd y2 y3 -> gs_run fwd bwd ty (S m) y y3
| run_fwd m y y1 y2 : ty = 1%Z -> gs_run fwd bwd ty m y y1 -> fwd y1 y2 -> gs_run fwd bwd ty (S m) y y2
| run_bwd m y y1 y2 : ty = 2%Z -> gs_run fwd bwd ty m y y1 -> bwd y1 y2 -> gs_run fwd bwd ty (S m) y y2.

(** [y] solves [A y = x]. *)
Definition bm_solves (n : nat) (size : nat -> nat) (off : list nat) (A : blockmat) (x y : vec) : Prop :=
  forall i k, i < n -> k < size i -> block_row n size A i k (ent off y) = ent off x i k.
