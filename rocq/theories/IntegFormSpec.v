(** What a form needs for its fast evaluation. *)
From Coq Require Import Reals List Bool Lia Arith ZArith.
From Verif Require Import Outcome HdfModel LaBase LinalgModel EqpModel EqpSpec IntegModel IntegSpec IntegFastModel.
Import ListNotations.
Local Open Scope R_scope.

(** Transformations of degrees of freedom: a matrix [D] on values, its transpose on dual vectors, both on matrices *)
Definition transforms (n : nat) (prim dual : vec -> vec) (dualm : dmat -> dmat) : Prop := exists D : nat -> nat -> R,
  (forall v, List.length v = n -> List.length (prim v) = n /\ forall r, (r < n)%nat -> vnth (prim v) r = rsum n (fun s => D r s * vnth v s)) /\
  (forall v, List.length v = n -> List.length (dual v) = n /\ forall r, (r < n)%nat -> vnth (dual v) r = rsum n (fun s => D s r * vnth v s)) /\
  (forall M, dm_wf M -> dm_h M = n -> dm_w M = n -> dm_wf (dualm M) /\ dm_h (dualm M) = n /\ dm_w (dualm M) = n /\
     forall a b, (a < n)%nat -> (b < n)%nat -> mget (dualm M) a b = rsum n (fun s => D s a * rsum n (fun t => mget M s t * D t b))).

(** A place of an integrator: elements for element integrators, without a given wind; faces for the flux *)
Definition place_fits (k : nlf) (dim : nat) (pl : place) : Prop :=
  match k, pl_spot pl with
  | NConv, Elem nd pts prim dual dualm => List.length (pl_dofs pl) = (nd * dim)%nat /\ transforms (nd * dim) prim dual dualm /\
      forall m, q_vQ (pts m) = None /\ geometry dim (pts m)
  | NVisc, Elem nd pts prim dual dualm => List.length (pl_dofs pl) = (nd * dim)%nat /\ transforms (nd * dim) prim dual dualm
  | NLax _, Face nd1 nd2 _ => List.length (pl_dofs pl) = (nd1 * dim + nd2 * dim)%nat
  | _, _ => False
  end /\ pl_dofs pl <> [] /\ forall d, In d (pl_dofs pl) -> (0 <= d)%Z.

(** Samples of existing places and points, marked where there is a marker *)
Definition fsample_fits (vsize dim : nat) (I : fint) (s : sinfo R) : Prop :=
  (0 <= si_el s)%Z /\
  (exists pl, nth_error (fi_places I) (Z.to_nat (si_el s)) = Some (Some pl) /\ place_fits (fi_kind I) dim pl /\
     forall d, In d (pl_dofs pl) -> (Z.to_nat d < vsize)%nat) /\
  (exists nq, fi_rule I = Some nq /\ (0 <= si_qp s < Z.of_nat nq)%Z) /\
  match fi_mark I with
  | None => True
  | Some mk => exists a m, nth_error (fi_attr I) (Z.to_nat (si_el s)) = Some a /\ (1 <= a)%Z /\ nth_error mk (Z.to_nat (a - 1)) = Some m /\ m <> 0%Z
  end.
Definition fint_fits (vsize dim : nat) (I : fint) : Prop :=
  fi_rule I <> None /\ exists l, fi_smp I = Some l /\ forall s, In s l -> fsample_fits vsize dim I s.

(** The flux at the sampled points of a state has a derivative *)
Definition place_smooth (k : nlf) (dim : nat) (pl : place) (m : nat) (v : nat -> R) : Prop :=
  match k, pl_spot pl with
  | NLax ud, Face nd1 nd2 pts => smooth_face nd1 nd2 dim ud [pts m] (vnth (on_dofs v (pl_dofs pl)))
  | _, _ => True
  end.
Definition fint_smooth (dim : nat) (I : fint) (v : nat -> R) : Prop := forall l s pl, fi_smp I = Some l -> In s l ->
  nth_error (fi_places I) (Z.to_nat (si_el s)) = Some (Some pl) -> place_smooth (fi_kind I) dim pl (Z.to_nat (si_qp s)) v.
(** No face has an element on its other side *)
Definition one_sided (I : fint) : Prop := forall pl nd1 nd2 pts, In (Some pl) (fi_places I) -> pl_spot pl = Face nd1 nd2 pts -> nd2 = 0%nat.

(** ** Interfaces *)
From Verif Require Import IntegFastItfModel.

(** A sample of an existing face of the interface, with degrees of freedom within [n1] and [n2] *)
Definition ifast_fits (dim n1 n2 nq : nat) (st : list (option iplace)) (s : sinfo R) : Prop :=
  (0 <= si_el s)%Z /\ (0 <= si_qp s < Z.of_nat nq)%Z /\
  exists t, nth_error st (Z.to_nat (si_el s)) = Some (Some t) /\ ip_d1 t <> [] /\ ip_d2 t <> [] /\
    (forall d, In d (ip_d1 t) -> (0 <= d < Z.of_nat n1)%Z) /\ (forall d, In d (ip_d2 t) -> (0 <= d < Z.of_nat n2)%Z) /\
    List.length (ip_d1 t) = (ip_n1 t * dim)%nat /\ List.length (ip_d2 t) = (ip_n2 t * dim)%nat.
