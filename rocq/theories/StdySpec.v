(** What a steady solve is supposed to give, written without the functions of the model. *)
From Coq Require Import Reals List Bool Lia Arith String.
From Verif Require Import Outcome LaBase BlockVec LinalgModel MbSpec NsTensorModel StdyModel.
Import ListNotations.
Local Open Scope R_scope.

(** Euclidean distance of two vectors of size [n]. *)
Definition distance (n : nat) (y b : vec) : R := sqrt (rsum n (fun i => (vnth y i - vnth b i) * (vnth y i - vnth b i))).

(** [x] lists the velocities of [b] on all subdomains and then the pressures. *)
Definition ordered (ns : nat) (vs : nat -> nat -> nat) (b : bvec) (x : vec) : Prop :=
  List.length x = (nsum ns (fun m => vs m 0%nat) + nsum ns (fun m => vs m 1%nat))%nat /\
  (forall m k, (m < ns)%nat -> (k < vs m 0%nat)%nat -> vnth x (nsum m (fun j => vs j 0%nat) + k) = bentry b (by_sub 2 m 0) k) /\
  (forall m k, (m < ns)%nat -> (k < vs m 1%nat)%nat -> vnth x (nsum ns (fun j => vs j 0%nat) + nsum m (fun j => vs j 1%nat) + k) = bentry b (by_sub 2 m 1) k).

(** [N] steps of an iteration for [F x = b] from [x0], whose corrections may depend on all iterates so far (the last one first); no
    iterate before the last is within [goal]. *)
Record iterates (n : nat) (F : vec -> outcome vec) (next : list vec -> vec -> outcome vec) (b x0 : vec) (goal : R) (N : nat) (Xs : nat -> vec) : Prop := {
  it_start : Xs O = x0;
  it_len : forall k, (k <= N)%nat -> List.length (Xs k) = n;
  it_step : forall k, (k < N)%nat -> exists y r c, F (Xs k) = Ok y /\ goal < distance n y b /\
    List.length r = n /\ (forall i, (i < n)%nat -> vnth r i = vnth y i - vnth b i) /\ next (map Xs (rev (seq 0 (S k)))) r = Ok c /\
    forall i, (i < n)%nat -> vnth (Xs (S k)) i = vnth (Xs k) i - vnth c i }.

(** The iteration ended within [goal], or else used all its steps. *)
Definition ended (n : nat) (F : vec -> outcome vec) (b x : vec) (goal : R) (maxit N : nat) (converged : bool) : Prop :=
  (N <= maxit)%nat /\ exists y, F x = Ok y /\ if converged then distance n y b <= goal else N = maxit /\ goal < distance n y b.

(** A constant pressure exerts no force. *)
Definition no_force (op : nsop) (nu n : nat) : Prop := forall i, (i < nu)%nat -> rsum (n - nu) (fun j => no_Bt op i j) = 0.

(** The linear solver named in the options, and the kinds of system a direct solver takes. *)
Definition chosen (linear system : string) (t : lin_type) : Prop :=
  match t with
  | Direct => linear = "direct"%string /\ (system = "spd"%string \/ system = "sid"%string \/ system = "us"%string)
  | Cg => linear = "cg"%string
  | Minres => linear = "minres"%string
  end.
