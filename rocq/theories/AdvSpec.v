(** What the advection-diffusion solver is supposed to do, stated without the functions of the model. *)
From Coq Require Import Reals List Bool Lia Arith ZArith String.
From Verif Require Import Outcome LaBase LinalgModel BlockVec RomModel MbModel EqpSpec ItfModel ProbModel BcModel BupModel AdvModel.
Import ListNotations.
Local Open Scope nat_scope.

(** The velocity subdomain [m] is advected with. *)
Definition advects (s : astate) (m : nat) (b : velocity) : Prop :=
  exists i, nth_error (a_flow s) m = Some (Some i) /\
    ((exists f, nth_error (a_coefs s) i = Some (Some (FFun f)) /\ b = VelFun f) \/
     (exists n k u x, nth_error (a_coefs s) i = Some (Some (FGrid n k)) /\ nth_error (a_solvers s) n = Some (Some u) /\ bv_get u k = Ok x /\ b = VelGrid x)).

(** The Stokes solution has one velocity and one pressure for each subdomain, its size is that of its layout. *)
Definition flows_ok (c : acfg) (L : flows) : Prop :=
  (exists size, forall u, List.length u = last (fl_off L) 0 -> bv_wf (BVec (fl_off L) u) (2 * ac_nsub c) size) /\
  (forall p g u conv, fl_solve L p g = Ok (u, conv) -> List.length u = last (fl_off L) 0) /\
  forall p g, fl_solve L p g <> UB.

(** Velocity of subdomain [m] in the solution [u] of the Stokes problem. *)
Definition stokes_velocity (L : flows) (u : vec) (m : nat) : vec := blk (BVec (fl_off L) u) (2 * m).

(** A stored flow, of the size of the layout. *)
Definition stored (L : flows) (fs : files) (name : string) (u : vec) : Prop :=
  exists f, fs name = Some f /\ sf_sol f = Some ([last (fl_off L) 0], u) /\ List.length u = last (fl_off L) 0.

(** Finite element functions and velocities at quadrature points. *)
Definition value (n : nat) (u : nat -> R) (q : qpt) : R := rsum n (fun i => u i * q_shape q i)%R.
Definition slope (n : nat) (u : nat -> R) (q : qpt) (d : nat) : R := rsum n (fun i => u i * q_grad q i d)%R.
Definition speed (b : velocity) (q : qpt) (d : nat) : R :=
  match b with VelFun f => nth d (f (q_x q)) 0%R | VelGrid u => rsum (List.length u) (fun j => nth j u 0 * q_vel q d j)%R end.
Definition bilinear (n n' : nat) (a : nat -> nat -> R) (v u : nat -> R) : R := rsum n (fun i => rsum n' (fun j => v i * a i j * u j))%R.

(** Quadrature of (b . grad u) v over the elements of a subdomain. *)
Definition transport (dim nel n : nat) (pts : nat -> list qpt) (b : velocity) (v u : nat -> R) : R :=
  rsum nel (fun e => lsum (fun q => q_w q * (rsum dim (fun d => speed b q d * slope n u q d) * value n v q))%R (pts e)).
(** Quadrature of grad u . grad v. *)
Definition stiffness (dim nel n : nat) (pts : nat -> list qpt) (v u : nat -> R) : R :=
  rsum nel (fun e => lsum (fun q => q_w q * rsum dim (fun d => slope n u q d * slope n v q d))%R (pts e)).

(** ** Executions *)

(** What a user may do with the solver. *)
Inductive aop :=
  | OFlow (f : vec -> vec) (m : Z)
  | OSet (g : gvars) (analytic : bool) (fp : option problem) (p : problem)
  | OBuild.
Definition step (c : acfg) (L : flows) (s : astate) (o : aop) : outcome astate :=
  match o with
  | OFlow f m => set_flow c f m s
  | OSet g an fp p => adv_set c L g an fp p s
  | OBuild => adv_build c s
  end.
Definition exec (c : acfg) (L : flows) (fs : files) (l : list aop) : outcome astate := let* s := adv_new c fs in ofold (step c L) l s.

(** Files whose data have the size they are said to have. *)
Definition files_ok (fs : files) : Prop := forall name f n u, fs name = Some f -> sf_sol f = Some ([n], u) -> List.length u = n.
Definition live {A} (cells : list (option A)) (i : nat) : Prop := exists x, nth_error cells i = Some (Some x).

(** ** Drawing *)

(** The flow of subdomain [m] in the fields registered: one view of all subdomains, or one view each. *)
Definition shows (unified : bool) (fields : list (nat * list velocity)) (m : nat) (b : velocity) : Prop :=
  if unified then exists fl, fields = [(0, fl)] /\ nth_error fl m = Some b else In (m, [b]) fields.

(** Either no flow was ever obtained from a Stokes solver, or no function was given after the last one. *)
Definition unmixed (l : list aop) : Prop :=
  (forall g fp p, ~ In (OSet g false fp p) l) \/
  exists l1 g fp p l2, l = l1 ++ OSet g false fp p :: l2 /\ forall f m, ~ In (OFlow f m) l2.
