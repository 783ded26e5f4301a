(** What the time integration is supposed to do. *)
From Coq Require Import Reals List Bool Lia Arith ZArith String Sorted.
From Verif Require Import Outcome LaBase BlockVec MbModel MbSpec IntegModel UnsteadyModel.
Import ListNotations.
Local Open Scope list_scope.
Local Open Scope R_scope.

(** Velocity and pressure sizes by subdomain. *)
Definition nu (ns : nat) (vs : nat -> nat -> nat) : nat := nsum ns (fun m => vs m 0%nat).
Definition np (ns : nat) (vs : nat -> nat -> nat) : nat := nsum ns (fun m => vs m 1%nat).
(** Position of entry [k] of the velocity of subdomain [m], sorted by variable. *)
Definition vpos (vs : nat -> nat -> nat) (m k : nat) : nat := (nsum m (fun m => vs m 0%nat) + k)%nat.
Definition ppos (ns : nat) (vs : nat -> nat -> nat) (m k : nat) : nat := (nu ns vs + (nsum m (fun m => vs m 1%nat) + k))%nat.
(** Velocity of subdomain [m]. *)
Definition vpart (vs : nat -> nat -> nat) (y : vec) (m : nat) : vec := map (fun k => vnth y (vpos vs m k)) (seq 0 (vs m 0%nat)).

(** Layouts, right-hand side and operators that belong together. *)
Definition setup_ok (c : ucfg) (o : uops) (vs : nat -> nat -> nat) : Prop :=
  (exists udim ndofs vdim, udim = (vdim 0%nat + vdim 1%nat)%nat /\ flow_offsets (uc_ns c) 2 udim vs ndofs vdim = Ok (uc_fo c)) /\
  0 < uc_dt c /\
  (forall t m v, (m < uc_ns c)%nat -> List.length v = vs m 0%nat -> List.length (uo_hs o t m v) = vs m 0%nat) /\
  (forall t v, List.length v = nu (uc_ns c) vs -> List.length (uo_itf o t v) = nu (uc_ns c) vs) /\
  (forall r, List.length r = (nu (uc_ns c) vs + np (uc_ns c) vs)%nat -> List.length (uo_solve o r) = (nu (uc_ns c) vs + np (uc_ns c) vs)%nat).

(** [y] (sorted by variable) and [u] (sorted by subdomain) are the same solution. *)
Definition same_solution (ns : nat) (vs : nat -> nat -> nat) (y : vec) (u : bvec) : Prop :=
  List.length y = (nu ns vs + np ns vs)%nat /\ sub_shaped ns 2 vs u /\
  (forall m k, (m < ns)%nat -> (k < vs m 0)%nat -> vnth y (vpos vs m k) = bentry u (by_sub 2 m 0) k) /\
  (forall m k, (m < ns)%nat -> (k < vs m 1)%nat -> vnth y (ppos ns vs m k) = bentry u (by_sub 2 m 1) k).

(** Right-hand side of the linear system at time [t] from [y]: forcing, minus convection, plus mass times velocity over the step. *)
Definition step_rhs (c : ucfg) (o : uops) (vs : nat -> nat -> nat) (rhs : bvec) (t : R) (y r : vec) : Prop :=
  let ns := uc_ns c in
  List.length r = (nu ns vs + np ns vs)%nat /\
  (forall m k, (m < ns)%nat -> (k < vs m 0)%nat ->
     vnth r (vpos vs m k) = bentry rhs (by_sub 2 m 0) k
       - (vnth (uo_hs o t m (vpart vs y m)) k + vnth (uo_itf o t (firstn (nu ns vs) y)) (vpos vs m k))
       + / uc_dt c * rsum (vs m 0%nat) (fun j => uo_mass o m k j * vnth y (vpos vs m j))) /\
  (forall m k, (m < ns)%nat -> (k < vs m 1)%nat -> vnth r (ppos ns vs m k) = bentry rhs (by_sub 2 m 1) k).

(** One step of the scheme. *)
Definition advances (c : ucfg) (o : uops) (vs : nat -> nat -> nat) (rhs : bvec) (t : R) (y y' : vec) : Prop :=
  let ns := uc_ns c in
  List.length y' = (nu ns vs + np ns vs)%nat /\
  exists r, step_rhs c o vs rhs t y r /\
    (forall i, (i < nu ns vs)%nat -> vnth y' i = vnth (uo_solve o r) i) /\
    (forall i, (i < np ns vs)%nat -> vnth y' (nu ns vs + i) = vnth (uo_solve o r) (nu ns vs + i)
       - if uc_pdbc c then 0 else rsum (np ns vs) (fun j => vnth (uo_solve o r) (nu ns vs + j)) / INR (np ns vs)).

(** [n] steps of the scheme from [u0] at time [t0]: [Y k] after [k] steps, [Us k] the same sorted by subdomain. *)
Definition trajectory (c : ucfg) (o : uops) (vs : nat -> nat -> nat) (rhs u0 : bvec) (t0 : R) (n : nat) (Y : nat -> vec) (Us : nat -> bvec) : Prop :=
  Us O = u0 /\ (forall k, (k <= n)%nat -> same_solution (uc_ns c) vs (Y k) (Us k) /\ bv_off (Us k) = bv_off u0) /\
  forall k, (k < n)%nat -> advances c o vs rhs (t0 + INR k * uc_dt c) (Y k) (Y (S k)).

(** A multiple of a nonzero interval. *)
Definition on_schedule (interval step : Z) : Prop := interval <> 0%Z /\ (interval | step)%Z.
Definition sampled (c : ucfg) (step : Z) : Prop := uc_gen c = true /\ (uc_boot c < step)%Z /\ on_schedule (uc_sint c) step.

(** The last step up to [k] (counted from [first]) at which the solution was copied back, as seen by the restart file of step [k]. *)
Definition copied (c : ucfg) (first : Z) (k j : nat) : Prop :=
  (j <= k)%nat /\ (j = O \/ on_schedule (uc_vint c) (first + Z.of_nat j) \/ ((j < k)%nat /\ sampled c (first + Z.of_nat j))) /\
  forall i, (j < i <= k)%nat -> ~ on_schedule (uc_vint c) (first + Z.of_nat i) /\ ((i < k)%nat -> ~ sampled c (first + Z.of_nat i)).

(** Restart files can be written. *)
Definition writable (c : ucfg) : Prop := forall step, sc_can (uc_sol c) (restart_name (uc_sol c) step) = true.

Definition saved (c : ucfg) (step : Z) : Prop := sc_save (uc_sol c) = true /\ on_schedule (uc_restart c) step.
(** The steps 1..n with property [P], in order. *)
Definition picks (l : list nat) (n : nat) (P : nat -> Prop) : Prop := StronglySorted lt l /\ forall k, In k l <-> (1 <= k <= n)%nat /\ P k.
(** A restart file. *)
Definition restart_file (u : bvec) (step : Z) (time : R) : sfile := SFile (Some ([List.length (bv_dat u)], bv_dat u)) (Some step) (Some time).

(** Where a run starts: step, time, solution; the files after the initial one has been written. *)
Definition starts (c : ucfg) (restart : option string) (ic : option vec) (s : ust) (first : Z) (t0 : R) (u0 : bvec) (f0 : files) : Prop :=
  match restart with
  | None => first = 0%Z /\ t0 = 0 /\ bv_off u0 = bv_off (us_U s) /\ bv_dat u0 = match ic with Some d => d | None => bv_dat (us_U s) end /\
      List.length (bv_dat u0) = List.length (bv_dat (us_U s)) /\
      (sc_save (uc_sol c) = true -> f0 (restart_name (uc_sol c) 0) = Some (restart_file u0 0 0)) /\
      (forall x, sc_save (uc_sol c) = false \/ x <> restart_name (uc_sol c) 0 -> f0 x = us_files s x)
  | Some name => us_files s name = Some (restart_file u0 first t0) /\ bv_off u0 = bv_off (us_U s) /\
      List.length (bv_dat u0) = List.length (bv_dat (us_U s)) /\ f0 = us_files s
  end.

(** The linear system of a step, solved by [x]: [uu], [Bt], [B] are the blocks of the matrix. *)
Definition solves (n p : nat) (uu Bt B : fm) (x r : vec) : Prop :=
  (forall i, (i < n)%nat -> rsum n (fun q => uu i q * vnth x q) + rsum p (fun q => Bt i q * vnth x (n + q)) = vnth r i) /\
  (forall i, (i < p)%nat -> rsum n (fun q => B i q * vnth x q) = vnth r (n + i)).
