(** What the reduced time integration is supposed to do. *)
From Coq Require Import Reals List Bool Lia Arith ZArith String.
From Verif Require Import Outcome LaBase LinalgModel BlockVec RomModel RomSpec MbModel MbSpec IntegModel UnsteadyModel UnsteadySpec.
Import ListNotations.
Local Open Scope list_scope.
Local Open Scope R_scope.

(** A vector of the reduced space; entry [k] of variable [v] in subdomain [m]. *)
Definition reduced (s : romst) (a : bvec) : Prop :=
  bv_off a = rs_off s /\ fits (rs_h s) (place (rs_h s)) (basis_size (rs_h s)) a.
Definition at_ (s : romst) (a : bvec) (m v k : nat) : R := entry (place (rs_h s)) a m v k.
(** Reduced velocity of a subdomain, of all. *)
Definition velocity (s : romst) (a : bvec) (m : nat) : vec := map (at_ s a m 0) (seq 0 (basis_size (rs_h s) m 0)).
Definition velocities (s : romst) (a : bvec) : vec := flat_map (velocity s a) (seq 0 (rh_nsub (rs_h s))).
(** Convection at velocity entry [k] of subdomain [m]. *)
Definition convection (s : romst) (o : uops) (t : R) (a : bvec) (m k : nat) : R :=
  vnth (uo_hs o t m (velocity s a m)) k + vnth (uo_itf o t (velocities s a)) (vpos (basis_size (rs_h s)) m k).

(** Bases, full-order layout and operators that belong together: velocity and pressure have their own bases, sorted by variable. *)
Definition rom_setup (s : romst) (dim : nat -> nat) (c : ucfg) (o : uops) : Prop :=
  let h := rs_h s in let vs := basis_size h in let ns := rh_nsub h in
  bases_ok s dim /\ rh_sep h = true /\ rh_nvar h = 2%nat /\ rh_ord h = ByVariable /\ uc_ns c = ns /\
  (exists udim ndofs vdim, udim = (vdim 0%nat + vdim 1%nat)%nat /\ flow_offsets ns 2 udim (full_size h dim) ndofs vdim = Ok (uc_fo c)) /\
  (forall t m v, (m < ns)%nat -> List.length v = vs m 0%nat -> List.length (uo_hs o t m v) = vs m 0%nat) /\
  (forall t v, List.length v = nu ns vs -> List.length (uo_itf o t v) = nu ns vs) /\
  (forall r, List.length r = (nu ns vs + np ns vs)%nat -> List.length (uo_solve o r) = (nu ns vs + np ns vs)%nat).

(** Right-hand side of the reduced system at time [t] from [a]. *)
Definition rom_rhs (s : romst) (c : ucfg) (o : uops) (base : bvec) (t : R) (a r : bvec) : Prop :=
  let h := rs_h s in reduced s r /\
  (forall m k, (m < rh_nsub h)%nat -> (k < basis_size h m 0)%nat ->
     at_ s r m 0 k = at_ s base m 0 k - convection s o t a m k + / uc_dt c * rsum (basis_size h m 0) (fun j => uo_mass o m k j * at_ s a m 0 j)) /\
  (forall m k, (m < rh_nsub h)%nat -> (k < basis_size h m 1)%nat -> at_ s r m 1 k = at_ s base m 1 k).

(** The constant pressure one, projected. *)
Definition one_ (s : romst) (dim : nat -> nat) (m k : nat) : R :=
  rsum (full_size (rs_h s) dim m 1) (fun i => mget (basis_of s m 1) i k).
(** The shift of the pressure along it. *)
Definition shift (s : romst) (dim : nat -> nat) (c : ucfg) (x : bvec) : R :=
  let h := rs_h s in
  if uc_pdbc c then 0
  else rsum (rh_nsub h) (fun m => rsum (basis_size h m 1) (fun k => one_ s dim m k * at_ s x m 1 k)) / INR (np (rh_nsub h) (full_size h dim)).

(** One reduced step: solve, then shift the pressure. *)
Definition rom_advances (s : romst) (dim : nat -> nat) (c : ucfg) (o : uops) (base : bvec) (t : R) (a a' : bvec) : Prop :=
  let h := rs_h s in reduced s a' /\
  exists r x, rom_rhs s c o base t a r /\ reduced s x /\ bv_dat x = uo_solve o (bv_dat r) /\
    (forall m k, (m < rh_nsub h)%nat -> (k < basis_size h m 0)%nat -> at_ s a' m 0 k = at_ s x m 0 k) /\
    (forall m k, (m < rh_nsub h)%nat -> (k < basis_size h m 1)%nat -> at_ s a' m 1 k = at_ s x m 1 k - shift s dim c x * one_ s dim m k).

(** [a] is the projection of [U], [U] the lifting of [a]. *)
Definition projected (s : romst) (dim : nat -> nat) (U a : bvec) : Prop :=
  let h := rs_h s in forall m v k, unknown h m v -> (k < basis_size h m v)%nat ->
    at_ s a m v k = rsum (full_size h dim m v) (fun i => mget (basis_of s m v) i k * entry (fom_place h) U m v i).
Definition lifted (s : romst) (dim : nat -> nat) (a U : bvec) : Prop :=
  let h := rs_h s in forall m v i, unknown h m v -> (i < full_size h dim m v)%nat ->
    entry (fom_place h) U m v i = rsum (basis_size h m v) (fun k => mget (basis_of s m v) i k * at_ s a m v k).

(** Sum over the velocity and pressure entries of all subdomains. *)
Definition over (h : rom) (f : nat -> nat -> nat -> R) : R :=
  rsum (rh_nsub h) (fun m => rsum 2 (fun v => rsum (basis_size h m v) (f m v))).
(** [x] solves the reduced system with the block matrix [B] and right-hand side [r]. *)
Definition rom_solves (s : romst) (B : blockmat) (x r : bvec) : Prop :=
  let h := rs_h s in forall m v k, unknown h m v -> (k < basis_size h m v)%nat ->
    over h (fun m' v' l => val (B (place h m v) (place h m' v')) k l * at_ s x m' v' l) = at_ s r m v k.
(** Mass matrices of the components that fit the velocity bases. *)
Definition mass_ok (h : rom) (mass : list fmat) : Prop :=
  List.length mass = rh_ncomp h /\
  forall m, (m < rh_nsub h)%nat -> let M := nth (comp_of h m) mass (FMat 0 0 (fun _ _ => 0)) in fm_h M = basis_size h m 0 /\ fm_w M = basis_size h m 0.
Definition mass_of (h : rom) (mass : list fmat) (m k l : nat) : R := fm_val (nth (comp_of h m) mass (FMat 0 0 (fun _ _ => 0))) k l.
