(** Properties of the reduced time integration. *)
From Coq Require Import Reals List Bool Lia Arith ZArith String Lra.
From Verif Require Import Outcome ListLemmas LaBase LinalgModel LinalgSpec BlockVec RomModel RomSpec RomProofs RomBasisProofs MbModel MbSpec MbVecProofs MbFlowProofs MbAsmProofs IntegModel NsProofs NsFomProofs UnsteadyModel UnsteadySpec UnsteadyStepProofs UnsteadyRunProofs UromModel UromSpec UromProofs UromExamples.
Import ListNotations.
Local Open Scope list_scope.
Local Open Scope R_scope.

(** ** C98 *)

(** A run projects the initial solution, takes the remaining steps in the reduced space and lifts the last state; nothing else is changed. *)
Theorem C98_run : forall s dim c o base restart ic junk st first t0 u0 f0, rom_setup s dim c o -> reduced s base -> writable c ->
  let h := rs_h s in
  fits h (fom_place h) (full_size h dim) (us_U st) -> starts c restart ic st first t0 u0 f0 ->
  List.length junk = (nu (rh_nsub h) (basis_size h) + np (rh_nsub h) (basis_size h))%nat ->
  let n := Z.to_nat (uc_nt c - first) in
  exists st' A, urom_solve s c o true base restart ic junk st = Ok st' /\ (forall i, (i <= n)%nat -> reduced s (A i)) /\ projected s dim u0 (A O) /\
    (forall i, (i < n)%nat -> rom_advances s dim c o base (t0 + INR i * uc_dt c) (A i) (A (S i))) /\
    fits h (fom_place h) (full_size h dim) (us_U st') /\ lifted s dim (A n) (us_U st') /\ us_time st' = t0 + INR n * uc_dt c /\
    (forall x, us_files st' x = f0 x) /\ us_snaps st' = us_snaps st /\ us_vis st' = us_vis st.
Proof.
  intros s dim c o base restart ic junk st first t0 u0 f0 OK Rb Hw h Fu St Lj n.
  destruct (urom_ok s dim c o OK base restart ic junk st first t0 u0 f0 Rb Hw Fu St Lj) as (st' & A & E & H1 & H2 & H3 & H4 & H5 & H6 & H7 & _ & _ & H8 & H9).
  exists st', A. do 9 (split; [assumption|]). assumption.
Qed.
Print Assumptions C98_run.

(** The system matrix is the steady one plus the mass over the step on the velocity; the mass matrix of the right-hand side is the same one. *)
Theorem C98_matrix : forall a ess mass dt, asm_ok a ->
  (forall m b, (m < rh_nsub (as_rom a))%nat -> (b < List.length (nth m (as_c2g a) []))%nat -> ess m b = true <-> essential a m b) ->
  let h := as_rom a in rh_sep h = true -> rh_nvar h = 2%nat -> rh_ord h = ByVariable -> mass_ok h mass ->
  exists B Mb, assemble_unsteady a mass dt = Ok (B, Mb) /\
    (forall m v m' v' p q, unknown h m v -> unknown h m' v' ->
       val (B (place h m v) (place h m' v')) p q = rom_entry a ess m v m' v' p q + (if ((m =? m') && (v =? 0) && (v' =? 0))%nat then / dt * mass_of h mass m p q else 0)) /\
    (forall m m' p q, (m < rh_nsub h)%nat -> (m' < rh_nsub h)%nat -> val (Mb m m') p q = if (m =? m')%nat then mass_of h mass m p q else 0).
Proof. intros a ess mass dt OK D h Sep Nv Ord MO. exact (assemble_unsteady_ok a ess mass dt OK D Sep Nv Ord MO). Qed.
Print Assumptions C98_matrix.

(** Sums over the unknowns. *)
Lemma rsum_opp n f : rsum n (fun i => - f i) = - rsum n f.
Proof. induction n; cbn [rsum]; [ring|]. rewrite IHn. ring. Qed.
Lemma over_ext s dim c o f g : rom_setup s dim c o -> let h := rs_h s in
  (forall m v k, unknown h m v -> (k < basis_size h m v)%nat -> f m v k = g m v k) -> over h f = over h g.
Proof. intros OK h H. unfold over. apply rsum_ext. intros m Hm. apply rsum_ext. intros v Hv. apply rsum_ext. intros k Hk. apply H; auto. apply (unknown_iff s dim c o OK). auto. Qed.
Lemma over_plus h f g : over h (fun m v k => f m v k + g m v k) = over h f + over h g.
Proof. unfold over. rewrite <- rsum_plus. apply rsum_ext. intros m _. rewrite <- rsum_plus. apply rsum_ext. intros v _. apply rsum_plus. Qed.
Lemma over_scal h x f : over h (fun m v k => x * f m v k) = x * over h f.
Proof. unfold over. rewrite <- rsum_scal. apply rsum_ext. intros m _. rewrite <- rsum_scal. apply rsum_ext. intros v _. apply rsum_scal. Qed.
Lemma over_one h m (f : nat -> R) : (m < rh_nsub h)%nat ->
  over h (fun m' v' l => if ((m =? m') && (v' =? 0))%nat then f l else 0) = rsum (basis_size h m 0) f.
Proof.
  intros Hm. unfold over. rewrite (rsum_single (rh_nsub h) m); [|exact Hm|].
  - cbn [rsum]. rewrite Nat.eqb_refl. cbn [andb Nat.eqb]. rewrite rsum_zero, Rplus_0_l, Rplus_0_r. reflexivity.
  - intros i Hi Ni. cbn [rsum]. rewrite (proj2 (Nat.eqb_neq m i)) by auto. cbn [andb]. rewrite !rsum_zero. ring.
Qed.

(** The states of a run satisfy the reduced Navier-Stokes equations: backward Euler in time, convection at the old state.  [Hb]: when the pressure is
    shifted, shifting changes no equation. *)
Theorem C98_equations : forall s dim c o a ess mass base t A A' B Mb, rom_setup s dim c o -> asm_ok a -> as_rom a = rs_h s ->
  (forall m b, (m < rh_nsub (as_rom a))%nat -> (b < List.length (nth m (as_c2g a) []))%nat -> ess m b = true <-> essential a m b) ->
  let h := rs_h s in mass_ok h mass -> assemble_unsteady a mass (uc_dt c) = Ok (B, Mb) ->
  (forall m k j, (m < rh_nsub h)%nat -> uo_mass o m k j = val (Mb m m) k j) ->
  (forall r x, rom_rhs s c o base t A r -> reduced s x -> bv_dat x = uo_solve o (bv_dat r) -> rom_solves s B x r) ->
  forall Hb : (uc_pdbc c = false -> forall m v k, unknown h m v -> (k < basis_size h m v)%nat ->
     rsum (rh_nsub h) (fun m' => rsum (basis_size h m' 1) (fun l => rom_entry a ess m v m' 1 k l * one_ s dim m' l)) = 0),
  reduced s A -> rom_advances s dim c o base t A A' ->
  (forall m k, (m < rh_nsub h)%nat -> (k < basis_size h m 0)%nat ->
     / uc_dt c * rsum (basis_size h m 0) (fun j => mass_of h mass m k j * (at_ s A' m 0 j - at_ s A m 0 j))
     + over h (fun m' v' l => rom_entry a ess m 0 m' v' k l * at_ s A' m' v' l) + convection s o t A m k = at_ s base m 0 k) /\
  (forall m k, (m < rh_nsub h)%nat -> (k < basis_size h m 1)%nat ->
     over h (fun m' v' l => rom_entry a ess m 1 m' v' k l * at_ s A' m' v' l) = at_ s base m 1 k).
Proof.
  intros s dim c o a ess mass base t A A' B Mb OK Ha Eh D h MO EB Hm Hs Hb RA (RA' & r & x & Rr & Rx & Ex & X0 & X1).
  pose proof OK as (_ & Sep & Nv & Ord & _). specialize (Hs r x Rr Rx Ex). destruct Rr as (_ & R0 & R1).
  assert (MO' : mass_ok (as_rom a) mass) by (rewrite Eh; exact MO).
  destruct (assemble_unsteady_ok a ess mass (uc_dt c) Ha D) as (B' & Mb' & E' & VB & VM); try (rewrite Eh; assumption).
  rewrite EB in E'. injection E' as <- <-. rewrite Eh in VB, VM. fold h in VB, VM.
  assert (Sh : forall m v k, unknown h m v -> (k < basis_size h m v)%nat ->
     over h (fun m' v' l => rom_entry a ess m v m' v' k l * at_ s A' m' v' l) = over h (fun m' v' l => rom_entry a ess m v m' v' k l * at_ s x m' v' l)).
  { intros m v k U Hk. assert (E : over h (fun m' v' l => rom_entry a ess m v m' v' k l * at_ s A' m' v' l) =
      over h (fun m' v' l => rom_entry a ess m v m' v' k l * at_ s x m' v' l) - shift s dim c x * rsum (rh_nsub h) (fun m' => rsum (basis_size h m' 1) (fun l => rom_entry a ess m v m' 1 k l * one_ s dim m' l))).
    { unfold h. rewrite !(over_split s). fold h.
      assert (T0 : rsum (rh_nsub h) (fun m' => rsum (basis_size h m' 0) (fun l => rom_entry a ess m v m' 0 k l * at_ s A' m' 0 l)) = rsum (rh_nsub h) (fun m' => rsum (basis_size h m' 0) (fun l => rom_entry a ess m v m' 0 k l * at_ s x m' 0 l))).
      { apply rsum_ext. intros m' Hm'. apply rsum_ext. intros l Hl. rewrite X0 by auto. reflexivity. }
      assert (T1 : rsum (rh_nsub h) (fun m' => rsum (basis_size h m' 1) (fun l => rom_entry a ess m v m' 1 k l * at_ s A' m' 1 l)) =
        rsum (rh_nsub h) (fun m' => rsum (basis_size h m' 1) (fun l => rom_entry a ess m v m' 1 k l * at_ s x m' 1 l)) - shift s dim c x * rsum (rh_nsub h) (fun m' => rsum (basis_size h m' 1) (fun l => rom_entry a ess m v m' 1 k l * one_ s dim m' l))).
      { rewrite <- rsum_scal, <- rsum_minus. apply rsum_ext. intros m' Hm'. rewrite <- rsum_scal, <- rsum_minus. apply rsum_ext. intros l Hl. rewrite X1 by auto. ring. }
      rewrite T0, T1. ring. }
    rewrite E. destruct (uc_pdbc c) eqn:Ep; [unfold shift; rewrite Ep; ring|]. rewrite Hb by auto. ring. }
  split; intros m k Hmm Hk.
  - assert (U : unknown h m 0) by (apply (unknown_iff s dim c o OK); split; [assumption|lia]). rewrite (Sh m 0%nat k U Hk). specialize (Hs m 0%nat k U Hk). rewrite R0 in Hs by auto. fold h in Hs.
    rewrite (over_ext s dim c o _ (fun m' v' l => rom_entry a ess m 0 m' v' k l * at_ s x m' v' l + (if ((m =? m') && (v' =? 0))%nat then / uc_dt c * (mass_of h mass m k l * at_ s x m 0 l) else 0)) OK) in Hs.
    + rewrite over_plus, over_one, rsum_scal in Hs by auto.
      assert (M1 : rsum (basis_size h m 0) (fun j => uo_mass o m k j * at_ s A m 0 j) = rsum (basis_size h m 0) (fun j => mass_of h mass m k j * at_ s A m 0 j)).
      { apply rsum_ext. intros j Hj. rewrite Hm, VM, Nat.eqb_refl by auto. reflexivity. }
      assert (M2 : rsum (basis_size h m 0) (fun j => mass_of h mass m k j * (at_ s A' m 0 j - at_ s A m 0 j)) =
        rsum (basis_size h m 0) (fun j => mass_of h mass m k j * at_ s x m 0 j) - rsum (basis_size h m 0) (fun j => mass_of h mass m k j * at_ s A m 0 j)).
      { rewrite <- rsum_minus. apply rsum_ext. intros j Hj. rewrite X0 by auto. ring. }
      fold h in M1, M2. rewrite M1 in Hs. rewrite M2. fold h in Hs. clear - Hs. rewrite Rmult_minus_distr_l. lra.
    + intros m' v' l U' Hl. fold h. rewrite VB by auto. cbn [Nat.eqb]. rewrite andb_true_r. destruct ((m =? m') && (v' =? 0))%nat eqn:Q; cbn [ind]; [|ring].
      apply andb_prop in Q as (Q1 & Q2). apply Nat.eqb_eq in Q1, Q2. subst m' v'. ring.
  - assert (U : unknown h m 1) by (apply (unknown_iff s dim c o OK); split; [assumption|lia]). rewrite (Sh m 1%nat k U Hk). specialize (Hs m 1%nat k U Hk). rewrite R1 in Hs by auto. rewrite <- Hs.
    apply (over_ext s dim c o _ _ OK). intros m' v' l U' Hl. fold h. rewrite VB by auto. cbn [Nat.eqb]. rewrite andb_false_r. cbn [andb ind]. ring.
Qed.
Print Assumptions C98_equations.

(** Sums over the full-order unknowns. *)
Definition full_over (h : rom) (dim : nat -> nat) (f : nat -> nat -> nat -> R) : R :=
  rsum (rh_nsub h) (fun m => rsum 2 (fun v => rsum (full_size h dim m v) (f m v))).
(** A projected operator applied to reduced coefficients is the operator applied to the lifted ones, tested. *)
Lemma tested_lift n p q (phi psi K : nat -> nat -> R) (b u : nat -> R) k : (forall j, (j < p)%nat -> u j = rsum q (fun l => psi j l * b l)) ->
  rsum q (fun l => rsum n (fun i => phi i k * rsum p (fun j => K i j * psi j l)) * b l) = rsum n (fun i => phi i k * rsum p (fun j => K i j * u j)).
Proof.
  intros H. transitivity (rsum n (fun i => rsum q (fun l => phi i k * rsum p (fun j => K i j * psi j l) * b l))).
  - rewrite rsum_swap. apply rsum_ext. intros l _. symmetry. apply rsum_scal_r.
  - apply rsum_ext. intros i _. transitivity (phi i k * rsum q (fun l => rsum p (fun j => K i j * psi j l) * b l)).
    + rewrite <- rsum_scal. apply rsum_ext. intros l _. ring.
    + f_equal. transitivity (rsum q (fun l => rsum p (fun j => K i j * psi j l * b l))); [apply rsum_ext; intros l _; symmetry; apply rsum_scal_r|].
      rewrite rsum_swap. apply rsum_ext. intros j Hj. rewrite H by exact Hj. rewrite <- rsum_scal. apply rsum_ext. intros l _. ring.
Qed.

(** With reduced operators that are the projections of full-order ones, the residual of the full-order scheme at the lifted states is orthogonal to every
    velocity and pressure basis vector of every subdomain. *)
Theorem C98_galerkin : forall s dim c o a ess mass base t A A' U U' (M : nat -> nat -> nat -> R) (K : nat -> nat -> nat -> nat -> nat -> nat -> R) (N : nat -> nat -> R) (F : nat -> nat -> nat -> R),
  rom_setup s dim c o -> let h := rs_h s in let phi := fun m v => mget (basis_of s m v) in
  (forall m k l, (m < rh_nsub h)%nat -> (k < basis_size h m 0)%nat -> (l < basis_size h m 0)%nat ->
     mass_of h mass m k l = rsum (full_size h dim m 0) (fun i => phi m 0%nat i k * rsum (full_size h dim m 0) (fun j => M m i j * phi m 0%nat j l))) ->
  (forall m v m' v' k l, unknown h m v -> unknown h m' v' -> (k < basis_size h m v)%nat -> (l < basis_size h m' v')%nat ->
     rom_entry a ess m v m' v' k l = rsum (full_size h dim m v) (fun i => phi m v i k * rsum (full_size h dim m' v') (fun j => K m v m' v' i j * phi m' v' j l))) ->
  (forall m k, (m < rh_nsub h)%nat -> (k < basis_size h m 0)%nat -> convection s o t A m k = rsum (full_size h dim m 0) (fun i => phi m 0%nat i k * N m i)) ->
  (forall m v k, unknown h m v -> (k < basis_size h m v)%nat -> at_ s base m v k = rsum (full_size h dim m v) (fun i => phi m v i k * F m v i)) ->
  lifted s dim A U -> lifted s dim A' U' ->
  (* the conclusion of [C98_equations] *)
  (forall m k, (m < rh_nsub h)%nat -> (k < basis_size h m 0)%nat ->
     / uc_dt c * rsum (basis_size h m 0) (fun j => mass_of h mass m k j * (at_ s A' m 0 j - at_ s A m 0 j))
     + over h (fun m' v' l => rom_entry a ess m 0 m' v' k l * at_ s A' m' v' l) + convection s o t A m k = at_ s base m 0 k) ->
  (forall m k, (m < rh_nsub h)%nat -> (k < basis_size h m 1)%nat ->
     over h (fun m' v' l => rom_entry a ess m 1 m' v' k l * at_ s A' m' v' l) = at_ s base m 1 k) ->
  let u := entry (fom_place h) U in let u' := entry (fom_place h) U' in
  (forall m k, (m < rh_nsub h)%nat -> (k < basis_size h m 0)%nat ->
     rsum (full_size h dim m 0) (fun i => phi m 0%nat i k *
       (/ uc_dt c * rsum (full_size h dim m 0) (fun j => M m i j * (u' m 0%nat j - u m 0%nat j)) + full_over h dim (fun m' v' j => K m 0%nat m' v' i j * u' m' v' j) + N m i - F m 0%nat i)) = 0) /\
  (forall m k, (m < rh_nsub h)%nat -> (k < basis_size h m 1)%nat ->
     rsum (full_size h dim m 1) (fun i => phi m 1%nat i k * (full_over h dim (fun m' v' j => K m 1%nat m' v' i j * u' m' v' j) - F m 1%nat i)) = 0).
Proof.
  intros s dim c o a ess mass base t A A' U U' M K N F OK h phi HM HK HN HF LU LU' E0 E1 u u'.
  assert (Kl : forall m v k, unknown h m v -> (k < basis_size h m v)%nat -> over h (fun m' v' l => rom_entry a ess m v m' v' k l * at_ s A' m' v' l) =
    rsum (full_size h dim m v) (fun i => phi m v i k * full_over h dim (fun m' v' j => K m v m' v' i j * u' m' v' j))).
  { intros m v k Um Hk. unfold over, full_over. transitivity (rsum (rh_nsub h) (fun m' => rsum 2 (fun v' => rsum (full_size h dim m v) (fun i => phi m v i k * rsum (full_size h dim m' v') (fun j => K m v m' v' i j * u' m' v' j))))).
    - apply rsum_ext. intros m' Hm'. apply rsum_ext. intros v' Hv'. assert (Um' : unknown h m' v') by (apply (unknown_iff s dim c o OK); auto).
      rewrite <- (tested_lift (full_size h dim m v) (full_size h dim m' v') (basis_size h m' v') (phi m v) (phi m' v') (K m v m' v') (at_ s A' m' v') (u' m' v') k).
      + apply rsum_ext. intros l Hl. rewrite HK by auto. reflexivity.
      + intros j Hj. exact (LU' m' v' j Um' Hj).
    - transitivity (rsum (full_size h dim m v) (fun i => rsum (rh_nsub h) (fun m' => rsum 2 (fun v' => phi m v i k * rsum (full_size h dim m' v') (fun j => K m v m' v' i j * u' m' v' j))))).
      + symmetry. rewrite rsum_swap. apply rsum_ext. intros m' _. apply rsum_swap.
      + apply rsum_ext. intros i _. rewrite <- rsum_scal. apply rsum_ext. intros m' _. rewrite <- rsum_scal. reflexivity. }
  split; intros m k Hm Hk.
  - assert (U0 : unknown h m 0) by (apply (unknown_iff s dim c o OK); split; [assumption|lia]). specialize (E0 m k Hm Hk). rewrite Kl, HN, HF in E0 by auto.
    assert (Ml : rsum (basis_size h m 0) (fun j => mass_of h mass m k j * (at_ s A' m 0 j - at_ s A m 0 j)) =
      rsum (full_size h dim m 0) (fun i => phi m 0%nat i k * rsum (full_size h dim m 0) (fun j => M m i j * (u' m 0%nat j - u m 0%nat j)))).
    { rewrite <- (tested_lift (full_size h dim m 0) (full_size h dim m 0) (basis_size h m 0) (phi m 0%nat) (phi m 0%nat) (M m) (fun l => at_ s A' m 0 l - at_ s A m 0 l) (fun j => u' m 0%nat j - u m 0%nat j) k).
      - apply rsum_ext. intros l Hl. rewrite HM by auto. reflexivity.
      - intros j Hj. unfold u', u, h. rewrite (LU' m 0%nat j U0 Hj), (LU m 0%nat j U0 Hj). fold h. rewrite <- rsum_minus. apply rsum_ext. intros l _. unfold phi. ring. }
    rewrite Ml in E0. rewrite <- rsum_scal in E0. rewrite <- !rsum_plus in E0. apply Rminus_diag_eq in E0. rewrite <- E0. rewrite <- rsum_minus. apply rsum_ext. intros i _. ring.
  - assert (U1 : unknown h m 1) by (apply (unknown_iff s dim c o OK); split; [assumption|lia]). specialize (E1 m k Hm Hk). rewrite Kl, HF in E1 by auto.
    apply Rminus_diag_eq in E1. rewrite <- E1. rewrite <- rsum_minus. apply rsum_ext. intros i _. ring.
Qed.
Print Assumptions C98_galerkin.

(** ** C60 *)

(** In a reduced run without a pressure-fixing boundary, after at least one step, the lifted pressure has zero sum, if every pressure basis is orthonormal
    and the constant is a combination of its vectors. *)
Theorem C60_reduced : forall s dim c o base t A A' U, rom_setup s dim c o -> uc_pdbc c = false -> let h := rs_h s in
  (forall m, (m < rh_nsub h)%nat -> ortho_cols (basis_of s m 1) /\
     exists w, forall i, (i < full_size h dim m 1)%nat -> rsum (basis_size h m 1) (fun k => mget (basis_of s m 1) i k * w k) = 1) ->
  (0 < np (rh_nsub h) (full_size h dim))%nat -> rom_advances s dim c o base t A A' -> lifted s dim A' U ->
  rsum (rh_nsub h) (fun m => rsum (full_size h dim m 1) (fun i => entry (fom_place h) U m 1 i)) = 0.
Proof.
  intros s dim c o base t A A' U OK Ep h Hone Pos (RA' & r & x & _ & _ & _ & _ & X1) L.
  assert (Un : forall m, (m < rh_nsub h)%nat -> unknown h m 1) by (intros; apply (unknown_iff s dim c o OK); split; [assumption|lia]).
  assert (E1 : rsum (rh_nsub h) (fun m => rsum (full_size h dim m 1) (fun i => entry (fom_place h) U m 1 i)) = rsum (rh_nsub h) (fun m => rsum (basis_size h m 1) (fun k => one_ s dim m k * at_ s A' m 1 k))).
  { apply rsum_ext. intros m Hm. rewrite (rsum_ext _ _ (fun i => rsum (basis_size h m 1) (fun k => mget (basis_of s m 1) i k * at_ s A' m 1 k))) by (intros i Hi; exact (L m 1%nat i (Un m Hm) Hi)).
    rewrite rsum_swap. apply rsum_ext. intros k _. rewrite rsum_scal_r. reflexivity. }
  assert (Sq : forall m, (m < rh_nsub h)%nat -> rsum (basis_size h m 1) (fun k => one_ s dim m k * one_ s dim m k) = INR (full_size h dim m 1)).
  { intros m Hm. destruct (Hone m Hm) as (Or & w & Hw). destruct (basis_h s dim c o OK m 1 (Un m Hm)) as (Bh & Bw).
    assert (Ow : forall k, (k < basis_size h m 1)%nat -> one_ s dim m k = w k).
    { intros k Hk. unfold one_. fold h. rewrite (rsum_ext _ _ (fun i => mget (basis_of s m 1) i k * rsum (basis_size h m 1) (fun l => mget (basis_of s m 1) i l * w l))) by (intros i Hi; rewrite Hw by auto; ring).
      transitivity (rsum (basis_size h m 1) (fun l => rsum (full_size h dim m 1) (fun i => mget (basis_of s m 1) i k * mget (basis_of s m 1) i l) * w l)).
      - transitivity (rsum (full_size h dim m 1) (fun i => rsum (basis_size h m 1) (fun l => mget (basis_of s m 1) i k * mget (basis_of s m 1) i l * w l))).
        + apply rsum_ext. intros i _. rewrite <- rsum_scal. apply rsum_ext. intros l _. ring.
        + rewrite rsum_swap. apply rsum_ext. intros l _. apply rsum_scal_r.
      - fold h in Bh, Bw. rewrite (rsum_single _ k); [|exact Hk|].
        + rewrite <- Bh, (Or k k) by (rewrite Bw; exact Hk). rewrite Nat.eqb_refl. ring.
        + intros l Hl Nl. rewrite <- Bh, (Or k l) by (rewrite Bw; auto). rewrite (proj2 (Nat.eqb_neq k l)) by auto. ring. }
    transitivity (rsum (basis_size h m 1) (fun k => one_ s dim m k * w k)); [apply rsum_ext; intros k Hk; rewrite (Ow k Hk) at 2; reflexivity|]. unfold one_. fold h.
    rewrite (rsum_ext _ _ (fun k => rsum (full_size h dim m 1) (fun i => mget (basis_of s m 1) i k * w k))) by (intros k _; symmetry; apply rsum_scal_r).
    rewrite rsum_swap. rewrite (rsum_ext _ _ (fun _ => 1)) by (intros i Hi; apply Hw; exact Hi). rewrite rsum_const. ring. }
  rewrite E1. rewrite (rsum_ext _ _ (fun m => rsum (basis_size h m 1) (fun k => one_ s dim m k * at_ s x m 1 k) + - (shift s dim c x * INR (full_size h dim m 1)))).
  - rewrite rsum_plus, rsum_opp, rsum_scal. unfold shift. rewrite Ep. fold h.
    assert (EN : rsum (rh_nsub h) (fun m => INR (full_size h dim m 1)) = INR (np (rh_nsub h) (full_size h dim))).
    { unfold np. generalize (rh_nsub h). induction n; [reflexivity|]. cbn [rsum]. rewrite nsum_S, plus_INR, IHn. reflexivity. }
    rewrite EN. field. apply not_0_INR. lia.
  - intros m Hm. rewrite <- (Sq m Hm). rewrite <- rsum_scal, <- rsum_opp, <- rsum_plus. apply rsum_ext. intros k Hk. rewrite X1 by auto. ring.
Qed.
Print Assumptions C60_reduced.

(** Otherwise the sum need not vanish, although the basis is orthonormal. *)
Theorem C60_reduced_refuted : exists s dim c o base junk st st', rom_setup s dim c o /\ uc_pdbc c = false /\ reduced s base /\ (0 < Z.to_nat (uc_nt c))%nat /\
  (forall m v, unknown (rs_h s) m v -> ortho_cols (basis_of s m v)) /\ urom_solve s c o true base None None junk st = Ok st' /\
  rsum (rh_nsub (rs_h s)) (fun m => rsum (full_size (rs_h s) dim m 1) (fun i => entry (fom_place (rs_h s)) (us_U st') m 1 i)) <> 0.
Proof.
  destruct (xur_run xur_pb1 xur_solve1) as (st' & A & E & RA & A0 & Ad & L); [reflexivity|]. exists (xur_s xur_pb1), (xur_dim xur_pb1), (xur_c xur_pb1), (xur_o xur_solve1), xur_base, [0; 0], (xur_st xur_pb1), st'.
  split; [apply xur_setup; reflexivity|]. split; [reflexivity|]. split; [apply xur_reduced; reflexivity|]. split; [cbn; lia|]. split.
  { intros m v (Hm & Hv). cbn in Hm, Hv. small. destruct v as [|[|v]]; [| |lia]; intros i j Hi Hj; cbn in Hi, Hj; small; cbn; unfold mget, vnth; cbn; ring. }
  split; [exact E|]. rewrite (xur_step1 0 (A O) (A 1%nat) RA A0 Ad) in L. change (rs_h (xur_s xur_pb1)) with xur_h. change (rh_nsub xur_h) with 1%nat. change (full_size xur_h (xur_dim xur_pb1) 0 1) with 2%nat. cbn [rsum].
  change (full_size xur_h (xur_dim xur_pb1) 0 1) with 2%nat. cbn [rsum].
  assert (U1 : unknown xur_h 0 1) by (split; cbn; lia). pose proof (L 0%nat 1%nat 0%nat U1 ltac:(cbn; lia)) as L0. pose proof (L 0%nat 1%nat 1%nat U1 ltac:(cbn; lia)) as L1.
  change (rs_h (xur_s xur_pb1)) with xur_h in L0, L1. rewrite L0, L1. cbn. unfold mget, at_, entry, vnth. cbn. lra.
Qed.
Print Assumptions C60_reduced_refuted.

(** The shift of the pressure then also violates the momentum equation that the solver had solved, although the full-order gradient of a constant vanishes. *)
Theorem C98_equations_refuted : exists s dim c o a ess mass base t A A' B Mb (Bt : nat -> nat -> R), rom_setup s dim c o /\ asm_ok a /\ as_rom a = rs_h s /\
  (forall m b, (m < rh_nsub (as_rom a))%nat -> (b < List.length (nth m (as_c2g a) []))%nat -> ess m b = true <-> essential a m b) /\
  let h := rs_h s in mass_ok h mass /\ assemble_unsteady a mass (uc_dt c) = Ok (B, Mb) /\
  (forall m k j, (m < rh_nsub h)%nat -> uo_mass o m k j = val (Mb m m) k j) /\
  (forall r x, rom_rhs s c o base t A r -> reduced s x -> bv_dat x = uo_solve o (bv_dat r) -> rom_solves s B x r) /\
  reduced s A /\ rom_advances s dim c o base t A A' /\
  (rh_nsub h = 1%nat /\ (forall i, rsum (full_size h dim 0 1) (Bt i) = 0) /\
   forall k l, (k < basis_size h 0 0)%nat -> (l < basis_size h 0 1)%nat ->
     rom_entry a ess 0 0 0 1 k l = rsum (full_size h dim 0 0) (fun i => mget (basis_of s 0 0) i k * rsum (full_size h dim 0 1) (fun j => Bt i j * mget (basis_of s 0 1) j l))) /\
  (forall m v, unknown h m v -> ortho_cols (basis_of s m v)) /\
  exists m k, (m < rh_nsub h)%nat /\ (k < basis_size h m 0)%nat /\
     / uc_dt c * rsum (basis_size h m 0) (fun j => mass_of h mass m k j * (at_ s A' m 0 j - at_ s A m 0 j))
     + over h (fun m' v' l => rom_entry a ess m 0 m' v' k l * at_ s A' m' v' l) + convection s o t A m k <> at_ s base m 0 k.
Proof.
  destruct (assemble_unsteady_ok (xur_a 1) xur_ess xur_mass 1 (xur_asm 1) (xur_dirichlet 1) eq_refl eq_refl eq_refl xur_mass_ok) as (B & Mb & E & _ & VM).
  destruct (xur_run xur_pb1 xur_solve1) as (st' & A & _ & RA & A0 & Ad & _); [reflexivity|].
  exists (xur_s xur_pb1), (xur_dim xur_pb1), (xur_c xur_pb1), (xur_o xur_solve1), (xur_a 1), xur_ess, xur_mass, xur_base, 0, (A O), (A 1%nat), B, Mb, (fun _ j => if (j =? 0)%nat then 1 else -1).
  split; [apply xur_setup; reflexivity|]. split; [apply xur_asm|]. split; [reflexivity|]. split; [apply xur_dirichlet|]. split; [exact xur_mass_ok|]. split; [exact E|].
  split; [intros m k j Hm; cbn in Hm; small; rewrite VM by (cbn; lia); reflexivity|]. split; [intros r x Rr Rx Ex; exact (xur_solves1 0 (A O) r x B Mb E RA Rr Rx Ex)|].
  split; [exact RA|]. split; [exact Ad|]. split.
  { split; [reflexivity|]. split; [intros i; cbn; ring|]. intros k l Hk Hl. cbn in Hk, Hl. small. rewrite xur_entry by lia. cbn. unfold mget, vnth. cbn. ring. }
  split.
  { intros m v (Hm & Hv). cbn in Hm, Hv. small. destruct v as [|[|v]]; [| |lia]; intros i j Hi Hj; cbn in Hi, Hj; small; cbn; unfold mget, vnth; cbn; ring. }
  exists 0%nat, 0%nat. split; [cbn; lia|]. split; [cbn; lia|]. rewrite (xur_step1 0 (A O) (A 1%nat) RA A0 Ad). change (rs_h (xur_s xur_pb1)) with xur_h. rewrite xur_over.
  change (basis_size xur_h 0 0) with 1%nat. cbn [rsum]. rewrite A0. rewrite !xur_entry by lia. rewrite !xur_at by lia. cbn [Nat.eqb].
  assert (Cz : convection (xur_s xur_pb1) (xur_o xur_solve1) 0 (A 0%nat) 0 0 = 0).
  { unfold convection. cbn [uo_hs uo_itf xur_o]. assert (Z : forall (l : vec) i, vnth (map (fun _ => 0) l) i = 0) by (intros l i; unfold vnth; rewrite (map_nth (fun _ : R => 0) l 0 i); reflexivity). rewrite !Z. ring. }
  rewrite Cz. cbn [uc_dt xur_c]. unfold mass_of, xur_mass, xur_base. cbn. unfold at_, entry, vnth. cbn. lra.
Qed.
Print Assumptions C98_equations_refuted.

(** Without the reduced nonlinear forms of the subdomains, which only one of the two treatments of the nonlinear term provides, the run reads absent data. *)
Theorem C98_forms_refuted : exists s dim c o base junk st, rom_setup s dim c o /\ reduced s base /\ writable c /\
  fits (rs_h s) (fom_place (rs_h s)) (full_size (rs_h s) dim) (us_U st) /\
  (exists st', urom_solve s c o true base None None junk st = Ok st') /\ urom_solve s c o false base None None junk st = UB.
Proof.
  destruct (xur_run xur_pb2 xur_solve2) as (st' & A & E & _); [reflexivity|].
  exists (xur_s xur_pb2), (xur_dim xur_pb2), (xur_c xur_pb2), (xur_o xur_solve2), xur_base, [0; 0], (xur_st xur_pb2).
  split; [apply xur_setup; reflexivity|]. split; [apply xur_reduced; reflexivity|]. split; [intros step; reflexivity|].
  split; [split; [|cbn; reflexivity]; split; [reflexivity|]; split; [reflexivity|]; intros m v (Hm & Hv); cbn in Hm, Hv; small; destruct v as [|[|v]]; [reflexivity|reflexivity|lia]|].
  split; [exists st'; exact E|]. vm_compute. reflexivity.
Qed.
Print Assumptions C98_forms_refuted.
