(** One subdomain, one reduced velocity and one reduced pressure; the pressure basis is given. *)
From Coq Require Import Reals List Bool Lia Arith ZArith String Lra.
From Verif Require Import Outcome ListLemmas LaBase LinalgModel LinalgSpec BlockVec RomModel RomSpec RomProofs MbModel MbSpec MbFlowProofs IntegModel UnsteadyModel UnsteadySpec UnsteadyRunProofs UromModel UromSpec UromProofs.
Import ListNotations.
Local Open Scope list_scope.
Local Open Scope R_scope.

Definition xur_h : rom := Rom 1 2 true ByVariable [0]%nat 1 [1; 1]%nat.
Definition xur_s (pb : vec) : romst := RomSt xur_h true [] [DMat 1 1 [1]; DMat (List.length pb) 1 pb] [0; 1]%nat [0; 1; 2]%nat [0; 1; 2]%nat [1; 1]%nat.
Definition xur_dim (pb : vec) (b : nat) : nat := match b with O => 1 | _ => List.length pb end.
(** The layouts of the full-order vectors. *)
Definition xur_fo (n : nat) : flow_off := FlowOff [0; 1; 1 + n]%nat [0; 1; 1 + n]%nat [1 + n]%nat [0; 1 + n]%nat [0; 1]%nat [0; n]%nat [0; 1; 1 + n]%nat.
Definition xur_c (pb : vec) : ucfg := UCfg 1 (xur_fo (List.length pb)) 1 1 (SolCfg false "" "" (fun _ => true)) 0 false 0 false 0 0 false.
(** No convection, mass one. *)
Definition xur_o (solve : vec -> vec) : uops := UOps (fun _ _ v => map (fun _ => 0) v) (fun _ v => map (fun _ => 0) v) (fun _ _ _ => 1) solve.
(** Gradient and divergence [g], no viscosity. *)
Definition xur_a (g : R) : asm := Asm xur_h [0; 1; 2]%nat [MBlocks 2 2 (fun i j => if (i =? j)%nat then None else Some (FMat 1 1 (fun _ _ => g)))] [[]] [] [[]] [] [] [] [].
Definition xur_ess (m b : nat) : bool := false.
Definition xur_mass : list fmat := [FMat 1 1 (fun _ _ => 1)].
Definition xur_base : bvec := BVec [0; 1; 2]%nat [1; 0].
Definition xur_st (pb : vec) : ust := USt (BVec [0; 1; 1 + List.length pb]%nat (0 :: map (fun _ => 0) pb)) (BVec [] []) (BVec [] []) 0 (fun _ => None) [] [].

Ltac small := repeat match goal with H : (?i < 1)%nat |- _ => assert (i = 0%nat) by lia; clear H; subst i end.

Lemma xur_bs m v : (m < 1)%nat -> (v < 2)%nat -> basis_size xur_h m v = 1%nat.
Proof. intros Hm Hv. small. destruct v as [|[|v]]; [reflexivity|reflexivity|lia]. Qed.
Lemma xur_tiles : tiles xur_h (place xur_h) (basis_size xur_h) [0; 1; 2]%nat.
Proof. split; [reflexivity|]. split; [reflexivity|]. intros m v (Hm & Hv). cbn in Hm, Hv. small. destruct v as [|[|v]]; [reflexivity|reflexivity|lia]. Qed.
Lemma xur_wf : rom_wf xur_h.
Proof. split; [cbn; lia|]. split; [cbn; lia|]. split; [reflexivity|]. split; [|reflexivity]. intros m Hm. cbn in Hm. small. cbn. lia. Qed.
Lemma xur_bases pb : bases_ok (xur_s pb) (xur_dim pb).
Proof.
  split; [reflexivity|]. split; [exact xur_wf|]. split; [reflexivity|]. split; [|split; [exact xur_tiles|split; [reflexivity|]]].
  - intros [|[|b]] Hb; cbn in Hb; [| |lia]; cbn; (split; [|split; reflexivity]); unfold dm_wf; cbn; lia.
  - intros m v (Hm & Hv). cbn in Hm, Hv. small. destruct v as [|[|v]]; [reflexivity|reflexivity|lia].
Qed.
Lemma xur_setup pb solve : (forall r, List.length r = 2%nat -> List.length (solve r) = 2%nat) -> rom_setup (xur_s pb) (xur_dim pb) (xur_c pb) (xur_o solve).
Proof.
  intros Hs. split; [apply xur_bases|]. do 4 (split; [reflexivity|]). split.
  { exists 2%nat, (fun m v => xur_dim pb v), (fun _ => 1%nat). split; [reflexivity|]. vm_compute. reflexivity. }
  split; [intros t m v Hm L; cbn; rewrite map_length; exact L|]. split; [intros t v L; cbn; rewrite map_length; exact L|]. exact Hs.
Qed.
Lemma xur_asm g : asm_ok (xur_a g).
Proof.
  unfold asm_ok. cbn [as_rom as_off as_comp as_bdr as_c2g as_gattr as_bc as_btype as_ports as_port xur_a]. split; [exact xur_wf|]. split; [exact xur_tiles|]. do 5 (split; [reflexivity|]).
  split; [intros m Hm; cbn in Hm; small; reflexivity|]. split.
  - intros m Hm. cbn in Hm. small. split; [reflexivity|]. split; [reflexivity|]. intros i j X Hi Hj. cbn in Hi, Hj. destruct i as [|[|i]], j as [|[|j]]; try lia; cbn; intros E; try discriminate E; injection E as <-; split; reflexivity.
  - split; [intros m b Hm Hb; cbn in Hm; small; cbn in Hb; lia|]. intros P [].
Qed.
Lemma xur_dirichlet g m b : (m < rh_nsub (as_rom (xur_a g)))%nat -> (b < List.length (nth m (as_c2g (xur_a g)) []))%nat -> xur_ess m b = true <-> essential (xur_a g) m b.
Proof. intros Hm Hb. cbn in Hm. small. cbn in Hb. lia. Qed.
Lemma xur_mass_ok : mass_ok xur_h xur_mass.
Proof. split; [reflexivity|]. intros m Hm. cbn in Hm. small. split; reflexivity. Qed.
Lemma xur_entry g m v m' v' p q : (m < 1)%nat -> (m' < 1)%nat -> (v < 2)%nat -> (v' < 2)%nat -> rom_entry (xur_a g) xur_ess m v m' v' p q = if (v =? v')%nat then 0 else g.
Proof. intros. small. destruct v as [|[|v]]; [| |lia]; (destruct v' as [|[|v']]; [| |lia]); unfold rom_entry, xur_a; cbn; ring. Qed.
Lemma xur_reduced pb (d : vec) : List.length d = 2%nat -> reduced (xur_s pb) (BVec [0; 1; 2]%nat d).
Proof. intros L. split; [reflexivity|]. split; [exact xur_tiles|]. exact L. Qed.
Lemma xur_at pb (x y : R) v : (v < 2)%nat -> at_ (xur_s pb) (BVec [0; 1; 2]%nat [x; y]) 0 v 0 = if (v =? 0)%nat then x else y.
Proof. intros H. destruct v as [|[|v]]; [reflexivity|reflexivity|lia]. Qed.
Lemma xur_two pb a : reduced (xur_s pb) a -> exists x y, a = BVec [0; 1; 2]%nat [x; y].
Proof. intros (E & _ & L). destruct a as [of d]. cbn in E, L. subst of. change (List.length d = 2%nat) in L. destruct d as [|x [|y [|z d]]]; try discriminate L. exists x, y. reflexivity. Qed.
Lemma xur_over f : over xur_h f = f 0%nat 0%nat 0%nat + f 0%nat 1%nat 0%nat.
Proof. unfold over. cbn. ring. Qed.

(** The right-hand side of a step. *)
Lemma xur_rhs pb solve t x y r : rom_rhs (xur_s pb) (xur_c pb) (xur_o solve) xur_base t (BVec [0; 1; 2]%nat [x; y]) r -> r = BVec [0; 1; 2]%nat [1 + x; 0].
Proof.
  intros (Rr & R0 & R1). destruct (xur_two pb r Rr) as (a & b & ->). specialize (R0 0%nat 0%nat ltac:(cbn; lia) ltac:(cbn; lia)). specialize (R1 0%nat 0%nat ltac:(cbn; lia) ltac:(cbn; lia)).
  unfold xur_base in R0, R1. rewrite !xur_at in R0, R1 by lia. cbn [Nat.eqb] in R0, R1. change (basis_size (rs_h (xur_s pb)) 0 0) with 1%nat in R0. cbn [rsum] in R0.
  rewrite xur_at in R0 by lia. cbn [Nat.eqb] in R0. subst b. f_equal. f_equal. rewrite R0. unfold convection. cbn. unfold vnth. cbn. field.
Qed.
(** Boundary between two pressures: the gradient of the full-order pressure (p0, p1) is p0 - p1; basis (1, 0). *)
Definition xur_pb1 : vec := [1; 0].
Definition xur_solve1 (r : vec) : vec := [vnth r 1; vnth r 0 - vnth r 1].
(** The constant as pressure basis; the reduced gradient vanishes. *)
Definition xur_pb2 : vec := [/ 2; / 2; / 2; / 2].
Definition xur_solve2 (r : vec) : vec := [vnth r 0; 1].

Lemma xur_solves1 t A r x B Mb : assemble_unsteady (xur_a 1) xur_mass 1 = Ok (B, Mb) -> reduced (xur_s xur_pb1) A ->
  rom_rhs (xur_s xur_pb1) (xur_c xur_pb1) (xur_o xur_solve1) xur_base t A r -> reduced (xur_s xur_pb1) x -> bv_dat x = xur_solve1 (bv_dat r) -> rom_solves (xur_s xur_pb1) B x r.
Proof.
  intros EB RA Rr Rx Ex. destruct (xur_two _ A RA) as (u & p & ->). apply xur_rhs in Rr. subst r. destruct (xur_two _ x Rx) as (a & b & ->). unfold xur_solve1, vnth in Ex. cbn in Ex. injection Ex as -> ->.
  destruct (assemble_unsteady_ok (xur_a 1) xur_ess xur_mass 1 (xur_asm 1) (xur_dirichlet 1) eq_refl eq_refl eq_refl xur_mass_ok) as (B' & Mb' & E' & VB & _). rewrite EB in E'. injection E' as <- <-.
  intros m v k U Hk. pose proof U as (Hm & Hv). cbn in Hm, Hv. small. change (rs_h (xur_s xur_pb1)) with xur_h in *. rewrite xur_bs in Hk by lia. small. rewrite xur_over. change xur_h with (as_rom (xur_a 1)).
  assert (U0 : unknown xur_h 0 0) by (split; cbn; lia). assert (U1 : unknown xur_h 0 1) by (split; cbn; lia). change (as_rom (xur_a 1)) with xur_h in *.
  rewrite !VB by auto. rewrite !xur_entry by lia. rewrite !xur_at by lia. destruct v as [|[|v]]; [| |lia]; cbn; unfold mass_of, xur_mass; cbn; field.
Qed.
Lemma xur_solves2 t A r x B Mb : assemble_unsteady (xur_a 0) xur_mass 1 = Ok (B, Mb) -> reduced (xur_s xur_pb2) A ->
  rom_rhs (xur_s xur_pb2) (xur_c xur_pb2) (xur_o xur_solve2) xur_base t A r -> reduced (xur_s xur_pb2) x -> bv_dat x = xur_solve2 (bv_dat r) -> rom_solves (xur_s xur_pb2) B x r.
Proof.
  intros EB RA Rr Rx Ex. destruct (xur_two _ A RA) as (u & p & ->). apply xur_rhs in Rr. subst r. destruct (xur_two _ x Rx) as (a & b & ->). unfold xur_solve2, vnth in Ex. cbn in Ex. injection Ex as -> ->.
  destruct (assemble_unsteady_ok (xur_a 0) xur_ess xur_mass 1 (xur_asm 0) (xur_dirichlet 0) eq_refl eq_refl eq_refl xur_mass_ok) as (B' & Mb' & E' & VB & _). rewrite EB in E'. injection E' as <- <-.
  intros m v k U Hk. pose proof U as (Hm & Hv). cbn in Hm, Hv. small. change (rs_h (xur_s xur_pb2)) with xur_h in *. rewrite xur_bs in Hk by lia. small. rewrite xur_over.
  assert (U0 : unknown xur_h 0 0) by (split; cbn; lia). assert (U1 : unknown xur_h 0 1) by (split; cbn; lia). change (as_rom (xur_a 0)) with xur_h in *.
  rewrite !VB by auto. rewrite !xur_entry by lia. rewrite !xur_at by lia. destruct v as [|[|v]]; [| |lia]; cbn; unfold mass_of, xur_mass; cbn; field.
Qed.

(** One step of the first example: the velocity vanishes, the pressure one is halved. *)
Lemma xur_step1 t A A' : reduced (xur_s xur_pb1) A -> at_ (xur_s xur_pb1) A 0 0 0 = 0 -> rom_advances (xur_s xur_pb1) (xur_dim xur_pb1) (xur_c xur_pb1) (xur_o xur_solve1) xur_base t A A' -> A' = BVec [0; 1; 2]%nat [0; / 2].
Proof.
  intros RA A0 (RA' & r & x & Rr & Rx & Ex & X0 & X1). destruct (xur_two _ A RA) as (u & p & ->). rewrite xur_at in A0 by lia. cbn [Nat.eqb] in A0. subst u. apply xur_rhs in Rr. subst r.
  destruct (xur_two _ x Rx) as (a & b & ->). destruct (xur_two _ A' RA') as (a' & b' & ->). cbn [bv_dat uo_solve xur_o] in Ex. unfold xur_solve1, vnth in Ex. cbn [nth] in Ex. injection Ex as -> ->.
  specialize (X0 0%nat 0%nat ltac:(cbn; lia) ltac:(cbn; lia)). specialize (X1 0%nat 0%nat ltac:(cbn; lia) ltac:(cbn; lia)). rewrite !xur_at in X0, X1 by lia. cbn [Nat.eqb] in X0, X1. subst a'. f_equal. f_equal. f_equal.
  rewrite X1. unfold shift. cbn [uc_pdbc xur_c]. unfold one_. cbn. unfold mget, at_, entry, vnth. cbn. field.
Qed.
(** One step of the second example: the velocity grows by one, the constant pressure is removed. *)
Lemma xur_step2 t A A' : reduced (xur_s xur_pb2) A -> at_ (xur_s xur_pb2) A 0 0 0 = 0 -> rom_advances (xur_s xur_pb2) (xur_dim xur_pb2) (xur_c xur_pb2) (xur_o xur_solve2) xur_base t A A' -> A' = BVec [0; 1; 2]%nat [1; 0].
Proof.
  intros RA A0 (RA' & r & x & Rr & Rx & Ex & X0 & X1). destruct (xur_two _ A RA) as (u & p & ->). rewrite xur_at in A0 by lia. cbn [Nat.eqb] in A0. subst u. apply xur_rhs in Rr. subst r.
  destruct (xur_two _ x Rx) as (a & b & ->). destruct (xur_two _ A' RA') as (a' & b' & ->). cbn [bv_dat uo_solve xur_o] in Ex. unfold xur_solve2, vnth in Ex. cbn [nth] in Ex. injection Ex as -> ->.
  specialize (X0 0%nat 0%nat ltac:(cbn; lia) ltac:(cbn; lia)). specialize (X1 0%nat 0%nat ltac:(cbn; lia) ltac:(cbn; lia)). rewrite !xur_at in X0, X1 by lia. cbn [Nat.eqb] in X0, X1. f_equal. f_equal; [rewrite X0; ring|]. f_equal.
  rewrite X1. unfold shift. cbn [uc_pdbc xur_c]. unfold one_. cbn. unfold mget, at_, entry, vnth. cbn. field.
Qed.

(** A run of either example. *)
Lemma xur_run pb solve : (forall r, List.length r = 2%nat -> List.length (solve r) = 2%nat) ->
  exists st' A, urom_solve (xur_s pb) (xur_c pb) (xur_o solve) true xur_base None None [0; 0] (xur_st pb) = Ok st' /\ reduced (xur_s pb) (A O) /\ at_ (xur_s pb) (A O) 0 0 0 = 0 /\
    rom_advances (xur_s pb) (xur_dim pb) (xur_c pb) (xur_o solve) xur_base 0 (A O) (A 1%nat) /\ lifted (xur_s pb) (xur_dim pb) (A 1%nat) (us_U st').
Proof.
  intros Hs. destruct (starts_fresh (xur_c pb) None (xur_st pb)) as (u0 & f0 & St); [discriminate|].
  destruct (urom_ok (xur_s pb) (xur_dim pb) (xur_c pb) (xur_o solve) (xur_setup pb solve Hs) xur_base None None [0; 0] (xur_st pb) 0 0 u0 f0) as (st' & A & E & H1 & H2 & H3 & _ & H5 & _); auto.
  - apply xur_reduced. reflexivity.
  - intros step. reflexivity.
  - split; [|cbn; rewrite map_length; reflexivity]. split; [reflexivity|]. split; [reflexivity|]. intros m v (Hm & Hv). cbn in Hm, Hv. small. destruct v as [|[|v]]; [reflexivity|reflexivity|lia].
  - exists st', A. change (Z.to_nat (uc_nt (xur_c pb) - 0)) with 1%nat in *. split; [exact E|]. split; [apply H1; lia|]. split; [|split; [|exact H5]].
    + rewrite (H2 0%nat 0%nat 0%nat) by first [split; cbn; lia|cbn; lia]. cbn [starts] in St. destruct St as (_ & _ & O & Dt & _). unfold entry. rewrite O, Dt. cbn. unfold vnth. cbn. ring.
    + specialize (H3 0%nat ltac:(lia)). cbn [INR] in H3. rewrite Rmult_0_l, Rplus_0_l in H3. exact H3.
Qed.

(** C98: the second example meets the hypotheses of [C98_run], [C98_matrix] and [C98_equations]; after the step the velocity is one. *)
Example xur_equations : exists B Mb A A', assemble_unsteady (xur_a 0) xur_mass 1 = Ok (B, Mb) /\ rom_setup (xur_s xur_pb2) (xur_dim xur_pb2) (xur_c xur_pb2) (xur_o xur_solve2) /\ asm_ok (xur_a 0) /\
  (forall m k j, (m < 1)%nat -> uo_mass (xur_o xur_solve2) m k j = val (Mb m m) k j) /\
  (forall r x, rom_rhs (xur_s xur_pb2) (xur_c xur_pb2) (xur_o xur_solve2) xur_base 0 A r -> reduced (xur_s xur_pb2) x -> bv_dat x = uo_solve (xur_o xur_solve2) (bv_dat r) -> rom_solves (xur_s xur_pb2) B x r) /\
  (forall m v k, unknown xur_h m v -> (k < basis_size xur_h m v)%nat ->
     rsum (rh_nsub xur_h) (fun m' => rsum (basis_size xur_h m' 1) (fun l => rom_entry (xur_a 0) xur_ess m v m' 1 k l * one_ (xur_s xur_pb2) (xur_dim xur_pb2) m' l)) = 0) /\
  reduced (xur_s xur_pb2) A /\ rom_advances (xur_s xur_pb2) (xur_dim xur_pb2) (xur_c xur_pb2) (xur_o xur_solve2) xur_base 0 A A' /\ at_ (xur_s xur_pb2) A' 0 0 0 = 1.
Proof.
  destruct (assemble_unsteady_ok (xur_a 0) xur_ess xur_mass 1 (xur_asm 0) (xur_dirichlet 0) eq_refl eq_refl eq_refl xur_mass_ok) as (B & Mb & E & _ & VM).
  destruct (xur_run xur_pb2 xur_solve2) as (st' & A & _ & RA & A0 & Ad & _); [reflexivity|]. exists B, Mb, (A O), (A 1%nat). split; [exact E|]. split; [apply xur_setup; reflexivity|]. split; [apply xur_asm|].
  split; [intros m k j Hm; small; rewrite VM by (cbn; lia); reflexivity|]. split; [intros r x Rr Rx Ex; exact (xur_solves2 0 (A O) r x B Mb E RA Rr Rx Ex)|].
  split.
  - intros m v k (Hm & Hv) Hk. cbn in Hm, Hv. small. cbn [rh_nsub xur_h rsum]. change (basis_size xur_h 0 1) with 1%nat. cbn [rsum]. rewrite xur_entry by lia. destruct (Nat.eqb v 1); ring.
  - split; [exact RA|]. split; [exact Ad|]. rewrite (xur_step2 0 (A O) (A 1%nat) RA A0 Ad). reflexivity.
Qed.
(** C60: its basis meets the hypotheses of [C60_reduced]. *)
Example xur_constant : ortho_cols (basis_of (xur_s xur_pb2) 0 1) /\
  exists w, forall i, (i < 4)%nat -> rsum 1 (fun k => mget (basis_of (xur_s xur_pb2) 0 1) i k * w k) = 1.
Proof.
  split.
  - intros i j Hi Hj. cbn in Hi, Hj. small. cbn. unfold mget, vnth. cbn. field.
  - exists (fun _ => 2). intros i Hi. destruct i as [|[|[|[|i]]]]; [| | | |lia]; cbn; unfold mget, vnth; cbn; field.
Qed.
