(** One subdomain, one velocity and one pressure unknown; the velocity grows by one in each step. *)
From Coq Require Import Reals List Bool Lia Arith ZArith Ascii String Lra Sorted.
From Verif Require Import Outcome LaBase BlockVec MbModel MbSpec IntegModel UnsteadyModel UnsteadySpec UnsteadyStepProofs UnsteadyLoopProofs UnsteadyRunProofs.
Import ListNotations.
Local Open Scope list_scope.
Local Open Scope R_scope.

Definition exu_fo : flow_off := FlowOff [0; 1; 2]%nat [0; 1; 2]%nat [2]%nat [0; 2]%nat [0; 1]%nat [0; 1]%nat [0; 1; 2]%nat.
Definition exu_sol : solcfg := SolCfg true "out" "sol" (fun _ => true).
(** Restart files in every step; visualization every [vint] steps; no samples. *)
Definition exu_cfg (vint : Z) : ucfg := UCfg 1 exu_fo 3 1 exu_sol 1 true vint false 0 0 true.
Definition exu_ops : uops := UOps (fun _ _ v => map (fun _ => 0) v) (fun _ v => map (fun _ => 0) v) (fun _ _ _ => 1) (fun r => r).
Definition exu_vs (m v : nat) : nat := 1%nat.
Definition exu_rhs : bvec := BVec [0; 1; 2]%nat [1; 0].
Definition exu_U : bvec := BVec [0; 1; 2]%nat [0; 0].
Definition exu_st (fs : files) : ust := USt exu_U (BVec [] []) (BVec [] []) 0 fs [] [].

Lemma exu_ok v : setup_ok (exu_cfg v) exu_ops exu_vs.
Proof.
  split; [exists 2%nat, (fun _ _ => 1%nat), (fun _ => 1%nat); split; reflexivity|]. split; [cbn; lra|]. split; [intros t m w _ L; cbn; rewrite map_length; auto|].
  split; [intros t w L; cbn; rewrite map_length; auto|]. intros r L. exact L.
Qed.
Lemma exu_writable v : writable (exu_cfg v).
Proof. intros step. reflexivity. Qed.
Lemma exu_shaped d : List.length d = 2%nat -> sub_shaped 1 2 exu_vs (BVec [0; 1; 2]%nat d).
Proof.
  intros L. exists (fun _ => 1%nat). split; [|intros; reflexivity]. split; [reflexivity|]. split; [reflexivity|]. split; [|exact L]. intros [|[|i]] Hi; cbn in *; lia.
Qed.
Lemma exu_step v t y y' : advances (exu_cfg v) exu_ops exu_vs exu_rhs t y y' -> vnth y' 0 = 1 + vnth y 0.
Proof.
  intros (_ & r & (_ & R1 & _) & A & _). rewrite A by (repeat constructor). cbn [uo_solve exu_ops]. specialize (R1 0%nat 0%nat ltac:(repeat constructor) ltac:(repeat constructor)).
  change (vpos exu_vs 0 0) with 0%nat in R1. cbn [uc_dt exu_cfg] in R1. rewrite R1. cbn [uo_hs uo_itf uo_mass exu_ops].
  assert (Z : forall (l : vec) i, vnth (map (fun _ => 0) l) i = 0) by (intros l i; unfold vnth; rewrite (map_nth (fun _ : R => 0) l 0 i); reflexivity). rewrite !Z. cbn. unfold exu_vs, bentry, vpos. cbn. unfold vnth. cbn. field.
Qed.
Lemma exu_run v t0 u0 n Y Us k : trajectory (exu_cfg v) exu_ops exu_vs exu_rhs u0 t0 n Y Us -> bv_off u0 = [0; 1; 2]%nat -> (k <= n)%nat -> vnth (bv_dat (Us k)) 0 = vnth (bv_dat u0) 0 + INR k.
Proof.
  intros (A & B & C) E. assert (G : forall k, (k <= n)%nat -> vnth (bv_dat (Us k)) 0 = vnth (Y k) 0).
  { intros i Hi. destruct (B i Hi) as ((_ & _ & V & _) & O). specialize (V 0%nat 0%nat ltac:(repeat constructor) ltac:(repeat constructor)). unfold bentry in V. rewrite O, E in V. cbn in V. auto. }
  intros Hk. rewrite G by auto. rewrite <- A, G by lia. induction k as [|k IH]; [cbn; ring|]. rewrite (exu_step v _ _ _ (C k ltac:(lia))), IH by lia. rewrite S_INR. ring.
Qed.
(** The solver of the example solves with mass over time step, no viscosity and no coupling. *)
Lemma exu_solves : exists uu, uu_matrix 1 (fo_u exu_fo) (uo_mass exu_ops) 1 zero_m = Ok uu /\
  forall v t y r, step_rhs (exu_cfg v) exu_ops exu_vs exu_rhs t y r -> solves 1 1 uu zero_m zero_m (uo_solve exu_ops r) r.
Proof.
  eexists. split; [reflexivity|]. intros v t y r (_ & _ & R1). specialize (R1 0%nat 0%nat ltac:(repeat constructor) ltac:(repeat constructor)).
  change (vnth r 1 = 0) in R1. split; intros [|i] Hi; try lia; cbn; unfold add_m, add_matrix, zero_m, bd0; cbn; change (uo_solve exu_ops r) with r.
  - unfold vnth. field.
  - unfold vnth in *. rewrite R1. ring.
Qed.
(** C56: with output in every step, a restart from the file of step 1 meets the hypotheses. *)
Example exu_restart : let c := exu_cfg 1 in let s := exu_st (fun _ => None) in exists u0 f0 s1,
  setup_ok c exu_ops exu_vs /\ writable c /\ starts c None None s 0 0 u0 f0 /\ unsteady_solve c exu_ops exu_rhs None None [0; 0] [0; 0] s = Ok s1 /\
  saved c 1 /\ on_schedule (uc_vint c) 1 /\ (1 < uc_nt c)%Z.
Proof.
  intros c s. destruct (starts_fresh c None s) as (u0 & f0 & St); [discriminate|].
  destruct (run_ok c exu_ops exu_vs (exu_ok 1) (exu_writable 1) exu_rhs (exu_shaped [1; 0] eq_refl) None None [0; 0] [0; 0] s 0 0 u0 f0 (exu_shaped [0; 0] eq_refl) St (Z.le_refl 0) eq_refl eq_refl) as (s1 & Y & Us & E1 & _).
  exists u0, f0, s1. split; [apply exu_ok|]. split; [apply exu_writable|]. split; [auto|]. split; [auto|].
  split; [split; [reflexivity|split; [discriminate|exists 1%Z; reflexivity]]|]. split; [split; [discriminate|exists 1%Z; reflexivity]|cbn; lia].
Qed.
(** C57: three steps, samples every two: one snapshot, of step 2, whose velocity is 2. *)
Example exu_sampled : let c := UCfg 1 exu_fo 3 1 exu_sol 1 true 1 true 2 0 true in exists s1 u,
  unsteady_solve c exu_ops exu_rhs None None [0; 0] [0; 0] (exu_st (fun _ => None)) = Ok s1 /\ us_snaps s1 = [u] /\ vnth (bv_dat u) 0 = 2.
Proof.
  intros c. set (s := exu_st (fun _ => None)). destruct (starts_fresh c None s) as (u0 & f0 & St); [discriminate|].
  destruct (run_ok c exu_ops exu_vs (exu_ok 1) (exu_writable 1) exu_rhs (exu_shaped [1; 0] eq_refl) None None [0; 0] [0; 0] s 0 0 u0 f0 (exu_shaped [0; 0] eq_refl) St (Z.le_refl 0) eq_refl eq_refl) as (s1 & Y & Us & E1 & [T _ _ (l & L1 & L2) _ _ _]).
  destruct St as (_ & _ & O0 & D0 & _). exists s1, (Us 2%nat). split; [exact E1|]. split.
  - rewrite L1. replace l with [2%nat]; [reflexivity|]. destruct L2 as (So & Hin). change (Z.to_nat (uc_nt c - 0)) with 3%nat in *.
    assert (Q : forall i, In i l <-> i = 2%nat).
    { intros i. rewrite Hin. split.
      - intros (Hi & _ & _ & _ & (z & Hz)). cbn in Hz. lia.
      - intros ->. split; [lia|]. split; [reflexivity|]. split; [cbn; lia|]. split; [discriminate|]. exists 1%Z. reflexivity. }
    destruct l as [|a [|b l]]; [destruct (proj2 (Q 2%nat) eq_refl)|rewrite (proj1 (Q a) (or_introl eq_refl)); reflexivity|].
    inversion So as [|? ? So' Ho]; subst. inversion Ho; subst. pose proof (proj1 (Q a) (or_introl eq_refl)). pose proof (proj1 (Q b) (or_intror (or_introl eq_refl))). lia.
  - rewrite (exu_run 1 _ _ _ _ _ _ T O0); [|vm_compute; lia]. rewrite D0. cbn. ring.
Qed.
