(** C128-C130: data, monitors and initial condition of an unsteady run. *)
From Coq Require Import Reals List Bool Lia Arith ZArith String Lra.
From Verif Require Import Outcome LaBase BlockVec MbModel MbSpec IntegModel UnsteadyModel UnsteadySpec UnsteadyRunProofs UnsteadyExamples ClkModel ClkSpec ClkProofs ClkExamples.
Import ListNotations.
Local Open Scope list_scope.
Local Open Scope R_scope.

(** ** C128 *)

(** What a run does with data that vary in time, also after a restart: the convection sees the boundary data of the beginning of
    each step, the right-hand side of the linear system is that of time zero in all of them. *)
Theorem C128_frozen : forall D c (F : forms D) p vs restart ic junk junk' s first t0 u0 f0, forms_ok c F p vs -> writable c ->
  sub_shaped (uc_ns c) 2 vs (us_U s) -> starts c restart ic s first t0 u0 f0 -> (0 <= first)%Z ->
  List.length junk = (nu (uc_ns c) vs + np (uc_ns c) vs)%nat -> List.length junk' = (nu (uc_ns c) vs + np (uc_ns c) vs)%nat ->
  let n := Z.to_nat (uc_nt c - first) in
  exists s' Y Us, clk_run c F p restart ic junk junk' s = Ok s' /\ Us n = us_U s' /\ Us O = u0 /\
    (forall k, (k <= n)%nat -> same_solution (uc_ns c) vs (Y k) (Us k)) /\
    forall k, (k < n)%nat -> advances c (ops_at F p) vs (rhs_at F p 0) (t0 + INR k * uc_dt c) (Y k) (Y (S k)).
Proof.
  intros D c F p vs restart ic junk junk' s first t0 u0 f0 (Hs & Hr) Hw Hu St Hf L L' n.
  destruct (run_ok c (ops_at F p) vs Hs Hw (rhs_at F p 0) (Hr 0) restart ic junk junk' s first t0 u0 f0 Hu St Hf L L') as (s' & Y & Us & E & [(A0 & A1 & A2) U _ _ _ _ _]).
  exists s', Y, Us. rewrite clk_run_eq. split; [exact E|]. split; [auto|]. split; [exact A0|]. split; [intros k Hk; apply A1; exact Hk|exact A2].
Qed.
Print Assumptions C128_frozen.

(** With data that do not vary in time, or vary in a way the right-hand side does not see, each step uses the data of its time. *)
Theorem C128_constant_partial : forall D c (F : forms D) p vs restart ic junk junk' s first t0 u0 f0 shift, forms_ok c F p vs -> writable c ->
  sub_shaped (uc_ns c) 2 vs (us_U s) -> starts c restart ic s first t0 u0 f0 -> (0 <= first)%Z ->
  List.length junk = (nu (uc_ns c) vs + np (uc_ns c) vs)%nat -> List.length junk' = (nu (uc_ns c) vs + np (uc_ns c) vs)%nat ->
  (forall t, rhs_at F p t = rhs_at F p 0) ->
  let n := Z.to_nat (uc_nt c - first) in
  exists s' Y Us, clk_run c F p restart ic junk junk' s = Ok s' /\ Us n = us_U s' /\ timely c F p vs u0 t0 shift n Y Us.
Proof.
  intros D c F p vs restart ic junk junk' s first t0 u0 f0 shift (Hs & Hr) Hw Hu St Hf L L' Hc n.
  destruct (run_ok c (ops_at F p) vs Hs Hw (rhs_at F p 0) (Hr 0) restart ic junk junk' s first t0 u0 f0 Hu St Hf L L') as (s' & Y & Us & E & [(A0 & A1 & A2) U _ _ _ _ _]).
  exists s', Y, Us. rewrite clk_run_eq. split; [exact E|]. split; [auto|]. split; [exact A0|]. split; [exact A1|]. intros k Hk t. rewrite Hc. apply A2. exact Hk.
Qed.
Print Assumptions C128_constant_partial.

(** The inflow of the backward-facing step may pulsate. Three steps of such a run do not follow the inflow, wherever in a step one
    takes the data from: the solution is that of no inflow at all. *)
Theorem C128_pulsating_refuted : exists c (F : forms R) p vs s s' u0 f0, forms_ok c F p vs /\ writable c /\ sub_shaped (uc_ns c) 2 vs (us_U s) /\
  starts c None None s 0 0 u0 f0 /\ uc_nt c = 3%Z /\ clk_run c F p None None [0; 0] [0; 0] s = Ok s' /\
  forall shift Y Us, 0 <= shift <= 1 -> timely c F p vs u0 0 shift 3 Y Us -> Us 3%nat <> us_U s'.
Proof.
  set (s := exu_st (fun _ => None)). destruct (starts_fresh (exu_cfg 1) None s) as (u0 & f0 & St); [discriminate|].
  pose proof St as St'. destruct St' as (_ & _ & O0 & D0 & _).
  destruct (C128_frozen R (exu_cfg 1) xck_F (xck_p (/ 12)) exu_vs None None [0; 0] [0; 0] s 0 0 u0 f0 (xck_ok 1 (/ 12)) (exu_writable 1) (exu_shaped [0; 0] eq_refl) St (Z.le_refl 0) eq_refl eq_refl)
    as (s' & Y & Us & E & En & E0 & A1 & A2). change (Z.to_nat (uc_nt (exu_cfg 1) - 0)) with 3%nat in *.
  assert (B0 : vnth (Y 0%nat) 0 = 0).
  { specialize (A1 0%nat ltac:(lia)). rewrite E0 in A1. rewrite <- (xck_first u0 (Y 0%nat) u0 A1 eq_refl O0). rewrite D0. reflexivity. }
  assert (BY : forall k, (k <= 3)%nat -> vnth (Y k) 0 = 0).
  { induction k as [|k IH]; intros Hk; [exact B0|]. specialize (A2 k ltac:(lia)). rewrite xck_rhs in A2. rewrite (xck_step 1 _ _ _ _ _ A2), inflow0, IH by lia. ring. }
  exists (exu_cfg 1), xck_F, (xck_p (/ 12)), exu_vs, s, s', u0, f0. split; [apply xck_ok|]. split; [apply exu_writable|]. split; [apply (exu_shaped [0; 0]); reflexivity|].
  split; [exact St|]. split; [reflexivity|]. split; [exact E|]. intros shift Z Ws Hsh (W0 & W1 & W2) EW.
  assert (Z0 : vnth (Z 0%nat) 0 = 0).
  { destruct (W1 0%nat ltac:(lia)) as (V & _). rewrite W0 in V. rewrite <- (xck_first u0 (Z 0%nat) u0 V eq_refl O0). rewrite D0. reflexivity. }
  assert (ZS : forall k, (k < 3)%nat -> vnth (Z (S k)) 0 = inflow (/ 12) (INR k + shift) + vnth (Z k) 0).
  { intros k Hk. specialize (W2 k Hk). cbn [uc_dt exu_cfg] in W2. rewrite xck_rhs in W2. rewrite (xck_step 1 _ _ _ _ _ W2). f_equal. f_equal. ring. }
  pose proof (ZS 0%nat ltac:(lia)) as S0. pose proof (ZS 1%nat ltac:(lia)) as S1. pose proof (ZS 2%nat ltac:(lia)) as S2. cbn [INR] in S0, S1, S2.
  assert (Z3 : 0 < vnth (Z 3%nat) 0).
  { rewrite S2, S1, S0, Z0. pose proof (inflow_pos (1 + shift)). pose proof (inflow_pos (1 + 1 + shift)).
    assert (0 <= inflow (/ 12) (0 + shift)) by (rewrite Rplus_0_l; destruct (proj1 Hsh) as [Hp|<-]; [left; apply inflow_pos; lra|rewrite inflow0; lra]). lra. }
  destruct (W1 3%nat ltac:(lia)) as (V3 & V3o). pose proof (A1 3%nat ltac:(lia)) as U3. rewrite EW, <- En in V3.
  assert (X : vnth (Z 3%nat) 0 = vnth (Y 3%nat) 0).
  { destruct V3 as (_ & _ & V & _). destruct U3 as (_ & _ & V' & _). specialize (V 0%nat 0%nat ltac:(repeat constructor) ltac:(repeat constructor)). specialize (V' 0%nat 0%nat ltac:(repeat constructor) ltac:(repeat constructor)). exact (eq_trans V (eq_sym V')). }
  rewrite BY in X by lia. lra.
Qed.
Print Assumptions C128_pulsating_refuted.

(** ** C129 *)

(** The number reported is the largest local CFL number |dt u / h| + |dt v / h| (+ |dt w / h|), h the size of the element over the
    order, of all points at which the velocity is a number. *)
Theorem C129_cfl : forall three dt subs, full_subs three subs -> exists M, compute_cfl three dt subs = Ok (Num M) /\ largest (some_cfl three dt subs) M.
Proof. exact compute_cfl_ok. Qed.
Print Assumptions C129_cfl.

(** A solution of numbers is let through; one that is let through starts with a number. *)
Theorem C129_check_partial : forall v, (numbers v -> sanity_check v = Ok tt) /\ (sanity_check v = Ok tt -> nth_error v 0 <> Some NaN) /\ (nth_error v 0 = Some NaN -> sanity_check v = Abort).
Proof.
  intros v. rewrite sanity_first. destruct v as [|[x|] v]; cbn; (split; [|split]); try congruence; auto.
  intros H. destruct (H NaN (or_introl eq_refl)). reflexivity.
Qed.
Print Assumptions C129_check_partial.

(** A solution with NaN in all entries but one goes through the check, and the CFL number of a velocity that is NaN in all points but
    one is that of the remaining point. *)
Theorem C129_unnoticed_refuted : exists v subs, List.length (filter d_isnan v) = 3%nat /\ sanity_check v = Ok tt /\ full_subs false subs /\
  (exists order es e, In (order, es) subs /\ In e es /\ In NaN (ve_ux e) /\ In NaN (ve_uy e)) /\ compute_cfl false 1 subs = Ok (Num 0).
Proof.
  exists [Num 0; NaN; NaN; NaN], [(1, [VElem 1 [Num 0; NaN] [Num 0; NaN] []])]. split; [reflexivity|]. split; [rewrite sanity_first; reflexivity|].
  assert (F : full_subs false [(1, [VElem 1 [Num 0; NaN] [Num 0; NaN] []])]) by (intros o es e [H|[]] He; injection H as <- <-; destruct He as [<-|[]]; split; [reflexivity|discriminate]).
  split; [exact F|]. split.
  - eexists 1, _, _. split; [left; reflexivity|]. split; [left; reflexivity|]. split; right; left; reflexivity.
  - destruct (compute_cfl_ok false 1 _ F) as (M & E & _ & _ & C). rewrite E. do 2 f_equal. destruct C as [C|C]; [exact C|].
    destruct C as (o & es & e & i & [H|[]] & He & ux & uy & Ex & Ey & Hx). injection H as <- <-. destruct He as [<-|[]]. cbn in Ex, Ey, Hx.
    destruct i as [|[|i]]; cbn in Ex, Ey; [|discriminate|destruct i; discriminate]. injection Ex as <-. injection Ey as <-. rewrite Hx. replace (1 * 0 / (1 / 1)) with 0 by field. rewrite Rabs_R0. ring.
Qed.
Print Assumptions C129_unnoticed_refuted.

(** ** C130 *)

(** Whatever problems have been set and runs started before: a run starts with the initial condition of the problem set last, in each
    subdomain, a missing function standing for zero. *)
Theorem C130_initial_partial : forall D (zero : D) n before ptr again, List.length ptr <> 1%nat -> (forall c, In c again -> c = CStart) ->
  exists s, ofold (ic_step zero) (before ++ CProblem ptr :: again ++ [CStart]) (ic_new n) = Ok s /\
    ic_vels s = repeat (Some (wanted zero ptr 0)) n /\ ic_ps s = repeat (Some (wanted zero ptr 1)) n.
Proof.
  intros D zero n before ptr again Hp Ha. rewrite ofold_app. destruct (ic_calls zero before (ic_new n) eq_refl) as (s1 & E1 & I1 & L1 & L1'). rewrite E1. cbn [obind ofold]. cbn [ic_step].
  destruct (set_problem_ok zero ptr s1 I1) as (s2 & E2 & I2 & L2 & L2' & a & b & u & p & Eu & Ep & Du & Dp). rewrite E2. cbn [obind]. rewrite ofold_app.
  destruct (ic_calls zero again s2 I2) as (s3' & E3' & _ & L3 & L3'). destruct (ic_starts zero again s2 I2 Ha) as (s3 & E3 & I3 & U3 & P3). assert (s3' = s3) by congruence. subst s3'. rewrite E3. cbn [obind ofold ic_step].
  destruct (project_ok zero s3 I3) as (s4 & E4 & I4 & _ & _ & L4 & L4' & V). rewrite E4. cbn [obind]. exists s4. split; [reflexivity|].
  destruct (V a b u p) as (V1 & V2); [congruence|congruence|]. cbn [ic_vels ic_ps ic_new] in *. rewrite repeat_length in *.
  assert (Q : forall (l : list (option D)) x m, List.length l = m -> (forall y, In y l -> y = x) -> l = repeat x m).
  { intros l x m <-. induction l as [|y l IH]; intros H; [reflexivity|]. cbn. rewrite (H y (or_introl eq_refl)). f_equal. apply IH. intros z Hz. apply H. right. exact Hz. }
  assert (W : match u with IZero => zero | IFun f => f 0 end = wanted zero ptr 0 /\ match p with IZero => zero | IFun f => f 0 end = wanted zero ptr 1).
  { subst u p. unfold wanted. destruct ptr as [|f [|g r]]; [split; reflexivity|cbn in Hp; congruence|]. cbn. split; [destruct f; reflexivity|destruct g; reflexivity]. }
  destruct W as (<- & <-). split; apply Q; auto; congruence.
Qed.
Print Assumptions C130_initial_partial.

(** No sequence of problems and runs uses or frees a coefficient twice, and a solver destroyed after it leaves none behind. *)
Theorem C130_lifetime : forall D (zero : D) n calls, exists s, ofold (ic_step zero) calls (ic_new n) = Ok s /\ ic_destroy s = Ok [].
Proof. intros D zero n calls. destruct (ic_calls zero calls (ic_new n) eq_refl) as (s & E & I1 & _). exists s. split; [exact E|]. apply ic_free, I1. Qed.
Print Assumptions C130_lifetime.

(** A problem that gives an initial velocity and nothing about the pressure starts from rest. *)
Theorem C130_velocity_only_refuted : exists (ptr : list (option (R -> R))) s, nth_error ptr 0 = Some (Some (fun _ => 1)) /\
  ofold (ic_step 0) [CProblem ptr; CStart] (ic_new 1) = Ok s /\ ic_vels s = [Some 0].
Proof. exists [Some (fun _ => 1)]. eexists. split; [reflexivity|]. split; [cbn; reflexivity|]. reflexivity. Qed.
Print Assumptions C130_velocity_only_refuted.
