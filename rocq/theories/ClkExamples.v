(** One subdomain, one velocity and one pressure unknown, a pulsating inflow. *)
From Coq Require Import Reals List Bool Lia Arith ZArith Ascii String Lra.
From Verif Require Import Outcome LaBase BlockVec MbModel MbSpec IntegModel UnsteadyModel UnsteadySpec UnsteadyRunProofs UnsteadyExamples ClkModel ClkSpec ClkProofs.
Import ListNotations.
Local Open Scope list_scope.
Local Open Scope R_scope.

(** The inflow as in src/parameterized_problem.cpp:172-179 at one point: amplitude 1, frequency [f], no offset. *)
Definition inflow (f t : R) : R := 1 * sin (2 * PI * (f * t + 0)).
(** The right-hand side of the velocity is the boundary value; no convection, unit mass, the solver of [UnsteadyExamples]. *)
Definition xck_F : forms R := Forms (fun _ ud => BVec [0; 1; 2]%nat [match ud with Some v :: _ => v | _ => 0 end; 0]) (fun _ _ v => map (fun _ => 0) v)
  (fun v => map (fun _ => 0) v) (fun _ _ _ => 1) (fun r => r).
Definition xck_p (f : R) : data R := Data [] [Some (inflow f)] [None].

Lemma xck_ok v f : forms_ok (exu_cfg v) xck_F (xck_p f) exu_vs.
Proof.
  split; [|intros t; apply exu_shaped; reflexivity].
  split; [exists 2%nat, (fun _ _ => 1%nat), (fun _ => 1%nat); split; reflexivity|]. split; [cbn; lra|]. split; [intros t m w _ L; cbn; rewrite map_length; auto|].
  split; [intros t w L; cbn; rewrite map_length; auto|]. intros r L. exact L.
Qed.
Lemma xck_rhs f t : rhs_at xck_F (xck_p f) t = BVec [0; 1; 2]%nat [inflow f t; 0].
Proof. reflexivity. Qed.
Lemma xck_step v f t w y y' : advances (exu_cfg v) (ops_at xck_F (xck_p f)) exu_vs (BVec [0; 1; 2]%nat [w; 0]) t y y' -> vnth y' 0 = w + vnth y 0.
Proof.
  intros (_ & r & (_ & R1 & _) & A & _). rewrite A by (repeat constructor). cbn [uo_solve ops_at fm_solve xck_F]. specialize (R1 0%nat 0%nat ltac:(repeat constructor) ltac:(repeat constructor)).
  change (vpos exu_vs 0 0) with 0%nat in R1. cbn [uc_dt exu_cfg] in R1. rewrite R1. cbn [uo_hs uo_itf uo_mass ops_at fm_conv fm_itf fm_mass xck_F].
  assert (Z : forall (l : vec) i, vnth (map (fun _ => 0) l) i = 0) by (intros l i; unfold vnth; rewrite (map_nth (fun _ : R => 0) l 0 i); reflexivity). rewrite !Z. cbn. unfold exu_vs, bentry, vpos. cbn. unfold vnth. cbn. field.
Qed.
(** The velocity of the solution. *)
Lemma xck_first (u0 : bvec) y u : same_solution 1 exu_vs y u -> bv_off u = bv_off u0 -> bv_off u0 = [0; 1; 2]%nat -> vnth (bv_dat u) 0 = vnth y 0.
Proof.
  intros (_ & _ & V & _) O E. specialize (V 0%nat 0%nat ltac:(repeat constructor) ltac:(repeat constructor)). unfold bentry in V. rewrite O, E in V. cbn in V. auto.
Qed.
(** Period twelve: no inflow at time 0, inflow until time 6. *)
Lemma inflow0 f : inflow f 0 = 0.
Proof. unfold inflow. replace (2 * PI * (f * 0 + 0)) with 0 by ring. rewrite sin_0. ring. Qed.
Lemma inflow_pos t : 0 < t < 6 -> 0 < inflow (/ 12) t.
Proof.
  intros H. unfold inflow. rewrite Rmult_1_l. pose proof PI_RGT_0 as P. replace (2 * PI * (/ 12 * t + 0)) with (PI * (t / 6)) by field.
  assert (0 < t / 6 < 1) by lra. apply sin_gt_0; nra.
Qed.
(** Frequency zero: constant data. *)
Example xck_constant t : rhs_at xck_F (xck_p 0) t = rhs_at xck_F (xck_p 0) 0.
Proof. rewrite !xck_rhs. unfold inflow. rewrite !Rmult_0_l. reflexivity. Qed.

(** A triangle with two quadrature points, velocity (3, 4) and (1, 0), element size 2, order 2, time step 1/2: 3.5 and 0.5. *)
Definition xck_elem : velem := VElem 2 [Num 3; Num 1] [Num 4; Num 0] [].
Example xck_cfl : exists M, compute_cfl false (/ 2) [(2, [xck_elem])] = Ok (Num M) /\ M = 7 / 2.
Proof.
  destruct (compute_cfl_ok false (/ 2) [(2, [xck_elem])]) as (M & E & _ & B & C).
  - intros o es e [H|[]] He. injection H as <- <-. destruct He as [<-|[]]. split; [reflexivity|discriminate].
  - exists M. split; [exact E|].
    assert (V : forall x, some_cfl false (/ 2) [(2, [xck_elem])] x <-> x = 7 / 2 \/ x = / 2).
    { intros x. split.
      - intros (o & es & e & i & [H|[]] & He & ux & uy & Ex & Ey & Hx). injection H as <- <-. destruct He as [<-|[]]. cbn in Ex, Ey, Hx.
        destruct i as [|[|i]]; cbn in Ex, Ey.
        + injection Ex as <-. injection Ey as <-. left. rewrite Hx. rewrite !Rabs_pos_eq by lra. field.
        + injection Ex as <-. injection Ey as <-. right. rewrite Hx. rewrite !Rabs_pos_eq by lra. field.
        + destruct i; discriminate.
      - intros H. exists 2, [xck_elem], xck_elem. destruct H as [->| ->]; [exists 0%nat|exists 1%nat]; (split; [left; reflexivity|]; split; [left; reflexivity|]).
        + exists 3, 4. split; [reflexivity|]. split; [reflexivity|]. cbn. rewrite !Rabs_pos_eq by lra. field.
        + exists 1, 0. split; [reflexivity|]. split; [reflexivity|]. cbn. rewrite !Rabs_pos_eq by lra. field. }
    pose proof (B (7 / 2) (proj2 (V _) (or_introl eq_refl))). destruct C as [C|C]; [lra|]. apply V in C. lra.
Qed.
(** A solution that starts with a number is let through; one that starts with NaN is not. *)
Example xck_sane : sanity_check [Num 1; Num 2] = Ok tt /\ sanity_check [NaN; Num 2] = Abort.
Proof. split; rewrite sanity_first; reflexivity. Qed.
(** Initial condition of two subdomains: two problems one after the other, then a run. *)
Example xck_ic : exists s, ofold (ic_step 0) [CProblem [Some (fun _ => 5); None]; CProblem [Some (fun _ => 7); Some (fun _ => 8)]; CStart] (ic_new 2) = Ok s /\
  ic_vels s = [Some 7; Some 7] /\ ic_ps s = [Some 8; Some 8].
Proof. eexists. split; [cbn; reflexivity|]. split; reflexivity. Qed.
