(** Time integration: theorems. *)
From Coq Require Import Reals List Bool Lia Arith ZArith Ascii String Lra Sorted.
From Verif Require Import Outcome LaBase BlockVec MbModel MbSpec IntegModel UnsteadyModel UnsteadySpec UnsteadyStepProofs UnsteadyLoopProofs UnsteadyRunProofs UnsteadyExamples.
Import ListNotations.
Local Open Scope list_scope.
Local Open Scope R_scope.

(** ** C56 *)

(** The restart file of a step holds the solution of the last step at which it had been copied back, with this step's number and time. *)
Theorem C56_files : forall c o vs rhs restart ic junk junk' s first t0 u0 f0, setup_ok c o vs -> writable c -> sub_shaped (uc_ns c) 2 vs rhs ->
  sub_shaped (uc_ns c) 2 vs (us_U s) -> starts c restart ic s first t0 u0 f0 -> (0 <= first)%Z ->
  List.length junk = (nu (uc_ns c) vs + np (uc_ns c) vs)%nat -> List.length junk' = (nu (uc_ns c) vs + np (uc_ns c) vs)%nat ->
  let n := Z.to_nat (uc_nt c - first) in
  exists s' Y Us, unsteady_solve c o rhs restart ic junk junk' s = Ok s' /\ trajectory c o vs rhs u0 t0 n Y Us /\
    (forall i, (1 <= i <= n)%nat -> saved c (first + Z.of_nat i) -> exists j, copied c first i j /\
       us_files s' (restart_name (uc_sol c) (first + Z.of_nat i)) = Some (restart_file (Us j) (first + Z.of_nat i) (t0 + INR i * uc_dt c))) /\
    (forall x, (forall i, (1 <= i <= n)%nat -> saved c (first + Z.of_nat i) -> x <> restart_name (uc_sol c) (first + Z.of_nat i)) -> us_files s' x = f0 x).
Proof.
  intros c o vs rhs restart ic junk junk' s first t0 u0 f0 Hs Hw Hr Hu St Hf L L' n.
  destruct (run_ok c o vs Hs Hw rhs Hr restart ic junk junk' s first t0 u0 f0 Hu St Hf L L') as (s' & Y & Us & E & [A _ _ _ _ B C]). exists s', Y, Us. auto.
Qed.
Print Assumptions C56_files.

(** Missing: steps at which no visualization was due (see the refutation). The run [s1] may itself be a restarted one. *)
Theorem C56_restart_partial : forall c o vs rhs restart ic junk junk' s first t0 u0 f0 s1 k, setup_ok c o vs -> writable c -> sub_shaped (uc_ns c) 2 vs rhs ->
  sub_shaped (uc_ns c) 2 vs (us_U s) -> starts c restart ic s first t0 u0 f0 -> (0 <= first)%Z ->
  List.length junk = (nu (uc_ns c) vs + np (uc_ns c) vs)%nat -> List.length junk' = (nu (uc_ns c) vs + np (uc_ns c) vs)%nat ->
  unsteady_solve c o rhs restart ic junk junk' s = Ok s1 -> (first + Z.of_nat k <= uc_nt c)%Z -> sc_save (uc_sol c) = true ->
  (k = O /\ restart = None \/ (1 <= k)%nat /\ saved c (first + Z.of_nat k) /\ on_schedule (uc_vint c) (first + Z.of_nat k)) ->
  forall s2 ic2 junk2 junk2', us_files s2 = us_files s1 -> bv_off (us_U s2) = bv_off (us_U s) -> sub_shaped (uc_ns c) 2 vs (us_U s2) ->
  List.length junk2 = List.length junk -> List.length junk2' = List.length junk ->
  exists s3, unsteady_solve c o rhs (Some (restart_name (uc_sol c) (first + Z.of_nat k))) ic2 junk2 junk2' s2 = Ok s3 /\
    us_U s3 = us_U s1 /\ us_time s3 = us_time s1 /\ (forall x, us_files s3 x = us_files s1 x) /\
    exists Y Us la lb, trajectory c o vs rhs u0 t0 (Z.to_nat (uc_nt c - first)) Y Us /\
      us_snaps s1 = us_snaps s ++ map Us la ++ map Us lb /\ us_snaps s3 = us_snaps s2 ++ map Us lb /\
      (forall i, In i la -> (i <= k)%nat) /\ (forall i, In i lb -> (k < i)%nat).
Proof.
  intros c o vs rhs restart ic junk junk' s first t0 u0 f0 s1 k Hs Hw Hr Hu St Hf L L' E Hn Sv Hk s2 ic2 j2 j2' Ef Oo S2 L2 L2'.
  destruct (run_ok c o vs Hs Hw rhs Hr restart ic junk junk' s first t0 u0 f0 Hu St Hf L L') as (s' & Y & Us & E' & R). rewrite E in E'. injection E' as <-.
  assert (Ou : bv_off u0 = bv_off (us_U s)) by (destruct restart; cbn [starts] in St; tauto).
  destruct (restart_ok c o vs Hs Hw rhs Hr first t0 u0 f0 (us_snaps s) (us_vis s) s1 Y Us k R Hf Hn Sv) with (s2 := s2) (ic := ic2) (junk := j2) (junk' := j2') as (s3 & E3 & A & B & C & la & lb & D); auto; try congruence.
  - destruct Hk as [(-> & ->)|Hk]; auto. left. split; auto. cbn [starts] in St. destruct St as (-> & -> & _ & _ & _ & F & _). auto.
  - exists s3. split; auto. split; auto. split; auto. split; auto. exists Y, Us, la, lb. split; [apply R|auto].
Qed.
Print Assumptions C56_restart_partial.

(** With no visualization in between, the restart file is stale and the restarted run ends elsewhere. *)
Theorem C56_restart_refuted : exists c o vs rhs s s1 s3 step, setup_ok c o vs /\ writable c /\ sub_shaped (uc_ns c) 2 vs rhs /\ sub_shaped (uc_ns c) 2 vs (us_U s) /\
  saved c step /\ (0 < step < uc_nt c)%Z /\
  unsteady_solve c o rhs None None [0; 0] [0; 0] s = Ok s1 /\
  unsteady_solve c o rhs (Some (restart_name (uc_sol c) step)) None [0; 0] [0; 0] (USt (us_U s) (us_step s) (us_rhs s) 0 (us_files s1) [] []) = Ok s3 /\
  us_time s3 = us_time s1 /\ us_U s3 <> us_U s1.
Proof.
  set (c := exu_cfg 0). set (s := exu_st (fun _ => None)).
  pose proof (exu_ok 0) as Hs. pose proof (exu_writable 0) as Hw. pose proof (exu_shaped [1; 0] eq_refl) as Hr. pose proof (exu_shaped [0; 0] eq_refl) as Hu.
  destruct (starts_fresh c None s) as (u0 & f0 & St); [discriminate|].
  destruct (run_ok c exu_ops exu_vs Hs Hw exu_rhs Hr None None [0; 0] [0; 0] s 0 0 u0 f0 Hu St (Z.le_refl 0) eq_refl eq_refl) as (s1 & Y & Us & E1 & R1).
  cbn [starts] in St. destruct St as (_ & _ & O0 & D0 & _).
  assert (F1 : us_files s1 (restart_name (uc_sol c) 1) = Some (restart_file u0 1 1)).
  { destruct R1 as [T _ _ _ _ F _]. destruct (F 1%nat) as (j & Cj & Q); [cbn; lia| |].
    - split; [reflexivity|]. split; [discriminate|]. exists 1%Z. reflexivity.
    - assert (j = 0%nat). { eapply copied_unique; [exact Cj|]. split; [lia|]. split; [auto|]. intros i _. split; [intros (N & _); apply N; reflexivity|]. intros _ (G & _). discriminate. }
      subst j. destruct T as (T & _). rewrite T in Q. change (0 + Z.of_nat 1)%Z with 1%Z in Q. etransitivity; [exact Q|]. replace (0 + INR 1 * uc_dt c) with 1 by (cbn; ring). reflexivity. }
  set (s2 := USt (us_U s) (us_step s) (us_rhs s) 0 (us_files s1) [] []).
  destruct (run_ok c exu_ops exu_vs Hs Hw exu_rhs Hr (Some (restart_name (uc_sol c) 1)) None [0; 0] [0; 0] s2 1 1 u0 (us_files s1)) as (s3 & Y3 & Us3 & E3 & R3); auto; try lia.
  { split; [exact F1|]. split; [exact O0|]. split; [rewrite D0; reflexivity|reflexivity]. }
  exists c, exu_ops, exu_vs, exu_rhs, s, s1, s3, 1%Z. split; [auto|]. split; [auto|]. split; [auto|]. split; [auto|].
  split; [split; [reflexivity|split; [discriminate|exists 1%Z; reflexivity]]|]. split; [cbn; lia|]. split; [auto|]. split; [auto|].
  destruct R1 as [T1 U1 M1 _ _ _ _]. destruct R3 as [T3 U3 M3 _ _ _ _]. split.
  - rewrite M1, M3. cbn. change (Pos.to_nat 2) with 2%nat. change (Pos.to_nat 3) with 3%nat. cbn. ring.
  - rewrite U1, U3. intros C. apply (f_equal (fun u => vnth (bv_dat u) 0)) in C.
    rewrite (exu_run 0 _ _ _ _ _ _ T1 O0 (le_n _)) in C. rewrite (exu_run 0 _ _ _ _ _ _ T3 O0 (le_n _)) in C.
    cbn in C. change (Pos.to_nat 2) with 2%nat in C. change (Pos.to_nat 3) with 3%nat in C. cbn in C. lra.
Qed.
Print Assumptions C56_restart_refuted.

(** ** C57 *)

Theorem C57_schedule : forall c o vs rhs restart ic junk junk' s first t0 u0 f0, setup_ok c o vs -> writable c -> sub_shaped (uc_ns c) 2 vs rhs ->
  sub_shaped (uc_ns c) 2 vs (us_U s) -> starts c restart ic s first t0 u0 f0 -> (0 <= first)%Z ->
  List.length junk = (nu (uc_ns c) vs + np (uc_ns c) vs)%nat -> List.length junk' = (nu (uc_ns c) vs + np (uc_ns c) vs)%nat ->
  let n := Z.to_nat (uc_nt c - first) in
  exists s' Y Us l, unsteady_solve c o rhs restart ic junk junk' s = Ok s' /\ trajectory c o vs rhs u0 t0 n Y Us /\
    us_U s' = Us n /\ us_time s' = t0 + INR n * uc_dt c /\
    us_snaps s' = us_snaps s ++ map Us l /\ picks l n (fun i => sampled c (first + Z.of_nat i)).
Proof.
  intros c o vs rhs restart ic junk junk' s first t0 u0 f0 Hs Hw Hr Hu St Hf L L' n.
  destruct (run_ok c o vs Hs Hw rhs Hr restart ic junk junk' s first t0 u0 f0 Hu St Hf L L') as (s' & Y & Us & E & [A B C (l & D1 & D2) _ _ _]). exists s', Y, Us, l. split; [exact E|auto].
Qed.
Print Assumptions C57_schedule.

(** Output for visualization: once at the start, labelled step 0, then at the multiples of the interval. *)
Theorem C57_visualization : forall c o vs rhs restart ic junk junk' s first t0 u0 f0, setup_ok c o vs -> writable c -> sub_shaped (uc_ns c) 2 vs rhs ->
  sub_shaped (uc_ns c) 2 vs (us_U s) -> starts c restart ic s first t0 u0 f0 -> (0 <= first)%Z ->
  List.length junk = (nu (uc_ns c) vs + np (uc_ns c) vs)%nat -> List.length junk' = (nu (uc_ns c) vs + np (uc_ns c) vs)%nat ->
  let n := Z.to_nat (uc_nt c - first) in
  exists s' Y Us l, unsteady_solve c o rhs restart ic junk junk' s = Ok s' /\ trajectory c o vs rhs u0 t0 n Y Us /\
    us_vis s' = us_vis s ++ (if uc_vsave c then [(0%Z, t0, u0)] else []) ++ map (fun i => ((first + Z.of_nat i)%Z, t0 + INR i * uc_dt c, Us i)) l /\
    picks l n (fun i => uc_vsave c = true /\ on_schedule (uc_vint c) (first + Z.of_nat i)).
Proof.
  intros c o vs rhs restart ic junk junk' s first t0 u0 f0 Hs Hw Hr Hu St Hf L L' n.
  destruct (run_ok c o vs Hs Hw rhs Hr restart ic junk junk' s first t0 u0 f0 Hu St Hf L L') as (s' & Y & Us & E & [A _ _ _ (l & D1 & D2) _ _]). exists s', Y, Us, l. split; [exact E|auto].
Qed.
Print Assumptions C57_visualization.

(** ** C93 *)

(** Each step of a run satisfies the semi-implicit Euler scheme, if the linear solver solves the systems it is given. *)
Theorem C93_scheme : forall c o vs rhs restart ic junk junk' s first t0 u0 f0 visc Bt B uu, setup_ok c o vs -> writable c -> sub_shaped (uc_ns c) 2 vs rhs ->
  sub_shaped (uc_ns c) 2 vs (us_U s) -> starts c restart ic s first t0 u0 f0 -> (0 <= first)%Z ->
  List.length junk = (nu (uc_ns c) vs + np (uc_ns c) vs)%nat -> List.length junk' = (nu (uc_ns c) vs + np (uc_ns c) vs)%nat ->
  uu_matrix (uc_ns c) (fo_u (uc_fo c)) (uo_mass o) (uc_dt c) visc = Ok uu ->
  (uc_pdbc c = false -> forall i, (i < nu (uc_ns c) vs)%nat -> rsum (np (uc_ns c) vs) (fun q => Bt i q) = 0) ->
  (forall t y r, step_rhs c o vs rhs t y r -> solves (nu (uc_ns c) vs) (np (uc_ns c) vs) uu Bt B (uo_solve o r) r) ->
  let ns := uc_ns c in let n := Z.to_nat (uc_nt c - first) in
  exists s' Y Us, unsteady_solve c o rhs restart ic junk junk' s = Ok s' /\ Us O = u0 /\ Us n = us_U s' /\
    (forall k, (k <= n)%nat -> same_solution ns vs (Y k) (Us k)) /\
    forall i, (i < n)%nat -> let t := t0 + INR i * uc_dt c in
      (forall m k, (m < ns)%nat -> (k < vs m 0)%nat ->
         / uc_dt c * rsum (vs m 0%nat) (fun j => uo_mass o m k j * (vnth (Y (S i)) (vpos vs m j) - vnth (Y i) (vpos vs m j)))
         + rsum (nu ns vs) (fun q => visc (vpos vs m k) q * vnth (Y (S i)) q) + rsum (np ns vs) (fun q => Bt (vpos vs m k) q * vnth (Y (S i)) (nu ns vs + q))
         + (vnth (uo_hs o t m (vpart vs (Y i) m)) k + vnth (uo_itf o t (firstn (nu ns vs) (Y i))) (vpos vs m k)) = bentry rhs (by_sub 2 m 0) k) /\
      (forall m k, (m < ns)%nat -> (k < vs m 1)%nat ->
         rsum (nu ns vs) (fun q => B (nsum m (fun m => vs m 1%nat) + k)%nat q * vnth (Y (S i)) q) = bentry rhs (by_sub 2 m 1) k) /\
      (uc_pdbc c = false -> (0 < np ns vs)%nat -> rsum (np ns vs) (fun q => vnth (Y (S i)) (nu ns vs + q)) = 0).
Proof.
  intros c o vs rhs restart ic junk junk' s first t0 u0 f0 visc Bt B uu Hs Hw Hr Hu St Hf L L' Eu Hb Hsol ns n.
  destruct (run_ok c o vs Hs Hw rhs Hr restart ic junk junk' s first t0 u0 f0 Hu St Hf L L') as (s' & Y & Us & E & [(A0 & A1 & A2) U _ _ _ _ _]). exists s', Y, Us. split; [exact E|].
  split; [exact A0|]. split; [auto|]. split; [intros k Hk; apply A1; exact Hk|]. intros i Hi t.
  exact (scheme_ok c o vs Hs rhs visc Bt B uu t (Y i) (Y (S i)) Eu (Hsol t (Y i)) Hb (A2 i Hi)).
Qed.
Print Assumptions C93_scheme.
