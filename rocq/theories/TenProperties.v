(** C125, C126, C127: convection tensors. *)
From Coq Require Import ZArith List Bool String Lia.
From Verif Require Import Outcome HdfModel HdfSpec LaBase TenModel TenSpec TenProofs TenOwnProofs TenFileProofs TenExamples.
Import ListNotations.
Local Open Scope nat_scope.
Local Open Scope string_scope.
Local Open Scope list_scope.

(** ** C125 *)

(** Building at the level of components succeeds and touches one file only; whoever loads that file afterwards solves,
    in each subdomain, with the tensor that was built for the component of the same name, whatever its number was. *)
Theorem C125_tensors_follow_names : forall (D M : Type) A redA subA (projA : M) prefix (d : disk D M),
  by_tensors A -> NoDup (s_names A) -> (forall i, i < num_comp A -> good_tensor (redA i)) ->
  exists s1 d1, run A redA subA projA (build_component prefix) d = Ok (s1, d1) /\
    (forall n, n <> tensor_file prefix -> d1 n = d n) /\
    forall B redB subB projB d2, by_tensors B -> (forall t, In t (s_types B) -> t < num_comp B) ->
      (forall nm, In nm (s_names B) -> In nm (s_names A)) -> d2 (tensor_file prefix) = d1 (tensor_file prefix) ->
      exists s2 ts, run B redB subB projB (run_component prefix) d2 = Ok (s2, d2) /\
        solve_tensors B s2 = Ok ts /\ List.length ts = num_sub B /\
        forall m nm j, instance_of B m nm -> nth_error (s_names A) j = Some nm ->
          exists t, nth_error ts m = Some t /\ same_tensor (redA j) t.
Proof.
  intros D M A redA subA projA prefix d HA Nd Hg. destruct (build_run A redA subA projA prefix d HA Nd Hg) as (s1 & d1 & E & (f & g & E1 & E2) & Hd).
  exists s1, d1. split; [exact E|]. split; [exact Hd|]. intros B redB subB projB d2 HB Ht Hn Ed.
  destruct (load_run B redB subB projB prefix d2 (s_names A) redA HB Ht) as (s2 & ts & R & S & L & K); auto.
  { exists f, g. rewrite Ed. auto. }
  exists s2, ts. split; [auto|]. split; [auto|]. split; [auto|]. intros m nm j Hi Hj. apply (K m nm j Hi Hj Nd).
Qed.
Print Assumptions C125_tensors_follow_names.

Example C125_example : by_tensors tx_build /\ NoDup (s_names tx_build) /\ (forall i, i < num_comp tx_build -> good_tensor (tx_red i)) /\
  by_tensors tx_use /\ instance_of tx_use 2 "square" /\ nth_error (s_names tx_build) 1 = Some "square".
Proof. destruct tx_by. repeat split; try apply tx_good; try apply tx_nodup; auto. exists 0. auto. Qed.

(** A component without a tensor in the file is refused. *)
Theorem C125_missing_component : forall (D M : Type) A redA subA (projA : M) prefix (d : disk D M),
  by_tensors A -> NoDup (s_names A) -> (forall i, i < num_comp A -> good_tensor (redA i)) ->
  exists s1 d1, run A redA subA projA (build_component prefix) d = Ok (s1, d1) /\
    forall B redB subB projB nm, by_tensors B -> In nm (s_names B) -> ~ In nm (s_names A) ->
      run B redB subB projB (run_component prefix) d1 = Abort.
Proof.
  intros D M A redA subA projA prefix d HA Nd Hg. destruct (build_run A redA subA projA prefix d HA Nd Hg) as (s1 & d1 & E & T & _).
  exists s1, d1. split; [exact E|]. intros B redB subB projB nm HB Hi Hn. apply (load_missing B redB subB projB prefix d1 (s_names A) redA nm); auto.
Qed.
Print Assumptions C125_missing_component.

(** ** C126 *)

(** Whatever calls were made, and in whatever order, destroying the solver releases nothing twice, as long as elements are
    assembled only when the building level is the component. *)
Theorem C126_never_twice : forall (D M : Type) c red sub (proj : M) ks (d : disk D M) s d',
  s_rom c = true -> ks <> [] -> (In AssembleNlin ks -> s_nl c = NlTensor -> s_level c = LevComponent) ->
  run c red sub proj ks d = Ok (s, d') ->
  exists fl, destroy c s = Ok fl /\ List.length fl = List.length (v_heap s).
Proof.
  intros D M c red sub proj ks d s d' R Hk Ha E. destruct (run_sound c red sub proj ks d s d' Ha E) as ((Nd & B) & H).
  assert (Hh : v_handler s = true) by auto.
  rewrite destroy_eq by auto. destruct (free_all_ok (members c s) (repeat false (List.length (v_heap s))) Nd) as (fl & E2 & L & _).
  - intros i Hi. specialize (B i Hi). revert i B Hi. generalize (List.length (v_heap s)) as n. induction n; intros i B Hi; [lia|].
    clear Hi. revert i B. clear. induction (S n) as [|k IH]; intros i B; [lia|]. destruct i; cbn; auto. apply IH. lia.
  - exists fl. rewrite repeat_length in L. auto.
Qed.
Print Assumptions C126_never_twice.

(** If moreover each member is set at most once, every tensor, form and interface form is released. *)
Theorem C126_all_released : forall (D M : Type) c red sub (proj : M) ks (d : disk D M) s d',
  s_rom c = true -> (s_lf c = true -> s_nl c = NlEqp) -> once_each c ks ->
  run c red sub proj ks d = Ok (s, d') -> destroy c s = Ok (repeat true (List.length (v_heap s))).
Proof.
  intros D M c red sub proj ks d s d' R Lf O E.
  destruct (run_sound c red sub proj ks d s d' (oe_assemble _ _ O) E) as ((Nd & B) & H).
  assert (Hk : ks <> []) by (intros ->; pose proof (oe_init _ _ O); discriminate).
  pose proof (run_tidy c red sub proj ks d s d' O Lf E) as T.
  assert (Hr : forall b n i, i < n -> nth_error (repeat b n) i = Some (b : bool)).
  { intros b n. induction n; intros i Hi; [lia|]. destruct i; cbn; auto. apply IHn. lia. }
  rewrite destroy_eq by auto. destruct (free_all_ok (members c s) (repeat false (List.length (v_heap s))) Nd) as (fl & E2 & L & K).
  - intros i Hi. apply Hr. auto.
  - rewrite E2. f_equal. rewrite repeat_length in L. apply nth_error_ext. intros i. rewrite K.
    destruct (Nat.lt_ge_cases i (List.length (v_heap s))) as [Hi|Hi].
    + destruct (in_dec Nat.eq_dec i (ptrs (members c s))) as [_|Hn]; [rewrite Hr; auto|]. exfalso. apply Hn. apply (ti_all _ _ _ T). auto.
    + destruct (in_dec Nat.eq_dec i (ptrs (members c s))) as [Hn|_]; [specialize (B i Hn); lia|].
      transitivity (@None bool); [|symmetry]; apply nth_error_None; rewrite repeat_length; auto.
Qed.
Print Assumptions C126_all_released.

(** The workflows qualify. *)
Theorem C126_workflows : forall c prefix name,
  once_each c (build_component prefix) /\ (s_level c = LevComponent -> once_each c (run_component prefix)) /\
  (s_level c <> LevComponent -> once_each c (build_global name)) /\ once_each c (run_global name) /\
  (s_level c <> LevComponent -> once_each c run_none).
Proof.
  intros c prefix name. repeat split; cbn; auto; intros; intuition discriminate.
Qed.
Print Assumptions C126_workflows.

Example C126_example : exists s, run tx_use tx_red tx_red 7 (run_component "rom") tx_saved = Ok (s, tx_saved) /\
  once_each tx_use (run_component "rom") /\ List.length (v_heap s) = 2 /\ List.length (v_st s) = 3.
Proof. eexists. split; [vm_compute; reflexivity|]. split; [apply C126_workflows; auto; exact "x"|]. auto. Qed.

(** A solver for which a reduced model was asked but not set up is destroyed through a null pointer. *)
Theorem C126_no_handler_refuted : exists c : setup, s_rom c = true /\ destroy c (@new_ns Z nat) = UB.
Proof. exists tx_use. split; reflexivity. Qed.
Print Assumptions C126_no_handler_refuted.

(** Elements assembled although the building level is another one are released twice. *)
Theorem C126_other_level_refuted : exists c (d : disk Z nat) s, s_rom c = true /\ s_level c = LevGlobal /\
  run c tx_red tx_red 7 (run_component "rom") d = Ok (s, d) /\ destroy c s = UB.
Proof. exists (tx_other ["square"; "empty"] LevGlobal NlTensor false true), tx_saved. eexists. split; [reflexivity|]. split; [reflexivity|]. split; vm_compute; reflexivity. Qed.
Print Assumptions C126_other_level_refuted.

(** Loading the elements once more loses the first ones. *)
Theorem C126_loaded_again_refuted : exists c (d : disk Z nat) s fl, s_rom c = true /\
  run c tx_red tx_red 7 (run_component "rom" ++ [LoadElems "rom"]) d = Ok (s, d) /\ destroy c s = Ok fl /\ nth_error fl 0 = Some false.
Proof. exists tx_use, tx_saved. eexists. eexists. split; [reflexivity|]. split; [vm_compute; reflexivity|]. split; [vm_compute; reflexivity|]. reflexivity. Qed.
Print Assumptions C126_loaded_again_refuted.

(** Building a reduced model while [use_rom] is off releases nothing. *)
Theorem C126_built_without_refuted : exists c (d : disk Z nat) s d' fl, s_rom c = false /\
  run c tx_red tx_red 7 (build_component "rom") d = Ok (s, d') /\ destroy c s = Ok fl /\ fl = [false; false].
Proof. exists (tx_other ["square"; "empty"] LevComponent NlTensor false false), tx_disk. eexists. eexists. eexists. split; [reflexivity|]. split; [vm_compute; reflexivity|]. split; vm_compute; reflexivity. Qed.
Print Assumptions C126_built_without_refuted.

(** ** C127 *)

(** The operator and the tensors of all subdomains saved by one run are those that a later run under the same prefix
    loads from the same name, as long as nothing is saved in between. *)
Theorem C127_same_name : forall (D M : Type) A redA subA (projA : M) name (d : disk D M),
  by_tensors A -> s_level A = LevGlobal -> name <> tensor_file (s_prefix A) ->
  (forall i, i < num_sub A -> good_tensor (subA i)) ->
  exists s1 d1, run A redA subA projA (build_global name) d = Ok (s1, d1) /\
    forall B redB subB projB, by_tensors B -> s_level B = LevGlobal -> s_prefix B = s_prefix A -> num_sub B = num_sub A ->
      exists s2 ts, run B redB subB projB (run_global name) d1 = Ok (s2, d1) /\ v_mat s2 = Some projA /\
        solve_tensors B s2 = Ok ts /\ List.length ts = num_sub A /\
        forall m, m < num_sub A -> exists t, nth_error ts m = Some t /\ same_tensor (subA m) t.
Proof.
  intros D M A redA subA projA name d HA LA Hne Hg.
  destruct (build_global_run A redA subA projA name d HA LA Hne Hg) as (s1 & d1 & E & Em & Et & _).
  exists s1, d1. split; [exact E|]. intros B redB subB projB HB LB Hp Hn. rewrite <- Hp in Et.
  destruct (load_global_run B redB subB projB name d1 projA subA (num_sub A) HB LB Em Et) as (s2 & ts & R & Mx & S & L & K); [lia|].
  exists s2, ts. rewrite <- Hn. auto 10.
Qed.
Print Assumptions C127_same_name.

Example C127_example : by_tensors tx_glob /\ s_level tx_glob = LevGlobal /\ "rom.h5" <> tensor_file (s_prefix tx_glob) /\
  (forall i, i < num_sub tx_glob -> good_tensor (tx_red i)).
Proof. repeat split; try apply tx_good; auto. cbn. discriminate. Qed.

(** Saving to a second name replaces the tensors that belong to the first name: what is loaded from the first name is its
    own matrix with the tensors saved last. *)
Theorem C127_other_name_refuted : exists c (d1 d2 : disk Z nat) s1 s2 s3,
  run c tx_red tx_red 1 (build_global "first.h5") tx_disk = Ok (s1, d1) /\
  run c tx_red (fun i => tx_red (1 - i)) 2 (build_global "second.h5") d1 = Ok (s2, d2) /\
  run c tx_red tx_red 1 (run_global "first.h5") d2 = Ok (s3, d2) /\ v_mat s3 = Some 1 /\
  exists t, solve_tensors c s3 = Ok t /\ nth_error t 0 = Some (tx_red 1) /\ tx_red 1 <> tx_red 0.
Proof.
  exists tx_glob. eexists. eexists. eexists. eexists. eexists. split; [vm_compute; reflexivity|]. split; [vm_compute; reflexivity|]. split; [vm_compute; reflexivity|]. split; [vm_compute; reflexivity|].
  eexists. split; [vm_compute; reflexivity|]. split; [vm_compute; reflexivity|]. discriminate.
Qed.
Print Assumptions C127_other_name_refuted.
