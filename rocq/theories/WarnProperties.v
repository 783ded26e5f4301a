(** Warnings before assembly: C141. *)
From Coq Require Import Reals List Bool Lia Arith ZArith Ascii String Lra.
From Verif Require Import Outcome LaBase MbModel MbSpec ProbModel ProbSpec ProbProofs ProbFormulaProofs ProbExamples BcModel BcSpec BcProofs BcFlowProofs BcExamples WarnModel WarnSpec WarnProofs.
Import ListNotations.
Local Open Scope string_scope.
Local Open Scope list_scope.
Local Open Scope R_scope.

(** Case: exw_warned, exw_silent *)
Theorem C141_poisson : forall gattr p s, NoDup gattr -> (0 < List.length gattr)%nat -> (forall a, In a gattr -> (0 < a)%Z) -> complete p (pb_sbdr p) -> fresh_for p (po_types s) -> sized gattr (po_types s) (po_bdr s) ->
  exists s', poisson_set gattr p s = Ok s' /\ forall ms, covered ms gattr -> truthful (poisson_check s') ms gattr (po_types s') (po_bdr s').
Proof. exact poisson_told. Qed.
Print Assumptions C141_poisson.

(** Case: exw_channel *)
Theorem C141_stokes : forall full_dg dim gattr meshes junk g p s s', NoDup gattr -> (0 < List.length gattr)%nat -> (forall a, In a gattr -> (0 < a)%Z) -> complete p (pb_vbdr p) -> fresh_for p (so_types s) -> sized gattr (so_types s) (so_ud s) ->
  stokes_set full_dg dim gattr meshes junk g p s = Ok s' -> forall ms, covered ms gattr -> truthful (stokes_check s') ms gattr (so_types s') (so_ud s').
Proof. exact stokes_told. Qed.
Print Assumptions C141_stokes.

(** Before a problem is set, the Poisson solver says that both are missing, the flow solver that the velocities are. Case: exb_attr *)
Theorem C141_new : forall gattr del x0, (0 < List.length gattr)%nat ->
  poisson_check (poisson_new gattr) = [WNoRhs; WNullRhs; WNullBdr] /\ stokes_check (stokes_new gattr del x0) = [WNullBdr].
Proof.
  intros gattr del x0 Lg. assert (N : @all_null coeff (repeat None (List.length gattr)) = true).
  { apply all_null_spec. intros b _. apply nth_repeat. }
  unfold poisson_check, stokes_check. cbn [poisson_new stokes_new po_rhs po_bdr so_ud so_rhs]. rewrite N.
  destruct gattr; [cbn in Lg; lia|]. split; reflexivity.
Qed.
Print Assumptions C141_new.

(** A problem for all boundaries after one whose boundaries here are natural: no condition is imposed, and no warning is given. *)
Theorem C141_held_refuted : exists gattr ms p1 p2 g1 g2 s s1 s2, configured "advdiff_flow_past_array" exq_g exq_flow p1 g1 /\ configured "poisson0" exq_g [] p2 g2 /\ covered ms gattr /\
  poisson_set gattr p1 (poisson_new gattr) = Ok s /\ poisson_set gattr p2 s = Ok s2 /\ poisson_set gattr p2 (poisson_new gattr) = Ok s1 /\
  weak_domain ms gattr (po_types s1) (po_bdr s1) = Ok [(0%nat, 0%nat, tt)] /\ weak_domain ms gattr (po_types s2) (po_bdr s2) = Ok [] /\
  poisson_check s = [WNullBdr] /\ poisson_check s1 = [] /\ poisson_check s2 = [].
Proof.
  destruct (exq_array "advdiff_flow_past_array" ltac:(cbn; tauto)) as (p1 & g1 & C1 & _). destruct (exb_plain "poisson0" ltac:(cbn; tauto) eq_refl) as (g2 & C2).
  destruct (array_types "advdiff_flow_past_array" _ _ _ _ ltac:(cbn; tauto) C1 ltac:(discriminate)) as (A & T & _). destruct (configured_fields _ _ _ _ _ C1) as (Sb & _).
  assert (T' : pb_types p1 = [BDirichlet; BNeumann; BNeumann; BDirichlet; BNeumann]).
  { rewrite T. replace (value "advdiff_flow_past_array" exq_flow "u0_x") with 1 by reflexivity. replace (value "advdiff_flow_past_array" exq_flow "u0_y") with 2 by reflexivity. unfold sides. destruct (Rlt_dec 0 1); [|lra]. destruct (Rlt_dec 0 2); [|lra]. reflexivity. }
  assert (Sb' : pb_sbdr p1 = pb_sbdr (proto "advdiff_flow_past_array")) by exact Sb. assert (Sv : exists a b c d e, pb_sbdr p1 = [Some a; b; c; Some d; e]) by (rewrite Sb'; do 5 eexists; reflexivity). destruct Sv as (a & b & c & d & e & Sv).
  exists [5%Z], [[5%Z]], p1, (proto "poisson0"), g1, g2, (PSolver [BNeumann] [None] [match pb_srhs p1 with Some f => CScalar f | None => CZero end]).
  do 2 eexists. split; [exact C1|]. split; [exact C2|]. split. { intros z [<-|[]]. exists [5%Z]. split; left; reflexivity. } split.
  { unfold poisson_set, poisson_case. rewrite A, T', Sv. reflexivity. }
  split; [vm_compute; reflexivity|]. split; [vm_compute; reflexivity|]. repeat split; reflexivity.
Qed.
Print Assumptions C141_held_refuted.

(** The elasticity solver never warns, with or without a displacement condition. *)
Theorem C141_elasticity_refuted : exists gattr ms p g s, configured "linelast_disp" exq_g [] p g /\ covered ms gattr /\ linelast_set gattr p (linelast_new gattr) = Ok s /\
  linelast_domain true ms gattr s = Ok [] /\ linelast_check s = [].
Proof.
  destruct (exb_plain "linelast_disp" ltac:(cbn; tauto) eq_refl) as (g & C). exists [9%Z], [[9%Z]], (proto "linelast_disp"), g.
  eexists. split; [exact C|]. split. { intros z [<-|[]]. exists [9%Z]. split; left; reflexivity. }
  split; [vm_compute; reflexivity|]. split; reflexivity.
Qed.
Print Assumptions C141_elasticity_refuted.
