(** Problems with and without a Dirichlet condition on the boundaries that the domain has. *)
From Coq Require Import Reals List Bool Lia Arith ZArith Ascii String Lra.
From Verif Require Import Outcome LaBase MbModel ProbModel ProbSpec ProbProofs ProbFormulaProofs ProbExamples BcModel BcSpec BcProofs BcFlowProofs BcExamples WarnModel WarnSpec WarnProofs WarnProperties.
Import ListNotations.
Local Open Scope string_scope.
Local Open Scope list_scope.
Local Open Scope R_scope.

Definition exw_ms : list (list Z) := [[1; 2; 5]; [3; 4; 5]]%Z.
Lemma exw_covered : covered exw_ms exb_attr.
Proof.
  intros a H. cbn in H. destruct H as [<-|[<-|[<-|[<-|[<-|[]]]]]].
  all: try (exists [1; 2; 5]%Z; split; [left; reflexivity|cbn; tauto]).
  all: exists [3; 4; 5]%Z; split; [right; left; reflexivity|cbn; tauto].
Qed.

(** One function for all boundaries: imposed on every boundary of each subdomain, no warning *)
Example exw_silent : exists s', poisson_set exb_attr (proto "poisson_component") (poisson_new exb_attr) = Ok s' /\ poisson_check s' = [] /\
  weak_domain exw_ms exb_attr (po_types s') (po_bdr s') = Ok [(0, 0, tt); (0, 1, tt); (0, 4, tt); (1, 2, tt); (1, 3, tt); (1, 4, tt)]%nat.
Proof. eexists. split; [vm_compute; reflexivity|]. split; reflexivity. Qed.
Example exw_silent_by_theorem : exists s', poisson_set exb_attr (proto "poisson_component") (poisson_new exb_attr) = Ok s' /\ truthful (poisson_check s') exw_ms exb_attr (po_types s') (po_bdr s').
Proof.
  destruct exb_attr_ok as (A & B & D). destruct exb_poisson_all as (_ & C & Fr).
  destruct (C141_poisson exb_attr (proto "poisson_component") (poisson_new exb_attr) A B D C Fr) as (s' & E & T); [split; apply repeat_length|].
  exists s'. split; [exact E|apply T; exact exw_covered].
Qed.

(** A channel of which the domain has the outlet only *)
Definition exw_open : problem := with_bdr (base_problem "") [2; 4]%Z [BNeumann; BDirichlet] [None; Some SMu] [].
Example exw_warned : exists s', poisson_set [2%Z] exw_open (poisson_new [2%Z]) = Ok s' /\ poisson_check s' = [WNullBdr] /\ weak_domain [[2%Z]] [2%Z] (po_types s') (po_bdr s') = Ok [].
Proof. eexists. split; [vm_compute; reflexivity|]. split; reflexivity. Qed.
Example exw_warned_by_theorem : exists s', poisson_set [2%Z] exw_open (poisson_new [2%Z]) = Ok s' /\ truthful (poisson_check s') [[2%Z]] [2%Z] (po_types s') (po_bdr s').
Proof.
  destruct (C141_poisson [2%Z] exw_open (poisson_new [2%Z])) as (s' & E & T).
  - apply nodup_z_ok. reflexivity.
  - cbn. lia.
  - intros a. apply exb_pos. reflexivity.
  - apply completeb_ok. reflexivity.
  - left. apply listedb_ok. reflexivity.
  - split; reflexivity.
  - exists s'. split; [exact E|]. apply T. intros z [<-|[]]. exists [2%Z]. split; left; reflexivity.
Qed.

(** The channel flow has an inlet and walls: no warning *)
Example exw_channel g : exists s', stokes_set false 2 exb_attr [] None g (proto "channel_flow") (stokes_new exb_attr (Some 0) (Some [0; 0])) = Ok s' /\
  truthful (stokes_check s') exw_ms exb_attr (so_types s') (so_ud s') /\ ~ In WNullBdr (stokes_check s').
Proof.
  destruct (exb_channel g) as (s' & E & _). exists s'. split; [exact E|]. destruct exb_attr_ok as (A & B & D). destruct (exb_listed "channel_flow" ltac:(cbn; tauto)) as (L & C).
  split; [apply (C141_stokes _ _ _ _ _ _ _ _ _ A B D C (or_introl L) (stokes_new_sized _ _ _) E); exact exw_covered|].
  destruct (stokes_conditions _ _ _ _ _ _ _ _ _ A B D C (or_introl L) (stokes_new_sized _ _ _) E) as ((_ & Ln) & V & R & _).
  unfold stokes_check. rewrite !in_app_iff, !in_warn. intros [(_ & X)|[(_ & X)|(X & _)]]; try discriminate.
  rewrite all_null_spec in X. specialize (X 0%nat ltac:(rewrite Ln; cbn; lia)). destruct (V 0%nat 1%Z eq_refl) as (_ & V0). rewrite V0 in X. vm_compute in X. discriminate X.
Qed.
