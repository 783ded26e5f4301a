(** Properties of the drivers. *)
From Coq Require Import List Bool String Reals Lra Arith Lia.
From Verif Require Import Outcome DriveModel DriveSpec DriveProofs DriveReportProofs DriveExamples.
Import ListNotations.
Open Scope string_scope.
Open Scope list_scope.

Section Properties.
  Context {Par Vec Oper Samp Bas Sup Lin Ten Eqp RMat NlT NlE Red : Type}.
  Notation numerics := (@numerics Par Vec Oper Samp Bas Sup Lin Ten Eqp RMat NlT NlE Red).
  Notation disk := (@disk Vec Bas Sup Lin Ten Eqp RMat NlT Red).

  (** ** C99 *)

  (** Training, building and running in turn solves the reduced problem made of what these stages produced, whatever files there were before. *)
  Theorem C99_pipeline : forall (num : numerics) c x pb pr out clock (d : disk) u0,
    can_run c -> NoDup (stage_files c) -> starts_from c d u0 -> comparable c d ->
    exists r, pipeline num c x pb pr out clock d = Ok r /\
      r_solution r = lift num (trained num c x) (reduced_answer num c x pb pr u0).
  Proof. intros. apply pipeline_ok; assumption. Qed.

  (** No other configuration gets through. *)
  Theorem C99_only : forall (num : numerics) c x pb pr out clock (d : disk) r,
    c_rom c = true -> pipeline num c x pb pr out clock d = Ok r -> can_run c.
  Proof. intros num c x pb pr out clock d r. apply pipeline_can. Qed.

  (** The solution of a run depends on no file but the ones named. *)
  Theorem C99_inputs : forall (num : numerics) c p out clock out' clock' (d d' : disk) r r',
    agree (run_inputs c) d d' -> single_run num c p out clock d = Ok r -> single_run num c p out' clock' d' = Ok r' ->
    r_solution r' = r_solution r.
  Proof.
    intros num c p out clock out' clock' d d' r r' A E E'. destruct (c_rom c) eqn:Hr.
    - apply run_rom_iff in E; [|exact Hr]. apply run_rom_iff in E'; [|exact Hr].
      destruct E as (b & f & y & u & d1 & u1 & rep & d2 & E1 & _ & E2 & ->). destruct E' as (b' & f' & y' & u' & d1' & u1' & rep' & d2' & E1' & _ & E2' & ->).
      rewrite (run_reads num c p d d' Hr A), E1 in E1'. inversion E1'; subst b' f' y' u'. apply compare_inv in E2. apply compare_inv in E2'. destruct E2 as [-> _]. destruct E2' as [-> _]. reflexivity.
    - apply run_fom_iff in E; [|exact Hr]. apply run_fom_iff in E'; [|exact Hr]. destruct E as (_ & _ & u & E & ->). destruct E' as (_ & _ & u' & E' & ->).
      cbn. unfold agree, run_inputs in A. rewrite Hr in A. unfold solve_fom in E, E'. destruct (nonlinear (c_phys c)) eqn:N.
      + assert (Er : restart_state c d' = restart_state c d). { unfold restart_state, read_sol. destruct (c_restart c) as [z|]; [|reflexivity]. rewrite A; [reflexivity|]. left. reflexivity. }
        rewrite Er, E in E'. inversion E'. reflexivity.
      + rewrite E in E'. inversion E'. reflexivity.
  Qed.

  (** ** C100 *)

  (** Once the reduced model is built, the run finds everything it needs. *)
  Theorem C100_built : forall (num : numerics) c pb pr out clock (d d' : disk),
    NoDup (stage_files c) -> c_phys c <> UnsteadyNS -> (c_phys c = SteadyNS -> c_nl c = HTensor /\ c_oper c = OBase) ->
    (nonlinear (c_phys c) = true -> c_restart c = None) -> c_compare c = false ->
    build_rom num c pb d = Ok d' -> exists r, single_run num c pr out clock d' = Ok r.
  Proof.
    intros num c pb pr out clock d d' N Hu Hs Hre Hc E.
    assert (Hr : c_rom c = true). { unfold build_rom in E. apply bind_inv in E. destruct E as [t [_ E]]. apply assert_inv in E. apply E. }
    destruct (names_ne c N) as (N1 & N2 & N3 & N4 & N5 & N6 & N7 & N8 & N9 & N10).
    assert (K : exists b f y u, reduced_part num c pr d' = Ok (b, f, y, u)).
    { pose proof (build_inv num c pb d d' E) as (Lc & La & Lt).
      unfold build_rom in E. cbn [build_forms setup_bc obind the_forms f_par f_bdr] in E. apply bind_inv in E. destruct E as [t1 [E1 E]]. apply assert_inv in E. destruct E as [_ E].
      apply bind_inv in E. destruct E as [t2 [E2 E]]. apply bind_inv in E. destruct E as [b [E3 E]]. apply bind_inv in E. destruct E as [t3 [E4 E]].
      assert (ED : d' (basis_file c) = d (basis_file c) /\ d' (sup_file c) = d (sup_file c)).
      { destruct (c_level c).
        - inversion E. auto.
        - apply bind_inv in E. destruct E as [[m t] [_ E]]. unfold save_operator in E. destruct (c_phys c); try (inversion E; rewrite !write_ne by assumption; auto; fail).
          destruct (tensorial c); [destruct t; [|discriminate]|]; inversion E; rewrite !write_ne by assumption; auto.
        - apply assert_inv in E. destruct E as [_ E]. apply bind_inv in E. destruct E as [l [_ E]]. destruct (nonlinear (c_phys c) && tensorial c).
          + apply bind_inv in E. destruct E as [t [_ E]]. inversion E; rewrite !write_ne by assumption; auto.
          + inversion E; rewrite !write_ne by assumption; auto. }
      assert (EL : load_basis num c d' = Ok b). { unfold load_basis, read_basis, read_sup in *. destruct ED as [-> ->]. exact E3. }
      assert (EO : exists m k f, reduced_operators num c pr b d' None = Ok (m, k, f) /\ (c_phys c = SteadyNS -> fst k <> None)).
      { unfold reduced_operators. destruct (c_level c) eqn:L.
        - cbn [build_forms setup_bc obind the_forms f_par f_bdr]. unfold project_operator. destruct (c_phys c) eqn:P; cbn [obind]; try (do 3 eexists; split; [reflexivity|discriminate]).
          + unfold tensorial, lax_friedrichs. destruct (Hs eq_refl) as [-> ->]. cbn [negb oassert obind]. do 3 eexists. split; [reflexivity|]. cbn. discriminate.
          + congruence.
        - apply bind_inv in E. destruct E as [[m t] [E5 E]]. unfold save_operator in E. unfold load_operator, read_mat, read_ten_sub. destruct (c_phys c) eqn:P; try congruence;
            try (inversion E; rewrite write_eq; cbn [obind]; do 3 eexists; split; [reflexivity|discriminate]).
          unfold tensorial in *. destruct (Hs eq_refl) as [H1 H2]. rewrite H1 in E. destruct t as [t|]; [|discriminate]. inversion E. rewrite write_ne by assumption. rewrite write_eq. cbn [obind]. rewrite write_eq, H1. cbn [obind].
          do 3 eexists. split; [reflexivity|]. cbn. discriminate.
        - apply assert_inv in E. destruct E as [E5 E]. apply bind_inv in E. destruct E as [l [_ E]]. unfold assemble_from_elements, read_lin, read_ten. rewrite E5. cbn [oassert].
          destruct (nonlinear (c_phys c)) eqn:Nl.
          + destruct (c_phys c) eqn:P; try discriminate; [|congruence]. destruct (Hs eq_refl) as [H1 H2]. unfold tensorial in E. rewrite H1 in E. cbn [andb] in E. apply bind_inv in E. destruct E as [t [_ E]].
            inversion E. rewrite write_ne by assumption. rewrite write_eq. cbn [obind]. rewrite H1, write_eq. cbn [obind]. do 3 eexists. split; [reflexivity|]. cbn. discriminate.
          + cbn [andb] in E. inversion E. rewrite write_eq. cbn [obind]. do 3 eexists. split; [reflexivity|]. intros P. rewrite P in Nl. discriminate. }
      destruct EO as (m & k & f & EO & Ek).
      assert (ES : exists y u, solve_rom num c pr b m k (proj num b (rhs_of num (complete pr))) d' = Ok (y, u)).
      { unfold solve_rom. destruct (c_phys c) eqn:P; try (do 2 eexists; reflexivity); [|congruence].
        unfold restart_state. rewrite (Hre eq_refl). cbn [obind]. destruct (Hs eq_refl) as [-> _]. destruct (fst k) as [t|]; [|exfalso; apply Ek; reflexivity]. do 2 eexists. reflexivity. }
      destruct ES as (y & u & ES). exists b, f, y, u. unfold reduced_part. rewrite E1, E2. cbn [obind]. rewrite EL. cbn [obind]. rewrite E4. cbn [obind]. rewrite EO. cbn [obind]. rewrite ES. reflexivity. }
    destruct K as (b & f & y & u & K).
    assert (Sy : exists d1, save_system c (Some (proj num b (rhs_of num (complete pr)), y)) d' = Ok d1). { unfold save_system. destruct (c_save_system c); eexists; reflexivity. }
    destruct Sy as [d1 Sy]. eexists. apply run_rom_iff; [exact Hr|]. exists b, f, y, u, d1. do 3 eexists. split; [exact K|]. split; [exact Sy|]. split; [|reflexivity].
    unfold compare. rewrite Hc. reflexivity.
  Qed.

  (** ** C101 *)

  (** Comparing with the full-order solution does not change the solution a run ends with and saves. *)
  Theorem C101_solution : forall (num : numerics) c p out clock (d : disk) r, single_run num c p out clock d = Ok r ->
    (exists r', single_run num (without_comparison c) p out clock d = Ok r' /\ r_solution r' = r_solution r) /\
    (forall x, c_save_solution c = Some x -> r_disk r x = Some (FSol (r_solution r))).
  Proof.
    intros num c p out clock d r E. destruct (c_rom c) eqn:Hr.
    - apply run_rom_iff in E; [|exact Hr]. destruct E as (b & f & y & u & d1 & u1 & rep & d2 & E1 & E2 & E3 & ->). split.
      + apply compare_inv in E3. destruct E3 as (-> & _). eexists. split.
        * apply (proj2 (run_rom_iff num (without_comparison c) p out clock d _ Hr)). exists b, f, y, u, d1. do 3 eexists. split; [exact E1|]. split; [exact E2|]. split; [reflexivity|reflexivity].
        * reflexivity.
      + intros x. apply finish_sol.
    - apply run_fom_iff in E; [|exact Hr]. destruct E as (E1 & E2 & u & E3 & ->). split; [|intros x; apply finish_sol]. eexists. split.
      + apply (proj2 (run_fom_iff num (without_comparison c) p out clock d _ Hr)). split; [exact E1|]. split; [exact E2|]. exists u. split; [exact E3|reflexivity].
      + reflexivity.
  Qed.

  (** The errors are those of the solution the run ends with, against the solution of a full-order run of the same problem or against the given file. *)
  Theorem C101_error : forall (num : numerics) c p out clock (d : disk) r, c_rom c = true -> c_compare c = true ->
    (forall x s, c_save_system c = Some s -> c_restart c = Some x \/ c_fom_file c = Some x -> x <> (s ++ "_rhs.txt")%string /\ x <> (s ++ "_sol.txt")%string) ->
    single_run num c p out clock d = Ok r ->
    match c_fom_file c with
    | Some x => exists v, d x = Some (FSol v) /\ t_error (r_report r) = rel_error num v (r_solution r)
    | None => exists r', single_run num (full_order c) p out clock d = Ok r' /\ t_error (r_report r) = rel_error num (r_solution r') (r_solution r)
    end.
  Proof.
    intros num c p out clock d r Hr Hc K E. apply run_rom_iff in E; [|exact Hr]. destruct E as (b & f & y & u & d1 & u1 & rep & d2 & E1 & E2 & E3 & ->).
    apply compare_inv in E3. destruct E3 as (-> & _ & _ & _ & E3). destruct (E3 Hc) as (v & Ev & Ee & _). apply reduced_inv in E1. destruct E1 as (En & _). unfold reference in Ev.
    destruct (c_fom_file c) as [x|] eqn:F.
    - exists v. split; [|exact Ee]. unfold read_sol in Ev. rewrite (system_keeps c _ d d1 x E2) in Ev by (intros s Hs; apply (K x s Hs); auto).
      destruct (d x) as [[]|]; try discriminate. inversion Ev. reflexivity.
    - eexists. split.
      + apply (proj2 (run_fom_iff num (full_order c) p out clock d _ eq_refl)). split; [apply new_full; exact En|]. split; [reflexivity|]. exists v. split; [|reflexivity].
        unfold solve_fom in *. cbn [full_order c_phys]. destruct (nonlinear (c_phys c)); [|exact Ev].
        assert (Er : restart_state c d1 = restart_state (full_order c) d).
        { unfold restart_state, read_sol. cbn [full_order c_restart]. destruct (c_restart c) as [z|] eqn:Rz; [|reflexivity]. rewrite (system_keeps c _ d d1 z E2) by (intros s Hs; apply (K z s Hs); auto). reflexivity. }
        rewrite <- Er. exact Ev.
      + exact Ee.
  Qed.

  (** Entries of the report tell what was done: a time is -1 exactly when that phase was not run here, and without comparison all errors are -1. *)
  Theorem C101_report : forall (num : numerics) c p out clock (d : disk) r, (forall n, (0 <= clock n)%R) -> single_run num c p out clock d = Ok r ->
    let full := c_rom c = false \/ (c_compare c = true /\ c_fom_file c = None) in
    let t := r_report r in
    (t_rom_assemble t = (-1)%R <-> c_rom c = false) /\ (t_rom_solve t = (-1)%R <-> c_rom c = false) /\
    (t_fom_assemble t = (-1)%R <-> ~ full) /\ (t_fom_solve t = (-1)%R <-> ~ full) /\
    (c_rom c && c_compare c = false -> t_error t = List.repeat (-1)%R (num_var (c_phys c))) /\
    (out <> "" -> c_save_solution c <> Some out -> r_disk r out = Some (report_file t)).
  Proof.
    intros num c p out clock d r Hk E full t.
    assert (T : forall n, clock n <> (-1)%R) by (intros n; specialize (Hk n); lra).
    destruct (c_rom c) eqn:Hr.
    - apply run_rom_iff in E; [|exact Hr]. destruct E as (b & f & y & u & d1 & u1 & rep & d2 & E1 & E2 & E3 & ->). unfold t. clear t. apply compare_inv in E3.
      destruct E3 as (-> & A1 & A2 & A3 & A4). cbn [finish r_report] in *. rewrite A1, A2. cbn [t_rom_assemble t_rom_solve].
      assert (F : (t_fom_assemble rep = (-1)%R <-> ~ full) /\ (t_fom_solve rep = (-1)%R <-> ~ full) /\ (c_compare c = false -> t_error rep = List.repeat (-1)%R (num_var (c_phys c)))).
      { unfold full. destruct (c_compare c).
        - destruct (A4 eq_refl) as (v & _ & _ & B1 & B2). destruct (c_fom_file c) as [x|].
          + destruct (B2 ltac:(discriminate)) as [-> ->]. cbn. split; [|split; [|discriminate]]; (split; [intros _ [K|[_ K]]; discriminate|reflexivity]).
          + destruct (B1 eq_refl) as [-> ->]. split; [|split; [|discriminate]]; (split; [intros K; exfalso; exact (T _ K)|intros K; exfalso; apply K; auto]).
        - destruct (A3 eq_refl) as [-> _]. cbn. split; [|split; [|reflexivity]]; (split; [intros _ [K|[K _]]; discriminate|reflexivity]). }
      destruct F as (F1 & F2 & F3). split; [split; [intros K; exfalso; exact (T _ K)|discriminate]|]. split; [split; [intros K; exfalso; exact (T _ K)|discriminate]|].
      split; [exact F1|]. split; [exact F2|]. split; [exact F3|]. apply finish_report.
    - apply run_fom_iff in E; [|exact Hr]. destruct E as (E1 & E2 & u & E3 & ->). unfold t, full. cbn [finish r_report t_rom_assemble t_rom_solve t_fom_assemble t_fom_solve t_error andb].
      split; [tauto|]. split; [tauto|]. split; [split; [intros K; exfalso; exact (T _ K)|intros K; exfalso; apply K; auto]|].
      split; [split; [intros K; exfalso; exact (T _ K)|intros K; exfalso; apply K; auto]|]. split; [reflexivity|]. apply finish_report.
  Qed.

  (** The value returned is the largest of the reported errors. *)
  Theorem C101_value : forall (num : numerics) c p out clock (d : disk) r, single_run num c p out clock d = Ok r -> t_error (r_report r) <> [] ->
    In (r_value r) (t_error (r_report r)) /\ forall e, In e (t_error (r_report r)) -> (e <= r_value r)%R.
  Proof.
    intros num c p out clock d r E H. assert (V : r_value r = max_of (t_error (r_report r))).
    { destruct (c_rom c) eqn:Hr; [apply run_rom_iff in E|apply run_fom_iff in E]; try exact Hr.
      - destruct E as (b & f & y & u & d1 & u1 & rep & d2 & _ & _ & _ & ->). reflexivity.
      - destruct E as (_ & _ & u & _ & ->). reflexivity. }
    rewrite V. apply max_of_ok. exact H.
  Qed.

  (** A full-order run ends with the solution of the configured physics for the parameters of the run: the operator and
      the right-hand side of these parameters, each boundary term once, started from the restart file if there is one. *)
  Theorem C101_full_order : forall (num : numerics) c p out clock (d : disk) r, c_rom c = false -> single_run num c p out clock d = Ok r ->
    exists u0, r_solution r = full_solve num (c_phys c) p (op_of num (mkforms p 1)) (rhs_of num (mkforms p 1)) u0 /\
      match u0 with
      | None => c_restart c = None \/ (c_phys c <> SteadyNS /\ c_phys c <> UnsteadyNS)
      | Some v => exists x, c_restart c = Some x /\ d x = Some (FSol v)
      end.
  Proof.
    intros num c p out clock d r Hr E. unfold single_run in E. rewrite Hr in E. apply bind_inv in E. destruct E as [_x [_ E]]. cbn [obind build_forms setup_bc the_forms f_par f_bdr] in E.
    apply bind_inv in E. destruct E as [u [E1 E]]. apply bind_inv in E. destruct E as [d1 [_ E]]. inversion E. unfold solve_fom in E1. apply bind_inv in E1. destruct E1 as [u0 [E0 E1]].
    exists u0. split; [inversion E1; reflexivity|]. destruct (nonlinear (c_phys c)) eqn:N.
    - unfold restart_state, read_sol in E0. destruct (c_restart c) as [x|]; [|inversion E0; auto]. destruct (d x) as [f|] eqn:Ex; [|discriminate]. destruct f; try discriminate.
      cbn [obind] in E0. inversion E0. exists x. auto.
    - inversion E0. right. destruct (c_phys c); split; congruence || discriminate.
  Qed.
End Properties.
Print Assumptions C101_full_order.
Print Assumptions C99_pipeline.
Print Assumptions C99_only.
Print Assumptions C99_inputs.
Print Assumptions C100_built.
Print Assumptions C101_solution.
Print Assumptions C101_error.
Print Assumptions C101_report.
Print Assumptions C101_value.

(** The steady example meets the hypotheses and gives the expected term. *)
Example pipeline_steady : exists r, pipeline symbolic cfg_steady samples p_build p_run "out.h5" (fun n => INR n) disk0 = Ok r /\ r_solution r = steady_solution.
Proof. exact (C99_pipeline symbolic cfg_steady samples p_build p_run "out.h5" (fun n => INR n) disk0 (Some (T "state" [])) steady_can steady_names steady_starts steady_comparable). Qed.

(** Full statement of C100: a configuration whose reduced model can be built can be run.  False: hyper-reduced convection without saved elements. *)
Theorem C100_built_refuted : exists c (d d' : sdisk), build_rom symbolic c p_build d = Ok d' /\
  forall p out clock d1 r, single_run symbolic c p out clock d1 <> Ok r.
Proof.
  set (d := write (write empty (basis_file cfg_none) (FBasis (T "b" []))) (sup_file cfg_none) (FSup (T "s" []))).
  exists cfg_none, d, d. split; [reflexivity|]. intros p out clock d1 r E.
  apply run_rom_iff in E; [|reflexivity]. destruct E as (b & f & y & u & d2 & u1 & rep & d3 & E & _). apply reduced_inv in E. destruct E as (_ & _ & m & k & Eo & Es).
  cbn in Eo. inversion Eo; subst. cbn in Es. discriminate.
Qed.
Print Assumptions C100_built_refuted.

(** An unsupported combination should be refused with a message; this one reads spaces that do not exist. *)
Theorem C100_refused_refuted : exists c, c_rom c = true /\ (forall p (d : sdisk), build_rom symbolic c p d = UB) /\
  forall p out clock (d : sdisk), single_run symbolic c p out clock d = UB.
Proof. exists cfg_submesh. split; [reflexivity|]. split; intros; reflexivity. Qed.
Print Assumptions C100_refused_refuted.

(** A full-order run that is asked to save the reduced system uses the absent handler. *)
Theorem C101_system_refuted : exists c, c_rom c = false /\ forall p out clock (d : sdisk), single_run symbolic c p out clock d = UB.
Proof. exists cfg_system. split; [reflexivity|]. intros. reflexivity. Qed.
Print Assumptions C101_system_refuted.

(** The comparison stops a finished run, before anything is saved, when both variables share one basis and the reduced full-order solution is asked for. *)
Theorem C101_reduced_refuted : exists c, can_run c /\ NoDup (stage_files c) /\ starts_from c empty (@None term) /\
  pipeline symbolic c samples p_build p_run "out.h5" (fun n => INR n) empty = Abort /\
  exists r, pipeline symbolic (without_comparison c) samples p_build p_run "out.h5" (fun n => INR n) empty = Ok r.
Proof.
  exists cfg_unified. split; [repeat split; discriminate|]. split; [repeat constructor; cbn; intuition discriminate|]. split; [reflexivity|]. split; [reflexivity|].
  eexists. reflexivity.
Qed.
Print Assumptions C101_reduced_refuted.
