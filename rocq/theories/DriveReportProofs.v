(** What a run reports, what it reads, and which configurations fail. *)
From Coq Require Import List Bool String Reals Lra Arith Lia.
From Verif Require Import Outcome DriveModel DriveSpec DriveProofs.
Import ListNotations.
Open Scope string_scope.
Open Scope list_scope.

(** [Vector::Max] is the largest entry. *)
Lemma fold_max l : forall x, let m := fold_left Rmax l x in (x <= m)%R /\ (forall y, In y l -> (y <= m)%R) /\ (m = x \/ In m l).
Proof.
  induction l as [|a l IH]; intros x; cbn [fold_left].
  - split; [lra|]. split; [intros y []|left; reflexivity].
  - destruct (IH (Rmax x a)) as (H1 & H2 & H3). cbv zeta in *. pose proof (Rmax_l x a). pose proof (Rmax_r x a). split; [lra|]. split.
    + intros y [->|Hy]; [lra|auto].
    + destruct H3 as [H3|H3]; [|right; right; assumption]. rewrite H3. destruct (Rle_dec x a) as [L|L]; [right; left; symmetry; apply Rmax_right; lra|left; apply Rmax_left; lra].
Qed.
Lemma max_of_ok l : l <> [] -> In (max_of l) l /\ forall y, In y l -> (y <= max_of l)%R.
Proof.
  destruct l as [|a l]; [congruence|]. intros _. unfold max_of. destruct (fold_max l a) as (H1 & H2 & H3). cbv zeta in *. split.
  - destruct H3 as [->|H3]; [left; reflexivity|right; exact H3].
  - intros y [->|Hy]; auto.
Qed.

Section Proofs.
  Context {Par Vec Oper Samp Bas Sup Lin Ten Eqp RMat NlT NlE Red : Type}.
  Notation numerics := (@numerics Par Vec Oper Samp Bas Sup Lin Ten Eqp RMat NlT NlE Red).
  Notation disk := (@disk Vec Bas Sup Lin Ten Eqp RMat NlT Red).
  Context (num : numerics).

  Lemma bind_inv {A B} (e : outcome A) (k : A -> outcome B) r : obind e k = Ok r -> exists a, e = Ok a /\ k a = Ok r.
  Proof. destruct e as [a| |]; cbn [obind]; intros H; try discriminate. exists a. auto. Qed.
  Lemma assert_inv {B} b (k : outcome B) r : oassert b k = Ok r -> b = true /\ k = Ok r.
  Proof. destruct b; cbn [oassert]; intros H; [auto|discriminate]. Qed.
  Lemma guard_inv {B} b (k : outcome B) r : oguard b k = Ok r -> b = true /\ k = Ok r.
  Proof. destruct b; cbn [oguard]; intros H; [auto|discriminate]. Qed.
  Ltac inv := repeat match goal with
    | H : obind _ _ = Ok _ |- _ => apply bind_inv in H; destruct H as [? [? H]]
    | H : oassert _ _ = Ok _ |- _ => apply assert_inv in H; destruct H as [? H]
    | H : oguard _ _ = Ok _ |- _ => apply guard_inv in H; destruct H as [? H]
    | H : Abort = Ok _ |- _ => discriminate H
    | H : UB = Ok _ |- _ => discriminate H
    end.

  (** *** The comparison *)

  (** The reference of the comparison: a file, or a full-order solve. *)
  Definition reference (c : config) (p : Par) (d : disk) : outcome Vec :=
    match c_fom_file c with
    | Some x => read_sol d x
    | None => solve_fom num c p (op_of num (complete p)) (rhs_of num (complete p)) d
    end.

  Lemma compare_inv c p b f y u clock rep (d : disk) u' rep' d' :
    compare num c p b (rhs_of num (complete p)) f y u clock rep d = Ok (u', rep', d') ->
    u' = u /\ t_rom_assemble rep' = t_rom_assemble rep /\ t_rom_solve rep' = t_rom_solve rep /\
    (c_compare c = false -> rep' = rep /\ d' = d) /\
    (c_compare c = true -> exists v, reference c p d = Ok v /\ t_error rep' = rel_error num v u /\
       (c_fom_file c = None -> t_fom_assemble rep' = clock 2 /\ t_fom_solve rep' = clock 3) /\
       (c_fom_file c <> None -> t_fom_assemble rep' = t_fom_assemble rep /\ t_fom_solve rep' = t_fom_solve rep)).
  Proof.
    unfold compare, reference. destruct (c_compare c).
    - destruct (c_fom_file c) as [z|].
      + intros E. apply bind_inv in E. destruct E as [[v r0] [E1 E]]. apply bind_inv in E1. destruct E1 as [v' [E1 E2]]. inversion E2; subst v' r0. clear E2.
        apply bind_inv in E. destruct E as [d1 [_ E]]. inversion E; subst u' rep' d1. clear E. cbn. do 3 (split; [reflexivity|]). split; [discriminate|].
        intros _. exists v. split; [assumption|]. split; [reflexivity|]. split; [discriminate|auto].
      + cbn [build_forms setup_bc obind the_forms f_par f_bdr]. intros E. apply bind_inv in E. destruct E as [[v r0] [E1 E]]. apply bind_inv in E1. destruct E1 as [v' [E1 E2]]. inversion E2; subst v' r0. clear E2.
        apply bind_inv in E. destruct E as [d1 [_ E]]. inversion E; subst u' rep' d1. clear E. cbn. do 3 (split; [reflexivity|]). split; [discriminate|].
        intros _. exists v. split; [exact E1|]. split; [reflexivity|]. split; [auto|congruence].
    - intros E. inversion E. subst. repeat split; try reflexivity. discriminate.
  Qed.

  Lemma finish_sol c out u rep (d : disk) x : c_save_solution c = Some x -> r_disk (finish c out u rep d) x = Some (FSol u).
  Proof. intros H. unfold finish. rewrite H. cbn [r_disk]. apply write_eq. Qed.
  Lemma finish_report c out u rep (d : disk) : out <> "" -> c_save_solution c <> Some out -> r_disk (finish c out u rep d) out = Some (report_file rep).
  Proof.
    intros H N. unfold finish. apply String.eqb_neq in H. rewrite H. cbn [r_disk]. destruct (c_save_solution c) as [x|]; [|apply write_eq].
    rewrite write_ne by (intro; subst; apply N; reflexivity). apply write_eq.
  Qed.

  (** The reduced part of a run. *)
  Definition reduced_part (c : config) (p : Par) (d : disk) : outcome (Bas * option (forms Par) * Red * Vec) :=
    let* _ := new_solver c in
    let* _ := init_handler c in
    let* b := load_basis num c d in
    let* _ := (if nonlinear (c_phys c) then allocate_nonlinear c else Ok tt) in
    let* (m, k, f) := reduced_operators num c p b d None in
    let* (y, u) := solve_rom num c p b m k (proj num b (rhs_of num (complete p))) d in
    Ok (b, f, y, u).

  Lemma run_rom_iff c p out clock (d : disk) r : c_rom c = true -> single_run num c p out clock d = Ok r <->
    exists b f y u d1 u' rep d2, reduced_part c p d = Ok (b, f, y, u) /\
      save_system c (Some (proj num b (rhs_of num (complete p)), y)) d = Ok d1 /\
      compare num c p b (rhs_of num (complete p)) f y u clock (mkreport (clock 0) (clock 1) (-1) (-1) (List.repeat (-1)%R (num_var (c_phys c)))) d1 = Ok (u', rep, d2) /\
      r = finish c out u' rep d2.
  Proof.
    intros Hr. unfold single_run, reduced_part. rewrite Hr. cbn [build_forms setup_bc obind the_forms f_par f_bdr]. unfold complete, no_report.
    cbn [t_fom_assemble t_fom_solve t_error]. split.
    - intros E. inv. destruct x3 as [[m k] f]. inv. destruct x3 as [y u]. inv. destruct x4 as [[u' rep] d2].
      inversion E. subst. exists x1, f, y, u, x3, u', rep, d2. rewrite H, H0. cbn [obind]. rewrite H1. cbn [obind]. rewrite H2. cbn [obind]. rewrite H3. cbn [obind]. rewrite H4. cbn [obind]. auto.
    - intros (b & f & y & u & d1 & u' & rep & d2 & E & E1 & E2 & ->). inv.
      rewrite H, H0. cbn [obind]. rewrite H1. cbn [obind]. rewrite H2. cbn [obind]. destruct x3 as [[m k] f']. inv. rewrite H3. cbn [obind]. destruct x3 as [y' u1]. rewrite H4. cbn [obind].
      inversion E. subst. rewrite E1. cbn [obind]. rewrite E2. cbn [obind]. reflexivity.
  Qed.

  Lemma run_fom_iff c p out clock (d : disk) r : c_rom c = false -> single_run num c p out clock d = Ok r <->
    new_solver c = Ok tt /\ c_save_system c = None /\ exists u, solve_fom num c p (op_of num (complete p)) (rhs_of num (complete p)) d = Ok u /\
      r = finish c out u (mkreport (-1) (-1) (clock 0) (clock 1) (List.repeat (-1)%R (num_var (c_phys c)))) d.
  Proof.
    intros Hr. unfold single_run. rewrite Hr. cbn [build_forms setup_bc obind the_forms f_par f_bdr]. unfold complete, no_report, save_system.
    cbn [t_fom_assemble t_fom_solve t_error t_rom_assemble t_rom_solve]. split.
    - intros E. inv. destruct x. destruct (c_save_system c); [discriminate|]. cbn [obind] in *. repeat split; auto. exists x0. inversion H1. subst. inversion E. subst. auto.
    - intros (E1 & E2 & u & E3 & ->). rewrite E1, E2. cbn [obind]. rewrite E3. cbn [obind]. reflexivity.
  Qed.

  (** The reduced part does not look at the comparison options. *)
  Lemma reduced_part_cmp c p d : reduced_part (without_comparison c) p d = reduced_part c p d.
  Proof. reflexivity. Qed.

  Lemma new_full c : new_solver c = Ok tt -> new_solver (full_order c) = Ok tt.
  Proof.
    unfold new_solver. cbn [full_order c_phys c_rom]. unfold lax_friedrichs. cbn [c_oper c_bdf c_sep full_order]. destruct (c_phys c); auto. intros E. inv.
    destruct (c_oper c); [discriminate|]. rewrite H0. reflexivity.
  Qed.

  (** *** Which configurations complete the whole path *)
  Lemma reduced_inv c p d b f y u : reduced_part c p d = Ok (b, f, y, u) ->
    new_solver c = Ok tt /\ init_handler c = Ok tt /\ exists m k, reduced_operators num c p b d None = Ok (m, k, f) /\
      solve_rom num c p b m k (proj num b (rhs_of num (complete p))) d = Ok (y, u).
  Proof.
    unfold reduced_part. destruct (new_solver c) as [[]| |]; cbn [obind]; [|discriminate|discriminate]. destruct (init_handler c) as [[]| |]; cbn [obind]; [|discriminate|discriminate].
    intros E. apply bind_inv in E. destruct E as [b' [_ E]]. apply bind_inv in E. destruct E as [t [_ E]]. apply bind_inv in E. destruct E as [[[m k] f'] [E1 E]].
    apply bind_inv in E. destruct E as [[y' u'] [E2 E]]. inversion E; subst b' f' y' u'. repeat split. exists m, k. auto.
  Qed.
  Lemma handler_inv c t : init_handler c = Ok t -> (c_level c <> LNone -> c_prefix c <> None) /\
    (nonlinear (c_phys c) = true -> c_nl c <> HNone /\ (c_oper c = OLF -> c_topo c = Component)) /\ (c_phys c = UnsteadyNS -> c_by_variable c = true).
  Proof.
    unfold init_handler. intros E. apply assert_inv in E. destruct E as [E1 E]. split; [destruct (c_level c), (c_prefix c); congruence|].
    destruct (nonlinear (c_phys c)) eqn:N.
    - apply assert_inv in E. destruct E as [E2 E]. apply guard_inv in E. destruct E as [E3 E]. split.
      + intros _. unfold handled, lax_friedrichs, by_component in *. split; [intros K; rewrite K in E2; discriminate|]. intros K. rewrite K in E3. destruct (c_topo c); [discriminate|reflexivity].
      + intros K. rewrite K in E. apply assert_inv in E. apply E.
    - split; [discriminate|]. intros K. rewrite K in N. discriminate.
  Qed.
  Lemma project_inv c b o m t : project_operator num c b o = Ok (m, t) -> c_phys c <> UnsteadyNS /\ (c_phys c = SteadyNS -> c_nl c = HTensor -> c_oper c = OBase).
  Proof.
    unfold project_operator, tensorial, lax_friedrichs. intros E. split.
    - intros K. rewrite K in E. discriminate.
    - intros K1 K2. rewrite K1, K2 in E. destruct (c_oper c); [reflexivity|discriminate].
  Qed.
  Lemma build_inv c p d d' : build_rom num c p d = Ok d' -> (c_level c = LComponent -> c_topo c = Component) /\ (c_phys c = AdvDiff -> c_level c <> LComponent) /\
    (c_level c <> LNone -> c_phys c = SteadyNS -> c_nl c = HTensor -> c_oper c = OBase).
  Proof.
    unfold build_rom. cbn [build_forms setup_bc obind the_forms f_par f_bdr]. intros E. apply bind_inv in E. destruct E as [t1 [_ E]]. apply assert_inv in E. destruct E as [_ E].
    apply bind_inv in E. destruct E as [t2 [_ E]]. apply bind_inv in E. destruct E as [b [_ E]]. apply bind_inv in E. destruct E as [t3 [_ E]].
    destruct (c_level c).
    - repeat split; congruence.
    - apply bind_inv in E. destruct E as [[m t] [E1 E]]. apply project_inv in E1. destruct E1 as [E1 E2]. repeat split; congruence || auto.
    - apply assert_inv in E. destruct E as [E1 E]. apply bind_inv in E. destruct E as [l [E2 E]]. unfold by_component in E1. unfold build_lin in E2. repeat split.
      + destruct (c_topo c); congruence.
      + intros K. rewrite K in E2. discriminate.
      + intros _ K1 K2. unfold tensorial in E. rewrite K1, K2 in E. cbn [nonlinear andb] in E. apply bind_inv in E. destruct E as [t [E3 _]]. unfold build_tensor in E3. rewrite K1 in E3.
        apply assert_inv in E3. destruct E3 as [_ E3]. apply assert_inv in E3. destruct E3 as [E3 _]. unfold lax_friedrichs in E3. destruct (c_oper c); [reflexivity|discriminate].
  Qed.
  Lemma pipeline_can c x pb pr out clock d r : c_rom c = true -> pipeline num c x pb pr out clock d = Ok r -> can_run c.
  Proof.
    intros Hr E. unfold pipeline in E. apply bind_inv in E. destruct E as [d1 [_ E]]. apply bind_inv in E. destruct E as [d2 [Eb E]]. apply bind_inv in E. destruct E as [d3 [Ee E]].
    apply (run_rom_iff c pr out clock d3 r Hr) in E. destruct E as (b & f & y & u & d4 & u' & rep & d5 & E & _).
    apply reduced_inv in E. destruct E as (En & Ei & m & k & Eo & Es). apply handler_inv in Ei. destruct Ei as (Pf & Nl & Bv). apply build_inv in Eb. destruct Eb as (Lc & La & Lt).
    split; [assumption|]. split; [assumption|]. split; [assumption|].
    destruct (c_phys c) eqn:P; auto.
    - destruct (Nl eq_refl) as [Nh Nf]. destruct (c_nl c) eqn:NL; [|right; split; [reflexivity|]|congruence].
      + left. split; [reflexivity|]. destruct (c_level c) eqn:L; [|apply Lt; congruence|apply Lt; congruence].
        unfold reduced_operators in Eo. rewrite L in Eo. cbn [build_forms setup_bc obind the_forms f_par f_bdr] in Eo. apply bind_inv in Eo. destruct Eo as [[m2 t2] [Ep _]].
        apply project_inv in Ep. apply Ep; assumption.
      + unfold hyper_reduced, train_eqp in Ee. rewrite NL, P in Ee. cbn [nonlinear andb negb] in Ee. apply assert_inv in Ee. destruct Ee as [_ Ee].
        apply bind_inv in Ee. destruct Ee as [t1 [_ Ee]]. apply bind_inv in Ee. destruct Ee as [t2 [_ Ee]]. apply assert_inv in Ee. destruct Ee as [_ Ee].
        apply bind_inv in Ee. destruct Ee as [t3 [_ Ee]]. apply bind_inv in Ee. destruct Ee as [t4 [_ Ee]]. destruct (c_level c); congruence.
    - unfold new_solver in En. rewrite P, Hr in En. cbn [negb orb] in En. apply assert_inv in En. destruct En as [E1 En]. apply assert_inv in En. destruct En as [E2 En]. apply assert_inv in En. destruct En as [E3 _].
      apply Nat.eqb_eq in E2. unfold solve_rom in Es. rewrite P in Es. apply bind_inv in Es. destruct Es as [u0 [_ Es]]. destruct k as [kt ke]. cbn [snd] in Es. destruct ke as [ke|]; [|discriminate].
      assert (L : c_level c = LComponent).
      { unfold reduced_operators in Eo. cbn [build_forms setup_bc obind the_forms f_par f_bdr] in Eo. destruct (c_level c); [| |reflexivity]; exfalso.
        - unfold project_operator in Eo. rewrite P in Eo. discriminate.
        - unfold load_operator in Eo. rewrite P in Eo. discriminate. }
      assert (NL : c_nl c = HEqp).
      { unfold reduced_operators in Eo. rewrite L in Eo. apply bind_inv in Eo. destruct Eo as [[m2 [k1 k2]] [Eo Eq]]. inversion Eq; subst m2 k1 k2 f. clear Eq.
        unfold assemble_from_elements in Eo. apply assert_inv in Eo. destruct Eo as [_ Eo]. apply bind_inv in Eo. destruct Eo as [l [_ Eo]]. rewrite P in Eo. cbn [nonlinear] in Eo.
        destruct (c_nl c); [|reflexivity|discriminate]. apply bind_inv in Eo. destruct Eo as [t [_ Eo]]. inversion Eo. }
      unfold lax_friedrichs in E1. destruct (c_oper c); [discriminate|]. repeat split; auto.
  Qed.

  (** *** What a run reads *)
  Lemma run_reads c p (d d' : disk) : c_rom c = true -> agree (run_inputs c) d d' -> reduced_part c p d' = reduced_part c p d.
  Proof.
    intros Hr A. unfold agree, run_inputs in A. rewrite Hr in A.
    assert (Ab : d (basis_file c) = d' (basis_file c)) by (apply A; left; reflexivity).
    assert (As : flow (c_phys c) && c_sep c = true -> d (sup_file c) = d' (sup_file c)).
    { intros E. apply A. rewrite E. right. left. reflexivity. }
    assert (Ao : c_level c <> LNone -> d (operator_file c) = d' (operator_file c)).
    { intros E. apply A. apply in_or_app. left. right. apply in_or_app. right. destruct (c_level c); [congruence| |]; left; reflexivity. }
    assert (At : c_level c <> LNone -> nonlinear (c_phys c) = true -> c_nl c = HTensor -> d (tensor_file c) = d' (tensor_file c)).
    { intros E E1 E2. apply A. apply in_or_app. left. right. apply in_or_app. right. rewrite E1, E2. destruct (c_level c); [congruence| |]; right; left; reflexivity. }
    assert (Ae : c_level c = LComponent -> nonlinear (c_phys c) = true -> c_nl c = HEqp -> d (eqp_file c) = d' (eqp_file c)).
    { intros E E1 E2. apply A. apply in_or_app. left. right. apply in_or_app. right. rewrite E, E1, E2. right; left; reflexivity. }
    assert (Ar : nonlinear (c_phys c) = true -> restart_state c d' = restart_state c d).
    { intros E. unfold restart_state, read_sol. destruct (c_restart c) as [z|] eqn:Rz; [|reflexivity]. rewrite A; [reflexivity|]. apply in_or_app. right. rewrite E. left. reflexivity. }
    assert (EL : load_basis num c d' = load_basis num c d).
    { unfold load_basis, read_basis, read_sup. rewrite Ab. destruct (flow (c_phys c) && c_sep c) eqn:E; [rewrite As by reflexivity|]; reflexivity. }
    assert (EO : forall b f, reduced_operators num c p b d' f = reduced_operators num c p b d f).
    { intros b f. unfold reduced_operators. destruct (c_level c) eqn:L; [reflexivity| |].
      - unfold load_operator, read_mat, read_ten_sub. rewrite <- Ao by discriminate. destruct (c_phys c) eqn:P; try reflexivity.
        unfold tensorial. destruct (c_nl c) eqn:NL; try reflexivity. rewrite At by (reflexivity || discriminate). reflexivity.
      - unfold assemble_from_elements, read_lin, read_ten, read_eqp. rewrite <- Ao by discriminate. destruct (nonlinear (c_phys c)) eqn:E; [|reflexivity].
        destruct (c_nl c) eqn:NL; [rewrite At by (reflexivity || discriminate)|rewrite Ae by reflexivity|]; reflexivity. }
    assert (ES : forall b m k r, solve_rom num c p b m k r d' = solve_rom num c p b m k r d).
    { intros b m k r. unfold solve_rom. destruct (c_phys c) eqn:P; try reflexivity; rewrite Ar by reflexivity; reflexivity. }
    unfold reduced_part. rewrite EL. destruct (new_solver c); cbn [obind]; [|reflexivity|reflexivity]. destruct (init_handler c); cbn [obind]; [|reflexivity|reflexivity].
    destruct (load_basis num c d) as [b| |]; cbn [obind]; [|reflexivity|reflexivity]. rewrite EO.
    destruct (if nonlinear (c_phys c) then allocate_nonlinear c else Ok tt); cbn [obind]; [|reflexivity|reflexivity].
    destruct (reduced_operators num c p b d None) as [[[m k] f]| |]; cbn [obind]; [|reflexivity|reflexivity]. rewrite ES. reflexivity.
  Qed.
End Proofs.
