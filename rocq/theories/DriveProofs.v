(** Proofs about the drivers. *)
From Coq Require Import List Bool String Reals Lra Arith Lia.
From Verif Require Import Outcome DriveModel DriveSpec.
Import ListNotations.
Open Scope string_scope.
Open Scope list_scope.

Section Proofs.
  Context {Par Vec Oper Samp Bas Sup Lin Ten Eqp RMat NlT NlE Red : Type}.
  Notation numerics := (@numerics Par Vec Oper Samp Bas Sup Lin Ten Eqp RMat NlT NlE Red).
  Notation disk := (@disk Vec Bas Sup Lin Ten Eqp RMat NlT Red).
  Context (num : numerics).

  Lemma write_eq (d : disk) x f : write d x f x = Some f.
  Proof. unfold write. rewrite String.eqb_refl. reflexivity. Qed.
  Lemma write_ne (d : disk) x f y : y <> x -> write d x f y = d y.
  Proof. intros H. unfold write. apply String.eqb_neq in H. rewrite H. reflexivity. Qed.

  Lemma run_read_sol (d : disk) x u : d x = Some (FSol u) -> read_sol d x = Ok u.
  Proof. intros H. unfold read_sol. rewrite H. reflexivity. Qed.

  (** The stages before the run, for a configuration that can run. *)
  Definition base_disk (c : config) (x : Samp) (d : disk) : disk :=
    let d1 := write d (basis_file c) (FBasis (basis_of num x)) in
    if c_sep c && flow (c_phys c) then write d1 (sup_file c) (FSup (sup_of num (basis_of num x))) else d1.
  Definition built_disk (c : config) (x : Samp) (pb : Par) (d : disk) : disk :=
    let b := trained num c x in
    match c_level c with
    | LComponent =>
        let d1 := write d (operator_file c) (FLin (lin_of num pb b)) in
        if nonlinear (c_phys c) && tensorial c then write d1 (tensor_file c) (FTen (ten_of num b)) else d1
    | LGlobal =>
        let d1 := write d (operator_file c) (FMat (mat_of_op num b (op_of num (complete pb)))) in
        match c_phys c with SteadyNS => if tensorial c then write d1 (tensor_file c) (FTenSub (ten_glob num b)) else d1 | _ => d1 end
    | LNone => d
    end.
  Definition ready_disk (c : config) (x : Samp) (pb : Par) (d : disk) : disk :=
    let d1 := built_disk c x pb (base_disk c x d) in
    if nonlinear (c_phys c) && hyper_reduced c then write d1 (eqp_file c) (FEqp (eqp_of num (trained num c x) x)) else d1.

  Ltac files := repeat first [rewrite write_eq | rewrite write_ne by (intro; congruence)].

  Lemma names_ne c : NoDup (stage_files c) ->
    basis_file c <> sup_file c /\ basis_file c <> operator_file c /\ basis_file c <> tensor_file c /\ basis_file c <> eqp_file c /\
    sup_file c <> operator_file c /\ sup_file c <> tensor_file c /\ sup_file c <> eqp_file c /\
    operator_file c <> tensor_file c /\ operator_file c <> eqp_file c /\ tensor_file c <> eqp_file c.
  Proof.
    unfold stage_files. intros H. inversion_clear H as [|? ? N1 H1]. inversion_clear H1 as [|? ? N2 H2]. inversion_clear H2 as [|? ? N3 H3].
    inversion_clear H3 as [|? ? N4 H4]. cbn [In] in *. repeat split; intro E; rewrite E in *; tauto.
  Qed.

  Lemma can_new c : can_run c -> new_solver c = Ok tt.
  Proof.
    intros (Hr & _ & _ & H). unfold new_solver, lax_friedrichs. destruct (c_phys c); try reflexivity.
    destruct H as (_ & _ & Ho & Hb & Hs & _). rewrite Ho, Hb, Hs, orb_true_r. reflexivity.
  Qed.
  Lemma can_handler c : can_run c -> init_handler c = Ok tt.
  Proof.
    intros (Hr & Hp & Hl & H). unfold init_handler.
    assert (E : match c_level c with LNone => true | _ => match c_prefix c with Some _ => true | None => false end end = true).
    { destruct (c_level c); [reflexivity| |]; destruct (c_prefix c); try reflexivity; exfalso; apply Hp; congruence. }
    rewrite E. cbn [oassert]. unfold handled, lax_friedrichs, by_component, nonlinear.
    destruct (c_phys c); try reflexivity.
    - destruct H as [[Hn Ho]|[Hn Hc]]; rewrite Hn; cbn [oassert].
      + rewrite Ho. reflexivity.
      + rewrite (Hl Hc), orb_true_r. reflexivity.
    - destruct H as (Hn & Hc & Ho & Hb & Hs & Hv). rewrite Hn, (Hl Hc), Hv. cbn [oassert]. rewrite orb_true_r. reflexivity.
  Qed.
  Lemma can_allocate c : can_run c -> nonlinear (c_phys c) = true -> allocate_nonlinear c = Ok tt.
  Proof.
    intros (Hr & Hp & Hl & H) Hn. unfold allocate_nonlinear, by_component. unfold nonlinear in Hn. destruct (c_phys c); try discriminate.
    - destruct H as [[E Ho]|[E Hc]]; rewrite E; [reflexivity|]. rewrite (Hl Hc). reflexivity.
    - destruct H as (E & Hc & _). rewrite E, (Hl Hc). reflexivity.
  Qed.
  Lemma alloc_if c : can_run c -> (if nonlinear (c_phys c) then allocate_nonlinear c else Ok tt) = Ok tt.
  Proof. intros H. destruct (nonlinear (c_phys c)) eqn:E; [|reflexivity]. apply can_allocate; auto. Qed.

  Lemma train_ok c x d : can_run c -> NoDup (stage_files c) -> train_rom num c x d = Ok (base_disk c x d).
  Proof.
    intros H N. unfold train_rom, aux_train, base_disk. destruct (c_sep c && flow (c_phys c)); [|reflexivity].
    rewrite (can_new c H), (can_handler c H). destruct H as (Hr & _). rewrite Hr. cbn [obind oassert].
    unfold read_basis. rewrite write_eq. reflexivity.
  Qed.
  Lemma load_base c x d d' : d' (basis_file c) = base_disk c x d (basis_file c) -> d' (sup_file c) = base_disk c x d (sup_file c) ->
    NoDup (stage_files c) -> load_basis num c d' = Ok (trained num c x).
  Proof.
    intros E1 E2 N. destruct (names_ne c N) as (A & _). unfold load_basis, read_basis, read_sup, trained. rewrite E1, E2. unfold base_disk.
    rewrite (andb_comm (c_sep c)). destruct (flow (c_phys c) && c_sep c); files; cbn [obind]; reflexivity.
  Qed.

  Lemma build_ok c x pb d : can_run c -> NoDup (stage_files c) -> build_rom num c pb (base_disk c x d) = Ok (built_disk c x pb (base_disk c x d)).
  Proof.
    intros H N. unfold build_rom. rewrite (can_new c H), (can_handler c H), (alloc_if c H), (load_base c x d) by auto.
    assert (Hr : c_rom c = true) by apply H. rewrite Hr. cbn [obind oassert build_forms setup_bc the_forms f_par f_bdr].
    destruct H as (_ & Hp & Hl & H). unfold built_disk, by_component, build_lin, project_operator, save_operator, build_tensor, tensorial, lax_friedrichs, by_component.
    destruct (c_level c) eqn:L.
    - reflexivity.
    - unfold complete. destruct (c_phys c); cbn [obind]; try reflexivity.
      + destruct H as [[E Ho]|[_ K]]; [|discriminate]. rewrite E, Ho. reflexivity.
      + destruct H as (_ & K & _). discriminate.
    - rewrite (Hl eq_refl). cbn [oassert]. destruct (c_phys c); cbn [obind nonlinear andb]; try reflexivity.
      + destruct H as [[E Ho]|[E _]]; rewrite E; [rewrite Ho|]; reflexivity.
      + destruct H as (E & _). rewrite E. reflexivity.
      + exfalso. apply H. reflexivity.
  Qed.
  Lemma built_keeps c x pb d y : y <> operator_file c -> y <> tensor_file c -> built_disk c x pb d y = d y.
  Proof.
    intros H1 H2. unfold built_disk. destruct (c_level c); [reflexivity| |].
    - destruct (c_phys c); try (files; reflexivity). destruct (tensorial c); files; reflexivity.
    - destruct (nonlinear (c_phys c) && tensorial c); files; reflexivity.
  Qed.
  Lemma eqp_ok c x pb d : can_run c -> NoDup (stage_files c) ->
    (if nonlinear (c_phys c) && hyper_reduced c then train_eqp num c x (built_disk c x pb (base_disk c x d)) else Ok (built_disk c x pb (base_disk c x d)))
    = Ok (ready_disk c x pb d).
  Proof.
    intros H N. unfold ready_disk. destruct (nonlinear (c_phys c) && hyper_reduced c) eqn:E; [|reflexivity].
    apply andb_true_iff in E. destruct E as [E1 E2]. unfold train_eqp. rewrite E2, (can_new c H), (can_handler c H). cbn [oassert obind].
    rewrite E1. cbn [negb]. assert (Hr : c_rom c = true) by apply H. rewrite Hr. cbn [oassert].
    destruct (names_ne c N) as (N1 & N2 & N3 & N4 & N5 & N6 & N7 & N8 & N9 & N10).
    rewrite (load_base c x d) by (auto; apply built_keeps; auto). cbn [obind]. rewrite (can_allocate c H E1). cbn [obind].
    assert (L : c_level c = LComponent).
    { destruct H as (_ & _ & _ & H). unfold nonlinear in E1. destruct (c_phys c); try discriminate.
      - destruct H as [[K _]|[_ K]]; auto. unfold hyper_reduced in E2. rewrite K in E2. discriminate.
      - apply H. }
    rewrite L. unfold by_component. destruct H as (_ & _ & Hl & _). rewrite (Hl L). reflexivity.
  Qed.
  Lemma ready_base c x pb d y : NoDup (stage_files c) -> y = basis_file c \/ y = sup_file c -> ready_disk c x pb d y = base_disk c x d y.
  Proof.
    intros N Hy. destruct (names_ne c N) as (N1 & N2 & N3 & N4 & N5 & N6 & N7 & N8 & N9 & N10). unfold ready_disk.
    destruct (nonlinear (c_phys c) && hyper_reduced c); [rewrite write_ne by (destruct Hy; congruence)|]; apply built_keeps; destruct Hy; congruence.
  Qed.
  Lemma ready_other c x pb d y : ~ In y (stage_files c) -> ready_disk c x pb d y = d y.
  Proof.
    intros H. unfold stage_files in H. cbn [In] in H. unfold ready_disk.
    assert (E : built_disk c x pb (base_disk c x d) y = d y).
    { rewrite built_keeps by (intro; tauto || (subst; tauto)). unfold base_disk. destruct (c_sep c && flow (c_phys c)); repeat rewrite write_ne by (intro; subst; tauto); reflexivity. }
    destruct (nonlinear (c_phys c) && hyper_reduced c); [rewrite write_ne by (intro; subst; tauto)|]; exact E.
  Qed.

  (** The operators of a run. *)
  Definition run_convection (c : config) (x : Samp) (pr : Par) (b : Bas) : @convection NlT NlE :=
    match c_phys c with
    | SteadyNS => match c_nl c with HTensor => (Some (reduced_tensor num c b), None) | _ => (None, Some (eqp_sub num pr b (eqp_of num b x))) end
    | UnsteadyNS => (None, Some (eqp_sub num pr b (eqp_of num b x)))
    | _ => (None, None)
    end.
  Lemma operators_ok c x pb pr d f : can_run c -> NoDup (stage_files c) ->
    let b := trained num c x in
    exists f', reduced_operators num c pr b (ready_disk c x pb d) f = Ok (reduced_matrix num c b pb pr, run_convection c x pr b, f').
  Proof.
    intros H N b. destruct (names_ne c N) as (N1 & N2 & N3 & N4 & N5 & N6 & N7 & N8 & N9 & N10). unfold reduced_operators, reduced_matrix.
    destruct H as (_ & Hp & Hl & H).
    destruct (c_level c) eqn:L.
    - exists (Some (mkforms pr 1)). cbn [build_forms setup_bc obind the_forms f_par f_bdr]. unfold project_operator, run_convection, tensorial, lax_friedrichs, reduced_tensor, complete. rewrite L.
      destruct (c_phys c); cbn [obind]; try reflexivity.
      + destruct H as [[E Ho]|[_ K]]; [|discriminate]. rewrite E, Ho. reflexivity.
      + destruct H as (_ & K & _). discriminate.
    - exists f. unfold load_operator, read_mat, read_ten_sub, run_convection, reduced_tensor. rewrite L.
      assert (EM : ready_disk c x pb d (operator_file c) = Some (FMat (mat_of_op num b (op_of num (complete pb))))).
      { unfold ready_disk, built_disk. rewrite L. fold b. destruct (nonlinear (c_phys c) && hyper_reduced c); [rewrite write_ne by auto|];
        (destruct (c_phys c); files; try reflexivity; destruct (tensorial c); files; reflexivity). }
      destruct (c_phys c) eqn:P; rewrite ?EM; cbn [obind]; try reflexivity.
      + destruct H as [[E Ho]|[_ K]]; [|discriminate]. unfold tensorial. rewrite E.
        assert (ET : ready_disk c x pb d (tensor_file c) = Some (FTenSub (ten_glob num b))).
        { unfold ready_disk, built_disk, hyper_reduced, tensorial. rewrite L, P, E. cbn [nonlinear andb]. fold b. files. reflexivity. }
        rewrite ET. reflexivity.
      + destruct H as (_ & K & _). discriminate.
    - exists f. unfold assemble_from_elements, by_component. rewrite (Hl eq_refl). cbn [oassert].
      assert (EM : ready_disk c x pb d (operator_file c) = Some (FLin (lin_of num pb b))).
      { unfold ready_disk, built_disk. rewrite L. fold b. destruct (nonlinear (c_phys c) && hyper_reduced c); [rewrite write_ne by auto|];
        destruct (nonlinear (c_phys c) && tensorial c); files; reflexivity. }
      unfold read_lin. rewrite EM. cbn [obind]. unfold run_convection, reduced_tensor. rewrite L.
      destruct (c_phys c) eqn:P; cbn [nonlinear obind]; try reflexivity.
      + unfold read_ten, read_eqp. destruct H as [[E Ho]|[E _]]; rewrite E.
        * assert (ET : ready_disk c x pb d (tensor_file c) = Some (FTen (ten_of num b))).
          { unfold ready_disk, built_disk, hyper_reduced, tensorial. rewrite L, P, E. cbn [nonlinear andb]. fold b. files. reflexivity. }
          rewrite ET. reflexivity.
        * assert (ET : ready_disk c x pb d (eqp_file c) = Some (FEqp (eqp_of num b x))).
          { unfold ready_disk, hyper_reduced. rewrite P, E. cbn [nonlinear andb]. fold b. files. reflexivity. }
          rewrite ET. reflexivity.
      + unfold read_eqp. destruct H as (E & _). rewrite E.
        assert (ET : ready_disk c x pb d (eqp_file c) = Some (FEqp (eqp_of num b x))).
        { unfold ready_disk, hyper_reduced. rewrite P, E. cbn [nonlinear andb]. fold b. files. reflexivity. }
        rewrite ET. reflexivity.
  Qed.

  Lemma solve_ok c x pb pr d u0 : can_run c -> starts_from c d u0 ->
    let b := trained num c x in
    let y := reduced_answer num c x pb pr u0 in
    solve_rom num c pr b (reduced_matrix num c b pb pr) (run_convection c x pr b) (proj num b (rhs_of num (complete pr))) (ready_disk c x pb d) = Ok (y, lift num b y).
  Proof.
    intros H S0 b y. unfold solve_rom, run_convection, y, reduced_answer. fold b. destruct H as (_ & _ & _ & H).
    assert (SR : nonlinear (c_phys c) = true -> restart_state c (ready_disk c x pb d) = Ok u0).
    { intros Hn. unfold starts_from in S0. rewrite Hn in S0. unfold restart_state. destruct (c_restart c) as [z|]; [|subst; reflexivity].
      destruct S0 as (v & -> & G1 & G2). rewrite (run_read_sol _ z v); [reflexivity|]. rewrite ready_other; assumption. }
    destruct (c_phys c) eqn:P; cbn [nonlinear] in SR; try reflexivity.
    - rewrite (SR eq_refl). cbn [obind]. destruct H as [[E _]|[E _]]; rewrite E; cbn [fst snd]; reflexivity.
    - rewrite (SR eq_refl). cbn [obind snd]. reflexivity.
  Qed.

  Lemma system_keeps c red (d d' : disk) y : save_system c red d = Ok d' ->
    (forall s, c_save_system c = Some s -> y <> (s ++ "_rhs.txt")%string /\ y <> (s ++ "_sol.txt")%string) -> d' y = d y.
  Proof.
    unfold save_system. destruct (c_save_system c) as [s|]; intros E H; [|inversion E; reflexivity].
    destruct red as [[r z]|]; inversion E. destruct (H s eq_refl) as [A B]. rewrite !write_ne by assumption. reflexivity.
  Qed.

  Lemma compare_ok c (d0 d : disk) p b rhs f y u clock rep u0 : comparable c d0 -> starts_from c d0 u0 ->
    (forall z v, given c d0 z v -> (forall s, c_save_system c = Some s -> z <> (s ++ "_rhs.txt")%string /\ z <> (s ++ "_sol.txt")%string) -> d z = Some (FSol v)) ->
    exists rep' d', compare num c p b rhs f y u clock rep d = Ok (u, rep', d').
  Proof.
    intros HC S0 K. unfold compare. destruct (c_compare c) eqn:C; [|do 2 eexists; reflexivity].
    destruct (HC C) as (H1 & H2 & H3).
    assert (T : forall v (r : report), exists rep' d', (let* d1 := (if c_save_reduced c then oassert (c_sep c || Nat.eqb (num_var (c_phys c)) 1) (Ok (write (write d "rom_reduced_sol.txt" (FRed y)) "fom_reduced_sol.txt" (FRed (proj num b v)))) else Ok d) in Ok (u, r, d1)) = Ok (u, rep', d')).
    { intros v r. destruct (c_save_reduced c); [|do 2 eexists; reflexivity].
      assert (E : c_sep c || Nat.eqb (num_var (c_phys c)) 1 = true). { destruct (H3 eq_refl) as [-> | ->]; [reflexivity|apply orb_true_r]. }
      rewrite E. do 2 eexists. reflexivity. }
    destruct (c_fom_file c) as [z|] eqn:F.
    - destruct (H1 z eq_refl) as [[v G] Q]. rewrite (run_read_sol d z v) by (apply K; auto). cbn [obind]. apply T.
    - cbn [build_forms setup_bc obind the_forms f_par f_bdr]. unfold solve_fom.
      assert (E : exists w, (if nonlinear (c_phys c) then restart_state c d else Ok None) = Ok w).
      { destruct (nonlinear (c_phys c)) eqn:N; [|eexists; reflexivity]. unfold starts_from in S0. rewrite N in S0. unfold restart_state.
        destruct (c_restart c) as [z|] eqn:Rz; [|eexists; reflexivity]. destruct S0 as (v & -> & G).
        rewrite (run_read_sol d z v) by (apply K; auto). eexists. reflexivity. }
      destruct E as [w E]. rewrite E. cbn [obind]. apply T.
  Qed.

  Lemma pipeline_ok c x pb pr out clock d u0 : can_run c -> NoDup (stage_files c) -> starts_from c d u0 -> comparable c d ->
    exists r, pipeline num c x pb pr out clock d = Ok r /\ r_solution r = lift num (trained num c x) (reduced_answer num c x pb pr u0).
  Proof.
    intros H N S0 HC. unfold pipeline. rewrite (train_ok c x d H N). cbn [obind]. rewrite (build_ok c x pb d H N). cbn [obind].
    rewrite (eqp_ok c x pb d H N). cbn [obind]. unfold single_run. rewrite (can_new c H). cbn [obind].
    assert (Hr : c_rom c = true) by apply H. rewrite Hr, (can_handler c H). cbn [obind build_forms setup_bc the_forms f_par f_bdr].
    rewrite (load_base c x d) by (auto; apply ready_base; auto). cbn [obind]. rewrite (alloc_if c H). cbn [obind].
    destruct (operators_ok c x pb pr d None H N) as [f' E]. cbv zeta in E. rewrite E. cbn [obind].
    pose proof (solve_ok c x pb pr d u0 H S0) as Es. cbv zeta in Es. unfold complete in Es at 1. rewrite Es. cbn [obind].
    destruct (save_system c (Some (proj num (trained num c x) (rhs_of num {| f_par := pr; f_bdr := 1 |}), reduced_answer num c x pb pr u0)) (ready_disk c x pb d)) as [d1| |] eqn:Sy.
    - cbn [obind].
      destruct (compare_ok c d d1 pr (trained num c x) (rhs_of num {| f_par := pr; f_bdr := 1 |}) f' (reduced_answer num c x pb pr u0) (lift num (trained num c x) (reduced_answer num c x pb pr u0)) clock
        (mkreport (clock 0) (clock 1) (t_fom_assemble (no_report c)) (t_fom_solve (no_report c)) (t_error (no_report c))) u0 HC S0) as (rep' & d' & Ec).
      { intros z v [G1 G2] Q. rewrite (system_keeps _ _ _ _ z Sy Q), ready_other; assumption. }
      rewrite Ec. cbn [obind]. eexists. split; [reflexivity|]. reflexivity.
    - exfalso. unfold save_system in Sy. destruct (c_save_system c); discriminate.
    - exfalso. unfold save_system in Sy. destruct (c_save_system c); discriminate.
  Qed.
End Proofs.
