(** Who releases what: invariants over sequences of calls. *)
From Coq Require Import ZArith List Bool String Lia.
From Verif Require Import Outcome ConfigModel HdfModel HdfSpec LaBase TenModel TenSpec TenProofs.
Import ListNotations.
Local Open Scope nat_scope.
Local Open Scope list_scope.

Section P.
  Context {D M : Type}.
  Notation solver := (solver D M).
  Variable c : setup.
  Variable red : nat -> tensor D.
  Variable red_sub : nat -> tensor D.
  Variable proj : M.
  Notation step := (step c red red_sub proj).

  Ltac bind E x := apply obind_ok in E as (x & ? & E).

  (** How one call changes the members. *)
  Inductive effect (s s' : solver) : call -> Prop :=
  | ef_init : s_nl c <> NlNone -> v_ct s' = v_ct s -> v_st s' = nulls (num_sub c) -> v_ce s' = v_ce s -> v_se s' = nulls (num_sub c) ->
      (s_lf c = true /\ (exists o, v_heap s' = v_heap s ++ [o]) /\ v_itf s' = Some (List.length (v_heap s)) \/
       s_lf c = false /\ v_heap s' = v_heap s /\ v_itf s' = v_itf s) -> v_handler s' = true -> effect s s' InitHandler
  | ef_alloc_t : s_nl c = NlTensor -> v_heap s' = v_heap s -> v_ct s' = nulls (num_comp c) -> v_st s' = v_st s -> v_handler s = true ->
      v_handler s' = true -> effect s s' Allocate
  | ef_alloc_e os : s_nl c = NlEqp -> v_heap s' = v_heap s ++ os -> List.length os = num_comp c ->
      v_ce s' = map Some (seq (List.length (v_heap s)) (num_comp c)) -> v_se s' = v_se s -> v_itf s' = v_itf s -> v_st s' = v_st s -> v_handler s = true ->
      v_handler s' = true -> v_ct s' = v_ct s -> effect s s' Allocate
  | ef_fill k os : is_fill k = true -> v_heap s' = v_heap s ++ os -> List.length os = num_comp c -> List.length (v_ct s) = num_comp c ->
      v_ct s' = map Some (seq (List.length (v_heap s)) (num_comp c)) -> v_st s' = v_st s -> v_ce s' = v_ce s -> v_se s' = v_se s -> v_itf s' = v_itf s ->
      v_handler s = true -> v_handler s' = true -> (s_nl c = NlTensor \/ k = BuildTensors) -> effect s s' k
  | ef_none k : s' = s -> v_handler s = true -> is_init k = false -> effect s s' k
  | ef_basis : v_heap s' = v_heap s -> v_ct s' = v_ct s -> v_st s' = v_st s -> v_ce s' = v_ce s -> v_se s' = v_se s -> v_itf s' = v_itf s ->
      v_handler s = true -> v_handler s' = true -> effect s s' LoadBasis
  | ef_mat k : k = Project \/ (exists n, k = LoadOperator n) -> s_nl c <> NlTensor -> v_heap s' = v_heap s -> v_ct s' = v_ct s -> v_st s' = v_st s -> v_ce s' = v_ce s -> v_se s' = v_se s -> v_itf s' = v_itf s ->
      v_handler s = true -> v_handler s' = true -> effect s s' k
  | ef_asm_t : s_nl c = NlTensor -> v_heap s' = v_heap s -> v_ct s' = v_ct s -> List.length (v_st s') = num_sub c -> v_handler s = true ->
      v_handler s' = true -> effect s s' AssembleNlin
  | ef_asm_e os : s_nl c = NlEqp -> v_heap s' = v_heap s ++ os -> List.length os = num_sub c -> v_ce s' = v_ce s ->
      v_se s' = map Some (seq (List.length (v_heap s)) (num_sub c)) -> v_itf s' = v_itf s -> v_st s' = v_st s -> v_handler s = true ->
      v_handler s' = true -> v_ct s' = v_ct s -> effect s s' AssembleNlin
  | ef_sub k os : k = Project \/ (exists n, k = LoadOperator n) /\ s_level c = LevGlobal -> s_nl c = NlTensor -> v_heap s' = v_heap s ++ os -> List.length os = num_sub c -> v_ct s' = v_ct s ->
      v_st s' = map Some (seq (List.length (v_heap s)) (num_sub c)) -> v_handler s = true -> v_handler s' = true -> effect s s' k.

  Lemma step_effect s d k s' d' : step (s, d) k = Ok (s', d') -> effect s s' k.
  Proof.
    intros E. destruct k; cbn [TenModel.step] in E; bind E x; injection E as <- <-.
    - unfold init_rom_handler in H. apply oassert_ok in H as (N & H). apply oguard_ok in H as (_ & H).
      destruct (s_lf c) eqn:L; injection H as <-; apply ef_init; cbn; auto; try (intros K; rewrite K in N; discriminate); left; eauto.
    - unfold load_basis in H. apply oguard_ok in H as (Hh & H). injection H as <-. apply ef_basis; auto.
    - unfold allocate in H. apply oguard_ok in H as (Hh & H). destruct (s_nl c) eqn:N; [discriminate| |].
      + injection H as <-. apply ef_alloc_t; auto.
      + apply oassert_ok in H as (_ & H). apply obind_ok in H as ((h & a) & E & H). apply oassert_ok in H as (_ & H). injection H as <-.
        apply fill_inv in E as (os & _ & Lo & -> & ->); [|apply nulls_length]. apply (ef_alloc_e _ _ os); auto.
    - unfold build_tensors in H. apply oassert_ok in H as (_ & H). apply oguard_ok in H as (Hh & H). do 2 apply oassert_ok in H as (? & H).
      apply obind_ok in H as ((h & a) & E & H). injection H as <-. apply Nat.eqb_eq in H1.
      apply fill_inv in E as (os & _ & Lo & -> & ->); auto. apply (ef_fill _ _ _ os); auto.
    - unfold save_elems in H. apply oguard_ok in H as (Hh & H). apply ef_none; auto.
    - unfold load_elems in H. apply oguard_ok in H as (Hh & H). destruct (s_nl c) eqn:N; [discriminate| |].
      + unfold load_tensors in H. apply oassert_ok in H as (_ & H). apply obind_ok in H as (f & _ & H). apply oassert_ok in H as (L & H).
        apply obind_ok in H as (g & _ & H). apply obind_ok in H as ((h & a) & E & H). injection H as <-. apply Nat.eqb_eq in L.
        apply fill_inv in E as (os & _ & Lo & -> & ->); auto. apply (ef_fill _ _ _ os); auto.
      + do 3 apply oassert_ok in H as (? & H). injection H as <-. apply ef_none; auto.
    - unfold assemble in H. apply oguard_ok in H as (Hh & H). destruct (s_nl c) eqn:N; [discriminate| |].
      + unfold assemble_tensors in H. do 2 apply oassert_ok in H as (? & H). apply obind_ok in H as (a & E & H). injection H as <-.
        apply ef_asm_t; cbn; auto.
        enough (G : forall n b, ofor n (fun a m => let* t := oread (s_types c) m in let* p := oread (v_ct s) t in owrite a m p) (nulls (num_sub c)) = Ok b -> List.length b = num_sub c) by eauto.
        clear. induction n as [|n IH]; intros b E; [unfold ofor in E; cbn in E; injection E as <-; apply nulls_length|].
        rewrite ofor_S' in E. bind E a1. bind E t. bind E p. apply owrite_ok in E as (_ & ->). rewrite upd_len. auto.
      + unfold assemble_forms in H. do 2 apply oassert_ok in H as (? & H). apply obind_ok in H as ((h & a) & E & H). injection H as <-.
        apply fill_inv in E as (os & _ & Lo & -> & ->); [|apply nulls_length]. apply (ef_asm_e _ _ os); auto.
    - unfold project in H. apply oguard_ok in H as (Hh & H). apply oassert_ok in H as (_ & H). destruct (s_nl c) eqn:N.
      + injection H as <-. apply ef_mat; auto. congruence.
      + apply obind_ok in H as ((h & a) & E & H). injection H as <-.
        apply fill_inv in E as (os & _ & Lo & -> & ->); [|apply nulls_length]. apply (ef_sub _ _ _ os); auto.
      + injection H as <-. apply ef_mat; auto. congruence.
    - unfold save_operator in H. apply oguard_ok in H as (Hh & H). apply ef_none; auto.
    - unfold load_operator in H. apply oguard_ok in H as (Hh & H). apply oassert_ok in H as (G & H). apply obind_ok in H as (m & _ & H).
      assert (Lg : s_level c = LevGlobal) by (destruct (s_level c); cbn in G; congruence). destruct (s_nl c) eqn:N.
      + injection H as <-. apply ef_mat; eauto. congruence.
      + apply obind_ok in H as (f & _ & H). apply obind_ok in H as (g & _ & H). apply obind_ok in H as ((h & a) & E & H). injection H as <-.
        apply fill_inv in E as (os & _ & Lo & -> & ->); [|apply nulls_length]. apply (ef_sub _ _ _ os); eauto.
      + injection H as <-. apply ef_mat; eauto. congruence.
  Qed.

  Definition good_asm (ks : list call) : Prop := In AssembleNlin ks -> s_nl c = NlTensor -> s_level c = LevComponent.

  (** The pointers the destructor releases, per handling. *)
  Lemma members_tensor (s : solver) : s_nl c = NlTensor -> ptrs (members c s) = ptrs (v_ct s) ++ (if is_component (s_level c) then [] else ptrs (v_st s)).
  Proof. intros N. unfold members. rewrite N, ptrs_app. destruct (is_component (s_level c)); auto. Qed.
  Lemma members_eqp (s : solver) : s_nl c = NlEqp -> ptrs (members c s) = ptrs (v_ce s) ++ ptrs (v_se s) ++ ptrs [v_itf s].
  Proof. intros N. unfold members. rewrite N, !ptrs_app. auto. Qed.

  Definition sound (s : solver) : Prop := NoDup (ptrs (members c s)) /\ (forall i, In i (ptrs (members c s)) -> i < List.length (v_heap s)).

  Lemma seq_bound a n i : In i (seq a n) -> a <= i < a + n.
  Proof. apply in_seq. Qed.

  Lemma effect_sound s s' k : effect s s' k -> (k = AssembleNlin -> s_nl c = NlTensor -> s_level c = LevComponent) -> sound s -> sound s'.
  Proof.
    intros Ef Ha (Nd & B). destruct (s_nl c) eqn:N.
    - unfold sound, members. rewrite N. cbn. split; [constructor|contradiction].
    - unfold sound in *. rewrite members_tensor in * by auto.
      assert (B1 : forall i, In i (ptrs (v_ct s)) -> i < List.length (v_heap s)) by (intros i Hi; apply B, in_app_iff; auto).
      assert (B2 : is_component (s_level c) = false -> forall i, In i (ptrs (v_st s)) -> i < List.length (v_heap s)).
      { intros Hl i Hi. apply B, in_app_iff. rewrite Hl. auto. }
      destruct (nodup_app_inv _ _ Nd) as (N1 & N2 & N3).
      inversion Ef; subst; try congruence.
      + (* init *) rewrite H0, H1, ptrs_nulls. replace (if is_component (s_level c) then [] else []) with (@nil nat) by (destruct (is_component _); auto).
        rewrite app_nil_r. split; auto. intros i Hi. specialize (B1 i Hi). destruct H4 as [(_ & (o & ->) & _)|(_ & -> & _)]; [rewrite app_length; lia|auto].
      + (* alloc *) rewrite H0, H1, H2, ptrs_nulls. cbn. split; auto. destruct (is_component (s_level c)); [contradiction|auto].
      + (* fill *) rewrite H0, H3, H4, ptrs_some, app_length, H1. split.
        * apply nodup_app; [apply seq_NoDup|auto|]. intros x Hx Hy. apply seq_bound in Hx. destruct (is_component (s_level c)); [contradiction|]. specialize (B2 eq_refl x Hy). lia.
        * intros i Hi. apply in_app_iff in Hi as [Hi|Hi]; [apply seq_bound in Hi; lia|]. destruct (is_component (s_level c)); [contradiction|]. specialize (B2 eq_refl i Hi). lia.
      + (* nothing *) auto.
      + (* basis *) rewrite H, H0, H1. auto.
      + (* assemble *) rewrite H0, H1. specialize (Ha eq_refl eq_refl). rewrite Ha in *. cbn in *. auto.
      + (* sub *) rewrite H1, H3, H4, ptrs_some, app_length, H2. destruct (is_component (s_level c)).
        * split; auto. intros i Hi. specialize (B i Hi). lia.
        * split; [apply nodup_app; [auto|apply seq_NoDup|]|].
          { intros x Hx Hy. apply seq_bound in Hy. specialize (B1 x Hx). lia. }
          intros i Hi. apply in_app_iff in Hi as [Hi|Hi]; [specialize (B1 i Hi); lia|apply seq_bound in Hi; lia].
    - unfold sound in *. rewrite members_eqp in * by auto.
      destruct (nodup_app_inv _ _ Nd) as (N1 & N2 & N3). destruct (nodup_app_inv _ _ N2) as (N4 & N5 & N6).
      assert (B1 : forall i, In i (ptrs (v_ce s)) -> i < List.length (v_heap s)) by (intros i Hi; apply B; rewrite !in_app_iff; auto).
      assert (B2 : forall i, In i (ptrs (v_se s)) -> i < List.length (v_heap s)) by (intros i Hi; apply B; rewrite !in_app_iff; auto).
      assert (B3 : forall i, In i (ptrs [v_itf s]) -> i < List.length (v_heap s)) by (intros i Hi; apply B; rewrite !in_app_iff; auto).
      assert (Nd2 : NoDup (ptrs (v_ce s) ++ ptrs [v_itf s])).
      { apply nodup_app; auto. intros x Hx Hy. apply (N3 x Hx). apply in_app_iff. auto. }
      inversion Ef; subst; try congruence.
      + (* init *) rewrite H2, H3, ptrs_nulls. cbn [app]. destruct H4 as [(_ & (o & Eh) & Ei)|(_ & Eh & Ei)]; rewrite Eh, Ei.
        * cbn. split.
          -- apply nodup_app; [auto|repeat constructor; auto|]. intros x Hx [<-|[]]. specialize (B1 _ Hx). lia.
          -- intros i Hi. rewrite app_length. cbn. apply in_app_iff in Hi as [Hi|[<-|[]]]; [specialize (B1 _ Hi); lia|lia].
        * split; auto. intros i Hi. apply in_app_iff in Hi as [Hi|Hi]; auto.
      + (* alloc *) rewrite H0, H2, H3, H4, ptrs_some, app_length, H1. split.
        * apply nodup_app; [apply seq_NoDup|auto|]. intros x Hx Hy. apply seq_bound in Hx. apply in_app_iff in Hy as [Hy|Hy]; [specialize (B2 _ Hy)|specialize (B3 _ Hy)]; lia.
        * intros i Hi. apply in_app_iff in Hi as [Hi|Hi]; [apply seq_bound in Hi; lia|]. apply in_app_iff in Hi as [Hi|Hi]; [specialize (B2 _ Hi)|specialize (B3 _ Hi)]; lia.
      + (* fill *) rewrite H0, H5, H6, H7, app_length. split; auto. intros i Hi. specialize (B i Hi). lia.
      + auto.
      + rewrite H, H2, H3, H4. auto.
      + rewrite H1, H4, H5, H6. auto.
      + (* assemble *) rewrite H0, H2, H3, H4, ptrs_some, app_length, H1. split.
        * apply nodup_app; [auto| |].
          -- apply nodup_app; [apply seq_NoDup|auto|]. intros x Hx Hy. apply seq_bound in Hx. specialize (B3 _ Hy). lia.
          -- intros x Hx Hy. specialize (B1 _ Hx). apply in_app_iff in Hy as [Hy|Hy]; [apply seq_bound in Hy; lia|]. apply (N3 x Hx). apply in_app_iff. auto.
        * intros i Hi. apply in_app_iff in Hi as [Hi|Hi]; [specialize (B1 _ Hi); lia|]. apply in_app_iff in Hi as [Hi|Hi]; [apply seq_bound in Hi; lia|specialize (B3 _ Hi); lia].
  Qed.

  Lemma effect_handler s s' k : effect s s' k -> v_handler s' = true /\ (is_init k = false -> v_handler s = true).
  Proof. intros Ef. inversion Ef; subst; cbn; auto; split; auto; try discriminate. Qed.

  Lemma new_sound : sound (@new_ns D M).
  Proof. unfold sound, members. destruct (s_nl c); cbn; [|destruct (is_component (s_level c)); cbn|]; split; try constructor; contradiction. Qed.

  Lemma run_sound ks d s d' : good_asm ks -> run c red red_sub proj ks d = Ok (s, d') -> sound s /\ (ks <> [] -> v_handler s = true).
  Proof.
    intros Ga E. unfold run in E.
    apply (ofold_keep _ (fun p (sd : solver * disk D M) => sound (fst sd) /\ (p <> [] -> v_handler (fst sd) = true)) ks _ (s, d')) in E; auto.
    - cbn. split; [apply new_sound|congruence].
    - intros p x q (s1 & d1) (s2 & d2) El (S1 & _) Es. apply step_effect in Es. cbn in *. split.
      + eapply effect_sound; eauto. intros ->. apply Ga. rewrite El. apply in_app_iff. right. left. auto.
      + intros _. apply (effect_handler _ _ _ Es).
  Qed.

  (** ** Nothing is left *)
  Lemma times_app f p q : times f (p ++ q) = times f p + times f q.
  Proof. unfold times. rewrite filter_app, app_length. auto. Qed.
  Lemma times_one f x : times f [x] = if f x then 1 else 0.
  Proof. unfold times. cbn. destruct (f x); auto. Qed.

  Record tidy (ks : list call) (s : solver) : Prop := {
    ti_all : forall i, i < List.length (v_heap s) -> In i (ptrs (members c s));
    ti_init : times is_init ks = 0 -> s = @new_ns D M;
    ti_ct0 : s_nl c = NlTensor -> times is_alloc ks = 0 -> v_ct s = [];
    ti_ct : s_nl c = NlTensor -> times is_fill ks = 0 -> ptrs (v_ct s) = [];
    ti_st : s_nl c = NlTensor -> times is_sub ks = 0 -> ptrs (v_st s) = [];
    ti_ce0 : s_nl c = NlEqp -> times is_alloc ks = 0 -> v_ce s = [];
    ti_se : s_nl c = NlEqp -> times is_sub ks = 0 -> ptrs (v_se s) = [];
    ti_cte : s_nl c = NlEqp -> v_ct s = [];
    ti_none : s_nl c = NlNone -> s = @new_ns D M }.

  Lemma new_tidy : tidy [] (@new_ns D M).
  Proof. constructor; cbn; auto. intros i Hi. lia. Qed.

  Lemma effect_tidy p k s s' : effect s s' k -> (s_lf c = true -> s_nl c = NlEqp) ->
    (is_init k = true -> times is_init p = 0) -> (is_alloc k = true -> times is_alloc p = 0) ->
    (is_fill k = true -> times is_fill p = 0) -> (is_sub k = true -> times is_sub p = 0) ->
    (k = AssembleNlin -> s_nl c = NlTensor -> s_level c = LevComponent) ->
    (k = Project -> s_nl c = NlTensor -> s_level c <> LevComponent) ->
    tidy p s -> tidy (p ++ [k]) s'.
  Proof.
    intros Ef Lf C1 C2 C3 C4 Ca Cp [TA TI T1 T2 T3 U1 U2 U3 TN].
    assert (Hi : times is_init (p ++ [k]) = 0 -> s' = @new_ns D M).
    { rewrite times_app, times_one. intros K. assert (K1 : times is_init p = 0 /\ is_init k = false) by (destruct (is_init k); split; lia || auto).
      destruct K1 as (K1 & K2). rewrite (TI K1) in Ef. destruct (effect_handler _ _ _ Ef) as (_ & Hh). specialize (Hh K2). discriminate. }
    destruct (s_nl c) eqn:N.
    - exfalso. rewrite (TN eq_refl) in Ef. inversion Ef; subst; cbn in *; congruence.
    - assert (Lf' : s_lf c = false) by (destruct (s_lf c); [specialize (Lf eq_refl); congruence|auto]).
      rewrite members_tensor in TA by auto.
      constructor; auto; rewrite ?times_app, ?times_one; try congruence.
      + rewrite members_tensor by auto. inversion Ef; subst; try congruence.
        * specialize (TI (C1 eq_refl)). subst s. destruct H4 as [(K & _)|(_ & -> & _)]; [congruence|]. cbn. lia.
        * rewrite H0, H1, H2. rewrite (T1 eq_refl (C2 eq_refl)) in TA. rewrite ptrs_nulls. exact TA.
        * rewrite H0, H3, H4, ptrs_some, app_length, H1. rewrite (T2 eq_refl (C3 H)) in TA. intros i Hj. apply in_app_iff.
          destruct (Nat.lt_ge_cases i (List.length (v_heap s))) as [K|K]; [right; apply TA; auto|left; apply in_seq; lia].
        * auto.
        * rewrite H, H0, H1. auto.
        * rewrite H0, H1. specialize (Ca eq_refl eq_refl). rewrite Ca in *. cbn in *. auto.
        * rewrite H1, H3, H4, ptrs_some, app_length, H2.
          assert (Hl : is_component (s_level c) = false).
          { destruct H as [->|(_ & ->)]; [|reflexivity]. specialize (Cp eq_refl eq_refl). destruct (s_level c); auto. congruence. }
          assert (Hs : is_sub k = true) by (destruct H as [->|((n & ->) & _)]; reflexivity).
          rewrite Hl in *. rewrite (T3 eq_refl (C4 Hs)), app_nil_r in TA. intros i Hj. apply in_app_iff.
          destruct (Nat.lt_ge_cases i (List.length (v_heap s))) as [K|K]; [left; apply TA; auto|right; apply in_seq; lia].
      + intros _ K. assert (K1 : times is_alloc p = 0 /\ is_alloc k = false) by (destruct (is_alloc k); split; lia || auto).
        destruct K1 as (K1 & K2). specialize (T1 eq_refl K1). inversion Ef; subst; cbn in *; try congruence.
        rewrite H3. rewrite T1 in H2. cbn in H2. rewrite <- H2. reflexivity.
      + intros _ K. assert (K1 : times is_fill p = 0 /\ is_fill k = false) by (destruct (is_fill k); split; lia || auto).
        destruct K1 as (K1 & K2). specialize (T2 eq_refl K1). inversion Ef; subst; cbn in *; try congruence. rewrite H1. apply ptrs_nulls.
      + intros _ K. assert (K1 : times is_sub p = 0 /\ is_sub k = false) by (destruct (is_sub k); split; lia || auto).
        destruct K1 as (K1 & K2). specialize (T3 eq_refl K1). inversion Ef; subst; cbn in *; try congruence; [rewrite H1; apply ptrs_nulls|].
        destruct H as [->|((n & ->) & _)]; discriminate.
    - rewrite members_eqp in TA by auto.
      constructor; auto; rewrite ?times_app, ?times_one; try congruence.
      + rewrite members_eqp by auto. inversion Ef; subst; try congruence.
        * specialize (TI (C1 eq_refl)). subst s. rewrite H2, H3, ptrs_nulls.
          destruct H4 as [(_ & (o & ->) & ->)|(_ & -> & _)]; cbn; [intros i Hj; left; lia|lia].
        * rewrite H0, H2, H3, H4, ptrs_some, app_length, H1. rewrite (U1 eq_refl (C2 eq_refl)) in TA. intros i Hj. apply in_app_iff.
          destruct (Nat.lt_ge_cases i (List.length (v_heap s))) as [K|K]; [right; apply TA; auto|left; apply in_seq; lia].
        * rewrite (U3 eq_refl) in H2. cbn in H2. rewrite <- H2 in H1. destruct os; [|discriminate]. rewrite H0, H5, H6, H7, app_nil_r. auto.
        * auto.
        * rewrite H, H2, H3, H4. auto.
        * rewrite H1, H4, H5, H6. auto.
        * rewrite H0, H2, H3, H4, ptrs_some, app_length, H1. rewrite (U2 eq_refl (C4 eq_refl)) in TA. intros i Hj. rewrite !in_app_iff.
          destruct (Nat.lt_ge_cases i (List.length (v_heap s))) as [K|K].
          -- specialize (TA i K). rewrite !in_app_iff in TA. cbn in TA. tauto.
          -- right. left. apply in_seq. lia.
      + intros _ K. assert (K1 : times is_alloc p = 0 /\ is_alloc k = false) by (destruct (is_alloc k); split; lia || auto).
        destruct K1 as (K1 & K2). specialize (U1 eq_refl K1). inversion Ef; subst; cbn in *; try congruence.
      + intros _ K. assert (K1 : times is_sub p = 0 /\ is_sub k = false) by (destruct (is_sub k); split; lia || auto).
        destruct K1 as (K1 & K2). specialize (U2 eq_refl K1). inversion Ef; subst; cbn in *; try congruence. rewrite H3. apply ptrs_nulls.
      + intros _. specialize (U3 eq_refl). inversion Ef; subst; try congruence.
        rewrite H3. rewrite U3 in H2. cbn in H2. rewrite <- H2. reflexivity.
  Qed.

  Lemma run_tidy ks d s d' : once_each c ks -> (s_lf c = true -> s_nl c = NlEqp) -> run c red red_sub proj ks d = Ok (s, d') -> tidy ks s.
  Proof.
    intros [O1 O2 O3 O4 O5 O6] Lf E. unfold run in E.
    apply (ofold_keep _ (fun p (sd : solver * disk D M) => tidy p (fst sd)) ks _ (s, d')) in E; auto; [apply new_tidy|].
    intros p x q (s1 & d1) (s2 & d2) El T Es. apply step_effect in Es. cbn in *.
    assert (Hin : In x ks) by (rewrite El; apply in_app_iff; right; left; auto).
    assert (C : forall f, f x = true -> times f ks <= 1 -> times f p = 0).
    { intros f Hx Hf. change (x :: q) with ([x] ++ q) in El. rewrite El, !times_app, times_one, Hx in Hf. lia. }
    apply (effect_tidy p x s1 s2); auto.
    - intros Hx. apply C; auto. lia.
    - intros ->. auto.
    - intros ->. auto.
  Qed.
End P.
