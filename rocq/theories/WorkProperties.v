(** Theorems about the files, tags and sizes of training. *)
From Coq Require Import ZArith List String Bool Lia Reals Lra.
From Verif Require Import Outcome ListLemmas TagsModel TagsSpec TagsProofs ConfigModel ConfigSpec ConfigProofs
  CompProofs SnapshotModel SnapshotSpec SnapshotProofs SnapshotCollect SnapshotExamples
  WorkModel WorkSpec WorkProofs WorkTagProofs WorkCollectProofs WorkExamples.
Import ListNotations.
Open Scope string_scope.
Open Scope list_scope.

(** *** C67: the files of a basis are the configured ones, in order, and the default exactly when there are none.
    [dstr], [dint] are the conversions of values, [fmt] the formatting of names. *)
Theorem C67_files : forall dstr dint fmt cfg es tag default r,
  tag_entries cfg es -> names_readable dstr es ->
  (snapshot_files dstr dint fmt cfg tag default = Ok r <->
   exists fs, configured dstr dint fmt cfg (print_tag tag) fs /\ used default fs r).
Proof. intros. eapply snapshot_files_ok; eauto. Qed.
Print Assumptions C67_files.

Theorem C67_never_empty : forall dstr dint fmt cfg tag default r,
  snapshot_files dstr dint fmt cfg tag default = Ok r -> r <> [].
Proof.
  intros dstr dint fmt cfg tag default r H. unfold snapshot_files in H. apply obind_ok in H as ([t c] & _ & H).
  apply obind_ok in H as (fs & _ & H). inversion H. unfold or_default. destruct fs; discriminate.
Qed.
Print Assumptions C67_never_empty.

Theorem C67_ports : forall dstr dint fmt cfg sample_prefix r,
  port_files dstr dint fmt cfg sample_prefix = Ok r <->
  exists fs gs, listed dstr cfg ["sample_collection"; "port_files"] fs /\
    numbered dstr dint fmt cfg ["sample_collection"; "port_fileformat"] gs /\
    used (sample_prefix ++ ".port.h5") (fs ++ gs) r.
Proof. intros. apply port_files_ok. Qed.
Print Assumptions C67_ports.

Example C67_applies : tag_entries cfg1 [entry_b; entry_a] /\ names_readable xstr [entry_b; entry_a] /\
  configured xstr xint xfmt cfg1 (print_tag (bt "a" "vel")) ["old1"; "old2"; "run3"; "run4"; "run5"].
Proof. split; [apply cfg1_tags|]. split; [apply cfg1_readable|]. apply cfg1_configured. Qed.

(** *** C68: one tag per component and variable, component by component. *)
Theorem C68_tags : forall dstr mode cfg submesh separate ts,
  global_tags dstr mode cfg submesh separate = Ok ts <->
  exists comps vars,
    ((mode = SUBMESH /\ comps = submesh) \/ (mode = COMPONENT /\ declared dstr cfg comps)) /\
    ((separate = false /\ vars = [""]) \/
     (separate = true /\ exists solver, holds dstr cfg ["main"; "solver"] solver /\ physics_vars solver vars)) /\
    component_major comps vars ts.
Proof. intros. apply global_tags_ok. Qed.
Print Assumptions C68_tags.

(** Component by component means: each pair exactly once when the names of the components differ, and then no two
    tags are printed alike.  Every tag under which a solver saves samples is there. *)
Theorem C68_once : forall comps vars ts solver,
  component_major comps vars ts -> vars = [""] \/ physics_vars solver vars -> NoDup comps ->
  NoDup (map print_tag ts) /\ (forall t, In t ts <-> In (comp t) comps /\ In (var t) vars) /\
  forall topo, incl (t_names topo) comps -> incl (get_basis_tags topo vars) ts.
Proof.
  intros comps vars ts solver Hm Hv Hnd. apply component_major_fun in Hm. subst ts.
  assert (Hp : plain_vars vars /\ NoDup vars /\ vars <> []).
  { destruct Hv as [->|Hv]; [|eapply physics_plain; eauto].
    split; [left; auto|]. split; [repeat constructor; simpl; tauto|discriminate]. }
  destruct Hp as (Hp & Hvd & _). split; [apply all_tags_distinct; auto|]. split; [intros t; apply in_all_tags|].
  intros topo Hi t Ht. apply in_all_tags. unfold get_basis_tags in Ht. apply in_flat_map in Ht as (c & Hc & Ht).
  apply in_map_iff in Ht as (v & <- & Hv'). simpl. auto.
Qed.
Print Assumptions C68_once.

(** A known solver (advection-diffusion) has no such list when bases are separated by variable. *)
Theorem C68_advdiff_refuted : exists cfg solver comps,
  holds xstr cfg ["main"; "solver"] solver /\ solver_known solver = true /\ declared xstr cfg comps /\ NoDup comps /\
  global_tags xstr COMPONENT cfg [] true = Abort.
Proof.
  exists (Map [("main", Map [("solver", Scalar "adv-diff")]);
    ("mesh", Map [("component-wise", Map [("components", Seq [Map [("name", Scalar "a")]])])])]), "adv-diff", ["a"].
  split; [eexists; split; [eapply at_node; reflexivity|reflexivity]|]. split; [reflexivity|].
  split; [eapply declared_list; [eapply at_node; reflexivity|]; repeat constructor; eexists; split; [eapply at_node; reflexivity|reflexivity]|].
  split; [repeat constructor; simpl; tauto|reflexivity].
Qed.
Print Assumptions C68_advdiff_refuted.

Example C68_applies : exists ts, component_major ["a"; "b"] ["vel"; "pres"] ts /\
  global_tags xstr COMPONENT cfg1 [] true = Ok ts /\ declared xstr cfg1 ["a"; "b"].
Proof.
  exists (all_tags ["a"; "b"] ["vel"; "pres"]). split; [apply all_tags_major|]. split; [reflexivity|apply cfg1_declared].
Qed.

(** *** C69: the reported energy fraction. *)
Theorem C69_fraction_partial : forall sv, Forall (fun x => 0 <= x)%R sv -> (0 < prefix_sum sv (List.length sv))%R ->
  exists e : nat -> R,
    (forall n, (n <= List.length sv)%nat -> energy sv (Z.of_nat n) = Some (e n) /\
       (e n * prefix_sum sv (List.length sv) = prefix_sum sv n)%R /\ (0 <= e n <= 1)%R) /\
    (forall n m, (n <= m <= List.length sv)%nat -> (e n <= e m)%R) /\ e (List.length sv) = 1%R.
Proof.
  intros sv Hn Hp. exists (fun n => prefix_sum sv n / prefix_sum sv (List.length sv))%R.
  assert (Hne : prefix_sum sv (List.length sv) <> 0%R) by lra. split; [|split].
  - intros n Hl. split; [apply energy_eq; auto|]. split; [field; auto|].
    destruct (prefix_sum_mono sv Hn n (List.length sv) Hl) as [H1 H2]. split.
    + apply Rmult_le_pos; auto. left. apply Rinv_0_lt_compat; auto.
    + apply Rmult_le_reg_r with (prefix_sum sv (List.length sv)); auto.
      unfold Rdiv. rewrite Rmult_assoc, Rinv_l, Rmult_1_r, Rmult_1_l; auto.
  - intros n m [Hnm Hm]. destruct (prefix_sum_mono sv Hn n m Hnm) as [_ H2].
    unfold Rdiv. apply Rmult_le_compat_r; auto. left. apply Rinv_0_lt_compat; auto.
  - unfold Rdiv. apply Rinv_r; auto.
Qed.
Print Assumptions C69_fraction_partial.

(** A basis larger than the number of singular values: the fraction reported is 0 instead of 1. *)
Theorem C69_beyond_refuted : exists sv n, Forall (fun x => 0 <= x)%R sv /\ (0 < prefix_sum sv (List.length sv))%R /\
  (List.length sv < n)%nat /\ energy sv (Z.of_nat n) = Some 0%R.
Proof.
  exists [2%R; 1%R], 3%nat. split; [repeat constructor; lra|]. split; [unfold prefix_sum; simpl; lra|]. split; [simpl; lia|].
  apply energy_beyond; [unfold prefix_sum; simpl; lra|]. right. simpl. lia.
Qed.
Print Assumptions C69_beyond_refuted.

Example C69_applies : energy [3%R; 1%R] 1 = Some (3 / 4)%R.
Proof.
  change 1%Z with (Z.of_nat 1). rewrite energy_eq; [|unfold prefix_sum; simpl; lra|simpl; lia].
  f_equal. unfold prefix_sum. simpl. field.
Qed.

(** *** C96: training reads what the configuration says, and by default what sampling wrote. *)
Section Train.
  Context {K : Type} (accepts : list K -> bool) (dstr : tree -> outcome string) (dint : tree -> outcome Z)
          (fmt : string -> Z -> string).

  (** The snapshots of a basis are the columns of its files, file after file. *)
  Theorem C96_collect : forall dim cfg es mode submesh separate sample_prefix (d : string -> option (gen K)) ts
      (fgs : basis_tag -> list (gen K)),
    tag_entries cfg es -> names_readable dstr es ->
    global_tags dstr mode cfg submesh separate = Ok ts -> NoDup ts ->
    (forall t, In t ts -> (0 < dim t)%nat /\ exists conf files,
       configured dstr dint fmt cfg (print_tag t) conf /\
       used ((sample_prefix ++ "_") ++ print_tag t ++ "_snapshot") conf files /\
       Forall2 (fun f fg => d f = Some fg /\ g_dim fg = dim t) files (fgs t) /\
       List.concat (map g_cols (fgs t)) <> [] /\
       forall fg u, In fg (fgs t) -> In u (g_cols fg) -> List.length u = dim t /\ accepts u = true) ->
    exists s, collect_samples_by_basis dstr dint fmt accepts cfg mode submesh separate sample_prefix d sg0 = Ok s /\
      NoDup (tags s) /\ List.length (gens s) = List.length (tags s) /\ (forall t, In t (tags s) <-> In t ts) /\
      forall t, (In t ts -> look_up_snapshot s t = Ok (List.concat (map g_cols (fgs t)))) /\
                (~ In t ts -> look_up_snapshot s t = Abort).
  Proof.
    intros dim cfg es mode submesh separate sp d ts fgs Hes Hr Hts Hnd H.
    unfold collect_samples_by_basis. rewrite Hts. cbn [obind].
    destruct (collect_train accepts dim (fun t => snapshot_files dstr dint fmt cfg t (snapshot_name sp t)) d
                (fun t => List.concat (map g_cols (fgs t))) ts [] sg0 (inv_b0 dim)) as (s & E & Hi & Ht).
    { intros t Hin. destruct (H t Hin) as (Hp & conf & files & Hc & Hu & HF & Hne & Ha). split; auto.
      assert (Ef : snapshot_files dstr dint fmt cfg t (snapshot_name sp t) = Ok files).
      { eapply snapshot_files_ok; eauto. exists conf. split; auto.
        replace (snapshot_name sp t) with ((sp ++ "_") ++ print_tag t ++ "_snapshot")%string; auto.
        unfold snapshot_name, base_filename. rewrite !string_app_assoc. reflexivity. }
      exists files. split; auto. split; [eapply C67_never_empty; eauto|]. exists (fgs t). split; auto. split; auto.
      intros u Hu'. apply in_concat in Hu' as (l & Hl & Hu'). apply in_map_iff in Hl as (fg & <- & Hfg). eapply Ha; eauto. }
    exists s. split; [exact E|].
    assert (Hl : forall t, look_up_snapshot s t = if in_dec tag_dec t ts then Ok (List.concat (map g_cols (fgs t))) else Abort).
    { apply (collected_columns dim (fun t => List.concat (map g_cols (fgs t)))); auto.
      - intros t Hin. destruct (H t Hin) as (_ & conf & files & _ & _ & _ & Hne & _). exact Hne.
      - intros t. rewrite Ht. simpl. tauto. }
    split; [exact (wf_index_nodup _ _ _ (ib_wf _ _ _ Hi))|]. split; [exact (ib_len _ _ _ Hi)|].
    split; [intros t; rewrite Ht; simpl; tauto|].
    intros t. rewrite Hl. destruct (in_dec tag_dec t ts); split; intros; auto; contradiction.
  Qed.

  (** A sampling run followed by training with nothing configured. *)
  Theorem C96_roundtrip : forall dim cfg es mode submesh separate sample_prefix (d0 d : string -> option (gen K)) comps vars ts h s0,
    tag_entries cfg es -> names_readable dstr es ->
    global_tags dstr mode cfg submesh separate = Ok ts -> component_major comps vars ts -> NoDup comps ->
    (forall t, In t ts -> configured dstr dint fmt cfg (print_tag t) []) ->
    plain_vars vars -> proper_history vars h -> same_dims h dim ->
    run_history accepts h = Ok s0 -> write_disk sample_prefix s0 d0 = Ok d ->
    (forall t, In t ts -> (0 < dim t)%nat /\ columns h t <> []) ->
    exists s, collect_samples_by_basis dstr dint fmt accepts cfg mode submesh separate sample_prefix d sg0 = Ok s /\
      NoDup (tags s) /\ List.length (gens s) = List.length (tags s) /\ (forall t, In t (tags s) <-> In t ts) /\
      forall t, (In t ts -> look_up_snapshot s t = Ok (columns h t)) /\ (~ In t ts -> look_up_snapshot s t = Abort).
  Proof.
    intros dim cfg es mode submesh separate sp d0 d comps vars ts h s0 Hes Hr Hts Hm Hnd Hc Hpv Hh Hd Hrun Hw Ht.
    assert (Hcont : forall t, In t ts -> exists g, d (snapshot_name sp t) = Some g /\ g_dim g = dim t /\ g_cols g = columns h t /\
              forall u, In u (columns h t) -> List.length u = dim t /\ accepts u = true).
    { intros t Hin. destruct (Ht t Hin) as [_ Hne].
      destruct (sampled_contents accepts dim vars h s0 sp d0 d t Hpv Hh Hd Hrun Hw Hne) as (fgs & HF & Hcc & Hu).
      inversion HF as [|? g ? ? [H1 H2] HF']; subst. inversion HF'; subst. exists g.
      assert (Ec : g_cols g = columns h t) by (rewrite Hcc; simpl; rewrite app_nil_r; auto). auto. }
    set (fgs := fun t => match d (snapshot_name sp t) with Some g => [g] | None => [] end).
    assert (Hcols : forall t, In t ts -> List.concat (map g_cols (fgs t)) = columns h t).
    { intros t Hin. destruct (Hcont t Hin) as (g & Hg & _ & Hgc & _). unfold fgs. rewrite Hg. simpl. rewrite app_nil_r. auto. }
    assert (Hvd : NoDup vars) by apply (ph_vars _ _ Hh).
    assert (Hnt : NoDup ts).
    { apply component_major_fun in Hm. subst ts. apply NoDup_all_tags; auto. }
    destruct (C96_collect dim cfg es mode submesh separate sp d ts fgs Hes Hr Hts Hnt) as (s & E & Hn1 & Hn2 & Hn3 & Hl).
    { intros t Hin. destruct (Ht t Hin) as [Hp Hne]. split; auto. exists [], [snapshot_name sp t].
      split; auto. split.
      - left. split; auto. f_equal. unfold snapshot_name, base_filename. rewrite !string_app_assoc. reflexivity.
      - destruct (Hcont t Hin) as (g & Hg & Hgd & Hgc & Hu). split; [|split].
        + unfold fgs. rewrite Hg. constructor; [|constructor]. auto.
        + rewrite Hcols; auto.
        + intros fg u Hfg Hu'. unfold fgs in Hfg. rewrite Hg in Hfg. destruct Hfg as [<-|[]]. apply Hu. rewrite <- Hgc. auto. }
    exists s. split; auto. split; auto. split; auto. split; auto. intros t. destruct (Hl t) as [H1 H2]. split; auto. intros Hin. rewrite H1, Hcols; auto.
  Qed.

  (** A component that was not sampled: training stops, unless an old file of that name lies around. *)
  Theorem C96_unsampled : forall dim cfg es mode submesh separate sample_prefix (d0 d : string -> option (gen K)) vars ts h s0 t s,
    tag_entries cfg es -> names_readable dstr es ->
    global_tags dstr mode cfg submesh separate = Ok ts ->
    In t ts -> configured dstr dint fmt cfg (print_tag t) [] -> In (var t) vars ->
    plain_vars vars -> proper_history vars h -> same_dims h dim ->
    run_history accepts h = Ok s0 -> write_disk sample_prefix s0 d0 = Ok d -> columns h t = [] ->
    collect_samples_by_basis dstr dint fmt accepts cfg mode submesh separate sample_prefix d sg0 = Ok s ->
    d0 ((sample_prefix ++ "_") ++ print_tag t ++ "_snapshot")%string <> None.
  Proof.
    intros dim cfg es mode submesh separate sp d0 d vars ts h s0 t s Hes Hr Hts Hin Hc Hv Hpv Hh Hd Hrun Hw Hnil H.
    unfold collect_samples_by_basis in H. rewrite Hts in H. cbn [obind] in H.
    assert (Ef : snapshot_files dstr dint fmt cfg t (snapshot_name sp t) = Ok [snapshot_name sp t]).
    { eapply snapshot_files_ok; eauto. exists []. split; auto. left; auto. }
    pose proof (collect_missing accepts (fun t => snapshot_files dstr dint fmt cfg t (snapshot_name sp t)) d ts sg0 s H t
                  _ (snapshot_name sp t) Hin Ef (or_introl eq_refl)) as Hne.
    rewrite (sampled_missing accepts dim vars h s0 sp d0 d t) in Hne; auto.
    replace ((sp ++ "_") ++ print_tag t ++ "_snapshot")%string with (snapshot_name sp t); auto.
    unfold snapshot_name, base_filename. rewrite !string_app_assoc. reflexivity.
  Qed.

  (** *** C97: one basis file per tag, made from that tag's snapshots; the ROM reads the same file and uses as many
      vectors as training reported. *)
  Theorem C97_bases : forall (s : sg K) cfg basis_prefix out,
    NoDup (tags s) -> List.length (gens s) = List.length (tags s) -> tags s <> [] ->
    (form_reduced_basis dstr dint cfg basis_prefix s = Ok out <->
     Forall2 (fun t r => fst (fst r) = rom_basis_file basis_prefix t /\ look_up_snapshot s t = Ok (snd (fst r)) /\
                snd (fst r) <> [] /\ rom_num_basis dstr dint cfg t = Ok (snd r)) (tags s) out).
  Proof.
    intros s cfg bp out Hnd Hl Hne. rewrite (form_spec dstr dint s cfg bp Hnd Hl Hne out).
    assert (Hb : forall t, base_filename bp t = rom_basis_file bp t).
    { intros t. unfold base_filename, rom_basis_file. rewrite string_app_assoc. reflexivity. }
    split; intros H; (eapply Forall2_weaken; [|exact H]); intros t r (H1 & H2 & H3 & H4).
    - rewrite <- Hb, <- sizes_agree. auto.
    - rewrite Hb, sizes_agree. auto.
  Qed.

  (** Two different tags of one training never share a file. *)
  Theorem C97_files : forall basis_prefix vars t t', plain_vars vars -> In (var t) vars -> In (var t') vars ->
    rom_basis_file basis_prefix t = rom_basis_file basis_prefix t' -> t = t'.
  Proof.
    intros bp vars t t' Hp H1 H2 E. apply (plain_inj vars); auto. unfold rom_basis_file in E. apply string_app_inj_l in E. exact E.
  Qed.

  (** The number is the entry's own if it has one, else the common one. *)
  Theorem C97_size : forall cfg es t n, tag_entries cfg es -> names_readable dstr es ->
    (rom_num_basis dstr dint cfg t = Ok n <-> basis_size dstr dint cfg (print_tag t) n /\ (0 < n)%Z).
  Proof. intros. rewrite <- sizes_agree. eapply size_ok; eauto. Qed.
End Train.
Print Assumptions C96_collect.
Print Assumptions C96_roundtrip.
Print Assumptions C96_unsampled.
Print Assumptions C97_bases.
Print Assumptions C97_files.
Print Assumptions C97_size.

(** With any configuration, readable or not, training and the ROM agree on the number of vectors. *)
Theorem C97_sizes : forall dstr dint cfg tag, train_num_basis dstr dint cfg tag = rom_num_basis dstr dint cfg tag.
Proof. apply sizes_agree. Qed.
Print Assumptions C97_sizes.

Example C96_applies : exists ts, global_tags xstr COMPONENT cfg2 [] true = Ok ts /\ component_major ["a"; "b"] vp ts /\
  (let* s0 := run_history acc [ev1; ev2] in let* d := write_disk "dir/p_sample" s0 (fun _ => None) in Ok tt) = Ok tt /\
  forall t, In t ts -> (0 < dims t)%nat /\ columns [ev1; ev2] t <> [] /\ configured xstr xint xfmt cfg2 (print_tag t) [].
Proof.
  exists (all_tags ["a"; "b"] vp). split; [reflexivity|]. split; [apply all_tags_major|].
  split; [vm_compute; reflexivity|].
  intros t Ht. split; [unfold dims; destruct (String.eqb (var t) "vel"); lia|]. split.
  - cbn in Ht. repeat (destruct Ht as [<-|Ht]; [vm_compute; discriminate|]). destruct Ht.
  - eapply conf_none; [apply cfg2_tags|]. intros e [].
Qed.
Example C97_applies : (let* s := trained in Ok (tags s, List.length (gens s))) =
  Ok ([bt "a" "vel"; bt "a" "pres"; bt "b" "vel"; bt "b" "pres"], 4%nat) /\
  rom_num_basis xstr xint cfg1 (bt "a" "vel") = Ok 4%Z.
Proof. split; reflexivity. Qed.
