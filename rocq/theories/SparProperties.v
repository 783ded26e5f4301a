(** C138: each sample runs with its own parameter values, whatever ran before it, and has its own files. *)
From Coq Require Import ZArith List Bool String Ascii Reals Lia.
From Verif Require Import Outcome ConfigModel ConfigSpec ConfigProofs SamplingModel SamplingSpec SparModel SparSpec SparProofs.
Import ListNotations.
Open Scope Z_scope.

(** C138: the configuration of sample [s] has at every named option the value of that parameter at the point of the
    grid that [s] stands for, and is otherwise the configuration given; it is refused exactly when an option lies
    below a plain value. *)
Theorem C138_parameters : forall ed ei fmt params paths sizes total s t,
  set_param_space_sizes sizes = Ok total -> separate_keys params paths ->
  List.length params = List.length sizes -> 0 <= s < total ->
  exists idx, in_grid sizes idx /\ grid_position sizes idx = s /\
  ((exists t', set_sample_params ed ei fmt params sizes s t = Ok t') <-> forall q, In q paths -> ~ below_scalar t q) /\
  forall t', set_sample_params ed ei fmt params sizes s t = Ok t' ->
    (forall k p q n i, nth_error params k = Some p -> nth_error paths k = Some q -> nth_error sizes k = Some n ->
       nth_error idx k = Some i -> exists x, at_path t' q (Scalar x) /\ point_value ed ei fmt n i p x) /\
    (forall q, (forall p, In p paths -> unrelated p q) -> found (find_node t' q) = found (find_node t q)).
Proof. exact sample_params. Qed.
Print Assumptions C138_parameters.

(** C138: the configuration of a sample is the same tree whatever samples the process ran before it. *)
Theorem C138_history : forall ed ei fmt params paths sizes, separate_keys params paths -> forall l t t1,
  runs_of (set_sample_params ed ei fmt params sizes) l t t1 -> forall s t2,
  set_sample_params ed ei fmt params sizes s t1 = Ok t2 <-> set_sample_params ed ei fmt params sizes s t = Ok t2.
Proof. exact sample_history. Qed.
Print Assumptions C138_history.

(** C138 for random samples: what was drawn is what is set, and a second draw leaves nothing of the first. *)
Theorem C138_random : forall ed ei fmt params paths draws t t', separate_keys params paths ->
  List.length draws = List.length params -> set_random_params ed ei fmt params draws t = Ok t' ->
  (forall k p q d, nth_error params k = Some p -> nth_error paths k = Some q -> nth_error draws k = Some d ->
     exists x, at_path t' q (Scalar x) /\ drawn_value ed ei fmt (dr_real d) (dr_int d) p x) /\
  (forall q, (forall p, In p paths -> unrelated p q) -> found (find_node t' q) = found (find_node t q)) /\
  forall draws2, List.length draws2 = List.length params ->
    set_random_params ed ei fmt params draws2 t' = set_random_params ed ei fmt params draws2 t.
Proof. exact random_params. Qed.
Print Assumptions C138_random.

(** C138 without separate keys is false: two parameters may name the same option; then the points of the grid that
    differ in the first parameter only are the same computation, and nothing is said. *)
Theorem C138_same_key_refuted : forall ed ei fmt key q, key = join slash q -> segments slash q -> exists params sizes total,
  set_param_space_sizes sizes = Ok total /\ List.length params = List.length sizes /\
  (forall p, In p params -> par_key p = key) /\
  exists s1 s2, 0 <= s1 < total /\ 0 <= s2 < total /\ s1 <> s2 /\
  forall t, ~ below_scalar t q -> exists t',
    set_sample_params ed ei fmt params sizes s1 t = Ok t' /\ set_sample_params ed ei fmt params sizes s2 t = Ok t'.
Proof.
  intros ed ei fmt key q Hk Hq. exists [IntegerP key 1 2; IntegerP key 5 6], [2; 2], 4. split; [reflexivity|].
  split; [reflexivity|]. split; [intros p [<-|[<-|[]]]; reflexivity|].
  exists 0, 2. split; [lia|]. split; [lia|]. split; [lia|]. intros t Hb.
  unfold set_sample_params. cbn -[set_key]. unfold set_key. rewrite Hk, (pieces_join _ _ Hq).
  destruct (proj2 (set_accepted q t (Scalar (ei 1))) Hb) as [t1 E1].
  destruct (proj2 (set_accepted q t (Scalar (ei 2))) Hb) as [t2 E2].
  destruct (proj2 (set_accepted q t (Scalar (ei 5))) Hb) as [t3 E3].
  exists t3. rewrite E1, E2. cbn [obind]. rewrite (set_node_again _ _ _ _ _ E1), (set_node_again _ _ _ _ _ E2), E3.
  split; reflexivity.
Qed.
Print Assumptions C138_same_key_refuted.

(** ... and one parameter may name an option above that of another; then the first sample runs and the second one
    stops the program, because the option of the first parameter is now below a plain value. *)
Theorem C138_nested_key_refuted : forall ed ei fmt, exists params sizes total t t1,
  set_param_space_sizes sizes = Ok total /\ List.length params = List.length sizes /\ 1 < total /\
  set_sample_params ed ei fmt params sizes 0 t = Ok t1 /\ set_sample_params ed ei fmt params sizes 1 t1 = Abort /\
  exists t2, set_sample_params ed ei fmt params sizes 1 t = Ok t2.
Proof.
  intros ed ei fmt. exists [IntegerP "a/b" 1 2; FilenameP "a" "f" 5 6], [2; 1], 2, (Map []). eexists.
  repeat (split; [reflexivity|]). eexists. reflexivity.
Qed.
Print Assumptions C138_nested_key_refuted.

(** C138: an index beyond the last sample is not refused; it stands for a sample of the grid. *)
Theorem C138_beyond_refuted : forall ed ei fmt params t, List.length params = 2%nat ->
  exists sizes total s s', set_param_space_sizes sizes = Ok total /\ ~ (0 <= s < total) /\ 0 <= s' < total /\
  set_sample_params ed ei fmt params sizes s t = set_sample_params ed ei fmt params sizes s' t.
Proof.
  intros ed ei fmt params t L. exists [2; 3], 6, 7, 1. split; [reflexivity|]. split; [lia|]. split; [lia|].
  unfold set_sample_params. rewrite L. reflexivity.
Qed.
Print Assumptions C138_beyond_refuted.

(** C138: paths of different samples differ, whatever prefixes the solvers give. *)
Theorem C138_paths : forall dir pre i1 p1 i2 p2,
  (get_sample_path dir pre i1 p1 = get_sample_path dir pre i2 p2 ->
   i1 = i2 /\ (p1 = "" /\ (p2 = "" \/ p2 = pre) \/ p2 = "" /\ p1 = pre \/ p1 = p2)%string) /\
  (solution_file dir pre i1 p1 = solution_file dir pre i2 p2 -> i1 = i2).
Proof. exact (fun dir pre i1 p1 i2 p2 => conj (sample_path_inj dir pre i1 p1 i2 p2) (solution_file_inj dir pre i1 p1 i2 p2)). Qed.
Print Assumptions C138_paths.

(** C138: a finished run has one solution file for each of its samples, whatever prefix each sample asks for. *)
Theorem C138_files : forall (C : Type) total gt off setp converge (cfg cfg' : C) fuel solved dir pre sp, 0 <= total ->
  generate_samples fuel total 1 0 gt off setp converge cfg = Finished solved cfg' ->
  let files := map (fun x : Z * Z => solution_file dir pre (snd x) (sp (fst x))) solved in
  List.length files = Z.to_nat total /\ NoDup files.
Proof. exact files_of_run. Qed.
Print Assumptions C138_files.
