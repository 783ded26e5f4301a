(** Property theorems: sampling. *)
From Coq Require Import ZArith List Reals.
From Verif Require Import Outcome SamplingModel SamplingSpec SamplingProofs.
Import ListNotations.
Open Scope Z_scope.

(** C01 *)
Theorem C01_every_sample_has_one_process : forall total procs,
  0 <= total -> (0 < procs)%nat ->
  exists offs, distribute_samples total procs = Ok offs /\
    (forall r i, (r < procs)%nat -> exists b, is_my_job offs r i = Ok b) /\
    fair_partition total procs (fun r i => is_my_job offs r i = Ok true).
Proof. exact distribution_fair. Qed.
Print Assumptions C01_every_sample_has_one_process.

(** C02 *)
Theorem C02_index_codec : forall sizes total,
  set_param_space_sizes sizes = Ok total ->
  total = grid_size sizes /\
  (forall k, 0 <= k < total -> exists idx,
      decode_index sizes k = Ok idx /\ in_grid sizes idx /\ encode_index sizes total idx = Ok k) /\
  (forall idx, in_grid sizes idx -> exists k,
      encode_index sizes total idx = Ok k /\ k = grid_position sizes idx /\ 0 <= k < total /\
      decode_index sizes k = Ok idx).
Proof. exact index_codec. Qed.
Print Assumptions C02_index_codec.

(** C03, full statement: [set_param_space_sizes sizes = Ok total -> length idx = length sizes ->
    ~ in_grid sizes idx -> forall k, encode_index sizes total idx <> Ok k].  It is false: *)
Theorem C03_out_of_grid_rejected_refuted : exists sizes total idx k,
  set_param_space_sizes sizes = Ok total /\ length idx = length sizes /\ ~ in_grid sizes idx /\
  encode_index sizes total idx = Ok k /\
  exists idx', idx' <> idx /\ decode_index sizes k = Ok idx'.
Proof.
  exists [2; 3], 6, [0; 5], 5. split; [reflexivity|]. split; [reflexivity|]. split.
  - intros H. inversion H as [|? ? ? ? _ H1]; subst. inversion H1 as [|? ? ? ? H2 _]; subst.
    destruct H2 as [_ H2]. discriminate H2.
  - split; [reflexivity|]. exists [1; 2]. split; [discriminate|reflexivity].
Qed.
Print Assumptions C03_out_of_grid_rejected_refuted.

(** C03, what holds: only the linear value and the number of components are checked. *)
Theorem C03_linear_range_checked_partial : forall sizes total idx,
  (length idx <> length sizes -> encode_index sizes total idx = Abort) /\
  (forall k, encode_index sizes total idx = Ok k -> 0 <= k < total).
Proof.
  exact (fun sizes total idx => conj (encode_rejects_length sizes total idx)
                                     (encode_rejects_wrong_linear sizes total idx)).
Qed.
Print Assumptions C03_linear_range_checked_partial.

(** C03 for the inverse conversion: a linear index outside [0,total) is accepted too. *)
Theorem C03_linear_index_rejected_refuted : exists sizes total k idx,
  set_param_space_sizes sizes = Ok total /\ ~ (0 <= k < total) /\ decode_index sizes k = Ok idx.
Proof.
  exists [2; 3], 6, 7, [0; 1]. split; [reflexivity|]. split; [intros [_ H]; discriminate H|reflexivity].
Qed.
Print Assumptions C03_linear_index_rejected_refuted.

(** C04 for one process: whatever the solver answers, a finished run has saved every sample exactly once, in
    order, under its own file index, and has restored the configuration; it finishes when every solve
    converges, and in random mode as soon as solves succeed infinitely often. *)
Theorem C04_single_process_partial : forall (C : Type) total gt file_off setp converge (cfg : C),
  0 <= total ->
  (forall fuel solved cfg', generate_samples fuel total 1 0 gt file_off setp converge cfg = Finished solved cfg' ->
     solved = all_samples (Z.to_nat total) file_off /\ cfg' = cfg) /\
  ((forall n, converge n = true) ->
     generate_samples (S (Z.to_nat total)) total 1 0 gt file_off setp converge cfg
     = Finished (all_samples (Z.to_nat total) file_off) cfg) /\
  (gt = RANDOM -> (forall n, exists m, (n <= m)%nat /\ converge m = true) ->
     exists fuel, generate_samples fuel total 1 0 gt file_off setp converge cfg
     = Finished (all_samples (Z.to_nat total) file_off) cfg).
Proof. exact (@generate_samples_single). Qed.
Print Assumptions C04_single_process_partial.

(** C04 for two or more processes is false in the strongest sense: although every solve converges, no process
    of a run with at least two samples ever finishes. *)
Theorem C04_multi_process_termination_refuted :
  forall (C : Type) total procs rank gt file_off setp converge (cfg : C),
  0 < total -> (1 < procs)%nat -> (rank < procs)%nat -> ((0 < rank)%nat \/ 1 < total) ->
  (forall n, converge n = true) ->
  forall fuel solved cfg',
    generate_samples fuel total procs rank gt file_off setp converge cfg <> Finished solved cfg'.
Proof. exact (@generate_samples_multi_stuck). Qed.
Print Assumptions C04_multi_process_termination_refuted.

(** C05, integer and file-name parameters *)
Theorem C05_integer_in_range : forall minval maxval size i,
  minval <= maxval -> 0 <= i < size ->
  exists v, get_integer minval maxval size i = Ok v /\ minval <= v <= maxval /\ (i = 0 -> v = minval) /\
    forall j w, i <= j -> get_integer minval maxval size j = Ok w -> v <= w.
Proof.
  intros minval maxval size i Hm Hi. destruct (get_integer_ok minval maxval size i Hi) as [v Hv].
  exists v. destruct (get_integer_range _ _ _ _ _ Hm Hv) as (H1 & H2 & _).
  repeat split; auto; try apply H1. intros j w Hij Hw. exact (get_integer_mono _ _ _ _ _ _ _ Hm Hij Hv Hw).
Qed.
Print Assumptions C05_integer_in_range.

(** C05, real parameters, linear scale *)
Theorem C05_linear_in_range : forall (minval maxval : R) size i,
  (minval <= maxval)%R -> 0 <= i < size ->
  exists v, double_param_linear minval maxval size i = Ok v /\ (minval <= v <= maxval)%R /\
    (i = 0 -> v = minval) /\ (i = size - 1 -> 1 < size -> v = maxval) /\
    forall j w, i <= j -> double_param_linear minval maxval size j = Ok w -> (v <= w)%R.
Proof.
  intros minval maxval size i Hm Hi.
  destruct (double_linear_range minval maxval size i Hm Hi) as (v & Hv & H1 & H2 & H3).
  exists v. repeat split; auto; try apply H1.
  intros j w Hij Hw. exact (double_linear_mono _ _ _ _ _ _ _ Hm Hij Hv Hw).
Qed.
Print Assumptions C05_linear_in_range.

(** C05, real parameters, log scale (positive minimum) *)
Theorem C05_log_in_range : forall (minval maxval : R) size i,
  (0 < minval <= maxval)%R -> 0 <= i < size ->
  exists v, double_param_log minval maxval size i = Ok v /\ (minval <= v <= maxval)%R /\
    (i = 0 -> v = minval) /\ (i = size - 1 -> 1 < size -> v = maxval) /\
    forall j w, i <= j -> double_param_log minval maxval size j = Ok w -> (v <= w)%R.
Proof.
  intros minval maxval size i Hm Hi.
  destruct (double_log_range minval maxval size i Hm Hi) as (v & Hv & H1 & H2 & H3).
  exists v. repeat split; auto; try apply H1.
  intros j w Hij Hw. exact (double_log_mono _ _ _ _ _ _ _ Hm Hij Hv Hw).
Qed.
Print Assumptions C05_log_in_range.

(** C05, random values: [u] is what the uniform generator returned. *)
Theorem C05_random_in_range : forall (minval maxval u : R),
  (0 <= u <= 1)%R ->
  ((minval <= maxval)%R -> (minval <= double_random_linear minval maxval u <= maxval)%R) /\
  ((0 < minval <= maxval)%R -> (minval <= double_random_log minval maxval u <= maxval)%R).
Proof. exact double_random_range. Qed.
Print Assumptions C05_random_in_range.

(** C05, file-name lists: exactly one name per integer of [minimum, maximum], in order. *)
Theorem C05_filenames_enumerate : forall (S : Type) (fmt : Z -> S) minval maxval (acc : list S),
  minval <= maxval + 1 ->
  exists news, parse_filenames fmt minval maxval acc = acc ++ news /\
    Z.of_nat (length news) = maxval - minval + 1 /\
    forall k, minval <= k <= maxval -> nth_error news (Z.to_nat (k - minval)) = Some (fmt k).
Proof. exact (@parse_filenames_ok). Qed.
Print Assumptions C05_filenames_enumerate.

(** C06, full statement: [minval <= maxval -> 1 < size -> get_integer minval maxval size (size-1) = Ok maxval].
    It is false, and the count chosen by [SetMaximumSize] always leaves an integer of the range unvisited: *)
Theorem C06_integer_reaches_maximum_refuted : exists minval maxval size v,
  minval <= maxval /\ 1 < size <= maxval - minval + 1 /\
  get_integer minval maxval size (size - 1) = Ok v /\ v < maxval.
Proof. exists 0, 10, 4, 9. repeat split; discriminate. Qed.
Print Assumptions C06_integer_reaches_maximum_refuted.

Theorem C06_maximum_size_refuted : forall minval maxval size,
  set_maximum_size minval maxval = Ok size ->
  exists k, minval <= k <= maxval /\ forall i, get_integer minval maxval size i <> Ok k.
Proof. exact maximum_size_misses. Qed.
Print Assumptions C06_maximum_size_refuted.

(** C06, what holds: the maximum is reached exactly when the spacing divides the range; values are always
    distinct when there are enough integers; the gap at the end is less than [size - 1]. *)
Theorem C06_integer_grid_partial : forall minval maxval size,
  minval <= maxval -> 1 < size ->
  ((size - 1 | maxval - minval) -> get_integer minval maxval size (size - 1) = Ok maxval) /\
  (size <= maxval - minval + 1 -> forall i j v,
      get_integer minval maxval size i = Ok v -> get_integer minval maxval size j = Ok v -> i = j) /\
  (forall v, get_integer minval maxval size (size - 1) = Ok v -> maxval - v < size - 1).
Proof.
  intros minval maxval size Hm Hs. split; [|split].
  - exact (get_integer_last minval maxval size Hm Hs).
  - intros Hsz i j v. exact (get_integer_inj minval maxval size i j v Hm (conj Hs Hsz)).
  - intros v Hv. exact (proj2 (proj2 (get_integer_range _ _ _ _ _ Hm Hv)) eq_refl Hs).
Qed.
Print Assumptions C06_integer_grid_partial.

(** C70 *)
Theorem C70_random_index_codec : forall nparams total, (0 < nparams)%nat ->
  (forall k idx, random_decode_index nparams total k = Ok idx ->
     length idx = nparams /\ 0 <= k < total /\ random_encode_index nparams total idx = Ok k) /\
  (forall idx k, random_encode_index nparams total idx = Ok k ->
     0 <= k < total /\ random_decode_index nparams total k = Ok idx) /\
  (forall k, ~ (0 <= k < total) -> random_decode_index nparams total k = Abort).
Proof. exact random_codec. Qed.
Print Assumptions C70_random_index_codec.
