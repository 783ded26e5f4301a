(** Model of sample distribution, sample indices, parameter values and the sample generation loop.
    Definitions only; no proofs. *)
From Coq Require Import ZArith List Bool Reals.
From Verif Require Import Outcome.
Import ListNotations.
Open Scope Z_scope.

(** ** Distribution of samples over processes *)

(** mfem [Array<int>::PartialSum]: in-place cumulative sum (as used at src/sample_generator.cpp:117). *)
Fixpoint partial_sum (acc : Z) (l : list Z) : list Z :=
  match l with
  | [] => []
  | x :: t => (acc + x) :: partial_sum (acc + x) t
  end.

(** The loop [for (r = 0; r < remainder; r++) sample_offsets[1+r] += 1]
    (src/sample_generator.cpp:114-115), started at index [r] with [n] iterations left. *)
Fixpoint add_remainder (l : list Z) (r n : nat) : outcome (list Z) :=
  match n with
  | O => Ok l
  | S n' => let* v := oread l (1 + r) in
            let* l' := owrite l (1 + r) (v + 1) in
            add_remainder l' (S r) n'
  end.

(** src/sample_generator.cpp:105-121 [SampleGenerator::DistributeSamples].
    [total] is [total_samples], [procs] is [num_procs].  Integer division by zero is UB.
    Simplified: [int] is unbounded here (all values lie between 0 and [total]). *)
Definition distribute_samples (total : Z) (procs : nat) : outcome (list Z) :=
  let P := Z.of_nat procs in
  oguard (negb (P =? 0))
  (let quotient := Z.quot total P in
   let offs := repeat quotient (S procs) in
   let* offs := owrite offs 0 0 in
   let remainder := Z.rem total P in
   let* offs := add_remainder offs 0 (Z.to_nat remainder) in
   let offs := partial_sum 0 offs in
   let* first := oread offs 0 in
   oassert (first =? 0)
   (let* last := oread offs procs in
    oassert (last =? total) (Ok offs))).

(** include/sample_generator.hpp:103-104 [SampleGenerator::IsMyJob(const int&)]. *)
Definition is_my_job (offs : list Z) (rank : nat) (index : Z) : outcome bool :=
  let* lo := oread offs rank in
  let* hi := oread offs (S rank) in
  Ok ((lo <=? index) && (index <? hi)).

(** ** Parameter space sizes *)

(** [total_samples *= sampling_sizes[p]] (src/sample_generator.cpp:97-99), signed 32-bit. *)
Definition total_loop (sizes : list Z) : outcome Z := ofold (fun acc s => oint (acc * s)) sizes 1.

(** src/sample_generator.cpp:81-103 [SampleGenerator::SetParamSpaceSizes] (sizes already read from the
    configuration); [Parameter::SetSize] asserts positivity (include/parameter.hpp:28-29); the assertion
    [num_sampling_params > 0] is line 85. *)
Definition set_param_space_sizes (sizes : list Z) : outcome Z :=
  oassert (negb (length sizes =? 0)%nat)
  (let* _ := ofold (fun _ s => oassert (0 <? s) (Ok tt)) sizes tt in
   total_loop sizes).

(** ** Sample index codec (base generator) *)

(** Loop of src/sample_generator.cpp:129-133, signed 32-bit. *)
Fixpoint encode_loop (sizes idx : list Z) (acc : Z) : outcome Z :=
  match sizes, idx with
  | s :: ss, i :: is =>
      let* a := oint (acc * s) in
      let* a := oint (a + i) in
      encode_loop ss is a
  | _, _ => Ok acc
  end.

(** src/sample_generator.cpp:123-137 [SampleGenerator::GetSampleIndex(const Array<int>&)].
    [sizes] is [sampling_sizes] (its length is [num_sampling_params]); [total] is [total_samples]. *)
Definition encode_index (sizes : list Z) (total : Z) (idx : list Z) : outcome Z :=
  oassert (length idx =? length sizes)%nat
  (match sizes, idx with
   | _ :: ss, i0 :: is =>
       let* g := encode_loop ss is i0 in
       oassert ((0 <=? g) && (g <? total)) (Ok g)
   | _, _ => UB (* index[0] of an empty array *)
   end).

(** Loop of src/sample_generator.cpp:145-153, over the sizes in reverse order; the result is built from the
    last component to the first. *)
Fixpoint decode_loop (rev_sizes : list Z) (tmp : Z) (nested : list Z) : outcome (list Z) :=
  match rev_sizes with
  | [] => Ok nested
  | s :: ss =>
      oguard (negb (s =? 0))
      (let local := Z.rem tmp s in
       oassert ((0 <=? local) && (local <? s))
       (decode_loop ss (Z.quot (tmp - local) s) (local :: nested)))
  end.

(** src/sample_generator.cpp:139-156 [SampleGenerator::GetSampleIndex(const int&)]. *)
Definition decode_index (sizes : list Z) (index : Z) : outcome (list Z) :=
  decode_loop (rev sizes) index [].

(** ** Sample index codec (random generator) *)

(** src/random_sample_generator.cpp:33-47 [RandomSampleGenerator::GetSampleIndex(const Array<int>&)]. *)
Definition random_encode_index (nparams : nat) (total : Z) (idx : list Z) : outcome Z :=
  oassert (length idx =? nparams)%nat
  (match idx with
   | [] => UB
   | g :: rest =>
       let* _ := ofold (fun _ i => oassert (g =? i) (Ok tt)) rest tt in
       oassert ((0 <=? g) && (g <? total)) (Ok g)
   end).

(** src/random_sample_generator.cpp:50-57 [RandomSampleGenerator::GetSampleIndex(const int&)]. *)
Definition random_decode_index (nparams : nat) (total : Z) (index : Z) : outcome (list Z) :=
  oassert ((0 <=? index) && (index <? total)) (Ok (repeat index nparams)).

(** ** Parameter values *)

(** src/parameter.cpp:85-96 [IntegerParam::GetInteger] (also the number inside the file name of
    [FilenameParam::SetParam], src/parameter.cpp:114-119).  Simplified: no 32-bit overflow. *)
Definition get_integer (minval maxval size i : Z) : outcome Z :=
  oassert (0 <? size)
  (oassert ((0 <=? i) && (i <? size))
   (let Np := if size =? 1 then 1 else size - 1 in
    let dp := Z.quot (maxval - minval) Np in
    Ok (minval + i * dp))).

(** include/parameter.hpp:65 [IntegerParam::SetMaximumSize], through [SetSize] (28-29). *)
Definition set_maximum_size (minval maxval : Z) : outcome Z :=
  oassert (0 <? maxval - minval) (Ok (maxval - minval)).

(** src/parameter.cpp:130-135 [FilenameParam::ParseFilenames]; [fmt] is [string_format(format, .)].
    The loop runs for k = minval .. maxval. *)
Definition parse_filenames {S : Type} (fmt : Z -> S) (minval maxval : Z) (filenames : list S) : list S :=
  filenames ++ map (fun k => fmt (minval + Z.of_nat k)) (seq 0 (Z.to_nat (maxval - minval + 1))).

(** src/parameter.cpp:21-41 [DoubleParam::SetParam], linear scale, over exact reals. *)
Definition double_param_linear (minval maxval : R) (size i : Z) : outcome R :=
  oassert (0 <? size)
  (oassert ((0 <=? i) && (i <? size))
   (let Np := if size =? 1 then 1 else size - 1 in
    let dp := ((maxval - minval) / IZR Np)%R in
    Ok (minval + IZR i * dp)%R)).

(** src/parameter.cpp:27-33 [DoubleParam::SetParam], log scale, over exact reals; [pow] with a nonnegative
    integral exponent is [pow] of the standard library. *)
Definition double_param_log (minval maxval : R) (size i : Z) : outcome R :=
  oassert (0 <? size)
  (oassert ((0 <=? i) && (i <? size))
   (let Np := if size =? 1 then 1 else size - 1 in
    let dp := (ln (maxval / minval) / IZR Np)%R in
    let dp := exp dp in
    Ok (minval * pow dp (Z.to_nat i))%R)).

(** src/parameter.cpp:43-59 [DoubleParam::SetRandomParam]; [u] is the value returned by [UniformRandom()]
    (src/etc.cpp:15-18), which lies in [0,1). *)
Definition double_random_linear (minval maxval u : R) : R := (minval + (maxval - minval) * u)%R.
Definition double_random_log (minval maxval u : R) : R := (minval * Rpower (maxval / minval) u)%R.

(** ** The sample generation loop *)

(** [SampleGeneratorType] (include/sample_generator.hpp): BASE or RANDOM. *)
Inductive gen_type := BASE | RANDOM.

(** State of the loop of src/main_workflow.cpp:144-210.  [attempts] counts solves performed so far (it indexes
    the solver oracle), [solved] lists the pair (sample index, file index) of every solution saved, oldest
    first, [cfg] is the global configuration [config.dict_]. *)
Record loop_state (C : Type) := {
  ls_s : Z;
  ls_attempts : nat;
  ls_solved : list (Z * Z);
  ls_cfg : C }.
Arguments ls_s {C}. Arguments ls_attempts {C}. Arguments ls_solved {C}. Arguments ls_cfg {C}.

Inductive loop_step (C : Type) :=
| Continue (st : loop_state C)   (** the body ran (or hit [continue]); the loop condition is tested again *)
| LoopExit (st : loop_state C)   (** [s < total] is false *)
| Stopped.                       (** [mfem_error] or UB *)
Arguments Continue {C}. Arguments LoopExit {C}. Arguments Stopped {C}.

(** One test of the loop condition and one execution of the body (src/main_workflow.cpp:155-202).
    [setp s c] is the effect of [SetSampleParams(s)] on the configuration; [converge n] is the answer of the
    [n]-th call of [Solve]; [file_off] is [GetFileOffset()].  Solver construction, assembly and visualization
    are not modelled. *)
Definition generate_step {C} (total : Z) (offs : list Z) (rank : nat) (gt : gen_type) (file_off : Z)
    (setp : Z -> C -> C) (converge : nat -> bool) (st : loop_state C) : loop_step C :=
  if negb (ls_s st <? total) then LoopExit st
  else match is_my_job offs rank (ls_s st) with
  | Ok false => Continue st                             (* line 157: continue *)
  | Ok true =>
      let cfg' := setp (ls_s st) (ls_cfg st) in
      if converge (ls_attempts st) then
        Continue {| ls_s := ls_s st + 1; ls_attempts := S (ls_attempts st);
                    ls_solved := ls_solved st ++ [(ls_s st, ls_s st + file_off)]; ls_cfg := cfg' |}
      else match gt with
      | BASE => Stopped                                  (* line 183-184 *)
      | RANDOM => Continue {| ls_s := ls_s st; ls_attempts := S (ls_attempts st);
                              ls_solved := ls_solved st; ls_cfg := cfg' |}   (* line 185-191 *)
      end
  | _ => Stopped
  end.

Inductive run_result (C : Type) :=
| Finished (solved : list (Z * Z)) (cfg : C)
| RunStopped
| OutOfFuel (st : loop_state C).   (** still running after the given number of loop tests *)
Arguments Finished {C}. Arguments RunStopped {C}. Arguments OutOfFuel {C}.

Fixpoint generate_loop {C} (fuel : nat) total offs rank gt file_off setp converge (cfg0 : C)
    (st : loop_state C) : run_result C :=
  match fuel with
  | O => OutOfFuel st
  | S f =>
      match generate_step total offs rank gt file_off setp converge st with
      | Continue st' => generate_loop f total offs rank gt file_off setp converge cfg0 st'
      | LoopExit st' => Finished (ls_solved st') cfg0    (* lines 203-209: config.dict_ = dict0 *)
      | Stopped => RunStopped
      end
  end.

(** src/main_workflow.cpp:144-210 [GenerateSamples]: [cfg] is the configuration at entry (cloned, line 147). *)
Definition generate_samples {C} (fuel : nat) (total : Z) (procs rank : nat) (gt : gen_type) (file_off : Z)
    (setp : Z -> C -> C) (converge : nat -> bool) (cfg : C) : run_result C :=
  match distribute_samples total procs with
  | Ok offs => generate_loop fuel total offs rank gt file_off setp converge cfg
                 {| ls_s := 0; ls_attempts := 0; ls_solved := []; ls_cfg := cfg |}
  | _ => RunStopped
  end.
