(** Model of the parameters and of the files of one sample (src/parameter.cpp, src/sample_generator.cpp).
    Definitions only. *)
From Coq Require Import ZArith List Bool String Ascii Reals.
From Verif Require Import Outcome ConfigModel SamplingModel.
Import ListNotations.
Open Scope Z_scope.

(** include/parameter.hpp:13-82 and src/parameter.cpp:14-19, 65-69, 107-110: the three types of sampling parameters.
    [log_scale] is a field of [DoubleParam]; a [FilenameParam] is an [IntegerParam] with a format. *)
Inductive param :=
| DoubleP (key : string) (log_scale : bool) (minval maxval : R)
| IntegerP (key : string) (minval maxval : Z)
| FilenameP (key : string) (format : string) (minval maxval : Z).

Definition par_key (p : param) : string :=
  match p with DoubleP k _ _ _ => k | IntegerP k _ _ => k | FilenameP k _ _ _ => k end.

(** What the random number generator answers in one call of [SetRandomParam] (src/etc.cpp:15-24). *)
Record draw := { dr_real : R; dr_int : Z }.

Section Params.
  (** [YAML::convert<double>::encode], [YAML::convert<int>::encode] (text of a number), and [string_format]
      (include/etc.hpp:31-40, i.e. [snprintf]); external. *)
  Context (enc_double : R -> string) (enc_int : Z -> string) (fmt : string -> Z -> string).

  (** src/parameter.cpp:21-41 [DoubleParam::SetParam], 70-76 [IntegerParam::SetParam], 114-119
      [FilenameParam::SetParam]: the node that is assigned; [size] is the number of points set by [SetSize]. *)
  Definition param_node (p : param) (size i : Z) : outcome tree :=
    match p with
    | DoubleP _ true lo hi => let* v := double_param_log lo hi size i in Ok (Scalar (enc_double v))
    | DoubleP _ false lo hi => let* v := double_param_linear lo hi size i in Ok (Scalar (enc_double v))
    | IntegerP _ lo hi => let* v := get_integer lo hi size i in Ok (Scalar (enc_int v))
    | FilenameP _ f lo hi => let* v := get_integer lo hi size i in Ok (Scalar (fmt f v))
    end.

  (** src/parameter.cpp:43-59 [DoubleParam::SetRandomParam], 78-83 [IntegerParam::SetRandomParam], 121-127
      [FilenameParam::SetRandomParam], with 97-102 [GetRandomInteger]. *)
  Definition random_node (p : param) (d : draw) : tree :=
    match p with
    | DoubleP _ true lo hi => Scalar (enc_double (double_random_log lo hi (dr_real d)))
    | DoubleP _ false lo hi => Scalar (enc_double (double_random_linear lo hi (dr_real d)))
    | IntegerP _ _ _ => Scalar (enc_int (dr_int d))
    | FilenameP _ f _ _ => Scalar (fmt f (dr_int d))
    end.

  (** Loop of src/sample_generator.cpp:164-165: [params[p]->SetParam(nested_idx[p], config)], which assigns the node
      with [SetOption].  [sizes] are the [sampling_sizes] given to the parameters by [SetParamSpaceSizes]
      (src/sample_generator.cpp:91-95). *)
  Fixpoint set_params (params : list param) (sizes idx : list Z) (t : tree) : outcome tree :=
    match params, sizes, idx with
    | [], _, _ => Ok t
    | p :: ps, n :: ns, i :: is =>
        let* v := param_node p n i in
        let* t := set_key t (par_key p) v in
        set_params ps ns is t
    | _, _, _ => UB
    end.

  (** src/sample_generator.cpp:158-166 [SampleGenerator::SetSampleParams]. *)
  Definition set_sample_params (params : list param) (sizes : list Z) (index : Z) (t : tree) : outcome tree :=
    oassert (List.length params =? List.length sizes)%nat
      (let* idx := decode_index sizes index in set_params params sizes idx t).

  (** src/random_sample_generator.cpp:59-65 [RandomSampleGenerator::SetSampleParams]; the index is not used. *)
  Fixpoint set_random_params (params : list param) (draws : list draw) (t : tree) : outcome tree :=
    match params, draws with
    | [], _ => Ok t
    | p :: ps, d :: ds => let* t := set_key t (par_key p) (random_node p d) in set_random_params ps ds t
    | _, [] => UB
    end.
End Params.

(** [std::to_string] of an [int]. *)
Definition int_text (z : Z) : string :=
  if z <? 0 then String "-" (index_key (Z.to_nat (- z))) else index_key (Z.to_nat z).

(** src/sample_generator.cpp:168-179 [GetSamplePath]. *)
Definition get_sample_path (sample_dir sample_prefix : string) (idx : Z) (prefix : string) : string :=
  (sample_dir ++ "/sample" ++ int_text idx ++ "_" ++
   (if String.eqb prefix "" then sample_prefix else prefix))%string.

(** src/main_workflow.cpp:170-173: the solution file of a sample with the given file index. *)
Definition solution_file (sample_dir sample_prefix : string) (file_idx : Z) (sol_prefix : string) : string :=
  (get_sample_path sample_dir sample_prefix file_idx sol_prefix ++ ".h5")%string.
