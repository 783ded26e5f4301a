(** Model of the driver of the four modes (src/main_workflow.cpp) and of the parts of the sample generator that turn
    saved samples into bases.  Definitions only. *)
From Coq Require Import ZArith List Bool String Reals.
From Verif Require Import Outcome TagsModel ConfigModel SamplingModel SnapshotModel.
Import ListNotations.
Open Scope string_scope.
Open Scope list_scope.

(** ** Which files feed a basis *)
Section Files.
  (** [YAML::convert] for strings and integers, and [string_format] (src/etc.cpp:31-40), all external here. *)
  Context (dstr : tree -> outcome string) (dint : tree -> outcome Z) (fmt : string -> Z -> string).

  (** [node.size()] and [node[p]] of the loops over a list node: a null or scalar node has size 0.  Simplified: the
      entries of a map are not reached by integer index, so a map counts as having none. *)
  Definition entries (t : tree) : list tree := match t with Seq l => l | _ => [] end.

  (** src/parameter.cpp:65-69 and 107-110 (constructors of [IntegerParam], [FilenameParam]). *)
  Definition file_range (option : tree) : outcome (Z * Z * string) :=
    let* (lo, o1) := get_required dint option "minimum" in
    let* (hi, o2) := get_required dint o1 "maximum" in
    let* (f, _) := get_required dstr o2 "format" in
    Ok (lo, hi, f).

  (** src/main_workflow.cpp:403-407 and 232-236: append the files given by a format. *)
  Definition add_formatted (node : option tree) (files : list string) : outcome (list string) :=
    match node with
    | None => Ok files
    | Some o => let* (lo, hi, f) := file_range o in Ok (parse_filenames (fmt f) lo hi files)
    end.

  (** Appending the default when nothing was given (src/main_workflow.cpp:413-414, 239-240). *)
  Definition or_default (files : list string) (default : string) : list string :=
    match files with [] => [default] | _ => files end.

  (** src/main_workflow.cpp:383-415 [FindSnapshotFilesForBasis]. *)
  Definition snapshot_files (cfg : tree) (tag : basis_tag) (default : string) : outcome (list string) :=
    let* (tags, _) := find_key cfg "basis/tags" in
    let* files :=
      match tags with
      | None => Ok []
      | Some tags =>
          let* e := look_up dstr String.eqb "name" (print_tag tag) (entries tags) in
          match e with
          | None => Ok []
          | Some e =>
              let* (files, e1) := get_option (decode_array dstr) e "snapshot_files" [] in
              let* (f, _) := find_key e1 "snapshot_format" in
              add_formatted f files
          end
      end in
    Ok (or_default files default).

  (** src/main_workflow.cpp:225-240 (the list of port files in [CollectSamplesByPort]). *)
  Definition port_files (cfg : tree) (sample_prefix : string) : outcome (list string) :=
    let* (files, c1) := get_option (decode_array dstr) cfg "sample_collection/port_files" [] in
    let* (f, _) := find_key c1 "sample_collection/port_fileformat" in
    let* files := add_formatted f files in
    Ok (or_default files (sample_prefix ++ ".port.h5")%string).

  (** The number of basis vectors reported for a tag by [FormReducedBasis] (src/sample_generator.cpp:491, 503-519)
      and the one used for it by the ROM handler (src/rom_handler.cpp:101-121). *)
  Definition train_num_basis (cfg : tree) (tag : basis_tag) : outcome Z :=
    let* (dflt, c1) := get_option dint cfg "basis/number_of_basis" (-1)%Z in
    let* (tags, _) := find_key c1 "basis/tags" in
    let* num :=
      match tags with
      | None => Ok dflt
      | Some tags =>
          let* e := look_up dstr String.eqb "name" (print_tag tag) (entries tags) in
          match e with
          | None => Ok dflt
          | Some e => let* (n, _) := get_option dint e "number_of_basis" dflt in Ok n
          end
      end in
    oassert (0 <? num)%Z (Ok num).
  (** src/rom_handler.cpp:150-154 asserts that the number is positive; a default is needed when there is no list. *)
  Definition rom_num_basis (cfg : tree) (tag : basis_tag) : outcome Z :=
    let* (dflt, c1) := get_option dint cfg "basis/number_of_basis" (-1)%Z in
    let* (tags, _) := find_key c1 "basis/tags" in
    let* _ := match tags with None => oassert (0 <? dflt)%Z (Ok tt) | Some _ => Ok tt end in
    let* num := look_up_value dstr String.eqb dint "name" (print_tag tag) "number_of_basis" dflt
                  (match tags with Some t => entries t | None => [] end) in
    oassert (0 <? num)%Z (Ok num).

  (** ** All tags that need a basis *)

  (** include/topology_handler.hpp [TopologyHandlerMode]. *)
  Inductive topol_mode := SUBMESH | COMPONENT | NUM_TOPOL_MODE.

  (** The [name] of each entry of a list node.  A non-empty map is not indexed by integers: its first entry has no
      name and the program exits. *)
  Definition component_names (dict : tree) : outcome (list string) :=
    match dict with
    | Map (_ :: _) => Abort
    | _ => omap (fun e => let* (n, _) := get_required dstr e "name" in Ok n) (entries dict)
    end.

  (** [GetVariableNames] of the solvers selected at src/main_workflow.cpp:121-125. *)
  Definition variable_names (solver : string) : outcome (list string) :=
    if String.eqb solver "poisson" then Ok ["solution"]              (* include/poisson_solver.hpp:57-62 *)
    else if String.eqb solver "stokes" then Ok ["vel"; "pres"]       (* include/stokes_solver.hpp:141-147 *)
    else if String.eqb solver "steady-ns" then Ok ["vel"; "pres"]    (* inherited *)
    else if String.eqb solver "linelast" then Ok ["solution"]        (* include/linelast_solver.hpp:64-69 *)
    else if String.eqb solver "unsteady-ns" then Ok ["vel"; "pres"]  (* inherited *)
    else Abort.

  (** src/main_workflow.cpp:52-69 [InitSolver]: the solvers that can be selected. *)
  Definition solver_known (solver : string) : bool :=
    existsb (String.eqb solver) ["poisson"; "stokes"; "steady-ns"; "linelast"; "adv-diff"; "unsteady-ns"].

  (** src/main_workflow.cpp:93-142 [GetGlobalBasisTagList]; [submesh] is the list of component names of the
      [SubMeshTopologyHandler] it builds. *)
  Definition global_tags (mode : topol_mode) (cfg : tree) (submesh : list string) (separate : bool)
      : outcome (list basis_tag) :=
    let* comps :=
      match mode with
      | SUBMESH => Ok submesh
      | COMPONENT =>
          let* (d, _) := find_key cfg "mesh/component-wise/components" in
          match d with None => Abort | Some d => component_names d end
      | NUM_TOPOL_MODE => Abort
      end in
    let* vars :=
      (if separate then let* (s, _) := get_required dstr cfg "main/solver" in variable_names s else Ok []) in
    Ok (flat_map (fun c => if separate then map (fun v => {| comp := c; var := v |}) vars
                           else [{| comp := c; var := "" |}]) comps).

  (** ** Reading the samples back *)
  Section Collect.
    Context {K : Type} (accepts : list K -> bool).

    (** Snapshot files by name.  src/sample_generator.cpp:190-193, 268-272, 283-291: libROM's [writeSnapshot] of a
        generator with base name b writes the file b + "_snapshot". *)
    Definition base_filename (prefix : string) (t : basis_tag) : string := (prefix ++ "_" ++ print_tag t)%string.
    Definition snapshot_name (prefix : string) (t : basis_tag) : string :=
      (base_filename prefix t ++ "_snapshot")%string.
    Definition disk := string -> option (gen K).
    Definition write_disk (prefix : string) (s : sg K) (d : disk) : outcome disk :=
      oassert (0 <? List.length (gens s))%nat
      (Ok (fold_left (fun (d : disk) '(t, g) n => if String.eqb n (snapshot_name prefix t) then Some g else d n)
             (combine (tags s) (gens s)) d)).

    (** libROM [loadSamples]: a file that cannot be opened stops the program. *)
    Definition load_file (d : disk) (g : gen K) (name : string) : outcome (gen K) :=
      match d name with None => Abort | Some fg => load_samples accepts g (g_cols fg) end.

    (** src/sample_generator.cpp:385-409 [CollectSnapshotsByBasis] with any number of files. *)
    Definition collect_basis (d : disk) (s : sg K) (t : basis_tag) (files : list string) : outcome (sg K) :=
      let* f0 := oread files 0 in
      match d f0 with
      | None => Abort
      | Some fg =>
          oassert (0 <? g_dim fg)%nat
          (let* s := (if map_count basis_tag_lt (tag2idx s) t then Ok s
                      else add_snapshot_generator s (g_dim fg) t) in
           let (m', index) := map_at basis_tag_lt (tag2idx s) t in
           let* g := oread (gens s) index in
           let* g' := ofold (load_file d) files g in
           let* gens' := owrite (gens s) index g' in
           Ok {| tags := tags s; tag2idx := m'; gens := gens';
                 ptags := ptags s; ptag2idx := ptag2idx s; pcols := pcols s |})
      end.

    (** src/main_workflow.cpp:246-270 [CollectSamplesByBasis]. *)
    Definition collect_step (cfg : tree) (sample_prefix : string) (d : disk) (s : sg K) (t : basis_tag)
        : outcome (sg K) :=
      let* files := snapshot_files cfg t (snapshot_name sample_prefix t) in
      oassert (0 <? List.length files)%nat (collect_basis d s t files).
    Definition collect_samples_by_basis (cfg : tree) (mode : topol_mode) (submesh : list string) (separate : bool)
        (sample_prefix : string) (d : disk) (s : sg K) : outcome (sg K) :=
      let* ts := global_tags mode cfg submesh separate in
      ofold (collect_step cfg sample_prefix d) ts s.

    (** src/sample_generator.cpp:486-524 [FormReducedBasis]: what is written for each generator, in order: the file
        name, the snapshots whose left singular vectors are written ([endSamples]) and the number of basis vectors
        whose energy is reported. *)
    Definition form_reduced_basis (cfg : tree) (basis_prefix : string) (s : sg K)
        : outcome (list (string * list (list K) * Z)) :=
      oassert (0 <? List.length (gens s))%nat
      (oassert (List.length (gens s) =? List.length (tags s))%nat
       (omap (fun '(t, g) =>
          oassert (0 <? List.length (g_cols g))%nat
          (let* n := train_num_basis cfg t in
           Ok (base_filename basis_prefix t, g_cols g, n))) (combine (tags s) (gens s)))).
  End Collect.

  (** src/rom_handler.cpp:242, 249-260 [LoadReducedBasis]: the file a basis is read from. *)
  Definition rom_basis_file (basis_prefix : string) (t : basis_tag) : string :=
    ((basis_prefix ++ "_") ++ print_tag t)%string.
End Files.

(** ** Energy of the kept singular values *)
Section Energy.
  Open Scope R_scope.
  (** src/sample_generator.cpp:573-577, the loop: index, coverage, total. *)
  Fixpoint sv_loop (sv : list R) (ref : Z) (d : Z) (coverage total : R) : R * R * Z :=
    match sv with
    | [] => (coverage, total, d)
    | x :: sv' => let coverage := if (d =? ref)%Z then total else coverage in
                  sv_loop sv' ref (d + 1) coverage (total + x)
    end.
  (** src/sample_generator.cpp:559-585 [SaveSV]: the fraction printed; [None] when 0 is divided by 0 (the program
      prints "nan"). *)
  Definition energy (sv : list R) (ref : Z) : option R :=
    let '(coverage, total, dim) := sv_loop sv ref 0 0 0 in
    let coverage := if (dim =? ref)%Z then total else coverage in
    if Req_EM_T total 0 then None else Some (coverage / total).
End Energy.
