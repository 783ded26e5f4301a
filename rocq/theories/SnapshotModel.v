(** Model of the snapshot bookkeeping of the sample generator.  Definitions only. *)
From Coq Require Import ZArith List Bool String.
From Verif Require Import Outcome TagsModel.
Import ListNotations.
Open Scope string_scope.
Open Scope list_scope.

Section Snapshot.
  (** Entries of snapshot vectors (doubles in the code). *)
  Context {K : Type}.
  (** [accepts v]: libROM's [BasisGenerator::takeSample] returns true for [v] (external; it refuses e.g. a zero
      vector).  The code asserts the result (src/sample_generator.cpp:199). *)
  Context (accepts : list K -> bool).

  (** One [CAROM::BasisGenerator] (src/sample_generator.cpp:270-272): its dimension and the columns of its
      snapshot matrix. *)
  Record gen := { g_dim : nat; g_cols : list (list K) }.

  (** Snapshot-related members of [SampleGenerator] (include/sample_generator.hpp:60-70).  The i-th entry of
      [gens] is [snapshot_generators[i]]; a row of [pcols] is a row of an [Array2D<int>] with two columns. *)
  Record sg := {
    tags : list basis_tag;
    tag2idx : list (basis_tag * nat);
    gens : list gen;
    ptags : list port_tag;
    ptag2idx : list (port_tag * nat);
    pcols : list (list (nat * nat)) }.

  (** Constructor state (src/sample_generator.cpp:27-71): nothing collected. *)
  Definition sg0 : sg := {| tags := []; tag2idx := []; gens := []; ptags := []; ptag2idx := []; pcols := [] |}.

  (** src/sample_generator.cpp:266-281 [AddSnapshotGenerator]; the size assertions are kept
      ([snapshot_options] has the size of [gens] after the append). *)
  Definition add_snapshot_generator (s : sg) (fom_vdofs : nat) (t : basis_tag) : outcome sg :=
    let gens' := gens s ++ [{| g_dim := fom_vdofs; g_cols := [] |}] in
    let m' := map_set basis_tag_lt (tag2idx s) t (List.length (tags s)) in
    let tags' := tags s ++ [t] in
    let size := List.length gens' in
    oassert (List.length m' =? size)%nat
    (oassert (List.length tags' =? size)%nat
     (Ok {| tags := tags'; tag2idx := m'; gens := gens';
            ptags := ptags s; ptag2idx := ptag2idx s; pcols := pcols s |})).

  (** [map::operator[]]: inserts 0 for a missing key. *)
  Definition map_at {T} (lt : T -> T -> bool) (m : list (T * nat)) (k : T) : list (T * nat) * nat :=
    match map_find lt m k with Some i => (m, i) | None => (map_set lt m k 0, 0)%nat end.

  (** [takeSample(u.GetData())]: libROM copies [g_dim] entries from the pointer; fewer entries is an
      out-of-bounds read.  A refused sample fails the assertion at src/sample_generator.cpp:199. *)
  Definition take_sample (g : gen) (u : list K) : outcome gen :=
    oguard (g_dim g <=? List.length u)%nat
    (let v := firstn (g_dim g) u in
     oassert (accepts v) (Ok {| g_dim := g_dim g; g_cols := g_cols g ++ [v] |})).

  (** Body of the loop of src/sample_generator.cpp:186-203. *)
  Definition save_one (s : sg) (t : basis_tag) (u : list K) : outcome (sg * nat) :=
    let* s := (if map_count basis_tag_lt (tag2idx s) t then Ok s
               else add_snapshot_generator s (List.length u) t) in
    let (m', index) := map_at basis_tag_lt (tag2idx s) t in
    let* g := oread (gens s) index in
    let* g' := take_sample g u in
    let* gens' := owrite (gens s) index g' in
    Ok ({| tags := tags s; tag2idx := m'; gens := gens';
           ptags := ptags s; ptag2idx := ptag2idx s; pcols := pcols s |},
        (List.length (g_cols g') - 1)%nat).

  Fixpoint save_loop (s : sg) (ts : list basis_tag) (us : list (list K)) : outcome (sg * list nat) :=
    match ts, us with
    | t :: ts', u :: us' =>
        let* (s1, c) := save_one s t u in
        let* (s2, cs) := save_loop s1 ts' us' in
        Ok (s2, c :: cs)
    | _, _ => Ok (s, [])
    end.

  (** src/sample_generator.cpp:180-204 [SaveSnapshot]. *)
  Definition save_snapshot (s : sg) (us : list (list K)) (ts : list basis_tag) : outcome (sg * list nat) :=
    oassert (List.length us =? List.length ts)%nat (save_loop s ts us).

  (** Any sequence of calls of [SaveSnapshot], each with its own vectors and tags. *)
  Definition run_saves (l : list (list basis_tag * list (list K))) : outcome sg :=
    ofold (fun s '(ts, us) => let* (s', _) := save_snapshot s us ts in Ok s') l sg0.

  (** include/topology_handler.hpp [PortInfo] (the fields used) and the component name of each subdomain
      ([GetComponentName(GetMeshType(m))]). *)
  Record port_info := { pm1 : nat; pm2 : nat; pa1 : Z; pa2 : Z }.
  Record topology := { t_names : list string; t_ports : list port_info }.

  (** src/sample_generator.cpp:245-253: the columns must agree over the variables of a subdomain. *)
  Fixpoint check_cols (cols : list nat) (base n v : nat) (c : nat) : outcome unit :=
    match n with
    | O => Ok tt
    | S n' => let* x := oread cols (v + base) in
              oassert (c =? x)%nat (check_cols cols base n' (S v) c)
    end.

  (** Find or create the record list of a port tag (src/sample_generator.cpp:232-239 and 438-445). *)
  Definition register_port (s : sg) (tag : port_tag) : sg :=
    if map_count port_tag_lt (ptag2idx s) tag then s
    else {| tags := tags s; tag2idx := tag2idx s; gens := gens s;
            ptags := ptags s ++ [tag];
            ptag2idx := map_set port_tag_lt (ptag2idx s) tag (List.length (ptags s));
            pcols := pcols s ++ [[]] |}.

  (** Append rows to a port's record list (src/sample_generator.cpp:240, 255-258 and 446, 455-461).
      [Array2D::SetSize(rows+k, 2)] keeps the earlier rows (row-major storage, constant width). *)
  Definition append_rows (s : sg) (tag : port_tag) (rows : list (nat * nat)) : outcome sg :=
    let (m', index) := map_at port_tag_lt (ptag2idx s) tag in
    let* old := oread (pcols s) index in
    let* pcols' := owrite (pcols s) index (old ++ rows) in
    Ok {| tags := tags s; tag2idx := tag2idx s; gens := gens s;
          ptags := ptags s; ptag2idx := m'; pcols := pcols' |}.

  (** Body of the loop of src/sample_generator.cpp:216-259 for one port. *)
  Definition save_port (names : list string) (num_var : nat) (cols : list nat) (s : sg) (p : port_info)
      : outcome sg :=
    let* mesh1 := oread names (pm1 p) in
    let* mesh2 := oread names (pm2 p) in
    let tag := {| Mesh1 := mesh1; Mesh2 := mesh2; Attr1 := pa1 p; Attr2 := pa2 p |} in
    let s := register_port s tag in
    let* col1 := oread cols (num_var * pm1 p) in
    let* col2 := oread cols (num_var * pm2 p) in
    (* the two assertions alternate in the code; both sequences of assertions are checked *)
    let* _ := check_cols cols (num_var * pm1 p) num_var 0 col1 in
    let* _ := check_cols cols (num_var * pm2 p) num_var 0 col2 in
    append_rows s tag [(col1, col2)].

  (** src/sample_generator.cpp:206-264 [SaveSnapshotPorts].  [% numSub] with no subdomain is UB. *)
  Definition save_snapshot_ports (s : sg) (topo : topology) (cols : list nat) : outcome sg :=
    let numSub := List.length (t_names topo) in
    oguard (negb (numSub =? 0)%nat)
    (oassert (List.length cols mod numSub =? 0)%nat
     (let num_var := (List.length cols / numSub)%nat in
      ofold (save_port (t_names topo) num_var cols) (t_ports topo) s)).

  (** src/multiblock_solver.cpp:619-634 [GetBasisTags]: [vars] is the list of variable names when bases are
      separated by variable and [[""]] otherwise. *)
  Definition get_basis_tags (topo : topology) (vars : list string) : list basis_tag :=
    flat_map (fun nm => map (tag_for_component nm) vars) (t_names topo).

  (** One solve whose solution is saved: the blocks of the solution vector. *)
  Record event := { ev_topo : topology; ev_vars : list string; ev_blocks : list (list K) }.

  (** src/multiblock_solver.cpp:652-667 [SaveSnapshots]. *)
  Definition save_snapshots (s : sg) (e : event) : outcome sg :=
    let* (s1, cols) := save_snapshot s (ev_blocks e) (get_basis_tags (ev_topo e) (ev_vars e)) in
    save_snapshot_ports s1 (ev_topo e) cols.

  (** A whole history of saves. *)
  Definition run_history (h : list event) : outcome sg := ofold save_snapshots h sg0.

  (** src/sample_generator.cpp:335-355 [LookUpSnapshot]: linear search with [BasisTag::operator==]. *)
  Fixpoint find_tag (l : list basis_tag) (t : basis_tag) (k : nat) : option nat :=
    match l with
    | [] => None
    | x :: l' => if basis_tag_eqb x t then Some k else find_tag l' t (S k)
    end.
  Definition look_up_snapshot (s : sg) (t : basis_tag) : outcome (list (list K)) :=
    oassert (0 <? List.length (gens s))%nat
    (oassert (List.length (gens s) =? List.length (tags s))%nat
     (match find_tag (tags s) t 0 with
      | None => Abort
      | Some idx => let* g := oread (gens s) idx in Ok (g_cols g)
      end)).

  (** src/sample_generator.cpp:357-370 [LookUpSnapshotPortColOffsets]. *)
  Definition look_up_port (s : sg) (t : port_tag) : outcome (list (nat * nat)) :=
    oassert (0 <? List.length (pcols s))%nat
    (oassert (List.length (pcols s) =? List.length (ptags s))%nat
     (match map_find port_tag_lt (ptag2idx s) t with
      | None => Abort
      | Some idx => oread (pcols s) idx
      end)).

  (** ** Files and collection *)

  (** src/sample_generator.cpp:293-333 [WriteSnapshotPorts] (the [.port.h5] file) together with the snapshot
      files of [WriteSnapshots] (283-291): [f_snap n] is the snapshot matrix in the file whose name ends in the
      printed tag [n] (dimension and columns).  A file written twice keeps the last content.
      Simplified: the common path prefix is dropped, HDF5 encoding is modelled elsewhere. *)
  Record port_file := {
    f_ports : list (port_tag * list (nat * nat));
    f_basistags : list basis_tag;
    f_snap : string -> option gen }.

  Definition write_snapshots (s : sg) : string -> option gen :=
    fold_left (fun (f : string -> option gen) '(t, g) n => if String.eqb n (print_tag t) then Some g else f n)
      (combine (tags s) (gens s)) (fun _ => None).

  Definition write_files (s : sg) : outcome port_file :=
    oassert (0 <? List.length (gens s))%nat  (* src/sample_generator.cpp:285 *)
    (Ok {| f_ports := combine (ptags s) (pcols s); f_basistags := tags s; f_snap := write_snapshots s |}).

  (** A sampling run followed by the writing of its files (src/main_workflow.cpp:203-204 in [GenerateSamples]). *)
  Definition run_and_write (h : list event) : outcome port_file := let* s := run_history h in write_files s.

  (** src/sample_generator.cpp:587-606 [GetSnapshotOffset]; [tmp < 0] (nothing seen yet) is [None]. *)
  Fixpoint snapshot_offset_loop (c : string) (l : list (basis_tag * gen)) (offset : nat) (tmp : option nat)
      : outcome nat :=
    match l with
    | [] => Ok offset
    | (t, g) :: l' =>
        if negb (String.eqb (comp t) c) then snapshot_offset_loop c l' offset tmp
        else
          let offset := List.length (g_cols g) in
          let tmp' := match tmp with None => offset | Some x => x end in
          if negb (offset =? tmp')%nat then Abort
          else snapshot_offset_loop c l' offset (Some tmp')
    end.
  Definition get_snapshot_offset (s : sg) (c : string) : outcome nat :=
    oassert (List.length (tags s) =? List.length (gens s))%nat
    (snapshot_offset_loop c (combine (tags s) (gens s)) 0 None).

  (** One iteration of the port loop of src/sample_generator.cpp:426-465. *)
  Definition collect_port (s : sg) (pr : port_tag * list (nat * nat)) : outcome sg :=
    let (tag, rows) := pr in
    let s := register_port s tag in
    let* o1 := get_snapshot_offset s (Mesh1 tag) in
    let* o2 := get_snapshot_offset s (Mesh2 tag) in
    append_rows s tag (map (fun r => (fst r + o1, snd r + o2))%nat rows).

  (** libROM [loadSamples] (src/sample_generator.cpp:408): the columns of the file are taken one by one. *)
  Definition load_samples (g : gen) (cols : list (list K)) : outcome gen := ofold take_sample cols g.

  (** src/sample_generator.cpp:386-409 [CollectSnapshotsByBasis] with one file (as called at line 477), on one
      process ([split_dimension] returns the whole dimension).  A missing file fails an assertion (540). *)
  Definition collect_by_basis (f : string -> option gen) (s : sg) (t : basis_tag) : outcome sg :=
    match f (print_tag t) with
    | None => Abort
    | Some fg =>
        oassert (0 <? g_dim fg)%nat     (* line 543 *)
        (let* s := (if map_count basis_tag_lt (tag2idx s) t then Ok s
                    else add_snapshot_generator s (g_dim fg) t) in
         let (m', index) := map_at basis_tag_lt (tag2idx s) t in
         let* g := oread (gens s) index in
         let* g' := load_samples g (g_cols fg) in
         let* gens' := owrite (gens s) index g' in
         Ok {| tags := tags s; tag2idx := m'; gens := gens';
               ptags := ptags s; ptag2idx := ptag2idx s; pcols := pcols s |})
    end.

  (** src/sample_generator.cpp:411-484 [CollectSnapshotsByPort]. *)
  Definition collect_by_port (s : sg) (f : port_file) : outcome sg :=
    let* s := ofold collect_port (f_ports f) s in
    oassert (0 <? List.length (f_basistags f))%nat   (* line 470 *)
    (ofold (collect_by_basis (f_snap f)) (f_basistags f) s).

  Definition collect_files (fs : list port_file) : outcome sg := ofold collect_by_port fs sg0.
End Snapshot.
Arguments gen : clear implicits.
Arguments sg : clear implicits.
Arguments event : clear implicits.
Arguments port_file : clear implicits.
