(** Theorems on the nonlinear term of the Navier-Stokes solver and its hyper-reduction. *)
From Coq Require Import Reals List Bool Lia Lra Arith ZArith Ascii String Permutation.
From Verif Require Import Outcome ListLemmas TagsSpec HdfModel LaBase LinalgModel LinalgSpec BlockVec RomModel RomSpec MbModel MbSpec EqpSpec ItfModel ItfSpec ProbModel BcModel BupModel BupSpec EqpModel NeqModel NeqSpec.
From Verif Require Import BupFormProofs NeqProofs NeqEvalProofs NeqFileProofs NeqExamples BupExamples.
Import ListNotations.
Local Open Scope nat_scope.

(** ** C117 *)

(** The full-order term: elements, interior faces of the discontinuous form, faces of global boundaries with the data of theirs. *)
Theorem C117_full g o full_dg types bdr : geo_ok g -> closed g types bdr ->
  exists meshes marks hs, ns_forms g o full_dg types bdr = Ok (meshes, marks, hs) /\ List.length hs = nsub g /\
    forall nm m, places_match nm g -> m < nsub g -> exists me h, nth_error meshes m = Some me /\ nth_error hs m = Some h /\
      forall v phi, form_value nm (AtSub m) me h v phi = full_term nm g o full_dg types bdr m v phi.
Proof.
  intros G CL. destruct (ns_forms_ok g o full_dg types bdr G CL) as (marks & n & En & Lm & Um & Vm). do 3 eexists. split; [exact En|]. split; [rewrite map_length, seq_length; auto|].
  intros nm m PM Hm. exists (smesh g m), (bc_form g o full_dg types bdr marks m). split; [apply nth_map_seq; auto|]. split; [apply nth_map_seq; auto|]. intros v phi. eapply full_value; eauto.
Qed.
Print Assumptions C117_full.

(** The hyper-reduced term: each part with the rule of its component. *)
Theorem C117_reduced nm g s cu cp dim o full_dg types bdr tr : geo_ok g -> stokes_bases s g cu cp dim -> List.length cu = ncomp g -> closed g types bdr ->
  (forall m, m < nsub g -> rules_fit nm g o full_dg types bdr cu tr m) ->
  exists meshes marks hs E0 E Fs, ns_forms g o full_dg types bdr = Ok (meshes, marks, hs) /\ alloc_eqps g o full_dg s cu = Ok E0 /\ train_eqps tr E0 = Ok E /\
    assemble_eqps g o full_dg s cu marks types bdr E = Ok Fs /\ List.length Fs = nsub g /\
    forall m, m < nsub g -> exists me F, nth_error meshes m = Some me /\ nth_error Fs m = Some F /\
      let B := basis_of s m 0 in
      ef_n F = dm_w B /\
      forall x, List.length x = dm_w B -> 0 < dm_w B ->
        (forall y, List.length y = dm_w B -> exists z, eform_mult nm (AtSub m) me F x y = Ok z /\ List.length z = dm_w B /\
           forall j, j < dm_w B -> vnth z j = over_parts g o full_dg types bdr tr m (fun t I l => rule_value nm (AtSub m) t I (lift B 0 x) (mode B 0 j) l)) /\
        exists J, eform_gradient nm (AtSub m) me F None x = Ok J /\ dm_h J = dm_w B /\ dm_w J = dm_w B /\
           forall a b, a < dm_w B -> b < dm_w B ->
             mget J a b = over_parts g o full_dg types bdr tr m (fun t I l => lsum (dpoint nm (AtSub m) t I (lift B 0 x) (mode B 0 a) (mode B 0 b)) l).
Proof. apply reduced_ok. Qed.
Print Assumptions C117_reduced.

(** From the term of the rules to the full-order term. *)
Lemma to_full nm g s cu cp dim o full_dg types bdr tr : geo_ok g -> stokes_bases s g cu cp dim -> List.length cu = ncomp g -> closed g types bdr ->
  (forall m, m < nsub g -> rules_fit nm g o full_dg types bdr cu tr m) -> places_match nm g ->
  forall Q : list eform -> nat -> (nat -> R) -> (nat -> R) -> Prop,
  (forall E0 m v phi, alloc_eqps g o full_dg s cu = Ok E0 -> m < nsub g -> Q E0 m v phi -> over_parts g o full_dg types bdr tr m (fun t I l => rule_value nm (AtSub m) t I v phi l) = full_term nm g o full_dg types bdr m v phi) ->
  exists meshes marks hs E0 E Fs, ns_forms g o full_dg types bdr = Ok (meshes, marks, hs) /\ alloc_eqps g o full_dg s cu = Ok E0 /\ train_eqps tr E0 = Ok E /\
    assemble_eqps g o full_dg s cu marks types bdr E = Ok Fs /\
    forall m, m < nsub g -> exists me h F, nth_error meshes m = Some me /\ nth_error hs m = Some h /\ nth_error Fs m = Some F /\
      let B := basis_of s m 0 in
      forall x y, List.length x = dm_w B -> List.length y = dm_w B -> 0 < dm_w B -> exists z, eform_mult nm (AtSub m) me F x y = Ok z /\ List.length z = dm_w B /\
        forall j, j < dm_w B -> Q E0 m (lift B 0 x) (mode B 0 j) -> vnth z j = form_value nm (AtSub m) me h (lift B 0 x) (mode B 0 j).
Proof.
  intros G SB Lu CL RF PM Q HQ. destruct (reduced_ok nm g s cu cp dim o full_dg types bdr tr G SB Lu CL RF) as (meshes & marks & hs & E0 & E & Fs & H1 & H2 & H3 & H4 & _ & V).
  exists meshes, marks, hs, E0, E, Fs. split; [auto|]. split; [auto|]. split; [auto|]. split; [auto|]. intros m Hm. destruct (V m Hm) as (me & F & Em & EF & _ & W).
  destruct (C117_full g o full_dg types bdr G CL) as (meshes' & marks' & hs' & En & _ & VF). rewrite H1 in En. injection En as <- <- <-. destruct (VF nm m PM Hm) as (me' & h & Em' & Eh & Vh). assert (me' = me) by congruence. subst me'.
  exists me, h, F. split; [auto|]. split; [auto|]. split; [auto|]. cbn zeta in *. intros x y Lx Ly Hn. destruct (W x Lx Hn) as (W1 & _). destruct (W1 y Ly) as (z & Ez & Lz & Vz).
  exists z. split; [auto|]. split; [auto|]. intros j Hj Qj. rewrite Vz, Vh by auto. eapply HQ; eauto.
Qed.

(** Rules of all quadrature points give the full-order term, tested with the modes. *)
Theorem C117_exact nm g s cu cp dim o full_dg types bdr tr : geo_ok g -> stokes_bases s g cu cp dim -> List.length cu = ncomp g -> closed g types bdr ->
  (forall m, m < nsub g -> rules_fit nm g o full_dg types bdr cu tr m) -> places_match nm g -> (forall m, m < nsub g -> rules_complete nm g o full_dg types bdr tr m) ->
  exists meshes marks hs E0 E Fs, ns_forms g o full_dg types bdr = Ok (meshes, marks, hs) /\ alloc_eqps g o full_dg s cu = Ok E0 /\ train_eqps tr E0 = Ok E /\
    assemble_eqps g o full_dg s cu marks types bdr E = Ok Fs /\
    forall m, m < nsub g -> exists me h F, nth_error meshes m = Some me /\ nth_error hs m = Some h /\ nth_error Fs m = Some F /\
      let B := basis_of s m 0 in
      forall x y, List.length x = dm_w B -> List.length y = dm_w B -> 0 < dm_w B -> exists z, eform_mult nm (AtSub m) me F x y = Ok z /\ List.length z = dm_w B /\
        forall j, j < dm_w B -> vnth z j = form_value nm (AtSub m) me h (lift B 0 x) (mode B 0 j).
Proof.
  intros G SB Lu CL RF PM RC. destruct (to_full nm g s cu cp dim o full_dg types bdr tr G SB Lu CL RF PM (fun _ _ _ _ => True)) as (meshes & marks & hs & E0 & E & Fs & H1 & H2 & H3 & H4 & V).
  - intros E0 m v phi _ Hm _. eapply complete_sum; eauto.
  - exists meshes, marks, hs, E0, E, Fs. split; [auto|]. split; [auto|]. split; [auto|]. split; [auto|]. intros m Hm. destruct (V m Hm) as (me & h & F & Em & Eh & EF & W). exists me, h, F.
    split; [auto|]. split; [auto|]. split; [auto|]. cbn zeta in *. intros x y Lx Ly Hn. destruct (W x y Lx Ly Hn) as (z & Ez & Lz & Vz). exists z. auto.
Qed.
Print Assumptions C117_exact.

(** So do, where every boundary is open or a wall, rules that are exact for what they were trained on. *)
Theorem C117_trained nm g s cu cp dim o full_dg types bdr tr : geo_ok g -> stokes_bases s g cu cp dim -> List.length cu = ncomp g -> closed g types bdr ->
  (forall m, m < nsub g -> rules_fit nm g o full_dg types bdr cu tr m) -> places_match nm g -> same_sites nm g -> open_or_wall g types bdr ->
  exists meshes marks hs E0 E Fs, ns_forms g o full_dg types bdr = Ok (meshes, marks, hs) /\ alloc_eqps g o full_dg s cu = Ok E0 /\ train_eqps tr E0 = Ok E /\
    assemble_eqps g o full_dg s cu marks types bdr E = Ok Fs /\
    forall m, m < nsub g -> exists me h F, nth_error meshes m = Some me /\ nth_error hs m = Some h /\ nth_error Fs m = Some F /\
      let B := basis_of s m 0 in
      forall x y, List.length x = dm_w B -> List.length y = dm_w B -> 0 < dm_w B -> exists z, eform_mult nm (AtSub m) me F x y = Ok z /\ List.length z = dm_w B /\
        forall j, j < dm_w B -> (forall F0, nth_error E0 (type_of g m) = Some F0 -> trained_exact nm g F0 tr (type_of g m) (lift B 0 x) (mode B 0 j)) -> vnth z j = form_value nm (AtSub m) me h (lift B 0 x) (mode B 0 j).
Proof.
  intros G SB Lu CL RF PM SS OW. apply (to_full nm g s cu cp dim o full_dg types bdr tr G SB Lu CL RF PM (fun E0 m v phi => forall F0, nth_error E0 (type_of g m) = Some F0 -> trained_exact nm g F0 tr (type_of g m) v phi)).
  intros E0 m v phi Ea Hm TE. pose proof G as (_ & _ & _ & Tm & _). destruct (alloc_ok g s cu cp dim G SB Lu o full_dg) as (E0' & Ea' & _ & Fr). assert (E0' = E0) by congruence. subst E0'.
  destruct (Fr _ (Tm m Hm)) as (F0 & EF & FF). apply exact_sum; auto. apply (exact_parts nm g s cu o full_dg (type_of g m) F0 tr v phi G (Tm m Hm) FF); auto. intros I. rewrite <- SS by auto. apply PM. auto.
Qed.
Print Assumptions C117_trained.

(** Not where a velocity is given: its rule is the one trained without data. *)
Theorem C117_dirichlet_refuted : exists nm g s cu cp dim full_dg types bdr tr, geo_ok g /\ stokes_bases s g cu cp dim /\ List.length cu = ncomp g /\ closed g types bdr /\
  (forall m, m < nsub g -> rules_fit nm g OLax full_dg types bdr cu tr m) /\ places_match nm g /\ same_sites nm g /\
  exists meshes marks hs E0 E Fs me h F z, ns_forms g OLax full_dg types bdr = Ok (meshes, marks, hs) /\ alloc_eqps g OLax full_dg s cu = Ok E0 /\
    (forall c F0 v phi, nth_error E0 c = Some F0 -> trained_exact nm g F0 tr c v phi) /\ train_eqps tr E0 = Ok E /\
    assemble_eqps g OLax full_dg s cu marks types bdr E = Ok Fs /\ nth_error meshes 0 = Some me /\ nth_error hs 0 = Some h /\ nth_error Fs 0 = Some F /\
    let B := basis_of s 0 0 in
    eform_mult nm (AtSub 0) me F [0%R] [0%R] = Ok z /\ vnth z 0 <> form_value nm (AtSub 0) me h (lift B 0 [0%R]) (mode B 0 0).
Proof.
  exists nx_nm, bx_g, (RomExamples.ex_st ByDomain), bx_fes, bx_fes, (fun _ => 2), true, nx_types, (nx_bdr VLid), nx_tr0.
  assert (RF : forall m, m < nsub bx_g -> rules_fit nx_nm bx_g OLax true nx_types (nx_bdr VLid) bx_fes nx_tr0 m) by (intros m Hm; apply nx_fit0; exact Hm).
  split; [exact bx_geo|]. split; [apply bx_stokes_sep|]. split; [reflexivity|]. split; [apply nx_closed|]. split; [exact RF|]. split; [exact nx_match|]. split; [exact nx_same|].
  destruct (reduced_ok nx_nm bx_g (RomExamples.ex_st ByDomain) bx_fes bx_fes (fun _ => 2) OLax true nx_types (nx_bdr VLid) nx_tr0 bx_geo (bx_stokes_sep ByDomain) eq_refl (nx_closed VLid) RF)
    as (meshes & marks & hs & E0 & E & Fs & H1 & H2 & H3 & H4 & _ & V).
  destruct (C117_full bx_g OLax true nx_types (nx_bdr VLid) bx_geo (nx_closed VLid)) as (meshes' & marks' & hs' & En & _ & VF). rewrite H1 in En. injection En as <- <- <-.
  assert (H0 : 0 < nsub bx_g) by (cbn; lia). destruct (V 0 H0) as (me & F & Em & EF & _ & W). destruct (VF nx_nm 0 nx_match H0) as (me' & h & Em' & Eh & Vh). assert (me' = me) by congruence. subst me'.
  destruct (W [0%R] eq_refl) as (W1 & _); [cbn; lia|]. destruct (W1 [0%R] eq_refl) as (z & Ez & _ & Vz).
  exists meshes, marks, hs, E0, E, Fs, me, h, F, z. split; [auto|]. split; [auto|]. split.
  { destruct (alloc_ok bx_g (RomExamples.ex_st ByDomain) bx_fes bx_fes (fun _ => 2) bx_geo (bx_stokes_sep ByDomain) eq_refl OLax true) as (E0' & Ea' & La & Fr). assert (E0' = E0) by congruence. subst E0'.
    intros c F0 v phi H. assert (Hc : c < ncomp bx_g) by (rewrite <- La; apply nth_error_Some; congruence). destruct (Fr c Hc) as (F0' & E1 & FF). assert (F0' = F0) by congruence. subst F0'.
    apply (exact_parts nx_nm bx_g (RomExamples.ex_st ByDomain) bx_fes OLax true c F0 nx_tr0 v phi bx_geo Hc FF); [|apply nx_exact0; exact Hc]. intros I. destruct c as [|c]; [reflexivity|cbn in Hc; lia]. }
  split; [auto|]. split; [auto|]. split; [auto|]. split; [auto|]. split; [auto|]. cbn zeta. split; [exact Ez|].
  rewrite Vz by (cbn; lia). rewrite Vh. unfold over_parts, full_term, places_sum, place_term, rule_value, point. cbn -[form_at]. change (Pos.to_nat 1) with 1. cbn -[form_at]. rewrite !nx_value by reflexivity. lra.
Qed.
Print Assumptions C117_dirichlet_refuted.

(** ** C118 *)

(** Each component finds the rules of the component of its name, each reference port those of the port of its name. *)
Theorem C118_roundtrip o full_dg names nbs refs E rs names' nbs' refs' E' rs' : NoDup names -> can_save o full_dg names nbs refs E rs ->
  can_load o full_dg names nbs refs names' nbs' refs' E' rs' ->
  exists file E2 rs2, save_eqps o full_dg names nbs refs E rs = Ok file /\ load_eqps o full_dg names' nbs' refs' file E' rs' = Ok (E2, rs2) /\
    List.length E2 = List.length names' /\
    (forall c' c n nb F F' F2, nth_error names' c' = Some n -> nth_error names c = Some n -> nth_error nbs' c' = Some nb ->
       nth_error E c = Some F -> nth_error E' c' = Some F' -> nth_error E2 c' = Some F2 ->
       same_shape F2 F' /\ forall t i, owned o full_dg nb t i -> get_rule F2 t i = get_rule F t i) /\
    (o = OBase -> rs2 = rs') /\
    (o = OLax -> List.length rs2 = List.length refs' /\
       forall p' p q' q, nth_error refs' p' = Some q' -> nth_error refs p = Some q -> same_port names names' q q' -> nth_error rs2 p' = nth_error rs p).
Proof. apply files_ok. Qed.
Print Assumptions C118_roundtrip.

(** The same problem run again has the forms it was trained with. *)
Theorem C118_again g o full_dg s cu cp dim tr names refs rs rs' E0 E : geo_ok g -> stokes_bases s g cu cp dim -> List.length cu = ncomp g ->
  alloc_eqps g o full_dg s cu = Ok E0 -> train_eqps tr E0 = Ok E -> NoDup names -> List.length names = ncomp g ->
  (o = OLax -> NoDup refs /\ (forall p, In p refs -> ref_ok names p) /\ (forall n, In n names -> no_char ":"%char n) /\ List.length rs = List.length refs /\ ~ In None rs) ->
  List.length rs' = List.length refs ->
  exists file rs2, save_eqps o full_dg names (map (@List.length Z) (g_attrs g)) refs E rs = Ok file /\
    load_eqps o full_dg names (map (@List.length Z) (g_attrs g)) refs file E0 rs' = Ok (E, rs2) /\ (o = OLax -> rs2 = rs).
Proof. apply again_ok. Qed.
Print Assumptions C118_again.

(** Components of the same name do not overwrite each other. *)
Theorem C118_duplicate o full_dg names nbs refs E rs : ~ NoDup names -> can_save o full_dg names nbs refs E rs -> save_eqps o full_dg names nbs refs E rs = Abort.
Proof. apply duplicate_abort. Qed.
Print Assumptions C118_duplicate.

(** A file of the convective operator is not taken for one of the flux operator. *)
Theorem C118_base_file full_dg names nbs refs E rs file full_dg' names' nbs' refs' E' rs' : save_eqps OBase full_dg names nbs refs E rs = Ok file ->
  forall r, load_eqps OLax full_dg' names' nbs' refs' file E' rs' <> Ok r.
Proof. apply base_file. Qed.
Print Assumptions C118_base_file.

(** The converse fails: the file does not tell what integrator a rule is for. *)
Theorem C118_operator_refuted : exists names nbs refs E rs E' file E2 rs2 F F2 l,
  can_save OLax true names nbs refs E rs /\ NoDup names /\ save_eqps OLax true names nbs refs E rs = Ok file /\
  load_eqps OBase true names nbs refs file E' rs = Ok (E2, rs2) /\ nth_error E 0 = Some F /\ nth_error E2 0 = Some F2 /\
  nth_error (ef_dom F) 0 = Some (NFlux, Some l) /\ nth_error (ef_dom F2) 0 = Some (NConvection, Some l).
Proof.
  exists nx_names, [1; 1], nx_refs, [nx_form 10 false; nx_form 20 false], [Some (nx_l 1); Some (nx_l 2)], [EForm 1 [(NConvection, None)] [] [] None; EForm 1 [(NConvection, None)] [] [] None].
  do 6 eexists. split; [exact nx_save|]. split; [exact nx_distinct|]. split; [vm_compute; reflexivity|]. split; [vm_compute; reflexivity|]. split; [reflexivity|]. split; [reflexivity|]. split; reflexivity.
Qed.
Print Assumptions C118_operator_refuted.

(** ** Cases *)

Example C117_case : exists meshes marks hs E0 E Fs, ns_forms bx_g OLax true nx_types (nx_bdr VLid) = Ok (meshes, marks, hs) /\ alloc_eqps bx_g OLax true (RomExamples.ex_st ByDomain) bx_fes = Ok E0 /\
  train_eqps nx_tr E0 = Ok E /\ assemble_eqps bx_g OLax true (RomExamples.ex_st ByDomain) bx_fes marks nx_types (nx_bdr VLid) E = Ok Fs /\ List.length Fs = 2.
Proof.
  destruct (C117_reduced nx_nm bx_g (RomExamples.ex_st ByDomain) bx_fes bx_fes (fun _ => 2) OLax true nx_types (nx_bdr VLid) nx_tr bx_geo (bx_stokes_sep ByDomain) eq_refl (nx_closed VLid))
    as (meshes & marks & hs & E0 & E & Fs & H1 & H2 & H3 & H4 & H5 & _); [intros m Hm; apply nx_fit; exact Hm|]. exists meshes, marks, hs, E0, E, Fs. auto.
Qed.
Example C117_exact_case : exists meshes marks hs E0 E Fs, ns_forms bx_g OLax true nx_types (nx_bdr VLid) = Ok (meshes, marks, hs) /\ alloc_eqps bx_g OLax true (RomExamples.ex_st ByDomain) bx_fes = Ok E0 /\
  train_eqps nx_tr E0 = Ok E /\ assemble_eqps bx_g OLax true (RomExamples.ex_st ByDomain) bx_fes marks nx_types (nx_bdr VLid) E = Ok Fs.
Proof.
  destruct (C117_exact nx_nm bx_g (RomExamples.ex_st ByDomain) bx_fes bx_fes (fun _ => 2) OLax true nx_types (nx_bdr VLid) nx_tr bx_geo (bx_stokes_sep ByDomain) eq_refl (nx_closed VLid))
    as (meshes & marks & hs & E0 & E & Fs & H1 & H2 & H3 & H4 & _); [intros m Hm; apply nx_fit; exact Hm|exact nx_match|intros m Hm; apply nx_complete; exact Hm|]. exists meshes, marks, hs, E0, E, Fs. auto.
Qed.
Example C117_trained_case : exists meshes marks hs E0 E Fs, ns_forms bx_g OLax true nx_types' nx_bdr' = Ok (meshes, marks, hs) /\ alloc_eqps bx_g OLax true (RomExamples.ex_st ByDomain) bx_fes = Ok E0 /\
  train_eqps nx_tr0 E0 = Ok E /\ assemble_eqps bx_g OLax true (RomExamples.ex_st ByDomain) bx_fes marks nx_types' nx_bdr' E = Ok Fs.
Proof.
  destruct (C117_trained nx_nm bx_g (RomExamples.ex_st ByDomain) bx_fes bx_fes (fun _ => 2) OLax true nx_types' nx_bdr' nx_tr0 bx_geo (bx_stokes_sep ByDomain) eq_refl nx_closed')
    as (meshes & marks & hs & E0 & E & Fs & H1 & H2 & H3 & H4 & _); [intros m Hm; apply nx_fit0; exact Hm|exact nx_match|exact nx_same|exact nx_wall|]. exists meshes, marks, hs, E0, E, Fs. auto.
Qed.
Example C118_case : exists file E2 rs2, save_eqps OLax true nx_names [1; 1] nx_refs [nx_form 10 false; nx_form 20 false] [Some (nx_l 1); Some (nx_l 2)] = Ok file /\
  load_eqps OLax true ["pipe"%string] [1] [(0, 0, 1, 2)] file [nx_form 0 true] [None] = Ok (E2, rs2) /\ nth_error E2 0 = Some (nx_form 20 false) /\ rs2 = [Some (nx_l 2)].
Proof. do 3 eexists. split; [vm_compute; reflexivity|]. split; [vm_compute; reflexivity|]. split; reflexivity. Qed.
Example C118_duplicate_case : save_eqps OBase true ["pipe"; "pipe"]%string [1; 1] [] [nx_form 10 false; nx_form 20 false] [] = Abort.
Proof. apply C118_duplicate; apply nx_twice. Qed.
