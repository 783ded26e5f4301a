(** Theorems on the ROM handler. *)
From Coq Require Import Reals List Bool Lia Arith ZArith String Lra.
From Verif Require Import Outcome LaBase LinalgModel LinalgSpec BlockVec TagsModel RomModel RomSpec RomProofs RomBasisProofs RomOpProofs RomStateProofs RomHeapProofs RomExamples.
Import ListNotations.
Local Open Scope nat_scope.

(** ** C34 *)

Theorem C34_block_of_unknown : forall h m v, unknown h m v ->
  exists b, block_index h m (Z.of_nat v) = Ok b /\ b < blocks h /\
    dom_var h b = Ok (m, if rh_sep h then Z.of_nat v else (-1)%Z) /\
    forall m' v', unknown h m' v' -> block_index h m' (Z.of_nat v') = Ok b -> m' = m /\ v' = v.
Proof.
  intros h m v U. exists (place h m v). split; [apply block_index_place; auto|]. split; [apply place_lt; auto|].
  split; [apply dom_var_place; auto|]. intros m' v' U' E. rewrite block_index_place in E by auto. injection E as E.
  apply place_inj in E; auto.
Qed.
Print Assumptions C34_block_of_unknown.

Theorem C34_unknown_of_block : forall h b, b < blocks h ->
  exists m v, unknown h m v /\ block_index h m (Z.of_nat v) = Ok b /\ dom_var h b = Ok (m, if rh_sep h then Z.of_nat v else (-1)%Z).
Proof.
  intros h b H. destruct (place_onto h b H) as (m & v & U & <-). exists m, v. split; [auto|].
  split; [apply block_index_place; auto|apply dom_var_place; auto].
Qed.
Print Assumptions C34_unknown_of_block.

(** The orderings are what their names say. *)
Theorem C34_order : forall h m v m' v' b b', unknown h m v -> unknown h m' v' ->
  block_index h m (Z.of_nat v) = Ok b -> block_index h m' (Z.of_nat v') = Ok b' ->
  match rh_ord h with ByDomain => m < m' \/ (m = m' /\ v < v') | ByVariable => v < v' \/ (v = v' /\ m < m') end -> b < b'.
Proof.
  intros h m v m' v' b b' U U' E E'. rewrite block_index_place in E, E' by auto. injection E as <-. injection E' as <-.
  destruct (rh_ord h) eqn:O; [apply by_domain_order|apply by_variable_order]; auto.
Qed.
Print Assumptions C34_order.

(** Leaving out the variable, as the interface allows when variables are not separate, stops the program. *)
Theorem C34_default_variable_refuted : exists h m, rom_wf h /\ rh_sep h = false /\ m < rh_nsub h /\ block_index h m (-1) = Abort.
Proof.
  exists (Rom 2 1 false ByDomain [0; 0] 1 [3]), 1. split; [|split; [reflexivity|split; [cbn; lia|reflexivity]]].
  unfold rom_wf, comp_of. cbn. repeat split; try lia. intros [|[|m]] H; cbn; lia.
Qed.
Print Assumptions C34_default_variable_refuted.

(** ** C35 *)

Theorem C35_rom_offsets : forall h, rom_wf h ->
  exists off coff nbasis, set_block_sizes h = Ok (off, coff, nbasis) /\
    tiles h (place h) (basis_size h) off /\
    (List.length coff = S (List.length (rh_nb h)) /\ nth 0 coff 0 = 0 /\
     forall b, b < List.length (rh_nb h) -> nth (S b) coff 0 = nth b coff 0 + nth b (rh_nb h) 0) /\
    List.length nbasis = blocks h /\ (forall m v, unknown h m v -> nth (place h m v) nbasis 0 = basis_size h m v).
Proof.
  intros h W. destruct (set_block_sizes_ok h W) as (off & coff & nbasis & E & T & -> & L & H).
  exists off, (psum 0 (0 :: rh_nb h)), nbasis. split; [exact E|]. split; [exact T|]. split; [|split; [exact L|exact H]].
  destruct (psum_offsets (rh_nb h)) as (A & B & C). auto.
Qed.
Print Assumptions C35_rom_offsets.

(** ** C36 *)

Theorem C36_projection : forall s dim V junk, bases_ok s dim ->
  fits (rs_h s) (fom_place (rs_h s)) (full_size (rs_h s) dim) V -> List.length junk = nth (blocks (rs_h s)) (rs_off s) 0 ->
  exists r, project_global s V junk = Ok r /\ fits (rs_h s) (place (rs_h s)) (basis_size (rs_h s)) r /\
    forall m v k, unknown (rs_h s) m v -> k < basis_size (rs_h s) m v ->
      entry (place (rs_h s)) r m v k =
      rsum (full_size (rs_h s) dim m v) (fun i => (mget (basis_of s m v) i k * entry (fom_place (rs_h s)) V m v i)%R).
Proof. intros s dim V junk B F L. exact (project_global_ok s dim B V junk F L). Qed.
Print Assumptions C36_projection.

Theorem C36_lifting : forall s dim r V, bases_ok s dim -> fits (rs_h s) (place (rs_h s)) (basis_size (rs_h s)) r ->
  fits (rs_h s) (fom_place (rs_h s)) (full_size (rs_h s) dim) V ->
  exists V', lift_global s r V = Ok V' /\ fits (rs_h s) (fom_place (rs_h s)) (full_size (rs_h s) dim) V' /\
    forall m v i, unknown (rs_h s) m v -> i < full_size (rs_h s) dim m v ->
      entry (fom_place (rs_h s)) V' m v i =
      rsum (basis_size (rs_h s) m v) (fun k => (mget (basis_of s m v) i k * entry (place (rs_h s)) r m v k)%R).
Proof. intros s dim r V B F L. exact (lift_global_ok s dim B r V F L). Qed.
Print Assumptions C36_lifting.

Theorem C36_round_trip : forall s dim r V junk, bases_ok s dim -> fits (rs_h s) (place (rs_h s)) (basis_size (rs_h s)) r ->
  bv_off r = rs_off s -> fits (rs_h s) (fom_place (rs_h s)) (full_size (rs_h s) dim) V ->
  List.length junk = nth (blocks (rs_h s)) (rs_off s) 0 ->
  (forall m v, unknown (rs_h s) m v -> ortho_cols (basis_of s m v)) ->
  (let* W := lift_global s r V in project_global s W junk) = Ok r.
Proof. intros s dim r V junk B. exact (round_trip s dim B r V junk). Qed.
Print Assumptions C36_round_trip.

(** ** C37 *)

Theorem C37_galerkin : forall s dim mats a r V0, bases_ok s dim -> om_r mats = blocks (rs_h s) -> om_c mats = blocks (rs_h s) ->
  let h := rs_h s in
  (forall m v m' v', unknown h m v -> unknown h m' v' ->
     match om_get mats (place h m v) (place h m' v') with
     | Some A => op_h A = full_size h dim m v /\ op_w A = full_size h dim m' v' /\ op_matrix A (a m v m' v')
     | None => forall p q, a m v m' v' p q = 0%R
     end) ->
  fits h (place h) (basis_size h) r -> fits h (fom_place h) (full_size h dim) V0 ->
  exists out V, project_global_op s mats = Ok out /\ lift_global s r V0 = Ok V /\
  forall m v k, unknown h m v -> k < basis_size h m v ->
    usum h (fun m' v' => rsum (basis_size h m' v') (fun l =>
      sm_val (smat_at out (place h m v) (place h m' v')) k l * entry (place h) r m' v' l)%R) =
    rsum (full_size h dim m v) (fun i => (mget (basis_of s m v) i k *
      usum h (fun m' v' => rsum (full_size h dim m' v') (fun q => a m v m' v' i q * entry (fom_place h) V m' v' q)))%R).
Proof.
  intros s dim mats a r V0 B Er Ec h Ha Fr F0.
  destruct (project_global_op_ok s dim mats B Er Ec) as (out & Eo & _).
  { intros m1 v1 m2 v2 U1 U2. specialize (Ha m1 v1 m2 v2 U1 U2). unfold op_fits. fold h. destruct (om_get _ _ _); auto.
    destruct Ha as (A1 & A2 & A3). split; [auto|]. split; [auto|]. eexists. exact A3. }
  destruct (lift_global_ok s dim B r V0 Fr F0) as (V & El & _). exists out, V. split; [auto|]. split; [auto|].
  exact (galerkin_identity s dim mats a out r V0 V B Er Ec Ha Fr F0 Eo El).
Qed.
Print Assumptions C37_galerkin.

(** The Stokes system: velocity blocks, divergence blocks and their transposes, in both orderings. *)
Theorem C37_stokes : forall s dim mm bm r V0, bases_ok s dim -> rh_sep (rs_h s) = true -> rh_nvar (rs_h s) = 2 ->
  let h := rs_h s in
  (forall m m', m < rh_nsub h -> m' < rh_nsub h -> dm_h (mm m m') = full_size h dim m 0 /\ dm_w (mm m m') = full_size h dim m' 0 /\
     dm_h (bm m m') = full_size h dim m 1 /\ dm_w (bm m m') = full_size h dim m' 0) ->
  fits h (place h) (basis_size h) r -> fits h (fom_place h) (full_size h dim) V0 ->
  exists out V, stokes_project s mm bm = Ok out /\ lift_global s r V0 = Ok V /\
  forall m v k, unknown h m v -> k < basis_size h m v ->
    usum h (fun m' v' => rsum (basis_size h m' v') (fun l =>
      sm_val (smat_at out (place h m v) (place h m' v')) k l * entry (place h) r m' v' l)%R) =
    rsum (full_size h dim m v) (fun i => (mget (basis_of s m v) i k *
      usum h (fun m' v' => rsum (full_size h dim m' v') (fun q => saddle mm bm m v m' v' i q * entry (fom_place h) V m' v' q)))%R).
Proof.
  intros s dim mm bm r V0 B Sep Nv h Hd Fr F0. destruct (stokes_project_ok s dim mm bm B Sep Nv Hd) as (out & Eo).
  destruct (lift_global_ok s dim B r V0 Fr F0) as (V & El & _). exists out, V. split; [auto|]. split; [auto|].
  exact (stokes_galerkin s dim mm bm r V0 V out B Sep Nv Hd Fr F0 Eo El).
Qed.
Print Assumptions C37_stokes.

(** ** C38 *)

Theorem C38_component_partial : forall s dim m mats, bases_ok s dim -> m < rh_nsub (rs_h s) ->
  rh_sep (rs_h s) = false \/ rh_ord (rs_h s) = ByDomain -> designates s dim (comp_unknowns (rs_h s) m) mats ->
  exists out, project_comp_dom s m mats = Ok out /\ projected s (comp_unknowns (rs_h s) m) (comp_unknowns (rs_h s) m) mats out.
Proof. exact project_comp_dom_ok. Qed.
Print Assumptions C38_component_partial.

Theorem C38_interface_partial : forall s dim m1 m2 mats, bases_ok s dim -> m1 < rh_nsub (rs_h s) -> m2 < rh_nsub (rs_h s) ->
  rh_sep (rs_h s) = false \/ rh_ord (rs_h s) = ByDomain ->
  designates s dim (comp_unknowns (rs_h s) m1 ++ comp_unknowns (rs_h s) m2) mats ->
  exists out, project_itf_dom s m1 m2 mats = Ok out /\
    projected s (comp_unknowns (rs_h s) m1 ++ comp_unknowns (rs_h s) m2) (comp_unknowns (rs_h s) m1 ++ comp_unknowns (rs_h s) m2) mats out.
Proof. exact project_itf_dom_ok. Qed.
Print Assumptions C38_interface_partial.

Theorem C38_variable_partial : forall s dim vi vj mats, bases_ok s dim -> vi < rh_nvar (rs_h s) -> vj < rh_nvar (rs_h s) ->
  rh_sep (rs_h s) = true -> rh_ord (rs_h s) = ByDomain ->
  om_r mats = rh_nsub (rs_h s) -> om_c mats = rh_nsub (rs_h s) ->
  (forall m m', m < rh_nsub (rs_h s) -> m' < rh_nsub (rs_h s) ->
     op_fits (om_get mats m m') (full_size (rs_h s) dim m vi) (full_size (rs_h s) dim m' vj)) ->
  exists out, project_var_dom s vi vj mats = Ok out /\ projected s (var_unknowns (rs_h s) vi) (var_unknowns (rs_h s) vj) mats out.
Proof. exact project_var_dom_ok. Qed.
Print Assumptions C38_variable_partial.

(** With the variable-first ordering all three use the wrong bases. *)
Theorem C38_variable_ordering_refuted : exists s dim, bases_ok s dim /\ rh_ord (rs_h s) = ByVariable /\
  (exists mats out, designates s dim (comp_unknowns (rs_h s) 0) mats /\ project_comp_dom s 0 mats = Ok out /\
     ~ projected s (comp_unknowns (rs_h s) 0) (comp_unknowns (rs_h s) 0) mats out) /\
  (exists mats out, designates s dim (comp_unknowns (rs_h s) 0 ++ comp_unknowns (rs_h s) 1) mats /\ project_itf_dom s 0 1 mats = Ok out /\
     ~ projected s (comp_unknowns (rs_h s) 0 ++ comp_unknowns (rs_h s) 1) (comp_unknowns (rs_h s) 0 ++ comp_unknowns (rs_h s) 1) mats out) /\
  (exists mats out, om_r mats = rh_nsub (rs_h s) /\ om_c mats = rh_nsub (rs_h s) /\
     (forall m m', op_fits (om_get mats m m') (full_size (rs_h s) dim m 0) (full_size (rs_h s) dim m' 1)) /\
     project_var_dom s 0 1 mats = Ok out /\ ~ projected s (var_unknowns (rs_h s) 0) (var_unknowns (rs_h s) 1) mats out).
Proof.
  exists (ex_st ByVariable), (fun _ => 2). split; [apply ex_bases|]. split; [reflexivity|]. split; [|split].
  - destruct ex_wrong_component as (out & E & N). exists (ex_mats 2), out. split; [|auto].
    apply (ex_designates ByVariable (comp_unknowns (ex_h ByVariable) 0)). intros p Hp. eapply comp_unknowns_ok; [|exact Hp]. cbn. lia.
  - destruct ex_wrong_interface as (out & E & N). exists (ex_mats 4), out. split; [|auto].
    apply (ex_designates ByVariable (comp_unknowns (ex_h ByVariable) 0 ++ comp_unknowns (ex_h ByVariable) 1)).
    intros p Hp. apply in_app_or in Hp. destruct Hp as [Hp|Hp]; (eapply comp_unknowns_ok; [|exact Hp]; cbn; lia).
  - destruct ex_wrong_variable as (out & E & N). exists (ex_mats 2), out. split; [reflexivity|]. split; [reflexivity|].
    split; [intros; apply ex_op_fits|auto].
Qed.
Print Assumptions C38_variable_ordering_refuted.

(** The versions on reference bases are right in both orderings. *)
Theorem C38_reference_component : forall s dim c mats A, bases_ok s dim -> c < rh_ncomp (rs_h s) ->
  ref_designates s dim (comp_unknowns (rs_h s) c) mats A ->
  exists out, project_comp_ref s c mats = Ok out /\ ref_projected s (comp_unknowns (rs_h s) c) A out.
Proof. exact project_comp_ref_ok. Qed.
Print Assumptions C38_reference_component.

Theorem C38_reference_interface : forall s dim c1 c2 mats A, bases_ok s dim -> c1 < rh_ncomp (rs_h s) -> c2 < rh_ncomp (rs_h s) ->
  ref_designates s dim (comp_unknowns (rs_h s) c1 ++ comp_unknowns (rs_h s) c2) mats A ->
  exists out, project_itf_ref s c1 c2 mats = Ok out /\ ref_projected s (comp_unknowns (rs_h s) c1 ++ comp_unknowns (rs_h s) c2) A out.
Proof. exact project_itf_ref_ok. Qed.
Print Assumptions C38_reference_interface.

(** ... but a missing operator, which the code means to project to zero, is undefined behaviour there. *)
Theorem C38_reference_missing_operator_refuted : forall s dim b1 b2, bases_ok s dim ->
  b1 < List.length (rh_nb (rs_h s)) -> b2 < List.length (rh_nb (rs_h s)) -> project_ref_op s b1 b2 None = UB.
Proof. exact project_ref_op_null. Qed.
Print Assumptions C38_reference_missing_operator_refuted.

(** ** C39 *)

Theorem C39_freed_once_partial : forall direct cs, load_first_only cs -> hp_run direct cs <> UB.
Proof. exact run_safe. Qed.
Print Assumptions C39_freed_once_partial.

(** Loading an operator once one exists frees a matrix twice, whatever follows. *)
Theorem C39_load_over_operator_refuted : (exists cs, hp_run false cs = UB) /\
  forall direct pre post s, ofold (hp_step direct) pre hp_init = Ok s ->
  (exists c, In c pre /\ makes_mono c = true) -> hp_run direct (pre ++ CLoad :: post) = UB.
Proof. split; [exists [CLoad; CSolve; CLoad]; apply ex_double_free|exact load_after_operator]. Qed.
Print Assumptions C39_load_over_operator_refuted.

(** ** C40 *)

Theorem C40_append : forall s dim idx mat, bases_ok s dim -> idx < List.length (rh_nb (rs_h s)) -> dm_wf mat -> dm_h mat = dim idx ->
  let n := nth idx (rh_nb (rs_h s)) 0 in
  let old := nth idx (rs_ref s) (DMat 0 0 []) in
  exists s', append_reference_basis s idx mat = Ok s' /\ bases_ok s' dim /\
    rs_h s' = with_nb (rs_h s) (upd (rh_nb (rs_h s)) idx (n + dm_w mat)) /\ rs_carom s' = rs_carom s /\
    (let new := nth idx (rs_ref s') (DMat 0 0 []) in
     (forall i j, i < dim idx -> j < n -> mget new i j = mget old i j) /\
     (forall i j, i < dim idx -> j < dm_w mat -> mget new i (n + j) = mget mat i j)) /\
    (forall b, b <> idx -> nth b (rs_ref s') (DMat 0 0 []) = nth b (rs_ref s) (DMat 0 0 [])).
Proof. exact append_ok. Qed.
Print Assumptions C40_append.

(** ** C80 *)

Theorem C80_loading : forall h dim files s, rom_wf h -> files_ok h dim files -> rom_init h = Ok s ->
  exists s', load_reduced_basis files s = Ok s' /\ bases_ok s' dim /\ rs_h s' = h /\
    (forall b i j, b < List.length (rh_nb h) -> i < dim b -> j < nth b (rh_nb h) 0 ->
       mget (nth b (rs_ref s') (DMat 0 0 [])) i j = rget (nth b files (RMat 0 0 false [])) i j) /\
    forall files', load_reduced_basis files' s' = Ok s'.
Proof.
  intros h dim files s W F E. unfold rom_init in E. destruct (set_block_sizes_ok h W) as (off & coff & nb & Es & T & _).
  rewrite Es in E. cbn [obind] in E. injection E as <-.
  destruct (load_ok (RomSt h false [] [] [] off coff nb) dim files) as (s' & E & B & Eh & _ & _ & _ & Ec & V); auto.
  exists s'. split; [auto|]. split; [auto|]. split; [auto|]. cbn [rs_h rs_loaded] in *. split; [rewrite <- Ec; auto|].
  intros files'. eapply reload_same; [|exact E]. reflexivity.
Qed.
Print Assumptions C80_loading.

(** After an appended basis (supremizers) loading again drops the appended vectors but not their number. *)
Theorem C80_reload_after_append_refuted : exists s files idx mat s1 s2,
  bases_ok s (fun _ => 2) /\ append_reference_basis s idx mat = Ok s1 /\ bases_ok s1 (fun _ => 2) /\
  load_reduced_basis files s1 = Ok s2 /\ (forall dim, ~ bases_ok s2 dim) /\ append_reference_basis s2 idx mat = Abort.
Proof.
  destruct ex_reload as (s1 & s2 & A & B & C & D & E). exists (ex_st ByDomain), ex_files, 0, (DMat 2 1 [0; 1]%R), s1, s2.
  split; [apply ex_bases|]. auto.
Qed.
Print Assumptions C80_reload_after_append_refuted.

(** ** C81 *)

Theorem C81_basis_sizes : forall comps vars sep types off default dict nb dims,
  parse_basis comps vars sep types off default dict = Ok (nb, dims) ->
  let nvar := List.length vars in
  let per := if sep then nvar else 1 in
  List.length nb = List.length comps * per /\ List.length dims = List.length comps * per /\
  forall c v, c < List.length comps -> v < per ->
    let b := c * per + v in
    let tag := print_tag (tag_for_component (nth c comps ""%string) (if sep then nth v vars ""%string else ""%string)) in
    0 < nth b nb 0 /\ Z.of_nat (nth b nb 0) = configured default dict tag /\ 0 < nth b dims 0 /\
    (exists m, nth_error types m = Some c /\ (forall i, i < m -> nth_error types i <> Some c) /\
       nth b dims 0 = if sep then nth (m * nvar + v + 1) off 0 - nth (m * nvar + v) off 0
                      else fold_left (fun a v => a + (nth (m * nvar + v + 1) off 0 - nth (m * nvar + v) off 0)) (seq 0 nvar) 0).
Proof. exact parse_basis_ok. Qed.
Print Assumptions C81_basis_sizes.

Theorem C81_unused_component_stops : forall comps vars sep types off default dict c r,
  c < List.length comps -> 0 < List.length vars -> ~ In c types ->
  parse_basis comps vars sep types off default dict <> Ok r.
Proof. exact parse_basis_unused. Qed.
Print Assumptions C81_unused_component_stops.

(** ** C82 *)

Theorem C82_no_leak_partial : forall direct cs l, hp_run direct cs = Ok l -> count is_solve cs <= 1 ->
  (direct = true -> count creator cs <= 1) -> l = [].
Proof. exact run_no_leak. Qed.
Print Assumptions C82_no_leak_partial.

(** A second operator with the direct solver, or a second solve, leaks. *)
Theorem C82_leaks_refuted : (exists l, hp_run true [CSet true; CSet true] = Ok l /\ l <> []) /\
  (exists l, hp_run false [CSet true; CSolve; CSolve] = Ok l /\ l <> []).
Proof. destruct ex_leaks as (A & B). split; eexists; (split; [eassumption|discriminate]). Qed.
Print Assumptions C82_leaks_refuted.
