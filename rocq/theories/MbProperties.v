(** Theorems on the multi-block solver. *)
From Coq Require Import Reals List Bool Lia Arith ZArith Ascii String Lra.
From Verif Require Import Outcome LaBase TagsSpec BlockVec RomModel RomSpec MbModel MbSpec MbVecProofs MbFlowProofs MbMiscProofs MbAsmProofs MbExamples.
Import ListNotations.
Local Open Scope list_scope.
Local Open Scope nat_scope.

(** ** C35: full-order offsets of the scalar and elasticity solvers *)

Theorem C35_full_order_offsets : forall ns udim vsize ndofs,
  exists bo vo nd, scalar_offsets ns udim vsize ndofs = Ok (bo, vo, nd) /\
    (List.length bo = S (udim * ns) /\ nth 0 bo 0 = 0 /\
     forall m d, m < ns -> d < udim -> nth (S (m * udim + d)) bo 0 = nth (m * udim + d) bo 0 + ndofs m) /\
    (List.length vo = S ns /\ nth 0 vo 0 = 0 /\ forall m, m < ns -> nth (S m) vo 0 = nth m vo 0 + vsize m) /\
    List.length nd = ns /\ (forall m, m < ns -> nth m nd 0 = vsize m) /\
    ((forall m, m < ns -> vsize m = udim * ndofs m) -> forall m, m <= ns -> nth (m * udim) bo 0 = nth m vo 0).
Proof.
  intros. destruct (scalar_offsets_ok ns udim vsize ndofs) as (bo & vo & nd & E & (L1 & Z1 & S1) & (L2 & Z2 & S2) & L3 & N3 & A).
  exists bo, vo, nd. split; [exact E|]. split; [|auto]. split; [exact L1|]. split; [exact Z1|]. intros m d Hm Hd.
  rewrite S1 by (rewrite (Nat.mul_comm udim); apply RomProofs.lin_lt; auto). rewrite RomProofs.lin_div by auto. reflexivity.
Qed.
Print Assumptions C35_full_order_offsets.

(** ** C41 *)

Theorem C41_sort_by_variables : forall ns nv size bs bv, sub_shaped ns nv size bs -> var_shaped ns nv size bv ->
  exists b, sort_by_variables ns nv bs bv = Ok b /\ var_shaped ns nv size b /\ bv_off b = bv_off bv /\
    forall m v k, m < ns -> v < nv -> k < size m v -> bentry b (by_var ns m v) k = bentry bs (by_sub nv m v) k.
Proof. intros. apply sort_vars_ok; auto. Qed.
Print Assumptions C41_sort_by_variables.

Theorem C41_sort_by_subdomains : forall ns nv size bv bs, var_shaped ns nv size bv -> sub_shaped ns nv size bs ->
  exists b, sort_by_subdomains ns nv bv bs = Ok b /\ sub_shaped ns nv size b /\ bv_off b = bv_off bs /\
    forall m v k, m < ns -> v < nv -> k < size m v -> bentry b (by_sub nv m v) k = bentry bv (by_var ns m v) k.
Proof. intros. apply sort_subs_ok; auto. Qed.
Print Assumptions C41_sort_by_subdomains.

Theorem C41_inverse : forall ns nv size bs bv x y, sub_shaped ns nv size bs -> var_shaped ns nv size bv ->
  sub_shaped ns nv size x -> bv_off x = bv_off bs -> var_shaped ns nv size y -> bv_off y = bv_off bv ->
  (let* b := sort_by_variables ns nv bs bv in sort_by_subdomains ns nv b x) = Ok bs /\
  (let* b := sort_by_subdomains ns nv bv bs in sort_by_variables ns nv b y) = Ok bv.
Proof.
  intros ns nv size bs bv x y Sb Sv Sx Ox Sy Oy. split.
  - apply (sort_there_and_back ns nv size); auto.
  - apply (sort_back_and_there ns nv size); auto.
Qed.
Print Assumptions C41_inverse.

(** ** C42 *)

Theorem C42_extract : forall ns nv size vi g x, vi < nv -> sub_shaped ns nv size g -> shaped ns (fun m => size m vi) x ->
  exists y, get_variable_vector ns nv (Z.of_nat vi) g x = Ok y /\ shaped ns (fun m => size m vi) y /\ bv_off y = bv_off x /\
    forall m k, m < ns -> k < size m vi -> bentry y m k = bentry g (by_sub nv m vi) k.
Proof. intros. apply get_var_ok; auto. Qed.
Print Assumptions C42_extract.

Theorem C42_insert : forall ns nv size vi g x, vi < nv -> sub_shaped ns nv size g -> shaped ns (fun m => size m vi) x ->
  exists y, set_variable_vector ns nv (Z.of_nat vi) x g = Ok y /\ sub_shaped ns nv size y /\ bv_off y = bv_off g /\
    (forall m k, m < ns -> k < size m vi -> bentry y (by_sub nv m vi) k = bentry x m k) /\
    (forall m v k, m < ns -> v < nv -> v <> vi -> k < size m v -> bentry y (by_sub nv m v) k = bentry g (by_sub nv m v) k).
Proof. intros. apply set_var_ok; auto. Qed.
Print Assumptions C42_insert.

Theorem C42_get_put_laws : forall ns nv size vi g x y, vi < nv -> sub_shaped ns nv size g -> shaped ns (fun m => size m vi) x ->
  shaped ns (fun m => size m vi) y -> bv_off y = bv_off x ->
  (let* g' := set_variable_vector ns nv (Z.of_nat vi) x g in get_variable_vector ns nv (Z.of_nat vi) g' y) = Ok x /\
  (let* z := get_variable_vector ns nv (Z.of_nat vi) g y in set_variable_vector ns nv (Z.of_nat vi) z g) = Ok g.
Proof.
  intros ns nv size vi g x y Hv Sg Sx Sy O. split.
  - apply (put_get ns nv size); auto.
  - apply (get_put ns nv size); auto.
Qed.
Print Assumptions C42_get_put_laws.

Theorem C42_bad_variable : forall ns nv vi g x, (vi < 0 \/ Z.of_nat nv <= vi)%Z ->
  get_variable_vector ns nv vi g x = Abort /\ set_variable_vector ns nv vi x g = Abort.
Proof.
  intros ns nv vi g x H. unfold get_variable_vector, set_variable_vector.
  assert (((0 <=? vi) && (vi <? Z.of_nat nv))%Z = false) as ->; [|auto]. rewrite andb_false_iff, Z.leb_gt, Z.ltb_ge. auto.
Qed.
Print Assumptions C42_bad_variable.

(** ** C43 *)

Theorem C43_problem_types : forall gattr battr ptypes types,
  List.length types = List.length gattr -> List.length battr <= List.length ptypes ->
  exists types', set_problem gattr battr ptypes types = Ok types' /\ List.length types' = List.length gattr /\
    forall b a, nth_error gattr b = Some a ->
      (forall i, first_at battr a i -> nth_error types' b = nth_error ptypes i) /\
      (~ In a battr -> nth_error types' b = nth_error types b).
Proof. intros. apply set_problem_ok; auto. Qed.
Print Assumptions C43_problem_types.

Theorem C43_single_type : forall gattr types ty idx, List.length types = List.length gattr ->
  ((idx < 0)%Z -> exists t, set_bdr_type gattr types ty idx = Ok t /\ List.length t = List.length types /\
     forall b, b < List.length types -> nth_error t b = Some ty) /\
  ((0 <= idx < Z.of_nat (List.length gattr))%Z -> exists t, set_bdr_type gattr types ty idx = Ok t /\ List.length t = List.length types /\
     nth_error t (Z.to_nat idx) = Some ty /\ forall b, b <> Z.to_nat idx -> nth_error t b = nth_error types b) /\
  ((Z.of_nat (List.length gattr) <= idx)%Z -> set_bdr_type gattr types ty idx = Abort).
Proof. intros. apply set_bdr_ok; auto. Qed.
Print Assumptions C43_single_type.

Theorem C43_markers : forall meshes gattr, meshes <> [] -> (forall l, In l meshes -> l <> []) ->
  (forall a, In a gattr -> (0 < a)%Z /\ exists l y, In l meshes /\ In y l /\ (a <= y)%Z) ->
  exists markers types n, setup_bc meshes gattr = Ok (markers, types) /\
    List.length markers = List.length gattr /\ types = repeat BNone (List.length gattr) /\
    (forall l y, In l meshes -> In y l -> (y <= Z.of_nat n)%Z) /\
    forall b a, nth_error gattr b = Some a -> exists mk, nth_error markers b = Some mk /\ List.length mk = n /\
      forall k, k < n -> nth k mk 0%Z = if (Z.of_nat k + 1 =? a)%Z then 1%Z else 0%Z.
Proof. intros. apply setup_bc_ok; auto. Qed.
Print Assumptions C43_markers.

(** ** C44 *)

Theorem C44_rom_matrix : forall a ess, asm_ok a ->
  (forall m b, m < rh_nsub (as_rom a) -> b < List.length (nth m (as_c2g a) []) -> ess m b = true <-> essential a m b) ->
  exists B, assemble_rom_mat a = Ok B /\
    forall m v m' v', unknown (as_rom a) m v -> unknown (as_rom a) m' v' ->
      (forall X, B (place (as_rom a) m v) (place (as_rom a) m' v') = Some X ->
         fm_h X = basis_size (as_rom a) m v /\ fm_w X = basis_size (as_rom a) m' v') /\
      forall p q, val (B (place (as_rom a) m v) (place (as_rom a) m' v')) p q = rom_entry a ess m v m' v' p q.
Proof. intros a ess A D. exact (assemble_ok a ess A D). Qed.
Print Assumptions C44_rom_matrix.

(** ** C45 *)

(** Without a step every selected subdomain, and no other, is saved. *)
Theorem C45_save_selected : forall ns v, vi_save v = true -> vi_unified v = false ->
  (0 <= vi_offset v < Z.of_nat ns /\ 0 < vi_interval v <= Z.of_nat ns)%Z ->
  exists colls saved, vis_init ns v = Ok colls /\ vis_save ns v colls = Ok saved /\
    List.length colls = ns /\ (forall m, m < ns -> nth m colls false = true <-> selected v m) /\
    NoDup saved /\ forall m, In m saved <-> m < ns /\ selected v m.
Proof. intros. apply vis_save_ok; auto. Qed.
Print Assumptions C45_save_selected.

Theorem C45_bad_selection : forall ns v, vi_save v = true -> vi_unified v = false ->
  ~ (0 <= vi_offset v < Z.of_nat ns /\ 0 < vi_interval v <= Z.of_nat ns)%Z -> vis_init ns v = Abort.
Proof. intros. apply vis_bad_refused; auto. Qed.
Print Assumptions C45_bad_selection.

(** Missing: the selections that leave out a subdomain (see the refutation). *)
Theorem C45_save_step_partial : forall ns v colls, vi_save v = true -> vi_unified v = false -> vis_init ns v = Ok colls ->
  (forall m, m < ns -> selected v m) -> vis_save_step ns v colls = Ok (seq 0 ns).
Proof.
  intros ns v colls S U E H. destruct (vis_step_cases ns v colls S U E) as [(_ & R)|((m & Hm & N) & _)]; auto. exfalso. auto.
Qed.
Print Assumptions C45_save_step_partial.

Theorem C45_save_step_refuted :
  (forall ns v colls m, vi_save v = true -> vi_unified v = false -> vis_init ns v = Ok colls -> m < ns -> ~ selected v m ->
     vis_save_step ns v colls = UB) /\
  exists ns v colls, vi_save v = true /\ vis_init ns v = Ok colls /\ vis_save_step ns v colls = UB.
Proof.
  split.
  - intros ns v colls m S U E Hm N. destruct (vis_step_cases ns v colls S U E) as [(A & _)|(_ & R)]; auto. exfalso. apply N. auto.
  - exists 3, xm_vis, [true; false; true]. repeat split.
Qed.
Print Assumptions C45_save_step_refuted.

(** ** C46 *)

Theorem C46_round_trip : forall c fs name u fs' u0, sc_save c = true -> save_solution c fs name u = Ok fs' ->
  load_solution fs' (sol_name c name) u0 = (if List.length u =? List.length u0 then Ok u else Abort) /\
  forall x, x <> sol_name c name -> fs' x = fs x.
Proof. intros. apply sol_round_trip; auto. Qed.
Print Assumptions C46_round_trip.

Theorem C46_saves : forall c fs name u,
  (sc_save c = true -> sc_can c (sol_name c name) = true -> exists fs', save_solution c fs name u = Ok fs') /\
  (sc_save c = false -> save_solution c fs name u = Ok fs).
Proof. intros. split; [apply sol_saves|]. intros H. unfold save_solution. rewrite H. reflexivity. Qed.
Print Assumptions C46_saves.

Theorem C46_only_matching : forall fs name u,
  load_solution fs name u <> UB /\
  forall d, load_solution fs name u = Ok d -> exists f, fs name = Some f /\ sf_sol f = Some ([List.length u], d).
Proof. intros. split; [apply load_never_ub|apply load_only_matching]. Qed.
Print Assumptions C46_only_matching.

(** ** C47 *)

(** Missing: saving switched off, and the default name (see the refutation). *)
Theorem C47_timed_partial : forall c fs name u step time, sc_save c = true -> name <> ""%string -> sc_can c name = true ->
  exists fs', save_with_time c fs name u step time = Ok fs' /\
    (forall u0, List.length u0 = List.length u -> load_with_time fs' name u0 = Ok (u, step, time)) /\
    forall x, x <> name -> fs' x = fs x.
Proof. intros. apply timed_round_trip; auto. Qed.
Print Assumptions C47_timed_partial.

Theorem C47_timed_refuted :
  (forall c fs name u step time, sc_save c = false -> fs name = None -> save_with_time c fs name u step time = Abort) /\
  (forall c fs u step time, sc_save c = true -> fs ""%string = None -> save_with_time c fs "" u step time = Abort) /\
  exists c fs u step time, sc_save c = true /\ (exists fs', save_solution c fs "" u = Ok fs') /\ save_with_time c fs "" u step time = Abort.
Proof.
  split; [apply timed_off_aborts|]. split; [apply timed_default_aborts|].
  exists xm_cfg, no_files, [1%R], 3%Z, 1%R. split; [reflexivity|]. split; [eexists; reflexivity|]. reflexivity.
Qed.
Print Assumptions C47_timed_refuted.

(** ** C60 *)

Theorem C60_solution : forall ns udim vs ndofs vdim fo pres_dbc solve rhs u junk, udim = vdim 0 + vdim 1 ->
  flow_offsets ns 2 udim vs ndofs vdim = Ok fo -> sub_shaped ns 2 vs rhs -> sub_shaped ns 2 vs u ->
  List.length junk = nth (2 * ns) (fo_var fo) 0 -> (forall x, List.length x = List.length junk -> List.length (solve x) = List.length junk) ->
  exists off r u', flow_solve ns 2 fo pres_dbc solve rhs u junk = Ok u' /\
    var_shaped ns 2 vs (BVec off r) /\ var_shaped ns 2 vs (BVec off (solve r)) /\ sub_shaped ns 2 vs u' /\ bv_off u' = bv_off u /\
    (forall m v k, m < ns -> v < 2 -> k < vs m v -> bentry (BVec off r) (by_var ns m v) k = bentry rhs (by_sub 2 m v) k) /\
    (forall m k, m < ns -> k < vs m 0 -> bentry u' (by_sub 2 m 0) k = bentry (BVec off (solve r)) (by_var ns m 0) k) /\
    (pres_dbc = true -> forall m k, m < ns -> k < vs m 1 -> bentry u' (by_sub 2 m 1) k = bentry (BVec off (solve r)) (by_var ns m 1) k) /\
    (pres_dbc = false -> 0 < nsum ns (fun m => vs m 1) ->
       var_sum ns vs 1 (fun m k => bentry u' (by_sub 2 m 1) k) = 0%R /\
       exists c, forall m k, m < ns -> k < vs m 1 -> bentry u' (by_sub 2 m 1) k = (bentry (BVec off (solve r)) (by_var ns m 1) k - c)%R).
Proof.
  intros ns udim vs ndofs vdim fo pres_dbc solve rhs u junk Hu E Sr Su Lj Ls.
  destruct (flow_solve_ok ns udim vs ndofs vdim fo pres_dbc solve rhs u junk Hu E Sr Su Lj Ls) as (off & r & u' & E' & S1 & S2 & S3 & O & V1 & V2).
  exists off, r, u'. repeat (split; [assumption|]).
  split; [intros m k Hm Hk; rewrite V2 by (auto; lia); rewrite orb_true_r; reflexivity|]. split.
  - intros P m k Hm Hk. rewrite V2 by (auto; lia). rewrite P. reflexivity.
  - intros P Hp. subst pres_dbc. cbn [orb] in V2. set (g := fun m k => bentry (BVec off (solve r)) (by_var ns m 1) k). fold g in V2. split.
    + rewrite <- (flow_mean_zero ns vs 1 g Hp). unfold var_sum. apply rsum_ext. intros m Hm. apply rsum_ext. intros k Hk.
      rewrite V2 by (auto; lia). reflexivity.
    + exists (var_mean ns vs 1 g). intros m k Hm Hk. rewrite V2 by (auto; lia). reflexivity.
Qed.
Print Assumptions C60_solution.

Theorem C60_idempotent : forall z a e (sol s : vec), a <= e -> List.length sol = e ->
  remove_mean [z; a; e] sol = Ok s -> remove_mean [z; a; e] s = Ok s.
Proof. intros z a e sol s H L. apply remove_mean_twice; auto. Qed.
Print Assumptions C60_idempotent.

(** ** C63 *)

Theorem C63_flow_layouts : forall ns udim vsize ndofs vdim, udim = vdim 0 + vdim 1 ->
  exists fo, flow_offsets ns 2 udim vsize ndofs vdim = Ok fo /\
    (List.length (fo_var fo) = S (2 * ns) /\ nth 0 (fo_var fo) 0 = 0 /\
     forall m v, m < ns -> v < 2 -> nth (S (by_sub 2 m v)) (fo_var fo) 0 = nth (by_sub 2 m v) (fo_var fo) 0 + vsize m v) /\
    (List.length (fo_dom fo) = S ns /\ nth 0 (fo_dom fo) 0 = 0 /\
     forall m, m < ns -> nth (S m) (fo_dom fo) 0 = nth m (fo_dom fo) 0 + (vsize m 0 + vsize m 1)) /\
    (forall m, m <= ns -> nth m (fo_dom fo) 0 = nth (m * 2) (fo_var fo) 0) /\
    fo_vdofs fo = map (fun m => vsize m 0 + vsize m 1) (seq 0 ns) /\
    (List.length (fo_u fo) = S ns /\ nth 0 (fo_u fo) 0 = 0 /\ forall m, m < ns -> nth (S m) (fo_u fo) 0 = nth m (fo_u fo) 0 + vsize m 0) /\
    (List.length (fo_p fo) = S ns /\ nth 0 (fo_p fo) 0 = 0 /\ forall m, m < ns -> nth (S m) (fo_p fo) 0 = nth m (fo_p fo) 0 + vsize m 1) /\
    fo_vblock fo = [0; nth ns (fo_u fo) 0; nth ns (fo_u fo) 0 + nth ns (fo_p fo) 0] /\
    nth ns (fo_u fo) 0 + nth ns (fo_p fo) 0 = nth (2 * ns) (fo_var fo) 0 /\
    (List.length (fo_block fo) = S (udim * ns) /\ nth 0 (fo_block fo) 0 = 0 /\
     (forall m v d, m < ns -> v < 2 -> d < vdim v ->
        let i := m * udim + (if v =? 0 then 0 else vdim 0) + d in nth (S i) (fo_block fo) 0 = nth i (fo_block fo) 0 + ndofs m v) /\
     ((forall m v, m < ns -> v < 2 -> vsize m v = vdim v * ndofs m v) ->
        forall m v, m < ns -> v < 2 -> nth (m * udim + (if v =? 0 then 0 else vdim 0)) (fo_block fo) 0 = nth (by_sub 2 m v) (fo_var fo) 0)).
Proof. intros. apply flow_offsets_ok. auto. Qed.
Print Assumptions C63_flow_layouts.

Theorem C63_by_variable : forall ns udim vsize ndofs vdim fo, udim = vdim 0 + vdim 1 -> flow_offsets ns 2 udim vsize ndofs vdim = Ok fo ->
  exists off, offsets_byvar ns 2 (fo_u fo) (fo_p fo) = Ok off /\
    (forall d : vec, List.length d = nth (2 * ns) (fo_var fo) 0 -> var_shaped ns 2 vsize (BVec off d)) /\
    nth ns off 0 = nth 1 (fo_vblock fo) 0 /\ nth (ns + ns) off 0 = nth 2 (fo_vblock fo) 0.
Proof.
  intros ns udim vsize ndofs vdim fo Hu E. destruct (flow_offsets_ok ns udim vsize ndofs vdim Hu) as (fo' & E' & _ & _ & _ & _ & Ou & Op & Vb & Tot & _).
  rewrite E in E'. injection E' as <-. destruct (offsets_byvar_ok ns _ _ _ _ Ou Op) as (off & Eo & _ & _ & OA & OB). exists off. split; [exact Eo|].
  split; [intros d Hd; apply (offsets_byvar_shape ns _ _ vsize d off Ou Op Eo); lia|]. rewrite Vb. cbn [nth]. split; [apply OA; auto|apply OB; auto].
Qed.
Print Assumptions C63_by_variable.

(** ** C83 *)

Theorem C83_relative_error : forall ns nv en,
  (forall v, v < nv -> exists m, m < ns /\ snd (en m v) <> 0%R) ->
  exists r, relative_error ns nv en = Ok r /\ List.length r = nv /\
  forall v, v < nv ->
    (vnth r v * sqrt (rsum ns (fun m => snd (en m v) * snd (en m v))) = sqrt (rsum ns (fun m => fst (en m v) * fst (en m v))))%R /\
    (0 < rsum ns (fun m => snd (en m v) * snd (en m v)))%R /\
    ((forall m, m < ns -> fst (en m v) = 0%R) <-> vnth r v = 0%R).
Proof.
  intros ns nv en H. destruct (relative_error_ok ns nv en) as (r & E & L & V). exists r. split; [exact E|]. split; [exact L|]. intros v Hv.
  rewrite V by auto. set (N := rsum ns (fun m => snd (en m v) * snd (en m v))%R). set (Er := rsum ns (fun m => fst (en m v) * fst (en m v))%R).
  assert (PN : (0 < N)%R).
  { destruct (H v Hv) as (m & Hm & Nz). assert (P : forall i, i < ns -> (0 <= snd (en i v) * snd (en i v))%R) by (intros; apply Rle_0_sqr).
    pose proof (rsum_nonneg ns (fun m => snd (en m v) * snd (en m v))%R P) as G. fold N in G. destruct (Req_dec N 0) as [Z|Z]; [|lra].
    exfalso. apply Nz. pose proof (rsum_nonneg_zero ns (fun m => snd (en m v) * snd (en m v))%R P Z m Hm) as Q. cbn beta in Q. apply Rsqr_0_uniq. exact Q. }
  assert (PS : (0 < sqrt N)%R) by (apply sqrt_lt_R0; auto).
  assert (P : forall i, i < ns -> (0 <= fst (en i v) * fst (en i v))%R) by (intros; apply Rle_0_sqr).
  pose proof (rsum_nonneg ns (fun m => fst (en m v) * fst (en m v))%R P) as G. fold Er in G.
  split; [field; lra|]. split; [auto|]. split.
  - intros Z. assert (Er = 0%R) as ->.
    { unfold Er. rewrite (rsum_ext ns _ (fun _ => 0%R)); [apply rsum_zero|]. intros i Hi. rewrite Z by auto. ring. }
    rewrite sqrt_0. field. lra.
  - intros Z m Hm. assert (Er = 0%R).
    { apply sqrt_eq_0; auto. apply (Rmult_eq_reg_r (/ sqrt N)); [|apply Rinv_neq_0_compat; lra]. unfold Rdiv in Z. rewrite Z. ring. }
    apply Rsqr_0_uniq. apply (rsum_nonneg_zero ns (fun m => fst (en m v) * fst (en m v))%R P H0 m Hm).
Qed.
Print Assumptions C83_relative_error.

(** ** C84 *)

(** Missing: components without boundary, and ports whose names coincide (see the refutations). *)
Theorem C84_elements_partial : forall (A : Type) names nbdr ports (comp : list (comp_elem A)) port,
  List.length comp = List.length names -> List.length nbdr = List.length names -> List.length port = List.length ports ->
  (forall c e k, nth_error comp c = Some e -> nth_error nbdr c = Some k -> List.length (ce_bdr e) = k) ->
  NoDup names -> NoDup ports ->
  exists f, save_elems names nbdr ports comp port = Ok f /\
    forall names' nbdr' ports' comp' port',
      List.length names' <= List.length names -> List.length ports' <= List.length ports ->
      List.length comp' = List.length names' -> List.length nbdr' = List.length names' -> List.length port' = List.length ports' ->
      (forall c n e k, nth_error names' c = Some n -> nth_error comp' c = Some e -> nth_error nbdr' c = Some k ->
         0 < k /\ exists d, nth_error names d = Some n /\ nth_error comp d = Some e /\ nth_error nbdr d = Some k) ->
      (forall p n x, nth_error ports' p = Some n -> nth_error port' p = Some x ->
         exists d, nth_error ports d = Some n /\ nth_error port d = Some x) ->
      load_elems names' nbdr' ports' f = Ok (comp', port').
Proof.
  intros A names nbdr ports comp port Lc Ln Lp Hb Nn Np.
  destruct (elems_saved names nbdr ports comp port Lc Ln Lp Hb Nn Np) as (f & E & F1 & F2 & F3 & F4). exists f. split; [exact E|].
  intros names' nbdr' ports' comp' port' H1 H2 H3 H4 H5 H6 H7. apply elems_loaded; try lia.
  - intros c n e k E1 E2 E3. destruct (H6 c n e k E1 E2 E3) as (P & d & D1 & D2 & D3). split; [eapply F3; eauto|]. split; [eapply Hb; eauto|auto].
  - intros p n x E1 E2. destruct (H7 p n x E1 E2) as (d & D1 & D2). eapply F4; eauto.
Qed.
Print Assumptions C84_elements_partial.

(** A load returns only what was saved under the names asked for, with the expected number of boundaries. *)
Theorem C84_load_returns_saved : forall (A : Type) names nbdr ports (comp : list (comp_elem A)) port f names' nbdr' ports' comp' port',
  save_elems names nbdr ports comp port = Ok f -> load_elems names' nbdr' ports' f = Ok (comp', port') ->
  List.length comp' = List.length names' /\ List.length port' = List.length ports' /\
  (forall c n e, nth_error names' c = Some n -> nth_error comp' c = Some e ->
     nth_error nbdr' c = Some (List.length (ce_bdr e)) /\ exists d, nth_error names d = Some n /\ nth_error comp d = Some e) /\
  (forall p n x, nth_error ports' p = Some n -> nth_error port' p = Some x ->
     exists d, nth_error ports d = Some n /\ nth_error port d = Some x).
Proof.
  intros A names nbdr ports comp port f names' nbdr' ports' comp' port' E1 E2.
  destruct (save_elems_inv _ _ _ _ _ _ E1) as (F1 & F2). destruct (load_elems_inv _ _ _ _ _ _ E2) as (L1 & L2 & G1 & G2).
  split; [exact L1|]. split; [exact L2|]. split.
  - intros c n e N C. destruct (G1 c n e N C) as (I & K). auto.
  - intros p n x N C. apply F2. apply (G2 p n x N C).
Qed.
Print Assumptions C84_load_returns_saved.

Theorem C84_port_names : forall c1 c2 a1 a2 d1 d2 b1 b2, no_char ":"%char c1 -> no_char ":"%char d1 ->
  port_name c1 c2 a1 a2 = port_name d1 d2 b1 b2 -> c1 = d1 /\ c2 = d2 /\ a1 = b1 /\ a2 = b2.
Proof. intros c1 c2 a1 a2 d1 d2 b1 b2. apply port_name_inj. Qed.
Print Assumptions C84_port_names.

(** Saved, but not loaded: a component without boundary. Not saved: two ports with the same name. *)
Theorem C84_elements_refuted :
  (exists f, save_elems ["a"]%string [0] [] [CompElem 1 2 []] [] = Ok f /\ load_elems ["a"]%string [0] [] f = Abort) /\
  (exists c1 c2 d1 d2, (c1, c2) <> (d1, d2) /\
     save_elems ["a"]%string [1] [port_name c1 c2 1 1; port_name d1 d2 1 1] [CompElem 1 2 [3]] [4; 5] = Abort).
Proof.
  split; [eexists; split; reflexivity|]. exists "a:b"%string, "c"%string, "a"%string, "b:c"%string. split; [discriminate|reflexivity].
Qed.
Print Assumptions C84_elements_refuted.
