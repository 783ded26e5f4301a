(** Properties of hyper-reduction. *)
From Coq Require Import Reals List Bool Lia Arith ZArith Lra.
From Verif Require Import Outcome HdfModel LaBase BlockVec LinalgModel LinalgSpec LinalgProofs ItfModel ItfSpec EqpModel EqpSpec EqpProofs EqpSetupProofs EqpEvalProofs EqpAccProofs
  EqpItfModel EqpItfSpec EqpItfProofs EqpOwnModel EqpOwnSpec EqpOwnProofs EqpOwnItfProofs EqpExamples.
Import ListNotations.
Local Open Scope nat_scope.

(** Samples of an integrator on the places [ids], from the solution held by any number of processes. *)
Theorem C50_samples : forall nqe parts ids junk, 0 < nqe -> List.length (concat parts) = List.length ids * nqe -> ascending lt ids ->
  List.length junk = List.length (concat parts) ->
  exists l, solution_samples nqe parts (Some ids) junk = Ok l /\
    (forall s, In s l <-> exists e m, e < List.length ids /\ m < nqe /\ (/ 10 ^ 12 < vnth (concat parts) (e * nqe + m))%R /\
       s = {| si_el := Z.of_nat (nth e ids 0); si_qp := Z.of_nat m; si_qw := vnth (concat parts) (e * nqe + m) |}) /\
    ascending sample_lt l.
Proof. intros. apply samples_ok; auto. Qed.
Print Assumptions C50_samples.

(** Samples of a domain integrator are those of all elements. *)
Theorem C50_domain_samples : forall nqe parts junk ne, 0 < nqe -> List.length (concat parts) = ne * nqe -> List.length junk = List.length (concat parts) ->
  exists l, solution_samples nqe parts None junk = Ok l /\
    (forall s, In s l <-> exists e m, e < ne /\ m < nqe /\ (/ 10 ^ 12 < vnth (concat parts) (e * nqe + m))%R /\
       s = {| si_el := Z.of_nat e; si_qp := Z.of_nat m; si_qw := vnth (concat parts) (e * nqe + m) |}) /\
    ascending sample_lt l.
Proof.
  intros nqe parts junk ne Hq L Lj. rewrite (samples_domain nqe parts junk ne) by auto. destruct (samples_ok nqe parts (seq 0 ne) junk) as (l & E & V & A); auto.
  - rewrite seq_length. exact L.
  - apply ascending_seq.
  - exists l. split; [exact E|]. split; [|exact A]. intros s. rewrite V, seq_length. split; intros (e & m & He & Hm & K & Es); exists e, m; (split; [auto|]); (split; [auto|]); (split; [auto|]);
      rewrite Es, seq_nth by auto; reflexivity.
Qed.
Print Assumptions C50_domain_samples.

(** The places: all faces with a transformation; all boundary elements with one whose attribute is marked. *)
Theorem C50_places : forall st,
  (exists l, interior_faces st = Ok l /\ ascending lt l /\ forall f, In f l <-> exists s, at_site st f s) /\
  (forall attr nattr m, List.length attr = List.length st -> (forall a, In a attr -> (1 <= a <= Z.of_nat nattr)%Z) -> (forall mk, m = Some mk -> nattr <= List.length mk) ->
    exists mk l, bdr_marker nattr m = Ok mk /\ bdr_faces st attr mk = Ok l /\ ascending lt l /\
      forall b, In b l <-> (exists s, at_site st b s) /\
        match m with None => True | Some mk => nth (Z.to_nat (nth b attr 0%Z - 1)) mk 0%Z <> 0%Z end).
Proof.
  assert (Hlt : forall st f s, at_site st f s -> f < List.length st) by (intros st f s H; apply nth_error_Some; unfold at_site in H; congruence).
  intros st. split.
  - eexists. split; [apply interior_faces_ok|]. split; [apply filter_seq_ascending|]. intros f. rewrite filter_In, in_seq. split.
    + intros (H1 & H2). apply has_site_spec in H2; auto. lia.
    + intros (s & H). pose proof (Hlt _ _ _ H). split; [lia|]. apply has_site_spec; eauto.
  - intros attr nattr m La Ha Hm. destruct (bdr_marker_ok nattr m Hm) as (mk & E & L & V). exists mk. eexists. split; [exact E|]. split; [apply bdr_faces_ok; auto; rewrite L; auto|]. split; [apply filter_seq_ascending|].
    intros b. rewrite filter_In, in_seq, andb_true_iff. unfold marked.
    assert (Eq : b < List.length st -> (negb (nth (Z.to_nat (nth b attr 0%Z - 1)) mk 0%Z =? 0)%Z = true <-> match m with None => True | Some mk => nth (Z.to_nat (nth b attr 0%Z - 1)) mk 0%Z <> 0%Z end)).
    { intros Hb. assert (Hi : (1 <= nth b attr 0%Z <= Z.of_nat nattr)%Z) by (apply Ha, nth_In; lia). rewrite V by lia. destruct m as [mk'|].
      - rewrite negb_true_iff, Z.eqb_neq. tauto.
      - cbn. tauto. }
    split.
    + intros (H1 & H2 & H3). split; [apply has_site_spec; auto; lia|]. apply Eq; auto. lia.
    + intros ((s & H) & K). pose proof (Hlt _ _ _ H). split; [lia|]. split; [apply Eq; auto|]. apply has_site_spec; eauto.
Qed.
Print Assumptions C50_places.

(** The training system of domain, interior face and boundary integrators. *)
Theorem C51_system : forall nqe w_el st ids B0 off n vsize B snap split jg jw,
  dm_wf B0 -> set_basis n vsize B0 off = Ok B -> rm_wf snap -> vsize <= rm_r snap -> nqe <= List.length w_el -> list_sum split = List.length ids ->
  (forall id, In id ids -> exists s, at_site st id s /\ site_ok vsize s) ->
  (forall r, r < List.length split -> List.length (jg r) = nth r split 0 * nqe * (n * rm_c snap)) ->
  (forall r, r < List.length split -> List.length (jw r) = nth r split 0 * nqe) ->
  exists Gs rhs, setup_system nqe w_el st ids B vsize snap split jg jw = Ok (Gs, rhs) /\
    List.length Gs = List.length split /\ List.length rhs = n * rm_c snap /\
    (forall r, r < List.length split -> shape (nth r split 0 * nqe) (n * rm_c snap) (nth r Gs (RMat 0 0 true []))) /\
    (forall r e m i j s, site_split split r e -> at_site st (nth e ids 0) s -> m < nqe -> i < rm_c snap -> j < n ->
      rget (nth r Gs (RMat 0 0 true [])) ((e - list_sum (firstn r split)) * nqe + m) (i * n + j) = form_at s m 1 (fun k => rget snap k i) (mode B0 off j)) /\
    forall i j, i < rm_c snap -> j < n -> vnth rhs (i * n + j) =
      rsum (List.length ids) (fun e => rsum nqe (fun m => (form_at (pick_site st ids e) m 1 (fun k => rget snap k i) (mode B0 off j) * vnth w_el m)%R)).
Proof. intros. eapply setup_system_ok; eauto. Qed.
Print Assumptions C51_system.

(** The training system of an interface integrator at a reference port. *)
Theorem C51_interface_system : forall nqe w_el st B1 B2 o1 o2 n1 n2 snap1 snap2 pairs split jg jw, let NB := dm_w B1 + dm_w B2 in
  dm_wf B1 -> dm_wf B2 -> o1 + n1 <= dm_h B1 -> o2 + n2 <= dm_h B2 ->
  rm_wf snap1 -> rm_wf snap2 -> n1 <= rm_r snap1 -> n2 <= rm_r snap2 ->
  (forall p, In p pairs -> fst p < rm_c snap1 /\ snd p < rm_c snap2) ->
  nqe <= List.length w_el -> list_sum split = List.length st ->
  (forall so, In so st -> exists s, so = Some s /\ isite_ok n1 n2 s) ->
  (forall r, r < List.length split -> List.length (jg r) = nth r split 0 * nqe * (NB * List.length pairs)) ->
  (forall r, r < List.length split -> List.length (jw r) = nth r split 0 * nqe) ->
  exists Gs rhs, setup_system_itf nqe w_el st B1 B2 o1 o2 n1 n2 snap1 snap2 pairs split jg jw = Ok (Gs, rhs) /\
    List.length Gs = List.length split /\ List.length rhs = NB * List.length pairs /\
    (forall r, r < List.length split -> shape (nth r split 0 * nqe) (NB * List.length pairs) (nth r Gs (RMat 0 0 true []))) /\
    (forall r e m i j, site_split split r e -> m < nqe -> i < List.length pairs -> j < NB ->
      rget (nth r Gs (RMat 0 0 true [])) ((e - list_sum (firstn r split)) * nqe + m) (i * NB + j) = ientry B1 B2 o1 o2 snap1 snap2 pairs (pick_isite st) e m i j) /\
    forall i j, i < List.length pairs -> j < NB -> vnth rhs (i * NB + j) =
      rsum (List.length st) (fun e => rsum nqe (fun m => (ientry B1 B2 o1 o2 snap1 snap2 pairs (pick_isite st) e m i j * vnth w_el m)%R)).
Proof. intros. apply setup_system_itf_ok; auto. Qed.
Print Assumptions C51_interface_system.

(** Hyper-reduced forms are the sums over their samples of the integrands at the lifted state, whatever the order of the samples. *)
Theorem C52_mult : forall n vsize B0 off B ints x y, dm_wf B0 -> set_basis n vsize B0 off = Ok B -> 0 < n -> List.length x = n -> List.length y = n ->
  (forall I, In I ints -> integ_fits vsize I) ->
  exists z, form_mult n (Some B) ints x y = Ok z /\ List.length z = n /\
    forall j, j < n -> vnth z j = lsum (fun I => lsum (sample_form I (lift B0 off x) (mode B0 off j)) (samples_of I)) ints.
Proof. intros. eapply form_mult_ok; eauto. Qed.
Print Assumptions C52_mult.

Theorem C52_gradient : forall n vsize B0 off B ints G x, dm_wf B0 -> set_basis n vsize B0 off = Ok B -> 0 < n -> List.length x = n ->
  (forall M, G = Some M -> dm_wf M /\ dm_h M = n /\ dm_w M = n) ->
  (forall I, In I ints -> integ_fits vsize I /\ integ_grad_fits I) ->
  exists J, form_gradient n (Some B) ints G x = Ok J /\ dm_wf J /\ dm_h J = n /\ dm_w J = n /\
    forall a b, a < n -> b < n -> mget J a b = lsum (fun I => lsum (sample_grad I (lift B0 off x) (mode B0 off a) (mode B0 off b)) (samples_of I)) ints.
Proof. intros. eapply form_gradient_ok; eauto. Qed.
Print Assumptions C52_gradient.

(** Hyper-reduced interface terms, added to what the vector held. *)
Theorem C52_interface_mult : forall F nd x y, form_fits F nd -> List.length x = start F (List.length (fo_bases F)) -> List.length y = List.length x ->
  exists off z, block_offsets (fo_bases F) = Ok off /\ itf_add_mult F off x y = Ok z /\ List.length z = List.length y /\
    forall i j, i < List.length (fo_bases F) -> j < width F i -> vnth z (start F i + j) =
      (vnth y (start F i + j) + rsum (List.length (fo_rules F)) (fun k => rsum (List.length (fo_ports F)) (fun p => lsum (isample_form F x k p i j) (ismp F k p))))%R.
Proof. intros. eapply itf_add_mult_ok; eauto. Qed.
Print Assumptions C52_interface_mult.

Theorem C52_interface_gradient : forall F nd x g, form_fits F nd -> form_grad_fits F -> grid_fits F g -> List.length x = start F (List.length (fo_bases F)) ->
  exists off g', block_offsets (fo_bases F) = Ok off /\ itf_get_gradient F off x g = Ok g' /\ grid_fits F g' /\
    forall i i' a b, i < List.length (fo_bases F) -> i' < List.length (fo_bases F) -> a < width F i -> b < width F i' -> sm_val (gr_at g' i i') a b =
      (sm_val (gr_at g i i') a b + rsum (List.length (fo_rules F)) (fun k => rsum (List.length (fo_ports F)) (fun p => lsum (isample_grad F x k p i i' a b) (ismp F k p))))%R.
Proof. intros. eapply itf_gradient_ok; eauto. Qed.
Print Assumptions C52_interface_gradient.

(** Reference forms use the samples most recently given to them, and never touch freed memory; once all forms are deleted everything has been freed. *)
Theorem C53_reference_forms : forall A (ops : list (wop A)), script ops ->
  wrun ops <> UB /\
  forall w, wrun ops = Ok w ->
    (forall f k i F, nth_error (alive ops) f = Some (Some true) -> nth_error (w_forms w) f = Some (Some F) -> i < List.length (rf_slots F k) ->
      wuse w f k i = match last_update ops f k i with Some a => Ok a | None => Abort end) /\
    ((forall f r, nth_error (alive ops) f <> Some (Some r)) -> forall p, p < List.length (w_heap w) -> nth p (w_heap w) None = None).
Proof.
  intros A ops S0. split; [apply wrun_ok; auto|]. intros w E. split.
  - intros f k i F H1 H2 H3. eapply reference_use; eauto.
  - intros H. eapply all_freed; eauto.
Qed.
Print Assumptions C53_reference_forms.

(** Forms that borrow samples are safe provided the forms they borrow from are no longer updated, nor deleted before them. *)
Theorem C53_shared_partial : forall A (pre ops : list (wop A)) w v V k i, script (pre ++ ops) -> (forall o, In o pre -> no_share o) -> phase2 pre ops -> wrun (pre ++ ops) = Ok w ->
  nth_error (w_forms w) v = Some (Some V) -> rf_ref V = false -> i < List.length (rf_slots V k) ->
  wuse w v k i = match last_share ops v k i with
    | None => Abort
    | Some (r, kr, ir) => match last_update (pre ++ ops) r kr ir with Some a => Ok a | None => Abort end
    end.
Proof. intros. eapply view_use; eauto. Qed.
Print Assumptions C53_shared_partial.

(** Without the proviso: updating the samples of a reference form leaves its borrowers with freed memory. *)
Theorem C53_shared_refuted : exists (ops : list (wop nat)) w, script ops /\ wrun ops = Ok w /\ nth_error (alive ops) 0 = Some (Some true) /\ nth_error (alive ops) 1 = Some (Some false) /\
  last_share ops 1 KDomain 0 = Some (0, KDomain, 0) /\ wuse w 0 KDomain 0 = Ok 2 /\ wuse w 1 KDomain 0 = UB.
Proof.
  exists [WNew true; WAdd 0 KDomain; WUpdate 0 KDomain 0 1; WNew false; WAdd 1 KDomain; WShare 1 KDomain 0 0 KDomain 0; WUpdate 0 KDomain 0 2].
  match goal with |- context[wrun ?o] => destruct (wrun o) as [w| |] eqn:E; [|vm_compute in E; discriminate E|vm_compute in E; discriminate E] end.
  exists w. split; [red; unfold alive; apply on_alive_all; cbn; repeat split; eauto|]. split; [reflexivity|]. vm_compute in E. injection E as <-. repeat split.
Qed.
Print Assumptions C53_shared_refuted.

(** Interface forms: every port uses the samples most recently trained or read for its kind of port; deletion frees each list once. *)
Theorem C53_interface_forms : forall A types nref (ops : list (iop A)), (forall t, In t types -> t < nref) -> iscript ops ->
  irun types nref ops <> UB /\
  forall s, irun types nref ops = Ok s ->
    (forall k p, k < integrators ops -> p < List.length types -> iuse types s k p = Ok (last_samples ops k (nth p types 0))) /\
    exists h, idelete s = Ok h /\ forall p, nth p h None = None.
Proof.
  intros A types nref ops HT S0. split; [apply (irun_ok types nref HT); auto|]. intros s E. split.
  - intros k p Hk Hp. eapply itf_use; eauto.
  - eapply itf_delete; eauto.
Qed.
Print Assumptions C53_interface_forms.

(** Reading samples for an integrator that does not exist is not noticed, and writes outside the list of samples. *)
Theorem C53_interface_load_refuted : exists types nref (ops : list (iop nat)), (forall t, In t types -> t < nref) /\ irun types nref ops = UB.
Proof.
  exists [0], 1, [IAdd; ILoad 1 (fun _ => 3)]. split; [intros t [<-|[]]; lia|]. reflexivity.
Qed.
Print Assumptions C53_interface_load_refuted.

(** At a training state, the hyper-reduced form differs from the full one by at most the training tolerance and the dropped weights. *)
Theorem C86_training_accuracy : forall nqe w_el st attr mark ids B0 off n vsize B snap split jg jw Gs rhs parts tol junk l x y i,
  dm_wf B0 -> set_basis n vsize B0 off = Ok B -> rm_wf snap -> vsize <= rm_r snap -> nqe <= List.length w_el -> list_sum split = List.length ids ->
  0 < n -> 0 < nqe ->
  (forall id, In id ids -> id_marked attr mark id /\ exists s, at_site st id s /\ site_ok vsize s /\ plain s /\ weight_linear s) ->
  (forall r, r < List.length split -> List.length (jg r) = nth r split 0 * nqe * (n * rm_c snap)) ->
  (forall r, r < List.length split -> List.length (jw r) = nth r split 0 * nqe) ->
  setup_system nqe w_el st ids B vsize snap split jg jw = Ok (Gs, rhs) ->
  List.length parts = List.length split -> (forall r, r < List.length split -> List.length (nth r parts []) = nth r split 0 * nqe) ->
  (forall k, k < List.length (concat parts) -> (0 <= vnth (concat parts) k)%R) ->
  (forall c, c < List.length rhs -> (vnth (fst (eqp_bounds tol rhs)) c <= vnth (transpose_mult (List.length rhs) (combine Gs parts)) c <= vnth (snd (eqp_bounds tol rhs)) c)%R) ->
  List.length junk = List.length (concat parts) -> solution_samples nqe parts (Some ids) junk = Ok l ->
  List.length x = n -> List.length y = n -> i < rm_c snap -> (forall r, r < vsize -> lift B0 off x r = rget snap r i) ->
  exists z, form_mult n (Some B) [trained nqe st attr mark l] x y = Ok z /\
    forall j, j < n ->
      let full := rsum (List.length ids) (fun e => rsum nqe (fun m => form_at (pick_site st ids e) m (vnth w_el m) (lift B0 off x) (mode B0 off j))) in
      (Rabs (vnth z j - full) <= tol * Rabs full + / 10 ^ 12 * rsum (List.length ids) (fun e => rsum nqe (fun m => Rabs (form_at (pick_site st ids e) m 1 (lift B0 off x) (mode B0 off j)))))%R.
Proof. intros. eapply hyper_training; eauto. Qed.
Print Assumptions C86_training_accuracy.
