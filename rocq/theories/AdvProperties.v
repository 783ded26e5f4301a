(** The properties of the advection-diffusion solver and of the linear solves. *)
From Coq Require Import Reals List Bool Lia Lra Arith ZArith String.
From Verif Require Import Outcome ListLemmas LaBase LinalgModel BlockVec RomModel MbModel MbSpec EqpSpec ItfModel ItfSpec ProbModel BcModel BupModel BupSpec BupExamples AdvModel AdvSpec AdvProofs AdvAsmProofs AdvVisProofs AdvExamples.
From Verif Require BcSpec.
Import ListNotations.
Local Open Scope nat_scope.

(** ** C112: the operator *)

(** However the solver got there: once the domain operators are built, the matrix exists, and its form is diffusion plus Peclet
    times transport by the velocity of the subdomain, plus the boundary and interface terms. *)
Theorem C112_operator c L fs l s g cfes dim pts nu0 sigma kappa enf : flows_ok c L -> files_ok fs -> exec c L fs (l ++ [OBuild]) = Ok s ->
  geo_ok g -> ac_nsub c = nsub g -> ac_gattr c = g_gattr g -> (forall a, enf a = true <-> weak g (po_types (a_ps s)) (po_bdr (a_ps s)) a) ->
  let nu := adv_numerics dim pts nu0 in itf_ok nu g cfes cfes (IItfDiffusion sigma kappa) ->
  exists A, adv_full c nu g cfes sigma kappa s = Ok A /\
    forall m m' b v u, m < nsub g -> m' < nsub g -> advects s m b ->
      let n k := fe_size (nth (type_of g k) cfes (Fes 0 (fun _ => []))) in let nel := me_nel (mesh_of g (type_of g m)) in
      bilinear (n m) (n m') (val (A m m')) v u =
        (ind (m =? m') (stiffness dim nel (n m) (pts m) v u + ac_pe c * transport dim nel (n m) (pts m) b v u)
         + bilinear (n m) (n m') (full_entry nu g cfes cfes [] [] (IDGDiffusion sigma kappa) (IItfDiffusion sigma kappa) enf m m') v u)%R.
Proof.
  intros FO F E G En Eg Ew nu It. pose proof (exec_sized c L fs _ s E) as Sz. rewrite Eg in Sz.
  apply exec_snoc in E as (t & Et & E). cbn [step] in E. pose proof (exec_sound c L FO fs l t F Et) as St.
  destruct (build_velocities c L FO t s St E) as (fo & bs & Ef & Eb & Lb & A & _ & _ & _).
  destruct (adv_matrix c dim pts nu0 g cfes sigma kappa G bs (po_types (a_ps s)) (po_bdr (a_ps s)) enf Sz Ew It) as (M & EM & VM); [congruence|].
  exists M. split; [unfold adv_full; rewrite Ef; cbn [obind]; rewrite Eb; cbn [obind]; exact EM|].
  intros m m' b v u Hm Hm' Ab n nel. rewrite (advects_fun s m b (nth m bs (VelGrid [])) Ab) by (apply A; lia). apply VM; auto.
Qed.
Print Assumptions C112_operator.

(** The domain operators are built exactly when every subdomain has a velocity. *)
Theorem C112_built c L fs l t : flows_ok c L -> files_ok fs -> exec c L fs l = Ok t ->
  ((exists s, exec c L fs (l ++ [OBuild]) = Ok s) <-> forall m, m < ac_nsub c -> exists b, advects t m b) /\
  forall s m b, exec c L fs (l ++ [OBuild]) = Ok s -> advects s m b <-> advects t m b.
Proof.
  intros FO F Et. pose proof (exec_sound c L FO fs l t F Et) as St. split.
  - rewrite <- (build_iff c L FO t St). split.
    + intros (s & E). apply exec_snoc in E as (t' & Et' & E). assert (t' = t) as -> by congruence. eauto.
    + intros (s & E). exists s. apply exec_snoc. eauto.
  - intros s m b E. apply exec_snoc in E as (t' & Et' & E). assert (t' = t) as -> by congruence. destruct (build_velocities c L FO t s St E) as (? & ? & _ & _ & _ & _ & _ & V & _). apply V.
Qed.
Print Assumptions C112_built.

(** Velocities given as functions: the last one given to a subdomain (or to all) is the one used, the others keep theirs. *)
Theorem C112_functions c L fs l t f m : flows_ok c L -> files_ok fs -> exec c L fs l = Ok t -> (m = -1 \/ (0 <= m /\ m < Z.of_nat (ac_nsub c)))%Z ->
  exists s, exec c L fs (l ++ [OFlow f m]) = Ok s /\
    forall k, k < ac_nsub c -> if ((m =? -1) || (m =? Z.of_nat k))%Z then advects s k (VelFun f) else forall b, advects t k b <-> advects s k b.
Proof.
  intros FO F Et Hm. pose proof (exec_sound c L FO fs l t F Et) as St. destruct (set_flow_ok c L f m t St Hm) as (s & E & Ss & _ & _ & _ & _ & _ & V1 & V2).
  exists s. split; [apply exec_snoc; eauto|]. intros k Hk. destruct (((m =? -1) || (m =? Z.of_nat k))%Z) eqn:Eb; [apply V1; [exact Hk|lia]|].
  intros b. split; [apply V2; lia|]. intros Ab. destruct Ab as (i & Ei & Ab).
  assert (A : exists b', advects t k b').
  { enough (exists j, nth_error (a_flow t) k = Some (Some j)) as (j & Ej) by (destruct (sound_advects c L FO t k j St Ej) as (b' & A & _); eauto).
    unfold set_flow in E. apply oassert_ok in E as (_ & E). apply oassert_ok in E as (_ & E). replace (m =? -1)%Z with false in E by lia.
    apply obind_ok in E as (fl & Ew & E). injection E as <-. cbn [a_flow] in Ei. pose proof St as (Ln & _). rewrite owrite_vec in Ew by lia. injection Ew as <-.
    rewrite nth_error_upd_ne in Ei by lia. eauto. }
  destruct A as (b' & A'). assert (b = b') as -> by (eapply (advects_fun s k); [exists i; eauto|apply V2; [lia|exact A']]). exact A'.
Qed.
Print Assumptions C112_functions.

Example C112_operator_case : exists s A, exec (ax_c true true) (ax_L true) ax_none ([OSet (ax_g 1) false (Some ax_p) ax_p] ++ [OBuild]) = Ok s /\
  advects s 1 (VelGrid [2]%R) /\ adv_full (ax_c true true) (adv_numerics 2 ax_pts bx_nu) bx_g bx_fes 1 2 s = Ok A.
Proof.
  destruct (ax_run true true) as (s & E). exists s. assert (Bt : exists enf, forall a, enf a = true <-> weak bx_g (po_types (a_ps s)) (po_bdr (a_ps s)) a).
  { exists (fun a => (a =? 1)%Z). vm_compute in E. injection E as <-. intros a. cbn [a_ps po_types po_bdr]. rewrite Z.eqb_eq. split.
    - intros ->. exists 0. split; [reflexivity|]. split; discriminate.
    - intros (b & Eb & Nb & _). destruct b as [|[|[|b]]]; cbn in Eb; [congruence| | |destruct b; discriminate]; exfalso; apply Nb; reflexivity. }
  destruct Bt as (enf & Bt). destruct (C112_operator _ _ _ [OSet (ax_g 1) false (Some ax_p) ax_p] s bx_g bx_fes 2 ax_pts bx_nu 1 2 enf (ax_flows true true true) ax_files E bx_geo eq_refl eq_refl Bt ax_itf) as (A & EA & _).
  exists A. split; [exact E|]. split; [|exact EA]. vm_compute in E. injection E as <-. exists 1. split; [reflexivity|]. right. do 4 eexists. split; [reflexivity|]. split; [reflexivity|].
  split; [vm_compute; reflexivity|]. reflexivity.
Qed.

(** ** C113: the flow of a problem *)

(** Unless a stored flow is loaded, the velocities are those of the Stokes solution of this problem for these variables; if the
    flow is to be saved it is, and nothing else is written. *)
Theorem C113_computed c L fs l t g p q u conv ps : flows_ok c L -> files_ok fs -> exec c L fs l = Ok t ->
  let name := match ac_file c with Some f => f | None => ""%string end in
  (ac_load c = false \/ a_files t name = None) -> fl_solve L p g = Ok (u, conv) -> (ac_save c = true -> ac_can c name = true /\ name <> ""%string) ->
  poisson_set (ac_gattr c) q (a_ps t) = Ok ps ->
  exists s, exec c L fs (l ++ [OSet g false (Some p) q]) = Ok s /\ a_ps s = ps /\ (forall m, m < ac_nsub c -> advects s m (VelGrid (stokes_velocity L u m))) /\
    (ac_save c = true -> stored L (a_files s) name u) /\ forall n, ac_save c = false \/ n <> name -> a_files s n = a_files t n.
Proof.
  intros FO F Et name Ld Es Sv Ep. pose proof (exec_sound c L FO fs l t F Et) as St.
  destruct (get_flow_computed c L FO g p t u conv St) as (t' & Eg & _ & A & Eps & _ & _ & _ & S1 & S2); auto.
  { unfold file_exists. destruct Ld as [->| Ef]; [reflexivity|]. change (flow_name c) with name. rewrite Ef. apply andb_false_r. }
  eexists. split; [apply exec_snoc; exists t; split; [exact Et|]; cbn [step]; unfold adv_set; rewrite Eg; cbn [obind]; rewrite Eps, Ep; cbn [obind]; reflexivity|].
  cbn [a_ps a_files]. split; [reflexivity|]. split; [|split; auto]. exact A.
Qed.
Print Assumptions C113_computed.
Example C113_computed_case : exists s, exec (ax_c true true) (ax_L true) ax_none [OSet (ax_g 1) false (Some ax_p) ax_p] = Ok s /\ stored (ax_L true) (a_files s) "flow.h5" (ax_u (ax_g 1)).
Proof. eexists. split; [vm_compute; reflexivity|]. eexists. split; [vm_compute; reflexivity|]. split; [|reflexivity]. vm_compute. reflexivity. Qed.

(** A stored flow that is to be loaded is the one used, nothing is written. *)
Theorem C113_stored c L fs l t g p q u ps : flows_ok c L -> files_ok fs -> exec c L fs l = Ok t ->
  let name := match ac_file c with Some f => f | None => ""%string end in
  ac_load c = true -> stored L (a_files t) name u -> poisson_set (ac_gattr c) q (a_ps t) = Ok ps ->
  exists s, exec c L fs (l ++ [OSet g false (Some p) q]) = Ok s /\ a_ps s = ps /\ (forall m, m < ac_nsub c -> advects s m (VelGrid (stokes_velocity L u m))) /\
    forall n, a_files s n = a_files t n.
Proof.
  intros FO F Et name Ld Sf Ep. pose proof (exec_sound c L FO fs l t F Et) as St.
  destruct (get_flow_loaded c L FO g p t u St Ld Sf) as (t' & Eg & _ & A & Eps & _ & S2).
  eexists. split; [apply exec_snoc; exists t; split; [exact Et|]; cbn [step]; unfold adv_set; rewrite Eg; cbn [obind]; rewrite Eps, Ep; cbn [obind]; reflexivity|].
  cbn [a_ps a_files]. split; [reflexivity|]. split; [exact A|]. intros n. rewrite S2. reflexivity.
Qed.
Print Assumptions C113_stored.

(** A flow saved by one run is the one used by another run that loads it, whatever the other does before. *)
Theorem C113_roundtrip c1 c2 L fs l1 t g1 p1 q1 s1 u conv l2 t2 g2 p2 q2 ps2 : flows_ok c1 L -> flows_ok c2 L -> files_ok fs -> exec c1 L fs l1 = Ok t ->
  let name := match ac_file c1 with Some f => f | None => ""%string end in
  (ac_load c1 = false \/ a_files t name = None) -> ac_save c1 = true -> name <> ""%string -> fl_solve L p1 g1 = Ok (u, conv) -> exec c1 L fs (l1 ++ [OSet g1 false (Some p1) q1]) = Ok s1 ->
  ac_load c2 = true -> ac_file c2 = ac_file c1 -> exec c2 L (a_files s1) l2 = Ok t2 -> poisson_set (ac_gattr c2) q2 (a_ps t2) = Ok ps2 ->
  exists s2, exec c2 L (a_files s1) (l2 ++ [OSet g2 false (Some p2) q2]) = Ok s2 /\ forall m, m < ac_nsub c2 -> advects s2 m (VelGrid (stokes_velocity L u m)).
Proof.
  intros FO1 FO2 F Et name Ld Sv Nn Es E1 Ld2 Ef E2 Ep2. pose proof (exec_sound c1 L FO1 fs _ s1 F E1) as S1. pose proof S1 as (_ & _ & _ & _ & F1).
  pose proof (exec_sound c1 L FO1 fs l1 t F Et) as St. apply exec_snoc in E1 as (t' & Et' & E1). assert (t' = t) as -> by congruence. clear Et'. cbn [step] in E1. unfold adv_set in E1.
  apply obind_ok in E1 as (s & Eg & E1). apply obind_ok in E1 as (ps & _ & E1). injection E1 as <-. cbn [a_files] in *.
  assert (Can : ac_can c1 name = true).
  { unfold get_flow in Eg. fold name in Eg. replace (ac_load c1 && file_exists (a_files t) name) with false in Eg by (unfold file_exists; destruct Ld as [->| ->]; [reflexivity|rewrite andb_false_r; reflexivity]).
    rewrite Es in Eg. cbn [obind negb andb] in Eg. rewrite Sv in Eg. cbn [andb] in Eg. apply obind_ok in Eg as (fs' & Eg & _). unfold save_solution in Eg. cbn [sc_save negb sc_can] in Eg.
    apply oassert_ok in Eg as (C & _). unfold sol_name in C. destruct (String.eqb_spec name ""); [congruence|exact C]. }
  destruct (get_flow_computed c1 L FO1 g1 p1 t u conv St) as (s' & Eg' & _ & _ & _ & _ & _ & _ & Sto & _); auto.
  { unfold file_exists. destruct Ld as [->| Ef']; [reflexivity|]. change (flow_name c1) with name. rewrite Ef'. apply andb_false_r. }
  assert (s' = s) as -> by congruence. specialize (Sto Sv). destruct Sto as (f & Eff & Esf & Lu). change (flow_name c1) with name in Eff.
  assert (En : flow_name c2 = name) by (unfold flow_name; rewrite Ef; reflexivity).
  destruct (C113_stored c2 L (a_files s) l2 t2 g2 p2 q2 u ps2 FO2 F1 E2 Ld2) as (s2 & Es2 & _ & A & _); auto; [|eauto].
  change (match ac_file c2 with Some f => f | None => ""%string end) with (flow_name c2). exists f. split; [|split; auto].
  apply (exec_files c2 L (a_files s) l2 t2 E2 Ld2). rewrite En. exact Eff.
Qed.
Print Assumptions C113_roundtrip.
Example C113_roundtrip_case : exists s1 s2, exec (ax_c true false) (ax_L true) ax_none [OSet (ax_g 1) false (Some ax_p) ax_p] = Ok s1 /\
  exec (ax_c false true) (ax_L true) (a_files s1) [OSet (ax_g 7) false (Some ax_p) ax_p] = Ok s2 /\ advects s2 1 (VelGrid [2]%R).
Proof.
  do 2 eexists. split; [vm_compute; reflexivity|]. split; [vm_compute; reflexivity|]. exists 1. split; [reflexivity|]. right. do 4 eexists. split; [reflexivity|]. split; [reflexivity|].
  split; [vm_compute; reflexivity|]. reflexivity.
Qed.

(** With both options, the flow of the first problem is used for every later one: not the flow of the current variables. *)
Theorem C113_parameters_refuted : exists c L fs g1 g2 p s u, flows_ok c L /\ files_ok fs /\ ac_save c = true /\ ac_load c = true /\
  exec c L fs [OSet g1 false (Some p) p; OSet g2 false (Some p) p] = Ok s /\ fl_solve L p g2 = Ok (u, true) /\ ~ advects s 0 (VelGrid (stokes_velocity L u 0)).
Proof.
  exists (ax_c true true), (ax_L true), ax_none, (ax_g 1), (ax_g 5), ax_p. eexists. exists (ax_u (ax_g 5)). split; [apply ax_flows|]. split; [exact ax_files|].
  split; [reflexivity|]. split; [reflexivity|]. split; [vm_compute; reflexivity|]. split; [reflexivity|].
  intros (i & Ei & H). cbn in Ei. injection Ei as <-. destruct H as [(f & _ & H)|(n & k & u & x & Ec & Es & Eb & H)]; [discriminate|].
  cbn in Ec. injection Ec as <- <-. cbn in Es. injection Es as <-. vm_compute in Eb. injection Eb as <-. vm_compute in H. injection H as H. lra.
Qed.
Print Assumptions C113_parameters_refuted.

(** A flow whose iterations did not converge is saved and used all the same. *)
Theorem C113_converged_refuted : exists c L fs g p s u, flows_ok c L /\ files_ok fs /\ fl_solve L p g = Ok (u, false) /\
  exec c L fs [OSet g false (Some p) p; OBuild] = Ok s /\ stored L (a_files s) "flow.h5" u /\ advects s 0 (VelGrid (stokes_velocity L u 0)).
Proof.
  exists (ax_c true true), (ax_L false), ax_none, (ax_g 1), ax_p. eexists. exists (ax_u (ax_g 1)). split; [apply ax_flows|]. split; [exact ax_files|]. split; [reflexivity|].
  split; [vm_compute; reflexivity|]. split; [eexists; split; [vm_compute; reflexivity|]; split; [vm_compute; reflexivity|reflexivity]|].
  exists 0. split; [reflexivity|]. right. do 4 eexists. split; [reflexivity|]. split; [reflexivity|]. split; vm_compute; reflexivity.
Qed.
Print Assumptions C113_converged_refuted.

(** ** C114: lifetimes *)

(** Whatever is called in whatever order: the velocity of every subdomain that has one is alive, no call is undefined, and
    deleting the solver deletes nothing twice. *)
Theorem C114_alive c L fs l s : flows_ok c L -> files_ok fs -> exec c L fs l = Ok s ->
  (forall m i, nth_error (a_flow s) m = Some (Some i) -> exists b, advects s m b) /\
  (forall f m, set_flow c f m s <> UB) /\ (forall g fp, get_flow c L g fp s <> UB) /\ adv_build c s <> UB /\
  exists cells sols, adv_destroy s = Ok (cells, sols) /\ (forall m i, nth_error (a_flow s) m = Some (Some i) -> ~ live cells i) /\ forall n, a_cur s = Some n -> ~ live sols n.
Proof.
  intros FO F E. pose proof (exec_sound c L FO fs l s F E) as Sd. split; [|split; [|split; [|split]]].
  - intros m i Ei. destruct (sound_advects c L FO s m i Sd Ei) as (b & A & _). eauto.
  - intros f m. destruct (Z.eqb_spec m (-1)) as [->|Hm]; [destruct (set_flow_ok c L f (-1) s Sd) as (s' & -> & _); [auto|discriminate]|].
    destruct (Z_lt_dec m 0); [|destruct (Z_lt_dec m (Z.of_nat (ac_nsub c)))].
    + unfold set_flow. pose proof Sd as (Ln & _). rewrite Ln, Nat.eqb_refl. cbn [oassert]. replace ((m =? -1) || (0 <=? m) && (m <? Z.of_nat (ac_nsub c)))%Z with false by lia. discriminate.
    + destruct (set_flow_ok c L f m s Sd) as (s' & -> & _); [lia|discriminate].
    + unfold set_flow. pose proof Sd as (Ln & _). rewrite Ln, Nat.eqb_refl. cbn [oassert]. replace ((m =? -1) || (0 <=? m) && (m <? Z.of_nat (ac_nsub c)))%Z with false by lia. discriminate.
  - intros g fp. apply (get_flow_sound c L FO g fp s Sd).
  - unfold adv_build. pose proof Sd as (Ln & _). intros H.
    assert (Hl : forall m, In m (seq 0 (ac_nsub c)) -> m < List.length (a_flow s)) by (intros m Hm; apply in_seq in Hm; lia).
    revert H Hl. generalize (seq 0 (ac_nsub c)) as ms. clear. intros ms H Hl.
    enough (omap (fun m => let* p := oread (a_flow s) m in match p with Some i => Ok i | None => Abort end) ms <> UB) as N by (destruct (omap _ ms) eqn:Em; [discriminate|discriminate|congruence]).
    clear H. induction ms as [|m ms IH]; [discriminate|]. cbn [omap]. unfold oread at 1. destruct (nth_error (a_flow s) m) as [[i|]|] eqn:Ei.
    + cbn [obind]. destruct (omap _ ms); [discriminate|discriminate|]. destruct IH; auto. intros k Hk. apply Hl. right. exact Hk.
    + discriminate.
    + apply nth_error_None in Ei. specialize (Hl m (or_introl eq_refl)). lia.
  - apply (destroy_ok c L s Sd).
Qed.
Print Assumptions C114_alive.

(** The domain operators of one problem are not usable after the flow of the next one was obtained. *)
Theorem C114_stale_refuted : exists c L fs g p s, flows_ok c L /\ files_ok fs /\ exec c L fs [OSet g false (Some p) p; OBuild; OSet g false (Some p) p] = Ok s /\
  (forall m, m < ac_nsub c -> exists b, advects s m b) /\ forall nu geo cfes sigma kappa, adv_full c nu geo cfes sigma kappa s = UB.
Proof.
  exists (ax_c false false), (ax_L true), ax_none, (ax_g 1), ax_p. eexists. split; [apply ax_flows|]. split; [exact ax_files|]. split; [vm_compute; reflexivity|]. split.
  - intros [|[|m]] Hm; [| |cbn in Hm; lia].
    + eexists. exists 2. split; [reflexivity|]. right. do 4 eexists. split; [reflexivity|]. split; [reflexivity|]. split; [vm_compute; reflexivity|reflexivity].
    + eexists. exists 3. split; [reflexivity|]. right. do 4 eexists. split; [reflexivity|]. split; [reflexivity|]. split; [vm_compute; reflexivity|reflexivity].
  - intros. reflexivity.
Qed.
Print Assumptions C114_stale_refuted.

(** The Stokes solver of an earlier problem, and a function that was replaced, are never deleted. *)
Theorem C114_leak_refuted : exists c L fs g p s cells sols, flows_ok c L /\ files_ok fs /\ exec c L fs [OFlow (fun x => x) 0; OFlow (fun x => x) 0; OSet g false (Some p) p; OSet g false (Some p) p] = Ok s /\
  adv_destroy s = Ok (cells, sols) /\ live cells 0 /\ live sols 0.
Proof.
  exists (ax_c false false), (ax_L true), ax_none, (ax_g 1), ax_p. do 3 eexists. split; [apply ax_flows|]. split; [exact ax_files|]. split; [vm_compute; reflexivity|].
  split; [vm_compute; reflexivity|]. split; eexists; vm_compute; reflexivity.
Qed.
Print Assumptions C114_leak_refuted.

(** ** C115: the linear solves of the Poisson, elasticity and advection-diffusion solvers *)

(** What an earlier solution was does not matter. *)
Theorem C115_fresh direct amg mumps mono mult run generator u u' : List.length u = List.length u' ->
  linear_solve direct amg mumps mono mult run generator u = linear_solve direct amg mumps mono mult run generator u'.
Proof. intros E. unfold linear_solve. rewrite E. reflexivity. Qed.
Print Assumptions C115_fresh.

(** If the direct solver solves, and the iterations that say so do: a solve that is reported to have converged has, every
    snapshot is a solution, and there is none of a solve that did not converge. *)
Theorem C115_solved direct amg mumps mono mult run generator u (solves : vec -> Prop) : (direct = true -> solves mult) -> (forall x y, run x = (y, true) -> solves y) ->
  match linear_solve direct amg mumps mono mult run generator u with
  | Ok (x, conv, snaps) => (conv = true -> solves x) /\ (forall y, In y snaps -> y = x /\ solves y) /\ (conv = false -> snaps = []) /\ (conv = true -> generator = true -> snaps = [x]) /\ (generator = false -> snaps = [])
                           /\ (direct = false -> run (repeat 0%R (List.length u)) = (x, conv))
  | Abort => (direct = true /\ mumps = false) \/ (direct = false /\ amg = true /\ mono = false)
  | UB => False
  end.
Proof.
  intros Hd Hr. unfold linear_solve. destruct direct.
  - destruct mumps; cbn [oassert obind]; [|left; auto]. destruct generator; cbn; repeat split; auto; try discriminate; try contradiction; intros; intuition (subst; auto).
  - destruct amg, mono; cbn [oassert obind]; try (right; auto; fail); destruct (run (repeat 0%R (List.length u))) as (x, conv) eqn:Er; cbn [obind];
      destruct conv, generator; cbn [andb]; repeat split; auto; try discriminate; try (intros; contradiction); try (intros; eapply Hr; eauto; fail);
      intros; repeat match goal with H : In _ _ |- _ => cbn in H; destruct H as [<-|[]] end; auto; eapply Hr; eauto.
Qed.
Print Assumptions C115_solved.
Example C115_solved_case : linear_solve false true false true [] (fun x => (map (fun _ => 3%R) x, true)) true [1; 2]%R = Ok ([3; 3]%R, true, [[3; 3]%R]).
Proof. reflexivity. Qed.
Example C115_unsolved_case : linear_solve false false false true [] (fun x => (x, false)) true [1; 2]%R = Ok ([0; 0]%R, false, []).
Proof. reflexivity. Qed.

(** ** C116: the flow drawn *)

(** As long as functions are not given after a flow was obtained, the flow drawn is the flow used, in one view or one per
    subdomain, and all collections are saved. *)
Theorem C116_flow c L fs l s v colls global : flows_ok c L -> files_ok fs -> exec c L fs l = Ok s -> unmixed l -> vi_save v = true -> 0 < ac_nsub c ->
  vis_init (ac_nsub c) v = Ok colls -> (if vi_unified v then global = true else vi_offset v = 0%Z /\ vi_interval v = 1%Z) ->
  (forall m, m < ac_nsub c -> exists b, advects s m b) ->
  exists fields, adv_visual c v colls global s = Ok (fields, seq 0 (List.length colls)) /\
    forall m b, m < ac_nsub c -> shows (vi_unified v) fields m b <-> advects s m b.
Proof. intros FO F E U. intros. eapply visual_ok; eauto; [eapply exec_sound; eauto|eapply unmixed_agree; eauto]. Qed.
Print Assumptions C116_flow.
Example C116_flow_case : exists s fields, exec (ax_c false false) (ax_L true) ax_none [OFlow (fun x => x) (-1); OSet (ax_g 1) false (Some ax_p) ax_p; OBuild] = Ok s /\
  unmixed [OFlow (fun x => x) (-1); OSet (ax_g 1) false (Some ax_p) ax_p; OBuild] /\ adv_visual (ax_c false false) (Visual true false 0 1) [true; true] false s = Ok (fields, [0; 1]).
Proof.
  do 2 eexists. split; [vm_compute; reflexivity|]. split; [|vm_compute; reflexivity]. right. exists [OFlow (fun x => x) (-1)], (ax_g 1), (Some ax_p), ax_p, [OBuild]. split; [reflexivity|].
  intros f m [H|[]]. discriminate.
Qed.

(** Drawing some of the subdomains only, which works for the other solvers, fails. *)
Theorem C116_skipped_refuted : exists c L fs l s v colls saved, flows_ok c L /\ files_ok fs /\ exec c L fs l = Ok s /\ unmixed l /\ (forall m, m < ac_nsub c -> exists b, advects s m b) /\
  vi_save v = true /\ vis_init (ac_nsub c) v = Ok colls /\ vis_save (ac_nsub c) v colls = Ok saved /\ saved <> [] /\ adv_visual c v colls true s = Abort.
Proof.
  exists (ax_c false false), (ax_L true), ax_none, [OFlow (fun x => x) (-1)]. eexists. exists (Visual true false 0 2). do 2 eexists. split; [apply ax_flows|]. split; [exact ax_files|].
  split; [vm_compute; reflexivity|]. split; [left; intros g fp p [H|[]]; discriminate|]. split.
  - intros [|[|m]] Hm; [| |cbn in Hm; lia]; eexists; eexists; (split; [reflexivity|]); left; eexists; split; reflexivity.
  - split; [reflexivity|]. split; [vm_compute; reflexivity|]. split; [vm_compute; reflexivity|]. split; [discriminate|]. reflexivity.
Qed.
Print Assumptions C116_skipped_refuted.

(** A function given after a flow was obtained is used, but the flow obtained is drawn. *)
Theorem C116_override_refuted : exists c L fs l s v colls fields saved f x, flows_ok c L /\ files_ok fs /\ exec c L fs l = Ok s /\ vis_init (ac_nsub c) v = Ok colls /\
  adv_visual c v colls true s = Ok (fields, saved) /\ advects s 0 (VelFun f) /\ shows (vi_unified v) fields 0 (VelGrid x).
Proof.
  exists (ax_c false false), (ax_L true), ax_none, [OSet (ax_g 1) false (Some ax_p) ax_p; OFlow (fun x => x) 0]. eexists. exists (Visual true true 0 1). do 3 eexists. exists (fun x => x). eexists.
  split; [apply ax_flows|]. split; [exact ax_files|]. split; [vm_compute; reflexivity|]. split; [vm_compute; reflexivity|]. split; [vm_compute; reflexivity|].
  split; [eexists; split; [reflexivity|]; left; eexists; split; reflexivity|]. eexists. split; reflexivity.
Qed.
Print Assumptions C116_override_refuted.
