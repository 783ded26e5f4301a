(** Boundary conditions: C61, C62, C66, C94, C95. *)
From Coq Require Import Reals List Bool Lia Arith ZArith Ascii String Lra.
From Verif Require Import Outcome LaBase MbModel MbSpec ProbModel ProbSpec ProbProofs ProbFormulaProofs ProbExamples BcModel BcSpec BcProofs BcFlowProofs BcFluxProofs BcExamples.
Import ListNotations.
Local Open Scope string_scope.
Local Open Scope list_scope.
Local Open Scope R_scope.

(** ** C95: each boundary gets the condition the problem assigns to it *)

(** Case: exb_poisson_all *)
Theorem C95_poisson : forall gattr p s, NoDup gattr -> (0 < List.length gattr)%nat -> (forall a, In a gattr -> (0 < a)%Z) -> complete p (pb_sbdr p) -> fresh_for p (po_types s) -> sized gattr (po_types s) (po_bdr s) ->
  exists s', poisson_set gattr p s = Ok s' /\ po_rhs s' = [match pb_srhs p with Some f => CScalar f | None => CZero end] /\
    forall ms, let f := fun b => prescribed CScalar (pb_sbdr p) p (nth b gattr 0%Z) in
      weak_rhs ms gattr (po_types s') (po_bdr s') = Ok (terms ms gattr f) /\
      weak_domain ms gattr (po_types s') (po_bdr s') = Ok (terms ms gattr (fun b => option_map (fun _ => tt) (f b))).
Proof.
  intros gattr p s Ng Lg Pg C Fr Sz. destruct (poisson_set_ok gattr p s Ng Lg Pg C Fr Sz) as (s' & E & Sz' & V & R). exists s'. split; [exact E|]. split; [exact R|]. intros ms f. destruct (weak_ok ms gattr _ _ Sz') as (W1 & W2). rewrite W1, W2.
  split; f_equal; apply terms_ext; intros b Hb; rewrite (V b _ (nth_gattr gattr b Hb)); reflexivity.
Qed.
Print Assumptions C95_poisson.

(** A problem that leaves out the function of a Dirichlet boundary is refused by every solver. *)
Lemma cases_given {S} (case : problem -> nat -> outcome (option coeff)) (p : problem) (fs : list (option coeff)) add (s s' : S) :
  (forall b c, nth_error (pb_types p) b = Some BDirichlet -> case p b = Ok c -> exists f, nth_error fs b = Some (Some f)) ->
  ofor (List.length (pb_battr p)) (fun s b => let* c := case p b in let* a := oread (pb_battr p) b in match c with None => Ok s | Some c => add s c a end) s = Ok s' ->
  forall b, (b < List.length (pb_battr p))%nat -> nth_error (pb_types p) b = Some BDirichlet -> exists f, nth_error fs b = Some (Some f).
Proof.
  intros H E. refine (ofor_inv_ok _ _ (fun n _ => forall b, (b < n)%nat -> nth_error (pb_types p) b = Some BDirichlet -> exists f, nth_error fs b = Some (Some f)) s s' _ _ E); [intros b Hb; lia|].
  intros i a a' Hi HI Ei b Hb Tb. destruct (Nat.eq_dec b i) as [->|]; [|apply HI; auto; lia]. apply obind_ok in Ei as (c & Ec & _). eapply H; eauto.
Qed.

(** Case: the predefined problems with a Dirichlet boundary, exb_poisson_all, exb_channel, exb_elastic *)
Theorem C95_given : forall gattr p b, (b < List.length (pb_battr p))%nat -> nth_error (pb_types p) b = Some BDirichlet ->
  (forall s s', poisson_set gattr p s = Ok s' -> exists f, nth_error (pb_sbdr p) b = Some (Some f)) /\
  (forall s s', linelast_set gattr p s = Ok s' -> exists f, nth_error (pb_vbdr p) b = Some (Some f)) /\
  (forall full_dg dim meshes junk g s s', stokes_set full_dg dim gattr meshes junk g p s = Ok s' -> exists f, nth_error (pb_vbdr p) b = Some (Some f)).
Proof.
  assert (Q : forall A B (k : A -> B) (l : list (option A)) b, (exists f, nth_error (map (option_map k) l) b = Some (Some f)) -> exists f, nth_error l b = Some (Some f)).
  { intros A B k l b (f & Hf). rewrite nth_error_map in Hf. destruct (nth_error l b) as [[x|]|]; try discriminate. eauto. }
  intros gattr p b Hb Tb. split; [|split].
  - intros s s' H. unfold poisson_set in H. apply obind_ok in H as (ty & _ & H). apply obind_ok in H as (bd & H & _).
    apply (Q _ _ CScalar). revert H b Hb Tb. apply cases_given. intros i c Ti Hc. unfold poisson_case, oread in Hc. rewrite Ti in Hc. cbn [obind] in Hc. rewrite nth_error_map.
    destruct (nth_error (pb_sbdr p) i) as [[f|]|]; cbn in Hc; try discriminate. cbn. eauto.
  - intros s s' H. unfold linelast_set in H. apply obind_ok in H as (ty & _ & H). apply obind_ok in H as (la & _ & H). apply obind_ok in H as (mu & _ & H). apply obind_ok in H as (bd & H & _).
    apply (Q _ _ CVector). revert H b Hb Tb. apply cases_given. intros i c Ti Hc. unfold linelast_case, oread in Hc. rewrite Ti in Hc. cbn [obind] in Hc. rewrite nth_error_map.
    destruct (nth_error (pb_vbdr p) i) as [[f|]|]; cbn in Hc; try discriminate. cbn. eauto.
  - intros full_dg dim meshes junk g s s' H. unfold stokes_set in H. apply obind_ok in H as (ty & _ & H). apply obind_ok in H as ([ud pr] & H & _).
    apply (Q _ _ CVector). revert H b Hb Tb. apply cases_given. intros i c Ti Hc. unfold stokes_case, oread in Hc. rewrite Ti in Hc. cbn [obind] in Hc. rewrite nth_error_map.
    destruct (nth_error (pb_vbdr p) i) as [[f|]|]; cbn in Hc; try discriminate. cbn. eauto.
Qed.
Print Assumptions C95_given.

(** Case: exb_channel with exb_listed *)
Theorem C95_stokes : forall full_dg dim gattr meshes junk g p s s', NoDup gattr -> (0 < List.length gattr)%nat -> (forall a, In a gattr -> (0 < a)%Z) -> complete p (pb_vbdr p) -> fresh_for p (so_types s) -> sized gattr (so_types s) (so_ud s) ->
  stokes_set full_dg dim gattr meshes junk g p s = Ok s' ->
  so_rhs s' = [match pb_vrhs p with Some f => CVector f | None => CZero end] /\ so_nu s' = g "flow_problem::nu" /\
  forall ms, let f := fun b => prescribed CVector (pb_vbdr p) p (nth b gattr 0%Z) in
    weak_rhs ms gattr (so_types s') (so_ud s') = Ok (terms ms gattr f) /\
    weak_domain ms gattr (so_types s') (so_ud s') = Ok (terms ms gattr (fun b => option_map (fun _ => tt) (f b))).
Proof.
  intros full_dg dim gattr meshes junk g p s s' Ng Lg Pg C Fr Sz H. destruct (stokes_conditions _ _ _ _ _ _ _ _ _ Ng Lg Pg C Fr Sz H) as (Sz' & V & R & N). split; [exact R|]. split; [exact N|]. intros ms f. destruct (weak_ok ms gattr _ _ Sz') as (W1 & W2). rewrite W1, W2.
  split; f_equal; apply terms_ext; intros b Hb; destruct (V b _ (nth_gattr gattr b Hb)) as (V1 & _); rewrite V1; reflexivity.
Qed.
Print Assumptions C95_stokes.

(** Case: exb_elastic *)
Theorem C95_linelast : forall gattr p la mu ic, NoDup gattr -> (0 < List.length gattr)%nat -> listed p -> complete p (pb_vbdr p) ->
  nth_error (pb_gs p) 0 = Some la -> nth_error (pb_gs p) 1 = Some mu -> nth_error (pb_gv p) 0 = Some ic ->
  exists s', linelast_set gattr p (linelast_new gattr) = Ok s' /\ le_mat s' = Some (la, mu) /\ le_rhs s' = match pb_vrhs p with Some f => [CVector f] | None => [] end /\
    forall ms, let f := fun b => elastic_prescribed p (nth b gattr 0%Z) in
      linelast_rhs ms gattr s' = Ok (terms ms gattr f) /\ linelast_domain true ms gattr s' = Ok (terms ms gattr (fun b => displaced (f b))).
Proof.
  intros gattr p la mu ic Ng Lg Lp C E0 E1 Ei. destruct (linelast_set_ok gattr p Ng Lg Lp C (linelast_new gattr) la mu ic (linelast_new_sized gattr) E0 E1 Ei) as (s' & E & Sz & M & R & V). exists s'. split; [exact E|]. split; [exact M|]. split; [exact R|].
  intros ms f. destruct (linelast_terms ms gattr s' Sz) as (W1 & W2). rewrite W1, W2. split; f_equal; apply terms_ext; intros b Hb; destruct (V b _ (nth_gattr gattr b Hb)) as (V1 & V2); rewrite (linelast_new_terms gattr p s' b _ Lp (nth_gattr gattr b Hb) V1 V2); reflexivity.
Qed.
Print Assumptions C95_linelast.

(** With the default discretization the displacement enters the right-hand side but not the matrix. *)
Theorem C95_linelast_refuted : exists gattr ms g p s', configured "linelast_disp" exq_g [] p g /\ linelast_set gattr p (linelast_new gattr) = Ok s' /\
  linelast_rhs ms gattr s' = Ok [(0%nat, 0%nat, LDirichlet (CVector VDisp)); (0%nat, 1%nat, LDirichlet (CVector VDisp))] /\ linelast_domain false ms gattr s' = Ok [].
Proof.
  destruct (exb_plain "linelast_disp" ltac:(cbn; tauto) eq_refl) as (g & C). exists [1; 2; 3]%Z, [[1; 2; 3]%Z], g, (proto "linelast_disp"). eexists. split; [exact C|]. split; [vm_compute; reflexivity|]. split; reflexivity.
Qed.
Print Assumptions C95_linelast_refuted.

(** A boundary of type zero, which the other solvers hold at zero, is left free. *)
Theorem C95_linelast_zero_refuted : exists gattr ms g p s', configured "linelast_disp" exq_g [] p g /\ type_of p 3 = Some BZero /\ In 3%Z gattr /\ linelast_set gattr p (linelast_new gattr) = Ok s' /\
  exists l, linelast_rhs ms gattr s' = Ok l /\ forall m b t, In (m, b, t) l -> nth_error gattr b <> Some 3%Z.
Proof.
  destruct (exb_plain "linelast_disp" ltac:(cbn; tauto) eq_refl) as (g & C). exists [1; 2; 3]%Z, [[1; 2; 3]%Z], g, (proto "linelast_disp"). eexists. split; [exact C|]. split; [reflexivity|]. split; [cbn; tauto|]. split; [vm_compute; reflexivity|].
  eexists. split; [reflexivity|]. intros m b t Hin. cbn in Hin. destruct Hin as [H|[H|[]]]; injection H as <- <- <-; discriminate.
Qed.
Print Assumptions C95_linelast_zero_refuted.

(** ** C66: a problem set later replaces the earlier ones *)

Theorem C66_poisson_partial : forall gattr l p s s1, ofold (fun s p => poisson_set gattr p s) l (poisson_new gattr) = Ok s -> poisson_set gattr p (poisson_new gattr) = Ok s1 ->
  List.length (pb_types p) = List.length (pb_battr p) -> (forall a, In a (pb_battr p) -> (0 < a)%Z) ->
  exists s2, poisson_set gattr p s = Ok s2 /\ po_rhs s2 = po_rhs s1 /\ po_bdr s2 = po_bdr s1 /\ forall b, (b < List.length gattr)%nat -> enforced (po_types s2) (po_bdr s2) b = enforced (po_types s1) (po_bdr s1) b.
Proof. exact poisson_again. Qed.
Print Assumptions C66_poisson_partial.

(** A problem for all boundaries after one with a natural boundary: that boundary stays natural. *)
Theorem C66_poisson_refuted : exists gattr p1 p2 g1 g2 s s1 s2, configured "advdiff_flow_past_array" exq_g exq_flow p1 g1 /\ configured "poisson0" exq_g [] p2 g2 /\
  poisson_set gattr p1 (poisson_new gattr) = Ok s /\ poisson_set gattr p2 s = Ok s2 /\ poisson_set gattr p2 (poisson_new gattr) = Ok s1 /\
  enforced (po_types s1) (po_bdr s1) 4 = Some CZero /\ enforced (po_types s2) (po_bdr s2) 4 = None.
Proof.
  destruct (exq_array "advdiff_flow_past_array" ltac:(cbn; tauto)) as (p1 & g1 & C1 & _). destruct (exb_plain "poisson0" ltac:(cbn; tauto) eq_refl) as (g2 & C2).
  destruct (array_types "advdiff_flow_past_array" _ _ _ _ ltac:(cbn; tauto) C1 ltac:(discriminate)) as (A & T & _). destruct (configured_fields _ _ _ _ _ C1) as (Sb & _). 
  assert (T' : pb_types p1 = [BDirichlet; BNeumann; BNeumann; BDirichlet; BNeumann]).
  { rewrite T. replace (value "advdiff_flow_past_array" exq_flow "u0_x") with 1 by reflexivity. replace (value "advdiff_flow_past_array" exq_flow "u0_y") with 2 by reflexivity. unfold sides. destruct (Rlt_dec 0 1); [|lra]. destruct (Rlt_dec 0 2); [|lra]. reflexivity. }
  assert (Sb' : pb_sbdr p1 = pb_sbdr (proto "advdiff_flow_past_array")) by exact Sb. assert (Sv : exists a b c d e, pb_sbdr p1 = [Some a; b; c; Some d; e]) by (rewrite Sb'; do 5 eexists; reflexivity). destruct Sv as (a & b & c & d & e & Sv).
  exists exb_attr, p1, (proto "poisson0"), g1, g2, (PSolver [BDirichlet; BNeumann; BNeumann; BDirichlet; BNeumann] [Some (CScalar a); None; None; Some (CScalar d); None] [match pb_srhs p1 with Some f => CScalar f | None => CZero end]).
  do 2 eexists. split; [exact C1|]. split; [exact C2|]. split.
  { unfold poisson_set, poisson_case. rewrite A, T', Sv. reflexivity. }
  split; [vm_compute; reflexivity|]. split; [vm_compute; reflexivity|]. split; reflexivity.
Qed.
Print Assumptions C66_poisson_refuted.

Theorem C66_stokes_partial : forall full_dg dim gattr meshes junk l g p d z s s1, (0 < List.length gattr)%nat -> List.length (pb_types p) = List.length (pb_battr p) -> (forall a, In a (pb_battr p) -> (0 < a)%Z) ->
  stokes_sets full_dg dim gattr meshes junk l (stokes_new gattr d z) = Ok s -> stokes_set full_dg dim gattr meshes junk g p (stokes_new gattr d z) = Ok s1 ->
  exists s2, stokes_set full_dg dim gattr meshes junk g p s = Ok s2 /\ so_rhs s2 = so_rhs s1 /\ so_nu s2 = so_nu s1 /\ so_pres s2 = so_pres s1 /\ so_ud s2 = so_ud s1 /\ so_del s2 = so_del s1 /\
    (so_pres s1 = false -> so_x0 s2 = so_x0 s1) /\ forall b, (b < List.length gattr)%nat -> enforced (so_types s2) (so_ud s2) b = enforced (so_types s1) (so_ud s1) b.
Proof. exact stokes_again. Qed.
Print Assumptions C66_stokes_partial.

Lemma array_flow p g : configured "flow_past_array" exq_g exq_flow p g -> pb_battr p = exb_attr /\ pb_types p = [BDirichlet; BNeumann; BNeumann; BDirichlet; BZero] /\ pb_vbdr p = repeat (Some VComponent) 5 /\ pb_vrhs p = None.
Proof.
  intros C. destruct (array_types "flow_past_array" _ _ _ _ ltac:(cbn; tauto) C ltac:(discriminate)) as (A & T & _). destruct (configured_fields _ _ _ _ _ C) as (_ & V & _ & R & _).
  split; [exact A|]. split; [|split; [rewrite V; reflexivity|rewrite R; reflexivity]]. rewrite T. replace (value "flow_past_array" exq_flow "u0_x") with 1 by reflexivity. replace (value "flow_past_array" exq_flow "u0_y") with 2 by reflexivity. unfold sides. destruct (Rlt_dec 0 1); [|lra]. destruct (Rlt_dec 0 2); [|lra]. reflexivity.
Qed.

(** A problem without velocity conditions stops the program unless another one was set before it. *)
Theorem C66_stokes_refuted : exists gattr p1 p2 g1 g2 s s2, configured "flow_past_array" exq_g exq_flow p1 g1 /\ configured "force_driven_corner" exq_g [] p2 g2 /\
  stokes_set false 2 gattr [] None g1 p1 (stokes_new gattr (Some 0) (Some [0; 0])) = Ok s /\ stokes_set false 2 gattr [] None g2 p2 s = Ok s2 /\
  stokes_set false 2 gattr [] None g2 p2 (stokes_new gattr (Some 0) (Some [0; 0])) = Abort.
Proof.
  destruct (exq_array "flow_past_array" ltac:(cbn; tauto)) as (p1 & g1 & C1 & _). destruct (exb_plain "force_driven_corner" ltac:(cbn; tauto) eq_refl) as (g2 & C2). destruct (array_flow p1 g1 C1) as (A & T & V & R).
  exists [3; 4; 6; 7; 8]%Z, p1, (proto "force_driven_corner"), g1, g2. do 2 eexists. split; [exact C1|]. split; [exact C2|]. split.
  { rewrite stokes_fields by exact R. rewrite A, T, V. reflexivity. }
  assert (E1 : pb_battr (proto "force_driven_corner") = exb_attr) by reflexivity. assert (E2 : pb_types (proto "force_driven_corner") = [BZero; BZero; BNeumann; BNeumann; BZero]) by reflexivity. assert (E3 : pb_vrhs (proto "force_driven_corner") = Some VForce) by reflexivity.
  generalize dependent (proto "force_driven_corner"). intros p2 C2 E1 E2 E3. split; unfold stokes_set, stokes_case, nonzero_bdr; rewrite E1, E2, E3; reflexivity.
Qed.
Print Assumptions C66_stokes_refuted.

(** A problem that only holds the velocity at zero leaves a centre that is not a number; the inflow velocities of the next problem are not numbers either. *)
Theorem C66_stokes_nan_refuted : exists gattr p1 p2 g1 g2 s s1 s2, configured "poisson0" exq_g [] p1 g1 /\ configured "flow_past_array" exq_g exq_flow p2 g2 /\
  stokes_set false 2 gattr [] None g1 p1 (stokes_new gattr (Some 0) (Some [0; 0])) = Ok s /\ stokes_set false 2 gattr [] None g2 p2 s = Ok s2 /\ stokes_set false 2 gattr [] None g2 p2 (stokes_new gattr (Some 0) (Some [0; 0])) = Ok s1 /\
  forall x, List.length x = 2%nat -> (exists v, ceval (CVector VComponent) g2 (so_del s1) (so_x0 s1) x = Ok (Some v)) /\ ceval (CVector VComponent) g2 (so_del s2) (so_x0 s2) x = Ok None.
Proof.
  destruct (exb_plain "poisson0" ltac:(cbn; tauto) eq_refl) as (g1 & C1). destruct (exq_array "flow_past_array" ltac:(cbn; tauto)) as (p2 & g2 & C2 & _). destruct (array_flow p2 g2 C2) as (A & T & V & R).
  exists exb_attr, (proto "poisson0"), p2, g1, g2. exists (SSolver (repeat BNone 5) (repeat (Some CZero) 5) [CZero] false (g1 "flow_problem::nu") None None). do 2 eexists. split; [exact C1|]. split; [exact C2|]. split.
  { rewrite stokes_fields by reflexivity. assert (E1 : pb_battr (proto "poisson0") = [-1]%Z) by reflexivity. assert (E2 : pb_types (proto "poisson0") = [BZero]) by reflexivity. rewrite E1, E2.
    unfold stokes_set. cbn [mini with_bdr pb_battr pb_types pb_vbdr pb_vrhs base_problem]. 
    replace (set_problem exb_attr [-1]%Z [BZero] (so_types (stokes_new exb_attr (Some 0) (Some [0; 0])))) with (Ok (repeat BNone 5)) by reflexivity. cbn [obind].
    match goal with |- (let* (ud, pres) := ?e in _) = _ => replace e with (@Ok (list (option coeff) * bool) (repeat (Some CZero) 5, false)) by reflexivity end. cbn [obind].
    match goal with |- (let* nz := ?e in _) = _ => replace e with (Ok (repeat false 5)) by reflexivity end. cbn [obind].
    rewrite flux_nothing by reflexivity. reflexivity. }
  split. { rewrite stokes_fields by exact R. rewrite A, T, V. reflexivity. } split. { rewrite stokes_fields by exact R. rewrite A, T, V. reflexivity. }
  intros x Lx. split; [|reflexivity]. exists (corrected g2 0 [0; 0] x). apply component_corrected; [lia|rewrite Lx; reflexivity].
Qed.
Print Assumptions C66_stokes_nan_refuted.

(** Elasticity: types and materials are replaced, a function that the problem gives is replaced, loads are added. Case: exb_elastic *)
Theorem C66_linelast_partial : forall gattr p s la mu ic, NoDup gattr -> (0 < List.length gattr)%nat -> listed p -> complete p (pb_vbdr p) -> sized gattr (le_types s) (le_bdr s) ->
  nth_error (pb_gs p) 0 = Some la -> nth_error (pb_gs p) 1 = Some mu -> nth_error (pb_gv p) 0 = Some ic ->
  exists s1 s2, linelast_set gattr p (linelast_new gattr) = Ok s1 /\ linelast_set gattr p s = Ok s2 /\ sized gattr (le_types s2) (le_bdr s2) /\ le_mat s2 = le_mat s1 /\ le_rhs s2 = le_rhs s ++ le_rhs s1 /\
    forall b a i f, nth_error gattr b = Some a -> first_at (pb_battr p) a i -> nth_error (pb_vbdr p) i = Some (Some f) ->
      nth_error (le_types s2) b = nth_error (le_types s1) b /\ nth_error (le_bdr s2) b = Some (Some (CVector f)) /\ nth_error (le_bdr s1) b = Some (Some (CVector f)).
Proof.
  intros gattr p s la mu ic Ng Lg Lp C Sz E0 E1 Ei.
  destruct (linelast_set_ok gattr p Ng Lg Lp C (linelast_new gattr) la mu ic (linelast_new_sized gattr) E0 E1 Ei) as (s1 & H1 & (Z1 & Y1) & M1 & R1 & V1).
  destruct (linelast_set_ok gattr p Ng Lg Lp C s la mu ic Sz E0 E1 Ei) as (s2 & H2 & (Z2 & Y2) & M2 & R2 & V2).
  exists s1, s2. split; [exact H1|]. split; [exact H2|]. split; [split; auto|]. split; [congruence|]. split; [rewrite R2, R1; reflexivity|].
  intros b a i f Hb Fi Hf. assert (Hlt : (b < List.length gattr)%nat) by (apply nth_error_Some; congruence). destruct (V1 b a Hb) as (T1 & B1). destruct (V2 b a Hb) as (T2 & B2).
  pose proof (MbMiscProofs.attr_find_some _ _ _ Fi) as Fa. pose proof (nth_error_nth _ _ (@None vfun) Hf) as Fb. rewrite Fa in *. rewrite Fb in *.
  rewrite (nth_error_nth' (le_types s2) BNone) by lia. rewrite (nth_error_nth' (le_types s1) BNone) by lia. rewrite (nth_error_nth' (le_bdr s2) None) by lia. rewrite (nth_error_nth' (le_bdr s1) None) by lia. rewrite T1, T2, B1, B2. auto.
Qed.
Print Assumptions C66_linelast_partial.

(** The same problem set twice has its load twice. *)
Theorem C66_linelast_refuted : exists gattr p g s1 s2, configured "linelast_frame_wind" exq_g [] p g /\ linelast_set gattr p (linelast_new gattr) = Ok s1 /\ linelast_set gattr p s1 = Ok s2 /\
  le_rhs s1 = [CVector VGravity] /\ le_rhs s2 = [CVector VGravity; CVector VGravity].
Proof.
  destruct (exb_plain "linelast_frame_wind" ltac:(cbn; tauto) eq_refl) as (g & C). exists exb_attr, (proto "linelast_frame_wind"), g. do 2 eexists. split; [exact C|]. split; [vm_compute; reflexivity|]. split; [vm_compute; reflexivity|]. split; reflexivity.
Qed.
Print Assumptions C66_linelast_refuted.

(** Tractions of an earlier problem stay on boundaries the later one leaves free. *)
Theorem C66_linelast_traction_refuted : exists gattr ms p1 p2 g1 g2 s s1 s2, configured "linelast_cwtrain" exq_g [] p1 g1 /\ configured "linelast_disp_lattice" exq_g [] p2 g2 /\
  linelast_set gattr p1 (linelast_new gattr) = Ok s /\ linelast_set gattr p2 s = Ok s2 /\ linelast_set gattr p2 (linelast_new gattr) = Ok s1 /\
  exists l1 l2, linelast_rhs ms gattr s1 = Ok l1 /\ linelast_rhs ms gattr s2 = Ok l2 /\ In (0%nat, 0%nat, LTraction (CVector VDown)) l2 /\ forall t, ~ In (0%nat, 0%nat, t) l1.
Proof.
  destruct (exb_plain "linelast_cwtrain" ltac:(cbn; tauto) eq_refl) as (g1 & C1). destruct (exb_plain "linelast_disp_lattice" ltac:(cbn; tauto) eq_refl) as (g2 & C2).
  exists exb_attr, [exb_attr], (proto "linelast_cwtrain"), (proto "linelast_disp_lattice"), g1, g2. do 3 eexists. split; [exact C1|]. split; [exact C2|]. split; [vm_compute; reflexivity|]. split; [vm_compute; reflexivity|]. split; [vm_compute; reflexivity|].
  do 2 eexists. split; [reflexivity|]. split; [reflexivity|]. split; [cbn; tauto|]. intros t Hin. cbn in Hin. intuition discriminate.
Qed.
Print Assumptions C66_linelast_traction_refuted.

(** ** C62: whether the pressure is fixed *)

(** Case: exb_channel *)
Theorem C62_problem : forall full_dg dim gattr meshes junk g p s s', (0 < List.length gattr)%nat -> sized gattr (so_types s) (so_ud s) -> stokes_set full_dg dim gattr meshes junk g p s = Ok s' ->
  so_pres s' = true <-> exists b, (b < List.length gattr)%nat /\ nth_error (so_ud s') b = Some None.
Proof.
  intros full_dg dim gattr meshes junk g p s s' Lg Sz H. rewrite (stokes_set_pressure _ _ _ _ _ _ _ _ _ Lg (proj2 Sz) H). destruct (stokes_set_sized _ _ _ _ _ _ _ _ _ H Sz) as (_ & L). rewrite existsb_exists. split.
  - intros (c & Hc & M). apply In_nth_error in Hc as (b & Hb). exists b. split; [rewrite <- L; apply nth_error_Some; congruence|]. destruct c; [discriminate|exact Hb].
  - intros (b & _ & Hb). exists None. split; [eapply nth_error_In; eauto|reflexivity].
Qed.
Print Assumptions C62_problem.

(** After calls of which one at least concerned a boundary of the mesh *)
Theorem C62_calls : forall gattr calls ud pres, ofold (fun s (ca : coeff * Z) => stokes_add gattr s (fst ca) (snd ca)) calls (repeat None (List.length gattr), false) = Ok (ud, pres) ->
  existsb (fun ca => effective gattr (snd ca)) calls = true -> pres = true <-> exists b, (b < List.length gattr)%nat /\ nth_error ud b = Some None.
Proof.
  intros gattr calls ud pres H E. destruct (stokes_calls gattr calls _ _ _ (repeat_length _ _) H) as (L & P). cbn [fst snd] in *. rewrite E in P. rewrite P, existsb_exists. split.
  - intros (c & Hc & M). apply In_nth_error in Hc as (b & Hb). exists b. split; [rewrite <- L; apply nth_error_Some; congruence|]. destruct c; [discriminate|exact Hb].
  - intros (b & _ & Hb). exists None. split; [eapply nth_error_In; eauto|reflexivity].
Qed.
Print Assumptions C62_calls.
Example C62_calls_case : exists ud, ofold (fun s (ca : coeff * Z) => stokes_add [1; 2; 3]%Z s (fst ca) (snd ca)) [(CZero, 2%Z); (CVector VLid, 7%Z); (CVector VLid, 1%Z)] (repeat None 3, false) = Ok (ud, true) /\ nth_error ud 2 = Some None.
Proof. eexists. split; reflexivity. Qed.

(** A new solver without conditions counts its pressure as undetermined although no velocity is fixed, also after a call for a boundary it does not have. *)
Theorem C62_refuted : exists gattr calls ud, ofold (fun s (ca : coeff * Z) => stokes_add gattr s (fst ca) (snd ca)) calls (repeat None (List.length gattr), false) = Ok (ud, false) /\ nth_error ud 0 = Some None.
Proof. exists [1; 2]%Z, [(CZero, 3%Z)]. eexists. split; reflexivity. Qed.
Print Assumptions C62_refuted.

(** ** C61: boundaries without correction *)

(** Case: exb_component *)
Theorem C61_partial : forall gattr p, NoDup gattr -> List.length (pb_types p) = List.length (pb_battr p) -> one_for_all p \/ (listed p /\ aligned gattr p) ->
  exists nz, nonzero_bdr gattr p = Ok nz /\ List.length nz = List.length gattr /\ forall b a, nth_error gattr b = Some a -> nth_error nz b = Some (negb (homogeneous p a)).
Proof.
  intros gattr p Ng L F. exists (map (fun a => negb (homogeneous p a)) gattr). split; [apply nonzero_form; auto|]. split; [apply map_length|]. intros b a Hb. rewrite nth_error_map, Hb. reflexivity.
Qed.
Print Assumptions C61_partial.

(** A cavity with four sides: an entry behind the list is written. *)
Theorem C61_refuted : exists gattr p g, configured "lid_driven_cavity" exq_g [] p g /\ stokes_set false 2 gattr [] None g p (stokes_new gattr (Some 0) (Some [])) = UB.
Proof.
  destruct (exb_plain "lid_driven_cavity" ltac:(cbn; tauto) eq_refl) as (g & C). exists [1; 2; 3; 4]%Z, (proto "lid_driven_cavity"), g. split; [exact C|]. rewrite stokes_fields by reflexivity.
  assert (E1 : pb_battr (proto "lid_driven_cavity") = exb_attr) by reflexivity. assert (E2 : pb_types (proto "lid_driven_cavity") = [BDirichlet; BZero; BDirichlet; BZero; BZero]) by reflexivity. assert (E3 : pb_vbdr (proto "lid_driven_cavity") = repeat (Some VLid) 5) by reflexivity. rewrite E1, E2, E3. reflexivity.
Qed.
Print Assumptions C61_refuted.

(** Boundaries in another order: the wrong one is left out. *)
Theorem C61_order_refuted : exists gattr p g nz b, configured "component_flow" exq_g [] p g /\ NoDup gattr /\ nonzero_bdr gattr p = Ok nz /\ nth_error gattr b = Some 4%Z /\ homogeneous p 4 = false /\ nth_error nz b = Some false.
Proof.
  destruct (exb_plain "component_flow" ltac:(cbn; tauto) eq_refl) as (g & C). exists [5; 1; 2; 3; 4]%Z, (proto "component_flow"), g, [true; true; true; true; false], 4%nat. split; [exact C|]. split; [apply nodup_z_ok; reflexivity|]. split; [vm_compute; reflexivity|]. split; [reflexivity|]. split; reflexivity.
Qed.
Print Assumptions C61_order_refuted.

(** ** C94: no net flux *)

(** Case: exb_component with exb_square_points, through C94_component *)
Theorem C94_balanced : forall full_dg dim gattr meshes junk g p s s' u, NoDup gattr -> (0 < List.length gattr)%nat -> complete p (pb_vbdr p) -> one_for_all p \/ (listed p /\ aligned gattr p) -> sized gattr (so_types s) (so_ud s) ->
  points_ok dim meshes -> stokes_set full_dg dim gattr meshes junk g p s = Ok s' -> so_pres s' = false -> evaluates dim g (so_ud s') (so_del s') (so_x0 s') u -> Rabs (net_flux gattr (fun _ => true) meshes u) <= / 10 ^ 12.
Proof. intros full_dg dim gattr meshes junk g p s s' u Ng Lg C F Sz P H Hp Ev. exact (flow_balanced full_dg dim gattr meshes junk g p s s' u Ng Lg C F (proj2 Sz) P H Hp Ev). Qed.
Print Assumptions C94_balanced.

(** Case: exb_component, exb_square_points *)
Theorem C94_component : forall dim gattr meshes junk g p s, NoDup gattr -> (0 < List.length gattr)%nat -> complete p (pb_vbdr p) -> listed p -> aligned gattr p -> sized gattr (so_types s) (so_ud s) ->
  (forall a, In a gattr -> exists i, attr_find (pb_battr p) a 0 = Some i /\ (nth_error (pb_types p) i = Some BZero \/ (nth_error (pb_types p) i = Some BDirichlet /\ nth_error (pb_vbdr p) i = Some (Some VComponent)))) ->
  (dim <= 3)%nat -> points_ok dim meshes -> let sel := inhomogeneous gattr p in let z := centre gattr sel meshes dim in
  area_of gattr sel meshes <> 0 -> net_flux gattr sel meshes (fun _ => outward z) <> 0 ->
  exists s' u, stokes_set false dim gattr meshes junk g p s = Ok s' /\ so_pres s' = false /\ so_x0 s' = Some z /\ evaluates dim g (so_ud s') (so_del s') (so_x0 s') u /\ net_flux gattr (fun _ => true) meshes u = 0.
Proof. exact flow_component. Qed.
Print Assumptions C94_component.

(** With an open boundary nothing is corrected. Case: exb_channel *)
Theorem C94_open : forall full_dg dim gattr meshes junk g p s s', sized gattr (so_types s) (so_ud s) -> stokes_set full_dg dim gattr meshes junk g p s = Ok s' -> so_pres s' = true -> so_del s' = Some 0.
Proof. intros full_dg dim gattr meshes junk g p s s' Sz H Hp. destruct (stokes_set_inv _ _ _ _ _ _ _ _ _ (proj2 Sz) H) as (t & ud & _ & _ & _ & _ & _ & _ & _ & _ & Q). rewrite Hp in Q. tauto. Qed.
Print Assumptions C94_open.

(** Flow through a single flat side of a square with walls: the correction divides by zero, the check lets the result pass, no velocity is a number. *)
Theorem C94_flat_refuted : exists meshes p g s', configured "component_flow" exq_g [] p g /\ points_ok 2 meshes /\ stokes_set false 2 exb_attr meshes None g p (stokes_new exb_attr (Some 0) (Some [0; 0])) = Ok s' /\ so_pres s' = false /\
  nth_error (so_ud s') 0 = Some (Some (CVector VComponent)) /\ forall x, ceval (CVector VComponent) g (so_del s') (so_x0 s') x = Ok None.
Proof.
  destruct (exb_plain "component_flow" ltac:(cbn; tauto) eq_refl) as (g & C). set (meshes := [[exb_side 4 0 (/ 2) (-1) 0; exb_side 5 (/ 2) 0 0 (-1); exb_side 5 1 (/ 2) 1 0; exb_side 5 (/ 2) 1 0 1]]).
  assert (P : points_ok 2 meshes). { intros es e q He Hee Hq. destruct He as [<-|[]]. destruct Hee as [<-|[<-|[<-|[<-|[]]]]]; destruct Hq as [<-|[]]; reflexivity. }
  set (nz := [true; true; true; true; false]). set (ud := [Some (CVector VComponent); Some (CVector VComponent); Some (CVector VComponent); Some (CVector VComponent); Some CZero]).
  exists meshes, (proto "component_flow"), g, (SSolver [BDirichlet; BDirichlet; BDirichlet; BDirichlet; BZero] ud [CZero] false (g "flow_problem::nu") None (Some (centre exb_attr (fun i => nth i nz false) meshes 2))).
  split; [exact C|]. split; [exact P|]. split; [|split; [reflexivity|]; split; reflexivity]. rewrite stokes_fields by reflexivity.
  assert (E1 : pb_battr (proto "component_flow") = exb_attr) by reflexivity. assert (E2 : pb_types (proto "component_flow") = [BDirichlet; BDirichlet; BDirichlet; BDirichlet; BZero]) by reflexivity. assert (E3 : pb_vbdr (proto "component_flow") = repeat (Some VComponent) 5) by reflexivity. rewrite E1, E2, E3.
  unfold stokes_set. cbn [mini with_bdr pb_battr pb_types pb_vbdr pb_vrhs base_problem].
  match goal with |- (let* t := ?e in _) = _ => replace e with (Ok [BDirichlet; BDirichlet; BDirichlet; BDirichlet; BZero]) by reflexivity end. cbn [obind].
  match goal with |- (let* (u, pres) := ?e in _) = _ => replace e with (@Ok (list (option coeff) * bool) (ud, false)) by reflexivity end. cbn [obind].
  match goal with |- (let* n := ?e in _) = _ => replace e with (Ok nz) by reflexivity end. cbn [obind].
  assert (A : area_of exb_attr (fun i => nth i nz false) meshes = 1) by (unfold area_of, meshes, exb_side; cbn; ring).
  rewrite (flux_degenerate 2 exb_attr meshes g ud nz); auto.
  - intros i e Hie. cbn in Hie. destruct Hie as [H|[]]. injection H as <- _. reflexivity.
  - rewrite A. lra.
  - assert (M : centre exb_attr (fun i => nth i nz false) meshes 2 = [0; / 2]). { unfold centre. cbn [seq map]. rewrite A. unfold moment_of, meshes, exb_side. cbn [lsum attr_find exb_attr be_attr be_q Z.eqb Pos.eqb qp_x qp_w nth nz]. unfold vnth. cbn [nth]. f_equal; [field|f_equal; field]. }
    rewrite M. unfold net_flux, meshes, exb_side. cbn [lsum attr_find exb_attr be_attr be_q Z.eqb Pos.eqb qp_x qp_w qp_n nth nz]. unfold dot, outward, vnth. cbn [nth List.length seq map rsum]. ring.
Qed.
Print Assumptions C94_flat_refuted.

(** The centre is used before it has a value: with an outlet open, the first problem of a run may get inflow velocities that are not numbers. *)
Theorem C94_unset_refuted : exists p g s', configured "flow_past_array" exq_g exq_flow p g /\ stokes_set false 2 exb_attr exb_square None g p (stokes_new exb_attr (Some 0) (Some [])) = Ok s' /\ so_pres s' = true /\
  nth_error (so_ud s') 0 = Some (Some (CVector VComponent)) /\ forall x, ceval (CVector VComponent) g (so_del s') (so_x0 s') x = Ok None.
Proof.
  destruct (exq_array "flow_past_array" ltac:(cbn; tauto)) as (p & g & C & _). destruct (array_flow p g C) as (A & T & V & R). exists p, g. eexists. split; [exact C|]. split; [rewrite stokes_fields by exact R; rewrite A, T, V; reflexivity|]. split; [reflexivity|]. split; reflexivity.
Qed.
Print Assumptions C94_unset_refuted.

(** Boundaries in another order: a problem with a net flux is accepted. *)
Definition exb_right : gvars := fun k => if String.eqb k (cell "component_flow::u0" 0) then 1 else 0.
Theorem C94_order_refuted : exists gattr g s' u, NoDup gattr /\ points_ok 2 exb_square /\ stokes_set false 2 gattr exb_square None g (proto "component_flow") (stokes_new gattr (Some 0) (Some [0; 0])) = Ok s' /\ so_pres s' = false /\
  evaluates 2 g (so_ud s') (so_del s') (so_x0 s') u /\ net_flux gattr (fun _ => true) exb_square u = - (3 / 2).
Proof.
  set (gattr := [5; 1; 2; 3; 4]%Z). pose proof exb_square_points as P.
  set (nz := [true; true; true; true; false]). set (sel := fun i => nth i nz false). set (ud := [Some CZero; Some (CVector VComponent); Some (CVector VComponent); Some (CVector VComponent); Some (CVector VComponent)]).
  assert (A : area_of gattr sel exb_square = 3) by (unfold area_of, exb_square, exb_side; cbn; ring).
  assert (M : centre gattr sel exb_square 2 = [2 / 3; / 2]). { unfold centre. cbn [seq map]. rewrite A. unfold moment_of, exb_square, exb_side. cbn [lsum attr_find gattr be_attr be_q Z.eqb Pos.eqb qp_x qp_w nth nz sel]. unfold vnth. cbn [nth]. f_equal; [field|f_equal; field]. }
  assert (F : net_flux gattr sel exb_square (fun _ => outward [2 / 3; / 2]) = 4 / 3). { unfold net_flux, exb_square, exb_side. cbn [lsum attr_find gattr be_attr be_q Z.eqb Pos.eqb qp_x qp_w qp_n nth nz sel]. unfold dot, outward, vnth. cbn [nth List.length seq map rsum]. field. }
  assert (G0 : exb_right (cell "component_flow::u0" 0) = 1) by reflexivity. assert (G1 : exb_right (cell "component_flow::u0" 1) = 0) by reflexivity. assert (D0 : exb_right (cell "component_flow::du" 0) = 0) by reflexivity. assert (D1 : exb_right (cell "component_flow::du" 1) = 0) by reflexivity.
  assert (V : forall d a b, corrected exb_right d [2 / 3; / 2] [a; b] = [1 - (a - 2 / 3) * d; - (b - / 2) * d]).
  { intros d a b. unfold corrected, base_velocity. cbn [List.length seq map]. rewrite G0, G1, D0, D1. unfold vnth. cbn [nth]. f_equal; [ring|f_equal; ring]. }
  assert (B : net_flux gattr sel exb_square (fun _ => corrected exb_right 0 [2 / 3; / 2]) = 1). { unfold net_flux, exb_square, exb_side. cbn [lsum attr_find gattr be_attr be_q Z.eqb Pos.eqb qp_x qp_w qp_n nth nz sel]. rewrite !V. unfold dot, vnth. cbn [nth List.length rsum]. ring. }
  destruct (flux_component 2 gattr exb_square exb_right ud nz) as (Ec & _); auto.
  { intros i e Hie. cbn in Hie. repeat (destruct Hie as [H|Hie]; [injection H as <- _; reflexivity|]). destruct Hie. }
  { change (area_of gattr sel exb_square <> 0). rewrite A. lra. }
  { change (net_flux gattr sel exb_square (fun _ => outward (centre gattr sel exb_square 2)) <> 0). rewrite M, F. lra. }
  change (fun i => nth i nz false) with sel in Ec. rewrite M, F, B in Ec. replace (1 / (4 / 3)) with (3 / 4) in Ec by field.
  exists gattr, exb_right, (SSolver [BZero; BDirichlet; BDirichlet; BDirichlet; BDirichlet] ud [CZero] false (exb_right "flow_problem::nu") (Some (3 / 4)) (Some [2 / 3; / 2])), (fun i x => if (i =? 0)%nat then [0; 0] else corrected exb_right (3 / 4) [2 / 3; / 2] x).
  split; [apply nodup_z_ok; reflexivity|]. split; [exact P|]. split; [|split; [reflexivity|]; split].
  - rewrite stokes_fields by reflexivity.
    assert (E1 : pb_battr (proto "component_flow") = exb_attr) by reflexivity. assert (E2 : pb_types (proto "component_flow") = [BDirichlet; BDirichlet; BDirichlet; BDirichlet; BZero]) by reflexivity. assert (E3 : pb_vbdr (proto "component_flow") = repeat (Some VComponent) 5) by reflexivity. rewrite E1, E2, E3.
    unfold stokes_set. cbn [mini with_bdr pb_battr pb_types pb_vbdr pb_vrhs base_problem].
    match goal with |- (let* t := ?e in _) = _ => replace e with (Ok [BZero; BDirichlet; BDirichlet; BDirichlet; BDirichlet]) by reflexivity end. cbn [obind].
    match goal with |- (let* (u, pres) := ?e in _) = _ => replace e with (@Ok (list (option coeff) * bool) (ud, false)) by reflexivity end. cbn [obind].
    match goal with |- (let* n := ?e in _) = _ => replace e with (Ok nz) by reflexivity end. cbn [obind]. rewrite Ec. reflexivity.
  - cbn [so_ud so_del so_x0]. intros i c x Hi Lx. assert (Co : ceval (CVector VComponent) exb_right (Some (3 / 4)) (Some [2 / 3; / 2]) x = Ok (Some (corrected exb_right (3 / 4) [2 / 3; / 2] x))) by (apply component_corrected; [lia|rewrite Lx; reflexivity]).
    destruct i as [|[|[|[|[|i]]]]]; cbn in Hi; try (destruct i; discriminate); injection Hi as <-; try exact Co. cbn [ceval]. rewrite Lx. reflexivity.
  - unfold net_flux, exb_square, exb_side. cbn [lsum attr_find gattr be_attr be_q Z.eqb Pos.eqb qp_x qp_w qp_n Nat.eqb]. rewrite !V. unfold dot, vnth. cbn [nth List.length rsum]. field.
Qed.
Print Assumptions C94_order_refuted.
