(** C103: visualization of basis vectors; C104: check of element types. *)
From Coq Require Import Reals List Bool Lia Arith ZArith String Lra.
From Verif Require Import Outcome ListLemmas LaBase LinalgModel BlockVec TagsModel RomModel RomSpec RomProofs RomBasisProofs RomStateProofs RomExamples
  SupProofs SupExamples BvisModel BvisProofs.
Import ListNotations.
Local Open Scope nat_scope.

(** The first subdomain of component [c]. *)
Definition first_of (h : rom) (c m : nat) : Prop := m < rh_nsub h /\ comp_of h m = c /\ forall i, i < m -> comp_of h i <> c.

Lemma first_of_sub s dim c m : bases_ok s dim -> first_of (rs_h s) c m -> first_sub (rh_types (rs_h s)) c 0 = Some m.
Proof.
  intros (_ & (_ & _ & L & _) & _) (H1 & H2 & H3). apply first_sub_spec. rewrite Nat.sub_0_r. split; [lia|]. unfold comp_of in *. split.
  - rewrite (nth_error_nth' _ 0) by lia. congruence.
  - intros i Hi E. apply (H3 i Hi). apply nth_error_nth. exact E.
Qed.

(** With one basis for all variables: one collection for each component, drawn on its first subdomain, with a field for each variable of each basis
    vector that shows the entries of that variable. *)
Theorem C103_fields : forall s dim vs vars, bases_ok s dim -> rh_sep (rs_h s) = false -> 0 < List.length vars -> List.length vs = List.length vars * rh_nsub (rs_h s) ->
  (forall c, c < rh_ncomp (rs_h s) -> exists m, first_of (rs_h s) c m /\ before (fun v => nth (m * List.length vars + v) vs 0) (List.length vars) = dim c) ->
  exists out, save_basis_visualization true s vs vars = Ok out /\ List.length out = rh_ncomp (rs_h s) /\
  forall c, c < rh_ncomp (rs_h s) -> exists m fields, nth_error out c = Some (m, fields) /\ first_of (rs_h s) c m /\
    List.length fields = nth c (rh_nb (rs_h s)) 0 * List.length vars /\
    forall k v, k < nth c (rh_nb (rs_h s)) 0 -> v < List.length vars ->
      let z := fun v => nth (m * List.length vars + v) vs 0 in
      exists x, nth_error fields (k * List.length vars + v) = Some ((nth v vars ""%string, k), x) /\ List.length x = z v /\
        forall i, i < z v -> vnth x i = mget (nth c (rs_ref s) (DMat 0 0 [])) (before z v + i) k.
Proof.
  intros s dim vs vars B Sp Hv Lv H. set (nv := List.length vars) in *. unfold save_basis_visualization. cbn [negb].
  assert (Ld : rs_loaded s = true) by apply B. rewrite Ld. fold nv. rewrite (proj2 (Nat.eqb_eq _ _) Lv). cbn [oassert].
  assert (Nr : num_ref_blocks (rs_h s) = rh_ncomp (rs_h s)) by (unfold num_ref_blocks; rewrite Sp; auto). rewrite Nr.
  assert (Lb : List.length (rh_nb (rs_h s)) = rh_ncomp (rs_h s)) by (destruct B as (_ & (_ & _ & _ & _ & L) & _); rewrite L, Sp; lia).
  assert (One : forall c, c < rh_ncomp (rs_h s) -> exists r, (match first_sub (rh_types (rs_h s)) c 0 with
    | None => Abort
    | Some midx =>
        let* n := oread (rh_nb (rs_h s)) c in
        let* sizes := view_sizes vs midx nv n in
        let* B := oread (rs_ref s) c in
        let* fields := omap (fun idx =>
          let* name := oread vars (idx mod nv) in
          let* x := view_block (dm_buf B) sizes idx in
          Ok ((name, idx / nv), x)) (seq 0 (n * nv)) in
        Ok (midx, fields) end) = Ok r /\ first_of (rs_h s) c (fst r) /\ List.length (snd r) = nth c (rh_nb (rs_h s)) 0 * nv /\
      forall k v, k < nth c (rh_nb (rs_h s)) 0 -> v < nv -> let z := fun v => nth (fst r * nv + v) vs 0 in
      exists x, nth_error (snd r) (k * nv + v) = Some ((nth v vars ""%string, k), x) /\ List.length x = z v /\
        forall i, i < z v -> vnth x i = mget (nth c (rs_ref s) (DMat 0 0 [])) (before z v + i) k).
  { intros c Hc. destruct (H c Hc) as (m & F & Ez). rewrite (first_of_sub s dim c m B F). rewrite (oread_nth _ c 0) by lia. cbn [obind].
    destruct B as (_ & (_ & _ & Lt & _) & Lr & D & _). destruct (D c ltac:(lia)) as (W & D1 & D2). destruct F as (F1 & F2).
    rewrite sizes_ok by (auto; rewrite Lv; nia). cbn [obind]. rewrite (oread_nth _ c (DMat 0 0 [])) by lia. cbn [obind].
    set (R0 := nth c (rs_ref s) (DMat 0 0 [])) in *. set (n := nth c (rh_nb (rs_h s)) 0) in *. set (z := fun v => nth (m * nv + v) vs 0) in *.
    change (map (fun i => nth (m * nv + i mod nv) vs 0) (seq 0 (n * nv))) with (map (fun i => z (i mod nv)) (seq 0 (n * nv))).
    set (f := fun idx => let* name := oread vars (idx mod nv) in let* x := view_block (dm_buf R0) (map (fun i => z (i mod nv)) (seq 0 (n * nv))) idx in Ok ((name, idx / nv), x)).
    assert (Fk : forall k v, k < n -> v < nv -> exists x, f (k * nv + v) = Ok ((nth v vars ""%string, k), x) /\ List.length x = z v /\
       forall i, i < z v -> vnth x i = mget R0 (before z v + i) k).
    { intros k v Hk Hvv. destruct (block_ok R0 z nv n k v Hv W ltac:(rewrite D1; auto) D2 Hk Hvv) as (x & Ex & X). exists x. split; [|exact X].
      unfold f. replace ((k * nv + v) mod nv) with v by (rewrite Nat.add_comm, Nat.mod_add, Nat.mod_small; lia).
      replace ((k * nv + v) / nv) with k by (rewrite Nat.add_comm, Nat.div_add, Nat.div_small; lia).
      rewrite (oread_nth vars v ""%string) by auto. cbn [obind]. rewrite Ex. reflexivity. }
    destruct (CompProofs.omap_exists f (seq 0 (n * nv))) as (fields & Ef).
    { intros idx Hin. apply in_seq in Hin. destruct (lin_onto idx n nv ltac:(lia)) as (Q1 & Q2 & Q3). destruct (Fk _ _ Q1 Q2) as (x & Ex & _). rewrite Q3. eauto. }
    rewrite Ef. cbn [obind]. exists (m, fields). split; [reflexivity|]. cbn [fst snd]. split; [split; auto|].
    destruct (omap_seq_inv f (n * nv) fields ((""%string, 0), @nil R) Ef) as (Lf & Gf). split; [auto|].
    intros k v Hk Hvv. destruct (Fk k v Hk Hvv) as (x & Ex & X). exists x. split; [|exact X].
    assert (Hi : k * nv + v < n * nv) by nia. specialize (Gf _ Hi). rewrite Ex in Gf. injection Gf as Gf.
    rewrite (nth_error_nth' fields ((""%string, 0), @nil R)) by lia. rewrite <- Gf. reflexivity. }
  match goal with |- context [omap ?g (seq 0 _)] => set (G := g) in * end.
  destruct (CompProofs.omap_exists G (seq 0 (rh_ncomp (rs_h s)))) as (out & Eo).
  { intros c Hin. apply in_seq in Hin. destruct (One c ltac:(lia)) as (r & Er & _). exists r. exact Er. }
  exists out. split; [exact Eo|]. destruct (omap_seq_inv G _ out (0, []) Eo) as (Lo & Go). split; [auto|].
  intros c Hc. destruct (One c Hc) as ([m fields] & Er & P). specialize (Go c Hc). assert (X : G c = Ok (m, fields)) by exact Er. rewrite X in Go. injection Go as Go.
  exists m, fields. split; [|exact P]. rewrite (nth_error_nth' out (0, [])) by lia. rewrite <- Go. reflexivity.
Qed.
Print Assumptions C103_fields.

(** One component of two subdomains with a scalar of two unknowns and a scalar of one; two basis vectors. *)
Example C103_fields_case : save_basis_visualization true
    (RomSt (Rom 2 2 false ByDomain [0; 0] 1 [2]) true [] [DMat 3 2 [1; 2; 3; 4; 5; 6]%R] [0; 0] [0; 2; 4] [0; 2] [2; 2]) [2; 1; 2; 1] ["u"; "p"]%string
  = Ok [(0, [(("u", 0), [1; 2]%R); (("p", 0), [3]%R); (("u", 1), [4; 5]%R); (("p", 1), [6]%R)])]%string.
Proof. reflexivity. Qed.

(** With one basis per variable and at least two variables drawing never succeeds, whatever the bases. *)
Theorem C103_separate_never : forall s dim vs vars r, bases_ok s dim -> rh_sep (rs_h s) = true -> 2 <= rh_nvar (rs_h s) ->
  save_basis_visualization true s vs vars <> Ok r.
Proof.
  intros s dim vs vars r B Sp Nv E. unfold save_basis_visualization in E. cbn [negb] in E.
  apply DriveReportProofs.assert_inv in E as (_ & E). apply DriveReportProofs.assert_inv in E as (_ & E).
  destruct B as (_ & (P1 & P2 & Lt & Ty & _) & _). refine (omap_never _ _ (rh_ncomp (rs_h s)) r _ _ E).
  - apply in_seq. unfold num_ref_blocks. rewrite Sp. specialize (Ty 0 P1). nia.
  - intros b Eb. destruct (first_sub (rh_types (rs_h s)) (rh_ncomp (rs_h s)) 0) as [m|] eqn:F; [|discriminate].
    apply first_sub_spec in F as (_ & F & _). rewrite Nat.sub_0_r in F. assert (Hm : m < rh_nsub (rs_h s)) by (rewrite <- Lt; apply nth_error_Some; congruence).
    specialize (Ty m Hm). unfold comp_of in Ty. rewrite (nth_error_nth _ _ 0 F) in Ty. lia.
Qed.
Print Assumptions C103_separate_never.

(** The drawing of separate bases fails although the basis is loaded; the velocity basis is read beyond its end. *)
Theorem C103_separate_refuted : exists s dim vs vars, bases_ok s dim /\ rh_sep (rs_h s) = true /\ List.length vars = rh_nvar (rs_h s) /\
  List.length vs = List.length vars * rh_nsub (rs_h s) /\ (forall b, b < List.length vs -> nth b vs 0 = dim (b mod 2)) /\
  save_basis_visualization true s vs vars = UB.
Proof.
  exists exs_st, exs_dim, [3; 2; 3; 2], ["vel"; "pres"]%string. split; [apply exs_bases|]. do 3 (split; [reflexivity|]).
  split; [|reflexivity]. intros b Hb. cbn in Hb. repeat (destruct b as [|b]; [reflexivity|]). lia.
Qed.
Print Assumptions C103_separate_refuted.

(** ** C104 *)

(** When every subdomain is a component of its own the solver is built exactly if all subdomains have elements of one type. *)
Theorem C104_submesh : forall types t, nth_error types 0 = Some t ->
  (check_element_types (List.length types) types = Ok tt <-> forall m t', nth_error types m = Some t' -> t' = t) /\
  ((exists m t', nth_error types m = Some t' /\ t' <> t) -> check_element_types (List.length types) types = Abort).
Proof.
  intros types t E0. split.
  - split.
    + intros E m t' Em. assert (Hm : m < List.length types) by (apply nth_error_Some; congruence). destruct (types_ok _ _ _ E m Hm) as (t2 & A & B). congruence.
    + intros H. apply (types_run _ types t E0). intros c Hc. destruct (nth_error types c) as [t'|] eqn:Ec; [|apply nth_error_None in Ec; lia]. rewrite (H c t' Ec). reflexivity.
  - intros (m & t' & Em & N). apply (types_stop _ types t m t' E0); auto. apply nth_error_Some. congruence.
Qed.
Print Assumptions C104_submesh.
Example C104_submesh_case : check_element_types 3 [3; 3; 3] = Ok tt /\ check_element_types 3 [3; 3; 2] = Abort.
Proof. split; reflexivity. Qed.

(** With components, partial: as many subdomains as there are components are looked at. Missing: the others. *)
Theorem C104_first_partial : forall n types t, nth_error types 0 = Some t -> n <= List.length types ->
  (check_element_types n types = Ok tt <-> forall c, c < n -> nth_error types c = Some t) /\
  (check_element_types n types <> Ok tt -> check_element_types n types = Abort).
Proof.
  intros n types t E0 L. assert (K : (forall c, c < n -> nth_error types c = Some t) \/ exists c t', c < n /\ nth_error types c = Some t' /\ t <> t').
  { clear -L. induction n as [|n IH]; [left; lia|]. destruct IH as [IH|(c & t' & H1 & H2)]; [lia| |right; exists c, t'; split; [lia|auto]].
    destruct (nth_error types n) as [t'|] eqn:E; [|apply nth_error_None in E; lia]. destruct (Nat.eq_dec t t') as [<-|N]; [|right; exists n, t'; auto].
    left. intros c Hc. destruct (Nat.eq_dec c n) as [->|]; [auto|apply IH; lia]. }
  split.
  - split; [|apply types_run; auto]. intros E c Hc. destruct (types_ok _ _ _ E c Hc) as (t2 & A & B). congruence.
  - intros N. destruct K as [K|(c & t' & Hc & Ec & D)]; [elim N; apply (types_run _ _ t); auto|apply (types_stop n types t c t'); auto].
Qed.
Print Assumptions C104_first_partial.

(** Two components of different element types: a layout whose second component comes after two subdomains of the first is accepted, and with more
    components than subdomains memory beyond the list of meshes is read. *)
Theorem C104_components_refuted :
  (exists comp_type mesh_types types, types = map (fun c => nth c comp_type 0) mesh_types /\ (forall c, In c mesh_types -> c < List.length comp_type) /\
     nth 0 types 0 <> nth 2 types 0 /\ check_element_types (List.length comp_type) types = Ok tt) /\
  (exists comp_type mesh_types types, types = map (fun c => nth c comp_type 0) mesh_types /\ (forall c, In c mesh_types -> c < List.length comp_type) /\
     check_element_types (List.length comp_type) types = UB).
Proof.
  split.
  - exists [3; 2], [0; 0; 1], [3; 3; 2]. split; [reflexivity|]. split; [intros c [<-|[<-|[<-|[]]]]; cbn; lia|]. split; [cbn; lia|reflexivity].
  - exists [3; 3; 3], [0; 1], [3; 3]. split; [reflexivity|]. split; [intros c [<-|[<-|[]]]; cbn; lia|reflexivity].
Qed.
Print Assumptions C104_components_refuted.
