(** Proofs about the nonlinear term of the Navier-Stokes solver and its hyper-reduction: forms of components and subdomains. *)
From Coq Require Import Reals List Bool Lia Arith ZArith String Permutation Lra.
From Verif Require Import Outcome ListLemmas HdfModel LaBase LinalgModel LinalgSpec BlockVec RomModel RomSpec MbModel MbSpec EqpSpec ItfModel ItfSpec ProbModel BcModel BupModel BupSpec EqpModel NeqModel NeqSpec.
From Verif Require Import RomProofs RomBasisProofs EqpSetupProofs EqpEvalProofs BupFormProofs BupSolverProofs.
From Verif Require MbMiscProofs BupAsmProofs BcProofs BcSpec DgRhsProofs IntegProofs.
Import ListNotations.
Local Open Scope nat_scope.

(** ** Rules of a form *)

Definition rules (F : eform) (t : itype) : list rule :=
  match t with Domain => map snd (ef_dom F) | InteriorFace => map snd (ef_int F) | BdrFace => map snd (ef_bdr F) | Interface => [] end.
Definition skel (F : eform) := (ef_n F, map fst (ef_dom F), map fst (ef_int F), map fst (ef_bdr F), ef_basis F).
Definition teqb (a b : itype) : bool :=
  match a, b with Domain, Domain | InteriorFace, InteriorFace | BdrFace, BdrFace | Interface, Interface => true | _, _ => false end.

Lemma fst_snd_eq {A B} (l l' : list (A * B)) : map fst l = map fst l' -> map snd l = map snd l' -> l = l'.
Proof.
  revert l'. induction l as [|[a b] l IH]; intros [|[a' b'] l'] H1 H2; cbn [map fst snd] in *; try discriminate; auto.
  injection H1 as -> H1. injection H2 as -> H2. f_equal. auto.
Qed.
Lemma eform_eq F F' : skel F = skel F' -> (forall t, rules F t = rules F' t) -> F = F'.
Proof.
  intros S Q. pose proof (Q Domain) as Q1. pose proof (Q InteriorFace) as Q2. pose proof (Q BdrFace) as Q3. destruct F, F'. unfold skel in S. cbn in *.
  injection S as -> E1 E2 E3 ->. f_equal; apply fst_snd_eq; auto.
Qed.
Lemma skel_len F F' t : skel F = skel F' -> List.length (rules F t) = List.length (rules F' t).
Proof.
  intros S. unfold skel in S. injection S as _ E1 E2 E3 _. destruct t; cbn [rules]; auto; rewrite !map_length.
  - rewrite <- (map_length fst (ef_dom F)), E1, map_length. auto.
  - rewrite <- (map_length fst (ef_int F)), E2, map_length. auto.
  - rewrite <- (map_length fst (ef_bdr F)), E3, map_length. auto.
Qed.

Lemma get_rule_ok F t k : k < List.length (rules F t) -> get_rule F t k = Ok (nth k (rules F t) None).
Proof.
  destruct t; cbn [rules get_rule]; rewrite ?map_length; intros H; try (cbn in H; lia);
    rewrite (proj2 (Nat.ltb_lt _ _)) by auto; cbn [oassert];
    match goal with |- context [oread ?l k] => destruct (nth_error l k) as [x|] eqn:N; [|apply nth_error_None in N; lia];
      unfold oread; rewrite N; cbn [obind]; do 2 f_equal; symmetry; apply nth_error_nth; rewrite nth_error_map, N; reflexivity end.
Qed.

Lemma map_upd {A B} (f : A -> B) (l : list A) k x : map f (upd l k x) = upd (map f l) k (f x).
Proof. revert k. induction l; intros [|k]; cbn [upd map]; congruence. Qed.
Lemma upd_same {A} (l : list A) k x : nth_error l k = Some x -> upd l k x = l.
Proof. revert k. induction l; intros [|k] H; cbn in *; try discriminate; [congruence|f_equal; auto]. Qed.

Lemma put_rule_ok F t k r : k < List.length (rules F t) ->
  exists F', put_rule F t k r = Ok F' /\ skel F' = skel F /\ forall t', rules F' t' = if teqb t' t then upd (rules F t) k r else rules F t'.
Proof.
  destruct t; cbn [rules put_rule]; rewrite ?map_length; intros H; try (cbn in H; lia);
    rewrite (proj2 (Nat.ltb_lt _ _)) by auto; cbn [oassert];
    match goal with |- context [oread ?l k] => destruct (nth_error l k) as [x|] eqn:N; [|apply nth_error_None in N; lia] end;
    unfold oread; rewrite N; cbn [obind]; unfold owrite; rewrite (proj2 (Nat.ltb_lt _ _)) by auto; cbn [obind]; eexists; (split; [reflexivity|]);
    (split; [unfold skel; cbn [ef_n ef_dom ef_int ef_bdr ef_basis]; rewrite map_upd, upd_same by (rewrite nth_error_map, N; reflexivity); reflexivity|]);
    intros t'; destruct t'; cbn [rules teqb ef_dom ef_int ef_bdr]; auto; rewrite map_upd; reflexivity.
Qed.

(** ** Training *)

Lemma train_part (F : eform) t (f : nat -> list (sinfo R)) :
  exists F', ofor (List.length (rules F t)) (fun F k => put_rule F t k (Some (f k))) F = Ok F' /\ skel F' = skel F /\
    forall t', rules F' t' = if teqb t' t then map (fun k => Some (f k)) (seq 0 (List.length (rules F t))) else rules F t'.
Proof.
  destruct (ofor_inv (List.length (rules F t)) (fun F k => put_rule F t k (Some (f k)))
    (fun i F' => skel F' = skel F /\ (forall k, k < List.length (rules F t) -> nth k (rules F' t) None = if k <? i then Some (f k) else nth k (rules F t) None) /\
      forall t', teqb t' t = false -> rules F' t' = rules F t') F) as (F' & E & Sk & V & O).
  - auto.
  - intros i F1 Hi (Sk & V & O). destruct (put_rule_ok F1 t i (Some (f i))) as (F2 & E2 & S2 & Q2); [rewrite (skel_len _ _ t Sk); auto|].
    exists F2. split; [auto|]. split; [congruence|]. split.
    + intros k Hk. rewrite Q2. replace (teqb t t) with true by (destruct t; auto). destruct (Nat.eq_dec k i) as [->|N].
      * rewrite nth_upd_eq by (rewrite (skel_len _ _ t Sk); auto). rewrite (proj2 (Nat.ltb_lt _ _)) by lia. auto.
      * rewrite nth_upd_ne by auto. rewrite V by auto. destruct (Nat.ltb_spec k i), (Nat.ltb_spec k (S i)); auto; lia.
    + intros t' Ht. rewrite Q2, Ht. auto.
  - exists F'. split; [auto|]. split; [auto|]. intros t'. destruct (teqb t' t) eqn:T; [|auto].
    assert (t' = t) by (destruct t', t; cbn in T; congruence). subst t'. apply (nth_ext _ _ None None).
    + rewrite map_length, seq_length. apply skel_len; auto.
    + intros k Hk0. assert (Hk : k < List.length (rules F t)) by (rewrite <- (skel_len F' F t Sk); exact Hk0). rewrite V, (proj2 (Nat.ltb_lt _ _)) by auto.
      rewrite (nth_indep (map _ _) None (Some (f 0))) by (rewrite map_length, seq_length; auto).
      rewrite (map_nth (fun k => Some (f k)) (seq 0 (List.length (rules F t))) 0 k), seq_nth by auto. reflexivity.
Qed.

Lemma train_ok tr F : exists F', train_form tr F = Ok F' /\ skel F' = skel F /\
  forall t, t <> Interface -> rules F' t = map (fun k => Some (tr t k)) (seq 0 (List.length (rules F t))).
Proof.
  unfold train_form.
  destruct (train_part F Domain (tr Domain)) as (F1 & E1 & S1 & Q1). cbn [rules] in E1. rewrite map_length in E1. rewrite E1. cbn [obind].
  destruct (train_part F1 InteriorFace (tr InteriorFace)) as (F2 & E2 & S2 & Q2). cbn [rules] in E2. rewrite map_length in E2. rewrite E2. cbn [obind].
  destruct (train_part F2 BdrFace (tr BdrFace)) as (F3 & E3 & S3 & Q3). cbn [rules] in E3. rewrite map_length in E3. rewrite E3.
  exists F3. split; [auto|]. split; [congruence|]. intros t Ht. rewrite Q3. destruct t; cbn [teqb].
  - rewrite Q2. cbn [teqb]. rewrite Q1. reflexivity.
  - rewrite Q2. cbn [teqb]. rewrite (skel_len F1 F InteriorFace S1). reflexivity.
  - rewrite (skel_len F2 F BdrFace) by congruence. reflexivity.
  - congruence.
Qed.

(** ** Components *)

Section Bases.
  Variables (g : geometry) (s : romst) (cu cp : list fespace) (dim : nat -> nat).
  Hypotheses (G : geo_ok g) (SB : stokes_bases s g cu cp dim) (Lu : List.length cu = ncomp g).
  Variables (o : oper) (full_dg : bool).

  Definition vbasis (c : nat) : dmat := nth (ref_place (rs_h s) c 0) (rs_ref s) (DMat 0 0 []).

  Lemma vref c : c < ncomp g -> ref_place (rs_h s) c 0 < List.length (rh_nb (rs_h s)).
  Proof.
    intros Hc. destruct SB as ((_ & (_ & _ & _ & _ & W) & _) & Nv & _ & Nc & _). unfold ref_place. rewrite W, Nc. destruct (rh_sep (rs_h s)); nia.
  Qed.
  Lemma vbasis_ok c : c < ncomp g -> comp_basis s c = Ok (vbasis c) /\ dm_wf (vbasis c) /\ fe_size (fth cu c) <= dm_h (vbasis c).
  Proof.
    intros Hc. pose proof (vref c Hc) as Hr. pose proof SB as (B & Nv & Ty & Nc & Ns & Dm). specialize (Dm c Hc). split.
    - unfold comp_basis. cbn zeta. replace (if rh_sep (rs_h s) then c * rh_nvar (rs_h s) else c) with (ref_place (rs_h s) c 0) by (unfold ref_place; destruct (rh_sep (rs_h s)); lia).
      apply (get_ref_ok _ _ _ B Hr).
    - destruct B as (_ & _ & _ & Bk & _). destruct (Bk _ Hr) as (W & Hh & _). split; [exact W|]. unfold vbasis. rewrite Hh. unfold ref_place.
      destruct (rh_sep (rs_h s)); [|lia]. rewrite Nv. replace (c * 2 + 0) with (2 * c) by lia. lia.
  Qed.
  Lemma dbasis_ok m : m < nsub g -> exists idx, block_index (rs_h s) m 0 = Ok idx /\ get_dom s idx = Ok (vbasis (type_of g m)).
  Proof.
    intros Hm. pose proof SB as (B & Nv & Ty & Nc & Ns & Dm). exists (place (rs_h s) m 0). split.
    - unfold block_index, place. cbn [Z.ltb]. destruct (rh_sep (rs_h s)); cbn [negb]; [|reflexivity]. change (0 <? 0)%Z with false. cbn iota.
      destruct (rh_ord (rs_h s)); f_equal; lia.
    - rewrite (get_dom_ok s dim m 0 B).
      + unfold basis_of, vbasis, comp_of. rewrite Ty. reflexivity.
      + split; [rewrite Ns; auto|]. rewrite Nv. destruct (rh_sep (rs_h s)); lia.
  Qed.
  Lemma put_basis_ok c n F : c < ncomp g -> ef_n F = dm_w (vbasis c) -> n = fe_size (fth cu c) ->
    exists b, set_basis (dm_w (vbasis c)) n (vbasis c) 0 = Ok b /\ put_basis F n (vbasis c) = Ok (EForm (ef_n F) (ef_dom F) (ef_int F) (ef_bdr F) (Some b)).
  Proof.
    intros Hc En ->. destruct (vbasis_ok c Hc) as (_ & W & H). destruct (set_basis_ok (dm_w (vbasis c)) (fe_size (fth cu c)) (vbasis c) 0 W eq_refl) as (b & E & _); [lia|].
    exists b. split; [auto|]. unfold put_basis. rewrite En, E. reflexivity.
  Qed.

  (** *** Allocation *)
  Definition ints : list nint := match o with OBase => [] | OLax => if full_dg then [NLax None] else [] end.
  Definition cmark (c b : nat) : list Z :=
    match attr_max (attrs_of g c) with Ok top => upd (repeat 0%Z (Z.to_nat top)) (Z.to_nat (nth b (attrs_of g c) 0%Z - 1)) 1%Z | _ => [] end.
  Definition nbdr (c : nat) : nat := match o with OBase => 0 | OLax => List.length (attrs_of g c) end.
  Definition fresh_bdr (c b : nat) : list (nint * list Z * rule) := [(NLax None, cmark c b, None); (NLax (Some CZero), cmark c b, None)].

  Lemma alloc_comp_ok c : c < ncomp g -> exists b, set_basis (dm_w (vbasis c)) (fe_size (fth cu c)) (vbasis c) 0 = Ok b /\
    alloc_comp o full_dg s cu (attrs_of g c) c =
    Ok (EForm (dm_w (vbasis c)) [(flow o, None)] (map (fun I => (I, None)) ints) (flat_map (fresh_bdr c) (seq 0 (nbdr c))) (Some b)).
  Proof.
    intros Hc. unfold alloc_comp. rewrite (proj1 (vbasis_ok c Hc)). cbn [obind]. rewrite (oread_nth cu c (Fes 0 (fun _ => []))) by lia. cbn [obind]. fold (fth cu c).
    cbn zeta. unfold ints, nbdr. destruct o.
    - destruct (put_basis_ok c (fe_size (fth cu c)) (add_dom (EForm (dm_w (vbasis c)) [] [] [] None) NConvection) Hc eq_refl eq_refl) as (b & Eb & ->).
      exists b. split; [auto|]. reflexivity.
    - set (F := if full_dg then _ else _).
      destruct (put_basis_ok c (fe_size (fth cu c)) F Hc) as (b & Eb & ->); [unfold F; destruct full_dg; reflexivity|reflexivity|].
      exists b. split; [auto|]. cbn [obind]. set (F0 := EForm _ _ _ _ (Some b)).
      destruct (ofor_inv (List.length (attrs_of g c)) (fun F b0 => let* top := attr_max (attrs_of g c) in let* a := oread (attrs_of g c) b0 in
          oguard (0 <? a)%Z (let* mk := owrite (repeat 0%Z (Z.to_nat top)) (Z.to_nat (a - 1)) 1%Z in
          Ok (add_bdr (add_bdr F (NLax None) mk) (NLax (Some CZero)) mk)))
        (fun i F' => F' = EForm (ef_n F0) (ef_dom F0) (ef_int F0) (flat_map (fresh_bdr c) (seq 0 i)) (Some b)) F0) as (F' & E & V).
      + unfold F0, F. destruct full_dg; reflexivity.
      + intros i F' Hi ->. destruct G as (_ & _ & _ & _ & Gc & _). destruct (Gc c Hc) as (_ & Ne & Pos & _).
        destruct (MbMiscProofs.attr_max_ok (attrs_of g c) Ne) as (top & Et & It & Mt). rewrite (oread_nth _ _ 0%Z) by auto.
        pose proof (nth_In _ 0%Z Hi) as Ia. pose proof (Pos _ Ia). pose proof (Mt _ Ia). eexists. split; [|reflexivity]. rewrite Et. cbn [obind].
        rewrite (proj2 (Z.ltb_lt _ _)) by auto. cbn [oguard]. rewrite owrite_vec by (rewrite repeat_length; lia). cbn [obind]. unfold add_bdr. cbn [ef_n ef_dom ef_int ef_bdr ef_basis].
        rewrite seq_S, flat_map_app. cbn [flat_map Nat.add]. rewrite app_nil_r. rewrite <- app_assoc. do 3 f_equal. unfold fresh_bdr, cmark. rewrite Et. reflexivity.
      + rewrite E, V. unfold F0, F. destruct full_dg; reflexivity.
  Qed.

  Definition fresh_form (c : nat) (F : eform) : Prop := exists b, set_basis (dm_w (vbasis c)) (fe_size (fth cu c)) (vbasis c) 0 = Ok b /\
    F = EForm (dm_w (vbasis c)) [(flow o, None)] (map (fun I => (I, None)) ints) (flat_map (fresh_bdr c) (seq 0 (nbdr c))) (Some b).
  Lemma fresh_rules c F : fresh_form c F -> List.length (rules F Domain) = 1 /\ List.length (rules F InteriorFace) = List.length ints /\ List.length (rules F BdrFace) = 2 * nbdr c.
  Proof. clear Lu.
    intros (b & _ & ->). cbn [rules ef_dom ef_int ef_bdr]. rewrite !map_length. split; [auto|]. split; [auto|]. induction (nbdr c) as [|n IH]; [reflexivity|].
    rewrite seq_S, flat_map_app, app_length, IH. cbn [List.length fresh_bdr flat_map app Nat.add]. lia.
  Qed.

  Lemma alloc_ok : exists E, alloc_eqps g o full_dg s cu = Ok E /\ List.length E = ncomp g /\ forall c, c < ncomp g -> exists F, nth_error E c = Some F /\ fresh_form c F.
  Proof.
    unfold alloc_eqps. destruct (BupAsmProofs.omap_seq_Q (fun c => let* attrs := oread (g_attrs g) c in alloc_comp o full_dg s cu attrs c) fresh_form (ncomp g)) as (E & EE & L & V).
    - intros c Hc. rewrite (oread_nth (g_attrs g) c []) by (destruct G as (_ & -> & _); auto). cbn [obind]. fold (attrs_of g c).
      destruct (alloc_comp_ok c Hc) as (b & Eb & ->). eexists. split; [reflexivity|]. exists b. auto.
    - exists E. split; [auto|]. split; [auto|]. intros c Hc. exists (nth c E (EForm 0 [] [] [] None)). split; [apply nth_error_nth'; lia|auto].
  Qed.

  Lemma trained_ok tr c F : fresh_form c F -> exists F', train_form tr F = Ok F' /\ skel F' = skel F /\
    get_rule F' Domain 0 = Ok (Some (tr Domain 0)) /\ (o = OLax -> full_dg = true -> get_rule F' InteriorFace 0 = Ok (Some (tr InteriorFace 0))) /\
    (o = OLax -> forall b k, b < List.length (attrs_of g c) -> k < 2 -> get_rule F' BdrFace (2 * b + k) = Ok (Some (tr BdrFace (2 * b + k)))).
  Proof. clear Lu.
    intros Fr. destruct (fresh_rules c F Fr) as (L1 & L2 & L3). destruct (train_ok tr F) as (F' & E & Sk & V). exists F'. split; [auto|]. split; [auto|].
    assert (Q : forall t k, t <> Interface -> k < List.length (rules F t) -> get_rule F' t k = Ok (Some (tr t k))).
    { intros t k Ht Hk. rewrite get_rule_ok by (rewrite (skel_len _ _ t Sk); auto). rewrite (V t Ht).
      rewrite (nth_indep (map _ _) None (Some (tr t 0))) by (rewrite map_length, seq_length; auto). rewrite (map_nth (fun k => Some (tr t k)) (seq 0 (List.length (rules F t))) 0 k), seq_nth by auto. reflexivity. }
    split; [apply Q; [discriminate|lia]|]. split.
    - intros Eo Ed. apply Q; [discriminate|]. rewrite L2. unfold ints. rewrite Eo, Ed. cbn. lia.
    - intros Eo b k Hb Hk. apply Q; [discriminate|]. rewrite L3. unfold nbdr. rewrite Eo. lia.
  Qed.

  (** *** Subdomains *)
  Variables (types : list btype) (bdr : list (option coeff)).
  Hypothesis CL : closed g types bdr.

  Lemma ns_boundary_ok gi : gi < List.length (g_gattr g) -> ns_boundary (g_gattr g) types bdr gi = Ok (NLax (condition types bdr gi)) /\
    rom_boundary (g_gattr g) types bdr gi = Ok (NLax (condition types bdr gi)).
  Proof. clear Lu.
    intros Hg. destruct CL as (L1 & L2 & C). specialize (C gi Hg). unfold ns_boundary, rom_boundary, condition. rewrite (oread_nth types gi BNone) by lia. cbn [obind].
    destruct (nth gi types BNone) eqn:T; cbn [is_neumann]; auto; rewrite BcProofs.bc_at_ok by auto; cbn [obind];
      (destruct (nth gi bdr None); [auto|]); exfalso; apply C; congruence.
  Qed.

  Variables (marks : list (list Z)).
  Hypothesis Lm : List.length marks = List.length (g_gattr g).
  Definition mark (gi : nat) : list Z := nth gi marks [].
  Definition sub_bdr (m : nat) (tr : itype -> nat -> list (sinfo R)) (b : nat) : list (nint * list Z * rule) :=
    match attr_find (g_gattr g) (nth b (row_of g m) 0%Z) 0 with
    | None => []
    | Some gi => [(NLax (condition types bdr gi), mark gi, Some (tr BdrFace (2 * b + wall types gi)))]
    end.

  Lemma assemble_bdr_ok tr m C F : m < nsub g -> ef_bdr F = [] ->
    (forall b k, b < List.length (attrs_of g (type_of g m)) -> k < 2 -> get_rule C BdrFace (2 * b + k) = Ok (Some (tr BdrFace (2 * b + k)))) ->
    assemble_bdr (g_gattr g) marks types bdr (row_of g m) C F =
    Ok (EForm (ef_n F) (ef_dom F) (ef_int F) (flat_map (sub_bdr m tr) (seq 0 (List.length (row_of g m)))) (ef_basis F)).
  Proof.
    intros Hm E0 Q. unfold assemble_bdr.
    match goal with |- (let* (_, _) := ofor ?n ?f ?x in _) = _ =>
      destruct (ofor_inv n f (fun i '(F', idx) => let l := flat_map (sub_bdr m tr) (seq 0 i) in
        idx = List.length l /\ F' = EForm (ef_n F) (ef_dom F) (ef_int F) l (ef_basis F)) x) as ((F' & idx) & E & V) end.
    - cbn. split; [auto|]. rewrite <- E0. destruct F; reflexivity.
    - intros i (F' & idx) Hi. cbn zeta. intros (-> & ->). rewrite (oread_nth _ _ 0%Z) by auto. cbn [obind]. rewrite seq_S, flat_map_app. cbn [flat_map Nat.add]. rewrite app_nil_r.
      set (l := flat_map (sub_bdr m tr) (seq 0 i)).
      destruct (attr_find (g_gattr g) (nth i (row_of g m) 0%Z) 0) as [gi|] eqn:Fd.
      + replace (sub_bdr m tr i) with [(NLax (condition types bdr gi), mark gi, Some (tr BdrFace (2 * i + wall types gi)))] by (unfold sub_bdr; rewrite Fd; reflexivity).
        pose proof (BcProofs.find_lt _ _ _ Fd) as Hg. rewrite (proj2 (ns_boundary_ok gi Hg)). cbn [obind]. rewrite (oread_nth marks gi []) by lia. fold (mark gi). cbn [obind].
        rewrite (oread_nth types gi BNone) by (destruct CL; lia). cbn [obind].
        assert (Ew : rule_kind (nth gi types BNone) = wall types gi) by (unfold rule_kind, wall; destruct (nth gi types BNone); auto). rewrite Ew.
        assert (Hw : wall types gi < 2) by (unfold wall; destruct (nth gi types BNone); lia).
        assert (Hi' : i < List.length (attrs_of g (type_of g m))) by (destruct G as (_ & _ & _ & _ & _ & Gr & _); destruct (Gr m Hm); lia).
        rewrite (Q i (wall types gi) Hi' Hw). cbn [obind]. unfold add_bdr. cbn [ef_n ef_dom ef_int ef_bdr ef_basis]. unfold put_rule. cbn [ef_n ef_dom ef_int ef_bdr ef_basis].
        rewrite (proj2 (Nat.ltb_lt _ _)) by (rewrite app_length; cbn; lia). cbn [oassert]. unfold oread. rewrite nth_error_app2, Nat.sub_diag by lia. cbn [nth_error obind fst].
        unfold owrite. rewrite (proj2 (Nat.ltb_lt _ _)) by (rewrite app_length; cbn; lia). cbn [obind]. eexists. split; [reflexivity|]. cbn beta iota zeta.
        split; [rewrite app_length; cbn; lia|]. f_equal. clear. induction l; cbn [app List.length upd]; [reflexivity|]. f_equal. auto.
      + replace (sub_bdr m tr i) with (@nil (nint * list Z * rule)) by (unfold sub_bdr; rewrite Fd; reflexivity). rewrite app_nil_r. eexists. split; [reflexivity|]. cbn beta iota zeta. auto.
    - rewrite E. cbn [obind]. cbn beta iota zeta in V. destruct V as (_ & ->). reflexivity.
  Qed.

  Definition sub_bdrs (m : nat) (tr : itype -> nat -> list (sinfo R)) : list (nint * list Z * rule) :=
    match o with OBase => [] | OLax => flat_map (sub_bdr m tr) (seq 0 (List.length (row_of g m))) end.
  Lemma assemble_sub_ok tr (E : list eform) m C : m < nsub g -> nth_error E (type_of g m) = Some C ->
    get_rule C Domain 0 = Ok (Some (tr Domain 0)) -> (o = OLax -> full_dg = true -> get_rule C InteriorFace 0 = Ok (Some (tr InteriorFace 0))) ->
    (o = OLax -> forall b k, b < List.length (attrs_of g (type_of g m)) -> k < 2 -> get_rule C BdrFace (2 * b + k) = Ok (Some (tr BdrFace (2 * b + k)))) ->
    exists b, set_basis (dm_w (vbasis (type_of g m))) (fe_size (fth cu (type_of g m))) (vbasis (type_of g m)) 0 = Ok b /\
    assemble_sub g o full_dg s cu marks types bdr E m =
    Ok (EForm (dm_w (vbasis (type_of g m))) [(flow o, Some (tr Domain 0))] (map (fun I => (I, Some (tr InteriorFace 0))) ints) (sub_bdrs m tr) (Some b)).
  Proof.
    intros Hm EC Q1 Q2 Q3. pose proof G as (_ & _ & Lc & Ty & _). specialize (Ty m Hm). unfold assemble_sub. rewrite (oread_nth (g_types g) m 0) by auto. cbn [obind]. fold (type_of g m).
    destruct (dbasis_ok m Hm) as (idx & E1 & E2). rewrite E1. cbn [obind]. rewrite E2. cbn [obind]. rewrite (oread_nth cu (type_of g m) (Fes 0 (fun _ => []))) by lia. cbn [obind]. fold (fth cu (type_of g m)).
    unfold oread at 1. rewrite EC. cbn [obind]. cbn zeta. set (c := type_of g m) in *. unfold sub_bdrs, ints. destruct o eqn:Eo.
    - rewrite Q1. cbn [obind].
      match goal with |- context [put_rule ?F Domain 0 ?r] => change (put_rule F Domain 0 r) with (Ok (EForm (dm_w (vbasis c)) [(NConvection, Some (tr Domain 0))] [] [] None)) end. cbn [obind].
      destruct (put_basis_ok c (fe_size (fth cu c)) (EForm (dm_w (vbasis c)) [(NConvection, Some (tr Domain 0))] [] [] None) Ty eq_refl eq_refl) as (b & Eb & Ep). rewrite Ep. exists b. auto.
    - rewrite Q1. cbn [obind]. set (F1 := if full_dg then _ else _).
      replace (put_rule F1 Domain 0 (Some (tr Domain 0))) with (Ok (EForm (dm_w (vbasis c)) [(NFlux, Some (tr Domain 0))] (ef_int F1) [] None)) by (unfold F1; destruct full_dg; reflexivity).
      cbn [obind]. set (l := map (fun I => (I, Some (tr InteriorFace 0))) (if full_dg then [NLax None] else [])).
      match goal with |- context [let* F := ?e in let* row := _ in _] => replace e with (Ok (EForm (dm_w (vbasis c)) [(NFlux, Some (tr Domain 0))] l [] None)) end.
      2: { unfold l, F1. destruct full_dg; [|reflexivity]. rewrite (Q2 eq_refl eq_refl). reflexivity. }
      cbn [obind]. rewrite (oread_nth (g_c2g g) m []) by lia. cbn [obind]. fold (row_of g m).
      rewrite (assemble_bdr_ok tr m C) by (auto; try reflexivity). cbn [obind ef_n ef_dom ef_int ef_basis].
      match goal with |- context [put_basis ?F _ _] => destruct (put_basis_ok c (fe_size (fth cu c)) F Ty eq_refl eq_refl) as (b & Eb & Ep) end. rewrite Ep. exists b. auto.
  Qed.
End Bases.
