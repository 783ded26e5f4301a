(** Values of assembled forms: components, boundaries of components, subdomains. *)
From Coq Require Import Reals List Bool Lia Lra Arith ZArith.
From Verif Require Import Outcome ListLemmas LaBase LinalgModel LinalgSpec BlockVec RomModel RomSpec RomProofs MbModel MbSpec MbMiscProofs EqpSpec EqpAccProofs IntegProofs ItfModel ItfSpec ProbModel BcModel BcProofs BupModel BupSpec.
From Verif Require CompModel CompProofs TopoModel TopoProofs DgModel DgSpec DgRhsProofs BcSpec MbProperties.
Import ListNotations.
Local Open Scope nat_scope.

Notation lsum := EqpSpec.lsum.

(** ** Sums *)
Lemma lsum_flat_map {A C} (f : C -> R) (g : A -> list C) l : lsum f (flat_map g l) = lsum (fun a => lsum f (g a)) l.
Proof. induction l as [|a l IH]; [reflexivity|]. cbn [flat_map]. rewrite lsum_app, IH. reflexivity. Qed.
Lemma lsum_number {A} (G : nat * A -> R) (d : A) : forall l s, lsum G (combine (seq s (List.length l)) l) = rsum (List.length l) (fun k => G (s + k, nth k l d)).
Proof.
  induction l as [|a l IH]; intros s; [reflexivity|]. cbn [List.length]. rewrite rsum_S_l. cbn [seq combine]. rewrite lsum_cons, IH. f_equal.
  - rewrite Nat.add_0_r. reflexivity.
  - apply rsum_ext. intros k Hk. replace (S s + k) with (s + S k) by lia. reflexivity.
Qed.
Lemma ind_0 b : ind b 0 = 0%R.
Proof. destruct b; reflexivity. Qed.
Lemma lsum_ifl {A} (f : A -> R) (b : bool) x : lsum f (if b then [x] else []) = ind b (f x).
Proof. destruct b; unfold lsum; cbn; [ring|reflexivity]. Qed.
Lemma lsum_as_rsum {A} (f : A -> R) (d : A) l : lsum f l = rsum (List.length l) (fun k => f (nth k l d)).
Proof. induction l as [|a l IH]; [reflexivity|]. cbn [List.length]. rewrite rsum_S_l, lsum_cons, IH. reflexivity. Qed.
Lemma ind_rsum b n f : ind b (rsum n f) = rsum n (fun i => ind b (f i)).
Proof. destruct b; cbn [ind]; [auto|]. symmetry. apply rsum_zero. Qed.

Lemma lsum_wanted (F : nat * nat -> R) marks (bdr : list (nat * bool)) :
  lsum F (DgRhsProofs.wanted marks bdr) = rsum (List.length bdr) (fun e => let x := nth e bdr (0, false) in
    ind (snd x) (rsum (List.length marks) (fun k => ind (DgSpec.wants (nth k marks None) (fst x)) (F (e, k))))).
Proof.
  unfold DgRhsProofs.wanted. rewrite lsum_flat_map, (lsum_number _ (0, false)). apply rsum_ext. intros e He. cbn [Nat.add].
  destruct (nth e bdr (0, false)) as (a, fc). cbn [fst snd]. destruct fc; cbn [ind]; [|reflexivity].
  rewrite lsum_flat_map, (lsum_number _ None). apply rsum_ext. intros k Hk. cbn [Nat.add]. apply lsum_ifl.
Qed.

(** ** Forms *)
Lemma form_ok nu at_ me attrs h w f : attrs <> [] -> (forall x, In x (me_bdr me) -> In (fst x) attrs) -> (forall a, In a attrs -> (0 < a)%Z) ->
  (forall gm, In gm (fo_bdr f) -> forall a, In a attrs -> (a <= Z.of_nat (List.length (snd gm)))%Z) ->
  exists M, form_matrix nu at_ me attrs h w f = Ok M /\ fm_h M = h /\ fm_w M = w /\ forall p q, fm_val M p q =
    (lsum (fun g => rsum (me_nel me) (fun e => nu_dom nu g at_ e p q)) (fo_dom f)
     + lsum (fun g => rsum (me_nface me) (fun e => nu_int nu g at_ e p q)) (fo_int f)
     + rsum (List.length (me_bdr me)) (fun e => let x := nth e (me_bdr me) (0%Z, false) in
         ind (snd x) (lsum (fun gm => ind (DgSpec.wants (Some (snd gm)) (Z.to_nat (fst x))) (nu_bdr nu (fst gm) at_ e p q)) (fo_bdr f))))%R.
Proof.
  intros Ne In1 Pos Mk. unfold form_matrix. destruct (attr_max_ok attrs Ne) as (top & Et & It & Mt).
  replace (match attrs with [] => Ok 0%Z | _ => attr_max attrs end) with (Ok top) by (destruct attrs; [congruence|auto]). cbn [obind].
  rewrite DgRhsProofs.mb_faces_ok.
  - cbn [obind]. eexists. split; [reflexivity|]. split; [reflexivity|]. split; [reflexivity|]. intros p q. cbn [fm_val]. f_equal. rewrite lsum_wanted, map_length.
    apply rsum_ext. intros e He. cbn zeta.
    rewrite (nth_indep (map (fun x : Z * bool => (Z.to_nat (fst x), snd x)) (me_bdr me)) (0, false) ((fun x : Z * bool => (Z.to_nat (fst x), snd x)) (0%Z, false))) by (rewrite map_length; auto).
    rewrite (map_nth (fun x : Z * bool => (Z.to_nat (fst x), snd x)) (me_bdr me) (0%Z, false)).
    set (x := nth e (me_bdr me) (0%Z, false)). cbn [fst snd]. f_equal. rewrite map_length.
    rewrite (lsum_as_rsum _ (IDiffusion, [])). apply rsum_ext. intros k Hk.
    rewrite (nth_indep (map (fun x0 : itg * list Z => Some (snd x0)) (fo_bdr f)) None ((fun x0 : itg * list Z => Some (snd x0)) (IDiffusion, []))) by (rewrite map_length; auto).
    rewrite (map_nth (fun x0 : itg * list Z => Some (snd x0)) (fo_bdr f) (IDiffusion, [])). f_equal.
    change IDiffusion with (fst (IDiffusion, @nil Z)) at 1. rewrite (map_nth fst). reflexivity.
  - rewrite Forall_forall. intros mk Hmk. apply in_map_iff in Hmk as (gm & <- & Hg). specialize (Mk gm Hg top It). lia.
  - rewrite Forall_forall. intros af Haf. apply in_map_iff in Haf as (x & <- & Hx). cbn [fst]. specialize (In1 x Hx). pose proof (Pos _ In1). specialize (Mt _ In1). lia.
Qed.

Section Geo.
  Variables (nu : numerics) (g : geometry).
  Hypothesis G : geo_ok g.

  Lemma geo_comp c : c < ncomp g -> oread (g_comps g) c = Ok (mesh_of g c) /\ oread (g_attrs g) c = Ok (attrs_of g c).
  Proof.
    destruct G as (_ & La & _). intros Hc. unfold mesh_of, attrs_of. split; apply oread_nth; unfold ncomp in *; lia.
  Qed.

  (** *** Components *)
  Section Comp.
    Variables (test trial : list fespace) (ts : nat -> outcome terms) (dom int : list itg) (bd : itg) (c : nat).
    Hypotheses (Lt : List.length test = ncomp g) (Lr : List.length trial = ncomp g) (Hc : c < ncomp g) (T : ts c = Ok (dom, int, bd)).

    Lemma comp_matrix_ok : exists M, comp_matrix nu g test trial ts c = Ok M /\ fm_h M = fe_size (fth test c) /\ fm_w M = fe_size (fth trial c) /\
      forall p q, fm_val M p q = (lsum (fun I => rsum (me_nel (mesh_of g c)) (fun e => nu_dom nu I (AtComp c) e p q)) dom
        + lsum (fun I => rsum (me_nface (mesh_of g c)) (fun e => nu_int nu I (AtComp c) e p q)) int)%R.
    Proof.
      unfold comp_matrix. destruct (geo_comp c Hc) as (-> & ->). cbn [obind].
      rewrite (oread_nth test c (Fes 0 (fun _ => []))), (oread_nth trial c (Fes 0 (fun _ => []))) by lia. cbn [obind]. rewrite T. cbn [obind].
      destruct G as (_ & _ & _ & _ & Gc & _). destruct (Gc c Hc) as (_ & Ne & Pos & Iff).
      destruct (form_ok nu (AtComp c) (mesh_of g c) (attrs_of g c) (fe_size (fth test c)) (fe_size (fth trial c)) (Form dom int [])) as (M & E & A1 & A2 & V); auto.
      - intros x Hx. apply Iff. apply in_map. auto.
      - intros ? [].
      - exists M. split; [exact E|]. split; [auto|]. split; [auto|]. intros p q. rewrite V. cbn [fo_dom fo_int fo_bdr].
        rewrite (rsum_ext _ _ (fun _ => 0%R)); [rewrite rsum_zero; ring|]. intros e He. cbn zeta. apply ind_0.
    Qed.

    Lemma bdr_matrix_ok b : b < List.length (attrs_of g c) ->
      exists M, bdr_matrix nu g test trial ts c b = Ok M /\ fm_h M = fe_size (fth test c) /\ fm_w M = fe_size (fth trial c) /\
      forall p q, fm_val M p q = rsum (List.length (me_bdr (mesh_of g c))) (fun e => let x := nth e (me_bdr (mesh_of g c)) (0%Z, false) in
        ind (snd x && (fst x =? nth b (attrs_of g c) 0)%Z)%bool (nu_bdr nu bd (AtComp c) e p q)).
    Proof.
      intros Hb. unfold bdr_matrix. destruct (geo_comp c Hc) as (-> & ->). cbn [obind]. rewrite (oread_nth _ _ 0%Z) by auto. cbn [obind].
      destruct G as (_ & _ & _ & _ & Gc & _). destruct (Gc c Hc) as (_ & Ne & Pos & Iff). set (a := nth b (attrs_of g c) 0%Z).
      assert (Ia : In a (attrs_of g c)) by (apply nth_In; auto). pose proof (Pos a Ia) as Pa.
      destruct (attr_max_ok (attrs_of g c) Ne) as (top & -> & It & Mt). cbn [obind]. rewrite (proj2 (Z.ltb_lt _ _)) by auto. cbn [oguard].
      pose proof (Mt a Ia) as Ma. rewrite owrite_vec by (rewrite repeat_length; lia). cbn [obind].
      rewrite (oread_nth test c (Fes 0 (fun _ => []))), (oread_nth trial c (Fes 0 (fun _ => []))) by lia. cbn [obind]. rewrite T. cbn [obind].
      set (mk := upd (repeat 0%Z (Z.to_nat top)) (Z.to_nat (a - 1)) 1%Z).
      destruct (form_ok nu (AtComp c) (mesh_of g c) (attrs_of g c) (fe_size (fth test c)) (fe_size (fth trial c)) (Form [] [] [(bd, mk)])) as (M & E & A1 & A2 & V); auto.
      - intros x Hx. apply Iff. apply in_map. auto.
      - intros gm [<-|[]] y Hy. cbn [snd]. unfold mk. rewrite upd_length, repeat_length. specialize (Mt y Hy). pose proof (Pos y Hy). lia.
      - exists M. split; [exact E|]. split; [auto|]. split; [auto|]. intros p q. rewrite V. cbn [fo_dom fo_int fo_bdr]. unfold lsum at 1 2. cbn [fold_right].
        rewrite !Rplus_0_l. apply rsum_ext. intros e He. cbn zeta. unfold lsum. cbn [fold_right fst snd]. rewrite Rplus_0_r.
        set (x := nth e (me_bdr (mesh_of g c)) (0%Z, false)). assert (Ix : In (fst x) (attrs_of g c)) by (apply Iff, in_map, nth_In; auto).
        pose proof (Pos _ Ix). pose proof (Mt _ Ix). unfold DgSpec.wants.
        destruct (snd x); cbn [ind andb]; [|reflexivity]. f_equal. unfold mk. destruct (Z.eqb_spec (fst x) a) as [->|N].
        + replace (Z.to_nat a - 1) with (Z.to_nat (a - 1)) by lia. rewrite nth_upd_eq by (rewrite repeat_length; lia). reflexivity.
        + rewrite nth_upd_ne by lia. rewrite nth_repeat. reflexivity.
    Qed.
  End Comp.

  (** *** Meshes of subdomains *)
  Definition gat (m : nat) (a : Z) : Z := match TopoModel.zfind (attrs_of g (type_of g m)) a with Some i => nth i (row_of g m) 0%Z | None => 0%Z end.
  Definition smesh (m : nat) : mesh :=
    let me := mesh_of g (type_of g m) in Mesh (me_nel me) (me_nface me) (map (fun x => (gat m (fst x), snd x)) (me_bdr me)).

  Lemma sub_meshes_ok : omap (sub_mesh g) (seq 0 (List.length (g_types g))) = Ok (map smesh (seq 0 (nsub g))).
  Proof.
    apply DgRhsProofs.omap_all. intros m Hm. apply in_seq in Hm. cbn [Nat.add] in Hm. destruct G as (_ & La & Lc & Ty & Gc & Gr & _).
    assert (Hm' : m < nsub g) by (unfold nsub in *; lia). specialize (Ty m Hm'). destruct (Gc _ Ty) as (Nd & Ne & Pos & Iff). destruct (Gr m Hm') as (Lr & Pr).
    unfold sub_mesh. rewrite (oread_nth (g_types g) m 0) by (unfold nsub in *; lia). fold (type_of g m). cbn [obind]. destruct (geo_comp _ Ty) as (-> & ->). cbn [obind].
    rewrite (oread_nth (g_c2g g) m []) by lia. fold (row_of g m). cbn [obind].
    rewrite (DgRhsProofs.omap_all _ (fun x => (gat m (fst x), snd x))).
    - cbn [obind]. reflexivity.
    - intros x Hx. assert (Ix : In (fst x) (attrs_of g (type_of g m))) by (apply Iff, in_map; auto).
      unfold CompModel.elem_attr, gat. cbn [CompModel.c_attrs]. destruct (CompProofs.zfind_in _ _ Ix) as (i & Ei). rewrite Ei.
      pose proof (TopoProofs.zfind_some _ _ _ Ei) as (Ni & _). assert (Hi : i < List.length (row_of g m)) by (rewrite Lr; apply nth_error_Some; congruence).
      rewrite (oread_nth _ _ 0%Z) by auto. cbn [obind]. specialize (Pr _ (nth_In _ 0%Z Hi)). rewrite (proj2 (Z.leb_le _ _)) by lia. reflexivity.
  Qed.

  (** the global attribute of the elements of boundary [b] *)
  Lemma gat_at m b : m < nsub g -> b < List.length (row_of g m) -> gat m (nth b (attrs_of g (type_of g m)) 0%Z) = nth b (row_of g m) 0%Z.
  Proof.
    intros Hm Hb. destruct G as (_ & _ & _ & Ty & Gc & Gr & _). destruct (Gc _ (Ty m Hm)) as (Nd & _). destruct (Gr m Hm) as (Lr & _). unfold gat.
    assert (Ia : In (nth b (attrs_of g (type_of g m)) 0%Z) (attrs_of g (type_of g m))) by (apply nth_In; lia).
    destruct (CompProofs.zfind_in _ _ Ia) as (i & Ei). rewrite Ei. pose proof (TopoProofs.zfind_some _ _ _ Ei) as (Ni & _). f_equal.
    assert (Hi : i < List.length (attrs_of g (type_of g m))) by (apply nth_error_Some; congruence).
    apply (proj1 (NoDup_nth (attrs_of g (type_of g m)) 0%Z) Nd); auto; [lia|]. apply (nth_error_nth _ _ 0%Z) in Ni. auto.
  Qed.
  Lemma gat_row m x : m < nsub g -> In x (me_bdr (mesh_of g (type_of g m))) ->
    exists b, b < List.length (row_of g m) /\ fst x = nth b (attrs_of g (type_of g m)) 0%Z /\ gat m (fst x) = nth b (row_of g m) 0%Z.
  Proof.
    intros Hm Hx. destruct G as (_ & _ & _ & Ty & Gc & Gr & _). destruct (Gc _ (Ty m Hm)) as (Nd & _ & _ & Iff). destruct (Gr m Hm) as (Lr & _).
    assert (Ix : In (fst x) (attrs_of g (type_of g m))) by (apply Iff, in_map; auto). destruct (In_nth _ _ 0%Z Ix) as (b & Hb & E).
    exists b. split; [lia|]. split; [auto|]. rewrite <- E. apply gat_at; auto. lia.
  Qed.
  Lemma smesh_attrs m a : In a (sub_attrs (smesh m)) <-> exists x, In x (me_bdr (mesh_of g (type_of g m))) /\ a = gat m (fst x).
  Proof.
    unfold sub_attrs. rewrite (proj2 (proj2 (TopoProofs.update_attributes_complete (map fst (me_bdr (smesh m)))))). unfold smesh. cbn [me_bdr]. rewrite map_map. cbn [fst].
    rewrite in_map_iff. split; [intros (x & <- & H); eauto|]. intros (x & H & ->). exists x. auto.
  Qed.
  Lemma smesh_row m a : m < nsub g -> In a (sub_attrs (smesh m)) <-> In a (row_of g m).
  Proof.
    intros Hm. rewrite smesh_attrs. split.
    - intros (x & Hx & ->). destruct (gat_row m x Hm Hx) as (b & Hb & _ & ->). apply nth_In. auto.
    - intros H. destruct (In_nth _ _ 0%Z H) as (b & Hb & <-). destruct G as (_ & _ & _ & Ty & Gc & Gr & _). destruct (Gc _ (Ty m Hm)) as (Nd & _ & _ & Iff). destruct (Gr m Hm) as (Lr & _).
      assert (Ia : In (nth b (attrs_of g (type_of g m)) 0%Z) (attrs_of g (type_of g m))) by (apply nth_In; lia).
      apply Iff in Ia. apply in_map_iff in Ia as (x & E & Hx). exists x. split; [auto|]. rewrite E. symmetry. apply gat_at; auto.
  Qed.
  Lemma smesh_pos m a : m < nsub g -> In a (sub_attrs (smesh m)) -> (0 < a)%Z.
  Proof. intros Hm H. apply smesh_row in H; auto. destruct G as (_ & _ & _ & _ & _ & Gr & _). destruct (Gr m Hm) as (_ & P). auto. Qed.
  Lemma smesh_ne m : m < nsub g -> sub_attrs (smesh m) <> [].
  Proof.
    intros Hm E. destruct G as (_ & _ & _ & Ty & Gc & Gr & _). destruct (Gc _ (Ty m Hm)) as (Nd & Ne & _ & Iff). destruct (Gr m Hm) as (Lr & _).
    assert (H : In (nth 0 (row_of g m) 0%Z) (sub_attrs (smesh m))).
    { apply smesh_row; auto. apply nth_In. rewrite Lr. destruct (attrs_of g (type_of g m)); [congruence|]. cbn. lia. }
    rewrite E in H. destruct H.
  Qed.

  Definition sattrs : list (list Z) := map sub_attrs (map smesh (seq 0 (nsub g))).
  Lemma sattrs_nth m : m < nsub g -> nth m sattrs [] = sub_attrs (smesh m).
  Proof.
    intros Hm. unfold sattrs. rewrite map_map, (nth_indep _ [] (sub_attrs (smesh 0))) by (rewrite map_length, seq_length; auto).
    rewrite (map_nth (fun x => sub_attrs (smesh x)) (seq 0 (nsub g)) 0), seq_nth by auto. reflexivity.
  Qed.

  Lemma markers_ok : exists marks types n, setup_bc sattrs (g_gattr g) = Ok (marks, types) /\ List.length marks = List.length (g_gattr g) /\
    (forall m a, m < nsub g -> In a (sub_attrs (smesh m)) -> (a <= Z.of_nat n)%Z) /\
    forall b, b < List.length (g_gattr g) -> exists mk, nth_error marks b = Some mk /\ List.length mk = n /\
      forall a, (0 < a <= Z.of_nat n)%Z -> nth (Z.to_nat a - 1) mk 0%Z = if (a =? nth b (g_gattr g) 0)%Z then 1%Z else 0%Z.
  Proof.
    destruct (MbProperties.C43_markers sattrs (g_gattr g)) as (marks & types & n & E & L & _ & U & V).
    - unfold sattrs. destruct G as (P & _). destruct (nsub g); [lia|]. discriminate.
    - intros l Hl. unfold sattrs in Hl. rewrite map_map in Hl. apply in_map_iff in Hl as (m & <- & Hm). apply in_seq in Hm. apply smesh_ne. lia.
    - intros a Ha. pose proof G as (_ & _ & _ & _ & _ & Gr & _ & Ga & _). destruct (Ga a Ha) as (m & Hm & H). split; [apply (Gr m Hm); auto|].
      exists (sub_attrs (smesh m)), a. split; [|split; [apply smesh_row; auto|lia]]. unfold sattrs. rewrite map_map. apply (in_map (fun x => sub_attrs (smesh x))). apply in_seq. lia.
    - exists marks, types, n. split; [exact E|]. split; [exact L|]. split.
      + intros m a Hm Ha. apply (U (sub_attrs (smesh m))); auto. unfold sattrs. rewrite map_map. apply (in_map (fun x => sub_attrs (smesh x))). apply in_seq. lia.
      + intros b Hb. destruct (V b (nth b (g_gattr g) 0%Z)) as (mk & E1 & E2 & E3). { apply nth_error_nth'. auto. }
        exists mk. split; [auto|]. split; [auto|]. intros a Ha. rewrite E3 by lia. replace (Z.of_nat (Z.to_nat a - 1) + 1)%Z with a by lia. reflexivity.
  Qed.

  (** *** Boundary conditions *)
  Definition conds (fv : nat -> option unit) (m : nat) : list nat :=
    filter (fun b => existsb (Z.eqb (nth b (g_gattr g) 0%Z)) (nth m sattrs []) && match fv b with Some _ => true | None => false end)%bool (seq 0 (List.length (g_gattr g))).
  Lemma select_terms (fv : nat -> option unit) m : m < nsub g ->
    flat_map (fun x : nat * nat * unit => if fst (fst x) =? m then [snd (fst x)] else []) (BcSpec.terms sattrs (g_gattr g) fv) = conds fv m.
  Proof.
    intros Hm. unfold BcSpec.terms. assert (FM : forall {A B C} (f : B -> list C) (h : A -> list B) l, flat_map f (flat_map h l) = flat_map (fun a => flat_map f (h a)) l).
    { intros A B C f h l. induction l as [|a l IH]; [reflexivity|]. cbn [flat_map]. rewrite flat_map_app, IH. reflexivity. }
    rewrite FM. assert (Ls : List.length sattrs = nsub g) by (unfold sattrs; rewrite !map_length, seq_length; auto). rewrite Ls.
    set (inner := fun m' : nat => flat_map (fun b => if existsb (Z.eqb (nth b (g_gattr g) 0%Z)) (nth m' sattrs []) then match fv b with Some r => [(m', b, r)] | None => [] end else []) (seq 0 (List.length (g_gattr g)))).
    assert (I0 : forall m', flat_map (fun x : nat * nat * unit => if fst (fst x) =? m then [snd (fst x)] else []) (inner m') = if m' =? m then conds fv m else []).
    { intros m'. unfold inner, conds. rewrite FM. destruct (Nat.eqb_spec m' m) as [->|N].
      - generalize (seq 0 (List.length (g_gattr g))). intros l. induction l as [|b l IH]; [reflexivity|]. cbn [flat_map filter]. rewrite IH.
        destruct (existsb _ _); [|reflexivity]. destruct (fv b) as [[]|]; cbn [flat_map app fst snd andb]; [rewrite Nat.eqb_refl|]; reflexivity.
      - generalize (seq 0 (List.length (g_gattr g))). intros l. induction l as [|b l IH]; [reflexivity|]. cbn [flat_map]. rewrite IH.
        destruct (existsb _ _); [|reflexivity]. destruct (fv b) as [[]|]; cbn [flat_map app fst snd]; [rewrite (proj2 (Nat.eqb_neq _ _) N)|]; reflexivity. }
    assert (J : forall n, flat_map (fun a => flat_map (fun x : nat * nat * unit => if fst (fst x) =? m then [snd (fst x)] else []) (inner a)) (seq 0 n) = if m <? n then conds fv m else []).
    { induction n as [|n IH]; [reflexivity|]. rewrite seq_S, flat_map_app, IH. cbn [flat_map Nat.add]. rewrite app_nil_r, I0.
      destruct (Nat.ltb_spec m n), (Nat.ltb_spec m (S n)), (Nat.eqb_spec n m); try lia; auto using app_nil_r. }
    etransitivity; [apply J|]. rewrite (proj2 (Nat.ltb_lt _ _)) by auto. reflexivity.
  Qed.

  Lemma conds_lt fv m b : In b (conds fv m) -> b < List.length (g_gattr g).
  Proof. unfold conds. rewrite filter_In, in_seq. intros (H & _). lia. Qed.

  (** how often the markers select a face: once, if there is a condition *)
  Lemma conds_sum (fv : nat -> option unit) enf m a (x : R) : m < nsub g -> In a (sub_attrs (smesh m)) ->
    (forall a, enf a = true <-> exists b, nth_error (g_gattr g) b = Some a /\ fv b <> None) ->
    lsum (fun b => ind (a =? nth b (g_gattr g) 0)%Z x) (conds fv m) = ind (enf a) x.
  Proof.
    intros Hm Ha He. unfold conds. rewrite lsum_filter, lsum_seq. cbn [Nat.add].
    pose proof G as (_ & _ & _ & _ & _ & _ & Nd & _).
    assert (EX : existsb (Z.eqb a) (nth m sattrs []) = true) by (rewrite sattrs_nth by auto; apply existsb_exists; exists a; rewrite Z.eqb_refl; auto).
    destruct (enf a) eqn:Ee.
    - apply He in Ee as (b & Eb & Hf). assert (Hb : b < List.length (g_gattr g)) by (apply nth_error_Some; congruence).
      apply (nth_error_nth _ _ 0%Z) in Eb. rewrite (rsum_single _ b); auto.
      + rewrite Eb, EX. destruct (fv b); [|congruence]. cbn [andb]. rewrite Z.eqb_refl. reflexivity.
      + intros b' Hb' N. destruct (_ && _)%bool; auto. destruct (Z.eqb_spec a (nth b' (g_gattr g) 0%Z)) as [E|]; auto. exfalso. apply N.
        apply (proj1 (NoDup_nth (g_gattr g) 0%Z) Nd); auto. congruence.
    - cbn [ind]. etransitivity; [|apply (rsum_zero (List.length (g_gattr g)))]. apply rsum_ext. intros b Hb.
      destruct (_ && _)%bool eqn:P; auto. destruct (Z.eqb_spec a (nth b (g_gattr g) 0%Z)) as [E|]; auto. exfalso.
      apply andb_true_iff in P as (_ & P). assert (X : enf a = true); [|congruence]. apply He. exists b. split.
      + rewrite E. apply nth_error_nth'. auto.
      + destruct (fv b); congruence.
  Qed.
End Geo.
