(** The full-order matrices. *)
From Coq Require Import Reals List Bool Lia Lra Arith ZArith.
From Verif Require Import Outcome ListLemmas LaBase LinalgModel LinalgSpec BlockVec RomModel RomSpec RomProofs MbModel MbSpec MbMiscProofs EqpSpec EqpAccProofs IntegProofs ItfModel ItfSpec ItfProofs ItfAlgProofs ItfPortProofs ProbModel BcModel BcProofs BupModel BupSpec BupFormProofs.
From Verif Require CompModel CompProofs TopoModel TopoProofs DgModel DgSpec DgRhsProofs BcSpec MbProperties ItfProperties.
Import ListNotations.
Local Open Scope nat_scope.

Notation lsum := EqpSpec.lsum.

Section Full.
  Variables (nu : numerics) (g : geometry).
  Hypothesis G : geo_ok g.

  Lemma sub_fes_ok cfes : List.length cfes = ncomp g -> sub_fes g cfes = Ok (sub_spaces g cfes).
  Proof.
    intros L. unfold sub_fes, sub_spaces. apply DgRhsProofs.omap_all. intros c Hc. apply oread_nth. rewrite L.
    destruct G as (_ & _ & _ & Ty & _). destruct (In_nth _ _ 0 Hc) as (m & Hm & <-). apply (Ty m). auto.
  Qed.
  Lemma sub_spaces_len cfes : List.length (sub_spaces g cfes) = nsub g.
  Proof. apply map_length. Qed.
  Lemma sub_spaces_nth cfes m : m < nsub g -> fth (sub_spaces g cfes) m = fth cfes (type_of g m).
  Proof.
    intros Hm. unfold fth at 1, sub_spaces, type_of. rewrite (nth_indep _ _ (fth cfes 0)) by (rewrite map_length; auto). rewrite (map_nth (fth cfes)). reflexivity.
  Qed.

  Variable fv : nat -> option unit.
  Variable enf : Z -> bool.
  Hypothesis Enf : forall a, enf a = true <-> exists b, nth_error (g_gattr g) b = Some a /\ fv b <> None.

  (** ** Faces of the boundary *)
  Definition bdr_sum (bd : itg) (m i j : nat) : R :=
    let me := mesh_of g (type_of g m) in
    rsum (List.length (row_of g m)) (fun b => ind (enf (nth b (row_of g m) 0%Z))
         (rsum (List.length (me_bdr me)) (fun e => let x := nth e (me_bdr me) (0%Z, false) in
            ind (snd x && (fst x =? nth b (attrs_of g (type_of g m)) 0)%Z)%bool (nu_bdr nu bd (AtSub m) e i j)))).

  Lemma bdr_sum_faces bd m i j : m < nsub g -> bdr_sum bd m i j =
    let me := mesh_of g (type_of g m) in
    rsum (List.length (me_bdr me)) (fun e => let x := nth e (me_bdr me) (0%Z, false) in ind (snd x) (ind (enf (gat g m (fst x))) (nu_bdr nu bd (AtSub m) e i j))).
  Proof.
    intros Hm. unfold bdr_sum. cbn zeta. set (me := mesh_of g (type_of g m)).
    rewrite (rsum_ext _ _ (fun b => rsum (List.length (me_bdr me)) (fun e => ind (enf (nth b (row_of g m) 0%Z)) (ind (snd (nth e (me_bdr me) (0%Z, false)) && (fst (nth e (me_bdr me) (0%Z, false)) =? nth b (attrs_of g (type_of g m)) 0)%Z)%bool (nu_bdr nu bd (AtSub m) e i j)))))
      by (intros b Hb; apply ind_rsum).
    rewrite rsum_swap. apply rsum_ext. intros e He. set (x := nth e (me_bdr me) (0%Z, false)).
    destruct (gat_row g G m x Hm) as (b & Hb & E1 & E2). { apply nth_In. auto. }
    pose proof G as (_ & _ & _ & Ty & Gc & Gr & _). destruct (Gc _ (Ty m Hm)) as (Nd & _). destruct (Gr m Hm) as (Lr & _).
    rewrite (rsum_single _ b); auto.
    - rewrite E2, E1, Z.eqb_refl, andb_true_r. destruct (enf _), (snd x); reflexivity.
    - intros b' Hb' N. destruct (Z.eqb_spec (fst x) (nth b' (attrs_of g (type_of g m)) 0%Z)) as [E|]; [|rewrite andb_false_r; apply ind_0].
      exfalso. apply N. apply (proj1 (NoDup_nth (attrs_of g (type_of g m)) 0%Z) Nd); first [lia|congruence].
  Qed.

  Section Form.
    Variables (ctest ctrial : list fespace) (ts : nat -> outcome terms) (dom int : list itg) (bd : itg).
    Hypotheses (Lt : List.length ctest = ncomp g) (Lr : List.length ctrial = ncomp g) (T : forall m, m < nsub g -> ts m = Ok (dom, int, bd)).
    Let te := sub_spaces g ctest.
    Let tr := sub_spaces g ctrial.

    Definition diag_val (m i j : nat) : R :=
      let me := mesh_of g (type_of g m) in
      (lsum (fun I => rsum (me_nel me) (fun e => nu_dom nu I (AtSub m) e i j)) dom
       + lsum (fun I => rsum (me_nface me) (fun e => nu_int nu I (AtSub m) e i j)) int + bdr_sum bd m i j)%R.

    Lemma sub_matrices_ok marks n : List.length marks = List.length (g_gattr g) ->
      (forall m a, m < nsub g -> In a (sub_attrs (smesh g m)) -> (a <= Z.of_nat n)%Z) ->
      (forall b, b < List.length (g_gattr g) -> exists mk, nth_error marks b = Some mk /\ List.length mk = n /\
        forall a, (0 < a <= Z.of_nat n)%Z -> nth (Z.to_nat a - 1) mk 0%Z = if (a =? nth b (g_gattr g) 0)%Z then 1%Z else 0%Z) ->
      exists A, sub_matrices nu (map (smesh g) (seq 0 (nsub g))) te tr ts marks (BcSpec.terms (sattrs g) (g_gattr g) fv) = Ok A /\ mats_fit te tr A /\
        forall m m' i j, m < nsub g -> m' < nsub g -> val (A m m') i j = ind (m =? m') (diag_val m i j).
    Proof.
      intros Lm Un Mk. unfold sub_matrices. rewrite map_length, seq_length.
      assert (D : forall m, m < nsub g -> exists M,
        (let* me := oread (map (smesh g) (seq 0 (nsub g))) m in let* s := oread te m in let* t := oread tr m in let* (dom, int, bd) := ts m in
         let* ib := bdr_integs bd marks (BcSpec.terms (sattrs g) (g_gattr g) fv) m in
         form_matrix nu (AtSub m) me (sub_attrs me) (fe_size s) (fe_size t) (Form dom int ib)) = Ok M /\
        fm_h M = fe_size (fth te m) /\ fm_w M = fe_size (fth tr m) /\ forall i j, fm_val M i j = diag_val m i j).
      { intros m Hm. rewrite (oread_nth _ _ (smesh g 0)) by (rewrite map_length, seq_length; auto). rewrite (map_nth (smesh g)), seq_nth by auto. cbn [obind Nat.add].
        rewrite (oread_nth te m (Fes 0 (fun _ => []))), (oread_nth tr m (Fes 0 (fun _ => []))) by (unfold te, tr; rewrite sub_spaces_len; auto). cbn [obind].
        fold (fth te m) (fth tr m). rewrite T by auto. cbn [obind]. unfold bdr_integs. rewrite (select_terms g fv m Hm).
        rewrite (DgRhsProofs.omap_all _ (fun b => (bd, nth b marks []))).
        2:{ intros b Hb. apply conds_lt in Hb. rewrite (oread_nth _ _ []) by lia. reflexivity. }
        cbn [obind].
        destruct (form_ok nu (AtSub m) (smesh g m) (sub_attrs (smesh g m)) (fe_size (fth te m)) (fe_size (fth tr m))
          (Form dom int (map (fun b => (bd, nth b marks [])) (conds g fv m)))) as (M & E & A1 & A2 & V).
        - apply smesh_ne; auto.
        - intros x Hx. unfold sub_attrs. apply (proj2 (proj2 (TopoProofs.update_attributes_complete _))). apply in_map. auto.
        - intros a Ha. eapply smesh_pos; eauto.
        - intros gm Hg a Ha. apply in_map_iff in Hg as (b & <- & Hb). cbn [snd]. apply conds_lt in Hb. destruct (Mk b Hb) as (mk & E1 & E2 & _).
          rewrite (nth_error_nth _ _ [] E1), E2. eapply Un; eauto.
        - exists M. split; [exact E|]. split; [auto|]. split; [auto|]. intros i j. rewrite V. unfold diag_val. cbn [fo_dom fo_int fo_bdr]. f_equal.
          rewrite bdr_sum_faces by auto. cbn zeta. unfold smesh. cbn [me_bdr]. set (me := mesh_of g (type_of g m)). rewrite map_length.
          apply rsum_ext. intros e He.
          rewrite (nth_indep _ (0%Z, false) ((fun x => (gat g m (fst x), snd x)) (0%Z, false))) by (rewrite map_length; auto).
          rewrite (map_nth (fun x => (gat g m (fst x), snd x)) (me_bdr me) (0%Z, false)). set (x := nth e (me_bdr me) (0%Z, false)). cbn [fst snd]. f_equal.
          assert (Ia : In (gat g m (fst x)) (sub_attrs (smesh g m))) by (apply smesh_attrs; exists x; split; [apply nth_In; auto|auto]).
          rewrite lsum_map. cbn [fst snd]. rewrite <- (conds_sum g G fv enf m _ _ Hm Ia Enf). apply lsum_ext_in. intros b Hb. apply conds_lt in Hb.
          destruct (Mk b Hb) as (mk & E1 & E2 & E3). unfold DgSpec.wants. rewrite (nth_error_nth _ _ [] E1), E3.
          + destruct (gat g m (fst x) =? nth b (g_gattr g) 0)%Z; reflexivity.
          + split; [eapply smesh_pos; eauto|eapply Un; eauto]. }
      assert (DD : exists diag, omap (fun m => let* me := oread (map (smesh g) (seq 0 (nsub g))) m in let* s := oread te m in let* t := oread tr m in let* (dom, int, bd) := ts m in
         let* ib := bdr_integs bd marks (BcSpec.terms (sattrs g) (g_gattr g) fv) m in
         form_matrix nu (AtSub m) me (sub_attrs me) (fe_size s) (fe_size t) (Form dom int ib)) (seq 0 (nsub g)) = Ok diag /\ List.length diag = nsub g /\
         forall m, m < nsub g -> exists M, nth_error diag m = Some M /\ fm_h M = fe_size (fth te m) /\ fm_w M = fe_size (fth tr m) /\ forall i j, fm_val M i j = diag_val m i j).
      { set (F := fun m => match (let* me := oread (map (smesh g) (seq 0 (nsub g))) m in let* s := oread te m in let* t := oread tr m in let* (dom, int, bd) := ts m in
         let* ib := bdr_integs bd marks (BcSpec.terms (sattrs g) (g_gattr g) fv) m in
         form_matrix nu (AtSub m) me (sub_attrs me) (fe_size s) (fe_size t) (Form dom int ib)) with Ok M => M | _ => FMat 0 0 (fun _ _ => 0%R) end).
        exists (map F (seq 0 (nsub g))). split; [|split].
        - apply DgRhsProofs.omap_all. intros m Hm. apply in_seq in Hm. destruct (D m) as (M & E & _); [lia|]. unfold F. rewrite E. reflexivity.
        - rewrite map_length, seq_length. reflexivity.
        - intros m Hm. destruct (D m Hm) as (M & E & R). exists M. split; [|exact R]. rewrite nth_error_map, (nth_error_nth' _ 0) by (rewrite seq_length; auto).
          rewrite seq_nth by auto. cbn [option_map Nat.add]. unfold F. rewrite E. reflexivity. }
      destruct DD as (diag & -> & Ld & Vd). cbn [obind]. eexists. split; [reflexivity|]. split.
      - split; [unfold te, tr; rewrite !sub_spaces_len; auto|]. intros i j Hi Hj. unfold te, tr in Hi, Hj. rewrite sub_spaces_len in Hi, Hj.
        rewrite (proj2 (Nat.ltb_lt _ _) Hi), (proj2 (Nat.ltb_lt _ _) Hj). cbn [andb]. destruct (Nat.eqb_spec i j) as [<-|N].
        + destruct (Vd i Hi) as (M & E & A1 & A2 & _). exists M. auto.
        + rewrite (nth_error_nth' te (Fes 0 (fun _ => []))), (nth_error_nth' tr (Fes 0 (fun _ => []))) by (unfold te, tr; rewrite sub_spaces_len; auto).
          eexists. split; [reflexivity|]. auto.
      - intros m m' i j Hm Hm'. rewrite (proj2 (Nat.ltb_lt _ _) Hm), (proj2 (Nat.ltb_lt _ _) Hm'). cbn [andb]. destruct (Nat.eqb_spec m m') as [<-|N]; cbn [ind].
        + destruct (Vd m Hm) as (M & E & _ & _ & V). rewrite E. cbn [val]. apply V.
        + destruct (nth_error te m), (nth_error tr m'); reflexivity.
    Qed.

    (** ** Interfaces *)
    Variable it : itg.
    Hypothesis I : itf_ok nu g ctest ctrial it.

    Lemma like k : k < List.length (g_ports g) -> like_ref te tr ctest ctrial [nu_itf nu it] (port_of g k) (ref_of g k).
    Proof.
      intros Hk. pose proof G as (_ & _ & _ & Ty & _ & _ & _ & _ & _ & Pk). destruct (Pk k Hk) as (_ & Ps). destruct I as (_ & _ & _ & _ & _ & F2).
      split; [|split; [|split]].
      - destruct (Ps 0) as (A & B); [lia|]. change (ip_m1 (ref_of g k)) with (side_mesh (ref_of g k) 0). rewrite B, Lt. auto.
      - destruct (Ps 1) as (A & B); [lia|]. change (ip_m2 (ref_of g k)) with (side_mesh (ref_of g k) 1). rewrite B, Lt. auto.
      - intros i Hi. destruct (Ps i Hi) as (A & B). unfold te, tr. rewrite !sub_spaces_nth by auto. rewrite B. auto.
      - auto.
    Qed.
    Lemma ref_in k : k < List.length (g_ports g) -> In (ref_of g k) (g_refs g).
    Proof. intros Hk. pose proof G as (_ & _ & _ & _ & _ & _ & _ & _ & _ & Pk). destruct (Pk k Hk) as (A & _). apply nth_In. auto. Qed.
    Lemma port_in p : In p (g_ports g) -> exists k, k < List.length (g_ports g) /\ p = port_of g k.
    Proof. intros H. destruct (In_nth _ _ (ItfPort 0 0 []) H) as (k & Hk & E). exists k. auto. Qed.
    Lemma real_face p f ports : In (p, f) (real_faces ports) <-> In p ports /\ In (Some f) (ip_faces p).
    Proof.
      unfold real_faces. rewrite in_flat_map. split.
      - intros (p' & Hp & H). apply in_flat_map in H as (fo & Hf & H). destruct fo as [f'|]; [|destruct H]. destruct H as [E|[]]. injection E as -> ->. auto.
      - intros (Hp & Hf). exists p. split; [auto|]. apply in_flat_map. exists (Some f). split; [auto|]. left. auto.
    Qed.
    (** faces of a port and of its reference port *)
    Lemma face_ref k f : k < List.length (g_ports g) -> In (Some f) (ip_faces (port_of g k)) ->
      exists f', In (Some f') (ip_faces (ref_of g k)) /\ same_face [nu_itf nu it] (Some f) (Some f').
    Proof.
      intros Hk. destruct I as (_ & _ & _ & _ & _ & F2). specialize (F2 k Hk). revert F2. generalize (ip_faces (port_of g k)) (ip_faces (ref_of g k)). intros l l' F.
      induction F as [|x y l l' Hxy F IH]; intros H; [destruct H|]. destruct H as [->|H].
      - destruct y as [f'|]; [|destruct Hxy]. exists f'. split; [left; auto|auto].
      - destruct (IH H) as (f' & A & B). exists f'. split; [right; auto|auto].
    Qed.
    Lemma dofs_ref cf k f f' i : k < List.length (g_ports g) -> f_e1 f = f_e1 f' -> f_e2 f = f_e2 f' -> i < 2 ->
      side_dofs (sub_spaces g cf) (port_of g k) f i = side_dofs cf (ref_of g k) f' i /\
      fth (sub_spaces g cf) (side_mesh (port_of g k) i) = fth cf (side_mesh (ref_of g k) i).
    Proof.
      intros Hk E1 E2 Hi. pose proof G as (_ & _ & _ & _ & _ & _ & _ & _ & _ & Pk). destruct (Pk k Hk) as (_ & Ps). destruct (Ps i Hi) as (A & B).
      assert (X : fth (sub_spaces g cf) (side_mesh (port_of g k) i) = fth cf (side_mesh (ref_of g k) i)) by (rewrite sub_spaces_nth by auto; rewrite B; auto).
      split; [|exact X]. unfold side_dofs. unfold side_mesh in X. rewrite X. rewrite E1, E2. reflexivity.
    Qed.
    Lemma fit_ports cf : ports_fit cf (g_refs g) -> ports_fit (sub_spaces g cf) (g_ports g).
    Proof.
      intros (R1 & R2). split.
      - intros p Hp. apply port_in in Hp as (k & Hk & ->). rewrite sub_spaces_len. pose proof G as (_ & _ & _ & _ & _ & _ & _ & _ & _ & Pk). destruct (Pk k Hk) as (_ & Ps).
        split; [apply (Ps 0); lia|apply (Ps 1); lia].
      - intros p f i H Hi d Hd. apply real_face in H as (Hp & Hf). apply port_in in Hp as (k & Hk & ->). destruct (face_ref k f Hk Hf) as (f' & Hf' & (E1 & E2 & _)).
        destruct (dofs_ref cf k f f' i Hk E1 E2 Hi) as (X & Y). rewrite Y. rewrite X in Hd. apply (R2 (ref_of g k) f' i); auto. apply real_face. split; auto. apply ref_in. auto.
    Qed.
    Lemma fit_elems : elem_fits te tr (g_ports g) (fun _ => nu_itf nu it).
    Proof.
      destruct I as (_ & _ & _ & _ & EF & _). intros p f i j H Hi Hj. apply real_face in H as (Hp & Hf). apply port_in in Hp as (k & Hk & ->).
      destruct (face_ref k f Hk Hf) as (f' & Hf' & (E1 & E2 & SE)). destruct (dofs_ref ctest k f f' i Hk E1 E2 Hi) as (X & _). destruct (dofs_ref ctrial k f f' j Hk E1 E2 Hj) as (Y & _).
      unfold te, tr. rewrite X, Y. destruct (SE (nu_itf nu it) i j) as (S1 & S2 & _); auto; [left; auto|]. rewrite S1, S2. apply (EF (ref_of g k) f' i j); auto.
      apply real_face. split; auto. apply ref_in. auto.
    Qed.

    (** the matrix of every reference port *)
    Lemma ref_port_ok r : In r (g_refs g) -> exists P, port_matrix ctest ctrial [nu_itf nu it] (ip_m1 r) (ip_m2 r) (ip_faces r) = Ok P /\
      forall i j, i < 2 -> j < 2 -> exists M, P i j = Some M /\ fm_h M = fe_size (fth ctest (side_mesh r i)) /\ fm_w M = fe_size (fth ctrial (side_mesh r j)).
    Proof.
      intros Hr. destruct I as (_ & _ & (R1 & R2) & (R3 & R4) & EF & _). destruct (R1 r Hr) as (A1 & A2).
      destruct (port_ok ctest ctrial ctest ctrial [nu_itf nu it] r r) as (P & E & (_ & F) & _).
      - split; [auto|]. split; [auto|]. split; [auto|]. induction (ip_faces r) as [|x l IH]; constructor; auto. destruct x as [f|]; cbn; auto.
        split; [auto|]. split; [auto|]. intros h i j Hh Hi Hj. split; auto.
      - congruence.
      - intros f i d Hf Hi Hd. apply (R2 r f i); auto. apply real_face. auto.
      - intros f i d Hf Hi Hd. apply (R4 r f i); auto. apply real_face. auto.
      - intros h f i j Hf [<-|[]] Hi Hj. apply (EF r f i j); auto. apply real_face. auto.
      - exists P. split; [exact E|]. intros i j Hi Hj. destruct (F i j) as (M & EM & B1 & B2); auto. exists M. split; [auto|].
        destruct i as [|[|i]]; [| |lia]; (destruct j as [|[|j]]; [| |lia]); auto.
    Qed.

    Lemma prs_fst : map fst (map (fun k => (port_of g k, ref_of g k)) (seq 0 (List.length (g_ports g)))) = g_ports g.
    Proof.
      rewrite map_map. cbn [fst]. unfold port_of. apply (nth_ext _ _ (ItfPort 0 0 []) (ItfPort 0 0 [])); [rewrite map_length, seq_length; auto|].
      intros k Hk. rewrite map_length, seq_length in Hk. rewrite (nth_indep _ _ ((fun k => nth k (g_ports g) (ItfPort 0 0 [])) 0)) by (rewrite map_length, seq_length; auto).
      rewrite (map_nth (fun k => nth k (g_ports g) (ItfPort 0 0 [])) (seq 0 (List.length (g_ports g))) 0), seq_nth by auto. reflexivity.
    Qed.

    Lemma full_ok A : mats_fit te tr A -> (forall m m' i j, m < nsub g -> m' < nsub g -> val (A m m') i j = ind (m =? m') (diag_val m i j)) ->
      exists A' (P : itf_port -> blockmat), mixed_matrices te tr [nu_itf nu it] (g_ports g) A = Ok A' /\ (te = tr -> itf_matrices te [nu_itf nu it] (g_ports g) A = Ok A') /\
        mats_fit te tr A' /\
        (forall m m' i j, m < nsub g -> m' < nsub g -> val (A' m m') i j = full_entry nu g ctest ctrial dom int bd it enf m m' i j) /\
        (forall r, In r (g_refs g) -> port_matrix ctest ctrial [nu_itf nu it] (ip_m1 r) (ip_m2 r) (ip_faces r) = Ok (P r) /\
           forall i j, i < 2 -> j < 2 -> exists M, P r i j = Some M /\ fm_h M = fe_size (fth ctest (side_mesh r i)) /\ fm_w M = fe_size (fth ctrial (side_mesh r j))) /\
        forall m m' i j, m < nsub g -> m' < nsub g -> val (A' m m') i j = (ind (m =? m') (diag_val m i j) + rsum (List.length (g_ports g)) (fun k =>
          rsum 2 (fun s => rsum 2 (fun t => ind ((side_mesh (port_of g k) s =? m) && (side_mesh (port_of g k) t =? m')) (val (P (ref_of g k) s t) i j)))))%R.
    Proof.
      intros MF V. pose proof I as (_ & _ & F1 & F2 & EF & _).
      set (P := fun r => match port_matrix ctest ctrial [nu_itf nu it] (ip_m1 r) (ip_m2 r) (ip_faces r) with Ok P => P | _ => fun _ _ => None end).
      set (prs := map (fun k => (port_of g k, ref_of g k)) (seq 0 (List.length (g_ports g)))).
      destruct (ItfProperties.C49_matrices te tr [nu_itf nu it] (g_ports g) A (fit_ports _ F1) (fit_ports _ F2) MF) as (A' & E & MF' & EI & VI).
      { intros h [<-|[]]. apply fit_elems. }
      destruct (ItfProperties.C49_port_matrices te tr ctest ctrial [nu_itf nu it] prs A) as (A'' & P' & E' & EP & VP).
      { congruence. } { unfold prs. rewrite prs_fst. apply fit_ports; auto. } { unfold prs. rewrite prs_fst. apply fit_ports; auto. } { exact MF. }
      { intros h [<-|[]]. unfold prs. rewrite prs_fst. apply fit_elems. }
      { intros p r H. unfold prs in H. apply in_map_iff in H as (k & Ek & Hk). injection Ek as <- <-. apply in_seq in Hk. apply like. lia. }
      unfold prs in E'. rewrite prs_fst in E'. rewrite E in E'. injection E' as <-.
      exists A', P. split; [exact E|]. split; [exact EI|]. split; [exact MF'|]. split; [|split].
      - intros m m' i j Hm Hm'. specialize (VI (m, i) (m', j)). unfold bm_entry in VI. cbn [fst snd] in VI. rewrite VI, V by auto. unfold full_entry. cbn zeta. f_equal.
      - intros r Hr. destruct (ref_port_ok r Hr) as (Q & EQ & F). unfold P. rewrite EQ. split; [reflexivity|exact F].
      - intros m m' i j Hm Hm'. specialize (VP m i m' j). unfold bm_entry in VP. cbn [fst snd] in VP. rewrite VP, V by auto. f_equal.
        assert (SL : forall (l : list nat) (h : itf_port * itf_port -> R) (f : nat -> itf_port * itf_port), sum_list (map f l) h = lsum (fun k => h (f k)) l).
        { intros l h f. induction l as [|x l IH]; [reflexivity|]. cbn [map sum_list fold_right]. unfold sum_list in IH. rewrite IH. reflexivity. }
        unfold prs. rewrite SL, lsum_seq. cbn [Nat.add fst snd]. apply rsum_ext. intros k Hk. apply rsum_ext. intros s Hs. apply rsum_ext. intros t Ht.
        assert (EQ : port_matrix ctest ctrial [nu_itf nu it] (ip_m1 (ref_of g k)) (ip_m2 (ref_of g k)) (ip_faces (ref_of g k)) = Ok (P' (ref_of g k))).
        { apply (EP (port_of g k)). unfold prs. apply (in_map (fun k => (port_of g k, ref_of g k))). apply in_seq. lia. }
        unfold P. rewrite EQ. reflexivity.
    Qed.
  End Form.
End Full.
