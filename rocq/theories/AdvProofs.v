(** Coefficients and Stokes solvers of the advection-diffusion solver through any sequence of calls. *)
From Coq Require Import Reals List Bool Lia Arith ZArith String.
From Verif Require Import Outcome ListLemmas LaBase LinalgModel BlockVec RomModel MbModel EqpSpec ItfModel ProbModel BcModel BupModel AdvModel AdvSpec.
Import ListNotations.
Local Open Scope nat_scope.

Definition distinct (ps : list (option nat)) : Prop := forall a b i, nth_error ps a = Some (Some i) -> nth_error ps b = Some (Some i) -> a = b.

Lemma live_lt {A} (cells : list (option A)) i : live cells i -> i < List.length cells.
Proof. intros (x & E). apply nth_error_Some. congruence. Qed.

Lemma del_all_ok {A} (ps : list (option nat)) : forall cells : list (option A), (forall i, In (Some i) ps -> live cells i) -> distinct ps ->
  exists cells', del_all cells ps = Ok cells' /\ List.length cells' = List.length cells /\
    (forall i, In (Some i) ps -> nth_error cells' i = Some None) /\ forall i, ~ In (Some i) ps -> nth_error cells' i = nth_error cells i.
Proof.
  unfold del_all. induction ps as [|p ps IH]; intros cells Lv D.
  - exists cells. split; [reflexivity|]. split; [reflexivity|]. split; [intros i []|auto].
  - cbn [ofold]. assert (D' : distinct ps) by (intros a b i Ha Hb; specialize (D (S a) (S b) i Ha Hb); lia).
    destruct p as [i|]; cbn [del].
    + destruct (Lv i (or_introl eq_refl)) as (x & Ex). unfold oread. rewrite Ex. cbn [obind].
      pose proof (live_lt cells i (Lv i (or_introl eq_refl))) as Li. rewrite owrite_vec by auto. cbn [obind].
      assert (Ni : ~ In (Some i) ps). { intros H. apply In_nth_error in H as (k & Hk). specialize (D 0 (S k) i eq_refl Hk). lia. }
      destruct (IH (upd cells i None)) as (cells' & E & L & V1 & V2); auto.
      { intros j Hj. destruct (Lv j (or_intror Hj)) as (y & Ey). exists y. rewrite nth_error_upd_ne; [exact Ey|]. intros ->. auto. }
      exists cells'. split; [exact E|]. rewrite L, upd_length. split; [reflexivity|]. split.
      * intros j [Hj|Hj]; [injection Hj as <-|apply V1; exact Hj]. rewrite V2 by exact Ni. apply nth_error_upd_eq. exact Li.
      * intros j Hj. rewrite V2 by (intros H; apply Hj; right; exact H). apply nth_error_upd_ne. intros ->. apply Hj. left. reflexivity.
    + cbn [obind]. destruct (IH cells) as (cells' & E & L & V1 & V2); auto. { intros j Hj. apply Lv. right. exact Hj. }
      exists cells'. split; [exact E|]. split; [exact L|]. split.
      * intros j [Hj|Hj]; [discriminate|]. apply V1. exact Hj.
      * intros j Hj. apply V2. intros H. apply Hj. right. exact H.
Qed.

Section Adv.
  Variables (c : acfg) (L : flows).
  Hypothesis FO : flows_ok c L.

  (** What a live coefficient of subdomain [m] looks like. *)
  Definition coef_ok (s : astate) (m : nat) (co : fcoeff) : Prop :=
    match co with FFun _ => True | FGrid n k => k = 2 * m /\ exists u, nth_error (a_solvers s) n = Some (Some (BVec (fl_off L) u)) /\ List.length u = last (fl_off L) 0 end.
  Definition sound (s : astate) : Prop :=
    List.length (a_flow s) = ac_nsub c /\ distinct (a_flow s) /\
    (forall m i, nth_error (a_flow s) m = Some (Some i) -> exists co, nth_error (a_coefs s) i = Some (Some co) /\ coef_ok s m co) /\
    (forall n, a_cur s = Some n -> exists u, nth_error (a_solvers s) n = Some (Some (BVec (fl_off L) u)) /\ List.length u = last (fl_off L) 0) /\
    files_ok (a_files s).

  Lemma block_ok (u : vec) m : List.length u = last (fl_off L) 0 -> m < ac_nsub c -> bv_get (BVec (fl_off L) u) (2 * m) = Ok (stokes_velocity L u m).
  Proof. intros Hu Hm. destruct FO as ((size & W) & _). apply (bv_get_ok _ _ size (W u Hu)). lia. Qed.
  Lemma layout (u : vec) : List.length u = last (fl_off L) 0 -> List.length (fl_off L) = 2 * ac_nsub c + 1.
  Proof. intros Hu. destruct FO as ((size & W) & _). destruct (W u Hu) as ((E & _) & _). cbn in E. lia. Qed.

  Lemma flow_lt s m i : sound s -> nth_error (a_flow s) m = Some (Some i) -> m < ac_nsub c.
  Proof. intros (Ln & _) E. rewrite <- Ln. apply nth_error_Some. congruence. Qed.

  Lemma sound_advects s m i : sound s -> nth_error (a_flow s) m = Some (Some i) -> exists b, advects s m b /\ form_velocity s i = Ok b.
  Proof.
    intros Sd E. pose proof (flow_lt s m i Sd E) as Hm. destruct Sd as (_ & _ & C & _). destruct (C m i E) as (co & Ec & K). destruct co as [f|n k].
    - exists (VelFun f). split; [|unfold form_velocity, oread; rewrite Ec; reflexivity]. exists i. split; [exact E|]. left. eauto.
    - destruct K as (-> & u & Eu & Hu). exists (VelGrid (stokes_velocity L u m)). split.
      + exists i. split; [exact E|]. right. exists n, (2 * m), (BVec (fl_off L) u), (stokes_velocity L u m). repeat split; auto. apply block_ok; auto.
      + unfold form_velocity, oread. rewrite Ec. cbn [obind]. rewrite Eu. cbn [obind]. rewrite block_ok by auto. reflexivity.
  Qed.
  Lemma advects_fun s m b b' : advects s m b -> advects s m b' -> b = b'.
  Proof.
    intros (i & E & H) (i' & E' & H'). assert (i' = i) by congruence. subst i'.
    destruct H as [(f & H1 & ->)|(n & k & u & x & H1 & H2 & H3 & ->)], H' as [(f' & H1' & ->)|(n' & k' & u' & x' & H1' & H2' & H3' & ->)]; try congruence.
    all: rewrite H1 in H1'; injection H1' as <- <-; rewrite H2 in H2'; injection H2' as <-; congruence.
  Qed.

  (** *** New solver *)
  Lemma new_sound fs s : files_ok fs -> adv_new c fs = Ok s -> sound s.
  Proof.
    intros F E. unfold adv_new in E. apply oassert_ok in E as (_ & E). apply oassert_ok in E as (_ & E). injection E as <-.
    assert (N : forall m i, nth_error (repeat (@None nat) (ac_nsub c)) m = Some (Some i) -> False).
    { intros m i H. apply nth_error_In, repeat_spec in H. discriminate. }
    split; [cbn; apply repeat_length|]. split; [intros a b i H; destruct (N _ _ H)|]. split; [intros m i H; destruct (N _ _ H)|]. split; [intros n H; discriminate H|exact F].
  Qed.

  (** *** Setting functions *)
  Lemma put_sound f s k : sound s -> k < ac_nsub c ->
    sound (AState (a_coefs s ++ [Some (FFun f)]) (upd (a_flow s) k (Some (List.length (a_coefs s)))) (a_solvers s) (a_cur s) (a_forms s) (a_files s) (a_ps s)).
  Proof.
    intros (Ln & D & C & Cu & F) Hk. split; [cbn; rewrite upd_length; exact Ln|]. cbn [a_flow a_coefs a_solvers a_cur a_files].
    assert (Old : forall m i, m <> k -> nth_error (upd (a_flow s) k (Some (List.length (a_coefs s)))) m = Some (Some i) -> nth_error (a_flow s) m = Some (Some i) /\ i < List.length (a_coefs s)).
    { intros m i Hm E. rewrite nth_error_upd_ne in E by auto. split; [exact E|]. destruct (C m i E) as (co & Ec & _). apply nth_error_Some. congruence. }
    assert (New : nth_error (upd (a_flow s) k (Some (List.length (a_coefs s)))) k = Some (Some (List.length (a_coefs s)))) by (apply nth_error_upd_eq; lia).
    split; [|split; [|split; [exact Cu|exact F]]].
    - intros a b i Ha Hb. destruct (Nat.eq_dec a k) as [->|Na], (Nat.eq_dec b k) as [->|Nb]; auto.
      + rewrite New in Ha. injection Ha as <-. destruct (Old b _ Nb Hb). lia.
      + rewrite New in Hb. injection Hb as <-. destruct (Old a _ Na Ha). lia.
      + destruct (Old a _ Na Ha) as (Ea & _), (Old b _ Nb Hb) as (Eb & _). eapply D; eauto.
    - intros m i E. destruct (Nat.eq_dec m k) as [->|Nm].
      + rewrite New in E. injection E as <-. exists (FFun f). split; [|exact Logic.I]. rewrite nth_error_app2, Nat.sub_diag by lia. reflexivity.
      + destruct (Old m i Nm E) as (E' & Li). destruct (C m i E') as (co & Ec & K). exists co. split; [|exact K]. rewrite nth_error_app1 by auto. exact Ec.
  Qed.
  Lemma set_flow_ok f m s : sound s -> (m = -1 \/ (0 <= m /\ m < Z.of_nat (ac_nsub c)))%Z -> exists s', set_flow c f m s = Ok s' /\ sound s' /\
    a_solvers s' = a_solvers s /\ a_cur s' = a_cur s /\ a_forms s' = a_forms s /\ a_files s' = a_files s /\ a_ps s' = a_ps s /\
    (forall k, k < ac_nsub c -> (m = -1 \/ m = Z.of_nat k)%Z -> advects s' k (VelFun f)) /\
    (forall k b, (m <> -1 /\ m <> Z.of_nat k)%Z -> advects s k b -> advects s' k b).
  Proof.
    intros Sd Hm. pose proof Sd as (Ln & _). unfold set_flow. rewrite Ln, Nat.eqb_refl. cbn [oassert].
    replace ((m =? -1) || (0 <=? m) && (m <? Z.of_nat (ac_nsub c)))%Z with true by lia. cbn [oassert].
    set (put := fun s k => let* fl := owrite (a_flow s) k (Some (List.length (a_coefs s))) in
      Ok (AState (a_coefs s ++ [Some (FFun f)]) fl (a_solvers s) (a_cur s) (a_forms s) (a_files s) (a_ps s))).
    assert (P : forall s k, sound s -> k < ac_nsub c -> put s k = Ok (AState (a_coefs s ++ [Some (FFun f)]) (upd (a_flow s) k (Some (List.length (a_coefs s)))) (a_solvers s) (a_cur s) (a_forms s) (a_files s) (a_ps s))).
    { intros t k (Lt & _) Hk. unfold put. rewrite owrite_vec by lia. reflexivity. }
    assert (Keep : forall s k j b, sound s -> j <> k -> advects s j b -> advects (AState (a_coefs s ++ [Some (FFun f)]) (upd (a_flow s) k (Some (List.length (a_coefs s)))) (a_solvers s) (a_cur s) (a_forms s) (a_files s) (a_ps s)) j b).
    { intros t k j b St Nj (i & E & H). exists i. cbn [a_flow a_coefs a_solvers]. rewrite nth_error_upd_ne by auto. split; [exact E|].
      destruct St as (_ & _ & C & _). destruct (C j i E) as (co & Ec & _). rewrite nth_error_app1 by (apply nth_error_Some; congruence). exact H. }
    assert (Here : forall s k, sound s -> k < ac_nsub c -> advects (AState (a_coefs s ++ [Some (FFun f)]) (upd (a_flow s) k (Some (List.length (a_coefs s)))) (a_solvers s) (a_cur s) (a_forms s) (a_files s) (a_ps s)) k (VelFun f)).
    { intros t k (Lt & _) Hk. exists (List.length (a_coefs t)). cbn [a_flow a_coefs a_solvers]. rewrite nth_error_upd_eq by lia. split; [reflexivity|]. left. exists f. split; [|reflexivity].
      rewrite nth_error_app2, Nat.sub_diag by lia. reflexivity. }
    destruct (Z.eqb_spec m (-1)) as [->|Nm].
    - destruct (ofor_inv (ac_nsub c) put (fun k t => sound t /\ a_solvers t = a_solvers s /\ a_cur t = a_cur s /\ a_forms t = a_forms s /\ a_files t = a_files s /\ a_ps t = a_ps s /\
        forall j, j < k -> advects t j (VelFun f)) s) as (s' & E & St & I1 & I2 & I3 & I4 & I5 & I6).
      + repeat split; auto; try apply Sd. lia.
      + intros k t Hk (St & I1 & I2 & I3 & I4 & I5 & I6). eexists. split; [apply P; auto|]. split; [apply put_sound; auto|]. cbn [a_solvers a_cur a_forms a_files a_ps].
        do 5 (split; [assumption|]). intros j Hj. destruct (Nat.eq_dec j k) as [->|Nj]; [apply Here; auto|]. apply Keep; auto. apply I6. lia.
      + exists s'. split; [exact E|]. split; [exact St|]. do 5 (split; [assumption|]). split; [intros k Hk _; apply I6; exact Hk|]. lia.
    - assert (Hk : Z.to_nat m < ac_nsub c) by lia. eexists. split; [apply P; auto|]. split; [apply put_sound; auto|]. do 5 (split; [reflexivity|]). split.
      + intros k Hk' [H| ->]; [lia|]. rewrite Nat2Z.id. apply Here; auto.
      + intros k b (_ & H) A. apply Keep; auto. lia.
  Qed.

  (** *** The flow of a problem *)
  Lemma files_put fs n (u : vec) : files_ok fs -> files_ok (fput fs n (SFile (Some ([List.length u], u)) None None)).
  Proof.
    intros F name f k v E Ev. unfold fput in E. destruct (String.eqb name n); [|eapply F; eauto]. injection E as <-. cbn in Ev. injection Ev as <- <-. reflexivity.
  Qed.

  (** The end of [GetFlowField], given the flow and the files. *)
  Lemma coefs_ok s (u : vec) : sound s -> List.length u = last (fl_off L) 0 ->
    exists cells cells' fl, del_all (a_coefs s) (a_flow s) = Ok cells /\
      ofor (ac_nsub c) (fun cf m => oguard (m * flow_nvar <? List.length (fl_off L) - 1) (
        let* fl := owrite (snd cf) m (Some (List.length (fst cf))) in
        Ok (fst cf ++ [Some (FGrid (List.length (a_solvers s)) (m * flow_nvar))], fl))) (cells, a_flow s) = Ok (cells', fl) /\
      forall fs ps fo, files_ok fs -> let s' := AState cells' fl (a_solvers s ++ [Some (BVec (fl_off L) u)]) (Some (List.length (a_solvers s))) fo fs ps in
        sound s' /\ forall m, m < ac_nsub c -> advects s' m (VelGrid (stokes_velocity L u m)).
  Proof.
    intros Sd Hu. pose proof Sd as (Ln & D & C & Cu & F). destruct (del_all_ok (a_flow s) (a_coefs s)) as (cells & Ed & Lc & V1 & V2); auto.
    { intros i Hi. apply In_nth_error in Hi as (m & Em). destruct (C m i Em) as (co & Ec & _). exists co. exact Ec. }
    set (n := List.length (a_solvers s)). set (base := List.length cells).
    destruct (ofor_inv (ac_nsub c) (fun cf m => oguard (m * flow_nvar <? List.length (fl_off L) - 1) (
        let* fl := owrite (snd cf) m (Some (List.length (fst cf))) in Ok (fst cf ++ [Some (FGrid n (m * flow_nvar))], fl)))
      (fun k cf => fst cf = cells ++ map (fun m => Some (FGrid n (m * 2))) (seq 0 k) /\ List.length (snd cf) = ac_nsub c /\
         forall m, m < k -> nth_error (snd cf) m = Some (Some (base + m))) (cells, a_flow s)) as ((cells', fl) & E & I1 & I2 & I3).
    - cbn [fst snd]. split; [cbn; rewrite app_nil_r; reflexivity|]. split; [exact Ln|lia].
    - intros k (a, b) Hk (H1 & H2 & H3). cbn [fst snd] in *. unfold flow_nvar in *. pose proof (layout u Hu) as Ll.
      replace (k * 2 <? List.length (fl_off L) - 1) with true by (symmetry; apply Nat.ltb_lt; lia). cbn [oguard]. rewrite owrite_vec by lia. cbn [obind].
      eexists. split; [reflexivity|]. cbn [fst snd]. split; [|split; [rewrite upd_length; exact H2|]].
      + rewrite H1, seq_S, map_app, app_assoc. reflexivity.
      + intros m Hm. destruct (Nat.eq_dec m k) as [->|Nm].
        * rewrite nth_error_upd_eq by lia. rewrite H1, app_length, map_length, seq_length. reflexivity.
        * rewrite nth_error_upd_ne by auto. apply H3. lia.
    - cbn [fst snd] in I1, I2, I3. exists cells, cells', fl. split; [exact Ed|]. split; [exact E|]. intros fs ps fo Fs s'.
      assert (Rd : forall m, m < ac_nsub c -> nth_error cells' (base + m) = Some (Some (FGrid n (2 * m)))).
      { intros m Hm. rewrite I1, nth_error_app2 by (unfold base; lia). replace (base + m - List.length cells) with m by (unfold base; lia). rewrite nth_error_map_seq by auto. cbn [Nat.add]. do 3 f_equal. lia. }
      assert (Rs : nth_error (a_solvers s ++ [Some (BVec (fl_off L) u)]) n = Some (Some (BVec (fl_off L) u))) by (rewrite nth_error_app2, Nat.sub_diag by (unfold n; lia); reflexivity).
      split.
      + split; [exact I2|]. cbn [s' a_flow a_coefs a_solvers a_cur a_files].
        assert (Lt : forall m i, nth_error fl m = Some (Some i) -> m < ac_nsub c) by (intros m i H; rewrite <- I2; apply nth_error_Some; congruence).
        split; [|split; [|split; [|exact Fs]]].
        * intros a b i Ha Hb. rewrite (I3 a (Lt _ _ Ha)) in Ha. rewrite (I3 b (Lt _ _ Hb)) in Hb. injection Ha as <-. injection Hb as Hb. lia.
        * intros m i Em. pose proof (Lt _ _ Em) as Hm. rewrite (I3 m Hm) in Em. injection Em as <-. exists (FGrid n (2 * m)). split; [apply Rd; auto|]. split; [reflexivity|]. exists u. auto.
        * intros k Hk. injection Hk as <-. exists u. auto.
      + intros m Hm. exists (base + m). cbn [s' a_flow a_coefs a_solvers]. split; [apply I3; auto|]. right. exists n, (2 * m), (BVec (fl_off L) u), (stokes_velocity L u m).
        split; [apply Rd; auto|]. split; [exact Rs|]. split; [apply block_ok; auto|reflexivity].
  Qed.

  (** The flow [get_flow] uses, and the files it leaves. *)
  Definition flow_name : string := match ac_file c with Some f => f | None => ""%string end.

  Lemma get_flow_computed g p s u conv : sound s -> ac_load c && file_exists (a_files s) flow_name = false -> fl_solve L p g = Ok (u, conv) ->
    (ac_save c = true -> ac_can c flow_name = true /\ flow_name <> ""%string) ->
    exists s', get_flow c L g (Some p) s = Ok s' /\ sound s' /\ (forall m, m < ac_nsub c -> advects s' m (VelGrid (stokes_velocity L u m))) /\
      a_ps s' = a_ps s /\ a_forms s' = a_forms s /\ a_cur s' = Some (List.length (a_solvers s)) /\ a_solvers s' = a_solvers s ++ [Some (BVec (fl_off L) u)] /\
      (ac_save c = true -> stored L (a_files s') flow_name u) /\ (forall n, ac_save c = false \/ n <> flow_name -> a_files s' n = a_files s n).
  Proof.
    intros Sd El Es Sv. pose proof FO as (_ & Sz & _). pose proof (Sz _ _ _ _ Es) as Hu. pose proof Sd as (_ & _ & _ & _ & F).
    destruct (coefs_ok s u Sd Hu) as (cells & cells' & fl & Ed & Eo & Fin). unfold get_flow. fold flow_name. rewrite El, Es. cbn [obind negb]. rewrite andb_true_r.
    destruct (ac_save c) eqn:Esv.
    - destruct (Sv eq_refl) as (Cn & Nn). unfold save_solution, sol_name. cbn [sc_save sc_can negb]. rewrite (proj2 (String.eqb_neq _ _) Nn), Cn. cbn [oassert obind].
      rewrite Ed. cbn [obind]. rewrite Eo. cbn [obind]. eexists. split; [reflexivity|].
      destruct (Fin (fput (a_files s) flow_name (SFile (Some ([List.length u], u)) None None)) (a_ps s) (a_forms s) (files_put _ _ _ F)) as (H1 & H2).
      split; [exact H1|]. split; [exact H2|]. do 4 (split; [reflexivity|]). cbn [a_files]. split.
      + intros _. eexists. unfold fput at 1. rewrite String.eqb_refl. split; [reflexivity|]. rewrite Hu. split; reflexivity.
      + intros n [H|H]; [discriminate|]. unfold fput. rewrite (proj2 (String.eqb_neq _ _) H). reflexivity.
    - cbn [obind]. rewrite Ed. cbn [obind]. rewrite Eo. cbn [obind]. eexists. split; [reflexivity|]. destruct (Fin (a_files s) (a_ps s) (a_forms s) F) as (H1 & H2).
      split; [exact H1|]. split; [exact H2|]. do 4 (split; [reflexivity|]). split; [discriminate|]. reflexivity.
  Qed.
  Lemma get_flow_loaded g p s u : sound s -> ac_load c = true -> stored L (a_files s) flow_name u ->
    exists s', get_flow c L g (Some p) s = Ok s' /\ sound s' /\ (forall m, m < ac_nsub c -> advects s' m (VelGrid (stokes_velocity L u m))) /\
      a_ps s' = a_ps s /\ a_forms s' = a_forms s /\ a_files s' = a_files s.
  Proof.
    intros Sd El (f & Ef & Es & Hu). pose proof Sd as (_ & _ & _ & _ & F). destruct (coefs_ok s u Sd Hu) as (cells & cells' & fl & Ed & Eo & Fin).
    unfold get_flow. fold flow_name. unfold file_exists. rewrite El, Ef. cbn [andb]. unfold load_solution. rewrite Ef, Es, repeat_length, Nat.eqb_refl. cbn [obind negb].
    rewrite andb_false_r. cbn [obind]. rewrite Ed. cbn [obind]. rewrite Eo. cbn [obind]. eexists. split; [reflexivity|]. destruct (Fin (a_files s) (a_ps s) (a_forms s) F) as (H1 & H2). repeat split; auto; apply H1.
  Qed.
  (** Whatever happens, the state stays sound and nothing is undefined. *)
  Lemma get_flow_sound g fp s : sound s -> get_flow c L g fp s <> UB /\ forall s', get_flow c L g fp s = Ok s' -> sound s' /\ exists n u, a_cur s' = Some n /\ nth_error (a_solvers s') n = Some (Some (BVec (fl_off L) u)) /\ List.length u = last (fl_off L) 0 /\ forall m, m < ac_nsub c -> advects s' m (VelGrid (stokes_velocity L u m)).
  Proof.
    intros Sd. pose proof Sd as (_ & _ & _ & _ & F). destruct fp as [p|]; [|split; [discriminate|intros s' H; discriminate H]]. unfold get_flow. fold flow_name.
    assert (R : forall (X : outcome (vec * bool)), X <> UB -> (forall u l, X = Ok (u, l) -> List.length u = last (fl_off L) 0) ->
      (let* (u, loaded) := X in
       let* fs := if ac_save c && negb loaded then save_solution (SolCfg (ac_save c) "" "" (ac_can c)) (a_files s) flow_name u else Ok (a_files s) in
       let* cells := del_all (a_coefs s) (a_flow s) in
       let* (cells, fl) := ofor (ac_nsub c) (fun cf m => oguard (m * flow_nvar <? List.length (fl_off L) - 1) (
         let* fl := owrite (snd cf) m (Some (List.length (fst cf))) in
         Ok (fst cf ++ [Some (FGrid (List.length (a_solvers s)) (m * flow_nvar))], fl))) (cells, a_flow s) in
       Ok (AState cells fl (a_solvers s ++ [Some (BVec (fl_off L) u)]) (Some (List.length (a_solvers s))) (a_forms s) fs (a_ps s))) <> UB /\
      forall s', (let* (u, loaded) := X in
       let* fs := if ac_save c && negb loaded then save_solution (SolCfg (ac_save c) "" "" (ac_can c)) (a_files s) flow_name u else Ok (a_files s) in
       let* cells := del_all (a_coefs s) (a_flow s) in
       let* (cells, fl) := ofor (ac_nsub c) (fun cf m => oguard (m * flow_nvar <? List.length (fl_off L) - 1) (
         let* fl := owrite (snd cf) m (Some (List.length (fst cf))) in
         Ok (fst cf ++ [Some (FGrid (List.length (a_solvers s)) (m * flow_nvar))], fl))) (cells, a_flow s) in
       Ok (AState cells fl (a_solvers s ++ [Some (BVec (fl_off L) u)]) (Some (List.length (a_solvers s))) (a_forms s) fs (a_ps s))) = Ok s' -> sound s' /\ exists n u, a_cur s' = Some n /\ nth_error (a_solvers s') n = Some (Some (BVec (fl_off L) u)) /\ List.length u = last (fl_off L) 0 /\ forall m, m < ac_nsub c -> advects s' m (VelGrid (stokes_velocity L u m))).
    { intros X Nx Lx. destruct X as [(u, l)| |]; cbn [obind]; [|split; [discriminate|intros; discriminate]|congruence].
      pose proof (Lx u l eq_refl) as Hu. destruct (coefs_ok s u Sd Hu) as (cells & cells' & fl & Ed & Eo & Fin).
      assert (Sv : exists Y, (if ac_save c && negb l then save_solution (SolCfg (ac_save c) "" "" (ac_can c)) (a_files s) flow_name u else Ok (a_files s)) = Y /\ Y <> UB /\ forall fs, Y = Ok fs -> files_ok fs).
      { eexists. split; [reflexivity|]. destruct (ac_save c && negb l); [|split; [discriminate|intros fs H; injection H as <-; exact F]].
        unfold save_solution. destruct (negb _); [split; [discriminate|intros fs H; injection H as <-; exact F]|].
        destruct (sc_can _ _); cbn [oassert]; [split; [discriminate|intros fs H; injection H as <-; apply files_put; exact F]|split; [discriminate|intros fs H; discriminate H]]. }
      destruct Sv as (Y & -> & Ny & Fy). destruct Y as [fs| |]; cbn [obind]; [|split; [discriminate|intros s' H; discriminate H]|congruence].
      rewrite Ed. cbn [obind]. rewrite Eo. cbn [obind]. split; [discriminate|]. intros s' H. injection H as <-. destruct (Fin fs (a_ps s) (a_forms s) (Fy fs eq_refl)) as (H1 & H2). split; [exact H1|]. exists (List.length (a_solvers s)), u. split; [reflexivity|]. cbn [a_solvers]. rewrite nth_error_app2, Nat.sub_diag by lia. split; [reflexivity|]. split; [exact Hu|]. exact H2. }
    apply R.
    - destruct (ac_load c && file_exists (a_files s) flow_name) eqn:El.
      + unfold load_solution. destruct (a_files s flow_name) as [f|]; [|discriminate]. destruct (sf_sol f) as [(dims, d)|]; [|discriminate]. destruct (match dims with [n] => _ | _ => _ end); discriminate.
      + destruct FO as (_ & _ & N). specialize (N p g). destruct (fl_solve L p g) as [(d, cv)| |]; cbn [obind]; congruence.
    - intros u l. destruct (ac_load c && file_exists (a_files s) flow_name) eqn:El.
      + unfold load_solution. destruct (a_files s flow_name) as [f|] eqn:Ef; [|discriminate]. destruct (sf_sol f) as [(dims, d)|] eqn:Es; [|discriminate].
        destruct dims as [|n [|]]; try discriminate. rewrite repeat_length. destruct (Nat.eqb_spec n (last (fl_off L) 0)) as [->|]; [|discriminate]. cbn [obind]. intros H. injection H as <- _. eapply F; eauto.
      + destruct FO as (_ & Sz & _). destruct (fl_solve L p g) as [(d, cv)| |] eqn:Es; cbn [obind]; try discriminate. intros H. injection H as <- _. eapply Sz; eauto.
  Qed.
  Lemma with_ps s fo ps : sound s -> sound (AState (a_coefs s) (a_flow s) (a_solvers s) (a_cur s) fo (a_files s) ps).
  Proof. intros H. exact H. Qed.

  Lemma step_sound s o s' : sound s -> step c L s o = Ok s' -> sound s'.
  Proof.
    intros Sd E. destruct o as [f m|g an fp p|]; cbn [step] in E.
    - destruct (Z.eqb_spec m (-1)) as [->|Nm].
      + destruct (set_flow_ok f (-1) s Sd ltac:(lia)) as (t & Et & St & _). congruence.
      + assert (D : (0 <= m < Z.of_nat (ac_nsub c))%Z \/ ~ (0 <= m < Z.of_nat (ac_nsub c))%Z) by lia. destruct D as [D|D].
        * destruct (set_flow_ok f m s Sd ltac:(lia)) as (t & Et & St & _). congruence.
        * unfold set_flow in E. apply oassert_ok in E as (_ & E). apply oassert_ok in E as (E & _). lia.
    - unfold adv_set in E. apply obind_ok in E as (t & Et & E). apply obind_ok in E as (ps & _ & E). injection E as <-. apply with_ps.
      destruct an; [injection Et as <-; exact Sd|]. destruct (get_flow_sound g fp s Sd) as (_ & H). apply H. exact Et.
    - unfold adv_build in E. apply obind_ok in E as (fs & _ & E). injection E as <-. apply with_ps. exact Sd.
  Qed.
  Lemma exec_sound fs l s : files_ok fs -> exec c L fs l = Ok s -> sound s.
  Proof.
    intros F E. unfold exec in E. apply obind_ok in E as (s0 & E0 & E). apply new_sound in E0; auto. revert s0 E0 E. induction l as [|o l IH]; intros s0 S0 E; cbn [ofold] in E.
    - injection E as <-. exact S0.
    - apply obind_ok in E as (s1 & E1 & E). apply (IH s1); auto. eapply step_sound; eauto.
  Qed.

  Lemma exec_app fs l l' s : exec c L fs (l ++ l') = Ok s <-> exists t, exec c L fs l = Ok t /\ ofold (step c L) l' t = Ok s.
  Proof.
    unfold exec. split.
    - intros E. apply obind_ok in E as (s0 & E0 & E). rewrite ofold_app in E. apply obind_ok in E as (t & Et & E). exists t. rewrite E0. auto.
    - intros (t & E & E'). apply obind_ok in E as (s0 & E0 & E). rewrite E0. cbn [obind]. rewrite ofold_app, E. exact E'.
  Qed.
  Lemma exec_snoc fs l o s : exec c L fs (l ++ [o]) = Ok s <-> exists t, exec c L fs l = Ok t /\ step c L t o = Ok s.
  Proof.
    rewrite exec_app. split; intros (t & E & E'); exists t; (split; [exact E|]).
    - cbn [ofold] in E'. apply obind_ok in E' as (x & Ex & E'). injection E' as <-. exact Ex.
    - cbn [ofold]. rewrite E'. reflexivity.
  Qed.

  (** A flow that is loaded stays in its file. *)
  Lemma step_files s o s' : step c L s o = Ok s' -> ac_load c = true -> forall f, a_files s flow_name = Some f -> a_files s' flow_name = Some f.
  Proof.
    intros E Ld f Ef. destruct o as [h m|g an fp p|]; cbn [step] in E.
    - unfold set_flow in E. apply oassert_ok in E as (_ & E). apply oassert_ok in E as (_ & E).
      assert (P : forall t k t', (let* fl := owrite (a_flow t) k (Some (List.length (a_coefs t))) in
        Ok (AState (a_coefs t ++ [Some (FFun h)]) fl (a_solvers t) (a_cur t) (a_forms t) (a_files t) (a_ps t))) = Ok t' -> a_files t' = a_files t).
      { intros t k t' H. apply obind_ok in H as (fl & _ & H). injection H as <-. reflexivity. }
      enough (a_files s' = a_files s) as -> by exact Ef. clear Ef. destruct (m =? -1)%Z; [|eapply P; eauto].
      unfold ofor in E. revert s E. generalize (seq 0 (ac_nsub c)) as l. induction l as [|k l IH]; intros s E; cbn [ofold] in E; [injection E as <-; reflexivity|].
      apply obind_ok in E as (t & Et & E). apply IH in E. apply P in Et. congruence.
    - unfold adv_set in E. apply obind_ok in E as (t & Et & E). apply obind_ok in E as (ps & _ & E). injection E as <-. cbn [a_files]. destruct an; [injection Et as <-; exact Ef|].
      unfold get_flow in Et. destruct fp as [q|]; [|discriminate]. fold flow_name in Et. unfold file_exists in Et. rewrite Ld, Ef in Et. cbn [andb] in Et.
      apply obind_ok in Et as ((u, l) & Eu & Et). apply obind_ok in Eu as (d & _ & Eu). injection Eu as <- <-. cbn [negb] in Et. rewrite andb_false_r in Et. cbn [obind] in Et.
      apply obind_ok in Et as (cs & _ & Et). apply obind_ok in Et as ((cs', fl) & _ & Et). injection Et as <-. exact Ef.
    - unfold adv_build in E. apply obind_ok in E as (fs & _ & E). injection E as <-. exact Ef.
  Qed.
  Lemma exec_files fs l s : exec c L fs l = Ok s -> ac_load c = true -> forall f, fs flow_name = Some f -> a_files s flow_name = Some f.
  Proof.
    intros E Ld f Ef. unfold exec in E. apply obind_ok in E as (s0 & E0 & E). unfold adv_new in E0. apply oassert_ok in E0 as (_ & E0). apply oassert_ok in E0 as (_ & E0).
    assert (F0 : a_files s0 flow_name = Some f) by (injection E0 as <-; exact Ef). clear E0. revert s0 F0 E. induction l as [|o l IH]; intros s0 F0 E; cbn [ofold] in E; [injection E as <-; exact F0|].
    apply obind_ok in E as (s1 & E1 & E). apply (IH s1); auto. eapply step_files; eauto.
  Qed.

  (** *** Building *)
  Lemma build_iff s : sound s -> (exists s', adv_build c s = Ok s') <-> forall m, m < ac_nsub c -> exists b, advects s m b.
  Proof.
    intros Sd. pose proof Sd as (Ln & _). split.
    - intros (s' & E) m Hm. unfold adv_build in E. apply obind_ok in E as (fs & E & _).
      destruct (nth_error (a_flow s) m) as [[i|]|] eqn:Em.
      + destruct (sound_advects s m i Sd Em) as (b & A & _). eauto.
      + exfalso. assert (In m (seq 0 (ac_nsub c))) by (apply in_seq; lia). revert fs E H. generalize (seq 0 (ac_nsub c)) as l. induction l as [|k l IH]; intros fs E H; [destruct H|]. cbn [omap] in E.
        apply obind_ok in E as (y & Ey & E). apply obind_ok in E as (r & Er & _). destruct H as [->|H]; [|eapply IH; eauto]. unfold oread in Ey. rewrite Em in Ey. discriminate.
      + apply nth_error_None in Em. lia.
    - intros H. unfold adv_build. assert (Ex : exists fs, omap (fun m => let* p := oread (a_flow s) m in match p with None => Abort | Some i => Ok i end) (seq 0 (ac_nsub c)) = Ok fs).
      { assert (Hs : forall m, In m (seq 0 (ac_nsub c)) -> m < ac_nsub c) by (intros m Hm; apply in_seq in Hm; lia). revert Hs. generalize (seq 0 (ac_nsub c)) as l. induction l as [|k l IH]; intros Hs; [exists []; reflexivity|].
        destruct IH as (r & Er); [intros m Hm; apply Hs; right; exact Hm|]. destruct (H k (Hs k (or_introl eq_refl))) as (b & i & Ei & _). exists (i :: r). cbn [omap]. unfold oread at 1. rewrite Ei. cbn [obind]. rewrite Er. reflexivity. }
      destruct Ex as (fs & ->). cbn [obind]. eexists. reflexivity.
  Qed.
  (** The velocities the new forms refer to. *)
  Lemma build_velocities s s' : sound s -> adv_build c s = Ok s' -> exists fs bs, a_forms s' = Some fs /\ omap (form_velocity s') fs = Ok bs /\ List.length bs = ac_nsub c /\
    (forall m d, m < ac_nsub c -> advects s' m (nth m bs d)) /\ a_ps s' = a_ps s /\ (forall m b, advects s' m b <-> advects s m b) /\ sound s'.
  Proof.
    intros Sd E. pose proof E as E0. unfold adv_build in E. apply obind_ok in E as (fs & E & Es). injection Es as <-. exists fs.
    assert (A : exists bs, omap (form_velocity s) fs = Ok bs /\ List.length bs = List.length (seq 0 (ac_nsub c)) /\ forall k d, k < List.length (seq 0 (ac_nsub c)) -> advects s (nth k (seq 0 (ac_nsub c)) 0) (nth k bs d)).
    { clear E0. revert fs E. generalize (seq 0 (ac_nsub c)) as l. induction l as [|m l IH]; intros fs E; cbn [omap] in E.
      - injection E as <-. exists []. split; [reflexivity|]. split; [reflexivity|]. cbn. lia.
      - apply obind_ok in E as (i & Ei & E). apply obind_ok in E as (r & Er & E). injection E as <-. destruct (IH r Er) as (bs & Eb & Lb & Vb).
        apply obind_ok in Ei as (o & Eo & Ei). apply oread_ok in Eo. destruct o as [j|]; [|discriminate]. injection Ei as ->. destruct (sound_advects s m i Sd Eo) as (b & Ab & Fb).
        exists (b :: bs). cbn [omap]. rewrite Fb. cbn [obind]. rewrite Eb. cbn [obind List.length]. split; [reflexivity|]. split; [lia|]. intros [|k] d Hk; [exact Ab|]. cbn [nth]. apply Vb. cbn in Hk. lia. }
    destruct A as (bs & Eb & Lb & Vb). rewrite seq_length in *. exists bs. split; [reflexivity|]. split; [exact Eb|]. split; [exact Lb|]. split; [|split; [reflexivity|split; [reflexivity|apply with_ps; exact Sd]]].
    intros m d Hm. specialize (Vb m d Hm). rewrite seq_nth in Vb by auto. exact Vb.
  Qed.

  (** *** Deleting *)
  Lemma destroy_ok s : sound s -> exists cells sols, adv_destroy s = Ok (cells, sols) /\
    (forall m i, nth_error (a_flow s) m = Some (Some i) -> ~ live cells i) /\ (forall n, a_cur s = Some n -> ~ live sols n).
  Proof.
    intros (Ln & D & C & Cu & _). unfold adv_destroy. destruct (del_all_ok (a_flow s) (a_coefs s)) as (cells & Ed & _ & V1 & _); auto.
    { intros i Hi. apply In_nth_error in Hi as (m & Em). destruct (C m i Em) as (co & Ec & _). exists co. exact Ec. }
    rewrite Ed. cbn [obind]. assert (Dead : forall m i, nth_error (a_flow s) m = Some (Some i) -> ~ live cells i).
    { intros m i Em (x & Ex). rewrite V1 in Ex by (eapply nth_error_In; eauto). discriminate. }
    destruct (a_cur s) as [n|] eqn:Ec; cbn [del].
    - destruct (Cu n eq_refl) as (u & Eu & _). unfold oread. rewrite Eu. cbn [obind]. assert (Hn : n < List.length (a_solvers s)) by (apply nth_error_Some; congruence).
      rewrite owrite_vec by auto. cbn [obind]. do 2 eexists. split; [reflexivity|]. split; [exact Dead|]. intros k Hk (x & Ex). injection Hk as <-. rewrite nth_error_upd_eq in Ex by auto. discriminate.
    - cbn [obind]. do 2 eexists. split; [reflexivity|]. split; [exact Dead|]. discriminate.
  Qed.
End Adv.
