(** C102: supremizers. *)
From Coq Require Import Reals List Bool Lia Arith ZArith String Lra.
From Verif Require Import Outcome ListLemmas LaBase LinalgModel LinalgSpec BlockVec TagsModel RomModel RomSpec RomProofs RomBasisProofs RomStateProofs DriveReportProofs SupModel SupSpec SupProofs SupExamples.
Import ListNotations.
Local Open Scope nat_scope.

(** The number of supremizers of a component and of its subdomains. *)
Theorem C102_number : forall cf s dim, vp_bases s dim -> vp_cfg cf s ->
  exists ref per, parse_supremizer cf (rs_h s) = Ok (ref, per) /\ List.length ref = rh_ncomp (rs_h s) /\ List.length per = rh_nsub (rs_h s) /\
    (forall c, c < rh_ncomp (rs_h s) -> nth c ref 0%Z = wanted cf s c) /\
    (forall m, m < rh_nsub (rs_h s) -> nth m per 0%Z = wanted cf s (comp_of (rs_h s) m)).
Proof.
  intros cf s dim V C. eexists _, _. split; [exact (numbers cf s dim V C)|]. rewrite !map_length, !seq_length. split; [auto|]. split; [auto|].
  split; intros k Hk; rewrite nth_map_seq by auto; reflexivity.
Qed.
Print Assumptions C102_number.

(** They are needed only with one basis per variable. *)
Theorem C102_unified : forall cf bases files s s', rh_sep (rs_h s) = false -> load_reduced_basis bases s = Ok s' ->
  stokes_load_reduced_basis cf bases files s = Ok s' /\ forall Bs, parse_supremizer cf (rs_h s) = Abort /\ enrich_supremizer cf Bs s = Abort.
Proof.
  intros cf bases files s s' H E. split.
  - unfold stokes_load_reduced_basis. rewrite E. cbn [obind]. assert (Eh : rs_h s' = rs_h s).
    { unfold load_reduced_basis in E. apply bind_inv in E as (r & _ & E). apply bind_inv in E as (d & _ & E). injection E as <-. reflexivity. }
    rewrite Eh, H. reflexivity.
  - intros Bs. unfold parse_supremizer, enrich_supremizer. rewrite H. auto.
Qed.
Print Assumptions C102_unified.
Example C102_unified_case : exists s', load_reduced_basis [RMat 2 1 false [1; 0]%R] (RomSt (Rom 1 2 false ByDomain [0] 1 [1]) false [] [] [] [0; 1] [0; 1] [1]) = Ok s'.
Proof. eexists. reflexivity. Qed.

(** The stored supremizers of a component: as many as asked for, orthonormal, orthogonal to its velocity basis, and with it they span the image of
    its first pressure vectors, for any number of them, under the transposed divergence. *)
Theorem C102_trained : forall cf Bs s dim files, vp_bases s dim -> vp_cfg cf s -> div_sizes s dim Bs -> enrich_supremizer cf Bs s = Ok files ->
  List.length files = rh_ncomp (rs_h s) /\
  forall c, c < rh_ncomp (rs_h s) -> ortho_cols (vel s c) -> (0 <= wanted cf s c <= Z.of_nat (npres s c))%Z ->
    let F := nth c files (DMat 0 0 []) in let B := nth c Bs (DMat 0 0 []) in
    dm_h F = dim (c * 2) /\ Z.of_nat (dm_w F) = wanted cf s c /\ dm_wf F /\ ortho_cols F /\
    (forall i j, i < nvel s c -> j < dm_w F -> rsum (dim (c * 2)) (fun k => mget (vel s c) k i * mget F k j)%R = 0%R) /\
    forall n (a : nat -> R), n <= dm_w F -> exists d : nat -> R, forall i, i < dim (c * 2) ->
      grad_of B (pres s c) n a i = (rsum (nvel s c) (fun j => d j * mget (vel s c) i j) + rsum n (fun j => d (nvel s c + j)%nat * mget F i j))%R.
Proof.
  intros cf Bs s dim files V C D E. destruct (enrich_inv cf Bs s dim files V C D E) as (L & K). split; [auto|].
  intros c Hc O N. specialize (K c Hc). destruct (vp_ref s dim c V Hc) as (_ & _ & _ & (Wu & Hu & Lu) & (Wp & Hp & Lp)). destruct D as (_ & D).
  destruct (D c Hc) as (D1 & D2). destruct (component_ok (nth c Bs (DMat 0 0 [])) (vel s c) (pres s c) (nvel s c) (wanted cf s c) (nth c files (DMat 0 0 [])) Wp (proj1 N) ltac:(lia) ltac:(lia) ltac:(lia) O K) as (A1 & A2 & A3 & A4 & A5 & A6).
  cbv zeta. rewrite Hu in *. rewrite Lu in *. split; [auto|]. split; [rewrite A2; lia|]. split; [auto|]. split; [auto|]. split; [auto|].
  intros n a Hn. rewrite A2 in Hn. destruct (A6 n Hn a) as (d & Hd). exists d. rewrite Hu, Lu in Hd. exact Hd.
Qed.
Print Assumptions C102_trained.
Example C102_trained_case : vp_bases exs_st exs_dim /\ div_sizes exs_st exs_dim exs_B /\ ortho_cols (vel exs_st 0) /\ wanted (exs_cfg (-1)) exs_st 0 = 2%Z /\
  exists files, enrich_supremizer (exs_cfg (-1)) exs_B exs_st = Ok files.
Proof. split; [apply exs_bases|]. split; [apply exs_div; reflexivity|]. split; [apply exs_ortho|]. split; [reflexivity|apply exs_trained]. Qed.

(** Training succeeds exactly if in every component the velocity vectors and the images of the pressure vectors are linearly independent. *)
Theorem C102_succeeds : forall cf Bs s dim, vp_bases s dim -> vp_cfg cf s -> div_sizes s dim Bs ->
  (forall c, c < rh_ncomp (rs_h s) -> ortho_cols (vel s c) /\ (0 <= wanted cf s c <= Z.of_nat (npres s c))%Z) ->
  (exists files, enrich_supremizer cf Bs s = Ok files) <->
  forall c, c < rh_ncomp (rs_h s) ->
    lin_indep (dim (c * 2)) (dm_cols (vel s c) ++ map (raw_sup (nth c Bs (DMat 0 0 [])) (pres s c)) (seq 0 (Z.to_nat (wanted cf s c)))).
Proof.
  intros cf Bs s dim V C D H. split.
  - intros (files & E) c Hc. destruct (enrich_inv cf Bs s dim files V C D E) as (_ & K). specialize (K c Hc). destruct (H c Hc) as (O & N).
    destruct (vp_ref s dim c V Hc) as (_ & _ & _ & (Wu & Hu & Lu) & (Wp & Hp & Lp)). destruct D as (_ & D). destruct (D c Hc) as (D1 & D2). rewrite <- Hu.
    exact (component_independent (nth c Bs (DMat 0 0 [])) (vel s c) (pres s c) (nvel s c) (wanted cf s c) (nth c files (DMat 0 0 [])) Wp (proj1 N) ltac:(lia) ltac:(lia) ltac:(lia) O K).
  - intros I. apply (enrich_runs cf Bs s dim V C D). intros c Hc. destruct (H c Hc) as (O & N). auto.
Qed.
Print Assumptions C102_succeeds.
Example C102_succeeds_case : lin_indep 3 (dm_cols (vel exs_st 0) ++ map (raw_sup (nth 0 exs_B (DMat 0 0 [])) (pres exs_st 0)) (seq 0 2)).
Proof. exact exs_independent. Qed.

(** More supremizers than pressure vectors are not refused: memory beyond the pressure basis is read. *)
Theorem C102_too_many_refuted : exists cf Bs s dim, vp_bases s dim /\ vp_cfg cf s /\ div_sizes s dim Bs /\ ortho_cols (vel s 0) /\
  (Z.of_nat (npres s 0) < wanted cf s 0)%Z /\ enrich_supremizer cf Bs s = UB.
Proof.
  exists (exs_cfg 3), exs_B, exs_st, exs_dim. split; [apply exs_bases|]. split; [split; reflexivity|]. split; [apply exs_div; reflexivity|].
  split; [apply exs_ortho|]. split; [reflexivity|apply exs_beyond].
Qed.
Print Assumptions C102_too_many_refuted.

(** A reduced solver loads the bases and appends the supremizers asked for to the velocity bases, and nothing else changes. *)
Theorem C102_load : forall cf h dim bases s0 files, rom_wf h -> rh_sep h = true -> rh_nvar h = 2 -> files_ok h dim bases -> rom_init h = Ok s0 ->
  exists s, load_reduced_basis bases s0 = Ok s /\ vp_bases s dim /\ rs_h s = h /\
    (vp_cfg cf s -> (forall c, c < rh_ncomp h -> exists f, nth c files None = Some f /\ dm_wf f /\ dm_h f = dim (c * 2) /\ (0 <= wanted cf s c <= Z.of_nat (dm_w f))%Z) ->
     exists s', stokes_load_reduced_basis cf bases files s0 = Ok s' /\
       appended s dim (fun c => match nth c files None with Some f => f | None => DMat 0 0 [] end) (fun c => Z.to_nat (wanted cf s c)) (rh_ncomp h) s').
Proof.
  intros cf h dim bases s0 files W Sp Nv F E. unfold rom_init in E. destruct (set_block_sizes_ok h W) as (off & coff & nb & Es & T & _).
  rewrite Es in E. cbn [obind] in E. injection E as <-.
  destruct (load_ok (RomSt h false [] [] [] off coff nb) dim bases) as (s & E & B & Eh & _); auto.
  exists s. cbn [rs_h] in Eh. assert (V : vp_bases s dim) by (split; [auto|rewrite Eh; auto]). split; [auto|]. split; [auto|]. split; [auto|].
  intros C H. unfold stokes_load_reduced_basis. rewrite E. cbn [obind]. rewrite Eh, Sp. rewrite <- Eh. apply (load_all cf s dim files V C). rewrite Eh. exact H.
Qed.
Print Assumptions C102_load.

(** A missing supremizer file or one with too few columns is refused. *)
Theorem C102_refuses : forall cf s dim files c r, vp_bases s dim -> vp_cfg cf s -> c < rh_ncomp (rs_h s) ->
  (nth c files None = None \/ exists f, nth c files None = Some f /\ (Z.of_nat (dm_w f) < wanted cf s c)%Z) ->
  load_supremizer cf files s <> Ok r.
Proof. exact load_refuses. Qed.
Print Assumptions C102_refuses.
Example C102_refuses_case : load_supremizer (exs_cfg 2) [Some (DMat 3 1 [0; 1; 0]%R)] exs_st = Abort /\ load_supremizer (exs_cfg 2) [] exs_st = Abort.
Proof. split; reflexivity. Qed.

(** With supremizers trained for the same bases the enriched velocity basis is orthonormal, and every pressure in the span of as many pressure
    vectors as there are supremizers has its image under the transposed divergence in the enriched velocity space. The pressure is thus seen by some
    reduced velocity unless it is invisible to all. *)
Theorem C102_stable : forall cf cf' Bs s dim files, vp_bases s dim -> vp_cfg cf s -> vp_cfg cf' s -> div_sizes s dim Bs ->
  (forall c, c < rh_ncomp (rs_h s) -> ortho_cols (vel s c) /\ (0 <= wanted cf' s c <= wanted cf s c)%Z /\ (wanted cf s c <= Z.of_nat (npres s c))%Z) ->
  enrich_supremizer cf Bs s = Ok files ->
  exists s', load_supremizer cf' (map Some files) s = Ok s' /\ vp_bases s' dim /\
  forall c, c < rh_ncomp (rs_h s) ->
    let n := Z.to_nat (wanted cf' s c) in let B := nth c Bs (DMat 0 0 []) in
    nvel s' c = nvel s c + n /\ pres s' c = pres s c /\ npres s' c = npres s c /\ ortho_cols (vel s' c) /\
    (forall i j, i < dim (c * 2) -> j < nvel s c -> mget (vel s' c) i j = mget (vel s c) i j) /\
    forall a : nat -> R, exists d : nat -> R,
      let v := fun i => rsum (nvel s' c) (fun j => d j * mget (vel s' c) i j)%R in
      let q := fun l => rsum n (fun k => a k * mget (pres s' c) l k)%R in
      (forall i, i < dim (c * 2) -> v i = grad_of B (pres s c) n a i) /\
      rsum (dim (c * 2 + 1)) (fun l => (q l * rsum (dim (c * 2)%nat) (fun i => mget B l i * v i))%R) = rsum (dim (c * 2)) (fun i => v i * v i)%R.
Proof.
  intros cf cf' Bs s dim files V C C' D H E. destruct (C102_trained cf Bs s dim files V C D E) as (L & K).
  assert (Nf : forall c, c < rh_ncomp (rs_h s) -> nth c (map Some files) None = Some (nth c files (DMat 0 0 []))).
  { intros c Hc. rewrite (nth_indep _ _ (Some (DMat 0 0 []))) by (rewrite map_length; lia). apply map_nth. }
  destruct (load_all cf' s dim (map Some files) V C') as (s' & El & V' & _ & _ & _ & _ & A).
  { intros c Hc. destruct (H c Hc) as (O & N & N'). destruct (K c Hc O ltac:(lia)) as (A1 & A2 & A3 & _). exists (nth c files (DMat 0 0 [])).
    split; [auto|]. split; [auto|]. split; [auto|]. lia. }
  exists s'. split; [auto|]. split; [auto|]. intros c Hc. destruct (H c Hc) as (O & N & N'). destruct (K c Hc O ltac:(lia)) as (A1 & A2 & A3 & A4 & A5 & A6).
  destruct (A c Hc) as (B1 & B2 & B3 & B4 & B5). rewrite (proj2 (Nat.ltb_lt _ _) Hc) in B3. specialize (B5 Hc). rewrite (Nf c Hc) in B5.
  set (n := Z.to_nat (wanted cf' s c)) in *. cbv zeta. fold n. set (F := nth c files (DMat 0 0 [])) in *. set (B := nth c Bs (DMat 0 0 [])) in *.
  destruct (vp_ref s dim c V Hc) as (_ & _ & _ & (Wu & Hu & Lu) & (Wp & Hp & Lp)).
  assert (Hc' : c < rh_ncomp (rs_h s')).
  { destruct (load_all cf' s dim (map Some files) V C') as (s2 & El2 & _ & _ & _ & Nc & _).
    - intros c0 Hc0. destruct (H c0 Hc0) as (O0 & N0 & N0'). destruct (K c0 Hc0 O0 ltac:(lia)) as (X1 & X2 & X3 & _). exists (nth c0 files (DMat 0 0 [])).
      split; [auto|]. split; [auto|]. split; [auto|]. lia.
    - rewrite El in El2. injection El2 as <-. rewrite Nc. auto. }
  destruct (vp_ref s' dim c V' Hc') as (_ & _ & _ & (Wu' & Hu' & Lu') & _). destruct D as (_ & D). destruct (D c Hc) as (D1 & D2). fold B in D1, D2.
  assert (Ln : n <= dm_w F) by lia.
  split; [exact B3|]. split; [exact B2|]. split; [exact B1|]. split; [|split; [exact B4|]].
  - apply (joined_ortho (vel s c) F (vel s' c) n); auto; try lia; try (rewrite Hu, ?Lu; auto).
  - intros a. destruct (A6 n a Ln) as (d & Hd). exists d. cbv zeta.
    assert (Ev : forall i, i < dim (c * 2) -> rsum (nvel s' c) (fun j => (d j * mget (vel s' c) i j)%R) = grad_of B (pres s c) n a i).
    { intros i Hi. rewrite (Hd i Hi), B3, rsum_split. f_equal; apply rsum_ext; intros j Hj; [rewrite B4|rewrite B5]; auto. }
    split; [exact Ev|]. rewrite B2.
    rewrite (rsum_ext (dim (c * 2)) _ (fun i => (rsum (nvel s' c) (fun j => (d j * mget (vel s' c) i j)) * grad_of B (pres s c) n a i)%R)) by (intros i Hi; rewrite (Ev i Hi); reflexivity).
    unfold grad_of. rewrite D1.
    rewrite (rsum_ext (dim (c * 2)) _ (fun i => rsum (dim (c * 2 + 1)) (fun l => (rsum n (fun k => a k * mget (pres s c) l k) * (mget B l i * rsum (nvel s' c) (fun j => d j * mget (vel s' c) i j)))%R))).
    2:{ intros i Hi. rewrite <- rsum_scal. apply rsum_ext. intros l Hl. ring. }
    symmetry. rewrite rsum_swap. apply rsum_ext. intros l Hl. rewrite rsum_scal. reflexivity.
Qed.
Print Assumptions C102_stable.

(** Supremizers trained with fewer velocity vectors than are loaded are accepted although the enriched basis is then not orthonormal. *)
Theorem C102_other_velocity_refuted : exists cf Bs s1 s2 dim files s', vp_bases s1 dim /\ vp_bases s2 dim /\ vp_cfg cf s1 /\ vp_cfg cf s2 /\
  ortho_cols (vel s1 0) /\ ortho_cols (vel s2 0) /\ nvel s1 0 < nvel s2 0 /\
  (forall i j, i < dim 0 -> j < nvel s1 0 -> mget (vel s2 0) i j = mget (vel s1 0) i j) /\
  enrich_supremizer cf Bs s1 = Ok files /\ load_supremizer cf (map Some files) s2 = Ok s' /\ ~ ortho_cols (vel s' 0).
Proof.
  destruct exs_trained as (files & E).
  assert (C1 : vp_cfg (exs_cfg (-1)) exs_st) by (split; reflexivity). assert (C2 : vp_cfg (exs_cfg (-1)) exs_st2) by (split; reflexivity).
  destruct (C102_trained _ _ _ _ _ exs_bases C1 (exs_div exs_st eq_refl) E) as (L & K). destruct (K 0 ltac:(cbn; lia) exs_ortho ltac:(cbn; lia)) as (A1 & A2 & A3 & _).
  change (wanted (exs_cfg (-1)) exs_st 0) with 2%Z in A2.
  assert (Nf : nth 0 (map Some files) None = Some (nth 0 files (DMat 0 0 []))) by (destruct files; [cbn in L; lia|reflexivity]).
  destruct (load_all (exs_cfg (-1)) exs_st2 exs_dim (map Some files) exs_bases2 C2) as (s' & El & V' & _ & _ & _ & _ & A).
  { intros [|c] Hc; cbn in Hc; try lia. exists (nth 0 files (DMat 0 0 [])). change (wanted (exs_cfg (-1)) exs_st2 0) with 2%Z. split; [exact Nf|].
    split; [auto|]. split; [exact A1|]. lia. }
  exists (exs_cfg (-1)), exs_B, exs_st, exs_st2, exs_dim, files, s'.
  split; [apply exs_bases|]. split; [apply exs_bases2|]. split; [auto|]. split; [auto|]. split; [apply exs_ortho|]. split; [apply exs_ortho2|].
  split; [cbn; lia|]. split. { intros i [|j] Hi Hj; cbn in Hi, Hj; try lia. destruct i as [|[|[|i]]]; try lia; reflexivity. }
  split; [exact E|]. split; [exact El|]. intros O. destruct (A 0 ltac:(cbn; lia)) as (_ & _ & B3 & B4 & B5).
  change (wanted (exs_cfg (-1)) exs_st2 0) with 2%Z in B3, B5. change (nvel exs_st2 0) with 2 in B3, B4, B5. change (rh_ncomp (rs_h exs_st2)) with 1 in B3, B5. cbn [Nat.ltb Nat.leb] in B3. specialize (B5 ltac:(lia)).
  rewrite Nf in B5. change (exs_dim (0 * 2)) with 3 in B4, B5.
  assert (W : dm_w (vel s' 0) = 4 /\ dm_h (vel s' 0) = 3).
  { destruct V' as ((_ & W' & _ & D & _) & Q1 & Q2). destruct W' as (_ & _ & _ & _ & Lb). rewrite Q1, Q2 in Lb.
    assert (P : 0 < List.length (rh_nb (rs_h s'))).
    { destruct (Nat.eq_dec 0 (List.length (rh_nb (rs_h s')))) as [Z|]; [|lia]. unfold nvel in B3. rewrite nth_overflow in B3 by lia. cbn in B3. lia. }
    destruct (D 0 P) as (_ & D1 & D2). unfold vel. cbn [Nat.mul]. rewrite D1, D2. split; [|reflexivity]. unfold nvel in B3. cbn in B3. exact B3. }
  destruct W as (W1 & W2). specialize (O 1 2 ltac:(lia) ltac:(lia)). rewrite W2 in O. cbn [Nat.eqb] in O.
  change (rsum 3 (fun k => (mget (vel s' 0) k 1 * mget (vel s' 0) k 2)%R)) with (0 + mget (vel s' 0) 0 1 * mget (vel s' 0) 0 2 + mget (vel s' 0) 1 1 * mget (vel s' 0) 1 2 + mget (vel s' 0) 2 1 * mget (vel s' 0) 2 2)%R in O.
  rewrite (B4 0 1), (B4 1 1), (B4 2 1) in O by lia.
  assert (V0 : mget (vel exs_st2 0) 0 1 = 0%R) by reflexivity. assert (V1 : mget (vel exs_st2 0) 1 1 = 1%R) by reflexivity.
  assert (V2 : mget (vel exs_st2 0) 2 1 = 0%R) by reflexivity. rewrite V0, V1, V2 in O.
  pose proof (B5 1 0 ltac:(lia) ltac:(cbn; lia)) as X. cbn [Nat.add] in X. apply (exs_first files E). rewrite <- X. lra.
Qed.
Print Assumptions C102_other_velocity_refuted.
