(** Proofs about the training of the quadrature rules of ports: snapshots, all ports and integrators. *)
From Coq Require Import Reals List Bool Lia Arith ZArith Lra.
From Verif Require Import Outcome ListLemmas TagsModel TagsSpec SnapshotModel SnapshotSpec HdfModel LaBase BlockVec LinalgModel LinalgSpec LinalgProofs LinalgSubProofs ItfModel ItfSpec EqpModel EqpSpec.
From Verif Require Import RomProofs MbFlowProofs EqpProofs EqpSetupProofs EqpEvalProofs EqpAccProofs ItrModel ItrSpec ItrProofs.
Import ListNotations.
Local Open Scope nat_scope.

Lemma flat_first {A B} (f : A -> B -> B) (g : A -> B -> basis_tag) (l : list A) (vs : list B) v0 : vs <> [] -> forall c d, c < List.length l ->
  nth_error (flat_map (fun a => map (g a) vs) l) (c * List.length vs) = Some (g (nth c l d) (nth 0 vs v0)).
Proof.
  intros Ne. induction l as [|a l IH]; intros c d Hc; cbn [List.length] in Hc; [lia|]. cbn [flat_map]. destruct c.
  - cbn [Nat.mul]. destruct vs; [congruence|]. reflexivity.
  - rewrite nth_error_app2 by (rewrite map_length; lia). rewrite map_length. replace (S c * List.length vs - List.length vs) with (c * List.length vs) by lia. apply IH. lia.
Qed.

Lemma oread_some {A} (l : list A) i a : nth_error l i = Some a -> oread l i = Ok a.
Proof. unfold oread. intros ->. reflexivity. Qed.

Lemma ref_tags_at T dim c : net_ok T dim -> c < List.length (tn_names T) ->
  oread (ref_tags T) (ref_index T c) = Ok {| comp := nth c (tn_names T) String.EmptyString; var := nth 0 (save_vars T) String.EmptyString |}.
Proof.
  intros N Hc. apply oread_some. unfold ref_tags, ref_index, save_vars. destruct (tn_sep T) eqn:Es.
  - rewrite (flat_first (fun _ b => b) tag_for_component (tn_names T) (tn_vars T) String.EmptyString (no_vars _ _ N Es) c String.EmptyString Hc). reflexivity.
  - rewrite nth_error_map, (nth_error_nth' _ String.EmptyString Hc). reflexivity.
Qed.

Lemma basis_eqb t1 t2 : basis_tag_eqb t1 t2 = true -> t1 = t2.
Proof. unfold basis_tag_eqb. intros H. apply andb_true_iff in H. destruct H as (H1 & H2). apply String.eqb_eq in H1. apply String.eqb_eq in H2. destruct t1, t2. cbn in *. congruence. Qed.

(** What the sample generator holds after the history [h] *)
Definition holds (s : sg R) (h : list (event R)) : Prop :=
  (forall t, look_up_snapshot s t = match columns h t with [] => Abort | _ :: _ => Ok (columns h t) end) /\
  (forall t, match port_uses h t with [] => look_up_port s t = Abort | _ :: _ => exists recs, look_up_port s t = Ok recs /\ Forall2 (record_ok h) recs (port_uses h t) end).

Lemma columns_len (h : list (event R)) dim t b : same_dims h dim -> In b (columns h t) -> List.length b = dim t.
Proof.
  intros D Hb. unfold columns in Hb. apply in_map_iff in Hb. destruct Hb as ((t', b') & <- & Hi). apply filter_In in Hi. destruct Hi as (Hi & Ht). cbn [fst snd] in *.
  destruct (tag_dec t' t); [|discriminate]. subst. apply D. exact Hi.
Qed.

Lemma forall2_nth {A B} (P : A -> B -> Prop) l m : Forall2 P l m -> forall b, In b m -> exists i a, nth_error l i = Some a /\ P a b.
Proof. induction 1; intros z Hz; [destruct Hz|]. destruct Hz as [<-|Hz]; [exists 0, x; auto|]. destruct (IHForall2 z Hz) as (i & a & Hi & Pa). exists (S i), a. auto. Qed.
Lemma forall2_in {A B} (P : A -> B -> Prop) l m : Forall2 P l m -> forall a, In a l -> exists b, In b m /\ P a b.
Proof. induction 1; intros z Hz; [destruct Hz|]. destruct Hz as [<-|Hz]; [exists y; split; [left|]; auto|]. destruct (IHForall2 z Hz) as (b & Hb & Pb). exists b. split; [right|]; auto. Qed.

Lemma nth_error_upd {A} (l : list A) i a j : nth_error (upd l i a) j = if j =? i then (if i <? List.length l then Some a else None) else nth_error l j.
Proof.
  destruct (Nat.eqb_spec j i) as [->|Nj]; [|apply nth_error_upd_ne; auto]. destruct (Nat.ltb_spec i (List.length l)); [apply nth_error_upd_eq; auto|]. apply nth_error_None. rewrite upd_length. auto.
Qed.

Section Run.
  Context (T : tnet) (dim : basis_tag -> nat) (tol : R) (s : sg R) (h : list (event R)).
  Context (N : net_ok T dim) (D : same_dims h dim) (HV : forall e, In e h -> ev_vars e = save_vars T) (Hs : holds s h) (Ht : (0 <= tol)%R).

  Let size1 p := nth (side T p true) (tn_size T) 0.
  Let size2 p := nth (side T p false) (tn_size T) 0.
  Let tag1 p := {| comp := nth (side T p true) (tn_names T) String.EmptyString; var := nth 0 (save_vars T) String.EmptyString |}.
  Let tag2 p := {| comp := nth (side T p false) (tn_names T) String.EmptyString; var := nth 0 (save_vars T) String.EmptyString |}.

  Lemma vars_pos : 0 < List.length (save_vars T).
  Proof. unfold save_vars. destruct (tn_sep T) eqn:E; [|cbn; lia]. pose proof (no_vars _ _ N E). destruct (tn_vars T); [congruence|cbn; lia]. Qed.

  Lemma use_in e q t : In (e, q) (port_uses h t) -> In e h /\ port_tag_of e q = Some t.
  Proof.
    intros H. unfold port_uses in H. apply filter_In in H. destruct H as (H1 & H2). cbn [fst snd] in H2. apply in_flat_map in H1. destruct H1 as (e' & He & Hq). apply in_map_iff in Hq. destruct Hq as (q' & Eq & _).
    injection Eq as -> ->. split; [exact He|]. destruct (port_tag_of e q); [|discriminate]. destruct (port_tag_dec p t); [congruence|discriminate].
  Qed.

  Lemma designated e m c nm : In e h -> designates h c e m -> nth_error (t_names (ev_topo e)) m = Some nm ->
    let t := {| comp := nm; var := nth 0 (save_vars T) String.EmptyString |} in
    exists b, nth_error (columns h t) c = Some b /\ forall k, state_of e m k = nth k b 0%R.
  Proof.
    intros He Hd En t. pose proof vars_pos as V. rewrite <- (HV e He) in V. destruct (Hd 0 V) as (t' & b & E1 & E2 & E3). unfold block_tag in E1. rewrite En in E1.
    rewrite (nth_error_nth' _ String.EmptyString V) in E1. injection E1 as <-. rewrite (HV e He) in E3. exists b. split; [exact E3|]. unfold state_of. rewrite E2. reflexivity.
  Qed.

  Lemma snaps_ok p : p < List.length (tn_refs T) -> port_uses h (ref_tag T p) <> [] ->
    exists snap1 snap2 pairs, port_snaps T s p = Ok (snap1, snap2, pairs) /\ rm_wf snap1 /\ rm_wf snap2 /\ rm_r snap1 = dim (tag1 p) /\ rm_r snap2 = dim (tag2 p) /\
      (forall pr, In pr pairs -> fst pr < rm_c snap1 /\ snd pr < rm_c snap2) /\
      forall v1 v2, on_sides T h p v1 v2 -> exists i, i < List.length pairs /\ (forall k, k < dim (tag1 p) -> rget snap1 k (fst (nth i pairs (0, 0))) = v1 k) /\ (forall k, k < dim (tag2 p) -> rget snap2 k (snd (nth i pairs (0, 0))) = v2 k).
  Proof.
    intros Hp Hu. unfold port_snaps. assert (Er : nth_error (tn_refs T) p = Some (ref_of T p)) by (apply nth_error_nth'; auto). rewrite (oread_some _ _ _ Er). cbn [obind].
    unfold tag1, tag2, on_sides, ref_tag, side in *. destruct (ref_of T p) as (((c1, c2), a1), a2).
    destruct (no_refs _ _ N c1 c2 a1 a2 (nth_error_In _ _ Er)) as (C1 & C2). rewrite (oread_nth (tn_names T) c1 String.EmptyString), (oread_nth (tn_names T) c2 String.EmptyString) by auto. cbn [obind].
    rewrite !(ref_tags_at T dim) by auto. cbn [obind]. set (t1 := {| comp := nth c1 _ _; var := _ |}). set (t2 := {| comp := nth c2 _ _; var := _ |}).
    set (tag := {| Mesh1 := _; Mesh2 := _; Attr1 := _; Attr2 := _ |}) in *. destruct Hs as (L1 & L2). pose proof (L2 tag) as Lp. pose proof (L1 t1) as Lt1. pose proof (L1 t2) as Lt2.
    destruct (port_uses h tag) as [|u us] eqn:Eu; [congruence|]. rewrite <- Eu in *. destruct Lp as (recs & Er2 & F2).
    assert (Each : forall e q r, In (e, q) (port_uses h tag) -> record_ok h r (e, q) ->
      exists b1 b2, nth_error (columns h t1) (fst r) = Some b1 /\ nth_error (columns h t2) (snd r) = Some b2 /\ (forall k, state_of e (pm1 q) k = nth k b1 0%R) /\ (forall k, state_of e (pm2 q) k = nth k b2 0%R)).
    { intros e q r Hi (D1 & D2). cbn [fst snd] in *. destruct (use_in e q tag Hi) as (He & Et). unfold port_tag_of in Et.
      destruct (nth_error (t_names (ev_topo e)) (pm1 q)) as [x1|] eqn:X1; [|discriminate]. destruct (nth_error (t_names (ev_topo e)) (pm2 q)) as [x2|] eqn:X2; [|discriminate].
      injection Et as Q1 Q2 _ _. rewrite Q1 in X1. rewrite Q2 in X2.
      destruct (designated e (pm1 q) (fst r) _ He D1 X1) as (b1 & B1 & V1). destruct (designated e (pm2 q) (snd r) _ He D2 X2) as (b2 & B2 & V2). exists b1, b2. auto. }
    destruct u as (e0, q0). assert (I0 : In (e0, q0) (port_uses h tag)) by (rewrite Eu; left; auto).
    destruct (forall2_nth _ _ _ F2 _ I0) as (i0 & r0 & _ & R0). destruct (Each e0 q0 r0 I0 R0) as (b1 & b2 & X1 & X2 & _).
    assert (N1 : columns h t1 <> []) by (intros Q; rewrite Q in X1; destruct (fst r0); discriminate). assert (N2 : columns h t2 <> []) by (intros Q; rewrite Q in X2; destruct (snd r0); discriminate).
    assert (Ek1 : look_up_snapshot s t1 = Ok (columns h t1)) by (rewrite Lt1; destruct (columns h t1); congruence).
    assert (Ek2 : (if basis_tag_eqb t1 t2 then Ok (columns h t1) else look_up_snapshot s t2) = Ok (columns h t2)).
    { destruct (basis_tag_eqb t1 t2) eqn:Eb; [apply basis_eqb in Eb; rewrite Eb; reflexivity|]. rewrite Lt2. destruct (columns h t2); congruence. }
    rewrite Ek1. cbn [obind]. rewrite Ek2. cbn [obind]. rewrite Er2. cbn [obind].
    destruct (snap_matrix_ok (columns h t1) (dim t1) N1) as (M1 & M2 & M3 & M4); [intros b; apply columns_len; auto|].
    destruct (snap_matrix_ok (columns h t2) (dim t2) N2) as (K1 & K2 & K3 & K4); [intros b; apply columns_len; auto|].
    do 3 eexists. split; [reflexivity|]. split; [auto|]. split; [auto|]. split; [auto|]. split; [auto|]. split.
    - intros r Hr. destruct (forall2_in _ _ _ F2 r Hr) as ((e, q) & Hu2 & Rr). destruct (Each e q r Hu2 Rr) as (b1' & b2' & Y1 & Y2 & _). rewrite M3, K3. split; apply nth_error_Some; congruence.
    - intros v1 v2 (e & q & Hi & -> & ->). destruct (forall2_nth _ _ _ F2 _ Hi) as (i & r & Ei & Rr). destruct (Each e q r Hi Rr) as (b1' & b2' & Y1 & Y2 & V1 & V2).
      assert (Li : i < List.length recs) by (apply nth_error_Some; congruence). exists i. split; [exact Li|]. rewrite (nth_error_nth _ _ (0, 0) Ei).
      split; intros k Hk.
      + rewrite M4 by (auto; apply nth_error_Some; congruence). rewrite (nth_error_nth _ _ [] Y1). symmetry. apply V1.
      + rewrite K4 by (auto; apply nth_error_Some; congruence). rewrite (nth_error_nth _ _ [] Y2). symmetry. apply V2.
  Qed.

  Lemma stands_ext k p l v1 v2 v1' v2' first phi : k < List.length (tn_rules T) -> p < List.length (tn_refs T) -> (forall i, i < size1 p -> v1 i = v1' i) -> (forall i, i < size2 p -> v2 i = v2' i) ->
    stands_for tol (rule_of T k) (tn_sites T k p) l v1 v2 first phi -> stands_for tol (rule_of T k) (tn_sites T k p) l v1' v2' first phi.
  Proof.
    intros Hk Hp X1 X2 H.
    assert (Ef : forall t m w, In (Some t) (tn_sites T k p) -> iform_at t m w v1 v2 first phi = iform_at t m w v1' v2' first phi).
    { intros t m w Hi. destruct (no_sites _ _ N k p (Some t) Hk Hp Hi) as (t' & Et & O & _). injection Et as <-. eapply iform_at_ext; eauto. }
    assert (Es : smp_sum (tn_sites T k p) l v1 v2 first phi = smp_sum (tn_sites T k p) l v1' v2' first phi).
    { unfold smp_sum. apply lsum_ext. intros a _. destruct (nth (Z.to_nat (si_el a)) (tn_sites T k p) None) eqn:E; auto. apply Ef. rewrite <- E. apply nth_In.
      destruct (Nat.lt_ge_cases (Z.to_nat (si_el a)) (List.length (tn_sites T k p))); auto. rewrite nth_overflow in E by auto. discriminate. }
    assert (Eu : full_sum (rule_of T k) (tn_sites T k p) v1 v2 first phi = full_sum (rule_of T k) (tn_sites T k p) v1' v2' first phi).
    { unfold full_sum, at_faces. apply lsum_ext. intros [t|] Hi; auto. apply rsum_ext. intros m _. apply Ef. exact Hi. }
    assert (Ea : abs_sum (rule_of T k) (tn_sites T k p) v1 v2 first phi = abs_sum (rule_of T k) (tn_sites T k p) v1' v2' first phi).
    { unfold abs_sum, at_faces. apply lsum_ext. intros [t|] Hi; auto. apply rsum_ext. intros m _. f_equal. apply Ef. exact Hi. }
    unfold stands_for in *. rewrite Es, Eu, Ea in H. exact H.
  Qed.

  Lemma train_one p k snap1 snap2 pairs : solver_works T tol s -> p < List.length (tn_refs T) -> k < List.length (tn_rules T) -> port_uses h (ref_tag T p) <> [] ->
    port_snaps T s p = Ok (snap1, snap2, pairs) ->
    exists l, (let* (nqe, sys) := port_system T snap1 snap2 pairs p k in train_integrator T tol nqe sys) = Ok l /\ good T tol h k p l.
  Proof.
    intros SW Hp Hk Hu Es. destruct (snaps_ok p Hp Hu) as (a1 & a2 & a3 & Es' & S1 & S2 & R1 & R2 & Hpr & Hon). rewrite Es in Es'. injection Es' as <- <- <-.
    assert (Er : nth_error (tn_refs T) p = Some (ref_of T p)) by (apply nth_error_nth'; auto).
    pose proof (SW p k snap1 snap2 pairs) as SWp. pose proof (no_sites _ _ N k p) as Ns. pose proof (stands_ext k p) as SE.
    unfold port_system in *. rewrite (oread_some _ _ _ Er) in *. cbn [obind] in *. unfold tag1, tag2, size1, size2, side in *. unfold good, test_mode, side. destruct (ref_of T p) as (((c1, c2), a1), a2).
    destruct (no_refs _ _ N c1 c2 a1 a2 (nth_error_In _ _ Er)) as (C1 & C2). destruct (no_comp _ _ N) as (Lb & Lo & Lz).
    rewrite (oread_nth (tn_size T) c1 0), (oread_nth (tn_size T) c2 0) in * by (rewrite Lz; auto). cbn [obind] in *.
    pose proof (no_size _ _ N c1 C1) as Z1. pose proof (no_size _ _ N c2 C2) as Z2. rewrite <- R1 in Z1. rewrite <- R2 in Z2.
    rewrite (proj2 (Nat.leb_le _ _) Z1), (proj2 (Nat.leb_le _ _) Z2) in *. cbn [oassert] in *.
    destruct (no_basis _ _ N c1 C1) as (B1 & Eb1 & W1 & H1). destruct (no_basis _ _ N c2 C2) as (B2 & Eb2 & W2 & H2).
    rewrite (oread_some _ _ _ Eb1), (oread_some _ _ _ Eb2) in *. cbn [obind] in *. rewrite (oread_nth (tn_offs T) c1 0), (oread_nth (tn_offs T) c2 0) in * by (rewrite Lo; auto). cbn [obind] in *.
    destruct (nth_error (tn_rules T) k) as [o|] eqn:Ek; [|apply nth_error_None in Ek; lia]. rewrite (oread_some _ _ _ Ek) in *. cbn [obind] in *.
    destruct (no_rules _ _ N o (nth_error_In _ _ Ek)) as (w & -> & Hw & Hpos).
    assert (Ew : rule_of T k = w) by (unfold rule_of; rewrite (nth_error_nth _ _ None Ek); reflexivity). rewrite Ew in *.
    assert (EB1 : basis_at T c1 = B1) by (unfold basis_at; rewrite (nth_error_nth _ _ None Eb1); reflexivity). assert (EB2 : basis_at T c2 = B2) by (unfold basis_at; rewrite (nth_error_nth _ _ None Eb2); reflexivity).
    set (st := tn_sites T k p) in *. set (split := tn_split T (List.length st)) in *.
    destruct (rule_ok tol w st B1 B2 (nth c1 (tn_offs T) 0) (nth c2 (tn_offs T) 0) (nth c1 (tn_size T) 0) (nth c2 (tn_size T) 0) snap1 snap2 pairs split
      (fun r => tn_junk T (nth r split 0 * List.length w * ((dm_w B1 + dm_w B2) * List.length pairs))) (fun r => tn_junk T (nth r split 0 * List.length w))) as (Gs & rhs & Esys & Rk); auto; try (intros r _; apply (no_junk _ _ N)).
    { apply (no_split _ _ N). }
    change (List.length w) with (List.length w) in Esys. rewrite Esys in *. cbn [obind] in *. specialize (SWp _ _ _ Es eq_refl). unfold solves in SWp. unfold train_integrator.
    destruct (eqp_bounds tol rhs) as (lb, ub). cbn [fst snd] in SWp. destruct (Rk (tn_solve T Gs lb ub) SWp) as (_ & Rl). destruct (Rl (tn_junk T (list_sum (map (@List.length R) (tn_solve T Gs lb ub)))) (no_junk _ _ N _)) as (l & El & Fl & St).
    exists l. split; [exact El|]. split; [exact Fl|]. intros v1 v2 first j Hv Hj. destruct (Hon v1 v2 Hv) as (i & Hi & V1 & V2).
    apply (SE l (fun k0 => rget snap1 k0 (fst (nth i pairs (0, 0)))) (fun k0 => rget snap2 k0 (snd (nth i pairs (0, 0))))); auto.
    - intros x Hx. apply V1. lia.
    - intros x Hx. apply V2. lia.
    - destruct first; rewrite ?EB1, ?EB2 in *; [apply (St i true j Hi Hj)|apply (St i false j Hi Hj)].
  Qed.

  (** ** All slots *)
  Let nref := List.length (tn_refs T).
  Let nk := List.length (tn_rules T).
  Let np := List.length (tn_types T).

  Definition filled (L : nat -> nat -> list (sinfo R)) (dn : nat -> nat -> bool) (st0 st : rules) : Prop :=
    List.length (fst st) = nk * nref /\ List.length (snd st) = nk * np /\
    (forall k p, k < nk -> p < nref -> nth_error (fst st) (p + k * nref) = if dn p k then Some (Some (L p k)) else nth_error (fst st0) (p + k * nref)) /\
    (forall k q t, k < nk -> nth_error (tn_types T) q = Some t -> nth_error (snd st) (q + k * np) = if dn t k then Some (Some (L t k)) else nth_error (snd st0) (q + k * np)).

  Lemma slot_lt p k n m : p < n -> k < m -> p + k * n < m * n. Proof. intros. nia. Qed.
  Lemma slot_inj p k p' k' n : p < n -> p' < n -> p + k * n = p' + k' * n -> p = p' /\ k = k'. Proof. intros. destruct (lin_inj k p k' p' n); lia. Qed.

  Lemma update_ok L dn st0 st k p : filled L dn st0 st -> k < nk -> p < nref ->
    exists st', update_sampling T k p (L p k) st = Ok st' /\ filled L (fun p' k' => if (p' =? p) && (k' =? k) then true else dn p' k') st0 st'.
  Proof.
    intros (L1 & L2 & F1 & F2) Hk Hp. destruct st as (ref, smp). cbn [fst snd] in *. unfold update_sampling. fold nk nref np. rewrite (proj2 (Nat.ltb_lt _ _) Hk), (proj2 (Nat.ltb_lt _ _) Hp), L1, Nat.eqb_refl. cbn [oassert].
    pose proof (slot_lt p k nref nk Hp Hk) as Hs1. rewrite (owrite_vec ref (p + k * nref) (Some (L p k)) ltac:(lia)). cbn [obind]. set (ref' := upd ref (p + k * nref) (Some (L p k))).
    assert (Er : forall i, i < List.length ref -> nth_error ref' i = if i =? p + k * nref then Some (Some (L p k)) else nth_error ref i).
    { intros i Hi. unfold ref'. rewrite nth_error_upd. destruct (Nat.eqb_spec i (p + k * nref)); [subst|auto]. destruct (Nat.ltb_spec (p + k * nref) (List.length ref)); [auto|lia]. }
    match goal with |- context [ofor np ?f smp] => destruct (ofor_inv np f (fun n (sm : list (option (list (sinfo R)))) => List.length sm = nk * np /\
      forall i, nth_error sm i = if ((k * np <=? i) && (i <? n + k * np)) && (match nth_error (tn_types T) (i - k * np) with Some t => t =? p | None => false end) then Some (Some (L p k)) else nth_error smp i) smp) as (sm & Esm & Lsm & Vsm) end.
    - split; [exact L2|]. intros i. destruct (Nat.leb_spec (k * np) i); cbn [andb]; auto. destruct (Nat.ltb_spec i (0 + k * np)); [lia|]. cbn [andb]. auto.
    - intros q sm Hq (Ls & Vs). destruct (nth_error (tn_types T) q) as [t|] eqn:Et; [|apply nth_error_None in Et; unfold np in Hq; lia]. rewrite (oread_some _ _ _ Et). cbn [obind].
      assert (Hqi : q + k * np < nk * np) by (apply slot_lt; auto).
      destruct (Nat.eqb_spec t p) as [->|Nt].
      + rewrite (oread_some ref' (p + k * nref) (Some (L p k))) by (rewrite Er, Nat.eqb_refl by lia; reflexivity). cbn [obind]. rewrite owrite_vec by lia. eexists. split; [reflexivity|].
        split; [rewrite upd_length; auto|]. intros i. rewrite nth_error_upd. destruct (Nat.eqb_spec i (q + k * np)) as [->|Ni].
        * rewrite (proj2 (Nat.ltb_lt _ _)) by lia. replace (q + k * np - k * np) with q by lia. rewrite Et, Nat.eqb_refl. rewrite (proj2 (Nat.leb_le (k * np) (q + k * np))) by lia. rewrite (proj2 (Nat.ltb_lt (q + k * np) (S q + k * np))) by lia. reflexivity.
        * rewrite Vs. destruct (Nat.leb_spec (k * np) i); cbn [andb]; auto. destruct (Nat.ltb_spec i (q + k * np)), (Nat.ltb_spec i (S q + k * np)); try lia; reflexivity.
      + exists sm. split; [reflexivity|]. split; [exact Ls|]. intros i. rewrite Vs. destruct (Nat.eqb_spec i (q + k * np)) as [->|Ni].
        * replace (q + k * np - k * np) with q by lia. rewrite Et. rewrite (proj2 (Nat.eqb_neq t p) Nt). rewrite !andb_false_r. reflexivity.
        * destruct (Nat.leb_spec (k * np) i); cbn [andb]; auto. destruct (Nat.ltb_spec i (q + k * np)), (Nat.ltb_spec i (S q + k * np)); try lia; reflexivity.
    - rewrite Esm. cbn [obind]. eexists. split; [reflexivity|]. unfold filled. cbn [fst snd]. split; [unfold ref'; rewrite upd_length; auto|]. split; [exact Lsm|]. split.
      + intros k' p' Hk' Hp'. rewrite Er by (rewrite L1; apply slot_lt; auto). destruct (Nat.eqb_spec (p' + k' * nref) (p + k * nref)) as [Q|Q].
        * destruct (slot_inj _ _ _ _ _ Hp' Hp Q) as (-> & ->). rewrite !Nat.eqb_refl. reflexivity.
        * rewrite F1 by auto. destruct (Nat.eqb_spec p' p), (Nat.eqb_spec k' k); cbn [andb]; auto. subst. congruence.
      + intros k' q t Hk' Et. assert (Hq : q < np) by (unfold np; apply nth_error_Some; congruence). rewrite Vsm. destruct (Nat.leb_spec (k * np) (q + k' * np)) as [G1|G1]; cbn [andb].
        * destruct (Nat.ltb_spec (q + k' * np) (np + k * np)) as [G2|G2]; cbn [andb].
          -- assert (k' = k) by nia. subst k'. replace (q + k * np - k * np) with q by lia. rewrite Et, Nat.eqb_refl, andb_true_r. destruct (Nat.eqb_spec t p) as [->|]; [reflexivity|]. apply F2; auto.
          -- assert (k' <> k) by nia. rewrite (proj2 (Nat.eqb_neq k' k)) by auto. rewrite andb_false_r. apply F2; auto.
        * assert (k' <> k) by nia. rewrite (proj2 (Nat.eqb_neq k' k)) by auto. rewrite andb_false_r. apply F2; auto.
  Qed.

  Theorem train_ports_ok st0 : solver_works T tol s -> List.length (fst st0) = nk * nref -> List.length (snd st0) = nk * np ->
    (forall p, p < nref -> port_uses h (ref_tag T p) <> []) ->
    exists st, train_ports T tol s st0 = Ok st /\ List.length (snd st) = nk * np /\
      (forall k p, k < nk -> p < nref -> exists l, nth_error (fst st) (p + k * nref) = Some (Some l) /\ good T tol h k p l) /\
      (forall k q t, k < nk -> nth_error (tn_types T) q = Some t -> nth_error (snd st) (q + k * np) = nth_error (fst st) (t + k * nref)).
  Proof.
    intros SW L1 L2 Hu.
    set (L := fun p k => match port_snaps T s p with Ok (snap1, snap2, pairs) => match (let* (nqe, sys) := port_system T snap1 snap2 pairs p k in train_integrator T tol nqe sys) with Ok l => l | _ => [] end | _ => [] end).
    assert (HL : forall p k, p < nref -> k < nk -> good T tol h k p (L p k)).
    { intros p k Hp Hk. destruct (snaps_ok p Hp (Hu p Hp)) as (s1 & s2 & pr & Es & _). destruct (train_one p k s1 s2 pr SW Hp Hk (Hu p Hp) Es) as (l & El & Gl). unfold L. rewrite Es, El. exact Gl. }
    unfold train_ports. fold nref.
    match goal with |- context [ofor nref ?f st0] => destruct (ofor_inv nref f (fun n st => filled L (fun p _ => p <? n) st0 st) st0) as (st & E & F1 & F2 & F3 & F4) end.
    - split; [auto|]. split; [auto|]. split; intros; [destruct (Nat.ltb_spec p 0)|destruct (Nat.ltb_spec t 0)]; auto; lia.
    - intros p st Hp F. destruct (snaps_ok p Hp (Hu p Hp)) as (s1 & s2 & pr & Es & _). rewrite Es. cbn [obind]. unfold train_port. fold nk.
      match goal with |- context [ofor nk ?f st] => destruct (ofor_inv nk f (fun n st => filled L (fun p' k' => if (p' =? p) && (k' <? n) then true else p' <? p) st0 st) st) as (st' & E' & F') end.
      + destruct F as (A1 & A2 & A3 & A4). split; [auto|]. split; [auto|]. split; intros; [rewrite A3 by auto; destruct (Nat.ltb_spec k 0)|rewrite (A4 _ _ t) by auto; destruct (Nat.ltb_spec k 0)]; try lia; rewrite andb_false_r; reflexivity.
      + intros k st' Hk F'. destruct (train_one p k s1 s2 pr SW Hp Hk (Hu p Hp) Es) as (l & El & _). assert (EL : L p k = l) by (unfold L; rewrite Es, El; reflexivity).
        destruct (port_system T s1 s2 pr p k) as [(nqe, sys)| |]; try discriminate. cbn [obind] in *. rewrite El. cbn [obind]. rewrite <- EL. destruct (update_ok _ _ _ _ k p F' Hk Hp) as (st2 & E2 & A1 & A2 & A3 & A4).
        exists st2. split; [exact E2|]. split; [auto|]. split; [auto|]. split; intros; [rewrite A3 by auto|rewrite (A4 _ _ t) by auto].
        * destruct (Nat.eqb_spec p0 p); cbn [andb]; auto. destruct (Nat.eqb_spec k0 k), (Nat.ltb_spec k0 k), (Nat.ltb_spec k0 (S k)); try lia; reflexivity.
        * destruct (Nat.eqb_spec t p); cbn [andb]; auto. destruct (Nat.eqb_spec k0 k), (Nat.ltb_spec k0 k), (Nat.ltb_spec k0 (S k)); try lia; reflexivity.
      + exists st'. split; [exact E'|]. destruct F' as (A1 & A2 & A3 & A4). split; [auto|]. split; [auto|]. split; intros; [rewrite A3 by auto|rewrite (A4 _ _ t) by auto].
        * rewrite (proj2 (Nat.ltb_lt k nk)) by auto. rewrite andb_true_r. destruct (Nat.eqb_spec p0 p), (Nat.ltb_spec p0 p), (Nat.ltb_spec p0 (S p)); try lia; reflexivity.
        * rewrite (proj2 (Nat.ltb_lt k nk)) by auto. rewrite andb_true_r. destruct (Nat.eqb_spec t p), (Nat.ltb_spec t p), (Nat.ltb_spec t (S p)); try lia; reflexivity.
    - exists st. split; [exact E|]. split; [exact F2|]. split.
      + intros k p Hk Hp. exists (L p k). split; [|auto]. rewrite F3 by auto. rewrite (proj2 (Nat.ltb_lt _ _) Hp). reflexivity.
      + intros k q t Hk Et. assert (Htn : t < nref) by (apply (no_types _ _ N), (nth_error_In _ _ Et)). rewrite (F4 k q t) by auto. rewrite F3 by auto. rewrite (proj2 (Nat.ltb_lt _ _) Htn). reflexivity.
  Qed.

  (** A reference port that was on no side of any sampled solve *)
  Lemma train_ports_unsampled st0 p st : p < nref -> port_uses h (ref_tag T p) = [] -> train_ports T tol s st0 <> Ok st.
  Proof.
    intros Hp Hu E. unfold train_ports in E. fold nref in E.
    assert (Bad : forall x, port_snaps T s p <> Ok x).
    { intros ((a, b), c) Q. unfold port_snaps in Q. assert (Er : nth_error (tn_refs T) p = Some (ref_of T p)) by (apply nth_error_nth'; auto). rewrite (oread_some _ _ _ Er) in Q. cbn [obind] in Q.
      unfold ref_tag in Hu. destruct (ref_of T p) as (((c1, c2), a1), a2). destruct (no_refs _ _ N c1 c2 a1 a2 (nth_error_In _ _ Er)) as (C1 & C2).
      rewrite (oread_nth (tn_names T) c1 String.EmptyString), (oread_nth (tn_names T) c2 String.EmptyString) in Q by auto. cbn [obind] in Q.
      destruct Hs as (_ & L2). pose proof (L2 {| Mesh1 := nth c1 (tn_names T) String.EmptyString; Mesh2 := nth c2 (tn_names T) String.EmptyString; Attr1 := a1; Attr2 := a2 |}) as Q2. rewrite Hu in Q2.
      destruct (proj1 (obind_ok _ _ _) Q) as (x1 & _ & Q'). destruct (proj1 (obind_ok _ _ _) Q') as (x2 & _ & Q3). destruct (proj1 (obind_ok _ _ _) Q3) as (x3 & _ & Q4). destruct (proj1 (obind_ok _ _ _) Q4) as (x4 & _ & Q5). destruct (proj1 (obind_ok _ _ _) Q5) as (x5 & Q6 & _). congruence. }
    assert (G : forall n a s0, p < a + n -> a <= p -> ofold (fun st p => let* (snap1, snap2, pairs) := port_snaps T s p in train_port T tol snap1 snap2 pairs p st) (seq a n) s0 <> Ok st).
    { induction n; intros a s0 H1 H2; [lia|]. cbn [seq ofold]. intros Q. destruct (proj1 (obind_ok _ _ _) Q) as (x & Q1 & Q2). destruct (Nat.eq_dec a p) as [->|Na].
      - destruct (proj1 (obind_ok _ _ _) Q1) as (y & Q3 & _). exact (Bad y Q3).
      - apply (IHn (S a) x); auto; lia. }
    apply (G nref 0 st0 ltac:(lia) ltac:(lia)). exact E.
  Qed.
End Run.
