(** C132: training of the quadrature rules of ports. *)
From Coq Require Import Reals List Bool Lia Arith ZArith Lra.
From Verif Require Import Outcome ListLemmas TagsModel TagsSpec SnapshotModel SnapshotSpec SnapshotProofs SnapshotCollect HdfModel LaBase BlockVec LinalgModel LinalgSpec ItfModel EqpModel EqpSpec EqpItfModel EqpItfSpec.
From Verif Require Import ItrModel ItrSpec ItrProofs ItrRunProofs ItrEvalProofs ItrExamples.
Import ListNotations.
Local Open Scope nat_scope.

Lemma concat_dims {K} (hs : list (list (event K))) dim : (forall h, In h hs -> same_dims h dim) -> same_dims (concat hs) dim.
Proof. intros H t b Hi. apply in_flat_map in Hi. destruct Hi as (e & He & Hb). apply in_concat in He. destruct He as (h & Hh & He). apply (H h Hh). apply in_flat_map. exists e. auto. Qed.

Lemma concat_vars {K} (hs : list (list (event K))) vars e : (forall h, In h hs -> proper_history vars h) -> In e (concat hs) -> ev_vars e = vars.
Proof. intros H He. apply in_concat in He. destruct He as (h & Hh & He). exact (proj1 (ph_event _ _ (H h Hh) e He)). Qed.

(** From the files of several sampling runs, the training gives each port, for each integrator, the rule of its reference port, which
    stands for the full rule at every pair of states that was on the two sides of that reference port in one solve. *)
Theorem C132_trained : forall accepts dim hs fs T tol st0,
  plain_vars (save_vars T) -> NoDup (save_vars T) ->
  (forall h, In h hs -> proper_history (save_vars T) h /\ same_dims h dim /\ (forall e t b, In e h -> In (t, b) (event_blocks e) -> 0 < List.length b)) ->
  Forall2 (fun h f => run_and_write accepts h = Ok f) hs fs ->
  net_ok T dim -> (0 <= tol)%R -> (forall s, collect_files accepts fs = Ok s -> solver_works T tol s) ->
  List.length (fst st0) = List.length (tn_rules T) * List.length (tn_refs T) -> List.length (snd st0) = List.length (tn_rules T) * List.length (tn_types T) ->
  (forall p, p < List.length (tn_refs T) -> port_uses (concat hs) (ref_tag T p) <> []) ->
  exists s st, collect_files accepts fs = Ok s /\ train_ports T tol s st0 = Ok st /\ List.length (snd st) = List.length (tn_rules T) * List.length (tn_types T) /\
    (forall k p, k < List.length (tn_rules T) -> p < List.length (tn_refs T) -> exists l, nth_error (fst st) (p + k * List.length (tn_refs T)) = Some (Some l) /\ good T tol (concat hs) k p l) /\
    (forall k q t, k < List.length (tn_rules T) -> nth_error (tn_types T) q = Some t -> nth_error (snd st) (q + k * List.length (tn_types T)) = nth_error (fst st) (t + k * List.length (tn_refs T))).
Proof.
  intros accepts dim hs fs T tol st0 PV ND HH F2 N Ht SW L1 L2 Hu.
  assert (Vn : save_vars T <> []) by (unfold save_vars; destruct (tn_sep T) eqn:E; [apply (no_vars _ _ N E)|discriminate]).
  destruct (collected accepts dim (save_vars T) hs fs PV ND Vn HH F2) as (s & Es & Hl & Hp).
  destruct (train_ports_ok T dim tol s (concat hs) N) with (st0 := st0) as (st & E & Ls & A & B); auto.
  - apply concat_dims. intros h Hh. apply HH. exact Hh.
  - intros e He. apply (concat_vars hs); auto. intros h Hh. apply HH. exact Hh.
  - split; auto.
  - exists s, st. auto.
Qed.
Print Assumptions C132_trained.

(** A reference port that was never sampled is not trained on something else: the training does not come to an end. *)
Theorem C132_unsampled : forall accepts dim hs fs T tol st0 p s,
  plain_vars (save_vars T) -> NoDup (save_vars T) ->
  (forall h, In h hs -> proper_history (save_vars T) h /\ same_dims h dim /\ (forall e t b, In e h -> In (t, b) (event_blocks e) -> 0 < List.length b)) ->
  Forall2 (fun h f => run_and_write accepts h = Ok f) hs fs ->
  net_ok T dim -> p < List.length (tn_refs T) -> port_uses (concat hs) (ref_tag T p) = [] -> collect_files accepts fs = Ok s ->
  forall st, train_ports T tol s st0 <> Ok st.
Proof.
  intros accepts dim hs fs T tol st0 p s PV ND HH F2 N Hp Hu Es st.
  assert (Vn : save_vars T <> []) by (unfold save_vars; destruct (tn_sep T) eqn:E; [apply (no_vars _ _ N E)|discriminate]).
  destruct (collected accepts dim (save_vars T) hs fs PV ND Vn HH F2) as (s' & Es' & Hl & Hpp). assert (s' = s) by congruence. subst s'.
  apply (train_ports_unsampled T dim tol s (concat hs) N) with (p := p); auto. split; auto.
Qed.
Print Assumptions C132_unsampled.

(** Evaluated at a reduced state that is on every port a pair of sampled states, the hyper-reduced interface terms are within the
    tolerance of the full ones. *)
Theorem C132_evaluated : forall T dim tol h ct ports st x y, let F := net_form T ct ports (snd st) in
  net_ok T dim -> ports_ok T ct ports -> List.length (snd st) = List.length (tn_rules T) * List.length (tn_types T) ->
  (forall k p, k < List.length (tn_rules T) -> p < List.length (tn_refs T) -> exists l, nth_error (fst st) (p + k * List.length (tn_refs T)) = Some (Some l) /\ good T tol h k p l) ->
  (forall k q t, k < List.length (tn_rules T) -> nth_error (tn_types T) q = Some t -> nth_error (snd st) (q + k * List.length (tn_types T)) = nth_error (fst st) (t + k * List.length (tn_refs T))) ->
  (forall c B, In c ct -> nth_error (tn_bases T) c = Some (Some B) -> 0 < dm_w B) ->
  (forall k p t, k < List.length (tn_rules T) -> p < List.length (tn_refs T) -> In (Some t) (tn_sites T k p) -> iplain t) ->
  sampled_state T h F x -> List.length x = start F (List.length ct) -> List.length y = List.length x ->
  exists off z, block_offsets (fo_bases F) = Ok off /\ itf_add_mult F off x y = Ok z /\ List.length z = List.length y /\
    forall i j, i < List.length ct -> j < width F i ->
      (Rabs (vnth z (start F i + j) - (vnth y (start F i + j) + over_ports T F i j (port_full T F x))) <= over_ports T F i j (port_bound T tol F x))%R.
Proof.
  intros T dim tol h ct ports st x y F N PO L2 A B Wp Pl SS Lx Ly. eapply eval_ok; eauto. replace (List.length (fo_bases _)) with (List.length ct) by (unfold net_form; cbn [fo_bases]; rewrite map_length; reflexivity). exact Lx.
Qed.
Print Assumptions C132_evaluated.
