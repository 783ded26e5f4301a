(** A network of two subdomains of one component, with a port between them. *)
From Coq Require Import Reals List Bool Lia Arith ZArith Lra String.
From Verif Require Import Outcome ListLemmas TagsModel TagsSpec SnapshotModel SnapshotSpec SnapshotProofs SnapshotCollect HdfModel LaBase BlockVec LinalgModel LinalgSpec LinalgProofs ItfModel EqpModel EqpSpec EqpItfModel EqpItfSpec.
From Verif Require Import RomProofs EqpSetupProofs ItrModel ItrSpec ItrProofs ItrRunProofs ItrEvalProofs.
Import ListNotations.
Local Open Scope nat_scope.
Local Open Scope list_scope.

Definition xi_event (a b : R) : event R :=
  {| ev_topo := {| t_names := ["a"; "a"]%string; t_ports := [{| pm1 := 0; pm2 := 1; pa1 := 1%Z; pa2 := 2%Z |}] |}; ev_vars := ["vel"; "pres"]%string; ev_blocks := [[a]; [7%R]; [b]; [8%R]] |}.
(** Two sampling runs, with one and two solves *)
Definition xi_hs : list (list (event R)) := [[xi_event 1 2]; [xi_event 3 4; xi_event 5 6]].

Definition xi_site : isite := ISite [0%Z] [0%Z] (fun m w x y => ([(w * (vnth x 0 * vnth y 0))%R], [(w * (- vnth x 0))%R])) (fun _ _ _ _ _ _ => DMat 1 1 [0%R]).
(** The solver returns the weights of the full rule *)
Definition xi_T : tnet :=
  TNet ["a"]%string ["vel"; "pres"]%string true [(0, 0, 1%Z, 2%Z)] [0] [Some (DMat 1 1 [1%R])] [0] [1] [Some [1%R; 2%R]] (fun _ _ => [Some xi_site]) (fun n => [n]) (fun n => repeat 0%R n) (fun _ _ _ => [[1%R; 2%R]]).
Definition xi_dim (t : basis_tag) : nat := 1.

Lemma xi_site_ok : isite_ok 1 1 xi_site /\ iweight_linear xi_site.
Proof.
  split; [split; [|split]|].
  - intros d [<-|[]]. cbn. lia.
  - intros d [<-|[]]. cbn. lia.
  - intros. auto.
  - intros m w v1 v2 first phi. unfold iform_at, xi_site. cbn [is_quad is_d1 is_d2 fst snd List.length]. destruct first; unfold dot; cbn [rsum]; unfold vnth; cbn [nth]; ring.
Qed.

Lemma xi_dm : dm_wf (DMat 1 1 [1%R]).
Proof. unfold dm_wf. cbn. auto. Qed.

Example xi_ok : net_ok xi_T xi_dim.
Proof.
  split; cbn.
  - discriminate.
  - intros c1 c2 a1 a2 [E|[]]. injection E as <- <- _ _. lia.
  - intros t [<-|[]]. lia.
  - auto.
  - intros c Hc. destruct c; [|lia]. exists (DMat 1 1 [1%R]). split; [auto|]. split; [apply xi_dm|cbn; lia].
  - intros c Hc. destruct c; [|lia]. cbn. unfold xi_dim. lia.
  - intros o [<-|[]]. exists [1%R; 2%R]. split; [auto|]. split; [discriminate|]. intros x [<-|[<-|[]]]; lra.
  - intros k p so Hk Hp [<-|[]]. exists xi_site. split; [auto|]. destruct p; [|lia]. exact xi_site_ok.
  - intros n. lia.
  - intros n. apply repeat_length.
Qed.

Example xi_proper h : In h xi_hs -> proper_history (save_vars xi_T) h /\ same_dims h xi_dim /\ (forall e t b, In e h -> In (t, b) (event_blocks e) -> 0 < List.length b).
Proof.
  assert (P : forall l, (forall e, In e l -> exists a b, e = xi_event a b) -> proper_history (save_vars xi_T) l /\ same_dims l xi_dim /\ (forall e t b, In e l -> In (t, b) (event_blocks e) -> 0 < List.length b)).
  { intros l Hl. assert (Bl : forall e t b, In e l -> In (t, b) (event_blocks e) -> List.length b = 1).
    { intros e t b He Hb. destruct (Hl e He) as (x & y & ->). cbn in Hb. destruct Hb as [E|[E|[E|[E|[]]]]]; injection E as _ <-; reflexivity. }
    split; [split|split].
    - split; [|discriminate]. cbn. constructor; [intros [Q|[]]; discriminate|]. constructor; [intros []|constructor].
    - intros e He. destruct (Hl e He) as (x & y & ->). split; [reflexivity|]. split; [discriminate|]. split; [reflexivity|]. intros p [<-|[]]. cbn. lia.
    - intros t b Hb. apply in_flat_map in Hb. destruct Hb as (e & He & Hb). exact (Bl e t b He Hb).
    - intros e t b He Hb. rewrite (Bl e t b He Hb). lia. }
  intros [<-|[<-|[]]]; apply P; intros e He; cbn in He; intuition (subst; eauto).
Qed.

Example xi_files : exists fs, Forall2 (fun h f => run_and_write (fun _ => true) h = Ok f) xi_hs fs.
Proof.
  assert (Q : forall h, In h xi_hs -> exists f, run_and_write (fun _ => true) h = Ok f).
  { intros h [<-|[<-|[]]]; eexists; vm_compute; reflexivity. }
  destruct (Q [xi_event 1 2]) as (f1 & E1); [left; auto|]. destruct (Q [xi_event 3 4; xi_event 5 6]) as (f2 & E2); [right; left; auto|]. exists [f1; f2]. constructor; [exact E1|]. constructor; [exact E2|constructor].
Qed.

Example xi_used p : p < List.length (tn_refs xi_T) -> port_uses (List.concat xi_hs) (ref_tag xi_T p) <> [].
Proof. intros Hp. destruct p; [|cbn in Hp; lia]. discriminate. Qed.
(** The pairs of states of the three solves *)
Example xi_sides : on_sides xi_T (List.concat xi_hs) 0 (fun k => nth k [3%R] 0%R) (fun k => nth k [4%R] 0%R).
Proof. exists (xi_event 3 4), {| pm1 := 0; pm2 := 1; pa1 := 1%Z; pa2 := 2%Z |}. split; [right; left; reflexivity|]. split; reflexivity. Qed.

Example xi_solver tol s : (0 <= tol)%R -> holds s (List.concat xi_hs) -> solver_works xi_T tol s.
Proof.
  intros Ht Hs p k snap1 snap2 pairs nqe Gs rhs Es Ey _. assert (D : same_dims (List.concat xi_hs) xi_dim).
  { intros t b Hi. apply in_flat_map in Hi. destruct Hi as (e & He & Hb). apply in_concat in He. destruct He as (h & Hh & He). destruct (xi_proper h Hh) as (_ & D & _). apply D. apply in_flat_map. exists e. auto. }
  assert (HV : forall e, In e (List.concat xi_hs) -> ev_vars e = save_vars xi_T) by (intros e He; cbn in He; destruct He as [<-|[<-|[<-|[]]]]; reflexivity).
  assert (Hp : p < 1). { destruct (Nat.lt_ge_cases p 1) as [|Q]; auto. unfold port_snaps, oread in Es. rewrite (proj2 (nth_error_None (tn_refs xi_T) p) Q) in Es. discriminate. }
  assert (p = 0) by lia. subst p. destruct (snaps_ok xi_T xi_dim s (List.concat xi_hs) xi_ok D HV Hs 0 Hp (xi_used 0 Hp)) as (s1 & s2 & pr & Es' & S1 & S2 & R1 & R2 & Hpr & _). rewrite Es in Es'. injection Es' as <- <- <-.
  change (rm_r snap1 = 1) in R1. change (rm_r snap2 = 1) in R2. unfold port_system in Ey. cbn [xi_T tn_refs tn_size tn_bases tn_offs oread nth_error obind] in Ey. rewrite R1, R2 in Ey. cbn [Nat.leb oassert obind oread nth_error tn_offs tn_bases tn_rules xi_T] in Ey.
  destruct k; [|destruct k; discriminate]. cbn [tn_rules oread nth_error obind] in Ey. destruct (proj1 (obind_ok _ _ _) Ey) as ((G, r) & Esys & E2). injection E2 as _ -> ->.
  assert (Hw : forall x, In x [1%R; 2%R] -> (0 <= x)%R) by (intros x [<-|[<-|[]]]; lra).
  assert (Ho : forall so, In so [Some xi_site] -> exists t, so = Some t /\ isite_ok 1 1 t /\ iweight_linear t) by (intros so [<-|[]]; exists xi_site; split; [auto|exact xi_site_ok]).
  refine (full_admissible tol [1%R; 2%R] [Some xi_site] (DMat 1 1 [1%R]) (DMat 1 1 [1%R]) 0 0 1 1 snap1 snap2 pairs [1] _ _ xi_dm xi_dm _ _ S1 S2 _ _ Hpr _ Hw eq_refl Ho _ _ Ht Gs rhs Esys); try (cbn; lia); try discriminate; intros r1 _; apply repeat_length.
Qed.
