(** Properties of meshes split into subdomains. *)
From Coq Require Import ZArith List Bool Lia Reals String Sorting.Sorted.
From Verif Require Import Outcome TopoModel TopoSpec TopoProofs LaBase SplitModel SplitSpec SplitProofs SplitMapProofs SplitTopProofs SplitMoveProofs SplitExamples.
Import ListNotations.
Local Open Scope nat_scope.

(** C119: the subdomains of a mesh: one per attribute (or one in all), with the elements that have it, in order, on the same
    vertices; faces are mapped to the face of the mesh with the same ends; the boundary elements lie on the edges with one
    side in the subdomain, once each.
    [SplitExamples.sx_mesh] meets the hypotheses. *)
Theorem C119_subdomains : forall dd mode pm0 pm,
  (dd = "interior_penalty"%string /\ mode = IP) \/ (dd = "none"%string /\ mode = NODD) -> mesh_ok pm -> m_elems pm <> [] ->
  (forall z, In z (map el_attr (m_elems pm0)) <-> In z (map el_attr (m_elems pm))) ->
  exists h n, build_handler dd pm0 pm = Ok h /\
  ((forall x, In x (m_elems pm) -> (el_attr x <= Z.of_nat n)%Z) /\ exists x, In x (m_elems pm) /\ el_attr x = Z.of_nat n) /\
  List.length (h_subs h) = match mode with NODD => 1 | IP => n end /\ List.length (h_maps h) = List.length (h_subs h) /\
  forall k sm, nth_error (h_subs h) k = Some sm ->
    StronglySorted lt (sm_pel sm) /\
    (forall e, In e (sm_pel sm) <-> exists z, has_attr (m_elems pm) e z /\ in_domain mode k z) /\
    List.length (sm_elems sm) = List.length (sm_pel sm) /\ NoDup (sm_vert sm) /\
    (forall i x, nth_error (sm_elems sm) i = Some x -> exists e px, nth_error (sm_pel sm) i = Some e /\ nth_error (m_elems pm) e = Some px /\
       el_attr x = el_attr px /\ map (nth_error (sm_vert sm)) (el_vert x) = map Some (el_vert px)) /\
    (forall pf, nth_error (h_maps h) k = Some pf -> List.length pf = List.length (sm_faces sm) /\
       forall q f, nth_error (sm_faces sm) q = Some f -> exists pk g a b, nth_error pf q = Some (Some pk) /\ nth_error (h_pfs h) pk = Some g /\
         nth_error (sm_vert sm) (fst (fi_edge f)) = Some a /\ nth_error (sm_vert sm) (snd (fi_edge f)) = Some b /\ same_edge (fi_edge g) (a, b) = true) /\
    (forall a b e l, (exists be, bdr_on sm be e l a b) <->
       side_on (m_elems pm) e l a b /\ In e (sm_pel sm) /\ forall e' l', side_on (m_elems pm) e' l' a b -> In e' (sm_pel sm) -> (e', l') = (e, l)) /\
    (forall be be' e l e' l' a b, bdr_on sm be e l a b -> bdr_on sm be' e' l' a b -> be = be').
Proof.
  intros dd mode pm0 pm Hd MO Ne At. assert (Ed : dd_mode_of dd = Ok mode) by (destruct Hd as [(-> & ->)|(-> & ->)]; reflexivity). destruct (build_ok dd mode pm0 pm Ed MO Ne At) as (h & n & pb & E & T & L & HO). exists h, n. split; auto. split; auto. split; auto. split; [apply (ho_lmap _ _ _ _ HO)|].
  intros k sm Hk. pose proof (ho_sub _ _ _ _ HO _ _ Hk) as SO. split; [apply (so_sorted _ _ _ SO)|]. split; [apply (so_in _ _ _ SO)|]. split; [apply (so_len _ _ _ SO)|]. split; [apply (so_vert _ _ _ SO)|]. split; [apply (so_el _ _ _ SO)|]. split; [|split].
  - intros pf Hp. destruct (ho_map _ _ _ _ HO _ _ _ Hk Hp) as (Lp & F). split; auto. intros q f Hf. destruct (F q f Hf) as (pk & Hpk & g & a & b & Hg & (A & B) & S). exists pk, g, a, b. auto.
  - intros a b e l. split.
    + intros (be & B). destruct (bdr_on_in _ _ _ SO _ _ _ _ _ B) as (I & S & U). auto.
    + intros (S & I & U). eapply bdr_on_exists; eauto.
  - intros be be' e l e' l' a b B B'. eapply bdr_on_unique; eauto.
Qed.
Print Assumptions C119_subdomains.

(** C119: every edge between two subdomains on which the mesh has no boundary element is listed exactly once, in the port of the
    two subdomains, with the boundary elements of the two sides and the codes of the two elements; nothing else is listed. *)
Theorem C119_interfaces : forall dd pm0 pm h, mesh_ok pm -> m_elems pm <> [] ->
  (forall z, In z (map el_attr (m_elems pm0)) <-> In z (map el_attr (m_elems pm))) -> build_handler dd pm0 pm = Ok h ->
  (forall i j si sj e1 l1 e2 l2 a b, i < j -> nth_error (h_subs h) i = Some si -> nth_error (h_subs h) j = Some sj ->
     In e1 (sm_pel si) -> In e2 (sm_pel sj) -> side_on (m_elems pm) e1 l1 a b -> side_on (m_elems pm) e2 l2 a b -> no_bdr pm a b ->
     exists k p l x, nth_error (bs_ports (h_st h)) k = Some p /\ nth_error (bs_infos (h_st h)) k = Some l /\ In x l /\ pi_mesh1 p = i /\ pi_mesh2 p = j /\
       bdr_on si (ii_be1 x) e1 l1 a b /\ bdr_on sj (ii_be2 x) e2 l2 a b /\
       attr_at (bs_attrs (h_st h)) i (ii_be1 x) = pi_attr p /\ attr_at (bs_attrs (h_st h)) j (ii_be2 x) = pi_attr p) /\
  (forall k p l x, nth_error (bs_ports (h_st h)) k = Some p -> nth_error (bs_infos (h_st h)) k = Some l -> In x l ->
     pi_mesh1 p < pi_mesh2 p /\ exists si sj e1 l1 e2 l2 a b, nth_error (h_subs h) (pi_mesh1 p) = Some si /\ nth_error (h_subs h) (pi_mesh2 p) = Some sj /\
       bdr_on si (ii_be1 x) e1 l1 a b /\ bdr_on sj (ii_be2 x) e2 l2 a b /\ e1 <> e2 /\ no_bdr pm a b /\
       inf_face (ii_inf1 x) = Z.of_nat l1 /\ inf_face (ii_inf2 x) = Z.of_nat l2) /\
  (forall k p l q x k' p' l' q' x' si si' e m a b e' m', nth_error (bs_ports (h_st h)) k = Some p -> nth_error (bs_infos (h_st h)) k = Some l -> nth_error l q = Some x ->
     nth_error (bs_ports (h_st h)) k' = Some p' -> nth_error (bs_infos (h_st h)) k' = Some l' -> nth_error l' q' = Some x' ->
     nth_error (h_subs h) (pi_mesh1 p) = Some si -> nth_error (h_subs h) (pi_mesh1 p') = Some si' ->
     bdr_on si (ii_be1 x) e m a b -> bdr_on si' (ii_be1 x') e' m' a b -> k = k' /\ q = q').
Proof.
  intros dd pm0 pm h MO Ne At E. assert (Em : exists mode, dd_mode_of dd = Ok mode). { unfold build_handler in E. destruct (dd_mode_of dd) as [m| |]; [eauto|discriminate|discriminate]. } destruct Em as (mode & Ed).
  destruct (build_ok dd mode pm0 pm Ed MO Ne At) as (h' & n & pb & E' & _ & _ & HO). assert (h' = h) by congruence. subst h'. split; [|split].
  - intros. eapply entry_exists; eauto.
  - intros k p l x Hp Hl Hx. destruct (entry_ok mode pm h pb MO HO k p l x Hp Hl Hx) as (Lt & si & sj & e1 & l1 & e2 & l2 & a & b & H1 & H2 & B1 & B2 & N & Nb & o1 & o2 & u & w & C1 & C2 & _ & O1 & O2).
    split; auto. exists si, sj, e1, l1, e2, l2, a, b. do 6 (split; [assumption|]). rewrite C1, C2. split; apply inf_roundtrip; lia.
  - intros. eapply (entry_once mode pm h pb MO HO k p l q x k' p' l' q' x'); eauto.
Qed.
Print Assumptions C119_interfaces.

(** C119: the boundary elements of the subdomains keep the attribute of the mesh; ports have attributes of their own. *)
Theorem C119_attributes : forall dd pm0 pm h, mesh_ok pm -> m_elems pm <> [] ->
  (forall z, In z (map el_attr (m_elems pm0)) <-> In z (map el_attr (m_elems pm))) -> build_handler dd pm0 pm = Ok h ->
  (forall i si be e l a b z, nth_error (h_subs h) i = Some si -> bdr_on si be e l a b -> (In (a, b, z) (m_bdr pm) \/ In (b, a, z) (m_bdr pm)) ->
     (forall z', In (a, b, z') (m_bdr pm) \/ In (b, a, z') (m_bdr pm) -> z' = z) -> attr_at (bs_attrs (h_st h)) i be = z) /\
  NoDup (map pi_attr (bs_ports (h_st h))) /\ (forall p a b z, In p (bs_ports (h_st h)) -> In (a, b, z) (m_bdr pm) -> (z < pi_attr p)%Z).
Proof.
  intros dd pm0 pm h MO Ne At E. assert (Em : exists mode, dd_mode_of dd = Ok mode). { unfold build_handler in E. destruct (dd_mode_of dd) as [m| |]; [eauto|discriminate|discriminate]. } destruct Em as (mode & Ed).
  destruct (build_ok dd mode pm0 pm Ed MO Ne At) as (h' & n & pb & E' & _ & _ & HO). assert (h' = h) by congruence. subst h'. split; [intros; eapply outer_attr; eauto|]. eapply port_attrs; eauto.
Qed.
Print Assumptions C119_attributes.

(** C119: other names of the decomposition are refused. *)
Theorem C119_mode : forall dd pm0 pm h, build_handler dd pm0 pm = Ok h -> dd = "interior_penalty"%string \/ dd = "none"%string.
Proof.
  intros dd pm0 pm h E. unfold build_handler, dd_mode_of in E. destruct (string_dec dd "interior_penalty"); auto. destruct (string_dec dd "feti"); [discriminate|]. destruct (string_dec dd "none"); [auto|discriminate].
Qed.
Print Assumptions C119_mode.

(** C120: at every coordinate of an interface the transformations of the two sides give the same point of the plane, whatever the
    coordinates of the vertices; the points run along the shared edge from one end to the other. *)
Theorem C120_same_points : forall dd pm0 pm h, mesh_ok pm -> m_elems pm <> [] ->
  (forall z, In z (map el_attr (m_elems pm0)) <-> In z (map el_attr (m_elems pm))) -> build_handler dd pm0 pm = Ok h ->
  forall k p l x, nth_error (bs_ports (h_st h)) k = Some p -> nth_error (bs_infos (h_st h)) k = Some l -> In x l ->
  exists si sj t1 t2 e1 l1 e2 l2 a b, nth_error (h_subs h) (pi_mesh1 p) = Some si /\ nth_error (h_subs h) (pi_mesh2 p) = Some sj /\
    interface_transformations (h_subs h) (pi_mesh1 p) (pi_mesh2 p) x = Ok (t1, t2) /\
    bdr_on si (ii_be1 x) e1 l1 a b /\ bdr_on sj (ii_be2 x) e2 l2 a b /\
    forall X xi, side_point X si t1 xi = ((1 - xi) * fst (X a) + xi * fst (X b), (1 - xi) * snd (X a) + xi * snd (X b))%R /\
                 side_point X sj t2 xi = side_point X si t1 xi.
Proof.
  intros dd pm0 pm h MO Ne At E. assert (Em : exists mode, dd_mode_of dd = Ok mode). { unfold build_handler in E. destruct (dd_mode_of dd) as [m| |]; [eauto|discriminate|discriminate]. } destruct Em as (mode & Ed).
  destruct (build_ok dd mode pm0 pm Ed MO Ne At) as (h' & n & pb & E' & _ & _ & HO). assert (h' = h) by congruence. subst h'. intros. eapply points_ok; eauto.
Qed.
Print Assumptions C120_same_points.

(** C120: a mesh has no interface with itself. *)
Theorem C120_not_itself : forall subs i x, interface_transformations subs i i x = Abort.
Proof. intros. unfold interface_transformations. rewrite Nat.eqb_refl. reflexivity. Qed.
Print Assumptions C120_not_itself.

(** C121: after the transfer every element of the mesh has, for every variable, the values of its subdomain. *)
Theorem C121_transfer : forall dd mode pm0 pm h, dd_mode_of dd = Ok mode -> mesh_ok pm -> m_elems pm <> [] ->
  (forall z, In z (map el_attr (m_elems pm0)) <-> In z (map el_attr (m_elems pm))) -> build_handler dd pm0 pm = Ok h ->
  forall V (us gs : list (list V)) nvar, List.length us = nvar * List.length (h_subs h) -> List.length gs = nvar ->
  (forall g, In g gs -> List.length g = List.length (m_elems pm)) ->
  (forall m sm v u, nth_error (h_subs h) m = Some sm -> v < nvar -> nth_error us (m * nvar + v) = Some u -> List.length u = List.length (sm_pel sm)) ->
  exists gs', transfer_to_global (h_subs h) us gs nvar = Ok gs' /\ List.length gs' = nvar /\
  forall v e x, v < nvar -> nth_error (m_elems pm) e = Some x ->
    exists m sm i u d y, in_domain mode m (el_attr x) /\ nth_error (h_subs h) m = Some sm /\ nth_error (sm_pel sm) i = Some e /\
      nth_error us (m * nvar + v) = Some u /\ nth_error u i = Some y /\ nth_error gs' v = Some d /\ nth_error d e = Some y.
Proof.
  intros dd mode pm0 pm h Ed MO Ne At E V us gs nvar Lu Lg Lgs Lus. destruct (build_ok dd mode pm0 pm Ed MO Ne At) as (h' & n & pb & E' & (Tn & Te) & Ln & HO). assert (h' = h) by congruence. subst h'.
  destruct (global_ok V (h_subs h) (List.length (m_elems pm)) nvar us gs) as (gs' & Eg & L1 & L2 & P); auto.
  - intros m sm Hm. apply sorted_nodup, (so_sorted _ _ _ (ho_sub _ _ _ _ HO _ _ Hm)).
  - intros m sm e Hm He. apply (so_in _ _ _ (ho_sub _ _ _ _ HO _ _ Hm)) in He as (z & (x & Hx & _) & _). apply nth_error_Some. congruence.
  - intros m m' sm sm' e Hm Hm'. apply (dom_inj mode pm (h_subs h) (ho_sub _ _ _ _ HO) m m' sm sm' e Hm Hm').
  - exists gs'. split; auto. split; auto. intros v e x Hv Hx. pose proof (mo_attr pm MO x (nth_error_In _ _ Hx)) as Px. pose proof (Tn x (nth_error_In _ _ Hx)) as Tx.
    assert (Hm : exists m, m < List.length (h_subs h) /\ in_domain mode m (el_attr x)). { rewrite Ln. destruct mode; cbn [in_domain]; [exists 0; auto|]. exists (Z.to_nat (el_attr x - 1)). lia. }
    destruct Hm as (m & Lm & D). destruct (nth_error (h_subs h) m) as [sm|] eqn:Hs; [|apply nth_error_None in Hs; lia].
    assert (Ie : In e (sm_pel sm)). { apply (so_in _ _ _ (ho_sub _ _ _ _ HO _ _ Hs)). exists (el_attr x). split; auto. exists x. auto. } apply In_nth_error in Ie as (i & Hi).
    destruct (nth_error us (m * nvar + v)) as [u|] eqn:Hu; [|apply nth_error_None in Hu; nia]. destruct (nth_error gs' v) as [d|] eqn:Hd; [|apply nth_error_None in Hd; lia].
    pose proof (P m v Lm Hv sm u d i e Hs Hu Hd Hi) as Q. pose proof (Lus _ _ _ _ Hs Hv Hu) as Lu'. destruct (nth_error u i) as [y|] eqn:Hy. 2:{ apply nth_error_None in Hy. assert (i < List.length (sm_pel sm)) by (apply nth_error_Some; congruence). lia. }
    exists m, sm, i, u, d, y. auto 10.
Qed.
Print Assumptions C121_transfer.
