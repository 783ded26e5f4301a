(** C137: reading of the global configuration. *)
From Coq Require Import ZArith QArith Reals List Bool String Ascii Lia.
From Verif Require Import Outcome ConfigModel CompModel CompSpec HdfModel HdfSpec CfgfModel CfgfSpec CfgfProofs CfgfExamples.
Import ListNotations.
Open Scope nat_scope.
Open Scope list_scope.

(** Names, types and places of the subdomains are those of the file; each subdomain has its number among those of its type. *)
Theorem C137_components : forall f w names types places, stores_components f w names types places -> 6 <= w -> List.length places = List.length types ->
  (forall t, In t types -> (0 <= t < Z.of_nat (List.length names))%Z) ->
  exists idx cnt, read_components f = Ok (CompConf names types places idx cnt) /\
    (forall m t, nth_error types m = Some t -> nth_error idx m = Some (occurrences types t m)) /\
    (forall t, t < List.length names -> nth_error cnt t = Some (count_occ Z.eq_dec types (Z.of_nat t))).
Proof.
  intros f w names types places H Hw Hl Hr. destruct (components_ok f w names types places H Hw Hl Hr) as (idx & cnt & E & Ec).
  destruct (CompProofs.numbering _ _ Hr) as (idx' & cnt' & Ec' & _ & _ & A & B & _). rewrite Ec in Ec'. injection Ec' as <- <-. exists idx, cnt. auto.
Qed.
Print Assumptions C137_components.

(** A file with different numbers of types and places is refused. *)
Theorem C137_mismatch : forall f w names types places, stores_components f w names types places -> 0 < w -> List.length places <> List.length types ->
  read_components f = Abort.
Proof. exact components_mismatch. Qed.
Print Assumptions C137_mismatch.

(** Reference ports, their descriptions and the ports are those of the file. *)
Theorem C137_ports : forall f w refs rows, stores_ports f w refs rows -> 5 <= w -> refs <> [] -> read_port_lists f = Ok (map fst refs, map snd refs, rows).
Proof. exact ports_ok. Qed.
Print Assumptions C137_ports.

(** A port built from a description is between the components it names, at the attributes it names, with the second component placed as it
    says. *)
Theorem C137_description : forall dim thr names comps tf d p, NoDup names -> build_dict dim thr names comps tf d = Ok p ->
  named names (pd_comp1 p) (d_comp1 d) /\ named names (pd_comp2 p) (d_comp2 d) /\ pd_attr1 p = d_attr1 d /\ pd_attr2 p = d_attr2 d /\
  exists k1 k2 c, nth_error comps (Z.to_nat (pd_comp1 p)) = Some k1 /\ nth_error comps (Z.to_nat (pd_comp2 p)) = Some k2 /\
    List.length (d_conf d) = 6 /\ (forall i, i < 6 -> nth_error (d_conf d) i = place_at c i) /\
    build_port dim thr (pd_comp1 p) (pd_comp2 p) (d_attr1 d) (d_attr2 d) (cm_elems k1) (cm_elems k2) (cm_x k1) (tf c k2) = Ok p.
Proof. exact build_dict_ok. Qed.
Print Assumptions C137_description.

(** A description that names an unknown component, or has not six numbers, gives no port. *)
Theorem C137_unknown : forall dim thr names comps tf d, NoDup names -> ~ In (d_comp1 d) names \/ ~ In (d_comp2 d) names \/ List.length (d_conf d) <> 6 ->
  forall p, build_dict dim thr names comps tf d <> Ok p.
Proof. exact build_dict_unknown. Qed.
Print Assumptions C137_unknown.

(** A table of places with less than six columns is not refused: its last row is read past the end. *)
Theorem C137_short_refuted : exists f names types places,
  stores_components f 3 names types places /\ List.length places = List.length types /\
  (forall t, In t types -> (0 <= t < Z.of_nat (List.length names))%Z) /\ read_components f = UB.
Proof.
  exists (xg_file 3 2), xg_names, xg_types, xg_places. split; [apply xg_stores; lia|]. split; [reflexivity|]. split; [exact xg_types_ok|].
  apply (components_short _ 3 xg_names xg_types xg_places); [apply xg_stores; lia|lia|reflexivity|discriminate|exact xg_types_ok].
Qed.
Print Assumptions C137_short_refuted.

(** ... and this is so for all such files. *)
Theorem C137_short : forall f w names types places, stores_components f w names types places -> 0 < w < 6 -> List.length places = List.length types -> types <> [] ->
  (forall t, In t types -> (0 <= t < Z.of_nat (List.length names))%Z) -> read_components f = UB.
Proof. exact components_short. Qed.
Print Assumptions C137_short.

(** A file with ports but no reference ports is read as one without ports. *)
Theorem C137_dropped_refuted : exists f rows, stores_ports f 5 [] rows /\ rows <> [] /\ read_port_lists f = Ok ([], [], []).
Proof.
  exists (xg_file 6 0), xg_rows. split; [apply xg_stores_none|]. split; [discriminate|]. exact (ports_none _ _ _ (xg_stores_none 6)).
Qed.
Print Assumptions C137_dropped_refuted.
