(** Concrete cases for the theorems on the nonlinear term of the Navier-Stokes solver. *)
From Coq Require Import Reals List Bool Lia Lra Arith ZArith Ascii String Permutation.
From Verif Require Import Outcome ListLemmas TagsSpec HdfModel LaBase LinalgModel LinalgSpec BlockVec RomModel RomSpec MbModel MbSpec EqpSpec ItfModel ItfSpec ProbModel BcModel BupModel BupSpec EqpModel NeqModel NeqSpec.
From Verif Require Import BupExamples RomProofs NeqProofs NeqEvalProofs.
From Verif Require RomExamples.
Import ListNotations.
Local Open Scope nat_scope.

(** A place of two degrees of freedom with a quadratic integrand. *)
Definition nx_site (k : R) : site :=
  Site [0; 1]%Z 2 (fun x => x) (fun x => x) (fun M => M)
    (fun _ _ w x => [w * k * (1 + vnth x 0 * vnth x 0); w * k * vnth x 1]%R)
    (fun _ _ w x => DMat 2 2 [w * k * (2 * vnth x 0); 0; 0; w * k]%R).
(** Larger where a velocity is given than at a wall, nothing at an open boundary. *)
Definition nx_data (I : nint) : R := match I with NLax None => 0%R | NLax (Some CZero) => 1%R | _ => 2%R end.
Definition nx_nm : nnum := NNum (fun _ => [1; 1]%R) (fun _ t I => match t with
  | Domain => [Some (nx_site 1); Some (nx_site 2)]
  | InteriorFace => [None; Some (nx_site 3)]
  | BdrFace => [Some (nx_site (nx_data I)); Some (nx_site (nx_data I)); Some (nx_site (nx_data I)); Some (nx_site (nx_data I))]
  | Interface => [] end).
(** All the quadrature points. *)
Definition nx_tr (c : nat) (t : itype) (k : nat) : list (sinfo R) :=
  match t with
  | BdrFace => all_points nx_nm (AtSub 0) BdrFace (NLax None) (is_attr bx_g 0 (k / 2))
  | _ => all_points nx_nm (AtSub 0) t (NLax None) (fun _ => true)
  end.
(** An inflow on boundary 1, boundary 2 open, boundary 3 a wall; the same without inflow. *)
Definition nx_types : list btype := [BDirichlet; BNeumann; BZero].
Definition nx_bdr (f : vfun) : list (option coeff) := [Some (CVector f); None; Some CZero].
Definition nx_types' : list btype := [BZero; BNeumann; BZero].
Definition nx_bdr' : list (option coeff) := [Some CZero; None; Some CZero].

Example nx_closed f : closed bx_g nx_types (nx_bdr f).
Proof. split; [reflexivity|]. split; [reflexivity|]. intros [|[|[|gi]]] H N; cbn in *; try discriminate; try lia; congruence. Qed.
Example nx_closed' : closed bx_g nx_types' nx_bdr'.
Proof. split; [reflexivity|]. split; [reflexivity|]. intros [|[|[|gi]]] H N; cbn in *; try discriminate; try lia; congruence. Qed.
Example nx_wall : open_or_wall bx_g nx_types' nx_bdr'.
Proof. intros [|[|[|gi]]] H; cbn in *; auto; lia. Qed.
Example nx_match : places_match nx_nm bx_g.
Proof. intros [|[|m]] I Hm; cbn in *; auto; lia. Qed.
Example nx_same : same_sites nx_nm bx_g.
Proof. intros m t I Hm. reflexivity. Qed.

Lemma nx_site_ok k : site_ok 2 (nx_site k) /\ plain (nx_site k) /\ site_grad_ok (nx_site k).
Proof.
  split; [|split].
  - split; [|repeat split; auto]. intros d [<-|[<-|[]]]; unfold dofn; cbn; lia.
  - split; [discriminate|]. intros d [<-|[<-|[]]]; lia.
  - intros m w x Hx. unfold dm_wf. cbn. auto.
Qed.

(** Samples in the lists of a rule lie on existing places. *)
Lemma nx_lies n t I sel s : t <> Interface -> n = 2 -> In s (all_points nx_nm (AtSub 0) t (NLax None) sel) -> forall m, lies nx_nm n (AtSub m) t I s.
Proof.
  intros Nt -> H m. apply in_flat_map in H as (e & He & H). apply in_seq in He. destruct (sel e); [|destruct H]. destruct (nth e (nn_sites nx_nm (AtSub 0) t (NLax None)) None) as [st|] eqn:Es; [|destruct H].
  apply in_map_iff in H as (q & <- & Hq). apply in_seq in Hq. unfold lies. cbn [si_el si_qp]. rewrite Nat2Z.id. change (List.length (nn_w nx_nm I)) with 2. cbn [nx_nm nn_w List.length] in Hq. split; [lia|]. split; [lia|].
  destruct t; try congruence; cbn [nx_nm nn_sites] in Es |- *.
  - destruct e as [|[|e]]; [exists (nx_site 1)|exists (nx_site 2)|destruct e; discriminate]; (split; [reflexivity|apply nx_site_ok]).
  - destruct e as [|[|e]]; [discriminate|exists (nx_site 3)|destruct e; discriminate]; (split; [reflexivity|apply nx_site_ok]).
  - exists (nx_site (nx_data I)). split; [|apply nx_site_ok]. destruct e as [|[|[|[|e]]]]; try reflexivity. destruct e; discriminate.
Qed.
Lemma nx_on c b sel s : (forall e, sel e = true -> is_attr bx_g c b e = true) -> c = 0 -> b < 3 -> In s (all_points nx_nm (AtSub 0) BdrFace (NLax None) sel) -> on_boundary bx_g c b (Z.to_nat (si_el s)).
Proof.
  intros Hs -> Hb H. apply in_flat_map in H as (e & He & H). apply in_seq in He. cbn [nx_nm nn_sites List.length] in He. destruct (sel e) eqn:Se; [|destruct H]. apply Hs in Se.
  destruct (nth e (nn_sites nx_nm (AtSub 0) BdrFace (NLax None)) None) as [st|]; [|destruct H]. apply in_map_iff in H as (q & <- & _). cbn [si_el]. rewrite Nat2Z.id.
  unfold on_boundary. destruct b as [|[|[|b]]]; try lia; destruct e as [|[|[|[|e]]]]; try lia; cbn in Se; try discriminate; eexists; (split; [reflexivity|reflexivity]).
Qed.
Example nx_fit o full_dg types bdr m : m < 2 -> rules_fit nx_nm bx_g o full_dg types bdr bx_fes nx_tr m.
Proof.
  intros Hm. assert (Ty : type_of bx_g m = 0) by (destruct m as [|[|m]]; [reflexivity|reflexivity|lia]). assert (Lr : List.length (row_of bx_g m) = 3) by (destruct m as [|[|m]]; [reflexivity|reflexivity|lia]).
  unfold rules_fit. rewrite Ty, Lr. split; [|split].
  - intros s Hs. unfold nx_tr in Hs. eapply nx_lies; [discriminate|reflexivity|exact Hs].
  - intros _ _ s Hs. unfold nx_tr in Hs. eapply nx_lies; [discriminate|reflexivity|exact Hs].
  - intros _ b gi s Hb Hg _ Hs. unfold nx_tr in Hs. split; [|eapply nx_lies; [discriminate|reflexivity|exact Hs]].
    eapply nx_on; [|reflexivity|exact Hb|exact Hs]. intros e He. cbv beta in He. replace ((2 * b + wall types gi) / 2) with b in He; [exact He|].
    apply Nat.div_unique with (r := wall types gi); [unfold wall; destruct (nth gi types BNone); lia|lia].
Qed.
Example nx_complete o full_dg types bdr m : m < 2 -> rules_complete nx_nm bx_g o full_dg types bdr nx_tr m.
Proof.
  intros Hm. assert (Ty : type_of bx_g m = 0) by (destruct m as [|[|m]]; [reflexivity|reflexivity|lia]). assert (Lr : List.length (row_of bx_g m) = 3) by (destruct m as [|[|m]]; [reflexivity|reflexivity|lia]).
  unfold rules_complete. rewrite Ty, Lr. split; [apply Permutation_refl|]. split; [intros _ _; apply Permutation_refl|].
  intros _ b gi Hb Hg _. unfold nx_tr. replace ((2 * b + wall types gi) / 2) with b.
  - destruct b as [|[|[|b]]]; try lia; apply Permutation_refl.
  - apply Nat.div_unique with (r := wall types gi); [unfold wall; destruct (nth gi types BNone); lia|lia].
Qed.

(** No samples at all where the trained integrand vanishes. *)
Definition nx_tr0 (c : nat) (t : itype) (k : nat) : list (sinfo R) := match t with BdrFace => if Nat.even k then [] else nx_tr c t k | _ => nx_tr c t k end.
Example nx_fit0 o full_dg types bdr m : m < 2 -> rules_fit nx_nm bx_g o full_dg types bdr bx_fes nx_tr0 m.
Proof.
  intros Hm. destruct (nx_fit o full_dg types bdr m Hm) as (H1 & H2 & H3). split; [exact H1|]. split; [exact H2|]. intros Ho b gi s Hb Hg Hr Hs. apply H3; auto.
  unfold nx_tr0 in Hs. destruct (Nat.even _); [destruct Hs|exact Hs].
Qed.
Example nx_exact0 o full_dg c v phi : c < 1 -> parts_exact nx_nm bx_g o full_dg nx_tr0 c v phi.
Proof.
  intros Hc. assert (c = 0) by lia. subst c. split; [|split].
  - change (nx_tr0 0 Domain 0) with (all_points nx_nm (AtComp 0) Domain (flow o) (fun _ => true)). rewrite points_sum. reflexivity.
  - intros _ _. change (nx_tr0 0 InteriorFace 0) with (all_points nx_nm (AtComp 0) InteriorFace (NLax None) (fun _ => true)). rewrite points_sum. reflexivity.
  - intros _ b Hb. cbn in Hb. split.
    + unfold nx_tr0. replace (Nat.even (2 * b)) with true by (rewrite Nat.even_mul; reflexivity). change (rule_value _ _ _ _ _ _ []) with 0%R. unfold places_sum. symmetry.
      rewrite (rsum_ext _ _ (fun _ => 0%R)); [apply rsum_zero|]. intros e He. destruct (is_attr bx_g 0 b e); [|reflexivity]. cbn [ind]. unfold place_term.
      destruct e as [|[|[|[|e]]]]; cbn [nx_nm nn_sites nth nx_data]; try (destruct e; reflexivity); cbn; unfold form_at, dot, vnth; cbn; ring.
    + replace (nx_tr0 0 BdrFace (2 * b + 1)) with (all_points nx_nm (AtComp 0) BdrFace (NLax (Some CZero)) (is_attr bx_g 0 b)); [rewrite points_sum; reflexivity|].
      destruct b as [|[|[|b]]]; try lia; reflexivity.
Qed.

(** Its value in the zero state, tested with the only mode. *)
Lemma nx_value k q w B : B = DMat 2 1 [1; 0]%R -> form_at (nx_site k) q w (lift B 0 [0%R]) (mode B 0 0) = (w * k)%R.
Proof. intros ->. unfold form_at, dot, lift, mode, on_dofs, rsum, mget, vnth. cbn. ring. Qed.

(** Files: two components, one name being a prefix of the other; the second run uses one of them, alone. *)
Definition nx_l (k : nat) : list (sinfo R) := [{| si_el := Z.of_nat k; si_qp := 0; si_qw := 1%R |}].
Definition nx_form (k : nat) (new : bool) : eform :=
  let r i := if new then None else Some (nx_l (k + i)) in
  EForm 1 [(NFlux, r 0)] [(NLax None, r 1)] [(NLax None, [1%Z], r 2); (NLax (Some CZero), [1%Z], r 3)] None.
Definition nx_names : list string := ["pipe_0"; "pipe"]%string.
Definition nx_refs : list (nat * nat * nat * nat) := [(0, 1, 1, 2); (1, 1, 1, 2)].
Lemma nx_owned k new t i : owned OLax true 1 t i -> get_rule (nx_form k new) t i = Ok (if new then None else Some (nx_l (k + match t with Domain => 0 | InteriorFace => 1 | _ => 2 + i end))).
Proof.
  intros [(-> & ->)|(_ & [(_ & -> & ->)|(-> & Hi)])]; [destruct new; reflexivity|destruct new; reflexivity|]. destruct i as [|[|i]]; [destruct new; reflexivity|destruct new; reflexivity|lia].
Qed.
Example nx_save : can_save OLax true nx_names [1; 1] nx_refs [nx_form 10 false; nx_form 20 false] [Some (nx_l 1); Some (nx_l 2)].
Proof.
  split; [reflexivity|]. split; [reflexivity|]. split.
  - intros c F nb HF Hn t i Ow. assert (nb = 1) by (destruct c as [|[|c]]; cbn in Hn; [congruence|congruence|destruct c; discriminate]). subst nb.
    destruct c as [|[|c]]; cbn in HF; [injection HF as <-|injection HF as <-|destruct c; discriminate]; rewrite nx_owned by auto; eauto.
  - intros _. split; [repeat constructor; cbn; intuition discriminate|]. split; [intros p [<-|[<-|[]]]; cbn; lia|]. split; [intros n [<-|[<-|[]]]; cbn; repeat split; discriminate|]. split; [reflexivity|].
    intros [Q|[Q|[]]]; discriminate.
Qed.
Example nx_distinct : NoDup nx_names.
Proof. repeat constructor; cbn; intuition discriminate. Qed.
Example nx_load : can_load OLax true nx_names [1; 1] nx_refs ["pipe"%string] [1] [(0, 0, 1, 2)] [nx_form 0 true] [None].
Proof.
  split; [cbn; lia|]. split; [reflexivity|]. split; [reflexivity|]. split; [|split].
  - intros c n nb H1 H2. destruct c as [|c]; [|destruct c; discriminate]. injection H1 as <-. injection H2 as <-. exists 1, 1. repeat split. lia.
  - intros c F nb H1 H2 t i Ow. destruct c as [|c]; [|destruct c; discriminate]. injection H1 as <-. injection H2 as <-. rewrite nx_owned by auto. eauto.
  - intros _. split; [reflexivity|]. intros p [<-|[]]. split; [cbn; lia|]. exists (1, 1, 1, 2). split; [right; left; reflexivity|]. repeat split.
Qed.
(** Two components of the same name. *)
Example nx_twice : can_save OBase true ["pipe"; "pipe"]%string [1; 1] [] [nx_form 10 false; nx_form 20 false] [] /\ ~ NoDup ["pipe"; "pipe"]%string.
Proof.
  split.
  - split; [reflexivity|]. split; [reflexivity|]. split; [|discriminate]. intros c F nb HF Hn t i [(-> & ->)|(Q & _)]; [|discriminate].
    destruct c as [|[|c]]; cbn in HF; [injection HF as <-|injection HF as <-|destruct c; discriminate]; eexists; reflexivity.
  - intros N. inversion N as [|? ? H _]; subst. apply H. left. reflexivity.
Qed.
