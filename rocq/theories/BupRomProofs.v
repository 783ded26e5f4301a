(** Elements projected and assembled are the assembled matrix projected. *)
From Coq Require Import Reals List Bool Lia Lra Arith ZArith.
From Verif Require Import Outcome ListLemmas LaBase LinalgModel LinalgSpec BlockVec RomModel RomSpec RomProofs RomOpProofs MbModel MbSpec MbMiscProofs ItfModel ItfSpec ProbModel BcModel BupModel BupSpec BupFormProofs.
From Verif Require MbProperties.
Import ListNotations.
Local Open Scope nat_scope.

(** ** The projection is linear *)
Lemma rap_ext p q r a a' b i j : (forall k l, k < p -> l < q -> a k l = a' k l) -> rap p q r a b i j = rap p q r a' b i j.
Proof. intros H. unfold rap. apply rsum_ext. intros k Hk. f_equal. apply rsum_ext. intros l Hl. rewrite H by auto. reflexivity. Qed.
Lemma rap_plus p q r a a' b i j : rap p q r (fun k l => a k l + a' k l)%R b i j = (rap p q r a b i j + rap p q r a' b i j)%R.
Proof.
  unfold rap. rewrite <- rsum_plus. apply rsum_ext. intros k Hk. rewrite <- Rmult_plus_distr_l. f_equal. rewrite <- rsum_plus. apply rsum_ext. intros l Hl. ring.
Qed.
Lemma rap_0 p q r b i j : rap p q r (fun _ _ => 0%R) b i j = 0%R.
Proof.
  unfold rap. rewrite (rsum_ext _ _ (fun _ => 0%R)); [apply rsum_zero|]. intros k Hk. rewrite (rsum_ext _ _ (fun _ => 0%R)); [rewrite rsum_zero; ring|]. intros. ring.
Qed.
Lemma rap_ind c p q r a b i j : rap p q r (fun k l => ind c (a k l)) b i j = ind c (rap p q r a b i j).
Proof. destruct c; cbn [ind]; [reflexivity|apply rap_0]. Qed.
Lemma rap_rsum n p q r (a : nat -> nat -> nat -> R) b i j : rap p q r (fun k l => rsum n (fun z => a z k l)) b i j = rsum n (fun z => rap p q r (a z) b i j).
Proof.
  induction n as [|n IH]; cbn [rsum]; [apply rap_0|]. rewrite rap_plus, IH. reflexivity.
Qed.

(** ** Projected blocks *)
Definition ref_mat (s : romst) (b : nat) : dmat := nth b (rs_ref s) (DMat 0 0 []).
Definition proj (s : romst) (dim : nat -> nat) (b1 b2 : nat) (A X : option fmat) : Prop :=
  match A, X with
  | None, None => True
  | Some A, Some X => fm_h X = nth b1 (rh_nb (rs_h s)) 0 /\ fm_w X = nth b2 (rh_nb (rs_h s)) 0 /\
      forall p q, p < fm_h X -> q < fm_w X -> fm_val X p q = rap (dim b1) (dim b2) (mget (ref_mat s b1)) (fm_val A) (mget (ref_mat s b2)) p q
  | _, _ => False
  end.

Lemma fm_op_matrix M : op_matrix (fm_op M) (fm_val M).
Proof.
  intros x Lx. cbn [fm_op op_mul op_h op_w] in *. split; [rewrite map_length, seq_length; auto|]. intros i Hi. unfold vnth at 1.
  rewrite (nth_indep _ _ ((fun i => rsum (fm_w M) (fun j => fm_val M i j * vnth x j)%R) 0)) by (rewrite map_length, seq_length; auto).
  rewrite (map_nth (fun i => rsum (fm_w M) (fun j => fm_val M i j * vnth x j)%R)), seq_nth by auto. reflexivity.
Qed.

Lemma elem_block_ok s dim b1 b2 A : bases_ok s dim -> b1 < List.length (rh_nb (rs_h s)) -> b2 < List.length (rh_nb (rs_h s)) ->
  fm_h A = dim b1 -> fm_w A = dim b2 -> exists X, elem_block s b1 b2 A = Ok X /\ proj s dim b1 b2 (Some A) (Some X).
Proof.
  intros B H1 H2 E1 E2. unfold elem_block. destruct (project_ref_op_ok s dim b1 b2 (fm_op A) B H1 H2) as (M & E & G1 & G2 & G3).
  { split; [exact E1|]. split; [exact E2|]. exists (fm_val A). apply fm_op_matrix. }
  rewrite E. cbn [obind]. eexists. split; [reflexivity|]. pose proof B as (_ & _ & _ & R & _). destruct (R b1 H1) as (_ & _ & W1). destruct (R b2 H2) as (_ & _ & W2).
  cbn [proj fm_h fm_w fm_val]. rewrite G1, G2. split; [exact W1|]. split; [exact W2|]. intros p q Hp Hq.
  rewrite (G3 (fm_val A) (fm_op_matrix A) p q Hp Hq). cbn [fm_op op_h op_w]. rewrite E1, E2. reflexivity.
Qed.

Lemma proj_val s dim b1 b2 A X p q : proj s dim b1 b2 A X -> p < nth b1 (rh_nb (rs_h s)) 0 -> q < nth b2 (rh_nb (rs_h s)) 0 ->
  val X p q = rap (dim b1) (dim b2) (mget (ref_mat s b1)) (val A) (mget (ref_mat s b2)) p q.
Proof.
  destruct A as [A|], X as [X|]; cbn [proj]; try tauto.
  - intros (E1 & E2 & V) Hp Hq. cbn [val]. rewrite V by lia. reflexivity.
  - intros _ _ _. cbn [val]. symmetry. apply rap_0.
Qed.
Lemma proj_size s dim b1 b2 A X Y : proj s dim b1 b2 A X -> X = Some Y -> fm_h Y = nth b1 (rh_nb (rs_h s)) 0 /\ fm_w Y = nth b2 (rh_nb (rs_h s)) 0.
Proof. intros P ->. destruct A as [A|]; cbn [proj] in P; [|tauto]. destruct P as (A1 & A2 & _). auto. Qed.

(** ** Assembled elements *)
Section Asm.
  Variables (s : romst) (dim : nat -> nat) (a : asm) (ess : nat -> nat -> bool).
  Hypotheses (B : bases_ok s dim) (Ea : as_rom a = rs_h s).
  Let h := rs_h s.
  Let nbk := if rh_sep h then rh_nvar h else 1.
  Variables (Ac : nat -> nat -> nat -> option fmat) (Ab : nat -> nat -> nat -> nat -> option fmat) (Ap : nat -> nat -> nat -> nat -> nat -> option fmat).
  Hypotheses
    (Pc : forall m v v', unknown h m v -> unknown h m v' -> proj s dim (ref_place h (comp_of h m) v) (ref_place h (comp_of h m) v') (Ac (comp_of h m) v v')
            (mb_get (nth (comp_of h m) (as_comp a) no_blocks) v v'))
    (Pb : forall m b v v', unknown h m v -> unknown h m v' -> b < List.length (nth m (as_c2g a) []) ->
            proj s dim (ref_place h (comp_of h m) v) (ref_place h (comp_of h m) v') (Ab (comp_of h m) b v v')
            (mb_get (nth b (nth (comp_of h m) (as_bdr a) []) no_blocks) v v'))
    (Pp : forall P i j v v', In P (as_ports a) -> i < 2 -> j < 2 -> unknown h (sub_of_side P i) v -> unknown h (sub_of_side P j) v' ->
            proj s dim (ref_place h (comp_of h (sub_of_side P i)) v) (ref_place h (comp_of h (sub_of_side P j)) v') (Ap (ptype P) i j v v')
            (mb_get (nth (ptype P) (as_port a) no_blocks) (i * nbk + v) (j * nbk + v'))).

  Definition asm_entry (m v m' v' i j : nat) : R :=
    (ind (m =? m')%nat (val (Ac (comp_of h m) v v') i j + rsum (List.length (nth m (as_c2g a) [])) (fun b => ind (ess m b) (val (Ab (comp_of h m) b v v') i j)))
     + rsum (List.length (as_ports a)) (fun k => let P := nth k (as_ports a) no_port in
         rsum 2 (fun x => rsum 2 (fun y => ind ((sub_of_side P x =? m) && (sub_of_side P y =? m'))%nat (val (Ap (ptype P) x y v v') i j)))))%R.

  Lemma asm_entry_ok m v m' v' p q : unknown h m v -> unknown h m' v' -> p < basis_size h m v -> q < basis_size h m' v' ->
    rom_entry a ess m v m' v' p q =
    rap (full_size h dim m v) (full_size h dim m' v') (mget (basis_of s m v)) (asm_entry m v m' v') (mget (basis_of s m' v')) p q.
  Proof.
    intros U U' Hp Hq. unfold rom_entry. rewrite Ea. fold h. cbn zeta. fold nbk. unfold asm_entry, full_size, basis_of. fold h.
    change (nth (ref_place h (comp_of h m) v) (rs_ref s) (DMat 0 0 [])) with (ref_mat s (ref_place h (comp_of h m) v)).
    change (nth (ref_place h (comp_of h m') v') (rs_ref s) (DMat 0 0 [])) with (ref_mat s (ref_place h (comp_of h m') v')).
    unfold basis_size in Hp, Hq. rewrite rap_plus, rap_ind. f_equal.
    - destruct (Nat.eqb_spec m m') as [<-|N]; [|reflexivity]. cbn [ind]. rewrite rap_plus, rap_rsum. f_equal.
      + apply proj_val; auto.
      + apply rsum_ext. intros b Hb. rewrite rap_ind. f_equal. apply proj_val; auto.
    - rewrite rap_rsum. apply rsum_ext. intros k Hk. rewrite rap_rsum. apply rsum_ext. intros x Hx. rewrite rap_rsum. apply rsum_ext. intros y Hy. rewrite rap_ind.
      set (P := nth k (as_ports a) no_port). assert (HP : In P (as_ports a)) by (apply nth_In; auto).
      destruct (Nat.eqb_spec (sub_of_side P x) m) as [E1|]; [|reflexivity]. destruct (Nat.eqb_spec (sub_of_side P y) m') as [E2|]; [|reflexivity]. cbn [andb ind].
      subst m m'. apply proj_val; auto.
  Qed.
End Asm.
