(** Proofs about evaluation from samples. *)
From Coq Require Import Reals List Bool Lia Arith ZArith Lra.
From Verif Require Import Outcome ListLemmas HdfModel LaBase BlockVec LinalgModel LinalgSpec LinalgProofs LinalgSubProofs ItfModel ItfSpec EqpModel EqpSpec.
From Verif Require Import RomProofs EqpProofs EqpSetupProofs.
Import ListNotations.
Local Open Scope nat_scope.

Lemma plain_rows vsize s : site_ok vsize s -> plain s -> rows_of vsize (st_dofs s).
Proof.
  intros (D & _) (N & P). split; [auto|]. intros z Hz. specialize (D z Hz). specialize (P z Hz). unfold dofn in D.
  destruct (Z.leb_spec 0 z); lia.
Qed.

Lemma plain_on v s : plain s -> forall r, r < List.length (st_dofs s) -> vnth (on_dofs v (st_dofs s)) r = v (Z.to_nat (nth r (st_dofs s) 0%Z)).
Proof.
  intros (_ & P) r Hr. unfold on_dofs, vnth. rewrite (nth_indep _ 0%R (dofs 0 * v (dofn 0))%R) by (rewrite map_length; auto).
  rewrite (map_nth (fun d => (dofs d * v (dofn d))%R)). specialize (P (nth r (st_dofs s) 0%Z) (nth_In _ _ Hr)).
  unfold dofs, dofn. destruct (Z.leb_spec 0 (nth r (st_dofs s) 0%Z)); [ring|lia].
Qed.

Lemma sample_site_ok vsize I s : sample_fits vsize I s -> sample_site I s = Ok (site_of I s).
Proof.
  intros (He & (st & Es & _) & _ & M). unfold sample_site. assert (Z : zread (in_sites I) (si_el s) = Ok (site_of I s)).
  { unfold zread, site_of in *. destruct (Z.ltb_spec (si_el s) 0); [lia|]. apply oread_nth.
    destruct (Nat.lt_ge_cases (Z.to_nat (si_el s)) (List.length (in_sites I))); auto. rewrite nth_overflow in Es by auto. discriminate. }
  unfold mark_fits in M. destruct (in_mark I) as [mk|]; auto. destruct M as (a & m & A & A1 & K & N).
  unfold zread at 1. destruct (Z.ltb_spec (si_el s) 0); [lia|]. unfold oread at 1. rewrite A. cbn [obind].
  unfold zread at 1. destruct (Z.ltb_spec (a - 1) 0); [lia|]. unfold oread at 1. rewrite K. cbn [obind].
  destruct (Z.eqb_spec m 0); [contradiction|]. cbn [negb oassert]. auto.
Qed.

Lemma int_point_ok nq qp : (0 <= qp < Z.of_nat nq)%Z -> int_point nq qp = Ok (Z.to_nat qp).
Proof. intros H. unfold int_point. rewrite (proj2 (Z.leb_le _ _)), (proj2 (Z.ltb_lt _ _)) by lia. reflexivity. Qed.

Section Eval.
  Context (B : dmat) (x : vec) (WB : dm_wf B) (Lx : List.length x = dm_w B) (Hw : 0 < dm_w B).

  Definition full_cache (s : site) : cache := Cache (st_fe s) (st_dofs s) (st_post s) (st_postm s) (st_pre s (on_dofs (lift B 0 x) (st_dofs s))).

  Lemma lift_ok s : site_ok (dm_h B) s -> plain s ->
    mult_sub_matrix B (st_dofs s) x (repeat 0%R (List.length (st_dofs s))) = Ok (on_dofs (lift B 0 x) (st_dofs s)).
  Proof.
    intros O P. destruct (mult_sub_matrix_ok B (st_dofs s) x (repeat 0%R (List.length (st_dofs s)))) as (y & E & L & V); auto.
    - eapply plain_rows; eauto.
    - apply repeat_length.
    - rewrite E. f_equal. apply vec_ext; [rewrite on_dofs_len; auto|]. intros i Hi. rewrite L in Hi. rewrite V, plain_on by auto. reflexivity.
  Qed.

  (** The cache is empty or that of the previous element. *)
  Definition cache_inv (I : integ) (prev : Z) (c : option cache) : Prop :=
    (prev = (-1)%Z /\ c = None) \/ (exists s, (0 <= prev)%Z /\ nth (Z.to_nat prev) (in_sites I) None = Some s /\ c = Some (full_cache s)).

  Lemma sample_cache_ok I s st prev c : sample_fits (dm_h B) I s -> site_of I s = Some st -> cache_inv I prev c ->
    sample_cache B x (si_el s) (Some st) prev c = Ok (full_cache st) /\ cache_inv I (si_el s) (Some (full_cache st)).
  Proof.
    intros (He & (st' & Es & O & P) & _) Es' C. rewrite Es in Es'. injection Es' as ->. split.
    - unfold sample_cache. destruct (Z.eqb_spec (si_el s) prev) as [Q|Q].
      + destruct C as [(C & _)|(s' & C1 & C2 & ->)]; [lia|]. rewrite <- Q in C2. unfold site_of in Es. rewrite Es in C2. injection C2 as <-. reflexivity.
      + pose proof (lift_ok st O P) as El. rw_bind El. reflexivity.
    - right. exists st. auto.
  Qed.

  Lemma mult_samples_ok I nq l : in_rule I = Some nq -> (forall s, In s l -> sample_fits (dm_h B) I s) -> forall prev c y, cache_inv I prev c -> List.length y = dm_w B ->
    exists p' c' y', ofold (fun '(prev, c, y) s =>
        let* so := sample_site I s in
        let* qp := int_point nq (si_qp s) in
        let* c := sample_cache B x (si_el s) so prev c in
        match so with
        | None => UB
        | Some st =>
            let ey := ca_post c (st_quad st (ca_fe c) qp (si_qw s) (ca_x c)) in
            let* y := add_mult_transpose_sub B (ca_dofs c) ey y in
            Ok (si_el s, Some c, y)
        end) l (prev, c, y) = Ok (p', c', y') /\ List.length y' = dm_w B /\
      forall j, j < dm_w B -> vnth y' j = (vnth y j + lsum (sample_form I (lift B 0 x) (mode B 0 j)) l)%R.
  Proof.
    intros Hn. induction l as [|s l IH]; intros Hf prev c y C Ly; cbn [ofold lsum fold_right].
    - exists prev, c, y. split; [reflexivity|]. split; [auto|]. intros; ring.
    - pose proof (Hf s (or_introl eq_refl)) as F. rewrite (sample_site_ok (dm_h B)) by auto. cbn [obind].
      pose proof F as (_ & (st & Es & O & P) & (nq' & Hn' & Hq) & _). rewrite Hn in Hn'. injection Hn' as <-.
      rewrite int_point_ok by auto. cbn [obind]. rewrite Es. destruct (sample_cache_ok I s st prev c F Es C) as (Ec & C'). rewrite Ec. cbn [obind].
      cbn [full_cache ca_post ca_fe ca_x ca_dofs].
      set (ey := st_post st (st_quad st (st_fe st) (Z.to_nat (si_qp s)) (si_qw s) (st_pre st (on_dofs (lift B 0 x) (st_dofs st))))).
      pose proof O as (D & P1 & P2 & P3). assert (Le : List.length ey = List.length (st_dofs st)) by (apply P2, P3, P1, on_dofs_len).
      destruct (add_mult_transpose_sub_ok B (st_dofs st) ey y) as (y1 & E1 & L1 & V1); auto; [eapply plain_rows; eauto|].
      rw_bind E1. destruct (IH (fun t Ht => Hf t (or_intror Ht)) (si_el s) (Some (full_cache st)) y1 C' L1) as (p' & c' & y' & E & L & V).
      exists p', c', y'. split; [exact E|]. split; [auto|]. intros j Hj. rewrite V, V1 by auto. rewrite Rplus_assoc. f_equal. f_equal.
      unfold sample_form. rewrite Es. unfold form_at, dot. apply rsum_ext. intros r Hr. fold ey. rewrite (plain_on (mode B 0 j)) by auto.
      unfold sel, mode. cbn [Nat.add]. ring.
  Qed.

  Lemma mult_integ_ok I y : integ_fits (dm_h B) I -> List.length y = dm_w B -> exists y', mult_integ B x y I = Ok y' /\ List.length y' = dm_w B /\
    forall j, j < dm_w B -> vnth y' j = (vnth y j + lsum (sample_form I (lift B 0 x) (mode B 0 j)) (samples_of I))%R.
  Proof.
    intros (Hr & l & El & Hf) Ly. unfold mult_integ, samples_of. rewrite El. destruct (in_rule I) as [nq|] eqn:Er; [|congruence].
    destruct (mult_samples_ok I nq l Er Hf (-1)%Z None y) as (p' & c' & y' & E & L & V); [left; auto|auto|].
    rw_bind E. exists y'. auto.
  Qed.

  Lemma mult_integs_ok ints : (forall I, In I ints -> integ_fits (dm_h B) I) -> forall y, List.length y = dm_w B ->
    exists y', ofold (mult_integ B x) ints y = Ok y' /\ List.length y' = dm_w B /\
    forall j, j < dm_w B -> vnth y' j = (vnth y j + lsum (fun I => lsum (sample_form I (lift B 0 x) (mode B 0 j)) (samples_of I)) ints)%R.
  Proof.
    induction ints as [|I ints IH]; intros Hf y Ly; cbn [ofold].
    - exists y. split; [auto|]. split; [auto|]. intros. cbn. ring.
    - destruct (mult_integ_ok I y (Hf I (or_introl eq_refl)) Ly) as (y1 & E1 & L1 & V1). rw_bind E1.
      destruct (IH (fun J HJ => Hf J (or_intror HJ)) y1 L1) as (y' & E & L & V). exists y'. split; [auto|]. split; [auto|].
      intros j Hj. rewrite V, V1 by auto. cbn [lsum fold_right]. unfold lsum. ring.
  Qed.

  (** ** Gradients *)

  Lemma grad_samples_ok I nq l : in_rule I = Some nq -> (forall s, In s l -> sample_fits (dm_h B) I s /\ forall st, site_of I s = Some st -> site_grad_ok st) ->
    forall prev c J, cache_inv I prev c -> dm_wf J -> dm_h J = dm_w B -> dm_w J = dm_w B ->
    exists p' c' J', ofold (fun '(prev, c, J) s =>
        let* so := sample_site I s in
        let* qp := int_point nq (si_qp s) in
        let* c := sample_cache B x (si_el s) so prev c in
        match so with
        | None => UB
        | Some st =>
            let em := ca_postm c (st_qgrad st (ca_fe c) qp (si_qw s) (ca_x c)) in
            let* J := add_sub_rtap B (ca_dofs c) em B (ca_dofs c) J (repeat 0%R (List.length (ca_dofs c))) in
            Ok (si_el s, Some c, J)
        end) l (prev, c, J) = Ok (p', c', J') /\ dm_wf J' /\ dm_h J' = dm_w B /\ dm_w J' = dm_w B /\
      forall a b, a < dm_w B -> b < dm_w B -> mget J' a b = (mget J a b + lsum (sample_grad I (lift B 0 x) (mode B 0 a) (mode B 0 b)) l)%R.
  Proof.
    intros Hn. induction l as [|s l IH]; intros Hf prev c J C WJ HJ WJ'; cbn [ofold lsum fold_right].
    - exists prev, c, J. split; [reflexivity|]. split; [auto|]. split; [auto|]. split; [auto|]. intros; ring.
    - destruct (Hf s (or_introl eq_refl)) as (F & SG). rewrite (sample_site_ok (dm_h B)) by auto. cbn [obind].
      pose proof F as (_ & (st & Es & O & P) & (nq' & Hn' & Hq) & _). rewrite Hn in Hn'. injection Hn' as <-.
      rewrite int_point_ok by auto. cbn [obind]. rewrite Es. destruct (sample_cache_ok I s st prev c F Es C) as (Ec & C'). rewrite Ec. cbn [obind].
      cbn [full_cache ca_postm ca_fe ca_x ca_dofs].
      pose proof O as (D & P1 & P2 & P3). destruct (SG st Es (Z.to_nat (si_qp s)) (si_qw s) (st_pre st (on_dofs (lift B 0 x) (st_dofs st)))) as (M1 & M2 & M3); [apply P1, on_dofs_len|].
      set (em := st_postm st (st_qgrad st (st_fe st) (Z.to_nat (si_qp s)) (si_qw s) (st_pre st (on_dofs (lift B 0 x) (st_dofs st))))) in *.
      destruct (add_sub_rtap_ok B (st_dofs st) em B (st_dofs st) J (repeat 0%R (List.length (st_dofs st)))) as (J1 & E1 & W1 & H1 & H1' & V1); auto; try (eapply plain_rows; eauto); [apply repeat_length|].
      rw_bind E1. destruct (IH (fun t Ht => Hf t (or_intror Ht)) (si_el s) (Some (full_cache st)) J1 C' W1 H1 H1') as (p' & c' & J' & E & W & H2 & H2' & V).
      exists p', c', J'. split; [exact E|]. split; [auto|]. split; [auto|]. split; [auto|]. intros a b Ha Hb. rewrite V, V1 by auto.
      rewrite <- HJ at 1. rewrite <- WJ' at 1. rewrite dm_setsize_same, Rplus_assoc. f_equal. f_equal.
      unfold sample_grad. rewrite Es. unfold grad_at, rap. fold em. apply rsum_ext. intros k Hk. rewrite (plain_on (mode B 0 a)) by auto. unfold sel at 1, mode at 1. cbn [Nat.add].
      f_equal. apply rsum_ext. intros q Hq'. rewrite (plain_on (mode B 0 b)) by auto. reflexivity.
  Qed.

  Definition integ_grad_fits (I : integ) : Prop := forall s st, In s (samples_of I) -> site_of I s = Some st -> site_grad_ok st.

  Lemma grad_integs_ok ints : (forall I, In I ints -> integ_fits (dm_h B) I /\ integ_grad_fits I) -> forall J, dm_wf J -> dm_h J = dm_w B -> dm_w J = dm_w B ->
    exists J', ofold (grad_integ B x) ints J = Ok J' /\ dm_wf J' /\ dm_h J' = dm_w B /\ dm_w J' = dm_w B /\
    forall a b, a < dm_w B -> b < dm_w B -> mget J' a b = (mget J a b + lsum (fun I => lsum (sample_grad I (lift B 0 x) (mode B 0 a) (mode B 0 b)) (samples_of I)) ints)%R.
  Proof.
    induction ints as [|I ints IH]; intros Hf J WJ HJ WJ'; cbn [ofold].
    - exists J. split; [auto|]. split; [auto|]. split; [auto|]. split; [auto|]. intros. cbn. ring.
    - destruct (Hf I (or_introl eq_refl)) as ((Hr & l & El & Hs) & Hg). unfold grad_integ at 1. unfold integ_grad_fits, samples_of in Hg. rewrite El in *.
      destruct (in_rule I) as [nq|] eqn:Er; [|congruence].
      destruct (grad_samples_ok I nq l Er (fun s Hs' => conj (Hs s Hs') (fun st => Hg s st Hs')) (-1)%Z None J) as (p' & c' & J1 & E1 & W1 & H1 & H1' & V1); auto; [left; auto|].
      rw_bind E1. destruct (IH (fun K HK => Hf K (or_intror HK)) J1 W1 H1 H1') as (J' & E & W & H2 & H2' & V). exists J'. split; [auto|]. split; [auto|]. split; [auto|]. split; [auto|].
      intros a b Ha Hb. rewrite V, V1 by auto. cbn [lsum fold_right]. assert (Q : samples_of I = l) by (unfold samples_of; rewrite El; auto). rewrite Q. unfold lsum. ring.
  Qed.
End Eval.

Lemma lift_set B0 off n vsize B x r : dm_wf B0 -> set_basis n vsize B0 off = Ok B -> r < vsize -> lift B 0 x r = lift B0 off x r.
Proof.
  intros W E Hr. apply set_basis_inv in E; auto. destruct E as (H1 & H2 & WB & Hh & Hw & V). unfold lift. rewrite Hw, H1. apply rsum_ext. intros c Hc. cbn [Nat.add]. rewrite V; auto.
Qed.

Lemma lsum_ext {A} (f g : A -> R) l : (forall a, In a l -> f a = g a) -> lsum f l = lsum g l.
Proof. induction l; intros H; auto. cbn [lsum fold_right]. rewrite H by (left; auto). f_equal. apply IHl. intros. apply H. right. auto. Qed.

Theorem form_mult_ok n vsize B0 off B ints x y : dm_wf B0 -> set_basis n vsize B0 off = Ok B -> 0 < n -> List.length x = n -> List.length y = n ->
  (forall I, In I ints -> integ_fits vsize I) ->
  exists z, form_mult n (Some B) ints x y = Ok z /\ List.length z = n /\
    forall j, j < n -> vnth z j = lsum (fun I => lsum (sample_form I (lift B0 off x) (mode B0 off j)) (samples_of I)) ints.
Proof.
  intros W0 EB Hn Lx Ly Hf. pose proof (set_basis_inv _ _ _ _ _ W0 EB) as (H1 & H2 & WB & Hh & Hw & VB). unfold form_mult. rewrite Lx, Ly, Hw, Nat.eqb_refl. cbn [oassert].
  destruct (mult_integs_ok B x WB) with (ints := ints) (y := repeat 0%R n) as (z & E & L & V); try congruence; try lia.
  { intros I HI. rewrite Hh. auto. } { rewrite repeat_length. auto. }
  exists z. split; [exact E|]. split; [congruence|]. intros j Hj. rewrite V by lia. unfold vnth at 1. rewrite nth_repeat, Rplus_0_l. apply lsum_ext.
  intros I HI. apply lsum_ext. intros s Hs. destruct (Hf I HI) as (_ & l & El & Fl). unfold samples_of in Hs. rewrite El in Hs. destruct (Fl s Hs) as (_ & (st & Es & O & P) & _).
  unfold sample_form. rewrite Es. apply (form_at_ext vsize); auto.
  - intros k Hk. eapply lift_set; eauto.
  - intros k Hk. unfold mode. cbn [Nat.add]. auto.
Qed.

Lemma grad_at_ext vsize s m w v v' phi phi' psi psi' : site_ok vsize s -> (forall k, k < vsize -> v k = v' k) -> (forall k, k < vsize -> phi k = phi' k) -> (forall k, k < vsize -> psi k = psi' k) ->
  grad_at s m w v phi psi = grad_at s m w v' phi' psi'.
Proof.
  intros (D & _) Hv Hp Hs. unfold grad_at. rewrite (on_dofs_ext v v'), (on_dofs_ext phi phi'), (on_dofs_ext psi psi'); auto.
Qed.

Theorem form_gradient_ok n vsize B0 off B ints G x : dm_wf B0 -> set_basis n vsize B0 off = Ok B -> 0 < n -> List.length x = n ->
  (forall M, G = Some M -> dm_wf M /\ dm_h M = n /\ dm_w M = n) ->
  (forall I, In I ints -> integ_fits vsize I /\ integ_grad_fits I) ->
  exists J, form_gradient n (Some B) ints G x = Ok J /\ dm_wf J /\ dm_h J = n /\ dm_w J = n /\
    forall a b, a < n -> b < n -> mget J a b = lsum (fun I => lsum (sample_grad I (lift B0 off x) (mode B0 off a) (mode B0 off b)) (samples_of I)) ints.
Proof.
  intros W0 EB Hn Lx HG Hf. pose proof (set_basis_inv _ _ _ _ _ W0 EB) as (H1 & H2 & WB & Hh & Hw & VB). unfold form_gradient. rewrite Lx, Nat.eqb_refl. cbn [oassert].
  set (J0 := match G with None => _ | Some G => _ end).
  assert (HJ : dm_wf J0 /\ dm_h J0 = n /\ dm_w J0 = n /\ forall a b, mget J0 a b = 0%R).
  { unfold J0. destruct G as [M|].
    - destruct (HG M eq_refl) as (A1 & A2 & A3). unfold dm_wf in *. cbn [dm_h dm_w dm_buf]. rewrite map_length. repeat (split; [auto|]).
      intros a b. unfold mget, vnth. cbn [dm_h dm_w dm_buf]. destruct (Nat.lt_ge_cases (a + b * dm_h M) (List.length (dm_buf M))) as [Lt|Ge].
      + exact (map_nth (fun _ : R => 0%R) (dm_buf M) 0%R _).
      + apply nth_overflow. rewrite map_length. auto.
    - unfold dm_wf. cbn [dm_h dm_w dm_buf]. rewrite repeat_length. repeat (split; [auto|]). intros a b. unfold mget, vnth. cbn [dm_buf]. apply nth_repeat. }
  destruct HJ as (WJ & J1 & J2 & J3).
  destruct (grad_integs_ok B x WB) with (ints := ints) (J := J0) as (J & E & W & K1 & K2 & V); try congruence; try lia.
  { intros I HI. rewrite Hh. auto. }
  exists J. split; [destruct ints; exact E|]. split; [auto|]. split; [congruence|]. split; [congruence|]. intros a b Ha Hb. rewrite V, J3, Rplus_0_l by lia. apply lsum_ext.
  intros I HI. apply lsum_ext. intros s Hs. destruct (Hf I HI) as ((_ & l & El & Fl) & _). unfold samples_of in Hs. rewrite El in Hs. destruct (Fl s Hs) as (_ & (st & Es & O & P) & _).
  unfold sample_grad. rewrite Es. apply (grad_at_ext vsize); auto.
  - intros k Hk. eapply lift_set; eauto.
  - intros k Hk. unfold mode. cbn [Nat.add]. auto.
  - intros k Hk. unfold mode. cbn [Nat.add]. auto.
Qed.
