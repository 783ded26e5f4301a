(** Proofs about the ownership of the sample lists of interface forms. *)
From Coq Require Import List Bool Lia Arith ZArith.
From Verif Require Import Outcome ListLemmas LaBase EqpOwnModel EqpOwnSpec EqpOwnProofs RomProofs.
Import ListNotations.
Local Open Scope nat_scope.

Section Itf.
  Context {A : Type} (types : list nat) (nref : nat) (HT : forall t, In t types -> t < nref).
  Let np := List.length types.

  Definition iinv (ops : list (iop A)) (s : iown A) : Prop :=
    io_n s = integrators ops /\ List.length (io_ref s) = io_n s * nref /\ List.length (io_smp s) = io_n s * np /\
    own_ok (io_heap s) (fun q => nth q (io_ref s) None) /\
    (forall k t, k < io_n s -> t < nref -> last_samples ops k t = deref (io_heap s) (nth (t + k * nref) (io_ref s) None)) /\
    (forall k p, k < io_n s -> p < np -> nth (p + k * np) (io_smp s) None = nth (nth p types 0 + k * nref) (io_ref s) None) /\
    (forall k t, io_n s <= k -> last_samples ops k t = None).

  Lemma last_samples_snoc (ops : list (iop A)) o k t : last_samples (ops ++ [o]) k t =
    match o with IUpdate i rp a => if (i =? k) && (rp =? t) then Some a else last_samples ops k t | ILoad i file => if i =? k then Some (file t) else last_samples ops k t | IAdd => last_samples ops k t end.
  Proof. unfold last_samples. rewrite fold_left_app. reflexivity. Qed.

  Lemma integrators_snoc (ops : list (iop A)) o : integrators (ops ++ [o]) = match o with IAdd => S (integrators ops) | _ => integrators ops end.
  Proof. unfold integrators. rewrite filter_app, app_length. destruct o; cbn; lia. Qed.

  Lemma type_lt p : p < np -> nth p types 0 < nref.
  Proof. intros H. apply HT, nth_In, H. Qed.

  Lemma flat_lt a b k n m : a < m -> k < n -> b = a + k * m -> b < n * m.
  Proof. intros H1 H2 ->. rewrite Nat.add_comm. apply lin_lt; auto. Qed.

  Lemma flat_inj a b k k' m : a < m -> b < m -> a + k * m = b + k' * m -> a = b /\ k = k'.
  Proof.
    intros Ha Hb E. destruct (lin_inj k a k' b m Ha Hb); [lia|auto].
  Qed.

  (** Pointing the ports of integrator [k] to [tgt]. *)
  Lemma ports_loop k (smp : list (option nat)) (tgt : nat -> option nat) (f : list (option nat) -> nat -> outcome (list (option nat))) :
    (k + 1) * np <= List.length smp ->
    (forall s p, p < np -> List.length s = List.length smp -> nth (p + k * np) s None = nth (p + k * np) smp None -> f s p = owrite s (p + k * np) (tgt p) \/ (f s p = Ok s /\ tgt p = nth (p + k * np) smp None)) ->
    exists s, ofor np f smp = Ok s /\ List.length s = List.length smp /\ (forall p, p < np -> nth (p + k * np) s None = tgt p) /\
      forall q, (forall p, p < np -> q <> p + k * np) -> nth q s None = nth q smp None.
  Proof.
    intros L H. destruct (ofor_inv np f (fun j s => List.length s = List.length smp /\ (forall p, p < np -> nth (p + k * np) s None = if p <? j then tgt p else nth (p + k * np) smp None) /\
      forall q, (forall p, p < np -> q <> p + k * np) -> nth q s None = nth q smp None) smp) as (s & E & L1 & V & V').
    - auto.
    - intros p s Hp (L1 & V & V'). assert (Hq : p + k * np < List.length s) by nia. pose proof (V p Hp) as Vp. rewrite Nat.ltb_irrefl in Vp.
      destruct (H s p Hp L1 Vp) as [Ef|(Ef & Et)].
      + rewrite Ef. unfold owrite. rewrite (proj2 (Nat.ltb_lt _ _) Hq). eexists. split; [reflexivity|]. rewrite upd_length. split; [auto|]. split.
        * intros p' Hp'. destruct (Nat.eq_dec p p') as [<-|N].
          -- rewrite nth_upd_eq by auto. destruct (Nat.ltb_spec p (S p)); [auto|lia].
          -- rewrite nth_upd_ne by lia. rewrite V by auto. destruct (Nat.ltb_spec p' p), (Nat.ltb_spec p' (S p)); auto; lia.
        * intros q Hq'. rewrite nth_upd_ne; auto. intros <-. exact (Hq' p Hp eq_refl).
      + exists s. split; [auto|]. split; [auto|]. split; [|auto]. intros p' Hp'. rewrite V by auto. destruct (Nat.ltb_spec p' p), (Nat.ltb_spec p' (S p)); auto; try lia. assert (p' = p) by lia. subst p'. auto.
    - exists s. split; [auto|]. split; [auto|]. split; [|auto]. intros p Hp. rewrite V by auto. rewrite (proj2 (Nat.ltb_lt _ _) Hp). reflexivity.
  Qed.

  Lemma istep_ok ops o s : iinv ops s -> (forall k file, o = ILoad k file -> k < integrators ops) ->
    istep types nref s o <> UB /\ forall s', istep types nref s o = Ok s' -> iinv (ops ++ [o]) s'.
  Proof.
    intros (En & L1 & L2 & W & U & P & U0) Hl. destruct o as [|i rp a|k file]; cbn [istep].
    - split; [discriminate|]. intros s' E. injection E as <-. red. cbn [io_n io_ref io_smp io_heap]. rewrite !app_length, !repeat_length, integrators_snoc, L1, L2.
      assert (Nr : forall n q (l : list (option nat)), nth q (l ++ repeat None n) None = nth q l None).
      { intros n q l. destruct (Nat.lt_ge_cases q (List.length l)); [rewrite app_nth1; auto|]. rewrite app_nth2, (nth_overflow l) by auto. rewrite nth_repeat. auto. }
      split; [auto|]. split; [lia|]. split; [fold np; lia|]. split; [eapply own_ext; [exact W|]; intros q; cbn beta; rewrite Nr; auto|].
      split; [|split].
      + intros k t Hk Ht. rewrite Nr, last_samples_snoc. destruct (Nat.eq_dec k (io_n s)) as [->|N]; [|apply U; lia].
        rewrite U0, nth_overflow by lia. reflexivity.
      + intros k p Hk Hp. fold np. rewrite !Nr. destruct (Nat.eq_dec k (io_n s)) as [->|N]; [|apply P; lia]. rewrite !nth_overflow; auto; rewrite ?L1, ?L2; lia.
      + intros k t Hk. rewrite last_samples_snoc. apply U0. lia.
    - destruct (Nat.ltb_spec i (io_n s)) as [Hi|]; cbn [oassert]; [|split; discriminate]. destruct (Nat.ltb_spec rp nref) as [Hr|]; cbn [oassert]; [|split; discriminate].
      rewrite L1, Nat.eqb_refl. cbn [oassert]. assert (Hx : rp + i * nref < List.length (io_ref s)) by (rewrite L1; eapply flat_lt; eauto).
      destruct (own_replace Nat.eq_dec (io_heap s) (fun q => nth q (io_ref s) None) (fun q => nth q (upd (io_ref s) (rp + i * nref) (Some (List.length (io_heap s)))) None) (rp + i * nref) a (io_ref s) (rp + i * nref)) as (h & R & W' & D1 & D2 & _); auto.
      { rewrite nth_upd_eq by auto. auto. } { intros q N. rewrite nth_upd_ne by auto. auto. }
      rewrite R. cbn [obind]. set (ref' := upd (io_ref s) (rp + i * nref) (Some (List.length (io_heap s)))) in *. fold np.
      destruct (ports_loop i (io_smp s) (fun p => nth (nth p types 0 + i * nref) ref' None) (fun smp p => let* t := oread types p in if t =? rp then let* q := oread ref' (rp + i * nref) in owrite smp (p + i * np) q else Ok smp)) as (smp & E & Ls & V & V').
      { rewrite L2. nia. }
      { intros sm p Hp Lsm Es. rewrite (oread_nth types p 0) by auto. cbn [obind]. destruct (Nat.eqb_spec (nth p types 0) rp) as [->|N].
        - left. rewrite (oread_nth ref' _ None) by (unfold ref'; rewrite upd_length; auto). reflexivity.
        - right. split; [auto|]. rewrite P by auto. unfold ref'. rewrite nth_upd_ne; auto. pose proof (type_lt p Hp). intros Q. apply flat_inj in Q; auto. lia. }
      rewrite E. cbn [obind]. split; [discriminate|]. intros s' E'. injection E' as <-. red. cbn [io_n io_ref io_smp io_heap]. rewrite integrators_snoc. unfold ref' at 1. rewrite upd_length, Ls.
      split; [auto|]. split; [auto|]. split; [auto|]. split; [exact W'|]. split; [|split].
      + intros k t Hk Ht. rewrite last_samples_snoc. destruct (Nat.eqb_spec i k) as [<-|N1]; cbn [andb].
        * destruct (Nat.eqb_spec rp t) as [<-|N2]; [symmetry; exact D1|]. assert (Nq : t + i * nref <> rp + i * nref) by lia.
          unfold ref'. rewrite nth_upd_ne by auto. rewrite (D2 _ Nq). apply U; auto.
        * assert (Nq : t + k * nref <> rp + i * nref) by (intros Q; apply flat_inj in Q; auto; lia). unfold ref'. rewrite nth_upd_ne by auto. rewrite (D2 _ Nq). apply U; auto.
      + intros k p Hk Hp. destruct (Nat.eq_dec k i) as [->|N]; [apply V; auto|]. rewrite V'.
        * rewrite P by auto. pose proof (type_lt p Hp). unfold ref'. rewrite nth_upd_ne; auto. intros Q. apply flat_inj in Q; auto. lia.
        * intros p' Hp' Q. apply flat_inj in Q; auto. lia.
      + intros k t Hk. rewrite last_samples_snoc. destruct (Nat.eqb_spec i k) as [<-|]; [lia|]. cbn [andb]. auto.
    - specialize (Hl k file eq_refl). rewrite <- En in Hl. fold np.
      match goal with |- context[ofor nref ?f _] =>
        destruct (ofor_inv nref f (fun j hr => List.length (snd hr) = io_n s * nref /\ own_ok (fst hr) (fun q => nth q (snd hr) None) /\
          (forall t, t < j -> deref (fst hr) (nth (t + k * nref) (snd hr) None) = Some (file t)) /\
          (forall q, (forall t, t < j -> q <> t + k * nref) -> nth q (snd hr) None = nth q (io_ref s) None /\ deref (fst hr) (nth q (snd hr) None) = deref (io_heap s) (nth q (io_ref s) None)))
          (io_heap s, io_ref s)) as ((h, ref) & E & Lr & Wr & Vr & Kr) end.
      { cbn [fst snd]. split; [auto|]. split; [auto|]. split; [intros; lia|auto]. }
      { intros t (h, ref) Ht (Lr & Wr & Vr & Kr). cbn [fst snd] in *. assert (Hx : t + k * nref < List.length ref) by (rewrite Lr; eapply flat_lt; eauto).
        destruct (own_replace Nat.eq_dec h (fun q => nth q ref None) (fun q => nth q (upd ref (t + k * nref) (Some (List.length h))) None) (t + k * nref) (file t) ref (t + k * nref)) as (h' & R & W' & D1 & D2 & _); auto.
        { rewrite nth_upd_eq by auto. auto. } { intros q N. rewrite nth_upd_ne by auto. auto. }
        eexists. split; [exact R|]. cbn [fst snd]. rewrite upd_length. split; [auto|]. split; [auto|]. split.
        - intros t' Ht'. destruct (Nat.eq_dec t' t) as [->|N]; [exact D1|]. rewrite nth_upd_ne by lia. rewrite D2 by lia. apply Vr. lia.
        - intros q Hq. assert (Nq : q <> t + k * nref) by (apply Hq; lia). rewrite nth_upd_ne by auto. rewrite D2 by auto. apply Kr. intros t' Ht'. apply Hq. lia. }
      rewrite E. cbn [obind fst snd] in *.
      destruct (ports_loop k (io_smp s) (fun p => nth (nth p types 0 + k * nref) ref None) (fun smp p => let* t := oread types p in let* q := oread ref (t + k * nref) in owrite smp (p + k * np) q)) as (smp & E2 & Ls & V & V').
      { rewrite L2. nia. }
      { intros sm p Hp Lsm Es. left. rewrite (oread_nth types p 0) by auto. cbn [obind]. pose proof (type_lt p Hp). rewrite (oread_nth ref _ None) by (rewrite Lr; eapply flat_lt; eauto). reflexivity. }
      rewrite E2. cbn [obind]. split; [discriminate|]. intros s' E'. injection E' as <-. red. cbn [io_n io_ref io_smp io_heap]. rewrite integrators_snoc, Ls.
      split; [auto|]. split; [auto|]. split; [auto|]. split; [exact Wr|]. split; [|split].
      + intros k' t Hk Ht. rewrite last_samples_snoc. destruct (Nat.eqb_spec k k') as [<-|N1]; [symmetry; apply Vr; auto|].
        destruct (Kr (t + k' * nref)) as (_ & K2); [intros t' Ht' Q; apply flat_inj in Q; auto; lia|]. rewrite K2. apply U; auto.
      + intros k' p Hk Hp. destruct (Nat.eq_dec k' k) as [->|N]; [apply V; auto|]. rewrite V' by (intros p' Hp' Q; apply flat_inj in Q; auto; lia). rewrite P by auto. pose proof (type_lt p Hp).
        symmetry. apply Kr. intros t' Ht' Q. apply flat_inj in Q; auto. lia.
      + intros k' t Hk. rewrite last_samples_snoc. destruct (Nat.eqb_spec k k') as [<-|]; [lia|]. auto.
  Qed.

  Theorem irun_ok (ops : list (iop A)) : iscript ops -> irun types nref ops <> UB /\ forall s, irun types nref ops = Ok s -> iinv ops s.
  Proof.
    unfold irun. induction ops as [|o ops IH] using rev_ind; intros S0.
    - split; [discriminate|]. intros s E. injection E as <-. red. cbn. repeat split; auto; try lia.
      + intros k p. destruct k; discriminate.
      + intros k k' p. destruct k; discriminate.
      + intros p a. destruct p; discriminate.
    - assert (S1 : iscript ops) by (intros p k file q E; apply (S0 p k file (q ++ [o])); rewrite E, <- app_assoc; reflexivity).
      destruct (IH S1) as (NU & Inv). rewrite ofold_app. destruct (ofold (istep types nref) ops (IOwn [] 0 [] [])) as [s| |] eqn:E; cbn [obind ofold].
      + destruct (istep_ok ops o s (Inv s eq_refl)) as (N1 & I1); [intros k file ->; apply (S0 ops k file []); reflexivity|].
        destruct (istep types nref s o) as [s1| |]; cbn [obind] in *; [split; [discriminate|]; intros s' Q; injection Q as <-; auto|split; congruence|congruence].
      + split; congruence.
      + congruence.
  Qed.

  (** Each port uses the samples most recently given for its kind of port. *)
  Theorem itf_use (ops : list (iop A)) s k p : iscript ops -> irun types nref ops = Ok s -> k < integrators ops -> p < List.length types ->
    iuse types s k p = Ok (last_samples ops k (nth p types 0)).
  Proof.
    intros S0 E Hk Hp. destruct (irun_ok ops S0) as (_ & Inv). destruct (Inv s E) as (En & L1 & L2 & (W1 & _) & U & P & _). rewrite <- En in Hk. unfold iuse. fold np in Hp |- *.
    rewrite (oread_nth (io_smp s) _ None) by (rewrite L2; eapply flat_lt; eauto). cbn [obind]. rewrite P by auto. rewrite U by (auto; apply type_lt; auto).
    destruct (nth (nth p types 0 + k * nref) (io_ref s) None) as [q|] eqn:Eq; [|reflexivity]. destruct (W1 _ q Eq) as (a & Ha). unfold hread, deref. rewrite Ha, (nth_error_nth _ _ None Ha). reflexivity.
  Qed.

  (** Deleting the form frees every list, each once. *)
  Theorem itf_delete (ops : list (iop A)) s : iscript ops -> irun types nref ops = Ok s -> exists h, idelete s = Ok h /\ forall p, nth p h None = None.
  Proof.
    intros S0 E. destruct (irun_ok ops S0) as (_ & Inv). destruct (Inv s E) as (_ & _ & _ & W & _). unfold idelete.
    destruct (own_delete_all Nat.eq_dec (seq 0 (List.length (io_ref s))) (io_heap s) (fun q => nth q (io_ref s) None) (fun _ => None)) as (h & D & (_ & _ & W3) & _); auto.
    - apply seq_NoDup.
    - intros q Hq. rewrite nth_overflow; auto. rewrite in_seq in Hq. lia.
    - rewrite map_nth_seq in D. exists h. split; [exact D|]. intros p. destruct (nth p h None) as [a|] eqn:Ea; auto. exfalso. destruct (W3 p a) as (k & Hk); [|discriminate].
      rewrite <- Ea. apply nth_error_nth'. destruct (Nat.lt_ge_cases p (List.length h)); auto. rewrite nth_overflow in Ea by auto. discriminate.
  Qed.
End Itf.
