(** Proofs about the transfer of fields to the whole mesh. *)
From Coq Require Import ZArith List Bool Lia Reals String Sorting.Sorted.
From Verif Require Import Outcome TopoModel LaBase SplitModel SplitSpec SplitProofs SplitMapProofs SplitTopProofs.
Import ListNotations.
Local Open Scope nat_scope.

Lemma transfer_ok {V} (sm : smesh) (src dst : list V) : NoDup (sm_pel sm) -> (forall e, In e (sm_pel sm) -> e < List.length dst) -> List.length (sm_pel sm) <= List.length src ->
  exists d, transfer sm src dst = Ok d /\ List.length d = List.length dst /\
    (forall i e, nth_error (sm_pel sm) i = Some e -> nth_error d e = nth_error src i) /\ (forall e, ~ In e (sm_pel sm) -> nth_error d e = nth_error dst e).
Proof.
  intros Nd In_ Ls. unfold transfer. destruct (ofor_inv (List.length (sm_pel sm)) (fun d i => let* e := oread (sm_pel sm) i in let* x := oread src i in owrite d e x)
    (fun k d => List.length d = List.length dst /\ (forall i e, i < k -> nth_error (sm_pel sm) i = Some e -> nth_error d e = nth_error src i) /\ (forall e, ~ In e (sm_pel sm) -> nth_error d e = nth_error dst e)) dst) as (d & E & L & H & K).
  - split; auto. split; auto. intros; lia.
  - intros k d Hk (L & H & K). destruct (nth_error (sm_pel sm) k) as [e|] eqn:He; [|apply nth_error_None in He; lia]. destruct (nth_error src k) as [x|] eqn:Hx; [|apply nth_error_None in Hx; lia].
    rewrite (proj2 (oread_ok _ _ _) He). cbn [obind]. rewrite (proj2 (oread_ok _ _ _) Hx). cbn [obind]. pose proof (In_ e (nth_error_In _ _ He)) as Le. unfold owrite. rewrite (proj2 (Nat.ltb_lt e (List.length d))) by lia.
    eexists. split; [reflexivity|]. split; [rewrite upd_length; auto|]. split.
    + intros i e' Li He'. destruct (Nat.eq_dec e e') as [<-|N].
      * rewrite nth_error_upd_eq by lia. assert (i = k). { apply (proj1 (NoDup_nth_error _) Nd); [apply nth_error_Some|]; congruence. } subst. auto.
      * rewrite nth_error_upd_ne by auto. apply H; auto. destruct (Nat.eq_dec i k) as [->|]; [congruence|lia].
    + intros e' N. rewrite nth_error_upd_ne; [auto|]. intros ->. apply N. eapply nth_error_In; eauto.
  - exists d. split; auto. split; auto. split; auto. intros i e He. apply H; auto. apply nth_error_Some. congruence.
Qed.

Section Move.
  Variables (V : Type) (subs : list smesh) (ne nvar : nat) (us gs : list (list V)).
  Hypothesis Nd : forall m sm, nth_error subs m = Some sm -> NoDup (sm_pel sm).
  Hypothesis Rng : forall m sm e, nth_error subs m = Some sm -> In e (sm_pel sm) -> e < ne.
  Hypothesis Dis : forall m m' sm sm' e, nth_error subs m = Some sm -> nth_error subs m' = Some sm' -> In e (sm_pel sm) -> In e (sm_pel sm') -> m = m'.
  Hypothesis Lu : List.length us = nvar * List.length subs.
  Hypothesis Lg : List.length gs = nvar.
  Hypothesis Lgs : forall g, In g gs -> List.length g = ne.
  Hypothesis Lus : forall m sm v u, nth_error subs m = Some sm -> v < nvar -> nth_error us (m * nvar + v) = Some u -> List.length u = List.length (sm_pel sm).

  Definition placed (g : list (list V)) (m v : nat) : Prop := forall sm u d i e, nth_error subs m = Some sm -> nth_error us (m * nvar + v) = Some u -> nth_error g v = Some d ->
    nth_error (sm_pel sm) i = Some e -> nth_error d e = nth_error u i.

  Lemma global_ok : exists gs', transfer_to_global subs us gs nvar = Ok gs' /\ List.length gs' = nvar /\ (forall g, In g gs' -> List.length g = ne) /\ forall m v, m < List.length subs -> v < nvar -> placed gs' m v.
  Proof.
    unfold transfer_to_global, oassert. rewrite Lu, Lg, !Nat.eqb_refl.
    set (body := fun m g v => let* sm := oread subs m in let* u := oread us (m * nvar + v) in let* d := oread g v in let* d' := transfer sm u d in owrite g v d').
    change (exists gs', ofor (List.length subs) (fun g m => ofor nvar (body m) g) gs = Ok gs' /\ List.length gs' = nvar /\ (forall g, In g gs' -> List.length g = ne) /\ forall m v, m < List.length subs -> v < nvar -> placed gs' m v).
    destruct (ofor_inv (List.length subs) (fun g m => ofor nvar (body m) g)
      (fun k g => (List.length g = nvar /\ (forall d, In d g -> List.length d = ne)) /\ forall m v, m < k -> v < nvar -> placed g m v) gs) as (g & E & (L1 & L2) & P).
    - split; [auto|]. intros; lia.
    - intros m g Hm (Sh & P). destruct (nth_error subs m) as [sm|] eqn:Hs; [|apply nth_error_None in Hs; lia].
      destruct (ofor_inv nvar (body m) (fun k g' => (List.length g' = nvar /\ (forall d, In d g' -> List.length d = ne)) /\ (forall m' v, m' < m -> v < nvar -> placed g' m' v) /\ forall v, v < k -> placed g' m v) g) as (g' & E' & Sh' & P1 & P2).
      + split; auto. split; auto. intros; lia.
      + intros v g' Hv ((Lg' & Ld') & P1 & P2). unfold body. rewrite (proj2 (oread_ok _ _ _) Hs). cbn [obind].
        destruct (nth_error us (m * nvar + v)) as [u|] eqn:Hu; [|apply nth_error_None in Hu; nia]. rewrite (proj2 (oread_ok _ _ _) Hu). cbn [obind].
        destruct (nth_error g' v) as [d|] eqn:Hd; [|apply nth_error_None in Hd; lia]. rewrite (proj2 (oread_ok _ _ _) Hd). cbn [obind]. pose proof (Ld' d (nth_error_In _ _ Hd)) as Ld.
        destruct (transfer_ok sm u d (Nd _ _ Hs)) as (d' & Ed & Ld1 & In1 & Out1). { intros e He. rewrite Ld. eapply Rng; eauto. } { rewrite (Lus _ _ _ _ Hs Hv Hu). auto. }
        rewrite Ed. cbn [obind]. unfold owrite. rewrite (proj2 (Nat.ltb_lt v (List.length g'))) by lia. eexists. split; [reflexivity|]. split; [split|split].
        * rewrite upd_length. auto.
        * intros x Hx. apply In_nth_error in Hx as (j & Hj). destruct (Nat.eq_dec v j) as [<-|N]; [rewrite nth_error_upd_eq in Hj by lia; injection Hj as <-; lia|]. rewrite nth_error_upd_ne in Hj by auto. apply Ld'. eapply nth_error_In; eauto.
        * intros m' v' Lm Lv sm' u' x i e Hs' Hu' Hx He. destruct (Nat.eq_dec v v') as [<-|N]; [|rewrite nth_error_upd_ne in Hx by auto; eapply P1; eauto]. rewrite nth_error_upd_eq in Hx by lia. injection Hx as <-.
          rewrite Out1; [eapply P1; eauto|]. intros K. pose proof (Dis _ _ _ _ _ Hs Hs' K (nth_error_In _ _ He)). lia.
        * intros v' Lv sm' u' x i e Hs' Hu' Hx He. destruct (Nat.eq_dec v v') as [<-|N]; [|rewrite nth_error_upd_ne in Hx by auto; apply (P2 v' ltac:(lia) sm' u' x i e); auto]. rewrite nth_error_upd_eq in Hx by lia. injection Hx as <-.
          assert (sm' = sm) by congruence. assert (u' = u) by congruence. subst. auto.
      + exists g'. split; auto. split; auto. intros m' v L Lv. destruct (Nat.eq_dec m' m) as [->|]; [auto|apply P1; auto; lia].
    - exists g. auto.
  Qed.
End Move.
