(** Reduced solves. *)
From Coq Require Import Reals List Bool Lia Arith ZArith Lra String.
From Verif Require Import Outcome ListLemmas LaBase BlockVec LinalgModel LinalgSpec LinalgProofs LinalgGsProofs LinalgBrentProofs RomModel RomSpec RomProofs RomBasisProofs RomStateProofs MbModel
  NsTensorModel CgoModel StdyModel StdySpec StdyProofs RomProperties.
Import ListNotations.
Local Open Scope list_scope.
Local Open Scope R_scope.

Lemma rom_lin_type_ok c t : rom_lin_type c = Ok t <-> chosen (rc_linear c) (rc_system c) t.
Proof.
  unfold rom_lin_type, chosen. destruct (string_dec (rc_linear c) "direct") as [->|N1].
  - cbn [obind]. destruct (string_dec _ "spd") as [->|N2]; [|destruct (string_dec _ "sid") as [->|N3]; [|destruct (string_dec _ "us") as [->|N4]]];
      (split; [intros [= <-] || discriminate; auto|destruct t; intros H; try (destruct H; discriminate); try discriminate; try reflexivity]).
    destruct H as (_ & [H|[H|H]]); contradiction.
  - destruct (string_dec (rc_linear c) "cg") as [->|N2]; [|destruct (string_dec (rc_linear c) "minres") as [->|N3]]; cbn [obind];
      (split; [intros [= <-] || discriminate; auto|destruct t; intros H; try (destruct H; discriminate); try discriminate; try reflexivity]).
    + destruct H as (H & _). contradiction.
    + contradiction.
    + contradiction.
Qed.

Section Rom.
  Variables (s : romst) (dim : nat -> nat).
  Hypothesis B : bases_ok s dim.
  Let h := rs_h s.
  Let n := nth (blocks h) (rs_off s) 0%nat.

  Lemma tiles_off : tiles h (place h) (basis_size h) (rs_off s).
  Proof. destruct B as (_ & _ & _ & _ & T & _). exact T. Qed.
  Lemma last_off : last (rs_off s) 0%nat = n.
  Proof.
    destruct tiles_off as (L & _). unfold n.
    assert (G : forall (l : list nat) k, List.length l = S k -> last l 0%nat = nth k l 0%nat).
    { induction l as [|a l IH]; intros [|k] E; try discriminate; cbn [List.length] in E; [destruct l; [reflexivity|discriminate]|].
      destruct l as [|a' l]; [discriminate|]. change (last (a :: a' :: l) 0%nat) with (last (a' :: l) 0%nat). cbn [nth]. apply IH. lia. }
    apply G, L.
  Qed.
  Lemma fits_n x : List.length x = n -> fits h (place h) (basis_size h) (BVec (rs_off s) x).
  Proof. intros L. split; [exact tiles_off|exact L]. Qed.
  Lemma fits_blocks V : fits h (fom_place h) (full_size h dim) V -> bv_n V = num_blocks h.
  Proof. intros ((L & _) & _). rewrite num_blocks_blocks. unfold bv_n. lia. Qed.

  Variables (c : rcfg) (F : vec -> outcome vec) (next : lin_type -> list vec -> vec -> outcome vec) (cc : cgcfg) (co : cgop) (prec : bool) (rnd : nat -> R) (b U : bvec) (junk : vec) (t : lin_type).
  Hypothesis FU : fits h (fom_place h) (full_size h dim) U.
  Hypothesis Lj : List.length junk = n.
  Hypothesis Lb : List.length (bv_dat b) = n.
  Hypothesis Ct : chosen (rc_linear c) (rc_system c) t.
  Hypothesis Cn : rc_nonlinear c = "newton"%string.
  Hypothesis Cp : rc_prec c = "none"%string \/ prec = true.
  Hypothesis HF : forall x, List.length x = n -> exists y, F x = Ok y /\ List.length y = n.
  Hypothesis Hx : forall xs r, List.length r = n -> exists d, next t xs r = Ok d /\ List.length d = n.

  Lemma rom_newton_ok : exists V x x0 y0 N Xs cv,
    rom_nonlinear_solve c s F next cc co prec rnd (Some b) U junk = Some (Ok (V, BVec (rs_off s) x)) /\ List.length x0 = n /\
    (if rc_restart c then project_global s U junk = Ok (BVec (rs_off s) x0) else forall k, (k < n)%nat -> vnth x0 k = rc_amp c * rnd k) /\
    F x0 = Ok y0 /\ iterates n F (next t) (bv_dat b) x0 (Rmax (rc_rtol c * distance n y0 (bv_dat b)) (rc_atol c)) N Xs /\ Xs N = x /\
    ended n F (bv_dat b) x (Rmax (rc_rtol c * distance n y0 (bv_dat b)) (rc_atol c)) (rc_maxit c) N cv /\
    lift_global s (BVec (rs_off s) x) U = Ok V.
  Proof.
    unfold rom_nonlinear_solve. rewrite (proj2 (rom_lin_type_ok c t) Ct). pose proof (fits_blocks U FU) as Eb. unfold h in Eb. rewrite Eb, Nat.eqb_refl. cbn [negb].
    assert (St : exists x0, (if rc_restart c then project_global s U junk else Ok (BVec (rs_off s) (map (fun k => rc_amp c * rnd k) (seq 0 (last (rs_off s) 0%nat))))) = Ok (BVec (rs_off s) x0) /\
      List.length x0 = n /\ (if rc_restart c then project_global s U junk = Ok (BVec (rs_off s) x0) else forall k, (k < n)%nat -> vnth x0 k = rc_amp c * rnd k)).
    { destruct (rc_restart c).
      - destruct (project_global_blocks s dim B U junk FU Lj) as ([o x0] & Ep & Fp & Eo & _). cbn [bv_off] in Eo. subst o. exists x0. split; [exact Ep|].
        split; [destruct Fp as (_ & L); exact L|exact Ep].
      - eexists. split; [reflexivity|]. rewrite map_length, seq_length, last_off. split; [reflexivity|]. intros k Hk. unfold vnth.
        rewrite (nth_indep _ 0 ((fun k => rc_amp c * rnd k) 0%nat)) by (rewrite map_length, seq_length; exact Hk). rewrite (map_nth (fun k => rc_amp c * rnd k)), seq_nth by exact Hk. reflexivity. }
    destruct St as (x0 & -> & Lx0 & St).
    assert (Q : (if string_dec (rc_prec c) "none" then true else prec) = true) by (destruct (string_dec _ _); [reflexivity|]; destruct Cp; [contradiction|auto]). rewrite Q. cbn [negb].
    destruct (string_dec (rc_nonlinear c) "newton") as [_|N0]; [|contradiction].
    destruct (HF x0 Lx0) as (y0 & Ey0 & Ly0). cbn [bv_dat].
    destruct (newton_total n F (next t) (bv_dat b) Lb HF (rc_rtol c) (rc_atol c) (rc_maxit c) x0 Hx Lx0) as (x & cv & En). rewrite En. cbn [obind].
    destruct (newton_ok n F (next t) (bv_dat b) Lb HF _ _ _ x0 y0 x cv Lx0 Ey0 En) as (N & Xs & It & XN & Ed).
    assert (Lx : List.length x = n) by (rewrite <- XN; apply (it_len _ _ _ _ _ _ _ _ It); lia).
    destruct (C36_lifting s dim (BVec (rs_off s) x) U B (fits_n x Lx) FU) as (V & EV & _). rewrite EV. cbn [obind].
    exists V, x, x0, y0, N, Xs, cv. auto 10.
  Qed.
End Rom.
