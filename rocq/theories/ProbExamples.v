(** Settings that meet the hypotheses of the theorems. *)
From Coq Require Import Reals List Bool Lia Arith ZArith Ascii String Lra.
From Verif Require Import Outcome LaBase MbModel ProbModel ProbSpec ProbProofs ProbFormulaProofs.
Import ListNotations.
Local Open Scope string_scope.
Local Open Scope list_scope.
Local Open Scope R_scope.

Definition exq_g : gvars := fun _ => 0.

(** A length set by name and then twice by index; the last value stays, the others are untouched. *)
Definition exq_l : list setting := [ByName "L" 3; ByName "U" 4; ByIndex [1; 3; 1]%Z [5; 6; 7]].
Lemma exq_configured : exists p g', configured "channel_flow" exq_g exq_l p g'.
Proof.
  apply accepted; [cbn; tauto| |intros H; discriminate]. intros x Hx. split; [|cbn; intuition discriminate].
  cbn in Hx. destruct Hx as [<-|[<-|[<-|[]]]]; cbn; [tauto|tauto|]. split; [reflexivity|]. split; [lia|]. intros i Hi. lia.
Qed.
Lemma exq_values : map (value "channel_flow" exq_l) ["nu"; "L"; "U"; "x0"] = [1; 7; 4; 6].
Proof. reflexivity. Qed.

(** Every class takes a new value for its first parameter. *)
Lemma exq_every n : In n (map fst tables) -> let l := [ByName (key_of n 0) 3] in exists p g', configured n exq_g l p g' /\ value n l (key_of n 0) = 3.
Proof.
  intros Hn l. assert (A : exists p g', configured n exq_g l p g').
  { apply accepted; auto.
    - intros x [<-|[]]. split; [|eauto]. cbn in Hn. repeat (destruct Hn as [<-|Hn]; [cbn; tauto|]). destruct Hn.
    - intros -> l1 l2 E. unfold value. destruct l1 as [|y l1]; [cbn; lra|]. injection E as <- E. destruct l1; [cbn; lra|discriminate]. }
  destruct A as (p & g' & A). exists p, g'. split; auto. unfold value. cbn [flat_map named app fold_left fst snd l]. rewrite String.eqb_refl. reflexivity.
Qed.

(** Flow from the right and from below, changed to flow from the left. *)
Definition exq_flow : list setting := [ByIndex [1; 2]%Z [-1; 2]; ByName "u0_x" 1].
Lemma exq_array n : In n ["flow_past_array"; "advdiff_flow_past_array"] -> exists p g', configured n exq_g exq_flow p g' /\ value n exq_flow "u0_x" = 1 /\ value n exq_flow "u0_y" = 2.
Proof.
  intros Hn. assert (A : exists p g', configured n exq_g exq_flow p g').
  { apply accepted; [destruct Hn as [<-|[<-|[]]]; cbn; tauto| |destruct Hn as [<-|[<-|[]]]; discriminate]. intros x Hx. split; [|destruct Hn as [<-|[<-|[]]]; cbn; intuition discriminate].
    cbn in Hx. destruct Hx as [<-|[<-|[]]]; destruct Hn as [<-|[<-|[]]]; cbn.
    1,2: split; [reflexivity|]; split; [lia|]; intros i Hi; lia.
    all: tauto. }
  destruct A as (p & g' & A). exists p, g'. split; auto. destruct Hn as [<-|[<-|[]]]; split; reflexivity.
Qed.

(** A boundary of the Poisson component problem chosen by a parameter. *)
Definition exq_bdr : list setting := [ByName "bdr_idx" 2; ByName "bdr_k1" 3].
Lemma exq_comp : exists p g', configured "poisson_component" exq_g exq_bdr p g' /\ value "poisson_component" exq_bdr "bdr_idx" = 2.
Proof.
  assert (A : exists p g', configured "poisson_component" exq_g exq_bdr p g').
  { apply accepted; [cbn; tauto| |].
    - intros x [<-|[<-|[]]]; cbn; (split; [tauto|intuition discriminate]).
    - intros _ l1 l2 E. unfold value. destruct l1 as [|a l1]; [cbn; lra|]. injection E as <- E. destruct l1 as [|a l1]; [cbn; lra|]. injection E as <- E. destruct l1; [cbn; lra|discriminate]. }
  destruct A as (p & g' & A). exists p, g'. split; auto.
Qed.
