(** Outcomes of modelled C++ functions. *)
From Coq Require Import ZArith List Bool Lia.
Import ListNotations.

(** [Ok a]  : the function returns [a].
    [Abort] : a failed [assert], an [mfem_error] or an [exit(-1)].
    [UB]    : undefined behaviour (out-of-bounds access, null dereference, use after free, double free,
              division by zero, signed overflow). *)
Inductive outcome (A : Type) : Type :=
| Ok (a : A)
| Abort
| UB.
Arguments Ok {A} a.
Arguments Abort {A}.
Arguments UB {A}.

Definition obind {A B : Type} (x : outcome A) (f : A -> outcome B) : outcome B :=
  match x with Ok a => f a | Abort => Abort | UB => UB end.

Notation "'let*' x ':=' e 'in' f" := (obind e (fun x => f))
  (at level 200, x pattern, right associativity).

(** [assert(b); k] *)
Definition oassert {A : Type} (b : bool) (k : outcome A) : outcome A := if b then k else Abort.

(** A memory access guarded by the in-bounds condition [b]: out of bounds is [UB]. *)
Definition oguard {A : Type} (b : bool) (k : outcome A) : outcome A := if b then k else UB.

(** Values representable in a 32-bit [int]. *)
Definition int_ok (z : Z) : bool := ((-2147483648 <=? z) && (z <=? 2147483647))%Z.

(** Signed arithmetic: a result outside [int] is undefined behaviour. *)
Definition oint (z : Z) : outcome Z := oguard (int_ok z) (Ok z).

(** Checked read of a list used as a C++ array. *)
Definition oread {A : Type} (l : list A) (i : nat) : outcome A :=
  match nth_error l i with Some a => Ok a | None => UB end.

(** Replace element [i]; unchanged when [i] is out of range (callers guard it). *)
Fixpoint upd {A : Type} (l : list A) (i : nat) (a : A) : list A :=
  match l, i with
  | [], _ => []
  | _ :: t, O => a :: t
  | h :: t, S i' => h :: upd t i' a
  end.

(** Checked write of a list used as a C++ array. *)
Definition owrite {A : Type} (l : list A) (i : nat) (a : A) : outcome (list A) :=
  if (i <? length l)%nat then Ok (upd l i a) else UB.

(** [for (x : l) acc = f acc x] with early exit. *)
Fixpoint ofold {A B : Type} (f : A -> B -> outcome A) (l : list B) (acc : A) : outcome A :=
  match l with
  | [] => Ok acc
  | b :: t => let* acc' := f acc b in ofold f t acc'
  end.

(** [l[z]] for a C++ array and an [int] index. *)
Definition zread {A : Type} (l : list A) (z : Z) : outcome A :=
  if Z.ltb z 0 then UB else oread l (Z.to_nat z).

(** [for (x : l) out.push_back(f x)] with early exit. *)
Fixpoint omap {A B : Type} (f : A -> outcome B) (l : list A) : outcome (list B) :=
  match l with
  | [] => Ok []
  | a :: t => let* b := f a in let* bs := omap f t in Ok (b :: bs)
  end.

Lemma obind_ok {A B} (x : outcome A) (f : A -> outcome B) b :
  obind x f = Ok b <-> exists a, x = Ok a /\ f a = Ok b.
Proof.
  split.
  - destruct x; simpl; intros H; try discriminate; eauto.
  - intros (a & -> & H); exact H.
Qed.

Lemma oassert_ok {A} b (k : outcome A) a : oassert b k = Ok a <-> b = true /\ k = Ok a.
Proof. destruct b; simpl; intuition discriminate. Qed.

Lemma oguard_ok {A} b (k : outcome A) a : oguard b k = Ok a <-> b = true /\ k = Ok a.
Proof. destruct b; simpl; intuition discriminate. Qed.

Lemma upd_length {A} (l : list A) i a : length (upd l i a) = length l.
Proof. revert i; induction l as [|h t IH]; destruct i; simpl; auto. Qed.

Lemma nth_error_upd_eq {A} (l : list A) i a :
  i < length l -> nth_error (upd l i a) i = Some a.
Proof. revert i; induction l as [|h t IH]; destruct i; simpl; intros; try lia; auto. apply IH; lia. Qed.

Lemma nth_error_upd_ne {A} (l : list A) i j a :
  i <> j -> nth_error (upd l i a) j = nth_error l j.
Proof.
  revert i j; induction l as [|h t IH]; intros i j Hij; destruct i, j; simpl; auto; try lia.
Qed.

Lemma nth_upd_eq {A} (l : list A) i a d :
  i < length l -> nth i (upd l i a) d = a.
Proof. revert i; induction l as [|h t IH]; destruct i; simpl; intros; try lia; auto. apply IH; lia. Qed.

Lemma nth_upd_ne {A} (l : list A) i j a d :
  i <> j -> nth j (upd l i a) d = nth j l d.
Proof.
  revert i j; induction l as [|h t IH]; intros i j Hij; destruct i, j; simpl; auto; try lia.
Qed.

Lemma upd_out {A} (l : list A) i a : length l <= i -> upd l i a = l.
Proof.
  revert i; induction l as [|h t IH]; destruct i; simpl; intros; auto; try lia.
  f_equal; apply IH; lia.
Qed.

Lemma oread_ok {A} (l : list A) i a : oread l i = Ok a <-> nth_error l i = Some a.
Proof. unfold oread; destruct (nth_error l i); split; intros H; inversion H; auto. Qed.

Lemma owrite_ok {A} (l l' : list A) i a :
  owrite l i a = Ok l' <-> i < length l /\ l' = upd l i a.
Proof.
  unfold owrite; destruct (Nat.ltb_spec i (length l)); split.
  - intros E; inversion E; auto.
  - intros [_ ->]; auto.
  - discriminate.
  - intros [? _]; lia.
Qed.

Lemma ofold_app {A B} (f : A -> B -> outcome A) l1 l2 a :
  ofold f (l1 ++ l2) a = let* a' := ofold f l1 a in ofold f l2 a'.
Proof. revert a; induction l1 as [|x l IH]; intros a; simpl; auto. destruct (f a x); simpl; auto. Qed.

(** Loop invariant rule for [ofold]: [I] relates the elements processed so far to the state. *)
Lemma ofold_inv_gen {S B} (f : S -> B -> outcome S) (I : list B -> S -> Prop) l : forall pre s,
  I pre s ->
  (forall p x q s, pre ++ l = p ++ x :: q -> I p s -> exists s', f s x = Ok s' /\ I (p ++ [x]) s') ->
  exists s', ofold f l s = Ok s' /\ I (pre ++ l) s'.
Proof.
  induction l as [|x l IH]; intros pre s Hs Hstep.
  - exists s. rewrite app_nil_r. auto.
  - destruct (Hstep pre x l s eq_refl Hs) as (s1 & E1 & H1). simpl. rewrite E1; simpl.
    destruct (IH (pre ++ [x]) s1 H1) as (s2 & E2 & H2).
    + intros p y q s' E. apply (Hstep p y q). rewrite <- E, <- app_assoc. reflexivity.
    + exists s2. rewrite <- app_assoc in H2. auto.
Qed.

Lemma ofold_inv {S B} (f : S -> B -> outcome S) (I : list B -> S -> Prop) l s :
  I [] s ->
  (forall p x q s, l = p ++ x :: q -> I p s -> exists s', f s x = Ok s' /\ I (p ++ [x]) s') ->
  exists s', ofold f l s = Ok s' /\ I l s'.
Proof. intros H0 H. apply (ofold_inv_gen f I l [] s); auto. Qed.
