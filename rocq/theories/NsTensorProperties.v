(** Full-order Navier-Stokes operator and reduced convection tensor: theorems. *)
From Coq Require Import Reals List Bool Lia Arith ZArith Lra.
From Verif Require Import Outcome HdfModel LaBase LinalgModel LinalgSpec BlockVec MbModel ItfModel ItfSpec EqpModel EqpSpec IntegModel IntegSpec IntegProofs NsTensorModel NsTensorSpec NsTensorProofs NsFomProofs NsTensorExamples.
Import ListNotations.
Local Open Scope R_scope.

(** ** Full-order operator *)

Theorem C91_operator : forall op ns size hs itf x, fom_ok op ns size -> List.length x = no_n op ->
  (forall m v, (m < ns)%nat -> List.length v = size m -> List.length (hs m v) = size m) ->
  (forall f v, itf = Some f -> List.length v = nsum ns size -> List.length (f v) = nsum ns size) ->
  exists y, fom_mult op hs itf x = Ok y /\ List.length y = no_n op /\
    (forall m k, (m < ns)%nat -> (k < size m)%nat ->
       vnth y (nsum m size + k) = rsum (no_n op) (fun q => lin_entry op (nsum ns size) (nsum m size + k) q * vnth x q) +
         vnth (hs m (part size x m)) k + match itf with None => 0 | Some f => vnth (f (firstn (nsum ns size) x)) (nsum m size + k) end) /\
    (forall p, (nsum ns size <= p < no_n op)%nat -> vnth y p = rsum (no_n op) (fun q => lin_entry op (nsum ns size) p q * vnth x q)).
Proof. intros op ns size hs itf x W Lx Hh Hf. exact (fom_value op ns size W hs itf x Lx Hh Hf). Qed.
Print Assumptions C91_operator.

Theorem C91_tangent : forall op ns size hs itf hg ig x d, fom_ok op ns size -> List.length x = no_n op -> List.length d = no_n op -> no_C op = None ->
  (forall m v, (m < ns)%nat -> List.length v = size m -> List.length (hs m v) = size m) ->
  (forall f v, itf = Some f -> List.length v = nsum ns size -> List.length (f v) = nsum ns size) ->
  (forall m k, (m < ns)%nat -> (k < size m)%nat -> derivable_pt_lim (fun t => vnth (hs m (along (size m) (part size x m) (part size d m) t)) k) 0
     (rsum (size m) (fun j => hg m (part size x m) k j * vnth d (nsum m size + j)))) ->
  match itf, ig with
  | None, None => True
  | Some f, Some g => forall m k, (m < ns)%nat -> (k < size m)%nat ->
      derivable_pt_lim (fun t => vnth (f (along (nsum ns size) (firstn (nsum ns size) x) (firstn (nsum ns size) d) t)) (nsum m size + k)) 0
        (rsum ns (fun j => rsum (size j) (fun q => g (firstn (nsum ns size) x) m j k q * vnth d (nsum j size + q))))
  | _, _ => False
  end ->
  exists J, fom_grad op hg ig x = Ok J /\
    forall p, (p < no_n op)%nat -> exists F, (forall t, exists y, fom_mult op hs itf (along (no_n op) x d t) = Ok y /\ vnth y p = F t) /\
      derivable_pt_lim F 0 (rsum (no_n op) (fun q => J p q * vnth d q)).
Proof.
  intros op ns size hs itf hg ig x d W Lx Ld Nc Hh Hf Dh Di. destruct (fom_gradient op ns size W hg ig x Lx) as (J & E & _). exists J. split; auto.
  exact (fom_line op ns size W hs itf hg ig x d J Lx Ld Nc Hh Hf Dh Di E).
Qed.
Print Assumptions C91_tangent.

(** A lower right block of the linear operator acts in the operator but is missing from the gradient. *)
Theorem C91_corner_refuted : exists op hs hg x d J F l, fom_ok op 1 (fun _ => 1%nat) /\ fom_grad op hg None x = Ok J /\
  (forall t, exists y, fom_mult op hs None (along (no_n op) x d t) = Ok y /\ vnth y 1 = F t) /\
  derivable_pt_lim F 0 l /\ l <> rsum (no_n op) (fun q => J 1%nat q * vnth d q).
Proof.
  set (op := ext_op (Some (fun _ _ => 1))). destruct (fom_gradient op 1 (fun _ => 1%nat) (ext_op_ok _) ext_hg None [0; 0] eq_refl) as (J & E & _ & Gn).
  exists op, ext_hs, ext_hg, [0; 0], [0; 1], J, (fun t => t), 1. split; [apply ext_op_ok|]. split; [exact E|]. split; [|split].
  - intros t. destruct (fom_value op 1 (fun _ => 1%nat) (ext_op_ok _) ext_hs None (along 2 [0; 0] [0; 1] t) eq_refl) as (y & Ey & _ & _ & Vy).
    + intros. reflexivity.
    + discriminate.
    + exists y. split; [exact Ey|]. rewrite Vy by (cbn; lia). unfold lin_entry, vnth. cbn. lra.
  - apply derivable_pt_lim_id.
  - cbn [no_n op ext_op rsum]. rewrite !Gn by (cbn; lia). cbn. unfold vnth. cbn. lra.
Qed.
Print Assumptions C91_corner_refuted.

(** ** Reduced tensor *)

(** The form without wind is [((u . grad) u, v)], with wind [w] it is [((w . grad) u, v)]. *)
Theorem C92_form : forall n dim els wind x, elements_fit n dim els -> List.length x = n -> (forall w, wind = Some w -> List.length w = n) ->
  exists y, conv_form n dim els wind x = Ok y /\ List.length y = n /\
    forall phi : nat -> R, rsum n (fun r => phi r * vnth y r) = convection dim els (vnth (match wind with Some w => w | None => x end)) (vnth x) phi.
Proof. exact conv_form_ok. Qed.
Print Assumptions C92_form.

(** The tensor contracted with [w] and [x] is that form on the fields the coefficients stand for, tested with each basis function. *)
Theorem C92_tensor : forall n dim els B junk, elements_fit n dim els -> dm_wf B -> (n <= dm_h B)%nat -> List.length junk = (dm_w B * dm_w B * dm_w B)%nat ->
  exists T, reduced_tensor n dim els B junk = Ok T /\ t_wf T /\ t_i T = dm_w B /\ t_j T = dm_w B /\ t_k T = dm_w B /\
    forall w x k, (k < dm_w B)%nat ->
      contraction T w x k = convection dim els (fun r => rsum (dm_w B) (fun c => w c * mode B 0 c r)) (fun r => rsum (dm_w B) (fun c => x c * mode B 0 c r)) (mode B 0 k).
Proof.
  intros n dim els B junk F Wb Hn Lj. destruct (reduced_tensor_ok n dim els B junk F Wb Hn Lj) as (T & E & Wt & Ti & Tj & Tk & V).
  exists T. split; auto. split; auto. split; auto. split; auto. split; auto. exact (tensor_projects n dim els B T F Ti Tj V).
Qed.
Print Assumptions C92_tensor.

(** So the reduced nonlinear term is the Galerkin projection of the full-order one. *)
Theorem C92_projection : forall n dim els B junk u x, elements_fit n dim els -> dm_wf B -> (n <= dm_h B)%nat -> List.length junk = (dm_w B * dm_w B * dm_w B)%nat ->
  List.length u = n -> (forall r, (r < n)%nat -> vnth u r = rsum (dm_w B) (fun c => x c * mode B 0 c r)) ->
  exists T y, reduced_tensor n dim els B junk = Ok T /\ conv_form n dim els None u = Ok y /\
    forall k, (k < dm_w B)%nat -> contraction T x x k = rsum n (fun r => mode B 0 k r * vnth y r).
Proof.
  intros n dim els B junk u x F Wb Hn Lj Lu Vu. destruct (C92_tensor n dim els B junk F Wb Hn Lj) as (T & E & _ & _ & _ & _ & V).
  destruct (conv_form_ok n dim els None u F Lu) as (y & Ey & _ & Vy); [discriminate|]. exists T, y. split; auto. split; auto. intros k Hk. rewrite V, Vy by auto.
  unfold convection. apply lsum_ext_in. intros el Hel. destruct (F el Hel) as (_ & Hd & _).
  rewrite (EqpSetupProofs.on_dofs_ext (vnth u) (fun r => rsum (dm_w B) (fun c => x c * mode B 0 c r))) by auto. reflexivity.
Qed.
Print Assumptions C92_projection.
