(** Model of who owns the sample lists of hyper-reduced forms: include/rom_nonlinearform.hpp, include/rom_interfaceform.hpp.

    A sample list ([EQPElement]) lives at an address and is given a new address by every allocation; [None] is freed memory.
    Its contents are of any type [A]; reading a list from a file is an update whose contents come from the file. *)
From Coq Require Import List Bool Lia Arith ZArith.
From Verif Require Import Outcome LaBase.
Import ListNotations.
Local Open Scope nat_scope.

Definition heap (A : Type) := list (option A).

(** [new EQPElement(samples)] *)
Definition halloc {A} (h : heap A) (a : A) : heap A * nat := (h ++ [Some a], List.length h).
(** [delete p] for a non-null pointer *)
Definition hfree {A} (h : heap A) (p : nat) : outcome (heap A) :=
  match nth_error h p with Some (Some _) => Ok (upd h p None) | _ => UB end.
(** [delete p] *)
Definition hdelete {A} (h : heap A) (p : option nat) : outcome (heap A) :=
  match p with None => Ok h | Some p => hfree h p end.
(** Use of the list at [p] *)
Definition hread {A} (h : heap A) (p : nat) : outcome A :=
  match nth_error h p with Some (Some a) => Ok a | _ => UB end.

(** include/rom_nonlinearform.hpp:105-106, 137-138, 182-183; src/rom_nonlinearform.cpp:1344-1348;
    include/rom_interfaceform.hpp:96-99; src/rom_interfaceform.cpp:747-750 *)
Definition replace_slot {A} (h : heap A) (sl : list (option nat)) (i : nat) (a : A) : outcome (heap A * list (option nat)) :=
  let* o := oread sl i in
  let* h := hdelete h o in
  let (h, p) := halloc h a in
  let* sl := owrite sl i (Some p) in
  Ok (h, sl).

(** [DeletePointers] *)
Definition delete_all {A} (h : heap A) (sl : list (option nat)) : outcome (heap A) := ofold hdelete sl h.

(** ** Forms on domains *)

(** [dnfi_sample], [fnfi_sample], [bfnfi_sample] *)
Inductive kind := KDomain | KInterior | KBdr.
Definition kind_eqb (a b : kind) : bool :=
  match a, b with KDomain, KDomain | KInterior, KInterior | KBdr, KBdr => true | _, _ => false end.
Record rform := RForm { rf_ref : bool; rf_slots : kind -> list (option nat) }.
Definition set_slots (f : rform) (k : kind) (sl : list (option nat)) : rform :=
  RForm (rf_ref f) (fun k' => if kind_eqb k' k then sl else rf_slots f k').

(** All forms created so far; deleted ones are [None]. *)
Record world (A : Type) := World { w_heap : heap A; w_forms : list (option rform) }.
Arguments World {A}. Arguments w_heap {A}. Arguments w_forms {A}.

Definition get_form {A} (w : world A) (f : nat) : outcome rform :=
  match nth_error (w_forms w) f with Some (Some F) => Ok F | _ => UB end.
Definition put_form {A} (w : world A) (f : nat) (F : option rform) : outcome (world A) :=
  let* l := owrite (w_forms w) f F in Ok (World (w_heap w) l).

Inductive wop (A : Type) :=
| WNew (reference : bool)
| WAdd (f : nat) (k : kind)
| WUpdate (f : nat) (k : kind) (i : nat) (a : A)
| WShare (v : nat) (kv : kind) (iv : nat) (r : nat) (kr : kind) (ir : nat)
| WDelete (f : nat).
Arguments WNew {A}. Arguments WAdd {A}. Arguments WUpdate {A}. Arguments WShare {A}. Arguments WDelete {A}.

Definition wstep {A} (w : world A) (o : wop A) : outcome (world A) :=
  match o with
  | WNew r => (* src/rom_nonlinearform.cpp:14-24 *)
      Ok (World (w_heap w) (w_forms w ++ [Some (RForm r (fun _ => []))]))
  | WAdd f k => (* include/rom_nonlinearform.hpp:92-96, 124-128, 156-173 *)
      let* F := get_form w f in
      put_form w f (Some (set_slots F k (rf_slots F k ++ [None])))
  | WUpdate f k i a => (* include/rom_nonlinearform.hpp:98-107, 130-139, 175-184; src/rom_nonlinearform.cpp:1331-1386 *)
      let* F := get_form w f in
      oassert (rf_ref F) (
      oassert (i <? List.length (rf_slots F k)) (
      let* (h, sl) := replace_slot (w_heap w) (rf_slots F k) i a in
      put_form (World h (w_forms w)) f (Some (set_slots F k sl))))
  | WShare v kv iv r kr ir => (* v.Set...EQPElems(iv, r.GetEQPForIntegrator(kr, ir)): include/rom_nonlinearform.hpp:109-117,
                                 141-149, 186-194; src/rom_nonlinearform.cpp:1274-1304 *)
      let* R := get_form w r in
      oassert (ir <? List.length (rf_slots R kr)) (
      let* p := oread (rf_slots R kr) ir in
      let* V := get_form w v in
      oassert (negb (rf_ref V)) (
      oassert (iv <? List.length (rf_slots V kv)) (
      let* sl := owrite (rf_slots V kv) iv p in
      put_form w v (Some (set_slots V kv sl)))))
  | WDelete f => (* src/rom_nonlinearform.cpp:26-44 *)
      let* F := get_form w f in
      let* h := if rf_ref F then
          let* h := delete_all (w_heap w) (rf_slots F KDomain) in
          let* h := delete_all h (rf_slots F KInterior) in
          delete_all h (rf_slots F KBdr)
        else Ok (w_heap w) in
      put_form (World h (w_forms w)) f None
  end.
Definition wrun {A} (ops : list (wop A)) : outcome (world A) := ofold wstep ops (World [] []).

(** The sample list an evaluation of the form uses for an integrator ([assert(eqp_elem)]): src/rom_nonlinearform.cpp:107-108 *)
Definition wuse {A} (w : world A) (f : nat) (k : kind) (i : nat) : outcome A :=
  let* F := get_form w f in
  let* p := oread (rf_slots F k) i in
  match p with None => Abort | Some p => hread (w_heap w) p end.

(** ** Forms on interfaces *)

(** Heap, number of integrators, [fnfi_ref_sample], [fnfi_sample] *)
Record iown (A : Type) := IOwn { io_heap : heap A; io_n : nat; io_ref : list (option nat); io_smp : list (option nat) }.
Arguments IOwn {A}. Arguments io_heap {A}. Arguments io_n {A}. Arguments io_ref {A}. Arguments io_smp {A}.

Inductive iop (A : Type) :=
| IAdd
| IUpdate (i rp : nat) (a : A)
| ILoad (k : nat) (file : nat -> A).
Arguments IAdd {A}. Arguments IUpdate {A}. Arguments ILoad {A}.

(** [types] are the kinds of the ports ([GetPortType]), [nref] the number of kinds. *)
Definition istep {A} (types : list nat) (nref : nat) (s : iown A) (o : iop A) : outcome (iown A) :=
  let np := List.length types in
  match o with
  | IAdd => (* include/rom_interfaceform.hpp:78-86 *)
      Ok (IOwn (io_heap s) (S (io_n s)) (io_ref s ++ repeat None nref) (io_smp s ++ repeat None np))
  | IUpdate i rp a => (* include/rom_interfaceform.hpp:88-108 *)
      oassert (i <? io_n s) (
      oassert (rp <? nref) (
      oassert (List.length (io_ref s) =? io_n s * nref) (
      let idx := rp + i * nref in
      let* (h, ref) := replace_slot (io_heap s) (io_ref s) idx a in
      let* smp := ofor np (fun smp p =>
        let* t := oread types p in
        if t =? rp then let* q := oread ref idx in owrite smp (p + i * np) q else Ok smp) (io_smp s) in
      Ok (IOwn h (io_n s) ref smp))))
  | ILoad k file => (* src/rom_interfaceform.cpp:728-766 *)
      let* (h, ref) := ofor nref (fun '(h, ref) p => replace_slot h ref (p + k * nref) (file p)) (io_heap s, io_ref s) in
      let* smp := ofor np (fun smp p =>
        let* t := oread types p in
        let* q := oread ref (t + k * nref) in owrite smp (p + k * np) q) (io_smp s) in
      Ok (IOwn h (io_n s) ref smp)
  end.
Definition irun {A} (types : list nat) (nref : nat) (ops : list (iop A)) : outcome (iown A) := ofold (istep types nref) ops (IOwn [] 0 [] []).

(** The sample list used at port [p] for integrator [k]: src/rom_interfaceform.cpp:141-146 (NULL: no samples) *)
Definition iuse {A} (types : list nat) (s : iown A) (k p : nat) : outcome (option A) :=
  let* q := oread (io_smp s) (p + k * List.length types) in
  match q with None => Ok None | Some q => let* a := hread (io_heap s) q in Ok (Some a) end.

(** src/rom_interfaceform.cpp:39-42 *)
Definition idelete {A} (s : iown A) : outcome (heap A) := delete_all (io_heap s) (io_ref s).
