(* SPEC: the header of a data set is a dictionary from item names to Python values. *)
From Verif Require Import Base.
From Coq Require Import String.
From Verif Require Import HdrModel. (* for the syntax: types, values, calls, results *)
Open Scope Z_scope.

Definition vdict := list (string * pyval).
Fixpoint vlook (D : vdict) (n : string) : option pyval :=
  match D with [] => None | (m, v) :: r => if String.eqb m n then Some v else vlook r n end.

(* items the library keeps itself *)
Definition own_item (n : string) : Prop := n = "vartable"%string \/ n = "obstype"%string.
Definition own_names : list string :=
  ["vartable"; "obstype"; "ncorr"; "nwcorr"; "vislen"; "visdata"; "flags"; "wflags"]%string.

Definition int_ok (z : Z) : Prop := - 2147483648 <= z < 2147483648.
Definition dbl_ok (x : Z) : Prop := 0 <= x < 2 ^ 64.

Section Spec.
Variable narrow widen : Z -> Z.   (* double to float and back *)

(* complex items hold single precision *)
Definition stored (e : elem) : elem :=
  match e with ECplx a b => ECplx (widen (narrow a)) (widen (narrow b)) | _ => e end.

(* The value that comes back. A sequence of one number is not told from that number;
   freqs is always a list. *)
Definition back (n : string) (v : pyval) : pyval :=
  match v with
  | Scalar e => Scalar (stored e)
  | Seq [e] => if String.eqb n "freqs" then v else Scalar (stored e)
  | Seq l => Seq (map stored l)
  | Text s => Text s
  end.

(* numbers an item of each type can hold *)
Definition elem_ok (t : ity) (e : elem) : Prop :=
  match t, e with
  | II, EInt z => int_ok z
  | ID, EDbl x => dbl_ok x
  | IC, ECplx a b => dbl_ok a /\ dbl_ok b
  | _, _ => False
  end.

(* int, double, double, int, double, double, ...; k: the place in the triple *)
Fixpoint freqs_ok (k : nat) (l : list elem) : Prop :=
  match l with
  | [] => True
  | e :: r => elem_ok (match k with O => II | _ => ID end) e /\ freqs_ok (match k with O => 1 | 1 => 2 | _ => 0 end)%nat r
  end.

Definition room (n : nat) : Prop := 8 + 8 * Z.of_nat n <= 2147483632.

(* the kinds of items: text, integers, doubles, complex numbers, and the frequency table *)
Definition kind (n : string) : option ity :=
  let is l := existsb (String.eqb n) l in
  if is ["history"; "obstype"; "vartable"]%string then Some IA
  else if is ["ngains"; "nfeeds"; "ntau"; "nsols"; "nspect0"; "nchan0"]%string then Some II
  else if is ["interval"; "freq0"; "stopt"; "duration"]%string then Some ID
  else if is ["leakage"; "bandpass"]%string then Some IC
  else if is ["freqs"]%string then Some IQ else None.

(* values that can be stored under a name: text in ASCII without NULs, not empty except for the
   history; numbers or sequences of numbers of the item's type *)
Definition val_ok (n : string) (v : pyval) : Prop :=
  match kind n with
  | None => False
  | Some IA => exists s, v = Text s /\ Forall (fun c => 0 < c < 128) s /\ (s <> [] \/ n = "history"%string) /\ room (List.length s)
  | Some IQ => exists e l, v = Seq (e :: l) /\ elem_ok II e /\ freqs_ok 0 l /\ room (List.length l)
  | Some t => (exists e, v = Scalar e /\ elem_ok t e) \/
              (exists l, v = Seq l /\ Forall (elem_ok t) l /\ room (List.length l))
  end.

Definition valid_op (o : vop) : Prop :=
  match o with
  | VSet n v => ~ own_item n /\ val_ok n v
  | VGet n | VHas n => ~ own_item n
  | VReopen _ sys => Forall (fun p => In (fst p) (map codes own_names) /\ snd p <> []) sys
  end.
Definition spec_step (D : vdict) (o : vop) : vdict :=
  match o with VSet n v => (n, v) :: D | _ => D end.

Definition expected (D : vdict) (o : vop) : vres :=
  match o with
  | VSet _ _ | VReopen _ _ => VDone
  | VGet n => match vlook D n with Some v => VVal (back n v) | None => VNone end
  | VHas n => VBool (match vlook D n with Some _ => true | None => false end)
  end.

Fixpoint expected_all (D : vdict) (ops : list vop) : list vres :=
  match ops with [] => [] | o :: r => expected D o :: expected_all (spec_step D o) r end.
End Spec.
