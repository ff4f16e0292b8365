(* SPEC: every data set's header is a dictionary; init_from_uv takes over the source's items, with
   overrides in their place and without the excluded ones; pipe appends to the history. *)
From Verif Require Import Base.
From Coq Require Import String.
From Verif Require Import HdrModel HcopyModel. (* for the syntax of values and calls *)
From Verif Require Import HdrSpec.
Open Scope Z_scope.

Definition hdr := string -> option pyval.
Definition setitem (h : hdr) (n : string) (v : pyval) : hdr := fun m => if String.eqb n m then Some v else h m.

(* what the library writes into its own text items when a data set is closed *)
Definition own_text (h : hdr) (p : list Z * list Z) : hdr :=
  if list_eq_dec Z.eq_dec (fst p) (codes "vartable") then setitem h "vartable" (Text (snd p))
  else if list_eq_dec Z.eq_dec (fst p) (codes "obstype") then setitem h "obstype" (Text (snd p)) else h.

Definition named (n : string) (l : list string) : bool := existsb (String.eqb n) l.
Fixpoint given (ov : list (string * pyval)) (n : string) : option pyval :=
  match ov with [] => None | (m, v) :: r => if String.eqb m n then Some v else given r n end.

Section Spec.
Variable narrow widen : Z -> Z.

Definition inherit (ov : list (string * pyval)) (ex : list string) (src dst : hdr) : hdr := fun n =>
  if named n ex then dst n else
  match src n with
  | None => dst n
  | Some v => match given ov n with Some o => Some o | None => Some (back narrow widen n v) end
  end.

Definition after_op (h : hdr) (o : vop) : hdr :=
  match o with
  | VSet n v => setitem h n v
  | VReopen _ sys => fold_left own_text sys h
  | _ => h
  end.
Definition after (W : nat -> hdr) (o : wop) : nat -> hdr :=
  match o with
  | On i o => fun k => if Nat.eqb k i then after_op (W i) o else W k
  | InitFrom i j ov ex => fun k => if Nat.eqb k j then inherit ov ex (W i) (W j) else W k
  | History j s => fun k => if Nat.eqb k j then
      match W j "history"%string with Some (Text h) => setitem (W j) "history" (Text (h ++ s)) | _ => W j end else W k
  end.

Definition answer (W : nat -> hdr) (o : wop) : vres :=
  match o with
  | On i (VGet n) => match W i n with Some v => VVal (back narrow widen n v) | None => VNone end
  | On i (VHas n) => VBool (match W i n with Some _ => true | None => false end)
  | On _ _ | InitFrom _ _ _ _ => VDone
  | History j _ => match W j "history"%string with Some _ => VDone | None => VNone end
  end.
Fixpoint answers (W : nat -> hdr) (ops : list wop) : list vres :=
  match ops with [] => [] | o :: r => answer W o :: answers (after W o) r end.

Definition ascii_text (s : list Z) : Prop := Forall (fun c => 0 < c < 128) s.
Definition sys_item (p : list Z * list Z) : Prop :=
  In (fst p) (map codes own_names) /\ snd p <> [] /\
  (fst p = codes "vartable" \/ fst p = codes "obstype" -> ascii_text (snd p) /\ room (List.length (snd p))).
Definition op_ok (o : vop) : Prop :=
  match o with VSet n v => val_ok n v | VReopen _ sys => Forall sys_item sys | _ => True end.
Definition wop_ok (W : nat -> hdr) (o : wop) : Prop :=
  match o with
  | On _ o => op_ok o
  | InitFrom i j ov ex => i <> j /\ Forall (fun p => val_ok (fst p) (snd p)) ov
  | History j s => ascii_text s /\
      match W j "history"%string with Some (Text h) => room (List.length h + List.length s) | _ => True end
  end.
Fixpoint all_ok (W : nat -> hdr) (ops : list wop) : Prop :=
  match ops with [] => True | o :: r => wop_ok W o /\ all_ok (after W o) r end.
End Spec.

Definition no_items : nat -> hdr := fun _ _ => None.
