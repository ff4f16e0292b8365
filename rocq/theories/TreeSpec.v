(* SPEC: a data set is a dictionary from item names to byte strings. *)
From Verif Require Import Base.
From Verif Require TreeModel. (* only for the syntax of operations and results *)

Definition key := list Z.
Definition dict := list (key * list Z).

Definition key_dec : forall a b : key, {a = b} + {a <> b} := list_eq_dec Z.eq_dec.

Fixpoint lookup (D : dict) (k : key) : option (list Z) :=
  match D with
  | [] => None
  | (k', v) :: r => if key_dec k k' then Some v else lookup r k
  end.

Fixpoint remove (D : dict) (k : key) : dict :=
  match D with
  | [] => []
  | (k', v) :: r => if key_dec k k' then remove r k else (k', v) :: remove r k
  end.

Definition insert (D : dict) (k : key) (v : list Z) : dict := (k, v) :: remove D k.

Definition spec_step (D : dict) (o : TreeModel.top) : dict :=
  match o with
  | TreeModel.TSet n d => insert D n d
  | TreeModel.TDelete n => remove D n
  | _ => D
  end.

Definition present (D : dict) (k : key) : bool :=
  match lookup D k with Some _ => true | None => false end.

Definition expected (D : dict) (o : TreeModel.top) : TreeModel.tres :=
  match o with
  | TreeModel.TSet _ _ | TreeModel.TFlush _ | TreeModel.TReopen _ => TreeModel.TDone
  | TreeModel.TGet n => match lookup D n with Some d => TreeModel.TBytes d | None => TreeModel.TFail end
  | TreeModel.TDelete n => if present D n then TreeModel.TDone else TreeModel.TFail
  | TreeModel.TExists n => TreeModel.TBool (present D n)
  end.

Fixpoint expected_all (D : dict) (ops : list TreeModel.top) : list TreeModel.tres :=
  match ops with
  | [] => []
  | o :: r => expected D o :: expected_all (spec_step D o) r
  end.

(* item names: 1 to 8 characters (hio.c hname_check), "header" is reserved; contents are
   not empty except for "history" *)
Definition header : key := [104; 101; 97; 100; 101; 114].
Definition history : key := [104; 105; 115; 116; 111; 114; 121].
Definition legal_name (n : key) : Prop :=
  (0 < length n <= 8)%nat /\ (forall c, In c n -> 0 < c < 128) /\ n <> header.
Definition legal_data (d : list Z) : Prop := d <> [].

(* at most 1000 items at a time (MAXITEM is 1024) *)
Definition valid_op (D : dict) (o : TreeModel.top) : Prop :=
  match o with
  | TreeModel.TSet n d => legal_name n /\ (n <> history -> legal_data d) /\ (length D < 1000)%nat
  | _ => True
  end.

Fixpoint valid_all (D : dict) (ops : list TreeModel.top) : Prop :=
  match ops with
  | [] => True
  | o :: r => valid_op D o /\ valid_all (spec_step D o) r
  end.
