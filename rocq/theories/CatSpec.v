(* What a catalogue promises. *)
From Coq Require Import Reals String.
From Verif Require Import Base ParamModel CatModel.
Section Cat.
Context {S : Type}.
Variable src_name : S -> string.
(* what a history says about names, in order: a source now found under a name, or none *)
Definition events (o : op (S := S)) : list (string * option S) :=
  match o with
  | Add args =>
      (fix go args := match args with One s :: r => (src_name s, Some s) :: go r | _ => [] end)
        (match args with [Many l] => map One l | _ => args end)
  | SetItem k s => [(k, Some s)]
  | Del k => [(k, None)]
  end.
Definition latest (k : string) (es : list (string * option S)) : option S :=
  fold_left (fun found e => if String.eqb k (fst e) then snd e else found) es None.
(* the object last put under k, if it has not been deleted since *)
Definition holds (h : list (op (S := S))) (k : string) : option S := latest k (flat_map events h).
(* the last of several options that is present *)
Definition last_some (l : list (option S)) : option S := fold_left (fun a o => match o with Some s => Some s | None => a end) l None.
End Cat.
