(* scripts/srclist.py: choosing sources from catalogues and printing them; aipy/cal.py: what is taken from a
   calibration module. A Python string is a list of 8-bit characters. Positions after compute are exact reals
   (radians). What ephem makes of the text of a range, and ephem.separation, are parameters. *)
From Coq Require Import Reals Ascii String QArith.
From Verif Require Import Base ScriptModel PrmModel RfModel.
Open Scope R_scope.
Local Notation length := List.length.

(* a source in a catalogue: its position once computed, and whether ephem.FixedBody.compute takes it (a special one: TypeError) *)
Record source := Source { s_ra : R; s_dec : R; s_fixed : bool }.
Notation catalogue := (list (str * source)) (only parsing).     (* the names differ *)

(* ---------- aipy/cal.py ---------- *)
(* from module import f as _f: no such module or no f in it is an ImportError *)
Inductive import (A : Type) := Imported (a : A) | Import_error.
Arguments Imported {A} a.
Arguments Import_error {A}.
(* cal.py:28-30: what exec binds in a function is a variable of the function in Python 2 only; else NameError *)
Definition get_aa {A} (py2 : bool) (m : import (list Q -> res A)) (args : list Q + Q * Q * nat) : res A :=
  let freqs := match args with inl f => f | inr (sdf, sfreq, nchan) => get_freqs sdf sfreq nchan end in
  match m with Import_error => Err | Imported f => if py2 then f freqs else Err end.
(* cal.py:32-43; without a key, "from None import" is a SyntaxError in Python 3, an ImportError in Python 2. own: src.get_catalog.
   Python 3: UnboundLocalError when there is a module *)
Definition get_catalog {A} (py2 : bool) (key : option (import (res A))) (own : res A) : res A :=
  match key with
  | None => if py2 then own else Err
  | Some Import_error => own
  | Some (Imported c) => if py2 then c else Err
  end.
(* srclist.py:45-48 and alike: with a calibration module it is asked *)
Definition from_cal {A} (py2 : bool) (key : option (import (res A))) (own : res A) : res A :=
  match key with None => own | Some _ => get_catalog py2 key own end.

(* ---------- scripts/srclist.py ---------- *)
(* 73-78: a special source is taken out when there is no date; del in a loop over keys() is a RuntimeError in Python 3 *)
Definition placed (py2 dated : bool) (c : catalogue) : res catalogue :=
  if dated then Ok c
  else if forallb (fun e : str * source => s_fixed (snd e)) c then Ok c
  else if py2 then Ok (filter (fun e : str * source => s_fixed (snd e)) c) else Err.
Definition within (lo hi x : R) : bool :=
  if Rlt_dec lo hi then (if Rlt_dec lo x then if Rlt_dec x hi then true else false else false)
  else (if Rlt_dec lo x then true else if Rlt_dec x hi then true else false).
Definition has_name (c : catalogue) (n : str) : bool := match dget c n with Some _ => true | None => false end.
(* 80-104 *)
Definition chosen (sepn : source -> source -> R) (cat xcat ccat : catalogue) (sep : option R) (ra dec : option (R * R)) : list str :=
  let l := filter (fun e : str * source => negb (has_name xcat (fst e))) cat in
  let l := match sep with
           | None => l
           | Some d => filter (fun e : str * source => existsb (fun c : str * source => if Rle_dec (sepn (snd e) (snd c)) (d * (PI / 180)) then true else false) ccat) l
           end in
  let l := match ra with None => l | Some (a, b) => filter (fun e : str * source => within a b (s_ra (snd e))) l end in
  let l := match dec with None => l | Some (a, b) => filter (fun e : str * source => within a b (s_dec (snd e))) l end in
  map fst l.
(* 107: the order of strings *)
Fixpoint str_leb (a b : str) : bool :=
  match a, b with
  | [], _ => true
  | _ :: _, [] => false
  | x :: a, y :: b => if Nat.eqb (nat_of_ascii x) (nat_of_ascii y) then str_leb a b else Nat.ltb (nat_of_ascii x) (nat_of_ascii y)
  end.
Fixpoint insert_s (s : str) (l : list str) : list str :=
  match l with [] => [s] | a :: r => if str_leb s a then s :: l else a :: insert_s s r end.
Definition sort_s (l : list str) : list str := fold_right insert_s [] l.
(* divstr.join *)
Fixpoint joined (d : str) (l : list str) : str :=
  match l with [] => [] | [a] => a | a :: r => a ++ d ++ joined d r end.
(* 119-132: prms, what get_params gives for a source, in order *)
Fixpoint fit_from (scount snum : nat) (prms : str -> list str) (l : list str) : str :=
  match l with
  | [] => []
  | s :: r => let scount := S scount in
    (s ++ lit "=(" ++ joined (lit "/") (prms s) ++ (if Nat.ltb scount (snum - 1) then lit ")," else lit ")")) ++ fit_from scount snum prms r
  end.
Definition fit_text (prms : str -> list str) (l : list str) : str := fit_from 0 (length l) prms l.
Inductive mode := Names (div : str) | Params | Fit (prms : str -> list str).
(* a run: the text printed. centers without sep: AssertionError (59). 115-117: has_key in Python 2 only; what
   print_params prints is not modelled. *)
Definition run (py2 : bool) (cat : res catalogue) (xcat ccat : option (res catalogue)) (dated : bool) (sepn : source -> source -> R)
    (sep : option R) (ra dec : option (R * R)) (m : mode) (show : list str -> str) : res str :=
  bind cat (fun c =>
  bind (match xcat with None => Ok [] | Some x => x end) (fun x =>
  bind (match ccat with None => Ok [] | Some y => match sep with None => Err | Some _ => y end end) (fun y =>
  bind (placed py2 dated c) (fun c => bind (placed py2 dated x) (fun x => bind (placed py2 dated y) (fun y =>
  let l := sort_s (chosen sepn c x y sep ra dec) in
  match m with
  | Names div => Ok (joined div l)
  | Params => match l with [] => Ok [] | _ => if py2 then Ok (show l) else Err end
  | Fit prms => Ok (fit_text prms l)
  end)))))).
