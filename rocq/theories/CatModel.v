(* Source catalogues: class SrcCatalog (aipy/phs.py:126-160, aipy/amp.py:105-112), the catalogue
   modules (aipy/_src/*.py get_srcs) and aipy/src.py. A source object is a reference of an
   arbitrary type S; two catalogues may hold the same object. Simplifications: attributes of
   sources are given by parameters; reading the catalogue files is left out. *)
From Coq Require Import Reals String.
From Verif Require Import Base CleanModel ParamModel.
Local Notation length := List.length.
Section Cat.
Context {S : Type}.
Variable src_name : S -> string.
Definition catalog := dict S.

(* phs.py:132-136 add_srcs: an argument is a source, a sequence of sources, or something
   without src_name whose elements have none either (a string, a catalogue). The catalogue
   afterwards, and false when the call raised *)
Inductive aarg := One (s : S) | Many (l : list S) | Other.
Definition put (c : catalog) (s : S) : catalog := dset (src_name s) s c.
Fixpoint add_each (c : catalog) (args : list aarg) : catalog * bool :=
  match args with
  | [] => (c, true)
  | One s :: r => add_each (put c s) r
  | _ :: _ => (c, false)
  end.
Definition add_srcs (c : catalog) (args : list aarg) : catalog * bool :=
  match args with
  | [Many l] => (fold_left put l c, true)
  | [Other] => (c, false)
  | _ => add_each c args
  end.
(* dict operations of a catalogue *)
Definition setitem (c : catalog) (k : string) (s : S) : catalog * bool := (dset k s c, true).
Fixpoint dremove (k : string) (c : catalog) : catalog :=
  match c with [] => [] | (k', v) :: r => if String.eqb k k' then r else (k', v) :: dremove k r end.
Definition delitem (c : catalog) (k : string) : catalog * bool :=
  match lookup k c with Some _ => (dremove k c, true) | None => (c, false) end.

Fixpoint getall (c : catalog) (names : list string) : res (list S) :=
  match names with
  | [] => Ok []
  | n :: r => match lookup n c with Some s => bind (getall c r) (fun l => Ok (s :: l)) | None => Err end
  end.
(* phs.py:137-142 get_srcs: names one by one or as one sequence; no argument assigns the keys
   to a local variable and falls off the end (None) *)
Inductive garg := Str (n : string) | Seq (l : list string).
Fixpoint strs (args : list garg) : res (list string) :=
  match args with [] => Ok [] | Str n :: r => bind (strs r) (fun l => Ok (n :: l)) | Seq _ :: _ => Err end.
Definition get_srcs (c : catalog) (args : list garg) : res (option (list S)) :=
  match args with
  | [] => Ok None
  | [Seq l] => bind (getall c l) (fun r => Ok (Some r))
  | _ => bind (strs args) (fun l => bind (getall c l) (fun r => Ok (Some r)))
  end.
Definition keys (c : catalog) : list string := map fst c.
(* phs.py:147-159 get, get_crds; amp.py:107-110 get_jys: one value for each name asked, or for
   each key *)
Definition get {A} (attr : S -> A) (c : catalog) (srcs : option (list string)) : res (list A) :=
  bind (getall c (match srcs with Some l => l | None => keys c end)) (fun l => Ok (map attr l)).

(* ---- the catalogue modules: _src/misc.py:37-66 and the others alike. srcs mixes names and
   source objects; looking an object up is KeyError, skipped. flux s fq is jys[0] after
   update_jys at fq *)
Inductive want := Named (n : string) | Made (s : S).
Variable flux : S -> R -> R.
Definition module_srcs (c : catalog) (srcs : option (list want)) (cutoff : option (R * R)) : list S :=
  let names := match srcs with
    | Some l => flat_map (fun w => match w with Named n => [n] | Made _ => [] end) l
    | None => match cutoff with
              | None => keys c
              | Some (cut, fq) => filter (fun n => match lookup n c with Some s => Rltb cut (flux s fq) | None => false end) (keys c)
              end
    end in
  flat_map (fun n => match lookup n c with Some s => [s] | None => [] end) names.
(* src.py:10-25; an unknown catalogue name is skipped. SrcCatalog(srclist): phs.py:129-131 *)
Definition get_catalog (modules : dict catalog) (srcs : option (list want)) (cutoff : option (R * R)) (catalogs : list string) : catalog :=
  let srclist := flat_map (fun c => match lookup c modules with Some m => module_srcs m srcs cutoff | None => [] end) catalogs in
  let made := match srcs with Some l => flat_map (fun w => match w with Made s => [s] | Named _ => [] end) l | None => [] end in
  fst (add_srcs [] [Many (srclist ++ made)]).

(* a history of a catalogue *)
Inductive op := Add (args : list aarg) | SetItem (k : string) (s : S) | Del (k : string).
Definition step (c : catalog) (o : op) : catalog :=
  fst match o with Add args => add_srcs c args | SetItem k s => setitem c k s | Del k => delitem c k end.
Definition run (h : list op) : catalog := fold_left step h [].
End Cat.
